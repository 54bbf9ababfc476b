(** Proofs about the asynchronous source and headers. *)

From Verif Require Import Base Utf8 Text Card Reader Header Xtension Fits Bytes Async.
From Verif Require Import SpecUtf8 SpecCard SpecHeader SpecXt SpecFits SpecImage SpecAsync.
From Verif Require Import FitsProofs.
From Coq Require Import ZifyBool.

Lemma skipn_app_le {A} n (a b : list A) : (n <= length a)%nat -> skipn n (a ++ b) = skipn n a ++ b.
Proof. intro H. rewrite skipn_app. replace (n - length a)%nat with 0%nat by lia. reflexivity. Qed.
Lemma firstn_app_le {A} n (a b : list A) : (n <= length a)%nat -> firstn n (a ++ b) = firstn n a.
Proof. intro H. rewrite firstn_app. replace (n - length a)%nat with 0%nat by lia. simpl. apply app_nil_r. Qed.
Lemma skipn_app_ge {A} n (a b : list A) : (length a <= n)%nat -> skipn n (a ++ b) = skipn (n - length a) b.
Proof. intro H. rewrite skipn_app, skipn_all2 by lia. reflexivity. Qed.
Lemma firstn_app_ge {A} n (a b : list A) : (length a <= n)%nat -> firstn n (a ++ b) = a ++ firstn (n - length a) b.
Proof. intro H. rewrite firstn_app, firstn_all2 by lia. reflexivity. Qed.

(** Taking and skipping bytes from a source that is always ready. *)
Lemma take_ready evs : forall n got buf,
  0 <= n -> Forall (fun e => exists c, e = Chunk c /\ c <> []) evs ->
  let all := buf ++ flat_map chunk_of evs in
  exists s', take_loop n got buf evs =
    (Ready (if n <=? len all then Ok (got ++ firstn (Z.to_nat n) all) else Err EEof), s') /\
    always_ready s' /\ content s' = skipn (Z.to_nat n) all.
Proof.
  induction evs as [|e evs IH]; intros n got buf N F; cbn [take_loop flat_map]; cbv zeta.
  - rewrite app_nil_r. destruct (Z.leb_spec n (len buf)) as [L|L].
    + eexists. split; [reflexivity|]. split; [constructor|]. unfold content. cbn [ar_buf ar_events flat_map]. apply app_nil_r.
    + eexists. split; [reflexivity|]. split; [constructor|]. unfold content. cbn [ar_buf ar_events flat_map].
      rewrite skipn_all2; auto. unfold len in L. lia.
  - inversion F as [|? ? (c & -> & C) F']; subst. cbn [chunk_of].
    destruct (Z.leb_spec n (len buf)) as [L|L].
    + pose proof (len_nonneg (c ++ flat_map chunk_of evs)).
      rewrite len_app. replace (n <=? _) with true by lia.
      eexists. split; [rewrite firstn_app_le by (unfold len in L; lia); reflexivity|].
      split; [exact F|]. unfold content. cbn [ar_buf ar_events flat_map chunk_of].
      rewrite skipn_app_le by (unfold len in L; lia). reflexivity.
    + destruct c as [|x c]; [congruence|].
      destruct (IH (n - len buf) (got ++ buf) (x :: c)) as (s' & E & R & S); auto; [lia|].
      exists s'. rewrite E. split; [|split; auto].
      * rewrite !len_app.
        replace (n - len buf <=? len (x :: c) + len (flat_map chunk_of evs))
          with (n <=? len buf + (len (x :: c) + len (flat_map chunk_of evs))) by lia.
        destruct (n <=? _); auto. f_equal. f_equal. f_equal. rewrite <- app_assoc. f_equal.
        rewrite (firstn_app_ge _ buf) by (unfold len in L; lia). f_equal. f_equal. unfold len. lia.
      * rewrite S. rewrite (skipn_app_ge _ buf) by (unfold len in L; lia). f_equal. unfold len. lia.
Qed.

Lemma read_ready s n : 0 <= n -> always_ready s ->
  exists s', poll_read_exact s n =
    (Ready (if n <=? len (content s) then Ok (firstn (Z.to_nat n) (content s)) else Err EEof), s') /\
    always_ready s' /\ content s' = skipn (Z.to_nat n) (content s).
Proof. intros N R. apply (take_ready (ar_events s) n [] (ar_buf s) N R). Qed.

Lemma skip_loop_ready evs : forall n buf,
  0 <= n -> Forall (fun e => exists c, e = Chunk c /\ c <> []) evs ->
  let all := buf ++ flat_map chunk_of evs in
  exists s', skip_loop n buf evs =
    (Ready (if n <=? len all then Ok tt else Err EStatic), s') /\
    always_ready s' /\ content s' = skipn (Z.to_nat n) all.
Proof.
  induction evs as [|e evs IH]; intros n buf N F; cbn [skip_loop flat_map]; cbv zeta.
  - rewrite app_nil_r. destruct (Z.leb_spec 1 (len buf)) as [B|B]; cbn [andb];
      [destruct (Z.leb_spec n (len buf)) as [L|L]|].
    + eexists. split; [reflexivity|]. split; [constructor|]. unfold content. cbn [ar_buf ar_events flat_map]. apply app_nil_r.
    + unfold skip_end. replace (n - len buf =? 0) with false by lia.
      eexists. split; [reflexivity|]. split; [constructor|]. unfold content. cbn [ar_buf ar_events flat_map].
      rewrite skipn_all2; auto. unfold len in L. lia.
    + destruct buf; [|rewrite len_cons in B; pose proof (len_nonneg buf); lia].
      unfold skip_end. change (len (@nil Z)) with 0. replace (n <=? 0) with (n - 0 =? 0) by lia.
      eexists. split; [reflexivity|]. split; [constructor|]. now rewrite skipn_nil.
  - inversion F as [|? ? (c & -> & C) F']; subst. cbn [chunk_of]. destruct c as [|x c]; [congruence|].
    destruct (Z.leb_spec 1 (len buf)) as [B|B]; cbn [andb];
      [destruct (Z.leb_spec n (len buf)) as [L|L]|].
    + pose proof (len_nonneg ((x :: c) ++ flat_map chunk_of evs)).
      rewrite len_app. replace (n <=? _) with true by lia.
      eexists. split; [reflexivity|].
      split; [exact F|]. unfold content. cbn [ar_buf ar_events flat_map chunk_of].
      rewrite skipn_app_le by (unfold len in L; lia). reflexivity.
    + destruct (IH (n - len buf) (x :: c)) as (s' & E & R & S); auto; [lia|].
      exists s'. rewrite E. split; [|split; auto].
      * rewrite !len_app.
        replace (n - len buf <=? len (x :: c) + len (flat_map chunk_of evs))
          with (n <=? len buf + (len (x :: c) + len (flat_map chunk_of evs))) by lia.
        reflexivity.
      * rewrite S. rewrite (skipn_app_ge _ buf) by (unfold len in L; lia). f_equal. unfold len. lia.
    + destruct buf; [|rewrite len_cons in B; pose proof (len_nonneg buf); lia].
      change (len (@nil Z)) with 0. rewrite Z.sub_0_r. cbn [app].
      destruct (IH n (x :: c)) as (s' & E & R & S); auto. exists s'. rewrite E. auto.
Qed.

Lemma skip_ready s n : 0 <= n -> always_ready s ->
  exists s', poll_skip s n = (Ready (if n <=? len (content s) then Ok tt else Err EStatic), s') /\
    always_ready s' /\ content s' = skipn (Z.to_nat n) (content s).
Proof. intros N R. apply (skip_loop_ready (ar_events s) n (ar_buf s) N R). Qed.

Lemma fill_ready s : always_ready s ->
  exists b s', poll_fill s = (Ready (Ok b), s') /\ always_ready s' /\ content s' = content s /\
    (b = [] <-> content s = []).
Proof.
  destruct s as (buf, evs). unfold always_ready, poll_fill, content. cbn [ar_buf ar_events]. intro R.
  destruct buf as [|x buf].
  - destruct evs as [|e evs].
    + exists [], (mk_areader [] []). simpl. tauto.
    + inversion R as [|? ? (c & -> & C) R']; subst. exists c, (mk_areader c evs). split; [reflexivity|].
      split; auto. split; [reflexivity|]. cbn [flat_map chunk_of]. destruct c; [congruence|]. simpl. split; discriminate.
  - exists (x :: buf), (mk_areader (x :: buf) evs). split; [reflexivity|]. split; auto. split; auto. simpl. split; discriminate.
Qed.

(** The two statements of C49. *)
Lemma skip_enough s n : always_ready s -> 0 <= n <= len (content s) ->
  exists s', poll_skip s n = (Ready (Ok tt), s') /\ always_ready s' /\ content s' = skipn (Z.to_nat n) (content s).
Proof.
  intros R N. destruct (skip_ready s n) as (s' & E & R' & C); [lia|auto|].
  exists s'. rewrite E. replace (n <=? _) with true by lia. auto.
Qed.
Lemma skip_short s n : always_ready s -> len (content s) < n ->
  exists s', poll_skip s n = (Ready (Err EStatic), s') /\ content s' = [].
Proof.
  intros R N. pose proof (len_nonneg (content s)). destruct (skip_ready s n) as (s' & E & R' & C); [lia|auto|].
  exists s'. rewrite E. replace (n <=? _) with false by lia. split; auto.
  rewrite C, skipn_all2; auto. unfold len in N. lia.
Qed.

(** ** Headers read from the same bytes *)

(** Agreement of one poll with the synchronous reader: [p] is the position reached. *)
Definition same_res {A B} (g : A -> B) (x : res A) (y : res B) : Prop :=
  match x with
  | Ok a => y = Ok (g a)
  | Err e => y = Err e \/ e = EEof /\ y = Err EStatic
  | Panic => y = Panic
  end.
Definition at_pos (s : areader) (d : list Z) (p : Z) : Prop :=
  always_ready s /\ 0 <= p <= len d /\ content s = skipn (Z.to_nat p) d.

Lemma at_pos_len s d p : at_pos s d p -> len (content s) = len d - p.
Proof. intros (_ & P & C). rewrite C. unfold len in *. rewrite skipn_length. lia. Qed.

Lemma read_at s d p n : at_pos s d p -> 0 < n ->
  exists s', poll_read_exact s n = (Ready (fst (read_exact (mk_reader d p) n)), s') /\
    at_pos s' d (rd_pos (snd (read_exact (mk_reader d p) n))) /\
    rd_data (snd (read_exact (mk_reader d p) n)) = d.
Proof.
  intros A N. pose proof (at_pos_len _ _ _ A) as L. destruct A as (R & P & C).
  destruct (read_ready s n) as (s' & E & R' & C'); [lia|auto|]. exists s'. rewrite E, L.
  unfold read_exact. cbn [rd_data rd_pos]. replace (n =? 0) with false by lia.
  destruct (Z.leb_spec (p + n) (len d)) as [L1|L1]; cbn [fst snd rd_data rd_pos].
  - replace (n <=? len d - p) with true by lia. split.
    + rewrite C. reflexivity.
    + split; auto. split; auto. split; [lia|]. rewrite C', C, skipn_skipn. f_equal. lia.
  - replace (n <=? len d - p) with false by lia. split; [reflexivity|].
    split; auto. split; auto. split; [lia|]. rewrite C', C, skipn_skipn. unfold len in *.
    rewrite !skipn_all2 by lia. reflexivity.
Qed.

Lemma consume_sim fa : forall fs s d p n acc,
  at_pos s d p -> (length (content s) < fa)%nat -> (length (content s) < fs)%nat ->
  match consume_loop fs (mk_reader d p) n acc, aconsume_loop fa s n acc with
  | (x, k, r), (y, k', s') =>
    exists y', y = Ready y' /\ at_pos s' d (rd_pos r) /\ rd_data r = d /\
      match x with
      | Ok cs => y' = Ok cs /\ k' = k
      | Err e => e = EEof /\ y' = Err EStatic
      | Panic => y' = Panic
      end
  end.
Proof.
  induction fa as [|fa IH]; intros fs s d p n acc A La Ls; [lia|].
  destruct fs as [|fs]; [lia|]. cbn [consume_loop aconsume_loop].
  destruct (read_at s d p 80 A ltac:(lia)) as (s' & E & A' & D). rewrite E.
  destruct (read_exact (mk_reader d p) 80) as (x, r) eqn:RE. cbn [fst snd] in *.
  assert (Sh: forall b, x = Ok b -> (length (content s') < length (content s))%nat).
  { intros b ->. pose proof (at_pos_len _ _ _ A) as L0. pose proof (at_pos_len _ _ _ A') as L1.
    unfold read_exact in RE. cbn [rd_data rd_pos] in RE. replace (80 =? 0) with false in RE by lia.
    destruct (Z.leb_spec (p + 80) (len d)); [|discriminate].
    assert (rd_pos r = p + 80) by (inversion RE as [(Hb, Hr)]; reflexivity). unfold len in *. lia. }
  destruct x as [b|e|].
  - specialize (Sh b eq_refl). assert (r = mk_reader d (rd_pos r)) as Hr by (destruct r; simpl in *; congruence).
    destruct (parse_card b) as [c|e'|] eqn:P.
    + destruct c; try (rewrite Hr; apply IH; auto; lia).
      eexists. split; [reflexivity|]. auto.
    + rewrite Hr. apply IH; auto; lia.
    + eexists. split; [reflexivity|]. auto.
  - eexists. split; [reflexivity|]. split; auto. split; auto. split; auto.
    unfold read_exact in RE. destruct (80 =? 0); [discriminate|]. destruct (_ <=? _); inversion RE; auto.
  - unfold read_exact in RE. destruct (80 =? 0); [discriminate|]. destruct (_ <=? _); inversion RE; auto.
Qed.

Lemma consume_cards_sim s d p :
  at_pos s d p ->
  match consume_cards (mk_reader d p) 0, aconsume_cards s with
  | (x, k, r), (y, k', s') =>
    exists y', y = Ready y' /\ at_pos s' d (rd_pos r) /\ rd_data r = d /\
      match x with
      | Ok cs => y' = Ok cs /\ k' = k
      | Err e => e = EEof /\ y' = Err EStatic
      | Panic => y' = Panic
      end
  end.
Proof.
  intros A. unfold consume_cards, aconsume_cards. apply consume_sim; auto.
  pose proof (at_pos_len _ _ _ A) as L. destruct A as (_ & P & _). cbn [rd_data]. unfold len in *. lia.
Qed.

Lemma hdu_new_sim m kind k s d p n cards :
  at_pos s d p -> 
  match hdu_new m kind k (mk_reader d p) n cards, ahdu_new m kind k s n cards with
  | (x, _, r), (y, s') =>
    exists y', y = Ready y' /\ at_pos s' d (rd_pos r) /\ rd_data r = d /\ same_res without_offset x y'
  end.
Proof.
  intros A. unfold hdu_new, ahdu_new.
  destruct (process_cards m cards) as [vs|e|]; cbn [bind].
  2-3: eexists; split; [reflexivity|]; split; auto; split; auto; try (now left); reflexivity.
  destruct (xt_parse m k vs) as [x|e|]; cbn [bind].
  2-3: eexists; split; [reflexivity|]; split; auto; split; auto; try (now left); reflexivity.
  destruct (Z.eqb_spec (n mod 2880) 0) as [E|E].
  - eexists. split; [reflexivity|]. split; auto. split; auto. reflexivity.
  - destruct (read_at s d p (2880 - n mod 2880) A) as (s' & Er & A' & D).
    { pose proof (Z.mod_pos_bound n 2880). lia. }
    rewrite Er. destruct (read_exact _ _) as (y, r). cbn [fst snd] in *.
    destruct y; eexists; (split; [reflexivity|]; split; auto; split; auto; try (now left); reflexivity).
Qed.

Lemma xtension_sim m s d p :
  at_pos s d p ->
  match new_xtension m (mk_reader d p), anew_xtension m s with
  | (x, _, r), (y, s') =>
    exists y', y = Ready y' /\ at_pos s' d (rd_pos r) /\ rd_data r = d /\ same_res without_offset x y'
  end.
Proof.
  intros A. unfold new_xtension, anew_xtension. pose proof (consume_cards_sim s d p A) as H.
  destruct (consume_cards (mk_reader d p) 0) as ((x, k), r). destruct (aconsume_cards s) as ((y, k'), s').
  destruct H as (y' & -> & A' & D & H).
  assert (Hr: r = mk_reader d (rd_pos r)) by (destruct r; simpl in *; congruence).
  destruct x as [cs|e|].
  - destruct H as (-> & ->).
    destruct cs as [|c cs]; [eexists; split; [reflexivity|]; split; auto; split; auto; reflexivity|].
    destruct c as [n v|? ?|x o|?|?|n v| | |?];
      try (eexists; split; [reflexivity|]; split; auto; split; auto; now left).
    destruct x; rewrite Hr; apply hdu_new_sim; auto.
  - destruct H as (-> & ->). eexists. split; [reflexivity|]. split; auto. split; auto. right. auto.
  - subst y'. eexists. split; [reflexivity|]. split; auto. split; auto. reflexivity.
Qed.

Lemma primary_sim m s d p :
  at_pos s d p ->
  match new_primary m (mk_reader d p), anew_primary m s with
  | (x, _, r), (y, s') =>
    (exists y', y = Ready y' /\ at_pos s' d (rd_pos r) /\ rd_data r = d /\ same_res without_offset x y') \/
    x = Err EDynamic
  end.
Proof.
  intros A. unfold new_primary, anew_primary. pose proof (consume_cards_sim s d p A) as H.
  destruct (consume_cards (mk_reader d p) 0) as ((x, k), r). destruct (aconsume_cards s) as ((y, k'), s').
  destruct H as (y' & -> & A' & D & H).
  assert (Hr: r = mk_reader d (rd_pos r)) by (destruct r; simpl in *; congruence).
  destruct x as [cs|e|].
  - destruct H as (-> & ->).
    destruct cs as [|c cs]; [left; eexists; split; [reflexivity|]; split; auto; split; auto; reflexivity|].
    destruct c as [n v|? ?|x o|?|?|n v| | |?];
      try (left; eexists; split; [reflexivity|]; split; auto; split; auto; now left).
    destruct v as [| |[|] o| | |]; try (left; eexists; split; [reflexivity|]; split; auto; split; auto; now left).
    destruct (str_eqb n (chars "SIMPLE")).
    + pose proof (hdu_new_sim m HPrimary XImage s' d (rd_pos r) k (CValue n (VLogical true o) :: cs) A') as N.
      rewrite <- Hr in N. destruct (hdu_new _ _ _ _ _ _) as ((x, ?), ?). destruct (ahdu_new _ _ _ _ _ _). now left.
    + destruct (ahdu_new _ _ _ _ _ _). now right.
  - destruct H as (-> & ->). left. eexists. split; [reflexivity|]. split; auto. split; auto. right. auto.
  - subst y'. left. eexists. split; [reflexivity|]. split; auto. split; auto. reflexivity.
Qed.

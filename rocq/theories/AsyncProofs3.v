(** Proofs about chunking and about polls that are not ready. *)

From Verif Require Import Base Utf8 Text Card Reader Header Xtension Fits Bytes Async.
From Verif Require Import SpecFits SpecImage SpecAsync.
From Verif Require Import BytesProofs AsyncProofs AsyncProofs2.
From Coq Require Import ZifyBool.

(** The source may have to wait, but only ends at its end. *)
Definition lively (evs : list event) : Prop := Forall (fun e => e <> Chunk []) evs.
Definition steady (evs : list event) : Prop := Forall (fun e => exists c, e = Chunk c /\ c <> []) evs.

Lemma steady_lively evs : steady evs -> lively evs.
Proof. induction 1 as [|e evs (c & -> & C) _ IH]; constructor; auto. congruence. Qed.

Lemma take_any evs : forall n got buf, 0 <= n -> lively evs ->
  let all := buf ++ flat_map chunk_of evs in
  exists s', (take_loop n got buf evs = (Pending, s') /\ ~ steady evs /\ lively (ar_events s')) \/
    (take_loop n got buf evs =
       (Ready (if n <=? len all then Ok (got ++ firstn (Z.to_nat n) all) else Err EEof), s') /\
     lively (ar_events s') /\ (steady evs -> steady (ar_events s')) /\ content s' = skipn (Z.to_nat n) all).
Proof.
  induction evs as [|e evs IH]; intros n got buf N F; cbn [take_loop flat_map]; cbv zeta.
  - rewrite app_nil_r. destruct (Z.leb_spec n (len buf)) as [L|L].
    + eexists. right. split; [reflexivity|]. split; [constructor|]. split; auto.
      unfold content. cbn [ar_buf ar_events flat_map]. apply app_nil_r.
    + eexists. right. split; [reflexivity|]. split; [constructor|]. split; auto. unfold content. cbn [ar_buf ar_events flat_map].
      rewrite skipn_all2; auto. unfold len in L. lia.
  - inversion F as [|? ? C F']; subst.
    destruct (Z.leb_spec n (len buf)) as [L|L].
    + pose proof (len_nonneg (chunk_of e ++ flat_map chunk_of evs)).
      rewrite len_app. replace (n <=? _) with true by lia.
      eexists. right. split; [rewrite firstn_app_le by (unfold len in L; lia); reflexivity|].
      split; [exact F|]. split; auto. unfold content. cbn [ar_buf ar_events flat_map].
      rewrite skipn_app_le by (unfold len in L; lia). reflexivity.
    + destruct e as [|[|x c]]; [|congruence|].
      { eexists. left. split; [reflexivity|]. split; [|exact F']. intro H. inversion H as [|? ? (c & C1 & _) _]. discriminate. }
      cbn [chunk_of].
      destruct (IH (n - len buf) (got ++ buf) (x :: c)) as (s' & [(E & R)|(E & R & T & S)]); auto; [lia| |].
      * exists s'. left. split; auto. destruct R as (R & Lv). split; auto. intro H. inversion H; auto.
      * exists s'. right. rewrite E. split; [|split; [auto|split; [intro H; inversion H; auto|]]].
        -- rewrite !len_app.
           replace (n - len buf <=? len (x :: c) + len (flat_map chunk_of evs))
             with (n <=? len buf + (len (x :: c) + len (flat_map chunk_of evs))) by lia.
           destruct (n <=? _); auto. f_equal. f_equal. f_equal. rewrite <- app_assoc. f_equal.
           rewrite (firstn_app_ge _ buf) by (unfold len in L; lia). f_equal. f_equal. unfold len. lia.
        -- rewrite S. rewrite (skipn_app_ge _ buf) by (unfold len in L; lia). f_equal. unfold len. lia.
Qed.

Lemma skip_any evs : forall n buf, 0 <= n -> lively evs ->
  let all := buf ++ flat_map chunk_of evs in
  exists s', (skip_loop n buf evs = (Pending, s') /\ ~ steady evs /\ lively (ar_events s')) \/
    (skip_loop n buf evs = (Ready (if n <=? len all then Ok tt else Err EStatic), s') /\
     lively (ar_events s') /\ (steady evs -> steady (ar_events s')) /\ content s' = skipn (Z.to_nat n) all).
Proof.
  induction evs as [|e evs IH]; intros n buf N F; cbn [skip_loop flat_map]; cbv zeta.
  - rewrite app_nil_r. destruct (Z.leb_spec 1 (len buf)) as [B|B]; cbn [andb];
      [destruct (Z.leb_spec n (len buf)) as [L|L]|].
    + eexists. right. split; [reflexivity|]. split; [constructor|]. split; auto. unfold content. cbn [ar_buf ar_events flat_map]. apply app_nil_r.
    + unfold skip_end. replace (n - len buf =? 0) with false by lia.
      eexists. right. split; [reflexivity|]. split; [constructor|]. split; auto. unfold content. cbn [ar_buf ar_events flat_map].
      rewrite skipn_all2; auto. unfold len in L. lia.
    + destruct buf; [|rewrite len_cons in B; pose proof (len_nonneg buf); lia].
      unfold skip_end. change (len (@nil Z)) with 0. replace (n <=? 0) with (n - 0 =? 0) by lia.
      eexists. right. split; [reflexivity|]. split; [constructor|]. split; auto. now rewrite skipn_nil.
  - inversion F as [|? ? C F']; subst.
    assert (Bu: (1 <=? len buf) && (n <=? len buf) = false -> len buf < n \/ buf = []).
    { destruct buf; auto. rewrite len_cons. pose proof (len_nonneg buf). intro. left. lia. }
    destruct ((1 <=? len buf) && (n <=? len buf)) eqn:B0.
    + pose proof (len_nonneg (chunk_of e ++ flat_map chunk_of evs)).
      rewrite len_app. replace (n <=? _) with true by lia.
      eexists. right. split; [reflexivity|]. split; [exact F|]. split; auto.
      unfold content. cbn [ar_buf ar_events flat_map chunk_of].
      rewrite skipn_app_le by (unfold len in B0; lia). reflexivity.
    + assert (L: len buf <= n) by (destruct (Bu eq_refl) as [H| ->]; [lia|exact N]).
      destruct e as [|[|x c]]; [|congruence|].
      { eexists. left. split; [reflexivity|]. split; [|exact F']. intro H. inversion H as [|? ? (c & C1 & _) _]. discriminate. }
      cbn [chunk_of].
      destruct (IH (n - len buf) (x :: c)) as (s' & [(E & R)|(E & R & T & S)]); auto; [lia| |].
      * exists s'. left. split; auto. destruct R as (R & Lv). split; auto. intro H. inversion H; auto.
      * exists s'. right. rewrite E. split; [|split; [auto|split; [intro H; inversion H; auto|]]].
        -- rewrite !len_app.
           replace (n - len buf <=? len (x :: c) + len (flat_map chunk_of evs))
             with (n <=? len buf + (len (x :: c) + len (flat_map chunk_of evs))) by lia.
           reflexivity.
        -- rewrite S. rewrite (skipn_app_ge _ buf) by (unfold len in L; lia). f_equal. unfold len. lia.
Qed.

(** [s] may have to wait, [r] is always ready; both hold the same bytes. *)
Definition like (s r : areader) : Prop :=
  content s = content r /\ lively (ar_events s) /\ always_ready r.

(** A step of [s] is not ready, or does what the step of [r] does. *)
Definition agrees {A} (s : areader) (x y : poll A * areader) : Prop :=
  (fst x = Pending /\ ~ always_ready s /\ lively (ar_events (snd x))) \/
  (exists z, fst x = Ready z /\ fst y = Ready z /\ like (snd x) (snd y) /\ (always_ready s -> always_ready (snd x))).

Lemma read_like s r n : 0 <= n -> like s r -> agrees s (poll_read_exact s n) (poll_read_exact r n).
Proof.
  intros N (C & L & R). destruct (read_ready r n N R) as (r' & E & R' & C'). rewrite E.
  destruct (take_any (ar_events s) n [] (ar_buf s) N L) as (s' & [(E1 & NS)|(E1 & L1 & T1 & C1)]);
    unfold poll_read_exact; rewrite E1; [left|right].
  - cbn [fst snd]. tauto.
  - eexists. cbn [fst snd]. split; [reflexivity|]. fold (content s). rewrite C. split; [reflexivity|].
    split; [|auto]. split; [|auto]. rewrite C1, C'. fold (content s). now rewrite C.
Qed.

Lemma skip_like s r n : 0 <= n -> like s r -> agrees s (poll_skip s n) (poll_skip r n).
Proof.
  intros N (C & L & R). destruct (skip_ready r n N R) as (r' & E & R' & C'). rewrite E.
  destruct (skip_any (ar_events s) n (ar_buf s) N L) as (s' & [(E1 & NS)|(E1 & L1 & T1 & C1)]);
    unfold poll_skip; rewrite E1; [left|right].
  - cbn [fst snd]. tauto.
  - eexists. cbn [fst snd]. split; [reflexivity|]. fold (content s). rewrite C. split; [reflexivity|].
    split; [|auto]. split; [|auto]. rewrite C1, C'. fold (content s). now rewrite C.
Qed.

(** [fill_buf] shows different bytes, but both or none. *)
Lemma fill_like s r : like s r ->
  (fst (poll_fill s) = Pending /\ ~ always_ready s /\ lively (ar_events (snd (poll_fill s)))) \/
  exists a b, fst (poll_fill s) = Ready (Ok a) /\ fst (poll_fill r) = Ready (Ok b) /\ (a = [] <-> b = []) /\
    like (snd (poll_fill s)) (snd (poll_fill r)) /\ (always_ready s -> always_ready (snd (poll_fill s))).
Proof.
  intros (C & L & R). destruct (fill_ready r R) as (b & r' & E & R' & C' & B). rewrite E. cbn [fst snd].
  destruct s as (buf, evs). unfold poll_fill, always_ready. cbn [ar_buf ar_events] in *.
  destruct buf as [|x buf].
  - destruct evs as [|e evs].
    + right. exists [], b. cbn [fst snd ar_events]. split; auto. split; auto. rewrite B, <- C. split; [tauto|].
      split; auto. split; [|split; auto]. congruence.
    + inversion L as [|? ? C0 L']; subst. destruct e as [|c].
      * left. split; auto. split; [|exact L']. intro H. inversion H as [|? ? (c & C1 & _) _]. discriminate.
      * right. exists c, b. cbn [fst snd ar_events]. split; auto. split; auto. rewrite B, <- C.
        split; [unfold content; cbn [ar_buf ar_events flat_map chunk_of app]; destruct c; [congruence|]; simpl; split; discriminate|].
        split; [|intro H; inversion H; auto]. split; [|split; auto]. rewrite C', <- C. reflexivity.
  - right. exists (x :: buf), b. cbn [fst snd ar_events]. split; auto. split; auto. rewrite B, <- C.
    split; [simpl; split; discriminate|]. split; auto. split; [|split; auto]. congruence.
Qed.

Lemma consume_like fuel : forall s r n acc, like s r ->
  let x := aconsume_loop fuel s n acc in let y := aconsume_loop fuel r n acc in
  (fst (fst x) = Pending /\ ~ always_ready s /\ lively (ar_events (snd x))) \/
  (exists z, fst (fst x) = Ready z /\ fst (fst y) = Ready z /\ snd (fst x) = snd (fst y) /\
     like (snd x) (snd y) /\ (always_ready s -> always_ready (snd x))).
Proof.
  induction fuel as [|fuel IH]; intros s r n acc L; cbn [aconsume_loop]; cbv zeta.
  - right. exists Panic. auto.
  - destruct (read_like s r 80 ltac:(lia) L) as [(E & NR)|(z & E1 & E2 & L' & AR)].
    + destruct (poll_read_exact s 80) as (x, s'). cbn [fst] in E. subst x. left. cbn [fst snd] in *. intuition auto.
    + destruct (poll_read_exact s 80) as (x, s'). destruct (poll_read_exact r 80) as (y, r'). cbn [fst snd] in *. subst x y.
      assert (Go: forall c, let x := aconsume_loop fuel s' (n + 80) (c :: acc) in let y := aconsume_loop fuel r' (n + 80) (c :: acc) in
         (fst (fst x) = Pending /\ ~ always_ready s /\ lively (ar_events (snd x))) \/
         (exists z, fst (fst x) = Ready z /\ fst (fst y) = Ready z /\ snd (fst x) = snd (fst y) /\
            like (snd x) (snd y) /\ (always_ready s -> always_ready (snd x)))).
      { intro c. cbv zeta. destruct (IH s' r' (n + 80) (c :: acc) L') as [(H1 & H2)|(z' & H1 & H2 & H3 & H4 & H5)].
        - left. cbn [fst snd] in *. intuition auto.
        - right. exists z'. auto 10. }
      destruct z as [buf|e|].
      * destruct (parse_card buf) as [c|e|].
        -- destruct c; try apply Go. right. eexists. cbn [fst snd]. auto 10.
        -- apply Go.
        -- right. eexists. cbn [fst snd]. auto 10.
      * right. eexists. cbn [fst snd]. auto 10.
      * right. eexists. cbn [fst snd]. auto 10.
Qed.

Ltac agree_done := right; eexists; cbn [fst snd]; repeat split; auto.

Lemma ahdu_new_like m kind k s r n cards : like s r ->
  agrees s (ahdu_new m kind k s n cards) (ahdu_new m kind k r n cards).
Proof.
  intros L. unfold ahdu_new. 
  assert (Id: forall z : res ahdu, agrees s (Ready z, s) (Ready z, r)) by (intro z; right; exists z; cbn [fst snd]; auto).
  destruct (let! vs := process_cards m cards in _) as [(vs, x)|e|]; auto.
  destruct (n mod 2880 =? 0); auto.
  destruct (read_like s r (2880 - n mod 2880)) as [(E & NR)|(z & E1 & E2 & L' & AR)]; auto.
  - pose proof (Z.mod_pos_bound n 2880). lia.
  - destruct (poll_read_exact s _) as (y, s'). cbn [fst] in E. subst y. left. cbn [fst snd] in *. intuition auto.
  - destruct (poll_read_exact s _) as (y, s'). destruct (poll_read_exact r _) as (y', r'). cbn [fst snd] in *. subst y y'.
    destruct z; right; eexists; cbn [fst snd]; auto.
Qed.

Definition anew (m : mode) (primary : bool) (s : areader) : poll ahdu * areader :=
  if primary then anew_primary m s else anew_xtension m s.

Lemma anew_like m primary s r : like s r -> agrees s (anew m primary s) (anew m primary r).
Proof.
  intros L. assert (Fu: length (content s) = length (content r)) by (destruct L as (-> & _); auto).
  pose proof (consume_like (S (length (content s))) s r 0 [] L) as H. cbv zeta in H.
  unfold anew, anew_primary, anew_xtension, aconsume_cards. rewrite <- Fu.
  destruct (aconsume_loop (S (length (content s))) s 0 []) as ((x, n), s').
  destruct (aconsume_loop (S (length (content s))) r 0 []) as ((y, n'), r'). cbn [fst snd] in H.
  destruct H as [(-> & NR)|(z & -> & -> & <- & L' & AR)].
  - left. destruct primary; cbn [fst snd] in *; intuition auto.
  - assert (Id: forall w : res ahdu, agrees s (Ready w, s') (Ready w, r')) by (intro w; right; exists w; cbn [fst snd]; auto).
    assert (Go: forall kind k cards, agrees s (ahdu_new m kind k s' n cards) (ahdu_new m kind k r' n cards)).
    { intros kind k cards. destruct (ahdu_new_like m kind k s' r' n cards L') as [(H1 & H2)|(w & H1 & H2 & H3 & H4)].
      - left. cbn [fst snd] in *. intuition auto.
      - right. exists w. auto 10. }
    destruct z as [cards|e|]; [|destruct primary; apply Id|destruct primary; apply Id].
    destruct cards as [|c cards]; [destruct primary; apply Id|].
    destruct primary.
    + destruct c; try apply Id. destruct v; try apply Id. destruct v; try apply Id. apply Go.
    + destruct c; try apply Id. destruct x; apply Go.
Qed.

Lemma until_like f s r : like s r -> 0 <= af_rem f ->
  agrees s (aconsume_until (af_set_reader f s)) (aconsume_until (af_set_reader f r)).
Proof.
  intros L N. unfold aconsume_until. cbn [af_set_reader af_rem af_reader af_num].
  assert (H1: exists x y, (if 0 <? af_rem f then poll_skip s (af_rem f) else (Ready (Ok tt), s)) = x /\
                          (if 0 <? af_rem f then poll_skip r (af_rem f) else (Ready (Ok tt), r)) = y /\ agrees s x y).
  { destruct (0 <? af_rem f); eexists; eexists; (split; [reflexivity|]; split; [reflexivity|]).
    - apply skip_like; auto.
    - right. eexists. cbn [fst snd]. auto. }
  destruct H1 as ((x, s1) & (y, r1) & -> & -> & H1). destruct H1 as [(E & NR)|(z & E1 & E2 & L1 & A1)]; cbn [fst snd] in *.
  - subst x. left. cbn [fst snd] in *. intuition auto.
  - subst x y. destruct z as [[]|e|]; [|right; eexists; cbn [fst snd]; auto 8|right; eexists; cbn [fst snd]; auto 8].
    assert (H2: exists x y, (if af_num f mod 2880 =? 0 then (Ready (Ok []), s1) else poll_read_exact s1 (2880 - af_num f mod 2880)) = x /\
                            (if af_num f mod 2880 =? 0 then (Ready (Ok []), r1) else poll_read_exact r1 (2880 - af_num f mod 2880)) = y /\ agrees s1 x y).
    { destruct (af_num f mod 2880 =? 0); eexists; eexists; (split; [reflexivity|]; split; [reflexivity|]).
      - right. eexists. cbn [fst snd]. auto.
      - apply read_like; auto. pose proof (Z.mod_pos_bound (af_num f) 2880). lia. }
    destruct H2 as ((x, s2) & (y, r2) & -> & -> & H2). destruct H2 as [(E & NR)|(z & E1 & E2 & L2 & A2)]; cbn [fst snd] in *.
    + subst x. left. cbn [fst snd] in *. intuition auto.
    + subst x y. destruct z as [b|e|]; [|destruct e; right; eexists; cbn [fst snd]; auto 8|right; eexists; cbn [fst snd]; auto 8].
      destruct (fill_like s2 r2 L2) as [(E & NR)|(a & b' & E1 & E2 & B & L3 & A3)].
      * destruct (poll_fill s2) as (x, s3). cbn [fst] in E. subst x. left. cbn [fst snd] in *. intuition auto.
      * destruct (poll_fill s2) as (x, s3). destruct (poll_fill r2) as (y, r3). cbn [fst snd] in *. subst x y.
        right. eexists. cbn [fst snd]. split; [reflexivity|].
        split; [|auto]. f_equal. f_equal. destruct a, b'; auto; exfalso; destruct B as (B1 & B2);
          [specialize (B1 eq_refl)|specialize (B2 eq_refl)]; discriminate.
Qed.

(** ** Whole operations *)

(** [f] over a source that may wait, [g] over an always ready one. *)
Definition like_f (f g : afits) : Prop :=
  same_bytes f g /\ lively (ar_events (af_reader f)) /\ always_ready (af_reader g) /\ 0 <= af_rem f.

Lemma like_f_reader f g : like_f f g -> like (af_reader f) (af_reader g).
Proof. intros ((_ & _ & _ & _ & C) & L & R & _). split; auto. Qed.

Lemma like_f_set f g s r : like_f f g -> like s r -> like_f (af_set_reader f s) (af_set_reader g r).
Proof. intros ((E1 & E2 & E3 & E4 & _) & _ & _ & N) (C & L & R). split; [|auto]. repeat split; auto. Qed.

Lemma like_f_mk a x n e s r : 0 <= x -> like s r -> like_f (mk_afits a x n e s) (mk_afits a x n e r).
Proof. intros X (C & L & R). split; [|auto]. repeat split; auto. Qed.

Definition step_agrees (f : afits) (x y : aresult * afits) : Prop :=
  (pending (fst x) = true /\ ~ always_ready (af_reader f) /\ exists s, snd x = af_set_reader f s /\ lively (ar_events s)) \/
  (pending (fst x) = false /\ fst x = fst y /\ like_f (snd x) (snd y) /\
   (always_ready (af_reader f) -> always_ready (af_reader (snd x)))).

Lemma poll_like m f g : like_f f g -> step_agrees f (astep m f ONext) (astep m g ONext).
Proof.
  intros L. pose proof (like_f_reader _ _ L) as LR. pose proof L as ((E1 & E2 & E3 & E4 & C) & Lv & AR & N).
  cbn [astep]. unfold poll_next. rewrite E4. destruct (af_error g) eqn:Eg; [right; cbn [fst snd pending]; auto|].
  assert (Fin: forall (x y : poll ahdu * areader), agrees (af_reader f) x y ->
    let fin (h : afits) (z : aitem * areader) :=
      let '(i, s) := z in
      match i with
      | AOk a => match xt_num_bytes m (a_xt a) with
                 | Ok n => (AOk a, mk_afits false n n false s)
                 | _ => (APanic, mk_afits false (af_rem h) (af_num h) false s) end
      | AErr e => (AErr e, mk_afits false (af_rem h) (af_num h) true s)
      | ANone => (ANone, mk_afits false (af_rem h) (af_num h) false s)
      | APending => (APending, af_set_reader h s)
      | APanic => (APanic, af_set_reader h s) end in
    let conv (z : poll ahdu * areader) :=
      match z with
      | (Ready (Ok h), s) => (AOk h, s) | (Ready (Err e), s) => (AErr e, s)
      | (Ready Panic, s) => (APanic, s) | (Pending, s) => (APending, s) end in
    step_agrees f (let (i, f') := fin f (conv x) in (RNext i, f')) (let (i, f') := fin g (conv y) in (RNext i, f'))).
  { intros (x, s) (y, r) [(H1 & H2)|(z & H1 & H2 & H3 & H4)]; cbn [fst snd] in *; subst.
    - left. cbn [fst snd pending]. split; auto. destruct H2. split; auto. exists s. auto.
    - right. destruct z as [h|e|].
      + destruct (xt_num_bytes m (a_xt h)) as [k|e|] eqn:X; cbn [fst snd pending af_reader]; split; auto; split; auto; split; auto.
        * apply like_f_mk; auto. apply FitsProofs3.size_range in X. lia.
        * rewrite <- E2, <- E3. apply like_f_mk; auto.
        * rewrite <- E2, <- E3. apply like_f_mk; auto.
      + cbn [fst snd pending af_reader]. rewrite <- E2, <- E3. split; auto. split; auto. split; auto. apply like_f_mk; auto.
      + cbn [fst snd pending af_reader af_set_reader]. split; auto. split; auto. split; auto.
        apply (like_f_set f g); auto. }
  rewrite E1. destruct (af_start g) eqn:Sg.
  - apply (Fin (anew_primary m (af_reader f)) (anew_primary m (af_reader g))). apply (anew_like m true); auto.
  - pose proof (until_like f _ _ LR N) as U.
    assert (F0: af_set_reader f (af_reader f) = f) by (destruct f; reflexivity).
    assert (G0: aconsume_until (af_set_reader f (af_reader g)) = aconsume_until g).
    { unfold aconsume_until. cbn [af_set_reader af_rem af_num af_reader]. rewrite E2, E3. reflexivity. }
    rewrite F0, G0 in U.
    destruct (aconsume_until f) as (x, s1). destruct (aconsume_until g) as (y, r1).
    destruct U as [(H1 & H2)|(z & H1 & H2 & H3 & H4)]; cbn [fst snd] in *; subst.
    + left. cbn [fst snd pending]. split; auto. destruct H2. split; auto. exists s1. auto.
    + destruct z as [[|]|e|].
      * right. cbn [fst snd pending af_reader]. rewrite <- E2, <- E3. split; auto. split; auto. split; auto. apply like_f_mk; auto.
      * apply (Fin (anew_xtension m s1) (anew_xtension m r1)).
        destruct (anew_like m false s1 r1 H3) as [(K1 & K2)|(w & K1 & K2 & K3 & K4)]; [left; intuition auto|right].
        exists w. auto 10.
      * right. cbn [fst snd pending af_reader]. rewrite <- E2, <- E3. split; auto. split; auto. split; auto. apply like_f_mk; auto.
      * right. cbn [fst snd pending af_reader af_set_reader]. split; auto. split; auto. split; auto. apply (like_f_set f g); auto.
Qed.

Lemma item_like m b f g : like_f f g -> step_agrees f (astep m f (OItem b)) (astep m g (OItem b)).
Proof.
  intros L. pose proof (like_f_reader _ _ L) as LR. pose proof L as ((E1 & E2 & E3 & E4 & C) & Lv & AR & N).
  cbn [astep]. unfold item_next. rewrite <- E2. destruct (af_rem f =? 0); [right; cbn [fst snd pending]; auto|].
  pose proof (width_pos b). rewrite byte_size_width.
  destruct (read_like _ _ (width b) ltac:(lia) LR) as [(H1 & H2)|(z & H1 & H2 & H3 & H4)];
  destruct (poll_read_exact (af_reader f) (width b)) as (x, s1); destruct (poll_read_exact (af_reader g) (width b)) as (y, r1);
  cbn [fst snd] in *; subst.
  - left. cbn [fst snd pending]. split; auto. destruct H2. split; auto. exists s1. auto.
  - destruct z as [buf|e|].
    + destruct (u64_result m (af_rem f - width b)) as [k|e|] eqn:U.
      * right. cbn [fst snd pending af_reader]. split; auto. split; auto. split; auto.
        rewrite <- E1, <- E3, <- E4. apply like_f_mk; auto. apply FitsProofs3.u64_result_ok in U. lia.
      * right. cbn [fst snd pending af_reader af_set_reader]. split; auto. split; auto. split; auto. apply (like_f_set f g); auto.
      * right. cbn [fst snd pending af_reader af_set_reader]. split; auto. split; auto. split; auto. apply (like_f_set f g); auto.
    + right. cbn [fst snd pending af_reader af_set_reader]. split; auto. split; auto. split; auto. apply (like_f_set f g); auto.
    + right. cbn [fst snd pending af_reader af_set_reader]. split; auto. split; auto. split; auto. apply (like_f_set f g); auto.
Qed.

Lemma step_like m op f g : like_f f g -> step_agrees f (astep m f op) (astep m g op).
Proof. destruct op; [apply poll_like|apply item_like]. Qed.

Lemma run_like m ops : forall f g, like_f f g -> always_ready (af_reader f) ->
  fst (arun m f ops) = fst (arun m g ops) /\ same_bytes (snd (arun m f ops)) (snd (arun m g ops)).
Proof.
  induction ops as [|op ops IH]; intros f g L R; cbn [arun]; [destruct L; auto|].
  destruct (step_like m op f g L) as [(H1 & H2 & _)|(H1 & H2 & H3 & H4)]; [contradiction|].
  destruct (astep m f op) as (x, f1). destruct (astep m g op) as (y, g1). cbn [fst snd] in *. subst y.
  destruct (IH f1 g1 H3 (H4 R)) as (I1 & I2).
  destruct (arun m f1 ops) as (l, f2). destruct (arun m g1 ops) as (l', g2). cbn [fst snd] in *. subst l'. auto.
Qed.

(** C45 and C47. *)
Lemma chunking m f g ops :
  always_ready (af_reader f) -> always_ready (af_reader g) -> 0 <= af_rem f -> same_bytes f g ->
  fst (arun m f ops) = fst (arun m g ops) /\ same_bytes (snd (arun m f ops)) (snd (arun m g ops)).
Proof. intros R1 R2 N S. apply run_like; auto. split; auto. split; auto. apply steady_lively, R1. Qed.

(** A poll that took nothing leaves things as they were. *)
Lemma like_pending m f g op : like_f f g -> pending (fst (astep m f op)) = true ->
  content (af_reader (snd (astep m f op))) = content (af_reader f) ->
  like_f (snd (astep m f op)) g.
Proof.
  intros L P C. destruct (step_like m op f g L) as [(_ & _ & s & E & Lv)|(H & _)]; [|congruence].
  destruct L as ((E1 & E2 & E3 & E4 & C0) & _ & R & N). rewrite E in C |- *. unfold like_f, same_bytes.
  cbn [af_set_reader af_reader af_start af_rem af_num af_error] in *. rewrite C. auto 10.
Qed.

Lemma completes_like m f ops l f2 : completes m f ops l f2 -> forall g, like_f f g ->
  fst (arun m g ops) = l /\ same_bytes f2 (snd (arun m g ops)).
Proof.
  induction 1 as [f|f op ops x f1 l f2 E P C _ IH|f op ops x f1 l f2 E P _ IH]; intros g L.
  - destruct L. auto.
  - apply IH. replace f1 with (snd (astep m f op)) by (rewrite E; auto). apply like_pending; auto; rewrite E; auto.
  - cbn [arun]. pose proof (step_like m op f g L) as H. unfold step_agrees in H. rewrite E in H. cbn [fst snd] in H.
    destruct H as [(H1 & _)|(_ & H2 & H3 & _)]; [congruence|].
    destruct (astep m g op) as (y, g1). cbn [fst snd] in *. subst y. destruct (IH g1 H3) as (I1 & I2).
    destruct (arun m g1 ops) as (l', g2). cbn [fst snd] in *. subst l'. auto.
Qed.

Lemma quiet_waits m f g ops l f2 :
  Forall (fun e => e <> Chunk []) (ar_events (af_reader f)) -> always_ready (af_reader g) -> 0 <= af_rem f ->
  same_bytes f g -> completes m f ops l f2 ->
  fst (arun m g ops) = l /\ same_bytes f2 (snd (arun m g ops)).
Proof. intros Lv R N S C. eapply completes_like; eauto. split; auto. Qed.

(** One-byte items never lose anything. *)
Lemma byte_items_wait m f f' :
  item_next m BU8 f = (SPending, f') -> exists s, f' = af_set_reader f s /\ content s = content (af_reader f).
Proof.
  unfold item_next. destruct (af_rem f =? 0); [discriminate|]. change (byte_size BU8) with 1.
  unfold poll_read_exact, content. destruct (af_reader f) as (buf, evs). cbn [ar_buf ar_events].
  destruct buf as [|x buf].
  - destruct evs as [|[|[|y c]] evs].
    + discriminate.
    + simpl. intro H. inversion H; subst. eexists. split; reflexivity.
    + discriminate.
    + cbn [take_loop]. change (1 <=? len (@nil Z)) with false. cbn iota. destruct evs as [|e evs]; cbn [take_loop];
      rewrite len_cons; pose proof (len_nonneg c); replace (1 - len (@nil Z) <=? 1 + len c) with true by (change (len (@nil Z)) with 0; lia);
      destruct (u64_result _ _); discriminate.
  - destruct evs as [|e evs]; cbn [take_loop];
    rewrite len_cons; pose proof (len_nonneg buf); replace (1 <=? 1 + len buf) with true by lia;
      destruct (u64_result _ _); discriminate.
Qed.

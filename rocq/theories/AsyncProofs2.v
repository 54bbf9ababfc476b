(** Proofs about the asynchronous HDU stream. *)

From Verif Require Import Base Utf8 Text Card Reader Header Xtension Fits Bytes Async.
From Verif Require Import SpecUtf8 SpecCard SpecHeader SpecXt SpecFits SpecImage SpecAsync.
From Verif Require Import HeaderProofs FitsProofs FitsProofs2 FitsProofs3 FitsProofs4 BytesProofs ImageProofs AsyncProofs.
From Coq Require Import ZifyBool.

(** The next poll reads the header at byte [q]. *)
Definition aready (d : list Z) (f : afits) (q : Z) : Prop :=
  af_error f = false /\
  (af_start f = true /\ at_pos (af_reader f) d q /\ af_rem f = 0 \/
   af_start f = false /\ exists o p, 0 <= o <= p /\ p <= o + af_num f /\ o + af_num f <= len d /\
     af_rem f = o + af_num f - p /\ at_pos (af_reader f) d p /\ q = o + in_blocks (af_num f)).

Lemma until_ready d f q : aready d f q -> af_start f = false ->
  exists s', aconsume_until f = (Ready (Ok (len d <=? q)), s') /\ always_ready s' /\ content s' = skipn (Z.to_nat q) d.
Proof.
  intros (_ & [(S & _)|(_ & o & p & O & P & L & R & A & Q)]) S0; [congruence|]. clear S0.
  assert (A1: exists s1, (if 0 <? af_rem f then poll_skip (af_reader f) (af_rem f) else (Ready (Ok tt), af_reader f))
                         = (Ready (Ok tt), s1) /\ at_pos s1 d (o + af_num f)).
  { destruct (Z.ltb_spec 0 (af_rem f)) as [H|H].
    - pose proof (at_pos_len _ _ _ A) as La. destruct A as (A1 & A2 & A3).
      destruct (skip_enough (af_reader f) (af_rem f) A1) as (s1 & E & R1 & C1); [lia|].
      exists s1. split; auto. split; auto. split; [lia|]. rewrite C1, A3, skipn_skipn. f_equal. lia.
    - exists (af_reader f). split; auto. replace (o + af_num f) with p by lia. auto. }
  destruct A1 as (s1 & E1 & A1). unfold aconsume_until. rewrite E1. rewrite in_blocks_pad in Q.
  destruct (Z.eqb_spec (af_num f mod 2880) 0) as [Z0|Z0].
  - destruct A1 as (R1 & P1 & C1).
    destruct (fill_ready s1 R1) as (b & s2 & F & R2 & C2 & B). rewrite F. exists s2. rewrite Q. split.
    + f_equal. f_equal. f_equal.
      assert (Hc: content s1 = [] <-> len d <= o + af_num f).
      { rewrite C1. split; intro H.
        - assert (X: len (skipn (Z.to_nat (o + af_num f)) d) = 0) by (rewrite H; auto). unfold len in *. rewrite skipn_length in X. lia.
        - apply skipn_all2. unfold len in *. lia. }
      destruct b as [|x b].
      * apply proj1 in B. specialize (B eq_refl). apply Hc in B. lia.
      * destruct (Z.leb_spec (len d) (o + af_num f)) as [H|H]; auto. apply Hc, B in H. discriminate.
    + split; auto. rewrite C2, C1. reflexivity.
  - pose proof (Z.mod_pos_bound (af_num f) 2880 ltac:(lia)).
    destruct (read_at s1 d (o + af_num f) (2880 - af_num f mod 2880) A1) as (s2 & E2 & A2 & _); [lia|].
    rewrite E2. unfold read_exact in *. cbn [rd_data rd_pos] in *.
    replace (2880 - af_num f mod 2880 =? 0) with false in * by lia.
    destruct (Z.leb_spec (o + af_num f + (2880 - af_num f mod 2880)) (len d)) as [H1|H1]; cbn [fst snd rd_pos] in *.
    + destruct A2 as (R2 & P2 & C2). destruct (fill_ready s2 R2) as (b & s3 & F & R3 & C3 & B). rewrite F.
      exists s3. split.
      * f_equal. f_equal. f_equal.
        assert (Hc: content s2 = [] <-> len d <= q).
        { rewrite C2, Q. split; intro H2.
          - assert (X: len (skipn (Z.to_nat (o + af_num f + (2880 - af_num f mod 2880))) d) = 0) by (rewrite H2; auto). unfold len in *. rewrite skipn_length in X. lia.
          - apply skipn_all2. unfold len in *. lia. }
        destruct b as [|x b].
        -- apply proj1 in B. specialize (B eq_refl). apply Hc in B. lia.
        -- destruct (Z.leb_spec (len d) q) as [H2|H2]; auto. apply Hc, B in H2. discriminate.
      * split; auto. rewrite C3, C2. f_equal. lia.
    + exists s2. split; [f_equal; f_equal; f_equal; lia|].
      destruct A2 as (R2 & P2 & C2). split; auto. rewrite C2. unfold len in *. rewrite !skipn_all2 by lia. reflexivity.
Qed.

(** One poll, against what the synchronous reader makes of the same header. *)
Lemma poll_sim m d f q : octets d -> aready d f q -> 0 <= q ->
  let '(x, n, r) := new_hdu m (af_start f) (mk_reader d q) in
  match x with
  | Ok h =>
    match hdu_size m h with
    | Ok size => exists s', poll_next m f = (AOk (without_offset h), mk_afits false size size false s') /\
                   at_pos s' d (h_offset h)
    | _ => fst (poll_next m f) = APanic
    end
  | Err e =>
    if af_start f then
      e <> EDynamic -> exists e', fst (poll_next m f) = AErr e' /\ (e' = e \/ e = EEof /\ e' = EStatic)
    else if len d <=? q then
      exists s', poll_next m f = (ANone, mk_afits false (af_rem f) (af_num f) false s') /\ content s' = [] /\ always_ready s'
    else exists e', fst (poll_next m f) = AErr e' /\ (e' = e \/ e = EEof /\ e' = EStatic)
  | Panic => fst (poll_next m f) = APanic
  end.
Proof.
  intros O A Q. pose proof A as (E & A'). unfold poll_next. rewrite E.
  destruct (af_start f) eqn:S.
  - destruct A' as [(_ & A' & _)|(A' & _)]; [|congruence].
    unfold new_hdu. pose proof (primary_sim m _ _ _ A') as H.
    destruct (new_primary m (mk_reader d q)) as ((x, n), r) eqn:N. destruct (anew_primary m (af_reader f)) as (y, s').
    destruct H as [(y' & -> & A2 & D & H)|H].
    + destruct x as [h|e|].
      * simpl in H. subst y'. cbn [a_xt without_offset]. unfold hdu_size.
        destruct (xt_num_bytes m (h_xt h)) as [size| |]; auto.
        exists s'. split; auto.
        assert (N': new_hdu m true (mk_reader d q) = (Ok h, n, r)) by exact N.
        apply new_hdu_inv in N' as (c & cards & recs & last & rest & _ & _ & _ & _ & _ & _ & _ & _ & _ & _ & -> & _); auto.
      * intros _. destruct H as [->|(-> & ->)]; eexists; split; try reflexivity; auto.
      * simpl in H. subst y'. reflexivity.
    + subst x. intro. congruence.
  - destruct (until_ready d f q A S) as (s1 & U & R1 & C1). rewrite U.
    destruct (Z.leb_spec (len d) q) as [L|L].
    + pose proof (eof_here m d q false O Q ltac:(lia)) as EH.
      unfold new_hdu in *. rewrite EH.
      exists s1. split; auto. split; auto. rewrite C1. apply skipn_all2. unfold len in L. lia.
    + assert (A1: at_pos s1 d q) by (split; auto; split; auto; lia).
      unfold new_hdu. pose proof (xtension_sim m _ _ _ A1) as H.
      destruct (new_xtension m (mk_reader d q)) as ((x, n), r) eqn:N. destruct (anew_xtension m s1) as (y, s').
      destruct H as (y' & -> & A2 & D & H).
      destruct x as [h|e|].
      * simpl in H. subst y'. cbn [a_xt without_offset]. unfold hdu_size.
        destruct (xt_num_bytes m (h_xt h)) as [size| |]; auto.
        exists s'. split; auto.
        assert (N': new_hdu m false (mk_reader d q) = (Ok h, n, r)) by exact N.
        apply new_hdu_inv in N' as (c & cards & recs & last & rest & _ & _ & _ & _ & _ & _ & _ & _ & _ & _ & -> & _); auto.
      * destruct H as [->|(-> & ->)]; eexists; split; try reflexivity; auto.
      * simpl in H. subst y'. reflexivity.
Qed.

(** ** Data items *)

Lemma width_pos b : 1 <= width b <= 8.
Proof. destruct b; simpl; lia. Qed.

Lemma item_ready m b f v rest :
  always_ready (af_reader f) -> in_range b v -> content (af_reader f) = encode b v ++ rest ->
  width b <= af_rem f < 2 ^ 64 ->
  exists s', item_next m b f = (SItem v, mk_afits (af_start f) (af_rem f - width b) (af_num f) (af_error f) s') /\
    always_ready s' /\ content s' = rest.
Proof.
  intros R V C W. pose proof (width_pos b). unfold item_next. replace (af_rem f =? 0) with false by lia.
  rewrite byte_size_width.
  destruct (read_ready (af_reader f) (width b)) as (s' & E & R' & C'); [lia|auto|]. rewrite E.
  pose proof (encode_length b v) as L. pose proof (len_nonneg rest).
  rewrite C, len_app, L. replace (width b <=? width b + len rest) with true by lia.
  rewrite u64_result_small by lia. exists s'.
  assert (Z.to_nat (width b) = length (encode b v)) by (unfold len in L; lia).
  rewrite firstn_app_le, firstn_all2 by lia. rewrite decode_encode by auto.
  split; auto. split; auto. rewrite C', C, skipn_app_ge by lia. replace (_ - _)%nat with 0%nat by lia. reflexivity.
Qed.

Lemma item_end m b f : af_rem f = 0 -> item_next m b f = (SEnd, f).
Proof. intro H. unfold item_next. now rewrite H. Qed.

Lemma items_end m b f k : af_rem f = 0 -> arun m f (repeat (OItem b) k) = (repeat (RItem SEnd) k, f).
Proof. intro H. induction k as [|k IH]; simpl; auto. rewrite item_end by auto. now rewrite IH. Qed.

(** C48: the items of a data unit. *)
Lemma items_run m b values : forall k f rest,
  always_ready (af_reader f) -> Forall (in_range b) values ->
  content (af_reader f) = concat (map (encode b) values) ++ rest ->
  af_rem f = width b * len values -> af_rem f < 2 ^ 64 ->
  exists s', arun m f (repeat (OItem b) k) =
      (map (fun v => RItem (SItem v)) (firstn k values) ++ repeat (RItem SEnd) (k - length values),
       mk_afits (af_start f) (width b * len (skipn k values)) (af_num f) (af_error f) s') /\
    always_ready s' /\ content s' = concat (map (encode b) (skipn k values)) ++ rest.
Proof.
  induction values as [|v values IH]; intros k f rest R V C W B.
  - rewrite items_end by (rewrite W; change (len (@nil Z)) with 0; lia).
    exists (af_reader f). rewrite firstn_nil, skipn_nil, Nat.sub_0_r. split; auto. destruct f. simpl in *. rewrite W. reflexivity.
  - inversion V as [|? ? V0 V']; subst. rewrite len_cons in W. pose proof (width_pos b). pose proof (len_nonneg values).
    cbn [map concat] in C. rewrite <- app_assoc in C.
    destruct k as [|k].
    + exists (af_reader f). cbn [repeat arun firstn skipn map app length Nat.sub]. split; [destruct f; simpl in *; rewrite W, len_cons; reflexivity|].
      split; auto. cbn [map concat]. rewrite <- app_assoc. exact C.
    + destruct (item_ready m b f v _ R V0 C) as (s1 & E1 & R1 & C1); [nia|].
      cbn [repeat arun astep]. rewrite E1.
      destruct (IH k (mk_afits (af_start f) (af_rem f - width b) (af_num f) (af_error f) s1) rest) as (s2 & E2 & R2 & C2); cbn [af_reader af_rem]; auto; [lia|lia|].
      rewrite E2. exists s2. cbn [firstn skipn map app length Nat.sub af_start af_num af_error]. auto.
Qed.

(** Bytes read as items of any width stay within the data unit. *)
Lemma item_aready m b d f q : octets d -> len d < 2 ^ 64 -> aready d f q -> (width b | af_rem f) ->
  let f' := snd (item_next m b f) in
  aready d f' q /\ (width b | af_rem f') /\ af_start f' = af_start f.
Proof.
  intros O B A D. cbv zeta. destruct (Z.eqb_spec (af_rem f) 0) as [Z0|Z0]; [rewrite item_end by auto; auto|].
  destruct A as (E & [(S & A & R)|(S & o & p & P1 & P2 & P3 & R & A & Q)]); [congruence|].
  pose proof (width_pos b) as W. assert (width b <= af_rem f) by (apply Z.divide_pos_le; auto; lia).
  unfold item_next. replace (af_rem f =? 0) with false by lia. rewrite byte_size_width.
  pose proof (at_pos_len _ _ _ A) as L. pose proof A as (A1 & A2 & A3).
  destruct (read_ready (af_reader f) (width b)) as (s' & Er & R' & C'); [lia|auto|]. rewrite Er, L.
  replace (width b <=? len d - p) with true by lia. rewrite u64_result_small by lia. cbn [snd af_start af_rem].
  split; [|split; auto; apply Z.divide_sub_r; auto; apply Z.divide_refl].
  split; auto. right. cbn [af_start af_rem af_num af_reader]. split; auto. exists o, (p + width b).
  split; [lia|]. split; [lia|]. split; [lia|]. split; [lia|]. split; auto.
  split; auto. split; [lia|]. rewrite C', A3, skipn_skipn. f_equal. lia.
Qed.

Lemma items_aready m b d q k : octets d -> len d < 2 ^ 64 -> forall f, aready d f q -> (width b | af_rem f) ->
  let f' := snd (arun m f (repeat (OItem b) k)) in
  aready d f' q /\ af_start f' = af_start f.
Proof.
  intros O B. induction k as [|k IH]; intros f A D; cbn [repeat arun astep]; cbv zeta; auto.
  destruct (item_aready m b d f q O B A D) as (A1 & D1 & S1).
  destruct (item_next m b f) as (i, f1). cbn [snd] in *.
  destruct (IH f1 A1 D1) as (A2 & S2). destruct (arun m f1 (repeat (OItem b) k)) as (l, f2). cbn [snd] in *.
  split; auto. congruence.
Qed.

(** ** Against the synchronous iterator, for arbitrary bytes *)

Lemma aready_next m d f h size s' : at_pos s' d (h_offset h) -> hdu_size m h = Ok size -> h_offset h + size <= len d ->
  poll_next m f = (AOk (without_offset h), mk_afits false size size false s') ->
  aready d (mk_afits false size size false s') (h_offset h + in_blocks size).
Proof.
  intros A S L _. split; auto. right. cbn [af_start af_num af_rem af_reader]. split; auto.
  pose proof A as (_ & P & _). unfold hdu_size in S. apply size_range in S.
  exists (h_offset h), (h_offset h). split; [lia|]. split; [lia|]. split; [lia|]. split; [lia|]. auto.
Qed.

Lemma finish_ok m f x h f' : finish m f x = (IOk h, f') ->
  exists n r size, x = (Ok h, n, r) /\ hdu_size m h = Ok size /\ f' = mk_fits false (h_offset h) size false r.
Proof.
  unfold finish. destruct x as ((y, n), r). destruct y as [h'|e|]; [|destruct e; try discriminate; destruct (negb (f_start f) && (n =? 0)); discriminate|discriminate].
  destruct (hdu_size m h') as [size| |] eqn:S; try discriminate. intro H. inversion H; subst. eauto 10.
Qed.

(** Both stand before the header at [q], and read it. *)
Lemma both_ok m d f g q h f' p : octets d -> len d < 2 ^ 62 -> ready d f q -> aready d g q -> f_start f = af_start g -> may_leave f p ->
  next m (moved f p) = (IOk h, f') -> complete m (len d) [h] ->
  exists g', poll_next m g = (AOk (without_offset h), g') /\
    exists q', ready d f' q' /\ aready d g' q' /\ f_start f' = false /\ af_start g' = false.
Proof.
  intros O B R A S L N C. rewrite (next_ready m d f q p R L) in N.
  assert (Q: 0 <= q) by (destruct R as (_ & _ & Q & _); auto).
  apply finish_ok in N as (n & r & size & X & Sz & ->).
  pose proof (poll_sim m d g q O A Q) as H. rewrite <- S, X, Sz in H. destruct H as (s' & E & A').
  inversion C as [|? ? C0 _]; subst. specialize (C0 _ Sz).
  pose proof (aready_next m d g h size s' A' Sz C0 E) as AN.
  eexists. split; [exact E|]. exists (h_offset h + in_blocks size). split; [|auto].
  apply new_hdu_inv in X as (c & cards & recs & last & rest & _ & _ & _ & _ & _ & _ & _ & _ & _ & _ & -> & _); auto.
  pose proof A' as (_ & P & _). unfold hdu_size in Sz. apply size_range in Sz. pose proof (in_blocks_range size).
  split; auto. cbn [f_reader rd_data f_start f_pos_du f_num_du rd_pos]. split; auto. split; [lia|]. right.
  split; auto. split; [lia|]. split; [lia|]. split; [lia|]. change (2 ^ 63) with (2 * 2 ^ 62). lia.
Qed.

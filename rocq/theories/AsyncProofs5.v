(** Proofs about reading on after data items, and about truncated data. *)

From Verif Require Import Base Utf8 Text Card Reader Header Xtension Fits Bytes Async.
From Verif Require Import SpecFits SpecImage SpecAsync.
From Verif Require Import FitsProofs FitsProofs3 BytesProofs ImageProofs AsyncProofs AsyncProofs2 AsyncProofs3.
From Coq Require Import ZifyBool.

Lemma next_same m d f g q : aready d f q -> aready d g q -> af_start f = false -> af_start g = false ->
  fst (poll_next m f) = fst (poll_next m g) /\
  forall h, fst (poll_next m f) = AOk h -> same_bytes (snd (poll_next m f)) (snd (poll_next m g)).
Proof.
  intros A1 A2 S1 S2.
  destruct (until_ready d f q A1 S1) as (s1 & U1 & R1 & C1).
  destruct (until_ready d g q A2 S2) as (s2 & U2 & R2 & C2).
  destruct A1 as (E1 & _). destruct A2 as (E2 & _).
  unfold poll_next. rewrite E1, E2, S1, S2, U1, U2.
  destruct (len d <=? q); [split; [reflexivity|discriminate]|].
  assert (L: like s1 s2) by (split; [congruence|]; split; auto; apply steady_lively, R1).
  destruct (anew_like m false s1 s2 L) as [(_ & N & _)|(z & H1 & H2 & H3 & _)]; [contradiction|].
  unfold anew in *. destruct (anew_xtension m s1) as (x, s1'). destruct (anew_xtension m s2) as (y, s2').
  cbn [fst snd] in *. subst x y. destruct z as [h|e|].
  - destruct (xt_num_bytes m (a_xt h)); cbn [fst snd]; split; auto; try discriminate.
    intros _ _. destruct H3 as (H3 & _). repeat split; auto.
  - cbn [fst]. split; [reflexivity|discriminate].
  - cbn [fst]. split; [reflexivity|discriminate].
Qed.

Lemma next_after_items m b values rest f k :
  always_ready (af_reader f) -> Forall (in_range b) values ->
  content (af_reader f) = concat (map (encode b) values) ++ rest ->
  af_rem f = width b * len values -> af_num f = af_rem f -> af_rem f < 2 ^ 64 ->
  af_start f = false -> af_error f = false ->
  let f' := snd (arun m f (repeat (OItem b) k)) in
  fst (poll_next m f') = fst (poll_next m f) /\
  forall h, fst (poll_next m f') = AOk h -> same_bytes (snd (poll_next m f')) (snd (poll_next m f)).
Proof.
  intros R V C W N B S E. cbv zeta.
  destruct (items_run m b values k f rest R V C W B) as (s' & Ei & R' & C'). rewrite Ei. cbn [snd].
  pose proof (concat_encode_len b values) as Lc. pose proof (len_nonneg rest). pose proof (len_nonneg values).
  pose proof (width_pos b). pose proof (len_nonneg (content (af_reader f))) as Ld.
  assert (Lt: len (content (af_reader f)) = af_num f + len rest) by (rewrite C, len_app, Lc; lia).
  assert (Ls: len values = len (firstn k values) + len (skipn k values)) by (rewrite <- len_app, firstn_skipn; reflexivity).
  assert (Af: aready (content (af_reader f)) f (in_blocks (af_num f))).
  { split; auto. right. split; auto. exists 0, 0. split; [lia|]. split; [lia|]. split; [lia|]. split; [lia|].
    split; [|lia]. split; auto. split; [lia|]. reflexivity. }
  apply (next_same m (content (af_reader f)) _ _ (in_blocks (af_num f))); auto.
  split; auto. right. cbn [af_start af_num af_rem af_reader]. split; auto.
  pose proof (len_nonneg (firstn k values)). pose proof (len_nonneg (skipn k values)).
  exists 0, (width b * len (firstn k values)).
  split; [nia|]. split; [nia|]. split; [lia|]. split; [nia|]. split; [|lia]. split; auto. split; [nia|].
  rewrite C'. rewrite C. 
  assert (Sp: concat (map (encode b) values) = concat (map (encode b) (firstn k values)) ++ concat (map (encode b) (skipn k values)))
    by (rewrite <- concat_app, <- map_app, firstn_skipn; reflexivity).
  rewrite Sp, <- app_assoc.
  pose proof (concat_encode_len b (firstn k values)) as Lf.
  rewrite skipn_app_ge by (unfold len in *; lia). 
  replace (Z.to_nat _ - _)%nat with 0%nat by (unfold len in *; lia). reflexivity.
Qed.

(** A truncated data unit: errors for ever. *)
Lemma items_truncated m b : forall k f,
  always_ready (af_reader f) -> len (content (af_reader f)) < width b -> af_rem f <> 0 ->
  fst (arun m f (repeat (OItem b) k)) = repeat (RItem (SErr EEof)) k.
Proof.
  induction k as [|k IH]; intros f R L N; auto. cbn [repeat arun astep].
  assert (H: exists s', item_next m b f = (SErr EEof, af_set_reader f s') /\ always_ready s' /\ content s' = []).
  { unfold item_next. replace (af_rem f =? 0) with false by lia. rewrite byte_size_width. pose proof (width_pos b).
    destruct (read_ready (af_reader f) (width b)) as (s' & E & R' & C'); [lia|auto|]. rewrite E.
    replace (width b <=? _) with false by lia. exists s'. split; auto. split; auto.
    rewrite C'. apply skipn_all2. unfold len in L. lia. }
  destruct H as (s' & E & R' & C'). rewrite E.
  specialize (IH (af_set_reader f s')). cbn [af_set_reader af_reader af_rem] in IH. rewrite C' in IH.
  pose proof (width_pos b).
  destruct (arun m (af_set_reader f s') (repeat (OItem b) k)) as (l, f2). cbn [fst] in *.
  rewrite IH; auto. change (len (@nil Z)) with 0. lia.
Qed.

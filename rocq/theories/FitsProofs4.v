(** Proofs about alignment, opening records and truncated files. *)

From Verif Require Import Base Utf8 Text Card Reader Header Xtension Fits.
From Verif Require Import SpecUtf8 SpecCard SpecHeader SpecXt SpecFits.
From Verif Require Import TextLemmas HeaderProofs HeaderProofs2 HeaderProps XtProofs2 FitsProofs FitsProofs2 FitsProofs3.
From Coq Require Import ZifyBool.

(** ** What a successful call has read *)

Lemma next_ok_inv m d f h f' :
  octets d -> rd_data (f_reader f) = d -> 0 <= rd_pos (f_reader f) -> next m f = (IOk h, f') ->
  f_error f = false /\
  exists q n, 0 <= q /\ new_hdu m (f_start f) (mk_reader d q) = (Ok h, n, mk_reader d (h_offset h)) /\
    (f_start f = true -> q = rd_pos (f_reader f)) /\
    (f_start f = false -> consume_until_next_hdu m f = (Ok tt, mk_reader d q)) /\
    exists size, hdu_size m h = Ok size /\
      f' = mk_fits false (h_offset h) size false (mk_reader d (h_offset h)).
Proof.
  intros O D P H.
  assert (E: f_error f = false) by (unfold next in H; destruct (f_error f); [discriminate|auto]).
  split; auto.
  assert (Fin: forall q x, 0 <= q -> x = new_hdu m (f_start f) (mk_reader d q) -> finish m f x = (IOk h, f') ->
     exists n, new_hdu m (f_start f) (mk_reader d q) = (Ok h, n, mk_reader d (h_offset h)) /\
       exists size, hdu_size m h = Ok size /\
      f' = mk_fits false (h_offset h) size false (mk_reader d (h_offset h))).
  { intros q x Q X F. rewrite <- X. unfold finish in F. destruct x as ((y, n), r).
    destruct y as [h'|e|]; [|destruct e; try discriminate; destruct (negb (f_start f) && (n =? 0)); discriminate|discriminate].
    destruct (hdu_size m h') as [size| |] eqn:S; try discriminate. inversion F; subst h' f'.
    symmetry in X. pose proof X as X'. apply new_hdu_inv in X'; auto.
    destruct X' as (c & cards & recs & last & rest & _ & _ & _ & _ & _ & _ & _ & _ & _ & _ & -> & _).
    exists n. split; auto. exists size. auto. }
  destruct (f_start f) eqn:S.
  - rewrite next_start in H by auto. exists (rd_pos (f_reader f)).
    destruct (Fin (rd_pos (f_reader f)) (new_primary m (f_reader f)) P) as (n & N & R); auto.
    { unfold new_hdu. rewrite <- D. destruct (f_reader f); reflexivity. }
    exists n. split; auto. split; auto. split; auto. split; [discriminate|]. exact R.
  - destruct (consume_until_next_hdu m f) as (x, r) eqn:C. destruct x as [[]|e|].
    + rewrite (next_not_start m f r E S C) in H.
      pose proof C as C'. rewrite <- (moved_same f) in C'. apply consume_pos in C' as (q & -> & Q). rewrite D in *.
      exists q. destruct (Fin q (new_xtension m (mk_reader d q)) Q) as (n & N & R); auto.
      exists n. split; auto. split; auto. split; [discriminate|]. auto.
    + exfalso. unfold next in H. rewrite E, S, C in H. discriminate.
    + exfalso. unfold next in H. rewrite E, S, C in H. discriminate.
Qed.

Lemma first_record (d : list Z) q r recs last rest :
  0 <= q -> skipn (Z.to_nat q) d = concat (r :: recs) ++ last ++ rest -> length r = 80%nat ->
  slice d q 80 = r.
Proof.
  intros Q E L. unfold slice. rewrite E. cbn [concat]. rewrite <- app_assoc.
  change (Z.to_nat 80) with 80%nat. rewrite <- L, firstn_app, Nat.sub_diag. simpl.
  rewrite app_nil_r. apply firstn_all.
Qed.

Lemma opens_as m d f h f' :
  octets d -> rd_data (f_reader f) = d -> 0 <= rd_pos (f_reader f) -> next m f = (IOk h, f') ->
  0 <= h_offset h - in_blocks (80 * len (h_cards h)) /\
  opening_record (h_kind h) (slice d (h_offset h - in_blocks (80 * len (h_cards h))) 80) /\
  (f_start f = true <-> h_kind h = HPrimary).
Proof.
  intros O D P H. destruct (next_ok_inv m d f h f' O D P H) as (_ & q & n & Q & N & _).
  destruct (new_hdu_inv _ _ _ _ _ _ _ O Q N)
    as (c & cards & recs & last & rest & E & F & LE & R & HC & Op & K & _ & _ & HO & _ & HL).
  replace (h_offset h - in_blocks (80 * len (h_cards h))) with q by lia.
  split; auto. split; auto.
  destruct recs as [|r recs]; [inversion R|].
  inversion F as [|? ? (L & _) FT]; subst. inversion R as [|? ? ? ? R0 RT]; subst.
  rewrite (first_record (rd_data (f_reader f)) q r recs last rest Q E L).
  eapply opening_record_of; eauto.
  assert (O2: octets (skipn (Z.to_nat q) (rd_data (f_reader f)))) by (apply octets_skipn; auto).
  rewrite E in O2. cbn [concat] in O2. rewrite <- app_assoc in O2. now apply octets_app in O2.
Qed.

(** ** Alignment *)

(** States after the end has been found, or after an error or a panic. *)
Definition ended (d : list Z) (f : fits) : Prop :=
  f_error f = true \/
  f_start f = false /\ rd_data (f_reader f) = d /\ 0 <= f_pos_du f /\ 0 <= f_num_du f /\
  0 <= rd_pos (f_reader f) < 2 ^ 63 /\
  f_pos_du f + in_blocks (f_num_du f) < 2 ^ 63 /\ len d < f_pos_du f + in_blocks (f_num_du f) + 80.

Lemma consume_any m f p :
  0 <= f_pos_du f -> 0 <= p < 2 ^ 63 -> 0 <= f_num_du f ->
  f_pos_du f + in_blocks (f_num_du f) < 2 ^ 63 ->
  consume_until_next_hdu m (moved f p)
  = (Ok tt, mk_reader (rd_data (f_reader f)) (f_pos_du f + in_blocks (f_num_du f))) \/
  exists r, consume_until_next_hdu m (moved f p) = (Panic, r).
Proof.
  intros H1 H2 H3 H4. destruct m; [|left; apply consume_wrapping; auto].
  assert (C: f_pos_du f <= p <= f_pos_du f + f_num_du f \/ ~ f_pos_du f <= p <= f_pos_du f + f_num_du f) by lia.
  destruct C as [C|C]; [left; apply consume_moved; lia|].
  right. rewrite consume_skip. destruct (skip_of Checked (f_pos_du f) (f_num_du f) p) as [s|e|] eqn:SK; eauto.
  - apply skip_ok in SK as (_ & _ & SK). specialize (SK eq_refl). lia.
  - exfalso. clear -SK. unfold skip_of in SK.
    assert (NE: forall z e, u64_result Checked z <> Err e) by (intros z e'; unfold u64_result; destruct (_ && _); discriminate).
    destruct (u64_result Checked _) eqn:X; cbn [bind] in SK; try discriminate; [|eapply NE; eauto].
    destruct (u64_result Checked (_ - a)) eqn:X2; cbn [bind] in SK; try discriminate; [|eapply NE; eauto].
    destruct (_ =? 0); [discriminate|]. eapply NE; eauto.
Qed.

Lemma ended_step m d f p i f' :
  octets d -> len d < 2 ^ 63 -> ended d f -> may_leave f p -> next m (moved f p) = (i, f') ->
  i = IPanic \/ i = INone /\ ended d f'.
Proof.
  intros O LD [E|(S & D & P1 & P2 & P3 & P4 & P5)] L N.
  - unfold next in N. cbn [moved f_error] in N. rewrite E in N. inversion N; subst. right. split; auto. left. exact E.
  - destruct (f_error f) eqn:E.
    { unfold next in N. cbn [moved f_error] in N. rewrite E in N. inversion N; subst. right. split; auto. left. exact E. }
    pose proof (in_blocks_range (f_num_du f)) as IB.
    assert (PR: 0 <= p < 2 ^ 63) by (destruct L as [->|(_ & L)]; lia).
    destruct (consume_any m f p P1 PR P2 P4) as [C|(r & C)].
    + rewrite (next_not_start m (moved f p) _ E S C) in N. rewrite D in N.
      pose proof (eof_here m d (f_pos_du f + in_blocks (f_num_du f)) false O ltac:(lia) P5) as X. unfold new_hdu in X.
      rewrite X in N. unfold finish in N. cbn [moved f_start f_pos_du f_num_du] in N. rewrite S in N.
      cbn [negb andb] in N. change (0 =? 0) with true in N. cbn iota in N. inversion N; subst.
      right. split; auto. right. cbn [f_start f_reader rd_data rd_pos f_pos_du f_num_du].
      pose proof (len_nonneg (rd_data (f_reader f))). repeat split; auto.
    + left. assert (X: fst (next m (moved f p)) = IPanic) by (eapply next_consume_panic; [exact E|exact S|exact C]).
      rewrite N in X. exact X.
Qed.

Lemma ended_no_ok m d f l f2 :
  octets d -> len d < 2 ^ 63 -> yields m f l f2 -> ended d f -> Forall (fun i => forall h, i <> IOk h) l.
Proof.
  intros O LD Y. induction Y as [f0|f0 p f1 L N|f0 p i f1 l f2 L N NP Y IH]; intro E.
  - constructor.
  - constructor; [discriminate|constructor].
  - destruct (ended_step m d f0 p i f1 O LD E L N) as [->|(-> & E1)]; [congruence|].
    constructor; auto. discriminate.
Qed.

Lemma chain_from m d l : octets d -> len d < 2 ^ 63 -> forall f q f2,
  ready d f q -> q mod 2880 = 0 -> yields m f l f2 -> sizes_fit m l -> chained m q l.
Proof.
  intros O LD. induction l as [|i l IH]; intros f q f2 R Q Y SF; [exact Logic.I|].
  inversion Y as [|f0 p f0' L N|f0 p i0 f1 l0 f0'' L N NP Y0]; subst.
  { constructor. }
  pose proof R as (E & D & Q0 & RR).
  pose proof N as N'. rewrite (next_ready m d f q p R L) in N'.
  destruct (new_hdu m (f_start f) (mk_reader d q)) as ((x, n), r) eqn:X.
  unfold finish in N'. destruct x as [h|e|]; [| |inversion N'; congruence].
  - destruct (hdu_size m h) as [size| |] eqn:S; try (inversion N'; congruence).
    inversion N'; subst i f1. clear N'.
    destruct (new_hdu_inv _ _ _ _ _ _ _ O Q0 X)
      as (c & cards & recs & last & rest & _ & _ & _ & _ & _ & _ & _ & _ & _ & HO & -> & HL).
    cbn [chained]. split; auto. split.
    { rewrite HO. pose proof (in_blocks_mod (80 * len (h_cards h))). lia. }
    intros n' S'. rewrite S in S'. inversion S'; subst n'.
    assert (SZ: h_offset h + in_blocks size < 2 ^ 63) by (apply (SF h); simpl; auto).
    pose proof (size_range _ _ _ S) as SR. pose proof (in_blocks_range size) as IB.
    pose proof (in_blocks_range (80 * len (h_cards h))) as IH2. pose proof (len_nonneg (h_cards h)).
    eapply (IH _ _ f2); [| |exact Y0|].
    + unfold ready. cbn [f_error f_reader rd_data f_start rd_pos f_pos_du f_num_du].
      split; auto. split; auto. split; [lia|]. right. repeat split; lia.
    + rewrite HO. pose proof (in_blocks_mod (80 * len (h_cards h))). pose proof (in_blocks_mod size). lia.
    + intros h' n' I. apply SF. simpl; auto.
  - assert (G: exists i', i = i' /\ (forall h, i' <> IOk h) /\ (i' = INone /\ f1 = mk_fits false (f_pos_du f) (f_num_du f) false r /\ f_start f = false /\ n = 0 /\ e = EEof \/ f_error f1 = true)).
    { destruct e; try (inversion N'; subst; eexists; repeat split; [discriminate|right; reflexivity]).
      destruct (f_start f) eqn:S; cbn [negb andb] in N'.
      - inversion N'; subst. eexists; repeat split; [discriminate|right; reflexivity].
      - destruct (Z.eqb_spec n 0).
        + inversion N'; subst. eexists; repeat split; [discriminate|]. left. auto.
        + inversion N'; subst. eexists; repeat split; [discriminate|right; reflexivity]. }
    destruct G as (i' & <- & NI & G).
    assert (CH: Forall (fun i => forall h, i <> IOk h) l -> chained m q (i :: l)).
    { intro Fl. destruct i; auto. exfalso. eapply NI; eauto. }
    apply CH. apply (ended_no_ok m d f1 l f2 O LD Y0).
    destruct G as [(-> & -> & S & -> & ->)|G]; [right|left; auto].
    destruct RR as [(S' & _)|(_ & R1 & R2 & R3 & R4)]; [congruence|].
    unfold new_hdu in X. rewrite S in X. destruct (eof_only m d q 0 r O Q0 X) as (L80 & ->); [lia|].
    cbn [f_start f_reader rd_data rd_pos f_pos_du f_num_du]. pose proof (len_nonneg d). repeat split; auto; lia.
Qed.

Lemma ready_opened d : ready d (opened d) 0.
Proof. unfold ready, opened. simpl. repeat split; auto; try lia. Qed.

Lemma offsets_chained m d l f :
  octets d -> len d < 2 ^ 63 -> yields m (opened d) l f -> sizes_fit m l -> chained m 0 l.
Proof. intros O L Y S. eapply chain_from; eauto. apply ready_opened. Qed.

(** ** Whole and truncated files *)

Lemma placed_concat d hs : forall q rest,
  0 <= q -> skipn (Z.to_nat q) d = concat (map (fun ks => hdu_bytes (snd ks)) hs) ++ rest -> placed d q hs.
Proof.
  induction hs as [|(k, s) hs IH]; intros q rest Q E; [exact Logic.I|].
  cbn [map concat snd] in E. rewrite <- app_assoc in E. cbn [placed]. split.
  - exists (s_data s ++ s_dpad s ++ concat (map (fun ks => hdu_bytes (snd ks)) hs) ++ rest).
    rewrite E. unfold hdu_bytes. rewrite <- !app_assoc. reflexivity.
  - apply (IH _ rest); [pose proof (len_nonneg (hdu_bytes s)); lia|].
    replace (Z.to_nat (q + len (hdu_bytes s))) with (Z.to_nat q + length (hdu_bytes s))%nat by (unfold len; lia).
    rewrite <- skipn_skipn, E, skipn_app, skipn_all, Nat.sub_diag. reflexivity.
Qed.

Lemma placed_app d hs1 : forall q hs2,
  placed d q hs1 -> placed d (q + total_len hs1) hs2 -> placed d q (hs1 ++ hs2).
Proof.
  induction hs1 as [|(k, s) hs1 IH]; intros q hs2 H1 H2; simpl in *.
  - now rewrite Z.add_0_r in H2.
  - destruct H1 as (H1 & H1'). split; auto. apply IH; auto. now rewrite <- Z.add_assoc.
Qed.

Lemma total_len_concat hs : total_len hs = len (concat (map (fun ks => hdu_bytes (snd ks)) hs)).
Proof. induction hs as [|(k, s) hs IH]; simpl; auto. rewrite len_app, IH. reflexivity. Qed.

Lemma total_len_app a b : total_len (a ++ b) = total_len a + total_len b.
Proof. induction a as [|(k, s) a IH]; simpl; auto. lia. Qed.

Lemma file_kinds_from hs : file_kinds hs -> kinds_from true hs.
Proof. destruct hs as [|(k, s) hs]; simpl; [tauto|]. intros (-> & F). auto. Qed.

(** The last HDU may be cut anywhere behind its header, and fewer than 80 bytes may follow. *)
Lemma file_items m d init k s rest :
  octets d -> file_kinds (init ++ [(k, s)]) -> Forall (accepted m) (init ++ [(k, s)]) ->
  d = concat (map (fun ks => hdu_bytes (snd ks)) init) ++ header_bytes s ++ rest ->
  len rest < in_blocks (len (s_data s)) + 80 ->
  len (concat (map (fun ks => hdu_bytes (snd ks)) (init ++ [(k, s)]))) < 2 ^ 63 ->
  exists full, items_for m 0 (init ++ [(k, s)]) full /\
    (exists f', yields m (opened d) (full ++ [INone]) f') /\
    (forall l f2, yields m (opened d) l f2 -> (length l <= length (init ++ [(k, s)]) + 1)%nat ->
       l = firstn (length l) (full ++ [INone])).
Proof.
  intros O K A D LR B.
  assert (P: placed d 0 (init ++ [(k, s)])).
  { apply placed_app.
    - apply (placed_concat d init 0 (header_bytes s ++ rest)); [lia|]. exact D.
    - rewrite Z.add_0_l, total_len_concat. cbn [placed]. split; auto. exists rest.
      rewrite D at 1. unfold len. rewrite Nat2Z.id, skipn_app, skipn_all, Nat.sub_diag. reflexivity. }
  assert (LE: len (hdu_bytes s) = len (header_bytes s) + in_blocks (len (s_data s))).
  { apply Forall_app in A as (_ & A). inversion A as [|? ? (vs & x & W) _]; subst.
    destruct W as (_ & _ & _ & W & _). cbn [snd] in W. unfold hdu_bytes. rewrite len_app, W. reflexivity. }
  apply (iterate_then m d (init ++ [(k, s)]) (opened d) 0 INone); auto.
  - apply ready_opened.
  - cbn [opened from_reader f_start]. now apply file_kinds_from.
  - rewrite total_len_concat. lia.
  - intros f' R S' _ p L. rewrite (next_ready m d f' _ p R L).
    assert (S: f_start f' = false) by (apply S'; destruct init; discriminate).
    rewrite eof_here; auto.
    + unfold finish. rewrite S. reflexivity.
    + pose proof (total_len_nonneg (init ++ [(k, s)])). lia.
    + rewrite total_len_app. cbn [total_len]. rewrite total_len_concat, D, !len_app, LE.
      unfold len in *. lia.
  - discriminate.
Qed.

Lemma whole_file_items m d hs :
  octets d -> file_kinds hs -> Forall (accepted m) hs ->
  d = concat (map (fun ks => hdu_bytes (snd ks)) hs) -> len d < 2 ^ 63 ->
  exists full, items_for m 0 hs full /\
    (exists f', yields m (opened d) (full ++ [INone]) f') /\
    (forall l f2, yields m (opened d) l f2 -> (length l <= length hs + 1)%nat ->
       l = firstn (length l) (full ++ [INone])).
Proof.
  intros O K A D L. destruct (@exists_last _ hs) as (init & (k & s) & ->).
  { destruct hs; [contradiction|discriminate]. }
  apply (file_items m d init k s (s_data s ++ s_dpad s)); auto.
  - rewrite D, map_app, concat_app. cbn [map concat snd]. unfold hdu_bytes. rewrite app_nil_r. reflexivity.
  - apply Forall_app in A as (_ & A). inversion A as [|? ? (vs & x & W) _]; subst.
    destruct W as (_ & _ & _ & W & _). cbn [snd] in W. rewrite W. lia.
  - rewrite <- D. exact L.
Qed.

(** A header cut after [n] bytes. *)
Lemma firstn_records recs : forall n last,
  Forall header_record recs -> (80 <= length last)%nat -> (n < 80 * (length recs + 1))%nat ->
  exists k tail, firstn n (concat recs ++ last) = concat (firstn k recs) ++ tail /\ (length tail < 80)%nat /\
    (recs <> [] -> (80 <= n)%nat -> firstn k recs <> []).
Proof.
  induction recs as [|r recs IH]; intros n last F L H.
  - exists 0%nat, (firstn n last). split; auto. rewrite firstn_length. simpl in H. split; [lia|congruence].
  - destruct (Nat.ltb_spec n 80) as [N|N].
    + exists 0%nat, (firstn n (concat (r :: recs) ++ last)). split; auto. rewrite firstn_length. split; lia.
    + inversion F as [|? ? (Lr & _) F']; subst.
      destruct (IH (n - 80)%nat last F' L) as (k & tail & E & T & _); [simpl in H; lia|].
      exists (S k), tail. cbn [firstn concat]. rewrite <- !app_assoc, firstn_app, Lr, E.
      rewrite firstn_all2 by lia. split; auto. split; auto. intros _ _. discriminate.
Qed.

Lemma well_formed_parts m k s vs x : well_formed m k s vs x ->
  Forall header_record (s_records s) /\ end_record (s_end s) /\ s_records s <> [] /\
  len (header_bytes s) = in_blocks (80 * (len (s_records s) + 1)).
Proof.
  intros (W1 & W2 & W3 & W4 & c & cards & R & _). split; auto. split; auto. split; auto.
  intro E. rewrite E in R. inversion R.
Qed.

Lemma cut_header m d q k s vs x n :
  octets d -> 0 <= q -> well_formed m k s vs x ->
  skipn (Z.to_nat q) d = firstn n (header_bytes s) ->
  (80 <= n)%nat -> (n < length (header_bytes s))%nat ->
  let e := if Z.of_nat n <? 80 * (len (s_records s) + 1) then EEof else EStatic in
  exists n', new_hdu m (prim k) (mk_reader d q) = (Err e, n', mk_reader d (len d)) /\ 0 < n'.
Proof.
  intros O Q W E N1 N2 e. destruct (well_formed_parts _ _ _ _ _ W) as (W1 & W2 & W3 & W4).
  pose proof (len_nonneg (s_records s)) as LR.
  unfold e. clear e. destruct (Z.ltb_spec (Z.of_nat n) (80 * (len (s_records s) + 1))) as [H|H].
  - unfold header_bytes in E.
    destruct (firstn_records (s_records s) n (s_end s ++ s_hpad s)) as (j & tail & F & T & NE); auto.
    { rewrite app_length. destruct W2 as (W2 & _). lia. }
    { unfold len in H. lia. }
    assert (C: consume_cards (mk_reader d q) 0 = (Err EEof, 0 + 80 * len (firstn j (s_records s)), mk_reader d (len d))).
    { apply (consume_cards_eof d q 0 (firstn j (s_records s)) tail); auto; [rewrite E; exact F|].
      apply Forall_firstn; auto. }
    specialize (NE W3 N1).
    exists (80 * len (firstn j (s_records s))). split.
    + unfold new_hdu, new_primary, new_xtension. rewrite C. destruct (prim k); reflexivity.
    + destruct (firstn j (s_records s)) as [|a l]; [congruence|]. rewrite len_cons. pose proof (len_nonneg l). lia.
  - destruct W as (_ & _ & _ & _ & c & cards & R & Op & P & X & _).
    pose proof (concat_records_len _ W1) as CL. pose proof W2 as (L2 & _).
    assert (E': skipn (Z.to_nat q) d = concat (s_records s) ++ s_end s ++ firstn (n - 80 * (length (s_records s) + 1)) (s_hpad s)).
    { rewrite E. unfold header_bytes. rewrite !firstn_app.
      rewrite firstn_all2 by (unfold len in CL, H; lia). f_equal.
      rewrite firstn_all2 by (unfold len in CL, H; lia). f_equal. f_equal. unfold len in CL. lia. }
    destruct (consume_cards_ok d q 0 _ _ _ O Q E' W1 W2) as (cs & R' & _ & C). rewrite Z.add_0_l in C.
    assert (cs = c :: cards) by (eapply Forall2_reads_fun; eauto). subst cs.
    pose proof (new_hdu_ok m k d q _ c (cards ++ [CEnd]) C Op) as NH. fold (prim k) in NH.
    assert (LD: len d = q + Z.of_nat n).
    { assert (LS: length (skipn (Z.to_nat q) d) = n) by (rewrite E, firstn_length; lia).
      rewrite skipn_length in LS. unfold len. lia. }
    exists (80 * (len (s_records s) + 1)). rewrite NH. split; [|lia].
    eapply hdu_new_short; eauto; [lia|]. rewrite <- W4. unfold len in *. lia.
Qed.

Lemma cut_extension_items m d hs k s n :
  octets d -> file_kinds hs -> Forall (accepted m) hs -> k <> HPrimary -> accepted m (k, s) ->
  d = concat (map (fun ks => hdu_bytes (snd ks)) hs) ++ firstn n (header_bytes s) ->
  (80 <= n)%nat -> (n < length (header_bytes s))%nat -> len d < 2 ^ 63 ->
  let e := if Z.of_nat n <? 80 * (len (s_records s) + 1) then EEof else EStatic in
  exists full, items_for m 0 hs full /\
    (exists f', yields m (opened d) (full ++ [IErr e]) f') /\
    (forall l f2, yields m (opened d) l f2 -> (length l <= length hs + 1)%nat ->
       l = firstn (length l) (full ++ [IErr e])).
Proof.
  intros O K A NK (vs & x & W) D N1 N2 B e. cbn [fst snd] in W.
  assert (TL: total_len hs = len (concat (map (fun ks => hdu_bytes (snd ks)) hs))) by apply total_len_concat.
  assert (LB: total_len hs < 2 ^ 63).
  { rewrite TL. rewrite D, len_app in B. pose proof (len_nonneg (firstn n (header_bytes s))). lia. }
  apply (iterate_then m d hs (opened d) 0 (IErr e)); auto.
  - apply ready_opened.
  - cbn [opened from_reader f_start]. now apply file_kinds_from.
  - apply (placed_concat d hs 0 (firstn n (header_bytes s))); [lia|]. exact D.
  - intros f' R S' _ p L. rewrite (next_ready m d f' _ p R L).
    assert (S: f_start f' = false) by (apply S'; destruct hs; [contradiction|discriminate]).
    assert (PK: prim k = false) by (destruct k; auto; congruence).
    destruct (cut_header m d (0 + total_len hs) k s vs x n O) as (n' & NH & Pos); auto.
    + pose proof (total_len_nonneg hs). lia.
    + rewrite Z.add_0_l, TL. rewrite D at 1. unfold len. rewrite Nat2Z.id, skipn_app, skipn_all, Nat.sub_diag. reflexivity.
    + rewrite S. rewrite PK in NH. rewrite NH. unfold finish. rewrite S. cbn [negb andb].
      replace (n' =? 0) with false by lia. unfold e. destruct (Z.of_nat n <? _); reflexivity.
  - discriminate.
Qed.

(** Every proper prefix of a primary header is an error. *)
Lemma cut_primary m recs last pad n :
  octets (concat recs ++ last ++ pad) -> Forall header_record recs -> end_record last ->
  len (concat recs ++ last ++ pad) = in_blocks (80 * (len recs + 1)) ->
  (n < length (concat recs ++ last ++ pad))%nat ->
  exists e, fst (next m (opened (firstn n (concat recs ++ last ++ pad)))) = IErr e.
Proof.
  intros O W1 W2 W4 N. set (d := firstn n (concat recs ++ last ++ pad)).
  assert (Od: octets d) by (apply Forall_firstn; auto).
  pose proof (len_nonneg recs) as LR.
  rewrite next_start by reflexivity. cbn [opened from_reader f_reader].
  assert (G: forall x, (exists e n' r, x = (Err e, n', r)) -> exists e, fst (finish m (opened d) x) = IErr e).
  { intros x (e & n' & r & ->). exists e. unfold finish. destruct e; reflexivity. }
  apply G. clear G.
  destruct (Z.ltb_spec (Z.of_nat n) (80 * (len recs + 1))) as [H|H].
  - destruct (firstn_records recs n (last ++ pad)) as (j & tail & F & T & NE); auto.
    { rewrite app_length. destruct W2 as (W2 & _). lia. }
    { unfold len in H. lia. }
    unfold new_primary.
    rewrite (consume_cards_eof d 0 0 (firstn j recs) tail); auto; [eauto|lia|].
    apply Forall_firstn; auto.
  - pose proof (concat_records_len _ W1) as CL. pose proof W2 as (L2 & _).
    assert (E': skipn (Z.to_nat 0) d = concat recs ++ last ++ firstn (n - 80 * (length recs + 1)) pad).
    { unfold d. change (Z.to_nat 0) with 0%nat. cbn [skipn]. rewrite !firstn_app.
      rewrite firstn_all2 by (unfold len in CL, H; lia). f_equal.
      rewrite firstn_all2 by (unfold len in CL, H; lia). f_equal. f_equal. unfold len in CL. lia. }
    destruct (consume_cards_ok d 0 0 _ _ _ Od (Z.le_refl 0) E' W1 W2) as (cs & R' & NE & C). rewrite !Z.add_0_l in C.
    unfold new_primary. rewrite C.
    destruct cs as [|c cs]; [simpl; eauto|]. cbn [app].
    destruct c as [name v|name v|x cm| | | | | |]; try (simpl; eauto; fail).
    destruct v as [| |b cm| | |]; try (simpl; eauto; fail). destruct b; try (simpl; eauto; fail).
    destruct (str_eqb name (chars "SIMPLE")); [|eauto].
    assert (LD: len d = Z.of_nat n) by (unfold d, len; rewrite firstn_length; lia).
    destruct (process_cards_spec (CValue name (VLogical true cm) :: cs) NE) as (vs & PC & _).
    specialize (PC m). cbn [app] in PC.
    destruct (xt_parse m XImage vs) as [x|e|] eqn:X.
    + rewrite (hdu_new_short m HPrimary XImage d _ _ _ vs x PC X); [eauto|lia|].
      rewrite <- W4. unfold len in *. lia.
    + unfold hdu_new. rewrite PC. cbn [bind]. rewrite X. cbn [bind]. eauto.
    + exfalso. cbn [xt_parse] in X. destruct (image_parse vs) eqn:IP; cbn [bind] in X; try discriminate.
      eapply image_parse_no_panic; eauto.
Qed.

(** ** Deciding the hypotheses for concrete files (used in the examples only) *)

Definition octetsb (l : list Z) : bool := forallb (fun x => (0 <=? x) && (x <=? 255)) l.
Lemma octetsb_ok l : octetsb l = true -> octets l.
Proof.
  intro H. apply Forall_forall. intros x I. unfold octetsb in H. rewrite forallb_forall in H.
  apply H in I. lia.
Qed.

Definition recordb (r : list Z) : bool :=
  octetsb r && (len r =? 80) && match parse_card r with Ok CEnd => false | Ok _ | Err _ => true | Panic => false end.
Lemma recordb_ok r : recordb r = true -> header_record r.
Proof.
  unfold recordb. intro H. apply andb_true_iff in H as (H & P). apply andb_true_iff in H as (O & L).
  apply octetsb_ok in O. unfold len in L.
  destruct (record_cases r O) as [R|[(_ & R)|R]]; auto; [lia| |]; exfalso.
  - apply CardProofs2.record_end in R. rewrite R in P. discriminate.
  - apply (CardProofs2.parse_card_panic_iff r O) in R. rewrite R in P. discriminate.
Qed.

Definition card_of (r : list Z) : card :=
  match parse_card r with Ok c => c | _ => CUndefined (utf8_lossy r) end.

Definition opensb (k : hkind) (c : card) : bool :=
  match k, c with
  | HPrimary, CValue n (VLogical true _) => str_eqb n (chars "SIMPLE")
  | HImage, CXtension XImage _ | HBinTable, CXtension XBinTable _ | HAsciiTable, CXtension XAsciiTable _ => true
  | _, _ => false
  end.
Lemma opensb_ok k c : opensb k c = true -> opens k c.
Proof.
  destruct k, c as [n v| |x cm| | | | | |]; simpl; try discriminate; try (destruct x; try discriminate; eauto).
  destruct v as [| |b cm| | |]; try discriminate. destruct b; try discriminate. intro H. apply str_eqb_eq in H. subst. eauto.
Qed.

Definition header_check (s : source) : bool :=
  forallb recordb (s_records s) && (len (s_end s) =? 80) &&
  match parse_card (s_end s) with Ok CEnd => true | _ => false end &&
  (len (header_bytes s) =? in_blocks (80 * (len (s_records s) + 1))) &&
  (len (s_data s ++ s_dpad s) =? in_blocks (len (s_data s))).

Lemma source_accepted m k s c cards vs x :
  header_check s = true -> map card_of (s_records s) = c :: cards -> opensb k c = true ->
  process_cards m (c :: cards ++ [CEnd]) = Ok vs -> xt_parse m (xtype_of k) vs = Ok x ->
  declares vs k (len (s_data s)) -> accepted m (k, s).
Proof.
  unfold header_check. intros H M Op P X D.
  repeat (apply andb_true_iff in H as (H & ?)).
  assert (F: Forall header_record (s_records s)).
  { apply Forall_forall. intros r I. apply recordb_ok. rewrite forallb_forall in H. auto. }
  exists vs, x. cbn [fst snd]. split; auto. split.
  { split; [unfold len in *; lia|]. apply CardProofs2.record_end. destruct (parse_card (s_end s)) as [[]| |]; congruence. }
  split; [lia|]. split; [lia|].
  exists c, cards. split; [|split; [apply opensb_ok; auto|]]; auto.
  rewrite <- M. clear -H. induction (s_records s) as [|r l IH]; simpl; constructor.
  - unfold reads_as, card_of. simpl in H. apply andb_true_iff in H as (H & _).
    unfold recordb in H. destruct (parse_card r) as [c0|e|]; auto.
    + right. eauto.
    + rewrite andb_false_r in H. discriminate.
  - simpl in H. apply andb_true_iff in H. tauto.
Qed.

Lemma not_fits m d h f' :
  octets d -> ~ opening_record HPrimary (firstn 80 d) -> next m (opened d) <> (IOk h, f').
Proof.
  intros O N H. pose proof H as H'.
  destruct (next_ok_inv m d (opened d) h f' O eq_refl (Z.le_refl 0) H) as (_ & q & n & Q & NH & Q0 & _).
  specialize (Q0 eq_refl). cbn [opened from_reader f_reader rd_pos] in Q0.
  destruct (opens_as m d (opened d) h f' O eq_refl (Z.le_refl 0) H') as (_ & Op & K).
  destruct (new_hdu_inv _ _ _ _ _ _ _ O Q NH)
    as (c & cards & recs & last & rest & _ & _ & _ & _ & _ & _ & _ & _ & _ & HO & _).
  replace (h_offset h - in_blocks (80 * len (h_cards h))) with 0 in Op by lia.
  assert (HK: h_kind h = HPrimary) by (apply K; reflexivity).
  rewrite HK in Op. apply N. exact Op.
Qed.

Definition no_panicb (l : list item) : bool :=
  forallb (fun i => match i with IPanic => false | _ => true end) l.

Lemma run_yields m n : forall f,
  no_panicb (fst (run m n f)) = true -> yields m f (fst (run m n f)) (snd (run m n f)).
Proof.
  induction n as [|n IH]; intros f H; [constructor|].
  cbn [run] in *. destruct (next m f) as (i, f') eqn:N. destruct (run m n f') as (l, f2) eqn:R.
  cbn [fst snd] in *. simpl in H. apply andb_true_iff in H as (H1 & H2).
  eapply yields_next; [left; reflexivity|rewrite moved_same; exact N| |].
  - destruct i; congruence.
  - specialize (IH f'). rewrite R in IH. apply IH. exact H2.
Qed.

Definition misaligned (l : list item) : bool :=
  existsb (fun i => match i with IOk h => negb (h_offset h mod 2880 =? 0) | _ => false end) l.
Lemma misaligned_ok l : misaligned l = true -> exists h, In (IOk h) l /\ h_offset h mod 2880 <> 0.
Proof.
  intro H. apply existsb_exists in H as (i & I & H). destruct i as [|h| |]; try discriminate.
  exists h. split; auto. intro E. rewrite E in H. discriminate.
Qed.

Definition sizes_fitb (m : mode) (l : list item) : bool :=
  forallb (fun i => match i with
                    | IOk h => match hdu_size m h with Ok n => h_offset h + in_blocks n <? 2 ^ 63 | _ => true end
                    | _ => true
                    end) l.
Lemma sizes_fitb_ok m l : sizes_fitb m l = true -> sizes_fit m l.
Proof.
  intros H h n I S. unfold sizes_fitb in H. rewrite forallb_forall in H. specialize (H _ I). simpl in H.
  rewrite S in H. lia.
Qed.

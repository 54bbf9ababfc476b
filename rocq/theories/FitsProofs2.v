(** Proofs about iteration over whole files. *)

From Verif Require Import Base Utf8 Text Card Reader Header Xtension Fits.
From Verif Require Import SpecUtf8 SpecCard SpecHeader SpecXt SpecFits.
From Verif Require Import TextLemmas HeaderProofs HeaderProofs2 HeaderProps XtProofs2 FitsProofs.
From Coq Require Import ZifyBool.

(** What [next] makes of a header read at the right place. *)
Definition finish (m : mode) (f : fits) (x : res hdu * Z * reader) : item * fits :=
  let keep e r := mk_fits false (f_pos_du f) (f_num_du f) e r in
  match x with
  | (Ok h, _, r) =>
    match hdu_size m h with
    | Ok size => (IOk h, mk_fits false (h_offset h) size false r)
    | _ => (IPanic, keep false r)
    end
  | (Err EEof, n, r) =>
    if negb (f_start f) && (n =? 0) then (INone, keep false r) else (IErr EEof, keep true r)
  | (Err e, _, r) => (IErr e, keep true r)
  | (Panic, _, r) => (IPanic, keep false r)
  end.

(** The next call reads the header at byte [q]. *)
Definition ready (d : list Z) (f : fits) (q : Z) : Prop :=
  f_error f = false /\ rd_data (f_reader f) = d /\ 0 <= q /\
  (f_start f = true /\ rd_pos (f_reader f) = q \/
   f_start f = false /\ 0 <= f_pos_du f <= rd_pos (f_reader f) /\
   rd_pos (f_reader f) <= f_pos_du f + f_num_du f /\
   q = f_pos_du f + in_blocks (f_num_du f) /\ q < 2 ^ 63).

Lemma next_not_start m f r :
  f_error f = false -> f_start f = false -> consume_until_next_hdu m f = (Ok tt, r) ->
  next m f = finish m f (new_xtension m r).
Proof.
  intros E S C. unfold next, finish. rewrite E, S, C. cbn [negb andb].
  destruct (new_xtension m r) as ((x, n), r'). destruct x as [h|e|].
  - destruct (hdu_size m h); reflexivity.
  - destruct e; try reflexivity. destruct (n =? 0); reflexivity.
  - reflexivity.
Qed.

Lemma next_start m f :
  f_error f = false -> f_start f = true -> next m f = finish m f (new_primary m (f_reader f)).
Proof.
  intros E S. unfold next, finish. rewrite E, S. cbn [negb andb].
  destruct (new_primary m (f_reader f)) as ((x, n), r'). destruct x as [h|e|].
  - destruct (hdu_size m h); reflexivity.
  - destruct e; reflexivity.
  - reflexivity.
Qed.

Lemma next_ready m d f q p :
  ready d f q -> may_leave f p ->
  next m (moved f p) = finish m f (new_hdu m (f_start f) (mk_reader d q)).
Proof.
  intros (E & D & Q0 & R) L. subst d.
  destruct R as [(S & R)|(S & R1 & R2 & R3 & R4)].
  - assert (p = q) by (destruct L as [->|(S' & _)]; congruence). subst p.
    rewrite next_start; [|exact E|exact S]. unfold new_hdu. rewrite S.
    unfold finish. cbn [moved f_start f_pos_du f_num_du f_reader]. reflexivity.
  - assert (P: f_pos_du f <= p <= f_pos_du f + f_num_du f) by (destruct L as [->|(_ & L)]; lia).
    rewrite (next_not_start m (moved f p) (mk_reader (rd_data (f_reader f)) q)); [|exact E|exact S|].
    + unfold new_hdu. rewrite S. unfold finish. cbn [moved f_start f_pos_du f_num_du f_reader]. reflexivity.
    + rewrite R3. apply consume_moved; lia.
Qed.

(** ** Reading one well-formed HDU *)

Lemma concat_records_len recs : Forall header_record recs -> len (concat recs) = 80 * len recs.
Proof.
  induction 1 as [|r recs (L & _) _ IH]; simpl; auto. rewrite len_app, len_cons, IH. unfold len. lia.
Qed.

Lemma reads_as_fun r c c' : reads_as r c -> reads_as r c' -> c = c'.
Proof. intros [H|((e & H) & ->)] [H'|((e' & H') & ->)]; congruence. Qed.

Lemma Forall2_reads_fun recs : forall cs cs', Forall2 reads_as recs cs -> Forall2 reads_as recs cs' -> cs = cs'.
Proof.
  induction recs as [|r recs IH]; intros cs cs' H H'; inversion H; inversion H'; subst; auto.
  f_equal; [eapply reads_as_fun; eauto|eapply IH; eauto].
Qed.

Lemma header_reads m k s vs x d q rest :
  octets d -> 0 <= q -> well_formed m k s vs x -> len (s_data s) < 2 ^ 64 ->
  skipn (Z.to_nat q) d = header_bytes s ++ rest ->
  exists h n, new_hdu m (match k with HPrimary => true | _ => false end) (mk_reader d q)
            = (Ok h, n, mk_reader d (h_offset h)) /\ read_from m k q s h.
Proof.
  intros O Q (W1 & W2 & W3 & W4 & c & cards & R & Op & P & X & D) B E.
  assert (E': skipn (Z.to_nat q) d = concat (s_records s) ++ s_end s ++ s_hpad s ++ rest).
  { rewrite E. unfold header_bytes. rewrite <- !app_assoc. reflexivity. }
  destruct (consume_cards_ok d q 0 _ _ _ O Q E' W1 W2) as (cs & R' & _ & C).
  rewrite Z.add_0_l in C.
  assert (cs = c :: cards) by (eapply Forall2_reads_fun; eauto). subst cs.
  pose proof (new_hdu_ok m k d q _ c (cards ++ [CEnd]) C Op) as N.
  pose proof (concat_records_len _ W1) as LC.
  pose proof (len_nonneg rest) as Lr. pose proof (len_nonneg (s_records s)) as Ls.
  assert (Ld: q + len (header_bytes s) <= len d).
  { assert (L: len (skipn (Z.to_nat q) d) = len (header_bytes s) + len rest) by (rewrite E, len_app; auto).
    assert (80 <= len (header_bytes s)) by (rewrite W3; pose proof (in_blocks_range (80 * (len (s_records s) + 1))); lia).
    unfold len in L, Lr, H |- *. rewrite skipn_length in L. lia. }
  rewrite (hdu_new_ok m k (xtype_of k) d _ _ _ vs x P X) in N.
  - eexists (mk_hdu _ _ _ _ _), (in_blocks (80 * (len (s_records s) + 1))).
    split; [exact N|]. unfold read_from. cbn [h_kind h_cards h_values h_xt h_offset].
    split; auto. split; [exists (c :: cards); auto|]. split; auto. split; auto. split; [lia|].
    unfold hdu_size. cbn [h_xt]. eapply declared_size; eauto. pose proof (len_nonneg (s_data s)). lia.
  - lia.
  - rewrite <- W3. lia.
Qed.

Definition prim (k : hkind) : bool := match k with HPrimary => true | _ => false end.

(** [s] is read and the iterator is ready for what follows. *)
Lemma step_hdu m d f q k s vs x rest p :
  octets d -> ready d f q -> f_start f = prim k -> may_leave f p ->
  well_formed m k s vs x -> q + len (hdu_bytes s) < 2 ^ 63 ->
  skipn (Z.to_nat q) d = header_bytes s ++ rest ->
  exists h f', next m (moved f p) = (IOk h, f') /\ read_from m k q s h /\
    ready d f' (q + len (hdu_bytes s)) /\ f_start f' = false /\
    f_pos_du f' = q + len (header_bytes s) /\ f_num_du f' = len (s_data s).
Proof.
  intros O R S L W B E. rewrite (next_ready m d f q p R L), S.
  assert (Q: 0 <= q) by (destruct R as (_ & _ & Q & _); auto).
  pose proof W as (_ & _ & W3 & W4 & _).
  pose proof (len_nonneg (header_bytes s)). pose proof (len_nonneg (s_data s)). pose proof (len_nonneg (s_dpad s)).
  assert (LH: len (hdu_bytes s) = len (header_bytes s) + in_blocks (len (s_data s))).
  { unfold hdu_bytes. rewrite len_app, W4. reflexivity. }
  pose proof (in_blocks_range (len (s_data s))) as IB.
  destruct (header_reads m k s vs x d q rest O Q W) as (h & n & N & RF); auto; [lia|].
  exists h. fold (prim k) in N. rewrite N. unfold finish. pose proof RF as (_ & _ & _ & _ & HO & HS). rewrite HS.
  eexists. split; [reflexivity|]. split; auto.
  split; [|simpl; auto].
  unfold ready. cbn [f_error f_reader rd_data f_start rd_pos f_pos_du f_num_du]. rewrite HO.
  split; auto. split; auto. split; [lia|]. right. split; auto. split; [lia|]. split; [lia|]. lia.
Qed.

(** ** Whole files *)

Fixpoint placed (d : list Z) (q : Z) (hs : list (hkind * source)) : Prop :=
  match hs with
  | [] => True
  | (_, s) :: r => (exists rest, skipn (Z.to_nat q) d = header_bytes s ++ rest) /\
                   placed d (q + len (hdu_bytes s)) r
  end.

Fixpoint total_len (hs : list (hkind * source)) : Z :=
  match hs with [] => 0 | (_, s) :: r => len (hdu_bytes s) + total_len r end.

Lemma total_len_nonneg hs : 0 <= total_len hs.
Proof. induction hs as [|(k, s) hs IH]; simpl; [lia|]. pose proof (len_nonneg (hdu_bytes s)). lia. Qed.

(** The first HDU is primary exactly when the iterator is at its start. *)
Definition kinds_from (start : bool) (hs : list (hkind * source)) : Prop :=
  match hs with
  | [] => True
  | (k, _) :: r => start = prim k /\ Forall (fun ks => fst ks <> HPrimary) r
  end.

Lemma kinds_tail hs : Forall (fun ks : hkind * source => fst ks <> HPrimary) hs -> kinds_from false hs.
Proof.
  intro H. destruct hs as [|(k, s) hs]; simpl; auto. inversion H as [|? ? K F]; subst. simpl in K.
  split; auto. destruct k; auto; congruence.
Qed.

Lemma iterate m d : octets d -> forall hs f q,
  ready d f q -> kinds_from (f_start f) hs -> Forall (accepted m) hs -> placed d q hs ->
  q + total_len hs < 2 ^ 63 ->
  exists full f', items_for m q hs full /\ length full = length hs /\
    yields m f full f' /\ ready d f' (q + total_len hs) /\ (hs <> [] -> f_start f' = false) /\
    (forall l f2, yields m f l f2 -> (length l <= length hs)%nat -> l = firstn (length l) full) /\
    (forall l f2, yields m f l f2 -> (length l = length hs)%nat -> f2 = f').
Proof.
  intro O. induction hs as [|(k, s) hs IH]; intros f q R K A P B.
  - exists [], f. simpl. rewrite Z.add_0_r.
    split; [constructor|]. split; [reflexivity|]. split; [constructor|]. split; [exact R|].
    split; [|split].
    + intros H. congruence.
    + intros [|i l] f2 _ L; [reflexivity|simpl in L; lia].
    + intros l f2 Y L. destruct l; [|discriminate]. inversion Y; auto.
  - destruct K as (K & KT). inversion A as [|? ? (vs & x & W) AT]; subst.
    destruct P as ((rest & E) & P). cbn [total_len] in B. cbn [fst snd] in W.
    pose proof (total_len_nonneg hs). pose proof (len_nonneg (hdu_bytes s)).
    assert (LB: q + len (hdu_bytes s) < 2 ^ 63) by lia.
    assert (Det: forall p, may_leave f p -> next m (moved f p) = next m (moved f (rd_pos (f_reader f)))).
    { intros p L. rewrite (next_ready m d f q p R L). symmetry. apply (next_ready m d f q); auto. left; auto. }
    destruct (step_hdu m d f q k s vs x rest (rd_pos (f_reader f)) O R K) as (h & f1 & N & RF & R1 & S1 & _ & _);
      auto; [left; auto|].
    destruct (IH f1 (q + len (hdu_bytes s))) as (full & f' & I1 & I2 & I3 & I4 & I5 & I6 & I7); auto.
    + rewrite S1. now apply kinds_tail.
    + lia.
    + exists (IOk h :: full), f'. split; [constructor; auto|]. split; [simpl; auto|].
      split; [|split; [|split; [|split]]].
      * eapply yields_next; eauto; [left; reflexivity|discriminate].
      * cbn [total_len]. rewrite Z.add_assoc. exact I4.
      * intros _. destruct hs as [|a hs]; [|apply I5; discriminate].
        simpl in I2. destruct full; [|discriminate]. inversion I3; subst. exact S1.
      * intros l f2 Y L. inversion Y as [|f0 p0 f0' L0 N0|f0 p0 i0 f0' l0 f0'' L0 N0 NP Y0]; subst.
        -- reflexivity.
        -- rewrite (Det _ L0), N in N0. discriminate.
        -- rewrite (Det _ L0), N in N0. inversion N0; subst. cbn [length firstn]. f_equal.
           eapply I6; eauto. simpl in L. lia.
      * intros l f2 Y L. inversion Y as [|f0 p0 f0' L0 N0|f0 p0 i0 f0' l0 f0'' L0 N0 NP Y0]; subst.
        -- discriminate.
        -- rewrite (Det _ L0), N in N0. discriminate.
        -- rewrite (Det _ L0), N in N0. inversion N0; subst. eapply I7; eauto.
Qed.

(** Splitting a run of calls. *)
Lemma yields_split m l1 : forall f l2 f2,
  yields m f (l1 ++ l2) f2 -> l2 <> [] -> exists f1, yields m f l1 f1 /\ yields m f1 l2 f2.
Proof.
  induction l1 as [|i l1 IH]; intros f l2 f2 Y N.
  - exists f. split; [constructor|exact Y].
  - cbn [app] in Y. inversion Y as [|f0 p0 f0' L0 N0|f0 p0 i0 f0' l0 f0'' L0 N0 NP Y0]; subst.
    + destruct l1; destruct l2; try discriminate; congruence.
    + destruct (IH _ _ _ Y0 N) as (f1 & Y1 & Y2). exists f1. split; auto.
      eapply yields_next; eauto.
Qed.

Lemma items_no_panic m q hs full : items_for m q hs full -> Forall (fun i => i <> IPanic) full.
Proof. induction 1; constructor; auto. discriminate. Qed.

(** The whole sequence with one more call. *)
Lemma iterate_then m d hs f q (last : item) :
  octets d ->
  ready d f q -> kinds_from (f_start f) hs -> Forall (accepted m) hs -> placed d q hs ->
  q + total_len hs < 2 ^ 63 ->
  (forall f', ready d f' (q + total_len hs) -> (hs <> [] -> f_start f' = false) -> (hs = [] -> f' = f) ->
     forall p, may_leave f' p -> fst (next m (moved f' p)) = last) ->
  last <> IPanic ->
  exists full, items_for m q hs full /\
    (exists f', yields m f (full ++ [last]) f') /\
    (forall l f2, yields m f l f2 -> (length l <= length hs + 1)%nat ->
       l = firstn (length l) (full ++ [last])).
Proof.
  intros O R K A P B HL NP.
  destruct (iterate m d O hs f q R K A P B) as (full & f' & I1 & I2 & I3 & I4 & I5 & I6 & I7).
  assert (HF: hs = [] -> f' = f).
  { intros ->. destruct full; [|discriminate]. inversion I3; auto. }
  exists full. split; auto. split.
  - specialize (HL f' I4 I5 HF (rd_pos (f_reader f')) (or_introl eq_refl)).
    destruct (next m (moved f' (rd_pos (f_reader f')))) as (i, f'') eqn:N. simpl in HL. subst i.
    assert (NF: Forall (fun i => i <> IPanic) full) by (eapply items_no_panic; eauto).
    exists f''. clear -I3 N NP NF. revert f I3. induction full as [|i full IH]; intros f Y.
    + inversion Y; subst. cbn [app]. eapply yields_next; eauto; [left; reflexivity|constructor].
    + inversion Y as [|f0 p0 f0' L0 N0|f0 p0 i0 f0' l0 f0'' L0 N0 NP0 Y0]; subst.
      * (* a panic is never among the items *)
        inversion NF; congruence.
      * inversion NF; subst. cbn [app]. eapply yields_next; eauto.
  - intros l f2 Y L. destruct (Nat.leb_spec (length l) (length hs)) as [Le|Gt].
    + rewrite firstn_app. rewrite (I6 l f2 Y Le) at 1. rewrite I2.
      replace (length l - length hs)%nat with 0%nat by lia. simpl. rewrite app_nil_r. reflexivity.
    + assert (Ll: length l = S (length hs)) by lia.
      assert (Hs: exists l0 i, l = l0 ++ [i] /\ length l0 = length hs).
      { destruct (rev l) as [|i r] eqn:Er.
        - apply (f_equal (@length _)) in Er. rewrite rev_length in Er. simpl in Er. lia.
        - exists (rev r), i. assert (l = rev r ++ [i]) by (rewrite <- (rev_involutive l), Er; reflexivity).
          split; auto. rewrite H, app_length in Ll. simpl in Ll. lia. }
      destruct Hs as (l0 & i & -> & L0).
      destruct (yields_split _ _ _ _ _ Y) as (f1 & Y1 & Y2); [discriminate|].
      assert (E0: l0 = full).
      { rewrite (I6 l0 f1 Y1) by lia. rewrite L0, <- I2. apply firstn_all. }
      assert (f1 = f') by (eapply I7; eauto). subst f1 l0.
      assert (i = last).
      { inversion Y2 as [|f0 p0 f0' Lv N0|f0 p0 i0 f0' l0 f0'' Lv N0 NP0 Y0]; subst.
        - specialize (HL f' I4 I5 HF p0 Lv). rewrite N0 in HL. exact HL.
        - specialize (HL f' I4 I5 HF p0 Lv). rewrite N0 in HL. exact HL. }
      subst i. rewrite firstn_all. reflexivity.
Qed.

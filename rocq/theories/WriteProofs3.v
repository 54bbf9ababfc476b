(** Proofs about binary tables written by the standard. *)

From Coq Require Import Permutation ZifyBool.
From Verif Require Import Base Utf8 Text Card Reader Header Xtension Bytes Fits ImageIt BinTable.
From Verif Require Import SpecUtf8 SpecCard SpecHeader SpecXt SpecFits SpecImage SpecBin SpecWrite SpecWriteTable.
From Verif Require Import TextLemmas CardProofs CardProofs2 CardProps HeaderProofs HeaderProofs2 HeaderProps.
From Verif Require Import FitsProofs FitsProofs2 FitsProofs3 FitsProofs4 XtProofs XtProofs2 XtProofs3 BytesProofs ImageProofs.
From Verif Require Import BinProofs BinProofs2 BinProofs3 WriteProofs WriteProofs2.

(** ** Elements *)

Lemma elem_written_stored t bs v : elem_written t bs v -> t <> TyX /\ elem_stored t bs v.
Proof.
  destruct t; cbn [elem_written elem_stored]; intro H; try (split; [discriminate|exact H]); [|contradiction].
  destruct H as (-> & ->). split; [discriminate|]. exists 84. split; [|reflexivity].
  split; [cbn; lia|reflexivity].
Qed.

Lemma encode_length b v : len (encode b v) = width b.
Proof. unfold encode, be_bytes, len. rewrite map_length, seq_length. destruct b; reflexivity. Qed.

Lemma elem_stored_len t bs v : elem_stored t bs v -> len bs = elem_bytes t.
Proof.
  destruct t; cbn [elem_stored]; intro H;
    try (destruct H as (x & (_ & ->) & _); rewrite encode_length; reflexivity);
    (destruct H as (b1 & b2 & x & y & -> & (_ & ->) & (_ & ->) & _); rewrite len_app, !encode_length; reflexivity).
Qed.

Lemma number_stored_inj b bs x y : number_stored b bs x -> number_stored b bs y -> x = y.
Proof. intros (R1 & E1) (R2 & E2). rewrite <- (decode_encode b x R1), <- (decode_encode b y R2). congruence. Qed.

Lemma elem_stored_inj t bs v w : elem_stored t bs v -> elem_stored t bs w -> v = w.
Proof.
  destruct t; cbn [elem_stored]; intros H1 H2;
    try (destruct H1 as (x & N1 & ->), H2 as (y & N2 & ->); now rewrite (number_stored_inj _ _ _ _ N1 N2));
    (destruct H1 as (b1 & b2 & x & y & E1 & N1 & M1 & ->), H2 as (c1 & c2 & x' & y' & E2 & N2 & M2 & ->);
     rewrite E1 in E2; apply app_same_len in E2 as (<- & <-);
     [now rewrite (number_stored_inj _ _ _ _ N1 N2), (number_stored_inj _ _ _ _ M1 M2)|];
     destruct N1 as (_ & ->), N2 as (_ & ->); pose proof (encode_length BF32 x); pose proof (encode_length BF32 x');
     pose proof (encode_length BF64 x); pose proof (encode_length BF64 x'); unfold len in *; lia).
Qed.

Lemma slot_value_inj d x v w : slot_value d x v -> slot_value d x w -> v = w.
Proof.
  destruct x as [t p c i|[] p]; cbn [slot_value]; [|congruence|congruence].
  intros (y & -> & H1) (z & -> & H2). now rewrite (elem_stored_inj _ _ _ _ H1 H2).
Qed.

Lemma slot_values_inj d l : forall vs ws, Forall2 (slot_value d) l vs -> Forall2 (slot_value d) l ws -> vs = ws.
Proof.
  induction l as [|x l IH]; intros vs ws H1 H2; inversion H1; inversion H2; subst; auto.
  f_equal; eauto using slot_value_inj.
Qed.

Lemma elems_len t es vs : Forall2 (elem_written t) es vs -> len (concat es) = len vs * elem_bytes t.
Proof.
  induction 1 as [|e v es vs H F IH]; [reflexivity|]. cbn [concat]. rewrite len_app, len_cons, IH.
  apply elem_written_stored in H as (_ & H). rewrite (elem_stored_len _ _ _ H). lia.
Qed.

Lemma elem_bytes_pos t : 1 <= elem_bytes t.
Proof. destruct t; vm_compute; discriminate. Qed.

(** Consecutive elements in the file. *)
Lemma elems_stored d t c : forall es vs, Forall2 (elem_written t) es vs -> forall pos k,
  0 <= pos -> slice d pos (len (concat es)) = concat es ->
  Forall2 (slot_value d)
    (map (fun i => SElem t (pos + (i - k) * elem_bytes t) c i) (map (fun j => k + Z.of_nat j) (seq 0 (length vs))))
    (map (fun p => DVal t (snd p) c (fst p)) (combine (map (fun j => k + Z.of_nat j) (seq 0 (length vs))) vs)).
Proof.
  induction 1 as [|e v es vs H F IH]; intros pos k P S; [constructor|].
  pose proof (elem_bytes_pos t). apply elem_written_stored in H as (_ & H). pose proof (elem_stored_len _ _ _ H) as LE.
  cbn [length seq map combine]. cbn [concat] in S. rewrite len_app in S. pose proof (len_nonneg (concat es)).
  assert (S1 : slice d pos (len e) = e).
  { rewrite <- (Z.add_0_r pos), <- (slice_slice d pos (len e + len (concat es)) 0 (len e)) by lia. rewrite S.
    rewrite slice_app_l by lia. now apply slice_all. }
  assert (S2 : slice d (pos + len e) (len (concat es)) = concat es).
  { rewrite <- (slice_slice d pos (len e + len (concat es)) (len e) (len (concat es))) by lia. rewrite S.
    rewrite slice_app_r by lia. rewrite Z.sub_diag. now apply slice_all. }
  constructor.
  - cbn [slot_value fst snd]. exists v. split; [reflexivity|]. rewrite <- LE.
    replace (pos + (k + Z.of_nat 0 - k) * len e) with pos by lia. now rewrite S1.
  - rewrite <- seq_shift. rewrite !map_map.
    specialize (IH (pos + len e) (k + 1) ltac:(lia) S2). rewrite !map_map in IH.
    rewrite (map_ext (fun x => SElem t (pos + (k + Z.of_nat (Datatypes.S x) - k) * elem_bytes t) c (k + Z.of_nat (Datatypes.S x)))
               (fun x => SElem t (pos + len e + (k + 1 + Z.of_nat x - (k + 1)) * elem_bytes t) c (k + 1 + Z.of_nat x))).
    2:{ intro j. f_equal; lia. }
    rewrite (map_ext (fun x => k + Z.of_nat (Datatypes.S x)) (fun j => k + 1 + Z.of_nat j)) by (intro; lia). exact IH.
Qed.

Lemma array_slots d t c es vs pos : Forall2 (elem_written t) es vs -> 0 <= pos ->
  slice d pos (len (concat es)) = concat es ->
  Forall2 (slot_value d) (elems t (len vs) pos c) (cell_values t c vs).
Proof.
  intros F P S. pose proof (elems_stored d t c es vs F pos 0 P S) as H.
  unfold elems, cell_values, upto. replace (Z.to_nat (len vs)) with (length vs) by (unfold len; lia).
  rewrite (map_ext (fun i => SElem t (pos + i * elem_bytes t) c i) (fun i => SElem t (pos + (i - 0) * elem_bytes t) c i))
    by (intro i; f_equal; lia).
  exact H.
Qed.

(** ** Cells *)

Lemma field_bytes_elem t n : t <> TyX -> field_bytes (TElem t n) = n * elem_bytes t.
Proof.
  intro N. unfold field_bytes, elem_bytes. cbn [field_bits].
  destruct t; try congruence; cbn [type_bits]; try (change ((8 + 7) / 8) with 1); try (change ((16 + 7) / 8) with 2);
    try (change ((32 + 7) / 8) with 4); try (change ((64 + 7) / 8) with 8); try (change ((128 + 7) / 8) with 16);
    (symmetry; apply (Z.div_unique_pos _ 8 _ 7); lia).
Qed.

Lemma cell_len heap f vs bs : cell_written heap f vs bs -> elem_type f <> TyX -> len bs = field_bytes f.
Proof.
  destruct f as [t n|t|t]; cbn [cell_written elem_type].
  - intros (<- & es & F & ->) N. rewrite field_bytes_elem by auto. eapply elems_len; eauto.
  - intros (b1 & b2 & p & es & -> & (_ & L1 & _) & (_ & L2 & _) & _) _. rewrite len_app, L1, L2. reflexivity.
  - intros (b1 & b2 & p & es & -> & (_ & L1 & _) & (_ & L2 & _) & _) _. rewrite len_app, L1, L2. reflexivity.
Qed.

Lemma be_value_nonneg l : octets l -> 0 <= be_value l.
Proof.
  induction 1 as [|x l H F IH]; cbn [be_value]; [lia|]. pose proof (Z.pow_nonneg 256 (len l) ltac:(lia)). nia.
Qed.

(** A cell in the file, its heap at byte [h]. *)
Lemma cell_found d e heap h f vs bs pos c :
  0 <= h -> 0 <= pos -> h + len heap <= e -> slice d h (len heap) = heap -> slice d pos (len bs) = bs ->
  cell_written heap f vs bs -> elem_type f <> TyX -> (forall t n, f = TElem t n -> 1 <= n) ->
  Forall2 (slot_value d) (cell_slots d true h f pos c) (cell_values (elem_type f) c vs) /\
  cell_readable d e true h f pos.
Proof.
  intros H P E SH SB W N N1. pose proof (len_nonneg heap).
  assert (D : forall w t, array_written heap t w vs bs -> t <> TyX -> 0 < w ->
    Forall2 (slot_value d) (elems t (be_value (slice d pos w)) (h + be_value (slice d (pos + w) w)) c) (cell_values t c vs) /\
    array_present e h t (be_value (slice d pos w)) (be_value (slice d (pos + w) w))).
  { intros w t (b1 & b2 & p & es & -> & (O1 & L1 & V1) & (O2 & L2 & V2) & NE & F & B & SL) NX W0.
    rewrite len_app, L1, L2 in SB.
    assert (S1 : slice d pos w = b1).
    { rewrite <- (Z.add_0_r pos), <- (slice_slice d pos (w + w) 0 w) by lia. rewrite SB.
      rewrite slice_app_l by lia. now apply slice_all. }
    assert (S2 : slice d (pos + w) w = b2).
    { rewrite <- (slice_slice d pos (w + w) w w) by lia. rewrite SB.
      rewrite slice_app_r by lia. rewrite L1, Z.sub_diag. now apply slice_all. }
    rewrite S1, S2, V1, V2. pose proof (be_value_nonneg b2 O2) as PP. rewrite V2 in PP.
    pose proof (elems_len t es vs F) as LE. pose proof (len_nonneg (concat es)). split.
    - apply (array_slots d t c es vs); auto; [lia|].
      rewrite <- (slice_slice d h (len heap) p (len (concat es))) by lia. now rewrite SH.
    - split; auto. split; [destruct vs; [congruence|rewrite len_cons; pose proof (len_nonneg vs); lia]|]. lia. }
  destruct f as [t n|t|t]; cbn [cell_written elem_type cell_slots cell_readable] in *.
  - destruct W as (<- & es & F & ->). split; [|split; [auto|eapply N1; reflexivity]].
    apply (array_slots d t c es vs); auto.
  - destruct (D 4 t W N ltac:(lia)) as (A & B). split; auto.
  - destruct (D 8 t W N ltac:(lia)) as (A & B). split; auto.
Qed.

(** ** Rows *)

Lemma row_len heap fs cells bs : row_written heap fs cells bs -> Forall (fun f => elem_type f <> TyX) fs ->
  len bs = total (map field_bytes fs) /\ length cells = length fs.
Proof.
  induction 1 as [|f fs vs cells bs rest W R IH]; intro F; [split; reflexivity|].
  inversion F; subst. destruct IH as (IH1 & IH2); auto. cbn [map total length]. rewrite len_app, IH1, IH2.
  rewrite (cell_len _ _ _ _ W) by auto. auto.
Qed.

Lemma row_cell_at heap fs cells bs : row_written heap fs cells bs -> Forall (fun f => elem_type f <> TyX) fs ->
  forall c f, nth_error fs c = Some f ->
  exists vs cb, nth_error cells c = Some vs /\ cell_written heap f vs cb /\
    0 <= total (map field_bytes (firstn c fs)) /\
    total (map field_bytes (firstn c fs)) + len cb <= len bs /\
    slice bs (total (map field_bytes (firstn c fs))) (len cb) = cb.
Proof.
  induction 1 as [|f fs vs cells bs rest W R IH]; intros F c g E; [destruct c; discriminate|].
  inversion F as [|? ? F1 F2]; subst. pose proof (cell_len _ _ _ _ W F1) as LB. pose proof (len_nonneg bs).
  pose proof (len_nonneg rest). destruct c as [|c].
  - injection E as <-. exists vs, bs. cbn [firstn map total nth_error]. rewrite len_app. split; auto. split; auto. split; [lia|]. split; [lia|].
    rewrite slice_app_l by lia. now apply slice_all.
  - destruct (IH F2 c g E) as (vs' & cb & E1 & W' & B0 & B & S). pose proof (len_nonneg cb).
    exists vs', cb. cbn [firstn map total nth_error]. rewrite len_app. split; auto. split; auto. split; [lia|]. split; [lia|].
    rewrite slice_app_r by lia. rewrite <- S at 2. f_equal. lia.
Qed.

Lemma rows_len heap fs rows parts : Forall2 (row_written heap fs) rows parts -> Forall (fun f => elem_type f <> TyX) fs ->
  len (concat parts) = total (map field_bytes fs) * len rows.
Proof.
  intros H F. induction H as [|r b rows parts W H IH]; [unfold len; cbn [concat length]; lia|]. cbn [concat]. rewrite len_app, len_cons, IH.
  destruct (row_len _ _ _ _ W F) as (-> & _). lia.
Qed.

Lemma row_at heap fs rows parts : Forall2 (row_written heap fs) rows parts -> Forall (fun f => elem_type f <> TyX) fs ->
  forall i cells, nth_error rows i = Some cells ->
  exists bs, row_written heap fs cells bs /\
    Z.of_nat i * total (map field_bytes fs) + len bs <= len (concat parts) /\
    slice (concat parts) (Z.of_nat i * total (map field_bytes fs)) (len bs) = bs.
Proof.
  intros H F. induction H as [|r b rows parts W H IH]; intros i cells E; [destruct i; discriminate|].
  destruct (row_len _ _ _ _ W F) as (LB & _). cbn [concat]. rewrite len_app. pose proof (len_nonneg b). pose proof (len_nonneg (concat parts)).
  destruct i as [|i].
  - injection E as <-. exists b. split; auto. split; [lia|]. rewrite slice_app_l by lia. now apply slice_all.
  - destruct (IH i cells E) as (bs & W' & B & S). exists bs. split; auto. pose proof (len_nonneg bs).
    split; [lia|]. rewrite slice_app_r by nia. rewrite <- S at 2. f_equal. lia.
Qed.

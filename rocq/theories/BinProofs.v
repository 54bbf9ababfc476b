(** Iteration over binary tables: elements, moving between columns and rows. *)

From Coq Require Import Lia ZifyBool Sorted.
From Verif Require Import Base Text Card Reader Header Xtension Bytes Fits ImageIt BinTable.
From Verif Require Import SpecCard SpecHeader SpecXt SpecFits SpecImage SpecBin.
From Verif Require Import HeaderProofs BytesProofs XtProofs2 XtProofs3 ImageProofs.

(** ** Elements *)

Lemma be_value_unsigned bs : be_value bs = be_unsigned bs.
Proof.
  induction bs as [|b bs IH] using rev_ind; [reflexivity|].
  rewrite be_unsigned_snoc, <- IH. clear. induction bs as [|a bs IH]; cbn [app be_value].
  - change (len (@nil Z)) with 0. rewrite Z.pow_0_r. lia.
  - rewrite IH, len_app. change (len [b]) with 1. rewrite Z.pow_add_r by (try apply len_nonneg; lia). lia.
Qed.

Lemma elem_bytes_size t : bytes_size t = elem_bytes t.
Proof. destruct t; reflexivity. Qed.
Lemma elem_bytes_pos t : 1 <= elem_bytes t <= 16.
Proof. destruct t; vm_compute; split; discriminate. Qed.

Lemma read_be_at d p b :
  octets d -> 0 <= p -> p + width b <= len d ->
  read_be b (mk_reader d p) = (Ok (decode b (slice d p (width b))), mk_reader d (p + width b)) /\
  number_stored b (slice d p (width b)) (decode b (slice d p (width b))).
Proof.
  intros O P L. pose proof (width_pos b).
  assert (Len: len (slice d p (width b)) = width b) by (apply slice_length; lia).
  assert (Oc: octets (slice d p (width b))) by (apply slice_octets; auto).
  split; [|split].
  - apply read_be_ok; auto; [symmetry; apply encode_decode; auto|apply decode_range; auto].
  - apply decode_range; auto.
  - symmetry; apply encode_decode; auto.
Qed.

Lemma read_elem_at d p t :
  octets d -> 0 <= p -> p + elem_bytes t <= len d ->
  exists v, read_elem t (mk_reader d p) = (Ok v, mk_reader d (p + elem_bytes t)) /\
            elem_stored t (slice d p (elem_bytes t)) v.
Proof.
  intros O P L.
  assert (One: forall b f, width b = elem_bytes t -> exists x,
    read_one b f (mk_reader d p) = (Ok [f x], mk_reader d (p + elem_bytes t)) /\
    number_stored b (slice d p (elem_bytes t)) x).
  { intros b f E. destruct (read_be_at d p b) as [H1 H2]; auto; [lia|]. rewrite E in *.
    eexists. split; [|exact H2]. unfold read_one. rewrite H1. reflexivity. }
  assert (Two: forall b, width b + width b = elem_bytes t -> exists b1 b2 x y,
    read_pair b (mk_reader d p) = (Ok [x; y], mk_reader d (p + elem_bytes t)) /\
    slice d p (elem_bytes t) = b1 ++ b2 /\ number_stored b b1 x /\ number_stored b b2 y).
  { intros b E. pose proof (width_pos b). destruct (read_be_at d p b) as [H1 H2]; auto; [lia|].
    destruct (read_be_at d (p + width b) b) as [H3 H4]; auto; [lia|lia|].
    exists (slice d p (width b)), (slice d (p + width b) (width b)).
    do 2 eexists. split; [unfold read_pair; rewrite H1, H3; f_equal; f_equal; lia|].
    split; [|split; eassumption].
    rewrite (slice_split d p (elem_bytes t) (width b)) by lia. f_equal. f_equal. lia. }
  destruct t;
    try (destruct (One BU8 (fun b => b) eq_refl) as (x & E1 & E2); exists [x]; split; [exact E1|exists x; auto]; fail);
    try (destruct (One BI16 (fun b => b) eq_refl) as (x & E1 & E2); exists [x]; split; [exact E1|exists x; auto]; fail);
    try (destruct (One BI32 (fun b => b) eq_refl) as (x & E1 & E2); exists [x]; split; [exact E1|exists x; auto]; fail);
    try (destruct (One BI64 (fun b => b) eq_refl) as (x & E1 & E2); exists [x]; split; [exact E1|exists x; auto]; fail);
    try (destruct (One BF32 (fun b => b) eq_refl) as (x & E1 & E2); exists [x]; split; [exact E1|exists x; auto]; fail);
    try (destruct (One BF64 (fun b => b) eq_refl) as (x & E1 & E2); exists [x]; split; [exact E1|exists x; auto]; fail).
  - destruct (One BU8 (fun b => if b =? 0 then 0 else 1) eq_refl) as (x & E1 & E2). eexists.
    split; [exact E1|exists x; auto].
  - destruct (Two BF32 eq_refl) as (b1 & b2 & x & y & E1 & E2 & E3 & E4). eexists. split; [exact E1|].
    exists b1, b2, x, y. auto.
  - destruct (Two BF64 eq_refl) as (b1 & b2 & x & y & E1 & E2 & E3 & E4). eexists. split; [exact E1|].
    exists b1, b2, x, y. auto.
Qed.

Lemma read_desc_at d p wide :
  let w := if wide : bool then 8 else 4 in
  octets d -> 0 <= p -> p + 2 * w <= len d ->
  read_desc wide (mk_reader d p)
  = (Ok [be_value (slice d p w); be_value (slice d (p + w) w)], mk_reader d (p + 2 * w)) /\
  0 <= be_value (slice d p w) < 2 ^ 64 /\ 0 <= be_value (slice d (p + w) w) < 2 ^ 64.
Proof.
  intros w O P L. rewrite !be_value_unsigned.
  assert (B: forall q, 0 <= q -> q + w <= len d -> 0 <= be_unsigned (slice d q w) < 2 ^ 64).
  { intros q Q1 Q2. assert (Len: len (slice d q w) = w) by (apply slice_length; subst w; destruct wide; lia).
    pose proof (be_unsigned_range (slice d q w) (slice_octets _ _ _ O)) as H. rewrite Len in H.
    destruct wide; subst w; [exact H|]. change (256 ^ 4) with (2 ^ 32) in H. lia. }
  split; [|split; apply B; subst w; destruct wide; lia].
  unfold read_desc, read_pair. destruct wide; subst w.
  - destruct (read_be_at d p BF64) as [H1 _]; auto; [simpl; lia|].
    destruct (read_be_at d (p + 8) BF64) as [H2 _]; auto; [lia|simpl; lia|].
    cbn [width] in H1, H2. rewrite H1, H2. cbn [decode]. replace (p + 8 + 8) with (p + 2 * 8) by lia. reflexivity.
  - destruct (read_be_at d p BF32) as [H1 _]; auto; [simpl; lia|].
    destruct (read_be_at d (p + 4) BF32) as [H2 _]; auto; [lia|simpl; lia|].
    cbn [width] in H1, H2. rewrite H1, H2. cbn [decode]. replace (p + 4 + 4) with (p + 2 * 4) by lia. reflexivity.
Qed.

(** ** Columns *)

Lemma index_nth {A} (l : list A) i x : 0 <= i -> nth_error l (Z.to_nat i) = Some x -> index l i = Ok x.
Proof. intros H E. unfold index. destruct (i <? 0) eqn:X; [lia|]. rewrite E. reflexivity. Qed.

Lemma index_ok {A} (l : list A) i x : index l i = Ok x -> 0 <= i < len l /\ nth_error l (Z.to_nat i) = Some x.
Proof.
  unfold index. destruct (i <? 0) eqn:X; [discriminate|]. destruct nth_error eqn:E; [|discriminate].
  intro H. inversion H; subst. split; auto.
  assert (N: nth_error l (Z.to_nat i) <> None) by (rewrite E; discriminate).
  apply nth_error_Some in N. unfold len. lia.
Qed.

Lemma total_app a b : total (a ++ b) = total a + total b.
Proof. induction a; simpl; lia. Qed.
Lemma total_nonneg l : Forall (fun x => 0 <= x) l -> 0 <= total l.
Proof. induction 1; simpl; lia. Qed.

Lemma field_bytes_nonneg f : 0 <= field_bits f -> 0 <= field_bytes f.
Proof. unfold field_bytes. intro. apply Z.div_pos; lia. Qed.
Lemma all_nonneg l : Forall (fun f => 0 <= field_bits f) l -> Forall (fun x => 0 <= x) (map field_bytes l).
Proof. induction 1; simpl; constructor; auto using field_bytes_nonneg. Qed.

Lemma format_nth t c f : format t c = Some f -> 0 <= c < len (bt_tforms t) /\ nth_error (bt_tforms t) (Z.to_nat c) = Some f.
Proof.
  unfold format. destruct (c <? 0) eqn:X; [discriminate|]. intro E. split; auto.
  assert (N: nth_error (bt_tforms t) (Z.to_nat c) <> None) by (rewrite E; discriminate).
  apply nth_error_Some in N. unfold len. lia.
Qed.

Lemma column_start_next l c f :
  nth_error l c = Some f ->
  total (map field_bytes (firstn (S c) l)) = total (map field_bytes (firstn c l)) + field_bytes f.
Proof.
  revert c. induction l as [|x l IH]; destruct c as [|c]; intro E; try discriminate.
  - inversion E; subst. simpl. lia.
  - cbn [nth_error] in E. change (firstn (S (S c)) (x :: l)) with (x :: firstn (S c) l).
    change (firstn (S c) (x :: l)) with (x :: firstn c l). cbn [map total]. rewrite (IH c E). lia.
Qed.

Lemma column_start_mono l (a b : nat) :
  Forall (fun f => 0 <= field_bits f) l -> (a <= b)%nat ->
  total (map field_bytes (firstn a l)) <= total (map field_bytes (firstn b l)).
Proof.
  intros F H. replace b with (a + (b - a))%nat by lia. generalize (b - a)%nat; intro k. clear H b. revert a.
  induction l as [|x l IH]; intro a; [rewrite !firstn_nil; lia|]. inversion F as [|? ? F1 F2]; subst.
  destruct a as [|a]; cbn [plus firstn map total].
  - apply total_nonneg. apply all_nonneg. apply Forall_firstn. auto.
  - specialize (IH F2 a). lia.
Qed.

Lemma column_start_nonneg t c :
  Forall (fun f => 0 <= field_bits f) (bt_tforms t) -> 0 <= column_start (bt_tforms t) c.
Proof. intro F. apply total_nonneg, all_nonneg, Forall_firstn. auto. Qed.

Lemma column_before t c c' f :
  Forall (fun f => 0 <= field_bits f) (bt_tforms t) -> format t c = Some f -> c < c' ->
  column_start (bt_tforms t) c + field_bytes f <= column_start (bt_tforms t) c'.
Proof.
  intros F E L. apply format_nth in E as [R E]. unfold column_start.
  rewrite <- (column_start_next _ _ _ E). apply column_start_mono; auto. lia.
Qed.

Lemma column_inside t c f :
  Forall (fun f => 0 <= field_bits f) (bt_tforms t) -> format t c = Some f ->
  column_start (bt_tforms t) c + field_bytes f <= total (map field_bytes (bt_tforms t)).
Proof.
  intros F E. pose proof E as E0. apply format_nth in E0 as [R _].
  pose proof (column_before t c (len (bt_tforms t)) f F E ltac:(lia)) as H.
  unfold column_start at 2 in H. unfold len in H. rewrite Nat2Z.id, firstn_all in H. lia.
Qed.

(** The offsets computed by the crate. *)
Definition offsets_of (t : bintable) : list Z :=
  map (fun c => column_start (bt_tforms t) (Z.of_nat c)) (seq 0 (length (bt_tforms t))).

Lemma offsets_index t c f : format t c = Some f -> index (offsets_of t) c = Ok (column_start (bt_tforms t) c).
Proof.
  intro E. apply format_nth in E as [R E]. apply index_nth; [lia|]. unfold offsets_of.
  erewrite map_nth_error; [|rewrite nth_error_nth' with (d := O); [reflexivity|rewrite seq_length; unfold len in R; lia]].
  rewrite seq_nth by (unfold len in R; lia). f_equal. f_equal. lia.
Qed.

Lemma num_bytes_ok m f : 0 <= field_bits f < 2 ^ 64 -> num_bytes_field m f = Ok (field_bytes f).
Proof.
  intro H. unfold num_bytes_field, field_bytes. destruct f as [t n|t|t]; cbn [num_bits_field field_bits] in *; try reflexivity.
  assert (E: bits_size t = type_bits t) by (destruct t; reflexivity). rewrite E.
  unfold u64_result. destruct ((0 <=? n * type_bits t) && (n * type_bits t <? 2 ^ 64)) eqn:X; [|lia].
  cbn [bind]. unfold div_ceil. f_equal. f_equal. lia.
Qed.

Lemma col_offsets_ok m l : forall acc,
  Forall (fun f => 0 <= field_bits f) l -> 0 <= acc -> acc + total (map field_bytes l) < 2 ^ 60 ->
  col_offsets m acc l = Ok (map (fun c => acc + total (map field_bytes (firstn c l))) (seq 0 (length l))).
Proof.
  induction l as [|f l IH]; intros acc F A T; [reflexivity|]. inversion F as [|? ? F1 F2]; subst.
  cbn [map total] in T. cbn [col_offsets].
  pose proof (total_nonneg _ (all_nonneg _ F2)). pose proof (field_bytes_nonneg _ F1).
  assert (field_bits f < 2 ^ 64).
  { unfold field_bytes in *. assert (field_bits f <= 8 * ((field_bits f + 7) / 8)) by lia. lia. }
  rewrite num_bytes_ok by lia. cbn [bind].
  unfold u64_result. destruct ((0 <=? acc + field_bytes f) && (acc + field_bytes f <? 2 ^ 64)) eqn:X; [|lia].
  cbn [bind]. rewrite IH by (auto; lia). cbn [bind]. f_equal.
  change (length (f :: l)) with (S (length l)). cbn [seq map firstn total]. f_equal; [lia|].
  rewrite <- seq_shift, map_map. apply map_ext. intro c. cbn [firstn map total]. lia.
Qed.

Lemma upto_len n : 0 <= n -> len (upto n) = n.
Proof. intro. unfold upto, len. rewrite map_length, seq_length. lia. Qed.
Lemma upto_In n i : In i (upto n) <-> 0 <= i < n.
Proof.
  unfold upto. rewrite in_map_iff. split.
  - intros (k & <- & H). apply in_seq in H. lia.
  - intro H. exists (Z.to_nat i). rewrite in_seq. lia.
Qed.

Lemma table_new_ok m d t o :
  table_present d t o ->
  table_new m t (mk_reader d o) o
  = Ok (mk_table (mk_reader d o) InMain (all_columns t) (offsets_of t) t 0 0 0
                 (bt_naxis1 t * bt_naxis2 t) o false 0 true).
Proof.
  intros (Oc & D & O & N2 & H & F & N1 & N1' & I). unfold table_new.
  pose proof (total_nonneg _ (all_nonneg _ F)). rewrite col_offsets_ok by (auto; lia). cbn [bind].
  assert (0 <= bt_naxis1 t * bt_naxis2 t) by (apply Z.mul_nonneg_nonneg; lia).
  unfold u64_result. destruct ((0 <=? _) && _) eqn:X; [|lia]. cbn [bind]. f_equal.
  assert (E: map Z.of_nat (seq 0 (length (bt_tforms t))) = all_columns t)
    by (unfold all_columns, upto, len; rewrite Nat2Z.id; reflexivity).
  rewrite E. f_equal. unfold offsets_of. apply map_ext. intro c. unfold column_start. rewrite Nat2Z.id. lia.
Qed.

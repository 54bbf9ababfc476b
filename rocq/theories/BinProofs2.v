(** The table iterator as a walk over the slots of the table. *)

From Coq Require Import Lia ZifyBool Sorted.
From Verif Require Import Base Text Card Reader Header Xtension Bytes Fits ImageIt BinTable.
From Verif Require Import SpecCard SpecHeader SpecXt SpecFits SpecImage SpecBin.
From Verif Require Import HeaderProofs BytesProofs XtProofs2 XtProofs3 ImageProofs BinProofs.

Lemma as_usize_small z : 0 <= z < 2 ^ 64 -> as_usize z = z.
Proof. intro. unfold as_usize. apply Z.mod_small. lia. Qed.
Lemma u64_result_small m z : 0 <= z < 2 ^ 64 -> u64_result m z = Ok z.
Proof. intro H. unfold u64_result. destruct ((0 <=? z) && (z <? 2 ^ 64)) eqn:X; [reflexivity|lia]. Qed.
Lemma seek_relative_ok r off :
  0 <= rd_pos r + off < 2 ^ 64 -> seek_relative r off = (Ok tt, mk_reader (rd_data r) (rd_pos r + off)).
Proof. intro H. unfold seek_relative. destruct ((0 <=? _) && _) eqn:X; [reflexivity|lia]. Qed.

Lemma le_times a k : 0 <= a -> 1 <= k -> a <= a * k.
Proof. nia. Qed.
Lemma le_times_le a b k : a <= b -> 1 <= k -> a * k <= b * k.
Proof. nia. Qed.
Lemma nth_sorted l : StronglySorted Z.lt l -> forall i j : nat, (i < j < length l)%nat -> nth i l 0 < nth j l 0.
Proof.
  induction 1 as [|x l S IH F]; intros i j H; simpl in H; [lia|].
  destruct j as [|j]; [lia|]. destruct i as [|i]; cbn [nth].
  - rewrite Forall_forall in F. apply F. apply nth_In. lia.
  - apply IH. lia.
Qed.

Lemma skipn_elems e n p c i :
  0 <= i < n ->
  skipn (Z.to_nat i) (elems e n p c) = SElem e (p + i * elem_bytes e) c i :: skipn (Z.to_nat (i + 1)) (elems e n p c).
Proof.
  intro H. unfold elems, upto. rewrite map_map.
  replace (Z.to_nat (i + 1)) with (S (Z.to_nat i)) by lia.
  assert (G: forall k l, (k < length l)%nat -> forall g : nat -> slot, skipn k (map g l) = g (nth k l O) :: skipn (S k) (map g l)).
  { clear. induction k; destruct l; simpl; intros; try lia; auto. rewrite IHk by lia. reflexivity. }
  rewrite G by (rewrite seq_length; lia). rewrite seq_nth by lia.
  replace (Z.of_nat (0 + Z.to_nat i)) with i by lia. reflexivity.
Qed.
Lemma skipn_elems_end e n p c : 0 <= n -> skipn (Z.to_nat n) (elems e n p c) = [].
Proof. intro. apply skipn_all2. unfold elems, upto. rewrite !map_length, seq_length. lia. Qed.

Section Walk.
Variables (m : mode) (d : list Z) (lim : Z) (t : bintable) (o : Z) (h : bool) (sel : list Z).
Hypothesis Li : lim <= len d.
Hypothesis Pr : table_present d t o.
Hypothesis Re : columns_readable d lim t o h sel.
Hypothesis So : StronglySorted Z.lt sel.
Hypothesis Ne : sel <> [].

Let n1 := bt_naxis1 t.
Let n2 := bt_naxis2 t.
Let cs := column_start (bt_tforms t).
Definition col_at (ci : Z) : Z := nth (Z.to_nat ci) sel 0.
Definition base (row c : Z) : Z := row * n1 + cs c.

(** States of the iterator. *)
Definition at_ (row ci item off pos : Z) (st : tstate) : table :=
  mk_table (mk_reader d pos) st sel (offsets_of t) t ci item off (n1 * n2) o false row h.
Definition in_cell (row ci item k : Z) : table :=
  at_ row ci item (base row (col_at ci) + k) (o + (base row (col_at ci) + k)) InMain.
Definition finished (ci item : Z) : table := at_ n2 ci item (n1 * n2) (o + n1 * n2) InMain.
Definition after (row ci item : Z) : table :=
  if ci =? len sel - 1 then if row =? n2 - 1 then finished ci item else in_cell (row + 1) 0 0 0
  else in_cell row (ci + 1) 0 0.

Lemma sel_pos : 1 <= len sel.
Proof. destruct sel; [contradiction|]. rewrite len_cons. pose proof (len_nonneg l). lia. Qed.

Lemma col_index ci : 0 <= ci < len sel -> index sel ci = Ok (col_at ci).
Proof. intro H. apply index_nth; [lia|]. apply nth_error_nth'. unfold len in H. lia. Qed.

Lemma col_In ci : 0 <= ci < len sel -> In (col_at ci) sel.
Proof. intro H. apply nth_In. unfold len in H. lia. Qed.

Lemma col_mono ci cj : 0 <= ci < cj -> cj < len sel -> col_at ci < col_at cj.
Proof. intros. apply nth_sorted; auto. unfold len in *. lia. Qed.

(** What is known of a selected cell. *)
Lemma col_facts ci : 0 <= ci < len sel ->
  exists f, format t (col_at ci) = Some f /\
    (forall row, 0 <= row < n2 -> cell_readable d lim h (o + bt_theap t) f (o + base row (col_at ci))) /\
    (1 <= n2 -> 1 <= field_bytes f) /\ 0 <= cs (col_at ci) /\ 0 <= field_bytes f /\ cs (col_at ci) + field_bytes f <= n1.
Proof.
  intro H. destruct (Re _ (col_In ci H)) as (f & E & C). exists f. split; [exact E|].
  destruct Pr as (Oc & D & O & N2 & Hp & F & N1 & N1' & I).
  assert (C': forall row, 0 <= row < n2 -> cell_readable d lim h (o + bt_theap t) f (o + base row (col_at ci))).
  { intros row R. specialize (C row R). unfold base, cs, n1. rewrite Z.add_assoc. exact C. }
  split; [exact C'|].
  pose proof (column_start_nonneg t (col_at ci) F). pose proof (column_inside t _ _ F E).
  assert (0 <= field_bytes f).
  { apply field_bytes_nonneg. apply format_nth in E as [_ E]. apply nth_error_In in E.
    rewrite Forall_forall in F. apply F, E. }
  unfold cs, n1. split; [|lia].
  intro P2. specialize (C' 0 ltac:(lia)). destruct f as [e n|e|e]; [|vm_compute; discriminate|vm_compute; discriminate].
  cbn [cell_readable] in C'. unfold field_bytes. cbn [field_bits].
  assert (1 <= type_bits e) by (destruct e; simpl; lia).
  assert (1 <= n * type_bits e) by nia. apply Z.div_le_lower_bound; lia.
Qed.

Lemma base_range row c k : 0 <= row < n2 -> 0 <= cs c -> 0 <= k -> cs c + k <= n1 -> 0 <= base row c + k <= n1 * n2.
Proof. unfold base. intros. split; nia. Qed.

Lemma size_small : 0 <= n1 /\ 0 <= o /\ 0 <= n2 /\ 0 <= n1 * n2 /\ o + n1 * n2 < 2 ^ 63 /\ o + n1 * n2 <= len d /\ n1 < 2 ^ 60.
Proof.
  destruct Pr as (Oc & D & O & N2 & Hp & F & N1 & N1' & I).
  pose proof (total_nonneg _ (all_nonneg _ F)). unfold n1, n2 in *.
  assert (0 <= bt_naxis1 t * bt_naxis2 t) by (apply Z.mul_nonneg_nonneg; lia). lia.
Qed.

Lemma seek_by_ok row ci item off pos st rel :
  0 <= off -> 0 <= pos -> 0 <= rel -> off + rel < 2 ^ 63 -> pos + rel < 2 ^ 63 ->
  seek_by m (at_ row ci item off pos st) rel = (Ok tt, at_ row ci item (off + rel) (pos + rel) st).
Proof.
  intros. unfold seek_by. cbn [at_ tb_reader tb_off]. rewrite seek_relative_ok by (cbn [rd_pos]; lia).
  rewrite as_usize_small, u64_result_small by lia. reflexivity.
Qed.

(** Moving on from the end of a cell. *)
Lemma next_col_ok row ci item f :
  0 <= row < n2 -> 0 <= ci < len sel -> format t (col_at ci) = Some f ->
  seek_to_next_col m (in_cell row ci item (field_bytes f)) = (Ok tt, after row ci item).
Proof.
  intros Hr Hc E. destruct (col_facts ci Hc) as (f' & E' & _ & B1 & B2 & B3 & B4). rewrite E in E'. inversion E'; subst f'.
  specialize (B1 ltac:(lia)). pose proof size_small as (S1 & S2 & S3 & S4 & S5 & S6 & S7). pose proof sel_pos.
  pose proof (base_range row (col_at ci) (field_bytes f) Hr B2 B3 B4) as Ba.
  set (x := cs (col_at ci) + field_bytes f) in *.
  unfold seek_to_next_col, in_cell, after.
  cbn [at_ tb_cols tb_ctx tb_col tb_row tb_main tb_off tb_item].
  destruct Pr as (Oc & D & O & N2 & Hp & F & N1 & N1' & I).
  assert (n2 < 2 ^ 64) by nia.
  assert (len sel < 2 ^ 64).
  { assert (len sel <= n1); [|lia].
    assert (G: forall k, 0 <= k < len sel -> k <= cs (col_at k)).
    { intros k K. assert (X: exists n, k = Z.of_nat n) by (exists (Z.to_nat k); lia). destruct X as (n & ->).
      induction n as [|n IHn]; [destruct (col_facts 0 ltac:(lia)) as (? & _ & _ & _ & ? & _); change (Z.of_nat 0) with 0; lia|].
      specialize (IHn ltac:(lia)). destruct (col_facts (Z.of_nat n) ltac:(lia)) as (fn & En & _ & Bn & _).
      specialize (Bn ltac:(lia)).
      pose proof (column_before t _ (col_at (Z.of_nat (S n))) _ F En (col_mono (Z.of_nat n) (Z.of_nat (S n)) ltac:(lia) ltac:(lia))).
      unfold cs in *. lia. }
    specialize (G (len sel - 1) ltac:(lia)). destruct (col_facts (len sel - 1) ltac:(lia)) as (fl & _ & _ & Bl1 & Bl2 & Bl3 & Bl4).
    specialize (Bl1 ltac:(lia)). lia. }
  rewrite !u64_result_small by (fold n2; lia). fold n2.
  destruct (ci =? len sel - 1) eqn:LC.
  - destruct (row =? n2 - 1) eqn:LR; cbn [andb].
    + rewrite !as_i64_small by lia. rewrite i64_result_small by lia.
      unfold set_pos. cbn [at_ tb_reader tb_state tb_cols tb_offsets tb_ctx tb_off tb_main tb_start tb_first tb_heap].
      change (mk_table _ _ _ _ _ _ _ _ _ _ _ _ _) with
        (at_ (row + 1) ci item (base row (col_at ci) + field_bytes f) (o + (base row (col_at ci) + field_bytes f)) InMain).
      rewrite seek_by_ok by lia. unfold finished. f_equal. f_equal; lia.
    + destruct (len sel =? 0) eqn:L0; [lia|].
      assert (Em: (ci + 1) mod len sel = 0). { replace (ci + 1) with (len sel) by lia. apply Z.mod_same. lia. }
      rewrite Em, (col_index 0) by lia. cbn [bind].
      destruct (col_facts 0 ltac:(lia)) as (f0 & E0 & _ & A1 & A2 & A3 & A4). specialize (A1 ltac:(lia)).
      unfold next_col_off, set_pos. cbn [at_ tb_offsets tb_off tb_ctx]. rewrite (offsets_index _ _ _ E0). cbn [bind].
      fold n1. fold cs. rewrite !as_i64_small by lia.
      assert (Cm: cs (col_at 0) <= cs (col_at ci)).
      { destruct (Z.eq_dec ci 0) as [->|]; [lia|].
        pose proof (column_before t _ _ _ F E0 (col_mono 0 ci ltac:(lia) ltac:(lia))). unfold cs in *. lia. }
      unfold i64_rem. destruct ((n1 =? 0) || _) eqn:Z0; [lia|]. cbn [bind].
      assert (Rm: Z.rem (base row (col_at ci) + field_bytes f) n1 = if x =? n1 then 0 else x).
      { rewrite Z.rem_mod_nonneg by lia. unfold base. replace (row * n1 + cs (col_at ci) + field_bytes f) with (x + row * n1) by (unfold x; lia).
        rewrite Z_mod_plus_full. destruct (x =? n1) eqn:Xn; [replace x with n1 by lia; apply Z.mod_same; lia|apply Z.mod_small; lia]. }
      rewrite Rm. rewrite i64_result_small by (destruct (x =? n1); lia). cbn [bind].
      assert (Rel: exists rel, (if cs (col_at 0) - (if x =? n1 then 0 else x) <? 0
                                then i64_result m (cs (col_at 0) - (if x =? n1 then 0 else x) + n1)
                                else Ok (cs (col_at 0) - (if x =? n1 then 0 else x))) = Ok rel /\
                               0 <= rel /\ base row (col_at ci) + field_bytes f + rel = base (row + 1) (col_at 0)).
      { assert (Bx: base row (col_at ci) + field_bytes f = row * n1 + x) by (unfold base, x; lia).
        assert (By: base (row + 1) (col_at 0) = row * n1 + n1 + cs (col_at 0)) by (unfold base; lia).
        rewrite Bx, By. destruct (x =? n1) eqn:Xn.
        - destruct (cs (col_at 0) - 0 <? 0) eqn:Neg; [lia|]. eexists. split; [reflexivity|]. lia.
        - destruct (cs (col_at 0) - x <? 0) eqn:Neg; [|lia]. rewrite i64_result_small by lia. eexists. split; [reflexivity|]. lia. }
      destruct Rel as (rel & -> & R1 & R2).
      cbn [at_ tb_reader tb_state tb_cols tb_offsets tb_ctx tb_off tb_main tb_start tb_first tb_heap].
      change (mk_table _ _ _ _ _ _ _ _ _ _ _ _ _) with
        (at_ (row + 1) 0 0 (base row (col_at ci) + field_bytes f) (o + (base row (col_at ci) + field_bytes f)) InMain).
      pose proof (base_range (row + 1) (col_at 0) 0 ltac:(lia) A2 ltac:(lia) ltac:(lia)).
      rewrite seek_by_ok by lia. unfold in_cell. f_equal. f_equal; lia.
  - cbn [andb]. destruct (len sel =? 0) eqn:L0; [lia|].
    rewrite Z.mod_small by lia. rewrite (col_index (ci + 1)) by lia. cbn [bind].
    destruct (col_facts (ci + 1) ltac:(lia)) as (f0 & E0 & _ & A1 & A2 & A3 & A4). specialize (A1 ltac:(lia)).
    unfold next_col_off, set_pos. cbn [at_ tb_offsets tb_off tb_ctx]. rewrite (offsets_index _ _ _ E0). cbn [bind].
    fold n1. fold cs. rewrite !as_i64_small by lia.
    pose proof (column_before t _ _ _ F E (col_mono ci (ci + 1) ltac:(lia) ltac:(lia))) as Cm. fold cs in Cm. fold x in Cm.
    unfold i64_rem. destruct ((n1 =? 0) || _) eqn:Z0; [lia|]. cbn [bind].
    assert (Rm: Z.rem (base row (col_at ci) + field_bytes f) n1 = x).
    { rewrite Z.rem_mod_nonneg by lia. unfold base. replace (row * n1 + cs (col_at ci) + field_bytes f) with (x + row * n1) by (unfold x; lia).
      rewrite Z_mod_plus_full. apply Z.mod_small; lia. }
    rewrite Rm. rewrite i64_result_small by lia. cbn [bind].
    destruct (cs (col_at (ci + 1)) - x <? 0) eqn:Neg; [lia|].
    cbn [at_ tb_reader tb_state tb_cols tb_offsets tb_ctx tb_off tb_main tb_start tb_first tb_heap].
    change (mk_table _ _ _ _ _ _ _ _ _ _ _ _ _) with
      (at_ row (ci + 1) 0 (base row (col_at ci) + field_bytes f) (o + (base row (col_at ci) + field_bytes f)) InMain).
    pose proof (base_range row (col_at (ci + 1)) 0 Hr A2 ltac:(lia) ltac:(lia)).
    assert (Bx: base row (col_at ci) + field_bytes f + (cs (col_at (ci + 1)) - x) = base row (col_at (ci + 1))) by (unfold base, x; lia).
    rewrite seek_by_ok by lia. unfold in_cell. f_equal. f_equal; lia.
Qed.

(** ** The walk *)

Definition slots_at (row ci : Z) : list slot := flat_map (cell d t o h row) (skipn (Z.to_nat ci) sel).
(** The slots of a row, none after the last. *)
Definition row_of (i : Z) : list slot := if i <? n2 then slots_at i 0 else [].

Lemma rows_from_step i : i < n2 -> rows_from t i = i :: rows_from t (i + 1).
Proof.
  intro H. unfold rows_from, upto. fold n2. replace (Z.to_nat (n2 - i)) with (S (Z.to_nat (n2 - (i + 1)))) by lia.
  cbn [seq map]. change (Z.of_nat 0) with 0. rewrite Z.add_0_r. f_equal. rewrite <- seq_shift, !map_map. apply map_ext.
  intro k. lia.
Qed.
Lemma rows_from_end i : n2 <= i -> rows_from t i = [].
Proof. intro H. unfold rows_from, upto. fold n2. replace (Z.to_nat (n2 - i)) with O by lia. reflexivity. Qed.

Lemma slots_from_step i : 0 <= i <= n2 -> slots_from d t o h sel i = row_of i ++ slots_from d t o h sel (i + 1).
Proof.
  intro H. unfold slots_from, row_of. destruct (i <? n2) eqn:L.
  - rewrite rows_from_step by lia. reflexivity.
  - rewrite !rows_from_end by lia. reflexivity.
Qed.
Lemma slots_from_end i : n2 <= i -> slots_from d t o h sel i = [].
Proof. intro H. unfold slots_from. rewrite rows_from_end by auto. reflexivity. Qed.

Lemma slots_at_step row ci : 0 <= ci < len sel ->
  slots_at row ci = cell d t o h row (col_at ci) ++ slots_at row (ci + 1).
Proof.
  intro H. unfold slots_at.
  assert (E: skipn (Z.to_nat ci) sel = col_at ci :: skipn (Z.to_nat (ci + 1)) sel).
  { replace (Z.to_nat (ci + 1)) with (S (Z.to_nat ci)) by lia. unfold col_at.
    assert (L: (Z.to_nat ci < length sel)%nat) by (unfold len in H; lia). revert L. generalize (Z.to_nat ci) as k. clear.
    induction sel as [|x l IH]; intros k L; [simpl in L; lia|]. destruct k; [reflexivity|]. cbn [skipn nth length] in *. apply IH. lia. }
  rewrite E. reflexivity.
Qed.
Lemma slots_at_end row : slots_at row (len sel) = [].
Proof. unfold slots_at. rewrite skipn_all2 by (unfold len; lia). reflexivity. Qed.

Lemma cell_is row c f : format t c = Some f -> cell d t o h row c = cell_slots d h (o + bt_theap t) f (o + base row c) c.
Proof. intro E. unfold cell. rewrite E. f_equal. unfold base, cs, n1. lia. Qed.

(** The number of elements and the place of the array a descriptor points to. *)
Definition desc_width (f : tform) : Z := match f with TDesc32 _ => 4 | _ => 8 end.
Definition desc_n (f : tform) (p : Z) : Z := be_value (slice d p (desc_width f)).
Definition desc_o (f : tform) (p : Z) : Z := be_value (slice d (p + desc_width f) (desc_width f)).
Definition desc_type (f : tform) : option ety := match f with TElem _ _ => None | TDesc32 e | TDesc64 e => Some e end.

(** The iterator is in this row and these slots of the row are still to come. *)
Inductive inv : table -> Z -> list slot -> Prop :=
| inv_end ci item : 0 <= ci < len sel -> inv (finished ci item) n2 []
| inv_main row ci e n item :
    0 <= row < n2 -> 0 <= ci < len sel -> format t (col_at ci) = Some (TElem e n) -> 0 <= item < n ->
    inv (in_cell row ci item (item * elem_bytes e)) row
        (skipn (Z.to_nat item) (cell d t o h row (col_at ci)) ++ slots_at row (ci + 1))
| inv_desc row ci f e :
    0 <= row < n2 -> 0 <= ci < len sel -> format t (col_at ci) = Some f -> desc_type f = Some e ->
    inv (in_cell row ci 0 0) row (cell d t o h row (col_at ci) ++ slots_at row (ci + 1))
| inv_heap row ci f e n item p :
    0 <= row < n2 -> 0 <= ci < len sel -> format t (col_at ci) = Some f -> desc_type f = Some e -> h = true ->
    n = desc_n f (o + base row (col_at ci)) -> 1 <= item < n ->
    p = o + bt_theap t + desc_o f (o + base row (col_at ci)) ->
    inv (at_ row ci 0 (base row (col_at ci) + field_bytes f) (p + item * elem_bytes e)
             (InHeap e (o + (base row (col_at ci) + field_bytes f)) ((n - item) * elem_bytes e) n (elem_bytes e))) row
        (skipn (Z.to_nat item) (cell d t o h row (col_at ci)) ++ slots_at row (ci + 1)).

(** Where a step leads: on in the row, or to the next one. *)
Definition cont (s : table) (row : Z) (l : list slot) : Prop :=
  l <> [] /\ inv s row l \/ l = [] /\ inv s (row + 1) (row_of (row + 1)).

Lemma start_inv row ci : 0 <= row < n2 -> 0 <= ci < len sel -> inv (in_cell row ci 0 0) row (slots_at row ci).
Proof.
  intros Hr Hc. rewrite slots_at_step by auto. destruct (col_facts ci Hc) as (f & E & C & _).
  destruct f as [e n|e|e]; [|apply inv_desc with (f := TDesc32 e) (e := e); auto|apply inv_desc with (f := TDesc64 e) (e := e); auto].
  specialize (C row Hr). cbn [cell_readable] in C.
  apply (inv_main row ci e n 0); auto; lia.
Qed.

Lemma app_cons_ne {A} (x : A) a b : (x :: a) ++ b <> [].
Proof. discriminate. Qed.

Lemma elems_ne e n p c i r : 0 <= i < n -> skipn (Z.to_nat i) (elems e n p c) ++ r <> [].
Proof. intro H. rewrite skipn_elems by auto. apply app_cons_ne. Qed.

Lemma cell_ne row ci : 0 <= row < n2 -> 0 <= ci < len sel -> cell d t o h row (col_at ci) <> [].
Proof.
  intros Hr Hc. destruct (col_facts ci Hc) as (f & E & C & _). specialize (C row Hr). rewrite (cell_is _ _ _ E).
  assert (G: forall e n p c, 1 <= n -> elems e n p c <> []).
  { intros. rewrite <- (app_nil_r (elems e n p c)). apply (elems_ne e n p c 0 []). lia. }
  destruct f as [e n|e|e]; cbn [cell_slots]; cbn [cell_readable] in C; [apply G; lia| |];
    (destruct h; [apply G; apply C; reflexivity|discriminate]).
Qed.

Lemma after_inv row ci item : 0 <= row < n2 -> 0 <= ci < len sel -> cont (after row ci item) row (slots_at row (ci + 1)).
Proof.
  intros Hr Hc. unfold after, cont. destruct (ci =? len sel - 1) eqn:LC.
  - replace (ci + 1) with (len sel) by lia. rewrite slots_at_end. right. split; [reflexivity|]. unfold row_of.
    destruct (row =? n2 - 1) eqn:LR.
    + destruct (row + 1 <? n2) eqn:L; [lia|]. replace (row + 1) with n2 by lia. constructor. auto.
    + destruct (row + 1 <? n2) eqn:L; [|lia]. apply start_inv; [lia|pose proof sel_pos; lia].
  - left. split; [|apply start_inv; lia]. rewrite slots_at_step by lia.
    pose proof (cell_ne row (ci + 1) Hr ltac:(lia)) as N. destruct (cell d t o h row (col_at (ci + 1))); [contradiction|discriminate].
Qed.

Lemma heap_step row ci f e n item p :
  0 <= row < n2 -> 0 <= ci < len sel -> format t (col_at ci) = Some f -> desc_type f = Some e -> h = true ->
  n = desc_n f (o + base row (col_at ci)) -> 0 <= item < n -> n < 2 ^ 64 -> n * elem_bytes e < 2 ^ 64 ->
  p = o + bt_theap t + desc_o f (o + base row (col_at ci)) -> 0 <= p -> p + n * elem_bytes e <= len d ->
  exists v s', heap_next m (at_ row ci 0 (base row (col_at ci) + field_bytes f) (p + item * elem_bytes e)
             (InHeap e (o + (base row (col_at ci) + field_bytes f)) ((n - item) * elem_bytes e) n (elem_bytes e)))
             (col_at ci) = (Ok (Some v), s') /\
    slot_value d (SElem e (p + item * elem_bytes e) (col_at ci) item) v /\
    cont s' row (skipn (Z.to_nat (item + 1)) (cell d t o h row (col_at ci)) ++ slots_at row (ci + 1)).
Proof.
  intros Hr Hc E De Hh En Hi Hn64 Hn64' Ep Hp Hd. destruct Pr as (Oc & D & O & _).
  pose proof (elem_bytes_pos e) as Eb. pose proof (elem_bytes_size e) as Es.
  destruct (read_elem_at d (p + item * elem_bytes e) e) as (v & Rd & St); auto; [nia|nia|].
  assert (Id: n - (n - item) * elem_bytes e / elem_bytes e = item) by (rewrite Z.div_mul by lia; lia).
  assert (Sub: (n - item) * elem_bytes e - bytes_size e = (n - (item + 1)) * elem_bytes e) by (rewrite Es; lia).
  assert (Cell: cell d t o h row (col_at ci) = elems e n p (col_at ci)).
  { rewrite (cell_is _ _ _ E). destruct f as [? ?|e'|e']; cbn [desc_type] in De; inversion De; subst e';
      cbn [cell_slots]; rewrite Hh, En, Ep; reflexivity. }
  unfold heap_next. cbn [at_ tb_state tb_reader]. rewrite Id, u64_result_small by lia. rewrite Rd.
  rewrite Sub, u64_result_small by nia.
  destruct ((n - (item + 1)) * elem_bytes e =? 0) eqn:Last.
  - assert (n = item + 1) by nia.
    unfold jump_to_main_table, set_reader, set_state, seek_start.
    cbn [at_ tb_reader tb_state tb_cols tb_offsets tb_ctx tb_col tb_item tb_off tb_main tb_start tb_first tb_row tb_heap rd_data].
    change (mk_table _ _ _ _ _ _ _ _ _ _ _ _ _) with (in_cell row ci 0 (field_bytes f)).
    rewrite next_col_ok by auto. cbn [finish_next]. do 2 eexists. split; [reflexivity|].
    split; [exists v; auto|]. rewrite Cell. replace (item + 1) with n by lia. rewrite skipn_elems_end by lia. apply after_inv; auto.
  - do 2 eexists. split; [reflexivity|]. split; [exists v; auto|].
    unfold set_state, set_reader. cbn [at_ tb_reader tb_state tb_cols tb_offsets tb_ctx tb_col tb_item tb_off tb_main tb_start tb_first tb_row tb_heap rd_data].
    change (mk_table _ _ _ _ _ _ _ _ _ _ _ _ _) with
      (at_ row ci 0 (base row (col_at ci) + field_bytes f) (p + item * elem_bytes e + elem_bytes e)
         (InHeap e (o + (base row (col_at ci) + field_bytes f)) ((n - (item + 1)) * elem_bytes e) n (elem_bytes e))).
    replace (p + item * elem_bytes e + elem_bytes e) with (p + (item + 1) * elem_bytes e) by lia.
    left. split; [rewrite Cell; apply elems_ne; nia|]. apply inv_heap; auto. nia.
Qed.

Lemma cell_elems row ci e n : format t (col_at ci) = Some (TElem e n) ->
  cell d t o h row (col_at ci) = elems e n (o + base row (col_at ci)) (col_at ci).
Proof. intro E. rewrite (cell_is _ _ _ E). reflexivity. Qed.

Lemma field_bytes_elem e n : e <> TyX -> field_bytes (TElem e n) = n * elem_bytes e.
Proof.
  intro H. unfold field_bytes. destruct e; cbn [field_bits type_bits]; try contradiction;
    match goal with |- _ = n * ?x => let y := eval vm_compute in x in change x with y end; lia.
Qed.

Lemma off_not_end row ci k f : 0 <= row < n2 -> 0 <= ci < len sel -> format t (col_at ci) = Some f ->
  0 <= k < field_bytes f -> (base row (col_at ci) + k =? n1 * n2) = false.
Proof.
  intros Hr Hc E Hk. destruct (col_facts ci Hc) as (f' & E' & _ & _ & B2 & B3 & B4). rewrite E in E'. inversion E'; subst f'.
  pose proof (base_range row (col_at ci) (k + 1) Hr B2 ltac:(lia) ltac:(lia)). lia.
Qed.

Lemma array_bounds f e row ci :
  0 <= row < n2 -> 0 <= ci < len sel -> format t (col_at ci) = Some f -> desc_type f = Some e ->
  let p := o + base row (col_at ci) in
  0 <= p /\ p + field_bytes f <= len d /\ field_bytes f = 2 * desc_width f /\
  0 <= desc_n f p < 2 ^ 64 /\ 0 <= desc_o f p < 2 ^ 64 /\
  read_desc (match f with TDesc64 _ => true | _ => false end) (mk_reader d p)
  = (Ok [desc_n f p; desc_o f p], mk_reader d (p + field_bytes f)) /\
  (h = true -> array_present lim (o + bt_theap t) e (desc_n f p) (desc_o f p)).
Proof.
  intros Hr Hc E De p. destruct (col_facts ci Hc) as (f' & E' & C & B1 & B2 & B3 & B4). rewrite E in E'. inversion E'; subst f'.
  pose proof size_small as (S1 & S2 & S3 & S4 & S5 & S6 & S7). destruct Pr as (Oc & D & O & _).
  pose proof (base_range row (col_at ci) (field_bytes f) Hr B2 B3 B4) as Ba.
  pose proof (base_range row (col_at ci) 0 Hr B2 ltac:(lia) ltac:(lia)) as Ba0.
  assert (W: field_bytes f = 2 * desc_width f) by (destruct f; [discriminate|reflexivity|reflexivity]).
  specialize (C row Hr). fold p in C.
  split; [unfold p; lia|]. split; [unfold p; lia|]. split; [exact W|].
  destruct f as [?|e'|e']; cbn [desc_type] in De; inversion De; subst e'.
  - destruct (read_desc_at d p false Oc) as (R1 & R2 & R3); [unfold p; lia|unfold p in *; cbn [desc_width] in W; lia|].
    split; [exact R2|]. split; [exact R3|]. split; [exact R1|]. intro Hh. apply C. auto.
  - destruct (read_desc_at d p true Oc) as (R1 & R2 & R3); [unfold p; lia|unfold p in *; cbn [desc_width] in W; lia|].
    split; [exact R2|]. split; [exact R3|]. split; [exact R1|]. intro Hh. apply C. auto.
Qed.

Lemma desc_step row ci f e :
  0 <= row < n2 -> 0 <= ci < len sel -> format t (col_at ci) = Some f -> desc_type f = Some e ->
  exists x r v s', cell d t o h row (col_at ci) = x :: r /\
    main_next m (in_cell row ci 0 0) (col_at ci) = (Ok (Some v), s') /\ slot_value d x v /\
    cont s' row (r ++ slots_at row (ci + 1)).
Proof.
  intros Hr Hc E De. destruct (array_bounds f e row ci Hr Hc E De) as (P0 & P1 & W & N & Of & Rd & Ar).
  set (p := o + base row (col_at ci)) in *.
  pose proof size_small as (S1 & S2 & S3 & S4 & S5 & S6 & S7).
  destruct (col_facts ci Hc) as (f' & E' & C & B1 & B2 & B3 & B4). rewrite E in E'. inversion E'; subst f'.
  pose proof (base_range row (col_at ci) (field_bytes f) Hr B2 B3 B4) as Ba.
  pose proof (base_range row (col_at ci) 0 Hr B2 ltac:(lia) ltac:(lia)) as Ba0.
  assert (Fp: 0 < field_bytes f) by (rewrite W; destruct f; simpl; lia).
  destruct Pr as (Oc & D & O & N2' & Hp & _).
  unfold main_next, in_cell. cbn [at_ tb_off tb_main tb_ctx].
  rewrite (off_not_end row ci 0 f) by (auto; lia).
  assert (Ix: index (bt_tforms t) (col_at ci) = Ok f). { apply format_nth in E as [E1 E2]. apply index_nth; [lia|auto]. }
  rewrite Ix.
  assert (Main: exists x r v s', cell d t o h row (col_at ci) = x :: r /\
    main_desc m (at_ row ci 0 (base row (col_at ci) + 0) (o + (base row (col_at ci) + 0)) InMain) (col_at ci) (match f with TDesc64 _ => true | _ => false end) e
    = (Ok (Some v), s') /\ slot_value d x v /\ cont s' row (r ++ slots_at row (ci + 1))).
  { unfold main_desc. cbn [at_ tb_reader tb_off tb_heap]. rewrite !Z.add_0_r. fold p. rewrite Rd.
    assert (Fb: (if match f with TDesc64 _ => true | _ => false end then 16 else 8) = field_bytes f)
      by (destruct f; [discriminate|reflexivity|reflexivity]).
    rewrite Fb, u64_result_small by lia.
    unfold set_off, set_reader.
    cbn [at_ tb_reader tb_state tb_cols tb_offsets tb_ctx tb_col tb_item tb_off tb_main tb_start tb_first tb_row tb_heap rd_data].
    replace (p + field_bytes f) with (o + (base row (col_at ci) + field_bytes f)) by (unfold p; lia).
    change (mk_table _ _ _ _ _ _ _ _ _ _ _ _ _) with (in_cell row ci 0 (field_bytes f)).
    destruct (Bool.bool_dec h true) as [Ht|Hf].
    - assert (Hif: forall (A : Type) (a b : A), (if h then a else b) = a) by (intros; rewrite Ht; reflexivity). rewrite Hif.
      specialize (Ar Ht) as (A1 & A2 & A3).
      pose proof (elem_bytes_pos e) as Eb. pose proof (elem_bytes_size e) as Es.
      assert (Cell: cell d t o h row (col_at ci) = elems e (desc_n f p) (o + bt_theap t + desc_o f p) (col_at ci)).
      { rewrite (cell_is _ _ _ E). destruct f as [? ?|e'|e']; cbn [desc_type] in De; inversion De; subst e';
          cbn [cell_slots]; rewrite Ht; reflexivity. }
      assert (Nb: desc_n f p * elem_bytes e <= len d) by nia.
      assert (Lst: desc_n f p <= desc_n f p * elem_bytes e) by (apply le_times; lia).
      unfold jump_to_heap, in_cell. cbn [at_ tb_state tb_off tb_ctx tb_reader].
      rewrite !as_i64_small by nia. rewrite !i64_result_small by nia. cbn [bind]. rewrite !i64_result_small by nia. cbn [bind].
      rewrite !i64_result_small by nia.
      rewrite seek_relative_ok by (cbn [rd_pos]; nia). rewrite Es, u64_result_small by lia.
      unfold set_state, set_reader.
      cbn [at_ tb_reader tb_state tb_cols tb_offsets tb_ctx tb_col tb_item tb_off tb_main tb_start tb_first tb_row tb_heap rd_data rd_pos].
      destruct (heap_step row ci f e (desc_n f p) 0 (o + bt_theap t + desc_o f p)) as (v & s' & H1 & H2 & H3); auto; try lia.
      exists (SElem e (o + bt_theap t + desc_o f p + 0 * elem_bytes e) (col_at ci) 0),
        (skipn (Z.to_nat (0 + 1)) (cell d t o h row (col_at ci))), v, s'.
      split; [rewrite Cell; apply (skipn_elems e (desc_n f p) _ _ 0); lia|]. split; [|split; assumption].
      rewrite <- H1. f_equal. unfold at_.
      f_equal; [f_equal; lia|f_equal; lia].
    - apply Bool.not_true_is_false in Hf.
      assert (Hif: forall (A : Type) (a b : A), (if h then a else b) = b) by (intros; rewrite Hf; reflexivity). rewrite Hif.
      rewrite next_col_ok by auto. cbn [finish_next].
      exists (SDesc (match f with TDesc64 _ => true | _ => false end) p), [].
      do 2 eexists. split; [|split; [reflexivity|split]].
      + rewrite (cell_is _ _ _ E). destruct f; [discriminate| |]; cbn [cell_slots]; rewrite Hf; reflexivity.
      + destruct f; [discriminate|reflexivity|reflexivity].
      + cbn [app]. apply after_inv; auto. }
  destruct f as [?|e'|e']; cbn [desc_type] in De; inversion De; subst e'; exact Main.
Qed.

(** One step. *)
Lemma walk_step s row0 l : inv s row0 l ->
  match l with
  | [] => table_next m s = (Ok None, s)
  | x :: r => exists v s', table_next m s = (Ok (Some v), s') /\ slot_value d x v /\ cont s' row0 r
  end.
Proof.
  intro I.
  assert (Nx: forall row ci item off pos st, 0 <= ci < len sel ->
    table_next m (at_ row ci item off pos st) =
    match st with InHeap _ _ _ _ _ => heap_next m (at_ row ci item off pos st) (col_at ci)
                | InMain => main_next m (at_ row ci item off pos st) (col_at ci) end).
  { intros. unfold table_next. cbn [at_ tb_cols tb_col tb_first]. rewrite col_index by auto. reflexivity. }
  destruct I as [ci item Hc | row ci e n item Hr Hc E Hi | row ci f e Hr Hc E De | row ci f e n item p Hr Hc E De Hh En Hi Ep].
  - unfold finished. rewrite Nx by auto. unfold main_next. cbn [at_ tb_off tb_main]. rewrite Z.eqb_refl. reflexivity.
  - rewrite (cell_elems row ci e n E), skipn_elems by auto. cbn [app].
    destruct (col_facts ci Hc) as (f' & E' & C & B1 & B2 & B3 & B4). rewrite E in E'. inversion E'; subst f'. clear E'.
    specialize (C row Hr). cbn [cell_readable] in C. destruct C as [Cx Cn].
    pose proof size_small as (S1 & S2 & S3 & S4 & S5 & S6 & S7). destruct Pr as (Oc & D & O & _).
    pose proof (elem_bytes_pos e) as Eb. pose proof (elem_bytes_size e) as Es. pose proof (field_bytes_elem e n Cx) as Fb.
    pose proof (base_range row (col_at ci) (field_bytes (TElem e n)) Hr B2 B3 B4) as Ba.
    pose proof (base_range row (col_at ci) (item * elem_bytes e) Hr B2 ltac:(nia) ltac:(nia)) as Bi.
    unfold in_cell. rewrite Nx by auto. unfold main_next. cbn [at_ tb_off tb_main tb_ctx].
    rewrite (off_not_end row ci _ _ Hr Hc E) by nia.
    assert (Ix: index (bt_tforms t) (col_at ci) = Ok (TElem e n)). { apply format_nth in E as [E1 E2]. apply index_nth; [lia|auto]. }
    rewrite Ix. assert (Last: match e with TyX => n / 8 + 1 | _ => n end = n) by (destruct e; auto; contradiction). rewrite Last.
    assert (Ie: item * elem_bytes e + elem_bytes e <= field_bytes (TElem e n))
      by (rewrite Fb; pose proof (le_times_le (item + 1) n (elem_bytes e) ltac:(lia) ltac:(lia)); lia).
    destruct (read_elem_at d (o + (base row (col_at ci) + item * elem_bytes e)) e) as (v & Rd & St); auto; [lia|lia|].
    unfold main_elem. cbn [at_ tb_reader tb_off tb_item tb_row tb_col]. rewrite Rd, Es, u64_result_small by nia.
    unfold set_pos, set_off, set_reader.
    cbn [at_ tb_reader tb_state tb_cols tb_offsets tb_ctx tb_col tb_item tb_off tb_main tb_start tb_first tb_row tb_heap rd_data rd_pos].
    replace (base row (col_at ci) + item * elem_bytes e + elem_bytes e) with (base row (col_at ci) + (item + 1) * elem_bytes e) by lia.
    replace (o + (base row (col_at ci) + item * elem_bytes e) + elem_bytes e)
      with (o + (base row (col_at ci) + (item + 1) * elem_bytes e)) by lia.
    change (mk_table _ _ _ _ _ _ _ _ _ _ _ _ _) with (in_cell row ci (item + 1) ((item + 1) * elem_bytes e)).
    assert (Sv: slot_value d (SElem e (o + base row (col_at ci) + item * elem_bytes e) (col_at ci) item) (DVal e v (col_at ci) item)).
    { exists v. split; auto. replace (o + base row (col_at ci) + item * elem_bytes e) with (o + (base row (col_at ci) + item * elem_bytes e)) by lia. exact St. }
    destruct (item + 1 =? n) eqn:Ln.
    + replace ((item + 1) * elem_bytes e) with (field_bytes (TElem e n)) by (rewrite Fb; f_equal; lia).
      rewrite next_col_ok by auto. cbn [finish_next]. do 2 eexists. split; [reflexivity|]. split; [exact Sv|].
      replace (item + 1) with n by lia. rewrite skipn_elems_end by lia. apply after_inv; auto.
    + do 2 eexists. split; [reflexivity|]. split; [exact Sv|]. rewrite <- (cell_elems row ci e n E).
      left. split; [rewrite (cell_elems row ci e n E); apply elems_ne; lia|]. apply (inv_main row ci e n); auto. lia.
  - destruct (desc_step row ci f e Hr Hc E De) as (x & r & v & s' & H1 & H2 & H3 & H4). rewrite H1. cbn [app].
    unfold in_cell in *. rewrite Nx by auto. eauto.
  - destruct (array_bounds f e row ci Hr Hc E De) as (P0 & P1 & W & N & Of & Rd & Ar).
    specialize (Ar Hh) as (A1 & A2 & A3). pose proof (elem_bytes_pos e) as Eb. destruct Pr as (Oc & D & O & N2' & Hp & _).
    assert (Cell: cell d t o h row (col_at ci) = elems e n p (col_at ci)).
    { rewrite (cell_is _ _ _ E). destruct f as [? ?|e'|e']; cbn [desc_type] in De; inversion De; subst e';
        cbn [cell_slots]; rewrite Hh, En, Ep; reflexivity. }
    assert (Ae: p + n * elem_bytes e <= len d) by (rewrite En, Ep; lia).
    assert (Nn: n <= n * elem_bytes e) by (apply le_times; lia).
    assert (Pp: 0 <= p) by (rewrite Ep; lia).
    destruct (heap_step row ci f e n item p) as (v & s' & H1 & H2 & H3); auto; try lia.
    rewrite Cell in H3 |- *. rewrite skipn_elems by lia. cbn [app]. rewrite Nx by auto. eauto.
Qed.

(** Seeking. *)
Lemma walk_seek s row0 l cur i : inv s row0 l -> between t (l ++ cur) -> 0 <= i < n2 ->
  exists s', seek_to_row m s i = (Ok tt, s') /\ inv s' i (slots_at i 0).
Proof.
  intros I B Hi. pose proof size_small as (S1 & S2 & S3 & S4 & S5 & S6 & S7). pose proof sel_pos as Sp.
  exists (in_cell i 0 0 0). split; [|apply start_inv; lia].
  assert (Main: forall row ci item off, 0 <= off <= n1 * n2 ->
    seek_to_row m (at_ row ci item off (o + off) InMain) i = (Ok tt, in_cell i 0 0 0)).
  { intros row ci item off Ho. destruct (col_facts 0 ltac:(lia)) as (f & E & C & B1 & B2 & B3 & B4).
    pose proof (base_range i (col_at 0) 0 ltac:(lia) B2 ltac:(lia) ltac:(lia)) as Ba. rewrite Z.add_0_r in Ba. unfold base in Ba.
    unfold seek_to_row. cbn [at_ tb_ctx]. fold n2. destruct (n2 <=? i) eqn:Big; [lia|].
    unfold row_off, set_pos. cbn [at_ tb_ctx tb_cols tb_offsets tb_off tb_reader].
    fold n1. assert (I63: 0 <= i < 2 ^ 63 /\ 0 <= i * n1 < 2 ^ 63).
    { destruct (Z.eq_dec n1 0) as [Z0|]; [|split; nia]. exfalso.
      specialize (B1 ltac:(lia)). lia. }
    rewrite !as_i64_small by lia. rewrite !i64_result_small by lia. cbn [bind]. rewrite (col_index 0) by lia. cbn [bind].
    rewrite (offsets_index _ _ _ E). cbn [bind]. fold cs. rewrite !as_i64_small by lia. rewrite !i64_result_small by lia. cbn [bind].
    rewrite !i64_result_small by lia. cbn [bind].
    rewrite seek_relative_ok by (cbn [rd_pos]; lia). rewrite as_usize_small by lia.
    unfold set_off, set_reader. cbn [tb_reader tb_state tb_cols tb_offsets tb_ctx tb_col tb_item tb_off tb_main tb_start tb_first tb_row tb_heap rd_data rd_pos].
    unfold in_cell, at_, base. f_equal. f_equal; [f_equal; lia|lia]. }
  destruct I as [ci item Hc | row ci e n item Hr Hc E Hit | row ci f e Hr Hc E De | row ci f e n item p Hr Hc E De Hh En Hit Ep].
  - apply Main. lia.
  - apply Main. destruct (col_facts ci Hc) as (f' & E' & C & B1 & B2 & B3 & B4). rewrite E in E'. inversion E'; subst f'.
    specialize (C row Hr). cbn [cell_readable] in C. destruct C as [Cx Cn]. pose proof (field_bytes_elem e n Cx) as Fb.
    pose proof (elem_bytes_pos e). apply base_range; auto; nia.
  - apply Main. destruct (col_facts ci Hc) as (f' & E' & C & B1 & B2 & B3 & B4). apply base_range; auto; lia.
  - exfalso. assert (Cell: cell d t o h row (col_at ci) = elems e n p (col_at ci)).
    { rewrite (cell_is _ _ _ E). destruct f as [? ?|e'|e']; cbn [desc_type] in De; inversion De; subst e';
        cbn [cell_slots]; rewrite Hh, En, Ep; reflexivity. }
    rewrite Cell, skipn_elems in B by lia. cbn [app between] in B. rewrite E in B. destruct f; [discriminate|lia|lia].
Qed.

Lemma seek_error s i : tb_ctx s = t -> n2 <= i -> seek_to_row m s i = (Err EStatic, s).
Proof. intros E H. unfold seek_to_row. rewrite E. fold n2. destruct (n2 <=? i) eqn:X; [reflexivity|lia]. Qed.

Lemma inv_ctx s row l : inv s row l -> tb_ctx s = t.
Proof. destruct 1; reflexivity. Qed.
Lemma inv_row s row0 l : inv s row0 l -> tb_row s = row0 /\ 0 <= row0 <= n2 /\ (l = [] -> row0 = n2).
Proof.
  pose proof size_small as (S1 & S2 & S3 & S4 & S5 & S6 & S7).
  destruct 1 as [ci item Hc | row ci e n item Hr Hc E Hi | row ci f e Hr Hc E De | row ci f e n item p Hr Hc E De Hh En Hi Ep];
    (split; [reflexivity|]); (split; [lia|]); intro L; try reflexivity; exfalso; revert L.
  - rewrite (cell_elems row ci e n E). apply elems_ne. auto.
  - pose proof (cell_ne row ci Hr Hc). destruct (cell d t o h row (col_at ci)); [contradiction|discriminate].
  - assert (Cell: cell d t o h row (col_at ci) = elems e n p (col_at ci)).
    { rewrite (cell_is _ _ _ E). destruct f as [? ?|e'|e']; cbn [desc_type] in De; inversion De; subst e';
        cbn [cell_slots]; rewrite Hh, En, Ep; reflexivity. }
    rewrite Cell. apply elems_ne. lia.
Qed.

Lemma cont_all s row l : 0 <= row < n2 -> cont s row l ->
  exists row' l', inv s row' l' /\ l ++ slots_from d t o h sel (row + 1) = l' ++ slots_from d t o h sel (row' + 1).
Proof.
  intros Hr [[N I]|[-> I]]; [eauto|]. exists (row + 1), (row_of (row + 1)). split; auto. cbn [app].
  apply slots_from_step. lia.
Qed.

(** The reader stays in the table and its arrays. *)
Lemma inv_pos s row0 l : inv s row0 l ->
  exists p, tb_reader s = mk_reader d p /\ o <= p <= Z.max (o + n1 * n2) lim.
Proof.
  pose proof size_small as (S1 & S2 & S3 & S4 & S5 & S6 & S7).
  destruct 1 as [ci item Hc | row ci e n item Hr Hc E Hi | row ci f e Hr Hc E De | row ci f e n item p Hr Hc E De Hh En Hi Ep];
    eexists; (split; [reflexivity|]).
  - lia.
  - destruct (col_facts ci Hc) as (f' & E' & C & B1 & B2 & B3 & B4). rewrite E in E'. inversion E'; subst f'.
    specialize (C row Hr). cbn [cell_readable] in C. destruct C as [Cx Cn]. pose proof (field_bytes_elem e n Cx) as Fb.
    pose proof (elem_bytes_pos e). pose proof (base_range row (col_at ci) (item * elem_bytes e) Hr B2 ltac:(nia) ltac:(nia)). lia.
  - destruct (col_facts ci Hc) as (f' & E' & C & B1 & B2 & B3 & B4).
    pose proof (base_range row (col_at ci) 0 Hr B2 ltac:(lia) ltac:(lia)). lia.
  - destruct (array_bounds f e row ci Hr Hc E De) as (P0 & P1 & W & N & Of & Rd & Ar).
    specialize (Ar Hh) as (A1 & A2 & A3). pose proof (elem_bytes_pos e) as Eb. destruct Pr as (Oc & D & O & N2' & Hp & _).
    rewrite <- En in A3. nia.
Qed.

(** Histories. *)
Lemma walk_history ops : forall s row l, inv s row l ->
  proper t (slots_from d t o h sel) (l ++ slots_from d t o h sel (row + 1)) ops ->
  history d t (slots_from d t o h sel) (l ++ slots_from d t o h sel (row + 1)) ops (fst (table_run m s ops)) /\
  exists row' l', inv (snd (table_run m s ops)) row' l'.
Proof.
  induction ops as [|op ops IH]; intros s row l I Pp; [split; [exact Logic.I|]; eauto|].
  destruct (inv_row s row l I) as (R1 & R2 & R3).
  cbn [table_run]. destruct op as [|i]; cbn [table_do proper] in *.
  - pose proof (walk_step s row l I) as W. destruct l as [|x r].
    + rewrite W. rewrite slots_from_end in * by (specialize (R3 eq_refl); lia). cbn [app tl] in *.
      specialize (IH s row [] I). rewrite slots_from_end in IH by (specialize (R3 eq_refl); lia). specialize (IH Pp).
      destruct (table_run m s ops) as [rs s2] eqn:T. cbn [fst snd history] in *. split; [split; [reflexivity|apply IH]|apply IH].
    + destruct W as (v & s' & -> & W2 & W3).
      assert (Hr: 0 <= row < n2) by (inversion I; subst; auto).
      destruct (cont_all s' row r Hr W3) as (row' & l' & I' & E').
      cbn [app tl] in Pp. rewrite E' in Pp. specialize (IH s' row' l' I' Pp).
      destruct (table_run m s' ops) as [rs s2] eqn:T. cbn [fst snd history app] in *. rewrite <- E' in IH.
      split; [|apply IH]. exists v. split; [reflexivity|]. split; [exact W2|]. apply IH.
  - destruct Pp as [Ui Pp]. unfold u64 in Ui. destruct (i <? bt_naxis2 t) eqn:Lt.
    + destruct Pp as [B Pp]. destruct (walk_seek s row l _ i I B ltac:(unfold n2; lia)) as (s' & -> & S2).
      rewrite slots_from_step in Pp by (unfold n2; lia). unfold row_of in Pp. fold n2 in Lt. rewrite Lt in Pp.
      specialize (IH s' i _ S2 Pp).
      destruct (table_run m s' ops) as [rs s2] eqn:T. cbn [fst snd history] in *. fold n2. rewrite Lt.
      split; [|apply IH]. split; [reflexivity|].
      rewrite slots_from_step by (unfold n2 in *; lia). unfold row_of. rewrite Lt. apply IH.
    + rewrite (seek_error s i (inv_ctx s row l I)) by (unfold n2; lia). specialize (IH s row l I Pp).
      destruct (table_run m s ops) as [rs s2] eqn:T. cbn [fst snd history] in *. rewrite Lt. split; [split; [reflexivity|]|]; apply IH.
Qed.

(** All the values. *)
Lemma firstn_more {A} n (a : list A) x : firstn n (a ++ repeat x n) = firstn n (a ++ repeat x (S n)).
Proof.
  replace (S n) with (n + 1)%nat by lia. rewrite repeat_app, app_assoc, (firstn_app n (a ++ repeat x n)).
  replace (n - length (a ++ repeat x n))%nat with O by (rewrite app_length, repeat_length; lia).
  cbn [firstn]. rewrite app_nil_r. reflexivity.
Qed.
Lemma walk_values : forall cur s row l, inv s row l -> cur = l ++ slots_from d t o h sel (row + 1) ->
  exists cells, Forall2 (slot_value d) cur cells /\
    forall n, fst (table_run m s (repeat TNext n)) = firstn n (map TValue cells ++ repeat TEnd n).
Proof.
  induction cur as [|x cur IH]; intros s row l I E.
  - exists []. split; [constructor|]. symmetry in E. apply app_eq_nil in E as [El _]. subst l.
    pose proof (walk_step s row [] I) as W. cbn [map app].
    intro n. rewrite firstn_all2 by (rewrite repeat_length; lia).
    induction n as [|n IHn]; [reflexivity|]. cbn [repeat table_run table_do]. rewrite W.
    destruct (table_run m s (repeat TNext n)) as [rs s2]. cbn [fst] in *. rewrite IHn. reflexivity.
  - destruct (inv_row s row l I) as (R1 & R2 & R3). destruct l as [|y l].
    + exfalso. rewrite slots_from_end in E by (specialize (R3 eq_refl); lia). discriminate.
    + inversion E; subst y. pose proof (walk_step s row (x :: l) I) as (v & s' & W1 & W2 & W3).
      assert (Hr: 0 <= row < n2) by (inversion I; subst; auto).
      destruct (cont_all s' row l Hr W3) as (row' & l' & I' & E').
      destruct (IH s' row' l' I' ltac:(congruence)) as (cells & F & R). subst cur.
      exists (v :: cells). split; [constructor; auto|]. intro n. destruct n as [|n]; [reflexivity|].
      cbn [repeat table_run table_do]. rewrite W1. specialize (R n).
      destruct (table_run m s' (repeat TNext n)) as [rs s2]. cbn [fst map app firstn] in *. rewrite R. f_equal.
      apply firstn_more.
Qed.

(** Rows. *)
Lemma walk_row : forall fuel s row l acc, inv s row l -> l <> [] -> (length l <= fuel)%nat ->
  exists cells s', row_loop m fuel s row acc = (Some (Ok (Some (rev acc ++ cells))), s') /\
    Forall2 (slot_value d) l cells /\ inv s' (row + 1) (row_of (row + 1)).
Proof.
  induction fuel as [|fuel IH]; intros s row l acc I N L; [destruct l; [contradiction|simpl in L; lia]|].
  destruct l as [|x l]; [contradiction|]. destruct (inv_row s row _ I) as (R1 & R2 & R3).
  cbn [row_loop]. rewrite R1, Z.eqb_refl. destruct (walk_step s row _ I) as (v & s' & W1 & W2 & [[N' I']|[-> I']]); rewrite W1.
  - destruct (IH s' row l (v :: acc) I' N' ltac:(simpl in L; lia)) as (cells & s'' & E & F & I''). exists (v :: cells), s''.
    rewrite E. split; [|split; auto]. cbn [rev]. rewrite <- app_assoc. reflexivity.
  - exists [v], s'. split; [|split; auto]. destruct (inv_row s' _ _ I') as (R1' & _).
    assert (G: forall k a, row_loop m k s' row a = (Some (Ok (Some (rev a))), s')).
    { intros k a. destruct k; cbn [row_loop]; rewrite R1'; destruct (row + 1 =? row) eqn:X; try lia; reflexivity. }
    rewrite G. reflexivity.
Qed.

Lemma walk_rows : forall k s row, inv s row (row_of row) -> k = Z.to_nat (n2 - row) ->
  exists rows, Forall2 (fun i cells => Forall2 (slot_value d) (row_slots d t o h sel i) cells) (rows_from t row) rows /\
    forall fuel n, (1 <= fuel)%nat -> (forall i, In i (rows_from t row) -> (length (row_slots d t o h sel i) <= fuel)%nat) ->
      row_run m fuel (mk_row_it s row) n = firstn n (map RowOf rows ++ repeat RowEnd n).
Proof.
  induction k as [|k IH]; intros s row I K; destruct (inv_row s row _ I) as (R1 & R2 & R3).
  - exists []. rewrite rows_from_end by lia. split; [constructor|]. intros fuel n F _. cbn [map app].
    assert (Z0: row_of row = []) by (unfold row_of; destruct (row <? n2) eqn:X; [lia|reflexivity]). rewrite Z0 in I.
    pose proof (walk_step s row [] I) as W. rewrite firstn_all2 by (rewrite repeat_length; lia).
    induction n as [|n IHn]; [reflexivity|]. cbn [row_run repeat]. unfold row_next. cbn [ri_data ri_row].
    destruct fuel as [|fuel]; [lia|]. cbn [row_loop]. rewrite R1, Z.eqb_refl, W. cbv iota. rewrite IHn. reflexivity.
  - assert (Hr: 0 <= row < n2) by lia. rewrite rows_from_step by lia.
    assert (Rw: row_of row = row_slots d t o h sel row) by (unfold row_of; destruct (row <? n2) eqn:X; [reflexivity|lia]).
    assert (Nn: row_of row <> []) by (intro X; specialize (R3 X); lia).
    destruct (walk_row (length (row_of row)) s row _ [] I Nn ltac:(lia)) as (cells & s' & E & F & I').
    destruct (IH s' (row + 1) I' ltac:(lia)) as (rows & FR & RR).
    exists (cells :: rows). split; [constructor; [rewrite <- Rw; exact F|exact FR]|].
    intros fuel n F1 FL. destruct n as [|n]; [reflexivity|]. cbn [row_run]. unfold row_next. cbn [ri_data ri_row].
    destruct (walk_row fuel s row _ [] I Nn) as (cells2 & s2 & E2 & F2 & I2).
    { rewrite Rw. apply FL. left. reflexivity. }
    assert (Same: forall f1 f2 sx a r1 r2, (f1 <= f2)%nat -> row_loop m f1 sx row a = (Some r1, r2) -> row_loop m f2 sx row a = (Some r1, r2)).
    { clear. induction f1 as [|f1 IH]; intros f2 sx a r1 r2 L E.
      - cbn [row_loop] in E. destruct f2; cbn [row_loop]; destruct (tb_row sx =? row); try discriminate; exact E.
      - destruct f2 as [|f2]; [lia|]. cbn [row_loop] in *. destruct (tb_row sx =? row); [|exact E].
        destruct (table_next m sx) as [[[v|]| |] s']; try exact E. apply IH; [lia|exact E]. }
    assert (Fl: (length (row_of row) <= fuel)%nat) by (rewrite Rw; apply FL; left; reflexivity).
    rewrite (Same _ _ _ _ _ _ Fl E). cbn [rev app map firstn]. f_equal.
    rewrite RR; auto; [|intros i Hi; apply FL; right; exact Hi].
    apply firstn_more.
Qed.

End Walk.

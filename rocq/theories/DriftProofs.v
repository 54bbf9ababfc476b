(** Rows read by a reader that is not where the table thinks it is: they are the rows of another file. *)

From Coq Require Import Lia ZifyBool Sorted.
From Verif Require Import Base Text Card Reader Header Xtension Bytes Fits ImageIt BinTable.
From Verif Require Import SpecCard SpecHeader SpecXt SpecFits SpecImage SpecBin SpecBinCut.
From Verif Require Import BytesProofs ImageProofs XtProofs2 XtProofs3 BinProofs BinProofs2 BinProofs3 BinProofs5.

(** The bytes of [d] moved by [g], as many as [lim]. *)
Definition drifted (d : list Z) (g lim : Z) : list Z :=
  map (fun i => if 0 <=? i + g then nth (Z.to_nat (i + g)) d 0 else 0) (upto lim).

Lemma drifted_len d g lim : 0 <= lim -> len (drifted d g lim) = lim.
Proof. intro H. unfold drifted, len. rewrite map_length. apply (upto_len lim H). Qed.

Lemma drifted_octets d g lim : octets d -> octets (drifted d g lim).
Proof.
  intro O. unfold octets, drifted in *. rewrite Forall_forall in *. intros x H. apply in_map_iff in H as (i & <- & _).
  destruct (0 <=? i + g); [|lia]. destruct (nth_in_or_default (Z.to_nat (i + g)) d 0) as [I|E]; [apply O, I|rewrite E; lia].
Qed.

Lemma drifted_slice d g lim p n : 0 <= p -> 0 <= p + g -> 0 <= n -> p + g + n <= len d -> p + n <= lim ->
  slice (drifted d g lim) p n = slice d (p + g) n.
Proof.
  intros P Q N D L. assert (Ll: len (drifted d g lim) = lim) by (apply drifted_len; lia).
  apply nth_ext with (d := 0) (d' := 0).
  - unfold slice. rewrite !firstn_length, !skipn_length. unfold len in *. lia.
  - intros i Hi. assert (Ln: (i < Z.to_nat n)%nat) by (unfold slice in Hi; rewrite firstn_length in Hi; lia).
    rewrite !nth_slice by lia.
    unfold drifted. set (f := fun j => if 0 <=? j + g then nth (Z.to_nat (j + g)) d 0 else 0).
    assert (Lu: (Z.to_nat p + i < length (upto lim))%nat) by (pose proof (upto_len lim ltac:(lia)); unfold len in *; lia).
    rewrite (nth_indep _ 0 (f 0)) by (rewrite map_length; exact Lu). rewrite map_nth.
    assert (Eu: nth (Z.to_nat p + i) (upto lim) 0 = p + Z.of_nat i).
    { unfold upto. rewrite (nth_indep _ 0 (Z.of_nat 0)) by exact Lu. rewrite map_nth, seq_nth; [lia|]. unfold upto in Lu. rewrite map_length, seq_length in Lu. exact Lu. }
    rewrite Eu. unfold f. replace (0 <=? p + Z.of_nat i + g) with true by lia. f_equal. lia.
Qed.

Ltac fields := cbn [tb_reader tb_state tb_cols tb_offsets tb_ctx tb_col tb_item tb_off tb_main tb_start
  tb_first tb_row tb_heap set_reader set_state set_cols set_pos set_off set_first rd_data rd_pos].

Section Move.
Variables (m : mode) (d : list Z) (g lim : Z).
Notation full := (drifted d g lim).
Hypothesis L0 : 0 <= lim.

(** The same state over [d]. *)
Definition mv (s : table) : table := set_reader s (mk_reader d (rd_pos (tb_reader s) + g)).
Notation eof := (at_eof d).

Lemma read_be_mv b p : 0 <= p -> 0 <= p + g -> p + byte_size b <= lim ->
  (p + g + byte_size b <= len d -> exists v, read_be b (mk_reader full p) = (Ok v, mk_reader full (p + byte_size b)) /\
                                       read_be b (mk_reader d (p + g)) = (Ok v, mk_reader d (p + byte_size b + g))) /\
  (len d < p + g + byte_size b -> read_be b (mk_reader d (p + g)) = (Err EEof, mk_reader d (len d))).
Proof.
  intros P Q L. assert (B: 1 <= byte_size b) by (destruct b; vm_compute; discriminate).
  unfold read_be, read_exact. cbn [rd_pos rd_data]. destruct (byte_size b =? 0) eqn:Z0; [lia|]. split; intro R.
  - destruct (p + g + byte_size b <=? len d) eqn:X; [|lia]. destruct (p + byte_size b <=? len full) eqn:Y; [|rewrite drifted_len in Y; lia].
    rewrite drifted_slice by lia. replace (p + byte_size b + g) with (p + g + byte_size b) by lia. eauto.
  - destruct (p + g + byte_size b <=? len d) eqn:X; [lia|]. reflexivity.
Qed.

Lemma read_pair_mv b p : 0 <= p -> 0 <= p + g -> p + 2 * byte_size b <= lim ->
  (p + g + 2 * byte_size b <= len d -> exists v w, read_pair b (mk_reader full p) = (Ok [v; w], mk_reader full (p + 2 * byte_size b)) /\
                                       read_pair b (mk_reader d (p + g)) = (Ok [v; w], mk_reader d (p + 2 * byte_size b + g))) /\
  (len d < p + g + 2 * byte_size b -> read_pair b (mk_reader d (p + g)) = (Err EEof, mk_reader d (len d))).
Proof.
  intros P Q L. assert (B: 1 <= byte_size b) by (destruct b; vm_compute; discriminate).
  destruct (read_be_mv b p P Q ltac:(lia)) as [A1 A2]. destruct (read_be_mv b (p + byte_size b) ltac:(lia) ltac:(lia) ltac:(lia)) as [B1 B2].
  unfold read_pair. split; intro R.
  - destruct (A1 ltac:(lia)) as (v & -> & ->). destruct (B1 ltac:(lia)) as (w & -> & ->). exists v, w.
    replace (p + 2 * byte_size b) with (p + byte_size b + byte_size b) by lia. auto.
  - destruct (Z_le_gt_dec (p + g + byte_size b) (len d)).
    + destruct (A1 ltac:(lia)) as (v & _ & ->). rewrite (B2 ltac:(lia)). reflexivity.
    + rewrite (A2 ltac:(lia)). reflexivity.
Qed.

Lemma read_elem_mv e p : 0 <= p -> 0 <= p + g -> p + elem_bytes e <= lim ->
  (p + g + elem_bytes e <= len d -> exists v, read_elem e (mk_reader full p) = (Ok v, mk_reader full (p + elem_bytes e)) /\
                                       read_elem e (mk_reader d (p + g)) = (Ok v, mk_reader d (p + elem_bytes e + g))) /\
  (len d < p + g + elem_bytes e -> exists er, read_elem e (mk_reader d (p + g)) = (Err er, mk_reader d (len d))).
Proof.
  intros P Q L.
  assert (One: forall b f, elem_bytes e = byte_size b ->
    (p + g + elem_bytes e <= len d -> exists v, read_one b f (mk_reader full p) = (Ok v, mk_reader full (p + elem_bytes e)) /\
                                       read_one b f (mk_reader d (p + g)) = (Ok v, mk_reader d (p + elem_bytes e + g))) /\
    (len d < p + g + elem_bytes e -> exists er, read_one b f (mk_reader d (p + g)) = (Err er, mk_reader d (len d)))).
  { intros b f E. rewrite E in *. unfold read_one. destruct (read_be_mv b p P Q L) as [A1 A2]. split; intro R.
    - destruct (A1 R) as (v & -> & ->). eauto.
    - rewrite (A2 R). eauto. }
  assert (Two: forall b, elem_bytes e = 2 * byte_size b ->
    (p + g + elem_bytes e <= len d -> exists v, read_pair b (mk_reader full p) = (Ok v, mk_reader full (p + elem_bytes e)) /\
                                       read_pair b (mk_reader d (p + g)) = (Ok v, mk_reader d (p + elem_bytes e + g))) /\
    (len d < p + g + elem_bytes e -> exists er, read_pair b (mk_reader d (p + g)) = (Err er, mk_reader d (len d)))).
  { intros b E. rewrite E in *. destruct (read_pair_mv b p P Q L) as [A1 A2]. split; intro R.
    - destruct (A1 R) as (v & w & -> & ->). eauto.
    - rewrite (A2 R). eauto. }
  unfold read_elem. destruct e; (apply One || apply Two); reflexivity.
Qed.

Definition lands (s : table) : Prop := 0 <= rd_pos (tb_reader s) + g < 2 ^ 64.

Lemma seek_by_mv s off s' : seek_by m s off = (Ok tt, s') -> lands s' -> seek_by m (mv s) off = (Ok tt, mv s').
Proof.
  unfold seek_by, seek_relative, mv, lands. fields. intros E N.
  destruct ((0 <=? rd_pos (tb_reader s) + off) && (rd_pos (tb_reader s) + off <? 2 ^ 64)); [|discriminate].
  destruct (u64_result m (tb_off s + as_usize off)) as [v| |] eqn:U; try discriminate. inversion E; subst; revert N; fields; intro N.
  replace ((0 <=? rd_pos (tb_reader s) + g + off) && (rd_pos (tb_reader s) + g + off <? 2 ^ 64)) with true by lia.
  replace (rd_pos (tb_reader s) + off + g) with (rd_pos (tb_reader s) + g + off) by lia. reflexivity.
Qed.

Lemma seek_next_mv s s' : seek_to_next_col m s = (Ok tt, s') -> lands s' -> seek_to_next_col m (mv s) = (Ok tt, mv s').
Proof.
  unfold seek_to_next_col. change (tb_cols (mv s)) with (tb_cols s). change (tb_ctx (mv s)) with (tb_ctx s).
  change (tb_col (mv s)) with (tb_col s). change (tb_row (mv s)) with (tb_row s).
  change (tb_main (mv s)) with (tb_main s). change (tb_off (mv s)) with (tb_off s). intros E N. revert E.
  destruct (u64_result m (len (tb_cols s) - 1)) as [lc| |]; try discriminate.
  destruct (u64_result m (bt_naxis2 (tb_ctx s) - 1)) as [lr| |]; try discriminate.
  destruct ((tb_col s =? lc) && (tb_row s =? lr)).
  - destruct (i64_result m _) as [off| |]; try discriminate. intro E. exact (seek_by_mv _ _ _ E N).
  - destruct (len (tb_cols s) =? 0); try discriminate.
    destruct (index (tb_cols s) _) as [c| |]; try discriminate. cbn [bind].
    match goal with |- context [set_pos s ?a ?b ?e] => change (set_pos (mv s) a b e) with (mv (set_pos s a b e)) end.
    change (next_col_off m (mv ?x) c) with (next_col_off m x c).
    destruct (next_col_off m _ c) as [off| |]; try discriminate.
    intro E. exact (seek_by_mv _ _ _ E N).
Qed.

Lemma finish_mv s v s' : finish_next (seek_to_next_col m s) v = (Ok (Some v), s') -> lands s' ->
  finish_next (seek_to_next_col m (mv s)) v = (Ok (Some v), mv s').
Proof.
  destruct (seek_to_next_col m s) as [[[]| |] s1] eqn:E; cbn [finish_next]; intros H N; inversion H; subst.
  rewrite (seek_next_mv _ _ E N). reflexivity.
Qed.

(** An element of the main table. *)
Lemma elem_mv s c e last v s' : rd_data (tb_reader s) = full -> 0 <= rd_pos (tb_reader s) -> 0 <= rd_pos (tb_reader s) + g ->
  rd_pos (tb_reader s) + elem_bytes e <= lim -> main_elem m s c e last = (Ok (Some v), s') ->
  (rd_pos (tb_reader s) + g + elem_bytes e <= len d -> lands s' -> main_elem m (mv s) c e last = (Ok (Some v), mv s')) /\
  (len d < rd_pos (tb_reader s) + g + elem_bytes e ->
     main_elem m (mv s) c e last = (Ok None, eof s) /\ main_elem m (eof s) c e last = (Ok None, eof s)).
Proof.
  intros D P Q L. unfold main_elem.
  destruct (tb_reader s) as [rd pos] eqn:Er. cbn [rd_data rd_pos] in *. subst rd.
  change (tb_reader (mv s)) with (mk_reader d (rd_pos (tb_reader s) + g)). rewrite Er. cbn [rd_pos].
  change (tb_reader (eof s)) with (mk_reader d (len d)). change (tb_off (mv s)) with (tb_off s).
  change (tb_item (mv s)) with (tb_item s). change (tb_row (mv s)) with (tb_row s). change (tb_col (mv s)) with (tb_col s).
  pose proof (elem_bytes_pos e) as Eb. destruct (read_elem_mv e pos P Q L) as [A B].
  intro H. split.
  - intros R N. destruct (A R) as (w & E1 & E2). rewrite E1 in H. rewrite E2.
    destruct (u64_result m (tb_off s + bytes_size e)) as [o| |]; try discriminate.
    destruct (tb_item s + 1 =? last); [|inversion H; subst; reflexivity].
    assert (V: v = DVal e w c (tb_item s)).
    { destruct (seek_to_next_col m _) as [[[]| |] s1]; cbn [finish_next] in H; congruence. }
    subst v. exact (finish_mv _ _ _ H N).
  - intro R. destruct (B R) as (er & ->). split; [reflexivity|].
    destruct (read_elem_cut d [] e (len d) (len_nonneg d)) as [_ B']. destruct (B' ltac:(lia)) as (er' & ->). reflexivity.
Qed.

(** A descriptor. *)
Lemma desc_mv s c wide e v s' : rd_data (tb_reader s) = full -> 0 <= rd_pos (tb_reader s) -> 0 <= rd_pos (tb_reader s) + g ->
  rd_pos (tb_reader s) + dwidth wide <= lim -> tb_heap s = false ->
  main_desc m s c wide e = (Ok (Some v), s') ->
  (len d < rd_pos (tb_reader s) + g + dwidth wide ->
     main_desc m (mv s) c wide e = (Ok None, eof s) /\ main_desc m (eof s) c wide e = (Ok None, eof s)) /\
  (rd_pos (tb_reader s) + g + dwidth wide <= len d -> lands s' -> main_desc m (mv s) c wide e = (Ok (Some v), mv s')).
Proof.
  intros D P Q L Hf. unfold main_desc, read_desc.
  destruct (tb_reader s) as [rd pos] eqn:Er. cbn [rd_data rd_pos] in *. subst rd.
  change (tb_reader (mv s)) with (mk_reader d (rd_pos (tb_reader s) + g)). rewrite Er. cbn [rd_pos].
  change (tb_reader (eof s)) with (mk_reader d (len d)). change (tb_off (mv s)) with (tb_off s).
  change (tb_heap (mv s)) with (tb_heap s).
  set (b := if wide then BF64 else BF32) in *. assert (W: dwidth wide = 2 * byte_size b) by (unfold b; destruct wide; reflexivity).
  change (if wide then 16 else 8) with (dwidth wide).
  assert (B1: 1 <= byte_size b) by (unfold b; destruct wide; vm_compute; discriminate).
  destruct (read_pair_mv b pos P Q ltac:(lia)) as [A B]. rewrite <- W in A, B. intro H. split.
  - intro R. rewrite (B R). split; [reflexivity|].
    destruct (read_pair_cut d [] b (len d) (len_nonneg d)) as [_ B']. rewrite B' by lia. reflexivity.
  - intros R N. rewrite Hf in *. destruct (A R) as (n & o & E1 & E2). rewrite E1 in H. rewrite E2.
    destruct (u64_result m (tb_off s + dwidth wide)) as [off| |]; try discriminate.
    assert (V: v = if wide then DVla64 n o else DVla32 n o).
    { destruct (seek_to_next_col m _) as [[[]| |] s1]; cbn [finish_next] in H; congruence. }
    subst v. exact (finish_mv _ _ _ H N).
Qed.
End Move.

Section Drift.
Variables (m : mode) (d : list Z) (g : Z) (t : bintable) (o : Z) (sel : list Z).
Let lim := o + bt_naxis1 t * bt_naxis2 t.
Let n1 := bt_naxis1 t.
Notation full := (drifted d g lim).
Hypothesis Ld : len d < 2 ^ 63.
Hypothesis Pr : table_present full t o.
Hypothesis Re : columns_readable full (len full) t o false sel.
Hypothesis So : StronglySorted Z.lt sel.
Hypothesis Ne : sel <> [].
Notation inv := (inv full t o false sel).
Notation cont := (cont full t o false sel).
Notation move := (mv d g).
Notation col_at := (BinProofs2.col_at sel).

Lemma lim_pos : 0 <= lim.
Proof. pose proof (size_small _ _ _ Pr) as (S1 & S2 & S3 & S4 & _). unfold lim. lia. Qed.

(** Where the reader is. *)
Lemma inv_place s row l : inv s row l -> o + row * n1 <= rd_pos (tb_reader s) <= lim /\ rd_data (tb_reader s) = full.
Proof.
  pose proof (size_small _ _ _ Pr) as (S1 & S2 & S3 & S4 & S5 & S6 & S7).
  destruct 1 as [ci item Hc | row ci e n item Hr Hc E Hi | row ci f e Hr Hc E De | row ci f e n item p Hr Hc E De Hh En Hi Ep];
    [| | |discriminate]; unfold finished, in_cell, at_; cbn [tb_reader rd_pos rd_data].
  - split; [|reflexivity]. unfold lim, n1. lia.
  - destruct (col_facts _ _ t o false sel Pr Re ci Hc) as (f' & E' & Cr & B1 & B2 & B3 & B4). rewrite E in E'. inversion E'; subst f'. clear E'.
    specialize (Cr row Hr). cbn [cell_readable] in Cr. destruct Cr as [Cx Cn].
    pose proof (elem_bytes_pos e) as Eb. rewrite (field_bytes_elem t e n Cx) in B3, B4.
    pose proof (base_range t row (col_at ci) (item * elem_bytes e) Hr B2 ltac:(nia) ltac:(nia)) as Ba.
    split; [|reflexivity]. unfold base in Ba |- *. unfold lim, n1. nia.
  - destruct (col_facts _ _ t o false sel Pr Re ci Hc) as (f' & E' & Cr & B1 & B2 & B3 & B4). rewrite E in E'. inversion E'; subst f'. clear E'.
    pose proof (base_range t row (col_at ci) 0 Hr B2 ltac:(lia) ltac:(lia)) as Ba.
    split; [|reflexivity]. unfold base in Ba |- *. unfold lim, n1. nia.
Qed.

Lemma cont_place s row l : cont s row l -> o + row * n1 <= rd_pos (tb_reader s) <= lim.
Proof.
  pose proof (size_small _ _ _ Pr) as (S1 & _). fold n1 in S1.
  intros [(_ & I)|(_ & I)]; apply inv_place in I as (I & _); lia.
Qed.

Definition stuck (s : table) (row : Z) : Prop := table_next m s = (Ok None, s) /\ tb_row s = row.

Lemma drift_step s row y r : inv s row (y :: r) -> 0 <= o + row * n1 + g ->
  (slot_end y + g <= len d -> exists v s', table_next m (move s) = (Ok (Some v), move s') /\ slot_value full y v /\ cont s' row r) /\
  (len d < slot_end y + g -> exists s2, table_next m (move s) = (Ok None, s2) /\ stuck s2 row).
Proof.
  intros I G0. pose proof (walk_step m full (len full) t o false sel (Z.le_refl _) Pr Re So Ne s row (y :: r) I) as (v & s' & W & V & C).
  pose proof (inv_row full (len full) t o false sel Pr Re s row (y :: r) I) as (Rw & R0 & _).
  pose proof (inv_place s row _ I) as (Pl & Dt). pose proof (cont_place s' row _ C) as Pl'.
  pose proof (size_small full t o Pr) as (S1 & S2 & S3 & S4 & S5 & S6 & S7).
  assert (Q0: 0 <= rd_pos (tb_reader s)) by (assert (0 <= row * n1) by (apply Z.mul_nonneg_nonneg; unfold n1; lia); lia).
  assert (Lp: forall z, 0 <= z -> slot_end y = rd_pos (tb_reader s) + z -> slot_end y + g <= len d -> lands g s').
  { intros z Z0 Z1 Z2. unfold lands. unfold lim at 1 in Pl'. lia. }
  enough (K: (slot_end y + g <= len d -> table_next m (move s) = (Ok (Some v), move s')) /\
             (len d < slot_end y + g -> exists s2, table_next m (move s) = (Ok None, s2) /\ table_next m s2 = (Ok None, s2) /\ tb_row s2 = tb_row s)).
  { destruct K as [K1 K2]. split; [intro X; exists v, s'; auto|]. intro X. destruct (K2 X) as (s2 & ? & ? & ?). exists s2.
    split; [assumption|]. split; [assumption|]. congruence. }
  pose proof Pr as (Oc & D & O & N2' & Hp & _).
  pose proof lim_pos as L0.
  inversion I as [ci item Hc E1 E2 E3 | row' ci e n item Hr Hc E Hi E1 E2 E3 | row' ci f e Hr Hc E De E1 E2 E3
                 | row' ci f e n item p Hr Hc E De Hh En Hi Ep E1 E2 E3]; subst row'; rewrite ?E1; [| |discriminate].
  - (* main *)
    destruct (col_facts full (len full) t o false sel Pr Re ci Hc) as (f' & E' & Cr & B1 & B2 & B3 & B4). rewrite E in E'. inversion E'; subst f'. clear E'.
    specialize (Cr row Hr). cbn [cell_readable] in Cr. destruct Cr as [Cx Cn].
    pose proof (elem_bytes_pos e) as Eb. rewrite (field_bytes_elem t e n Cx) in B3, B4.
    pose proof (base_range t row (col_at ci) ((item + 1) * elem_bytes e) Hr B2 ltac:(nia) ltac:(nia)) as Ba.
    rewrite (cell_elems full t o false sel row ci e n E), skipn_elems in E3 by auto. cbn [app] in E3. inversion E3; subst y r. clear E3.
    cbn [slot_end] in *. assert (Fi: tb_first s = false) by (rewrite <- E1; reflexivity).
    assert (Ix: index (tb_cols s) (tb_col s) = Ok (col_at ci)) by (rewrite <- E1; apply (col_index t sel); auto).
    assert (St: tb_state s = InMain) by (rewrite <- E1; reflexivity).
    assert (Rp: tb_reader s = mk_reader full (o + (base t row (col_at ci) + item * elem_bytes e))) by (rewrite <- E1; reflexivity).
    assert (Cx': tb_ctx s = t) by (rewrite <- E1; reflexivity).
    assert (Fx: index (bt_tforms t) (col_at ci) = Ok (TElem e n)). { apply format_nth in E as [F1 F2]. apply index_nth; [lia|auto]. }
    rewrite (next_at m s _ Fi Ix), St in W.
    rewrite (next_at m (move s) _ Fi Ix). change (tb_state (move s)) with (tb_state s). rewrite St.
    unfold main_next in *. rewrite Cx' in W. change (tb_ctx (move s)) with (tb_ctx s). rewrite Cx'.
    change (tb_off (move s)) with (tb_off s). change (tb_main (move s)) with (tb_main s).
    destruct (tb_off s =? tb_main s) eqn:Of; [discriminate|]. rewrite Fx in *.
    assert (Rq: rd_pos (tb_reader s) = o + (base t row (col_at ci) + item * elem_bytes e)) by (rewrite Rp; reflexivity).
    destruct (elem_mv m d g lim L0 s (col_at ci) e _ v s' Dt Q0 ltac:(lia) ltac:(rewrite Rq; unfold lim; lia) W) as [G1 G2].
    replace (o + base t row (BinProofs2.col_at sel ci) + item * elem_bytes e + elem_bytes e)
      with (rd_pos (tb_reader s) + elem_bytes e) in * by lia.
    split; [intro R; apply G1; [lia|exact (Lp (elem_bytes e) ltac:(lia) eq_refl R)]|].
    intro R. destruct (G2 ltac:(lia)) as [G3 G4]. exists (at_eof d s). split; [exact G3|]. split; [|reflexivity].
    rewrite (next_at m (at_eof d s) _ Fi Ix), eof_state, St. unfold main_next.
    change (tb_off (at_eof d s)) with (tb_off s). change (tb_main (at_eof d s)) with (tb_main s). change (tb_ctx (at_eof d s)) with (tb_ctx s).
    rewrite Of, Cx', Fx. exact G4.
  - (* descriptor *)
    destruct (col_facts full (len full) t o false sel Pr Re ci Hc) as (f' & E' & Cr & B1 & B2 & B3 & B4). rewrite E in E'. inversion E'; subst f'. clear E' Cr.
    pose proof (base_range t row (col_at ci) (field_bytes f) Hr B2 B3 B4) as Ba.
    set (p := o + base t row (col_at ci)) in *.
    assert (Fi: tb_first s = false) by (rewrite <- E1; reflexivity).
    assert (Ix: index (tb_cols s) (tb_col s) = Ok (col_at ci)) by (rewrite <- E1; apply (col_index t sel); auto).
    assert (St: tb_state s = InMain) by (rewrite <- E1; reflexivity).
    assert (Rp: tb_reader s = mk_reader full p) by (rewrite <- E1; unfold in_cell, at_, p; cbn [tb_reader]; f_equal; lia).
    assert (Cx': tb_ctx s = t) by (rewrite <- E1; reflexivity).
    assert (Hs: tb_heap s = false) by (rewrite <- E1; reflexivity).
    assert (Fx: index (bt_tforms t) (col_at ci) = Ok f). { apply format_nth in E as [F1 F2]. apply index_nth; [lia|auto]. }
    set (wide := match f with TDesc64 _ => true | _ => false end) in *.
    assert (Dw: dwidth wide = field_bytes f) by (unfold wide; destruct f; [discriminate|reflexivity|reflexivity]).
    assert (Y: y = SDesc wide p).
    { rewrite (cell_is full t o false row _ _ E) in E3. fold p in E3.
      unfold wide. destruct f as [? ?|e'|e']; cbn [desc_type] in De; [discriminate| |]; cbn [cell_slots app] in E3; inversion E3; reflexivity. }
    assert (Md: forall z, tb_ctx z = t -> tb_off z = tb_off s -> tb_main z = tb_main s ->
      main_next m z (col_at ci) = if tb_off s =? tb_main s then (Ok None, z) else main_desc m z (col_at ci) wide e).
    { intros z Z1 Z2 Z3. unfold main_next. rewrite Z1, Z2, Z3, Fx. destruct (tb_off s =? tb_main s); [reflexivity|].
      unfold wide. destruct f as [? ?|e'|e']; cbn [desc_type] in De; inversion De; reflexivity. }
    rewrite (next_at m s _ Fi Ix), St, Md in W by auto.
    rewrite (next_at m (move s) _ Fi Ix). change (tb_state (move s)) with (tb_state s). rewrite St.
    rewrite Md by (reflexivity || exact Cx').
    destruct (tb_off s =? tb_main s) eqn:Of; [discriminate|].
    assert (Rq: rd_pos (tb_reader s) = p) by (rewrite Rp; reflexivity).
    assert (Se: slot_end y = rd_pos (tb_reader s) + dwidth wide) by (subst y; rewrite Rq; reflexivity).
    destruct (desc_mv m d g lim L0 s (col_at ci) wide e v s' Dt Q0 ltac:(lia) ltac:(rewrite Rq, Dw; unfold p, lim; lia) Hs W) as (G1 & G2).
    split; [intro R; apply G2; [lia|exact (Lp (dwidth wide) ltac:(unfold dwidth; destruct wide; lia) Se R)]|].
    intro R. destruct (G1 ltac:(lia)) as [G4 G5]. exists (at_eof d s). split; [exact G4|]. split; [|reflexivity].
    rewrite (next_at m (at_eof d s) _ Fi Ix), eof_state, St. rewrite Md by (reflexivity || exact Cx'). exact G5.
Qed.

Lemma drift_end s row : inv s row [] -> stuck (move s) row.
Proof.
  intro I. destruct (inv_row full (len full) t o false sel Pr Re s row [] I) as (R & _). split; [|exact R].
  inversion I as [ci item Hc E1 E2 E3 | row' ci e n item Hr Hc E Hi E1 E2 E3 | row' ci f e Hr Hc E De E1 E2 E3
                 | row' ci f e n item p Hr Hc E De Hh En Hi Ep E1 E2 E3].
  - unfold table_next, finished. cbn. rewrite (col_index t sel) by auto. unfold main_next.
    cbn. rewrite Z.eqb_refl. reflexivity.
  - exfalso. rewrite (cell_elems full t o false sel row ci e n E), skipn_elems in E3 by auto. discriminate.
  - exfalso. apply app_eq_nil in E3 as [E3 _]. eapply (cell_ne full (len full) t o false sel Pr Re); eauto.
  - discriminate.
Qed.

Lemma drift_row : forall fuel s row l acc, inv s row l -> l <> [] -> 0 <= o + row * n1 + g -> (length l <= fuel)%nat ->
  (exists cells s', row_loop m fuel (move s) row acc = (Some (Ok (Some (rev acc ++ cells))), move s') /\
    Forall2 (slot_value full) l cells /\ inv s' (row + 1) (row_of full t o false sel (row + 1))) \/
  (exists s2, row_loop m fuel (move s) row acc = (Some (Ok None), s2) /\ stuck s2 row).
Proof.
  induction fuel as [|fuel IH]; intros s row l acc I N G0 L; [destruct l; [contradiction|simpl in L; lia]|].
  destruct l as [|y l]; [contradiction|]. destruct (inv_row full (len full) t o false sel Pr Re s row _ I) as (R1 & R2 & R3).
  destruct (drift_step s row y l I G0) as [C1 C2].
  cbn [row_loop]. change (tb_row (move s)) with (tb_row s). rewrite R1, Z.eqb_refl.
  destruct (Z_le_gt_dec (slot_end y + g) (len d)) as [X|X].
  - destruct (C1 X) as (v & s' & W1 & W2 & W3). rewrite W1. destruct W3 as [[N' I']|[-> I']].
    + destruct (IH s' row l (v :: acc) I' N' G0 ltac:(simpl in L; lia)) as [A|B]; [|right; exact B]. left.
      destruct A as (cells & s'' & E & F & I''). exists (v :: cells), s''.
      rewrite E. split; [|split; auto]. cbn [rev]. rewrite <- app_assoc. reflexivity.
    + left. exists [v], s'. destruct (inv_row full (len full) t o false sel Pr Re s' _ _ I') as (R1' & _).
      assert (G: forall k a, row_loop m k (move s') row a = (Some (Ok (Some (rev a))), move s')).
      { intros k a. destruct k; cbn [row_loop]; change (tb_row (move s')) with (tb_row s'); rewrite R1';
          destruct (row + 1 =? row) eqn:Y; try lia; reflexivity. }
      rewrite G. split; [reflexivity|]. split; [constructor; [assumption|constructor]|exact I'].
  - right. destruct (C2 ltac:(lia)) as (s2 & W1 & W2). rewrite W1. exists s2. auto.
Qed.
End Drift.

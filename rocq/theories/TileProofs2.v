(** Tiles: rows of the table, and the walk over them. *)

From Coq Require Import String Sorted.
From Verif Require Import Base TextLemmas Text Card Reader Header Xtension Bytes Fits ImageIt BinTable Rice Float Tile.
From Verif Require Import SpecCard SpecXt SpecFits SpecImage SpecBin SpecRice SpecTile.
From Verif Require Import BytesProofs ImageProofs BinProofs BinProofs2 BinProofs3 TileProofs.

Notation be_value := SpecBin.be_value.

Lemma both_length {A B} (P : A -> B -> Prop) a b : Forall2 P a b -> length a = length b.
Proof. induction 1; cbn [length]; congruence. Qed.

(** ** Rows *)

Section Rows.
Variables (m : mode) (d : list Z) (t : bintable) (o : Z).
Hypothesis Pr : table_present d t o.
Hypothesis Re : columns_readable d (len d) t o false (all_columns t).
Hypothesis Ne : bt_tforms t <> [].
Let all := all_columns t.
Let n1 := bt_naxis1 t.
Let n2 := bt_naxis2 t.
Notation inv := (inv d t o false all).
Notation row_of := (row_of d t o false all).
Notation slots_at := (slots_at d t o false all).
Notation row_slots := (row_slots d t o false all).

Local Lemma Nc : all <> [].
Proof. apply columns_ne, Ne. Qed.
Local Lemma So : StronglySorted Z.lt all.
Proof. apply upto_sorted. Qed.
Local Lemma sp : 1 <= len all.
Proof. apply (sel_pos d (len d) t o false all Re So Nc). Qed.

Lemma slots_at_longer row : 0 <= row < n2 -> forall k ci, 0 <= ci -> 0 < k -> ci + k <= len all ->
  (length (slots_at row (ci + k)) < length (slots_at row ci))%nat.
Proof.
  intros Hr k ci Hc Hk. pattern k. apply (Zlt_lower_bound_ind _ 1); [|lia]. clear k Hk. intros k IH Hk Hl.
  assert (St : forall c, 0 <= c < len all -> (length (slots_at row (c + 1)) < length (slots_at row c))%nat).
  { intros c Hcc. rewrite (slots_at_step d t o false all row c) by auto. rewrite app_length.
    pose proof (cell_ne d (len d) t o false all Pr Re row c Hr Hcc) as N.
    destruct (cell d t o false row (col_at all c)); [contradiction|cbn [length]; lia]. }
  destruct (Z.eq_dec k 1) as [->|K]; [apply St; lia|].
  specialize (IH (k - 1) ltac:(lia) ltac:(lia)). specialize (St (ci + (k - 1)) ltac:(lia)).
  replace (ci + (k - 1) + 1) with (ci + k) in St by lia. lia.
Qed.

(** At the start of a row the reader is there. *)
Lemma row_start s row : inv s row (row_of row) -> tb_reader s = mk_reader d (o + n1 * row).
Proof.
  intro I. remember (row_of row) as l eqn:El.
  destruct I as [ci item Hc | row ci e n item Hr Hc E Hi | row ci f e Hr Hc E De | row ci f e n item p Hr Hc E De Hh En Hi Ep];
    [reflexivity| | |discriminate].
  - unfold row_of in El. replace (row <? bt_naxis2 t) with true in El by (fold n2; lia).
    assert (L := f_equal (@length slot) El). rewrite app_length in L.
    assert (Cn : length (skipn (Z.to_nat item) (cell d t o false row (col_at all ci))) = (Z.to_nat n - Z.to_nat item)%nat).
    { rewrite skipn_length, (cell_elems d t o false all row ci e n E). unfold elems, upto. rewrite !map_length, seq_length. reflexivity. }
    assert (Cc : length (cell d t o false row (col_at all ci)) = Z.to_nat n).
    { rewrite (cell_elems d t o false all row ci e n E). unfold elems, upto. rewrite !map_length, seq_length. reflexivity. }
    assert (Z0 : ci = 0).
    { destruct (Z.eq_dec ci 0); [auto|]. pose proof (slots_at_longer row Hr ci 0 ltac:(lia) ltac:(lia) ltac:(lia)) as G.
      rewrite Z.add_0_l, (slots_at_step d t o false all row ci) in G by auto. rewrite app_length in G. lia. }
    subst ci. rewrite (slots_at_step d t o false all row 0) in L by lia. rewrite app_length in L.
    assert (item = 0) by lia. subst item.
    unfold in_cell, at_, base. cbn [tb_reader]. fold all. unfold all. rewrite col_at_zero.
    change (column_start (bt_tforms t) 0) with 0. f_equal. unfold n1. lia.
  - unfold row_of in El. replace (row <? bt_naxis2 t) with true in El by (fold n2; lia).
    assert (L := f_equal (@length slot) El). rewrite <- (slots_at_step d t o false all row ci) in L by auto.
    assert (Z0 : ci = 0).
    { destruct (Z.eq_dec ci 0); [auto|]. pose proof (slots_at_longer row Hr ci 0 ltac:(lia) ltac:(lia) ltac:(lia)) as G.
      rewrite Z.add_0_l in G. lia. }
    subst ci. unfold in_cell, at_, base. cbn [tb_reader]. unfold all. rewrite col_at_zero.
    change (column_start (bt_tforms t) 0) with 0. f_equal. unfold n1. lia.
Qed.

(** The number of values of a row. *)
Lemma cell_length row c : length (cell d t o false row c) = length (cell d t o false 0 c).
Proof.
  unfold cell. destruct (format t c) as [[e n|e|e]|]; cbn [cell_slots]; auto.
  unfold elems. rewrite !map_length. reflexivity.
Qed.
Lemma row_length row : length (row_slots row) = length (row_slots 0).
Proof.
  unfold row_slots. induction all as [|c l IH]; [reflexivity|]. cbn [flat_map]. rewrite !app_length, IH, (cell_length row c). reflexivity.
Qed.

(** The value of column [c], if the columns before have one value each. *)
Lemma upto_split c n : 0 <= c < n -> exists r, upto n = upto c ++ c :: r.
Proof.
  intro H. unfold upto. exists (map Z.of_nat (seq (S (Z.to_nat c)) (Z.to_nat n - S (Z.to_nat c)))).
  replace (Z.to_nat n) with (Z.to_nat c + S (Z.to_nat n - S (Z.to_nat c)))%nat at 1 by lia.
  rewrite seq_app, map_app. cbn [seq map Nat.add]. rewrite Z2Nat.id by lia. reflexivity.
Qed.

Lemma counted_length row c : counted t c -> 0 <= c <= len (bt_tforms t) -> 0 <= row < n2 ->
  length (flat_map (cell d t o false row) (upto c)) = Z.to_nat c.
Proof.
  intros Hc. pattern c. intros B R. assert (X : exists k, c = Z.of_nat k) by (exists (Z.to_nat c); lia). destruct X as (k & ->).
  rewrite Nat2Z.id. unfold counted in Hc. rewrite Nat2Z.id in Hc. unfold upto. rewrite Nat2Z.id. unfold len in B.
  induction k as [|k IH]; [reflexivity|]. rewrite seq_S, map_app, flat_map_app, app_length. cbn [map flat_map Nat.add].
  assert (Hc' : Forall one_value (firstn k (bt_tforms t))).
  { rewrite Forall_forall in *. intros x Hx. apply Hc. apply In_nth_error in Hx as (j & Hj). apply nth_error_In with j.
    assert (J : (j < length (firstn k (bt_tforms t)))%nat) by (apply nth_error_Some; congruence).
    rewrite <- Hj. rewrite <- (firstn_skipn k (firstn (S k) (bt_tforms t))).
    rewrite firstn_firstn, Nat.min_l by lia. rewrite nth_error_app1; auto. }
  rewrite app_nil_r, IH by (auto; lia).
  - assert (length (cell d t o false row (Z.of_nat k)) = 1%nat); [|lia].
    unfold cell, format. replace (Z.of_nat k <? 0) with false by lia. rewrite Nat2Z.id.
    destruct (nth_error (bt_tforms t) k) as [f|] eqn:E; [|apply nth_error_None in E; lia].
    assert (one_value f).
    { rewrite Forall_forall in Hc. apply Hc. apply nth_error_In with k.
      rewrite <- E. rewrite <- (firstn_skipn (S k) (bt_tforms t)) at 2. rewrite nth_error_app1; [reflexivity|]. rewrite firstn_length. lia. }
    destruct f as [e n|e|e]; cbn [cell_slots one_value] in *; [subst n|reflexivity|reflexivity].
    unfold elems, upto. rewrite !map_length. reflexivity.
Qed.

Lemma row_value row c f cells : counted t c -> format t c = Some f -> 0 <= row < n2 ->
  Forall2 (slot_value d) (row_slots row) cells ->
  exists x v, cell d t o false row c = x :: tl (cell d t o false row c) /\ index cells c = Ok v /\ slot_value d x v.
Proof.
  intros Hc Hf Hr F. pose proof (format_nth _ _ _ Hf) as (C0 & Cn).
  assert (C1 : c < len (bt_tforms t)) by (assert (Z.to_nat c < length (bt_tforms t))%nat by (apply nth_error_Some; congruence); unfold len; lia).
  destruct (upto_split c (len (bt_tforms t)) ltac:(lia)) as (r & Er).
  unfold row_slots in F. unfold all, all_columns in F. rewrite Er, flat_map_app in F. cbn [flat_map] in F.
  apply Forall2_app_inv_l in F as (a & b & Fa & Fb & ->).
  assert (Cl : cell d t o false row c <> []).
  { pose proof (cell_ne d (len d) t o false all Pr Re row c Hr) as G.
    assert (Ca : col_at all c = c).
    { unfold col_at, all, all_columns. rewrite Er. rewrite app_nth2 by (pose proof (upto_len c ltac:(lia)) as U; unfold len in U; lia).
      pose proof (upto_len c ltac:(lia)) as U. unfold len in U. replace (Z.to_nat c - length (upto c))%nat with O by lia. reflexivity. }
    rewrite Ca in G. apply G. unfold all, all_columns. rewrite upto_len by apply len_nonneg. lia. }
  destruct (cell d t o false row c) as [|x y] eqn:Ec; [contradiction|]. cbn [app] in Fb. inversion Fb as [|? v ? b' V Fb' E1 E2]; subst.
  exists x, v. split; [reflexivity|]. split; auto. apply index_nth; [lia|].
  assert (La : length a = Z.to_nat c).
  { rewrite <- (both_length _ _ _ Fa). apply counted_length; auto. lia. }
  rewrite nth_error_app2 by lia. rewrite La, Nat.sub_diag. reflexivity.
Qed.

Lemma offset_value row c cells bytes : counted t c -> 0 <= row < n2 -> Forall2 (slot_value d) (row_slots row) cells ->
  tile_at d t o c row bytes ->
  exists p, tile_offset cells c = Ok p /\ bytes = skipn (Z.to_nat (o + bt_theap t + p)) d /\ 0 <= p /\ o + bt_theap t + p < 2 ^ 63.
Proof.
  intros Hc Hr F (f & p & Hf & Hp & Eb & Hl). destruct (row_value row c f cells Hc Hf Hr F) as (x & v & Ex & Ei & V).
  exists p. split; [|split; [exact Eb|split; [|exact Hl]]].
  - unfold tile_offset. rewrite Ei. cbn [bind]. unfold cell in Ex. rewrite Hf in Ex.
    destruct f as [e n|e|e]; cbn [desc_place cell_slots tl] in *; [discriminate| |]; inversion Ex; subst x; cbn [slot_value] in V; subst v;
      inversion Hp; reflexivity.
  - destruct Pr as (Oc & _). assert (B : forall q n, 0 <= be_value (slice d q n)).
    { intros q n. rewrite be_value_unsigned. apply be_unsigned_range, slice_octets, Oc. }
    destruct f; cbn [desc_place] in Hp; inversion Hp; apply B.
Qed.
End Rows.

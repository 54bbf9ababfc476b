(** Tables cell by cell, up to the first that cannot be read. *)

From Coq Require Import String Sorted Lia.
From Verif Require Import Base TextLemmas Text Card Reader Header Xtension Bytes Fits ImageIt BinTable.
From Verif Require Import SpecCard SpecXt SpecFits SpecImage SpecBin SpecTileSafe SpecBinArrays.
From Verif Require Import BytesProofs ImageProofs BinProofs BinProofs2 BinProofs3 BinProofs4 BinProofs5.

(** Moving to the next column does not look at the heap. *)
Definition with_heap (b : bool) (x : res unit * table) : res unit * table := let (r, s) := x in (r, read_the_heap s b).
Lemma seek_by_heap m s off b : seek_by m (read_the_heap s b) off = with_heap b (seek_by m s off).
Proof.
  unfold seek_by. cbn [read_the_heap tb_reader tb_off]. destruct (seek_relative (tb_reader s) off) as [[x|x|] r]; try reflexivity.
  destruct (u64_result m (tb_off s + as_usize off)); reflexivity.
Qed.
Lemma seek_next_heap m s b : seek_to_next_col m (read_the_heap s b) = with_heap b (seek_to_next_col m s).
Proof.
  unfold seek_to_next_col. cbn [read_the_heap tb_cols tb_ctx tb_col tb_row tb_item tb_main tb_off].
  destruct (u64_result m (len (tb_cols s) - 1)) as [lc| |]; try reflexivity.
  destruct (u64_result m (bt_naxis2 (tb_ctx s) - 1)) as [lr| |]; try reflexivity.
  destruct ((tb_col s =? lc) && (tb_row s =? lr)).
  - destruct (i64_result m (as_i64 (tb_main s) - as_i64 (tb_off s))) as [off| |]; try reflexivity.
    apply (seek_by_heap m (set_pos s (if tb_col s =? lc then tb_row s + 1 else tb_row s) (tb_col s) (tb_item s))).
  - destruct (len (tb_cols s) =? 0); [reflexivity|].
    set (s1 := set_pos s _ ((tb_col s + 1) mod len (tb_cols s)) 0).
    change (set_pos (read_the_heap s b) _ _ 0) with (read_the_heap s1 b).
    destruct (index (tb_cols s) ((tb_col s + 1) mod len (tb_cols s))) as [c| |]; try reflexivity. cbn [bind].
    change (next_col_off m (read_the_heap s1 b) c) with (next_col_off m s1 c).
    destruct (next_col_off m s1 c); try reflexivity. apply seek_by_heap.
Qed.

Section Cells.
Variables (m : mode) (d : list Z) (t : bintable) (o : Z) (sel : list Z).
Hypothesis Pr : table_present d t o.
Hypothesis Re : columns_readable d (len d) t o false sel.
Hypothesis So : StronglySorted Z.lt sel.
Hypothesis Ne : sel <> [].
Notation n1 := (bt_naxis1 t).
Notation n2 := (bt_naxis2 t).
Notation cs := (column_start (bt_tforms t)).
Notation col_at := (col_at sel).
Notation base := (base t).
Notation at_ := (at_ d t o true sel).
Notation in_cell := (in_cell d t o true sel).
Notation after := (after d t o true sel).

Lemma next_col row ci item f : 0 <= row < n2 -> 0 <= ci < len sel -> format t (col_at ci) = Some f ->
  seek_to_next_col m (in_cell row ci item (field_bytes f)) = (Ok tt, after row ci item).
Proof.
  intros Hr Hc E. pose proof (next_col_ok m d (len d) t o false sel Pr Re So Ne row ci item f Hr Hc E) as H.
  change (in_cell row ci item (field_bytes f)) with (read_the_heap (BinProofs2.in_cell d t o false sel row ci item (field_bytes f)) true).
  rewrite seek_next_heap, H. cbn [with_heap]. f_equal. unfold BinProofs2.after.
  destruct (ci =? len sel - 1); [destruct (row =? n2 - 1)|]; reflexivity.
Qed.

Lemma next_in row ci item off pos st : 0 <= ci < len sel ->
  table_next m (at_ row ci item off pos st) =
  match st with InHeap _ _ _ _ _ => heap_next m (at_ row ci item off pos st) (col_at ci)
              | InMain => main_next m (at_ row ci item off pos st) (col_at ci) end.
Proof. intros. unfold table_next. cbn [BinProofs2.at_ tb_cols tb_col tb_first]. rewrite (col_index t sel) by auto. reflexivity. Qed.

(** Several calls that all give a value of row [r]. *)
Fixpoint steps (r : Z) (s : table) (vs : list dvalue) (s' : table) : Prop :=
  match vs with
  | [] => s = s'
  | v :: vs => tb_row s = r /\ exists s1, table_next m s = (Ok (Some v), s1) /\ steps r s1 vs s'
  end.
Lemma steps_cons r s v s1 vs s' : tb_row s = r -> table_next m s = (Ok (Some v), s1) -> steps r s1 vs s' -> steps r s (v :: vs) s'.
Proof. intros R H K. split; [exact R|]. eauto. Qed.
Lemma steps_app r s a s1 b s2 : steps r s a s1 -> steps r s1 b s2 -> steps r s (a ++ b) s2.
Proof.
  revert s. induction a as [|v a IH]; intros s H K; [cbn in H; subst; exact K|].
  destruct H as (R & sx & H1 & H2). split; [exact R|]. exists sx. split; [exact H1|]. exact (IH sx H2 K).
Qed.

(** ** Cells of the main table *)
Lemma elem_cell row ci e n : 0 <= row < n2 -> 0 <= ci < len sel -> format t (col_at ci) = Some (TElem e n) -> e <> TyX ->
  forall k item, Z.of_nat k = n - item -> 0 <= item < n ->
  exists vs s', Forall2 (slot_value d) (skipn (Z.to_nat item) (elems e n (o + base row (col_at ci)) (col_at ci))) vs /\
    steps row (in_cell row ci item (item * elem_bytes e)) vs s' /\ s' = after row ci n.
Proof.
  intros Hr Hc E Cx. induction k as [|k IH]; intros item Hk Hi; [lia|].
  rewrite skipn_elems by auto.
  destruct (col_facts d (len d) t o false sel Pr Re ci Hc) as (f' & E' & C & B1 & B2 & B3 & B4). rewrite E in E'. inversion E'; subst f'. clear E'.
  pose proof (size_small d t o Pr) as (S1 & S2 & S3 & S4 & S5 & S6 & S7). pose proof Pr as (Oc & D & O & _).
  pose proof (elem_bytes_pos e) as Eb. pose proof (elem_bytes_size e) as Es. pose proof (field_bytes_elem t e n Cx) as Fb.
  pose proof (base_range t row (col_at ci) (field_bytes (TElem e n)) Hr B2 B3 B4) as Ba.
  pose proof (base_range t row (col_at ci) (item * elem_bytes e) Hr B2 ltac:(nia) ltac:(nia)) as Bi.
  assert (Ix: index (bt_tforms t) (col_at ci) = Ok (TElem e n)). { apply format_nth in E as [E1 E2]. apply index_nth; [lia|auto]. }
  assert (Last: match e with TyX => n / 8 + 1 | _ => n end = n) by (destruct e; auto; contradiction).
  assert (Ie: item * elem_bytes e + elem_bytes e <= field_bytes (TElem e n))
    by (rewrite Fb; pose proof (le_times_le (item + 1) n (elem_bytes e) ltac:(lia) ltac:(lia)); lia).
  destruct (read_elem_at d (o + (base row (col_at ci) + item * elem_bytes e)) e) as (v & Rd & St); auto; [lia|lia|].
  assert (Sv: slot_value d (SElem e (o + base row (col_at ci) + item * elem_bytes e) (col_at ci) item) (DVal e v (col_at ci) item)).
  { exists v. split; auto. replace (o + base row (col_at ci) + item * elem_bytes e) with (o + (base row (col_at ci) + item * elem_bytes e)) by lia. exact St. }
  assert (W: table_next m (in_cell row ci item (item * elem_bytes e)) =
    if item + 1 =? n then (Ok (Some (DVal e v (col_at ci) item)), after row ci n)
    else (Ok (Some (DVal e v (col_at ci) item)), in_cell row ci (item + 1) ((item + 1) * elem_bytes e))).
  { unfold BinProofs2.in_cell at 1. rewrite next_in by auto. unfold main_next. cbn [BinProofs2.at_ tb_off tb_main tb_ctx].
    rewrite (off_not_end d (len d) t o false sel Pr Re row ci _ _ Hr Hc E) by nia. rewrite Ix, Last.
    unfold main_elem. cbn [BinProofs2.at_ tb_reader tb_off tb_item tb_row tb_col]. rewrite Rd, Es, u64_result_small by nia.
    unfold set_pos, set_off, set_reader.
    cbn [BinProofs2.at_ tb_reader tb_state tb_cols tb_offsets tb_ctx tb_col tb_item tb_off tb_main tb_start tb_first tb_row tb_heap rd_data rd_pos].
    replace (base row (col_at ci) + item * elem_bytes e + elem_bytes e) with (base row (col_at ci) + (item + 1) * elem_bytes e) by lia.
    replace (o + (base row (col_at ci) + item * elem_bytes e) + elem_bytes e)
      with (o + (base row (col_at ci) + (item + 1) * elem_bytes e)) by lia.
    change (mk_table _ _ _ _ _ _ _ _ _ _ _ _ _) with (in_cell row ci (item + 1) ((item + 1) * elem_bytes e)).
    destruct (item + 1 =? n) eqn:Ln; [|reflexivity].
    replace ((item + 1) * elem_bytes e) with (field_bytes (TElem e n)) by (rewrite Fb; f_equal; lia).
    rewrite next_col by auto. replace (item + 1) with n by lia. reflexivity. }
  destruct (item + 1 =? n) eqn:Ln.
  - exists [DVal e v (col_at ci) item], (after row ci n). split; [|split; [|reflexivity]].
    + replace (item + 1) with n by lia. rewrite skipn_elems_end by lia. repeat constructor. exact Sv.
    + eapply steps_cons; [reflexivity|exact W|reflexivity].
  - destruct (IH (item + 1) ltac:(lia) ltac:(lia)) as (vs & s' & F & K & Es'). exists (DVal e v (col_at ci) item :: vs), s'.
    split; [constructor; [exact Sv|exact F]|]. split; [eapply steps_cons; [reflexivity|exact W|exact K]|exact Es'].
Qed.

(** ** Arrays *)

Section Array.
Variables (row ci : Z) (f : tform) (e : ety) (n q : Z).
Hypothesis Hr : 0 <= row < n2.
Hypothesis Hc : 0 <= ci < len sel.
Hypothesis Hf : format t (col_at ci) = Some f.
Hypothesis De : desc_type f = Some e.
Hypothesis En : n = desc_n d f (o + base row (col_at ci)).
Hypothesis Eq : q = desc_o d f (o + base row (col_at ci)).
Notation p := (o + bt_theap t + q).
Hypothesis P63 : p < 2 ^ 63.
Notation w := (elem_bytes e).
Notation c := (col_at ci).
Notation off := (base row c + field_bytes f).
Definition in_array (k rem : Z) : table := at_ row ci 0 off (p + k * w) (InHeap e (o + off) rem n w).

Lemma array_facts : 0 <= n < 2 ^ 64 /\ 0 <= q < 2 ^ 64 /\ 0 <= p /\ 1 <= w /\ 0 <= base row c /\ 0 <= off <= n1 * n2 /\ o + n1 * n2 <= len d /\ len d < 2 ^ 63 /\ 0 <= o.
Proof.
  destruct (array_bounds d (len d) t o false sel Pr Re f e row ci Hr Hc Hf De) as (P0 & P1 & W & N & Of & _).
  pose proof (elem_bytes_pos e). pose proof Pr as (Oc & D & O & N2' & Hp & F & _ & _ & I).
  destruct (col_facts d (len d) t o false sel Pr Re ci Hc) as (f' & E' & C & B1 & B2 & B3 & B4). rewrite Hf in E'. inversion E'; subst f'.
  pose proof (base_range t row c (field_bytes f) Hr B2 B3 B4). pose proof (base_range t row c 0 Hr B2 ltac:(lia) ltac:(lia)).
  rewrite <- En in N. rewrite <- Eq in Of. lia.
Qed.

(** The first call reads the descriptor and goes to the heap. *)
Lemma array_enter rem : u64_result m (n * w) = Ok rem -> table_next m (in_cell row ci 0 0) = heap_next m (in_array 0 rem) c.
Proof.
  intro Rem. pose proof array_facts as (N & Q & P0 & W & B0 & Of & In_ & D & O).
  destruct (array_bounds d (len d) t o false sel Pr Re f e row ci Hr Hc Hf De) as (_ & P1 & Wf & _ & _ & Rd & _).
  assert (Fp: 0 < field_bytes f) by (rewrite Wf; destruct f; simpl; lia).
  unfold BinProofs2.in_cell. rewrite next_in by auto. unfold main_next. cbn [BinProofs2.at_ tb_off tb_main tb_ctx].
  rewrite (off_not_end d (len d) t o false sel Pr Re row ci 0 f) by (auto; lia).
  assert (Ix: index (bt_tforms t) c = Ok f). { apply format_nth in Hf as [E1 E2]. apply index_nth; [lia|auto]. }
  rewrite Ix.
  assert (Main: main_desc m (at_ row ci 0 (base row c + 0) (o + (base row c + 0)) InMain) c (match f with TDesc64 _ => true | _ => false end) e
    = heap_next m (in_array 0 rem) c).
  { unfold main_desc. cbn [BinProofs2.at_ tb_reader tb_off tb_heap]. rewrite !Z.add_0_r, Rd, <- En, <- Eq.
    assert (Fb: (if match f with TDesc64 _ => true | _ => false end then 16 else 8) = field_bytes f)
      by (destruct f; [discriminate|reflexivity|reflexivity]).
    rewrite Fb, u64_result_small by lia.
    unfold set_off, set_reader.
    cbn [BinProofs2.at_ tb_reader tb_state tb_cols tb_offsets tb_ctx tb_col tb_item tb_off tb_main tb_start tb_first tb_row tb_heap rd_data].
    unfold jump_to_heap. cbn [tb_state tb_off tb_ctx tb_reader].
    pose proof Pr as (_ & _ & _ & _ & Hp & _).
    rewrite !as_i64_small by lia. rewrite !i64_result_small by lia. cbn [bind]. rewrite !i64_result_small by lia. cbn [bind].
    rewrite !i64_result_small by lia.
    rewrite seek_relative_ok by (cbn [rd_pos]; lia). rewrite elem_bytes_size, Rem.
    unfold set_state, set_reader.
    cbn [tb_reader tb_state tb_cols tb_offsets tb_ctx tb_col tb_item tb_off tb_main tb_start tb_first tb_row tb_heap rd_data rd_pos].
    unfold in_array, BinProofs2.at_. f_equal. f_equal; [f_equal; lia|f_equal; lia]. }
  destruct f as [?|e'|e']; cbn [desc_type] in De; inversion De; subst e'; exact Main.
Qed.
Lemma array_next k rem : table_next m (in_array k rem) = heap_next m (in_array k rem) c.
Proof. unfold in_array. rewrite next_in by auto. reflexivity. Qed.

(** A call in the heap. *)
Lemma array_elem k rem i rem' : 0 <= k -> p + (k + 1) * w <= len d -> u64_result m (n - rem / w) = Ok i ->
  u64_result m (rem - w) = Ok rem' ->
  exists v, slot_value d (SElem e (p + k * w) c i) v /\
    heap_next m (in_array k rem) c = (Ok (Some v), if rem' =? 0 then after row ci 0 else in_array (k + 1) rem').
Proof.
  intros K L Ei Er. pose proof array_facts as (N & Q & P0 & W & B0 & Of & In_ & D & O). pose proof Pr as (Oc & _).
  destruct (read_elem_at d (p + k * w) e) as (v & Rd & St); auto; [nia|nia|].
  exists (DVal e v c i). split; [exists v; auto|].
  unfold heap_next, in_array. cbn [BinProofs2.at_ tb_state tb_reader]. rewrite Ei, Rd, elem_bytes_size, Er.
  destruct (rem' =? 0).
  - unfold jump_to_main_table, set_reader, set_state, seek_start.
    cbn [BinProofs2.at_ tb_reader tb_state tb_cols tb_offsets tb_ctx tb_col tb_item tb_off tb_main tb_start tb_first tb_row tb_heap rd_data].
    change (mk_table _ _ _ _ _ _ _ _ _ _ _ _ _) with (in_cell row ci 0 (field_bytes f)).
    rewrite next_col by auto. reflexivity.
  - unfold set_state, set_reader, BinProofs2.at_. cbn [tb_reader tb_state tb_cols tb_offsets tb_ctx tb_col tb_item tb_off tb_main tb_start tb_first tb_row tb_heap rd_data].
    replace (p + k * w + w) with (p + (k + 1) * w) by lia. reflexivity.
Qed.
Definition past (rem : Z) : table := at_ row ci 0 off (len d) (InHeap e (o + off) rem n w).
Lemma array_fail k rem i : 0 <= k -> len d < p + (k + 1) * w -> u64_result m (n - rem / w) = Ok i ->
  heap_next m (in_array k rem) c = (Ok None, past rem) /\ table_next m (past rem) = (Ok None, past rem).
Proof.
  intros K L Ei. pose proof array_facts as (N & Q & P0 & W & B0 & Of & In_ & D & O).
  destruct (read_elem_cut d [] e (p + k * w)) as [_ R]; [nia|]. destruct (R ltac:(lia)) as (er & Rd).
  destruct (read_elem_cut d [] e (len d)) as [_ R2]; [lia|]. destruct (R2 ltac:(lia)) as (er2 & Rd2).
  split.
  - unfold heap_next, in_array. cbn [BinProofs2.at_ tb_state tb_reader]. rewrite Ei, Rd. reflexivity.
  - unfold past. rewrite next_in by auto. unfold heap_next. cbn [BinProofs2.at_ tb_state tb_reader]. rewrite Ei, Rd2. reflexivity.
Qed.

(** A whole array. *)
Lemma array_whole : 1 <= n -> p + n * w <= len d ->
  exists vs, Forall2 (slot_value d) (elems e n p c) vs /\ steps row (in_cell row ci 0 0) vs (after row ci 0).
Proof.
  intros N1 L. pose proof array_facts as (N & Q & P0 & W & B0 & Of & In_ & D & O).
  assert (Nw : n * w < 2 ^ 63) by lia.
  assert (G : forall j k, Z.of_nat j = n - k -> 0 <= k < n ->
    exists vs, Forall2 (slot_value d) (skipn (Z.to_nat k) (elems e n p c)) vs /\ vs <> [] /\
      steps row (in_array k ((n - k) * w)) vs (after row ci 0) /\
      forall s, tb_row s = row -> table_next m s = heap_next m (in_array k ((n - k) * w)) c -> steps row s vs (after row ci 0)).
  { induction j as [|j IH]; intros k Hj Hk; [lia|]. rewrite skipn_elems by auto.
    assert (Nk : n <= n * w) by nia.
    destruct (array_elem k ((n - k) * w) k ((n - (k + 1)) * w)) as (v & Sv & Hn); [lia|nia| | |].
    { rewrite Z.div_mul by lia. rewrite u64_result_small by lia. f_equal. lia. }
    { rewrite u64_result_small by nia. f_equal. lia. }
    destruct ((n - (k + 1)) * w =? 0) eqn:Z0.
    - assert (n = k + 1) by nia. exists [v]. replace (k + 1) with n by lia. rewrite skipn_elems_end by lia.
      split; [repeat constructor; exact Sv|]. split; [discriminate|].
      assert (X : forall s, tb_row s = row -> table_next m s = heap_next m (in_array k ((n - k) * w)) c -> steps row s [v] (after row ci 0))
        by (intros s Rs Hs; eapply steps_cons; [exact Rs|rewrite Hs; exact Hn|reflexivity]).
      split; [apply X; [reflexivity|apply array_next]|exact X].
    - destruct (IH (k + 1) ltac:(lia) ltac:(nia)) as (vs & F & _ & K & _). exists (v :: vs).
      split; [constructor; auto|]. split; [discriminate|].
      assert (X : forall s, tb_row s = row -> table_next m s = heap_next m (in_array k ((n - k) * w)) c -> steps row s (v :: vs) (after row ci 0))
        by (intros s Rs Hs; eapply steps_cons; [exact Rs|rewrite Hs; exact Hn|exact K]).
      split; [apply X; [reflexivity|apply array_next]|exact X]. }
  destruct (G (Z.to_nat n) 0 ltac:(lia) ltac:(lia)) as (vs & F & _ & _ & X). exists vs. split; [exact F|]. apply X; [reflexivity|].
  rewrite Z.sub_0_r. apply array_enter. apply u64_result_small. nia.
Qed.

(** An array that the end of the file cuts off, or that has no end. *)
Notation J := (Z.max 0 ((len d - p) / w)).
Lemma array_over rem i : u64_result m (n * w) = Ok (rem 0) ->
  (forall k, 0 <= k <= J -> u64_result m (n - rem k / w) = Ok (i k)) ->
  (forall k, 0 <= k < J -> u64_result m (rem k - w) = Ok (rem (k + 1)) /\ rem (k + 1) <> 0) ->
  exists vs, Forall2 (slot_value d) (to_the_end d e p c i) vs /\
    (vs <> [] -> steps row (in_cell row ci 0 0) vs (in_array J (rem J))) /\
    (vs = [] -> table_next m (in_cell row ci 0 0) = (Ok None, past (rem J))) /\
    table_next m (in_array J (rem J)) = (Ok None, past (rem J)) /\ table_next m (past (rem J)) = (Ok None, past (rem J)).
Proof.
  intros R0 Hi Hm. pose proof array_facts as (N & Q & P0 & W & B0 & Of & In_ & D & O).
  assert (Jl : 0 <= J /\ len d < p + (J + 1) * w /\ (0 < J -> p + J * w <= len d)).
  { pose proof (Z.div_mod (len d - p) w ltac:(lia)). pose proof (Z.mod_pos_bound (len d - p) w ltac:(lia)). nia. }
  destruct Jl as (J0 & J1 & J2).
  destruct (array_fail J (rem J) (i J) J0 J1 (Hi J ltac:(lia))) as (F1 & F2).
  assert (G : forall j k, Z.of_nat j = J - k -> 0 <= k ->
    exists vs, Forall2 (slot_value d) (map (fun k => SElem e (p + k * w) c (i k)) (map (Z.add k) (upto (J - k)))) vs /\
      steps row (in_array k (rem k)) vs (in_array J (rem J)) /\
      forall s, vs <> [] -> tb_row s = row -> table_next m s = heap_next m (in_array k (rem k)) c -> steps row s vs (in_array J (rem J))).
  { induction j as [|j IH]; intros k Hj Hk.
    - assert (k = J) by lia. subst k. exists []. rewrite Z.sub_diag. cbn. split; [constructor|]. split; [reflexivity|]. intros s Nn. contradiction.
    - destruct (Hm k ltac:(lia)) as (M1 & M2).
      destruct (array_elem k (rem k) (i k) (rem (k + 1)) Hk) as (v & Sv & Hn); [nia|apply Hi; lia|exact M1|].
      destruct (rem (k + 1) =? 0) eqn:Z0; [lia|].
      destruct (IH (k + 1) ltac:(lia) ltac:(lia)) as (vs & F & K & _). exists (v :: vs).
      assert (X : forall s, tb_row s = row -> table_next m s = heap_next m (in_array k (rem k)) c -> steps row s (v :: vs) (in_array J (rem J)))
        by (intros s Rs Hs; eapply steps_cons; [exact Rs|rewrite Hs; exact Hn|exact K]).
      split; [|split; [apply X; [reflexivity|apply array_next]|intros s _ Rs Hs; apply X; [exact Rs|exact Hs]]].
      unfold upto in *. replace (Z.to_nat (J - k)) with (S (Z.to_nat (J - (k + 1)))) by lia. cbn [seq map]. change (Z.of_nat 0) with 0.
      rewrite Z.add_0_r. constructor; [exact Sv|]. rewrite <- seq_shift, !map_map in *. 
      erewrite map_ext; [exact F|]. intro a. cbn beta. replace (k + Z.of_nat (S a)) with (k + 1 + Z.of_nat a) by lia. reflexivity. }
  destruct (G (Z.to_nat J) 0 ltac:(lia) ltac:(lia)) as (vs & F & _ & X). exists vs.
  pose proof (array_enter (rem 0) R0) as Ent.
  split.
  { unfold to_the_end. unfold upto in *. rewrite Z.sub_0_r in F. replace (Z.to_nat ((len d - p) / w)) with (Z.to_nat J) by lia.
    rewrite !map_map in *. erewrite map_ext; [exact F|]. intro a. cbn beta. rewrite Z.add_0_l. reflexivity. }
  split; [intro Nv; apply X; [exact Nv|reflexivity|exact Ent]|].
  split; [|split; [rewrite array_next; exact F1|exact F2]].
  intro Nv. subst vs. assert (J = 0).
  { destruct (Z.eq_dec J 0) as [|Nz]; auto. exfalso. apply (HeaderProofs.Forall2_length _ _ _) in F. unfold upto in F. rewrite !map_length, seq_length in F. cbn in F. lia. }
  rewrite H in F1 |- *. rewrite Ent. exact F1.
Qed.
End Array.

(** ** A cell that can be read *)
Lemma cell_walk row ci : 0 <= row < n2 -> 0 <= ci < len sel -> readable_cell d t o row (col_at ci) ->
  exists vs item, Forall2 (slot_value d) (cell d t o true row (col_at ci)) vs /\ steps row (in_cell row ci 0 0) vs (after row ci item).
Proof.
  intros Hr Hc (f & E & R). unfold cell. rewrite E. pose proof (elem_bytes_pos) as Ep. pose proof Pr as (_ & D & _).
  assert (B : o + row * n1 + cs (col_at ci) = o + base row (col_at ci)) by (unfold BinProofs2.base; lia). rewrite B in *.
  destruct f as [e n|e|e]; cbn [cell_readable cell_slots] in *.
  - destruct R as [Cx Cn]. destruct (elem_cell row ci e n Hr Hc E Cx (Z.to_nat n) 0 ltac:(lia) ltac:(lia)) as (vs & s' & F & K & ->).
    exists vs, n. split; [exact F|exact K].
  - destruct (R eq_refl) as (_ & A2 & A3). specialize (Ep e).
    destruct (array_whole row ci (TDesc32 e) e _ _ Hr Hc E eq_refl eq_refl eq_refl) as (vs & F & K);
      unfold desc_n, desc_o; cbn [desc_width]; try nia. eauto.
  - destruct (R eq_refl) as (_ & A2 & A3). specialize (Ep e).
    destruct (array_whole row ci (TDesc64 e) e _ _ Hr Hc E eq_refl eq_refl eq_refl) as (vs & F & K);
      unfold desc_n, desc_o; cbn [desc_width]; try nia. eauto.
Qed.
End Cells.

(** ** Runs *)
Lemma run_firstn m s n k : fst (table_run m s (repeat TNext n)) = firstn n (fst (table_run m s (repeat TNext (n + k)))).
Proof.
  revert s. induction n as [|n IH]; intro s; [reflexivity|]. cbn [repeat Nat.add table_run].
  destruct (table_do m s TNext) as [x s1]. specialize (IH s1). destruct (table_run m s1 (repeat TNext n)), (table_run m s1 (repeat TNext (n + k))).
  cbn [fst firstn] in *. rewrite IH. reflexivity.
Qed.
Lemma rows_firstn m fuel x n k : row_run m fuel x n = firstn n (row_run m fuel x (n + k)).
Proof.
  revert x. induction n as [|n IH]; intro x; [reflexivity|]. cbn [Nat.add row_run].
  destruct (row_next m fuel x) as [[[[l|]| |]|] x']; cbn [firstn]; rewrite <- IH; reflexivity.
Qed.

Lemma steps_run m r vs : forall s s' n, steps m r s vs s' ->
  fst (table_run m s (repeat TNext (length vs + n))) = map TValue vs ++ fst (table_run m s' (repeat TNext n)).
Proof.
  induction vs as [|v vs IH]; intros s s' n H; [cbn in H; subst; reflexivity|].
  destruct H as (_ & s1 & H1 & H2). cbn [length Nat.add repeat table_run table_do map app]. rewrite H1.
  specialize (IH s1 s' n H2). destruct (table_run m s1 _). cbn [fst] in *. rewrite IH. reflexivity.
Qed.
Lemma steps_loop m r vs : forall s s' fuel acc, steps m r s vs s' ->
  row_loop m (length vs + fuel) s r acc = row_loop m fuel s' r (rev vs ++ acc).
Proof.
  induction vs as [|v vs IH]; intros s s' fuel acc H; [cbn in H; subst; reflexivity|].
  destruct H as (R & s1 & H1 & H2). cbn [length Nat.add row_loop]. rewrite R, Z.eqb_refl, H1, (IH s1 s' fuel (v :: acc) H2).
  cbn [rev]. rewrite <- app_assoc. reflexivity.
Qed.

Lemma upto_snoc n : 0 <= n -> upto (n + 1) = upto n ++ [n].
Proof.
  intro H. unfold upto. replace (Z.to_nat (n + 1)) with (S (Z.to_nat n)) by lia. rewrite seq_S, map_app. cbn. repeat f_equal. lia.
Qed.
Lemma len_upto n : 0 <= n -> len (upto n) = n.
Proof. intro H. unfold len, upto. rewrite map_length, seq_length. lia. Qed.

(** ** The cells before one *)
Section Before.
Variables (m : mode) (d : list Z) (t : bintable) (o : Z).
Hypothesis Pr : table_present d t o.
Hypothesis Fl : Forall filled (bt_tforms t).
Hypothesis Ne : bt_tforms t <> [].
Notation n2 := (bt_naxis2 t).
Notation cols := (len (bt_tforms t)).
Notation all := (all_columns t).
Notation in_cell := (in_cell d t o true all).
Notation steps := (steps m).

Lemma static : columns_readable d (len d) t o false all.
Proof.
  intros c Hc. unfold all_columns, upto in Hc. apply in_map_iff in Hc as (k & <- & Hk). apply in_seq in Hk. unfold len in Hk.
  destruct (nth_error (bt_tforms t) k) as [f|] eqn:E; [|apply nth_error_None in E; lia].
  exists f. split.
  - unfold format. destruct (Z.of_nat k <? 0) eqn:X; [lia|]. rewrite Nat2Z.id. exact E.
  - intros row _. rewrite Forall_forall in Fl. specialize (Fl f (nth_error_In _ _ E)). destruct f; cbn in *; [exact Fl|discriminate|discriminate].
Qed.
Lemma cols_pos : 1 <= cols.
Proof. destruct (bt_tforms t) as [|x l]; [contradiction|]. rewrite len_cons. pose proof (len_nonneg l). lia. Qed.
Lemma all_len : len all = cols.
Proof. apply len_upto. apply len_nonneg. Qed.
Lemma col_all ci : 0 <= ci < cols -> col_at all ci = ci.
Proof.
  intro H. unfold col_at, all_columns, upto. rewrite (nth_indep _ 0 (Z.of_nat 0)) by (rewrite map_length, seq_length; unfold len in *; lia).
  rewrite map_nth, seq_nth by (unfold len in *; lia). lia.
Qed.

Lemma cell_read row ci : 0 <= row < n2 -> 0 <= ci < cols -> readable_cell d t o row ci ->
  exists vs item, Forall2 (slot_value d) (cell d t o true row ci) vs /\
    steps row (in_cell row ci 0 0) vs (after d t o true all row ci item).
Proof.
  intros Hr Hc R. pose proof (cell_walk m d t o all Pr static (upto_sorted _) (columns_ne t Ne) row ci Hr) as W.
  rewrite all_len, col_all in W by exact Hc. exact (W Hc R).
Qed.

Lemma row_part row : 0 <= row < n2 -> forall k c, Z.of_nat k = c -> c < cols -> (forall j, 0 <= j < c -> readable_cell d t o row j) ->
  exists vs, Forall2 (slot_value d) (flat_map (cell d t o true row) (upto c)) vs /\ steps row (in_cell row 0 0 0) vs (in_cell row c 0 0).
Proof.
  intro Hr. induction k as [|k IH]; intros c Hk Hc R.
  - replace c with 0 by lia. exists []. split; [constructor|reflexivity].
  - destruct (IH (c - 1) ltac:(lia) ltac:(lia)) as (vs & F & S); [intros; apply R; lia|].
    destruct (cell_read row (c - 1) Hr ltac:(lia)) as (ws & item & G & T); [apply R; lia|].
    exists (vs ++ ws). replace (upto c) with (upto (c - 1) ++ [c - 1]) by (rewrite <- upto_snoc by lia; f_equal; lia).
    rewrite flat_map_app. cbn [flat_map]. rewrite app_nil_r. split; [apply Forall2_app; auto|].
    eapply steps_app; [exact S|]. unfold after in T. rewrite all_len in T.
    destruct (c - 1 =? cols - 1) eqn:X; [lia|]. replace (c - 1 + 1) with c in T by lia. exact T.
Qed.

Lemma row_all row : 0 <= row -> row + 1 < n2 -> (forall j, 0 <= j < cols -> readable_cell d t o row j) ->
  exists vs, Forall2 (slot_value d) (row_slots d t o true all row) vs /\ steps row (in_cell row 0 0 0) vs (in_cell (row + 1) 0 0 0).
Proof.
  intros H0 Hr R. pose proof cols_pos as C.
  destruct (row_part row ltac:(lia) (Z.to_nat (cols - 1)) (cols - 1) ltac:(lia) ltac:(lia)) as (vs & F & S); [intros; apply R; lia|].
  destruct (cell_read row (cols - 1) ltac:(lia) ltac:(lia)) as (ws & item & G & T); [apply R; lia|].
  exists (vs ++ ws). split.
  - unfold row_slots, all_columns. replace (upto cols) with (upto (cols - 1) ++ [cols - 1]) by (rewrite <- upto_snoc by lia; f_equal; lia).
    rewrite flat_map_app. cbn [flat_map]. rewrite app_nil_r. apply Forall2_app; auto.
  - eapply steps_app; [exact S|]. unfold after in T. rewrite all_len, Z.eqb_refl in T.
    destruct (row =? n2 - 1) eqn:X; [lia|]. exact T.
Qed.

Lemma rows_before : forall k R, Z.of_nat k = R -> R < n2 ->
  (forall i j, 0 <= i < R -> 0 <= j < cols -> readable_cell d t o i j) ->
  exists rows, Forall2 (fun i cells => Forall2 (slot_value d) (row_slots d t o true all i) cells) (upto R) rows /\
    (forall n, fst (table_run m (in_cell 0 0 0 0) (repeat TNext (length (concat rows) + n))) =
               map TValue (concat rows) ++ fst (table_run m (in_cell R 0 0 0) (repeat TNext n))) /\
    forall fuel n, (forall i, In i (upto R) -> (length (row_slots d t o true all i) <= fuel)%nat) ->
      row_run m fuel (mk_row_it (in_cell 0 0 0 0) 0) (length rows + n) = map RowOf rows ++ row_run m fuel (mk_row_it (in_cell R 0 0 0) R) n.
Proof.
  induction k as [|k IH]; intros R Hk Hr Rd.
  - replace R with 0 by lia. exists []. split; [constructor|]. split; reflexivity.
  - destruct (IH (R - 1) ltac:(lia) ltac:(lia)) as (rows & F & T & W); [intros; apply Rd; lia|].
    destruct (row_all (R - 1) ltac:(lia) ltac:(lia)) as (vs & G & S); [intros; apply Rd; lia|].
    replace (R - 1 + 1) with R in S by lia.
    assert (U : upto R = upto (R - 1) ++ [R - 1]) by (rewrite <- upto_snoc by lia; f_equal; lia).
    exists (rows ++ [vs]). rewrite U. split; [apply Forall2_app; auto|]. split.
    + intro n. rewrite concat_app. cbn [concat]. rewrite app_nil_r, app_length, <- Nat.add_assoc, T, map_app, <- app_assoc.
      f_equal. apply (steps_run m (R - 1)). exact S.
    + intros fuel n L. rewrite app_length, map_app, <- Nat.add_assoc, W by (intros; apply L; apply in_or_app; auto).
      rewrite <- app_assoc. f_equal. cbn [length Nat.add map app row_run]. unfold row_next. cbn [ri_data ri_row].
      pose proof (L (R - 1) ltac:(apply in_or_app; right; left; reflexivity)) as Lf.
      rewrite (HeaderProofs.Forall2_length _ _ _ G) in Lf.
      replace fuel with (length vs + (fuel - length vs))%nat at 1 by lia.
      rewrite (steps_loop m (R - 1) vs _ _ _ _ S), app_nil_r.
      assert (X : row_loop m (fuel - length vs) (in_cell R 0 0 0) (R - 1) (rev vs) = (Some (Ok (Some vs)), in_cell R 0 0 0)).
      { destruct (fuel - length vs)%nat; cbn [row_loop]; unfold BinProofs2.in_cell at 1, BinProofs2.at_ at 1; cbn [tb_row];
          (destruct (R =? R - 1) eqn:Y; [lia|]); rewrite rev_involutive; reflexivity. }
      rewrite X. replace (R - 1 + 1) with R by lia. reflexivity.
Qed.

(** ** The array *)
Section Broken.
Variables (R C : Z) (e : ety) (n p : Z).
Hypothesis HR : 0 <= R < n2.
Hypothesis HC : 0 <= C < cols.
Hypothesis Rd : readable_before d t o R C.
Hypothesis Ar : array_cell d t o R C e n p.
Hypothesis P63 : p < 2 ^ 63.
Notation w := (elem_bytes e).
Notation J := (Z.max 0 ((len d - p) / w)).
Definition row_start : list slot := flat_map (cell d t o true R) (upto C).

Lemma to_cell : exists rows vs,
  Forall2 (fun i cells => Forall2 (slot_value d) (row_slots d t o true all i) cells) (upto R) rows /\
  Forall2 (slot_value d) row_start vs /\
  (forall k, fst (table_run m (in_cell 0 0 0 0) (repeat TNext (length (concat rows ++ vs) + k))) =
             map TValue (concat rows ++ vs) ++ fst (table_run m (in_cell R C 0 0) (repeat TNext k))) /\
  steps R (in_cell R 0 0 0) vs (in_cell R C 0 0) /\
  forall fuel k, (forall i, In i (upto R) -> (length (row_slots d t o true all i) <= fuel)%nat) ->
    row_run m fuel (mk_row_it (in_cell 0 0 0 0) 0) (length rows + k) = map RowOf rows ++ row_run m fuel (mk_row_it (in_cell R 0 0 0) R) k.
Proof.
  destruct (rows_before (Z.to_nat R) R ltac:(lia) ltac:(lia)) as (rows & F & T & W); [intros; apply Rd; lia|].
  destruct (row_part R HR (Z.to_nat C) C ltac:(lia) ltac:(lia)) as (vs & G & S); [intros; apply Rd; lia|].
  exists rows, vs. split; [exact F|]. split; [exact G|]. split; [|split; [exact S|exact W]].
  intro k. rewrite app_length, map_app, <- Nat.add_assoc, T, <- app_assoc. f_equal. apply (steps_run m R). exact S.
Qed.

Lemma cells_of rows vs :
  Forall2 (fun i cells => Forall2 (slot_value d) (row_slots d t o true all i) cells) (upto R) rows ->
  Forall2 (slot_value d) row_start vs -> Forall2 (slot_value d) (slots_before d t o R C) (concat rows ++ vs).
Proof.
  intros F G. unfold slots_before. apply Forall2_app; [|exact G].
  clear -F. induction F as [|i cells l rows H F IH]; [constructor|]. cbn [flat_map concat]. apply Forall2_app; auto.
Qed.

Lemma array_form : exists f, format t C = Some f /\ desc_type f = Some e /\
  n = desc_n d f (o + base t R C) /\ p = o + bt_theap t + desc_o d f (o + base t R C).
Proof.
  unfold array_cell in Ar. replace (o + R * bt_naxis1 t + column_start (bt_tforms t) C) with (o + base t R C) in Ar by (unfold base; lia).
  destruct Ar as (_ & [(E & N & P)|(E & N & P)]); eexists; (split; [exact E|]); auto.
Qed.

(** The array is read to the end of the file. *)
Lemma broken rem i : u64_result m (n * w) = Ok (rem 0) ->
  (forall k, 0 <= k <= J -> u64_result m (n - rem k / w) = Ok (i k)) ->
  (forall k, 0 <= k < J -> u64_result m (rem k - w) = Ok (rem (k + 1)) /\ rem (k + 1) <> 0) ->
  exists cells rows,
    Forall2 (slot_value d) (slots_before d t o R C ++ to_the_end d e p C i) cells /\
    (forall k, fst (table_run m (in_cell 0 0 0 0) (repeat TNext k)) = firstn k (map TValue cells ++ repeat TEnd k)) /\
    Forall2 (fun i cells => Forall2 (slot_value d) (row_slots d t o true all i) cells) (upto R) rows /\
    forall fuel k, (forall i, In i (upto R) -> (length (row_slots d t o true all i) <= fuel)%nat) ->
      (length row_start + length (to_the_end d e p C i) < fuel)%nat ->
      row_run m fuel (mk_row_it (in_cell 0 0 0 0) 0) k = firstn k (map RowOf rows ++ repeat RowEnd k).
Proof.
  intros R0 Hi Hm. destruct to_cell as (rows & vs & F & G & T & St & W). destruct array_form as (f & E & De & En & Ep).
  pose proof (array_over m d t o all Pr static (upto_sorted _) (columns_ne t Ne) R C f e n (desc_o d f (o + base t R C)) HR) as A.
  rewrite all_len, col_all, <- Ep in A by exact HC.
  destruct (A HC E De En eq_refl P63 rem i R0 Hi Hm) as (tl & V & A1 & A2 & A3 & A4).
  set (pa := past _ _ _ _ _ _ _ _ _ _) in *.
  exists (concat rows ++ vs ++ tl), rows.
  assert (Q : exists s1, steps R (in_cell R C 0 0) tl s1 /\ table_next m s1 = (Ok None, pa) /\ tb_row s1 = R).
  { destruct tl as [|v tl]; [|eexists; split; [apply A1; discriminate|split; [exact A3|reflexivity]]].
    exists (in_cell R C 0 0). split; [reflexivity|split; [apply A2; reflexivity|reflexivity]]. }
  destruct Q as (s1 & Q1 & Q2 & Rs).
  assert (End : forall k, fst (table_run m s1 (repeat TNext k)) = repeat TEnd k).
  { intros [|k]; [reflexivity|]. cbn [repeat table_run table_do]. rewrite Q2. pose proof (stuck_run m pa k A4) as Hs.
    destruct (table_run m pa (repeat TNext k)). cbn [fst] in *. rewrite Hs. reflexivity. }
  split; [rewrite app_assoc; apply Forall2_app; [apply cells_of; auto|exact V]|].
  split; [|split; [exact F|]].
  - intro k. rewrite (run_firstn m _ k (length (concat rows ++ vs ++ tl))). rewrite Nat.add_comm.
    rewrite app_assoc, app_length, <- Nat.add_assoc, T.
    rewrite (steps_run m R tl _ _ k Q1), End, (map_app TValue (concat rows ++ vs) tl), <- app_assoc. reflexivity.
  - intros fuel k L1 L2. rewrite (rows_firstn m fuel _ k (length rows)), Nat.add_comm, W by exact L1. f_equal. f_equal.
    pose proof (steps_app m R _ _ _ _ _ St Q1) as SQ. rewrite (HeaderProofs.Forall2_length _ _ _ G), (HeaderProofs.Forall2_length _ _ _ V) in L2.
    destruct k as [|k]; [reflexivity|]. cbn [row_run repeat]. unfold row_next at 1. cbn [ri_data ri_row].
    replace fuel with (length (vs ++ tl) + S (fuel - length (vs ++ tl) - 1))%nat at 1 by (rewrite app_length in *; lia).
    rewrite (steps_loop m R _ _ _ _ _ SQ). cbn [row_loop]. 
    rewrite Rs, Z.eqb_refl, Q2. cbv iota. f_equal.
    apply (stuck_rows m d d t o true all); [lia|exact A4|reflexivity].
Qed.

(** An array that is not empty and ends behind the end of the file. *)
Lemma overruns : 1 <= n -> n * w < 2 ^ 64 -> len d < p + n * w ->
  forall k, (0 <= k <= J -> u64_result m (n - (n - k) * w / w) = Ok k) /\
            (0 <= k < J -> u64_result m ((n - k) * w - w) = Ok ((n - (k + 1)) * w) /\ (n - (k + 1)) * w <> 0).
Proof.
  intros N1 N2 Ov k. pose proof (elem_bytes_pos e) as W. rewrite Z.div_mul by lia.
  pose proof (Z.div_mod (len d - p) w ltac:(lia)). pose proof (Z.mod_pos_bound (len d - p) w ltac:(lia)).
  pose proof Pr as (_ & D & _). assert (Jn : J < n) by nia. assert (J < 2 ^ 63).
  { destruct array_form as (f & E & De & En & Ep). 
    pose proof (array_facts d t o all Pr static R C f e n (desc_o d f (o + base t R C)) HR) as A.
    rewrite all_len, col_all, <- Ep in A by exact HC. destruct (A HC E De En eq_refl) as (_ & _ & P0 & _). nia. }
  split; intro K; [rewrite u64_result_small by lia; f_equal; lia|].
  split; [rewrite u64_result_small by nia; f_equal; lia|nia].
Qed.

(** An empty array: the counter of the bytes that are left wraps round. *)
Lemma first_place : 0 <= p.
Proof.
  destruct array_form as (f & E & De & En & Ep).
  pose proof (array_facts d t o all Pr static R C f e n (desc_o d f (o + base t R C)) HR) as A.
  rewrite all_len, col_all, <- Ep in A by exact HC. destruct (A HC E De En eq_refl) as (_ & _ & P0 & _). exact P0.
Qed.
Lemma width_divides : 2 ^ 64 = (2 ^ 64 / w) * w /\ 2 ^ 60 <= 2 ^ 64 / w <= 2 ^ 64.
Proof. destruct e; vm_compute; repeat split; discriminate. Qed.
Lemma wraps : m = Wrapping \/ len d < p + w ->
  forall k, (0 <= k <= J -> u64_result m (0 - (- (k * w)) mod 2 ^ 64 / w) = Ok (empty_number e k)) /\
            (0 <= k < J -> u64_result m ((- (k * w)) mod 2 ^ 64 - w) = Ok ((- ((k + 1) * w)) mod 2 ^ 64) /\ (- ((k + 1) * w)) mod 2 ^ 64 <> 0).
Proof.
  intros M k. pose proof (elem_bytes_pos e) as W. pose proof width_divides as (Dv & Db). pose proof first_place as P0. pose proof Pr as (_ & D & _).
  assert (Jw : J * w <= len d).
  { pose proof (Z.div_mod (len d - p) w ltac:(lia)). pose proof (Z.mod_pos_bound (len d - p) w ltac:(lia)). pose proof (len_nonneg d). nia. }
  assert (Md : forall j, 0 < j <= J -> (- (j * w)) mod 2 ^ 64 = (2 ^ 64 / w - j) * w).
  { intros j Hj. symmetry. apply Z.mod_unique with (-1); [left; nia|nia]. }
  assert (J60 : J * w < 2 ^ 63) by lia.
  unfold empty_number. destruct (Z.eq_dec k 0) as [->|Nk].
  - cbn [Z.mul Z.opp]. rewrite Z.mod_0_l, Z.div_0_l by lia. split; [reflexivity|]. intro K.
    destruct M as [->|M].
    + rewrite u64_wrapping. split; [f_equal; f_equal; lia|]. rewrite Md by lia. nia.
    + exfalso. assert ((len d - p) / w < 1) by (apply Z.div_lt_upper_bound; lia). lia.
  - assert (m = Wrapping \/ J = 0) as [->|J0].
    { destruct M as [M|M]; [left; exact M|right]. assert ((len d - p) / w < 1) by (apply Z.div_lt_upper_bound; lia). lia. }
    2:{ split; intro; lia. }
    rewrite !u64_wrapping. destruct (k =? 0) eqn:X; [lia|]. split; intro K.
    + rewrite Md, Z.div_mul by lia. f_equal. symmetry. apply Z.mod_unique with (-1); [left; nia|lia].
    + rewrite !Md by lia. split; [|nia]. f_equal. rewrite Z.mod_small by nia. lia.
Qed.

Lemma empty_panics : n = 0 -> m = Checked -> p + w <= len d -> fst (table_next m (in_cell R C 0 0)) = Panic.
Proof.
  intros N0 M L. pose proof (elem_bytes_pos e) as W. pose proof first_place as P0. destruct array_form as (f & E & De & En & Ep).
  pose proof (array_enter m d t o all Pr static R C f e n (desc_o d f (o + base t R C)) HR) as A.
  rewrite all_len, col_all, <- Ep in A by exact HC. rewrite (A HC E De En eq_refl P63 0) by (rewrite N0; reflexivity).
  unfold heap_next, in_array. cbn [BinProofs2.at_ tb_state tb_reader]. rewrite <- Ep, N0, Z.div_0_l by lia. cbn [Z.sub]. 
  rewrite u64_result_small by lia. destruct (read_elem_at d (p + 0 * w) e) as (v & Rv & _); [apply Pr|lia|lia|].
  rewrite Rv, elem_bytes_size, M. unfold u64_result. destruct (0 <=? 0 - w) eqn:X; [lia|]. reflexivity.
Qed.
Lemma broken_panics : n = 0 -> m = Checked -> p + w <= len d ->
  exists cells rows,
    Forall2 (slot_value d) (slots_before d t o R C) cells /\
    fst (table_run m (in_cell 0 0 0 0) (repeat TNext (length cells + 1))) = map TValue cells ++ [TPanic] /\
    Forall2 (fun i cells => Forall2 (slot_value d) (row_slots d t o true all i) cells) (upto R) rows /\
    forall fuel, (forall i, In i (upto R) -> (length (row_slots d t o true all i) <= fuel)%nat) -> (length row_start < fuel)%nat ->
      row_run m fuel (mk_row_it (in_cell 0 0 0 0) 0) (length rows + 1) = map RowOf rows ++ [RowPanic].
Proof.
  intros N0 M L. pose proof (empty_panics N0 M L) as Pn. destruct to_cell as (rows & vs & F & G & T & St & W).
  exists (concat rows ++ vs), rows. split; [apply cells_of; auto|]. split; [|split; [exact F|]].
  - rewrite T. f_equal. cbn [repeat table_run table_do]. destruct (table_next m (in_cell R C 0 0)) as [x s]. cbn [fst] in Pn. subst x. reflexivity.
  - intros fuel L1 L2. rewrite W by exact L1. f_equal. cbn [row_run]. unfold row_next. cbn [ri_data ri_row].
    rewrite (HeaderProofs.Forall2_length _ _ _ G) in L2.
    replace fuel with (length vs + S (fuel - length vs - 1))%nat at 1 by lia.
    rewrite (steps_loop m R _ _ _ _ _ St). cbn [row_loop].
    change (tb_row (in_cell R C 0 0)) with R. rewrite Z.eqb_refl.
    destruct (table_next m (in_cell R C 0 0)) as [x s]. cbn [fst] in Pn. subst x. reflexivity.
Qed.
End Broken.
End Before.

(** ** Tables of a file *)
Section File.
Variables (m : mode) (d : list Z) (f : fits) (h : hdu) (f' : fits) (t : bintable).
Hypothesis Oc : octets d.
Hypothesis Da : rd_data (f_reader f) = d.
Hypothesis Po : 0 <= rd_pos (f_reader f).
Hypothesis Nx : next m f = (IOk h, f').
Hypothesis Xt : h_xt h = XtBin t.
Hypothesis Ti : table_inside d t (h_offset h).
Hypothesis Fl : Forall filled (bt_tforms t).
Variables (R C : Z) (e : ety) (n p : Z).
Hypothesis HR : 0 <= R < bt_naxis2 t.
Hypothesis HC : 0 <= C < len (bt_tforms t).
Hypothesis Rd : readable_before d t (h_offset h) R C.
Hypothesis Ar : array_cell d t (h_offset h) R C e n p.
Hypothesis P63 : p < 2 ^ 63.
Notation o := (h_offset h).
Notation all := (all_columns t).
Notation w := (elem_bytes e).

Lemma some_column : bt_tforms t <> [].
Proof. intro E. pose proof HC as H. rewrite E in H. change (len (@nil tform)) with 0 in H. lia. Qed.
Lemma fresh_cell : fresh d t o = in_cell d t o true all 0 0 0 0.
Proof.
  unfold fresh, in_cell, at_, base. rewrite col_at_zero. change (column_start (bt_tforms t) 0) with 0. f_equal. f_equal. lia.
Qed.

Definition read_to_the_end (number : Z -> Z) : Prop :=
  exists s cells rows, get_table m f' t = Ok s /\
    Forall2 (slot_value d) (slots_before d t o R C ++ to_the_end d e p C number) cells /\
    (forall k, fst (table_run m s (repeat TNext k)) = firstn k (map TValue cells ++ repeat TEnd k)) /\
    Forall2 (fun i cells => Forall2 (slot_value d) (row_slots d t o true all i) cells) (upto R) rows /\
    forall fuel k, (forall i, In i (upto R) -> (length (row_slots d t o true all i) <= fuel)%nat) ->
      (length (flat_map (cell d t o true R) (upto C)) + length (to_the_end d e p C number) < fuel)%nat ->
      row_run m fuel (row_iter s) k = firstn k (map RowOf rows ++ repeat RowEnd k).

Lemma file_overrun : 1 <= n -> n * w < 2 ^ 64 -> len d < p + n * w -> read_to_the_end (fun k => k).
Proof.
  intros N1 N2 Ov. pose proof (file_present m d f h f' t Oc Da Po Nx Xt Ti) as Pr.
  pose proof (elem_bytes_pos e) as W.
  assert (U : u64_result m (n * w) = Ok ((n - 0) * w)) by (rewrite Z.sub_0_r; apply u64_result_small; nia).
  pose proof (overruns m d t o Pr Fl R C e n p HR HC Ar P63 N1 N2 Ov) as V.
  destruct (broken m d t o Pr Fl some_column R C e n p HR HC Rd Ar P63 (fun k => (n - k) * w) (fun k => k) U) as (cells & rows & B).
  { intros k K. apply V. exact K. }
  { intros k K. apply V. exact K. }
  exists (fresh d t o), cells, rows. split; [apply (file_table m d f h f' t Oc Da Po Nx Xt Ti)|]. unfold row_iter. rewrite fresh_cell. exact B.
Qed.
Lemma file_empty : n = 0 -> m = Wrapping \/ len d < p + w -> read_to_the_end (empty_number e).
Proof.
  intros N0 M. pose proof (file_present m d f h f' t Oc Da Po Nx Xt Ti) as Pr.
  pose proof (wraps m d t o Pr Fl R C e n p HR HC Ar P63 M) as V.
  destruct (broken m d t o Pr Fl some_column R C e n p HR HC Rd Ar P63 (fun k => (- (k * w)) mod 2 ^ 64) (empty_number e)) as (cells & rows & B).
  { rewrite N0. reflexivity. }
  { intros k K. rewrite N0. apply V. exact K. }
  { intros k K. apply V. exact K. }
  exists (fresh d t o), cells, rows. split; [apply (file_table m d f h f' t Oc Da Po Nx Xt Ti)|]. unfold row_iter. rewrite fresh_cell. exact B.
Qed.
Lemma file_empty_panics : n = 0 -> m = Checked -> p + w <= len d ->
  exists s cells rows, get_table m f' t = Ok s /\
    Forall2 (slot_value d) (slots_before d t o R C) cells /\
    fst (table_run m s (repeat TNext (length cells + 1))) = map TValue cells ++ [TPanic] /\
    Forall2 (fun i cells => Forall2 (slot_value d) (row_slots d t o true all i) cells) (upto R) rows /\
    forall fuel, (forall i, In i (upto R) -> (length (row_slots d t o true all i) <= fuel)%nat) ->
      (length (flat_map (cell d t o true R) (upto C)) < fuel)%nat ->
      row_run m fuel (row_iter s) (length rows + 1) = map RowOf rows ++ [RowPanic].
Proof.
  intros N0 M L. pose proof (file_present m d f h f' t Oc Da Po Nx Xt Ti) as Pr.
  destruct (broken_panics m d t o Pr Fl some_column R C e n p HR HC Rd Ar P63 N0 M L) as (cells & rows & B).
  exists (fresh d t o), cells, rows. split; [apply (file_table m d f h f' t Oc Da Po Nx Xt Ti)|]. unfold row_iter. rewrite fresh_cell. exact B.
Qed.
End File.

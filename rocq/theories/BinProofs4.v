(** Tables of damaged files in a build without overflow checks: no call panics and every loop over
    the values ends. *)

From Coq Require Import Lia ZifyBool Permutation.
From Verif Require Import Base Text Card Reader Header Xtension Bytes Fits ImageIt BinTable.
From Verif Require Import SpecCard SpecHeader SpecXt SpecFits SpecImage SpecBin SpecBinSafe.
From Verif Require Import BytesProofs ImageProofs XtProofs2 XtProofs3 BinProofs BinProofs2 BinProofs3.

Lemma u64_wrapping z : u64_result Wrapping z = Ok (z mod 2 ^ 64).
Proof.
  unfold u64_result. destruct ((0 <=? z) && (z <? 2 ^ 64)) eqn:X; [|reflexivity].
  rewrite Z.mod_small by lia. reflexivity.
Qed.
Lemma i64_wrapping z : exists w, i64_result Wrapping z = Ok w /\ - 2 ^ 63 <= w < 2 ^ 63 /\ w mod 2 ^ 64 = z mod 2 ^ 64 /\
  (- 2 ^ 63 <= z < 2 ^ 63 -> w = z).
Proof.
  unfold i64_result. destruct ((- 2 ^ 63 <=? z) && (z <? 2 ^ 63)) eqn:X.
  - exists z. repeat split; try reflexivity; lia.
  - exists (to_signed 8 (z mod 2 ^ 64)). split; [reflexivity|].
    pose proof (Z.mod_pos_bound z (2 ^ 64) ltac:(lia)) as B. unfold to_signed.
    change (2 ^ (8 * 8 - 1)) with (2 ^ 63). change (2 ^ (8 * 8)) with (2 ^ 64).
    destruct (z mod 2 ^ 64 <? 2 ^ 63) eqn:Y.
    + rewrite Z.mod_mod by lia. repeat split; lia.
    + split; [lia|]. split; [|lia]. rewrite Zminus_mod, Z_mod_same_full, Z.sub_0_r, !Z.mod_mod by lia. reflexivity.
Qed.
Lemma as_i64_range z : 0 <= z < 2 ^ 64 -> - 2 ^ 63 <= as_i64 z < 2 ^ 63.
Proof. unfold as_i64. intro. destruct (z <? 2 ^ 63) eqn:X; lia. Qed.
Lemma as_i64_mod z : as_i64 z mod 2 ^ 64 = z mod 2 ^ 64.
Proof.
  unfold as_i64. destruct (z <? 2 ^ 63); [reflexivity|].
  rewrite Zminus_mod, Z_mod_same_full, Z.sub_0_r, Z.mod_mod by lia. reflexivity.
Qed.
Lemma mod_u64 z : 0 <= z mod 2 ^ 64 < 2 ^ 64.
Proof. apply Z.mod_pos_bound. lia. Qed.

Lemma read_be_any b r : exists x r', read_be b r = (x, r') /\ rd_data r' = rd_data r /\ x <> Panic /\
  (0 <= rd_pos r -> 0 <= rd_pos r') /\
  (forall v, x = Ok v -> rd_pos r' = rd_pos r + byte_size b /\ rd_pos r' <= len (rd_data r)).
Proof.
  unfold read_be, read_exact. pose proof (len_nonneg (rd_data r)).
  assert (B: 1 <= byte_size b) by (destruct b; vm_compute; discriminate).
  destruct (byte_size b =? 0) eqn:Z0; [lia|].
  destruct (rd_pos r + byte_size b <=? len (rd_data r)) eqn:X;
    (eexists; eexists; split; [reflexivity|]); cbn [rd_data rd_pos];
    (split; [reflexivity|]; split; [discriminate|]; split; [lia|]); intros; try discriminate; lia.
Qed.

Lemma read_pair_any b r : exists x r', read_pair b r = (x, r') /\ rd_data r' = rd_data r /\ x <> Panic /\
  (0 <= rd_pos r -> 0 <= rd_pos r') /\
  (forall v, x = Ok v -> rd_pos r' = rd_pos r + 2 * byte_size b /\ rd_pos r' <= len (rd_data r) /\ exists a c, v = [a; c]).
Proof.
  unfold read_pair. destruct (read_be_any b r) as (x & r1 & E & D & N & P & V). rewrite E.
  destruct x as [a|e|]; [|exists (Err e), r1; repeat split; auto; discriminate|contradiction].
  destruct (read_be_any b r1) as (y & r2 & E2 & D2 & N2 & P2 & V2). rewrite E2.
  destruct (V _ eq_refl) as [V1 _].
  destruct y as [c|e|]; [|exists (Err e), r2; repeat split; auto; try congruence; discriminate|contradiction].
  destruct (V2 _ eq_refl) as [V3 V4].
  exists (Ok [a; c]), r2. split; [reflexivity|]. split; [congruence|]. split; [discriminate|]. split; [auto|].
  intros v Ev. rewrite <- D. split; [lia|]. split; [lia|]. inversion Ev. eauto.
Qed.

Lemma read_elem_any t r : exists x r', read_elem t r = (x, r') /\ rd_data r' = rd_data r /\ x <> Panic /\
  (0 <= rd_pos r -> 0 <= rd_pos r') /\
  (forall v, x = Ok v -> rd_pos r' = rd_pos r + bytes_size t /\ rd_pos r' <= len (rd_data r)).
Proof.
  assert (One: forall b f, bytes_size t = byte_size b -> exists x r', read_one b f r = (x, r') /\ rd_data r' = rd_data r /\ x <> Panic /\
    (0 <= rd_pos r -> 0 <= rd_pos r') /\
    (forall v, x = Ok v -> rd_pos r' = rd_pos r + bytes_size t /\ rd_pos r' <= len (rd_data r))).
  { intros b f S. unfold read_one. destruct (read_be_any b r) as (x & r1 & E & D & N & P & V). rewrite E, S.
    destruct x as [a|e|]; [|exists (Err e), r1; repeat split; auto; discriminate|contradiction].
    exists (Ok [f a]), r1. repeat split; auto; try discriminate; apply (V _ eq_refl). }
  assert (Two: forall b, bytes_size t = 2 * byte_size b -> exists x r', read_pair b r = (x, r') /\ rd_data r' = rd_data r /\ x <> Panic /\
    (0 <= rd_pos r -> 0 <= rd_pos r') /\
    (forall v, x = Ok v -> rd_pos r' = rd_pos r + bytes_size t /\ rd_pos r' <= len (rd_data r))).
  { intros b S. destruct (read_pair_any b r) as (x & r1 & E & D & N & P & V). rewrite E, S. exists x, r1.
    repeat split; auto; intros; destruct (V _ H) as (? & ? & _); auto. }
  unfold read_elem. destruct t; (apply One || apply Two); reflexivity.
Qed.

Section Safe.
Variables (d : list Z) (t : bintable) (offs cols : list Z).
Hypothesis Offs : length offs = length (bt_tforms t).
Hypothesis OffR : Forall (fun o => 0 <= o < 2 ^ 64) offs.
Hypothesis Cols : Forall (fun c => 0 <= c < len (bt_tforms t)) cols.
Hypothesis Cne : cols <> [].
Hypothesis N1 : 0 < bt_naxis1 t < 2 ^ 61.

(** What holds of every state a table gets into. *)
Record ok (s : table) : Prop := {
  ok_ctx : tb_ctx s = t; ok_offs : tb_offsets s = offs; ok_cols : tb_cols s = cols;
  ok_data : rd_data (tb_reader s) = d; ok_pos : 0 <= rd_pos (tb_reader s);
  ok_col : 0 <= tb_col s < len cols; ok_off : 0 <= tb_off s < 2 ^ 64; ok_main : 0 <= tb_main s < 2 ^ 64;
  ok_state : match tb_state s with InMain => True | InHeap _ p _ _ _ => 0 <= p end }.

Lemma cols_pos : 0 < len cols.
Proof. destruct cols; [contradiction|]. unfold len. simpl. lia. Qed.

Lemma cols_index i : 0 <= i < len cols -> exists c, index cols i = Ok c /\ 0 <= c < len (bt_tforms t).
Proof.
  intro R. unfold index. destruct (i <? 0) eqn:X; [lia|].
  destruct (nth_error cols (Z.to_nat i)) as [c|] eqn:E.
  - exists c. split; auto. rewrite Forall_forall in Cols. apply Cols. eapply nth_error_In; eauto.
  - apply nth_error_None in E. unfold len in R. lia.
Qed.
Lemma offs_index c : 0 <= c < len (bt_tforms t) -> exists o, index offs c = Ok o /\ In o offs /\ 0 <= o < 2 ^ 64.
Proof.
  intro R. unfold index. destruct (c <? 0) eqn:X; [lia|].
  destruct (nth_error offs (Z.to_nat c)) as [o|] eqn:E.
  - apply nth_error_In in E. exists o. rewrite Forall_forall in OffR. auto.
  - apply nth_error_None in E. unfold len in R. lia.
Qed.
Lemma tforms_index c : 0 <= c < len (bt_tforms t) -> exists f, index (bt_tforms t) c = Ok f.
Proof.
  intro R. unfold index. destruct (c <? 0) eqn:X; [lia|].
  destruct (nth_error (bt_tforms t) (Z.to_nat c)) as [f|] eqn:E; [eauto|].
  apply nth_error_None in E. unfold len in R. lia.
Qed.

Ltac fields := cbn [tb_reader tb_state tb_cols tb_offsets tb_ctx tb_col tb_item tb_off tb_main tb_start
  tb_first tb_row tb_heap set_reader set_state set_cols set_pos set_off set_first read_the_heap rd_data rd_pos] in *.

Lemma seek_by_any s off : ok s -> exists x s', seek_by Wrapping s off = (x, s') /\ ok s' /\ x <> Panic /\
  tb_state s' = tb_state s /\ tb_first s' = tb_first s /\ tb_main s' = tb_main s /\ tb_row s' = tb_row s /\
  (x = Ok tt -> rd_pos (tb_reader s') = rd_pos (tb_reader s) + off /\ tb_off s' = (tb_off s + off) mod 2 ^ 64).
Proof.
  intros []. unfold seek_by, seek_relative.
  destruct ((0 <=? rd_pos (tb_reader s) + off) && (rd_pos (tb_reader s) + off <? 2 ^ 64)) eqn:X.
  - rewrite u64_wrapping. eexists; eexists; split; [reflexivity|]. split; [|split; [discriminate|]].
    + constructor; fields; auto; try apply mod_u64; lia.
    + fields. do 4 (split; [reflexivity|]). intros _. split; [lia|]. unfold as_usize. rewrite Zplus_mod_idemp_r. reflexivity.
  - eexists; eexists; split; [reflexivity|]. split; [|split; [discriminate|]].
    + constructor; fields; auto; try lia.
    + fields. do 4 (split; [reflexivity|]). discriminate.
Qed.

Lemma next_col_off_any s c : ok s -> 0 <= c < len (bt_tforms t) -> exists rel, next_col_off Wrapping s c = Ok rel /\
  (Forall (fun o => o < 2 ^ 62) offs -> 0 <= rel).
Proof.
  intros [] R. unfold next_col_off. rewrite ok_offs0, ok_ctx0.
  destruct (offs_index c R) as (o & E & I & Ro). rewrite E. cbn [bind].
  rewrite (as_i64_small (bt_naxis1 t)) by lia. unfold i64_rem.
  destruct (bt_naxis1 t =? 0) eqn:X; [lia|]. destruct (bt_naxis1 t =? -1) eqn:Y; [lia|].
  rewrite andb_false_r. cbn [orb bind].
  pose proof (as_i64_range _ ok_off0) as Rr.
  assert (B: - bt_naxis1 t < Z.rem (as_i64 (tb_off s)) (bt_naxis1 t) < bt_naxis1 t).
  { pose proof (Z.rem_bound_abs (as_i64 (tb_off s)) (bt_naxis1 t) ltac:(lia)). lia. }
  set (cur := Z.rem (as_i64 (tb_off s)) (bt_naxis1 t)) in *.
  destruct (i64_wrapping (as_i64 o - cur)) as (w & Ew & Rw & _ & Sw). rewrite Ew. cbn [bind].
  destruct (w <? 0) eqn:Z0.
  - destruct (i64_wrapping (w + bt_naxis1 t)) as (v & Ev & Rv & _ & Sv). exists v. split; auto.
    intro F. rewrite Forall_forall in F. specialize (F o I). rewrite as_i64_small in Sw by lia. lia.
  - exists w. split; auto. lia.
Qed.

(** At the end of the last row the iterator stands at the end of the main table. *)
Definition at_end (s : table) : Prop := tb_state s = InMain /\ tb_first s = false /\ tb_off s = tb_main s.

Lemma seek_next_any s : ok s -> exists x s', seek_to_next_col Wrapping s = (x, s') /\ ok s' /\ x <> Panic /\
  tb_state s' = tb_state s /\ tb_first s' = tb_first s /\ (tb_row s' = tb_row s \/ tb_row s' = tb_row s + 1) /\
  (Forall (fun o => o < 2 ^ 62) offs -> x = Ok tt ->
     tb_off s' = tb_main s' \/ rd_pos (tb_reader s) <= rd_pos (tb_reader s')).
Proof.
  intro K. pose proof K as []. unfold seek_to_next_col. rewrite !u64_wrapping, ok_cols0, ok_ctx0.
  pose proof cols_pos. destruct ((tb_col s =? _) && (tb_row s =? _)) eqn:X.
  - set (row := if tb_col s =? _ then _ else _).
    destruct (i64_wrapping (as_i64 (tb_main s) - as_i64 (tb_off s))) as (w & Ew & Rw & Mw & _). rewrite Ew.
    assert (K1: ok (set_pos s row (tb_col s) (tb_item s))) by (constructor; fields; auto; lia).
    destruct (seek_by_any _ w K1) as (x & s' & E & K' & Nx & S1 & S2 & S3 & S4 & V). exists x, s'. fields.
    do 5 (split; [auto|]). split; [rewrite S4; unfold row; destruct (tb_col s =? _); auto|]. intros _ Ex. left. destruct (V Ex) as [_ ->]. rewrite S3.
    rewrite <- Zplus_mod_idemp_r, Mw, Zplus_mod_idemp_r.
    rewrite <- Zplus_mod_idemp_l, <- (as_i64_mod (tb_off s)), Zplus_mod_idemp_l.
    replace (as_i64 (tb_off s) + (as_i64 (tb_main s) - as_i64 (tb_off s))) with (as_i64 (tb_main s)) by lia.
    rewrite as_i64_mod. apply Z.mod_small. lia.
  - set (row := if tb_col s =? _ then _ else _). destruct (len cols =? 0) eqn:Z0; [lia|].
    assert (R: 0 <= (tb_col s + 1) mod len cols < len cols) by (apply Z.mod_pos_bound; lia).
    destruct (cols_index _ R) as (c & Ec & Rc). rewrite Ec. cbn [bind].
    set (s1 := set_pos s row _ 0). assert (K1: ok s1) by (unfold s1; constructor; fields; auto; lia).
    destruct (next_col_off_any s1 c K1 Rc) as (rel & Er & Pr). rewrite Er.
    destruct (seek_by_any s1 rel K1) as (x & s' & E & K' & Nx & S1 & S2 & _ & S4 & V). exists x, s'.
    unfold s1 in *. fields. do 5 (split; [auto|]). split; [rewrite S4; unfold row; destruct (tb_col s =? _); auto|]. intros F Ex. right. destruct (V Ex) as [-> _].
    specialize (Pr F). lia.
Qed.

(** A bound for the number of values still to come. *)
Definition ahead (p : Z) : Z := Z.max 0 (len d - p) * (len d + 2).
Definition left (s : table) : Z :=
  match tb_state s with
  | InMain => ahead (rd_pos (tb_reader s))
  | InHeap _ p _ _ _ => ahead p + Z.max 0 (len d - rd_pos (tb_reader s)) + 1
  end.

Lemma ahead_mono p q : p <= q -> ahead q <= ahead p.
Proof. intro. unfold ahead. pose proof (len_nonneg d). apply Z.mul_le_mono_nonneg_r; lia. Qed.
Lemma ahead_step p q : p + 1 <= q -> q <= len d -> ahead q + (len d + 2) <= ahead p.
Proof.
  intros. unfold ahead. pose proof (len_nonneg d).
  replace (Z.max 0 (len d - p)) with (len d - p) by lia. replace (Z.max 0 (len d - q)) with (len d - q) by lia.
  replace ((len d - q) * (len d + 2) + (len d + 2)) with ((len d - q + 1) * (len d + 2)) by lia.
  apply Z.mul_le_mono_nonneg_r; lia.
Qed.
Lemma ahead_nonneg p : 0 <= ahead p.
Proof. unfold ahead. pose proof (len_nonneg d). apply Z.mul_nonneg_nonneg; lia. Qed.
Lemma left_nonneg s : 0 <= left s.
Proof. unfold left. destruct (tb_state s); pose proof (ahead_nonneg (rd_pos (tb_reader s))); auto.
  pose proof (ahead_nonneg main_pos). lia. Qed.

(** What a call gives in the state [s]: never a panic, and a value only if less is left. *)
Definition stepped (w row : Z) (y : res (option dvalue) * table) : Prop :=
  exists x s', y = (Ok x, s') /\ ok s' /\ tb_first s' = false /\ (tb_row s' = row \/ tb_row s' = row + 1) /\
    (Forall (fun o => o < 2 ^ 62) offs -> x <> None -> at_end s' \/ left s' < w).

Lemma finish_stepped s v w : ok s -> tb_state s = InMain -> tb_first s = false -> left s < w ->
  stepped w (tb_row s) (finish_next (seek_to_next_col Wrapping s) v).
Proof.
  intros K St Fi W. destruct (seek_next_any s K) as (x & s' & E & K' & Nx & S1 & S2 & S4 & P). rewrite E.
  destruct x as [[]|e|]; [| |contradiction]; cbn [finish_next].
  - exists (Some v), s'. split; auto. split; auto. split; [congruence|]. split; [auto|]. intros F _.
    destruct (P F eq_refl) as [En|Le]; [left; unfold at_end; repeat split; congruence|]. right.
    unfold left in *. rewrite S1, St in *. pose proof (ahead_mono _ _ Le). lia.
  - exists None, s'. split; auto. split; auto. split; [congruence|]. split; [auto|]. intros _ []. reflexivity.
Qed.

Lemma heap_stepped s c e p rem n size w : ok s -> tb_first s = false -> tb_state s = InHeap e p rem n size ->
  ahead p + Z.max 0 (len d - rd_pos (tb_reader s)) < w ->
  stepped w (tb_row s) (heap_next Wrapping s c).
Proof.
  intros K Fi St W. pose proof K as []. unfold heap_next. rewrite St, u64_wrapping.
  destruct (read_elem_any e (tb_reader s)) as (x & r & E & Dr & Nx & Pr & V). rewrite E. rewrite ok_data0 in *.
  assert (K1: ok (set_reader s r)) by (constructor; fields; auto).
  rewrite St in ok_state0.
  destruct x as [v|er|]; [| |contradiction].
  - rewrite u64_wrapping. destruct (V v eq_refl) as [V1 V2]. rewrite elem_bytes_size in V1. pose proof (elem_bytes_pos e).
    assert (K2: forall q, ok (set_state (set_reader s r) (InHeap e p q n size))) by (intro; constructor; fields; auto).
    destruct (_ =? 0) eqn:Z0.
    + unfold jump_to_main_table. fields.
      change (tb_row s) with (tb_row (set_state (set_reader s (seek_start r p)) InMain)).
      apply finish_stepped; fields; auto.
      * constructor; fields; auto.
      * unfold left. fields. pose proof (ahead_mono p (rd_pos (tb_reader s))). cbn [seek_start rd_pos]. lia.
    + eexists; eexists; split; [reflexivity|]. split; [apply K2|]. split; [exact Fi|]. split; [auto|]. intros _ _. right.
      unfold left. fields. lia.
  - exists None, (set_reader s r). split; auto. split; auto. split; [exact Fi|]. split; [auto|]. intros _ []. reflexivity.
Qed.

Lemma elem_stepped s c e last : ok s -> tb_first s = false -> tb_state s = InMain ->
  stepped (left s) (tb_row s) (main_elem Wrapping s c e last).
Proof.
  intros K Fi St. pose proof K as []. unfold main_elem.
  destruct (read_elem_any e (tb_reader s)) as (x & r & E & Dr & Nx & Pr & V). rewrite E. rewrite ok_data0 in *.
  destruct x as [v|er|]; [| |contradiction].
  - rewrite u64_wrapping. destruct (V v eq_refl) as [V1 V2]. rewrite elem_bytes_size in V1. pose proof (elem_bytes_pos e).
    set (s2 := set_pos _ _ _ _).
    assert (K2: ok s2) by (unfold s2; constructor; fields; auto; try apply mod_u64; lia).
    assert (W: left s2 < left s).
    { unfold left, s2. fields. rewrite St. pose proof (ahead_step (rd_pos (tb_reader s)) (rd_pos r) ltac:(lia) ltac:(lia)).
      pose proof (len_nonneg d). lia. }
    destruct (_ =? last) eqn:Z0; [change (tb_row s) with (tb_row s2); apply finish_stepped; auto|].
    eexists; eexists; split; [reflexivity|]. split; auto.
  - exists None, (set_reader s r). split; auto. split; [constructor; fields; auto|]. split; [exact Fi|]. split; [auto|]. intros _ []. reflexivity.
Qed.

Lemma desc_stepped s c wide e : ok s -> tb_first s = false -> tb_state s = InMain ->
  stepped (left s) (tb_row s) (main_desc Wrapping s c wide e).
Proof.
  intros K Fi St. pose proof K as []. unfold main_desc, read_desc.
  destruct (read_pair_any (if wide then BF64 else BF32) (tb_reader s)) as (x & r & E & Dr & Nx & Pr & V).
  rewrite E. rewrite ok_data0 in *.
  destruct x as [v|er|]; [| |contradiction].
  - destruct (V v eq_refl) as (V1 & V2 & n & o & ->).
    assert (B: 8 <= 2 * byte_size (if wide then BF64 else BF32)) by (destruct wide; vm_compute; discriminate).
    rewrite u64_wrapping. set (s2 := set_off _ _).
    assert (K2: ok s2) by (unfold s2; constructor; fields; auto; try apply mod_u64; lia).
    pose proof (ahead_step (rd_pos (tb_reader s)) (rd_pos r) ltac:(lia) ltac:(lia)) as A. pose proof (len_nonneg d).
    assert (W: left s2 + (len d + 2) <= left s) by (unfold left, s2; fields; rewrite St; lia).
    destruct (tb_heap s) eqn:Hp; [|change (tb_row s) with (tb_row s2); apply finish_stepped; auto; lia].
    unfold jump_to_heap. assert (St2: tb_state s2 = InMain) by exact St. rewrite St2.
    destruct (i64_wrapping (- as_i64 (tb_off s2))) as (w1 & E1 & _). rewrite E1. cbn [bind].
    destruct (i64_wrapping (w1 + as_i64 (bt_theap (tb_ctx s2)))) as (w2 & E2 & _). rewrite E2. cbn [bind].
    destruct (i64_wrapping (w2 + as_i64 o)) as (w3 & E3 & _). rewrite E3. unfold seek_relative.
    destruct ((0 <=? _) && (_ <? 2 ^ 64)) eqn:X.
    + rewrite u64_wrapping. set (s3 := set_state _ _).
      assert (K3: ok s3) by (unfold s3, s2 in *; constructor; fields; auto; lia).
      change (tb_row s) with (tb_row s3). eapply heap_stepped; [exact K3|exact Fi|reflexivity|].
      unfold s3, s2, left in *. fields. rewrite St in *. lia.
    + eexists; eexists; split; [reflexivity|]. split; [unfold s2 in *; constructor; fields; auto; try apply mod_u64; lia|].
      split; [exact Fi|]. split; [auto|]. intros _ []. reflexivity.
  - exists None, (set_reader s r). split; auto. split; [constructor; fields; auto|]. split; [exact Fi|]. split; [auto|]. intros _ []. reflexivity.
Qed.

Lemma main_stepped s c : ok s -> tb_first s = false -> tb_state s = InMain -> 0 <= c < len (bt_tforms t) ->
  stepped (left s) (tb_row s) (main_next Wrapping s c).
Proof.
  intros K Fi St R. unfold main_next. rewrite (ok_ctx s K).
  destruct (tb_off s =? tb_main s); [exists None, s; do 4 (split; [auto|]); congruence|].
  destruct (tforms_index c R) as (f & ->). destruct f as [e n|e|e]; auto using elem_stepped, desc_stepped.
Qed.

Lemma next_any s : ok s -> stepped (left s) (tb_row s) (table_next Wrapping s).
Proof.
  intro K. pose proof K as []. unfold table_next. rewrite ok_cols0, ok_offs0.
  destruct (cols_index _ ok_col0) as (c & -> & R).
  destruct (tb_first s) eqn:Fi.
  - destruct (offs_index c R) as (o & -> & I & Ro).
    assert (K0: ok (set_first s false)) by (constructor; fields; auto).
    destruct (seek_by_any _ (as_i64 o) K0) as (x & s' & E & K' & Nx & S1 & S2 & S3 & S4 & V). rewrite E. fields.
    destruct x as [[]|er|]; [| |contradiction].
    + destruct (V eq_refl) as [P _].
      assert (M: stepped (left s') (tb_row s') (match tb_state s' with InMain => main_next Wrapping s' c | InHeap _ _ _ _ _ => heap_next Wrapping s' c end)).
      { destruct (tb_state s') eqn:St; [apply main_stepped; auto|].
        eapply heap_stepped; eauto. unfold left. rewrite St. lia. }
      destruct M as (x & s2 & E2 & K2 & F2 & R2 & W). rewrite E2. exists x, s2. do 3 (split; [auto|]). split; [lia|].
      intros F Ne. destruct (W F Ne) as [|W']; [auto|]. right.
      rewrite Forall_forall in F. specialize (F o I). rewrite as_i64_small in P by lia.
      assert (left s' <= left s); [|lia].
      unfold left. rewrite S1. destruct (tb_state s); [apply ahead_mono; lia|lia].
    + exists None, s'. do 4 (split; [auto; lia|]). congruence.
  - destruct (tb_state s) eqn:St; [apply main_stepped; auto|].
    eapply heap_stepped; eauto. unfold left. rewrite St. lia.
Qed.

Lemma seek_row_any s i : ok s -> exists x s', seek_to_row Wrapping s i = (x, s') /\ ok s' /\ x <> Panic.
Proof.
  intro K. pose proof K as []. unfold seek_to_row. rewrite ok_ctx0. pose proof cols_pos as Cp.
  destruct (bt_naxis2 t <=? i); [exists (Err EStatic), s; split; [reflexivity|split; [auto|discriminate]]|].
  set (s1 := set_pos s i 0 0). assert (K1: ok s1) by (unfold s1; constructor; fields; auto; lia).
  assert (R: exists new off, row_off Wrapping s1 i = Ok (new, off)).
  { unfold row_off. destruct K1 as []. rewrite ok_ctx1, ok_cols1, ok_offs1.
    destruct (i64_wrapping (as_i64 i * as_i64 (bt_naxis1 t))) as (w1 & -> & _). cbn [bind].
    destruct (cols_index 0 ltac:(lia)) as (c & -> & Rc). cbn [bind].
    destruct (offs_index c Rc) as (o & -> & _). cbn [bind].
    destruct (i64_wrapping (w1 + as_i64 o)) as (w2 & -> & _). cbn [bind].
    destruct (i64_wrapping (- as_i64 (tb_off s1))) as (w3 & -> & _). cbn [bind].
    destruct (i64_wrapping (w3 + w2)) as (w4 & -> & _). cbn [bind]. eauto. }
  destruct R as (new & off & ->). unfold seek_relative.
  destruct ((0 <=? _) && (_ <? 2 ^ 64)) eqn:X.
  - eexists; eexists; split; [reflexivity|]. split; [|discriminate].
    unfold s1 in *. constructor; fields; auto; try apply mod_u64; lia.
  - eexists; eexists; split; [reflexivity|]. split; [|discriminate].
    unfold s1 in *. constructor; fields; auto; lia.
Qed.

Lemma do_any s o : ok s -> ok (snd (table_do Wrapping s o)) /\ fst (table_do Wrapping s o) <> TPanic.
Proof.
  intro K. destruct o as [|i]; cbn [table_do].
  - destruct (next_any s K) as (x & s' & E & K' & _). rewrite E. destruct x; cbn [fst snd]; split; auto; discriminate.
  - destruct (seek_row_any s i K) as (x & s' & E & K' & N). rewrite E.
    destruct x; cbn [fst snd]; split; auto; try discriminate; contradiction.
Qed.

Lemma run_any ops : forall s, ok s -> ok (snd (table_run Wrapping s ops)) /\ ~ In TPanic (fst (table_run Wrapping s ops)).
Proof.
  induction ops as [|o ops IH]; intros s K; cbn [table_run]; [split; auto|].
  destruct (do_any s o K) as [K1 N]. destruct (table_do Wrapping s o) as [x s1]. cbn [fst snd] in *.
  destruct (IH s1 K1) as [K2 N2]. destruct (table_run Wrapping s1 ops) as [l s2]. cbn [fst snd] in *.
  split; auto. intros [H|H]; auto.
Qed.

Lemma end_next s : ok s -> at_end s -> table_next Wrapping s = (Ok None, s).
Proof.
  intros K (St & Fi & En). pose proof K as []. unfold table_next. rewrite ok_cols0.
  destruct (cols_index _ ok_col0) as (c & -> & R). rewrite Fi, St. unfold main_next.
  rewrite En, Z.eqb_refl. reflexivity.
Qed.

Hypothesis Small : Forall (fun o => o < 2 ^ 62) offs.

Lemma run_ends k : forall s, ok s -> left s <= Z.of_nat k ->
  In TEnd (fst (table_run Wrapping s (repeat TNext (k + 2)))).
Proof.
  induction k as [|k IH]; intros s K L;
    (destruct (next_any s K) as (x & s' & E & K' & _ & Rw & W);
     cbn [repeat plus table_run table_do]; rewrite E; destruct x as [v|];
     [|match goal with |- context [let (_, _) := ?x in _] => destruct x end; left; reflexivity];
     destruct (W Small ltac:(discriminate)) as [En|L']).
  - cbn [table_run table_do]. rewrite (end_next s' K' En). right. left. reflexivity.
  - pose proof (left_nonneg s'). lia.
  - replace (k + 2)%nat with (S (k + 1)) by lia. cbn [repeat table_run table_do]. rewrite (end_next s' K' En).
    destruct (table_run Wrapping s' (repeat TNext (k + 1))). right. left. reflexivity.
  - specialize (IH s' K' ltac:(lia)). destruct (table_run Wrapping s' (repeat TNext (k + 2))). right. exact IH.
Qed.

Lemma left_bound s : ok s -> left s <= (len d + 1) * (len d + 2) - 1.
Proof.
  clear Offs OffR Cols Cne N1 Small. intros []. pose proof (len_nonneg d). unfold left, ahead. destruct (tb_state s); nia.
Qed.

(** ** Rows *)

Lemma row_loop_any fuel : forall s row acc, ok s -> (Z.max 0 (left s) + 2 <= Z.of_nat fuel \/ at_end s /\ (1 <= fuel)%nat) ->
  exists x s', row_loop Wrapping fuel s row acc = (Some (Ok x), s') /\ ok s'.
Proof.
  induction fuel as [|fuel IH]; intros s row acc K Fu; [lia|]. cbn [row_loop].
  destruct (tb_row s =? row); [|eexists; eexists; split; [reflexivity|auto]].
  destruct Fu as [Fu|[En _]].
  2:{ rewrite (end_next s K En). eexists; eexists; split; [reflexivity|auto]. }
  destruct (next_any s K) as (x & s' & E & K' & _ & Rw & W). rewrite E.
  destruct x as [v|]; [|eexists; eexists; split; [reflexivity|auto]].
  apply IH; auto. pose proof (left_nonneg s'). destruct (W Small ltac:(discriminate)) as [En|L']; [right; split; auto; lia|left; lia].
Qed.

Lemma row_loop_row fuel : forall s row acc l s', ok s -> tb_row s = row \/ tb_row s = row + 1 ->
  row_loop Wrapping fuel s row acc = (Some (Ok (Some l)), s') ->
  tb_row s' = row + 1 /\ (tb_row s = row -> at_end s' \/ left s' < left s) /\ (at_end s' \/ left s' <= left s).
Proof.
  induction fuel as [|fuel IH]; intros s row acc l s' K R E; cbn [row_loop] in E;
    destruct (tb_row s =? row) eqn:X; try discriminate; try (inversion E; subst; split; [lia|split; [lia|right; lia]]).
  destruct (next_any s K) as (x & s1 & E1 & K1 & _ & Rw & W). rewrite E1 in E. destruct x as [v|]; [|discriminate].
  destruct (IH s1 row (v :: acc) l s' K1 ltac:(lia) E) as (A & B & C).
  split; [exact A|].
  destruct (W Small ltac:(discriminate)) as [En|L'].
  - assert (s' = s1).
    { destruct fuel as [|fuel]; cbn [row_loop] in E; destruct (tb_row s1 =? row); try congruence.
      rewrite (end_next s1 K1 En) in E. discriminate. }
    subst. split; auto.
  - split; [intros _|]; destruct C; auto; right; lia.
Qed.

Lemma row_run_any fuel : (len d + 1) * (len d + 2) + 1 <= Z.of_nat fuel -> forall n x, ok (ri_data x) ->
  Forall (fun y => match y with RowOf _ | RowEnd => True | _ => False end) (row_run Wrapping fuel x n).
Proof.
  intros Fu n. induction n as [|n IH]; intros x K; cbn [row_run]; [constructor|]. unfold row_next.
  destruct (row_loop_any fuel (ri_data x) (ri_row x) [] K) as (y & s' & E & K').
  { left. pose proof (left_bound _ K). pose proof (len_nonneg d). nia. }
  rewrite E. destruct y as [l|]; constructor; auto.
Qed.

Lemma row_run_ends fuel : (len d + 1) * (len d + 2) + 1 <= Z.of_nat fuel -> forall k s row, ok s ->
  tb_row s = row -> left s <= Z.of_nat k -> In RowEnd (row_run Wrapping fuel (mk_row_it s row) (k + 2)).
Proof.
  intros Fu.
  assert (Stop: forall n s row, ok s -> tb_row s = row -> at_end s ->
    In RowEnd (row_run Wrapping fuel (mk_row_it s row) (S n))).
  { intros n s row K R En. cbn [row_run]. unfold row_next. cbn [ri_data ri_row]. pose proof (len_nonneg d).
    destruct fuel as [|fu]; [nia|]. cbn [row_loop]. rewrite R, Z.eqb_refl, (end_next s K En). left. reflexivity. }
  induction k as [|k IH]; intros s row K R L; cbn [plus row_run]; unfold row_next; cbn [ri_data ri_row];
    (destruct (row_loop_any fuel s row [] K) as (y & s' & E & K');
     [left; pose proof (left_bound _ K); pose proof (len_nonneg d); nia|]; rewrite E;
     destruct y as [l|]; [|left; reflexivity];
     destruct (row_loop_row fuel s row [] l s' K ltac:(auto) E) as (A & B & _); destruct (B R) as [En|L']; right).
  - exact (Stop 0%nat s' (row + 1) K' A En).
  - pose proof (left_nonneg s'). lia.
  - replace (k + 2)%nat with (S (k + 1)) by lia. apply Stop; auto.
  - apply IH; auto. lia.
Qed.
End Safe.

(** ** The tables of a file *)

Lemma wrapping_offsets l : forall acc, 0 <= acc < 2 ^ 64 -> Forall field_nonneg l -> exists offs,
  col_offsets Wrapping acc l = Ok offs /\ length offs = length l /\ Forall (fun o => 0 <= o < 2 ^ 64) offs.
Proof.
  induction l as [|f l IH]; intros acc A F; cbn [col_offsets]; [exists []; auto|]. inversion F; subst.
  assert (E: exists b, num_bytes_field Wrapping f = Ok b).
  { unfold num_bytes_field. destruct f as [e n|e|e]; cbn [num_bits_field]; try (eexists; reflexivity).
    rewrite u64_wrapping. eexists; reflexivity. }
  destruct E as (b & ->). cbn [bind]. rewrite u64_wrapping. cbn [bind].
  destruct (IH ((acc + b) mod 2 ^ 64) (mod_u64 _) ltac:(auto)) as (offs & -> & L & R). cbn [bind].
  exists (acc :: offs). split; auto. split; [simpl; lia|constructor; auto].
Qed.

Section FileSafe.
Variables (d : list Z) (t : bintable) (o : Z) (s s1 : table).
Hypothesis Found : found Wrapping d t o s.
Hypothesis Prep : prepared t s s1.
Hypothesis Wide : bt_naxis1 t <> 0.

Lemma file_ok : exists offs cols, length offs = length (bt_tforms t) /\ Forall (fun x => 0 <= x < 2 ^ 64) offs /\
  Forall (fun c => 0 <= c < len (bt_tforms t)) cols /\ cols <> [] /\ 0 < bt_naxis1 t < 2 ^ 61 /\ ok d t offs cols s1 /\
  tb_row s1 = 0 /\ (total (map field_bytes (bt_tforms t)) < 2 ^ 60 -> Forall (fun x => x < 2 ^ 62) offs).
Proof.
  destruct Found as (Oc & f & h & f' & Da & Po & Nx & Xt & Ho & Gt).
  destruct (after_next_bin Wrapping d f h f' t Oc Da Po Nx Xt) as (n & _ & _ & HO & _ & G & vs & P).
  destruct (btable_parsed Wrapping vs t P) as (Fn & LL & U1 & U2 & U3 & TH & N1). unfold u64 in *.
  rewrite G in Gt. unfold table_new in Gt.
  destruct (wrapping_offsets (bt_tforms t) 0 ltac:(lia) Fn) as (offs & E & Lo & Ro). rewrite E in Gt. cbn [bind] in Gt.
  rewrite u64_wrapping in Gt. cbn [bind] in Gt. inversion Gt as [Es]. clear Gt.
  assert (N: 0 < bt_naxis1 t < 2 ^ 61).
  { split; [lia|]. rewrite N1. apply Z.div_lt_upper_bound; [lia|]. pose proof (mod_u64 (total (map field_bits (bt_tforms t)))). lia. }
  assert (Sm: total (map field_bytes (bt_tforms t)) < 2 ^ 60 -> Forall (fun x => x < 2 ^ 62) offs).
  { intro T. assert (F': Forall (fun f => 0 <= field_bits f) (bt_tforms t))
      by (eapply Forall_impl; [|exact Fn]; intros; apply field_bits_nonneg; auto).
    rewrite (col_offsets_ok Wrapping (bt_tforms t) 0 F' ltac:(lia) ltac:(lia)) in E. inversion E.
    apply Forall_forall. intros x Hx. apply in_map_iff in Hx as (c & <- & Hc).
    pose proof (firstn_skipn c (bt_tforms t)) as Sp.
    assert (Sk: Forall (fun f => 0 <= field_bits f) (skipn c (bt_tforms t))).
    { rewrite <- Sp in F'. apply Forall_app in F'. apply F'. }
    pose proof (total_nonneg _ (all_nonneg _ Sk)).
    rewrite <- Sp, map_app, total_app in T. lia. }
  assert (Sel: exists cols, Forall (fun c => 0 <= c < len (bt_tforms t)) cols /\ cols <> [] /\ ok d t offs cols s1 /\ tb_row s1 = 0).
  { clear Sm. subst s. induction Prep as [Ne|ids i c Ids Ii Nm Rc|s' b Pr IH].
    - exists (map Z.of_nat (seq 0 (length (bt_tforms t)))). split; [|split; [|split; [|reflexivity]]].
      + apply Forall_forall. intros x Hx. apply in_map_iff in Hx as (k & <- & Hk). apply in_seq in Hk. unfold len. lia.
      + destruct (bt_tforms t); [contradiction|discriminate].
      + pose proof (mod_u64 (bt_naxis1 t * bt_naxis2 t)).
        assert (0 < length (bt_tforms t))%nat by (destruct (bt_tforms t); [contradiction|simpl; lia]).
        constructor; cbn [tb_reader tb_state tb_cols tb_offsets tb_ctx tb_col tb_item tb_off tb_main tb_start tb_first tb_row tb_heap rd_data rd_pos]; auto; try lia.
        unfold len. rewrite map_length, seq_length. lia.
    - exists (sort (flat_map (resolve t) ids)).
      assert (In c (sort (flat_map (resolve t) ids))) as Ic.
      { apply (Permutation_in _ (Permutation_sym (sort_perm _))). apply in_flat_map. exists i. split; auto.
        apply resolve_In; auto. rewrite Forall_forall in Ids. auto. }
      split; [|split; [|split; [|reflexivity]]].
      + apply Forall_forall. intros x Hx. apply (Permutation_in _ (sort_perm _)) in Hx.
        apply in_flat_map in Hx as (j & J & Cj). apply resolve_In in Cj; [tauto|auto|]. rewrite Forall_forall in Ids. auto.
      + destruct (sort (flat_map (resolve t) ids)); [contradiction|discriminate].
      + pose proof (mod_u64 (bt_naxis1 t * bt_naxis2 t)).
        assert (0 < len (sort (flat_map (resolve t) ids))).
        { destruct (sort (flat_map (resolve t) ids)); [contradiction|]. unfold len. simpl. lia. }
        constructor; unfold select_fields, set_first, set_cols; cbn [tb_reader tb_state tb_cols tb_offsets tb_ctx tb_col tb_item tb_off tb_main tb_start tb_first tb_row tb_heap rd_data rd_pos]; auto; lia.
    - destruct (IH Pr) as (cs & A & B & K & R). exists cs. destruct K. split; auto. split; auto. split; [|exact R].
      constructor; unfold read_the_heap; cbn [tb_reader tb_state tb_cols tb_offsets tb_ctx tb_col tb_item tb_off tb_main tb_start tb_first tb_row tb_heap]; auto. }
  destruct Sel as (cols & A & B & K & R). exists offs, cols. auto 10.
Qed.

Lemma table_safe ops : ~ In TPanic (fst (table_run Wrapping s1 ops)).
Proof.
  destruct file_ok as (offs & cols & Lo & Ro & Rc & Ne & N & K & _ & _).
  apply (run_any d t offs cols Lo Ro Rc Ne N ops s1 K).
Qed.

Lemma table_ends ops n : total (map field_bytes (bt_tforms t)) < 2 ^ 60 -> enough_calls (len d) <= Z.of_nat n ->
  In TEnd (fst (table_run Wrapping (snd (table_run Wrapping s1 ops)) (repeat TNext n))).
Proof.
  intros T Hn. destruct file_ok as (offs & cols & Lo & Ro & Rc & Ne & N & K & _ & Sm). specialize (Sm T).
  destruct (run_any d t offs cols Lo Ro Rc Ne N ops s1 K) as [K' _]. set (s2 := snd _) in *.
  pose proof (left_bound d t offs cols s2 K') as Lb. unfold enough_calls in Hn. pose proof (len_nonneg d).
  pose proof (run_ends d t offs cols Lo Ro Rc Ne N Sm (n - 2) s2 K') as E.
  replace (n - 2 + 2)%nat with n in E by nia. apply E. nia.
Qed.

Lemma rows_end fuel n : total (map field_bytes (bt_tforms t)) < 2 ^ 60 ->
  enough_calls (len d) <= Z.of_nat fuel ->
  Forall (fun y => match y with RowOf _ | RowEnd => True | _ => False end) (row_run Wrapping fuel (row_iter s1) n) /\
  (enough_calls (len d) <= Z.of_nat n -> In RowEnd (row_run Wrapping fuel (row_iter s1) n)).
Proof.
  intros T Hf. destruct file_ok as (offs & cols & Lo & Ro & Rc & Ne & N & K & R0 & Sm). specialize (Sm T).
  unfold enough_calls in *. split.
  - apply (row_run_any d t offs cols Lo Ro Rc Ne N Sm fuel Hf n). exact K.
  - intro Hn. pose proof (left_bound d t offs cols s1 K) as Lb. pose proof (len_nonneg d).
    pose proof (row_run_ends d t offs cols Lo Ro Rc Ne N Sm fuel Hf (n - 2) s1 0 K R0) as E.
    replace (n - 2 + 2)%nat with n in E by nia. apply E. nia.
Qed.
End FileSafe.

(** In a build without overflow checks every table that is found can be opened. *)
Lemma table_opens d f h f' t :
  octets d -> rd_data (f_reader f) = d -> 0 <= rd_pos (f_reader f) -> next Wrapping f = (IOk h, f') ->
  h_xt h = XtBin t -> exists s, get_table Wrapping f' t = Ok s.
Proof.
  intros Oc Da Po Nx Xt.
  destruct (after_next_bin Wrapping d f h f' t Oc Da Po Nx Xt) as (n & _ & _ & HO & _ & G & vs & P).
  destruct (btable_parsed Wrapping vs t P) as (Fn & _). rewrite G. unfold table_new.
  destruct (wrapping_offsets (bt_tforms t) 0 ltac:(lia) Fn) as (offs & E & _). rewrite E. cbn [bind].
  rewrite u64_wrapping. cbn [bind]. eauto.
Qed.

(** A table whose rows have no bytes. *)
Lemma no_width m d t o s n : found m d t o s -> bt_tforms t <> [] -> bt_naxis1 t = 0 ->
  fst (table_run m s (repeat TNext n)) = repeat TEnd n.
Proof.
  intros (Oc & f & h & f' & Da & Po & Nx & Xt & Ho & Gt) Ne Z0.
  destruct (after_next_bin m d f h f' t Oc Da Po Nx Xt) as (k & _ & _ & HO & _ & G & vs & P).
  rewrite G in Gt. unfold table_new in Gt. destruct (col_offsets m 0 (bt_tforms t)) as [offs| |]; try discriminate.
  cbn [bind] in Gt. rewrite Z0, Z.mul_0_l in Gt. rewrite u64_result_small in Gt by lia. cbn [bind] in Gt.
  assert (E: table_next m s = (Ok None, s)).
  { inversion Gt. unfold table_next, main_next.
    cbn [tb_reader tb_state tb_cols tb_offsets tb_ctx tb_col tb_item tb_off tb_main tb_start tb_first tb_row tb_heap].
    assert (In0: exists c, index (map Z.of_nat (seq 0 (length (bt_tforms t)))) 0 = Ok c)
      by (destruct (bt_tforms t); [contradiction|exists 0; reflexivity]).
    destruct In0 as (c & ->). reflexivity. }
  clear Gt. induction n as [|n IH]; cbn [repeat table_run table_do]; [reflexivity|]. rewrite E.
  destruct (table_run m s (repeat TNext n)). cbn [fst] in *. f_equal. exact IH.
Qed.

(** ** A table read in circles *)

(** Columns 0 and 9 are of one byte; column 9 seems to lie 15 bytes before the row. *)
Section Circle.
Variables (d : list Z) (t : bintable) (offs : list Z) (st mn : Z) (q : Z).
Hypothesis T0 : index (bt_tforms t) 0 = Ok (TElem TyB 1).
Hypothesis T9 : index (bt_tforms t) 9 = Ok (TElem TyB 1).
Hypothesis O0 : index offs 0 = Ok 0.
Hypothesis O9 : index offs 9 = Ok (2 ^ 64 - 15).
Hypothesis N1 : bt_naxis1 t = 10.
Hypothesis N2 : bt_naxis2 t = 10 ^ 18.
Hypothesis Mn : mn = 10 ^ 19.
Hypothesis Q : 20 <= q <= len d - 20.
Hypothesis Ld : len d < 2 ^ 63.

Definition at0 (row item : Z) : table := mk_table (mk_reader d q) InMain [0; 9] offs t 0 item 0 mn st false row true.
Definition at9 (row : Z) : table :=
  mk_table (mk_reader d (q - 5)) InMain [0; 9] offs t 1 0 (2 ^ 64 - 5) mn st false row true.

Lemma circle_read p : 0 <= p -> p + 1 <= len d -> exists v, read_elem TyB (mk_reader d p) = (Ok v, mk_reader d (p + 1)).
Proof.
  intros A B. cbn [read_elem]. unfold read_one, read_be, read_exact. cbn [rd_pos rd_data].
  change (byte_size BU8 =? 0) with false. cbv iota. change (byte_size BU8) with 1.
  destruct (p + 1 <=? len d) eqn:X; [|lia]. eauto.
Qed.

Lemma circle0 row : 0 <= row -> exists v, table_next Wrapping (at0 row 0) = (Ok (Some v), at9 row).
Proof.
  intro R. unfold table_next, at0.
  cbn [tb_reader tb_state tb_cols tb_offsets tb_ctx tb_col tb_item tb_off tb_main tb_start tb_first tb_row tb_heap].
  change (index [0; 9] 0) with (Ok 0). cbv beta iota. unfold main_next.
  cbn [tb_reader tb_state tb_cols tb_offsets tb_ctx tb_col tb_item tb_off tb_main tb_start tb_first tb_row tb_heap].
  destruct (0 =? mn) eqn:Z0; [lia|]. rewrite T0. unfold main_elem.
  cbn [tb_reader tb_state tb_cols tb_offsets tb_ctx tb_col tb_item tb_off tb_main tb_start tb_first tb_row tb_heap set_reader set_off set_pos].
  destruct (circle_read q ltac:(lia) ltac:(lia)) as (v & ->). change (bytes_size TyB) with 1.
  rewrite u64_wrapping. change (0 + 1 =? 1) with true. cbv iota.
  change ((0 + 1) mod 2 ^ 64) with 1. change (0 + 1) with 1. unfold seek_to_next_col. rewrite !u64_wrapping.
  cbn [tb_reader tb_state tb_cols tb_offsets tb_ctx tb_col tb_item tb_off tb_main tb_start tb_first tb_row tb_heap set_reader set_off set_pos].
  change (0 =? (len [0; 9] - 1) mod 2 ^ 64) with false. cbn [andb]. cbv iota.
  change (len [0; 9] =? 0) with false. cbv iota. change ((0 + 1) mod len [0; 9]) with 1. change (index [0; 9] 1) with (Ok 9).
  cbn [bind]. unfold next_col_off.
  cbn [tb_reader tb_state tb_cols tb_offsets tb_ctx tb_col tb_item tb_off tb_main tb_start tb_first tb_row tb_heap set_reader set_off set_pos].
  rewrite O9, N1. cbn [bind]. change (as_i64 (2 ^ 64 - 15)) with (-15).
  change (i64_rem (as_i64 1) (as_i64 10)) with (Ok 1). cbn [bind]. change (i64_result Wrapping (-15 - 1)) with (Ok (-16)). cbn [bind].
  change (-16 <? 0) with true. cbv iota. change (i64_result Wrapping (-16 + as_i64 10)) with (Ok (-6)). cbv iota.
  unfold seek_by.
  cbn [tb_reader tb_state tb_cols tb_offsets tb_ctx tb_col tb_item tb_off tb_main tb_start tb_first tb_row tb_heap set_reader set_off set_pos].
  rewrite seek_relative_ok by (cbn [rd_pos]; lia). rewrite u64_wrapping.
  cbn [finish_next tb_reader tb_state tb_cols tb_offsets tb_ctx tb_col tb_item tb_off tb_main tb_start tb_first tb_row tb_heap set_reader set_off set_pos rd_data rd_pos].
  eexists. unfold at9. replace (q + 1 + -6) with (q - 5) by lia. reflexivity.
Qed.

Lemma circle9 row : 0 <= row < 10 ^ 18 - 1 -> exists v, table_next Wrapping (at9 row) = (Ok (Some v), at0 (row + 1) 0).
Proof.
  intro R. unfold table_next, at9.
  cbn [tb_reader tb_state tb_cols tb_offsets tb_ctx tb_col tb_item tb_off tb_main tb_start tb_first tb_row tb_heap].
  change (index [0; 9] 1) with (Ok 9). cbv beta iota. unfold main_next.
  cbn [tb_reader tb_state tb_cols tb_offsets tb_ctx tb_col tb_item tb_off tb_main tb_start tb_first tb_row tb_heap].
  destruct (2 ^ 64 - 5 =? mn) eqn:Z0; [lia|]. rewrite T9. unfold main_elem.
  cbn [tb_reader tb_state tb_cols tb_offsets tb_ctx tb_col tb_item tb_off tb_main tb_start tb_first tb_row tb_heap set_reader set_off set_pos].
  destruct (circle_read (q - 5) ltac:(lia) ltac:(lia)) as (v & ->). change (bytes_size TyB) with 1.
  rewrite u64_wrapping. change (0 + 1 =? 1) with true. cbv iota.
  change ((2 ^ 64 - 5 + 1) mod 2 ^ 64) with (2 ^ 64 - 4). change (0 + 1) with 1. unfold seek_to_next_col. rewrite !u64_wrapping.
  cbn [tb_reader tb_state tb_cols tb_offsets tb_ctx tb_col tb_item tb_off tb_main tb_start tb_first tb_row tb_heap set_reader set_off set_pos].
  change (1 =? (len [0; 9] - 1) mod 2 ^ 64) with true. rewrite N2. change ((10 ^ 18 - 1) mod 2 ^ 64) with (10 ^ 18 - 1).
  destruct (row =? 10 ^ 18 - 1) eqn:X; [lia|]. cbn [andb]. cbv iota.
  change (len [0; 9] =? 0) with false. cbv iota. change ((1 + 1) mod len [0; 9]) with 0. change (index [0; 9] 0) with (Ok 0).
  cbn [bind]. unfold next_col_off.
  cbn [tb_reader tb_state tb_cols tb_offsets tb_ctx tb_col tb_item tb_off tb_main tb_start tb_first tb_row tb_heap set_reader set_off set_pos].
  rewrite O0, N1. cbn [bind]. change (as_i64 0) with 0.
  change (i64_rem (as_i64 (2 ^ 64 - 4)) (as_i64 10)) with (Ok (-4)). cbn [bind]. change (i64_result Wrapping (0 - -4)) with (Ok 4). cbn [bind].
  change (4 <? 0) with false. cbv iota.
  unfold seek_by.
  cbn [tb_reader tb_state tb_cols tb_offsets tb_ctx tb_col tb_item tb_off tb_main tb_start tb_first tb_row tb_heap set_reader set_off set_pos].
  rewrite seek_relative_ok by (cbn [rd_pos]; lia). rewrite u64_wrapping.
  cbn [finish_next tb_reader tb_state tb_cols tb_offsets tb_ctx tb_col tb_item tb_off tb_main tb_start tb_first tb_row tb_heap set_reader set_off set_pos rd_data rd_pos].
  change ((2 ^ 64 - 4 + as_usize 4) mod 2 ^ 64) with 0.
  eexists. unfold at0. replace (q - 5 + 1 + 4) with q by lia. reflexivity.
Qed.

Lemma circle k : forall row n, 0 <= row -> Z.of_nat n = Z.of_nat k -> row + Z.of_nat n < 10 ^ 18 ->
  ~ In TEnd (fst (table_run Wrapping (at0 row 0) (repeat TNext n))) /\
  ~ In TEnd (fst (table_run Wrapping (at9 row) (repeat TNext n))).
Proof.
  induction k as [|k IH]; intros row n R E L; (destruct n as [|n]; [cbn [repeat table_run fst In]; tauto|]); [lia|].
  cbn [repeat table_run table_do].
  destruct (circle0 row R) as (v & ->). destruct (circle9 row ltac:(lia)) as (w & ->).
  destruct (IH row n R ltac:(lia) ltac:(lia)) as [_ A]. destruct (IH (row + 1) n ltac:(lia) ltac:(lia) ltac:(lia)) as [B _].
  destruct (table_run Wrapping (at9 row) (repeat TNext n)). destruct (table_run Wrapping (at0 (row + 1) 0) (repeat TNext n)).
  cbn [fst In] in *. split; intros [H|H]; auto; discriminate.
Qed.
End Circle.

Lemma circle_select d t offs st mn q s : index offs 0 = Ok 0 -> 0 <= q < 2 ^ 63 ->
  s = mk_table (mk_reader d q) InMain [0; 9] offs t 0 0 0 mn st true 0 true ->
  table_next Wrapping s = table_next Wrapping (at0 d t offs st mn q 0 0).
Proof.
  intros O0 Q ->. unfold table_next, at0.
  cbn [tb_reader tb_state tb_cols tb_offsets tb_ctx tb_col tb_item tb_off tb_main tb_start tb_first tb_row tb_heap].
  change (index [0; 9] 0) with (Ok 0). cbv beta iota. rewrite O0. unfold seek_by, set_first.
  cbn [tb_reader tb_state tb_cols tb_offsets tb_ctx tb_col tb_item tb_off tb_main tb_start tb_first tb_row tb_heap].
  change (as_i64 0) with 0. rewrite seek_relative_ok by (cbn [rd_pos]; lia). rewrite u64_wrapping. cbn [rd_pos rd_data].
  rewrite Z.add_0_r. reflexivity.
Qed.

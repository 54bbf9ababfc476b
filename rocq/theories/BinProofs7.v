(** Seeks in the middle of an array. *)

From Coq Require Import Lia ZifyBool Sorted.
From Verif Require Import Base Text Card Reader Header Xtension Bytes Fits ImageIt BinTable.
From Verif Require Import SpecCard SpecHeader SpecXt SpecFits SpecImage SpecBin SpecBinSeek.
From Verif Require Import HeaderProofs BytesProofs XtProofs2 XtProofs3 ImageProofs BinProofs BinProofs2 BinProofs3.

(** ** The start of the data unit plays no part *)

Definition set_start (x : Z) (s : table) : table :=
  mk_table (tb_reader s) (tb_state s) (tb_cols s) (tb_offsets s) (tb_ctx s) (tb_col s) (tb_item s) (tb_off s)
           (tb_main s) x (tb_first s) (tb_row s) (tb_heap s).
Definition started {A} (x : Z) (y : A * table) : A * table := (fst y, set_start x (snd y)).

Lemma seek_by_start m x s off : seek_by m (set_start x s) off = started x (seek_by m s off).
Proof.
  unfold seek_by. cbn [set_start tb_reader tb_off].
  destruct (seek_relative (tb_reader s) off) as [[u|e|] r]; try reflexivity. destruct (u64_result m _); reflexivity.
Qed.
Lemma next_col_start m x s : seek_to_next_col m (set_start x s) = started x (seek_to_next_col m s).
Proof.
  unfold seek_to_next_col. cbn [set_start tb_cols tb_ctx tb_col tb_row tb_main tb_off tb_item].
  destruct (u64_result m (len (tb_cols s) - 1)) as [lc|?|]; try reflexivity.
  destruct (u64_result m (bt_naxis2 (tb_ctx s) - 1)) as [lr|?|]; try reflexivity.
  destruct ((tb_col s =? lc) && (tb_row s =? lr)).
  - destruct (i64_result m _) as [off|?|]; try reflexivity. apply (seek_by_start m x (set_pos s _ _ _)).
  - destruct (len (tb_cols s) =? 0); [reflexivity|].
    change (next_col_off m (set_pos (set_start x s) ?a ?b ?c)) with (next_col_off m (set_pos s a b c)).
    destruct (bind _ _) as [off|?|]; try reflexivity. apply (seek_by_start m x (set_pos s _ _ _)).
Qed.
Lemma finish_start x y v : finish_next (started x y) v = started x (finish_next y v).
Proof. destruct y as [[u|e|] s]; reflexivity. Qed.
Lemma heap_next_start m x s c : heap_next m (set_start x s) c = started x (heap_next m s c).
Proof.
  unfold heap_next. cbn [set_start tb_state tb_reader]. destruct (tb_state s) as [|e p rem n size] eqn:St; [reflexivity|].
  destruct (u64_result m (n - rem / size)) as [idx|?|]; try reflexivity.
  destruct (read_elem e (tb_reader s)) as [[v|?|] r]; try reflexivity.
  destruct (u64_result m (rem - bytes_size e)) as [rem'|?|]; try reflexivity.
  destruct (rem' =? 0); [|reflexivity].
  rewrite <- finish_start, <- next_col_start. reflexivity.
Qed.
Lemma jump_start m x s e o n z : jump_to_heap m (set_start x s) e o n z = started x (jump_to_heap m s e o n z).
Proof.
  unfold jump_to_heap. cbn [set_start tb_state tb_reader tb_off tb_ctx]. destruct (tb_state s); [|reflexivity].
  destruct (bind _ _) as [off|?|]; try reflexivity. destruct (seek_relative (tb_reader s) off) as [[u|?|] r]; try reflexivity.
  destruct (u64_result m (n * z)); reflexivity.
Qed.
Lemma main_next_start m x s c : main_next m (set_start x s) c = started x (main_next m s c).
Proof.
  unfold main_next. cbn [set_start tb_off tb_main tb_ctx]. destruct (tb_off s =? tb_main s); [reflexivity|].
  assert (D: forall w e, main_desc m (set_start x s) c w e = started x (main_desc m s c w e)).
  { intros w e. unfold main_desc. cbn [set_start tb_reader tb_off tb_heap].
    destruct (read_desc w (tb_reader s)) as [[[|n [|o l]]|?|] r]; try reflexivity.
    destruct (u64_result m _) as [off|?|]; try reflexivity. destruct (tb_heap s).
    - change (set_off (set_reader (set_start x s) r) off) with (set_start x (set_off (set_reader s r) off)).
      rewrite jump_start. destruct (jump_to_heap m _ _ _ _ _) as [[u|?|] s3]; cbn [started fst snd]; try reflexivity.
      apply heap_next_start.
    - rewrite <- finish_start, <- next_col_start. reflexivity. }
  destruct (index (bt_tforms (tb_ctx s)) c) as [[e n|e|e]|?|]; try reflexivity; try apply D.
  unfold main_elem. cbn [set_start tb_reader tb_off tb_item tb_row tb_col].
  destruct (read_elem e (tb_reader s)) as [[v|?|] r]; try reflexivity.
  destruct (u64_result m _) as [off|?|]; try reflexivity.
  destruct (tb_item s + 1 =? _); [|reflexivity]. rewrite <- finish_start, <- next_col_start. reflexivity.
Qed.
Lemma table_next_start m x s : table_next m (set_start x s) = started x (table_next m s).
Proof.
  unfold table_next. cbn [set_start tb_cols tb_col tb_first tb_offsets].
  destruct (index (tb_cols s) (tb_col s)) as [c|?|]; try reflexivity.
  assert (G: forall s1 : table,
    match tb_state (set_start x s1) with InMain => main_next m (set_start x s1) c | InHeap _ _ _ _ _ => heap_next m (set_start x s1) c end
    = started x (match tb_state s1 with InMain => main_next m s1 c | InHeap _ _ _ _ _ => heap_next m s1 c end)).
  { intro s1. cbn [set_start tb_state]. destruct (tb_state s1); [apply main_next_start|apply heap_next_start]. }
  destruct (tb_first s); [|apply G].
  destruct (index (tb_offsets s) c) as [o|?|]; try reflexivity.
  change (set_first (set_start x s) false) with (set_start x (set_first s false)). rewrite seek_by_start.
  destruct (seek_by m _ _) as [[u|?|] s1]; cbn [started fst snd]; try reflexivity. apply G.
Qed.
Lemma seek_row_start m x s i : seek_to_row m (set_start x s) i = started x (seek_to_row m s i).
Proof.
  unfold seek_to_row. cbn [set_start tb_ctx]. destruct (bt_naxis2 (tb_ctx s) <=? i); [reflexivity|].
  change (row_off m (set_pos (set_start x s) ?a ?b ?c) i) with (row_off m (set_pos s a b c) i).
  destruct (row_off m _ i) as [[nw off]|?|]; try reflexivity. cbn [set_pos set_start tb_reader].
  destruct (seek_relative (tb_reader s) off) as [[u|?|] r]; reflexivity.
Qed.
Lemma table_run_start m x ops : forall s, table_run m (set_start x s) ops = started x (table_run m s ops).
Proof.
  induction ops as [|op ops IH]; intro s; [reflexivity|]. cbn [table_run].
  assert (D: table_do m (set_start x s) op = started x (table_do m s op)).
  { destruct op; cbn [table_do]; [rewrite table_next_start|rewrite seek_row_start].
    - destruct (table_next m s) as [[[v|]|?|] s1]; reflexivity.
    - destruct (seek_to_row m s i) as [[u|?|] s1]; reflexivity. }
  rewrite D. destruct (table_do m s op) as [y s1]. cbn [started fst snd]. rewrite IH.
  destruct (table_run m s1 ops) as [l s2]. reflexivity.
Qed.

(** ** The walk after such a seek *)

Lemma table_run_app m ops1 ops2 : forall s,
  table_run m s (ops1 ++ ops2) =
  (fst (table_run m s ops1) ++ fst (table_run m (snd (table_run m s ops1)) ops2),
   snd (table_run m (snd (table_run m s ops1)) ops2)).
Proof.
  induction ops1 as [|op ops1 IH]; intro s; cbn [app table_run fst snd]; [destruct (table_run m s ops2); reflexivity|].
  destruct (table_do m s op) as [y s1]. rewrite IH. destruct (table_run m s1 ops1) as [l s2]. reflexivity.
Qed.

Section Stray.
Variables (m : mode) (d : list Z) (lim : Z) (t : bintable) (o o' : Z) (sel : list Z).
Hypothesis Li : lim <= len d.
Hypothesis Pr : table_present d t o.
Hypothesis Re : columns_readable d lim t o true sel.
Hypothesis So : StronglySorted Z.lt sel.
Hypothesis Two : 2 <= len sel.
Hypothesis Pr' : table_present d t o'.
Hypothesis Re' : columns_readable d lim t o' true sel.

Let n1 := bt_naxis1 t.
Let n2 := bt_naxis2 t.
Let cs := column_start (bt_tforms t).
Let c0 := col_at sel 0.

Lemma sel_ne : sel <> [].
Proof. intro E. rewrite E in Two. unfold len in Two. simpl in Two. lia. Qed.

(** From the start of a cell to the next column. *)
Lemma skip_first i :
  0 <= i < n2 ->
  seek_to_next_col m (in_cell d t o' true sel i 0 0 0) = (Ok tt, in_cell d t o' true sel i 1 0 0).
Proof.
  intro Hi. destruct (col_facts d lim t o' true sel Pr' Re' 0 ltac:(lia)) as (f & E & _ & B1 & B2 & B3 & B4).
  specialize (B1 ltac:(fold n2; lia)).
  pose proof (size_small d t o' Pr') as (S1 & S2 & S3 & S4 & S5 & S6 & S7). fold n1 n2 in S1, S3, S4, S5, S6, S7.
  pose proof (base_range t i c0 0 Hi B2 ltac:(lia) ltac:(unfold c0; lia)) as Ba. fold n1 n2 in Ba.
  assert (Nn: 1 <= n1) by (unfold n1; lia).
  assert (N64: n2 < 2 ^ 64) by nia.
  assert (L64: len sel < 2 ^ 64).
  { destruct (Z_lt_dec (len sel) (2 ^ 64)) as [|Nlt]; [assumption|exfalso].
    destruct (col_facts d lim t o' true sel Pr' Re' (len sel - 1) ltac:(lia)) as (fl & El & _).
    assert (G: forall k, 0 <= k < len sel -> k <= cs (col_at sel k)).
    { intros k K. assert (X: exists n, k = Z.of_nat n) by (exists (Z.to_nat k); lia). destruct X as (n & ->).
      induction n as [|n IHn]; [destruct (col_facts d lim t o' true sel Pr' Re' 0 ltac:(lia)) as (? & _ & _ & _ & ? & _); change (Z.of_nat 0) with 0; exact H|].
      specialize (IHn ltac:(lia)). destruct (col_facts d lim t o' true sel Pr' Re' (Z.of_nat n) ltac:(lia)) as (fn & En & _ & Bn & _).
      specialize (Bn ltac:(fold n2; lia)). destruct Pr' as (_ & _ & _ & _ & _ & F & _).
      pose proof (column_before t _ (col_at sel (Z.of_nat (S n))) _ F En (col_mono d t sel So (Z.of_nat n) (Z.of_nat (S n)) ltac:(lia) ltac:(lia))).
      unfold cs in *. lia. }
    specialize (G (len sel - 1) ltac:(lia)).
    destruct (col_facts d lim t o' true sel Pr' Re' (len sel - 1) ltac:(lia)) as (fl2 & _ & _ & _ & Bl2 & Bl3 & Bl4).
    fold n1 in Bl4. unfold cs in G. lia. }
  unfold seek_to_next_col, in_cell. cbn [at_ tb_cols tb_ctx tb_col tb_row tb_main tb_off tb_item].
  rewrite !u64_result_small by (fold n2; lia).
  destruct (0 =? len sel - 1) eqn:LC; [lia|]. cbn [andb]. destruct (len sel =? 0) eqn:L0; [lia|].
  rewrite (Z.mod_small (0 + 1)) by lia. change (0 + 1) with 1. rewrite (col_index t sel 1) by lia. cbn [bind].
  destruct (col_facts d lim t o' true sel Pr' Re' 1 ltac:(lia)) as (f1 & E1 & _ & A1 & A2 & A3 & A4).
  specialize (A1 ltac:(fold n2; lia)).
  unfold next_col_off, set_pos. cbn [at_ tb_offsets tb_off tb_ctx]. rewrite (offsets_index _ _ _ E1). cbn [bind].
  fold c0. fold cs in A2, A4, B2, B4 |- *. fold c0 in B2, B4. fold n1 in A4, B4 |- *.
  rewrite !as_i64_small by lia.
  assert (Cm: cs c0 + field_bytes f <= cs (col_at sel 1)).
  { destruct Pr' as (_ & _ & _ & _ & _ & F & _).
    pose proof (column_before t _ _ _ F E (col_mono d t sel So 0 1 ltac:(lia) ltac:(lia))) as X. exact X. }
  unfold i64_rem. destruct ((n1 =? 0) || _) eqn:Z0; [lia|]. cbn [bind].
  assert (Rm: Z.rem (base t i c0 + 0) n1 = cs c0).
  { rewrite Z.rem_mod_nonneg by lia. unfold base. fold n1. fold cs. replace (i * n1 + cs c0 + 0) with (cs c0 + i * n1) by lia.
    rewrite Z_mod_plus_full. apply Z.mod_small; lia. }
  rewrite Rm. rewrite i64_result_small by lia. cbn [bind].
  destruct (cs (col_at sel 1) - cs c0 <? 0) eqn:Neg; [lia|].
  cbn [at_ tb_reader tb_state tb_cols tb_offsets tb_ctx tb_off tb_main tb_start tb_first tb_heap].
  change (mk_table _ _ _ _ _ _ _ _ _ _ _ _ _) with (at_ d t o' true sel i 1 0 (base t i c0 + 0) (o' + (base t i c0 + 0)) InMain).
  pose proof (base_range t i (col_at sel 1) 0 Hi A2 ltac:(lia) ltac:(fold n1 cs; lia)) as Bb. fold n1 n2 in Bb.
  assert (Bx: base t i c0 + (cs (col_at sel 1) - cs c0) = base t i (col_at sel 1)) by (unfold base; fold cs; lia).
  rewrite seek_by_ok by lia. f_equal. f_equal; lia.
Qed.

(** An element of the rest of the array, from byte [q]. *)
Definition heap_at (i q : Z) (e : ety) (p' n item : Z) : table :=
  at_ d t o true sel i 0 0 (base t i c0) q (InHeap e p' ((n - item) * elem_bytes e) n (elem_bytes e)).

Lemma stray_step e p' n i q item :
  0 <= i < n2 -> p' = o' + base t i c0 -> 0 <= item < n -> n < 2 ^ 64 -> 0 <= q -> q + (n - item) * elem_bytes e <= len d ->
  exists v, slot_value d (SElem e q c0 item) v /\
    table_next m (heap_at i q e p' n item)
    = (Ok (Some v), if n =? item + 1 then set_start o (in_cell d t o' true sel i 1 0 0)
                    else heap_at i (q + elem_bytes e) e p' n (item + 1)).
Proof.
  intros Hi Ep Hit Hn Q Qd.
  pose proof (elem_bytes_pos e) as Eb. pose proof (elem_bytes_size e) as Es. pose proof Pr as (Oc & D & _).
  assert (Id: n - (n - item) * elem_bytes e / elem_bytes e = item) by (rewrite Z.div_mul by lia; lia).
  assert (Sub: (n - item) * elem_bytes e - bytes_size e = (n - (item + 1)) * elem_bytes e) by (rewrite Es; lia).
  assert (N64: n - item <= (n - item) * elem_bytes e) by (apply le_times; lia).
  destruct (read_elem_at d q e) as (v & Rd & St); auto; [nia|].
  exists (DVal e v c0 item). split; [exists v; auto|].
  unfold table_next, heap_at. cbn [at_ tb_cols tb_col tb_first]. rewrite (col_index t sel 0) by lia. cbn [tb_state].
  fold c0. unfold heap_next. cbn [at_ tb_state tb_reader]. rewrite Id.
  rewrite u64_result_small by lia. rewrite Rd. rewrite Sub, u64_result_small by nia.
  destruct (n =? item + 1) eqn:Last.
  - replace ((n - (item + 1)) * elem_bytes e) with 0 by nia. cbn [Z.eqb].
    unfold jump_to_main_table, set_reader, set_state, seek_start.
    cbn [at_ tb_reader tb_state tb_cols tb_offsets tb_ctx tb_col tb_item tb_off tb_main tb_start tb_first tb_row tb_heap rd_data].
    assert (Bs: mk_table (mk_reader d p') InMain sel (offsets_of t) t 0 0 (base t i c0) (bt_naxis1 t * bt_naxis2 t) o false i true
                = set_start o (in_cell d t o' true sel i 0 0 0)).
    { unfold in_cell, at_, set_start. cbn [tb_reader tb_state tb_cols tb_offsets tb_ctx tb_col tb_item tb_off tb_main tb_start tb_first tb_row tb_heap].
      fold c0. rewrite Ep, Z.add_0_r. reflexivity. }
    rewrite Bs, next_col_start, skip_first by auto. reflexivity.
  - destruct ((n - (item + 1)) * elem_bytes e =? 0) eqn:Z0; [nia|]. reflexivity.
Qed.

Lemma upto_step z : 1 <= z -> upto z = 0 :: map (Z.add 1) (upto (z - 1)).
Proof.
  intro Hz. unfold upto. replace (Z.to_nat z) with (S (Z.to_nat (z - 1))) by lia.
  cbn [seq map]. f_equal. rewrite <- seq_shift, !map_map. apply map_ext. intro. lia.
Qed.
Definition stray_slots (e : ety) (q k n : Z) : list slot :=
  map (fun j => SElem e (q + j * elem_bytes e) c0 (k + j)) (upto n).
Lemma stray_slots_step e q k n : 1 <= n ->
  stray_slots e q k n = SElem e q c0 k :: stray_slots e (q + elem_bytes e) (k + 1) (n - 1).
Proof.
  intro H. unfold stray_slots. rewrite upto_step by auto. cbn [map]. f_equal; [f_equal; lia|].
  rewrite map_map. apply map_ext. intro j. f_equal; lia.
Qed.

Lemma stray_walk e p' n i : 0 <= i < n2 -> p' = o' + base t i c0 -> n < 2 ^ 64 ->
  forall k q item, 0 <= item -> n = item + Z.of_nat (S k) -> 0 <= q -> q + (n - item) * elem_bytes e <= len d ->
  exists vs, Forall2 (slot_value d) (stray_slots e q item (n - item)) vs /\
    table_run m (heap_at i q e p' n item) (repeat TNext (S k))
    = (map TValue vs, set_start o (in_cell d t o' true sel i 1 0 0)).
Proof.
  intros Hi Ep Hn. induction k as [|k IH]; intros q item It En Q Qd;
    destruct (stray_step e p' n i q item Hi Ep ltac:(lia) Hn Q Qd) as (v & Sv & Nx);
    rewrite stray_slots_step by lia.
  - exists [v]. split; [replace (n - item - 1) with 0 by lia; repeat constructor; exact Sv|].
    cbn [repeat table_run table_do]. rewrite Nx. destruct (n =? item + 1) eqn:X; [reflexivity|lia].
  - destruct (n =? item + 1) eqn:X; [lia|].
    pose proof (elem_bytes_pos e) as Eb.
    destruct (IH (q + elem_bytes e) (item + 1) ltac:(lia) ltac:(lia) ltac:(lia)) as (vs & Fs & Rn); [nia|].
    exists (v :: vs). split.
    + constructor; [exact Sv|]. replace (n - item - 1) with (n - (item + 1)) by lia. exact Fs.
    + change (repeat TNext (S (S k))) with (TNext :: repeat TNext (S k)). cbn [table_run table_do]. rewrite Nx, Rn. reflexivity.
Qed.

(** The seek itself. *)
Lemma stray_seek row c f e q p' n item i :
  0 <= row < n2 -> 0 <= cs c -> cs c + field_bytes f <= n1 -> 0 <= field_bytes f -> 0 <= i < n2 ->
  0 <= q + (base t i c0 - (base t row c + field_bytes f)) < 2 ^ 64 ->
  forall ci, seek_to_row m (at_ d t o true sel row ci 0 (base t row c + field_bytes f) q
                          (InHeap e p' ((n - item) * elem_bytes e) n (elem_bytes e))) i
  = (Ok tt, heap_at i (q + (base t i c0 - (base t row c + field_bytes f))) e p' n item).
Proof.
  intros Hr C1 C2 C3 Hi Q ci. destruct (col_facts d lim t o true sel Pr Re 0 ltac:(lia)) as (f0 & E & C & B1 & B2 & B3 & B4).
  pose proof (size_small d t o Pr) as (S1 & S2 & S3 & S4 & S5 & S6 & S7). fold n1 n2 in S1, S3, S4, S5, S6, S7.
  fold c0 in B2, B4. fold cs in B2, B4. fold n1 in B4. specialize (B1 ltac:(fold n2; lia)).
  pose proof (base_range t i c0 0 Hi B2 ltac:(lia) ltac:(unfold n1 in *; fold cs; lia)) as Ba. rewrite Z.add_0_r in Ba.
  pose proof (base_range t row c (field_bytes f) Hr C1 C3 C2) as Bb.
  fold n1 n2 in Ba, Bb. unfold base in Ba. fold n1 cs in Ba.
  assert (I63: 0 <= i < 2 ^ 63 /\ 0 <= i * n1 < 2 ^ 63) by (split; nia).
  unfold seek_to_row. cbn [at_ tb_ctx]. fold n2. destruct (n2 <=? i) eqn:Big; [lia|].
  unfold row_off, set_pos. cbn [at_ tb_ctx tb_cols tb_offsets tb_off tb_reader]. fold n1.
  rewrite !as_i64_small by lia. rewrite !i64_result_small by lia. cbn [bind]. rewrite (col_index t sel 0) by lia. cbn [bind].
  rewrite (offsets_index _ _ _ E). cbn [bind]. fold c0. fold cs. rewrite !as_i64_small by lia. rewrite !i64_result_small by lia. cbn [bind].
  rewrite !i64_result_small by lia. cbn [bind].
  unfold base in Q. fold n1 cs in Q.
  rewrite seek_relative_ok by (cbn [rd_pos]; unfold base; fold n1 cs; lia). rewrite as_usize_small by lia.
  unfold set_off, set_reader. cbn [tb_reader tb_state tb_cols tb_offsets tb_ctx tb_col tb_item tb_off tb_main tb_start tb_first tb_row tb_heap rd_data rd_pos].
  unfold heap_at, at_, base. fold n1 cs. f_equal. f_equal. f_equal. lia.
Qed.
End Stray.

(** ** Where a history leads *)

Lemma walk_standing m d lim t o h sel : lim <= len d -> table_present d t o -> columns_readable d lim t o h sel ->
  StronglySorted Z.lt sel -> sel <> [] ->
  forall ops s row l row' l', inv d t o h sel s row l ->
  proper t (slots_from d t o h sel) (l ++ slots_from d t o h sel (row + 1)) ops ->
  standing t (row_of d t o h sel) row l ops = (row', l') ->
  inv d t o h sel (snd (table_run m s ops)) row' l'.
Proof.
  intros Li Pr Re So Ne. induction ops as [|op ops IH]; intros s row l row' l' I Pp St.
  - cbn [standing] in St. inversion St; subst. exact I.
  - destruct (inv_row d lim t o h sel Pr Re s row l I) as (R1 & R2 & R3).
    cbn [table_run]. destruct op as [|i]; cbn [table_do proper standing] in *.
    + pose proof (walk_step m d lim t o h sel Li Pr Re So Ne s row l I) as W. destruct l as [|x r].
      * rewrite W. destruct (table_run m s ops) as [rs s2] eqn:T. cbn [snd].
        replace s2 with (snd (table_run m s ops)) by (rewrite T; reflexivity). apply (IH s row []); auto.
        rewrite slots_from_end in * by (specialize (R3 eq_refl); lia). exact Pp.
      * destruct W as (v & s' & -> & W2 & W3).
        assert (Hr: 0 <= row < bt_naxis2 t) by (inversion I; subst; auto).
        destruct (table_run m s' ops) as [rs s2] eqn:T. cbn [snd].
        replace s2 with (snd (table_run m s' ops)) by (rewrite T; reflexivity).
        destruct W3 as [[N I']|[-> I']].
        -- destruct r as [|y r]; [contradiction|]. apply (IH s' row (y :: r)); auto.
        -- apply (IH s' (row + 1) (row_of d t o h sel (row + 1))); auto.
           cbn [app tl] in Pp. rewrite (slots_from_step d t o h sel (row + 1)) in Pp by lia. exact Pp.
    + destruct Pp as [Ui Pp]. unfold u64 in Ui. destruct (i <? bt_naxis2 t) eqn:Lt.
      * destruct Pp as [B Pp].
        destruct (walk_seek m d lim t o h sel Pr Re So Ne s row l _ i I B ltac:(lia)) as (s' & -> & S2).
        destruct (table_run m s' ops) as [rs s2] eqn:T. cbn [snd].
        replace s2 with (snd (table_run m s' ops)) by (rewrite T; reflexivity).
        assert (Er: row_of d t o h sel i = slots_at d t o h sel i 0) by (unfold row_of; rewrite Lt; reflexivity).
        rewrite slots_from_step in Pp by lia. rewrite Er in Pp, St. apply (IH s' i (slots_at d t o h sel i 0)); auto.
      * rewrite (seek_error m t s i (inv_ctx d t o h sel s row l I)) by lia.
        destruct (table_run m s ops) as [rs s2] eqn:T. cbn [snd].
        replace s2 with (snd (table_run m s ops)) by (rewrite T; reflexivity). apply (IH s row l); auto.
Qed.

(** In the middle of an array. *)
Lemma inv_array d lim t o sel s row e p c k left w :
  table_present d t o -> columns_readable d lim t o true sel ->
  inv d t o true sel s row (SElem e p c k :: left) ->
  format t c = Some w -> (match w with TElem _ _ => False | _ => True end) -> 1 <= k ->
  exists ci n p0, 0 <= row < bt_naxis2 t /\ 0 <= ci < len sel /\ c = col_at sel ci /\ 1 <= k < n /\ n < 2 ^ 64 /\
    cell d t o true row c = elems e n p0 c /\ p = p0 + k * elem_bytes e /\ 0 <= p0 /\
    s = at_ d t o true sel row ci 0 (base t row c + field_bytes w) p
          (InHeap e (o + (base t row c + field_bytes w)) ((n - k) * elem_bytes e) n (elem_bytes e)).
Proof.
  intros Pr Re I Fm Ar Hk. remember (SElem e p c k :: left) as l eqn:El.
  destruct I as [ci item Hc | row ci e' n item Hr Hc E Hi | row ci f e' Hr Hc E De | row ci f e' n item p0 Hr Hc E De Hh En Hi Ep].
  - discriminate.
  - rewrite (cell_elems d t o true sel row ci e' n E), skipn_elems in El by auto. inversion El; subst. rewrite E in Fm. inversion Fm; subst. contradiction.
  - exfalso. rewrite (cell_is d t o true row _ f E) in El.
    destruct (col_facts d lim t o true sel Pr Re ci Hc) as (f' & E' & C & _). rewrite E in E'. inversion E'; subst f'.
    specialize (C row Hr).
    assert (G: forall n q, 1 <= n -> elems e' n q (col_at sel ci) ++ slots_at d t o true sel row (ci + 1) = SElem e p c k :: left -> False).
    { intros n q Hn X. pose proof (skipn_elems e' n q (col_at sel ci) 0 ltac:(lia)) as Y. change (skipn (Z.to_nat 0) ?a) with a in Y.
      rewrite Y in X. inversion X; subst. lia. }
    destruct f as [? ?|e2|e2]; cbn [desc_type] in De; inversion De; subst e2; cbn [cell_slots cell_readable] in *;
      destruct (C eq_refl) as (_ & Hn & _); eapply G; eauto.
  - destruct (array_bounds d lim t o true sel Pr Re f e' row ci Hr Hc E De) as (P0 & P1 & W & N & Of & _ & Ap).
    destruct (Ap eq_refl) as (A1 & A2 & A3).
    assert (Cell: cell d t o true row (col_at sel ci) = elems e' n p0 (col_at sel ci)).
    { rewrite (cell_is d t o true row _ f E). destruct f as [? ?|e2|e2]; cbn [desc_type] in De; inversion De; subst e2;
        cbn [cell_slots]; rewrite En, Ep; reflexivity. }
    rewrite Cell, skipn_elems in El by lia. inversion El; subst e' p c item left. rewrite E in Fm. inversion Fm; subst w.
    exists ci, n, p0. destruct Pr as (_ & _ & O & _ & Th & _).
    split; [exact Hr|]. split; [exact Hc|]. split; [reflexivity|]. split; [lia|]. split; [rewrite En; lia|].
    split; [exact Cell|]. split; [reflexivity|]. split; [rewrite Ep; lia|]. reflexivity.
Qed.

Lemma elems_left e n p c k : 0 <= k <= n -> len (skipn (Z.to_nat k) (elems e n p c)) = n - k.
Proof. intro H. unfold len, elems, upto. rewrite skipn_length, !map_length, seq_length. lia. Qed.

Section FileSeek.
Variables (m : mode) (d : list Z) (f : fits) (h : hdu) (f' : fits) (t : bintable).
Hypothesis Oc : octets d.
Hypothesis Da : rd_data (f_reader f) = d.
Hypothesis Po : 0 <= rd_pos (f_reader f).
Hypothesis Nx : next m f = (IOk h, f').
Hypothesis Xt : h_xt h = XtBin t.
Hypothesis Ti : table_inside d t (h_offset h).

Lemma table_seek_in_array lim :
  lim <= len d -> columns_readable d lim t (h_offset h) true (all_columns t) -> 2 <= len (bt_tforms t) ->
  exists s, get_table m f' t = Ok s /\ forall before row e p c k left w i,
    let o := h_offset h in
    let from := slots_from d t o true (all_columns t) in
    proper t from (from 0) before ->
    standing t (table_row d t o) 0 (table_row d t o 0) before = (row, SElem e p c k :: left) ->
    format t c = Some w -> (match w with TElem _ _ => False | _ => True end) -> 1 <= k -> 0 <= i < bt_naxis2 t ->
    let n := len (skipn (Z.to_nat k) (cell d t o true row c)) in
    let x := drift t row c w i in
    0 <= p - x -> p - x + n * elem_bytes e <= len d ->
    0 <= o + x -> o + x + bt_naxis1 t * bt_naxis2 t <= len d ->
    columns_readable d lim t (o + x) true (all_columns t) ->
    exists values, Forall2 (slot_value d) (astray e (p - x) k n) values /\
      forall ops,
        let from' := slots_from d t (o + x) true (all_columns t) in
        let cur' := flat_map (cell d t (o + x) true i) (tl (all_columns t)) ++ from' (i + 1) in
        proper t from' cur' ops ->
        exists results, history d t from' cur' ops results /\
          fst (table_run m s (before ++ TSeek i :: repeat TNext (Z.to_nat n) ++ ops))
          = fst (table_run m s before) ++ TDone :: map TValue values ++ results.
Proof.
  intros Li Re Two. set (o := h_offset h) in *. exists (fresh d t o).
  pose proof (file_present m d f h f' t Oc Da Po Nx Xt Ti) as Pr. fold o in Pr.
  split; [apply (file_table m d f h f' t Oc Da Po Nx Xt Ti)|].
  intros before row e p c k left w i o2 from Pp St Fm Ar Hk Hi n x Q1 Q2 O1 O2 Re'. subst o2.
  assert (Ne: bt_tforms t <> []) by (intro E; rewrite E in Two; unfold len in Two; simpl in Two; lia).
  pose proof (columns_ne t Ne) as Nc.
  assert (Ls: len (all_columns t) = len (bt_tforms t)).
  { unfold all_columns, upto, len. rewrite map_length, seq_length. lia. }
  pose proof (fresh_inv d lim t o true Pr Re Ne) as I. rewrite read_the_heap_true in I.
  assert (Es: from 0 = row_of d t o true (all_columns t) 0 ++ from (0 + 1)).
  { apply (slots_from_step d t o true (all_columns t) 0). destruct Pr as (_ & _ & _ & N2 & _). lia. }
  rewrite Es in Pp.
  assert (Pr': table_present d t (o + x)).
  { destruct Pr as (X1 & X2 & X3 & X4 & X5 & X6 & X7 & X8 & X9). repeat (split; [assumption|]). assumption. }
  pose proof (walk_standing m d lim t o true (all_columns t) Li Pr Re (upto_sorted _) Nc before _ _ _ row _ I Pp St) as I2.
  destruct (inv_array d lim t o (all_columns t) _ row e p c k left w Pr Re I2 Fm Ar Hk)
    as (ci & N & p0 & Hr & Hc & Ec & HkN & HN & Cell & Ep & P0 & Sb).
  assert (En: n = N - k) by (unfold n; rewrite Cell; apply elems_left; lia).
  assert (C0: col_at (all_columns t) 0 = 0) by apply col_at_zero.
  assert (B0: base t i 0 = i * bt_naxis1 t) by (unfold base; change (column_start (bt_tforms t) 0) with 0; lia).
  assert (Ex: x = base t row c + field_bytes w - base t i 0) by (unfold x, drift, base at 1; rewrite B0; lia).
  destruct (col_facts d lim t o true (all_columns t) Pr Re ci Hc) as (w' & E' & _ & B1 & B2 & B3 & B4).
  rewrite <- Ec in E', B2, B4. rewrite Fm in E'. inversion E'; subst w'.
  pose proof (elem_bytes_pos e) as Eb.
  assert (D63: len d < 2 ^ 63) by apply Pr.
  assert (Nn: 0 <= n * elem_bytes e) by (rewrite En; nia).
  pose proof (stray_seek m d lim t o (all_columns t) Pr Re ltac:(lia) row c w e p (o + (base t row c + field_bytes w)) N k i
                Hr B2 B4 B3 Hi) as Sk.
  rewrite C0 in Sk. specialize (Sk ltac:(lia) ci).
  destruct (stray_walk m d lim t o (o + x) (all_columns t) Pr (upto_sorted _) ltac:(lia) Pr' Re' e
              (o + (base t row c + field_bytes w)) N i Hi ltac:(rewrite C0; lia) HN (Z.to_nat (n - 1)) (p - x) k
              ltac:(lia) ltac:(lia) Q1 ltac:(rewrite <- En; exact Q2)) as (vs & Fv & Rn).
  exists vs. split.
  - unfold astray. unfold stray_slots in Fv. rewrite C0, <- En in Fv. exact Fv.
  - intros ops from' cur' Pp'.
    replace (S (Z.to_nat (n - 1))) with (Z.to_nat n) in Rn by lia.
    assert (Sk': seek_to_row m (snd (table_run m (fresh d t o) before)) i
                 = (Ok tt, heap_at d t o (all_columns t) i (p - x) e (o + (base t row c + field_bytes w)) N k)).
    { rewrite Sb, Sk. f_equal. f_equal. lia. }
    exists (fst (table_run m (set_start o (in_cell d t (o + x) true (all_columns t) i 1 0 0)) ops)).
    assert (Cu: cur' = slots_at d t (o + x) true (all_columns t) i 1 ++ from' (i + 1)).
    { unfold cur', slots_at. reflexivity. }
    split.
    + rewrite table_run_start. cbn [started fst]. rewrite Cu. rewrite Cu in Pp'.
      apply (walk_history m d lim t (o + x) true (all_columns t) Li Pr' Re' (upto_sorted _) Nc ops _ i
               (slots_at d t (o + x) true (all_columns t) i 1)); auto.
      apply (start_inv d lim t (o + x) true (all_columns t) Pr' Re' i 1 Hi ltac:(lia)).
    + rewrite table_run_app. cbn [fst]. f_equal. change (TSeek i :: ?l) with ([TSeek i] ++ l).
      rewrite (table_run_app m [TSeek i]). cbn [table_run table_do]. rewrite Sk'. cbn [fst snd app]. f_equal.
      rewrite table_run_app, Rn. reflexivity.
Qed.
End FileSeek.

(** ** The rows of a table in use *)

Lemma row_loop_fuel m row : forall f1 f2 sx a r1 r2, (f1 <= f2)%nat ->
  row_loop m f1 sx row a = (Some r1, r2) -> row_loop m f2 sx row a = (Some r1, r2).
Proof.
  induction f1 as [|f1 IH]; intros f2 sx a r1 r2 L E.
  - cbn [row_loop] in E. destruct f2; cbn [row_loop]; destruct (tb_row sx =? row); try discriminate; exact E.
  - destruct f2 as [|f2]; [lia|]. cbn [row_loop] in *. destruct (tb_row sx =? row); [|exact E].
    destruct (table_next m sx) as [[[v|]| |] s']; try exact E. apply IH; [lia|exact E].
Qed.

(** Rows before the one the table stands at are empty. *)
Lemma rows_behind m fuel s tail : forall k row,
  tb_row s = row + Z.of_nat k ->
  (forall n, row_run m fuel (mk_row_it s (row + Z.of_nat k)) n = firstn n (tail ++ repeat RowEnd n)) ->
  forall n, row_run m fuel (mk_row_it s row) n = firstn n (repeat (RowOf []) k ++ tail ++ repeat RowEnd n).
Proof.
  induction k as [|k IH]; intros row E H n.
  - specialize (H n). replace (row + Z.of_nat 0) with row in H by lia. exact H.
  - destruct n as [|n]; [reflexivity|]. cbn [row_run repeat app firstn]. unfold row_next. cbn [ri_data ri_row].
    assert (L: row_loop m fuel s row [] = (Some (Ok (Some [])), s)).
    { destruct fuel; cbn [row_loop]; destruct (tb_row s =? row) eqn:X; try lia; reflexivity. }
    rewrite L. cbv iota. rewrite (IH (row + 1)); [|lia|].
    + apply (f_equal (cons _)). change (RowEnd :: repeat RowEnd n) with (repeat RowEnd (S n)).
      rewrite !app_assoc. apply (firstn_more (tb_ctx s)).
    + intro n'. replace (row + 1 + Z.of_nat k) with (row + Z.of_nat (S k)) by lia. apply H.
Qed.

Section FileRows.
Variables (m : mode) (d : list Z) (f : fits) (h : hdu) (f' : fits) (t : bintable).
Hypothesis Oc : octets d.
Hypothesis Da : rd_data (f_reader f) = d.
Hypothesis Po : 0 <= rd_pos (f_reader f).
Hypothesis Nx : next m f = (IOk h, f').
Hypothesis Xt : h_xt h = XtBin t.
Hypothesis Ti : table_inside d t (h_offset h).

Lemma table_rows_in_use lim :
  lim <= len d -> columns_readable d lim t (h_offset h) true (all_columns t) -> bt_tforms t <> [] ->
  exists s, get_table m f' t = Ok s /\ forall before r l,
    let o := h_offset h in
    let from := slots_from d t o true (all_columns t) in
    proper t from (from 0) before ->
    standing t (table_row d t o) 0 (table_row d t o 0) before = (r, l) ->
    exists first rows, Forall2 (slot_value d) l first /\
      Forall2 (fun i cells => Forall2 (slot_value d) (row_slots d t o true (all_columns t) i) cells) (rows_from t (r + 1)) rows /\
      forall fuel n, (1 <= fuel)%nat -> (length l <= fuel)%nat ->
        (forall i, In i (rows_from t (r + 1)) -> (length (row_slots d t o true (all_columns t) i) <= fuel)%nat) ->
        row_run m fuel (row_iter (snd (table_run m s before))) n
        = firstn n (repeat (RowOf []) (Z.to_nat r) ++ (if r <? bt_naxis2 t then RowOf first :: map RowOf rows else []) ++ repeat RowEnd n).
Proof.
  intros Li Re Ne. set (o := h_offset h) in *. exists (fresh d t o).
  pose proof (file_present m d f h f' t Oc Da Po Nx Xt Ti) as Pr. fold o in Pr.
  split; [apply (file_table m d f h f' t Oc Da Po Nx Xt Ti)|].
  intros before r l o2 from Pp St. subst o2. pose proof (columns_ne t Ne) as Nc.
  pose proof (fresh_inv d lim t o true Pr Re Ne) as I. rewrite read_the_heap_true in I.
  assert (Es: from 0 = row_of d t o true (all_columns t) 0 ++ from (0 + 1)).
  { apply (slots_from_step d t o true (all_columns t) 0). destruct Pr as (_ & _ & _ & N2 & _). lia. }
  rewrite Es in Pp.
  pose proof (walk_standing m d lim t o true (all_columns t) Li Pr Re (upto_sorted _) Nc before _ _ _ r l I Pp St) as I2.
  set (s := snd (table_run m (fresh d t o) before)) in *.
  destruct (inv_row d lim t o true (all_columns t) Pr Re s r l I2) as (R1 & R2 & R3).
  unfold row_iter.
  destruct l as [|x l].
  - specialize (R3 eq_refl). exists [], []. rewrite rows_from_end by lia.
    split; [constructor|]. split; [constructor|]. intros fuel n F _ _.
    destruct (r <? bt_naxis2 t) eqn:X; [lia|]. apply rows_behind; [lia|].
    intro n'. cbn [app]. replace (0 + Z.of_nat (Z.to_nat r)) with r by lia.
    pose proof (walk_step m d lim t o true (all_columns t) Li Pr Re (upto_sorted _) Nc s r [] I2) as W.
    rewrite firstn_all2 by (rewrite repeat_length; lia).
    induction n' as [|n' IHn]; [reflexivity|]. cbn [row_run repeat]. unfold row_next. cbn [ri_data ri_row].
    destruct fuel as [|fuel]; [lia|]. cbn [row_loop]. rewrite R1, Z.eqb_refl, W. cbv iota. rewrite IHn. reflexivity.
  - assert (Hr: 0 <= r < bt_naxis2 t) by (inversion I2; subst; auto).
    destruct (r <? bt_naxis2 t) eqn:X; [|lia].
    destruct (walk_row m d lim t o true (all_columns t) Li Pr Re (upto_sorted _) Nc (length (x :: l)) s r _ [] I2 ltac:(discriminate) ltac:(lia))
      as (cells & s' & E & F & I').
    destruct (walk_rows m d lim t o true (all_columns t) Li Pr Re (upto_sorted _) Nc _ s' (r + 1) I' eq_refl) as (rows & FR & RR).
    exists cells, rows. split; [exact F|]. split; [exact FR|]. intros fuel n F1 F2 F3.
    apply (rows_behind m fuel s (RowOf cells :: map RowOf rows)); [lia|].
    intro n'. replace (0 + Z.of_nat (Z.to_nat r)) with r by lia.
    destruct n' as [|n']; [reflexivity|]. cbn [row_run]. unfold row_next. cbn [ri_data ri_row].
    rewrite (row_loop_fuel m r _ fuel _ _ _ _ F2 E). cbn [rev app firstn]. f_equal.
    rewrite (RR fuel n' F1 F3). apply (firstn_more t).
Qed.
End FileRows.

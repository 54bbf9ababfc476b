(** Tables cut off by the end of the file: the reader of the cut file does what the reader of the
    whole file does, until a value is missing. *)

From Coq Require Import Lia ZifyBool Sorted.
From Verif Require Import Base Text Card Reader Header Xtension Bytes Fits ImageIt BinTable.
From Verif Require Import SpecCard SpecHeader SpecXt SpecFits SpecImage SpecBin SpecBinCut.
From Verif Require Import BytesProofs ImageProofs XtProofs2 XtProofs3 BinProofs BinProofs2 BinProofs3.

Ltac fields := cbn [tb_reader tb_state tb_cols tb_offsets tb_ctx tb_col tb_item tb_off tb_main tb_start
  tb_first tb_row tb_heap set_reader set_state set_cols set_pos set_off set_first rd_data rd_pos].
Ltac fields_in H := cbn [tb_reader tb_state tb_cols tb_offsets tb_ctx tb_col tb_item tb_off tb_main tb_start
  tb_first tb_row tb_heap set_reader set_state set_cols set_pos set_off set_first rd_data rd_pos] in H.

Section Shorten.
Variables (m : mode) (d x : list Z).
Let full := d ++ x.

Lemma len_full : len full = len d + len x /\ 0 <= len d /\ 0 <= len x.
Proof. unfold full. rewrite len_app. split; auto. split; apply len_nonneg. Qed.

(** The same state over the cut file, and the state after a failed read. *)
Definition shorten (s : table) : table := set_reader s (mk_reader d (rd_pos (tb_reader s))).
Definition at_eof (s : table) : table := set_reader s (mk_reader d (len d)).

Lemma shorten_cols s : tb_cols (shorten s) = tb_cols s. Proof. reflexivity. Qed.
Lemma shorten_ctx s : tb_ctx (shorten s) = tb_ctx s. Proof. reflexivity. Qed.
Lemma shorten_col s : tb_col (shorten s) = tb_col s. Proof. reflexivity. Qed.
Lemma shorten_row s : tb_row (shorten s) = tb_row s. Proof. reflexivity. Qed.
Lemma shorten_state s : tb_state (shorten s) = tb_state s. Proof. reflexivity. Qed.
Lemma eof_state s : tb_state (at_eof s) = tb_state s. Proof. reflexivity. Qed.

Lemma read_be_cut b p : 0 <= p ->
  (p + byte_size b <= len d -> exists v, read_be b (mk_reader full p) = (Ok v, mk_reader full (p + byte_size b)) /\
                                       read_be b (mk_reader d p) = (Ok v, mk_reader d (p + byte_size b))) /\
  (len d < p + byte_size b -> read_be b (mk_reader d p) = (Err EEof, mk_reader d (len d))).
Proof.
  intro P. pose proof len_full. assert (B: 1 <= byte_size b) by (destruct b; vm_compute; discriminate).
  unfold read_be, read_exact. cbn [rd_pos rd_data]. destruct (byte_size b =? 0) eqn:Z0; [lia|]. split; intro R.
  - destruct (p + byte_size b <=? len d) eqn:X; [|lia]. destruct (p + byte_size b <=? len full) eqn:Y; [|lia].
    unfold full. rewrite slice_app_l by lia. eauto.
  - destruct (p + byte_size b <=? len d) eqn:X; [lia|]. reflexivity.
Qed.

Lemma read_pair_cut b p : 0 <= p ->
  (p + 2 * byte_size b <= len d -> exists v w, read_pair b (mk_reader full p) = (Ok [v; w], mk_reader full (p + 2 * byte_size b)) /\
                                       read_pair b (mk_reader d p) = (Ok [v; w], mk_reader d (p + 2 * byte_size b))) /\
  (len d < p + 2 * byte_size b -> read_pair b (mk_reader d p) = (Err EEof, mk_reader d (len d))).
Proof.
  intro P. assert (B: 1 <= byte_size b) by (destruct b; vm_compute; discriminate).
  destruct (read_be_cut b p P) as [A1 A2]. destruct (read_be_cut b (p + byte_size b) ltac:(lia)) as [B1 B2].
  unfold read_pair. split; intro R.
  - destruct (A1 ltac:(lia)) as (v & -> & ->). destruct (B1 ltac:(lia)) as (w & -> & ->). exists v, w.
    replace (p + 2 * byte_size b) with (p + byte_size b + byte_size b) by lia. auto.
  - destruct (Z_le_gt_dec (p + byte_size b) (len d)).
    + destruct (A1 ltac:(lia)) as (v & _ & ->). rewrite (B2 ltac:(lia)). reflexivity.
    + rewrite (A2 ltac:(lia)). reflexivity.
Qed.

Lemma read_elem_cut e p : 0 <= p ->
  (p + elem_bytes e <= len d -> exists v, read_elem e (mk_reader full p) = (Ok v, mk_reader full (p + elem_bytes e)) /\
                                       read_elem e (mk_reader d p) = (Ok v, mk_reader d (p + elem_bytes e))) /\
  (len d < p + elem_bytes e -> exists er, read_elem e (mk_reader d p) = (Err er, mk_reader d (len d))).
Proof.
  intro P.
  assert (One: forall b f, elem_bytes e = byte_size b ->
    (p + elem_bytes e <= len d -> exists v, read_one b f (mk_reader full p) = (Ok v, mk_reader full (p + elem_bytes e)) /\
                                       read_one b f (mk_reader d p) = (Ok v, mk_reader d (p + elem_bytes e))) /\
    (len d < p + elem_bytes e -> exists er, read_one b f (mk_reader d p) = (Err er, mk_reader d (len d)))).
  { intros b f ->. unfold read_one. destruct (read_be_cut b p P) as [A1 A2]. split; intro R.
    - destruct (A1 R) as (v & -> & ->). eauto.
    - rewrite (A2 R). eauto. }
  assert (Two: forall b, elem_bytes e = 2 * byte_size b ->
    (p + elem_bytes e <= len d -> exists v, read_pair b (mk_reader full p) = (Ok v, mk_reader full (p + elem_bytes e)) /\
                                       read_pair b (mk_reader d p) = (Ok v, mk_reader d (p + elem_bytes e))) /\
    (len d < p + elem_bytes e -> exists er, read_pair b (mk_reader d p) = (Err er, mk_reader d (len d)))).
  { intros b ->. destruct (read_pair_cut b p P) as [A1 A2]. split; intro R.
    - destruct (A1 R) as (v & w & -> & ->). eauto.
    - rewrite (A2 R). eauto. }
  unfold read_elem. destruct e; (apply One || apply Two); reflexivity.
Qed.

Lemma seek_by_cut s off y s' : seek_by m s off = (y, s') -> y <> Panic -> seek_by m (shorten s) off = (y, shorten s').
Proof.
  unfold seek_by, seek_relative, shorten. fields. destruct ((0 <=? _) && _).
  - destruct (u64_result m (tb_off s + as_usize off)); intros E N; inversion E; subst; fields; auto.
  - intros E N. inversion E; subst. reflexivity.
Qed.

Lemma next_col_off_cut s c : next_col_off m (shorten s) c = next_col_off m s c.
Proof. reflexivity. Qed.

Lemma set_pos_cut s a b c : set_pos (shorten s) a b c = shorten (set_pos s a b c).
Proof. reflexivity. Qed.

Lemma seek_next_cut s s' : seek_to_next_col m s = (Ok tt, s') -> seek_to_next_col m (shorten s) = (Ok tt, shorten s').
Proof.
  unfold seek_to_next_col. rewrite !shorten_cols, !shorten_ctx, !shorten_col, !shorten_row.
  change (tb_main (shorten s)) with (tb_main s). change (tb_off (shorten s)) with (tb_off s).
  destruct (u64_result m (len (tb_cols s) - 1)) as [lc| |]; try discriminate.
  destruct (u64_result m (bt_naxis2 (tb_ctx s) - 1)) as [lr| |]; try discriminate.
  destruct ((tb_col s =? lc) && (tb_row s =? lr)).
  - destruct (i64_result m _) as [off| |]; try discriminate. intro E.
    exact (seek_by_cut _ _ _ _ E ltac:(discriminate)).
  - destruct (len (tb_cols s) =? 0); try discriminate.
    destruct (index (tb_cols s) _) as [c| |]; try discriminate. cbn [bind]. rewrite set_pos_cut, next_col_off_cut.
    destruct (next_col_off m _ c) as [off| |]; try discriminate.
    intro E. exact (seek_by_cut _ _ _ _ E ltac:(discriminate)).
Qed.

Lemma finish_cut s v s' : finish_next (seek_to_next_col m s) v = (Ok (Some v), s') ->
  finish_next (seek_to_next_col m (shorten s)) v = (Ok (Some v), shorten s').
Proof.
  destruct (seek_to_next_col m s) as [[[]| |] s1] eqn:E; cbn [finish_next]; intro H; inversion H; subst.
  rewrite (seek_next_cut _ _ E). reflexivity.
Qed.

(** A value of the heap. *)
Lemma heap_cut s c e p rem n size v s' : rd_data (tb_reader s) = full -> 0 <= rd_pos (tb_reader s) ->
  tb_state s = InHeap e p rem n size -> heap_next m s c = (Ok (Some v), s') ->
  (rd_pos (tb_reader s) + elem_bytes e <= len d -> heap_next m (shorten s) c = (Ok (Some v), shorten s')) /\
  (len d < rd_pos (tb_reader s) + elem_bytes e ->
     heap_next m (shorten s) c = (Ok None, at_eof s) /\ heap_next m (at_eof s) c = (Ok None, at_eof s)).
Proof.
  intros D P St. unfold heap_next. rewrite shorten_state, eof_state, St.
  destruct (tb_reader s) as [rd pos] eqn:Er. cbn [rd_data rd_pos] in *. subst rd.
  destruct (u64_result m (n - rem / size)) as [idx| |]; try discriminate.
  change (tb_reader (shorten s)) with (mk_reader d (rd_pos (tb_reader s))). rewrite Er. cbn [rd_pos].
  change (tb_reader (at_eof s)) with (mk_reader d (len d)).
  pose proof (elem_bytes_pos e) as Eb. destruct (read_elem_cut e pos P) as [A B].
  intro H. split; intro R.
  - destruct (A R) as (w & E1 & E2). rewrite E1 in H. rewrite E2.
    destruct (u64_result m (rem - bytes_size e)) as [rem'| |]; try discriminate.
    destruct (rem' =? 0); [|inversion H; subst; reflexivity].
    assert (V: v = DVal e w c idx).
    { destruct (seek_to_next_col m _) as [[[]| |] s1]; cbn [finish_next] in H; congruence. }
    subst v. exact (finish_cut _ _ _ H).
  - destruct (B R) as (er & ->). split; [reflexivity|].
    destruct (read_elem_cut e (len d) (len_nonneg d)) as [_ B']. destruct (B' ltac:(lia)) as (er' & ->). reflexivity.
Qed.

(** An element of the main table. *)
Lemma elem_cut s c e last v s' : rd_data (tb_reader s) = full -> 0 <= rd_pos (tb_reader s) ->
  main_elem m s c e last = (Ok (Some v), s') ->
  (rd_pos (tb_reader s) + elem_bytes e <= len d -> main_elem m (shorten s) c e last = (Ok (Some v), shorten s')) /\
  (len d < rd_pos (tb_reader s) + elem_bytes e ->
     main_elem m (shorten s) c e last = (Ok None, at_eof s) /\ main_elem m (at_eof s) c e last = (Ok None, at_eof s)).
Proof.
  intros D P. unfold main_elem.
  destruct (tb_reader s) as [rd pos] eqn:Er. cbn [rd_data rd_pos] in *. subst rd.
  change (tb_reader (shorten s)) with (mk_reader d (rd_pos (tb_reader s))). rewrite Er. cbn [rd_pos].
  change (tb_reader (at_eof s)) with (mk_reader d (len d)). change (tb_off (shorten s)) with (tb_off s).
  change (tb_item (shorten s)) with (tb_item s). rewrite shorten_row, shorten_col.
  pose proof (elem_bytes_pos e) as Eb. destruct (read_elem_cut e pos P) as [A B].
  intro H. split; intro R.
  - destruct (A R) as (w & E1 & E2). rewrite E1 in H. rewrite E2.
    destruct (u64_result m (tb_off s + bytes_size e)) as [o| |]; try discriminate.
    destruct (tb_item s + 1 =? last); [|inversion H; subst; reflexivity].
    assert (V: v = DVal e w c (tb_item s)).
    { destruct (seek_to_next_col m _) as [[[]| |] s1]; cbn [finish_next] in H; congruence. }
    subst v. exact (finish_cut _ _ _ H).
  - destruct (B R) as (er & ->). split; [reflexivity|].
    destruct (read_elem_cut e (len d) (len_nonneg d)) as [_ B']. destruct (B' ltac:(lia)) as (er' & ->). reflexivity.
Qed.

(** A descriptor. *)
Definition dwidth (wide : bool) : Z := if wide then 16 else 8.
Lemma desc_cut s c wide e v s' : rd_data (tb_reader s) = full -> 0 <= rd_pos (tb_reader s) -> tb_state s = InMain ->
  main_desc m s c wide e = (Ok (Some v), s') ->
  (len d < rd_pos (tb_reader s) + dwidth wide ->
     main_desc m (shorten s) c wide e = (Ok None, at_eof s) /\ main_desc m (at_eof s) c wide e = (Ok None, at_eof s)) /\
  (rd_pos (tb_reader s) + dwidth wide <= len d -> tb_heap s = false ->
     main_desc m (shorten s) c wide e = (Ok (Some v), shorten s')) /\
  (rd_pos (tb_reader s) + dwidth wide <= len d -> tb_heap s = true ->
     exists n o off s3,
       read_desc wide (tb_reader s) = (Ok [n; o], mk_reader full (rd_pos (tb_reader s) + dwidth wide)) /\
       u64_result m (tb_off s + dwidth wide) = Ok off /\
       jump_to_heap m (set_off (set_reader s (mk_reader full (rd_pos (tb_reader s) + dwidth wide))) off) e o n (bytes_size e) = (Ok tt, s3) /\
       0 <= rd_pos (tb_reader s3) /\ tb_first s3 = tb_first s /\ tb_cols s3 = tb_cols s /\ tb_col s3 = tb_col s /\
       tb_row s3 = tb_row s /\
       (rd_pos (tb_reader s3) + elem_bytes e <= len d -> main_desc m (shorten s) c wide e = (Ok (Some v), shorten s')) /\
       (len d < rd_pos (tb_reader s3) + elem_bytes e ->
          main_desc m (shorten s) c wide e = (Ok None, at_eof s3) /\ heap_next m (at_eof s3) c = (Ok None, at_eof s3) /\
          tb_state s3 <> InMain)).
Proof.
  intros D P St. unfold main_desc, read_desc.
  destruct (tb_reader s) as [rd pos] eqn:Er. cbn [rd_data rd_pos] in *. subst rd.
  change (tb_reader (shorten s)) with (mk_reader d (rd_pos (tb_reader s))). rewrite Er. cbn [rd_pos].
  change (tb_reader (at_eof s)) with (mk_reader d (len d)). change (tb_off (shorten s)) with (tb_off s).
  change (tb_heap (shorten s)) with (tb_heap s).
  set (b := if wide then BF64 else BF32) in *. assert (W: dwidth wide = 2 * byte_size b) by (unfold b; destruct wide; reflexivity).
  change (if wide then 16 else 8) with (dwidth wide).
  assert (B1: 1 <= byte_size b) by (unfold b; destruct wide; vm_compute; discriminate).
  destruct (read_pair_cut b pos P) as [A B]. rewrite <- W in A, B. intro H. split; [|split].
  - intro R. rewrite (B R). split; [reflexivity|].
    destruct (read_pair_cut b (len d) (len_nonneg d)) as [_ B']. rewrite B' by lia. reflexivity.
  - intros R Hf. rewrite Hf in *. destruct (A R) as (n & o & E1 & E2). rewrite E1 in H. rewrite E2.
    destruct (u64_result m (tb_off s + dwidth wide)) as [off| |]; try discriminate.
    assert (V: v = if wide then DVla64 n o else DVla32 n o).
    { destruct (seek_to_next_col m _) as [[[]| |] s1]; cbn [finish_next] in H; congruence. }
    subst v. exact (finish_cut _ _ _ H).
  - intros R Ht. rewrite Ht in *. destruct (A R) as (n & o & E1 & E2). rewrite E1 in H |- *. rewrite E2.
    destruct (u64_result m (tb_off s + dwidth wide)) as [off| |]; try discriminate.
    set (s2 := set_off (set_reader s (mk_reader full (pos + dwidth wide))) off) in *.
    change (set_off (set_reader (shorten s) (mk_reader d (pos + dwidth wide))) off) with (shorten s2).
    destruct (jump_to_heap m s2 e o n (bytes_size e)) as [j s3] eqn:J.
    destruct j as [[]| |]; [|discriminate|discriminate]. exists n, o, off, s3.
    split; [reflexivity|]. split; [reflexivity|]. split; [exact J|].
    assert (St2: tb_state s2 = InMain) by exact St.
    assert (J2: jump_to_heap m (shorten s2) e o n (bytes_size e) = (Ok tt, shorten s3) /\
                rd_data (tb_reader s3) = full /\ 0 <= rd_pos (tb_reader s3) /\ tb_first s3 = tb_first s /\ tb_cols s3 = tb_cols s /\
                tb_col s3 = tb_col s /\ tb_row s3 = tb_row s /\ exists p rem, tb_state s3 = InHeap e p rem n (bytes_size e)).
    { unfold jump_to_heap in *. rewrite shorten_state, shorten_ctx. rewrite St2 in *. change (tb_off (shorten s2)) with (tb_off s2).
      destruct (let! back := _ in _) as [w| |]; try discriminate. unfold seek_relative in *.
      change (rd_pos (tb_reader (shorten s2))) with (rd_pos (tb_reader s2)).
      destruct ((0 <=? rd_pos (tb_reader s2) + w) && (rd_pos (tb_reader s2) + w <? 2 ^ 64)) eqn:X; [|discriminate].
      destruct (u64_result m (n * bytes_size e)) as [rem| |]; try discriminate. inversion J. subst s3.
      split; [reflexivity|]. split; [reflexivity|]. split; [change (0 <= rd_pos (tb_reader s2) + w); lia|].
      do 4 (split; [reflexivity|]). eexists; eexists; reflexivity. }
    destruct J2 as (J2 & D3 & P3 & F1 & F2 & F3 & F4 & p & rem & St3). rewrite J2.
    do 5 (split; [assumption|]).
    destruct (heap_cut s3 c e p rem n (bytes_size e) v s' D3 P3 St3 H) as [C1 C2].
    split; [exact C1|]. intro R3. destruct (C2 R3) as [C3 C4]. split; [exact C3|]. split; [exact C4|]. rewrite St3. discriminate.
Qed.
End Shorten.

Section Cut.
Variables (m : mode) (d x : list Z) (lim : Z) (t : bintable) (o : Z) (h : bool) (sel : list Z).
Let full := d ++ x.
Hypothesis Li : lim <= len full.
Hypothesis Pr : table_present full t o.
Hypothesis Re : columns_readable full lim t o h sel.
Hypothesis So : StronglySorted Z.lt sel.
Hypothesis Ne : sel <> [].
Hypothesis Th : h = true -> bt_naxis1 t * bt_naxis2 t <= bt_theap t \/ forall c, In c sel -> exists e n, format t c = Some (TElem e n).

Let inv := inv full t o h sel.
Let cont := cont full t o h sel.
Local Notation short := (shorten d).
Local Notation col_at := (BinProofs2.col_at sel).

Lemma next_at s c : tb_first s = false -> index (tb_cols s) (tb_col s) = Ok c ->
  table_next m s = match tb_state s with InHeap _ _ _ _ _ => heap_next m s c | InMain => main_next m s c end.
Proof. intros F E. unfold table_next. rewrite E, F. reflexivity. Qed.

Lemma cut_step s row y r : inv s row (y :: r) ->
  (slot_end y <= len d -> exists v s', table_next m (short s) = (Ok (Some v), short s') /\ slot_value full y v /\ cont s' row r) /\
  (len d < slot_end y -> exists s2, table_next m (short s) = (Ok None, s2) /\ table_next m s2 = (Ok None, s2) /\ tb_row s2 = row).
Proof.
  intro I. pose proof (walk_step m full lim t o h sel Li Pr Re So Ne s row (y :: r) I) as (v & s' & W & V & C).
  pose proof (inv_row full lim t o h sel Pr Re s row (y :: r) I) as (Rw & _ & _).
  enough (G: (slot_end y <= len d -> table_next m (short s) = (Ok (Some v), short s')) /\
             (len d < slot_end y -> exists s2, table_next m (short s) = (Ok None, s2) /\ table_next m s2 = (Ok None, s2) /\ tb_row s2 = tb_row s)).
  { destruct G as [G1 G2]. split; [intro X; exists v, s'; auto|]. intro X. destruct (G2 X) as (s2 & ? & ? & ?). exists s2.
    split; [assumption|]. split; [assumption|]. congruence. }
  clear Rw. pose proof Pr as (Oc & D & O & N2' & Hp & _).
  pose proof (size_small full t o Pr) as (S1 & S2 & S3 & S4 & S5 & S6 & S7).
  inversion I as [ci item Hc E1 E2 E3 | row' ci e n item Hr Hc E Hi E1 E2 E3 | row' ci f e Hr Hc E De E1 E2 E3
                 | row' ci f e n item p Hr Hc E De Hh En Hi Ep E1 E2 E3]; subst row'; rewrite ?E1.
  - (* main *)
    destruct (col_facts full lim t o h sel Pr Re ci Hc) as (f' & E' & Cr & B1 & B2 & B3 & B4). rewrite E in E'. inversion E'; subst f'. clear E'.
    specialize (Cr row Hr). cbn [cell_readable] in Cr. destruct Cr as [Cx Cn].
    pose proof (base_range t row (col_at ci) 0 Hr B2 ltac:(lia) ltac:(lia)) as Ba0.
    pose proof (elem_bytes_pos e) as Eb.
    rewrite (cell_elems full t o h sel row ci e n E), skipn_elems in E3 by auto. cbn [app] in E3. inversion E3; subst y r. clear E3.
    cbn [slot_end]. assert (Fi: tb_first s = false) by (rewrite <- E1; reflexivity).
    assert (Ix: index (tb_cols s) (tb_col s) = Ok (col_at ci)) by (rewrite <- E1; apply (col_index t sel); auto).
    assert (St: tb_state s = InMain) by (rewrite <- E1; reflexivity).
    assert (Rp: tb_reader s = mk_reader full (o + (base t row (col_at ci) + item * elem_bytes e))) by (rewrite <- E1; reflexivity).
    assert (Cx': tb_ctx s = t) by (rewrite <- E1; reflexivity).
    assert (Fx: index (bt_tforms t) (col_at ci) = Ok (TElem e n)). { apply format_nth in E as [F1 F2]. apply index_nth; [lia|auto]. }
    assert (Ie: 0 <= item * elem_bytes e) by (apply Z.mul_nonneg_nonneg; lia).
    rewrite (next_at s _ Fi Ix), St in W.
    rewrite (next_at (short s) _ Fi Ix). rewrite !shorten_state, St.
    unfold main_next in *. rewrite Cx' in W. change (tb_ctx (short s)) with (tb_ctx s). rewrite Cx'.
    change (tb_off (short s)) with (tb_off s). change (tb_main (short s)) with (tb_main s).
    destruct (tb_off s =? tb_main s) eqn:Of; [discriminate|]. rewrite Fx in *.
    destruct (elem_cut m d x s (col_at ci) e _ v s' ltac:(rewrite Rp; reflexivity) ltac:(rewrite Rp; cbn [rd_pos]; lia) W) as [G1 G2].
    rewrite Rp in G1, G2. cbn [rd_pos] in G1, G2.
    replace (o + base t row (BinProofs2.col_at sel ci) + item * elem_bytes e + elem_bytes e)
      with (o + (base t row (col_at ci) + item * elem_bytes e) + elem_bytes e) by lia.
    split; [exact G1|]. intro R. destruct (G2 R) as [G3 G4]. exists (at_eof d s). split; [exact G3|]. split; [|reflexivity].
    rewrite (next_at (at_eof d s) _ Fi Ix), eof_state, St. unfold main_next.
    change (tb_off (at_eof d s)) with (tb_off s). change (tb_main (at_eof d s)) with (tb_main s). change (tb_ctx (at_eof d s)) with (tb_ctx s).
    rewrite Of, Cx', Fx. exact G4.
  - (* descriptor *)
    destruct (array_bounds full lim t o h sel Pr Re f e row ci Hr Hc E De) as (P0 & P1 & Wd & N & Ofs & Rd & Ar).
    destruct (col_facts full lim t o h sel Pr Re ci Hc) as (f' & E' & Cr & B1 & B2 & B3 & B4). rewrite E in E'. inversion E'; subst f'. clear E' Cr.
    set (p := o + base t row (col_at ci)) in *.
    assert (Fi: tb_first s = false) by (rewrite <- E1; reflexivity).
    assert (Ix: index (tb_cols s) (tb_col s) = Ok (col_at ci)) by (rewrite <- E1; apply (col_index t sel); auto).
    assert (St: tb_state s = InMain) by (rewrite <- E1; reflexivity).
    assert (Rp: tb_reader s = mk_reader full p) by (rewrite <- E1; unfold in_cell, at_, p; cbn [tb_reader]; f_equal; lia).
    assert (Tof: tb_off s = base t row (col_at ci)) by (rewrite <- E1; unfold in_cell, at_; cbn [tb_off]; lia).
    assert (Cx': tb_ctx s = t) by (rewrite <- E1; reflexivity).
    assert (Hs: tb_heap s = h) by (rewrite <- E1; reflexivity).
    assert (Fx: index (bt_tforms t) (col_at ci) = Ok f). { apply format_nth in E as [F1 F2]. apply index_nth; [lia|auto]. }
    set (wide := match f with TDesc64 _ => true | _ => false end) in *.
    assert (Dw: dwidth wide = field_bytes f) by (unfold wide; destruct f; [discriminate|reflexivity|reflexivity]).
    assert (Y: y = if h then SElem e (o + bt_theap t + desc_o full f p) (col_at ci) 0 else SDesc wide p).
    { rewrite (cell_is full t o h row _ _ E) in E3. fold p in E3. destruct h eqn:Eh.
      - destruct (Ar eq_refl) as (A1 & A2 & A3).
        assert (Cs: cell_slots full true (o + bt_theap t) f p (BinProofs2.col_at sel ci) = elems e (desc_n full f p) (o + bt_theap t + desc_o full f p) (col_at ci))
          by (destruct f as [? ?|e'|e']; cbn [desc_type] in De; inversion De; subst e'; reflexivity).
        fold p in E3. rewrite Cs in E3. pose proof (skipn_elems e (desc_n full f p) (o + bt_theap t + desc_o full f p) (col_at ci) 0 ltac:(lia)) as Sk.
        change (skipn (Z.to_nat 0) ?l) with l in Sk. rewrite Sk in E3. cbn [app] in E3. inversion E3. f_equal. lia.
      - unfold wide. destruct f as [? ?|e'|e']; cbn [desc_type] in De; [discriminate| |]; cbn [cell_slots app] in E3; inversion E3; reflexivity. }
    assert (Md: forall z, tb_ctx z = t -> tb_off z = tb_off s -> tb_main z = tb_main s ->
      main_next m z (col_at ci) = if tb_off s =? tb_main s then (Ok None, z) else main_desc m z (col_at ci) wide e).
    { intros z Z1 Z2 Z3. unfold main_next. rewrite Z1, Z2, Z3, Fx. destruct (tb_off s =? tb_main s); [reflexivity|].
      unfold wide. destruct f as [? ?|e'|e']; cbn [desc_type] in De; inversion De; reflexivity. }
    rewrite (next_at s _ Fi Ix), St, Md in W by auto.
    rewrite (next_at (short s) _ Fi Ix). rewrite !shorten_state, St.
    rewrite Md by (reflexivity || exact Cx').
    destruct (tb_off s =? tb_main s) eqn:Of; [discriminate|].
    destruct (desc_cut m d x s (col_at ci) wide e v s' ltac:(rewrite Rp; reflexivity) ltac:(rewrite Rp; cbn [rd_pos]; lia) St W) as (G1 & G2 & G3).
    rewrite Rp in G1, G2, G3. cbn [rd_pos] in G1, G2, G3. rewrite Dw, Hs in *.
    assert (Fail: len d < p + field_bytes f -> exists s2, main_desc m (short s) (col_at ci) wide e = (Ok None, s2) /\
              table_next m s2 = (Ok None, s2) /\ tb_row s2 = tb_row s).
    { intro R. destruct (G1 R) as [G4 G5]. exists (at_eof d s). split; [exact G4|]. split; [|reflexivity].
      rewrite (next_at (at_eof d s) _ Fi Ix), eof_state, St. rewrite Md by (reflexivity || exact Cx'). exact G5. }
    destruct h eqn:Eh.
    + subst y. cbn [slot_end]. destruct (Ar eq_refl) as (A1 & A2 & A3). clear G2. pose proof (elem_bytes_pos e) as Eb.
      pose proof (base_range t row (col_at ci) (field_bytes f) Hr B2 B3 B4) as Ba.
      assert (Before: p + field_bytes f <= o + bt_theap t + desc_o full f p).
      { destruct (Th eq_refl) as [Ge|El]; [unfold p at 1; lia|].
        destruct (El _ (col_In t sel ci Hc)) as (e' & n' & E'). rewrite E' in E. inversion E; subst f. discriminate. }
      destruct (Z_le_gt_dec (p + field_bytes f) (len d)) as [Le|Gt]; [|split; [lia|intros _; apply Fail; lia]].
      destruct (G3 Le eq_refl) as (n' & o' & off & s3 & Rd' & U & J & P3 & F1 & F2 & F3 & F4 & G4 & G5).
      assert (En: n' = desc_n full f p /\ o' = desc_o full f p).
      { rewrite Rd in Rd'. inversion Rd'. auto. }
      destruct En as [-> ->].
      assert (Rp3: rd_pos (tb_reader s3) = o + bt_theap t + desc_o full f p).
      { assert (Pe: p = o + base t row (col_at ci)) by reflexivity. clearbody p.
        rewrite Tof, u64_result_small in U by (split; [lia|]; lia). inversion U; subst off.
        assert (Lst: desc_n full f p <= desc_n full f p * elem_bytes e) by (apply le_times; lia).
        unfold jump_to_heap in J. cbn [set_off set_reader tb_state tb_off tb_ctx tb_reader rd_pos rd_data] in J. rewrite St, Cx' in J.
        rewrite !as_i64_small in J by lia. rewrite !i64_result_small in J by lia. cbn [bind] in J. rewrite !i64_result_small in J by lia. cbn [bind] in J.
        rewrite !i64_result_small in J by lia. rewrite seek_relative_ok in J by (cbn [rd_pos]; lia).
        rewrite elem_bytes_size, u64_result_small in J by lia. inversion J. cbn [set_state set_reader tb_reader rd_pos].
        lia. }
      rewrite Rp3 in G4, G5. split; [exact G4|]. intro R. destruct (G5 R) as (G6 & G7 & G8).
      exists (at_eof d s3). split; [exact G6|]. split; [|exact F4].
      rewrite (next_at (at_eof d s3) (col_at ci)); [|exact (eq_trans F1 Fi)|rewrite <- Ix, <- F2, <- F3; reflexivity].
      rewrite eof_state. destruct (tb_state s3) eqn:St3; [contradiction|]. exact G7.
    + subst y. cbn [slot_end]. change (if wide then 16 else 8) with (dwidth wide). rewrite Dw.
      split; [intro R; apply G2; auto|exact Fail].
  - (* heap *)
    destruct (array_bounds full lim t o h sel Pr Re f e row ci Hr Hc E De) as (P0 & P1 & Wd & N & Ofs & Rd & Ar).
    destruct (Ar Hh) as (A1 & A2 & A3). pose proof (elem_bytes_pos e) as Eb.
    assert (Pp: 0 <= p) by (rewrite Ep; lia).
    assert (Cell: cell full t o h row (col_at ci) = elems e n p (col_at ci)).
    { rewrite (cell_is full t o h row _ _ E). destruct f as [? ?|e'|e']; cbn [desc_type] in De; inversion De; subst e';
        cbn [cell_slots]; rewrite Hh, En, Ep; reflexivity. }
    rewrite Cell, skipn_elems in E3 by lia. cbn [app] in E3. inversion E3; subst y r. clear E3.
    cbn [slot_end]. assert (Fi: tb_first s = false) by (rewrite <- E1; reflexivity).
    assert (Ix: index (tb_cols s) (tb_col s) = Ok (col_at ci)) by (rewrite <- E1; apply (col_index t sel); auto).
    assert (St: exists mp rem sz, tb_state s = InHeap e mp rem n sz) by (rewrite <- E1; do 3 eexists; reflexivity).
    destruct St as (mp & rem & sz & St).
    assert (Rp: tb_reader s = mk_reader full (p + item * elem_bytes e)) by (rewrite <- E1; reflexivity).
    assert (Ie: 0 <= item * elem_bytes e) by (apply Z.mul_nonneg_nonneg; lia).
    rewrite (next_at s _ Fi Ix), St in W. rewrite (next_at (short s) _ Fi Ix). rewrite !shorten_state, St.
    destruct (heap_cut m d x s (col_at ci) e mp rem n sz v s' ltac:(rewrite Rp; reflexivity) ltac:(rewrite Rp; cbn [rd_pos]; lia) St W) as [G1 G2].
    rewrite Rp in G1, G2. cbn [rd_pos] in G1, G2.
    split; [exact G1|]. intro R. destruct (G2 R) as [G3 G4]. exists (at_eof d s). split; [exact G3|]. split; [|reflexivity].
    rewrite (next_at (at_eof d s) _ Fi Ix), eof_state, St. exact G4.
Qed.

(** An iterator that is stuck at the end of the file. *)
Lemma stuck_run s2 n : table_next m s2 = (Ok None, s2) -> fst (table_run m s2 (repeat TNext n)) = repeat TEnd n.
Proof.
  intro W. induction n as [|n IH]; [reflexivity|]. cbn [repeat table_run table_do]. rewrite W.
  destruct (table_run m s2 (repeat TNext n)) as [rs s3]. cbn [fst] in *. rewrite IH. reflexivity.
Qed.

Lemma cut_end s row : inv s row [] -> table_next m (short s) = (Ok None, short s).
Proof.
  intro I. pose proof (walk_step m full lim t o h sel Li Pr Re So Ne s row [] I) as W.
  inversion I as [ci item Hc E1 E2 E3 | row' ci e n item Hr Hc E Hi E1 E2 E3 | row' ci f e Hr Hc E De E1 E2 E3
                 | row' ci f e n item p Hr Hc E De Hh En Hi Ep E1 E2 E3].
  - unfold table_next, finished in *. cbn in *. rewrite (col_index t sel) in * by auto. unfold main_next in *.
    cbn in *. rewrite Z.eqb_refl. reflexivity.
  - exfalso. rewrite (cell_elems full t o h sel row ci e n E), skipn_elems in E3 by auto. discriminate.
  - exfalso. apply app_eq_nil in E3 as [E3 _]. eapply (cell_ne full lim t o h sel Pr Re); eauto.
  - exfalso. apply app_eq_nil in E3 as [E3 _].
    assert (Cell: cell full t o h row (col_at ci) = elems e n p (col_at ci)).
    { rewrite (cell_is full t o h row _ _ E). destruct f as [? ?|e'|e']; cbn [desc_type] in De; inversion De; subst e';
        cbn [cell_slots]; rewrite Hh, En, Ep; reflexivity. }
    rewrite Cell, skipn_elems in E3 by lia. discriminate.
Qed.

Lemma cut_values : forall cur s row l, inv s row l -> cur = l ++ slots_from full t o h sel (row + 1) ->
  exists cells, Forall2 (slot_value full) (leading (within (len d)) cur) cells /\
    forall n, fst (table_run m (short s) (repeat TNext n)) = firstn n (map TValue cells ++ repeat TEnd n).
Proof.
  induction cur as [|y cur IH]; intros s row l I E.
  - exists []. split; [constructor|]. symmetry in E. apply app_eq_nil in E as [El _]. subst l.
    intro n. cbn [map app]. rewrite firstn_all2 by (rewrite repeat_length; lia). apply stuck_run. exact (cut_end s row I).
  - destruct (inv_row full lim t o h sel Pr Re s row l I) as (R1 & R2 & R3). destruct l as [|y' l].
    + exfalso. rewrite (slots_from_end full t o h sel) in E by (specialize (R3 eq_refl); lia). discriminate.
    + inversion E; subst y'. destruct (cut_step s row y l I) as [C1 C2]. cbn [leading]. unfold within at 1.
      destruct (slot_end y <=? len d) eqn:X.
      * destruct (C1 ltac:(lia)) as (v & s' & W1 & W2 & W3).
        assert (Hr: 0 <= row < bt_naxis2 t) by (inversion I; subst; auto).
        destruct (cont_all full t o h sel s' row l Hr W3) as (row' & l' & I' & E').
        destruct (IH s' row' l' I' ltac:(congruence)) as (cells & F & R). subst cur.
        exists (v :: cells). split; [constructor; [exact W2|exact F]|]. intro n. destruct n as [|n]; [reflexivity|].
        cbn [repeat table_run table_do]. rewrite W1. specialize (R n).
        destruct (table_run m (short s') (repeat TNext n)) as [rs s2]. cbn [fst map app firstn] in *. rewrite R. f_equal.
        apply (firstn_more t).
      * destruct (C2 ltac:(lia)) as (s2 & W1 & W2 & _). exists []. split; [constructor|]. intro n. cbn [map app].
        rewrite firstn_all2 by (rewrite repeat_length; lia). destruct n as [|n]; [reflexivity|].
        cbn [repeat table_run table_do]. rewrite W1. pose proof (stuck_run s2 n W2) as G.
        destruct (table_run m s2 (repeat TNext n)) as [rs s3]. cbn [fst] in *. rewrite G. reflexivity.
Qed.

(** Rows. *)
Lemma cut_row : forall fuel s row l acc, inv s row l -> l <> [] -> (length l <= fuel)%nat ->
  (forallb (within (len d)) l = true ->
   exists cells s', row_loop m fuel (short s) row acc = (Some (Ok (Some (rev acc ++ cells))), short s') /\
    Forall2 (slot_value full) l cells /\ inv s' (row + 1) (row_of full t o h sel (row + 1))) /\
  (forallb (within (len d)) l = false ->
   exists s2, row_loop m fuel (short s) row acc = (Some (Ok None), s2) /\ table_next m s2 = (Ok None, s2) /\ tb_row s2 = row).
Proof.
  induction fuel as [|fuel IH]; intros s row l acc I N L; [destruct l; [contradiction|simpl in L; lia]|].
  destruct l as [|y l]; [contradiction|]. destruct (inv_row full lim t o h sel Pr Re s row _ I) as (R1 & R2 & R3).
  destruct (cut_step s row y l I) as [C1 C2].
  cbn [row_loop forallb]. change (tb_row (short s)) with (tb_row s). rewrite R1, Z.eqb_refl. unfold within at 1 3.
  destruct (slot_end y <=? len d) eqn:X; cbn [andb].
  - destruct (C1 ltac:(lia)) as (v & s' & W1 & W2 & W3). rewrite W1. destruct W3 as [[N' I']|[-> I']].
    + destruct (IH s' row l (v :: acc) I' N' ltac:(simpl in L; lia)) as [A B]. split; [|exact B].
      intro Al. destruct (A Al) as (cells & s'' & E & F & I''). exists (v :: cells), s''.
      rewrite E. split; [|split; auto]. cbn [rev]. rewrite <- app_assoc. reflexivity.
    + split; [|discriminate]. intros _. exists [v], s'. destruct (inv_row full lim t o h sel Pr Re s' _ _ I') as (R1' & _).
      assert (G: forall k a, row_loop m k (short s') row a = (Some (Ok (Some (rev a))), short s')).
      { intros k a. destruct k; cbn [row_loop]; change (tb_row (short s')) with (tb_row s'); rewrite R1';
          destruct (row + 1 =? row) eqn:Y; try lia; reflexivity. }
      rewrite G. split; [reflexivity|]. split; [constructor; [assumption|constructor]|exact I'].
  - split; [discriminate|]. intros _. destruct (C2 ltac:(lia)) as (s2 & W1 & W2 & W3). rewrite W1. exists s2. auto.
Qed.

Definition row_within (i : Z) : bool := forallb (within (len d)) (row_slots full t o h sel i).

Lemma stuck_rows fuel s2 row n : (1 <= fuel)%nat -> table_next m s2 = (Ok None, s2) -> tb_row s2 = row ->
  row_run m fuel (mk_row_it s2 row) n = repeat RowEnd n.
Proof.
  intros F W R. induction n as [|n IHn]; [reflexivity|]. cbn [row_run repeat]. unfold row_next. cbn [ri_data ri_row].
  destruct fuel as [|fuel]; [lia|]. cbn [row_loop]. rewrite R, Z.eqb_refl, W. cbv iota. rewrite IHn. reflexivity.
Qed.

Lemma cut_rows : forall k s row, inv s row (row_of full t o h sel row) -> k = Z.to_nat (bt_naxis2 t - row) ->
  exists rows, Forall2 (fun i cells => Forall2 (slot_value full) (row_slots full t o h sel i) cells)
                       (leading row_within (rows_from t row)) rows /\
    forall fuel n, (1 <= fuel)%nat -> (forall i, In i (rows_from t row) -> (length (row_slots full t o h sel i) <= fuel)%nat) ->
      row_run m fuel (mk_row_it (short s) row) n = firstn n (map RowOf rows ++ repeat RowEnd n).
Proof.
  induction k as [|k IH]; intros s row I K; destruct (inv_row full lim t o h sel Pr Re s row _ I) as (R1 & R2 & R3).
  - exists []. rewrite rows_from_end by lia. split; [constructor|]. intros fuel n F _. cbn [map app].
    assert (Z0: row_of full t o h sel row = []) by (unfold row_of; destruct (row <? bt_naxis2 t) eqn:X; [lia|reflexivity]). rewrite Z0 in I.
    rewrite firstn_all2 by (rewrite repeat_length; lia). apply stuck_rows; [exact F|exact (cut_end s row I)|exact R1].
  - assert (Hr: 0 <= row < bt_naxis2 t) by lia. rewrite rows_from_step by lia.
    assert (Rw: row_of full t o h sel row = row_slots full t o h sel row) by (unfold row_of; destruct (row <? bt_naxis2 t) eqn:X; [reflexivity|lia]).
    assert (Nn: row_of full t o h sel row <> []) by (intro X; specialize (R3 X); lia).
    cbn [leading]. unfold row_within at 1. rewrite <- Rw.
    destruct (forallb (within (len d)) (row_of full t o h sel row)) eqn:Al.
    + destruct (cut_row (length (row_of full t o h sel row)) s row _ [] I Nn ltac:(lia)) as [A _].
      destruct (A Al) as (cells & s' & E & F & I').
      destruct (IH s' (row + 1) I' ltac:(lia)) as (rows & FR & RR).
      exists (cells :: rows). split; [constructor; [rewrite <- Rw; exact F|exact FR]|].
      intros fuel n F1 FL. destruct n as [|n]; [reflexivity|]. cbn [row_run]. unfold row_next. cbn [ri_data ri_row].
      assert (Same: forall f1 f2 sx a r1 r2, (f1 <= f2)%nat -> row_loop m f1 sx row a = (Some r1, r2) -> row_loop m f2 sx row a = (Some r1, r2)).
      { clear. induction f1 as [|f1 IH]; intros f2 sx a r1 r2 L E.
        - cbn [row_loop] in E. destruct f2; cbn [row_loop]; destruct (tb_row sx =? row); try discriminate; exact E.
        - destruct f2 as [|f2]; [lia|]. cbn [row_loop] in *. destruct (tb_row sx =? row); [|exact E].
          destruct (table_next m sx) as [[[v|]| |] s']; try exact E. apply IH; [lia|exact E]. }
      assert (Fl: (length (row_of full t o h sel row) <= fuel)%nat) by (rewrite Rw; apply FL; left; reflexivity).
      rewrite (Same _ _ _ _ _ _ Fl E). cbn [rev app map firstn]. f_equal.
      rewrite RR; auto; [|intros i Hi; apply FL; right; exact Hi].
      apply (firstn_more t).
    + exists []. split; [constructor|]. intros fuel n F1 FL. destruct n as [|n]; [reflexivity|].
      cbn [row_run]. unfold row_next. cbn [ri_data ri_row map app].
      assert (Fl: (length (row_of full t o h sel row) <= fuel)%nat) by (rewrite Rw; apply FL; left; reflexivity).
      destruct (cut_row fuel s row _ [] I Nn Fl) as [_ B]. destruct (B Al) as (s2 & E & W & T). rewrite E. cbv iota.
      rewrite (stuck_rows fuel s2 row n F1 W T). rewrite firstn_all2 by (rewrite repeat_length; lia). reflexivity.
Qed.
End Cut.

(** ** Files *)

Definition slot_pos (x : slot) : Z := match x with SElem _ p _ _ => p | SDesc _ p => p end.

Lemma cell_slots_nonneg d b h f pos c : octets d -> 0 <= h -> 0 <= pos ->
  Forall (fun x => 0 <= slot_pos x) (cell_slots d b h f pos c).
Proof.
  intros O H P.
  assert (B: forall q n, 0 <= be_value (slice d q n)).
  { intros q n. rewrite be_value_unsigned. apply be_unsigned_range, slice_octets, O. }
  assert (G: forall e n q, 0 <= q -> Forall (fun x => 0 <= slot_pos x) (elems e n q c)).
  { intros e n q Q. unfold elems. apply Forall_forall. intros x Hx. apply in_map_iff in Hx as (i & <- & Hi).
    apply upto_In in Hi. pose proof (elem_bytes_pos e). cbn [slot_pos]. nia. }
  destruct f as [e n|e|e]; cbn [cell_slots]; [apply G; lia| |]; destruct b; try (constructor; [exact P|constructor]);
    apply G; apply Z.add_nonneg_nonneg; auto.
Qed.

Lemma rows_from_nonneg t i : In i (rows_from t 0) -> 0 <= i.
Proof. unfold rows_from. intro H. apply in_map_iff in H as (k & <- & Hk). apply upto_In in Hk. lia. Qed.

Lemma row_slots_nonneg d t o b sel i : octets d -> 0 <= o -> 0 <= bt_theap t -> 0 <= bt_naxis1 t ->
  Forall (fun f => 0 <= field_bits f) (bt_tforms t) -> 0 <= i ->
  Forall (fun x => 0 <= slot_pos x) (row_slots d t o b sel i).
Proof.
  intros O Ho Th N F I. unfold row_slots. apply Forall_flat_map. apply Forall_forall. intros c _. unfold cell.
  destruct (format t c) as [f|]; [|constructor]. apply cell_slots_nonneg; [exact O|lia|].
  assert (0 <= column_start (bt_tforms t) c).
  { unfold column_start. apply total_nonneg, all_nonneg. apply Forall_forall. intros x Hx. rewrite Forall_forall in F.
    apply F. rewrite <- (firstn_skipn (Z.to_nat c) (bt_tforms t)). apply in_or_app. left. exact Hx. }
  nia.
Qed.

Lemma slot_value_cut d x y v : 0 <= slot_pos y -> within (len d) y = true -> slot_value (d ++ x) y v -> slot_value d y v.
Proof.
  unfold within. intros P W. destruct y as [e p c i|wide p]; cbn [slot_pos slot_end slot_value] in *.
  - pose proof (elem_bytes_pos e). rewrite slice_app_l by lia. auto.
  - destruct wide; rewrite !slice_app_l by lia; auto.
Qed.

Lemma leading_incl {A} test (l : list A) y : In y (leading test l) -> In y l /\ test y = true.
Proof.
  induction l as [|a l IH]; [contradiction|]. cbn [leading]. destruct (test a) eqn:T; [|contradiction].
  intros [->|H]; [split; [left|]; auto|]. destruct (IH H). split; [right|]; auto.
Qed.

Lemma Forall2_In {A B} (P Q : A -> B -> Prop) l r : (forall a b, In a l -> P a b -> Q a b) -> Forall2 P l r -> Forall2 Q l r.
Proof.
  intros H F. induction F as [|a b l r Pab F IH]; constructor; [apply H; [left; reflexivity|exact Pab]|].
  apply IH. intros a' b' I. apply H. right. exact I.
Qed.

Section CutFile.
Variables (m : mode) (d x : list Z) (f : fits) (hd : hdu) (f' : fits) (t : bintable).
Let full := d ++ x.
Let o := h_offset hd.
Let all := all_columns t.
Hypothesis Oc : octets full.
Hypothesis Da : rd_data (f_reader f) = d.
Hypothesis Po : 0 <= rd_pos (f_reader f).
Hypothesis Nx : next m f = (IOk hd, f').
Hypothesis Xt : h_xt hd = XtBin t.
Hypothesis Ti : table_inside full t o.

Lemma cut_octets : octets d.
Proof. apply Forall_app in Oc as [A _]. exact A. Qed.

Lemma cut_present : table_present full t o.
Proof.
  destruct (after_next_bin m d f hd f' t cut_octets Da Po Nx Xt) as (n & _ & _ & HO & _ & _ & vs & P).
  apply (present_file m full vs t o); auto. unfold o; lia.
Qed.

Lemma cut_table : get_table m f' t = Ok (fresh d t o).
Proof.
  destruct (after_next_bin m d f hd f' t cut_octets Da Po Nx Xt) as (n & _ & _ & HO & _ & G & _).
  rewrite G. pose proof (table_new_ok m full t o cut_present) as T. unfold table_new in *. fold o.
  destruct (col_offsets m 0 (bt_tforms t)) as [offs| |]; cbn [bind] in *; try discriminate.
  destruct (u64_result m (bt_naxis1 t * bt_naxis2 t)) as [size| |]; cbn [bind] in *; try discriminate.
  inversion T as [[H0 H1 H2]]. rewrite H0. reflexivity.
Qed.

Lemma cut_nonneg b i : 0 <= i -> Forall (fun y => 0 <= slot_pos y) (row_slots full t o b all i).
Proof.
  intro I. pose proof cut_present as (O' & D & O & N2 & Hp & F & N1 & _).
  apply row_slots_nonneg; auto. rewrite N1. apply total_nonneg, all_nonneg, F.
Qed.

Lemma cut_cells lim b :
  lim <= len full -> columns_readable full lim t o b all -> bt_tforms t <> [] ->
  (b = true -> bt_naxis1 t * bt_naxis2 t <= bt_theap t \/ Forall fixed_width (bt_tforms t)) ->
  exists s cells rows, get_table m f' t = Ok s /\
    Forall2 (slot_value d) (leading (within (len d)) (slots_from full t o b all 0)) cells /\
    (forall n, fst (table_run m (read_the_heap s b) (repeat TNext n)) = firstn n (map TValue cells ++ repeat TEnd n)) /\
    Forall2 (fun i cells => Forall2 (slot_value d) (row_slots full t o b all i) cells)
            (leading (fun i => forallb (within (len d)) (row_slots full t o b all i)) (rows_from t 0)) rows /\
    forall fuel n, (1 <= fuel)%nat -> (forall i, In i (rows_from t 0) -> (length (row_slots full t o b all i) <= fuel)%nat) ->
      row_run m fuel (row_iter (read_the_heap s b)) n = firstn n (map RowOf rows ++ repeat RowEnd n).
Proof.
  intros Li Re Ne Th'. pose proof cut_present as Pr.
  assert (Th: b = true -> bt_naxis1 t * bt_naxis2 t <= bt_theap t \/ forall c, In c all -> exists e n, format t c = Some (TElem e n)).
  { intro Hb. destruct (Th' Hb) as [A|A]; [left; exact A|right]. intros c Ic. destruct (Re c Ic) as (y & E & _).
    unfold format in E. destruct (c <? 0); [discriminate|]. rewrite Forall_forall in A. specialize (A y (nth_error_In _ _ E)).
    unfold format. destruct (c <? 0) eqn:X; [unfold all, all_columns in Ic; apply upto_In in Ic; lia|].
    destruct y; [eauto|contradiction|contradiction]. } pose proof (columns_ne t Ne) as Nc.
  pose proof (fresh_inv full lim t o b Pr Re Ne) as I.
  destruct (cut_values m d x lim t o b all Li Pr Re (upto_sorted _) Nc Th (slots_from full t o b all 0) _ 0 _ I) as (cells & V & R).
  { apply (slots_from_step full t o b all 0). destruct Pr as (_ & _ & _ & N2 & _). lia. }
  destruct (cut_rows m d x lim t o b all Li Pr Re (upto_sorted _) Nc Th _ _ 0 I eq_refl) as (rows & VR & RR).
  exists (fresh d t o), cells, rows. split; [exact cut_table|]. split; [|split; [exact R|split; [|exact RR]]].
  - revert V. apply Forall2_In. intros y v Iy. apply leading_incl in Iy as [Iy W]. apply slot_value_cut; [|exact W].
    unfold slots_from in Iy. apply in_flat_map in Iy as (i & Hi & Hy). pose proof (cut_nonneg b i (rows_from_nonneg t i Hi)) as G.
    rewrite Forall_forall in G. apply G, Hy.
  - revert VR. apply Forall2_In. intros i cs Ii. apply leading_incl in Ii as [Ii W]. apply Forall2_In.
    intros y v Iy. rewrite forallb_forall in W. pose proof (cut_nonneg b i (rows_from_nonneg t i Ii)) as G.
    rewrite Forall_forall in G. apply slot_value_cut; [apply G, Iy|apply W, Iy].
Qed.
End CutFile.

(** Tables of numbers, logicals and characters: there is nothing to know about the missing bytes. *)
Lemma fixed_row d d' t o b sel i : Forall fixed_width (bt_tforms t) -> row_slots d t o b sel i = row_slots d' t o b sel i.
Proof.
  intro F. unfold row_slots. apply flat_map_ext. intro c. unfold cell, format. destruct (c <? 0); [reflexivity|].
  destruct (nth_error (bt_tforms t) (Z.to_nat c)) as [y|] eqn:E; [|reflexivity].
  rewrite Forall_forall in F. specialize (F y (nth_error_In _ _ E)). destruct y; [reflexivity|contradiction|contradiction].
Qed.
Lemma fixed_slots d d' t o b sel : Forall fixed_width (bt_tforms t) -> slots_from d t o b sel 0 = slots_from d' t o b sel 0.
Proof. intro F. unfold slots_from. apply flat_map_ext. intro i. apply fixed_row, F. Qed.

Lemma leading_ext {A} (f g : A -> bool) l : (forall a, f a = g a) -> leading f l = leading g l.
Proof. intro E. induction l as [|a l IH]; [reflexivity|]. cbn [leading]. rewrite E, IH. reflexivity. Qed.

Lemma Forall2_same {A B} (P Q : A -> B -> Prop) l r : (forall a b, P a b -> Q a b) -> Forall2 P l r -> Forall2 Q l r.
Proof. intro H. apply Forall2_In. auto. Qed.

(** The heap of such a table is not looked at, so it can be thought to be anywhere. *)
Lemma cut_fixed m d f hd f' t :
  octets d -> rd_data (f_reader f) = d -> 0 <= rd_pos (f_reader f) -> next m f = (IOk hd, f') -> h_xt hd = XtBin t ->
  table_laid_out d t (h_offset hd) -> bt_tforms t <> [] -> Forall fixed_width (bt_tforms t) ->
  let o := h_offset hd in let all := all_columns t in
  exists s cells rows, get_table m f' t = Ok s /\
    Forall2 (slot_value d) (leading (within (len d)) (slots_from d t o true all 0)) cells /\
    (forall n, fst (table_run m s (repeat TNext n)) = firstn n (map TValue cells ++ repeat TEnd n)) /\
    Forall2 (fun i cells => Forall2 (slot_value d) (row_slots d t o true all i) cells)
            (leading (fun i => forallb (within (len d)) (row_slots d t o true all i)) (rows_from t 0)) rows /\
    forall fuel n, (1 <= fuel)%nat -> (forall i, In i (rows_from t 0) -> (length (row_slots d t o true all i) <= fuel)%nat) ->
      row_run m fuel (row_iter s) n = firstn n (map RowOf rows ++ repeat RowEnd n).
Proof.
  intros O D P N X (Ld & T & W & Sz) Ne F o all.
  set (x := repeat 0 (Z.to_nat (o + bt_naxis1 t * bt_naxis2 t - len d))).
  assert (Lx: len (d ++ x) = Z.max (len d) (o + bt_naxis1 t * bt_naxis2 t)).
  { rewrite len_app. unfold x, len at 2. rewrite repeat_length. lia. }
  assert (Ox: octets (d ++ x)).
  { apply Forall_app. split; [exact O|]. apply Forall_forall. intros y Hy. apply repeat_spec in Hy. subst y. lia. }
  assert (Ti: table_inside (d ++ x) t (h_offset hd)) by (unfold table_inside; fold o; rewrite Lx; repeat split; auto; lia).
  assert (Re: columns_readable (d ++ x) (len (d ++ x)) t o true all).
  { intros c I. unfold all, all_columns in I. apply upto_In in I. unfold format. destruct (c <? 0) eqn:Y; [lia|].
    destruct (nth_error (bt_tforms t) (Z.to_nat c)) as [y|] eqn:E.
    - exists y. split; [reflexivity|]. intros row R. rewrite Forall_forall in F. specialize (F y (nth_error_In _ _ E)).
      destruct y; cbn [fixed_width cell_readable] in *; tauto.
    - apply nth_error_None in E. unfold len in I. lia. }
  destruct (cut_cells m d x f hd f' t Ox D P N X Ti _ true (Z.le_refl _) Re Ne (fun _ => or_intror F))
    as (s & cells & rows & G & V & R & VR & RR).
  exists s, cells, rows. split; [exact G|].
  assert (Hs: read_the_heap s true = s).
  { rewrite (cut_table m d x f hd f' t Ox D P N X Ti) in G. inversion G. reflexivity. }
  rewrite Hs in R, RR. split; [rewrite (fixed_slots d (d ++ x)) by exact F; exact V|]. split; [exact R|]. split.
  - rewrite (leading_ext _ (fun i => forallb (within (len d)) (row_slots (d ++ x) t o true all i)))
      by (intro; rewrite (fixed_row d (d ++ x)) by exact F; reflexivity).
    eapply Forall2_same; [|exact VR]. intros i cs H. cbv beta in *. rewrite (fixed_row d (d ++ x)) by exact F. exact H.
  - intros fuel n F1 FL. apply RR; [exact F1|]. intros i Hi. rewrite (fixed_row (d ++ x) d) by exact F. apply FL, Hi.
Qed.

(** Damaged tile-compressed images, read on after failures (C90). *)

From Coq Require Import String Sorted Lia ZifyBool.
From Verif Require Import Base TextLemmas Text Card Reader Header Xtension Bytes Fits ImageIt BinTable Rice Float Tile.
From Verif Require Import SpecCard SpecXt SpecFits SpecImage SpecBin SpecBinCut SpecRice SpecTile SpecTileSafe SpecDrift.
From Verif Require Import XtProofs3 BytesProofs ImageProofs BinProofs BinProofs2 BinProofs3 BinProofs4 BinProofs5.
From Verif Require Import RiceProofs4 TileProofs TileProofs2 TileProofs3 TileProofs4 TileProofs5 TileProofs6 TileProofs8 DriftProofs.

(** ** The decoder's reader after an error *)

Lemma read_loop_error m t nblock nx L : forall fuel st src out e st' src' out',
  read_loop m t nblock nx L fuel st src out = (Some (Err e), st', src', out') -> src' = [].
Proof.
  induction fuel as [|fuel IH]; intros st src out e st' src' out' H; [discriminate|]. cbn [read_loop] in H.
  destruct st as [|b i l nb|b i im l nb|b i im nb l|b fs i im l nb];
    try (destruct (block_step m t L _ src out) as ([((i', q), l')|e'|], out1) eqn:B; try (inversion H; reflexivity);
         cbv zeta in H; match type of H with (if ?x then _ else _) = _ => destruct x end; [discriminate|eapply IH; exact H]).
  - destruct (read_first t src) as [(p, src1)|e'|]; cbn [bind] in H; try (inversion H; reflexivity).
    destruct (read_u8 src1) as [(b, src2)|e'|]; cbn [bind] in H; try (inversion H; reflexivity). eapply IH; exact H.
  - destruct (fs_step m t nblock nx b i l nb src) as [(st1, src1)|e'|]; try (inversion H; reflexivity). eapply IH; exact H.
Qed.

Lemma rice_error m t nblock nx L fuel src e src' out : rice_read_exact m t nblock nx L fuel src = (Some (Err e), src', out) -> src' = [].
Proof.
  unfold rice_read_exact. destruct (L =? 0); [discriminate|].
  destruct (read_loop m t nblock nx L fuel RStart src []) as (((x, st), s), o) eqn:E. intro H. inversion H; subst.
  eapply read_loop_error. exact E.
Qed.

(** ** Rows of any file *)

Lemma cell_any a b t o row c : cell a t o false row c = cell b t o false row c.
Proof. unfold cell. destruct (format t c) as [[e n|e|e]|]; reflexivity. Qed.
Lemma cells_any a b t o row sel : flat_map (cell a t o false row) sel = flat_map (cell b t o false row) sel.
Proof. induction sel as [|c sel IH]; cbn [flat_map]; [reflexivity|]. rewrite (cell_any a b), IH. reflexivity. Qed.
Lemma row_of_any a b t o sel row : row_of a t o false sel row = row_of b t o false sel row.
Proof. unfold row_of, slots_at. rewrite (cells_any a b). reflexivity. Qed.
Lemma row_slots_any a b t o sel row : row_slots a t o false sel row = row_slots b t o false sel row.
Proof. unfold row_slots. apply cells_any. Qed.

Lemma inv_any a b t o sel s row l : inv a t o false sel s row l ->
  inv b t o false sel (set_reader s (mk_reader b (rd_pos (tb_reader s)))) row l.
Proof.
  destruct 1 as [ci item Hc | row ci e n item Hr Hc E Hi | row ci f e Hr Hc E De | row ci f e n item p Hr Hc E De Hh En Hi Ep];
    [| | |discriminate].
  - apply (inv_end b t o false sel ci item Hc).
  - rewrite (cell_any a b). unfold slots_at. rewrite (cells_any a b). apply (inv_main b t o false sel row ci e n item Hr Hc E Hi).
  - rewrite (cell_any a b). unfold slots_at. rewrite (cells_any a b). apply (inv_desc b t o false sel row ci f e Hr Hc E De).
Qed.

Lemma inv_head d lim t o sel s row y r : table_present d t o -> columns_readable d lim t o false sel ->
  inv d t o false sel s row (y :: r) -> rd_pos (tb_reader s) = slot_pos y.
Proof.
  intros Pr Re I.
  inversion I as [ci item Hc E1 E2 E3 | row' ci e n item Hr Hc E Hi E1 E2 E3 | row' ci f e Hr Hc E De E1 E2 E3
                 | row' ci f e n item p Hr Hc E De Hh En Hi Ep E1 E2 E3]; subst row'; [| |discriminate].
  - rewrite (cell_elems d t o false sel row ci e n E), skipn_elems in E3 by auto. inversion E3. cbn [slot_pos tb_reader rd_pos in_cell at_]. lia.
  - rewrite (cell_is d t o false row _ _ E) in E3. cbn [tb_reader rd_pos in_cell at_].
    destruct f as [? ?|e'|e']; cbn [desc_type] in De; [discriminate| |]; cbn [cell_slots app] in E3; inversion E3; cbn [slot_pos]; lia.
Qed.

(** ** The walk *)

Section Walk.
Variables (gz : gunzip) (d : list Z) (t : bintable) (o : Z) (z : zimage) (fuel : nat).
Let N := product (z_tilen z).
Let n1 := bt_naxis1 t.
Let n2 := bt_naxis2 t.
Let lim := o + n1 * n2.
Notation all := (all_columns t).
Notation full g := (drifted d g lim).
Hypothesis Gz : fills_buffer gz.
Hypothesis Gb : stays_in_buffer gz.
Hypothesis Od : octets d.
Hypothesis Ld : len d < 2 ^ 63.
Hypothesis Pr : table_present (full 0) t o.
Hypothesis Re : columns_readable (full 0) (len (full 0)) t o false all.
Hypothesis Ne : bt_tforms t <> [].
Hypothesis Hd : tile_header t z.
Hypothesis Ht : Forall (fun x => 0 <= x) (z_tilen z).
Hypothesis Kn : known (z_cmp z).
Hypothesis Bs : match z_cmp z with ZRice bs _ => 0 <= bs | _ => True end.
Hypothesis Fu : (16 * length d + 10 + length (row_slots (full 0) t o false all 0) <= fuel)%nat.

Lemma lim_ok : 0 <= lim < 2 ^ 63.
Proof. pose proof (size_small _ _ _ Pr) as (S1 & S2 & S3 & S4 & S5 & _). unfold lim, n1, n2. lia. Qed.

Lemma present_any g : table_present (full g) t o.
Proof.
  pose proof lim_ok as L. destruct Pr as (Oc & D & O & N2 & Hp & F & N1 & N1' & I).
  split; [apply drifted_octets, Od|]. rewrite drifted_len by lia. repeat split; auto; try lia.
Qed.
Lemma readable_any g : columns_readable (full g) (len (full g)) t o false all.
Proof.
  intros c I. destruct (Re c I) as (f & E & H). exists f. split; [exact E|]. intros row R. specialize (H row R).
  destruct f; cbn [cell_readable] in *; [exact H|discriminate|discriminate].
Qed.

(** The table between tiles: at the start of a row, by what another file holds, or at its end for good. *)
Definition ready (tab : table) (row : Z) : Prop :=
  (exists g x, tab = mv d g x /\ inv (full g) t o false all x row (row_of (full g) t o false all row) /\ 0 <= o + row * n1 + g) \/
  stuck Wrapping tab row.

Lemma start_place g x row : inv (full g) t o false all x row (row_of (full g) t o false all row) -> rd_pos (tb_reader x) = o + row * n1.
Proof.
  intro I. pose proof (present_any g) as P. pose proof (readable_any g) as R.
  destruct (inv_row _ _ t o false all P R x row _ I) as (R1 & R2 & R3). fold n2 in R2, R3.
  destruct (Z.eq_dec row n2) as [E|E].
  - destruct (inv_place d g t o all P R x row _ I) as (B & _). unfold n1, n2 in *. subst row. lia.
  - assert (Ew : row_of (full g) t o false all row = slots_at (full g) t o false all row 0)
      by (unfold row_of; fold n2; replace (row <? n2) with true by lia; reflexivity).
    assert (L1 : 0 <= 0 < len all).
    { unfold all_columns. rewrite upto_len by apply len_nonneg. destruct (bt_tforms t); [contradiction|unfold len; cbn [length]; lia]. }
    pose proof (start_inv _ _ t o false all P R row 0 ltac:(fold n2; lia) L1) as J. rewrite <- Ew in J.
    destruct (row_of (full g) t o false all row) as [|y r] eqn:Ey; [specialize (R3 eq_refl); lia|].
    rewrite (inv_head _ _ t o all x row y r P R I), <- (inv_head _ _ t o all _ row y r P R J).
    unfold in_cell, at_. cbn [tb_reader rd_pos]. unfold base, col_at, column_start.
    assert (C0 : nth (Z.to_nat 0) all 0 = 0).
    { unfold all_columns, upto. destruct (Z.to_nat (len (bt_tforms t))); reflexivity. }
    rewrite C0. change (Z.to_nat 0) with O. cbn [firstn map]. unfold n1. change (total []) with 0. lia.
Qed.

Lemma redrift g x row q : inv (full g) t o false all x row (row_of (full g) t o false all row) -> 0 <= q ->
  ready (set_reader x (mk_reader d q)) row.
Proof.
  intros I Q. pose proof (start_place g x row I) as S. left. exists (q - rd_pos (tb_reader x)).
  set (g' := q - rd_pos (tb_reader x)). exists (set_reader x (mk_reader (full g') (rd_pos (tb_reader x)))).
  split; [|split].
  - unfold mv, set_reader. cbn [tb_reader rd_pos tb_state tb_cols tb_offsets tb_ctx tb_col tb_item tb_off tb_main tb_start tb_first tb_row tb_heap].
    f_equal. f_equal. unfold g'. lia.
  - rewrite (row_of_any (full g') (full g)). apply (inv_any (full g) (full g')). exact I.
  - unfold g'. lia.
Qed.

Lemma overwrite_len buf w : len w <= len buf -> len (overwrite buf w) = len buf.
Proof. intro H. unfold overwrite, len in *. rewrite app_length, skipn_length. lia. Qed.

Lemma decompress_drift buf r : rd_data r = d -> 0 <= rd_pos r -> len buf = 4 * N ->
  exists x b r', decompress gz Wrapping fuel (z_cmp z) N buf r = (Some x, b, r') /\ (x = Ok tt \/ exists e, x = Err e /\ 0 <= rd_pos r') /\
    len b = 4 * N /\ rd_data r' = d.
Proof.
  intros Dr P L. pose proof Hd as (_ & _ & _ & HN & HR & _). fold N in HN, HR. unfold decompress.
  assert (G : exists x b r', (if len buf =? 0 then (Some (Ok tt), buf, r)
      else let '(o, w, used) := gz (rd_rest r) (len buf) in
      match o with
      | Some b => (Some (Ok tt), b, mk_reader (rd_data r) (rd_pos r + used))
      | None => (Some (Err EIoOther), overwrite buf w, mk_reader (rd_data r) (rd_pos r + used))
      end) = (Some x, b, r') /\ (x = Ok tt \/ exists e, x = Err e /\ 0 <= rd_pos r') /\ len b = 4 * N /\ rd_data r' = d).
  { replace (len buf =? 0) with false by lia. destruct (gz (rd_rest r) (len buf)) as [[[b|] w] used] eqn:E.
    - do 3 eexists. split; [reflexivity|]. split; [left; reflexivity|].
      split; [rewrite (Gz _ _ _ _ _ (Zle_0_nat _) E); exact L|exact Dr].
    - destruct (Gb _ _ _ _ _ (Zle_0_nat _) E) as (Lw & U).
      do 3 eexists. split; [reflexivity|]. split; [right; eexists; split; [reflexivity|cbn [rd_pos]; lia]|].
      split; [rewrite overwrite_len; [exact L|exact Lw]|exact Dr]. }
  destruct (z_cmp z) as [| |bs bp| |] eqn:Ec; try contradiction; [exact G|exact G|]. clear G.
  assert (A : as_i32 N = N) by (unfold as_i32, to_signed; change (8 * 4) with 32; change (32 - 1) with 31; rewrite Z.mod_small by lia; replace (N <? 2 ^ 31) with true by lia; reflexivity).
  rewrite A, L.
  assert (Or : bytes_ok (rd_rest r)).
  { unfold rd_rest. rewrite Dr. pose proof Od as Od'. unfold bytes_ok, octets in *. rewrite Forall_forall in Od' |- *. intros y Y.
    assert (In y d) by (rewrite <- (firstn_skipn (Z.to_nat (rd_pos r)) d); apply in_or_app; auto). specialize (Od' y H). unfold is_byte. cbv beta in Od'. lia. }
  assert (Lr : (length (rd_rest r) <= length d)%nat) by (unfold rd_rest; rewrite Dr, skipn_length; lia).
  pose proof (decode_safe RI32 bs N (rd_rest r) fuel Bs ltac:(lia) HR Or ltac:(lia)) as D.
  change (Z.of_nat (rsize RI32)) with 4 in D.
  destruct (rice_read_exact Wrapping RI32 bs N (4 * N) fuel (rd_rest r)) as [[x src] out] eqn:Er.
  destruct D as [(-> & Lo)|(-> & Lo)]; do 3 eexists; (split; [reflexivity|]).
  - split; [left; reflexivity|]. split; [rewrite overwrite_len; lia|exact Dr].
  - apply rice_error in Er. subst src. split; [right; eexists; split; [reflexivity|]|].
    + cbn [rd_pos]. change (len (@nil Z)) with 0. pose proof (len_nonneg (rd_rest r)). lia.
    + split; [rewrite overwrite_len; lia|exact Dr].
Qed.

Notation st := (st z).
(** The iterator between two calls. *)
Definition good (s : tiles) : Prop := exists tab row buf n rem k,
  s = st (mk_row_it tab row) buf n rem k /\ ready tab row /\ len buf = 4 * N /\ keys_ok t k /\ 0 <= rem <= N /\ (0 < rem -> n = N) /\ row <= n2.
(** The pixels still to come, at most. *)
Definition to_come (s : tiles) : Z := (n2 - ri_row (tl_rows s)) * N + tl_rem s.

Lemma load_drift g x row buf k off : inv (full g) t o false all x row (row_of (full g) t o false all row) ->
  0 <= o + row * n1 + g -> row <= n2 -> len buf = 4 * N -> keys_ok t k ->
  exists y s', load_tile gz Wrapping fuel (st (mk_row_it (mv d g x) row) buf N N k) off = (Some y, s') /\
    y <> Panic /\ good s' /\ tl_rem s' = N /\ ri_row (tl_rows s') = row.
Proof.
  intros I G0 R2 L K. pose proof Hd as (_ & _ & _ & HN & _). fold N in HN.
  assert (Self : ready (mv d g x) row) by (left; exists g, x; auto).
  unfold load_tile, TileProofs3.st, tl_reader. cbn [tl_rows ri_data].
  change (tb_reader (mv d g x)) with (mk_reader d (rd_pos (tb_reader x) + g)). unfold seek_relative. cbn [rd_pos rd_data].
  destruct ((0 <=? rd_pos (tb_reader x) + g + off) && (rd_pos (tb_reader x) + g + off <? 2 ^ 64)) eqn:Sk.
  2:{ do 2 eexists. split; [reflexivity|]. split; [discriminate|]. split; [|split; reflexivity].
      exists (mv d g x), row, buf, N, N, k. split; [reflexivity|]. repeat split; auto; lia. }
  cbn [tl_cmp tl_n tl_buf].
  destruct (decompress_drift buf (mk_reader d (rd_pos (tb_reader x) + g + off)) eq_refl ltac:(cbn [rd_pos]; lia) L) as (y & b & r' & E & Y & Lb & Dr). rewrite E.
  destruct Y as [->|(e & -> & Pp)]; do 2 eexists; (split; [reflexivity|]); (split; [discriminate|]); (split; [|split; reflexivity]).
  - exists (mv d g x), row, b, N, N, k. split; [|repeat split; auto; lia].
    unfold tl_set_reader, tl_set_buf, tl_set_rows, seek_start. cbn [tl_rows ri_data ri_row]. rewrite Dr. reflexivity.
  - exists (set_reader x r'), row, b, N, N, k. split; [reflexivity|].
    split; [|repeat split; auto; lia]. replace r' with (mk_reader d (rd_pos r')) by (destruct r'; cbn in *; subst; reflexivity).
    apply (redrift g); assumption.
Qed.

Lemma next_tile_drift tab row buf n k : ready tab row -> row <= n2 -> len buf = 4 * N -> keys_ok t k ->
  exists b s', next_tile gz Wrapping fuel (st (mk_row_it tab row) buf n 0 k) = (Some (Ok b), s') /\ good s' /\ (b = true -> tl_rem s' = N) /\
    to_come s' <= (n2 - row) * N.
Proof.
  intros Rd Rl L K. pose proof Hd as (Fi & _ & _ & HN & _). fold N in HN.
  unfold next_tile, row_next, TileProofs3.st. cbn [tl_rows ri_data ri_row tl_idx tl_tile tl_keys tl_set_rows].
  assert (Stuck : forall s2, stuck Wrapping s2 row -> good (st (mk_row_it s2 row) buf n 0 k)).
  { intros s2 S2. exists s2, row, buf, n, 0, k. split; [reflexivity|]. split; [right; exact S2|]. repeat split; auto; lia. }
  assert (F1 : exists fu, fuel = S fu) by (destruct fuel; [lia|eauto]).
  destruct Rd as [(g & x & -> & I & G0)|(S1 & S2)].
  2:{ destruct F1 as (fu & Ef). exists false. eexists. split; [|split; [apply Stuck; split; [exact S1|exact S2]|split; [discriminate|unfold to_come; cbn; lia]]].
      rewrite Ef. cbn [row_loop]. rewrite S2, Z.eqb_refl, S1. reflexivity. }
  pose proof (present_any g) as P. pose proof (readable_any g) as R. pose proof (columns_ne t Ne) as Nc.
  destruct (inv_row _ _ t o false all P R x row _ I) as (R1 & R2 & R3). fold n2 in R2, R3.
  destruct (Z.eq_dec row n2) as [Er|Er].
  { assert (Z0 : row_of (full g) t o false all row = []) by (unfold row_of; fold n2; replace (row <? n2) with false by lia; reflexivity). rewrite Z0 in I.
    destruct (drift_end Wrapping d g t o all P R x row I) as (S1 & S2).
    destruct F1 as (fu & Ef). exists false. eexists. split; [|split; [apply (Stuck (mv d g x)); split; [exact S1|exact S2]|split; [discriminate|unfold to_come; cbn; lia]]].
    rewrite Ef. cbn [row_loop]. rewrite S2, Z.eqb_refl, S1. reflexivity. }
  assert (Nn : row_of (full g) t o false all row <> []) by (intro X; specialize (R3 X); lia).
  assert (Rw : row_of (full g) t o false all row = row_slots (full g) t o false all row)
    by (unfold row_of; fold n2; destruct (row <? n2) eqn:X; [reflexivity|lia]).
  destruct (drift_row Wrapping d g t o all Ld P R (upto_sorted _) Nc fuel x row _ [] I Nn G0) as [(cells & x' & E & F & I')|(s2 & E & S2)].
  { rewrite Rw, (row_length (full g) t o row), (row_slots_any (full g) (full 0)). lia. }
  2:{ rewrite E. do 2 eexists. split; [reflexivity|]. split; [exact (Stuck _ S2)|split; [discriminate|unfold to_come; cbn; lia]]. }
  rewrite E. cbn [rev app]. rewrite Rw in F.
  destruct (tile_offset_any [] (full g) t o z P R Hd row cells ltac:(lia) F) as (p & Ep). rewrite Ep. cbn [bind].
  rewrite (usize_product_ok Wrapping (z_tilen z)) by (try apply product_pos; auto; unfold N in *; lia). rewrite Z.mul_1_l. cbn [bind]. fold N.
  cbn [tl_rows ri_row ri_data]. destruct (keys_any [] (full g) t o z _ P R (le_n _) k row cells (row + 1) K ltac:(lia) F) as (k' & Ek & K'). rewrite Ek. cbn [bind].
  destruct (jump_any t (row + 1) p) as (off & Ej).
  replace (tb_ctx (mv d g x')) with t by (symmetry; exact (inv_ctx (full g) t o false all x' _ _ I')). rewrite Ej. cbn [bind].
  pose proof (size_small _ _ _ P) as (S1 & _). fold n1 in S1.
  destruct (load_drift g x' (row + 1) buf k' off I' ltac:(lia) ltac:(lia) L K') as (y & s' & El & Np & Gs & Rm & Rr).
  match goal with |- context [load_tile gz Wrapping fuel ?s off] => change s with (st (mk_row_it (mv d g x') (row + 1)) buf N N k') end.
  rewrite El. destruct y as [u|e|]; [| |contradiction]; do 2 eexists; (split; [reflexivity|]); (split; [exact Gs|]); (split; [auto|]);
    unfold to_come; rewrite Rr, Rm; lia.
Qed.

Lemma next_drift s : good s -> exists v s', tiles_next gz Wrapping fuel s = (Some (Ok v), s') /\ good s' /\
  to_come s' <= to_come s - match v with Some _ => 1 | None => 0 end.
Proof.
  intros (tab & row & buf & n & rem & k & -> & Rd & L & K & Rm & Rn & Rl). pose proof Hd as (_ & _ & _ & HN & _). fold N in HN.
  unfold tiles_next. change (tl_rem (st (mk_row_it tab row) buf n rem k)) with rem.
  assert (Px : forall s, good s -> tl_rem s <> 0 -> exists p s', tile_pixel Wrapping s = (Ok (Some p), s') /\ good s' /\ to_come s' = to_come s - 1).
  { intros s (tab1 & row1 & buf1 & n1' & rem1 & k1 & -> & Rd1 & L1 & K1 & Rm1 & Rn1 & Rl1) Nz.
    change (tl_rem (st (mk_row_it tab1 row1) buf1 n1' rem1 k1)) with rem1 in Nz.
    rewrite (Rn1 ltac:(lia)). destruct (pixel_any [] [] t o z _ Kn Bs (le_n _) (mk_row_it tab1 row1) buf1 rem1 k1 L1 ltac:(fold N; lia) ltac:(fold N; lia) K1) as (p & k2 & Ep & K2).
    do 2 eexists. split; [exact Ep|]. split; [|unfold to_come; cbn; lia].
    exists tab1, row1, buf1, N, (rem1 - 1), k2. split; [reflexivity|]. repeat split; auto; lia. }
  destruct (Z.eqb_spec rem 0) as [->|Nz].
  - destruct (next_tile_drift tab row buf n k Rd Rl L K) as (b & s' & E & Gs & Rb & Lf). rewrite E.
    change (to_come (st (mk_row_it tab row) buf n 0 k)) with ((n2 - row) * N + 0).
    destruct b; [|exists None, s'; split; [reflexivity|split; [exact Gs|lia]]].
    destruct (Px s' Gs ltac:(rewrite (Rb eq_refl); lia)) as (p & s2 & Ep & G2 & L2). rewrite Ep. exists (Some p), s2. split; [reflexivity|split; [exact G2|lia]].
  - destruct (Px (st (mk_row_it tab row) buf n rem k)) as (p & s2 & Ep & G2 & L2).
    + exists tab, row, buf, n, rem, k. split; [reflexivity|]. repeat split; auto; lia.
    + exact Nz.
    + rewrite Ep. exists (Some p), s2. split; [reflexivity|split; [exact G2|lia]].
Qed.

Lemma to_come_nonneg s : good s -> 0 <= to_come s.
Proof. intros (tab & row & buf & n & rem & k & -> & _ & _ & _ & Rm & _ & Rl). unfold to_come. cbn. nia. Qed.

Lemma run_drift : forall n s, good s -> Forall (fun r => r = PixEnd \/ exists p, r = PixelOf p) (fst (tiles_run gz Wrapping fuel s n)) /\
  len (filter is_pixel (fst (tiles_run gz Wrapping fuel s n))) <= to_come s.
Proof.
  induction n as [|n IH]; intros s G; [split; [constructor|apply to_come_nonneg, G]|]. cbn [tiles_run]. unfold tiles_do.
  destruct (next_drift s G) as (v & s' & E & G' & Lv). rewrite E. destruct (IH s' G') as (A & B).
  destruct v; destruct (tiles_run gz Wrapping fuel s' n) as (l, s2); cbn [fst] in *; (split; [constructor; eauto|]);
    cbn [filter is_pixel]; unfold len in *; cbn [length]; lia.
Qed.
End Walk.

(** ** Files *)

Lemma tiles_good gz d f h f' t z :
  fills_buffer gz -> stays_in_buffer gz -> octets d -> rd_data (f_reader f) = d -> 0 <= rd_pos (f_reader f) -> next Wrapping f = (IOk h, f') ->
  h_xt h = XtBin t -> bt_zimage t = Some z -> table_laid_out d t (h_offset h) -> tile_header t z ->
  exists s fuel0, get_tiles Wrapping f' (h_values h) t = Some (Ok s) /\
    forall fuel, (fuel0 <= fuel)%nat ->
      (good d t (h_offset h) z s /\
       forall s1, good d t (h_offset h) z s1 -> exists v s2, tiles_next gz Wrapping fuel s1 = (Some (Ok v), s2) /\ good d t (h_offset h) z s2) /\
      forall n, Forall (fun r => r = PixEnd \/ exists p, r = PixelOf p) (fst (tiles_run gz Wrapping fuel s n)) /\
        len (filter is_pixel (fst (tiles_run gz Wrapping fuel s n))) <= bt_naxis2 t * product (z_tilen z).
Proof.
  intros Gz Gb O D P Nx X Zi (Ld & T & W & Sz) Hd. set (o := h_offset h) in *.
  set (x := repeat 0 (Z.to_nat (o + bt_naxis1 t * bt_naxis2 t - len d))).
  assert (Lx: len (d ++ x) = Z.max (len d) (o + bt_naxis1 t * bt_naxis2 t)).
  { rewrite len_app. unfold x, len at 2. rewrite repeat_length. lia. }
  assert (Ox: octets (d ++ x)).
  { apply Forall_app. split; [exact O|]. apply Forall_forall. intros y Hy. apply repeat_spec in Hy. subst y. lia. }
  assert (Ti: table_inside (d ++ x) t (h_offset h)) by (unfold table_inside; fold o; rewrite Lx; repeat split; auto; lia).
  pose proof (cut_present Wrapping d x f h f' t Ox D P Nx X Ti) as Pr0. fold o in Pr0.
  pose proof (size_small _ _ _ Pr0) as (Z1 & Z2 & Z3 & Z4 & Z5 & _).
  set (lim := o + bt_naxis1 t * bt_naxis2 t) in *.
  assert (Pr : table_present (drifted d 0 lim) t o).
  { destruct Pr0 as (Oc & D0 & O0 & N2 & Hp & F & N1 & N1' & I).
    split; [apply drifted_octets, O|]. rewrite drifted_len by lia. repeat split; auto; lia. }
  pose proof Hd as (Fi & Hc & Ha & HN & HR & Hr).
  assert (Ne : bt_tforms t <> []).
  { intro Y. destruct Ha as (y & [E|E]); unfold format in E; destruct (z_data_idx z <? 0); try discriminate; rewrite Y in E;
      destruct (Z.to_nat (z_data_idx z)); discriminate. }
  assert (Re: forall a, columns_readable a (len a) t o false (all_columns t)).
  { intros a c I. unfold all_columns in I. apply upto_In in I. unfold format. destruct (c <? 0) eqn:Y; [lia|].
    destruct (nth_error (bt_tforms t) (Z.to_nat c)) as [y|] eqn:E.
    - exists y. split; [reflexivity|]. intros row R. rewrite Forall_forall in Fi. specialize (Fi y (nth_error_In _ _ E)).
      destruct y; cbn [filled cell_readable] in *; [exact Fi|discriminate|discriminate].
    - apply nth_error_None in E. unfold len in I. lia. }
  destruct (after_next_bin Wrapping d f h f' t O D P Nx X) as (n & _ & _ & HO & _ & _ & vs & Pa).
  destruct (zimage_facts Wrapping vs t z Pa Zi) as (B64 & Ht & Kn & Bs).
  destruct (new_keys (h_values h) t z Hd B64) as (k & Ek & K).
  pose proof (fresh_inv (drifted d 0 lim) (len (drifted d 0 lim)) t o false Pr (Re _) Ne) as I.
  set (N := product (z_tilen z)) in *.
  set (s0 := st z (row_iter (read_the_heap (fresh d t o) false)) (repeat 0 (Z.to_nat (4 * N))) 0 0 k).
  exists s0, (16 * length d + 10 + length (row_slots (drifted d 0 lim) t o false (all_columns t) 0))%nat.
  split.
  - unfold get_tiles. rewrite Zi, (cut_table Wrapping d x f h f' t Ox D P Nx X Ti). cbn [bind]. fold o. unfold pixels_new.
    rewrite (usize_product_ok Wrapping (z_tilen z)) by (try apply product_pos; auto; fold N; lia). fold N. rewrite Z.mul_1_l. cbn [bind].
    rewrite u64_result_small by lia. cbn [bind]. replace (2 ^ 63 <=? N * 4) with false by lia. rewrite Ek. cbn [bind].
    unfold s0, st. rewrite (Z.mul_comm N 4). reflexivity.
  - intros fuel Hf.
    assert (G : good d t o z s0).
    { exists (read_the_heap (fresh d t o) false), 0, (repeat 0 (Z.to_nat (4 * N))), 0, 0, k. split; [reflexivity|].
      split; [left|repeat split; auto; try lia; unfold len; rewrite repeat_length; fold N; lia].
      exists 0, (read_the_heap (fresh (drifted d 0 lim) t o) false). split; [|split; [exact I|lia]].
      rewrite !read_the_heap_fresh. unfold mv, fresh, in_cell, at_, set_reader.
      cbn [tb_reader rd_pos tb_state tb_cols tb_offsets tb_ctx tb_col tb_item tb_off tb_main tb_start tb_first tb_row tb_heap].
      f_equal. f_equal. lia. }
    split.
    + split; [exact G|]. intros s1 G1.
      destruct (next_drift gz d t o z fuel Gz Gb O Ld Pr (Re _) Ne Hd Ht Kn Bs Hf s1 G1) as (v & s2 & E & G2 & _). eauto.
    + intro j. destruct (run_drift gz d t o z fuel Gz Gb O Ld Pr (Re _) Ne Hd Ht Kn Bs Hf j s0 G) as (A & B).
      split; [exact A|]. eapply Z.le_trans; [exact B|]. unfold to_come, s0, N. cbn. lia.
Qed.

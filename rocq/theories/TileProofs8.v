(** Loops over damaged tile-compressed images. *)

From Coq Require Import String Sorted Lia.
From Verif Require Import Base TextLemmas Text Card Reader Header Xtension Bytes Fits ImageIt BinTable Rice Float Tile.
From Verif Require Import SpecCard SpecXt SpecFits SpecImage SpecBin SpecBinCut SpecRice SpecTile SpecTileSafe.
From Verif Require Import XtProofs3 BytesProofs ImageProofs BinProofs BinProofs2 BinProofs3 BinProofs4 BinProofs5.
From Verif Require Import RiceProofs4 TileProofs TileProofs2 TileProofs3 TileProofs4 TileProofs5 TileProofs6.

(** ** What the header says *)

Lemma de_int_range lo hi v n : de_int lo hi v = Ok n -> lo <= n <= hi.
Proof.
  destruct v; cbn [de_int]; try discriminate. match goal with |- (if ?b then _ else _) = _ -> _ => destruct b eqn:E end; [|discriminate].
  intro H. inversion H. lia.
Qed.

Lemma blocksize_range all : forall vs n, find_blocksize all vs = Some n -> 0 <= n < 256.
Proof.
  induction vs as [|[name v] r IH]; intros n H; cbn [find_blocksize] in H; [discriminate|].
  destruct v; try (apply IH; exact H). destruct (_ && _); [|apply IH; exact H].
  destruct (get_parsed de_u8 all (replace_name name)) as [x| |] eqn:E; try (apply IH; exact H).
  inversion H; subst x. apply de_int_range in E. lia.
Qed.

Lemma tile_sizes vs : forall n i, Forall (fun x => 0 <= x) (map snd (znaxis_loop vs n i)).
Proof.
  induction n as [|n IH]; intro i; cbn [znaxis_loop map]; [constructor|].
  destruct (get_parsed de_u64 vs (indexed (chars "ZNAXIS") i)) as [a| |] eqn:E; [|constructor|constructor].
  cbn [map snd]. constructor; [|apply IH]. apply de_int_range in E.
  destruct (get_parsed de_u64 vs (indexed (chars "ZTILE") i)) as [x| |] eqn:F; [apply de_int_range in F; lia| |]; destruct (i =? 1); lia.
Qed.

Lemma zimage_facts m vs t z : bintable_parse m vs = Ok t -> bt_zimage t = Some z ->
  z_bitpix z <> BI64 /\ Forall (fun x => 0 <= x) (z_tilen z) /\ known (z_cmp z) /\
  match z_cmp z with ZRice bs _ => 0 <= bs | _ => True end.
Proof.
  intros P H. apply bintable_zimage in P as (zn & Pz & E). rewrite E in H. unfold make_zimage in H.
  destruct (parse_zcmp vs) as [c|] eqn:Ec; [|discriminate].
  destruct (or_none (get_parsed (de_option de_bitpix) vs (chars "ZBITPIX"))) as [b|]; [|discriminate].
  destruct zn as [(na, ti)|]; [|discriminate].
  destruct (data_idx (bt_ttypes t)) as [i|]; [|discriminate].
  assert (T : Forall (fun x => 0 <= x) ti).
  { unfold parse_znaxis in Pz. destruct (get_parsed de_u64 vs (chars "ZNAXIS")) as [n| |]; try discriminate.
    destruct (with_capacity n 8); try discriminate. cbn [bind] in Pz.
    destruct (len (znaxis_loop vs (Z.to_nat n) 1) =? n); [|discriminate]. inversion Pz. apply tile_sizes. }
  assert (C : match c with ZRice bs _ => 0 <= bs | _ => True end).
  { unfold parse_zcmp in Ec. destruct (get vs (chars "ZCMPTYPE")) as [[| | | | |]|]; try discriminate.
    repeat match type of Ec with (if ?b then _ else _) = _ => destruct b end; inversion Ec; try exact I.
    destruct (find_blocksize vs vs) as [n|] eqn:F; [apply blocksize_range in F|]; lia. }
  destruct c, b; inversion H; subst z; cbn [z_bitpix z_tilen z_cmp known]; repeat (split; [first [discriminate|assumption|exact I]|]); assumption.
Qed.

(** ** The last byte of a row *)

Lemma row_end d t o i n : table_present d t o -> Forall filled (bt_tforms t) -> Forall (fun f => field_bits f mod 8 = 0) (bt_tforms t) ->
  bt_tforms t <> [] ->
  forallb (within n) (row_slots d t o false (all_columns t) i) = true -> o + (i + 1) * bt_naxis1 t <= n.
Proof.
  intros Pr Fi Wh Ne W. destruct Pr as (Oc & D & O & N2 & Hp & F & N1 & N1' & I).
  set (c := len (bt_tforms t) - 1).
  assert (L : 1 <= len (bt_tforms t)) by (destruct (bt_tforms t); [contradiction|unfold len; cbn [length]; lia]).
  destruct (nth_error (bt_tforms t) (Z.to_nat c)) as [f|] eqn:E.
  2:{ apply nth_error_None in E. unfold c, len in *. lia. }
  assert (Cs : column_start (bt_tforms t) c + field_bytes f = bt_naxis1 t).
  { pose proof (column_start_next _ _ _ E) as G. unfold column_start. rewrite N1.
    replace (S (Z.to_nat c)) with (length (bt_tforms t)) in G by (unfold c, len in *; lia). rewrite firstn_all in G. lia. }
  assert (Ff : format t c = Some f) by (unfold format, c; replace (len (bt_tforms t) - 1 <? 0) with false by lia; exact E).
  rewrite Forall_forall in Fi, Wh. specialize (Fi f (nth_error_In _ _ E)). specialize (Wh f (nth_error_In _ _ E)).
  rewrite forallb_forall in W.
  assert (In_ : forall y, In y (cell d t o false i c) -> slot_end y <= n).
  { intros y Y. specialize (W y). unfold within in W. rewrite Z.leb_le in W. apply W. unfold row_slots. apply in_flat_map. exists c.
    split; [|exact Y]. unfold all_columns. apply upto_In. unfold c. lia. }
  unfold cell in In_. rewrite Ff in In_.
  set (p := o + i * bt_naxis1 t + column_start (bt_tforms t) c) in *.
  replace (o + (i + 1) * bt_naxis1 t) with (p + field_bytes f) by (unfold p; lia).
  destruct f as [e k|e|e]; cbn [cell_slots filled] in *.
  - specialize (In_ (SElem e (p + (k - 1) * elem_bytes e) c (k - 1))). cbn [slot_end] in In_.
    assert (G : field_bytes (TElem e k) = k * elem_bytes e).
    { destruct Fi as [Fx _]. clear - Fx Wh. unfold field_bytes, field_bits, elem_bytes in *. destruct e; try contradiction; cbn [type_bits] in *;
        match goal with |- _ = k * ?c => let v := eval vm_compute in c in change c with v end; Z.div_mod_to_equations; lia. }
    rewrite G. replace (p + k * elem_bytes e) with (p + (k - 1) * elem_bytes e + elem_bytes e) by lia. apply In_.
    unfold elems. apply in_map_iff. exists (k - 1). split; [reflexivity|]. apply upto_In. lia.
  - specialize (In_ (SDesc false p) (or_introl eq_refl)). exact In_.
  - specialize (In_ (SDesc true p) (or_introl eq_refl)). exact In_.
Qed.

(** ** The walk *)

Section Walk.
Variables (gz : gunzip) (d e : list Z) (t : bintable) (o : Z) (z : zimage) (fuel : nat) (vs : vmap).
Notation full := (d ++ e).
Notation all := (all_columns t).
Let N := product (z_tilen z).
Let n1 := bt_naxis1 t.
Let n2 := bt_naxis2 t.
Notation inv := (inv full t o false all).
Notation row_of := (row_of full t o false all).
Notation row_slots := (row_slots full t o false all).
Notation short := (shorten d).
Hypothesis Gz : fills_buffer gz.
Hypothesis Od : octets d.
Hypothesis Pr : table_present full t o.
Hypothesis Re : columns_readable full (len full) t o false all.
Hypothesis Ne : bt_tforms t <> [].
Hypothesis Wh : Forall (fun f => field_bits f mod 8 = 0) (bt_tforms t).
Hypothesis Hd : tile_header t z.
Hypothesis Ht : Forall (fun x => 0 <= x) (z_tilen z).
Hypothesis Kn : known (z_cmp z).
Hypothesis Bs : match z_cmp z with ZRice bs _ => 0 <= bs | _ => True end.
Hypothesis Fu : (16 * length d + 10 + length (row_slots 0) <= fuel)%nat.

(** The keywords between pixels. *)
Definition state_ok (q : quantiz) : Prop := match q with QNo => True | QSub1 i | QSub2 i => 0 <= i < 10000 end.
Definition keys_ok (k : keywords) : Prop :=
  match k with
  | KFloat f =>
    (counted t (k_scale_idx f) /\ real_column t (k_scale_idx f)) /\ (counted t (k_zero_idx f) /\ real_column t (k_zero_idx f)) /\
    (forall c, k_blank_idx f = Some c -> counted t c /\ int_column t c) /\ state_ok (k_state f)
  | _ => True
  end.

Lemma index_some {A} (l : list A) i : 0 <= i < len l -> exists x, index l i = Ok x.
Proof.
  intro H. unfold index. replace (i <? 0) with false by lia. destruct (nth_error l (Z.to_nat i)) eqn:E; [eauto|].
  apply nth_error_None in E. unfold len in H. lia.
Qed.

Lemma unquantize_any f v : keys_ok (KFloat f) -> exists x f', unquantize f v = Ok (x, f') /\ keys_ok (KFloat f').
Proof.
  intros (A & B & C & S). unfold unquantize. destruct (match k_blank f with Some b => b =? v | None => false end); [eexists; eexists; split; [reflexivity|]; split; [exact A|split; [exact B|split; [exact C|exact S]]]|].
  assert (M : forall i, 0 <= (i + 1) mod N_RANDOM < 10000) by (intro i; apply Z.mod_pos_bound; reflexivity).
  destruct (k_state f) as [|i|i] eqn:Q; cbn [state_ok] in S.
  - eexists; eexists; split; [reflexivity|]. split; [exact A|split; [exact B|split; [exact C|rewrite Q; exact S]]].
  - rewrite (random_at i S). cbn [bind]. eexists; eexists; split; [reflexivity|]. split; [exact A|split; [exact B|split; [exact C|apply M]]].
  - destruct (v =? -2147483647); [eexists; eexists; split; [reflexivity|]; split; [exact A|split; [exact B|split; [exact C|apply M]]]|].
    rewrite (random_at i S). cbn [bind]. eexists; eexists; split; [reflexivity|]. split; [exact A|split; [exact B|split; [exact C|apply M]]].
Qed.

Lemma int_value_any k buf i : len buf = 4 * N -> 0 <= i < N -> exists v, int_value k (z_cmp z) buf i = Ok v.
Proof.
  intros L I. assert (St : len buf / 4 = N) by (rewrite L, Z.mul_comm; apply Z.div_mul; lia).
  assert (X : forall p, 0 <= p < 4 * N -> exists v, index buf p = Ok v) by (intros; apply index_some; lia).
  destruct k; cbn [int_value].
  - destruct (z_cmp z); apply X; lia.
  - rewrite St. destruct (z_cmp z);
      match goal with |- exists v, (let! l := index buf ?a in let! h := index buf ?b in _) = _ =>
        destruct (X a ltac:(lia)) as (u & ->); destruct (X b ltac:(lia)) as (w & ->) end; eexists; reflexivity.
  - unfold pixel_bytes_at. rewrite St. destruct (z_cmp z); cbn [fold_right];
      repeat match goal with |- context [index buf ?a] => destruct (X a ltac:(lia)) as (? & ->); cbn [bind] end; eexists; reflexivity.
  - unfold pixel_bytes_at. rewrite St. destruct (z_cmp z); cbn [fold_right];
      repeat match goal with |- context [index buf ?a] => destruct (X a ltac:(lia)) as (? & ->); cbn [bind] end; eexists; reflexivity.
Qed.

Notation st := (st z).
Lemma pixel_any x buf rem k : len buf = 4 * N -> 0 < rem <= N -> N < 2 ^ 60 -> keys_ok k ->
  exists p k', tile_pixel Wrapping (st x buf N rem k) = (Ok (Some p), st x buf N (rem - 1) k') /\ keys_ok k'.
Proof.
  intros L R B K. unfold tile_pixel, TileProofs3.st. cbn [tl_n tl_rem tl_keys tl_cmp tl_buf].
  rewrite u64_result_small by lia. cbn [bind]. destruct (int_value_any k buf (N - rem) L ltac:(lia)) as (v & ->). cbn [bind].
  rewrite (u64_result_small _ (rem - 1)) by lia.
  destruct k as [| | |f]; try (eexists; eexists; split; [reflexivity|exact K]).
  destruct (unquantize_any f v K) as (y & f' & -> & K'). cbn [bind]. eexists; eexists; split; [reflexivity|exact K'].
Qed.

(** The row of a tile. *)
Lemma row_float_any row c cells : counted t c -> real_column t c -> 0 <= row < n2 -> Forall2 (slot_value full) (row_slots row) cells ->
  exists x, row_float cells c = Ok x.
Proof.
  intros Hc [Hf|Hf] Hr F; destruct (row_value full t o Pr Re row c _ cells Hc Hf Hr F) as (y & v & Ey & Ei & V);
    apply (cell_number _ _ _ _ _ _ _ Hf) in Ey; subst y; destruct V as (w & -> & y & Sy & ->);
    unfold row_float; rewrite Ei; cbn [bind]; eauto.
Qed.
Lemma row_blank_any row c cells : counted t c -> int_column t c -> 0 <= row < n2 -> Forall2 (slot_value full) (row_slots row) cells ->
  exists x, row_blank cells c = Ok x.
Proof.
  intros Hc [Hf|[Hf|[Hf|Hf]]] Hr F; destruct (row_value full t o Pr Re row c _ cells Hc Hf Hr F) as (y & v & Ey & Ei & V);
    apply (cell_number _ _ _ _ _ _ _ Hf) in Ey; subst y; destruct V as (w & -> & y & Sy & ->);
    unfold row_blank; rewrite Ei; cbn [bind]; eauto.
Qed.
Lemma tile_offset_any row cells : 0 <= row < n2 -> Forall2 (slot_value full) (row_slots row) cells ->
  exists p, tile_offset cells (z_data_idx z) = Ok p.
Proof.
  intros Hr F. destruct Hd as (_ & Hc & (y & Hf) & _).
  destruct Hf as [Hf|Hf]; destruct (row_value full t o Pr Re row _ _ cells Hc Hf Hr F) as (w & v & Ey & Ei & V);
    unfold cell in Ey; rewrite Hf in Ey; cbn [cell_slots] in Ey; inversion Ey; subst w; cbn [slot_value] in V; subst v;
    unfold tile_offset; rewrite Ei; cbn [bind]; eauto.
Qed.

Lemma dither_any i z0 : exists r, dither_start Wrapping i z0 = Ok r /\ 0 <= r < 10000.
Proof.
  unfold dither_start. rewrite u64_wrapping. cbn [bind]. set (a := (i - 1 + as_usize z0) mod 2 ^ 64).
  pose proof (Z.mod_pos_bound a 10000 ltac:(lia)) as B.
  pose proof (dither_start_ok Wrapping (a mod 10000) 0 ltac:(lia) ltac:(lia)) as E. unfold dither_start in E.
  replace (a mod 10000 + 1 - 1 + as_usize 0) with (a mod 10000) in E by (change (as_usize 0) with 0; lia).
  rewrite u64_result_small in E by lia. cbn [bind] in E. rewrite Z.mod_mod in E by lia. rewrite E.
  eexists. split; [reflexivity|]. pose proof (first_entry_range (a mod 10000) 0). lia.
Qed.

Lemma keys_any k row cells i : keys_ok k -> 0 <= row < n2 -> Forall2 (slot_value full) (row_slots row) cells ->
  exists k', keys_row Wrapping k cells i = Ok k' /\ keys_ok k'.
Proof.
  intros K Hr F. destruct k as [| | |f]; try (eexists; split; [reflexivity|exact K]). destruct K as ((A1 & A2) & (B1 & B2) & C & S).
  cbn [keys_row]. unfold fkeys_row.
  destruct (row_float_any row _ cells A1 A2 Hr F) as (sc & Es). destruct (row_float_any row _ cells B1 B2 Hr F) as (ze & Ez).
  assert (Q : exists q, (match k_quant f with
            | ZNoDither => Ok QNo
            | ZSubtractive1 => let! i := dither_start Wrapping i (k_dither0 f) in Ok (QSub1 i)
            | ZSubtractive2 => let! i := dither_start Wrapping i (k_dither0 f) in Ok (QSub2 i)
            end) = Ok q /\ state_ok q).
  { destruct (dither_any i (k_dither0 f)) as (r & Er & Rr). rewrite Er. cbn [bind].
    destruct (k_quant f); eexists; (split; [reflexivity|]); cbn [state_ok]; auto. }
  destruct Q as (q & -> & Sq). cbn [bind]. rewrite Es, Ez. cbn [bind].
  assert (Bl : exists b, (match k_blank_idx f with Some i => let! b := row_blank cells i in Ok (Some b) | None => Ok (k_blank f) end) = Ok b).
  { destruct (k_blank_idx f) as [c|]; [|eauto]. destruct (C c eq_refl) as [C1 C2].
    destruct (row_blank_any row c cells C1 C2 Hr F) as (b & ->). cbn [bind]. eauto. }
  destruct Bl as (b & ->). cbn [bind]. eexists. split; [reflexivity|]. split; [auto|split; [auto|split; [exact C|exact Sq]]].
Qed.

Lemma jump_any i p : exists off, tile_jump Wrapping t i p = Ok off.
Proof.
  unfold tile_jump. rewrite u64_wrapping. cbn [bind].
  repeat match goal with |- context [i64_result Wrapping ?a] => destruct (i64_wrapping a) as (? & -> & _); cbn [bind] end. eauto.
Qed.

Lemma decompress_any buf r : rd_data r = d -> len buf = 4 * N ->
  (exists b r', decompress gz Wrapping fuel (z_cmp z) N buf r = (Some (Ok tt), b, r') /\ len b = 4 * N /\ rd_data r' = d) \/
  (exists x b r', decompress gz Wrapping fuel (z_cmp z) N buf r = (Some (Err x), b, r')).
Proof.
  intros Dr L. destruct Hd as (_ & _ & _ & HN & HR & _). fold N in HN, HR. unfold decompress.
  assert (G : forall cmp, cmp = ZGzip1 \/ cmp = ZGzip2 ->
    (exists b r', (if len buf =? 0 then (Some (Ok tt), buf, r)
      else let '(o, w, used) := gz (rd_rest r) (len buf) in
      match o with
      | Some b => (Some (Ok tt), b, mk_reader (rd_data r) (rd_pos r + used))
      | None => (Some (Err EIoOther), overwrite buf w, mk_reader (rd_data r) (rd_pos r + used))
      end) = (Some (Ok tt), b, r') /\ len b = 4 * N /\ rd_data r' = d) \/
    (exists x b r', (if len buf =? 0 then (Some (Ok tt), buf, r)
      else let '(o, w, used) := gz (rd_rest r) (len buf) in
      match o with
      | Some b => (Some (Ok tt), b, mk_reader (rd_data r) (rd_pos r + used))
      | None => (Some (Err EIoOther), overwrite buf w, mk_reader (rd_data r) (rd_pos r + used))
      end) = (Some (Err x), b, r'))).
  { intros cmp _. replace (len buf =? 0) with false by lia. destruct (gz (rd_rest r) (len buf)) as [[[b|] w] used] eqn:E.
    - left. eexists; eexists. split; [reflexivity|]. split; [rewrite (Gz _ _ _ _ _ (Zle_0_nat _) E); exact L|exact Dr].
    - right. eauto. }
  destruct (z_cmp z) as [| |bs bp| |] eqn:Ec; try contradiction; [apply (G ZGzip1); auto|apply (G ZGzip2); auto|].
  assert (A : as_i32 N = N) by (unfold as_i32, to_signed; change (8 * 4) with 32; change (32 - 1) with 31; rewrite Z.mod_small by lia; replace (N <? 2 ^ 31) with true by lia; reflexivity).
  rewrite A, L.
  assert (Or : bytes_ok (rd_rest r)).
  { unfold rd_rest. rewrite Dr. pose proof Od as Od'. unfold bytes_ok, octets in *. rewrite Forall_forall in Od' |- *. intros y Y.
    assert (In y d) by (rewrite <- (firstn_skipn (Z.to_nat (rd_pos r)) d); apply in_or_app; auto). specialize (Od' y H). unfold is_byte. cbv beta in Od'. lia. }
  assert (Lr : (length (rd_rest r) <= length d)%nat) by (unfold rd_rest; rewrite Dr, skipn_length; lia).
  pose proof (decode_safe RI32 bs N (rd_rest r) fuel Bs ltac:(lia) HR Or ltac:(lia)) as D.
  change (Z.of_nat (rsize RI32)) with 4 in D.
  destruct (rice_read_exact Wrapping RI32 bs N (4 * N) fuel (rd_rest r)) as [[x src] out].
  destruct D as [(-> & Lo)|(-> & _)].
  - left. eexists; eexists. split; [reflexivity|]. split; [|exact Dr]. rewrite overwrite_full by lia. exact Lo.
  - right. eauto.
Qed.

Lemma load_any x row buf k off : inv x row (row_of row) -> len buf = 4 * N ->
  (exists b, load_tile gz Wrapping fuel (st (mk_row_it (short x) row) buf N N k) off
             = (Some (Ok tt), st (mk_row_it (short x) row) b N N k) /\ len b = 4 * N) \/
  (exists y s', load_tile gz Wrapping fuel (st (mk_row_it (short x) row) buf N N k) off = (Some (Err y), s')).
Proof.
  intros I L. unfold load_tile, TileProofs3.st, tl_reader. cbn [tl_rows ri_data].
  change (tb_reader (short x)) with (mk_reader d (rd_pos (tb_reader x))). unfold seek_relative. cbn [rd_pos rd_data].
  destruct ((0 <=? _) && _); [|right; eauto]. cbn [tl_cmp tl_n tl_buf].
  destruct (decompress_any buf (mk_reader d (rd_pos (tb_reader x) + off)) eq_refl L) as [(b & r' & E & Lb & Dr)|(y & b & r' & E)]; rewrite E.
  - left. exists b. split; [|exact Lb]. unfold tl_set_reader, tl_set_buf, tl_set_rows, seek_start. cbn [tl_rows ri_data ri_row].
    rewrite Dr. reflexivity.
  - right. eauto.
Qed.

Lemma next_tile_any x row buf n k : inv x row (row_of row) -> len buf = 4 * N -> keys_ok k ->
  (exists s', next_tile gz Wrapping fuel (st (mk_row_it (short x) row) buf n 0 k) = (Some (Ok false), s')) \/
  (exists x' b k', next_tile gz Wrapping fuel (st (mk_row_it (short x) row) buf n 0 k)
     = (Some (Ok true), st (mk_row_it (short x') (row + 1)) b N N k') /\
     inv x' (row + 1) (row_of (row + 1)) /\ len b = 4 * N /\ keys_ok k' /\ row < n2 /\ o + (row + 1) * n1 <= len d).
Proof.
  intros I L K. destruct (inv_row full (len full) t o false all Pr Re x row _ I) as (R1 & R2 & R3). fold n2 in R2, R3.
  unfold next_tile, row_next, TileProofs3.st. cbn [tl_rows ri_data ri_row tl_idx tl_tile tl_keys tl_set_rows].
  pose proof (columns_ne t Ne) as Nc.
  assert (Th : false = true -> bt_naxis1 t * bt_naxis2 t <= bt_theap t \/ forall c, In c all -> exists e n, format t c = Some (TElem e n)) by discriminate.
  destruct (Z.eq_dec row n2) as [Er|Er].
  { left. assert (Z0 : row_of row = []) by (unfold BinProofs2.row_of; fold n2; replace (row <? n2) with false by lia; reflexivity). rewrite Z0 in I.
    pose proof (cut_end Wrapping d e (len full) t o false all (Z.le_refl _) Pr Re (upto_sorted _) Nc Th x row I) as E.
    destruct fuel as [|fu]; [lia|]. cbn [row_loop]. change (tb_row (short x)) with (tb_row x). rewrite R1, Z.eqb_refl, E. eauto. }
  assert (Nn : row_of row <> []) by (intro X; specialize (R3 X); lia).
  assert (Rw : row_of row = row_slots row) by (unfold BinProofs2.row_of; fold n2; destruct (row <? n2) eqn:X; [reflexivity|lia]).
  destruct (cut_row Wrapping d e (len full) t o false all (Z.le_refl _) Pr Re (upto_sorted _) Nc Th fuel x row _ [] I Nn) as [A B].
  { rewrite Rw, (row_length full t o row). lia. }
  destruct (forallb (within (len d)) (row_of row)) eqn:W.
  2:{ destruct (B eq_refl) as (s2 & E & _). rewrite E. eauto. }
  destruct (A eq_refl) as (cells & x' & E & F & I'). rewrite E. cbn [rev app]. rewrite Rw in F, W.
  destruct (tile_offset_any row cells ltac:(lia) F) as (p & Ep). rewrite Ep. cbn [bind].
  destruct Hd as (Fi & _ & _ & HN & _). fold N in HN.
  rewrite (usize_product_ok Wrapping (z_tilen z)) by (try apply product_pos; auto; unfold N in *; lia). rewrite Z.mul_1_l. cbn [bind]. fold N.
  cbn [tl_rows ri_row ri_data]. destruct (keys_any k row cells (row + 1) K ltac:(lia) F) as (k' & Ek & K'). rewrite Ek. cbn [bind].
  destruct (jump_any (row + 1) p) as (off & Ej).
  replace (tb_ctx (short x')) with t by (symmetry; exact (inv_ctx full t o false all x' _ _ I')). rewrite Ej. cbn [bind].
  destruct (load_any x' (row + 1) buf k' off I' L) as [(b & El & Lb)|(y & s' & El)].
  - right. exists x', b, k'. split.
    + change (load_tile _ _ _ _ _) with (load_tile gz Wrapping fuel (st (mk_row_it (short x') (row + 1)) buf N N k') off). rewrite El. reflexivity.
    + do 3 (split; [assumption|]). split; [lia|]. apply (row_end full t o row (len d)); auto.
  - left. exists s'. change (load_tile _ _ _ _ _) with (load_tile gz Wrapping fuel (st (mk_row_it (short x') (row + 1)) buf N N k') off). rewrite El. reflexivity.
Qed.

(** The loop, from the middle of a tile on. *)
Lemma loop_any : forall j x row buf n rem k, j = Z.to_nat ((n2 - row) * N + rem) ->
  inv x row (row_of row) -> len buf = 4 * N -> keys_ok k -> 0 <= rem < N -> (0 < rem -> n = N) -> row = 0 \/ o + row * n1 <= len d ->
  exists ps s' row', tiles_run gz Wrapping fuel (st (mk_row_it (short x) row) buf n rem k) (S (length ps)) = (map PixelOf ps ++ [PixEnd], s') /\
    len ps = rem + (row' - row) * N /\ row <= row' <= n2 /\ (row' = 0 \/ o + row' * n1 <= len d).
Proof.
  intros j. induction j as [j IH] using (well_founded_induction Wf_nat.lt_wf). intros x row buf n rem k Ej I L K R Rn Rd.
  destruct (inv_row full (len full) t o false all Pr Re x row _ I) as (R1 & R2 & R3). fold n2 in R2, R3.
  pose proof Hd as (_ & _ & _ & HN & _). fold N in HN.
  destruct (Z.eq_dec rem 0) as [->|Rz].
  - destruct (next_tile_any x row buf n k I L K) as [(s' & E)|(x' & b & k' & E & I' & Lb & K' & Hr & Hl)].
    + exists [], s', row. split; [|split; [unfold len; cbn [length]; lia|split; [lia|exact Rd]]].
      cbn [length tiles_run map app]. unfold tiles_do, tiles_next. cbn [TileProofs3.st tl_rem]. rewrite Z.eqb_refl.
      change (mk_tiles _ _ _ _ _ _ _ _) with (st (mk_row_it (short x) row) buf n 0 k). rewrite E. reflexivity.
    + destruct (pixel_any (mk_row_it (short x') (row + 1)) b N k' Lb ltac:(lia) ltac:(lia) K') as (p & k2 & Ep & K2).
      assert (Lt : (Z.to_nat ((n2 - (row + 1)) * N + (N - 1)) < j)%nat) by (subst j; nia).
      destruct (IH _ Lt x' (row + 1) b N (N - 1) k2 eq_refl I' Lb K2 ltac:(lia) ltac:(auto) ltac:(auto)) as (ps & s' & row' & Er & Lp & Rr & Rd').
      exists (p :: ps), s', row'. split; [|split; [unfold len in *; cbn [length]; lia|split; [lia|exact Rd']]].
      cbn [length]. change (tiles_run gz Wrapping fuel ?s (S (S ?n'))) with (let (x, s1) := tiles_do gz Wrapping fuel s in let (l, s2) := tiles_run gz Wrapping fuel s1 (S n') in (x :: l, s2)).
      unfold tiles_do, tiles_next. cbn [TileProofs3.st tl_rem]. rewrite Z.eqb_refl.
      change (mk_tiles _ _ _ _ _ _ _ _) with (st (mk_row_it (short x) row) buf n 0 k). rewrite E, Ep, Er. reflexivity.
  - destruct (pixel_any (mk_row_it (short x) row) buf rem k L ltac:(lia) ltac:(lia) K) as (p & k2 & Ep & K2).
    rewrite (Rn ltac:(lia)).
    assert (Lt : (Z.to_nat ((n2 - row) * N + (rem - 1)) < j)%nat) by (subst j; nia).
    destruct (IH _ Lt x row buf N (rem - 1) k2 eq_refl I L K2 ltac:(lia) ltac:(auto) Rd) as (ps & s' & row' & Er & Lp & Rr & Rd').
    exists (p :: ps), s', row'. split; [|split; [unfold len in *; cbn [length]; lia|split; [lia|exact Rd']]].
    cbn [length]. change (tiles_run gz Wrapping fuel ?s (S (S ?n'))) with (let (x, s1) := tiles_do gz Wrapping fuel s in let (l, s2) := tiles_run gz Wrapping fuel s1 (S n') in (x :: l, s2)).
    unfold tiles_do, tiles_next. cbn [TileProofs3.st tl_rem]. replace (rem =? 0) with false by lia.
    change (mk_tiles _ _ _ _ _ _ _ _) with (st (mk_row_it (short x) row) buf N rem k). rewrite Ep, Er. reflexivity.
Qed.
End Walk.

(** ** Files *)

Lemma new_keys vs t z : tile_header t z -> z_bitpix z <> BI64 ->
  exists k, match z_bitpix z with
  | BU8 => Ok KU8 | BI16 => Ok KI16 | BI32 => Ok KI32
  | BF32 | BF64 => let! f := fkeys_new vs t z in Ok (KFloat f)
  | BI64 => Panic
  end = Ok k /\ keys_ok t k.
Proof.
  intros (_ & _ & _ & _ & _ & H) N.
  assert (G : real_pixels (z_bitpix z) -> exists f, fkeys_new vs t z = Ok f /\ keys_ok t (KFloat f)).
  { intro R. destruct (H R) as ((cs & (Ns & Cs) & Rs) & (cz & (Nz & Cz) & Rz) & B). unfold fkeys_new.
    pose proof (find_field_spec (bt_ttypes t) (chars "ZSCALE")) as Fs. pose proof (find_field_spec (bt_ttypes t) (chars "ZZERO")) as Fz.
    pose proof (find_field_spec (bt_ttypes t) (chars "ZBLANK")) as Fb.
    destruct (find_field_by_ttype (bt_ttypes t) (chars "ZSCALE")) as [cs'|]; [|destruct Fs; eapply first_named_in; eauto].
    destruct (find_field_by_ttype (bt_ttypes t) (chars "ZZERO")) as [cz'|]; [|destruct Fz; eapply first_named_in; eauto].
    assert (cs' = cs) by (eapply first_named_fun; eauto). assert (cz' = cz) by (eapply first_named_fun; eauto). subst cs' cz'.
    eexists. split; [reflexivity|]. cbn [keys_ok k_scale_idx k_zero_idx k_blank_idx k_state state_ok].
    split; [auto|]. split; [auto|]. split; [|exact I]. intros c E. rewrite E in Fb. apply B, Fb. }
  destruct (z_bitpix z); try (eexists; split; [reflexivity|exact I]); try contradiction;
    (destruct G as (f & -> & K); [unfold real_pixels; auto|]; eexists; split; [reflexivity|exact K]).
Qed.

Lemma tiles_end gz d f h f' t z :
  fills_buffer gz -> octets d -> rd_data (f_reader f) = d -> 0 <= rd_pos (f_reader f) -> next Wrapping f = (IOk h, f') ->
  h_xt h = XtBin t -> bt_zimage t = Some z -> table_laid_out d t (h_offset h) -> tile_header t z ->
  exists s fuel0, get_tiles Wrapping f' (h_values h) t = Some (Ok s) /\
    forall fuel, (fuel0 <= fuel)%nat -> exists ps s' rows,
      tiles_run gz Wrapping fuel s (S (length ps)) = (map PixelOf ps ++ [PixEnd], s') /\
      len ps = rows * product (z_tilen z) /\ 0 <= rows <= bt_naxis2 t /\ (rows = 0 \/ h_offset h + rows * bt_naxis1 t <= len d).
Proof.
  intros Gz O D P Nx X Zi (Ld & T & W & Sz) Hd. set (o := h_offset h) in *.
  set (x := repeat 0 (Z.to_nat (o + bt_naxis1 t * bt_naxis2 t - len d))).
  assert (Lx: len (d ++ x) = Z.max (len d) (o + bt_naxis1 t * bt_naxis2 t)).
  { rewrite len_app. unfold x, len at 2. rewrite repeat_length. lia. }
  assert (Ox: octets (d ++ x)).
  { apply Forall_app. split; [exact O|]. apply Forall_forall. intros y Hy. apply repeat_spec in Hy. subst y. lia. }
  assert (Ti: table_inside (d ++ x) t (h_offset h)) by (unfold table_inside; fold o; rewrite Lx; repeat split; auto; lia).
  pose proof (cut_present Wrapping d x f h f' t Ox D P Nx X Ti) as Pr. fold o in Pr.
  pose proof Hd as (Fi & Hc & Ha & HN & HR & Hr).
  assert (Ne : bt_tforms t <> []).
  { intro Y. destruct Ha as (y & [E|E]); unfold format in E; destruct (z_data_idx z <? 0); try discriminate; rewrite Y in E;
      destruct (Z.to_nat (z_data_idx z)); discriminate. }
  assert (Re: columns_readable (d ++ x) (len (d ++ x)) t o false (all_columns t)).
  { intros c I. unfold all_columns in I. apply upto_In in I. unfold format. destruct (c <? 0) eqn:Y; [lia|].
    destruct (nth_error (bt_tforms t) (Z.to_nat c)) as [y|] eqn:E.
    - exists y. split; [reflexivity|]. intros row R. rewrite Forall_forall in Fi. specialize (Fi y (nth_error_In _ _ E)).
      destruct y; cbn [filled cell_readable] in *; [exact Fi|discriminate|discriminate].
    - apply nth_error_None in E. unfold len in I. lia. }
  destruct (after_next_bin Wrapping d f h f' t O D P Nx X) as (n & _ & _ & HO & _ & _ & vs & Pa).
  destruct (zimage_facts Wrapping vs t z Pa Zi) as (B64 & Ht & Kn & Bs).
  destruct (new_keys (h_values h) t z Hd B64) as (k & Ek & K).
  pose proof (fresh_inv (d ++ x) (len (d ++ x)) t o false Pr Re Ne) as I.
  set (N := product (z_tilen z)) in *.
  exists (st z (row_iter (read_the_heap (fresh d t o) false)) (repeat 0 (Z.to_nat (4 * N))) 0 0 k),
         (16 * length d + 10 + length (row_slots (d ++ x) t o false (all_columns t) 0))%nat.
  split.
  - unfold get_tiles. rewrite Zi, (cut_table Wrapping d x f h f' t Ox D P Nx X Ti). cbn [bind]. fold o. unfold pixels_new.
    rewrite (usize_product_ok Wrapping (z_tilen z)) by (try apply product_pos; auto; fold N; lia). fold N. rewrite Z.mul_1_l. cbn [bind].
    rewrite u64_result_small by lia. cbn [bind]. replace (2 ^ 63 <=? N * 4) with false by lia. rewrite Ek. cbn [bind].
    unfold st. rewrite (Z.mul_comm N 4). reflexivity.
  - intros fuel Hf. pose proof (size_small (d ++ x) t o Pr) as (_ & _ & S3 & _).
    assert (Ib : len (repeat 0 (Z.to_nat (4 * N))) = 4 * N) by (unfold len; rewrite repeat_length; lia).
    destruct (loop_any gz d x t o z fuel Gz O Pr Re Ne W Hd Ht Kn Bs Hf _ _ 0 _ 0 0 k eq_refl I Ib K ltac:(fold N; lia) ltac:(lia) (or_introl eq_refl))
      as (ps & s' & row' & E & L & R & Rd).
    exists ps, s', row'. split; [exact E|]. fold N in L. split; [lia|]. split; [exact R|exact Rd].
Qed.

(** ** The hypotheses, checked *)

Definition arrayb (t : bintable) (c : Z) : bool := match format t c with Some (TDesc32 _) | Some (TDesc64 _) => true | _ => false end.
Definition realb (t : bintable) (c : Z) : bool := match format t c with Some (TElem TyE 1) | Some (TElem TyD 1) => true | _ => false end.
Definition intb (t : bintable) (c : Z) : bool :=
  match format t c with Some (TElem TyB 1) | Some (TElem TyI 1) | Some (TElem TyJ 1) | Some (TElem TyK 1) => true | _ => false end.
Definition namedb (t : bintable) (name : str) (test : bintable -> Z -> bool) (default : bool) : bool :=
  match find_field_by_ttype (bt_ttypes t) name with Some c => countedb t c && test t c | None => default end.
Definition tile_headerb (t : bintable) (z : zimage) : bool :=
  forallb (fun f => match f with TElem TyX _ => false | TElem _ n => 1 <=? n | _ => true end) (bt_tforms t) &&
  countedb t (z_data_idx z) && arrayb t (z_data_idx z) && (1 <=? product (z_tilen z)) && (product (z_tilen z) <? 2 ^ 60) &&
  match z_cmp z with ZRice bs _ => product (z_tilen z) + bs <? 2 ^ 31 | _ => true end &&
  match z_bitpix z with
  | BF32 | BF64 => namedb t (chars "ZSCALE") realb false && namedb t (chars "ZZERO") realb false && namedb t (chars "ZBLANK") intb true
  | _ => true
  end.

Lemma realb_ok t c : realb t c = true -> real_column t c.
Proof.
  unfold realb, real_column. destruct (format t c) as [[e n|e|e]|]; try discriminate.
  destruct e; try discriminate; destruct n as [|[| |]|]; try discriminate; auto.
Qed.
Lemma intb_ok t c : intb t c = true -> int_column t c.
Proof.
  unfold intb, int_column. destruct (format t c) as [[e n|e|e]|]; try discriminate.
  destruct e; try discriminate; destruct n as [|[| |]|]; try discriminate; auto.
Qed.
Lemma arrayb_ok t c : arrayb t c = true -> array_column t c.
Proof. unfold arrayb, array_column. destruct (format t c) as [[e n|e|e]|]; try discriminate; eauto. Qed.
Lemma tile_headerb_ok t z : tile_headerb t z = true -> tile_header t z.
Proof.
  unfold tile_headerb. intro H. repeat (apply andb_prop in H as [H ?]).
  split. { rewrite forallb_forall in H. apply Forall_forall. intros f I. specialize (H f I). destruct f as [e n|e|e]; cbn [filled]; auto.
    destruct e; try discriminate; (split; [discriminate|lia]). }
  split; [apply countedb_ok; assumption|]. split; [apply arrayb_ok; assumption|]. split; [lia|].
  split; [destruct (z_cmp z); auto; lia|]. intro R.
  assert (G : namedb t (chars "ZSCALE") realb false && namedb t (chars "ZZERO") realb false && namedb t (chars "ZBLANK") intb true = true)
    by (unfold real_pixels in R; destruct (z_bitpix z); try assumption; destruct R; discriminate).
  apply andb_prop in G as [G Gb]. apply andb_prop in G as [Gs Gz].
  assert (Col : forall name, namedb t name realb false = true -> exists c, SpecTile.column t name c /\ real_column t c).
  { intros name Q. unfold namedb in Q. pose proof (find_field_spec (bt_ttypes t) name) as Fs.
    destruct (find_field_by_ttype (bt_ttypes t) name) as [c|]; [|discriminate]. apply andb_prop in Q as [Q1 Q2].
    exists c. split; [split; [exact Fs|apply countedb_ok, Q1]|apply realb_ok, Q2]. }
  split; [apply Col, Gs|]. split; [apply Col, Gz|]. intros c Fc.
  unfold namedb in Gb. pose proof (find_field_spec (bt_ttypes t) (chars "ZBLANK")) as Fb.
  destruct (find_field_by_ttype (bt_ttypes t) (chars "ZBLANK")) as [c'|]; [|destruct Fb; eapply first_named_in; eauto].
  rewrite (first_named_fun _ _ _ _ Fc Fb). apply andb_prop in Gb as [Q1 Q2]. split; [apply countedb_ok, Q1|apply intb_ok, Q2].
Qed.

Definition laid_outb (d : list Z) (t : bintable) (o : Z) : bool :=
  (len d <? 2 ^ 63) && (total (map field_bits (bt_tforms t)) <? 2 ^ 63) &&
  forallb (fun f => field_bits f mod 8 =? 0) (bt_tforms t) && (o + bt_naxis1 t * bt_naxis2 t <? 2 ^ 63).
Lemma laid_outb_ok d t o : laid_outb d t o = true -> table_laid_out d t o.
Proof.
  unfold laid_outb. intro H. repeat (apply andb_prop in H as [H ?]). split; [lia|]. split; [lia|]. split; [|lia].
  rewrite forallb_forall in *. apply Forall_forall. intros f I. specialize (H1 f I). lia.
Qed.

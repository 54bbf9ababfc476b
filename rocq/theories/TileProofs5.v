(** Tiles: whole images. *)

From Coq Require Import String.
From Verif Require Import Base TextLemmas Text Card Reader Header Xtension Bytes Fits ImageIt BinTable Rice Float Tile.
From Verif Require Import SpecCard SpecXt SpecFits SpecImage SpecBin SpecRice SpecTile.
From Verif Require Import BytesProofs ImageProofs XtProofs2 XtProofs3 BinProofs BinProofs2 BinProofs3.
From Verif Require Import TileProofs TileProofs2 TileProofs3 TileProofs4.

Lemma stored_once b bs x y : number_stored b bs x -> number_stored b bs y -> x = y.
Proof. intros (Hx & Ex) (Hy & Ey). rewrite <- (decode_encode b x Hx), <- (decode_encode b y Hy). congruence. Qed.

Lemma as_i32_low v : as_i32 v = low_signed 32 v.
Proof.
  unfold as_i32, to_signed, low_signed. change (2 ^ (8 * 4 - 1)) with 2147483648. change (2 ^ (8 * 4)) with 4294967296.
  change (2 ^ (32 - 1)) with 2147483648. change (2 ^ 32) with 4294967296.
  destruct (Z.ltb_spec (v mod 4294967296) 2147483648); Z.to_euclidean_division_equations; lia.
Qed.

(** ** Integers *)

Definition int_keys (b : bitpix) : keywords := match b with BU8 => KU8 | BI16 => KI16 | _ => KI32 end.

Lemma int_tile b ints : b = BU8 \/ b = BI16 \/ b = BI32 ->
  tile_pixels (int_keys b) ints = Some (map (int_pixel b) ints, int_keys b).
Proof.
  intro H. induction ints as [|v r IH]; [reflexivity|]. cbn [tile_pixels].
  destruct H as [->|[->| ->]]; cbn [int_keys one_pixel] in *; rewrite IH; reflexivity.
Qed.

(** ** Floats *)

Definition state_of (q : zquantiz) (i : Z) : quantiz :=
  match q with ZNoDither => QNo | ZSubtractive1 => QSub1 i | ZSubtractive2 => QSub2 i end.

Lemma random_at k : 0 <= k < 10000 -> index RAND_VALUES k = Ok (random k).
Proof.
  intro H. destruct (random_value k H) as (x & E & _). rewrite E. unfold random, index in *.
  replace (k <? 0) with false in E by lia. destruct (nth_error RAND_VALUES (Z.to_nat k)) as [y|] eqn:F; [|discriminate].
  rewrite (nth_error_nth _ _ S754_nan F). congruence.
Qed.

Lemma set_set f q q' : set_quantiz (set_quantiz f q) q' = set_quantiz f q'.
Proof. reflexivity. Qed.

Lemma float_tile q : forall ints f i, k_quant f = q -> k_state f = state_of q i -> 0 <= i < 10000 ->
  exists q', tile_pixels (KFloat f) ints = Some (float_pixels q (k_scale f) (k_zero f) (k_blank f) i ints, KFloat (set_quantiz f q')).
Proof.
  induction ints as [|v r IH]; intros f i Hq Hs Hi.
  - exists (k_state f). cbn [tile_pixels float_pixels]. destruct f. reflexivity.
  - cbn [tile_pixels one_pixel float_pixels].
    set (i' := if is_blank (k_blank f) v then i else (i + 1) mod 10000).
    assert (Hi' : 0 <= i' < 10000) by (unfold i'; destruct (is_blank _ _); [lia|apply Z.mod_pos_bound; lia]).
    assert (U : exists f', unquantize f v = Ok (match float_pixel q (k_scale f) (k_zero f) (k_blank f) (random i) v with PFloat x => x | _ => S754_nan end, f')
              /\ f' = set_quantiz f (k_state f') /\ k_state f' = state_of q i').
    { unfold unquantize, float_pixel. fold (is_blank (k_blank f) v). unfold i'.
      destruct (is_blank (k_blank f) v); [exists f; split; [reflexivity|]; split; [destruct f; reflexivity|exact Hs]|].
      rewrite Hs. destruct q; cbn [state_of].
      - exists f. split; [reflexivity|]. split; [destruct f; reflexivity|exact Hs].
      - rewrite (random_at i Hi). cbn [bind]. eexists. split; [reflexivity|]. split; reflexivity.
      - destruct (v =? -2147483647); [eexists; split; [reflexivity|]; split; reflexivity|].
        rewrite (random_at i Hi). cbn [bind]. eexists. split; [reflexivity|]. split; reflexivity. }
    destruct U as (f' & -> & Ef & Es).
    destruct (IH f' i') as (q' & E); auto.
    { rewrite Ef. exact Hq. }
    rewrite E. exists q'. rewrite Ef. cbn [set_quantiz k_scale k_zero k_blank]. rewrite set_set. reflexivity.
Qed.

Lemma float_pixels_len q s z b : forall ints i, length (float_pixels q s z b i ints) = length ints.
Proof. induction ints as [|v r IH]; intro i; cbn [float_pixels length]; auto. Qed.

(** Without blanks the place moves on with every pixel. *)
Lemma float_pixels_no_blank q s z b ints i : 0 <= i < 10000 -> Forall (fun v => is_blank b v = false) ints ->
  float_pixels q s z b i ints = dithered_pixels q s z b i ints.
Proof.
  intros Hi F. unfold dithered_pixels.
  assert (G : forall ints, Forall (fun v => is_blank b v = false) ints -> forall j,
    float_pixels q s z b ((i + Z.of_nat j) mod 10000) ints =
    map (fun p => float_pixel q s z b (random ((i + fst p) mod 10000)) (snd p)) (combine (map Z.of_nat (seq j (length ints))) ints)).
  { clear F ints. induction 1 as [|v r Hv F IH]; intro j; [reflexivity|]. cbn [float_pixels length seq map combine fst snd]. f_equal.
    rewrite Hv. rewrite Z.add_mod_idemp_l by lia. replace (i + Z.of_nat j + 1) with (i + Z.of_nat (S j)) by lia. apply IH. }
  specialize (G ints F O). rewrite Z.add_0_r, Z.mod_small in G by lia. unfold upto, len. rewrite Nat2Z.id. exact G.
Qed.

(** Undithered pixels take no random numbers. *)
Lemma float_pixels_plain s z b : forall ints i, float_pixels ZNoDither s z b i ints = map (float_pixel ZNoDither s z b S754_nan) ints.
Proof. induction ints as [|v r IH]; intro i; cbn [float_pixels map]; [reflexivity|]. rewrite IH. reflexivity. Qed.

(** ** Reading the image *)

Section Image.
Variables (gz : gunzip) (m : mode) (d : list Z) (t : bintable) (o : Z) (z : zimage) (vs : vmap) (ints : Z -> list Z).
Hypothesis Pr : table_present d t o.
Hypothesis Td : tiled d t o z.
Hypothesis Th : tiles_hold gz m d t o z ints.
Let N := product (z_tilen z).
Let n2 := bt_naxis2 t.
Notation all := (all_columns t).
Notation row_slots := (row_slots d t o false (all_columns t)).

Definition fuel_for : nat := (2 * Z.to_nat N + 1 + length (row_slots 0))%nat.

Lemma pixels_new_ok k :
  match z_bitpix z with
  | BU8 => Ok KU8 | BI16 => Ok KI16 | BI32 => Ok KI32
  | BF32 | BF64 => let! f := fkeys_new vs t z in Ok (KFloat f)
  | BI64 => Panic
  end = Ok k ->
  pixels_new m vs t (fresh d t o) z
  = Ok (st z (row_iter (read_the_heap (fresh d t o) false)) (repeat 0 (Z.to_nat (4 * N))) 0 0 k).
Proof.
  intro Hk. destruct Td as (_ & _ & _ & _ & HN & Ht). fold N in HN. unfold pixels_new.
  rewrite (usize_product_ok m (z_tilen z)) by (try apply product_pos; auto; fold N; lia). fold N. rewrite Z.mul_1_l. cbn [bind].
  rewrite u64_result_small by lia. cbn [bind]. replace (2 ^ 63 <=? N * 4) with false by lia. rewrite Hk. cbn [bind].
  unfold st. rewrite (Z.mul_comm N 4). reflexivity.
Qed.

(** The pixel iterator is made, and it turns the integers [is] of row [row] into the pixels [pix row is]. *)
Definition reads (pix : Z -> list Z -> list pixel) : Prop :=
  exists k0 (K : keywords -> Prop),
    pixels_new m vs t (fresh d t o) z = Ok (fresh_tiles z (read_the_heap (fresh d t o) false) k0) /\ K k0 /\
    (forall k row cells is, K k -> 0 <= row < n2 -> Forall2 (slot_value d) (row_slots row) cells ->
       exists k1 k2, keys_row m k cells (row + 1) = Ok k1 /\ tile_pixels k1 is = Some (pix row is, k2) /\ K k2) /\
    (forall k, K k -> supported k (z_cmp z)) /\ (forall row is, length (pix row is) = length is).

Lemma int_reads b : z_bitpix z = b -> b = BU8 \/ b = BI16 \/ b = BI32 -> (b = BU8 -> z_cmp z <> ZGzip2) ->
  reads (fun _ is => map (int_pixel b) is).
Proof.
  intros Hb Hi Hg. exists (int_keys b), (fun k => k = int_keys b). split; [|split; [reflexivity|split; [|split]]].
  - apply (pixels_new_ok (int_keys b)). rewrite Hb. destruct Hi as [->|[->| ->]]; reflexivity.
  - intros k row cells is -> Hr F. exists (int_keys b), (int_keys b). split; [destruct Hi as [->|[->| ->]]; reflexivity|].
    split; [apply int_tile; auto|reflexivity].
  - intros k -> [E1 E2]. apply Hg; [destruct Hi as [->|[->| ->]]; cbn in E1; congruence|exact E2].
  - intros row is. apply map_length.
Qed.

Lemma cell_number e row c x : format t c = Some (TElem e 1) -> cell d t o false row c = x :: tl (cell d t o false row c) ->
  x = SElem e (cell_start t o row c) c 0.
Proof.
  unfold cell. intros -> E. cbn [cell_slots] in E. unfold elems, upto in E. cbn in E. inversion E.
  rewrite Z.add_0_r. reflexivity.
Qed.

Lemma row_float_ok row c cells x : counted t c -> 0 <= row < n2 -> Forall2 (slot_value d) (row_slots row) cells ->
  float_cell d t o c row x -> row_float cells c = Ok x.
Proof.
  intros Hc Hr F (b & H). destruct Td as (_ & Ne & Re & _).
  destruct H as [(Hf & St & ->)|(Hf & St & ->)];
    destruct (row_value d t o Pr Re row c _ cells Hc Hf Hr F) as (y & v & Ey & Ei & V);
    apply (cell_number _ _ _ _ Hf) in Ey; subst y; destruct V as (w & -> & y & Sy & ->);
    unfold row_float; rewrite Ei; cbn [bind]; [change (elem_bytes TyE) with 4 in Sy|change (elem_bytes TyD) with 8 in Sy];
    rewrite (stored_once _ _ _ _ St Sy); reflexivity.
Qed.

Lemma row_blank_ok row c cells x : counted t c -> 0 <= row < n2 -> Forall2 (slot_value d) (row_slots row) cells ->
  int_cell d t o c row x -> row_blank cells c = Ok x.
Proof.
  intros Hc Hr F (b & H). destruct Td as (_ & Ne & Re & _).
  destruct H as [(Hf & St & ->)|[(Hf & St & ->)|[(Hf & St & ->)|(Hf & St & ->)]]];
    destruct (row_value d t o Pr Re row c _ cells Hc Hf Hr F) as (y & v & Ey & Ei & V);
    apply (cell_number _ _ _ _ Hf) in Ey; subst y; destruct V as (w & -> & y & Sy & ->);
    unfold row_blank; rewrite Ei; cbn [bind];
    [change (elem_bytes TyB) with 1 in Sy|change (elem_bytes TyI) with 2 in Sy|change (elem_bytes TyJ) with 4 in Sy|change (elem_bytes TyK) with 8 in Sy];
    rewrite (stored_once _ _ _ _ St Sy); try reflexivity. rewrite as_i32_low. reflexivity.
Qed.

Notation quant := (quantiser z).
Notation dither0 := (dither_seed z).

Lemma blank_parsed : ok (get_parsed (de_int (- 2 ^ 31) (2 ^ 31 - 1)) vs (chars "ZBLANK")) = blank_keyword vs.
Proof.
  unfold blank_keyword, get_parsed. destruct (get vs (chars "ZBLANK")) as [v|]; [|reflexivity]. cbn [value_or_undefined].
  destruct v as [v c| | | | |]; try reflexivity. unfold de_int.
  replace (v <=? 2 ^ 31 - 1) with (v <? 2 ^ 31) by lia. destruct ((- 2 ^ 31 <=? v) && (v <? 2 ^ 31)); reflexivity.
Qed.

Lemma row_small row c x : 0 <= row < n2 -> float_cell d t o c row x -> row < 2 ^ 63.
Proof.
  intros Hr (b & H). destruct Pr as (_ & D & O & _ & _ & F & N1 & _ & I).
  assert (W : exists f, format t c = Some f /\ 1 <= field_bytes f) by (destruct H as [(Hf & _)|(Hf & _)]; eexists; (split; [exact Hf|]); vm_compute; discriminate).
  destruct W as (f & Hf & W). apply format_nth in Hf as (C0 & Cn).
  pose proof (column_start_next _ _ _ Cn) as E.
  pose proof (column_start_mono _ (S (Z.to_nat c)) (length (bt_tforms t)) F) as M. rewrite firstn_all in M.
  pose proof (column_start_nonneg t c F) as P. unfold column_start in P.
  assert (S (Z.to_nat c) <= length (bt_tforms t))%nat by (apply nth_error_Some; congruence).
  specialize (M H0). assert (1 <= bt_naxis1 t) by lia. unfold n2 in Hr.
  assert (bt_naxis2 t <= bt_naxis1 t * bt_naxis2 t) by nia. lia.
Qed.

Lemma float_reads scale zero blank : z_bitpix z = BF32 \/ z_bitpix z = BF64 ->
  quantised d t o vs scale zero blank -> (quant <> ZNoDither -> 0 <= dither0 < 2 ^ 63) ->
  reads (fun row is => float_pixels quant (scale row) (zero row) (blank row) (first_entry row dither0) is).
Proof.
  intros Hb (cs & cz & (Ns & Cs) & (Nz & Cz) & Q) Hd.
  pose proof (find_field_spec (bt_ttypes t) (chars "ZSCALE")) as Fs. pose proof (find_field_spec (bt_ttypes t) (chars "ZZERO")) as Fz.
  pose proof (find_field_spec (bt_ttypes t) (chars "ZBLANK")) as Fb.
  destruct (find_field_by_ttype (bt_ttypes t) (chars "ZSCALE")) as [cs'|] eqn:Es; [|destruct Fs; eapply first_named_in; eauto].
  destruct (find_field_by_ttype (bt_ttypes t) (chars "ZZERO")) as [cz'|] eqn:Ez; [|destruct Fz; eapply first_named_in; eauto].
  assert (cs' = cs) by (eapply first_named_fun; eauto). assert (cz' = cz) by (eapply first_named_fun; eauto). subst cs' cz'.
  remember (find_field_by_ttype (bt_ttypes t) (chars "ZBLANK")) as bi eqn:Ebi.
  set (bk := match bi with Some _ => None | None => blank_keyword vs end).
  set (f0 := mk_fkeys cs cz bi dither0 quant (f32_of_int 1) (S754_zero false) bk QNo).
  exists (KFloat f0), (fun k => exists f, k = KFloat f /\ k_scale_idx f = cs /\ k_zero_idx f = cz /\ k_blank_idx f = bi /\
                                  k_dither0 f = dither0 /\ k_quant f = quant /\ (bi = None -> k_blank f = blank_keyword vs)).
  split; [|split; [|split; [|split]]].
  - apply (pixels_new_ok (KFloat f0)).
    assert (E : fkeys_new vs t z = Ok f0).
    { unfold fkeys_new. rewrite Es, Ez, <- Ebi. rewrite blank_parsed. reflexivity. }
    rewrite E. destruct Hb as [-> | ->]; reflexivity.
  - exists f0. repeat (split; [reflexivity|]). intro Bn. unfold f0, bk. cbn [k_blank]. rewrite Bn. reflexivity.
  - intros k row cells is (f & -> & H1 & H2 & H3 & H4 & H5 & H6) Hr F. destruct (Q row Hr) as (Qs & Qz & Qb).
      assert (Bl : (match k_blank_idx f with Some i => let! b := row_blank cells i in Ok (Some b) | None => Ok (k_blank f) end) = Ok (blank row)).
      { rewrite H3. destruct Qb as [(c & v & (Nb & Cb) & Ic & ->)|(Nb & ->)].
        - destruct bi as [c'|]; [|destruct Fb; eapply first_named_in; eauto].
          assert (c' = c) by (eapply first_named_fun; eauto). subst c'. rewrite (row_blank_ok row c cells v); auto.
        - destruct bi as [c'|]; [destruct Nb; eapply first_named_in; eauto|].
          rewrite H6; auto. }
      set (f1 := mk_fkeys cs cz bi dither0 quant (scale row) (zero row) (blank row) (state_of quant (first_entry row dither0))).
      assert (E1 : keys_row m (KFloat f) cells (row + 1) = Ok (KFloat f1)).
      { cbn [keys_row]. unfold fkeys_row. rewrite H5, H4.
        assert (D : quant <> ZNoDither -> dither_start m (row + 1) dither0 = Ok (first_entry row dither0)) by (intro; pose proof (row_small row cs _ Hr Qs); apply dither_start_ok; lia).
        rewrite Bl, H1, H2, (row_float_ok row cs cells _ Cs Hr F Qs), (row_float_ok row cz cells _ Cz Hr F Qz), H3.
        destruct quant eqn:Eq; try rewrite D by discriminate; cbn [bind]; unfold f1; try rewrite Eq; reflexivity. }
      pose proof (first_entry_range row dither0) as Fr.
      destruct (float_tile quant is f1 (first_entry row dither0)) as (q' & E2); auto; [lia|].
      exists (KFloat f1), (KFloat (set_quantiz f1 q')). split; [exact E1|]. split; [exact E2|].
      exists (set_quantiz f1 q'). repeat (split; [reflexivity|]). intro Bn. cbn [set_quantiz f1 k_blank].
      destruct Qb as [(c & v & (Nb & _) & _)|(_ & ->)]; [|reflexivity].
      rewrite Bn in Fb. destruct Fb. eapply first_named_in; eauto.
  - intros k (f & -> & _) [E _]. discriminate.
  - intros row is. apply float_pixels_len.
Qed.

Lemma held_decodes fuel lim : (fuel_for <= fuel)%nat ->
  (forall row, 0 <= row < lim -> len (ints row) = N /\
     exists bytes, tile_at d t o (z_data_idx z) row bytes /\ holds_tile gz m (z_cmp z) bytes (ints row)) ->
  forall row, 0 <= row < lim -> len (ints row) = N /\
    exists bytes, tile_at d t o (z_data_idx z) row bytes /\ decodes gz m fuel z bytes (ints row).
Proof.
  intros Hf H row Hr. destruct (H row Hr) as (L & bytes & T & Hb). split; [exact L|]. exists bytes. split; [exact T|].
  destruct Td as (_ & Ne & Re & Co & HN & Ht).
  eapply holds_decodes; eauto. eapply tile_octets; eauto.
Qed.

Lemma tiles_run_app fuel : forall a s b,
  fst (tiles_run gz m fuel s (a + b)) = fst (tiles_run gz m fuel s a) ++ fst (tiles_run gz m fuel (snd (tiles_run gz m fuel s a)) b).
Proof.
  induction a as [|a IH]; intros s b; [reflexivity|]. cbn [tiles_run Nat.add]. destruct (tiles_do gz m fuel s) as [r s1].
  specialize (IH s1 b). destruct (tiles_run gz m fuel s1 (a + b)) as [l1 e1]. destruct (tiles_run gz m fuel s1 a) as [l2 e2].
  cbn [fst snd] in *. rewrite IH. reflexivity.
Qed.

(** The first [lim] tiles. *)
Section First.
Variables (lim : Z) (pix : Z -> list Z -> list pixel).
Hypothesis Hlim : 0 <= lim <= n2.
Hypothesis Rd : reads pix.
Let pixels (row : Z) := pix row (ints row).
Definition decoded_to (fuel : nat) : Prop := forall row, 0 <= row < lim -> len (ints row) = N /\
  exists bytes, tile_at d t o (z_data_idx z) row bytes /\ decodes gz m fuel z bytes (ints row).

Lemma image_whole : lim = n2 -> exists s0, pixels_new m vs t (fresh d t o) z = Ok s0 /\
  forall fuel n, (fuel_for <= fuel)%nat -> decoded_to fuel ->
    fst (tiles_run gz m fuel s0 n) = firstn n (map PixelOf (flat_map pixels (upto n2)) ++ repeat PixEnd n) /\
    tl_reader (snd (tiles_run gz m fuel s0 n)) = mk_reader d (o + bt_naxis1 t * Z.min n2 ((Z.of_nat n + N - 1) / N)).
Proof.
  intros El. destruct Rd as (k0 & K & E0 & HK0 & HK & KS & Px). destruct Td as (_ & Ne & Re & Co & HN & Ht). fold N in HN.
  eexists. split; [exact E0|]. intros fuel n Fu Ti.
  assert (Px' : forall row, 0 <= row < lim -> len (pixels row) = N) by (intros row Hr; unfold len, pixels; rewrite Px; apply Ti, Hr).
  assert (HK' : forall k row cells, K k -> 0 <= row < lim -> Forall2 (slot_value d) (row_slots row) cells ->
    exists k1 k2, keys_row m k cells (row + 1) = Ok k1 /\ tile_pixels k1 (ints row) = Some (pixels row, k2) /\ K k2)
    by (intros; apply HK; auto; unfold n2 in *; lia).
  apply (tiles_from_start gz m fuel d t o z Pr Re Ne HN Ht Co Fu lim Hlim ints pixels Ti K HK' KS Px'); auto.
  apply (fresh_inv d (len d)); auto.
Qed.

(** All is well up to the tile [lim], whatever follows. *)
Lemma image_prefix : exists s0, pixels_new m vs t (fresh d t o) z = Ok s0 /\
  forall fuel n, (fuel_for <= fuel)%nat -> decoded_to fuel -> Z.of_nat n <= N * lim ->
    fst (tiles_run gz m fuel s0 n) = map PixelOf (firstn n (flat_map pixels (upto lim))) /\
    tl_reader (snd (tiles_run gz m fuel s0 n)) = mk_reader d (o + bt_naxis1 t * ((Z.of_nat n + N - 1) / N)).
Proof.
  destruct Rd as (k0 & K & E0 & HK0 & HK & KS & Px). destruct Td as (_ & Ne & Re & Co & HN & Ht). fold N in HN.
  eexists. split; [exact E0|]. intros fuel n Fu Ti Hn.
  assert (Px' : forall row, 0 <= row < lim -> len (pixels row) = N) by (intros row Hr; unfold len, pixels; rewrite Px; apply Ti, Hr).
  assert (HK' : forall k row cells, K k -> 0 <= row < lim -> Forall2 (slot_value d) (row_slots row) cells ->
    exists k1 k2, keys_row m k cells (row + 1) = Ok k1 /\ tile_pixels k1 (ints row) = Some (pixels row, k2) /\ K k2)
    by (intros; apply HK; auto; unfold n2 in *; lia).
  destruct (tiles_prefix gz m fuel d t o z Pr Re Ne HN Ht Co Fu lim Hlim ints pixels Ti K HK' KS Px' (read_the_heap (fresh d t o) false) k0 n)
    as (s' & row' & E & I'); auto.
  { apply (fresh_inv d (len d)); auto. }
  rewrite E. cbn [fst snd]. split; [reflexivity|].
  destruct (tinv_place gz m fuel d t o z Pr Re HN Fu lim ints pixels Ti K HK' KS Px' s' row' _ I') as (-> & ->). f_equal. f_equal. f_equal.
  pose proof (later_len gz m fuel d t o z HN Fu lim ints pixels Ti K HK' Px' 0 ltac:(lia)) as L.
  rewrite (later_all gz m fuel d t o z Fu lim ints pixels Ti K HK' Px'), Z.sub_0_r in L. fold N in L. fold N.
  unfold len in *. rewrite skipn_length, Nat2Z.inj_sub_max, L. rewrite Z.max_r by lia. clear - HN Hn.
  set (a := Z.of_nat n) in *. symmetry. replace (a + N - 1) with (lim * N + (- (N * lim - a) + (N - 1))) by lia.
  pose proof (Z.div_mod (N * lim - a) N ltac:(lia)) as D. pose proof (Z.mod_pos_bound (N * lim - a) N ltac:(lia)) as B.
  symmetry. apply Z.div_unique with (r := N - 1 - (N * lim - a) mod N); lia.
Qed.

(** The tile [lim] cannot be decompressed: the end. *)
Lemma image_broken : lim < n2 -> exists s0, pixels_new m vs t (fresh d t o) z = Ok s0 /\
  forall fuel bytes e, (fuel_for <= fuel)%nat -> decoded_to fuel -> tile_at d t o (z_data_idx z) lim bytes ->
    (forall buf r, rd_rest r = bytes -> len buf = 4 * N -> fst (fst (decompress gz m fuel (z_cmp z) N buf r)) = Some (Err e)) ->
    fst (tiles_run gz m fuel s0 (Z.to_nat (N * lim + 1))) = map PixelOf (flat_map pixels (upto lim)) ++ [PixEnd].
Proof.
  intro Hl. destruct Rd as (k0 & K & E0 & HK0 & HK & KS & Px). destruct Td as (_ & Ne & Re & Co & HN & Ht). fold N in HN.
  eexists. split; [exact E0|]. intros fuel bytes e Fu Ti At De.
  assert (Px' : forall row, 0 <= row < lim -> len (pixels row) = N) by (intros row Hr; unfold len, pixels; rewrite Px; apply Ti, Hr).
  assert (HK' : forall k row cells, K k -> 0 <= row < lim -> Forall2 (slot_value d) (row_slots row) cells ->
    exists k1 k2, keys_row m k cells (row + 1) = Ok k1 /\ tile_pixels k1 (ints row) = Some (pixels row, k2) /\ K k2)
    by (intros; apply HK; auto; unfold n2 in *; lia).
  destruct (tiles_prefix gz m fuel d t o z Pr Re Ne HN Ht Co Fu lim Hlim ints pixels Ti K HK' KS Px' (read_the_heap (fresh d t o) false) k0 (Z.to_nat (N * lim)))
    as (s' & row' & E & I'); auto.
  { apply (fresh_inv d (len d)); auto. }
  { fold N. lia. }
  pose proof (later_len gz m fuel d t o z HN Fu lim ints pixels Ti K HK' Px' 0 ltac:(lia)) as L.
  rewrite (later_all gz m fuel d t o z Fu lim ints pixels Ti K HK' Px'), Z.sub_0_r in L. fold N in L. unfold len in L.
  rewrite firstn_all2 in E by lia. rewrite skipn_all2 in I' by lia.
  destruct (tile_step_broken gz m fuel d t o z Pr Re Ne HN Ht Co Fu lim Hlim ints pixels Ti K HK' KS s' row' bytes e Hl I' At) as (s2 & E2).
  { intros k cells Hk F. destruct (HK k lim cells [] Hk ltac:(lia) F) as (k1 & k2 & X & _). eauto. }
  { exact De. }
  replace (Z.to_nat (N * lim + 1)) with (Z.to_nat (N * lim) + 1)%nat by lia.
  rewrite tiles_run_app, E. cbn [fst snd tiles_run]. rewrite E2. reflexivity.
Qed.
End First.

Lemma int_image b : z_bitpix z = b -> b = BU8 \/ b = BI16 \/ b = BI32 -> (b = BU8 -> z_cmp z <> ZGzip2) ->
  exists s, pixels_new m vs t (fresh d t o) z = Ok s /\ forall fuel n, (fuel_for <= fuel)%nat ->
    fst (tiles_run gz m fuel s n)
    = firstn n (map PixelOf (flat_map (fun row => map (int_pixel b) (ints row)) (upto n2)) ++ repeat PixEnd n) /\
    tl_reader (snd (tiles_run gz m fuel s n)) = mk_reader d (o + bt_naxis1 t * Z.min n2 ((Z.of_nat n + N - 1) / N)).
Proof.
  intros Hb Hi Hg. pose proof (size_small d t o Pr) as (_ & _ & S3 & _). fold n2 in S3.
  destruct (image_whole n2 _ ltac:(lia) (int_reads b Hb Hi Hg) eq_refl) as (s & E & R). exists s. split; [exact E|].
  intros fuel n Hf. apply R; auto. exact (held_decodes fuel n2 Hf Th).
Qed.

Lemma float_image scale zero blank : z_bitpix z = BF32 \/ z_bitpix z = BF64 ->
  quantised d t o vs scale zero blank -> (quant <> ZNoDither -> 0 <= dither0 < 2 ^ 63) ->
  exists s, pixels_new m vs t (fresh d t o) z = Ok s /\ forall fuel n, (fuel_for <= fuel)%nat ->
    fst (tiles_run gz m fuel s n)
    = firstn n (map PixelOf (flat_map (fun row =>
        float_pixels quant (scale row) (zero row) (blank row) (first_entry row dither0) (ints row)) (upto n2)) ++ repeat PixEnd n) /\
    tl_reader (snd (tiles_run gz m fuel s n)) = mk_reader d (o + bt_naxis1 t * Z.min n2 ((Z.of_nat n + N - 1) / N)).
Proof.
  intros Hb Hq Hd. pose proof (size_small d t o Pr) as (_ & _ & S3 & _). fold n2 in S3.
  destruct (image_whole n2 _ ltac:(lia) (float_reads scale zero blank Hb Hq Hd) eq_refl) as (s & E & R). exists s. split; [exact E|].
  intros fuel n Hf. apply R; auto. exact (held_decodes fuel n2 Hf Th).
Qed.
End Image.

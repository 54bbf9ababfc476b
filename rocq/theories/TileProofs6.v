(** Tiles: statements about the tables of a file. *)

From Coq Require Import String.
From Verif Require Import Base TextLemmas Text Card Reader Header Xtension Bytes Fits ImageIt BinTable Rice Float Tile.
From Verif Require Import SpecCard SpecXt SpecFits SpecImage SpecBin SpecRice SpecTile.
From Verif Require Import FitsProofs4 BytesProofs ImageProofs XtProofs2 XtProofs3 BinProofs BinProofs2 BinProofs3.
From Verif Require Import TileProofs TileProofs2 TileProofs3 TileProofs4 TileProofs5.

Section FileTiles.
Variables (gz : gunzip) (m : mode) (d : list Z) (f : fits) (h : hdu) (f' : fits) (t : bintable) (z : zimage) (ints : Z -> list Z).
Hypothesis Oc : octets d.
Hypothesis Da : rd_data (f_reader f) = d.
Hypothesis Po : 0 <= rd_pos (f_reader f).
Hypothesis Nx : next m f = (IOk h, f').
Hypothesis Xt : h_xt h = XtBin t.
Let o := h_offset h.
Hypothesis Td : tiled d t o z.
Hypothesis Th : tiles_hold gz m d t o z ints.

Let Pr : table_present d t o.
Proof. apply (file_present m d f h f' t); auto. apply Td. Qed.
Let Gt : get_table m f' t = Ok (fresh d t o).
Proof. apply (file_table m d f h f' t); auto. apply Td. Qed.

Lemma int_file : bt_zimage t = Some z -> whole_pixels (z_bitpix z) -> ~ (z_bitpix z = BU8 /\ z_cmp z = ZGzip2) ->
  exists s fuel0, get_tiles m f' (h_values h) t = Some (Ok s) /\
    forall fuel n, (fuel0 <= fuel)%nat ->
    fst (tiles_run gz m fuel s n)
    = firstn n (map PixelOf (flat_map (fun row => map (int_pixel (z_bitpix z)) (ints row)) (upto (bt_naxis2 t))) ++ repeat PixEnd n) /\
    tl_reader (snd (tiles_run gz m fuel s n)) = mk_reader d (o + bt_naxis1 t * Z.min (bt_naxis2 t) (tiles_begun z n)).
Proof.
  intros Hz Hb Hg.
  destruct (int_image gz m d t o z (h_values h) ints Pr Td Th (z_bitpix z)) as (s & E & R); auto.
  exists s, (fuel_for d t o z). unfold get_tiles. rewrite Hz, Gt. cbn [bind]. rewrite E. split; [reflexivity|]. exact R.
Qed.

Lemma float_new vs scale zero blank : real_pixels (z_bitpix z) -> quantised d t o vs scale zero blank ->
  (quantiser z <> ZNoDither -> 0 <= dither_seed z < 2 ^ 63) ->
  exists s fuel0, (let! data := get_table m f' t in pixels_new m vs t data z) = Ok s /\
    forall fuel n, (fuel0 <= fuel)%nat ->
    fst (tiles_run gz m fuel s n)
    = firstn n (map PixelOf (flat_map (fun row => float_pixels (quantiser z) (scale row) (zero row) (blank row)
                                                    (first_entry row (dither_seed z)) (ints row)) (upto (bt_naxis2 t))) ++ repeat PixEnd n) /\
    tl_reader (snd (tiles_run gz m fuel s n)) = mk_reader d (o + bt_naxis1 t * Z.min (bt_naxis2 t) (tiles_begun z n)).
Proof.
  intros Hb Hq Hd. destruct (float_image gz m d t o z vs ints Pr Td Th scale zero blank) as (s & E & R); auto.
  exists s, (fuel_for d t o z). rewrite Gt. cbn [bind]. split; [exact E|exact R].
Qed.

Lemma plain_file scale zero blank : bt_zimage t = Some z -> real_pixels (z_bitpix z) ->
  quantised d t o (h_values h) scale zero blank ->
  exists s fuel0, get_tiles m f' (h_values h) t = Some (Ok s) /\
    forall fuel n, (fuel0 <= fuel)%nat ->
    fst (tiles_run gz m fuel s n)
    = firstn n (map PixelOf (flat_map (fun row => map (float_pixel ZNoDither (scale row) (zero row) (blank row) S754_nan) (ints row))
                                      (upto (bt_naxis2 t))) ++ repeat PixEnd n) /\
    tl_reader (snd (tiles_run gz m fuel s n)) = mk_reader d (o + bt_naxis1 t * Z.min (bt_naxis2 t) (tiles_begun z n)).
Proof.
  intros Hz Hb Hq.
  assert (Q : quantiser z = ZNoDither).
  { destruct (after_next_bin m d f h f' t Oc Da Po Nx Xt) as (n & _ & _ & _ & _ & _ & vs & P).
    unfold quantiser. rewrite (zquantiz_never m vs t z P Hz). reflexivity. }
  destruct (float_new (h_values h) scale zero blank Hb Hq) as (s & fu & E & R); [congruence|].
  exists s, fu. split; [unfold get_tiles; rewrite Hz; f_equal; exact E|]. intros fuel n Hf. destruct (R fuel n Hf) as (R1 & R2).
  split; [|exact R2]. rewrite R1. do 3 f_equal. rewrite Q. apply flat_map_ext. intro row. apply float_pixels_plain.
Qed.
End FileTiles.

(** ** Checking the hypotheses on concrete tables *)

Definition table_insideb (d : list Z) (t : bintable) (o : Z) : bool :=
  (len d <? 2 ^ 63) && (total (map field_bits (bt_tforms t)) <? 2 ^ 63) &&
  forallb (fun f => field_bits f mod 8 =? 0) (bt_tforms t) && (o + bt_naxis1 t * bt_naxis2 t <=? len d).
Definition countedb (t : bintable) (c : Z) : bool :=
  forallb (fun f => match f with TElem _ n => n =? 1 | _ => true end) (firstn (Z.to_nat c) (bt_tforms t)).
Definition tiledb (d : list Z) (t : bintable) (o : Z) (z : zimage) : bool :=
  table_insideb d t o && (1 <=? len (bt_tforms t)) && columns_readableb d (len d) t o false (all_columns t) &&
  countedb t (z_data_idx z) && (1 <=? product (z_tilen z)) && (product (z_tilen z) <? 2 ^ 60) && forallb (fun x => 0 <=? x) (z_tilen z).

Lemma countedb_ok t c : countedb t c = true -> counted t c.
Proof.
  unfold countedb, counted. rewrite forallb_forall, Forall_forall. intros H f I. specialize (H f I).
  destruct f; cbn in *; auto. lia.
Qed.
Lemma tiledb_ok d t o z : tiledb d t o z = true -> tiled d t o z.
Proof.
  unfold tiledb, table_insideb. intro H. repeat (apply andb_prop in H as [H ?]).
  repeat split; try lia.
  - rewrite forallb_forall in *. apply Forall_forall. intros f I. specialize (H7 f I). lia.
  - destruct (bt_tforms t); [discriminate|discriminate].
  - apply columns_readableb_ok. assumption.
  - apply countedb_ok. assumption.
  - rewrite forallb_forall in *. apply Forall_forall. intros x I. specialize (H0 x I). lia.
Qed.

Definition tile_bytes (d : list Z) (t : bintable) (o c row : Z) : option (list Z) :=
  match format t c with
  | Some f => match desc_place d f (o + row * bt_naxis1 t + column_start (bt_tforms t) c) with
              | Some p => if o + bt_theap t + p <? 2 ^ 63 then Some (skipn (Z.to_nat (o + bt_theap t + p)) d) else None
              | None => None
              end
  | None => None
  end.
Lemma tile_bytes_ok d t o c row bytes : tile_bytes d t o c row = Some bytes -> tile_at d t o c row bytes.
Proof.
  unfold tile_bytes, tile_at. destruct (format t c) as [f|]; [|discriminate].
  destruct (desc_place d f _) as [p|] eqn:E; [|discriminate]. destruct (Z.ltb_spec (o + bt_theap t + p) (2 ^ 63)); [|discriminate].
  intro H'. inversion H'. exists f, p. auto.
Qed.

Definition eqbl (a b : list Z) : bool := (len a =? len b) && forallb (fun p => fst p =? snd p) (combine a b).
Lemma eqbl_ok a : forall b, eqbl a b = true -> a = b.
Proof.
  unfold eqbl, len. induction a as [|x a IH]; intros [|y b]; cbn; try reflexivity; try discriminate; intro H.
  apply andb_prop in H as [H1 H2]. apply andb_prop in H2 as [H2 H3]. f_equal; [lia|]. apply IH. rewrite H3. lia.
Qed.

Definition gzip_tileb (gz : gunzip) (cmp : zcmp) (bytes ints : list Z) : bool :=
  forallb (fun v => (- 2 ^ 31 <=? v) && (v <? 2 ^ 31)) ints &&
  match fst (fst (gz bytes (4 * len ints))) with
  | Some l => match cmp with
              | ZGzip1 => eqbl l (flat_map be4 ints)
              | ZGzip2 => eqbl l (planes ints)
              | _ => false
              end
  | None => false
  end.
Lemma gzip_tileb_ok gz m cmp bytes ints : gzip_tileb gz cmp bytes ints = true -> holds_tile gz m cmp bytes ints.
Proof.
  unfold gzip_tileb, holds_tile. intro H. apply andb_prop in H as [H1 H2]. split.
  - rewrite forallb_forall in H1. apply Forall_forall. intros v I. specialize (H1 v I). lia.
  - destruct (fst (fst (gz bytes (4 * len ints)))) as [l|]; [|discriminate].
    destruct cmp; try discriminate; apply eqbl_ok in H2; congruence.
Qed.
Definition gzip_tilesb (gz : gunzip) (d : list Z) (t : bintable) (o : Z) (z : zimage) (ints : Z -> list Z) : bool :=
  forallb (fun row => (len (ints row) =? product (z_tilen z)) &&
                      match tile_bytes d t o (z_data_idx z) row with Some b => gzip_tileb gz (z_cmp z) b (ints row) | None => false end)
          (upto (bt_naxis2 t)).
Lemma gzip_tilesb_ok gz m d t o z ints : gzip_tilesb gz d t o z ints = true -> tiles_hold gz m d t o z ints.
Proof.
  unfold gzip_tilesb. rewrite forallb_forall. intros H row Hr. specialize (H row (proj2 (upto_In _ _) Hr)).
  apply andb_prop in H as [H1 H2]. split; [lia|].
  destruct (tile_bytes d t o (z_data_idx z) row) as [b|] eqn:E; [|discriminate]. exists b. split; [apply tile_bytes_ok, E|].
  apply gzip_tileb_ok, H2.
Qed.

Lemma compressed_more r nb x0 blocks bytes more : compressed r nb x0 blocks bytes -> compressed r nb x0 blocks (bytes ++ more).
Proof.
  intros (head & data & rest & H1 & H2 & H3 & H4 & H5 & H6). exists head, (data ++ more), (rest ++ bit_stream more).
  repeat (split; [solve [auto]|]). split; [rewrite H2, app_assoc; reflexivity|]. repeat (split; [solve [auto]|]).
  unfold bit_stream in *. rewrite flat_map_app, H6, app_assoc. reflexivity.
Qed.
Lemma rice_tile_ok gz m bs bp b bytes x0 blocks :
  firstn (length b) bytes = b -> compressed RI32 bs x0 blocks b -> len (block_pixels blocks) + bs <= 2 ^ 31 ->
  gentle x0 (block_pixels blocks) -> short_runs RI32 x0 blocks ->
  Forall (fun v => - 2 ^ 31 <= v < 2 ^ 31) (block_pixels blocks) ->
  holds_tile gz m (ZRice bs bp) bytes (block_pixels blocks).
Proof.
  intros Hb Hc Hl Hg Hs Hi. split; [exact Hi|]. split; [exact Hl|]. exists x0, blocks. split; [reflexivity|].
  split; [|auto]. rewrite <- (firstn_skipn (length b) bytes), Hb. apply compressed_more, Hc.
Qed.

Definition ex_find_tiles (m : mode) (d : list Z) : option (hdu * fits * bintable * zimage) :=
  match next m (snd (next m (opened d))) with
  | (IOk h, f') => match h_xt h with
                   | XtBin t => match bt_zimage t with Some z => Some (h, f', t, z) | _ => None end
                   | _ => None
                   end
  | _ => None
  end.
Lemma ex_tiles m d (P : hdu -> fits -> bintable -> zimage -> Prop) :
  octetsb d = true -> rd_data (f_reader (snd (next m (opened d)))) = d ->
  0 <= rd_pos (f_reader (snd (next m (opened d)))) ->
  match ex_find_tiles m d with Some (h, f', t, z) => P h f' t z | None => False end ->
  exists h f' t z, found_tiles m d h f' t z /\ P h f' t z.
Proof.
  intros O D P0 H. unfold ex_find_tiles in H. destruct (next m (snd (next m (opened d)))) as [i f'] eqn:N.
  destruct i as [|h| |]; try contradiction. destruct (h_xt h) as [| |t] eqn:X; try contradiction.
  destruct (bt_zimage t) as [z|] eqn:Z; [|contradiction]. exists h, f', t, z. split; [|exact H].
  split; [apply octetsb_ok; exact O|]. exists (snd (next m (opened d))). auto 10.
Qed.

(** ** Statements *)

Lemma int_tiles_read gz m d f h f' t z ints :
  octets d -> rd_data (f_reader f) = d -> 0 <= rd_pos (f_reader f) -> next m f = (IOk h, f') ->
  h_xt h = XtBin t -> bt_zimage t = Some z ->
  tiled d t (h_offset h) z -> tiles_hold gz m d t (h_offset h) z ints ->
  whole_pixels (z_bitpix z) -> ~ (z_bitpix z = BU8 /\ z_cmp z = ZGzip2) ->
  exists s fuel0, get_tiles m f' (h_values h) t = Some (Ok s) /\
    forall fuel n, (fuel0 <= fuel)%nat ->
    fst (tiles_run gz m fuel s n)
    = firstn n (map PixelOf (flat_map (fun row => map (int_pixel (z_bitpix z)) (ints row)) (upto (bt_naxis2 t))) ++ repeat PixEnd n).
Proof.
  intros. destruct (int_file gz m d f h f' t z ints) as (s & fu & E & R); auto.
  exists s, fu. split; [exact E|]. intros fuel n Hf. apply R, Hf.
Qed.

Lemma float_tiles_read gz m d f h f' t z ints scale zero blank :
  octets d -> rd_data (f_reader f) = d -> 0 <= rd_pos (f_reader f) -> next m f = (IOk h, f') ->
  h_xt h = XtBin t -> bt_zimage t = Some z ->
  tiled d t (h_offset h) z -> tiles_hold gz m d t (h_offset h) z ints ->
  real_pixels (z_bitpix z) -> quantised d t (h_offset h) (h_values h) scale zero blank ->
  exists s fuel0, get_tiles m f' (h_values h) t = Some (Ok s) /\
    forall fuel n, (fuel0 <= fuel)%nat ->
    fst (tiles_run gz m fuel s n)
    = firstn n (map PixelOf (flat_map (fun row => map (float_pixel ZNoDither (scale row) (zero row) (blank row) S754_nan) (ints row))
                                      (upto (bt_naxis2 t))) ++ repeat PixEnd n).
Proof.
  intros. destruct (plain_file gz m d f h f' t z ints) with (scale := scale) (zero := zero) (blank := blank) as (s & fu & E & R); auto.
  exists s, fu. split; [exact E|]. intros fuel n Hf. apply R, Hf.
Qed.

Lemma tiles_return gz m d f h f' t z ints scale zero blank :
  octets d -> rd_data (f_reader f) = d -> 0 <= rd_pos (f_reader f) -> next m f = (IOk h, f') ->
  h_xt h = XtBin t -> bt_zimage t = Some z ->
  tiled d t (h_offset h) z -> tiles_hold gz m d t (h_offset h) z ints ->
  whole_pixels (z_bitpix z) /\ ~ (z_bitpix z = BU8 /\ z_cmp z = ZGzip2) \/
  real_pixels (z_bitpix z) /\ quantised d t (h_offset h) (h_values h) scale zero blank ->
  exists s fuel0, get_tiles m f' (h_values h) t = Some (Ok s) /\
    forall fuel n, (fuel0 <= fuel)%nat ->
    tl_reader (snd (tiles_run gz m fuel s n))
    = mk_reader d (h_offset h + bt_naxis1 t * Z.min (bt_naxis2 t) (tiles_begun z n)).
Proof.
  intros O D P N X Hz Td Th [(Hw & Hg)|(Hw & Hq)].
  - destruct (int_file gz m d f h f' t z ints) as (s & fu & E & R); auto.
    exists s, fu. split; [exact E|]. intros fuel n Hf. apply R, Hf.
  - destruct (plain_file gz m d f h f' t z ints) with (scale := scale) (zero := zero) (blank := blank) as (s & fu & E & R); auto.
    exists s, fu. split; [exact E|]. intros fuel n Hf. apply R, Hf.
Qed.

Lemma dithered_read gz m d f h f' t z ints scale zero blank :
  octets d -> rd_data (f_reader f) = d -> 0 <= rd_pos (f_reader f) -> next m f = (IOk h, f') ->
  h_xt h = XtBin t ->
  tiled d t (h_offset h) z -> tiles_hold gz m d t (h_offset h) z ints ->
  real_pixels (z_bitpix z) -> quantised d t (h_offset h) (h_values h) scale zero blank ->
  quantiser z <> ZNoDither -> 0 <= dither_seed z < 2 ^ 63 ->
  exists s fuel0, (let! data := get_table m f' t in pixels_new m (h_values h) t data z) = Ok s /\
    forall fuel n, (fuel0 <= fuel)%nat ->
    fst (tiles_run gz m fuel s n)
    = firstn n (map PixelOf (flat_map (fun row => float_pixels (quantiser z) (scale row) (zero row) (blank row)
                                                    (first_entry row (dither_seed z)) (ints row)) (upto (bt_naxis2 t))) ++ repeat PixEnd n).
Proof.
  intros. destruct (float_new gz m d f h f' t z ints) with (vs := h_values h) (scale := scale) (zero := zero) (blank := blank) as (s & fu & E & R); auto.
  exists s, fu. split; [exact E|]. intros fuel n Hf. apply R, Hf.
Qed.

Lemma start_ok m row z0 : 0 <= row < 2 ^ 63 -> 0 <= z0 < 2 ^ 63 ->
  dither_start m (row + 1) z0 = Ok (first_entry row z0) /\ 0 <= first_entry row z0 < 500.
Proof. intros H1 H2. split; [apply dither_start_ok; lia|]. pose proof (first_entry_range row z0). lia. Qed.

Lemma table_wrapped k v : is_blank (k_blank k) v = false ->
  (k_state k = QSub1 9999 -> exists x k', unquantize k v = Ok (x, k') /\ k_state k' = QSub1 0) /\
  (k_state k = QSub2 9999 -> exists x k', unquantize k v = Ok (x, k') /\ k_state k' = QSub2 0) /\
  first_entry 1 0 = 65.
Proof.
  intro B. unfold unquantize. fold (is_blank (k_blank k) v). rewrite B. split; [|split; [|reflexivity]]; intros ->.
  - rewrite random_at by lia. cbn [bind]. eexists. eexists. split; [reflexivity|]. reflexivity.
  - destruct (v =? -2147483647); [eexists; eexists; split; [reflexivity|]; reflexivity|].
    rewrite random_at by lia. cbn [bind]. eexists. eexists. split; [reflexivity|]. reflexivity.
Qed.

Lemma flat_map_ext_in' {A B} (g g' : A -> list B) l : (forall x, In x l -> g x = g' x) -> flat_map g l = flat_map g' l.
Proof. induction l as [|x l IH]; intro H; [reflexivity|]. cbn [flat_map]. rewrite (H x (or_introl eq_refl)), IH; [reflexivity|]. intros y I. apply H. right. exact I. Qed.

Lemma dithered_no_blank gz m d f h f' t z ints scale zero blank :
  octets d -> rd_data (f_reader f) = d -> 0 <= rd_pos (f_reader f) -> next m f = (IOk h, f') -> h_xt h = XtBin t ->
  tiled d t (h_offset h) z -> tiles_hold gz m d t (h_offset h) z ints ->
  real_pixels (z_bitpix z) -> quantised d t (h_offset h) (h_values h) scale zero blank ->
  quantiser z <> ZNoDither -> 0 <= dither_seed z < 2 ^ 63 ->
  (forall row, 0 <= row < bt_naxis2 t -> Forall (fun v => is_blank (blank row) v = false) (ints row)) ->
  exists s fuel0, (let! data := get_table m f' t in pixels_new m (h_values h) t data z) = Ok s /\
    forall fuel n, (fuel0 <= fuel)%nat ->
    fst (tiles_run gz m fuel s n)
    = firstn n (map PixelOf (flat_map (fun row => dithered_pixels (quantiser z) (scale row) (zero row) (blank row)
                                                    (first_entry row (dither_seed z)) (ints row)) (upto (bt_naxis2 t))) ++ repeat PixEnd n).
Proof.
  intros O D P N X Td Th Hb Hq Hn Hd B.
  destruct (dithered_read gz m d f h f' t z ints scale zero blank O D P N X Td Th Hb Hq Hn Hd) as (s & fu & E & R).
  exists s, fu. split; [exact E|]. intros fuel n Hf. rewrite (R fuel n Hf). do 3 f_equal. apply flat_map_ext_in'.
  intros row I. apply upto_In in I. pose proof (first_entry_range row (dither_seed z)).
  apply float_pixels_no_blank; [lia|auto].
Qed.

Lemma gzip_read gz m d f h f' t z ints :
  octets d -> rd_data (f_reader f) = d -> 0 <= rd_pos (f_reader f) -> next m f = (IOk h, f') ->
  h_xt h = XtBin t -> bt_zimage t = Some z -> tiled d t (h_offset h) z ->
  z_cmp z = ZGzip1 /\ whole_pixels (z_bitpix z) \/ z_cmp z = ZGzip2 /\ (z_bitpix z = BI16 \/ z_bitpix z = BI32) ->
  (forall row, 0 <= row < bt_naxis2 t ->
    len (ints row) = product (z_tilen z) /\ Forall (fun v => - 2 ^ 31 <= v < 2 ^ 31) (ints row) /\
    exists bytes, tile_at d t (h_offset h) (z_data_idx z) row bytes /\
      fst (fst (gz bytes (4 * len (ints row))))
      = Some (match z_cmp z with ZGzip2 => planes (ints row) | _ => flat_map be4 (ints row) end)) ->
  exists s fuel0, get_tiles m f' (h_values h) t = Some (Ok s) /\
    forall fuel n, (fuel0 <= fuel)%nat ->
    fst (tiles_run gz m fuel s n)
    = firstn n (map PixelOf (flat_map (fun row => map (int_pixel (z_bitpix z)) (ints row)) (upto (bt_naxis2 t))) ++ repeat PixEnd n).
Proof.
  intros O D P N X Hz Td Hc Ht. apply (int_tiles_read gz m d f); auto.
  - intros row Hr. destruct (Ht row Hr) as (L & F & b & Tb & G). split; [exact L|]. exists b. split; [exact Tb|]. split; [exact F|].
    destruct Hc as [(Hc & _)|(Hc & _)]; rewrite Hc in *; exact G.
  - unfold whole_pixels in *. tauto.
  - intros (E1 & E2). destruct Hc as [(Hc & _)|(_ & [Hc|Hc])]; congruence.
Qed.

Definition sf_eqb (a b : spec_float) : bool :=
  match a, b with
  | S754_zero x, S754_zero y | S754_infinity x, S754_infinity y => Bool.eqb x y
  | S754_nan, S754_nan => true
  | S754_finite x p e, S754_finite y q g => Bool.eqb x y && Pos.eqb p q && Z.eqb e g
  | _, _ => false
  end.
Lemma sf_eqb_ok a b : sf_eqb a b = true -> a = b.
Proof.
  destruct a as [x|x| |x p e], b as [y|y| |y q g]; cbn; try discriminate; intro H; auto.
  - apply Bool.eqb_prop in H. congruence.
  - apply Bool.eqb_prop in H. congruence.
  - apply andb_prop in H as [H H3]. apply andb_prop in H as [H1 H2]. apply Bool.eqb_prop in H1.
    apply Pos.eqb_eq in H2. apply Z.eqb_eq in H3. congruence.
Qed.
Definition storedb (b : bitpix) (bs : list Z) : bool := octetsb bs && (len bs =? width b).
Lemma storedb_ok b bs : storedb b bs = true -> number_stored b bs (decode b bs).
Proof.
  unfold storedb. intro H. apply andb_prop in H as [H1 H2]. apply octetsb_ok in H1.
  split; [apply decode_range; auto; lia|symmetry; apply encode_decode; auto; lia].
Qed.
Definition float_cellb (d : list Z) (t : bintable) (o c row : Z) (x : spec_float) : bool :=
  match format t c with
  | Some (TElem TyE 1) => let bs := slice d (cell_start t o row c) 4 in storedb BF32 bs && sf_eqb x (f32_of_bits (decode BF32 bs))
  | Some (TElem TyD 1) => let bs := slice d (cell_start t o row c) 8 in storedb BF64 bs && sf_eqb x (f32_of_f64 (f64_of_bits (decode BF64 bs)))
  | _ => false
  end.
Lemma float_cellb_ok d t o c row x : float_cellb d t o c row x = true -> float_cell d t o c row x.
Proof.
  unfold float_cellb, float_cell. destruct (format t c) as [[e k| |]|]; try discriminate. destruct e; try discriminate;
    (destruct k as [|[p|p|]|]; try discriminate); intro H; apply andb_prop in H as [H1 H2]; apply sf_eqb_ok in H2; subst x;
    eexists; [left|right]; (split; [reflexivity|split; [apply storedb_ok, H1|reflexivity]]).
Qed.
Definition int_cellb (d : list Z) (t : bintable) (o c row v : Z) : bool :=
  match format t c with
  | Some (TElem TyI 1) => let bs := slice d (cell_start t o row c) 2 in storedb BI16 bs && (v =? decode BI16 bs)
  | Some (TElem TyJ 1) => let bs := slice d (cell_start t o row c) 4 in storedb BI32 bs && (v =? decode BI32 bs)
  | _ => false
  end.
Lemma int_cellb_ok d t o c row x : int_cellb d t o c row x = true -> int_cell d t o c row x.
Proof.
  unfold int_cellb, int_cell. destruct (format t c) as [[e k| |]|]; try discriminate. destruct e; try discriminate;
    (destruct k as [|[p|p|]|]; try discriminate); intro H; apply andb_prop in H as [H1 H2]; apply Z.eqb_eq in H2; subst x;
    eexists; right; [left|right; left]; (split; [reflexivity|split; [apply storedb_ok, H1|reflexivity]]).
Qed.
Definition blank_ofb (d : list Z) (t : bintable) (o : Z) (vs : vmap) (row : Z) (b : option Z) : bool :=
  match find_field_by_ttype (bt_ttypes t) (chars "ZBLANK"), b with
  | Some c, Some v => countedb t c && int_cellb d t o c row v
  | Some _, None => false
  | None, Some v => match blank_keyword vs with Some w => v =? w | None => false end
  | None, None => match blank_keyword vs with Some _ => false | None => true end
  end.
Lemma blank_ofb_ok d t o vs row b : blank_ofb d t o vs row b = true -> blank_of d t o vs row b.
Proof.
  unfold blank_ofb, blank_of. pose proof (find_field_spec (bt_ttypes t) (chars "ZBLANK")) as F.
  destruct (find_field_by_ttype (bt_ttypes t) (chars "ZBLANK")) as [c|].
  - destruct b as [v|]; [|discriminate]. intro H. apply andb_prop in H as [H1 H2]. left. exists c, v.
    split; [split; [exact F|apply countedb_ok, H1]|]. split; [apply int_cellb_ok, H2|reflexivity].
  - intro H. right. split; [exact F|]. destruct b, (blank_keyword vs); try discriminate; auto. f_equal. lia.
Qed.
Definition quantisedb (d : list Z) (t : bintable) (o : Z) (vs : vmap) (scale zero : Z -> spec_float) (blank : Z -> option Z) : bool :=
  match find_field_by_ttype (bt_ttypes t) (chars "ZSCALE"), find_field_by_ttype (bt_ttypes t) (chars "ZZERO") with
  | Some cs, Some cz =>
    countedb t cs && countedb t cz &&
    forallb (fun row => float_cellb d t o cs row (scale row) && float_cellb d t o cz row (zero row) && blank_ofb d t o vs row (blank row))
            (upto (bt_naxis2 t))
  | _, _ => false
  end.
Lemma quantisedb_ok d t o vs scale zero blank :
  quantisedb d t o vs scale zero blank = true -> quantised d t o vs scale zero blank.
Proof.
  unfold quantisedb, quantised. pose proof (find_field_spec (bt_ttypes t) (chars "ZSCALE")) as F1.
  pose proof (find_field_spec (bt_ttypes t) (chars "ZZERO")) as F2.
  destruct (find_field_by_ttype (bt_ttypes t) (chars "ZSCALE")) as [cs|]; [|discriminate].
  destruct (find_field_by_ttype (bt_ttypes t) (chars "ZZERO")) as [cz|]; [|discriminate].
  intro H. apply andb_prop in H as [H H3]. apply andb_prop in H as [H1 H2]. exists cs, cz.
  split; [split; [exact F1|apply countedb_ok, H1]|]. split; [split; [exact F2|apply countedb_ok, H2]|].
  intros row Hr. rewrite forallb_forall in H3. specialize (H3 row (proj2 (upto_In _ _) Hr)).
  apply andb_prop in H3 as [H3 H5]. apply andb_prop in H3 as [H3 H4].
  split; [apply float_cellb_ok, H3|]. split; [apply float_cellb_ok, H4|apply blank_ofb_ok, H5].
Qed.

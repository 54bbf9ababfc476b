(** Pictures of damaged tile-compressed files, in grey and in colour (C90). *)

From Coq Require Import List Lia ZifyBool.
From Verif Require Import Base Text Card Reader Header Xtension Bytes Fits ImageIt BinTable Rice Float Tile ImageInt.
From Verif Require Import PanicProofs PanicProofs2 BinProofs4 TileProofs8 ImageIntProofs ImageIntProofs2 DeviceImageProofs DeviceImageProofs2 ImageSafeProofs.
From Verif Require Import TileDriftProofs.
From Verif Require Import SpecCard SpecHeader SpecXt SpecFits SpecPanic SpecImage SpecBin SpecBinCut SpecTile SpecTileSafe SpecImageInt SpecDrift.

Lemma first_kind m f vs t z s : get_tiles m f vs t = Some (Ok s) -> bt_zimage t = Some z ->
  forall p, pixel_kind (tl_keys s) p -> fits_depth (z_bitpix z) p.
Proof.
  intros G Zi. unfold get_tiles in G. rewrite Zi in G. injection G as G. destruct (get_table m f t) as [tb|e|]; cbn [bind] in G; try discriminate.
  unfold pixels_new in G. destruct (usize_product m 1 (z_tilen z)) as [n|e|]; cbn [bind] in G; try discriminate.
  destruct (u64_result m (n * 4)) as [by4|e|]; cbn [bind] in G; try discriminate. destruct (2 ^ 63 <=? by4); [discriminate|].
  destruct (z_bitpix z); cbn [bind] in G; try discriminate;
    try (destruct (fkeys_new vs t z); cbn [bind] in G; try discriminate);
    inversion G; subst; cbn [tl_keys]; intros [|]; cbn [pixel_kind fits_depth]; auto; contradiction.
Qed.

Lemma tiles_picture gz fuel d dec t z :
  fills_buffer gz -> stays_in_buffer gz -> octets d -> decoder_new Wrapping fuel (mk_reader d 0) = Some (Ok dec) ->
  de_kind dec = KTiles t z -> table_laid_out d t (h_offset (de_hdu dec)) -> tile_header t z ->
  exists fuel0, forall fuel2 buf, (fuel0 <= fuel2)%nat ->
    ((exists sc, scaling (h_values (de_hdu dec)) sc) ->
     exists after, read_image gz Wrapping fuel2 dec buf = Some (Ok after) /\ len after = len buf) /\
    ((forall sc, ~ scaling (h_values (de_hdu dec)) sc) -> exists e, read_image gz Wrapping fuel2 dec buf = Some (Err e)).
Proof.
  intros Fi Gb Oc New K TL TH.
  destruct (tiles_kind Wrapping fuel d dec t z Oc New K) as (X & Zi).
  destruct (decoder_inv Wrapping fuel d dec Oc New) as (f0 & D & P & NX & _).
  destruct (tiles_good gz d f0 _ _ t z Fi Gb Oc D P NX X Zi TL TH) as (s & fuel0 & G & H).
  exists fuel0. intros fuel2 buf L. destruct (H fuel2 L) as ((G0 & Gn) & _). unfold read_image. split.
  - intros (sc & SC). apply scale_of_iff in SC. rewrite SC, K, G.
    apply (pixels_total _ _ (fun s1 => good d t (h_offset (de_hdu dec)) z s1 /\ same_kind (tl_keys s) (tl_keys s1))); [|split; [exact G0|apply same_kind_refl]].
    intros s1 (G1 & K1). destruct (Gn s1 G1) as (v & s2 & E & G2).
    destruct (next_keeps gz Wrapping fuel2 s1 _ s2 E) as (K2 & Kp). unfold pull_tiles. rewrite E.
    destruct v as [p|]; (eexists; eexists; split; [reflexivity|]); (split; [split; [exact G2|exact (same_kind_trans _ _ _ K1 K2)]|]); [|exact I].
    apply tile_depth. apply (first_kind _ _ _ _ _ _ G Zi). apply (pixel_kind_same _ _ _ K1). apply Kp. reflexivity.
  - intro No. destruct (scale_of (h_values (de_hdu dec))) as [sc|e|] eqn:E.
    + apply scale_of_iff in E. destruct (No _ E).
    + eauto.
    + exfalso. revert E. unfold scale_of, scale_field. unfold de_f64.
      repeat match goal with |- context [match ?x with _ => _ end] => destruct x; cbn [bind]; try discriminate end.
Qed.

Lemma run_count gz m fuel : forall n s, length (fst (tiles_run gz m fuel s n)) = n.
Proof.
  induction n as [|n IH]; intro s; [reflexivity|]. cbn [tiles_run]. destruct (tiles_do gz m fuel s) as (x, s1). specialize (IH s1).
  destruct (tiles_run gz m fuel s1 n) as (l, s2). cbn [fst length] in *. now rewrite IH.
Qed.

Lemma tiles_calls gz d f h f' t z :
  fills_buffer gz -> stays_in_buffer gz -> octets d -> rd_data (f_reader f) = d -> 0 <= rd_pos (f_reader f) -> next Wrapping f = (IOk h, f') ->
  h_xt h = XtBin t -> bt_zimage t = Some z -> table_laid_out d t (h_offset h) -> tile_header t z ->
  exists s fuel0, get_tiles Wrapping f' (h_values h) t = Some (Ok s) /\
    forall fuel n, (fuel0 <= fuel)%nat ->
      let l := fst (tiles_run gz Wrapping fuel s n) in
      Forall (fun r => r = PixEnd \/ exists p, r = PixelOf p) l /\ length l = n /\
      len (filter is_pixel l) <= bt_naxis2 t * product (z_tilen z).
Proof.
  intros G1 G2 O D P N X Z T H. destruct (tiles_good gz d f h f' t z G1 G2 O D P N X Z T H) as (s & fuel0 & E & A).
  exists s, fuel0. split; [exact E|]. intros fuel n L l. destruct (A fuel L) as (_ & B). destruct (B n) as (B1 & B2).
  split; [exact B1|]. split; [|exact B2]. unfold l. apply run_count.
Qed.

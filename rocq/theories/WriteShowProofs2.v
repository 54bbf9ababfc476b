(** Proofs of C68 for tile-compressed images. *)
From Coq Require Import ZifyBool Permutation.
From Verif Require Import Base Text Card Reader Header Xtension Bytes Fits ImageIt BinTable Rice Float Tile ImageInt.
From Verif Require Import SpecCard SpecHeader SpecXt SpecFits SpecImage SpecBin SpecRice SpecTile SpecWrite SpecImageInt SpecWriteTable SpecWriteTile SpecWriteShow.
From Verif Require Import BytesProofs HeaderProofs FitsProofs2 FitsProofs3 FitsProofs4 ImageProofs BinProofs TileProofs6.
From Verif Require Import ImageIntProofs ImageIntProofs2 ImageIntProofs3 ImageIntProofs4 AsyncProofs4 CliProofs.
From Verif Require Import WriteProofs WriteProofs2 WriteProofs4 WriteProofs5 WriteProofs6 WriteProofs7 WriteFloatProofs WriteProofs8 WriteProofs9 WriteShowProofs.

Lemma shows_same axes w1 h1 r1 w2 h2 r2 : shows axes w1 h1 r1 -> shows axes w2 h2 r2 -> w1 = w2 /\ h1 = h2 /\ r1 = r2.
Proof.
  intros (_ & _ & S1) (_ & _ & S2).
  destruct S1 as [(-> & ->)|[(-> & ->)|(-> & ->)]]; destruct S2 as [(E & ->)|[(E & ->)|(E & ->)]]; injection E; intros; subst; try discriminate; auto.
Qed.
Lemma shows_count axes w h rgb : shows axes w h rgb -> product axes = w * h * (if rgb then 3 else 1).
Proof. intros (_ & _ & [(-> & ->)|[(-> & ->)|(-> & ->)]]); cbn [product]; ring. Qed.

Lemma shows_nonneg axes w h rgb : shows axes w h rgb -> Forall (fun a => 0 <= a) axes -> 0 <= w * h.
Proof.
  intros (_ & _ & SH) A0. assert (exists r, axes = w :: h :: r) as (r & E) by (destruct SH as [(-> & _)|[(-> & _)|(-> & _)]]; eauto).
  rewrite E in A0. rewrite Forall_forall in A0. apply Z.mul_nonneg_nonneg; apply A0; cbn; auto.
Qed.

(** A compressed image in a file, opened. *)
Lemma tiles_open gz m d pre s post p more absent cols rows c w ht rgb fuel :
  octets d -> file_kinds (pre ++ (HBinTable, s) :: post) -> Forall (accepted m) pre -> Forall no_picture pre ->
  side_ok more absent -> tiled_table gz m p more absent cols rows c s -> Forall (fun v => - 2 ^ 31 <= v < 2 ^ 31) (zp_pixels p) ->
  shows (zp_dims p) w ht rgb ->
  d = file_bytes (pre ++ (HBinTable, s) :: post) -> len d < 2 ^ 63 -> (length pre < fuel)%nat ->
  exists dec t z parts gap heap, decoder_new m fuel (mk_reader d 0) = Some (Ok dec) /\
    de_width dec = w /\ de_height dec = ht /\ de_rgb dec = rgb /\ de_bitpix dec = zp_bitpix p /\ de_kind dec = KTiles t z /\
    z_bitpix z = zp_bitpix p /\ z_cmp z = zp_cmp p /\
    tiled d t (h_offset (de_hdu dec)) z /\
    tiles_hold gz m d t (h_offset (de_hdu dec)) z (tile_pixels (zp_dims p) (zp_tiles p) (zp_pixels p)) /\
    bt_naxis2 t = product (grid (zp_dims p) (zp_tiles p)) /\
    Forall column_ok cols /\ Forall2 (row_written heap (forms cols)) rows parts /\
    description t cols (len rows) (len (concat parts ++ gap)) (len (gap ++ heap)) /\ 0 <= h_offset (de_hdu dec) /\
    h_offset (de_hdu dec) + len (concat parts ++ gap ++ heap) <= len d /\
    slice d (h_offset (de_hdu dec)) (len (concat parts ++ gap ++ heap)) = concat parts ++ gap ++ heap /\
    len rows = product (grid (zp_dims p) (zp_tiles p)) /\
    (forall kw v, In (kw, v) more -> says (h_values (de_hdu dec)) kw v) /\
    (forall n, In n absent -> ~ In n (map fst more) -> get (h_values (de_hdu dec)) n = None).
Proof.
  intros O K A NP SO W RX SH D B FU.
  assert (A1 : Forall (accepted m) (pre ++ [(HBinTable, s)])).
  { apply Forall_app. split; auto. constructor; auto. eapply accepted_tiled; eauto. }
  destruct (file_prefix m d pre HBinTable s post O K A1 D B) as (l & h & f & R & I & L & Y).
  destruct (tiled_found gz m d pre s post p more absent cols rows c _ f O K A SO W RX D B Y) as
    (l' & h' & f1 & t & z & dither & parts & gap & heap & EL & HK & RD & RP & N & X & ZI & EZ & TD & TH & N2 & REST).
  { rewrite app_length, map_length. cbn [length]. lia. }
  apply app_inj_tail in EL as (_ & E). injection E as <-.
  assert (SU : suitable m h) by (right; split; auto; exists t, z; auto).
  pose proof (opens_first m d l h f fuel O R (unsuitable_list m pre 0 l A NP I) SU ltac:(lia)) as (ax & b' & PI & OW).
  assert (ax = zp_dims p /\ b' = zp_bitpix p) as (-> & ->).
  { destruct PI as [(im & X' & _)|(t' & z' & X' & ZI' & -> & ->)]; rewrite X in X'; [discriminate|]. injection X' as <-.
    rewrite ZI in ZI'. injection ZI' as <-. rewrite EZ. auto. }
  destruct (decoder_new m fuel (mk_reader d 0)) as [[dec|e|]|] eqn:DN; try contradiction.
  2: { exfalso. destruct OW as (_ & NS). exact (NS w ht rgb SH). }
  destruct OW as (SH2 & DB & DH & DF).
  destruct (shows_same _ _ _ _ _ _ _ SH SH2) as (EW & EH & ER).
  assert (KI : de_kind dec = KTiles t z).
  { destruct (decoder_inv m fuel d dec O DN) as (f0 & _ & _ & _ & ST & _). unfold stops_at in ST. rewrite DH, X, HK, ZI in ST.
    injection ST. auto. }
  exists dec, t, z, parts, gap, heap. rewrite DH. repeat (split; [solve [auto|subst z; auto]|]). auto.
Qed.

(** The buffer. *)
Lemma buffer_tiles {A} (none : A) m fuel d dec b w ht rgb (values : list A) sample buf after :
  octets d -> decoder_new m fuel (mk_reader d 0) = Some (Ok dec) ->
  de_width dec = w -> de_height dec = ht -> de_rgb dec = rgb -> de_bitpix dec = b -> 0 <= w * ht ->
  len values = w * ht * (if rgb then 3 else 1) -> len buf = ImageInt.total_bytes dec ->
  laid_out (depth b) (channels b rgb) (SpecImageInt.place rgb) (map sample values) buf after ->
  after = picture_buffer none (channels b rgb) rgb (w * ht) sample values.
Proof.
  intros O DN EW EH ER EB N0 LV LB LO. set (n := w * ht) in *.
  assert (PO: 0 < depth b /\ 0 < channels b rgb) by (destruct b, rgb; cbn; lia).
  assert (CH: depth b * channels b rgb = bytes_per_pixel (color_type dec)).
  { unfold color_type. rewrite EB, ER. destruct b, rgb; reflexivity. }
  assert (RG: forall c i, 0 <= c < channels b rgb -> 0 <= i < n -> 0 <= SpecImageInt.place rgb n c i < len values).
  { intros c i C I. rewrite LV. unfold SpecImageInt.place, by_plane, one_plane, channels in *. destruct rgb; nia. }
  rewrite (laid_out_all (depth b) (channels b rgb) _ _ _ _ n) with (5 := LO); try lia.
  - unfold picture_buffer. apply flat_map_ext_in'. intros i I. apply flat_map_ext_in'. intros c C. apply upto_In in I, C.
    specialize (RG c i C I). unfold len in RG.
    rewrite (nth_indep _ [] (sample none)) by (rewrite map_length; lia). rewrite map_nth.
    unfold SpecImageInt.place, by_plane, one_plane. destruct rgb; reflexivity.
  - rewrite LB, CH. unfold ImageInt.total_bytes. rewrite EW, EH. fold n. lia.
  - unfold len. rewrite map_length. exact RG.
Qed.

(** The keywords. *)
Lemma scale_side zero scale : side_ok (scale_entries zero scale) [chars "BZERO"; chars "BSCALE"].
Proof.
  split; [|split].
  - intros n I. apply in_app_or in I as [I|I]; [|cbn [In] in *; tauto].
    apply in_map_iff in I as (e & <- & I). destruct (scale_names _ _ _ I) as ([-> | ->] & _); cbn [In]; tauto.
  - unfold scale_entries. destruct zero, scale; repeat (apply NoDup_cons || apply NoDup_nil); cbn [In map app fst]; intros I;
      repeat (destruct I as [I|I]; [discriminate|]); contradiction.
  - apply Forall_forall. intros e I. destruct (scale_names _ _ _ I) as (_ & n & ->). exact Logic.I.
Qed.

Lemma scaling_said vs zero scale : (forall kw v, In (kw, v) (scale_entries zero scale) -> says vs kw v) ->
  (forall n, In n [chars "BZERO"; chars "BSCALE"] -> ~ In n (map fst (scale_entries zero scale)) -> get vs n = None) ->
  keyword_integer vs (chars "BZERO") 0 (match zero with Some z => z | None => 0 end) /\
  keyword_integer vs (chars "BSCALE") 1 (match scale with Some a => a | None => 1 end) /\ exists sc, scaling vs sc.
Proof.
  intros S N.
  assert (KW : forall n v, In (n, SaysInt v) (scale_entries zero scale) -> exists c, get vs n = Some (VInteger v c)).
  { intros n v I. destruct (S n (SaysInt v) I) as (c' & G). eauto. }
  assert (Z0 : (exists z c', zero = Some z /\ get vs (chars "BZERO") = Some (VInteger z c')) \/ (zero = None /\ get vs (chars "BZERO") = None)).
  { destruct zero as [z|].
    - left. destruct (KW (chars "BZERO") z) as (c' & G); [left; reflexivity|]. eauto.
    - right. split; auto. apply N; [now left|]. unfold scale_entries. destruct scale; cbn; [intros [H|[]]; discriminate|tauto]. }
  assert (S0 : (exists a c', scale = Some a /\ get vs (chars "BSCALE") = Some (VInteger a c')) \/ (scale = None /\ get vs (chars "BSCALE") = None)).
  { destruct scale as [a|].
    - left. destruct (KW (chars "BSCALE") a) as (c' & G); [apply in_or_app; right; left; reflexivity|]. eauto.
    - right. split; auto. apply N; [right; now left|]. unfold scale_entries. destruct zero; cbn; [intros [H|[]]; discriminate|tauto]. }
  unfold keyword_integer, scaling, keyword_float.
  destruct Z0 as [(z & cz & -> & ->)|(-> & ->)], S0 as [(a & ca & -> & ->)|(-> & ->)]; (split; [reflexivity|]; split; [reflexivity|]);
    eexists (mk_scale _ _); cbn [sc_zero sc_scale]; split; reflexivity.
Qed.

Lemma tilewise_len p : whole_tiles (zp_dims p) (zp_tiles p) -> len (tilewise p) = product (zp_dims p).
Proof.
  intros W. unfold tilewise. destruct (whole_tiles_nonneg _ _ W) as (A0 & T1 & G0).
  pose proof (product_nonneg _ G0) as PG.
  assert (PT : 0 <= product (zp_tiles p)). { apply product_nonneg. eapply Forall_impl; [|exact T1]. cbv beta. lia. }
  assert (E : forall ks, len (flat_map (tile_pixels (zp_dims p) (zp_tiles p) (zp_pixels p)) ks) = len ks * product (zp_tiles p)).
  { induction ks as [|k ks IH]; [reflexivity|]. cbn [flat_map]. rewrite len_app, len_cons, IH, tile_pixels_len by lia. lia. }
  rewrite E. unfold upto, len. rewrite map_length, seq_length, Z2Nat.id by lia. clear -W.
  induction W as [|a t axes tiles (A & T & MO) W IH]; cbn [grid product]; [reflexivity|]. rewrite <- IH.
  pose proof (Z.div_mod a t ltac:(lia)) as DM. rewrite MO in DM. rewrite DM at 2. ring.
Qed.

Lemma accepted_scaled_tiles gz m p zero scale s : scaled_tiles gz m p zero scale s -> accepted m (HBinTable, s).
Proof. intros (cols & rows & c & _ & _ & W). eapply accepted_tiled; [apply scale_side|exact W]. Qed.

Lemma zshown_image gz m d pre s post p zero scale w ht rgb fuel :
  octets d -> file_kinds (pre ++ (HBinTable, s) :: post) -> Forall (accepted m) pre -> Forall no_picture pre ->
  scaled_tiles gz m p zero scale s -> shows (zp_dims p) w ht rgb ->
  d = file_bytes (pre ++ (HBinTable, s) :: post) -> len d < 2 ^ 63 -> (length pre < fuel)%nat ->
  exists dec sc fuel0, decoder_new m fuel (mk_reader d 0) = Some (Ok dec) /\
    de_width dec = w /\ de_height dec = ht /\ ImageInt.total_bytes dec = w * ht * (depth (zp_bitpix p) * channels (zp_bitpix p) rgb) /\
    (exists vs, scaling vs sc /\
       keyword_integer vs (chars "BZERO") 0 (match zero with Some z => z | None => 0 end) /\
       keyword_integer vs (chars "BSCALE") 1 (match scale with Some a => a | None => 1 end)) /\
    forall fuel2 buf, (fuel0 <= fuel2)%nat -> len buf = ImageInt.total_bytes dec ->
      read_image gz m fuel2 dec buf
      = Some (Ok (picture_buffer 0 (channels (zp_bitpix p) rgb) rgb (w * ht) (image_sample (zp_bitpix p) sc) (tilewise p))).
Proof.
  intros O K A NP (cols & rows & c & WP & RX & W) SH D B FU.
  destruct (tiles_open gz m d pre s post p _ _ cols rows c w ht rgb fuel O K A NP (scale_side zero scale) W) as
    (dec & t & z & parts & gap & heap & DN & EW & EH & ER & EB & KI & ZB & ZC & TD & TH & N2 & _ & _ & _ & _ & _ & _ & _ & SM & AM); auto.
  { eapply Forall_impl; [|exact RX]. intros v. now apply in_range_i32. }
  destruct (scaling_said _ zero scale SM AM) as (KZ & KS & sc & SC).
  pose proof W as (_ & _ & _ & _ & CP & WT & PB & LX & _). pose proof (zp_whole p CP) as NG.
  destruct (tiles_decoded gz m fuel d dec t z sc _ O DN KI SC TD TH ltac:(now rewrite ZB) ltac:(now rewrite ZB, ZC)) as (fu & RI).
  exists dec, sc, fu. split; auto. split; auto. split; auto. split.
  { unfold ImageInt.total_bytes, color_type. rewrite EW, EH, EB, ER. destruct (zp_bitpix p), rgb; cbn; lia. }
  split; [exists (h_values (de_hdu dec)); auto|].
  intros fuel2 buf F2 LB. destruct (RI fuel2 buf F2) as (after & -> & LO). do 2 f_equal.
  assert (N0 : 0 <= w * ht).
  { eapply shows_nonneg; eauto. apply (whole_tiles_nonneg _ _ WT). }
  eapply (buffer_tiles 0 m fuel d dec (zp_bitpix p) w ht rgb (tilewise p)); eauto.
  - rewrite tilewise_len by auto. now apply shows_count.
  - rewrite ZB, ER in LO. replace (map (image_sample (zp_bitpix p) sc) (tilewise p)) with
      (map (tile_sample (zp_bitpix p) sc) (flat_map (fun row => map (int_pixel (zp_bitpix p)) (tile_pixels (zp_dims p) (zp_tiles p) (zp_pixels p) row)) (upto (bt_naxis2 t)))); [exact LO|].
    rewrite N2. unfold tilewise.
    assert (E : forall ks, (forall k, In k ks -> 0 <= k < product (grid (zp_dims p) (zp_tiles p))) ->
      map (tile_sample (zp_bitpix p) sc) (flat_map (fun row => map (int_pixel (zp_bitpix p)) (tile_pixels (zp_dims p) (zp_tiles p) (zp_pixels p) row)) ks)
      = map (image_sample (zp_bitpix p) sc) (flat_map (tile_pixels (zp_dims p) (zp_tiles p) (zp_pixels p)) ks)).
    { induction ks as [|k ks IH]; intro I; [reflexivity|]. cbn [flat_map]. rewrite !map_app, IH by (intros; apply I; now right). f_equal.
      rewrite map_map. apply map_ext_in. intros v V.
      assert (F : Forall (in_range (zp_bitpix p)) (tile_pixels (zp_dims p) (zp_tiles p) (zp_pixels p) k)).
      { apply tile_pixels_in; auto. apply I. now left. }
      rewrite Forall_forall in F. rewrite int_pixel_in by auto. destruct WP as [->|[->| ->]]; reflexivity. }
    apply E. intros k I. now apply upto_In in I.
Qed.

(** In order, and in small types exactly. *)
Lemma zshown_small gz m d pre s post p zero scale w ht rgb fuel :
  octets d -> file_kinds (pre ++ (HBinTable, s) :: post) -> Forall (accepted m) pre -> Forall no_picture pre ->
  scaled_tiles gz m p zero scale s -> shows (zp_dims p) w ht rgb -> slabs (zp_dims p) (zp_tiles p) ->
  zp_bitpix p = BU8 \/ zp_bitpix p = BI16 ->
  Z.abs (match zero with Some z => z | None => 0 end) < 2 ^ 53 -> Z.abs (match scale with Some a => a | None => 1 end) < 2 ^ 53 ->
  Forall (fun v => Z.abs (physical zero scale v) < 2 ^ 53) (zp_pixels p) ->
  d = file_bytes (pre ++ (HBinTable, s) :: post) -> len d < 2 ^ 63 -> (length pre < fuel)%nat ->
  exists dec fuel0, decoder_new m fuel (mk_reader d 0) = Some (Ok dec) /\
    de_width dec = w /\ de_height dec = ht /\ ImageInt.total_bytes dec = w * ht * (depth (zp_bitpix p) * channels (zp_bitpix p) rgb) /\
    forall fuel2 buf, (fuel0 <= fuel2)%nat -> len buf = ImageInt.total_bytes dec ->
      read_image gz m fuel2 dec buf = Some (Ok (picture_buffer 0 (channels (zp_bitpix p) rgb) rgb (w * ht)
        (fun v => sample_bytes (depth (zp_bitpix p)) (limited 0 (256 ^ depth (zp_bitpix p) - 1) (physical zero scale v))) (zp_pixels p))).
Proof.
  intros O K A NP W SH SL B BZ BS BP D LD FU.
  destruct (zshown_image gz m d pre s post p zero scale w ht rgb fuel O K A NP W SH D LD FU)
    as (dec & sc & fu & DN & EW & EH & ET & (vs & SC & KZ & KS) & RI).
  exists dec, fu. split; auto. split; auto. split; auto. split; auto. intros fuel2 buf F2 LB. rewrite (RI fuel2 buf F2 LB). do 2 f_equal.
  destruct W as (cols & rows & c & _ & RG & WW). pose proof WW as (_ & _ & _ & _ & _ & WT & _ & LX & _).
  rewrite (tilewise_slabs p SL WT LX).
  apply picture_ext. intros v I. apply sample_exact with vs; auto.
  - rewrite Forall_forall in RG. destruct I as [I| ->]; [auto|]. destruct (zp_bitpix p); cbn; lia.
  - rewrite Forall_forall in BP. destruct I as [I| ->]; [auto|]. unfold physical. lia.
Qed.

(** Float images. *)
Lemma unscaled_side kb told : side_ok (float_entries kb told) [chars "ZBLANK"; chars "ZQUANTIZ"; chars "BZERO"; chars "BSCALE"].
Proof.
  destruct (float_side kb told) as (S & N & W). split; [|split; auto].
  intros n I. apply in_app_or in I as [I|I]; [apply S, in_or_app; now left|]. cbn [In] in *. tauto.
Qed.
Lemma accepted_unscaled gz m p s : unscaled_floats gz m p s -> accepted m (HBinTable, s).
Proof. intros (told & cols & rows & c & kb & _ & _ & _ & _ & _ & W). eapply accepted_tiled; [apply unscaled_side|exact W]. Qed.

Lemma floats_tilewise_len p : whole_tiles (zp_dims (fp_ints p)) (zp_tiles (fp_ints p)) -> len (floats_tilewise p) = product (zp_dims (fp_ints p)).
Proof.
  intros W. rewrite <- tilewise_len by auto. unfold floats_tilewise, tilewise.
  induction (upto (product (grid (zp_dims (fp_ints p)) (zp_tiles (fp_ints p))))) as [|k ks IH]; [reflexivity|].
  cbn [flat_map]. rewrite !len_app, IH, len_map. reflexivity.
Qed.

(** The floats are f32 numbers. *)
Lemma bits_valid b : valid32 (f32_of_bits b).
Proof.
  unfold f32_of_bits, float_of_bits. change (23 + 8) with 31. change (2 ^ 23) with 8388608. change (2 ^ 8) with 256. change (2 ^ (8 - 1)) with 128.
  pose proof (Z.mod_pos_bound b 8388608 ltac:(lia)) as M. pose proof (Z.mod_pos_bound (b / 8388608) 256 ltac:(lia)) as X.
  destruct (Z.eqb_spec ((b / 8388608) mod 256) 0).
  - destruct (b mod 8388608) as [|q|q]; cbn; lia.
  - destruct (Z.eqb_spec ((b / 8388608) mod 256) (256 - 1)); [destruct (_ =? 0); exact I|].
    destruct (b mod 8388608 + 8388608) as [|q|q] eqn:Q; cbn; lia.
Qed.
Lemma normalize_valid z e s : valid32 (binary_normalize 24 128 z e s).
Proof. destruct z; cbn; auto using round_valid. Qed.
Lemma digits_least m : 2 ^ 23 <= m -> 24 <= Zdigits2 m.
Proof.
  intro M. destruct (zdigits_bounds m ltac:(lia)) as (D0 & D1 & _). destruct (Z_lt_le_dec (Zdigits2 m) 24); auto.
  assert (2 ^ Zdigits2 m <= 2 ^ 23) by (apply Z.pow_le_mono_r; lia). lia.
Qed.
Lemma mul_valid x y : valid32 x -> valid32 y -> valid32 (f32_mul x y).
Proof.
  intros X Y. destruct x as [| | |sx p e], y as [| | |sy q e']; try exact I. unfold f32_mul. cbn [SFmul]. cbn [valid32] in X, Y.
  apply aux_valid; [lia|]. unfold shift_of, fexp, emin.
  destruct X as (X1 & X2 & [X3|X3]); [|destruct Y as (Y1 & Y2 & [Y3|Y3]); [|lia]];
    (assert (24 <= Zdigits2 (Zpos (p * q))); [|lia]); apply digits_least; [nia..].
Qed.
Lemma add_valid x y : valid32 x -> valid32 y -> valid32 (f32_add x y).
Proof.
  intros X Y. destruct x as [sx|sx| |sx p e], y as [sy|sy| |sy q e']; try exact I; unfold f32_add; cbn [SFadd]; auto using normalize_valid;
    destruct (Bool.eqb _ _); exact I.
Qed.
Lemma value_valid p k v : valid32 (fp_scale p k) -> valid32 (fp_zero p k) -> valid32 (float_value p k v).
Proof.
  intros S O. unfold float_value. destruct (match fp_blank p k with Some b => v =? b | None => false end); [exact I|].
  apply add_valid; auto. apply mul_valid; auto. apply normalize_valid.
Qed.

Lemma column_valid cols rows name x k : float_column cols rows name x -> 0 <= k < len rows -> valid32 (x k).
Proof.
  intros (c & f & _ & _ & _ & H) K. destruct (nth_error rows (Z.to_nat k)) as [cells|] eqn:N.
  - destruct (H _ _ N) as (b & _ & E). rewrite Z2Nat.id in E by lia. destruct E as [(_ & ->)|(_ & ->)]; [apply bits_valid|apply f32_valid].
  - apply nth_error_None in N. unfold len in K. lia.
Qed.

Lemma zshown_floats gz m d pre s post p w ht rgb fuel :
  octets d -> file_kinds (pre ++ (HBinTable, s) :: post) -> Forall (accepted m) pre -> Forall no_picture pre ->
  unscaled_floats gz m p s -> shows (zp_dims (fp_ints p)) w ht rgb ->
  d = file_bytes (pre ++ (HBinTable, s) :: post) -> len d < 2 ^ 63 -> (length pre < fuel)%nat ->
  exists dec fuel0, decoder_new m fuel (mk_reader d 0) = Some (Ok dec) /\
    de_width dec = w /\ de_height dec = ht /\ ImageInt.total_bytes dec = w * ht * 12 /\
    exists bits, Forall2 (fun n x => 0 <= n < 2 ^ 32 /\ f32_of_bits n = x) bits (floats_tilewise p) /\
    forall fuel2 buf, (fuel0 <= fuel2)%nat -> len buf = ImageInt.total_bytes dec ->
      read_image gz m fuel2 dec buf = Some (Ok (picture_buffer 0 3 rgb (w * ht) (sample_bytes 4) bits)).
Proof.
  intros O K A NP (told & cols & rows & c & kb & RP' & RX & FS & FZ & BL & W) SH D B FU.
  destruct (tiles_open gz m d pre s post (fp_ints p) _ _ cols rows c w ht rgb fuel O K A NP (unscaled_side kb told) W) as
    (dec & t & z & parts & gap & heap & DN & EW & EH & ER & EB & KI & ZB & ZC & TD & TH & N2 & OK & RW & DE & O0 & HO & SL & LR & SM & AM); auto.
  assert (SC : exists sc, scaling (h_values (de_hdu dec)) sc).
  { destruct (scaling_said (h_values (de_hdu dec)) None None) as (_ & _ & SC); auto; [intros kw v []|].
    intros n I _. apply AM; [cbn [In] in *; tauto|]. intro J. 
    destruct I as [<-|[<-|[]]]; destruct kb, told as [[|q|q]|]; cbn [float_entries dither_entries map fst app In] in J;
      repeat (destruct J as [J|J]; [discriminate|]); contradiction. }
  destruct SC as (sc & SC).
  assert (Q : quantised d t (h_offset (de_hdu dec)) (h_values (de_hdu dec)) (fp_scale p) (fp_zero p) (fp_blank p)).
  { destruct (float_cells d (h_offset (de_hdu dec)) t cols rows parts gap heap _ OK RW DE O0 HO SL _ _ FS) as (cs & CS & HS).
    destruct (float_cells d (h_offset (de_hdu dec)) t cols rows parts gap heap _ OK RW DE O0 HO SL _ _ FZ) as (cz & CZ & HZ).
    exists cs, cz. split; auto. split; auto. intros row R. rewrite N2, <- LR in R. split; auto. split; auto.
    destruct BL as [BC|(NC & E & RB)].
    - destruct (blank_cells d (h_offset (de_hdu dec)) t cols rows parts gap heap _ OK RW DE O0 HO SL _ BC) as (cb & CB & HB).
      destruct (HB row R) as (v & IC & EV). left. exists cb, v. auto.
    - right. pose proof DE as (_ & _ & _ & _ & _ & D6). rewrite D6. split; auto. rewrite E. symmetry. eapply blank_said; eauto. now left. }
  pose proof W as (_ & _ & _ & _ & CP & WT & PB & LX & _).
  destruct (float_tiles_decoded gz m fuel d dec t z sc _ _ _ _ O DN KI SC TD TH ltac:(now rewrite ZB) Q) as (fu & RI).
  assert (C3 : channels (zp_bitpix (fp_ints p)) rgb = 3) by (destruct RP' as [-> | ->], rgb; reflexivity).
  exists dec, fu. split; auto. split; auto. split; auto. split.
  { unfold ImageInt.total_bytes, color_type. rewrite EW, EH, EB, ER. destruct RP' as [-> | ->], rgb; cbn; lia. }
  exists (map bits_of_f32 (floats_tilewise p)). split.
  { assert (V : forall k, In k (upto (product (grid (zp_dims (fp_ints p)) (zp_tiles (fp_ints p))))) -> valid32 (fp_scale p k) /\ valid32 (fp_zero p k)).
    { intros k I. apply upto_In in I. rewrite <- LR in I. split; eapply column_valid; eauto. }
    unfold floats_tilewise. revert V. clear.
    induction (upto (product (grid (zp_dims (fp_ints p)) (zp_tiles (fp_ints p))))) as [|k ks IH]; intro V; [constructor|].
    cbn [flat_map]. rewrite map_app. apply Forall2_app; [|apply IH; intros; apply V; now right].
    destruct (V k ltac:(now left)) as (V1 & V2).
    induction (tile_pixels (zp_dims (fp_ints p)) (zp_tiles (fp_ints p)) (zp_pixels (fp_ints p)) k) as [|v vs IHv]; cbn [map]; constructor; auto.
    apply bits_float. now apply value_valid. }
  intros fuel2 buf F2 LB. destruct (RI fuel2 buf F2) as (after & -> & LO). do 2 f_equal.
  assert (N0 : 0 <= w * ht).
  { eapply shows_nonneg; eauto. apply (whole_tiles_nonneg _ _ WT). }
  rewrite <- C3. eapply (buffer_tiles 0 m fuel d dec (zp_bitpix (fp_ints p)) w ht rgb (map bits_of_f32 (floats_tilewise p))); eauto.
  - rewrite len_map, floats_tilewise_len by auto. now apply shows_count.
  - rewrite ZB, ER, N2 in LO. match goal with H : laid_out _ _ _ ?l _ _ |- laid_out _ _ _ ?l' _ _ => replace l' with l; [exact H|] end.
    unfold floats_tilewise. clear.
    induction (upto (product (grid (zp_dims (fp_ints p)) (zp_tiles (fp_ints p))))) as [|k ks IH]; [reflexivity|].
    cbn [flat_map]. rewrite !map_app, IH. f_equal. rewrite !map_map. apply map_ext. intro v.
    unfold sample_bytes. rewrite <- le_bytes_rev. change (Z.to_nat 4) with 4%nat. cbn [tile_sample]. unfold sample_f32, float_pixel, float_value, is_blank. destruct (fp_blank p k) as [b|]; [rewrite (Z.eqb_sym v b)|]; reflexivity.
Qed.

(** ** The writer *)

Lemma written_scaled_tiles gz m p bs blocks zero scale : zpicture_ok p bs blocks -> m = Wrapping \/ gently_coded p blocks ->
  number_ok zero -> number_ok scale ->
  scaled_tiles gz m p zero scale (write_scaled_tiles p zero scale blocks) /\
  octets (hdu_bytes (write_scaled_tiles p zero scale blocks)).
Proof.
  intros (WP & RX & OK) MG NZ NS. pose proof (scale_sayable zero scale NZ NS) as SA. split.
  - exists [tile_column], (zp_rows p blocks (fun _ => [])), 0. split; auto. split; auto.
    apply (written_tiled gz m p bs 8); auto using scale_side, no_further. intro. constructor.
  - unfold write_scaled_tiles. eapply table_with_octets.
    + eapply codings_extra; [exact OK|apply scale_side].
    + apply Forall_app. split; [eapply zp_sayable; exact OK|auto].
    + apply (zp_tabular p bs 8); auto using no_further. intro. constructor.
Qed.

(** Unsigned numbers by the convention, in a file behind a primary HDU without data. *)
Lemma empty_ok m : octets (hdu_bytes (snd empty_primary)) /\ accepted m empty_primary /\ no_picture empty_primary.
Proof.
  assert (P : picture_ok (BU8, [], [])).
  { split; [vm_compute; discriminate|]. split; [constructor|]. split; [|split; [reflexivity|constructor]].
    intros [|x l] r E; [vm_compute; reflexivity|discriminate]. }
  split; [apply image_octets; auto|]. split; [|reflexivity].
  eapply accepted_image. apply (written_image HPrimary (BU8, [], [])); auto.
Qed.

Lemma zshown_unsigned gz m p bs blocks us w ht :
  zpicture_ok p bs blocks -> m = Wrapping \/ gently_coded p blocks -> zp_bitpix p = BI16 ->
  zp_pixels p = map (fun u => u - 32768) us -> Forall (fun u => 0 <= u < 65536) us ->
  shows (zp_dims p) w ht false -> slabs (zp_dims p) (zp_tiles p) ->
  let d := file_bytes [empty_primary; (HBinTable, write_scaled_tiles p (Some 32768) (Some 1) blocks)] in
  len d < 2 ^ 63 ->
  exists dec fuel0, decoder_new m 2 (mk_reader d 0) = Some (Ok dec) /\ de_width dec = w /\ de_height dec = ht /\
    forall fuel2 buf, (fuel0 <= fuel2)%nat -> len buf = ImageInt.total_bytes dec ->
      read_image gz m fuel2 dec buf = Some (Ok (flat_map (sample_bytes 2) us)).
Proof.
  intros OK MG B EP RG SH SL d LD.
  destruct (written_scaled_tiles gz m p bs blocks (Some 32768) (Some 1) OK MG) as (W & OC); [cbn; lia|cbn; lia|].
  destruct (empty_ok m) as (OE & AE & NE).
  destruct (zshown_small gz m d [empty_primary] (write_scaled_tiles p (Some 32768) (Some 1) blocks) [] p (Some 32768) (Some 1) w ht false 2)
    as (dec & fu & DN & EW & EH & ET & RI); auto; try lia.
  - unfold d, file_bytes. cbn [map concat snd]. apply Forall_app. split; [exact OE|]. apply Forall_app. split; [exact OC|constructor].
  - split; [reflexivity|]. constructor; [discriminate|constructor].
  - rewrite EP. apply Forall_map. eapply Forall_impl; [|exact RG]. intros u U. unfold physical. cbn beta in U. lia.
  - exists dec, fu. split; auto. split; auto. split; auto. intros fuel2 buf F2 LB. rewrite (RI fuel2 buf F2 LB). do 2 f_equal.
    rewrite B, EP. change (channels BI16 false) with 1.
    assert (LN : len (map (fun u => u - 32768) us) = w * ht).
    { rewrite <- EP. destruct OK as (_ & _ & (_ & _ & _ & _ & _ & _ & _ & LX & _)). rewrite LX, (shows_count _ _ _ _ SH). lia. }
    rewrite <- LN, picture_grey. rewrite !flat_map_concat_map, map_map. f_equal.
    apply map_ext_in. intros u I. rewrite Forall_forall in RG. specialize (RG u I). cbn beta. change (256 ^ depth BI16 - 1) with 65535. change (depth BI16) with 2.
    f_equal. unfold limited, physical. replace ((u - 32768) * 1 + 32768) with u by lia.
    destruct (Z.ltb_spec u 0); [lia|]. destruct (Z.ltb_spec 65535 u); [lia|reflexivity].
Qed.

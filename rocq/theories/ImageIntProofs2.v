(** Proofs about the image decoder: choice of the HDU, and decoding of images and tiles. *)

From Verif Require Import Base Text Card Reader Header Xtension Bytes Fits ImageIt BinTable Float Tile ImageInt.
From Verif Require Import SpecUtf8 SpecCard SpecHeader SpecXt SpecFits SpecImage SpecBin SpecTile SpecImageInt.
From Verif Require Import HeaderProofs FitsProofs FitsProofs2 FitsProofs3 FitsProofs4 BytesProofs ImageProofs TileProofs6 ImageIntProofs.
From Coq Require Import ZifyBool.

(** ** Iteration ends *)

Lemma ok_offset_inside m d f h f' :
  octets d -> rd_data (f_reader f) = d -> 0 <= rd_pos (f_reader f) -> next m f = (IOk h, f') ->
  0 <= h_offset h <= len d /\ f_reader f' = mk_reader d (h_offset h) /\ f_pos_du f' = h_offset h /\ 1 <= len (h_cards h).
Proof.
  intros O D P N.
  destruct (next_ok_inv m d f h f' O D P N) as (_ & q & n & Q & NH & _ & _ & size & HS & F').
  destruct (new_hdu_inv _ _ _ _ _ _ _ O Q NH)
    as (c & cards & recs & last & rest & E & F & LE & R & HC & Op & K & PC & XP & HO & _ & HL).
  pose proof (in_blocks_range (80 * len (h_cards h))). pose proof (len_nonneg (h_cards h)).
  subst f'. cbn [f_reader f_pos_du]. repeat split; try lia.
  rewrite HC. rewrite len_cons. pose proof (len_nonneg (cards ++ [CEnd])). lia.
Qed.

Lemma yields_inside m d : octets d -> forall l f f2,
  rd_data (f_reader f) = d -> 0 <= rd_pos (f_reader f) -> 0 <= f_pos_du f -> yields m f (map IOk l) f2 ->
  Forall (fun h => h_offset h <= len d /\ 1 <= len (h_cards h)) l.
Proof.
  intros O. induction l as [|h l IH]; intros f f2 D P PD Y; [constructor|].
  cbn [map] in Y. inversion Y as [| |f0 p i f1 l0 f3 L N NP Y0]; subst.
  assert (P': 0 <= p) by (destruct L as [->|(_ & ?)]; lia).
  destruct (ok_offset_inside m (rd_data (f_reader f)) (moved f p) h f1 O eq_refl P' N) as (B & R & PP & C).
  constructor; [split; lia|]. apply (IH f1 f2); auto; rewrite ?R, ?PP; cbn [rd_data rd_pos]; try reflexivity; lia.
Qed.

Lemma chained_count m n : forall l q, 0 <= q -> chained m q (map IOk l) ->
  Forall (fun h => (exists n, hdu_size m h = Ok n /\ 0 <= n) /\ h_offset h <= n /\ 1 <= len (h_cards h)) l ->
  l = [] \/ q + 2880 * len l <= n.
Proof.
  induction l as [|h l IH]; intros q Q C F; auto. right.
  cbn [map chained] in C. destruct C as (HO & _ & C). inversion F as [|? ? ((sz & SZ & S0) & B & L1) F']; subst.
  specialize (C sz SZ). pose proof (in_blocks_range (80 * len (h_cards h))) as I1.
  pose proof (in_blocks_mod (80 * len (h_cards h))) as I2. pose proof (in_blocks_range sz) as I3.
  assert (2880 <= in_blocks (80 * len (h_cards h))).
  { pose proof (Z.div_mod (in_blocks (80 * len (h_cards h))) 2880 ltac:(lia)). lia. }
  rewrite len_cons. destruct (IH (h_offset h + in_blocks sz) ltac:(lia) C F') as [->|H']; [rewrite len_nil; lia|]. lia.
Qed.

Lemma yields_sized m d : octets d -> forall l f f2,
  rd_data (f_reader f) = d -> 0 <= rd_pos (f_reader f) -> 0 <= f_pos_du f -> yields m f (map IOk l) f2 ->
  Forall (fun h => exists n, hdu_size m h = Ok n /\ 0 <= n) l.
Proof.
  intros O. induction l as [|h l IH]; intros f f2 D P PD Y; [constructor|].
  cbn [map] in Y. inversion Y as [| |f0 p i f1 l0 f3 L N NP Y0]; subst.
  assert (P': 0 <= p) by (destruct L as [->|(_ & ?)]; lia).
  destruct (ok_offset_inside m (rd_data (f_reader f)) (moved f p) h f1 O eq_refl P' N) as (B & R & PP & C).
  destruct (next_ok_inv m (rd_data (f_reader f)) (moved f p) h f1 O eq_refl P' N) as (_ & q & n & Q & NH & _ & _ & size & HS & F').
  constructor; [exists size; split; auto; apply (size_range m (h_xt h) size HS)|].
  apply (IH f1 f2); auto; rewrite ?R, ?PP; cbn [rd_data rd_pos]; try reflexivity; lia.
Qed.

Lemma iteration_ends m d l f :
  octets d -> len d < 2 ^ 63 -> yields m (opened d) (map IOk l) f -> sizes_fit m (map IOk l) ->
  2880 * len l <= len d.
Proof.
  intros O LD Y SF. pose proof (offsets_chained m d _ f O LD Y SF) as C.
  pose proof (yields_inside m d O l (opened d) f eq_refl ltac:(cbn; lia) ltac:(cbn; lia) Y) as B.
  pose proof (yields_sized m d O l (opened d) f eq_refl ltac:(cbn; lia) ltac:(cbn; lia) Y) as S.
  destruct (chained_count m (len d) l 0 ltac:(lia) C) as [->|H].
  - clear -B S. induction B; inversion S; subst; constructor; auto.
  - unfold len at 1. cbn [length]. pose proof (len_nonneg d). lia.
  - lia.
Qed.

(** ** Choice of the HDU *)

Definition unsuitable (m : mode) (h : hdu) : Prop := ~ suitable m h.

(** HDUs of the iterator: kind and description agree, and the size is known. *)
Definition coherent (m : mode) (h : hdu) : Prop :=
  (exists n, hdu_size m h = Ok n) /\
  match h_kind h with
  | HPrimary | HImage => exists im, h_xt h = XtImage im
  | HBinTable => exists t, h_xt h = XtBin t
  | HAsciiTable => exists t, h_xt h = XtAscii t
  end.

Lemma next_coherent m d f h f' :
  octets d -> rd_data (f_reader f) = d -> 0 <= rd_pos (f_reader f) -> next m f = (IOk h, f') -> coherent m h.
Proof.
  intros O D P N.
  destruct (next_ok_inv m d f h f' O D P N) as (_ & q & n & Q & NH & _ & _ & size & HS & F').
  destruct (new_hdu_inv _ _ _ _ _ _ _ O Q NH)
    as (c & cards & recs & last & rest & E & F & LE & R & HC & Op & K & PC & XP & HO & _ & HL).
  split; [eauto|]. destruct (h_kind h); cbn [xtype_of xt_parse] in XP.
  - destruct (image_parse (h_values h)); try discriminate. injection XP as <-. eauto.
  - destruct (image_parse (h_values h)); try discriminate. injection XP as <-. eauto.
  - destruct (bintable_parse m (h_values h)); try discriminate. injection XP as <-. eauto.
  - destruct (asciitable_parse (h_values h)); try discriminate. injection XP as <-. eauto.
Qed.

Lemma stops_at_no m h : coherent m h -> unsuitable m h -> stops_at m h = Ok None.
Proof.
  intros ((n & S) & C) U. unfold stops_at, unsuitable, suitable in *. destruct (h_kind h).
  - destruct C as (im & ->). rewrite S. cbn [bind]. destruct (Z.eqb_spec n 0); auto. exfalso. apply U. left. eauto.
  - destruct C as (im & ->). rewrite S. cbn [bind]. destruct (Z.eqb_spec n 0); auto. exfalso. apply U. left. eauto.
  - destruct C as (t & X). rewrite X. destruct (bt_zimage t) eqn:Z; auto. exfalso. apply U. right. eauto.
  - reflexivity.
Qed.

Lemma stops_at_yes m h : coherent m h -> suitable m h ->
  exists k, stops_at m h = Ok (Some k) /\ pictures h (fst (axes_and_bitpix k)) (snd (axes_and_bitpix k)).
Proof.
  intros ((n & S) & C) U. unfold stops_at, suitable, pictures in *. destruct (h_kind h).
  - destruct C as (im & X). rewrite X, S. cbn [bind].
    destruct U as [(_ & n' & S' & NZ)|(K & _)]; [|discriminate]. rewrite S in S'. injection S' as <-.
    rewrite (proj2 (Z.eqb_neq n 0) NZ). eexists. split; [reflexivity|]. left. eauto.
  - destruct C as (im & X). rewrite X, S. cbn [bind].
    destruct U as [(_ & n' & S' & NZ)|(K & _)]; [|discriminate]. rewrite S in S'. injection S' as <-.
    rewrite (proj2 (Z.eqb_neq n 0) NZ). eexists. split; [reflexivity|]. left. eauto.
  - destruct C as (t & X). rewrite X.
    destruct U as [([?|?] & _)|(_ & t' & z & X' & Z)]; try discriminate. rewrite X in X'. injection X' as <-. rewrite Z.
    eexists. split; [reflexivity|]. right. cbn. eauto 8.
  - destruct U as [([?|?] & _)|(K & _)]; discriminate.
Qed.

Definition stop_of (x : item) : option (res (hdu * image_kind * fits)) :=
  match x with IErr e => Some (Err e) | IPanic => Some Panic | _ => Some (Err EDynamic) end.

Lemma find_image_skips m d : octets d -> forall l f x f2 fuel,
  rd_data (f_reader f) = d -> 0 <= rd_pos (f_reader f) ->
  run m (length l + 1) f = (map IOk l ++ [x], f2) -> Forall (unsuitable m) l -> (length l < fuel)%nat ->
  match x with
  | IOk h => coherent m h /\ (suitable m h -> exists k, find_image m fuel f = Some (Ok (h, k, f2)) /\
                pictures h (fst (axes_and_bitpix k)) (snd (axes_and_bitpix k)))
  | _ => find_image m fuel f = stop_of x
  end.
Proof.
  intros O. induction l as [|h l IH]; intros f x f2 fuel D P R U FU.
  - destruct fuel as [|fuel]; [cbn in FU; lia|]. cbn [length Nat.add run map app] in R.
    cbn [find_image]. destruct (next m f) as (i, f1) eqn:N. injection R as -> ->.
    destruct x as [|h|e|]; auto.
    pose proof (next_coherent m d f h f2 O D P N) as C. split; auto. intro S.
    destruct (stops_at_yes m h C S) as (k & E & PI). rewrite E. eauto.
  - destruct fuel as [|fuel]; [cbn in FU; lia|]. cbn [length Nat.add run map app] in R.
    cbn [find_image]. destruct (next m f) as (i, f1) eqn:N.
    destruct (run m (length l + 1) f1) as (l', f3) eqn:RR. injection R as -> -> ->.
    pose proof (next_coherent m d f h f1 O D P N) as C. inversion U as [|? ? Uh Ul]; subst.
    rewrite (stops_at_no m h C Uh).
    destruct (ok_offset_inside m _ f h f1 O eq_refl P N) as (B & R & _ & _).
    apply (IH f1); auto; try (rewrite R; cbn [rd_data rd_pos]; lia || reflexivity). cbn in FU. lia.
Qed.

Lemma is_rgb_ok extra rgb : is_rgb extra = Ok rgb <-> (extra = [] \/ extra = [1]) /\ rgb = false \/ extra = [3] /\ rgb = true.
Proof.
  destruct extra as [|n [|n' r]]; cbn [is_rgb].
  - split; [intro H; injection H as <-; auto|]. intros [(_ & ->)|(H & _)]; [auto|discriminate].
  - destruct (Z.eqb_spec n 1) as [->|N1]; [|destruct (Z.eqb_spec n 3) as [->|N3]].
    + split; [intro H; injection H as <-; auto|]. intros [(_ & ->)|(H & _)]; [auto|discriminate].
    + split; [intro H; injection H as <-; auto|]. intros [([?|?] & _)|(H & ->)]; [discriminate|congruence|auto].
    + split; [discriminate|]. intros [([?|?] & _)|(H & ->)]; congruence.
  - split; [discriminate|]. intros [([?|?] & _)|(? & _)]; discriminate.
Qed.

Lemma describe_spec h k f : pictures h (fst (axes_and_bitpix k)) (snd (axes_and_bitpix k)) -> opens_with (Some (describe h k f)) h f.
Proof.
  intro PI. exists (fst (axes_and_bitpix k)), (snd (axes_and_bitpix k)). split; auto.
  unfold describe, shows. destruct (fst (axes_and_bitpix k)) as [|w [|ht extra]].
  - split; auto. intros w ht rgb (_ & _ & [(H & _)|[(H & _)|(H & _)]]); discriminate.
  - split; auto. intros w' ht rgb (_ & _ & [(H & _)|[(H & _)|(H & _)]]); discriminate.
  - destruct (is_rgb extra) as [rgb|e|] eqn:RG; cbn [bind].
    + unfold to_u32. destruct (Z.ltb_spec w (2 ^ 32)); cbn [bind]; [destruct (Z.ltb_spec ht (2 ^ 32)); cbn [bind]|].
      * cbn [de_width de_height de_rgb de_bitpix de_hdu de_fits].
        apply is_rgb_ok in RG. split; auto. split; auto. split; auto.
        destruct RG as [([->| ->] & ->)|(-> & ->)]; auto.
      * split; auto. intros w' h' rgb' (A & B & C).
        destruct C as [(C & _)|[(C & _)|(C & _)]]; inversion C; subst; lia.
      * split; auto. intros w' h' rgb' (A & B & C).
        destruct C as [(C & _)|[(C & _)|(C & _)]]; inversion C; subst; lia.
    + assert (e = EDynamic) by (destruct extra as [|n [|? ?]]; cbn [is_rgb] in RG; [discriminate| |congruence];
        destruct (n =? 1); [discriminate|]; destruct (n =? 3); [discriminate|congruence]).
      split; auto. intros w' h' rgb' (A & B & C).
      assert (X: is_rgb extra = Ok rgb').
      { apply is_rgb_ok. destruct C as [(C & ->)|[(C & ->)|(C & ->)]]; inversion C; subst; auto. }
      congruence.
    + exfalso. destruct extra as [|n [|? ?]]; cbn [is_rgb] in RG; try discriminate.
      destruct (n =? 1); [discriminate|]; destruct (n =? 3); discriminate.
Qed.

Lemma opens_first m d l h f fuel :
  octets d -> run m (length l + 1) (opened d) = (map IOk l ++ [IOk h], f) ->
  Forall (fun x => ~ suitable m x) l -> suitable m h -> (length l < fuel)%nat ->
  opens_with (decoder_new m fuel (mk_reader d 0)) h f.
Proof.
  intros O R U S FU.
  destruct (find_image_skips m d O l (opened d) (IOk h) f fuel eq_refl ltac:(cbn; lia) R U FU) as (_ & F).
  destruct (F S) as (k & E & PI). unfold decoder_new. fold (opened d). rewrite E. apply describe_spec. auto.
Qed.

Lemma opens_none m d l x f fuel :
  octets d -> run m (length l + 1) (opened d) = (map IOk l ++ [x], f) ->
  Forall (fun x => ~ suitable m x) l -> (forall h, x <> IOk h) -> (length l < fuel)%nat ->
  decoder_new m fuel (mk_reader d 0) = match x with IErr e => Some (Err e) | IPanic => Some Panic | _ => Some (Err EDynamic) end.
Proof.
  intros O R U S FU.
  pose proof (find_image_skips m d O l (opened d) x f fuel eq_refl ltac:(cbn; lia) R U FU) as F.
  unfold decoder_new. fold (opened d). destruct x as [|h|e|]; [| exfalso; eapply S; eauto| |]; cbn [stop_of] in F; rewrite F; reflexivity.
Qed.

(** ** From the decoder back to the file *)

Lemma find_image_inv m d : octets d -> forall fuel f h k f2,
  rd_data (f_reader f) = d -> 0 <= rd_pos (f_reader f) -> find_image m fuel f = Some (Ok (h, k, f2)) ->
  exists f0, rd_data (f_reader f0) = d /\ 0 <= rd_pos (f_reader f0) /\ next m f0 = (IOk h, f2) /\ stops_at m h = Ok (Some k).
Proof.
  intro O. induction fuel as [|fuel IH]; intros f h k f2 D P E; [discriminate|].
  cbn [find_image] in E. destruct (next m f) as (i, f1) eqn:N.
  destruct i as [|h0|e|]; try discriminate.
  destruct (stops_at m h0) as [[k0|]| |] eqn:ST; try discriminate.
  - injection E as -> -> ->. exists f. auto.
  - destruct (ok_offset_inside m _ f h0 f1 O D P N) as (B & R & _ & _).
    apply (IH f1); auto; rewrite R; cbn [rd_data rd_pos]; auto; lia.
Qed.

Lemma describe_inv h k f dec : describe h k f = Ok dec ->
  de_hdu dec = h /\ de_kind dec = k /\ de_fits dec = f /\ de_bitpix dec = snd (axes_and_bitpix k) /\
  exists extra, fst (axes_and_bitpix k) = de_width dec :: de_height dec :: extra /\ is_rgb extra = Ok (de_rgb dec).
Proof.
  unfold describe. destruct (fst (axes_and_bitpix k)) as [|w [|ht extra]]; try discriminate.
  destruct (is_rgb extra) as [rgb| |] eqn:RG; try discriminate. cbn [bind]. unfold to_u32.
  destruct (w <? 2 ^ 32); try discriminate. cbn [bind].
  destruct (ht <? 2 ^ 32); try discriminate. cbn [bind]. intro H. injection H as <-. cbn. eauto 8.
Qed.

Lemma decoder_inv m fuel d dec : octets d -> decoder_new m fuel (mk_reader d 0) = Some (Ok dec) ->
  exists f0, rd_data (f_reader f0) = d /\ 0 <= rd_pos (f_reader f0) /\ next m f0 = (IOk (de_hdu dec), de_fits dec) /\
    stops_at m (de_hdu dec) = Ok (Some (de_kind dec)) /\ describe (de_hdu dec) (de_kind dec) (de_fits dec) = Ok dec.
Proof.
  intros O H. unfold decoder_new in H.
  destruct (find_image m fuel (from_reader (mk_reader d 0))) as [[((h, k), f)| |]|] eqn:F; try discriminate.
  apply (find_image_inv m d O) in F as (f0 & A & B & C & E); [|auto|cbn; lia]. injection H as H.
  destruct (describe_inv h k f dec H) as (<- & <- & <- & _). exists f0. auto.
Qed.

(** ** Scaling keywords *)

Lemma scale_field_iff vs k dflt x : scale_field vs k dflt = Ok x <-> keyword_float vs k dflt x.
Proof.
  unfold scale_field, keyword_float, de_f64.
  destruct (get vs k) as [[i c|b c|f c|s c| |s]|]; cbn [bind]; split; intro H; try discriminate; try tauto; subst;
    try (injection H as <-); try reflexivity.
Qed.

Lemma scale_of_iff vs sc : scale_of vs = Ok sc <-> scaling vs sc.
Proof.
  unfold scale_of, scaling. cbn [default_scale sc_zero sc_scale]. rewrite <- !scale_field_iff.
  destruct (scale_field vs (chars "BZERO") (S754_zero false)) as [z| |]; cbn [bind];
    [|split; [discriminate|intros (H & _); discriminate]..].
  destruct (scale_field vs (chars "BSCALE") (f64_of_int 1)) as [s| |]; cbn [bind];
    [|split; [discriminate|intros (_ & H); discriminate]..].
  destruct sc as [sz ss]. cbn [sc_zero sc_scale]. split; [intro H; injection H as -> ->; auto|].
  intros (H1 & H2). injection H1 as ->. injection H2 as ->. reflexivity.
Qed.

(** ** Images *)

Definition as_pull (b : bitpix) (sc : scale) (r : SpecImage.pixel_result) : out (option (list Z)) :=
  match r with SpecImage.RValue v => Some (Ok (Some (image_sample b sc v))) | _ => Some (Ok None) end.

Lemma pulls_image m sc b : forall n s, it_ty s = b ->
  pulls (pull_image sc) n s = map (as_pull b sc) (fst (pixel_run m s (repeat PNext n))).
Proof.
  induction n as [|n IH]; intros s B; [reflexivity|]. cbn [pulls repeat pixel_run pixel_do].
  destruct (it_next s) as (v, s') eqn:E.
  assert (PE: pull_image sc s = (Some (Ok (option_map (image_sample (it_ty s) sc) v)), s')) by (unfold pull_image; rewrite E; reflexivity).
  rewrite PE.
  assert (B': it_ty s' = b).
  { unfold it_next in E. destruct (it_idx s =? it_num s); [injection E as _ <-; auto|].
    destruct (read_be (it_ty s) (it_reader s)) as (x, r). injection E as _ <-. auto. }
  cbn [fst snd]. destruct v as [v|]; destruct (pixel_run m s' (repeat PNext n)) as (l, s2) eqn:R; cbn [fst map as_pull option_map];
    rewrite (IH s' B'), R; cbn [fst]; rewrite ?B; reflexivity.
Qed.

Lemma le_bytes_len n : forall z, len (le_bytes n z) = Z.of_nat n.
Proof. unfold len. induction n; intro z; cbn [le_bytes length]; auto. rewrite Nat2Z.inj_succ, IHn. lia. Qed.

Lemma sample_depth b sc v : len (image_sample b sc v) = depth b.
Proof. destruct b; cbn [image_sample depth]; unfold sample_i16, sample_i32, sample_i64, sample_f32; rewrite ?le_bytes_len; reflexivity. Qed.

Lemma image_gives m sc id values b :
  it_ty (id_pixels id) = b ->
  (forall n, fst (pixel_run m (id_pixels id) (repeat PNext n)) = firstn n (map SpecImage.RValue values ++ repeat SpecImage.REnd n)) ->
  gives (pull_image sc) (id_pixels id) (depth b) (map (image_sample b sc) values).
Proof.
  intros B H. split.
  - apply Forall_map. apply Forall_forall. intros v _. apply sample_depth.
  - intro n. rewrite (pulls_image m sc b n _ B), H. rewrite <- firstn_map. f_equal. rewrite map_app, !map_map. f_equal.
    clear. induction n; cbn [repeat map]; auto. f_equal. auto.
Qed.

Lemma image_decoded gz m fuel d dec im sc :
  octets d -> decoder_new m fuel (mk_reader d 0) = Some (Ok dec) -> de_kind dec = KImage im -> size_fits im ->
  scaling (h_values (de_hdu dec)) sc ->
  exists values,
    len values = Z.min (pixel_count im) ((len d - h_offset (de_hdu dec)) / width (im_bitpix im)) /\
    stored d (h_offset (de_hdu dec)) (im_bitpix im) values /\
    forall buf, exists after, read_image gz m fuel dec buf = Some (Ok after) /\
      laid_out (depth (im_bitpix im)) (channels (im_bitpix im) (de_rgb dec)) (place (de_rgb dec))
        (map (image_sample (im_bitpix im) sc) values) buf after.
Proof.
  intros O N K SF SC. apply scale_of_iff in SC.
  destruct (decoder_inv m fuel d dec O N) as (f0 & D & P & NX & ST & DE). rewrite K in ST.
  assert (X: h_xt (de_hdu dec) = XtImage im).
  { unfold stops_at in ST. destruct (h_kind (de_hdu dec)), (h_xt (de_hdu dec)) as [im'|t|t]; try discriminate.
    - destruct (hdu_size m (de_hdu dec)) as [n| |]; try discriminate. cbn [bind] in ST. destruct (n =? 0); try discriminate. congruence.
    - destruct (hdu_size m (de_hdu dec)) as [n| |]; try discriminate. cbn [bind] in ST. destruct (n =? 0); try discriminate. congruence.
    - destruct (bt_zimage t); discriminate. }
  destruct (pixels_sequential m d f0 (de_hdu dec) (de_fits dec) im O D P NX X SF) as (id & values & G & L & S & RU).
  exists values. split; auto. split; auto. intro buf.
  unfold read_image. rewrite SC, K, G.
  assert (T: it_ty (id_pixels id) = im_bitpix im).
  { unfold get_image, image_data_new in G. destruct (image_num_bytes m im); cbn [bind] in G; try discriminate. injection G as <-. reflexivity. }
  apply pixels_layout. apply (image_gives m); auto.
Qed.

(** ** Tiles *)

Definition tile_pull (b : bitpix) (sc : scale) (r : SpecTile.pixel_result) : out (option (list Z)) :=
  match r with
  | PixelOf p => Some (Ok (Some (tile_sample b sc p)))
  | PixEnd => Some (Ok None)
  | PixPanic => Some Panic
  | PixFuel => None
  end.

Lemma pulls_tiles gz m fuel b sc : forall n s,
  Forall (fun r => exists p, r = PixelOf p \/ r = PixEnd) (fst (tiles_run gz m fuel s n)) ->
  pulls (pull_tiles gz m fuel b sc) n s = map (tile_pull b sc) (fst (tiles_run gz m fuel s n)).
Proof.
  induction n as [|n IH]; intros s F; [reflexivity|]. cbn [pulls tiles_run] in *.
  unfold tiles_do in *.
  remember (pull_tiles gz m fuel b sc s) as q eqn:PE. unfold pull_tiles in PE.
  destruct (tiles_next gz m fuel s) as (x, s') eqn:E.
  destruct x as [[[p|]|e|]|]; subst q;
    (destruct (tiles_run gz m fuel s' n) as (l, s2) eqn:R; cbn [fst snd map tile_pull option_map] in *;
     inversion F as [|? ? (p0 & [H|H]) F']; subst; try discriminate; rewrite IH by (rewrite R; exact F'); rewrite R; reflexivity).
Qed.

Definition fits_depth (b : bitpix) (p : pixel) : Prop :=
  match p with PInt _ => b = BU8 \/ b = BI16 \/ b = BI32 | PFloat _ => b = BF32 \/ b = BF64 end.

Lemma tile_depth b sc p : fits_depth b p -> len (tile_sample b sc p) = depth b.
Proof.
  destruct p; cbn [fits_depth tile_sample]; unfold sample_i16, sample_i32, sample_f32.
  - intros [->|[->| ->]]; rewrite ?le_bytes_len; reflexivity.
  - intros [->| ->]; rewrite ?le_bytes_len; reflexivity.
Qed.

Lemma tiles_give gz m fuel s sc b pixels :
  Forall (fits_depth b) pixels ->
  (forall n, fst (tiles_run gz m fuel s n) = firstn n (map PixelOf pixels ++ repeat PixEnd n)) ->
  gives (pull_tiles gz m fuel b sc) s (depth b) (map (tile_sample b sc) pixels).
Proof.
  intros B H. split.
  - apply Forall_map. eapply Forall_impl; [|exact B]. intros. apply tile_depth. auto.
  - intro n. rewrite pulls_tiles.
    + rewrite H, <- firstn_map. f_equal. rewrite map_app, !map_map. f_equal.
      clear. induction n; cbn [repeat map]; auto. f_equal. auto.
    + rewrite H. apply Forall_forall. intros r I.
      assert (I2: In r (map PixelOf pixels ++ repeat PixEnd n)).
      { rewrite <- (firstn_skipn n). apply in_or_app. auto. }
      apply in_app_or in I2 as [I2|I2].
      * apply in_map_iff in I2 as (p & <- & _). eauto.
      * apply repeat_spec in I2. exists (PInt 0). auto.
Qed.

Lemma tiles_written gz m fuel d dec t z sc s pixels :
  octets d -> decoder_new m fuel (mk_reader d 0) = Some (Ok dec) -> de_kind dec = KTiles t z ->
  scaling (h_values (de_hdu dec)) sc ->
  get_tiles m (de_fits dec) (h_values (de_hdu dec)) t = Some (Ok s) ->
  Forall (fits_depth (z_bitpix z)) pixels ->
  forall fuel2, (forall n, fst (tiles_run gz m fuel2 s n) = firstn n (map PixelOf pixels ++ repeat PixEnd n)) ->
  forall buf, exists after, read_image gz m fuel2 dec buf = Some (Ok after) /\
    laid_out (depth (z_bitpix z)) (channels (z_bitpix z) (de_rgb dec)) (place (de_rgb dec))
      (map (tile_sample (z_bitpix z) sc) pixels) buf after.
Proof.
  intros O N K SC G B fuel2 H buf. apply scale_of_iff in SC.
  unfold read_image. rewrite SC, K, G. apply pixels_layout. apply tiles_give; auto.
Qed.

Lemma tiles_kind m fuel d dec t z :
  octets d -> decoder_new m fuel (mk_reader d 0) = Some (Ok dec) -> de_kind dec = KTiles t z ->
  h_xt (de_hdu dec) = XtBin t /\ bt_zimage t = Some z.
Proof.
  intros O N K. destruct (decoder_inv m fuel d dec O N) as (f0 & D & P & NX & ST & DE). rewrite K in ST.
  unfold stops_at in ST. destruct (h_kind (de_hdu dec)), (h_xt (de_hdu dec)) as [im'|t'|t']; try discriminate.
  - destruct (hdu_size m (de_hdu dec)) as [n| |]; try discriminate. cbn [bind] in ST. destruct (n =? 0); discriminate.
  - destruct (hdu_size m (de_hdu dec)) as [n| |]; try discriminate. cbn [bind] in ST. destruct (n =? 0); discriminate.
  - destruct (bt_zimage t') eqn:Z; try discriminate. injection ST as <- <-. auto.
Qed.

Lemma tiles_decoded gz m fuel d dec t z sc ints :
  octets d -> decoder_new m fuel (mk_reader d 0) = Some (Ok dec) -> de_kind dec = KTiles t z ->
  scaling (h_values (de_hdu dec)) sc ->
  tiled d t (h_offset (de_hdu dec)) z -> tiles_hold gz m d t (h_offset (de_hdu dec)) z ints ->
  whole_pixels (z_bitpix z) -> ~ (z_bitpix z = BU8 /\ z_cmp z = ZGzip2) ->
  exists fuel0, forall fuel2 buf, (fuel0 <= fuel2)%nat ->
    exists after, read_image gz m fuel2 dec buf = Some (Ok after) /\
      laid_out (depth (z_bitpix z)) (channels (z_bitpix z) (de_rgb dec)) (place (de_rgb dec))
        (map (tile_sample (z_bitpix z) sc) (flat_map (fun row => map (int_pixel (z_bitpix z)) (ints row)) (upto (bt_naxis2 t))))
        buf after.
Proof.
  intros O N K SC T H W G2. destruct (tiles_kind m fuel d dec t z O N K) as (X & Z).
  destruct (decoder_inv m fuel d dec O N) as (f0 & D & P & NX & _).
  destruct (int_tiles_read gz m d f0 _ _ t z ints O D P NX X Z T H W G2) as (s & fuel0 & G & R).
  exists fuel0. intros fuel2 buf F. eapply tiles_written; eauto.
  apply Forall_forall. intros p I. apply in_flat_map in I as (row & _ & I). apply in_map_iff in I as (v & <- & _).
  cbn. exact W.
Qed.

Lemma float_tiles_decoded gz m fuel d dec t z sc ints scale zero blank :
  octets d -> decoder_new m fuel (mk_reader d 0) = Some (Ok dec) -> de_kind dec = KTiles t z ->
  scaling (h_values (de_hdu dec)) sc ->
  tiled d t (h_offset (de_hdu dec)) z -> tiles_hold gz m d t (h_offset (de_hdu dec)) z ints ->
  real_pixels (z_bitpix z) -> quantised d t (h_offset (de_hdu dec)) (h_values (de_hdu dec)) scale zero blank ->
  exists fuel0, forall fuel2 buf, (fuel0 <= fuel2)%nat ->
    exists after, read_image gz m fuel2 dec buf = Some (Ok after) /\
      laid_out (depth (z_bitpix z)) (channels (z_bitpix z) (de_rgb dec)) (place (de_rgb dec))
        (map (tile_sample (z_bitpix z) sc)
             (flat_map (fun row => map (float_pixel ZNoDither (scale row) (zero row) (blank row) S754_nan) (ints row)) (upto (bt_naxis2 t))))
        buf after.
Proof.
  intros O N K SC T H W Q. destruct (tiles_kind m fuel d dec t z O N K) as (X & Z).
  destruct (decoder_inv m fuel d dec O N) as (f0 & D & P & NX & _).
  destruct (float_tiles_read gz m d f0 _ _ t z ints scale zero blank O D P NX X Z T H W Q) as (s & fuel0 & G & R).
  exists fuel0. intros fuel2 buf F. eapply tiles_written; eauto.
  apply Forall_forall. intros p I. apply in_flat_map in I as (row & _ & I). apply in_map_iff in I as (v & <- & _).
  cbn. exact W.
Qed.

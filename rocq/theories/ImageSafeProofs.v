(** Proofs for the image decoder on any file (C88). *)

From Coq Require Import List Lia ZifyBool.
From Verif Require Import Base Text Card Reader Header Xtension Bytes Fits ImageIt BinTable Rice Float Tile ImageInt.
From Verif Require Import PanicProofs PanicProofs2 BinProofs4 TileProofs8 ImageIntProofs ImageIntProofs2 DeviceImageProofs DeviceImageProofs2.
From Verif Require Import SpecCard SpecHeader SpecXt SpecFits SpecPanic SpecImage SpecBin SpecBinCut SpecTile SpecTileSafe SpecImageInt.

(** ** Opening *)

Lemma product_release l : forall acc, exists n, u64_product_from Wrapping acc l = Ok n.
Proof. induction l as [|x l IH]; intro acc; cbn [u64_product_from]; [eauto|]. rewrite u64_wrapping. cbn [bind]. apply IH. Qed.

Lemma stops_release h : stops_at Wrapping h <> Panic.
Proof.
  assert (I: forall im, exists n, image_num_bytes Wrapping im = Ok n).
  { intro im. unfold image_num_bytes, num_pixels.
    assert (E: exists n, match im_naxisn im with [] => Ok 0 | l => u64_product_from Wrapping 1 l end = Ok n)
      by (destruct (im_naxisn im); [eauto|apply product_release]).
    destruct E as (n & ->). cbn [bind]. rewrite u64_wrapping. eauto. }
  unfold stops_at, hdu_size. destruct (h_kind h), (h_xt h) as [im|t|t]; try discriminate;
    try (destruct (bt_zimage t); discriminate); cbn [xt_num_bytes]; destruct (I im) as (n & ->); discriminate.
Qed.

Lemma moved_self f : 0 <= rd_pos (f_reader f) -> moved f (rd_pos (f_reader f)) = f.
Proof. destruct f as [a b c e [d p]]. reflexivity. Qed.

Lemma find_panic d : octets d -> forall fuel f, rd_data (f_reader f) = d -> 0 <= rd_pos (f_reader f) ->
  find_image Wrapping fuel f = Some Panic -> exists l f', calls Wrapping f l f' /\ In IPanic l.
Proof.
  intros O fuel. induction fuel as [|fuel IH]; intros f D P H; [discriminate|]. cbn [find_image] in H.
  destruct (next Wrapping f) as (i, f1) eqn:N. destruct i as [|h|e|]; try discriminate.
  - destruct (stops_at Wrapping h) as [[k|]|e|] eqn:S; try discriminate.
    + destruct (ok_offset_inside Wrapping _ f h f1 O D P N) as (B & R & _ & _).
      destruct (IH f1) as (l & f2 & Y & I); auto; try (rewrite R; cbn [rd_data rd_pos]; auto; lia).
      exists (IOk h :: l), f2. split; [|right; exact I]. apply (calls_next _ _ (rd_pos (f_reader f)) _ f1); auto; [rewrite moved_self; auto|discriminate].
    + exfalso. exact (stops_release h S).
  - exists [IPanic], f1. split; [|left; reflexivity]. apply (calls_panic _ _ (rd_pos (f_reader f))); auto. rewrite moved_self; auto.
Qed.

Lemma describe_safe h k f : describe h k f <> Panic.
Proof.
  unfold describe, is_rgb, to_u32. destruct (fst (axes_and_bitpix k)) as [|w [|ht extra]]; try discriminate.
  destruct extra as [|n [|x l]]; cbn [bind]; try discriminate;
    [|destruct (n =? 1); [|destruct (n =? 3); [|discriminate]]; cbn [bind]];
    destruct (w <? 2 ^ 32); cbn [bind]; try discriminate; destruct (ht <? 2 ^ 32); discriminate.
Qed.

Lemma opening_panic d fuel : octets d -> decoder_new Wrapping fuel (mk_reader d 0) = Some Panic ->
  exists primary q, 0 <= q /\ panics_at d primary q.
Proof.
  intros O H. unfold decoder_new in H.
  destruct (find_image Wrapping fuel (from_reader (mk_reader d 0))) as [[((h, k), f)| |]|] eqn:F; try discriminate.
  - injection H as H. destruct (describe_safe _ _ _ H).
  - apply (find_panic d O) in F as (l & f' & Y & I); [|reflexivity|cbn; lia]. exact (run_release d l f' O Y I).
Qed.

(** ** Writing into the buffer, whatever the iterator gives *)

Section Total.
  Context {S : Type} (pull : S -> out (option (list Z)) * S) (p : nat) (P : S -> Prop).
  Hypothesis Total : forall s, P s -> exists v s', pull s = (Some (Ok v), s') /\ P s' /\
    match v with Some l => length l = p | None => True end.
  Hypothesis Pos : (0 < p)%nat.

  Lemma zip_total {A} (put : A -> list Z -> A) (Q : A -> Prop) :
    (forall x v, Q x -> length v = p -> Q (put x v)) ->
    forall l s, P s -> Forall Q l -> exists l' s', zip_write _ pull put l s = (Some (Ok l'), s') /\ P s' /\ Forall Q l' /\ length l' = length l.
  Proof.
    intro K. induction l as [|x l IH]; intros s Ps F; cbn [zip_write]; [exists [], s; auto|]. inversion F as [|? ? Fx Fl]; subst.
    destruct (Total s Ps) as (v & s1 & E & P1 & L). rewrite E. destruct v as [v|].
    - destruct (IH s1 P1 Fl) as (l' & s2 & E2 & P2 & F2 & L2). rewrite E2. exists (put x v :: l'), s2.
      split; [reflexivity|]. split; [exact P2|]. split; [constructor; auto|cbn [length]; now rewrite L2].
    - exists (x :: l), s1. auto.
  Qed.

  Lemma set_shape (c : nat) (x : list (list Z)) v : pixel_shape p x -> length v = p -> pixel_shape p (set_nth c v x).
  Proof.
    intros (L & F) V. split.
    - clear F. rewrite <- L. clear L. revert c. induction x as [|y x IH]; intros [|c]; cbn [set_nth length]; auto.
    - clear L. revert c. induction F as [|y x Fy Fx IH]; intros [|c]; cbn [set_nth]; constructor; auto.
  Qed.

  Lemma channels_total : forall cs ps s, P s -> Forall (pixel_shape p) ps ->
    exists ps' s', write_channels _ pull cs ps s = (Some (Ok ps'), s') /\ Forall (pixel_shape p) ps' /\ length ps' = length ps.
  Proof.
    induction cs as [|c cs IH]; intros ps s Ps F; cbn [write_channels]; [exists ps, s; auto|].
    destruct (zip_total (fun x v => set_nth c v x) (pixel_shape p) (set_shape c) ps s Ps F) as (ps1 & s1 & E & P1 & F1 & L1).
    rewrite E. destruct (IH ps1 s1 P1 F1) as (ps2 & s2 & E2 & F2 & L2). rewrite E2. exists ps2, s2.
    split; [reflexivity|]. split; [exact F2|]. now rewrite L2.
  Qed.

  Lemma shapes_length (ps : list (list (list Z))) : Forall (pixel_shape p) ps -> length (concat (concat ps)) = (p * (3 * length ps))%nat.
  Proof.
    intro F. rewrite (concat_uniform p).
    - f_equal. apply concat_uniform. eapply Forall_impl; [|exact F]. now intros x (L & _).
    - induction F as [|x ps (L & Fx) F IH]; cbn [concat]; [constructor|]. apply Forall_app. split; assumption.
  Qed.

  Lemma rebuilt (buf : list Z) ps' :
    let cs := chunks (length buf / p) p buf in
    Forall (pixel_shape p) ps' -> length ps' = (length cs / 3)%nat ->
    length (concat (concat ps') ++ concat (skipn (length cs / 3 * 3) cs) ++ skipn (length buf / p * p) buf) = length buf.
  Proof.
    intros cs F L. rewrite !app_length, (shapes_length ps' F), L.
    pose proof (pixels_shape p buf (length cs / 3) eq_refl Pos) as F0. fold cs in F0.
    assert (B1: length buf = (length (concat cs) + length (skipn (length buf / p * p) buf))%nat)
      by (rewrite <- app_length; unfold cs; now rewrite chunks_concat).
    assert (B2: length (concat cs) = (length (concat (concat (chunks (length cs / 3) 3 cs))) + length (concat (skipn (length cs / 3 * 3) cs)))%nat)
      by (rewrite <- app_length, <- concat_app, chunks_concat; reflexivity).
    rewrite (shapes_length _ F0), chunks_length in B2. lia.
  Qed.

  Lemma rgb_total buf s : P s -> exists after, write_rgb _ pull p buf s = Some (Ok after) /\ len after = len buf.
  Proof.
    intro Ps. unfold write_rgb, as_chunks. set (cs := chunks (length buf / p) p buf).
    destruct (channels_total [0; 1; 2]%nat (chunks (length cs / 3) 3 cs) s Ps) as (ps' & s' & E & F & L).
    { apply pixels_shape; auto. }
    rewrite E. unfold finish. cbn [fst]. eexists. split; [reflexivity|].
    rewrite chunks_length in L. unfold len. f_equal. apply rebuilt; assumption.
  Qed.
  Lemma splat_total buf s : P s -> exists after, write_splat _ pull p buf s = Some (Ok after) /\ len after = len buf.
  Proof.
    intro Ps. unfold write_splat, as_chunks. set (cs := chunks (length buf / p) p buf).
    destruct (zip_total (fun _ v => [v; v; v]) (pixel_shape p)) with (l := chunks (length cs / 3) 3 cs) (s := s) as (ps' & s' & E & _ & F & L); auto.
    { intros x v _ V. split; [reflexivity|]. repeat constructor; assumption. }
    { apply pixels_shape; auto. }
    rewrite E. unfold finish. cbn [fst]. eexists. split; [reflexivity|].
    rewrite chunks_length in L. unfold len. f_equal. apply rebuilt; assumption.
  Qed.
  Lemma luma_total buf s : P s -> exists after, write_luma _ pull p buf s = Some (Ok after) /\ len after = len buf.
  Proof.
    intro Ps. unfold write_luma, as_chunks.
    assert (K: (length buf / p * p <= length buf)%nat) by (pose proof (Nat.mul_div_le (length buf) p); lia).
    pose proof (chunks_each p (length buf / p) buf K) as F0.
    destruct (zip_total (fun _ v => v) (fun x => length x = p)) with (l := chunks (length buf / p) p buf) (s := s) as (ps' & s' & E & _ & F & L); auto.
    rewrite E. unfold finish. cbn [fst]. eexists. split; [reflexivity|]. unfold len. f_equal.
    rewrite app_length, (concat_uniform p ps' F), L, chunks_length.
    assert (B: length buf = (length (concat (chunks (length buf / p) p buf)) + length (skipn (length buf / p * p) buf))%nat)
      by (rewrite <- app_length; now rewrite chunks_concat).
    rewrite (concat_uniform p _ F0), chunks_length in B. lia.
  Qed.
End Total.

Lemma pixels_total {S} (pull : S -> out (option (list Z)) * S) b (P : S -> Prop) rgb buf s :
  (forall s, P s -> exists v s', pull s = (Some (Ok v), s') /\ P s' /\ match v with Some l => len l = depth b | None => True end) ->
  P s -> exists after, write_pixels _ pull b rgb buf s = Some (Ok after) /\ len after = len buf.
Proof.
  intros T Ps.
  assert (T': forall s, P s -> exists v s', pull s = (Some (Ok v), s') /\ P s' /\ match v with Some l => length l = sample_width b | None => True end).
  { intros s0 P0. destruct (T s0 P0) as (v & s' & E & P' & L). exists v, s'. split; [exact E|]. split; [exact P'|].
    destruct v as [l|]; [|exact I]. unfold len in L. destruct b; cbn [depth sample_width] in *; lia. }
  assert (W: (0 < sample_width b)%nat) by (destruct b; cbn; lia).
  unfold write_pixels. destruct rgb; [eapply rgb_total; eauto|].
  destruct b; first [eapply luma_total; eauto; fail|eapply splat_total; eauto].
Qed.

(** ** Images *)

Lemma image_any gz m fuel d dec im buf :
  octets d -> decoder_new m fuel (mk_reader d 0) = Some (Ok dec) -> de_kind dec = KImage im -> forall fuel2,
  ((exists sc, scaling (h_values (de_hdu dec)) sc) ->
   exists after, read_image gz m fuel2 dec buf = Some (Ok after) /\ len after = len buf) /\
  ((forall sc, ~ scaling (h_values (de_hdu dec)) sc) -> exists e, read_image gz m fuel2 dec buf = Some (Err e)).
Proof.
  intros O N K fuel2. destruct (decoder_inv m fuel d dec O N) as (f0 & D & P & NX & ST & DE). rewrite K in ST. split.
  - intros (sc & SC). apply scale_of_iff in SC. unfold read_image. rewrite SC, K.
    assert (X: h_xt (de_hdu dec) = XtImage im /\ exists n, hdu_size m (de_hdu dec) = Ok n).
    { unfold stops_at in ST. destruct (h_kind (de_hdu dec)), (h_xt (de_hdu dec)) as [im'|t|t]; try discriminate;
        try (destruct (bt_zimage t); discriminate);
        (destruct (hdu_size m (de_hdu dec)) as [n| |]; try discriminate; cbn [bind] in ST; destruct (n =? 0); try discriminate;
         split; [congruence|eauto]). }
    destruct X as (X & n & Sz). unfold hdu_size in Sz. rewrite X in Sz. cbn [xt_num_bytes] in Sz.
    unfold get_image, image_data_new. rewrite Sz. cbn [bind id_pixels].
    apply (pixels_total _ _ (fun s => it_ty s = im_bitpix im)); [|reflexivity].
    intros s T. unfold pull_image. unfold it_next. destruct (it_idx s =? it_num s).
    + eexists; eexists; split; [reflexivity|]. split; [exact T|exact I].
    + destruct (read_be (it_ty s) (it_reader s)) as (v, r). eexists; eexists; split; [reflexivity|]. split; [exact T|].
      rewrite T. destruct v; cbn [option_map]; auto. apply sample_depth.
  - intro No. unfold read_image. destruct (scale_of (h_values (de_hdu dec))) as [sc|e|] eqn:E.
    + apply scale_of_iff in E. destruct (No _ E).
    + eauto.
    + exfalso. revert E. unfold scale_of, scale_field. unfold de_f64.
      repeat match goal with |- context [match ?x with _ => _ end] => destruct x; cbn [bind]; try discriminate end.
Qed.

(** ** Tiles *)

Definition pixel_kind (k : keywords) (p : pixel) : Prop :=
  match k with KFloat _ => match p with PFloat _ => True | _ => False end | _ => match p with PInt _ => True | _ => False end end.
Definition same_kind (k k' : keywords) : Prop :=
  match k, k' with KU8, KU8 | KI16, KI16 | KI32, KI32 => True | KFloat _, KFloat _ => True | _, _ => False end.

Lemma same_kind_refl k : same_kind k k.
Proof. destruct k; exact I. Qed.

Lemma pixel_keeps m s x s' : tile_pixel m s = (x, s') ->
  same_kind (tl_keys s) (tl_keys s') /\ forall p, x = Ok (Some p) -> pixel_kind (tl_keys s) p.
Proof.
  unfold tile_pixel. destruct (u64_result m (tl_n s - tl_rem s)) as [i|e|]; cbn [bind];
    try (intro H; inversion H; subst; split; [apply same_kind_refl|discriminate]; fail).
  destruct (int_value (tl_keys s) (tl_cmp s) (tl_buf s) i) as [v|e|]; cbn [bind];
    try (intro H; inversion H; subst; split; [apply same_kind_refl|discriminate]; fail).
  destruct (tl_keys s) as [| | |k] eqn:Ek.
  4:{ destruct (unquantize k v) as [(y, k')|e|]; cbn [bind];
        try (intro H; inversion H; subst; rewrite Ek; split; [exact I|discriminate]; fail).
      destruct (u64_result m (tl_rem s - 1)); intro H; inversion H; subst; (split; [exact I|]); try discriminate; intros p E; inversion E; exact I. }
  all: destruct (u64_result m (tl_rem s - 1)); intro H; inversion H; subst; (split; [exact I|]); try discriminate; intros p E; inversion E; exact I.
Qed.

Lemma tile_keeps gz m fuel s x s' : next_tile gz m fuel s = (x, s') -> same_kind (tl_keys s) (tl_keys s').
Proof.
  unfold next_tile. destruct (row_next m fuel (tl_rows s)) as (o, y).
  destruct o as [[[row|]|e|]|]; try (intro H; inversion H; subst; apply same_kind_refl).
  destruct (tile_offset row (tl_idx s)) as [a|e|]; cbn [bind]; try (intro H; inversion H; subst; apply same_kind_refl).
  destruct (usize_product m 1 (tl_tile s)) as [n|e|]; cbn [bind]; try (intro H; inversion H; subst; apply same_kind_refl).
  assert (KR: forall k, keys_row m (tl_keys s) row (ri_row y) = Ok k -> same_kind (tl_keys s) k).
  { intros k H. unfold keys_row in H. destruct (tl_keys s) as [| | |f]; try (inversion H; exact I).
    destruct (fkeys_row m f row (ri_row y)); cbn [bind] in H; inversion H. exact I. }
  destruct (keys_row m (tl_keys s) row (ri_row y)) as [k|e|]; cbn [bind]; try (intro H; inversion H; subst; apply same_kind_refl).
  destruct (tile_jump m (tb_ctx (ri_data y)) (ri_row y) a) as [off|e|]; cbn [bind]; try (intro H; inversion H; subst; apply same_kind_refl).
  assert (LT: forall s0 z s2, load_tile gz m fuel s0 off = (z, s2) -> tl_keys s2 = tl_keys s0).
  { intros s0 z s2 H. unfold load_tile in H. destruct (seek_relative (tl_reader s0) off) as ([u|e|], r); try (inversion H; reflexivity).
    destruct (decompress gz m fuel (tl_cmp s0) (tl_n s0) (tl_buf s0) r) as ((q, b), r'). destruct q as [[u'|e|]|]; inversion H; reflexivity. }
  destruct (load_tile gz m fuel _ off) as (z, s2) eqn:E. apply LT in E. cbn [tl_keys tl_set_keys] in E.
  intro H. assert (s' = s2) as -> by (destruct z as [[u|e|]|]; inversion H; reflexivity). rewrite E. apply KR. reflexivity.
Qed.

Lemma same_kind_trans a b c : same_kind a b -> same_kind b c -> same_kind a c.
Proof. destruct a, b, c; cbn; auto; contradiction. Qed.
Lemma pixel_kind_same a b p : same_kind a b -> pixel_kind b p -> pixel_kind a p.
Proof. destruct a, b; cbn; auto; contradiction. Qed.

Lemma next_keeps gz m fuel s x s' : tiles_next gz m fuel s = (x, s') ->
  same_kind (tl_keys s) (tl_keys s') /\ forall p, x = Some (Ok (Some p)) -> pixel_kind (tl_keys s) p.
Proof.
  unfold tiles_next. destruct (tl_rem s =? 0).
  - destruct (next_tile gz m fuel s) as (o, s1) eqn:E. apply tile_keeps in E.
    destruct o as [[[|]|e|]|]; try (intro H; inversion H; subst; split; [exact E|discriminate]).
    destruct (tile_pixel m s1) as (y, s2) eqn:T. apply pixel_keeps in T as (T1 & T2). intro H. inversion H; subst.
    split; [exact (same_kind_trans _ _ _ E T1)|]. intros p Ep. inversion Ep; subst. apply (pixel_kind_same _ _ _ E). auto.
  - destruct (tile_pixel m s) as (y, s2) eqn:T. apply pixel_keeps in T as (T1 & T2). intro H. inversion H; subst.
    split; [exact T1|]. intros p Ep. inversion Ep; subst. auto.
Qed.

Lemma run_kinds gz m fuel : forall pixels s rest s', tiles_run gz m fuel s (length pixels + length rest) = (map PixelOf pixels ++ rest, s') ->
  Forall (pixel_kind (tl_keys s)) pixels.
Proof.
  induction pixels as [|p pixels IH]; intros s rest s' H; [constructor|]. cbn [length plus map app tiles_run] in H.
  unfold tiles_do in H. destruct (tiles_next gz m fuel s) as (x, s1) eqn:E. apply next_keeps in E as (E1 & E2).
  destruct x as [[[q|]|e|]|]; destruct (tiles_run gz m fuel s1 (length pixels + length rest)) as (l, s2) eqn:R; try discriminate.
  inversion H; subst. constructor; [apply E2; reflexivity|].
  specialize (IH s1 rest s' R). eapply Forall_impl; [|exact IH]. intros q. apply pixel_kind_same. exact E1.
Qed.

Lemma tiles_any gz fuel d dec t z sc :
  fills_buffer gz -> octets d -> decoder_new Wrapping fuel (mk_reader d 0) = Some (Ok dec) ->
  de_kind dec = KTiles t z -> de_rgb dec = false -> scaling (h_values (de_hdu dec)) sc ->
  table_laid_out d t (h_offset (de_hdu dec)) -> tile_header t z ->
  let b := z_bitpix z in
  exists fuel0, forall fuel2, (fuel0 <= fuel2)%nat -> exists pixels rows,
    len pixels = rows * product (z_tilen z) /\ 0 <= rows <= bt_naxis2 t /\
    forall buf, exists after, read_image gz Wrapping fuel2 dec buf = Some (Ok after) /\
      laid_out (depth b) (channels b false) (place false) (map (tile_sample b sc) pixels) buf after.
Proof.
  intros Fi Oc New K R SC TL TH b. apply scale_of_iff in SC.
  destruct (tiles_kind Wrapping fuel d dec t z Oc New K) as (X & Zi).
  destruct (decoder_inv Wrapping fuel d dec Oc New) as (f0 & D & P & NX & _).
  destruct (tiles_end gz d f0 _ _ t z Fi Oc D P NX X Zi TL TH) as (s & fuel0 & G & H).
  exists fuel0. intros fuel2 L. destruct (H fuel2 L) as (ps & s' & rows & RU & Lp & Rr & _).
  exists ps, rows. split; [exact Lp|]. split; [exact Rr|]. intro buf. unfold read_image. rewrite SC, K, G, R. fold b.
  apply grey_until.
  - assert (F: Forall (pixel_kind (tl_keys s)) ps).
    { apply (run_kinds gz Wrapping fuel2 ps s [PixEnd] s'). rewrite <- RU. f_equal. cbn [length]. lia. }
    assert (Kb: forall p, pixel_kind (tl_keys s) p -> fits_depth b p).
    { unfold get_tiles in G. rewrite Zi in G. injection G as G. destruct (get_table Wrapping (de_fits dec) t) as [tb|e|]; cbn [bind] in G; try discriminate.
      unfold pixels_new in G. destruct (usize_product Wrapping 1 (z_tilen z)) as [n|e|]; cbn [bind] in G; try discriminate.
      destruct (u64_result Wrapping (n * 4)) as [by4|e|]; cbn [bind] in G; try discriminate. destruct (2 ^ 63 <=? by4); [discriminate|].
      fold b in G. destruct b; cbn [bind] in G; try discriminate;
        try (destruct (fkeys_new (h_values (de_hdu dec)) t z); cbn [bind] in G; try discriminate);
        inversion G; subst; cbn [tl_keys]; intros [|]; cbn [pixel_kind fits_depth]; auto; contradiction. }
    apply Forall_map. eapply Forall_impl; [|exact F]. intros p Hp. apply tile_depth. auto.
  - apply tiles_until. rewrite RU. reflexivity.
Qed.

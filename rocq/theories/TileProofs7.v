(** Tiles that are missing, cut off or too short. *)

From Coq Require Import String.
From Verif Require Import Base TextLemmas Text Card Reader Header Xtension Bytes Fits ImageIt BinTable Rice Float Tile.
From Verif Require Import SpecCard SpecXt SpecFits SpecImage SpecBin SpecRice SpecTile SpecTileBreak.
From Verif Require Import FitsProofs4 BytesProofs ImageProofs XtProofs2 XtProofs3 BinProofs BinProofs2 BinProofs3.
From Verif Require Import RiceProofs RiceProofs2 RiceProofs3 RiceProofs4 RiceProofs5 RiceProofs6.
From Verif Require Import TileProofs TileProofs2 TileProofs3 TileProofs4 TileProofs5 TileProofs6.

Lemma octets_bytes l : octets l -> bytes_ok l.
Proof. intro H. eapply Forall_impl; [|exact H]. intros b Hb. unfold is_byte. cbv beta in Hb. lia. Qed.

Lemma as_i32_small n : 0 <= n < 2 ^ 31 -> as_i32 n = n.
Proof.
  intro H. unfold as_i32. rewrite Z.mod_small by lia. unfold to_signed. change (2 ^ (8 * 4 - 1)) with (2 ^ 31).
  destruct (Z.ltb_spec n (2 ^ 31)); [reflexivity|lia].
Qed.

Lemma broken_err gz m fuel cmp n bytes : broken_tile gz m cmp n bytes -> octets bytes -> 1 <= n -> (2 * Z.to_nat n + 1 <= fuel)%nat ->
  exists e, forall buf r, rd_rest r = bytes -> len buf = 4 * n -> fst (fst (decompress gz m fuel cmp n buf r)) = Some (Err e).
Proof.
  intros H Ob Hn Hf. unfold decompress. destruct cmp as [| |bs bp| |]; try contradiction.
  - exists EIoOther. intros buf r Er Hb. replace (len buf =? 0) with false by lia. rewrite Er, Hb. cbn [broken_tile] in H.
    destruct (gz bytes (4 * n)) as [[b w] used]. cbn [fst] in H. rewrite H. reflexivity.
  - exists EIoOther. intros buf r Er Hb. replace (len buf =? 0) with false by lia. rewrite Er, Hb. cbn [broken_tile] in H.
    destruct (gz bytes (4 * n)) as [[b w] used]. cbn [fst] in H. rewrite H. reflexivity.
  - destruct H as (Hbs & x0 & blocks & more & L & Hv & Om & Hc & Hcut & Hm). exists EEof. intros buf r Er Hb.
    assert (Bp : 1 <= bs).
    { destruct Hc as (h & da & re & Hh & _ & _ & _ & Hok & _). destruct blocks as [|b l]; [discriminate|].
      apply (blocks_ok_nonempty _ _ _ _ _ Hok). }
    rewrite as_i32_small, Er, Hb by lia.
    pose proof (cut_found m RI32 bs x0 blocks bytes more fuel Hc Hcut) as C. rewrite L in C.
    change (pixel_bits RI32 / 8) with 4 in C.
    destruct (rice_read_exact m RI32 bs n (4 * n) fuel bytes) as [[o1 s1] out] eqn:E. cbn [fst] in *. apply C; auto.
    + apply Forall_app; split; apply octets_bytes; auto.
    + destruct Hm as [->|[G S]]; [left; reflexivity|right; auto].
    + unfold len in L. lia.
Qed.

Lemma le_bytes_ints ws : exists vs, Forall (fun v => - 2 ^ 31 <= v < 2 ^ 31) vs /\ length vs = length ws /\
  flat_map (Rice.le_bytes 4) ws = flat_map (pixel_bytes RI32) vs.
Proof.
  induction ws as [|w ws (vs & F & L & E)]; [exists []; auto|].
  exists ((w + 2 ^ 31) mod 2 ^ 32 - 2 ^ 31 :: vs). split; [|split].
  - constructor; [|exact F]. pose proof (Z.mod_pos_bound (w + 2 ^ 31) (2 ^ 32) ltac:(lia)). lia.
  - cbn [length]. congruence.
  - cbn [flat_map]. f_equal; [|exact E]. change 4%nat with (rsize RI32). apply le_bytes_pixel.
    change (pixel_bits RI32) with 32. rewrite <- Zminus_mod_idemp_l, Zmod_mod, Zminus_mod_idemp_l. f_equal. lia.
Qed.

(** A short tile in a release build: it cannot be had, or its pixels come first. *)
Lemma short_cases gz fuel z bytes is : let N := product (z_tilen z) in
  short_tile Wrapping (z_cmp z) N bytes is -> octets bytes -> (16 * length bytes + 10 <= fuel)%nat -> (2 * Z.to_nat N + 1 <= fuel)%nat ->
  (forall buf r, rd_rest r = bytes -> len buf = 4 * N -> fst (fst (decompress gz Wrapping fuel (z_cmp z) N buf r)) = Some (Err EEof)) \/
  (exists vs, len (is ++ vs) = N /\ decodes gz Wrapping fuel z bytes (is ++ vs)).
Proof.
  intros N H Ob Hf Hf2. unfold decodes, decompress. destruct (z_cmp z) as [| |bs bp| |]; try contradiction.
  destruct H as (Hs & Hbs & Hv & x0 & blocks & Ep & Hc & _). pose proof (len_nonneg is).
  assert (Bp : 1 <= bs).
  { destruct Hc as (h & da & re & Hh & _ & _ & _ & Hok & _). destruct blocks as [|b l]; [discriminate|].
    apply (blocks_ok_nonempty _ _ _ _ _ Hok). }
  pose proof (decode_safe RI32 bs N bytes fuel ltac:(lia) ltac:(lia) Hbs (octets_bytes _ Ob) Hf) as D.
  change (Z.of_nat (rsize RI32)) with 4 in D. subst is.
  destruct (short_decoded Wrapping RI32 bs N x0 blocks bytes fuel Hc (octets_bytes _ Ob) Hv Hs ltac:(lia)) as (ws & W); [auto|unfold len in Hs; lia|].
  change (pixel_bits RI32 / 8) with 4 in W. destruct (rice_read_exact Wrapping RI32 bs N (4 * N) fuel bytes) as [[o1 s1] out] eqn:E.
  cbn [snd] in W. destruct D as [(-> & Lo)|(-> & _)].
  - right. destruct (le_bytes_ints ws) as (vs & F & L & Ew). exists vs.
    assert (Eo : out = flat_map (pixel_bytes RI32) (block_pixels blocks ++ vs)) by (rewrite flat_map_app, <- Ew; exact W).
    assert (Lv : len (block_pixels blocks ++ vs) = N).
    { pose proof (layout_len (ZRice 0 0) (block_pixels blocks ++ vs)) as X. cbn [layout] in X. rewrite <- Eo in X. lia. }
    split; [exact Lv|]. split; [exact Logic.I|]. split; [apply Forall_app; auto|]. intros buf r Er Hb. fold N in Hb |- *.
    rewrite as_i32_small by lia. rewrite Er, Hb, E. rewrite overwrite_full by lia. eexists. split; [cbn [layout]; rewrite Eo; reflexivity|reflexivity].
  - left. intros buf r Er Hb. rewrite as_i32_small by lia. rewrite Er, Hb, E. reflexivity.
Qed.

Section FirstTiles.
Variables (gz : gunzip) (m : mode) (d : list Z) (f : fits) (h : hdu) (f' : fits) (t : bintable) (z : zimage) (ints : Z -> list Z) (lim : Z).
Hypothesis Oc : octets d.
Hypothesis Da : rd_data (f_reader f) = d.
Hypothesis Po : 0 <= rd_pos (f_reader f).
Hypothesis Nx : next m f = (IOk h, f').
Hypothesis Xt : h_xt h = XtBin t.
Hypothesis Hz : bt_zimage t = Some z.
Let o := h_offset h.
Let N := product (z_tilen z).
Hypothesis Td : tiled d t o z.
Hypothesis Hlim : 0 <= lim <= bt_naxis2 t.
Hypothesis Th : first_tiles_hold gz m d t o z ints lim.

Let Pr : table_present d t o.
Proof. apply (file_present m d f h f' t); auto. apply Td. Qed.
Let Gt : get_table m f' t = Ok (fresh d t o).
Proof. apply (file_table m d f h f' t); auto. apply Td. Qed.

Lemma first_prefix pix : reads m d t o z (h_values h) pix ->
  exists s fuel0, get_tiles m f' (h_values h) t = Some (Ok s) /\
    forall fuel n, (fuel0 <= fuel)%nat -> Z.of_nat n <= N * lim ->
    fst (tiles_run gz m fuel s n) = map PixelOf (firstn n (flat_map (fun row => pix row (ints row)) (upto lim))) /\
    tl_reader (snd (tiles_run gz m fuel s n)) = mk_reader d (o + bt_naxis1 t * tiles_begun z n).
Proof.
  intro Rd. destruct (image_prefix gz m d t o z (h_values h) ints Pr Td lim pix Hlim Rd) as (s & E & R).
  exists s, (fuel_for d t o z). unfold get_tiles. rewrite Hz, Gt. cbn [bind]. rewrite E. split; [reflexivity|].
  intros fuel n Hf Hn. apply R; auto. exact (held_decodes gz m d t o z ints Pr Td fuel lim Hf Th).
Qed.

Lemma first_broken pix bytes : reads m d t o z (h_values h) pix ->
  lim < bt_naxis2 t -> tile_at d t o (z_data_idx z) lim bytes -> broken_tile gz m (z_cmp z) N bytes ->
  exists s fuel0, get_tiles m f' (h_values h) t = Some (Ok s) /\
    forall fuel, (fuel0 <= fuel)%nat ->
    fst (tiles_run gz m fuel s (Z.to_nat (N * lim + 1))) = map PixelOf (flat_map (fun row => pix row (ints row)) (upto lim)) ++ [PixEnd].
Proof.
  intros Rd Hl At Br. destruct (image_broken gz m d t o z (h_values h) ints Pr Td lim pix Hlim Rd Hl) as (s & E & R).
  exists s, (fuel_for d t o z). unfold get_tiles. rewrite Hz, Gt. cbn [bind]. rewrite E. split; [reflexivity|].
  intros fuel Hf. destruct (broken_err gz m fuel (z_cmp z) N bytes Br) as (e & He).
  - eapply tile_octets; eauto.
  - apply Td.
  - unfold fuel_for in Hf. fold N in Hf. lia.
  - eapply R; eauto. exact (held_decodes gz m d t o z ints Pr Td fuel lim Hf Th).
Qed.

(** The image ends with a short tile. *)
Lemma first_short pix bytes is : reads m d t o z (h_values h) pix -> m = Wrapping ->
  (forall row a b, exists l, pix row (a ++ b) = pix row a ++ l) ->
  lim < bt_naxis2 t -> tile_at d t o (z_data_idx z) lim bytes -> short_tile m (z_cmp z) N bytes is ->
  exists s fuel0, get_tiles m f' (h_values h) t = Some (Ok s) /\
    forall fuel, (fuel0 <= fuel)%nat ->
    let before := map PixelOf (flat_map (fun row => pix row (ints row)) (upto lim)) in
    fst (tiles_run gz m fuel s (Z.to_nat (N * lim + 1))) = before ++ [PixEnd] \/
    fst (tiles_run gz m fuel s (Z.to_nat (N * lim) + length is)) = before ++ map PixelOf (pix lim is).
Proof.
  intros Rd Hm Hp Hl At Sh.
  destruct (image_broken gz m d t o z (h_values h) ints Pr Td lim pix Hlim Rd Hl) as (s & E & R).
  set (ints' is' row := if row =? lim then is' else ints row).
  exists s, (fuel_for d t o z + (16 * length bytes + 10))%nat. unfold get_tiles. rewrite Hz, Gt. cbn [bind]. rewrite E. split; [reflexivity|].
  intros fuel Hf. rewrite Hm in Sh. pose proof (tile_octets d t o Pr _ _ _ At) as Ob.
  assert (HN : 1 <= N) by apply Td. fold N in HN.
  pose proof (held_decodes gz m d t o z ints Pr Td fuel lim ltac:(lia) Th) as Dh.
  destruct (short_cases gz fuel z bytes is Sh Ob ltac:(lia)) as [Br|(vs & Lv & Dv)].
  - unfold fuel_for in Hf. fold N in Hf. fold N. lia.
  - left. eapply R; eauto; [lia|]. rewrite Hm. exact Br.
  - right. rewrite <- Hm in Dv.
    destruct (image_prefix gz m d t o z (h_values h) (ints' (is ++ vs)) Pr Td (lim + 1) pix ltac:(lia) Rd) as (s2 & E2 & R2).
    assert (s2 = s) by congruence. subst s2. assert (0 <= N * lim) by nia. unfold len in Lv. rewrite app_length in Lv. fold N in Lv |- *.
    destruct (R2 fuel (Z.to_nat (N * lim) + length is)%nat) as (X & _); [lia| |fold N; lia|].
    { intros row Hr. unfold ints'. destruct (Z.eqb_spec row lim) as [-> |].
      - split; [unfold len; rewrite app_length; exact Lv|]. exists bytes. auto.
      - apply Dh. lia. }
    rewrite X. clear X R R2.
    assert (Eu : upto (lim + 1) = upto lim ++ [lim]).
    { unfold upto. replace (Z.to_nat (lim + 1)) with (Z.to_nat lim + 1)%nat by lia. rewrite seq_app, map_app. cbn [seq map].
      do 2 f_equal. cbn. lia. }
    rewrite Eu, flat_map_app. cbn [flat_map]. rewrite app_nil_r.
    assert (Ef : flat_map (fun row => pix row (ints' (is ++ vs) row)) (upto lim) = flat_map (fun row => pix row (ints row)) (upto lim)).
    { rewrite !flat_map_concat_map. f_equal. apply map_ext_in. intros row Hr. unfold upto in Hr. apply in_map_iff in Hr as (j & <- & Hj).
      apply in_seq in Hj. unfold ints'. destruct (Z.eqb_spec (Z.of_nat j) lim); [lia|reflexivity]. }
    rewrite Ef. unfold ints' at 1. rewrite Z.eqb_refl. destruct (Hp lim is vs) as (l & El). rewrite El.
    destruct Rd as (k0 & K & _ & _ & _ & _ & Px).
    assert (Lb : length (flat_map (fun row => pix row (ints row)) (upto lim)) = Z.to_nat (N * lim)).
    { assert (G : forall k, Z.of_nat k <= lim -> length (flat_map (fun row => pix row (ints row)) (upto (Z.of_nat k))) = (Z.to_nat N * k)%nat).
      { induction k as [|k IH]; intro Hk; [rewrite Nat.mul_0_r; reflexivity|]. unfold upto in *. rewrite Nat2Z.id in *. rewrite seq_S, map_app, flat_map_app, app_length.
        rewrite IH by lia. cbn [map flat_map Nat.add]. rewrite app_nil_r, Px. destruct (Th (Z.of_nat k) ltac:(lia)) as (Lk & _). unfold len in Lk. fold N in Lk. lia. }
      specialize (G (Z.to_nat lim) ltac:(lia)). rewrite Z2Nat.id in G by lia. rewrite G. lia. }
    rewrite firstn_app, Lb. rewrite firstn_all2 by lia. rewrite map_app. f_equal. f_equal.
    replace (_ + _ - _)%nat with (length (pix lim is)) by (rewrite Px; lia). rewrite firstn_app, Nat.sub_diag, firstn_all. cbn [firstn]. apply app_nil_r.
Qed.
End FirstTiles.

(** ** The statements *)

Lemma reads_ext m d t o z vs pix pix' : (forall row is, pix' row is = pix row is) -> reads m d t o z vs pix -> reads m d t o z vs pix'.
Proof.
  intros H (k0 & K & E & K0 & HK & KS & Px). exists k0, K. split; [exact E|]. split; [exact K0|]. split; [|split; [exact KS|]].
  - intros. rewrite H. auto.
  - intros. rewrite H. auto.
Qed.

Lemma image_reads m d f h f' t z pix :
  octets d -> rd_data (f_reader f) = d -> 0 <= rd_pos (f_reader f) -> next m f = (IOk h, f') ->
  h_xt h = XtBin t -> bt_zimage t = Some z -> tiled d t (h_offset h) z ->
  whole_image z pix \/ scaled_image d t (h_offset h) (h_values h) z pix ->
  reads m d t (h_offset h) z (h_values h) pix /\ forall row a b, exists l, pix row (a ++ b) = pix row a ++ l.
Proof.
  intros O D P N X Hz Td H. assert (Pr : table_present d t (h_offset h)) by (apply (file_present m d f h f' t); auto; apply Td).
  destruct H as [(Hw & Hg & E)|(Hw & scale & zero & blank & Hq & E)].
  - split; [|intros; rewrite !E, map_app; eauto].
    eapply reads_ext; [intros; apply E|]. apply int_reads; auto.
  - split; [|intros; rewrite !E, map_app; eauto].
    assert (Q : quantiser z = ZNoDither).
    { destruct (after_next_bin m d f h f' t O D P N X) as (n & _ & _ & _ & _ & _ & vs & Pn).
      unfold quantiser. rewrite (zquantiz_never m vs t z Pn Hz). reflexivity. }
    eapply reads_ext; [|apply (float_reads m d t (h_offset h) z (h_values h) Pr Td scale zero blank Hw Hq)].
    + intros row is. rewrite E. cbv beta. fold (quantiser z). rewrite Q. symmetry. apply float_pixels_plain.
    + congruence.
Qed.

Section Statements.
Variables (gz : gunzip) (m : mode) (d : list Z) (f : fits) (h : hdu) (f' : fits) (t : bintable) (z : zimage).
Variables (pix : Z -> list Z -> list pixel) (ints : Z -> list Z) (k : Z).
Hypothesis Oc : octets d.
Hypothesis Da : rd_data (f_reader f) = d.
Hypothesis Po : 0 <= rd_pos (f_reader f).
Hypothesis Nx : next m f = (IOk h, f').
Hypothesis Xt : h_xt h = XtBin t.
Hypothesis Hz : bt_zimage t = Some z.
Hypothesis Td : tiled d t (h_offset h) z.
Hypothesis Hp : whole_image z pix \/ scaled_image d t (h_offset h) (h_values h) z pix.

Lemma prefix_read : 0 <= k <= bt_naxis2 t -> first_tiles_hold gz m d t (h_offset h) z ints k ->
  exists s fuel0, get_tiles m f' (h_values h) t = Some (Ok s) /\
    forall fuel n, (fuel0 <= fuel)%nat -> Z.of_nat n <= product (z_tilen z) * k ->
    fst (tiles_run gz m fuel s n) = map PixelOf (firstn n (flat_map (fun row => pix row (ints row)) (upto k))) /\
    tl_reader (snd (tiles_run gz m fuel s n)) = mk_reader d (h_offset h + bt_naxis1 t * tiles_begun z n).
Proof. intros Hk Th. destruct (image_reads m d f h f' t z pix) as (R & _); auto. eapply first_prefix; eauto. Qed.

Lemma broken_read bytes : 0 <= k < bt_naxis2 t -> first_tiles_hold gz m d t (h_offset h) z ints k ->
  tile_at d t (h_offset h) (z_data_idx z) k bytes -> broken_tile gz m (z_cmp z) (product (z_tilen z)) bytes ->
  exists s fuel0, get_tiles m f' (h_values h) t = Some (Ok s) /\
    forall fuel, (fuel0 <= fuel)%nat ->
    fst (tiles_run gz m fuel s (Z.to_nat (product (z_tilen z) * k + 1)))
    = map PixelOf (flat_map (fun row => pix row (ints row)) (upto k)) ++ [PixEnd].
Proof. intros Hk Th At Br. destruct (image_reads m d f h f' t z pix) as (R & _); auto. eapply first_broken; eauto; lia. Qed.

Lemma short_read bytes is : m = Wrapping -> 0 <= k < bt_naxis2 t -> first_tiles_hold gz m d t (h_offset h) z ints k ->
  tile_at d t (h_offset h) (z_data_idx z) k bytes -> short_tile m (z_cmp z) (product (z_tilen z)) bytes is ->
  exists s fuel0, get_tiles m f' (h_values h) t = Some (Ok s) /\
    forall fuel, (fuel0 <= fuel)%nat ->
    let before := map PixelOf (flat_map (fun row => pix row (ints row)) (upto k)) in
    fst (tiles_run gz m fuel s (Z.to_nat (product (z_tilen z) * k + 1))) = before ++ [PixEnd] \/
    fst (tiles_run gz m fuel s (Z.to_nat (product (z_tilen z) * k) + length is)) = before ++ map PixelOf (pix k is).
Proof. intros Hm Hk Th At Sh. destruct (image_reads m d f h f' t z pix) as (R & Ap); auto. eapply first_short; eauto; lia. Qed.
End Statements.

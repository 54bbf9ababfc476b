(** Proofs about the decoder of the [image] crate on a device that fails: whole pictures. *)

From Verif Require Import Base Text Card Reader Header Xtension Bytes Fits ImageIt BinTable Rice Float Tile ImageInt.
From Verif Require Import Device DeviceTable DeviceTile DeviceImage.
From Verif Require Import HeaderProofs BytesProofs FitsProofs4 ImageProofs ImageIntProofs ImageIntProofs2 ImageIntProofs4 TileProofs6 TileProofs7.
From Verif Require Import DeviceProofs DeviceProofs2 DeviceTableProofs DeviceTileProofs2 DeviceImageProofs.
From Verif Require Import SpecUtf8 SpecCard SpecHeader SpecXt SpecFits SpecImage SpecBin SpecRice SpecTile SpecTileBreak SpecImageInt.
From Verif Require Import SpecDevice SpecDeviceTable SpecDeviceTile SpecDeviceImage.
From Coq Require Import ZifyBool.

Definition healthy (fs : faults) : Prop := forall i x, nth_error fs i <> Some (Some x).

Lemma healthy_cases fs : healthy fs -> fs = [] \/ exists r, fs = None :: r /\ healthy r.
Proof.
  intro H. destruct fs as [|[k|] r]; auto.
  - exfalso. exact (H 0%nat k eq_refl).
  - right. exists r. split; auto. intros i x. exact (H (S i) x).
Qed.

Lemma healthy_next s fs : healthy fs -> exists fs', dev_it_next s fs = (it_next s, fs') /\ healthy fs'.
Proof.
  intro H. unfold dev_it_next, it_next. destruct (it_idx s =? it_num s); [eauto|].
  unfold dev_read_be, read_be, dev_read, device_call.
  destruct (healthy_cases fs H) as [->|(r & -> & H')]; destruct (read_exact (it_reader s) (byte_size (it_ty s))) as ([bs|e|], r'); eauto.
Qed.

Lemma stored_tail d q b v l : stored d q b (v :: l) -> stored d (q + width b) b l.
Proof.
  intro S. pose proof (width_pos b) as W. pose proof (len_nonneg l).
  destruct (stored_nth _ _ _ _ 0%nat v S eq_refl) as (SL & IR & L).
  replace (q + width b * Z.of_nat 0) with q in SL by lia.
  destruct S as (S1 & S2 & S3 & S4). rewrite len_cons in S2, S4.
  split; [lia|]. split; [lia|]. split; [inversion S3; auto|].
  rewrite (slice_split d _ _ (width b)) in S4 by lia. rewrite SL in S4.
  cbn [map concat] in S4. apply app_inv_head in S4. rewrite <- S4. f_equal; lia.
Qed.

Lemma rest_pulls d b sc : forall n later q num idx fs, healthy fs -> stored d q b later -> num = idx + len later ->
  pulls (pull_dev_image sc) n (mk_it b (mk_reader d q) num idx, fs)
  = firstn n (map (fun v => Some (Ok (Some v))) (map (image_sample b sc) later) ++ repeat (Some (Ok None)) n).
Proof.
  induction n as [|n IH]; intros later q num idx fs H SV E; [reflexivity|]. cbn [pulls].
  unfold pull_dev_image at 1 3. cbn [fst snd].
  destruct (healthy_next (mk_it b (mk_reader d q) num idx) fs H) as (fs' & -> & H').
  unfold it_next. cbn [it_idx it_num it_ty it_reader].
  destruct later as [|v later].
  - change (len (@nil Z)) with 0 in E. replace (idx =? num) with true by lia. cbn [fst snd option_map map app firstn repeat].
    f_equal. rewrite (IH [] q num idx fs') by (auto; change (len (@nil Z)) with 0; lia). reflexivity.
  - rewrite len_cons in E. pose proof (len_nonneg later). replace (idx =? num) with false by lia.
    destruct (stored_nth _ _ _ _ 0%nat v SV eq_refl) as (SL & IR & L).
    replace (q + width b * Z.of_nat 0) with q in SL by lia.
    pose proof (width_pos b). destruct SV as (Q0 & SV') eqn:EV. clear EV SV'.
    rewrite (read_be_ok d q b v) by (auto; lia). cbn [fst snd option_map map app firstn repeat].
    f_equal. rewrite (IH later (q + width b) num (idx + 1) fs') by (auto; try lia; eapply stored_tail; eauto).
    rewrite repeat_cons, app_assoc. set (l := map _ (map _ later) ++ repeat _ n).
    assert (LL: length l = (length later + n)%nat) by (unfold l; rewrite app_length, !map_length, repeat_length; lia).
    rewrite (firstn_app n l), LL. replace (n - (length later + n))%nat with 0%nat by lia. cbn [firstn]. now rewrite app_nil_r.
Qed.

Lemma only_O fs k : only_fault fs 0 k -> exists r, fs = Some k :: r /\ healthy r.
Proof.
  intros (E & U). destruct fs as [|x r]; [discriminate|]. cbn in E. injection E as ->. exists r. split; auto.
  intros i x N. specialize (U (S i) x N). discriminate.
Qed.
Lemma only_S fs j k : only_fault fs (S j) k -> working 1 fs /\ only_fault (skipn 1 fs) j k.
Proof.
  intros (E & U). destruct fs as [|[x|] r]; [discriminate| |].
  - specialize (U 0%nat x eq_refl). discriminate.
  - cbn in E. split; [repeat constructor|]. split; [exact E|]. intros i x N. specialize (U (S i) x N). lia.
Qed.

Lemma image_breaks d o b values sc : stored d o b values -> forall j c fs k later,
  (c + j < length values)%nat -> only_fault fs j k ->
  stored d (o + width b * Z.of_nat (c + j) + k) b later -> (length later = length values - (c + j) - 1)%nat ->
  breaks (pull_dev_image sc) (depth b) (map (image_sample b sc) later) (map (image_sample b sc) (firstn j (skipn c values)))
    (at_value d o b (len values) (Z.of_nat c), fs).
Proof.
  intro SV. induction j as [|j IH]; intros c fs k later L F SL LL.
  - apply only_O in F as (r & -> & H). cbn [firstn map breaks]. eexists. split; [apply pull_fault; unfold len; lia|].
    split; [apply samples_depth|]. intro n. replace (c + 0)%nat with c in * by lia. apply rest_pulls; auto. unfold len. lia.
  - apply only_S in F as (W & F). destruct (nth_error values c) as [v|] eqn:NV; [|apply nth_error_None in NV; lia].
    rewrite (skipn_nth _ _ _ NV). cbn [firstn map breaks]. eexists. split; [apply (pull_ok _ _ _ _ _ _ _ _ SV NV W)|].
    apply (IH (S c) _ k later); auto; try lia. replace (S c + j)%nat with (c + S j)%nat by lia. exact SL.
Qed.

Lemma nat_depth b : depth b = Z.of_nat (sample_width b).
Proof. destruct b; reflexivity. Qed.

(** ** Tiles *)

Lemma run_step gz m fuel s n p l : fst (tiles_run gz m fuel s (S n)) = PixelOf p :: l ->
  exists s', tiles_next gz m fuel s = (Some (Ok (Some p)), s') /\ fst (tiles_run gz m fuel s' n) = l.
Proof.
  cbn [tiles_run]. unfold tiles_do. destruct (tiles_next gz m fuel s) as ([[[q|]|e|]|], s');
    destruct (tiles_run gz m fuel s' n) as (l', s2) eqn:R; cbn [fst]; intro H; try discriminate.
  injection H as -> <-. exists s'. rewrite R. auto.
Qed.
Lemma run_stop gz m fuel s : fst (tiles_run gz m fuel s 1) = [PixEnd] ->
  exists s', tiles_next gz m fuel s = (Some (Ok None), s').
Proof.
  cbn [tiles_run]. unfold tiles_do. destruct (tiles_next gz m fuel s) as ([[[q|]|e|]|], s'); cbn [fst]; intro H; try discriminate. eauto.
Qed.

Lemma tiles_until gz m fuel b sc : forall pixels s,
  fst (tiles_run gz m fuel s (S (length pixels))) = map PixelOf pixels ++ [PixEnd] ->
  until (pull_tiles gz m fuel b sc) (map (tile_sample b sc) pixels) s.
Proof.
  induction pixels as [|p pixels IH]; intros s H; cbn [map until app length] in *.
  - apply run_stop in H as (s' & E). exists s'. unfold pull_tiles. rewrite E. reflexivity.
  - apply run_step in H as (s' & E & H). exists s'. unfold pull_tiles at 1. rewrite E. split; auto.
Qed.

Lemma dev_tiles_until gd m fuel b sc : forall pixels s fs,
  fst (tiles_run (gd_plain gd) m fuel s (S (length pixels))) = map PixelOf pixels ++ [PixEnd] ->
  until (pull_dev_tiles gd m fuel b sc) (map (tile_sample b sc) (dev_tile_pixels gd m fuel (S (length pixels)) s fs)) (s, fs).
Proof.
  induction pixels as [|p pixels IH]; intros s fs H; cbn [map app length] in *.
  - apply run_stop in H as (s' & E). destruct (tiles_next_device gd m fuel s) as (N & _ & _ & D). destruct (D fs) as (D1 & D2).
    cbn [dev_tile_pixels]. rewrite E in D1. destruct (working_dec N fs) as [W|(j & J & F)].
    + rewrite (D1 W). cbn [map until]. eexists. unfold pull_dev_tiles. cbn [fst snd]. rewrite (D1 W). reflexivity.
    + destruct (D2 j J F) as (s2 & E2). rewrite E2. cbn [map until]. eexists. unfold pull_dev_tiles. cbn [fst snd]. rewrite E2. reflexivity.
  - apply run_step in H as (s' & E & H). destruct (tiles_next_device gd m fuel s) as (N & _ & _ & D). destruct (D fs) as (D1 & D2).
    set (n := S (length pixels)) in *. cbn [dev_tile_pixels]. rewrite E in D1. destruct (working_dec N fs) as [W|(j & J & F)].
    + rewrite (D1 W). cbn [map until]. eexists. split; [unfold pull_dev_tiles; cbn [fst snd]; rewrite (D1 W); reflexivity|]. apply IH. exact H.
    + destruct (D2 j J F) as (s2 & E2). rewrite E2. cbn [map until]. eexists. unfold pull_dev_tiles. cbn [fst snd]. rewrite E2. reflexivity.
Qed.

Lemma image_fits d t o vs z pix ints k : whole_image z pix \/ scaled_image d t o vs z pix ->
  Forall (fits_depth (z_bitpix z)) (flat_map (fun row => pix row (ints row)) (upto k)).
Proof.
  intro Im. apply Forall_forall. intros p I. apply in_flat_map in I as (row & _ & I).
  destruct Im as [(W & _ & E)|(R & sc & ze & bl & _ & E)]; rewrite E in I; apply in_map_iff in I as (v & <- & _); [exact W|exact R].
Qed.

Lemma dev_loop_fits gd m fuel b : forall n s fs pixels k, dev_tile_pixels gd m fuel n s fs = firstn k pixels ->
  Forall (fits_depth b) pixels -> forall sc, Forall (fun v => len v = depth b) (map (tile_sample b sc) (dev_tile_pixels gd m fuel n s fs)).
Proof.
  intros n s fs pixels k E F sc. rewrite E. apply Forall_map. apply Forall_forall. intros p I. apply tile_depth.
  apply (proj1 (Forall_forall _ _) F). rewrite <- (firstn_skipn k pixels). apply in_or_app. auto.
Qed.

Section Pictures.
  Variables (gd : gz_device) (m : mode) (fuel : nat) (d : list Z) (fs0 fs : faults) (dec : decoder).
  Hypothesis Oc : octets d.
  Hypothesis Op : dev_decoder_new m fuel (mk_reader d 0) fs0 = (Some (Ok dec), fs).

  Let New : decoder_new m fuel (mk_reader d 0) = Some (Ok dec).
  Proof. exact (opened_healthy _ _ _ _ _ _ Op). Qed.

  Lemma grey_device im sc : de_kind dec = KImage im -> de_rgb dec = false -> size_fits im ->
    scaling (h_values (de_hdu dec)) sc ->
    h_offset (de_hdu dec) + width (im_bitpix im) * pixel_count im <= len d ->
    let b := im_bitpix im in
    exists values, len values = de_width dec * de_height dec /\ stored d (h_offset (de_hdu dec)) b values /\
    forall fuel2 buf fs2,
      (working (length values) fs2 -> exists after, dev_read_image gd m fuel2 dec buf fs2 = Some (Ok after) /\
         laid_out (depth b) (channels b false) (place false) (map (image_sample b sc) values) buf after) /\
      (forall j, (j < length values)%nat -> first_fault fs2 j ->
         exists after, dev_read_image gd m fuel2 dec buf fs2 = Some (Ok after) /\
         laid_out (depth b) (channels b false) (place false) (map (image_sample b sc) (firstn j values)) buf after).
  Proof.
    intros K R SF SC FIT b. apply scale_of_iff in SC.
    destruct (image_start m fuel d dec im Oc New K SF FIT) as (id & values & G & IP & LV & SV & BP & _).
    rewrite R, Z.mul_1_r in LV. exists values. split; auto. split; auto. intros fuel2 buf fs2.
    unfold dev_read_image. rewrite SC, K, G, R, IP. fold b. split.
    - intro W. apply grey_until; [apply samples_depth|].
      apply (image_until_all _ _ _ _ sc SV (length values) 0); auto.
    - intros j J F. apply grey_until; [apply samples_depth|]. apply (image_until _ _ _ _ sc SV j 0); auto.
  Qed.

  Lemma colour_device im sc : de_kind dec = KImage im -> de_rgb dec = true -> size_fits im ->
    scaling (h_values (de_hdu dec)) sc ->
    h_offset (de_hdu dec) + width (im_bitpix im) * pixel_count im <= len d ->
    let b := im_bitpix im in
    exists values, len values = 3 * (de_width dec * de_height dec) /\ stored d (h_offset (de_hdu dec)) b values /\
    forall fuel2 buf fs2 j k, len buf = ImageInt.total_bytes dec -> (j < length values)%nat -> only_fault fs2 j k -> 0 <= k <= width b ->
      exists later after,
        stored d (h_offset (de_hdu dec) + width b * Z.of_nat j + k) b later /\ (length later = length values - j - 1)%nat /\
        dev_read_image gd m fuel2 dec buf fs2 = Some (Ok after) /\
        laid_out (depth b) 3 (gap (Z.of_nat j)) (map (image_sample b sc) (firstn j values ++ later)) buf after.
  Proof.
    intros K R SF SC FIT b. apply scale_of_iff in SC.
    destruct (image_start m fuel d dec im Oc New K SF FIT) as (id & values & G & IP & LV & SV & BP & N0).
    rewrite R in LV. exists values. split; [lia|]. split; auto. intros fuel2 buf fs2 j k LB J F KW.
    fold b in SV, BP, IP. pose proof (width_pos b) as W.
    assert (LVn: len values = Z.of_nat (length values)) by reflexivity.
    assert (LS: Z.of_nat (length values - j - 1) = len values - Z.of_nat j - 1) by lia.
    pose proof SV as (S1 & S2 & _).
    destruct (stored_exists d (h_offset (de_hdu dec) + width b * Z.of_nat j + k) b (length values - j - 1) Oc) as (later & LL & SL);
      [nia|rewrite LS; nia|].
    set (n := de_width dec * de_height dec) in *.
    assert (TB: ImageInt.total_bytes dec = n * (depth b * 3)).
    { unfold ImageInt.total_bytes, color_type. fold n. rewrite BP, R. destruct b; cbn [bytes_per_pixel depth]; lia. }
    destruct (rgb_breaks (pull_dev_image sc) (sample_width b) buf (at_value d (h_offset (de_hdu dec)) b (len values) (Z.of_nat 0), fs2)
                (map (image_sample b sc) (firstn j values)) (map (image_sample b sc) later)) as (after & E & LO).
    - destruct b; cbn; lia.
    - apply Forall_forall. intros v I. pose proof (proj1 (Forall_forall _ _) (samples_depth b sc (firstn j values)) v I) as Q.
      cbv beta in Q. rewrite nat_depth in Q. unfold len in Q. lia.
    - apply Forall_forall. intros v I. pose proof (proj1 (Forall_forall _ _) (samples_depth b sc later) v I) as Q.
      cbv beta in Q. rewrite nat_depth in Q. unfold len in Q. lia.
    - rewrite <- nat_depth, LB, TB. assert (0 < depth b) by (destruct b; cbn; lia). rewrite Z.div_mul by lia.
      unfold len. rewrite !map_length, firstn_length. lia.
    - rewrite <- nat_depth. apply (image_breaks _ _ _ _ sc SV j 0 fs2 k later); auto.
    - rewrite <- nat_depth in LO. exists later, after. split; auto. split; auto. split.
      + unfold dev_read_image. rewrite SC, K, G, R, IP. fold b. exact E.
      + rewrite map_app. replace (Z.of_nat j) with (len (map (image_sample b sc) (firstn j values))); [exact LO|].
        unfold len. rewrite map_length, firstn_length. lia.
  Qed.
  Lemma tiles_device t z sc pix ints : de_kind dec = KTiles t z -> de_rgb dec = false ->
    scaling (h_values (de_hdu dec)) sc -> tiled d t (h_offset (de_hdu dec)) z ->
    whole_image z pix \/ scaled_image d t (h_offset (de_hdu dec)) (h_values (de_hdu dec)) z pix ->
    tiles_hold (gd_plain gd) m d t (h_offset (de_hdu dec)) z ints ->
    let b := z_bitpix z in
    let pixels := flat_map (fun row => pix row (ints row)) (upto (bt_naxis2 t)) in
    exists fuel0, forall fuel2, (fuel0 <= fuel2)%nat -> exists calls,
      (forall k, (k < length pixels)%nat -> ((1 <= nth k calls 0)%nat <-> Z.of_nat k mod product (z_tilen z) = 0)) /\
      forall buf fs2,
      (working (list_sum calls) fs2 -> exists after, dev_read_image gd m fuel2 dec buf fs2 = Some (Ok after) /\
         laid_out (depth b) (channels b false) (place false) (map (tile_sample b sc) pixels) buf after) /\
      (forall j k, first_fault fs2 j -> in_turn calls k j ->
         exists after, dev_read_image gd m fuel2 dec buf fs2 = Some (Ok after) /\
         laid_out (depth b) (channels b false) (place false) (map (tile_sample b sc) (firstn k pixels)) buf after).
  Proof.
    intros K R SC Ti Im Ho b pixels. apply scale_of_iff in SC.
    destruct (tiles_kind m fuel d dec t z Oc New K) as (X & Zi).
    destruct (decoder_inv m fuel d dec Oc New) as (f0 & D & P & NX & _).
    assert (DN: dev_next m f0 [] = (IOk (de_hdu dec), de_fits dec, [])).
    { destruct (next_device m f0) as (N & _ & _ & Dv). destruct (Dv []) as (D1 & _). rewrite D1.
      - rewrite NX, skipn_nil. reflexivity.
      - unfold working. rewrite firstn_nil. constructor. }
    destruct (image_device gd m d f0 [] _ _ [] t z pix ints Oc D P DN X Zi Ti Im Ho) as (s & fuel0 & G & H).
    cbn zeta in H. fold pixels in H.
    assert (RU: exists fuel1, forall fuel2, (fuel1 <= fuel2)%nat ->
       fst (tiles_run (gd_plain gd) m fuel2 s (S (length pixels))) = map PixelOf pixels ++ [PixEnd]).
    { assert (FI: firstn (S (length pixels)) (map PixelOf pixels ++ repeat PixEnd (S (length pixels))) = map PixelOf pixels ++ [PixEnd]).
      { rewrite firstn_app, map_length. rewrite firstn_all2 by (rewrite map_length; lia).
        replace (S (length pixels) - length pixels)%nat with 1%nat by lia. reflexivity. }
      destruct Im as [(W & Nb & E)|(Re & scale & zero & blank & Q & E)].
      - destruct (int_tiles_read (gd_plain gd) m d f0 (de_hdu dec) (de_fits dec) t z ints) as (s' & fuel1 & G' & H'); eauto.
        exists fuel1. intros fuel2 L. rewrite G in G'. injection G' as <-. rewrite H' by auto. rewrite <- FI. do 3 f_equal.
        unfold pixels. apply flat_map_ext. intro row. now rewrite E.
      - destruct (float_tiles_read (gd_plain gd) m d f0 (de_hdu dec) (de_fits dec) t z ints scale zero blank) as (s' & fuel1 & G' & H'); eauto.
        exists fuel1. intros fuel2 L. rewrite G in G'. injection G' as <-. rewrite H' by auto. rewrite <- FI. do 3 f_equal.
        unfold pixels. apply flat_map_ext. intro row. now rewrite E. }
    destruct RU as (fuel1 & RU). exists (Nat.max fuel0 fuel1). intros fuel2 L.
    destruct (H fuel2 (S (length pixels))) as (calls & A & B); [lia|lia|].
    exists calls. split; auto. intros buf fs2. destruct (B fs2) as (B1 & B2).
    pose proof (image_fits d t (h_offset (de_hdu dec)) (h_values (de_hdu dec)) z pix ints (bt_naxis2 t) Im) as FD. fold pixels b in FD.
    unfold dev_read_image. rewrite SC, K, G, R. fold b.
    pose proof (dev_tiles_until gd m fuel2 b sc pixels s fs2 (RU fuel2 ltac:(lia))) as U. split.
    - intro W. rewrite <- (B1 W). apply grey_until; auto.
      apply (dev_loop_fits gd m fuel2 b _ _ _ pixels (length pixels)); auto. rewrite firstn_all. auto.
    - intros j k F T. rewrite <- (B2 j k F T). apply grey_until; auto.
      apply (dev_loop_fits gd m fuel2 b _ _ _ pixels k); eauto.
  Qed.
End Pictures.

Lemma broken_tile_shown gz m fuel d dec t z sc pix ints k bytes :
  octets d -> decoder_new m fuel (mk_reader d 0) = Some (Ok dec) -> de_kind dec = KTiles t z -> de_rgb dec = false ->
  scaling (h_values (de_hdu dec)) sc -> tiled d t (h_offset (de_hdu dec)) z ->
  whole_image z pix \/ scaled_image d t (h_offset (de_hdu dec)) (h_values (de_hdu dec)) z pix ->
  0 <= k < bt_naxis2 t -> first_tiles_hold gz m d t (h_offset (de_hdu dec)) z ints k ->
  tile_at d t (h_offset (de_hdu dec)) (z_data_idx z) k bytes -> broken_tile gz m (z_cmp z) (product (z_tilen z)) bytes ->
  let b := z_bitpix z in
  exists fuel0, forall fuel2 buf, (fuel0 <= fuel2)%nat -> exists after, read_image gz m fuel2 dec buf = Some (Ok after) /\
    laid_out (depth b) (channels b false) (place false)
      (map (tile_sample b sc) (flat_map (fun row => pix row (ints row)) (upto k))) buf after.
Proof.
  intros Oc New K R SC Ti Im Hk Ho At Br b. apply scale_of_iff in SC.
  destruct (tiles_kind m fuel d dec t z Oc New K) as (X & Zi).
  destruct (decoder_inv m fuel d dec Oc New) as (f0 & D & P & NX & _).
  destruct (broken_read gz m d f0 _ _ t z pix ints k Oc D P NX X Zi Ti Im bytes Hk Ho At Br) as (s & fuel0 & G & H).
  exists fuel0. intros fuel2 buf L. unfold read_image. rewrite SC, K, G, R. fold b. specialize (H fuel2 L).
  set (pixels := flat_map (fun row => pix row (ints row)) (upto k)) in *.
  pose proof (image_fits d t (h_offset (de_hdu dec)) (h_values (de_hdu dec)) z pix ints k Im) as FD. fold pixels b in FD.
  apply grey_until.
  - apply Forall_map. eapply Forall_impl; [|exact FD]. intros. now apply tile_depth.
  - apply tiles_until. rewrite <- H. f_equal. f_equal.
    apply (f_equal (@length _)) in H. rewrite app_length, map_length in H. cbn [length] in H.
    assert (RL: forall n s, length (fst (tiles_run gz m fuel2 s n)) = n).
    { induction n as [|n IH]; intro s0; [reflexivity|]. cbn [tiles_run]. destruct (tiles_do gz m fuel2 s0) as (r, s1).
      specialize (IH s1). destruct (tiles_run gz m fuel2 s1 n). cbn [fst length] in *. now rewrite IH. }
    rewrite RL in H. lia.
Qed.

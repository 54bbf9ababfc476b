(** Proofs of C63: the pixels of float images as real numbers. *)
From Coq Require Import Reals Lra.
From Verif Require Import Base Text Card Reader Header Xtension Bytes Fits ImageIt BinTable Rice Float Tile.
From Verif Require Import SpecCard SpecHeader SpecXt SpecFits SpecImage SpecBin SpecRice SpecTile SpecWrite SpecWriteTable SpecWriteTile SpecReal.
From Verif Require Import TileProofs6 BinProofs WriteProofs6 FloatProofs2 FloatProofs3 FloatProofs4 WriteProofs7 WriteFloatProofs.
From Flocq Require Import Core BinarySingleNaN.

Local Open Scope Z_scope.
Lemma floats_slabs p : let z := fp_ints p in
  slabs (zp_dims z) (zp_tiles z) -> whole_tiles (zp_dims z) (zp_tiles z) -> len (zp_pixels z) = product (zp_dims z) ->
  floats_tilewise p = map (fun i => float_value p (i / product (zp_tiles z)) (nth (Z.to_nat i) (zp_pixels z) 0)) (upto (len (zp_pixels z))).
Proof.
  intros z S W L. destruct (whole_tiles_nonneg _ _ W) as (A & T & G).
  assert (PT : (0 <= product (zp_tiles z))%Z) by (apply product_nonneg; eapply Forall_impl; [|exact T]; simpl; lia).
  pose proof (product_nonneg _ G) as PG. unfold floats_tilewise. fold z.
  rewrite L, <- (grid_product _ _ W).
  rewrite <- (chunks_concat (fun i => float_value p (i / product (zp_tiles z)) (nth (Z.to_nat i) (zp_pixels z) 0))) by auto.
  rewrite !flat_map_concat_map. f_equal. apply map_ext_in. intros k I. unfold tile_pixels. rewrite map_map. apply map_ext_in.
  intros i J. apply upto_In in I, J. rewrite slabs_place by auto.
  rewrite Z.div_add_l by lia. rewrite (Z.div_small i) by lia. now rewrite Z.add_0_r.
Qed.

Lemma float_value_real p k v :
  (fp_blank p k = Some v -> float_value p k v = S754_nan) /\
  forall s o, fp_blank p k <> Some v -> (- 2 ^ 63 <= v < 2 ^ 63)%Z ->
    number 24 128 (fp_scale p k) s -> number 24 128 (fp_zero p k) o -> plain_fits s o v ->
    number 24 128 (float_value p k v) (plain_value s o v).
Proof.
  unfold float_value. split.
  - intros ->. now rewrite Z.eqb_refl.
  - intros s o B V S O [F1 F2]. replace (match fp_blank p k with Some b => (v =? b)%Z | None => false end) with false.
    + apply scaled_pixel; auto. apply f32_int. lia.
    + destruct (fp_blank p k) as [b|]; auto. symmetry. apply Z.eqb_neq. congruence.
Qed.

Local Open Scope R_scope.
Lemma float_value_error p k v s o x :
  fp_blank p k <> Some v -> (- 2 ^ 63 <= v < 2 ^ 63)%Z ->
  number 24 128 (fp_scale p k) s -> number 24 128 (fp_zero p k) o -> plain_fits s o v ->
  Rabs (x - (IZR v * s + o)) <= Rabs s / 2 ->
  exists y, number 24 128 (float_value p k v) y /\
    Rabs (y - x) <= Rabs s / 2 + 5 * bpow radix2 (-24) * (Rabs (IZR v * s) + Rabs o) + bpow radix2 (-148).
Proof.
  intros B V S O F E. exists (plain_value s o v). split; [now apply float_value_real|].
  pose proof (plain_error v s o) as P. fold (plain_value s o v) in P.
  set (a := plain_value s o v) in *. set (b := IZR v * s + o) in *.
  replace (a - x) with ((a - b) - (x - b)) by ring.
  eapply Rle_trans; [apply Rabs_triang|]. rewrite Rabs_Ropp. lra.
Qed.

Lemma nearest_step s o x : s <> 0 -> Rabs (x - (IZR (ZnearestE ((x - o) / s)) * s + o)) <= Rabs s / 2.
Proof.
  intro H. pose proof (Znearest_half (fun n => negb (Z.even n)) ((x - o) / s)) as N.
  fold ZnearestE in N. set (n := IZR (ZnearestE ((x - o) / s))) in *.
  replace (x - (n * s + o)) with (((x - o) / s - n) * s) by (field; auto).
  rewrite Rabs_mult. pose proof (Rabs_pos s). unfold Rdiv at 2. rewrite Rmult_comm.
  apply Rmult_le_compat_l; auto.
Qed.

(** The pixels of an image in slabs, got from a file, one by one. *)
Lemma fpicture_pixel gz m d pre s post p l f :
  octets d -> file_kinds (pre ++ (HBinTable, s) :: post) -> Forall (accepted m) pre -> fpicture_written gz m p s ->
  slabs (zp_dims (fp_ints p)) (zp_tiles (fp_ints p)) ->
  d = file_bytes (pre ++ (HBinTable, s) :: post) -> (len d < 2 ^ 63)%Z ->
  yields m (opened d) l f -> length l = Datatypes.S (length pre) ->
  exists l' h t st fuel0, l = l' ++ [IOk h] /\ h_xt h = XtBin t /\ get_tiles m f (h_values h) t = Some (Ok st) /\
    forall fuel n i, (fuel0 <= fuel)%nat -> (0 <= i < len (zp_pixels (fp_ints p)))%Z -> (i < Z.of_nat n)%Z ->
      let v := nth (Z.to_nat i) (zp_pixels (fp_ints p)) 0%Z in let k := (i / product (zp_tiles (fp_ints p)))%Z in
      (- 2 ^ 63 <= v < 2 ^ 63)%Z /\
      nth_error (fst (tiles_run gz m fuel st n)) (Z.to_nat i) = Some (PixelOf (PFloat (float_value p k v))).
Proof.
  intros O K A W SL D B Y L. pose proof W as (told & cols & rows & c & kb & _ & RX & _ & _ & _ & TT).
  destruct TT as (fm & _ & _ & _ & _ & WT & _ & LP & _).
  destruct (fpicture_read_back gz m d pre s post p l f O K A W D B Y L) as (l' & h & t & z & st & fu & E & _ & X & _ & _ & G & RU).
  exists l', h, t, st, fu. do 3 (split; [assumption|]). intros fuel n i FU I N v k.
  set (got := nth_error (fst (tiles_run gz m fuel st n)) (Z.to_nat i)).
  assert (GOT : got = Some (PixelOf (PFloat (float_value p k v)))).
  { unfold got. rewrite (RU fuel n FU), (floats_slabs p SL WT LP). rewrite nth_firstn by lia.
    rewrite nth_error_app1 by (rewrite !map_length; unfold upto; rewrite map_length, seq_length; lia).
    rewrite !nth_error_map. unfold upto. rewrite nth_error_map.
    rewrite (nth_error_nth' _ 0%nat) by (rewrite seq_length; lia). rewrite seq_nth by lia.
    cbn [option_map]. rewrite Nat.add_0_l, !Z2Nat.id by lia. reflexivity. }
  assert (V : (- 2 ^ 63 <= v < 2 ^ 63)%Z).
  { rewrite Forall_forall in RX. assert (J : in_range BI32 v). { apply RX, nth_In. unfold len in I. lia. } cbn in J. lia. }
  now split.
Qed.

Lemma fpicture_close gz m d pre s post p l f :
  octets d -> file_kinds (pre ++ (HBinTable, s) :: post) -> Forall (accepted m) pre -> fpicture_written gz m p s ->
  slabs (zp_dims (fp_ints p)) (zp_tiles (fp_ints p)) ->
  d = file_bytes (pre ++ (HBinTable, s) :: post) -> (len d < 2 ^ 63)%Z ->
  yields m (opened d) l f -> length l = Datatypes.S (length pre) ->
  exists l' h t st fuel0, l = l' ++ [IOk h] /\ h_xt h = XtBin t /\ get_tiles m f (h_values h) t = Some (Ok st) /\
    forall fuel n i, (fuel0 <= fuel)%nat -> (0 <= i < len (zp_pixels (fp_ints p)))%Z -> (i < Z.of_nat n)%Z ->
      let v := nth (Z.to_nat i) (zp_pixels (fp_ints p)) 0%Z in let k := (i / product (zp_tiles (fp_ints p)))%Z in
      let got := nth_error (fst (tiles_run gz m fuel st n)) (Z.to_nat i) in
      (fp_blank p k = Some v -> got = Some (PixelOf (PFloat S754_nan))) /\
      forall sc o x, fp_blank p k <> Some v -> number 24 128 (fp_scale p k) sc -> number 24 128 (fp_zero p k) o -> plain_fits sc o v ->
        Rabs (x - (IZR v * sc + o)) <= Rabs sc / 2 ->
        exists y r, got = Some (PixelOf (PFloat y)) /\ number 24 128 y r /\
          Rabs (r - x) <= Rabs sc / 2 + 5 * bpow radix2 (-24) * (Rabs (IZR v * sc) + Rabs o) + bpow radix2 (-148).
Proof.
  intros O K A W SL D B Y L. destruct (fpicture_pixel gz m d pre s post p l f O K A W SL D B Y L) as (l' & h & t & st & fu & E & X & G & RU).
  exists l', h, t, st, fu. do 3 (split; [assumption|]). intros fuel n i FU I N v k got.
  destruct (RU fuel n i FU I N) as [V GOT]. fold v k in V, GOT. fold got in GOT.
  split.
  - intro BL. rewrite GOT. now rewrite (proj1 (float_value_real p k v) BL).
  - intros sc o x BL S Z0 F E1. destruct (float_value_error p k v sc o x BL V S Z0 F E1) as (r & NR & ER).
    exists (float_value p k v), r. auto.
Qed.

(** With dithering, the integer is a nearest step to [x] moved by [r - 1/2]. *)
Lemma dithered_value_error p k v s o r x :
  fp_blank p k <> Some v -> (- 2 ^ 63 <= v < 2 ^ 63)%Z ->
  number 24 128 (fp_scale p k) s -> number 24 128 (fp_zero p k) o -> plain_fits s o v ->
  0 <= r <= 1 -> Rabs (x - ((IZR v - r + / 2) * s + o)) <= Rabs s / 2 ->
  exists y, number 24 128 (float_value p k v) y /\
    Rabs (y - x) <= Rabs s + 5 * bpow radix2 (-24) * (Rabs (IZR v * s) + Rabs o) + bpow radix2 (-148).
Proof.
  intros B V S O F R E. exists (plain_value s o v). split; [now apply float_value_real|].
  pose proof (plain_error v s o) as P. fold (plain_value s o v) in P.
  set (a := plain_value s o v) in *. set (b := (IZR v - r + / 2) * s + o) in *. set (c := IZR v * s + o) in *.
  replace (a - x) with ((a - c) + ((r - / 2) * s - (x - b))) by (unfold b, c; ring).
  assert (H : Rabs ((r - / 2) * s) <= Rabs s / 2).
  { rewrite Rabs_mult. pose proof (Rabs_pos s). unfold Rdiv. rewrite (Rmult_comm (Rabs s)).
    apply Rmult_le_compat_r; auto. apply Rabs_le. lra. }
  eapply Rle_trans; [apply Rabs_triang|]. pose proof (Rabs_triang ((r - / 2) * s) (- (x - b))) as T. rewrite Rabs_Ropp in T.
  unfold Rminus at 2. lra.
Qed.

Lemma nearest_dithered_step s o r x : s <> 0 ->
  Rabs (x - ((IZR (ZnearestE ((x - o) / s + r - / 2)) - r + / 2) * s + o)) <= Rabs s / 2.
Proof.
  intro H. pose proof (nearest_step s (o + (/ 2 - r) * s) x H) as N.
  replace ((x - (o + (/ 2 - r) * s)) / s) with ((x - o) / s + r - / 2) in N by (field; auto).
  set (n := IZR (ZnearestE ((x - o) / s + r - / 2))) in *.
  replace ((n - r + / 2) * s + o) with (n * s + (o + (/ 2 - r) * s)) by ring. exact N.
Qed.

Lemma fpicture_dithered gz m d pre s post p l f :
  octets d -> file_kinds (pre ++ (HBinTable, s) :: post) -> Forall (accepted m) pre -> fpicture_written gz m p s ->
  slabs (zp_dims (fp_ints p)) (zp_tiles (fp_ints p)) ->
  d = file_bytes (pre ++ (HBinTable, s) :: post) -> (len d < 2 ^ 63)%Z ->
  yields m (opened d) l f -> length l = Datatypes.S (length pre) ->
  exists l' h t st fuel0, l = l' ++ [IOk h] /\ h_xt h = XtBin t /\ get_tiles m f (h_values h) t = Some (Ok st) /\
    forall fuel n i, (fuel0 <= fuel)%nat -> (0 <= i < len (zp_pixels (fp_ints p)))%Z -> (i < Z.of_nat n)%Z ->
      let v := nth (Z.to_nat i) (zp_pixels (fp_ints p)) 0%Z in let k := (i / product (zp_tiles (fp_ints p)))%Z in
      let got := nth_error (fst (tiles_run gz m fuel st n)) (Z.to_nat i) in
      (fp_blank p k = Some v -> got = Some (PixelOf (PFloat S754_nan))) /\
      forall sc o r x, fp_blank p k <> Some v -> number 24 128 (fp_scale p k) sc -> number 24 128 (fp_zero p k) o -> plain_fits sc o v ->
        0 <= r <= 1 -> Rabs (x - ((IZR v - r + / 2) * sc + o)) <= Rabs sc / 2 ->
        exists y a, got = Some (PixelOf (PFloat y)) /\ number 24 128 y a /\
          Rabs (a - x) <= Rabs sc + 5 * bpow radix2 (-24) * (Rabs (IZR v * sc) + Rabs o) + bpow radix2 (-148).
Proof.
  intros O K A W SL D B Y L. destruct (fpicture_pixel gz m d pre s post p l f O K A W SL D B Y L) as (l' & h & t & st & fu & E & X & G & RU).
  exists l', h, t, st, fu. do 3 (split; [assumption|]). intros fuel n i FU I N v k got.
  destruct (RU fuel n i FU I N) as [V GOT]. fold v k in V, GOT. fold got in GOT. split.
  - intro BL. rewrite GOT. now rewrite (proj1 (float_value_real p k v) BL).
  - intros sc o r x BL S Z0 F R E1. destruct (dithered_value_error p k v sc o r x BL V S Z0 F R E1) as (a & NR & ER).
    exists (float_value p k v), a. auto.
Qed.

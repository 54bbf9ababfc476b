(** Real values end to end: header reals, pixels of tiles, samples. *)

From Coq Require Import Reals Lra Psatz.
From Verif Require Import Base Text Card Reader Header Xtension Bytes Fits ImageIt BinTable Rice Float Tile ImageInt.
From Verif Require Import SpecCard SpecXt SpecFits SpecImage SpecBin SpecRice SpecTile SpecImageInt SpecReal.
From Verif Require Import TextLemmas CardProofs BinProofs TileProofs4 TileProofs5 TileProofs6 ImageIntProofs4 Prop_Card Prop_Tile Prop_ImageInt.
From Verif Require Import FloatProofs FloatProofs2 FloatProofs3.
From Flocq Require Import Core Operations Relative BinarySingleNaN.
Open Scope R_scope.

(** ** Header reals *)

Lemma real_nearest kw lead s ip f e trail comment :
  ordinary_keyword kw ->
  Forall digit ip -> Forall digit (frac_digits f) -> ip ++ frac_digits f <> [] -> expo_ok e ->
  (f <> None \/ e <> NoExp) -> opt_printable comment ->
  exists v, parse_card (value_record kw (value_field lead (real_literal s ip f e) trail comment))
            = Ok (CValue kw (VFloat v (option_map rtrim comment))) /\
    rounded 53 1024 (decimal (is_neg s) (dec_value (ip ++ frac_digits f)) (expo_value e - len (frac_digits f)))
            (is_neg s) (f64_of_fval v).
Proof.
  intros K D1 D2 N E1 E2 C. eexists. split; [apply C04_real_roundtrip; auto|].
  apply dec_rounded. apply dec_value_nonneg. apply Forall_app. auto.
Qed.

Lemma real_back kw lead s ip f e trail comment x r :
  ordinary_keyword kw ->
  Forall digit ip -> Forall digit (frac_digits f) -> ip ++ frac_digits f <> [] -> expo_ok e ->
  (f <> None \/ e <> NoExp) -> opt_printable comment ->
  let mant := dec_value (ip ++ frac_digits f) in let ex := (expo_value e - len (frac_digits f))%Z in
  number 53 1024 x r -> (10 ^ 16 <= mant)%Z -> Rabs (decimal (is_neg s) mant ex - r) <= / 2 * bpow ten ex ->
  exists v, parse_card (value_record kw (value_field lead (real_literal s ip f e) trail comment))
            = Ok (CValue kw (VFloat v (option_map rtrim comment))) /\ f64_of_fval v = x.
Proof.
  intros K D1 D2 N E1 E2 C mant ex X M B. eexists. split; [apply C04_real_roundtrip; auto|]. exact (seventeen x r (is_neg s) mant ex X M B).
Qed.

Lemma decimal_integer n : decimal (n <? 0)%Z (Z.abs n) 0 = IZR n.
Proof.
  unfold decimal, F2R. simpl. rewrite Rmult_1_r. f_equal. destruct (Z.ltb_spec n 0); lia.
Qed.
Lemma integer_nearest kw lead s ds trail comment :
  ordinary_keyword kw -> Forall digit ds -> ds <> [] -> opt_printable comment ->
  let n := apply_sign s (dec_value ds) in
  exists v x, parse_card (value_record kw (value_field lead (int_literal s ds) trail comment)) = Ok (CValue kw v) /\
    de_f64 v = Ok x /\ rounded 53 1024 (IZR n) (n <? 0)%Z (f64_of_fval x).
Proof.
  intros K D N C n. pose proof (C03_integer_roundtrip kw lead s ds trail comment K D N C) as P. cbv zeta in P. fold n in P.
  pose proof (dec_value_nonneg ds D) as P0.
  destruct ((- 2 ^ 63 <=? n) && (n <=? 2 ^ 63 - 1))%Z eqn:R.
  - eexists. eexists. split; [exact P|]. split; [reflexivity|]. cbn [f64_of_fval]. rewrite <- decimal_integer. apply dec_rounded. lia.
  - eexists. eexists. split; [exact P|]. split; [reflexivity|]. cbn [f64_of_fval].
    assert (E : is_neg s = (n <? 0)%Z /\ dec_value ds = Z.abs n).
    { unfold n in *. clear P. set (q := dec_value ds) in *. clearbody q. clear - R P0. destruct s; cbn [apply_sign is_neg] in *; lia. }
    destruct E as [-> ->]. rewrite <- decimal_integer. apply dec_rounded. lia.
Qed.

(** ** Pixels of tiles *)

Lemma nth_blocks {A} (g : Z -> list A) T n : forall k a,
  (forall r, a <= r < a + Z.of_nat n -> len (g r) = T)%Z -> (0 <= k < Z.of_nat n)%Z -> forall i, (0 <= i < T)%Z ->
  nth_error (flat_map g (map (fun j => a + Z.of_nat j)%Z (seq 0 n))) (Z.to_nat (k * T + i)) = nth_error (g (a + k)%Z) (Z.to_nat i).
Proof.
  induction n as [|n IH]; intros k a L K i I; [lia|].
  cbn [seq map flat_map]. rewrite Z.add_0_r. assert (L0 := L a ltac:(lia)). unfold len in L0.
  destruct (Z.eq_dec k 0) as [->|K0].
  - rewrite nth_error_app1 by lia. rewrite Z.add_0_r. do 2 f_equal; lia.
  - rewrite nth_error_app2 by nia.
    replace (Z.to_nat (k * T + i) - length (g a))%nat with (Z.to_nat ((k - 1) * T + i)) by nia.
    rewrite <- seq_shift, map_map.
    rewrite (map_ext (fun x => a + Z.of_nat (S x))%Z (fun x => (a + 1) + Z.of_nat x)%Z) by (intro; lia).
    rewrite IH; [do 2 f_equal; lia| |lia|exact I]. intros r R. apply L. lia.
Qed.
Lemma nth_tile {A} (g : Z -> list A) T n k i :
  (forall r, 0 <= r < n -> len (g r) = T)%Z -> (0 <= k < n)%Z -> (0 <= i < T)%Z ->
  nth_error (flat_map g (upto n)) (Z.to_nat (k * T + i)) = nth_error (g k) (Z.to_nat i).
Proof.
  intros L K I. unfold upto. pose proof (nth_blocks g T (Z.to_nat n) k 0) as H. rewrite H; auto; try lia.
  intros r R. apply L. lia.
Qed.

Lemma nth_firstn {A} : forall (l : list A) n k, (k < n)%nat -> nth_error (firstn n l) k = nth_error l k.
Proof.
  induction l as [|y l IH]; intros n k K; [rewrite firstn_nil; reflexivity|].
  destruct n as [|n]; [lia|]. destruct k as [|k]; [reflexivity|]. cbn [firstn nth_error]. apply IH. lia.
Qed.
Lemma nth_run {A B} (f : A -> B) (x : B) l n k v : (k < n)%nat -> nth_error l k = Some v ->
  nth_error (firstn n (map f l ++ repeat x n)) k = Some (f v).
Proof.
  intros K E. rewrite nth_firstn by exact K. rewrite nth_error_app1.
  - rewrite nth_error_map, E. reflexivity.
  - rewrite map_length. apply nth_error_Some. congruence.
Qed.

Lemma plain_tile gz m d f h f' t z ints scale zero blank :
  octets d -> rd_data (f_reader f) = d -> (0 <= rd_pos (f_reader f))%Z -> next m f = (IOk h, f') ->
  h_xt h = XtBin t -> bt_zimage t = Some z ->
  tiled d t (h_offset h) z -> tiles_hold gz m d t (h_offset h) z ints ->
  real_pixels (z_bitpix z) -> quantised d t (h_offset h) (h_values h) scale zero blank ->
  exists st fuel0, get_tiles m f' (h_values h) t = Some (Ok st) /\
    forall fuel n row i v s o, (fuel0 <= fuel)%nat -> (0 <= row < bt_naxis2 t)%Z -> (0 <= i)%Z ->
    nth_error (ints row) (Z.to_nat i) = Some v -> is_blank (blank row) v = false ->
    number 24 128 (scale row) s -> number 24 128 (zero row) o -> plain_fits s o v ->
    (row * product (z_tilen z) + i < Z.of_nat n)%Z ->
    exists x, nth_error (fst (tiles_run gz m fuel st n)) (Z.to_nat (row * product (z_tilen z) + i)) = Some (PixelOf (PFloat x)) /\
      number 24 128 x (plain_value s o v).
Proof.
  intros O D P N X Zi Td Th Rp Q.
  destruct (C42_float_tiles gz m d f h f' t z ints scale zero blank O D P N X Zi Td Th Rp Q) as (st & fuel0 & G & R).
  exists st, fuel0. split; [exact G|]. intros fuel n row i v s o F Rw I V B S Ze [F1 F2] L.
  rewrite (R fuel n F).
  destruct (Th row Rw) as [Lr (bytes & _ & Hd)]. destruct Hd as [Bd _].
  assert (Iv : (- 2 ^ 31 <= v < 2 ^ 31)%Z).
  { rewrite Forall_forall in Bd. apply Bd. eapply nth_error_In. exact V. }
  assert (I2 : (0 <= i < product (z_tilen z))%Z).
  { rewrite <- Lr. unfold len. split; [exact I|]. assert (Z.to_nat i < length (ints row))%nat by (apply nth_error_Some; congruence). lia. }
  exists (f32_add (f32_mul (f32_of_int v) (scale row)) (zero row)). split.
  - assert (Np : (0 <= row * product (z_tilen z))%Z) by (apply Z.mul_nonneg_nonneg; lia).
    erewrite nth_run; [|lia|].
    + reflexivity.
    + rewrite (nth_tile _ (product (z_tilen z)) (bt_naxis2 t) row i); auto.
      * rewrite nth_error_map, V. cbn [option_map]. unfold float_pixel. rewrite B. reflexivity.
      * intros r Hr. destruct (Th r Hr) as [Lr' _]. unfold len in *. rewrite map_length. exact Lr'.
  - apply scaled_pixel; auto. apply f32_int. lia.
Qed.

Lemma in_dithered q s z b k ints i v : (0 <= i)%Z -> nth_error ints (Z.to_nat i) = Some v ->
  nth_error (dithered_pixels q s z b k ints) (Z.to_nat i) = Some (float_pixel q s z b (random ((k + i) mod 10000)) v).
Proof.
  intros I V. unfold dithered_pixels. rewrite nth_error_map.
  assert (C : forall (l : list Z) a j, nth_error l j = Some v ->
    nth_error (combine (map Z.of_nat (seq a (length l))) l) j = Some (Z.of_nat (a + j), v)).
  { induction l as [|y l IH]; intros a j E; [destruct j; discriminate|]. destruct j as [|j]; cbn [length seq map combine nth_error] in *.
    - injection E as ->. do 2 f_equal. lia.
    - rewrite IH by exact E. do 2 f_equal. lia. }
  unfold upto, len. rewrite Nat2Z.id, (C _ 0%nat _ V). cbn [option_map fst snd]. rewrite Nat.add_0_l, Z2Nat.id by exact I. reflexivity.
Qed.
Lemma dithered_len q s z b k ints : len (dithered_pixels q s z b k ints) = len ints.
Proof. unfold dithered_pixels, len, upto, len. rewrite map_length, combine_length, map_length, seq_length, Nat2Z.id. lia. Qed.

(** The table entry of pixel [i] of row [row]. *)
Lemma dithered_tile gz m d f h f' t z ints scale zero blank :
  octets d -> rd_data (f_reader f) = d -> (0 <= rd_pos (f_reader f))%Z -> next m f = (IOk h, f') -> h_xt h = XtBin t ->
  tiled d t (h_offset h) z -> tiles_hold gz m d t (h_offset h) z ints ->
  real_pixels (z_bitpix z) -> quantised d t (h_offset h) (h_values h) scale zero blank ->
  quantiser z <> ZNoDither -> (0 <= dither_seed z < 2 ^ 63)%Z ->
  (forall row, (0 <= row < bt_naxis2 t)%Z -> Forall (fun v => is_blank (blank row) v = false) (ints row)) ->
  exists st fuel0, (let! data := get_table m f' t in pixels_new m (h_values h) t data z) = Ok st /\
    forall fuel n row i v s o, (fuel0 <= fuel)%nat -> (0 <= row < bt_naxis2 t)%Z -> (0 <= i)%Z ->
    nth_error (ints row) (Z.to_nat i) = Some v ->
    (quantiser z = ZSubtractive2 -> v <> -2147483647)%Z ->
    number 24 128 (scale row) s -> number 24 128 (zero row) o ->
    (row * product (z_tilen z) + i < Z.of_nat n)%Z ->
    exists x r, nth_error (fst (tiles_run gz m fuel st n)) (Z.to_nat (row * product (z_tilen z) + i)) = Some (PixelOf (PFloat x)) /\
      0 < r <= 1 /\
      Rabs (r - IZR (seed ((first_entry row (dither_seed z) + i) mod 10000)) / IZR (2 ^ 31 - 1)) <= bpow radix2 (-24) /\
      (dithered_fits s o r v -> number 24 128 x (dithered_value s o r v)).
Proof.
  intros O D P N X Td Th Rp Q Qz Ds Bl.
  destruct (C41_dithered gz m d f h f' t z ints scale zero blank O D P N X Td Th Rp Q Qz Ds Bl) as (st & fuel0 & G & R).
  exists st, fuel0. split; [exact G|]. intros fuel n row i v s o F Rw I V Nz S Ze L.
  rewrite (R fuel n F).
  destruct (Th row Rw) as [Lr (bytes & _ & Hd)]. destruct Hd as [Bd _].
  assert (Iv : (- 2 ^ 31 <= v < 2 ^ 31)%Z).
  { rewrite Forall_forall in Bd. apply Bd. eapply nth_error_In. exact V. }
  assert (B : is_blank (blank row) v = false).
  { specialize (Bl row Rw). rewrite Forall_forall in Bl. apply Bl. eapply nth_error_In. exact V. }
  assert (I2 : (0 <= i < product (z_tilen z))%Z).
  { rewrite <- Lr. unfold len. split; [exact I|]. assert (Z.to_nat i < length (ints row))%nat by (apply nth_error_Some; congruence). lia. }
  set (k := ((first_entry row (dither_seed z) + i) mod 10000)%Z).
  destruct (random_number k) as (r & Nr & Rr & Re); [apply Z.mod_pos_bound; lia|].
  exists (f32_add (f32_mul (f32_add (f32_sub (f32_of_int v) (random k)) half) (scale row)) (zero row)), r.
  split; [|split; [exact Rr|split; [exact Re|]]].
  - assert (Np : (0 <= row * product (z_tilen z))%Z) by (apply Z.mul_nonneg_nonneg; lia).
    erewrite nth_run; [|lia|].
    + reflexivity.
    + rewrite (nth_tile _ (product (z_tilen z)) (bt_naxis2 t) row i); auto.
      * rewrite (in_dithered _ _ _ _ _ _ _ _ I V). fold k. unfold float_pixel. rewrite B.
        destruct (quantiser z) eqn:Qe; [congruence|reflexivity|]. replace (v =? -2147483647)%Z with false by (specialize (Nz eq_refl); lia). reflexivity.
      * intros r0 Hr. destruct (Th r0 Hr) as [Lr' _]. rewrite dithered_len. exact Lr'.
  - intros [F1 F2]. apply scaled_pixel; auto. apply dither_pixel; auto.
Qed.

(** ** Samples *)

Lemma sample_small b sc v s z : b = BU8 \/ b = BI16 -> in_range b v ->
  number 53 1024 (sc_scale sc) s -> number 53 1024 (sc_zero sc) z -> fits 53 1024 (IZR v * s + z) ->
  exists k, le_value (image_sample b sc v) = limited 0 (if (depth b =? 1)%Z then 255 else 65535) k /\
    let y := rnd 53 1024 (IZR v * s + z) in
    Rabs (IZR k - y) <= / 2 /\ (Rabs (IZR k - y) = / 2 -> Rabs y < Rabs (IZR k)).
Proof.
  intros Hb R S Z F. destruct (C50_samples b sc v R) as (_ & _ & H).
  assert (B : (- 2 ^ 31 <= v < 2 ^ 31)%Z) by (destruct Hb; subst b; cbn [in_range] in R; lia).
  assert (E : rnd 53 1024 (IZR v) = IZR v) by (apply rnd_int; [reflexivity|lia|lia]).
  pose proof (physical_number sc v s z ltac:(lia) S Z) as P. rewrite E in P. specialize (P F).
  assert (U : forall hi n, unsigned hi (physical sc v) n -> exists k, n = limited 0 hi k /\ nearest (physical sc v) k).
  { intros hi n Hn. unfold unsigned in Hn. destruct P as [_ [Fi _]]. destruct (physical sc v); try discriminate;
      destruct Hn as (k & A & C); exists k; auto. }
  destruct Hb; subst b; cbn [sample_value] in H; destruct (U _ _ H) as (k & K1 & K2); exists k;
    (split; [exact K1|]); eapply nearest_real; eauto.
Qed.

Lemma sample_large b sc v s z : b = BI32 \/ b = BI64 -> in_range b v ->
  number 53 1024 (sc_scale sc) s -> number 53 1024 (sc_zero sc) z ->
  let n := rnd 53 1024 in let top := n (IZR (if (width b =? 4)%Z then 2 ^ 31 - 1 else 2 ^ 63 - 1)) in
  let y := n (n (IZR v) * n (s / top) + n (z / top)) in
  fits 53 1024 (n (IZR v) * n (s / top) + n (z / top)) -> fits 24 128 y ->
  number 24 128 (f32_of_bits (le_value (image_sample b sc v))) (rnd 24 128 y).
Proof.
  intros Hb R S Z n top y F1 F2. destruct (C50_samples b sc v R) as (_ & _ & H).
  assert (B : (- 2 ^ 63 <= v < 2 ^ 63)%Z) by (destruct Hb; subst b; cbn [in_range] in R; lia).
  destruct Hb; subst b; cbn [sample_value] in H; rewrite H; apply f32_of_f64_rounded; auto;
    apply fraction_number; auto; lia.
Qed.

(** ** Bit patterns *)

Lemma bit_patterns :
  (forall b r, pattern 23 8 b r -> number 24 128 (f32_of_bits b) r) /\
  (forall b r, pattern 52 11 b r -> number 53 1024 (f64_of_bits b) r) /\
  (forall b, (0 <= b < 2 ^ 32)%Z -> (exists r, pattern 23 8 b r) \/ ~ exists r, number 24 128 (f32_of_bits b) r) /\
  (forall b, (0 <= b < 2 ^ 64)%Z -> (exists r, pattern 52 11 b r) \/ ~ exists r, number 53 1024 (f64_of_bits b) r).
Proof.
  split; [|split; [|split]].
  - intros b r H. apply (bits_number 23 8); [lia|lia|exact H].
  - intros b r H. apply (bits_number 52 11); [lia|lia|exact H].
  - intros b B. destruct (bits_cases 23 8 b) as [H|[H|[s H]]]; try lia; [left; exact H| |];
      right; intros [r (_ & F & _)]; unfold f32_of_bits in F; rewrite H in F; discriminate.
  - intros b B. destruct (bits_cases 52 11 b) as [H|[H|[s H]]]; try lia; [left; exact H| |];
      right; intros [r (_ & F & _)]; unfold f64_of_bits in F; rewrite H in F; discriminate.
Qed.

(** ** Examples *)

Lemma fin prec emax neg p e r : valid_binary prec emax (S754_finite neg p e) = true -> r = sign_of neg * (IZR (Zpos p) * bpow radix2 e) ->
  number prec emax (S754_finite neg p e) r.
Proof. intros V ->. split; [exact V|]. split; [reflexivity|]. apply sign_value. Qed.

Lemma pixel_ex : number 24 128 (ex_scale 1) 2 /\ number 24 128 (ex_zero 1) (/ 4) /\ plain_fits 2 (/ 4) 70000 /\
  plain_value 2 (/ 4) 70000 = 140000.25 /\ number 24 128 (S754_finite false 8960016 (-6)) 140000.25.
Proof.
  assert (A : number 24 128 (S754_finite false 8960016 (-6)) 140000.25) by (apply fin; [reflexivity|unfold sign_of; simpl; lra]).
  assert (B : number 24 128 (S754_finite false 8960000 (-6)) 140000) by (apply fin; [reflexivity|unfold sign_of; simpl; lra]).
  assert (E1 : rnd 24 128 (IZR 70000) = 70000) by (apply rnd_int; [reflexivity|lia|lia]).
  assert (E2 : rnd 24 128 (70000 * 2) = 140000) by (replace (70000 * 2) with 140000 by lra; eapply rnd_exact; [reflexivity|exact B]).
  assert (E3 : rnd 24 128 (140000 + / 4) = 140000.25) by (replace (140000 + / 4) with 140000.25 by lra; eapply rnd_exact; [reflexivity|exact A]).
  split; [|split; [|split; [|split; [|exact A]]]].
  - change (ex_scale 1) with (S754_finite false 8388608 (-22)). apply fin; [reflexivity|unfold sign_of; simpl; lra].
  - change (ex_zero 1) with (S754_finite false 8388608 (-25)). apply fin; [reflexivity|unfold sign_of; simpl; lra].
  - unfold plain_fits. cbv zeta. rewrite E1, E2. split; apply (fits_bound 24 128 eq_refl 20); try lia; apply Rabs_le; simpl; lra.
  - unfold plain_value. cbv zeta. rewrite E1, E2, E3. reflexivity.
Qed.

Lemma sample_ex : let sc := mk_scale (f64_of_dec false 5 (-1)) (f64_of_int 3) in
  number 53 1024 (sc_scale sc) 3 /\ number 53 1024 (sc_zero sc) (/ 2) /\ fits 53 1024 (IZR 4 * 3 + / 2) /\
  le_value (image_sample BU8 sc 4) = 13%Z /\
  f32_of_bits (le_value (image_sample BI32 sc (2 ^ 30))) = S754_finite false 12582912 (-23).
Proof.
  cbv zeta. split; [|split; [|split; [|vm_compute; auto]]].
  - change (number 53 1024 (S754_finite false 6755399441055744 (-51)) 3). apply fin; [reflexivity|unfold sign_of; simpl; lra].
  - change (number 53 1024 (S754_finite false 4503599627370496 (-53)) (/ 2)). apply fin; [reflexivity|unfold sign_of; simpl; lra].
  - apply (fits_bound 53 1024 eq_refl 20); [lia|]. apply Rabs_le; simpl; lra.
Qed.

(** Rounding gives f32 numbers, whose bit pattern is exact; complete buffers. *)

From Coq Require Import ZifyBool.
From Verif Require Import Base Text Card Reader Header Xtension Bytes Fits ImageIt BinTable Float Tile ImageInt.
From Verif Require Import SpecCard SpecXt SpecFits SpecImage SpecBin SpecTile SpecImageInt.
From Verif Require Import BytesProofs XtProofs2 XtProofs3 ImageProofs BinProofs TileProofs6.
From Verif Require Import ImageIntProofs ImageIntProofs2 ImageIntProofs3.

(** ** Rounding to f32 *)

Definition valid32 (x : spec_float) : Prop :=
  match x with
  | S754_finite _ mant e => Zpos mant < 2 ^ 24 /\ -149 <= e <= 104 /\ (2 ^ 23 <= Zpos mant \/ e = -149)
  | _ => True
  end.

Lemma shr_1_half r : 0 <= shr_m r -> shr_m (shr_1 r) = shr_m r / 2.
Proof.
  destruct r as [mm rr ss]. cbn [shr_m]. intro H. destruct mm as [|[p|p|]|p]; cbn [shr_1 shr_m]; try reflexivity; try lia.
Qed.

Lemma shr_iter k : forall r, 0 <= shr_m r -> shr_m (iter_pos shr_1 k r) = shr_m r / 2 ^ Zpos k.
Proof.
  induction k as [k IH|k IH|]; intros r H; cbn [iter_pos].
  - assert (0 <= shr_m (shr_1 r)) by (rewrite shr_1_half by auto; apply Z.div_pos; lia).
    rewrite IH, IH, shr_1_half by (rewrite ?IH by auto; auto; apply Z.div_pos; lia).
    rewrite !Z.div_div by lia. f_equal. replace (Zpos (k~1)) with (1 + (Zpos k + Zpos k)) by lia. rewrite !Z.pow_add_r by lia. lia.
  - rewrite IH, IH by (rewrite ?IH by auto; auto; apply Z.div_pos; lia).
    rewrite !Z.div_div by lia. f_equal. replace (Zpos (k~0)) with (Zpos k + Zpos k) by lia. rewrite !Z.pow_add_r by lia. lia.
  - rewrite shr_1_half by auto. reflexivity.
Qed.

Definition shift_of (m e : Z) : Z := fexp 24 128 (Zdigits2 m + e) - e.

Lemma shr_fexp_spec m e l : 0 <= m -> 0 <= shift_of m e ->
  shr_m (fst (shr_fexp 24 128 m e l)) = m / 2 ^ shift_of m e /\ snd (shr_fexp 24 128 m e l) = e + shift_of m e.
Proof.
  intros M S. unfold shr_fexp. fold (shift_of m e). unfold shr.
  assert (SM: shr_m (shr_record_of_loc m l) = m) by (destruct l as [|[]]; reflexivity).
  destruct (shift_of m e) as [|p|p]; cbn [fst snd].
  - rewrite SM, Z.div_1_r. split; [reflexivity|lia].
  - rewrite shr_iter by (rewrite SM; lia). rewrite SM. auto.
  - lia.
Qed.

Lemma zdigits_bounds m : 0 <= m -> 0 <= Zdigits2 m /\ m < 2 ^ Zdigits2 m /\ (m <> 0 -> 2 ^ (Zdigits2 m - 1) <= m).
Proof.
  intro M. destruct m as [|p|p]; [|pose proof (digits2_bounds p)|lia]; cbn [Zdigits2]; [|lia].
  cbn. lia.
Qed.

(** After the first shift: [m] of at most 24 digits, of exactly 24 unless the exponent is least. *)
Lemma shifted m e : 0 < m -> 0 <= shift_of m e ->
  let q := m / 2 ^ shift_of m e in let e' := e + shift_of m e in
  0 <= q < 2 ^ 24 /\ -149 <= e' /\ (2 ^ 23 <= q \/ e' = -149).
Proof.
  intros M S q e'. pose proof (zdigits_bounds m ltac:(lia)) as (D0 & D1 & D2). specialize (D2 ltac:(lia)).
  assert (PS: 0 < 2 ^ shift_of m e) by (apply Z.pow_pos_nonneg; lia).
  assert (Q0: 0 <= q) by (apply Z.div_pos; lia).
  unfold shift_of, fexp, emin in *. change (3 - 128 - 24) with (-149) in *.
  set (dg := Zdigits2 m) in *. set (k := Z.max (dg + e - 24) (-149) - e) in *.
  assert (dg <= k + 24) by lia.
  split; [split; [auto|]|split; [lia|]].
  - apply Z.div_lt_upper_bound; [lia|]. rewrite <- Z.pow_add_r by lia.
    assert (2 ^ dg <= 2 ^ (k + 24)) by (apply Z.pow_le_mono_r; lia). lia.
  - destruct (Z.eq_dec e' (-149)) as [|NE]; [auto|]. left.
    assert (dg = k + 24) by lia. apply Z.div_le_lower_bound; [lia|]. rewrite <- Z.pow_add_r by lia.
    replace (k + 23) with (dg - 1) by lia. auto.
Qed.

Lemma aux_valid s m e l : 0 < m -> 0 <= shift_of m e -> valid32 (binary_round_aux 24 128 s m e l).
Proof.
  intros M S. unfold binary_round_aux. pose proof (shr_fexp_spec m e l ltac:(lia) S) as (A & B).
  destruct (shr_fexp 24 128 m e l) as [r1 e1]. cbn [fst snd] in A, B.
  pose proof (shifted m e M S) as (Q & E & C). cbv zeta in Q, E, C. rewrite <- A in Q, C. rewrite <- B in E, C. clear A B M S.
  set (m2 := round_nearest_even (shr_m r1) (loc_of_shr_record r1)).
  assert (M2: shr_m r1 <= m2 <= shr_m r1 + 1).
  { unfold m2. destruct (loc_of_shr_record r1) as [|[]]; cbn [round_nearest_even]; try lia. destruct (Z.even _); lia. }
  clearbody m2.
  destruct (Z.eq_dec m2 0) as [->|NZ].
  { destruct (shr_fexp 24 128 0 e1 loc_Exact) as [r2 e2] eqn:F.
    assert (shr_m r2 = 0) as ->; [|exact I].
    unfold shr_fexp, shr in F. destruct (fexp 24 128 (Zdigits2 0 + e1) - e1); inversion F; auto.
    cbn [shr_record_of_loc]. rewrite shr_iter by (cbn; lia). reflexivity. }
  destruct (Z.eq_dec m2 (2 ^ 24)) as [E24|NE].
  - assert (D: Zdigits2 m2 = 25). { rewrite E24. reflexivity. }
    assert (SH: shift_of m2 e1 = 1). { unfold shift_of. rewrite D. unfold fexp, emin. lia. }
    pose proof (shr_fexp_spec m2 e1 loc_Exact ltac:(lia) ltac:(lia)) as (A & B). rewrite SH in A, B.
    destruct (shr_fexp 24 128 m2 e1 loc_Exact) as [r2 e2]. cbn [fst snd] in A, B. rewrite A, E24.
    change (2 ^ 24 / 2 ^ 1) with 8388608. cbv iota beta.
    destruct (Z.leb_spec e2 (128 - 24)); [|exact I]. cbn [valid32]. lia.
  - assert (M24: 0 < m2 < 2 ^ 24) by lia.
    pose proof (zdigits_bounds m2 ltac:(lia)) as (D0 & D1 & D2). specialize (D2 NZ).
    assert (Zdigits2 m2 - 1 < 24) by (apply (Z.pow_lt_mono_r_iff 2); lia).
    assert (SH: shift_of m2 e1 = 0).
    { unfold shift_of, fexp, emin. destruct C as [C|C]; [|lia].
      assert (23 < Zdigits2 m2) by (apply (Z.pow_lt_mono_r_iff 2); lia). lia. }
    pose proof (shr_fexp_spec m2 e1 loc_Exact ltac:(lia) ltac:(lia)) as (A & B). rewrite SH in A, B. rewrite Z.div_1_r in A.
    destruct (shr_fexp 24 128 m2 e1 loc_Exact) as [r2 e2]. cbn [fst snd] in A, B. rewrite A.
    destruct m2 as [|p|p]; [exact I| |exact I].
    destruct (Z.leb_spec e2 (128 - 24)); [|exact I]. cbn [valid32]. lia.
Qed.

Lemma round_valid s p e : valid32 (binary_round 24 128 s p e).
Proof.
  unfold binary_round, shl_align.
  destruct (fexp 24 128 (Zpos (digits2_pos p) + e) - e) as [|k|k] eqn:F.
  - apply aux_valid; [lia|]. unfold shift_of. cbn [Zdigits2]. lia.
  - apply aux_valid; [lia|]. unfold shift_of. cbn [Zdigits2]. lia.
  - apply aux_valid; [lia|]. unfold shift_of. cbn [Zdigits2].
    assert (SP: Zpos (shift_pos k p) = Zpos p * 2 ^ Zpos k) by (rewrite shift_pos_correct, Z.pow_pos_fold; lia).
    rewrite (digits2_shift p (shift_pos k p) (Zpos k) ltac:(lia) SP). unfold fexp, emin in *. lia.
Qed.

Lemma f32_valid x : valid32 (f32_of_f64 x).
Proof. destruct x as [s|s| |s p e]; try exact I. cbn [f32_of_f64]. destruct s; apply round_valid. Qed.

(** The parts of a bit pattern. *)
Lemma bits_parts (s : bool) ex ma : 0 <= ex < 256 -> 0 <= ma < 8388608 ->
  let b := (if s then 2147483648 else 0) + ex * 8388608 + ma in
  0 <= b < 2 ^ 32 /\ Z.testbit b 31 = s /\ (b / 8388608) mod 256 = ex /\ b mod 8388608 = ma.
Proof.
  intros E M b. assert (D: b / 8388608 = (if s then 256 else 0) + ex).
  { symmetry. apply Z.div_unique with (r := ma); [lia|]. unfold b. destruct s; lia. }
  split; [unfold b; destruct s; lia|]. split; [|split].
  - destruct s.
    + apply Z.testbit_true; [lia|]. replace (b / 2 ^ 31) with 1; [reflexivity|]. apply Z.div_unique with (r := b - 2 ^ 31); unfold b; lia.
    + apply Z.testbit_false; [lia|]. rewrite Z.div_small by (unfold b; lia). reflexivity.
  - rewrite D. destruct s; [|apply Z.mod_small; lia]. symmetry. apply Z.mod_unique with (q := 1); lia.
  - symmetry. apply Z.mod_unique with (q := b / 8388608); [lia|]. rewrite D. unfold b. destruct s; lia.
Qed.

Lemma bits_float x : valid32 x -> 0 <= bits_of_f32 x < 2 ^ 32 /\ f32_of_bits (bits_of_f32 x) = x.
Proof.
  intro V. unfold bits_of_f32, f32_of_bits, float_of_bits, bits_of_float.
  change (23 + 8) with 31. change (2 ^ (8 - 1)) with 128. change (2 ^ 31) with 2147483648. change (2 ^ 23) with 8388608. change (2 ^ 8) with 256.
  change (2 ^ (23 - 1)) with 4194304.
  destruct x as [s|s| |s p e].
  - pose proof (bits_parts s 0 0 ltac:(lia) ltac:(lia)) as (R & T & X & M). cbv zeta in *. rewrite Z.mul_0_l, !Z.add_0_r in *.
    split; [auto|]. rewrite T, X, M. reflexivity.
  - pose proof (bits_parts s 255 0 ltac:(lia) ltac:(lia)) as (R & T & X & M). cbv zeta in *. rewrite !Z.add_0_r in *.
    change (256 - 1) with 255. split; [auto|]. rewrite T, X, M. reflexivity.
  - split; [lia|reflexivity].
  - cbn [valid32] in V. change (2 ^ 24) with 16777216 in V. change (2 ^ 23) with 8388608 in V.
    destruct (Z.ltb_spec (Zpos p) 8388608) as [L|L].
    + pose proof (bits_parts s 0 (Zpos p) ltac:(lia) ltac:(lia)) as (R & T & X & M). cbv zeta in *. rewrite Z.mul_0_l, Z.add_0_r in *.
      split; [auto|]. rewrite T, X, M. cbn [Z.eqb]. f_equal. lia.
    + pose proof (bits_parts s (e - (3 - 128 - (23 + 1)) + 1) (Zpos p - 8388608) ltac:(lia) ltac:(lia)) as (R & T & X & M). cbv zeta in *.
      rewrite <- Z.add_assoc in *. split; [auto|]. rewrite T, X, M.
      rewrite (proj2 (Z.eqb_neq _ _)) by lia. rewrite (proj2 (Z.eqb_neq _ _)) by lia.
      replace (Zpos p - 8388608 + 8388608) with (Zpos p) by lia. f_equal. lia.
Qed.

(** ** What the bytes of a sample mean *)

Lemma round_unsigned hi x : 0 <= hi -> unsigned hi x (f_round_unsigned hi x).
Proof.
  intro H. destruct x as [s|s| |s p e]; cbn [unsigned f_round_unsigned]; auto.
  - exists 0. split; [reflexivity|]. unfold limited. destruct (Z.ltb_spec 0 0), (Z.ltb_spec hi 0); lia.
  - set (j := magnitude_round p e).
    assert (J: 0 <= j /\ (let num := Zpos p * 2 ^ Z.max 0 e in let den := 2 ^ Z.max 0 (- e) in 2 * num - den < 2 * j * den <= 2 * num + den)).
    { cbv zeta. unfold j, magnitude_round. destruct (Z.leb_spec 0 e) as [E|E].
      - pose proof (Z.pow_pos_nonneg 2 e ltac:(lia) E). replace (Z.max 0 e) with e by lia. replace (Z.max 0 (- e)) with 0 by lia.
        rewrite Z.pow_0_r. nia.
      - pose proof (Z.pow_pos_nonneg 2 (- e) ltac:(lia) ltac:(lia)) as PP. replace (Z.max 0 e) with 0 by lia. replace (Z.max 0 (- e)) with (- e) by lia.
        replace (1 - e) with (Z.succ (- e)) by lia. rewrite Z.pow_succ_r by lia. rewrite Z.pow_0_r, Z.mul_1_r.
        set (den := 2 ^ (- e)) in *. clearbody den.
        pose proof (Z.div_mod (2 * Zpos p + den) (2 * den) ltac:(lia)). pose proof (Z.mod_pos_bound (2 * Zpos p + den) (2 * den) ltac:(lia)).
        split; [apply Z.div_pos; lia|]. lia. }
    destruct J as (J0 & J). exists (if s then - j else j). split; [exists j; auto|].
    unfold limited, clamp. destruct s.
    + destruct (Z.ltb_spec (- j) 0); [reflexivity|]. destruct (Z.ltb_spec hi (- j)); lia.
    + destruct (Z.ltb_spec j 0); [lia|]. destruct (Z.ltb_spec hi j); lia.
Qed.

Lemma whole_unsigned hi x n : 0 <= hi -> whole x n -> unsigned hi x (limited 0 hi n).
Proof.
  intros H (E & M & F). destruct x as [s|s| |s p e]; try tauto; cbn [unsigned sf_exp sf_mant] in *.
  - rewrite Z.mul_1_r in M. exists n. split; [cbn; lia|reflexivity].
  - exists n. split; [|reflexivity]. cbn [nearest]. exists (Z.abs n).
    replace (Z.max 0 e) with 0 by lia. replace (Z.max 0 (- e)) with (- e) by lia. rewrite Z.pow_0_r, Z.mul_1_r.
    pose proof (Z.pow_pos_nonneg 2 (- e) ltac:(lia) ltac:(lia)) as PP. cbv zeta. set (den := 2 ^ (- e)) in *. clearbody den.
    destruct s; [change (Zneg p) with (- Zpos p) in M|]; (assert (Zpos p = Z.abs n * den) by nia); repeat split; nia.
Qed.

Lemma unscaled_whole sc v : needs_scale sc = false -> - 2 ^ 53 < v < 2 ^ 53 -> whole (physical sc v) v.
Proof.
  intros NS V. destruct (needs_scale_false sc NS) as ((s & Z0) & S1). unfold physical. rewrite Z0, S1.
  replace v with (v * 1 + 0) at 2 by lia. apply whole_mul_add; try lia.
  - apply whole_of_int. lia.
  - apply whole_of_int. lia.
  - unfold whole. cbn. repeat split; lia.
Qed.

Lemma u32_bits n : 0 <= n < 2 ^ 32 -> le_value (le_bytes 4 n) = n.
Proof. intro H. rewrite le_value_bytes. apply Z.mod_small. exact H. Qed.

Lemma f32_sample x : f32_of_bits (le_value (sample_f32 (f32_of_f64 x))) = f32_of_f64 x.
Proof.
  destruct (bits_float (f32_of_f64 x) (f32_valid x)) as (R & E). unfold sample_f32. rewrite u32_bits by auto. exact E.
Qed.

Lemma round_limits hi x : 0 <= hi -> 0 <= f_round_unsigned hi x <= hi.
Proof.
  intro H. destruct x as [s|s| |s p e]; cbn [f_round_unsigned]; try (destruct s; unfold clamp; lia); lia.
Qed.

Lemma sample_means b sc v : in_range b v ->
  octets (image_sample b sc v) /\ len (image_sample b sc v) = depth b /\
  sample_value b sc v (le_value (image_sample b sc v)).
Proof.
  intro R. split; [|split; [apply sample_depth|]].
  - destruct b; cbn [image_sample in_range] in *; unfold sample_i16, sample_i32, sample_i64, sample_f32; try apply le_bytes_octets.
    unfold sample_u8. constructor; [|constructor]. pose proof (round_limits 255 (apply_scale sc v)). unfold is_byte. destruct (needs_scale sc); lia.
  - destruct b; cbn [image_sample in_range sample_value] in *.
    + unfold sample_u8. cbn [le_value]. rewrite Z.mul_0_r, Z.add_0_r. fold (physical sc v).
      destruct (needs_scale sc) eqn:NS.
      * change (apply_scale sc v) with (physical sc v). apply round_unsigned. lia.
      * pose proof (whole_unsigned 255 _ _ ltac:(lia) (unscaled_whole sc v NS ltac:(lia))) as W.
        replace v with (limited 0 255 v) at 2; [exact W|]. unfold limited. destruct (Z.ltb_spec v 0), (Z.ltb_spec 255 v); lia.
    + unfold sample_i16. rewrite le_value_bytes. change (256 ^ Z.of_nat 2) with 65536.
      destruct (needs_scale sc) eqn:NS.
      * change (apply_scale sc v) with (physical sc v). rewrite Z.mod_small; [apply round_unsigned; lia|].
        pose proof (round_limits 65535 (physical sc v)). lia.
      * pose proof (whole_unsigned 65535 _ _ ltac:(lia) (unscaled_whole sc v NS ltac:(lia))) as W.
        rewrite Z.mod_small by (destruct (Z.ltb_spec v 0); lia).
        replace (if v <? 0 then 0 else v) with (limited 0 65535 v); [exact W|].
        unfold limited. destruct (Z.ltb_spec v 0), (Z.ltb_spec 65535 v); lia.
    + apply f32_sample.
    + apply f32_sample.
    + apply u32_bits. exact R.
    + apply f32_sample.
Qed.

(** ** Complete buffers *)

Lemma slice_all (l : list Z) : slice l 0 (len l) = l.
Proof. unfold slice, len. change (Z.to_nat 0) with 0%nat. cbn [skipn]. rewrite Nat2Z.id. apply firstn_all. Qed.

Lemma upto_succ n : 0 <= n -> upto (n + 1) = upto n ++ [n].
Proof.
  intro H. unfold upto. rewrite Z2Nat.inj_add by lia. change (Z.to_nat 1) with 1%nat.
  rewrite seq_app, map_app. cbn [seq map]. do 2 f_equal. lia.
Qed.

Lemma slices_all (g : Z -> list Z) p (l : list Z) : 0 <= p -> forall k, 0 <= k ->
  len l = p * k -> (forall j, 0 <= j < k -> slice l (p * j) p = g j) -> l = flat_map g (upto k).
Proof.
  intros P k K. revert l. pattern k. apply natlike_ind; auto; clear k K.
  - intros l L _. unfold upto. cbn. destruct l; [reflexivity|]. unfold len in L. cbn [length] in L. lia.
  - intros k K IH l L S. rewrite Z.mul_succ_r in L. assert (PK: 0 <= p * k) by nia. rewrite <- Z.add_1_r, upto_succ by auto. rewrite flat_map_app. cbn [flat_map]. rewrite app_nil_r.
    rewrite <- (IH (slice l 0 (p * k))).
    + rewrite <- (S k) by lia. unfold slice. change (Z.to_nat 0) with 0%nat. cbn [skipn].
      rewrite <- (firstn_skipn (Z.to_nat (p * k)) l) at 1. f_equal.
      symmetry. apply firstn_all2. rewrite skipn_length. unfold len in L. lia.
    + unfold slice, len. change (Z.to_nat 0) with 0%nat. cbn [skipn]. rewrite firstn_length. unfold len in L. nia.
    + intros j J. rewrite <- (S j) by lia. unfold slice. change (Z.to_nat 0) with 0%nat. cbn [skipn].
      rewrite skipn_firstn_comm, firstn_firstn. f_equal. nia.
Qed.

Lemma laid_out_all p ch src samples (before after : list Z) n :
  0 < p -> 0 < ch -> 0 <= n -> len before = p * ch * n -> laid_out p ch src samples before after ->
  (forall c i, 0 <= c < ch -> 0 <= i < n -> 0 <= src n c i < len samples) ->
  after = flat_map (fun i => flat_map (fun c => nth (Z.to_nat (src n c i)) samples []) (upto ch)) (upto n).
Proof.
  intros P C N L (LA & S & _) R.
  assert (len before / (p * ch) = n) as DN by (rewrite L, Z.mul_comm; apply Z.div_mul; nia). rewrite DN in S. clear DN.
  apply (slices_all _ (p * ch)); [nia|lia|lia|]. intros i I.
  apply (slices_all _ p); [lia|lia| |].
  { unfold slice, len in *. rewrite firstn_length, skipn_length. nia. }
  intros c CC. specialize (S i c I CC). specialize (R c i CC I).
  destruct (nth_error samples (Z.to_nat (src n c i))) as [v|] eqn:E.
  - rewrite (nth_error_nth _ _ _ E), <- S. unfold slice. rewrite skipn_firstn_comm, firstn_firstn, skipn_skipn.
    replace (Init.Nat.min (Z.to_nat p) (Z.to_nat (p * ch) - Z.to_nat (p * c))) with (Z.to_nat p) by nia.
    f_equal. f_equal. nia.
  - apply nth_error_None in E. unfold len in R. lia.
Qed.

Lemma nth_map_samples (f : Z -> list Z) values j : 0 <= j < len values -> nth (Z.to_nat j) (map f values) [] = f (nth (Z.to_nat j) values 0).
Proof.
  intro J. rewrite (nth_indep _ [] (f 0)); [apply map_nth|]. rewrite map_length. unfold len in J. lia.
Qed.

Lemma image_axes m fuel d dec im : octets d -> decoder_new m fuel (mk_reader d 0) = Some (Ok dec) -> de_kind dec = KImage im ->
  de_bitpix dec = im_bitpix im /\ Forall (fun a => 0 <= a) (im_naxisn im) /\
  ((de_rgb dec = false /\ (im_naxisn im = [de_width dec; de_height dec] \/ im_naxisn im = [de_width dec; de_height dec; 1])) \/
   (de_rgb dec = true /\ im_naxisn im = [de_width dec; de_height dec; 3])).
Proof.
  intros O H K. destruct (decoder_inv m fuel d dec O H) as (f0 & D & P & N & ST & DS).
  destruct (describe_inv _ _ _ _ DS) as (_ & _ & _ & B & extra & A & RG). rewrite K in A, B. cbn [axes_and_bitpix fst snd] in A, B.
  assert (X: h_xt (de_hdu dec) = XtImage im).
  { rewrite K in ST. unfold stops_at in ST. destruct (h_kind (de_hdu dec)), (h_xt (de_hdu dec)) as [im'|t|t]; try discriminate.
    - destruct (hdu_size m (de_hdu dec)) as [n| |]; try discriminate. cbn [bind] in ST. destruct (n =? 0); try discriminate. congruence.
    - destruct (hdu_size m (de_hdu dec)) as [n| |]; try discriminate. cbn [bind] in ST. destruct (n =? 0); try discriminate. congruence.
    - destruct (bt_zimage t); discriminate. }
  destruct (after_next m d f0 _ _ im O D P N X) as (n & _ & _ & _ & _ & (vs & IP) & _).
  apply image_parse_iff in IP as (_ & _ & _ & AX). apply axes_u64 in AX.
  split; [auto|]. split.
  - eapply Forall_impl; [|exact AX]. unfold u64. intros. lia.
  - rewrite A. unfold is_rgb in RG. destruct extra as [|x [|y l]]; try discriminate.
    + injection RG as <-. auto.
    + destruct (Z.eqb_spec x 1) as [->|]; [injection RG as <-; auto|].
      destruct (Z.eqb_spec x 3) as [->|]; [injection RG as <-; auto|discriminate].
Qed.

Lemma image_complete gz m fuel d dec im sc :
  octets d -> decoder_new m fuel (mk_reader d 0) = Some (Ok dec) -> de_kind dec = KImage im -> size_fits im ->
  scaling (h_values (de_hdu dec)) sc ->
  h_offset (de_hdu dec) + width (im_bitpix im) * pixel_count im <= len d ->
  let b := im_bitpix im in let n := de_width dec * de_height dec in
  exists values,
    len values = n * (if de_rgb dec then 3 else 1) /\
    stored d (h_offset (de_hdu dec)) b values /\
    forall buf, len buf = ImageInt.total_bytes dec ->
      read_image gz m fuel dec buf
      = Some (Ok (flat_map (fun i => flat_map (fun c =>
            image_sample b sc (nth (Z.to_nat (place (de_rgb dec) n c i)) values 0))
          (upto (channels b (de_rgb dec)))) (upto n))).
Proof.
  intros O N K SF SC LD b n.
  destruct (image_decoded gz m fuel d dec im sc O N K SF SC) as (values & LV & ST & RD).
  destruct (image_axes m fuel d dec im O N K) as (BP & NN & AX).
  assert (PC: pixel_count im = n * (if de_rgb dec then 3 else 1) /\ 0 <= n).
  { assert (L0: (len (im_naxisn im) =? 0) = false) by (destruct AX as [(_ & [A|A])|(_ & A)]; rewrite A; reflexivity).
    unfold pixel_count, n. rewrite L0. destruct AX as [(R & [A|A])|(R & A)]; rewrite R, A in *; inversion NN as [|x1 l1 W0 NN2 E1]; subst x1 l1;
      inversion NN2 as [|x2 l2 H0 NN3 E2]; subst x2 l2; cbn [product]; (split; [ring|apply Z.mul_nonneg_nonneg; assumption]). }
  destruct PC as (PC & N0).
  assert (LV': len values = n * (if de_rgb dec then 3 else 1)).
  { rewrite LV. pose proof (width_pos b) as W. fold b. assert (pixel_count im <= (len d - h_offset (de_hdu dec)) / width b); [|lia].
    apply Z.div_le_lower_bound; [lia|]. fold b in LD. lia. }
  exists values. split; auto. split; auto. intros buf LB.
  destruct (RD buf) as (after & R & LO). rewrite R. do 2 f_equal. fold b in LO.
  assert (CH: depth b * channels b (de_rgb dec) = bytes_per_pixel (color_type dec)).
  { unfold color_type. rewrite BP. fold b. destruct b, (de_rgb dec); reflexivity. }
  assert (PO: 0 < depth b /\ 0 < channels b (de_rgb dec)) by (destruct b, (de_rgb dec); cbn; lia).
  assert (RG: forall c i, 0 <= c < channels b (de_rgb dec) -> 0 <= i < n -> 0 <= place (de_rgb dec) n c i < len values).
  { intros c i C I. rewrite LV'. unfold place, by_plane, one_plane, channels in *. destruct (de_rgb dec); nia. }
  rewrite (laid_out_all (depth b) (channels b (de_rgb dec)) _ _ _ _ n) with (5 := LO); try lia.
  - apply flat_map_ext_in'. intros i I. apply flat_map_ext_in'. intros c C. apply upto_In in I, C.
    apply nth_map_samples. auto.
  - rewrite LB, CH. unfold ImageInt.total_bytes. fold n. lia.
  - unfold len. rewrite map_length. exact RG.
Qed.

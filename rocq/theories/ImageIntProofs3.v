(** Proofs about the image decoder: the bytes of a sample. *)

From Verif Require Import Base Text Card Reader Header Xtension Bytes Fits ImageIt BinTable Float Tile ImageInt.
From Verif Require Import SpecUtf8 SpecCard SpecHeader SpecXt SpecFits SpecImage SpecImageInt.
From Verif Require Import HeaderProofs BytesProofs.
From Coq Require Import ZifyBool.

(** ** Little-endian bytes *)

Lemma le_value_bytes n : forall z, le_value (le_bytes n z) = z mod 256 ^ Z.of_nat n.
Proof.
  induction n as [|n IH]; intro z; cbn [le_bytes le_value].
  - rewrite Z.pow_0_r, Z.mod_1_r. reflexivity.
  - rewrite IH. rewrite Nat2Z.inj_succ, Z.pow_succ_r by lia.
    rewrite Z.rem_mul_r by (try lia; apply Z.pow_pos_nonneg; lia). lia.
Qed.

Lemma le_bytes_octets n : forall z, octets (le_bytes n z).
Proof.
  induction n as [|n IH]; intro z; cbn [le_bytes]; constructor; [|apply IH].
  pose proof (Z.mod_pos_bound z 256). unfold is_byte. lia.
Qed.

(** ** Integers as f64 *)

Lemma digits2_bounds p : 2 ^ (Zpos (digits2_pos p) - 1) <= Zpos p < 2 ^ Zpos (digits2_pos p).
Proof.
  induction p as [p IH|p IH|]; cbn [digits2_pos]; [| |vm_compute; split; [discriminate|reflexivity]].
  - rewrite Pos2Z.inj_succ. replace (Z.succ (Zpos (digits2_pos p)) - 1) with (Z.succ (Zpos (digits2_pos p) - 1)) by lia.
    rewrite !Z.pow_succ_r by lia. rewrite (Pos2Z.inj_xI p). lia.
  - rewrite Pos2Z.inj_succ. replace (Z.succ (Zpos (digits2_pos p)) - 1) with (Z.succ (Zpos (digits2_pos p) - 1)) by lia.
    rewrite !Z.pow_succ_r by lia. rewrite (Pos2Z.inj_xO p). lia.
Qed.

Lemma digits2_unique p d : 0 < d -> 2 ^ (d - 1) <= Zpos p < 2 ^ d -> Zpos (digits2_pos p) = d.
Proof.
  intros D H. pose proof (digits2_bounds p) as B.
  assert (Zpos (digits2_pos p) - 1 < d) by (apply (Z.pow_lt_mono_r_iff 2); lia).
  assert (d - 1 < Zpos (digits2_pos p)) by (apply (Z.pow_lt_mono_r_iff 2); lia). lia.
Qed.

Lemma digits2_shift p q k : 0 <= k -> Zpos q = Zpos p * 2 ^ k -> Zpos (digits2_pos q) = Zpos (digits2_pos p) + k.
Proof.
  intros K E. pose proof (digits2_bounds p) as B. apply digits2_unique; [lia|]. rewrite E.
  replace (Zpos (digits2_pos p) + k - 1) with (Zpos (digits2_pos p) - 1 + k) by lia.
  rewrite !Z.pow_add_r by lia. pose proof (Z.pow_pos_nonneg 2 k). nia.
Qed.

(** The float of the integer [n > 0], at full precision. *)
Definition full (s : bool) (n : positive) (x : spec_float) : Prop :=
  exists mant e, x = S754_finite s mant e /\ e = Zpos (digits2_pos n) - 53 /\ Zpos mant = Zpos n * 2 ^ (- e).

Lemma shr_1_even m : 0 <= m -> shr_1 {| shr_m := 2 * m; shr_r := false; shr_s := false |} = {| shr_m := m; shr_r := false; shr_s := false |}.
Proof. intro H. destruct m as [|p|p]; [reflexivity| |lia]. reflexivity. Qed.

Lemma shr_exact k : forall m, 0 <= m ->
  iter_pos shr_1 k {| shr_m := m * 2 ^ Zpos k; shr_r := false; shr_s := false |} = {| shr_m := m; shr_r := false; shr_s := false |}.
Proof.
  assert (G: forall k m, 0 <= m ->
    iter_pos shr_1 k {| shr_m := m * 2 ^ Zpos k; shr_r := false; shr_s := false |} = {| shr_m := m; shr_r := false; shr_s := false |}).
  { clear k. induction k as [k IH|k IH|]; intros m M; cbn [iter_pos].
    - replace (m * 2 ^ Zpos (k~1)) with (2 * ((m * 2 ^ Zpos k) * 2 ^ Zpos k)).
      + pose proof (Z.pow_pos_nonneg 2 (Zpos k)). rewrite shr_1_even by nia. rewrite IH by nia. apply IH. auto.
      + replace (Zpos (k~1)) with (1 + (Zpos k + Zpos k)) by lia. rewrite !Z.pow_add_r by lia. lia.
    - replace (m * 2 ^ Zpos (k~0)) with ((m * 2 ^ Zpos k) * 2 ^ Zpos k).
      + pose proof (Z.pow_pos_nonneg 2 (Zpos k)). rewrite IH by nia. apply IH. auto.
      + replace (Zpos (k~0)) with (Zpos k + Zpos k) by lia. rewrite !Z.pow_add_r by lia. lia.
    - change (2 ^ 1) with 2. rewrite Z.mul_comm. apply shr_1_even. auto. }
  exact (G k).
Qed.

Definition exact_record (m : Z) : shr_record := {| shr_m := m; shr_r := false; shr_s := false |}.

Lemma aux_exact s n k q : Zpos n < 2 ^ 53 -> 0 <= k -> 53 <= Zpos (digits2_pos n) + k -> Zpos q = Zpos n * 2 ^ k ->
  full s n (binary_round_aux 53 1024 s (Zpos q) (- k) loc_Exact).
Proof.
  intros N K D Q. pose proof (digits2_bounds n) as BN.
  assert (DN: Zpos (digits2_pos n) <= 53).
  { assert (Zpos (digits2_pos n) - 1 < 53) by (apply (Z.pow_lt_mono_r_iff 2); lia). lia. }
  pose proof (digits2_shift n q k K Q) as DQ.
  set (dn := Zpos (digits2_pos n)) in *. set (j := dn + k - 53).
  assert (FE: fexp 53 1024 (Zpos (digits2_pos q) + - k) = dn - 53).
  { unfold fexp, emin. rewrite DQ. lia. }
  assert (exists mant, Zpos mant = Zpos n * 2 ^ (53 - dn)) as (mant & M).
  { pose proof (Z.pow_pos_nonneg 2 (53 - dn)). destruct (Zpos n * 2 ^ (53 - dn)) as [|p|p] eqn:E; [nia|eauto|nia]. }
  assert (S1: shr_fexp 53 1024 (Zpos q) (- k) loc_Exact = (exact_record (Zpos mant), dn - 53)).
  { unfold shr_fexp. cbn [Zdigits2 shr_record_of_loc]. rewrite FE.
    replace (dn - 53 - - k) with j by lia. unfold shr. fold (exact_record (Zpos q)).
    destruct j as [|jp|jp] eqn:J.
    - replace (Zpos q) with (Zpos mant); [f_equal; lia|]. rewrite M, Q. do 2 f_equal. lia.
    - assert (QM: Zpos q = Zpos mant * 2 ^ Zpos jp).
      { rewrite M, Q, <- Z.mul_assoc, <- Z.pow_add_r by lia. do 2 f_equal. lia. }
      rewrite QM. unfold exact_record. rewrite shr_exact by lia. f_equal. lia.
    - lia. }
  assert (DM: Zpos (digits2_pos mant) = 53).
  { rewrite (digits2_shift n mant (53 - dn)) by lia. unfold dn. lia. }
  assert (S2: shr_fexp 53 1024 (Zpos mant) (dn - 53) loc_Exact = (exact_record (Zpos mant), dn - 53)).
  { unfold shr_fexp. cbn [Zdigits2 shr_record_of_loc].
    replace (fexp 53 1024 (Zpos (digits2_pos mant) + (dn - 53)) - (dn - 53)) with 0; [reflexivity|].
    unfold fexp, emin. rewrite DM. lia. }
  unfold binary_round_aux. rewrite S1. cbn [fst snd exact_record shr_m loc_of_shr_record shr_r shr_s round_nearest_even].
  rewrite S2. cbn [fst snd exact_record shr_m].
  replace (dn - 53 <=? 1024 - 53) with true by lia.
  exists mant, (dn - 53). split; auto. split; auto. rewrite M. do 2 f_equal. lia.
Qed.

Lemma round_exact s n k q : Zpos n < 2 ^ 53 -> 0 <= k -> Zpos q = Zpos n * 2 ^ k -> full s n (binary_round 53 1024 s q (- k)).
Proof.
  intros N K Q. pose proof (digits2_bounds n) as BN.
  assert (DN: Zpos (digits2_pos n) <= 53).
  { assert (Zpos (digits2_pos n) - 1 < 53) by (apply (Z.pow_lt_mono_r_iff 2); lia). lia. }
  pose proof (digits2_shift n q k K Q) as DQ.
  unfold binary_round.
  replace (fexp 53 1024 (Zpos (digits2_pos q) + - k)) with (Zpos (digits2_pos n) - 53) by (unfold fexp, emin; rewrite DQ; lia).
  unfold shl_align. destruct (Zpos (digits2_pos n) - 53 - - k) as [|j|j] eqn:J.
  - apply aux_exact; auto; lia.
  - apply aux_exact; auto; lia.
  - replace (Zpos (digits2_pos n) - 53) with (- (k + Zpos j)) by lia.
    apply aux_exact; auto; try lia.
    rewrite shift_pos_correct, Z.pow_pos_fold.
    rewrite Q, Z.pow_add_r by lia. lia.
Qed.

(** Floats with exponent at most 0 and an integer value. *)
Definition whole (x : spec_float) (n : Z) : Prop :=
  sf_exp x <= 0 /\ sf_mant x = n * 2 ^ (- sf_exp x) /\
  match x with S754_zero _ | S754_finite _ _ _ => True | _ => False end.

Lemma full_whole s n x : Zpos n < 2 ^ 53 -> full s n x -> whole x (if s then - Zpos n else Zpos n) /\ sf_sign x = s.
Proof.
  intros N (mant & e & -> & E & M). pose proof (digits2_bounds n) as BN.
  assert (Zpos (digits2_pos n) - 1 < 53) by (apply (Z.pow_lt_mono_r_iff 2); lia).
  unfold whole. cbn [sf_exp sf_mant sf_sign]. split; auto. split; [lia|]. split; auto.
  destruct s; rewrite ?M; [change (Zneg mant) with (- Zpos mant); rewrite M|]; lia.
Qed.

Lemma whole_normalize n k z : - 2 ^ 53 < n < 2 ^ 53 -> 0 <= k -> whole (binary_normalize 53 1024 (n * 2 ^ k) (- k) z) n.
Proof.
  intros N K. pose proof (Z.pow_pos_nonneg 2 k ltac:(lia) K) as P.
  destruct n as [|n|n].
  - rewrite Z.mul_0_l. cbn. unfold whole. cbn. rewrite Z.mul_0_l. repeat split; lia.
  - destruct (Zpos n * 2 ^ k) as [|q|q] eqn:Q; [nia| |nia]. cbn [binary_normalize].
    apply (full_whole false n). { lia. } apply round_exact; auto; lia.
  - destruct (Zneg n * 2 ^ k) as [|q|q] eqn:Q; [nia|nia|]. cbn [binary_normalize].
    apply (full_whole true n). { lia. } apply round_exact; auto; lia.
Qed.

Lemma whole_of_int n : - 2 ^ 53 < n < 2 ^ 53 -> whole (f64_of_int n) n.
Proof. intro N. unfold f64_of_int. rewrite <- (Z.mul_1_r n) at 1. change 1 with (2 ^ 0) at 1. apply (whole_normalize n 0); lia. Qed.

Lemma whole_is_integer x n : whole x n -> is_integer x n.
Proof.
  destruct x as [s|s| |s mant e]; unfold whole, is_integer; cbn [sf_exp sf_mant]; intros (E & M & F); try tauto.
  - rewrite Z.pow_0_r in M. lia.
  - replace (Z.max 0 e) with 0 by lia. replace (Z.max 0 (- e)) with (- e) by lia. rewrite <- M. destruct s; lia.
Qed.

Lemma whole_mul_add x y z a b c : whole x a -> whole y b -> whole z c -> - 2 ^ 53 < a * b + c < 2 ^ 53 ->
  whole (f64_mul_add x y z) (a * b + c).
Proof.
  intros (EX & MX & FX) (EY & MY & FY) (EZ & MZ & FZ) B.
  assert (G: forall s, whole (binary_normalize 53 1024
     (sf_mant x * sf_mant y * 2 ^ (sf_exp x + sf_exp y - Z.min (sf_exp x + sf_exp y) (sf_exp z))
      + sf_mant z * 2 ^ (sf_exp z - Z.min (sf_exp x + sf_exp y) (sf_exp z))) (Z.min (sf_exp x + sf_exp y) (sf_exp z)) s) (a * b + c)).
  { intro s. set (e := Z.min (sf_exp x + sf_exp y) (sf_exp z)).
    replace (sf_mant x * sf_mant y * 2 ^ (sf_exp x + sf_exp y - e) + sf_mant z * 2 ^ (sf_exp z - e)) with ((a * b + c) * 2 ^ (- e)).
    - replace e with (- - e) at 2 by lia. apply whole_normalize; auto. unfold e. lia.
    - rewrite MX, MY, MZ.
      assert (E1: 2 ^ (- e) = 2 ^ (- sf_exp x) * 2 ^ (- sf_exp y) * 2 ^ (sf_exp x + sf_exp y - e)).
      { rewrite <- !Z.pow_add_r by (unfold e; lia). f_equal. lia. }
      assert (E2: 2 ^ (- e) = 2 ^ (- sf_exp z) * 2 ^ (sf_exp z - e)).
      { rewrite <- !Z.pow_add_r by (unfold e; lia). f_equal. lia. }
      rewrite Z.mul_add_distr_r. rewrite E1 at 1. rewrite E2. ring. }
  destruct x as [sx|sx| |sx mx ex]; try tauto; destruct y as [sy|sy| |sy my ey]; try tauto;
    destruct z as [sz|sz| |sz mz ez]; try tauto; apply G.
Qed.

Lemma clamp_limited lo hi n : lo <= hi -> clamp lo hi n = limited lo hi n.
Proof. intro H. unfold clamp, limited. destruct (Z.ltb_spec n lo), (Z.ltb_spec hi n); lia. Qed.

Lemma round_whole x n hi : 0 <= hi -> whole x n -> f_round_unsigned hi x = limited 0 hi n.
Proof.
  intros H. destruct x as [s|s| |s mant e]; unfold whole; cbn [sf_exp sf_mant f_round_unsigned]; intros (E & M & F); try tauto.
  - rewrite Z.pow_0_r in M. assert (n = 0) as -> by lia. unfold limited. destruct (Z.ltb_spec hi 0); lia || reflexivity.
  - pose proof (Z.pow_pos_nonneg 2 (- e) ltac:(lia) ltac:(lia)) as P. destruct s.
    + assert (n < 0) by nia. unfold limited. rewrite (proj2 (Z.ltb_lt n 0)) by lia. reflexivity.
    + rewrite clamp_limited by auto. f_equal. unfold magnitude_round.
      destruct (Z.leb_spec 0 e).
      * assert (e = 0) as -> by lia. change (- 0) with 0 in M. rewrite Z.pow_0_r in *. lia.
      * rewrite M. replace (1 - e) with (1 + - e) by lia. rewrite Z.pow_add_r by lia. change (2 ^ 1) with 2.
        replace (2 * (n * 2 ^ (- e)) + 2 ^ (- e)) with (2 ^ (- e) + n * (2 * 2 ^ (- e))) by ring.
        rewrite Z.div_add by lia. rewrite Z.div_small by lia. lia.
Qed.

(** ** Decimal numbers of the header *)

Lemma whole_of_dec (neg : bool) n k : 0 <= n < 2 ^ 53 -> 0 <= k ->
  whole (f64_of_dec neg (n * 10 ^ k) (- k)) (if neg then - n else n).
Proof.
  intros N K. pose proof (Z.pow_pos_nonneg 10 k ltac:(lia) K) as P.
  destruct n as [|n|n]; [| |lia].
  { rewrite Z.mul_0_l. cbn. unfold whole. cbn. destruct neg; repeat split; lia. }
  destruct (Zpos n * 10 ^ k) as [|p|p] eqn:EP; [nia| |nia]. unfold f64_of_dec.
  destruct (Z.leb_spec 0 (- k)).
  - assert (k = 0) as -> by lia. rewrite Z.pow_0_r in EP. change (- 0) with 0. rewrite Z.pow_0_r, Z.mul_1_r.
    replace (Zpos p) with (Zpos n) by lia. cbv zeta.
    pose proof (whole_normalize (if neg then - Zpos n else Zpos n) 0 neg) as W.
    rewrite Z.pow_0_r, Z.mul_1_r in W. apply W; destruct neg; lia.
  - rewrite Z.opp_involutive. destruct (10 ^ k) as [|q|q] eqn:Q10; [lia| |lia].
    unfold SFdiv_core_binary. cbn [Zdigits2].
    set (d1 := Zpos (digits2_pos p)). set (d2 := Zpos (digits2_pos q)). rewrite !Z.add_0_r, Z.sub_diag.
    set (e' := Z.min (fexp 53 1024 (d1 - d2)) 0). cbv zeta.
    assert (DN: d1 - d2 <= Zpos (digits2_pos n)).
    { pose proof (digits2_bounds p) as B1. pose proof (digits2_bounds q) as B2. pose proof (digits2_bounds n) as B3.
      fold d1 in B1. fold d2 in B2. assert (d1 - 1 < d2 + Zpos (digits2_pos n)); [|lia].
      apply (Z.pow_lt_mono_r_iff 2); [lia|unfold d2; lia|]. rewrite Z.pow_add_r by (unfold d2; lia). nia. }
    assert (DN1: 0 < d1) by (unfold d1; lia).
    assert (ND: Zpos (digits2_pos n) <= 53).
    { pose proof (digits2_bounds n) as B3. assert (Zpos (digits2_pos n) - 1 < 53) by (apply (Z.pow_lt_mono_r_iff 2); lia). lia. }
    set (j := - e'). assert (J: 0 <= j) by (unfold j, e'; lia).
    assert (JD: 53 <= Zpos (digits2_pos n) + j).
    { unfold j, e', fexp, emin.
      assert (DP: d2 - 1 <= d1).
      { pose proof (digits2_bounds p) as B1. pose proof (digits2_bounds q) as B2. fold d1 in B1. fold d2 in B2.
        apply Z.lt_le_incl. apply (Z.pow_lt_mono_r_iff 2); [lia|lia|]. nia. }
      lia. }
    replace (0 - e') with j by (unfold j; lia).
    assert (ST: match j with Zpos _ => Z.shiftl (Zpos p) j | Z0 => Zpos p | Zneg _ => 0 end = Zpos p * 2 ^ j).
    { destruct j as [|jp|jp] eqn:EJ; [rewrite Z.pow_0_r; lia| |lia]. apply Z.shiftl_mul_pow2. lia. }
    rewrite ST. rewrite <- EP.
    assert (DE: Z.div_eucl (Zpos n * Zpos q * 2 ^ j) (Zpos q) = (Zpos n * 2 ^ j, 0)).
    { pose proof (Z_div_mod (Zpos n * Zpos q * 2 ^ j) (Zpos q) ltac:(lia)) as DM.
      destruct (Z.div_eucl (Zpos n * Zpos q * 2 ^ j) (Zpos q)) as (u, r). destruct DM as (DM & R).
      pose proof (Z.pow_pos_nonneg 2 j ltac:(lia) J) as PJ.
      assert (u = Zpos n * 2 ^ j).
      { apply Z.mul_cancel_l with (p := Zpos q); [lia|]. assert ((Zpos n * 2 ^ j - u) * Zpos q = r) by nia.
        assert (Zpos n * 2 ^ j - u = 0) by nia. nia. }
      subst u. f_equal. nia. }
    rewrite DE. replace (new_location (Zpos q) 0) with loc_Exact.
    2: { unfold new_location, new_location_even, new_location_odd. destruct (Z.even (Zpos q)); reflexivity. }
    pose proof (Z.pow_pos_nonneg 2 j ltac:(lia) J) as PJ.
    destruct (Zpos n * 2 ^ j) as [|u|u] eqn:EU; [nia| |nia].
    replace e' with (- j) by (unfold j; lia).
    apply (full_whole neg n). { lia. } apply aux_exact; auto; lia.
Qed.

(** ** Samples *)

Lemma needs_scale_false sc : needs_scale sc = false -> (exists s, sc_zero sc = S754_zero s) /\ sc_scale sc = f64_of_int 1.
Proof.
  unfold needs_scale. intro H. apply negb_false_iff, andb_true_iff in H as (Z & S). split.
  - destruct (sc_zero sc) as [s|s| |s p e]; cbn in Z; try discriminate; eauto; destruct s; discriminate.
  - unfold default_scale, sc_scale in S. destruct sc as [z s]. cbn [sc_scale]. revert S. unfold SFeqb.
    replace (f64_of_int 1) with (S754_finite false 4503599627370496 (-52)) by reflexivity.
    destruct s as [b|b| |b p e]; cbn [SFcompare]; try (destruct b; discriminate); try discriminate.
    destruct b; [discriminate|].
    destruct (Z.compare e (-52)) eqn:CE; try discriminate. apply Z.compare_eq in CE as ->.
    destruct (Pos.compare_cont Eq p 4503599627370496) eqn:CP; try discriminate.
    apply Pos.compare_eq in CP as ->. reflexivity.
Qed.

(** Integer BSCALE and BZERO, without rounding. *)
Lemma integer_samples sc v a z :
  whole (sc_scale sc) a -> whole (sc_zero sc) z -> - 2 ^ 53 < v < 2 ^ 53 -> - 2 ^ 53 < v * a + z < 2 ^ 53 ->
  (0 <= v < 256 -> sample_u8 sc v = [limited 0 255 (v * a + z)]) /\
  (v < 2 ^ 15 -> le_value (sample_i16 sc v) = limited 0 65535 (v * a + z)).
Proof.
  intros WA WZ V B.
  assert (G: forall hi, 0 <= hi -> f_round_unsigned hi (apply_scale sc v) = limited 0 hi (v * a + z)).
  { intros hi H. unfold apply_scale. apply round_whole; auto. apply whole_mul_add; auto. apply whole_of_int. auto. }
  assert (N: needs_scale sc = false -> v * a + z = v).
  { intro NS. destruct (needs_scale_false sc NS) as ((s & Z0) & S1). rewrite Z0 in WZ. rewrite S1 in WA.
    destruct WZ as (_ & MZ & _). cbn in MZ. assert (z = 0) as -> by lia.
    replace (f64_of_int 1) with (S754_finite false 4503599627370496 (-52)) in WA by reflexivity.
    destruct WA as (_ & MA & _). cbn [sf_mant sf_exp] in MA.
    change (2 ^ (- (-52))) with 4503599627370496 in MA. assert (a = 1) as -> by lia. lia. }
  split; intro R.
  - unfold sample_u8. destruct (needs_scale sc) eqn:NS; [rewrite G by lia; reflexivity|].
    rewrite N by auto. unfold limited. destruct (Z.ltb_spec v 0), (Z.ltb_spec 255 v); try lia. reflexivity.
  - unfold sample_i16. rewrite le_value_bytes. change (256 ^ Z.of_nat 2) with 65536.
    assert (LM: forall n, limited 0 65535 n mod 65536 = limited 0 65535 n).
    { intro n. apply Z.mod_small. unfold limited. destruct (Z.ltb_spec n 0), (Z.ltb_spec 65535 n); lia. }
    destruct (needs_scale sc) eqn:NS; [rewrite G by lia; apply LM|].
    rewrite N by auto. rewrite <- LM. f_equal. unfold limited. destruct (Z.ltb_spec v 0), (Z.ltb_spec 65535 v); lia.
Qed.

Lemma whole_of_fval f n : denotes f n -> - 2 ^ 53 < n < 2 ^ 53 -> whole (f64_of_fval f) n.
Proof.
  destruct f as [neg mant e|neg|]; cbn [denotes f64_of_fval]; try tauto. intros (M & E) N.
  destruct (Z.le_gt_cases 0 e) as [P|P].
  - replace (Z.max 0 e) with e in E by lia. replace (Z.max 0 (- e)) with 0 in E by lia. rewrite Z.pow_0_r, Z.mul_1_r in E.
    pose proof (Z.pow_pos_nonneg 10 e ltac:(lia) P) as PE.
    unfold f64_of_dec. destruct mant as [|p|p]; [| |lia].
    + unfold whole. cbn. rewrite Z.mul_1_r. destruct neg; repeat split; lia.
    + rewrite (proj2 (Z.leb_le 0 e) P). cbv zeta.
      pose proof (whole_normalize n 0 neg N ltac:(lia)) as W. rewrite Z.pow_0_r, Z.mul_1_r in W.
      replace (if neg then - (Zpos p * 10 ^ e) else Zpos p * 10 ^ e) with n by (destruct neg; lia). exact W.
  - replace (Z.max 0 e) with 0 in E by lia. replace (Z.max 0 (- e)) with (- e) in E by lia. rewrite Z.pow_0_r, Z.mul_1_r in E.
    pose proof (Z.pow_pos_nonneg 10 (- e) ltac:(lia) ltac:(lia)) as PE.
    assert (MA: mant = Z.abs n * 10 ^ (- e)) by (destruct neg; nia).
    replace e with (- - e) by lia. rewrite MA.
    assert (S: n = if neg then - Z.abs n else Z.abs n) by (destruct neg; nia).
    pose proof (whole_of_dec neg (Z.abs n) (- e) ltac:(lia) ltac:(lia)) as W. rewrite <- S in W. exact W.
Qed.

Lemma whole_of_keyword vs k dflt n x :
  keyword_integer vs k dflt n -> keyword_float vs k (f64_of_int dflt) x -> - 2 ^ 53 < n < 2 ^ 53 -> whole x n.
Proof.
  unfold keyword_integer, keyword_float. intros I F N. destruct (get vs k) as [[i c|b c|f c|s c| |s]|]; try tauto.
  - subst x n. apply (whole_of_fval (FDec (i <? 0) (Z.abs i) 0)); auto. cbn [denotes].
    change (Z.max 0 0) with 0. change (Z.max 0 (- 0)) with 0. rewrite Z.pow_0_r. split; [lia|]. destruct (Z.ltb_spec i 0); lia.
  - subst. apply whole_of_fval; auto.
  - subst. apply whole_of_int. auto.
Qed.

Lemma scaled_samples vs sc a z v :
  scaling vs sc -> keyword_integer vs (chars "BSCALE") 1 a -> keyword_integer vs (chars "BZERO") 0 z ->
  - 2 ^ 53 < a < 2 ^ 53 -> - 2 ^ 53 < z < 2 ^ 53 -> - 2 ^ 53 < v * a + z < 2 ^ 53 ->
  (in_range BU8 v -> le_value (image_sample BU8 sc v) = limited 0 255 (v * a + z)) /\
  (in_range BI16 v -> le_value (image_sample BI16 sc v) = limited 0 65535 (v * a + z)).
Proof.
  intros (SZ & SS) KA KZ A Z B.
  assert (WA: whole (sc_scale sc) a) by (eapply whole_of_keyword; eauto).
  assert (WZ: whole (sc_zero sc) z) by (eapply whole_of_keyword; eauto).
  cbn [in_range image_sample]. split; intro R.
  - destruct (integer_samples sc v a z WA WZ ltac:(lia) B) as (U & _). rewrite U by auto. cbn [le_value]. lia.
  - destruct (integer_samples sc v a z WA WZ ltac:(lia) B) as (_ & U). apply U. lia.
Qed.

(** ** Bit patterns *)

Lemma float_bits b : 0 <= b < 2 ^ 32 -> f32_of_bits b <> S754_nan -> bits_of_f32 (f32_of_bits b) = b.
Proof.
  intros B NN. unfold f32_of_bits, bits_of_f32, float_of_bits in *.
  assert (TB: Z.testbit b (23 + 8) = (2 ^ 31 <=? b)).
  { destruct (Z.leb_spec (2 ^ 31) b).
    - apply Z.testbit_true; [lia|]. change (23 + 8) with 31. replace (b / 2 ^ 31) with 1; [reflexivity|].
      apply Z.div_unique with (r := b - 2 ^ 31); lia.
    - apply Z.testbit_false; [lia|]. change (23 + 8) with 31. rewrite Z.div_small by lia. reflexivity. }
  rewrite TB in *. set (s := 2 ^ 31 <=? b) in *. clear TB.
  set (ex := (b / 2 ^ 23) mod 2 ^ 8) in *. set (ma := b mod 2 ^ 23) in *. cbv zeta in *.
  assert (D: b = (if s then 2 ^ 31 else 0) + ex * 2 ^ 23 + ma /\ 0 <= ex < 2 ^ 8 /\ 0 <= ma < 2 ^ 23).
  { pose proof (Z.mod_pos_bound (b / 2 ^ 23) (2 ^ 8) ltac:(lia)). pose proof (Z.mod_pos_bound b (2 ^ 23) ltac:(lia)).
    split; [|unfold ex, ma; auto]. pose proof (Z.div_mod b (2 ^ 23) ltac:(lia)) as D1.
    pose proof (Z.div_mod (b / 2 ^ 23) (2 ^ 8) ltac:(lia)) as D2. fold ex in D2. fold ma in D1.
    unfold s. rewrite Z.div_div in D2 by lia. change (2 ^ 23 * 2 ^ 8) with (2 ^ 31) in D2.
    destruct (Z.leb_spec (2 ^ 31) b).
    - replace (b / 2 ^ 31) with 1 in D2; [lia|]. apply Z.div_unique with (r := b - 2 ^ 31); lia.
    - rewrite (Z.div_small b (2 ^ 31)) in D2 by lia. lia. }
  destruct D as (D & EX & MA). clearbody s ex ma.
  unfold bits_of_float. change (23 + 8) with 31. change (2 ^ (8 - 1)) with 128 in *.
  change (2 ^ 31) with 2147483648 in *. change (2 ^ 23) with 8388608 in *. change (2 ^ 8) with 256 in *.
  destruct (Z.eqb_spec ex 0) as [->|E0].
  - destruct ma as [|p|p]; [| |lia].
    + destruct s; lia.
    + rewrite (proj2 (Z.ltb_lt (Zpos p) 8388608)) by lia. lia.
  - destruct (Z.eqb_spec ex (256 - 1)) as [->|E1].
    + destruct (Z.eqb_spec ma 0) as [M0|]; [|congruence]. destruct s; lia.
    + destruct (ma + 8388608) as [|p|p] eqn:P; [lia| |lia].
      rewrite (proj2 (Z.ltb_ge (Zpos p) 8388608)) by lia.
      replace (ex - 1 + (3 - 128 - (23 + 1)) - (3 - 128 - (23 + 1)) + 1) with ex by lia. lia.
Qed.

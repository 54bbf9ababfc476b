(** Real values of the floats read from files: bit patterns, pixels of tiles, scaled samples. *)

From Coq Require Import Reals Lra Psatz.
From Verif Require Import Base Text Float SpecReal FloatProofs.
From Flocq Require Import Core Operations BinarySingleNaN.
Open Scope R_scope.

(** ** Overflow *)

Lemma rnd_bounded prec emax (Hp : Prec_gt_0 prec) k r :
  (3 - emax - prec < k)%Z -> Rabs r <= bpow radix2 k -> Rabs (rnd prec emax r) <= bpow radix2 k.
Proof.
  intros K B. unfold rnd. apply abs_round_le_generic; auto; try typeclasses eauto.
  apply generic_format_FLT_bpow; auto. lia.
Qed.

Lemma fits_bound prec emax (Hp : Prec_gt_0 prec) k r :
  (3 - emax - prec < k < emax)%Z -> Rabs r <= bpow radix2 k -> fits prec emax r.
Proof.
  intros K B. unfold fits. apply Rle_lt_trans with (bpow radix2 k).
  - apply rnd_bounded; auto; lia.
  - apply bpow_lt. lia.
Qed.

(** ** Bit patterns *)

Lemma digits_of (p : positive) k : (0 < k -> 2 ^ (k - 1) <= Z.pos p < 2 ^ k -> Z.pos (digits2_pos p) = k)%Z.
Proof.
  intros K B. rewrite Digits.Zpos_digits2_pos. apply Zdigits_unique.
  simpl Z.abs. exact B.
Qed.
Lemma digits_le (p : positive) k : (0 <= k -> Z.pos p < 2 ^ k -> Z.pos (digits2_pos p) <= k)%Z.
Proof.
  intros K B. rewrite Digits.Zpos_digits2_pos. apply Zdigits_le_Zpower. rewrite Z.abs_eq by lia. exact B.
Qed.

Lemma pattern_parts (mw ew : Z) (neg : bool) (ex ma : Z) (b : Z) :
  (0 <= mw)%Z -> (0 <= ew)%Z -> (0 <= ex < 2 ^ ew)%Z -> (0 <= ma < 2 ^ mw)%Z ->
  b = ((if neg then 2 ^ (mw + ew) else 0) + ex * 2 ^ mw + ma)%Z ->
  Z.testbit b (mw + ew) = neg /\ ((b / 2 ^ mw) mod 2 ^ ew)%Z = ex /\ (b mod 2 ^ mw)%Z = ma.
Proof.
  intros M E X A ->.
  assert (P1 : (0 < 2 ^ mw)%Z) by (apply Z.pow_pos_nonneg; lia).
  assert (P2 : (0 < 2 ^ ew)%Z) by (apply Z.pow_pos_nonneg; lia).
  assert (S : ((if neg then 2 ^ (mw + ew) else 0) = Z.b2z neg * 2 ^ ew * 2 ^ mw)%Z).
  { rewrite Z.pow_add_r by lia. destruct neg; simpl Z.b2z; ring. }
  rewrite S.
  assert (D : ((Z.b2z neg * 2 ^ ew * 2 ^ mw + ex * 2 ^ mw + ma) / 2 ^ mw = Z.b2z neg * 2 ^ ew + ex)%Z).
  { replace (Z.b2z neg * 2 ^ ew * 2 ^ mw + ex * 2 ^ mw + ma)%Z with ((Z.b2z neg * 2 ^ ew + ex) * 2 ^ mw + ma)%Z by ring.
    rewrite Z.div_add_l by lia. rewrite (Z.div_small ma) by lia. lia. }
  split; [|split].
  - rewrite Z.testbit_spec' || idtac.
    replace (mw + ew)%Z with (ew + mw)%Z by lia.
    rewrite <- (Z.div_pow2_bits _ mw ew) by lia. rewrite D.
    rewrite <- (Z.add_0_l ew) at 2. rewrite <- (Z.div_pow2_bits _ ew 0) by lia.
    rewrite Z.div_add_l by lia. rewrite (Z.div_small ex) by lia. rewrite Z.add_0_r.
    apply Z.b2z_bit0.
  - rewrite D. rewrite Z.add_comm, Z.mod_add by lia. apply Z.mod_small; lia.
  - replace (Z.b2z neg * 2 ^ ew * 2 ^ mw + ex * 2 ^ mw + ma)%Z with (ma + (Z.b2z neg * 2 ^ ew + ex) * 2 ^ mw)%Z by ring.
    rewrite Z.mod_add by lia. apply Z.mod_small; lia.
Qed.

Lemma sign_value neg p e : SF2R radix2 (S754_finite neg p e) = sign_of neg * (IZR (Zpos p) * bpow radix2 e).
Proof. simpl. unfold F2R, sign_of. simpl. destruct neg; simpl; [rewrite <- (opp_IZR (Zpos p)) || idtac|]; try ring.
  change (IZR (Zneg p)) with (IZR (- Zpos p)). rewrite opp_IZR. ring. Qed.

Lemma bits_number mw ew b r : (1 <= mw)%Z -> (2 <= ew)%Z -> pattern mw ew b r ->
  number (mw + 1) (2 ^ (ew - 1)) (float_of_bits mw ew b) r.
Proof.
  intros M W (neg & ex & ma & X & A & B & R).
  destruct (pattern_parts mw ew neg ex ma b) as (P1 & P2 & P3); try lia.
  unfold float_of_bits. rewrite P1, P2, P3. clear P1 P2 P3 B.
  assert (Q : (2 <= 2 ^ (ew - 1))%Z).
  { replace (ew - 1)%Z with (1 + (ew - 2))%Z by lia. rewrite Z.pow_add_r by lia.
    assert (0 < 2 ^ (ew - 2))%Z by (apply Z.pow_pos_nonneg; lia). lia. }
  assert (Q2 : (2 ^ ew = 2 * 2 ^ (ew - 1))%Z).
  { replace ew with (1 + (ew - 1))%Z at 1 by lia. rewrite Z.pow_add_r by lia. reflexivity. }
  set (E := (2 ^ (ew - 1))%Z) in *. set (D := (2 ^ mw)%Z) in *.
  destruct (Z.eqb_spec ex 0) as [X0|X0].
  - destruct ma as [|p|p]; [| |lia].
    + unfold number. simpl. repeat split. rewrite R. ring.
    + unfold number. split; [|split; [reflexivity|]].
      * simpl. unfold bounded, canonical_mantissa, SpecFloat.fexp, SpecFloat.emin.
        pose proof (digits_le p mw ltac:(lia) ltac:(fold D; lia)).
        apply andb_true_intro. split; [apply Zeq_is_eq_bool; lia|apply Zle_imp_le_bool; lia].
      * rewrite sign_value, R. do 3 f_equal. lia.
  - destruct (Z.eqb_spec ex (2 ^ ew - 1)) as [X1|X1]; [lia|].
    destruct (ma + D)%Z as [|p|p] eqn:PP; [lia| |lia].
    unfold number. split; [|split; [reflexivity|]].
    + simpl. unfold bounded, canonical_mantissa, SpecFloat.fexp, SpecFloat.emin.
      assert (Dg : Z.pos (digits2_pos p) = (mw + 1)%Z).
      { apply digits_of; [lia|]. replace (mw + 1 - 1)%Z with mw by lia. rewrite Z.pow_add_r by lia. fold D. lia. }
      rewrite Dg.
      apply andb_true_intro. split; [apply Zeq_is_eq_bool; lia|apply Zle_imp_le_bool; lia].
    + rewrite sign_value, R. apply (f_equal2 Rmult); [reflexivity|]. rewrite <- PP. apply (f_equal2 Rmult); [apply f_equal; lia|apply f_equal; lia].
Qed.

(** Every pattern that is not one of a number is that of an infinity or of a NaN. *)
Lemma bits_cases mw ew b : (1 <= mw)%Z -> (2 <= ew)%Z -> (0 <= b < 2 ^ (mw + ew + 1))%Z ->
  (exists r, pattern mw ew b r) \/ float_of_bits mw ew b = S754_nan \/ exists s, float_of_bits mw ew b = S754_infinity s.
Proof.
  intros M W B.
  assert (P1 : (0 < 2 ^ mw)%Z) by (apply Z.pow_pos_nonneg; lia).
  assert (P2 : (0 < 2 ^ ew)%Z) by (apply Z.pow_pos_nonneg; lia).
  set (ex := ((b / 2 ^ mw) mod 2 ^ ew)%Z). set (ma := (b mod 2 ^ mw)%Z). set (q := (b / 2 ^ mw / 2 ^ ew)%Z).
  pose proof (Z.mod_pos_bound (b / 2 ^ mw) (2 ^ ew) P2) as X. fold ex in X.
  pose proof (Z.mod_pos_bound b (2 ^ mw) P1) as A. fold ma in A.
  destruct (Z.eq_dec ex (2 ^ ew - 1)) as [E|E].
  - right. unfold float_of_bits. fold ex ma.
    replace (ex =? 0)%Z with false.
    2: { assert (2 ^ ew = 2 * 2 ^ (ew - 1))%Z by (replace ew with (1 + (ew - 1))%Z at 1 by lia; rewrite Z.pow_add_r by lia; reflexivity).
         assert (0 < 2 ^ (ew - 1))%Z by (apply Z.pow_pos_nonneg; lia). lia. }
    replace (ex =? 2 ^ ew - 1)%Z with true by lia.
    destruct (ma =? 0)%Z; [right; eexists; reflexivity|left; reflexivity].
  - left. eexists. exists (q =? 1)%Z, ex, ma. split; [lia|]. split; [lia|]. split; [|reflexivity].
    pose proof (Z.div_mod b (2 ^ mw) ltac:(lia)) as D1. fold ma in D1.
    pose proof (Z.div_mod (b / 2 ^ mw) (2 ^ ew) ltac:(lia)) as D2. fold ex q in D2.
    assert (Q : (0 <= q < 2)%Z).
    { unfold q. rewrite Z.div_div by lia. rewrite <- Z.pow_add_r by lia. split; [apply Z.div_pos; [lia|apply Z.pow_pos_nonneg; lia]|].
      apply Z.div_lt_upper_bound; [apply Z.pow_pos_nonneg; lia|].
      rewrite (Z.pow_add_r 2 (mw + ew) 1) in B by lia. lia. }
    rewrite Z.pow_add_r by lia.
    assert (q = 0 \/ q = 1)%Z as [-> | ->] by lia; simpl; rewrite D1, D2; ring.
Qed.

(** ** Conversions *)

Lemma f32_of_f64_rounded x r : number 53 1024 x r -> rounded 24 128 r (sign_SF x) (f32_of_f64 x).
Proof.
  intros [V [F <-]]. destruct x as [s|s| |s p e]; try discriminate.
  - simpl. split; intro H.
    + unfold rnd. rewrite round_0 by typeclasses eauto. repeat split; auto.
    + exfalso. unfold rnd in H. rewrite round_0 in H by typeclasses eauto. rewrite Rabs_R0 in H.
      pose proof (bpow_gt_0 radix2 128). lra.
  - unfold f32_of_f64. pose proof (normalize_rounded 24 128 eq_refl eq_refl (if s then Zneg p else Zpos p) e s) as N.
    simpl sign_SF. destruct s; exact N.
Qed.

Lemma f32_int v : (Z.abs v <= 2 ^ 63)%Z -> number 24 128 (f32_of_int v) (rnd 24 128 (IZR v)).
Proof.
  intro B. destruct (int_rounded 24 128 eq_refl eq_refl v) as [H _]. apply H.
  apply (fits_bound 24 128 eq_refl 63); [lia|]. rewrite <- abs_IZR. change (bpow radix2 63) with (IZR (2 ^ 63)). apply IZR_le, B.
Qed.
Lemma f64_int v : (Z.abs v <= 2 ^ 63)%Z -> number 53 1024 (f64_of_int v) (rnd 53 1024 (IZR v)).
Proof.
  intro B. destruct (int_rounded 53 1024 eq_refl eq_refl v) as [H _]. apply H.
  apply (fits_bound 53 1024 eq_refl 63); [lia|]. rewrite <- abs_IZR. change (bpow radix2 63) with (IZR (2 ^ 63)). apply IZR_le, B.
Qed.
(** Integers with no more bits than the format are exact. *)
Lemma rnd_int prec emax (Hp : Prec_gt_0 prec) v : (3 - emax - prec <= 0)%Z -> (Z.abs v <= 2 ^ prec)%Z -> rnd prec emax (IZR v) = IZR v.
Proof.
  intros E B. unfold Prec_gt_0 in Hp. unfold rnd. apply round_generic; [typeclasses eauto|].
  destruct (Z.eq_dec (Z.abs v) (2 ^ prec)) as [A|A].
  - assert (G : generic_format radix2 (FLT_exp (3 - emax - prec) prec) (bpow radix2 prec)) by (apply generic_format_FLT_bpow; auto; lia).
    rewrite <- IZR_Zpower in G by lia. change (radix2 ^ prec)%Z with (2 ^ prec)%Z in G. rewrite <- A in G.
    destruct (Z.abs_eq_or_opp v) as [O|O]; rewrite O in G; [exact G|].
    rewrite <- (Z.opp_involutive v), opp_IZR. apply generic_format_opp, G.
  - apply generic_format_FLT. exists (Float radix2 v 0).
    + unfold F2R. simpl. ring.
    + simpl. change (Z.pow_pos 2) with (fun p => 2 ^ Zpos p)%Z. lia.
    + simpl. lia.
Qed.

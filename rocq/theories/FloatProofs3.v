(** Pixels of tiles and scaled samples in real numbers. *)

From Coq Require Import Reals Lra Psatz.
From Verif Require Import Base Text Float Tile ImageInt SpecTile SpecImageInt SpecReal TileProofs4 TileProofs5 FloatProofs FloatProofs2.
From Flocq Require Import Core Operations Relative BinarySingleNaN.
Open Scope R_scope.

Notation n32 := (rnd 24 128).
Notation n64 := (rnd 53 1024).

(** ** Rounding errors *)

Lemma rnd_error r : Rabs (n32 r - r) <= bpow radix2 (-24) * Rabs r + bpow radix2 (-150).
Proof.
  destruct (error_N_FLT radix2 (3 - 128 - 24) 24 eq_refl (fun x => negb (Z.even x)) r) as (eps & eta & H1 & H2 & _ & H4).
  unfold rnd. rewrite H4. replace (r * (1 + eps) + eta - r) with (eps * r + eta) by ring.
  eapply Rle_trans; [apply Rabs_triang|]. rewrite Rabs_mult.
  apply Rplus_le_compat.
  - apply Rmult_le_compat_r; [apply Rabs_pos|]. eapply Rle_trans; [exact H1|].
    apply Req_le. change (/ 2) with (bpow radix2 (-1)). rewrite <- bpow_plus. reflexivity.
  - eapply Rle_trans; [exact H2|]. apply Req_le. change (/ 2) with (bpow radix2 (-1)). rewrite <- bpow_plus. reflexivity.
Qed.
Lemma rnd_int_error v : Rabs (n32 (IZR v) - IZR v) <= bpow radix2 (-24) * Rabs (IZR v).
Proof.
  destruct (Z.eq_dec v 0) as [->|N].
  - unfold rnd. rewrite round_0 by typeclasses eauto. rewrite Rminus_0_r, Rabs_R0. lra.
  - pose proof (relative_error_N_FLT radix2 (3 - 128 - 24) 24 eq_refl (fun x => negb (Z.even x)) (IZR v)) as H.
    unfold rnd. eapply Rle_trans; [apply H|].
    + apply Rle_trans with 1; [|rewrite <- abs_IZR; apply IZR_le; lia].
      change 1 with (bpow radix2 0). apply bpow_le. lia.
    + apply Rmult_le_compat_r; [apply Rabs_pos|]. apply Req_le. change (/ 2) with (bpow radix2 (-1)). rewrite <- bpow_plus. reflexivity.
Qed.

(** ** The table of random numbers *)

Lemma entry_exponent mant e s : (e <= 0 -> 2 ^ 23 <= mant < 2 ^ 24 -> 0 <= s < 2 ^ 31 - 1 ->
  2 * Z.abs (mant * (2 ^ 31 - 1) - s * 2 ^ (- e)) <= 2 ^ 31 - 1 -> (-60 < e <= -23) /\ mant <= 2 ^ (- e))%Z.
Proof.
  intros E M S B.
  assert (P : (0 < 2 ^ (- e))%Z) by (apply Z.pow_pos_nonneg; lia).
  assert (S0 : (0 < s)%Z) by (destruct (Z.eq_dec s 0); [subst s; lia|lia]).
  set (q := (2 ^ (- e))%Z) in *.
  assert (U : (mant <= q)%Z) by nia.
  assert (L : (q < 2 ^ 60)%Z) by nia.
  split; [split|exact U].
  - apply Z.nle_gt. intro H. assert (2 ^ 60 <= q)%Z by (apply Z.pow_le_mono_r; lia). lia.
  - apply Z.nlt_ge. intro H. assert (q <= 2 ^ 22)%Z by (apply Z.pow_le_mono_r; lia). lia.
Qed.

Lemma random_number k : (0 <= k < 10000)%Z -> exists r,
  number 24 128 (random k) r /\ 0 < r <= 1 /\ Rabs (r - IZR (seed k) / IZR (2 ^ 31 - 1)) <= bpow radix2 (-24).
Proof.
  intro K. destruct (random_value k K) as (x & I & mant & e & -> & E & M & B).
  rewrite (random_at k K) in I. injection I as ->.
  pose proof (Z.mod_pos_bound (16807 ^ (k + 1)) (2 ^ 31 - 1) eq_refl) as S. fold (seed k) in S.
  set (s := seed k) in *. clearbody s.
  destruct (entry_exponent (Zpos mant) e s E M S B) as [X U].
  assert (Q : bpow radix2 e = / IZR (2 ^ (- e))).
  { replace e with (- - e)%Z at 1 by lia. rewrite bpow_opp. f_equal. rewrite <- IZR_Zpower by lia. reflexivity. }
  assert (P : 1 <= IZR (2 ^ (- e))). { apply IZR_le. assert (0 < 2 ^ (- e))%Z by (apply Z.pow_pos_nonneg; lia). lia. }
  exists (IZR (Zpos mant) * bpow radix2 e). split; [split; [|split; [reflexivity|]]|split].
  - simpl. unfold bounded, canonical_mantissa, SpecFloat.fexp, SpecFloat.emin.
    rewrite (digits_of mant 24) by (simpl Z.sub; lia).
    apply andb_true_intro. split; [apply Zeq_is_eq_bool; lia|apply Zle_imp_le_bool; lia].
  - rewrite sign_value. unfold sign_of. ring.
  - rewrite Q. split.
    + apply Rmult_lt_0_compat; [apply IZR_lt; lia|apply Rinv_0_lt_compat; lra].
    + apply Rmult_le_reg_r with (IZR (2 ^ (- e))); [lra|]. rewrite Rmult_assoc, Rinv_l by lra. rewrite Rmult_1_l, Rmult_1_r. apply IZR_le, U.
  - assert (B0 : 0 < IZR (2 ^ 31 - 1)) by (apply IZR_lt; lia).
    set (b := (2 ^ 31 - 1)%Z) in *. clearbody b.
    assert (D : IZR (Z.pos mant) * bpow radix2 e - IZR s / IZR b =
                IZR (Z.pos mant * b - s * 2 ^ (- e)) * (bpow radix2 e / IZR b)).
    { rewrite Q, minus_IZR, !mult_IZR. field. split; lra. }
    rewrite D, Rabs_mult, <- abs_IZR.
    assert (W : 0 < bpow radix2 e / IZR b) by (apply Rdiv_lt_0_compat; [apply bpow_gt_0|lra]).
    rewrite (Rabs_pos_eq (_ / _)) by lra.
    apply Rle_trans with (IZR b / 2 * (bpow radix2 e / IZR b)).
    + apply Rmult_le_compat_r; [lra|]. apply (IZR_le _ _) in B. rewrite mult_IZR in B. lra.
    + replace (IZR b / 2 * (bpow radix2 e / IZR b)) with (bpow radix2 (-1) * bpow radix2 e) by (change (bpow radix2 (-1)) with (/2); field; lra).
      rewrite <- bpow_plus. apply bpow_le. lia.
Qed.

(** ** Pixels *)

Lemma half_number : number 24 128 half (/ 2).
Proof. split; [reflexivity|]. split; [reflexivity|]. unfold half. rewrite sign_value. unfold sign_of. simpl. lra. Qed.

Lemma scaled_pixel x a scale zero s z :
  number 24 128 x a -> number 24 128 scale s -> number 24 128 zero z ->
  fits 24 128 (a * s) -> fits 24 128 (n32 (a * s) + z) ->
  number 24 128 (f32_add (f32_mul x scale) zero) (n32 (n32 (a * s) + z)).
Proof.
  intros X S Z F1 F2. apply (add_number 24 128 eq_refl eq_refl); auto. apply (mul_number 24 128 eq_refl eq_refl); auto.
Qed.

Lemma int32_bound v : (- 2 ^ 31 <= v < 2 ^ 31)%Z -> Rabs (n32 (IZR v)) <= bpow radix2 31.
Proof.
  intro B. apply rnd_bounded; [reflexivity|lia|]. rewrite <- abs_IZR. change (bpow radix2 31) with (IZR (2 ^ 31)). apply IZR_le. lia.
Qed.

Lemma dither_pixel v r rr : (- 2 ^ 31 <= v < 2 ^ 31)%Z -> number 24 128 r rr -> 0 < rr <= 1 ->
  number 24 128 (f32_add (f32_sub (f32_of_int v) r) half) (n32 (n32 (n32 (IZR v) - rr) + / 2)).
Proof.
  intros B R RR.
  pose proof (int32_bound v B) as I. apply Rabs_le_inv in I.
  assert (I2 : Rabs (n32 (IZR v) - rr) <= bpow radix2 32).
  { apply Rabs_le. change (bpow radix2 32) with (IZR (2 ^ 32)). change (bpow radix2 31) with (IZR (2 ^ 31)) in I. simpl in *. lra. }
  pose proof (rnd_bounded 24 128 eq_refl 32 _ ltac:(lia) I2) as I3. apply Rabs_le_inv in I3.
  apply (add_number 24 128 eq_refl eq_refl); [apply (sub_number 24 128 eq_refl eq_refl)| |].
  - apply f32_int. lia.
  - exact R.
  - apply (fits_bound 24 128 eq_refl 32); [lia|exact I2].
  - apply half_number.
  - apply (fits_bound 24 128 eq_refl 33); [lia|]. apply Rabs_le. change (bpow radix2 33) with (IZR (2 ^ 33)).
    change (bpow radix2 32) with (IZR (2 ^ 32)) in I3. simpl in *. lra.
Qed.

(** ** Errors of pixels *)

Lemma bpow_small : 0 < bpow radix2 (-24) <= / 1000.
Proof. split; [apply bpow_gt_0|]. simpl. lra. Qed.
Lemma bpow_tiny : bpow radix2 (-148) = 4 * bpow radix2 (-150) /\ 0 < bpow radix2 (-150) /\ bpow radix2 (-150) <= bpow radix2 (-24) * / 1000.
Proof.
  split; [change 4 with (bpow radix2 2); rewrite <- bpow_plus; reflexivity|].
  split; [apply bpow_gt_0|]. apply Rle_trans with (bpow radix2 (-24 + -10)); [apply bpow_le; lia|].
  rewrite bpow_plus. apply Rmult_le_compat_l; [apply bpow_ge_0|]. simpl. lra.
Qed.

Lemma triangle a b c d e : Rabs (a - b) <= d -> Rabs (b - c) <= e -> Rabs (a - c) <= d + e.
Proof.
  intros H1 H2. replace (a - c) with ((a - b) + (b - c)) by ring. eapply Rle_trans; [apply Rabs_triang|]. lra.
Qed.
Lemma near_size a b d : Rabs (a - b) <= d -> Rabs a <= Rabs b + d.
Proof. intro H. replace a with (b + (a - b)) by ring. eapply Rle_trans; [apply Rabs_triang|]. lra. Qed.

Lemma scaled_error a s z A :
  Rabs a <= A ->
  Rabs (n32 (n32 (a * s) + z) - (a * s + z)) <= bpow radix2 (-24) * (3 * A * Rabs s + Rabs z) + 3 * bpow radix2 (-150).
Proof.
  intro HA. pose proof bpow_small as U. pose proof bpow_tiny as (_ & H0 & _).
  pose proof (rnd_error (a * s)) as E1. pose proof (rnd_error (n32 (a * s) + z)) as E2.
  set (u := bpow radix2 (-24)) in *. set (h := bpow radix2 (-150)) in *. clearbody u h.
  set (p := n32 (a * s)) in *. clearbody p.
  pose proof (near_size _ _ _ E1) as P.
  pose proof (Rabs_triang p z) as T.
  assert (E1' : Rabs (p + z - (a * s + z)) <= u * Rabs (a * s) + h) by (replace (p + z - (a * s + z)) with (p - a * s) by ring; exact E1).
  pose proof (triangle _ _ _ _ _ E2 E1') as E. clear E1 E2 E1'.
  eapply Rle_trans; [exact E|]. clear E.
  rewrite Rabs_mult in *. pose proof (Rabs_pos s) as S0. pose proof (Rabs_pos a) as A0. pose proof (Rabs_pos z) as Z0.
  assert (Q : Rabs a * Rabs s <= A * Rabs s) by (apply Rmult_le_compat_r; auto).
  assert (Q0 : 0 <= Rabs a * Rabs s) by (apply Rmult_le_pos; auto).
  replace (3 * A * Rabs s) with (3 * (A * Rabs s)) by ring.
  set (q := Rabs a * Rabs s) in *. set (B := A * Rabs s) in *. clearbody q B.
  assert (Rabs (p + z) <= q + (u * q + h) + Rabs z) by lra.
  assert (u * Rabs (p + z) <= u * (q + (u * q + h) + Rabs z)) by (apply Rmult_le_compat_l; lra).
  assert (u * (u * q) <= / 1000 * (u * q)) by (apply Rmult_le_compat_r; [apply Rmult_le_pos; lra|lra]).
  assert (u * h <= / 1000 * h) by (apply Rmult_le_compat_r; lra).
  assert (u * q <= u * B) by (apply Rmult_le_compat_l; lra).
  assert (0 <= u * q) by (apply Rmult_le_pos; lra).
  lra.
Qed.

Lemma plain_error v s z :
  Rabs (n32 (n32 (n32 (IZR v) * s) + z) - (IZR v * s + z)) <= 5 * bpow radix2 (-24) * (Rabs (IZR v * s) + Rabs z) + bpow radix2 (-148).
Proof.
  pose proof bpow_small as U. pose proof bpow_tiny as (-> & H0 & _).
  pose proof (rnd_int_error v) as E1. pose proof (near_size _ _ _ E1) as N.
  pose proof (scaled_error (n32 (IZR v)) s z _ N) as E2.
  set (u := bpow radix2 (-24)) in *. set (h := bpow radix2 (-150)) in *. clearbody u h.
  assert (E3 : Rabs (n32 (IZR v) * s + z - (IZR v * s + z)) <= u * Rabs (IZR v) * Rabs s).
  { replace (n32 (IZR v) * s + z - (IZR v * s + z)) with ((n32 (IZR v) - IZR v) * s) by ring. rewrite Rabs_mult.
    apply Rmult_le_compat_r; [apply Rabs_pos|exact E1]. }
  pose proof (triangle _ _ _ _ _ E2 E3) as E. eapply Rle_trans; [exact E|]. clear - U H0.
  rewrite Rabs_mult. pose proof (Rabs_pos s) as S0. pose proof (Rabs_pos (IZR v)) as A0. pose proof (Rabs_pos z) as Z0.
  replace (3 * (Rabs (IZR v) + u * Rabs (IZR v)) * Rabs s) with ((3 + 3 * u) * (Rabs (IZR v) * Rabs s)) by ring.
  replace (u * Rabs (IZR v) * Rabs s) with (u * (Rabs (IZR v) * Rabs s)) by ring.
  assert (Q0 : 0 <= Rabs (IZR v) * Rabs s) by (apply Rmult_le_pos; auto).
  set (q := Rabs (IZR v) * Rabs s) in *. clearbody q.
  assert (u * (u * q) <= / 1000 * (u * q)) by (apply Rmult_le_compat_r; [apply Rmult_le_pos; lra|lra]).
  assert (0 <= u * q) by (apply Rmult_le_pos; lra).
  assert (0 <= u * Rabs z) by (apply Rmult_le_pos; lra). lra.
Qed.

Lemma dither_error v r t s z : 0 < r <= 1 -> Rabs (r - t) <= bpow radix2 (-24) ->
  Rabs (n32 (n32 (n32 (n32 (n32 (IZR v) - r) + / 2) * s) + z) - ((IZR v - t + / 2) * s + z))
  <= bpow radix2 (-20) * ((Rabs (IZR v) + 1) * Rabs s + Rabs z) + bpow radix2 (-148).
Proof.
  intros R T. pose proof bpow_small as U. pose proof bpow_tiny as (-> & H0 & H1).
  replace (bpow radix2 (-20)) with (16 * bpow radix2 (-24)) by (change 16 with (bpow radix2 4); rewrite <- bpow_plus; reflexivity).
  pose proof (rnd_int_error v) as E1. set (a1 := n32 (IZR v)) in *.
  pose proof (rnd_error (a1 - r)) as E2. set (a2 := n32 (a1 - r)) in *.
  pose proof (rnd_error (a2 + / 2)) as E3. set (a3 := n32 (a2 + / 2)) in *.
  pose proof (scaled_error a3 s z) as E4. set (x := n32 (n32 (a3 * s) + z)) in *. clearbody a1 a2 a3 x.
  set (u := bpow radix2 (-24)) in *. set (h := bpow radix2 (-150)) in *. clearbody u h.
  set (V := Rabs (IZR v)) in *. assert (V0 : 0 <= V) by apply Rabs_pos.
  assert (UV : 0 <= u * V) by (apply Rmult_le_pos; lra).
  assert (UUV : u * (u * V) <= / 1000 * (u * V)) by (apply Rmult_le_compat_r; lra).
  assert (UU : u * u <= / 1000 * u) by (apply Rmult_le_compat_r; lra).
  assert (UV' : u * V <= / 1000 * V) by (apply Rmult_le_compat_r; lra).
  pose proof (near_size _ _ _ E1) as N1. fold V in N1.
  assert (M1 : Rabs (a1 - r) <= V + u * V + 1).
  { unfold Rminus. eapply Rle_trans; [apply Rabs_triang|]. rewrite Rabs_Ropp, (Rabs_pos_eq r) by lra. lra. }
  assert (F2 : Rabs (a2 - (a1 - r)) <= u * (V + u * V + 1) + h).
  { eapply Rle_trans; [exact E2|]. apply Rplus_le_compat_r. apply Rmult_le_compat_l; lra. }
  pose proof (near_size _ _ _ F2) as N2.
  assert (M2 : Rabs (a2 + / 2) <= 101 / 100 * V + 2).
  { eapply Rle_trans; [apply Rabs_triang|]. rewrite (Rabs_pos_eq (/ 2)) by lra. lra. }
  assert (F3 : Rabs (a3 - (a2 + / 2)) <= u * (101 / 100 * V + 2) + h).
  { eapply Rle_trans; [exact E3|]. apply Rplus_le_compat_r. apply Rmult_le_compat_l; lra. }
  assert (D : Rabs (a3 - (IZR v - t + / 2)) <= u * (4 * V + 5)).
  { assert (F3' : Rabs (a3 - / 2 - a2) <= u * (101 / 100 * V + 2) + h) by (replace (a3 - / 2 - a2) with (a3 - (a2 + / 2)) by ring; exact F3).
    pose proof (triangle _ _ _ _ _ F3' F2) as G1.
    assert (G2 : Rabs (a1 - r - (IZR v - t)) <= u * V + u).
    { replace (a1 - r - (IZR v - t)) with ((a1 - IZR v) - (r - t)) by ring. unfold Rminus at 1.
      eapply Rle_trans; [apply Rabs_triang|]. rewrite Rabs_Ropp. lra. }
    pose proof (triangle _ _ _ _ _ G1 G2) as G.
    replace (a3 - / 2 - (IZR v - t)) with (a3 - (IZR v - t + / 2)) in G by ring. lra. }
  assert (N3 : Rabs a3 <= 11 / 10 * V + 3).
  { pose proof (near_size _ _ _ F3). lra. }
  specialize (E4 _ N3).
  assert (E5 : Rabs (a3 * s + z - ((IZR v - t + / 2) * s + z)) <= u * (4 * V + 5) * Rabs s).
  { replace (a3 * s + z - ((IZR v - t + / 2) * s + z)) with ((a3 - (IZR v - t + / 2)) * s) by ring. rewrite Rabs_mult.
    apply Rmult_le_compat_r; [apply Rabs_pos|exact D]. }
  pose proof (triangle _ _ _ _ _ E4 E5) as E. eapply Rle_trans; [exact E|]. clear - U H0 V0.
  pose proof (Rabs_pos s) as S0. pose proof (Rabs_pos z) as Z0.
  assert (0 <= u * (V * Rabs s)) by (apply Rmult_le_pos; [lra|apply Rmult_le_pos; lra]).
  assert (0 <= u * Rabs s) by (apply Rmult_le_pos; lra).
  assert (0 <= u * Rabs z) by (apply Rmult_le_pos; lra).
  replace (u * (3 * (11 / 10 * V + 3) * Rabs s + Rabs z)) with (33 / 10 * (u * (V * Rabs s)) + 9 * (u * Rabs s) + u * Rabs z) by field.
  replace (u * (4 * V + 5) * Rabs s) with (4 * (u * (V * Rabs s)) + 5 * (u * Rabs s)) by ring.
  replace (16 * u * ((V + 1) * Rabs s + Rabs z)) with (16 * (u * (V * Rabs s)) + 16 * (u * Rabs s) + 16 * (u * Rabs z)) by ring.
  lra.
Qed.

(** ** Samples of the image decoder *)

Lemma physical_number sc v s z : (- 2 ^ 63 <= v < 2 ^ 63)%Z ->
  number 53 1024 (sc_scale sc) s -> number 53 1024 (sc_zero sc) z -> fits 53 1024 (n64 (IZR v) * s + z) ->
  number 53 1024 (physical sc v) (n64 (n64 (IZR v) * s + z)).
Proof. intros B S Z F. apply fma_number; auto. apply f64_int. lia. Qed.

Lemma div_fits x r b : number 53 1024 x r -> 1 <= b -> fits 53 1024 (r / b).
Proof.
  intros X B. pose proof (number_format 53 1024 eq_refl _ _ X) as G. pose proof (number_bound 53 1024 eq_refl eq_refl _ _ X) as H.
  unfold fits. apply Rle_lt_trans with (Rabs r); [|exact H].
  unfold rnd. apply abs_round_le_generic; [apply (@FLT_exp_valid _ 53 eq_refl)|typeclasses eauto|exact (generic_format_abs _ _ _ G)|].
  unfold Rdiv. rewrite Rabs_mult. rewrite <- (Rmult_1_r (Rabs r)) at 2. apply Rmult_le_compat_l; [apply Rabs_pos|].
  rewrite Rabs_pos_eq by (left; apply Rinv_0_lt_compat; lra). rewrite <- Rinv_1. apply Rinv_le; lra.
Qed.

Lemma fraction_number sc max v s z : (- 2 ^ 63 <= v < 2 ^ 63)%Z -> (1 <= max <= 2 ^ 63)%Z ->
  number 53 1024 (sc_scale sc) s -> number 53 1024 (sc_zero sc) z ->
  fits 53 1024 (n64 (IZR v) * n64 (s / n64 (IZR max)) + n64 (z / n64 (IZR max))) ->
  number 53 1024 (fraction sc max v) (n64 (n64 (IZR v) * n64 (s / n64 (IZR max)) + n64 (z / n64 (IZR max)))).
Proof.
  intros B M S Z F.
  assert (M1 : 1 <= n64 (IZR max)).
  { rewrite <- (rnd_int 53 1024 eq_refl 1) by (simpl; lia). unfold rnd. apply round_le; [apply (@FLT_exp_valid _ 53 eq_refl)|typeclasses eauto|]. apply IZR_le. lia. }
  pose proof (f64_int max ltac:(lia)) as MN.
  apply fma_number; [apply f64_int; lia| | |exact F].
  - apply (div_number 53 1024 eq_refl eq_refl); auto; [lra|]. eapply div_fits; eauto.
  - apply (div_number 53 1024 eq_refl eq_refl); auto; [lra|]. eapply div_fits; eauto.
Qed.

(** The nearest integer, halves away from 0. *)
Lemma nearest_real x r k : number 53 1024 x r -> nearest x k ->
  Rabs (IZR k - r) <= / 2 /\ (Rabs (IZR k - r) = / 2 -> Rabs r < Rabs (IZR k)).
Proof.
  intros [_ [F <-]] N. destruct x as [sg|sg| |sg mant e]; try discriminate.
  - simpl in *. subst k. rewrite Rminus_0_r, Rabs_R0. split; [lra|]. lra.
  - destruct N as (j & J0 & -> & J). rewrite sign_value.
    set (num := (Z.pos mant * 2 ^ Z.max 0 e)%Z) in *. set (den := (2 ^ Z.max 0 (- e))%Z) in *.
    assert (D : (0 < den)%Z) by (apply Z.pow_pos_nonneg; lia).
    assert (V : IZR (Zpos mant) * bpow radix2 e = IZR num / IZR den).
    { unfold num, den. destruct (Z.max_spec 0 e) as [[L ->]|[L ->]].
      - rewrite Z.max_l by lia. rewrite mult_IZR. change (2 ^ 0)%Z with 1%Z. rewrite (IZR_Zpower radix2) by lia. field.
      - rewrite Z.max_r by lia. change (2 ^ 0)%Z with 1%Z. rewrite Z.mul_1_r. rewrite (IZR_Zpower radix2) by lia.
        rewrite bpow_opp. field. apply Rgt_not_eq, bpow_gt_0. }
    rewrite V. assert (D' : 0 < IZR den) by (apply IZR_lt, D).
    assert (N0 : (0 <= num)%Z) by (unfold num; apply Z.mul_nonneg_nonneg; [lia|apply Z.pow_nonneg; lia]).
    apply IZR_le in N0. apply (IZR_le _ _) in J0 as J0'.
    destruct J as [J1 J2]. apply IZR_lt in J1. apply IZR_le in J2. rewrite minus_IZR, !mult_IZR in J1. rewrite plus_IZR, !mult_IZR in J2.
    set (q := IZR num / IZR den). assert (Q : IZR num = q * IZR den) by (unfold q; field; lra).
    assert (Q0 : 0 <= q). { unfold q. apply Rmult_le_pos; [lra|]. left. apply Rinv_0_lt_compat, D'. }
    rewrite Q in J1, J2. clearbody q. clear V Q N0.
    assert (K1 : 2 * q - 1 < 2 * IZR j) by (apply Rmult_lt_reg_r with (IZR den); lra).
    assert (K2 : 2 * IZR j <= 2 * q + 1) by (apply Rmult_le_reg_r with (IZR den); lra).
    assert (A : Rabs (IZR (if sg then - j else j) - sign_of sg * q) = Rabs (IZR j - q)).
    { destruct sg; unfold sign_of; [|f_equal; ring]. rewrite opp_IZR. rewrite <- Rabs_Ropp. f_equal. ring. }
    rewrite A. split.
    + apply Rabs_le. lra.
    + intro T. unfold Rabs in T. destruct (Rcase_abs (IZR j - q)); [lra|].
      assert (Rabs (sign_of sg * q) = q) as -> by (rewrite Rabs_mult, (Rabs_pos_eq q) by lra; unfold sign_of; destruct sg; [rewrite Rabs_left by lra|rewrite Rabs_pos_eq by lra]; ring).
      assert (Rabs (IZR (if sg then - j else j)) = IZR j) as ->.
      { destruct sg; [rewrite opp_IZR, Rabs_Ropp|]; apply Rabs_pos_eq; lra. }
      lra.
Qed.

(** Numbers of the format are not rounded. *)
Lemma rnd_exact prec emax (Hp : Prec_gt_0 prec) x r : number prec emax x r -> rnd prec emax r = r.
Proof. intro X. unfold rnd. apply round_generic; [typeclasses eauto|]. eapply number_format; eauto. Qed.

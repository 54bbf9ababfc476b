(** The float operations of [Float.v] round the exact results. *)

From Coq Require Import Reals Lra Psatz.
From Verif Require Import Base Text Float SpecReal.
From Flocq Require Import Core Operations BinarySingleNaN.
Open Scope R_scope.

(** ** [SpecFloat] and Flocq *)

Section Format.
  Variables prec emax : Z.
  Context (Hp : Prec_gt_0 prec) (He : Prec_lt_emax prec emax).

  Lemma round_nearest_even_is s m l : round_nearest_even m l = choice_mode mode_NE s m l.
  Proof.
    destruct l as [|c]; [reflexivity|]. destruct c; try reflexivity.
    simpl. unfold Round.cond_incr. destruct (Z.even m); reflexivity.
  Qed.

  Lemma round_aux_is sx mx ex lx :
    SpecFloat.binary_round_aux prec emax sx mx ex lx = binary_round_aux prec emax mode_NE sx mx ex lx.
  Proof.
    unfold SpecFloat.binary_round_aux, binary_round_aux.
    destruct (shr_fexp prec emax mx ex lx) as [mrs e'].
    rewrite (round_nearest_even_is sx).
    destruct (shr_fexp prec emax _ e' loc_Exact) as [mrs'' e'']. destruct (shr_m mrs''); auto.
  Qed.

  Lemma binary_round_is sx mx ex : SpecFloat.binary_round prec emax sx mx ex = binary_round prec emax mode_NE sx mx ex.
  Proof.
    unfold SpecFloat.binary_round, binary_round, shl_align_fexp.
    destruct (shl_align mx ex _) as [mz ez]. apply round_aux_is.
  Qed.

  (** From the shape of Flocq's theorems. *)
  Lemma rounded_of r neg z :
    valid_binary prec emax z = true ->
    (if Rlt_bool (Rabs (rnd prec emax r)) (bpow radix2 emax)
     then SF2R radix2 z = rnd prec emax r /\ is_finite_SF z = true /\ sign_SF z = neg
     else z = binary_overflow prec emax mode_NE neg) -> rounded prec emax r neg z.
  Proof.
    intros V H. split; intro B.
    - rewrite Rlt_bool_true in H by exact B. unfold number. tauto.
    - rewrite Rlt_bool_false in H by exact B. exact H.
  Qed.

  Lemma round_rounded sx mx ex :
    rounded prec emax (F2R (Float radix2 (cond_Zopp sx (Zpos mx)) ex)) sx (SpecFloat.binary_round prec emax sx mx ex).
  Proof.
    rewrite binary_round_is. destruct (binary_round_correct prec emax Hp He mode_NE sx mx ex) as [V H].
    apply rounded_of; auto.
  Qed.

  Lemma normalize_rounded n e z :
    rounded prec emax (F2R (Float radix2 n e)) (if (n =? 0)%Z then z else (n <? 0)%Z)
            (SpecFloat.binary_normalize prec emax n e z).
  Proof.
    destruct n as [|p|p]; simpl.
    - rewrite F2R_0. apply rounded_of; [reflexivity|]. unfold rnd. rewrite round_0 by apply valid_rnd_N.
      rewrite Rabs_R0, Rlt_bool_true by apply bpow_gt_0. auto.
    - apply (round_rounded false p e).
    - apply (round_rounded true p e).
  Qed.

  Lemma quotient_rounded neg p q :
    rounded prec emax (IZR (cond_Zopp neg (Zpos p)) / IZR (Zpos q)) neg
      (let '(mz, ez, lz) := SFdiv_core_binary prec emax (Zpos p) 0 (Zpos q) 0 in
       SpecFloat.binary_round_aux prec emax neg mz ez lz).
  Proof.
    destruct (Bdiv_correct_aux prec emax Hp He mode_NE neg p 0 false q 0) as [V H].
    destruct (SFdiv_core_binary prec emax (Zpos p) 0 (Zpos q) 0) as [[mz ez] lz]. rewrite round_aux_is.
    rewrite Bool.xorb_false_r in V, H. apply rounded_of; auto.
    replace (IZR (cond_Zopp neg (Zpos p)) / IZR (Zpos q))
      with (F2R (Float radix2 (cond_Zopp neg (Zpos p)) 0) / F2R (Float radix2 (cond_Zopp false (Zpos q)) 0)); auto.
    unfold F2R. simpl. f_equal; ring.
  Qed.
End Format.

(** ** Decimals *)

#[local] Instance p53 : Prec_gt_0 53 := eq_refl _.
#[local] Instance e1024 : Prec_lt_emax 53 1024 := eq_refl _.
#[local] Instance p24 : Prec_gt_0 24 := eq_refl _.
#[local] Instance e128 : Prec_lt_emax 24 128 := eq_refl _.

Lemma decimal_pos neg mant e : (0 <= e)%Z ->
  decimal neg mant e = F2R (Float radix2 (cond_Zopp neg (mant * 10 ^ e)) 0).
Proof.
  intro H. unfold decimal, F2R. simpl. rewrite Rmult_1_r. rewrite <- IZR_Zpower by exact H.
  change (ten ^ e)%Z with (10 ^ e)%Z. destruct neg; simpl; rewrite <- mult_IZR; f_equal; ring.
Qed.

Lemma decimal_neg neg mant e : (e < 0)%Z ->
  decimal neg mant e = IZR (cond_Zopp neg mant) / IZR (10 ^ (- e)).
Proof.
  intro H. unfold decimal, F2R. simpl.
  replace e with (- - e)%Z at 1 by lia. rewrite bpow_opp, <- IZR_Zpower by lia.
  change (ten ^ (- e))%Z with (10 ^ (- e))%Z. destruct neg; reflexivity.
Qed.

Lemma dec_rounded neg mant e : (0 <= mant)%Z -> rounded 53 1024 (decimal neg mant e) neg (f64_of_dec neg mant e).
Proof.
  intro H. unfold f64_of_dec. destruct mant as [|p|p]; [| |lia].
  - replace (decimal neg 0 e) with (F2R (Float radix2 0 0)).
    + apply (normalize_rounded 53 1024 _ _ 0 0 neg).
    + unfold decimal, F2R. destruct neg; simpl; ring.
  - destruct (Z.leb_spec 0 e) as [L|L].
    + rewrite decimal_pos by exact L.
      pose proof (normalize_rounded 53 1024 _ _ (cond_Zopp neg (Zpos p * 10 ^ e)) 0 neg) as R.
      assert (0 < Zpos p * 10 ^ e)%Z by (apply Z.mul_pos_pos; [lia|apply Z.pow_pos_nonneg; lia]).
      set (n := (Zpos p * 10 ^ e)%Z) in *. cbv zeta.
      replace (if (cond_Zopp neg n =? 0)%Z then neg else (cond_Zopp neg n <? 0)%Z) with neg in R.
      2: { destruct neg; simpl; [destruct (Z.eqb_spec (- n) 0), (Z.ltb_spec (- n) 0)
                                |destruct (Z.eqb_spec n 0), (Z.ltb_spec n 0)]; auto; lia. }
      destruct neg; exact R.
    + rewrite decimal_neg by exact L.
      assert (0 < 10 ^ (- e))%Z by (apply Z.pow_pos_nonneg; lia).
      destruct (10 ^ (- e))%Z as [|q|q] eqn:Q; try lia. apply quotient_rounded; typeclasses eauto.
Qed.

Lemma int_rounded prec emax (Hp : Prec_gt_0 prec) (He : Prec_lt_emax prec emax) z :
  rounded prec emax (IZR z) (z <? 0)%Z (SpecFloat.binary_normalize prec emax z 0 false).
Proof.
  pose proof (normalize_rounded prec emax _ _ z 0 false) as R.
  replace (F2R (Float radix2 z 0)) with (IZR z) in R by (unfold F2R; simpl; ring).
  destruct (Z.eqb_spec z 0); [subst; exact R|exact R].
Qed.

(** ** Operations *)

Section Operations.
  Variables prec emax : Z.
  Context (Hp : Prec_gt_0 prec) (He : Prec_lt_emax prec emax).
  Notation flt := (binary_float prec emax).
  Notation Number := (number prec emax).

  Lemma lift x a : Number x a -> exists b : flt, B2SF b = x /\ is_finite b = true /\ B2R b = a.
  Proof.
    intros [V [F R]]. exists (SF2B x V). rewrite B2SF_SF2B, is_finite_SF2B, B2R_SF2B. auto.
  Qed.

  Lemma sign_lift (b : flt) : sign_SF (B2SF b) = Bsign b.
  Proof. destruct b; reflexivity. Qed.

  Lemma normalize_is n e z : B2SF (binary_normalize prec emax Hp He mode_NE n e z) = SpecFloat.binary_normalize prec emax n e z.
  Proof.
    destruct n; simpl; auto; rewrite B2SF_SF2B; symmetry; apply binary_round_is.
  Qed.

  Lemma add_is (x y : flt) : SFadd prec emax (B2SF x) (B2SF y) = B2SF (Bplus mode_NE x y).
  Proof.
    destruct x as [s|s| |s m e B], y as [s'|s'| |s' m' e' B']; simpl; auto.
    - destruct (Bool.eqb s s'); reflexivity.
    - destruct (Bool.eqb s s'); reflexivity.
    - symmetry. apply normalize_is.
  Qed.

  Lemma sub_is (x y : flt) : SFsub prec emax (B2SF x) (B2SF y) = B2SF (Bminus mode_NE x y).
  Proof.
    destruct x as [s|s| |s m e B], y as [s'|s'| |s' m' e' B']; simpl; auto.
    - destruct (Bool.eqb s (negb s')); reflexivity.
    - destruct (Bool.eqb s (negb s')); reflexivity.
    - rewrite normalize_is. unfold Fplus_naive. f_equal. destruct s'; simpl; lia.
  Qed.

  Lemma mul_is (x y : flt) : SFmul prec emax (B2SF x) (B2SF y) = B2SF (Bmult mode_NE x y).
  Proof.
    destruct x as [s|s| |s m e B], y as [s'|s'| |s' m' e' B']; simpl; auto.
    rewrite B2SF_SF2B. apply round_aux_is.
  Qed.

  Lemma div_is (x y : flt) : SFdiv prec emax (B2SF x) (B2SF y) = B2SF (Bdiv mode_NE x y).
  Proof.
    destruct x as [s|s| |s m e B], y as [s'|s'| |s' m' e' B']; simpl; auto.
    rewrite B2SF_SF2B. destruct (SFdiv_core_binary prec emax (Zpos m) e (Zpos m') e') as [[? ?] ?]. apply round_aux_is.
  Qed.

  Lemma add_number x y a b : Number x a -> Number y b -> fits prec emax (a + b) -> Number (SFadd prec emax x y) (rnd prec emax (a + b)).
  Proof.
    intros X Y F. destruct (lift _ _ X) as [u [<- [Fu <-]]], (lift _ _ Y) as [v [<- [Fv <-]]].
    rewrite add_is. pose proof (Bplus_correct prec emax Hp He mode_NE u v Fu Fv) as C.
    rewrite Rlt_bool_true in C by exact F. destruct C as [C1 [C2 _]].
    split; [apply valid_binary_B2SF|]. rewrite is_finite_SF_B2SF, SF2R_B2SF. auto.
  Qed.

  Lemma sub_number x y a b : Number x a -> Number y b -> fits prec emax (a - b) -> Number (SFsub prec emax x y) (rnd prec emax (a - b)).
  Proof.
    intros X Y F. destruct (lift _ _ X) as [u [<- [Fu <-]]], (lift _ _ Y) as [v [<- [Fv <-]]].
    rewrite sub_is. pose proof (Bminus_correct prec emax Hp He mode_NE u v Fu Fv) as C.
    rewrite Rlt_bool_true in C by exact F. destruct C as [C1 [C2 _]].
    split; [apply valid_binary_B2SF|]. rewrite is_finite_SF_B2SF, SF2R_B2SF. auto.
  Qed.

  Lemma mul_number x y a b : Number x a -> Number y b -> fits prec emax (a * b) -> Number (SFmul prec emax x y) (rnd prec emax (a * b)).
  Proof.
    intros X Y F. destruct (lift _ _ X) as [u [<- [Fu <-]]], (lift _ _ Y) as [v [<- [Fv <-]]].
    rewrite mul_is. pose proof (Bmult_correct prec emax Hp He mode_NE u v) as C.
    rewrite Rlt_bool_true in C by exact F. destruct C as [C1 [C2 _]].
    split; [apply valid_binary_B2SF|]. rewrite is_finite_SF_B2SF, SF2R_B2SF, C2, Fu, Fv. auto.
  Qed.

  Lemma div_number x y a b : Number x a -> Number y b -> b <> 0 -> fits prec emax (a / b) -> Number (SFdiv prec emax x y) (rnd prec emax (a / b)).
  Proof.
    intros X Y N F. destruct (lift _ _ X) as [u [<- [Fu <-]]], (lift _ _ Y) as [v [<- [Fv <-]]].
    rewrite div_is. pose proof (Bdiv_correct prec emax Hp He mode_NE u v N) as C.
    rewrite Rlt_bool_true in C by exact F. destruct C as [C1 [C2 _]].
    split; [apply valid_binary_B2SF|]. rewrite is_finite_SF_B2SF, SF2R_B2SF, C2, Fu. auto.
  Qed.

  Lemma normalize_number n e z : fits prec emax (F2R (Float radix2 n e)) ->
    Number (SpecFloat.binary_normalize prec emax n e z) (rnd prec emax (F2R (Float radix2 n e))).
  Proof. intro F. apply (normalize_rounded prec emax _ _ n e z). exact F. Qed.
End Operations.

(** ** Fused multiplication and addition *)

Lemma value_of x : SF2R radix2 x = F2R (Float radix2 (sf_mant x) (sf_exp x)).
Proof. destruct x as [s|s| |s m e]; simpl; try (rewrite F2R_0; reflexivity). destruct s; reflexivity. Qed.

Lemma shifted n e e' : (e' <= e)%Z -> F2R (Float radix2 n e) = F2R (Float radix2 (n * 2 ^ (e - e')) e').
Proof. intro H. rewrite (F2R_change_exp radix2 e' n e H). reflexivity. Qed.

Lemma fma_number x y z a b c :
  number 53 1024 x a -> number 53 1024 y b -> number 53 1024 z c -> fits 53 1024 (a * b + c) ->
  number 53 1024 (f64_mul_add x y z) (rnd 53 1024 (a * b + c)).
Proof.
  intros [_ [Fx <-]] [_ [Fy <-]] [_ [Fz <-]] F. unfold f64_mul_add.
  set (e := Z.min (sf_exp x + sf_exp y) (sf_exp z)).
  assert (E : SF2R radix2 x * SF2R radix2 y + SF2R radix2 z =
              F2R (Float radix2 (sf_mant x * sf_mant y * 2 ^ (sf_exp x + sf_exp y - e) + sf_mant z * 2 ^ (sf_exp z - e)) e)).
  { rewrite !value_of, <- F2R_mult. simpl.
    rewrite (shifted (sf_mant x * sf_mant y) (sf_exp x + sf_exp y) e) by (unfold e; lia).
    rewrite (shifted (sf_mant z) (sf_exp z) e) by (unfold e; lia).
    unfold F2R. simpl. rewrite plus_IZR. ring. }
  rewrite E in F |- *. fold e.
  destruct x as [s|s| |s m0 e0]; try discriminate; destruct y as [s'|s'| |s' m' e']; try discriminate;
    destruct z as [s2|s2| |s2 m2 e2]; try discriminate; cbv iota; apply normalize_number; auto; typeclasses eauto.
Qed.

(** ** Reading back *)

Lemma number_eq prec emax x y r : number prec emax x r -> number prec emax y r -> r <> 0 -> x = y.
Proof.
  intros [Vx [Fx Rx]] [Vy [Fy Ry]] N.
  assert (E : SF2B x Vx = SF2B y Vy).
  { apply B2R_inj.
    - rewrite is_finite_strict_SF2B. destruct x; try discriminate; auto.
    - rewrite is_finite_strict_SF2B. destruct y; try discriminate; auto.
    - rewrite !B2R_SF2B. congruence. }
  apply (f_equal (@B2SF _ _)) in E. rewrite !B2SF_SF2B in E. exact E.
Qed.

Lemma number_format prec emax (Hp : Prec_gt_0 prec) x r :
  number prec emax x r -> generic_format radix2 (FLT_exp (3 - emax - prec) prec) r.
Proof.
  intros [V [F <-]]. rewrite <- (B2R_SF2B prec emax x V).
  apply (generic_format_B2R prec emax (SF2B x V)).
Qed.

Lemma number_bound prec emax (Hp : Prec_gt_0 prec) (He : Prec_lt_emax prec emax) x r :
  number prec emax x r -> Rabs r < bpow radix2 emax.
Proof.
  intros [V [F <-]]. rewrite <- (B2R_SF2B prec emax x V). apply abs_B2R_lt_emax.
Qed.

Lemma near_pos r d : generic_format radix2 (FLT_exp (-1074) 53) r -> 0 < r -> Rabs (d - r) < r * bpow radix2 (-54) ->
  round radix2 (FLT_exp (-1074) 53) ZnearestE d = r.
Proof.
  intros G P D. apply Rabs_def2 in D. destruct D as [D1 D2].
  set (fexp := FLT_exp (-1074) 53) in *.
  assert (V : Valid_exp fexp) by (unfold fexp; typeclasses eauto).
  assert (L : forall k, bpow radix2 (k - 53) <= bpow radix2 (fexp k))
    by (intro k; apply bpow_le; unfold fexp, FLT_exp; lia).
  assert (U : r * bpow radix2 (-53) < ulp radix2 fexp r).
  { rewrite ulp_neq_0 by lra. unfold cexp. eapply Rlt_le_trans; [|apply L].
    unfold Z.sub. rewrite bpow_plus. apply Rmult_lt_compat_r; [apply bpow_gt_0|].
    pose proof (bpow_mag_gt radix2 r). rewrite Rabs_pos_eq in H by lra. exact H. }
  assert (S : r * bpow radix2 (-54) = r * bpow radix2 (-53) / 2).
  { change (-54)%Z with (-53 + -1)%Z. rewrite bpow_plus. replace (bpow radix2 (-1)) with (/ 2) by (simpl; lra). unfold Rdiv. ring. }
  apply Rle_antisym.
  - apply round_N_le_midp; auto. rewrite succ_eq_pos by lra. lra.
  - apply round_N_ge_midp; auto.
    assert (r - pred radix2 fexp r >= r * bpow radix2 (-53)); [|lra].
    rewrite pred_eq_pos by lra. unfold pred_pos. destruct (Req_bool_spec r (bpow radix2 (mag radix2 r - 1))) as [E|E]; [|lra].
    replace (r - (r - bpow radix2 (fexp (mag radix2 r - 1)%Z))) with (bpow radix2 (fexp (mag radix2 r - 1)%Z)) by ring.
    apply Rle_ge. eapply Rle_trans; [|apply L]. rewrite E at 1. unfold Z.sub at 2. rewrite (bpow_plus radix2 _ (-(53))).
    apply Rle_refl.
Qed.

Lemma near r d : generic_format radix2 (FLT_exp (-1074) 53) r -> r <> 0 -> Rabs (d - r) < Rabs r * bpow radix2 (-54) ->
  rnd 53 1024 d = r.
Proof.
  intros G N D. unfold rnd. change (3 - 1024 - 53)%Z with (-1074)%Z.
  destruct (Rlt_or_le 0 r) as [P|P].
  - apply near_pos; auto. rewrite (Rabs_pos_eq r) in D by lra. exact D.
  - rewrite (Rabs_left1 r) in D by lra. replace d with (- - d) by ring. rewrite round_NE_opp.
    assert (r < 0) by (destruct P; [auto|contradiction]). rewrite (near_pos (- r) (- d)); [ring| |lra|].
    + apply generic_format_opp. exact G.
    + replace (- d - - r) with (- (d - r)) by ring. rewrite Rabs_Ropp. exact D.
Qed.

Lemma seventeen x r neg mant e :
  number 53 1024 x r -> (10 ^ 16 <= mant)%Z ->
  Rabs (decimal neg mant e - r) <= / 2 * bpow ten e -> f64_of_dec neg mant e = x.
Proof.
  intros X M D.
  assert (B : 0 < bpow ten e) by apply bpow_gt_0.
  assert (A : IZR (10 ^ 16) * bpow ten e <= Rabs (decimal neg mant e)).
  { unfold decimal. rewrite <- F2R_Zabs. unfold F2R. simpl Fnum. simpl Fexp. apply Rmult_le_compat_r; [lra|].
    apply IZR_le. destruct neg; lia. }
  change (10 ^ 16)%Z with 10000000000000000%Z in A.
  assert (T : Rabs (decimal neg mant e) <= Rabs r + Rabs (decimal neg mant e - r)).
  { replace (decimal neg mant e) with (r + (decimal neg mant e - r)) at 1 by ring. apply Rabs_triang. }
  assert (P : 0 < Rabs r) by lra.
  assert (N : r <> 0) by (intro E; rewrite E, Rabs_R0 in P; lra).
  assert (K : rnd 53 1024 (decimal neg mant e) = r).
  { apply near; auto.
    - apply (number_format 53 1024 _ _ _ X).
    - simpl bpow. lra. }
  destruct (dec_rounded neg mant e ltac:(lia)) as [H _].
  rewrite K in H. destruct (H (number_bound _ _ _ _ _ _ X)) as [H1 _].
  exact (number_eq _ _ _ _ _ H1 X N).
Qed.

(** Numbers of the format are read exactly. *)
Lemma exact_decimal x neg mant e : (0 <= mant)%Z -> number 53 1024 x (decimal neg mant e) -> sign_SF x = neg ->
  f64_of_dec neg mant e = x.
Proof.
  intros M X S. destruct (dec_rounded neg mant e M) as [H _].
  assert (K : rnd 53 1024 (decimal neg mant e) = decimal neg mant e).
  { apply round_generic; [apply valid_rnd_N|]. apply (number_format 53 1024 _ _ _ X). }
  rewrite K in H. destruct (H (number_bound _ _ _ _ _ _ X)) as [H1 H2].
  destruct (Req_dec (decimal neg mant e) 0) as [Z|Z]; [|exact (number_eq _ _ _ _ _ H1 X Z)].
  destruct X as [Vx [Fx Rx]], H1 as [Vy [Fy Ry]]. rewrite Z in Rx, Ry.
  destruct x as [s|s| |s m0 e0], (f64_of_dec neg mant e) as [s'|s'| |s' m' e']; try discriminate; simpl in *; subst; auto;
    exfalso; match goal with H : F2R (Float _ (cond_Zopp _ _) _) = 0 |- _ => apply eq_0_F2R in H; destruct neg; discriminate end.
Qed.

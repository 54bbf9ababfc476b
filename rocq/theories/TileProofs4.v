(** The table of random numbers. *)

From Verif Require Import Base TextLemmas Text Card Reader Header Xtension Bytes Fits ImageIt BinTable Rice Float Tile.
From Verif Require Import SpecCard SpecXt SpecFits SpecImage SpecBin SpecRice SpecTile.
From Verif Require Import BytesProofs BinProofs BinProofs2.

Fixpoint seeds_from (n : nat) (s : Z) : list Z :=
  match n with O => [] | S n' => let s' := (16807 * s) mod 2147483647 in s' :: seeds_from n' s' end.

Lemma seeds_from_nth : forall n s k, (k < n)%nat -> nth_error (seeds_from n s) k = Some ((16807 ^ (Z.of_nat k + 1) * s) mod 2147483647).
Proof.
  induction n as [|n IH]; intros s k H; [lia|]. cbn [seeds_from]. destruct k as [|k]; [reflexivity|].
  cbn [nth_error]. rewrite IH by lia. f_equal. rewrite Z.mul_mod_idemp_r by lia. f_equal.
  replace (Z.of_nat (S k) + 1) with (Z.succ (Z.of_nat k + 1)) by lia. rewrite Z.pow_succ_r by lia. lia.
Qed.

Definition entry_ok (x : spec_float) (s : Z) : bool :=
  match x with
  | S754_finite false mant e =>
    (e <=? 0) && (2 ^ 23 <=? Zpos mant) && (Zpos mant <? 2 ^ 24) &&
    (2 * Z.abs (Zpos mant * 2147483647 - s * 2 ^ (- e)) <=? 2147483647) &&
    (f_floor_usize (f32_mul x (f32_of_int 500)) =? 500 * s / 2147483647)
  | _ => false
  end.
Fixpoint all2 {A B} (p : A -> B -> bool) (a : list A) (b : list B) : bool :=
  match a, b with [], [] => true | x :: a', y :: b' => p x y && all2 p a' b' | _, _ => false end.
Lemma all2_nth {A B} (p : A -> B -> bool) : forall a b k y, all2 p a b = true -> nth_error b k = Some y ->
  exists x, nth_error a k = Some x /\ p x y = true.
Proof.
  induction a as [|x a IH]; intros [|y b] k z H E; cbn [all2] in H; try discriminate; [destruct k; discriminate|].
  apply andb_true_iff in H as [H1 H2]. destruct k as [|k]; cbn [nth_error] in *; [inversion E; subst; eauto|]. eapply IH; eauto.
Qed.

Lemma table_checked : all2 entry_ok RAND_VALUES (seeds_from (Z.to_nat N_RANDOM) 1) = true.
Proof. vm_compute. reflexivity. Qed.

Lemma entry k : 0 <= k < 10000 -> exists x, index RAND_VALUES k = Ok x /\ entry_ok x (seed k) = true.
Proof.
  intro H. destruct (all2_nth _ _ _ (Z.to_nat k) (seed k) table_checked) as (x & E & O).
  - rewrite seeds_from_nth by (unfold N_RANDOM; lia). f_equal. rewrite Z.mul_1_r, Z2Nat.id by lia. reflexivity.
  - exists x. split; [apply index_nth; [lia|exact E]|exact O].
Qed.

Lemma random_value k : 0 <= k < 10000 -> exists x, index RAND_VALUES k = Ok x /\ nearest_f32 (seed k) (2 ^ 31 - 1) x.
Proof.
  intro H. destruct (entry k H) as (x & E & O). exists x. split; [exact E|]. unfold entry_ok in O.
  destruct x as [| | |[|] mant e]; try discriminate. exists mant, e. split; [reflexivity|]. lia.
Qed.

Lemma dither_start_ok m row z0 : 0 <= row < 2 ^ 63 -> 0 <= z0 < 2 ^ 63 -> dither_start m (row + 1) z0 = Ok (first_entry row z0).
Proof.
  intros Hr Hz. unfold dither_start. replace (row + 1 - 1) with row by lia. rewrite as_usize_small by lia.
  rewrite u64_result_small by lia. cbn [bind].
  assert (B := Z.mod_pos_bound (row + z0) 10000 ltac:(lia)).
  destruct (entry ((row + z0) mod 10000) B) as (x & -> & O). cbn [bind]. unfold entry_ok in O.
  destruct x as [| | |[|] mant e]; try discriminate. f_equal. unfold first_entry. change (2 ^ 31 - 1) with 2147483647. lia.
Qed.

Lemma first_entry_range row z0 : 0 <= first_entry row z0 < 500.
Proof.
  unfold first_entry, seed. pose proof (Z.mod_pos_bound (16807 ^ ((row + z0) mod 10000 + 1)) (2 ^ 31 - 1) ltac:(lia)) as B.
  split; [apply Z.div_pos; lia|]. apply Z.div_lt_upper_bound; lia.
Qed.

Lemma Some_inj {A} (a b : A) : Some a = Some b -> b = a.
Proof. congruence. Qed.
Lemma last_seed : seed 9999 = 1043618065.
Proof.
  assert (E : nth_error (seeds_from (Z.to_nat N_RANDOM) 1) (Z.to_nat 9999) = Some 1043618065) by (vm_compute; reflexivity).
  rewrite seeds_from_nth in E by (unfold N_RANDOM; lia). rewrite Z.mul_1_r, Z2Nat.id in E by lia.
  symmetry. apply Some_inj. exact E.
Qed.

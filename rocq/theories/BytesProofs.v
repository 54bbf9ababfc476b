(** Big-endian encoding and decoding are inverse. *)

From Coq Require Import Lia ZifyBool.
From Verif Require Import Base Header Bytes SpecCard SpecImage.

Lemma be_unsigned_snoc bs b : be_unsigned (bs ++ [b]) = be_unsigned bs * 256 + b.
Proof. unfold be_unsigned. rewrite fold_left_app. reflexivity. Qed.

Lemma be_bytes_snoc n v : be_bytes (S n) v = be_bytes n (v / 256) ++ [v mod 256].
Proof.
  unfold be_bytes. rewrite seq_S, map_app. cbn [map Nat.add]. f_equal.
  - apply map_ext_in. intros i Hi. apply in_seq in Hi.
    replace (Z.of_nat (S n) - 1 - Z.of_nat i) with (Z.of_nat n - 1 - Z.of_nat i + 1) by lia.
    rewrite Z.pow_add_r, Z.pow_1_r by lia. rewrite Z.mul_comm, Z.div_div by lia. reflexivity.
  - f_equal. replace (Z.of_nat (S n) - 1 - Z.of_nat n) with 0 by lia.
    rewrite Z.pow_0_r, Z.div_1_r. reflexivity.
Qed.

Lemma be_bytes_length n v : length (be_bytes n v) = n.
Proof. unfold be_bytes. rewrite map_length, seq_length. reflexivity. Qed.

Lemma be_bytes_octets n v : octets (be_bytes n v).
Proof.
  unfold octets, be_bytes. apply Forall_forall. intros x Hx. apply in_map_iff in Hx as (i & <- & _).
  pose proof (Z.mod_pos_bound (v / 256 ^ (Z.of_nat n - 1 - Z.of_nat i)) 256 eq_refl). lia.
Qed.

Lemma be_decode_encode n : forall v, be_unsigned (be_bytes n v) = v mod 256 ^ Z.of_nat n.
Proof.
  induction n; intro v.
  - simpl. rewrite Z.mod_1_r. reflexivity.
  - rewrite be_bytes_snoc, be_unsigned_snoc, IHn.
    replace (Z.of_nat (S n)) with (1 + Z.of_nat n) by lia.
    rewrite Z.pow_add_r, Z.pow_1_r by lia.
    rewrite Z.rem_mul_r by (try lia; apply Z.pow_pos_nonneg; lia). lia.
Qed.

Lemma be_encode_decode bs : octets bs -> be_bytes (length bs) (be_unsigned bs) = bs.
Proof.
  induction bs as [|b bs IH] using rev_ind; intro H; [reflexivity|].
  apply Forall_app in H as (H1 & H2). inversion H2; subst.
  rewrite app_length. cbn [length]. rewrite Nat.add_1_r, be_bytes_snoc, be_unsigned_snoc.
  rewrite Z.div_add_l by lia. rewrite Z.div_small by lia. rewrite Z.add_0_r, IH by auto.
  f_equal. rewrite Z.add_comm, Z.mod_add by lia. rewrite Z.mod_small by lia. reflexivity.
Qed.

Lemma be_bytes_mod n v : be_bytes n (v mod 256 ^ Z.of_nat n) = be_bytes n v.
Proof.
  rewrite <- be_decode_encode. rewrite <- (be_bytes_length n v) at 1.
  apply be_encode_decode, be_bytes_octets.
Qed.

Lemma be_unsigned_range bs : octets bs -> 0 <= be_unsigned bs < 256 ^ len bs.
Proof.
  intro H. rewrite <- (be_encode_decode bs H), be_decode_encode.
  unfold len. rewrite be_bytes_length. apply Z.mod_pos_bound. apply Z.pow_pos_nonneg; lia.
Qed.

(** The weights of the bytes. *)
Lemma be_unsigned_weights bs :
  be_unsigned bs
  = fold_right Z.add 0 (map (fun p => snd p * 256 ^ (len bs - 1 - Z.of_nat (fst p))) (combine (seq 0 (length bs)) bs)).
Proof.
  induction bs as [|b bs IH] using rev_ind; [reflexivity|].
  rewrite be_unsigned_snoc, IH, app_length. cbn [length]. rewrite Nat.add_1_r, seq_S.
  assert (C: forall {A B} (l1 : list A) (l2 : list B) a b, length l1 = length l2 ->
             combine (l1 ++ [a]) (l2 ++ [b]) = combine l1 l2 ++ [(a, b)]).
  { clear. induction l1; destruct l2; simpl; intros; try discriminate; auto. rewrite IHl1; auto. }
  rewrite C by (rewrite seq_length; reflexivity).
  rewrite map_app, fold_right_app. cbn [map fold_right fst snd].
  assert (L: len (bs ++ [b]) = len bs + 1) by (rewrite len_app; reflexivity). rewrite L.
  replace (len bs + 1 - 1 - Z.of_nat (0 + length bs)) with 0 by (unfold len; lia).
  rewrite Z.pow_0_r, Z.mul_1_r, Z.add_0_r.
  assert (F: forall (l : list Z) acc, fold_right Z.add acc l = fold_right Z.add 0 l + acc).
  { clear. induction l; simpl; intros; [lia|]. rewrite IHl. lia. }
  rewrite (F _ b). f_equal.
  assert (G: forall l : list (nat * Z), Forall (fun p => Z.of_nat (fst p) <= len bs - 1) l ->
     fold_right Z.add 0 (map (fun p => snd p * 256 ^ (len bs - 1 - Z.of_nat (fst p))) l) * 256
     = fold_right Z.add 0 (map (fun p => snd p * 256 ^ (len bs + 1 - 1 - Z.of_nat (fst p))) l)).
  { clear. induction 1; simpl; [reflexivity|]. rewrite Z.mul_add_distr_r, IHForall. f_equal.
    replace (len bs + 1 - 1 - Z.of_nat (fst x)) with (len bs - 1 - Z.of_nat (fst x) + 1) by lia.
    rewrite Z.pow_add_r by lia. lia. }
  apply G. apply Forall_forall. intros (i, x) Hi. apply in_combine_l in Hi. apply in_seq in Hi.
  simpl. unfold len. lia.
Qed.

Lemma byte_size_width b : byte_size b = width b.
Proof. destruct b; reflexivity. Qed.

Lemma width_pos b : 0 < width b.
Proof. destruct b; reflexivity. Qed.

Lemma width_le b : 1 <= width b <= 8.
Proof. destruct b; simpl; lia. Qed.

Lemma to_signed_range n z : 0 < n -> 0 <= z < 2 ^ (8 * n) -> - 2 ^ (8 * n - 1) <= to_signed n z < 2 ^ (8 * n - 1).
Proof.
  intros Hn Hz. unfold to_signed.
  assert (2 ^ (8 * n) = 2 * 2 ^ (8 * n - 1)).
  { rewrite <- (Z.pow_succ_r 2 (8 * n - 1)) by lia. f_equal. lia. }
  destruct (z <? 2 ^ (8 * n - 1)) eqn:E; lia.
Qed.

Lemma to_signed_mod n z : 0 < n -> 0 <= z < 2 ^ (8 * n) -> to_signed n z mod 2 ^ (8 * n) = z.
Proof.
  intros Hn Hz. unfold to_signed. destruct (z <? 2 ^ (8 * n - 1)) eqn:E.
  - apply Z.mod_small. lia.
  - replace (z - 2 ^ (8 * n)) with (z + (-1) * 2 ^ (8 * n)) by lia.
    rewrite Z.mod_add by lia. apply Z.mod_small. lia.
Qed.

Lemma to_signed_of n v : 0 < n -> - 2 ^ (8 * n - 1) <= v < 2 ^ (8 * n - 1) -> to_signed n (v mod 2 ^ (8 * n)) = v.
Proof.
  intros Hn Hv. unfold to_signed.
  assert (P: 2 ^ (8 * n) = 2 * 2 ^ (8 * n - 1)).
  { rewrite <- (Z.pow_succ_r 2 (8 * n - 1)) by lia. f_equal. lia. }
  destruct (Z_lt_dec v 0).
  - replace (v mod 2 ^ (8 * n)) with (v + 2 ^ (8 * n)).
    + destruct (v + 2 ^ (8 * n) <? 2 ^ (8 * n - 1)) eqn:E; lia.
    + rewrite <- (Z.mod_add v 1) by lia. rewrite Z.mod_small; lia.
  - rewrite Z.mod_small by lia. destruct (v <? 2 ^ (8 * n - 1)) eqn:E; lia.
Qed.

Lemma decode_encode b v : in_range b v -> decode b (encode b v) = v.
Proof.
  intro H. unfold encode, decode.
  destruct b; simpl in H; rewrite be_decode_encode; simpl width; rewrite Z2Nat.id by lia.
  - rewrite Z.mod_small; lia.
  - apply (to_signed_of 2); [lia|exact H].
  - apply (to_signed_of 4); [lia|exact H].
  - apply (to_signed_of 8); [lia|exact H].
  - apply Z.mod_small. exact H.
  - apply Z.mod_small. exact H.
Qed.

Lemma decode_range b bs : octets bs -> len bs = width b -> in_range b (decode b bs).
Proof.
  intros H L. pose proof (be_unsigned_range bs H) as R. rewrite L in R.
  destruct b; simpl in *; try exact R.
  - apply (to_signed_range 2); [lia|exact R].
  - apply (to_signed_range 4); [lia|exact R].
  - apply (to_signed_range 8); [lia|exact R].
Qed.

Lemma encode_decode b bs : octets bs -> len bs = width b -> encode b (decode b bs) = bs.
Proof.
  intros H L. pose proof (be_unsigned_range bs H) as R. rewrite L in R.
  assert (L': Z.to_nat (width b) = length bs) by (unfold len in L; lia).
  unfold encode. rewrite L'. rewrite <- (be_encode_decode bs H) at 3.
  destruct b; simpl in R |- *; try reflexivity;
    rewrite <- be_bytes_mod; f_equal; unfold len in L; rewrite L; simpl width.
  - exact (to_signed_mod 2 _ ltac:(lia) R).
  - exact (to_signed_mod 4 _ ltac:(lia) R).
  - exact (to_signed_mod 8 _ ltac:(lia) R).
Qed.

Lemma encode_length b v : len (encode b v) = width b.
Proof. unfold encode, len. rewrite be_bytes_length. pose proof (width_pos b). lia. Qed.

Lemma encode_octets b v : octets (encode b v).
Proof. apply be_bytes_octets. Qed.

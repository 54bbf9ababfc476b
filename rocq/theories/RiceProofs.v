(** Bits, and the reading steps of the RICE decoder. *)

From Verif Require Import Base Bytes Rice SpecRice.

(** ** Bits *)

Lemma bits_of_length w v : length (bits_of w v) = w.
Proof. induction w; cbn; congruence. Qed.

Lemma bits_of_mod w n v : Z.of_nat w <= n -> bits_of w (v mod 2 ^ n) = bits_of w v.
Proof.
  induction w as [|w IH]; intros H; [reflexivity|]. cbn [bits_of].
  rewrite Z.mod_pow2_bits_low by lia. rewrite IH by lia. reflexivity.
Qed.

Lemma bits_of_app w n v : bits_of (w + n) v = bits_of w (v / 2 ^ Z.of_nat n) ++ bits_of n v.
Proof.
  induction w as [|w IH]; [reflexivity|]. cbn [bits_of plus app].
  rewrite Z.div_pow2_bits by lia. rewrite IH. f_equal. f_equal. lia.
Qed.

Lemma bits_of_zero w : bits_of w 0 = repeat false w.
Proof. induction w as [|w IH]; [reflexivity|]. cbn [bits_of repeat]. rewrite Z.bits_0, IH. reflexivity. Qed.

Lemma bits_of_inj w : forall a b, 0 <= a < 2 ^ Z.of_nat w -> 0 <= b < 2 ^ Z.of_nat w ->
  bits_of w a = bits_of w b -> a = b.
Proof.
  induction w as [|w IH]; intros a b Ha Hb E.
  - cbn in Ha, Hb. lia.
  - cbn [bits_of] in E. injection E as E1 E2.
    rewrite Nat2Z.inj_succ, Z.pow_succ_r in Ha, Hb by lia.
    assert (Ma : a mod 2 ^ Z.of_nat w = b mod 2 ^ Z.of_nat w).
    { apply IH; try (apply Z.mod_pos_bound; lia). rewrite !bits_of_mod by lia. exact E2. }
    assert (T : forall x, 0 <= x < 2 * 2 ^ Z.of_nat w -> x / 2 ^ Z.of_nat w = Z.b2z (Z.testbit x (Z.of_nat w))).
    { intros x Hx. rewrite Z.testbit_spec' by lia. rewrite Z.mod_small; [reflexivity|].
      split; [apply Z.div_pos; lia|apply Z.div_lt_upper_bound; lia]. }
    rewrite (Z.div_mod a (2 ^ Z.of_nat w)) by lia. rewrite (Z.div_mod b (2 ^ Z.of_nat w)) by lia.
    rewrite (T a Ha), (T b Hb), E1, Ma. reflexivity.
Qed.

Lemma bit_stream_cons x r : bit_stream (x :: r) = bits_of 8 x ++ bit_stream r.
Proof. reflexivity. Qed.

Lemma bit_stream_length l : length (bit_stream l) = (8 * length l)%nat.
Proof.
  induction l as [|x l IH]; [reflexivity|].
  rewrite bit_stream_cons, app_length, IH, bits_of_length. cbn [length]. lia.
Qed.

(** Appending a byte. *)
Lemma bits_of_byte n b x : is_byte x ->
  bits_of (n + 8) (b * 256 + x) = bits_of n b ++ bits_of 8 x.
Proof.
  intros Hx. red in Hx. rewrite bits_of_app. change (2 ^ Z.of_nat 8) with 256. f_equal.
  - f_equal. rewrite Z.div_add_l by lia. rewrite Z.div_small by lia. lia.
  - rewrite <- (bits_of_mod 8 8 (b * 256 + x)) by lia. rewrite <- (bits_of_mod 8 8 x) by lia. f_equal.
    change (2 ^ 8) with 256. rewrite Z.add_comm, Z.mod_add by lia. reflexivity.
Qed.

Lemma bits_of_pad n x : 0 <= x < 256 -> bits_of (n + 8) x = repeat false n ++ bits_of 8 x.
Proof.
  intros H. rewrite <- (bits_of_zero n), <- (bits_of_byte n 0 x) by exact H. reflexivity.
Qed.

Lemma lor_add a b n : 0 <= n -> 0 <= b < 2 ^ n -> Z.lor (a * 2 ^ n) b = a * 2 ^ n + b.
Proof.
  intros Hn Hb. rewrite <- Z.shiftl_mul_pow2 by lia.
  rewrite <- Z.lxor_lor, Z.add_nocarry_lxor; [reflexivity| |].
  all: apply Z.bits_inj'; intros k Hk; rewrite Z.land_spec, Z.bits_0.
  all: destruct (Z_lt_ge_dec k n);
    [rewrite Z.shiftl_spec_low by lia; reflexivity
    |replace (Z.testbit b k) with false; [apply Bool.andb_false_r|]].
  all: symmetry; destruct (Z.eq_dec b 0) as [->|]; [apply Z.bits_0|];
    apply Z.bits_above_log2; [lia|]; apply Z.log2_lt_pow2; [lia|];
    apply Z.lt_le_trans with (2 ^ n); [lia|apply Z.pow_le_mono_r; lia].
Qed.

(** ** 32-bit arithmetic *)
Definition w32 (z : Z) : Z := to_signed 4 (z mod 2 ^ 32).

Lemma w32_range z : - 2 ^ 31 <= w32 z < 2 ^ 31.
Proof.
  unfold w32, to_signed. change (8 * 4 - 1) with 31. change (8 * 4) with 32.
  pose proof (Z.mod_pos_bound z (2 ^ 32) ltac:(lia)). destruct (Z.ltb_spec (z mod 2 ^ 32) (2 ^ 31)); lia.
Qed.
Lemma w32_mod z : w32 z mod 2 ^ 32 = z mod 2 ^ 32.
Proof.
  unfold w32, to_signed. change (8 * 4 - 1) with 31. change (8 * 4) with 32.
  pose proof (Z.mod_pos_bound z (2 ^ 32) ltac:(lia)) as B.
  destruct (Z.ltb_spec (z mod 2 ^ 32) (2 ^ 31)).
  - apply Z.mod_mod. lia.
  - replace (z mod 2 ^ 32 - 2 ^ 32) with (z mod 2 ^ 32 + (-1) * 2 ^ 32) by lia.
    rewrite Z.mod_add by lia. apply Z.mod_mod. lia.
Qed.
Lemma w32_unique a b : a mod 2 ^ 32 = b mod 2 ^ 32 -> - 2 ^ 31 <= b < 2 ^ 31 -> w32 a = b.
Proof.
  intros E B. pose proof (w32_range a) as R. pose proof (w32_mod a) as M. rewrite E in M.
  generalize dependent (w32 a). intros x R M. clear E.
  assert (D : (x - b) mod 2 ^ 32 = 0) by (rewrite Zminus_mod, M, Z.sub_diag; reflexivity).
  apply Z.mod_divide in D; [|lia]. destruct D as [k D].
  assert (k = 0); [|subst; lia]. change (2 ^ 32) with 4294967296 in D. change (2 ^ 31) with 2147483648 in *. lia.
Qed.
Lemma w32_id z : - 2 ^ 31 <= z < 2 ^ 31 -> w32 z = z.
Proof. intros. apply w32_unique; auto. Qed.
Lemma w32_congr a b : a mod 2 ^ 32 = b mod 2 ^ 32 -> w32 a = w32 b.
Proof. unfold w32. intros ->. reflexivity. Qed.
Lemma w32_add a b : w32 (w32 a + b) = w32 (a + b).
Proof. apply w32_congr. rewrite Zplus_mod, w32_mod, <- Zplus_mod. reflexivity. Qed.

Lemma i32_ok m z : m = Wrapping \/ - 2 ^ 31 <= z < 2 ^ 31 -> i32_result m z = Ok (w32 z).
Proof.
  unfold i32_result. intros H.
  destruct ((- 2 ^ 31 <=? z) && (z <? 2 ^ 31)) eqn:E.
  - rewrite w32_id by lia. reflexivity.
  - destruct H as [->|H]; [reflexivity|lia].
Qed.
Lemma i32_in m z : - 2 ^ 31 <= z < 2 ^ 31 -> i32_result m z = Ok z.
Proof. intros H. rewrite i32_ok, w32_id; auto. Qed.

Lemma shl32_in m x n : 0 <= n < 32 -> shl32 m x n = Ok ((x * 2 ^ n) mod 2 ^ 32).
Proof.
  intros H. unfold shl32, as_u32. replace ((0 <=? n) && (n <? 32)) with true by lia.
  rewrite Z.shiftl_mul_pow2 by lia. reflexivity.
Qed.
Lemma shr32_in m x n : 0 <= n < 32 -> shr32 m x n = Ok (x / 2 ^ n).
Proof.
  intros H. unfold shr32. replace ((0 <=? n) && (n <? 32)) with true by lia.
  rewrite Z.shiftr_div_pow2 by lia. reflexivity.
Qed.
Lemma pow_le a b : 0 <= a <= b -> 2 ^ a <= 2 ^ b.
Proof. intros. apply Z.pow_le_mono_r; lia. Qed.
Lemma pow_pos a : 0 <= a -> 0 < 2 ^ a.
Proof. intros. apply Z.pow_pos_nonneg; lia. Qed.

Lemma low_bits_in m b n : 0 <= n < 32 -> low_bits m b n = Ok (b mod 2 ^ n).
Proof.
  intros H. unfold low_bits. rewrite shl32_in by lia. cbn [bind].
  rewrite Z.mul_1_l, Z.mod_small; [|split; [apply Z.pow_nonneg; lia|apply Z.pow_lt_mono_r; lia]].
  replace (2 ^ n - 1) with (Z.ones n) by (rewrite Z.ones_equiv; lia).
  rewrite Z.land_ones by lia. reflexivity.
Qed.

(** ** The bit buffer *)
Definition stream (q : bitbuf) : list bool := bits_of (Z.to_nat (q_n q)) (q_b q) ++ bit_stream (q_src q).
Definition buf_ok (q : bitbuf) : Prop :=
  0 <= q_n q <= 8 /\ 0 <= q_b q < 2 ^ q_n q /\ bytes_ok (q_src q).

(** [fill] makes the buffer hold at least [w] bits. *)
Lemma fill_ok w : 0 <= w <= 24 -> forall src b n,
  bytes_ok src -> n < 8 -> 0 <= n + w -> 0 <= b < 2 ^ (n + w) ->
  w <= n + w + 8 * len src ->
  exists b' n' src', fill b n src = Ok (b', n', src') /\ 0 <= n' < 8 /\ 0 <= b' < 2 ^ (n' + w) /\
    bytes_ok src' /\
    bits_of (Z.to_nat (n' + w)) b' ++ bit_stream src' = bits_of (Z.to_nat (n + w)) b ++ bit_stream src.
Proof.
  intros Hw. induction src as [|x r IH]; intros b n Hs Hn Hnw Hb Hl; cbn [fill].
  - replace (n <? 0) with false. 2: { change (len []) with 0 in Hl. lia. }
    exists b, n, []. change (len []) with 0 in Hl. repeat split; auto; lia.
  - destruct (n <? 0) eqn:E.
    + inversion Hs as [|? ? Hx Hr]; subst.
      assert (P : 2 ^ (n + w) <= 2 ^ 23) by (apply pow_le; lia).
      assert (V : Z.lor (as_u32 (Z.shiftl b 8)) x = b * 256 + x).
      { unfold as_u32. rewrite Z.shiftl_mul_pow2 by lia. rewrite Z.mod_small.
        2: { change (2 ^ 8) with 256. change (2 ^ 23) with 8388608 in P. change (2 ^ 32) with 4294967296. lia. }
        change 256 with (2 ^ 8). apply lor_add; [lia|exact Hx]. }
      rewrite V. red in Hx. destruct (IH (b * 256 + x) (n + 8)) as (b' & n' & s' & F & A & B & C & D); auto; try lia.
      { replace (n + 8 + w) with (n + w + 8) by lia. rewrite Z.pow_add_r by lia. change (2 ^ 8) with 256. lia. }
      { rewrite len_cons in Hl. lia. }
      exists b', n', s'. repeat split; auto; try lia.
      rewrite D, bit_stream_cons. replace (Z.to_nat (n + 8 + w)) with (Z.to_nat (n + w) + 8)%nat by lia.
      rewrite bits_of_byte by exact Hx. rewrite <- app_assoc. reflexivity.
    + exists b, n, (x :: r). repeat split; auto; lia.
Qed.

(** Splitting off the first [w] bits. *)
Lemma take_bits w n b src v rest :
  0 <= n -> 0 <= w -> 0 <= b < 2 ^ (n + w) -> 0 <= v < 2 ^ w ->
  bits_of (Z.to_nat (n + w)) b ++ bit_stream src = bits_of (Z.to_nat w) v ++ rest ->
  b / 2 ^ n = v /\ bits_of (Z.to_nat n) (b mod 2 ^ n) ++ bit_stream src = rest.
Proof.
  intros Hn Hw Hb Hv E. replace (Z.to_nat (n + w)) with (Z.to_nat w + Z.to_nat n)%nat in E by lia.
  rewrite bits_of_app, <- app_assoc in E. rewrite Z2Nat.id in E by lia.
  assert (L : length (bits_of (Z.to_nat w) (b / 2 ^ n)) = length (bits_of (Z.to_nat w) v))
    by (rewrite !bits_of_length; reflexivity).
  assert (E' := E). apply (f_equal (firstn (Z.to_nat w))) in E. apply (f_equal (skipn (Z.to_nat w))) in E'.
  rewrite !firstn_app, !bits_of_length, !Nat.sub_diag, !firstn_O, !app_nil_r in E.
  rewrite !firstn_all2 in E by (rewrite bits_of_length; lia).
  rewrite !skipn_app, !bits_of_length, !Nat.sub_diag, !skipn_O in E'.
  rewrite !skipn_all2 in E' by (rewrite bits_of_length; lia). cbn [app] in E'.
  split.
  - apply (bits_of_inj (Z.to_nat w)); rewrite ?Z2Nat.id by lia; auto.
    split; [apply Z.div_pos; lia|]. apply Z.div_lt_upper_bound; [lia|]. rewrite <- Z.pow_add_r by lia. lia.
  - rewrite bits_of_mod by lia. exact E'.
Qed.

(** ** The level code of a block *)
Lemma read_level m t q v rest : buf_ok q -> 0 <= v < 2 ^ fsbits t ->
  stream q = bits_of (code_bits t) v ++ rest ->
  exists b n src, fill (q_b q) (q_n q - fsbits t) (q_src q) = Ok (b, n, src) /\ 0 <= n < 8 /\
    shr32 m b n = Ok v /\ low_bits m b n = Ok (b mod 2 ^ n) /\ bytes_ok src /\
    stream (mk_bitbuf (b mod 2 ^ n) n src) = rest.
Proof.
  intros (Hn & Hb & Hs) Hv E. unfold stream in E.
  assert (C : code_bits t = Z.to_nat (fsbits t)) by (destruct t; reflexivity).
  assert (F : 3 <= fsbits t <= 5) by (destruct t; cbn; lia).
  assert (LL : fsbits t <= q_n q + 8 * len (q_src q)).
  { apply (f_equal (@length bool)) in E. rewrite !app_length, !bits_of_length, bit_stream_length in E.
    unfold len. lia. }
  destruct (fill_ok (fsbits t) ltac:(lia) (q_src q) (q_b q) (q_n q - fsbits t)) as (b & n & src & A & B & D & G & I);
    auto; try lia.
  { replace (q_n q - fsbits t + fsbits t) with (q_n q) by lia. exact Hb. }
  replace (q_n q - fsbits t + fsbits t) with (q_n q) in I by lia.
  rewrite E, C in I. destruct (take_bits (fsbits t) n b src v rest ltac:(lia) ltac:(lia) D Hv I) as [V R].
  exists b, n, src. rewrite shr32_in, low_bits_in, V by lia. repeat split; auto; lia.
Qed.

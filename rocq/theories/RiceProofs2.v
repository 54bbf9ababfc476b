(** The RICE decoder inverts the encoder. *)

From Verif Require Import Base Bytes BytesProofs Rice SpecRice RiceProofs.

(** ** Undoing the mapping *)
Lemma unmap_mapped d : - 2 ^ 31 <= d < 2 ^ 31 -> as_i32 (unmap (mapped d)) = d.
Proof.
  intros H. unfold unmap, mapped. change (Z.land ?x 1) with (Z.land x (Z.ones 1)).
  rewrite Z.land_ones by lia. change (2 ^ 1) with 2. unfold as_i32. fold (w32 (if (if d <? 0 then - 2 * d - 1 else 2 * d) mod 2 =? 0
    then Z.shiftr (if d <? 0 then - 2 * d - 1 else 2 * d) 1
    else 2 ^ 32 - 1 - Z.shiftr (if d <? 0 then - 2 * d - 1 else 2 * d) 1)).
  rewrite Z.shiftr_div_pow2 by lia. change (2 ^ 1) with 2.
  apply w32_unique; [|lia]. destruct (Z.ltb_spec d 0).
  - replace ((-2 * d - 1) mod 2) with 1 by (apply (Z.mod_unique_pos _ _ (- d - 1)); lia).
    replace ((-2 * d - 1) / 2) with (- d - 1) by (apply (Z.div_unique_pos _ _ (- d - 1) 1); lia).
    change (1 =? 0) with false. cbv iota.
    replace (2 ^ 32 - 1 - (- d - 1)) with (d + 1 * 2 ^ 32) by lia. rewrite Z.mod_add by lia. reflexivity.
  - rewrite (Z.mul_comm 2), Z.mod_mul, Z.div_mul by lia. reflexivity.
Qed.

Lemma difference_range t p x : - 2 ^ (pixel_bits t - 1) <= difference t p x < 2 ^ (pixel_bits t - 1).
Proof.
  unfold difference. set (w := pixel_bits t). cbv zeta.
  pose proof (Z.mod_pos_bound (x - p + 2 ^ (w - 1)) (2 ^ w)) as B.
  assert (2 ^ w = 2 * 2 ^ (w - 1)) by (subst w; destruct t; reflexivity).
  assert (0 < 2 ^ w) by (subst w; destruct t; reflexivity). lia.
Qed.
Lemma difference_i32 t p x : - 2 ^ 31 <= difference t p x < 2 ^ 31.
Proof.
  pose proof (difference_range t p x) as H.
  assert (2 ^ (pixel_bits t - 1) <= 2 ^ 31) by (apply pow_le; destruct t; cbn; lia). lia.
Qed.
Lemma difference_mod t p x : difference t p x mod 2 ^ pixel_bits t = (x - p) mod 2 ^ pixel_bits t.
Proof.
  unfold difference. cbv zeta. set (w := pixel_bits t).
  assert (0 < 2 ^ w) by (subst w; destruct t; reflexivity).
  rewrite Zminus_mod, Z.mod_mod by lia. rewrite <- Zminus_mod. f_equal. lia.
Qed.
Lemma difference_exact t p x :
  - 2 ^ (pixel_bits t - 1) <= x - p < 2 ^ (pixel_bits t - 1) -> difference t p x = x - p.
Proof.
  intros H. unfold difference. cbv zeta. set (w := pixel_bits t) in *.
  assert (2 ^ w = 2 * 2 ^ (w - 1)) by (subst w; destruct t; reflexivity).
  rewrite Z.mod_small by lia. lia.
Qed.
Lemma mapped_range t d : - 2 ^ (pixel_bits t - 1) <= d < 2 ^ (pixel_bits t - 1) ->
  0 <= mapped d < 2 ^ pixel_bits t.
Proof.
  intros H. assert (2 ^ pixel_bits t = 2 * 2 ^ (pixel_bits t - 1)) by (destruct t; reflexivity).
  unfold mapped. destruct (Z.ltb_spec d 0); lia.
Qed.

(** ** A split number *)
Lemma nonzero_count_spec b : 0 < b < 256 -> nonzero_count b = Ok (Z.log2 b + 1).
Proof.
  intros H. assert (A : forallb (fun k => match nonzero_count (Z.of_nat k) with
                                          | Ok c => c =? Z.log2 (Z.of_nat k) + 1 | _ => false end)
                          (seq 1 255) = true) by (vm_compute; reflexivity).
  rewrite forallb_forall in A. specialize (A (Z.to_nat b)).
  rewrite Z2Nat.id in A by lia. specialize (A ltac:(apply in_seq; lia)).
  destruct (nonzero_count b); try discriminate. f_equal. lia.
Qed.

Lemma repeat_cons_inv k n rest (s : list bool) :
  repeat false n ++ s = repeat false k ++ true :: rest ->
  (n <= k)%nat /\ s = repeat false (k - n) ++ true :: rest.
Proof.
  revert k. induction n as [|n IH]; intros k E; cbn in E.
  - split; [lia|]. rewrite Nat.sub_0_r. exact E.
  - destruct k; cbn in E; [discriminate|]. injection E as E. destruct (IH _ E) as [A B].
    split; [lia|]. exact B.
Qed.

(** The bits of a non-zero number: zeros, the leading one, the others. *)
Lemma leading_one N b : 0 < b < 2 ^ Z.of_nat N ->
  bits_of N b = repeat false (N - 1 - Z.to_nat (Z.log2 b)) ++ true :: bits_of (Z.to_nat (Z.log2 b)) b /\
  Z.log2 b < Z.of_nat N.
Proof.
  intros H. assert (L : Z.log2 b < Z.of_nat N) by (apply Z.log2_lt_pow2; lia).
  pose proof (Z.log2_nonneg b) as L0. split; [|exact L].
  set (l := Z.to_nat (Z.log2 b)). replace N with ((N - 1 - l) + (1 + l))%nat at 1 by lia.
  rewrite bits_of_app. f_equal.
  - rewrite Z.div_small; [apply bits_of_zero|]. split; [lia|].
    replace (Z.of_nat (1 + l)) with (Z.succ (Z.log2 b)) by lia. apply Z.log2_spec. lia.
  - cbn [plus bits_of]. f_equal. replace (Z.of_nat l) with (Z.log2 b) by lia. apply Z.bit_log2. lia.
Qed.

Lemma repeat_eq k n (a b : list bool) :
  repeat false n ++ true :: a = repeat false k ++ true :: b -> n = k /\ a = b.
Proof.
  intros E. destruct (repeat_cons_inv _ _ _ _ E) as [A B].
  destruct (k - n)%nat eqn:D; cbn in B; [|discriminate]. injection B as ->. split; [lia|reflexivity].
Qed.

Lemma skip_zeros_ok m k rest : m = Wrapping \/ Z.of_nat k <= 2 ^ 31 - 16 -> forall src b N,
  bytes_ok src -> 0 <= N -> 0 <= b < 256 -> b < 2 ^ N ->
  bits_of (Z.to_nat N) b ++ bit_stream src = repeat false k ++ true :: rest ->
  exists b' src', skip_zeros m b (w32 N) src = Ok (b', w32 (Z.of_nat k + (Z.log2 b' + 1)), src') /\
    0 < b' < 256 /\ bytes_ok src' /\ bits_of (Z.to_nat (Z.log2 b')) b' ++ bit_stream src' = rest.
Proof.
  intros Hk. induction src as [|x r IH]; intros b N Hs HN Hb HbN E.
  - destruct (Z.eq_dec b 0) as [->|Hb0].
    + exfalso. rewrite bits_of_zero in E. destruct (repeat_cons_inv _ _ _ _ E) as [_ B].
      cbn in B. destruct (k - Z.to_nat N)%nat; discriminate.
    + destruct (leading_one (Z.to_nat N) b) as [A L]; [rewrite Z2Nat.id by lia; lia|].
      rewrite A, <- app_assoc in E. cbn [app] in E. apply repeat_eq in E. destruct E as [E1 E2].
      exists b, []. cbn [skip_zeros]. replace (b =? 0) with false by lia.
      pose proof (Z.log2_nonneg b). repeat split; auto; try lia. do 3 f_equal. f_equal. lia.
  - destruct (Z.eq_dec b 0) as [->|Hb0].
    + rewrite bits_of_zero in E. destruct (repeat_cons_inv _ _ _ _ E) as [A B].
      inversion Hs as [|? ? Hx Hr]; subst.
      cbn [skip_zeros]. change (0 =? 0) with true. cbv iota.
      rewrite i32_ok, w32_add.
      2: { destruct Hk as [Hk|Hk]; [left; exact Hk|right]. rewrite w32_id by lia. lia. }
      destruct (IH x (N + 8)) as (b' & s' & F & G & I & J); auto; try lia.
      { apply Z.lt_le_trans with (2 ^ 8); [exact (proj2 Hx)|apply pow_le; lia]. }
      { replace (Z.to_nat (N + 8)) with (Z.to_nat N + 8)%nat by lia.
        rewrite bits_of_pad by exact Hx. rewrite <- app_assoc, <- bit_stream_cons, <- E. reflexivity. }
      exists b', s'. auto.
    + destruct (leading_one (Z.to_nat N) b) as [A L]; [rewrite Z2Nat.id by lia; lia|].
      rewrite A, <- app_assoc in E. cbn [app] in E. apply repeat_eq in E. destruct E as [E1 E2].
      exists b, (x :: r). cbn [skip_zeros]. replace (b =? 0) with false by lia.
      pose proof (Z.log2_nonneg b). repeat split; auto; try lia. do 3 f_equal. f_equal. lia.
Qed.

Lemma lxor_top b : 0 < b -> Z.lxor b (2 ^ Z.log2 b) = b mod 2 ^ Z.log2 b.
Proof.
  intros H. pose proof (Z.log2_nonneg b). apply Z.bits_inj'. intros k Hk.
  rewrite Z.lxor_spec, Z.pow2_bits_eqb by lia.
  destruct (Z_lt_ge_dec k (Z.log2 b)).
  - rewrite Z.mod_pow2_bits_low by lia. replace (Z.log2 b =? k) with false by lia. apply Bool.xorb_false_r.
  - rewrite Z.mod_pow2_bits_high by lia. destruct (Z.eqb_spec (Z.log2 b) k) as [<-|].
    + rewrite Z.bit_log2 by lia. reflexivity.
    + rewrite Z.bits_above_log2 by lia. reflexivity.
Qed.

(** The pixel a step yields. *)
Definition step_ok m (step : bitbuf -> Z -> res (Z * bitbuf)) (code : list bool) d last : Prop :=
  m = Wrapping \/ - 2 ^ 31 <= d + last < 2 ^ 31 ->
  forall q rest, buf_ok q -> q_n q < 8 -> stream q = code ++ rest ->
  exists q', step q last = Ok (w32 (d + last), q') /\ buf_ok q' /\ q_n q' < 8 /\ stream q' = rest.

Lemma rice_step_ok m fs d last : 0 <= fs <= 24 -> - 2 ^ 31 <= d < 2 ^ 31 ->
  m = Wrapping \/ mapped d / 2 ^ fs <= 2 ^ 31 - 16 ->
  step_ok m (rice_step m fs) (split_code fs (mapped d)) d last.
Proof.
  intros Hfs Hd Hk Ho q rest (Hn & Hb & Hs) Hn8 E.
  assert (Hv : 0 <= mapped d < 2 ^ 32) by (apply (mapped_range RI32); exact Hd).
  assert (Pf : 0 < 2 ^ fs) by (apply pow_pos; lia).
  set (v := mapped d) in *. set (k := v / 2 ^ fs) in *.
  assert (K : 0 <= k < 2 ^ 32).
  { split; [apply Z.div_pos; lia|]. apply Z.div_lt_upper_bound; [lia|]. nia. }
  unfold split_code in E. rewrite <- app_assoc in E. cbn [app] in E. fold k in E.
  destruct (skip_zeros_ok m (Z.to_nat k) (bits_of (Z.to_nat fs) v ++ rest)) with (src := q_src q) (b := q_b q) (N := q_n q)
    as (b & src & A & B & C & D); auto; try lia.
  { destruct Hk; [left|right]; auto. lia. }
  { split; [lia|]. apply Z.lt_le_trans with (2 ^ q_n q); [lia|]. change 256 with (2 ^ 8). apply pow_le. lia. }
  unfold rice_step. rewrite (w32_id (q_n q)) in A by lia. rewrite A. cbn [bind].
  rewrite nonzero_count_spec by lia. cbn [bind].
  pose proof (Z.log2_nonneg b) as L0.
  assert (L8 : Z.log2 b < 8) by (apply Z.log2_lt_pow2; lia).
  set (l := Z.log2 b) in *. rewrite Z2Nat.id by lia. rewrite Z2Nat.id in A by lia.
  assert (M : m = Wrapping \/ k <= 2 ^ 31 - 16) by exact Hk.
  rewrite i32_ok.
  2: { destruct M as [M|M]; [left; exact M|right]. rewrite w32_id by lia. lia. }
  cbn [bind].
  replace (w32 (w32 (k + (l + 1)) - (l + 1))) with (w32 k)
    by (unfold Z.sub; rewrite w32_add; f_equal; lia).
  rewrite i32_ok by (destruct M as [M|M]; [left; exact M|right; rewrite w32_id by lia; lia]).
  cbn [bind]. rewrite w32_add.
  assert (N1 : w32 (w32 (k + (l + 1)) - w32 (k + 1)) = l).
  { apply w32_unique; [|lia]. rewrite Zminus_mod, !w32_mod, <- Zminus_mod. f_equal. lia. }
  rewrite i32_ok by (destruct M as [M|M]; [left; exact M|right; rewrite !w32_id by lia; lia]).
  cbn [bind]. rewrite N1. rewrite shl32_in by lia. cbn [bind].
  rewrite Z.mul_1_l, (Z.mod_small (2 ^ l)) by (split; [apply Z.pow_nonneg; lia|apply Z.pow_lt_mono_r; lia]).
  unfold l at 1. rewrite lxor_top by lia. fold l.
  rewrite i32_in by lia. cbn [bind].
  assert (LS : fs <= l + 8 * len src).
  { apply (f_equal (@length bool)) in D. rewrite !app_length, !bits_of_length, bit_stream_length in D.
    unfold len. lia. }
  destruct (fill_ok fs Hfs src (b mod 2 ^ l) (l - fs)) as (b2 & n2 & s2 & F1 & F2 & F3 & F4 & F5); auto; try lia.
  { replace (l - fs + fs) with l by lia. apply Z.mod_pos_bound. apply pow_pos; lia. }
  rewrite F1. cbn [bind].
  rewrite shl32_in by lia. cbn [bind]. rewrite shr32_in by lia. cbn [bind]. rewrite low_bits_in by lia. cbn [bind].
  replace (l - fs + fs) with l in F5 by lia. rewrite bits_of_mod in F5 by lia. rewrite D in F5.
  rewrite <- (bits_of_mod (Z.to_nat fs) fs) in F5 by lia.
  destruct (take_bits fs n2 b2 s2 (v mod 2 ^ fs) rest) as [T1 T2]; auto; try lia.
  { apply Z.mod_pos_bound. lia. }
  rewrite T1.
  replace (Z.lor ((as_u32 (w32 k) * 2 ^ fs) mod 2 ^ 32) (v mod 2 ^ fs)) with v.
  2: { unfold as_u32. rewrite w32_mod, (Z.mod_small k) by lia.
       pose proof (Z.div_mod v (2 ^ fs) ltac:(lia)) as DM. fold k in DM.
       pose proof (Z.mod_pos_bound v (2 ^ fs) ltac:(lia)) as MB.
       rewrite (Z.mod_small (k * 2 ^ fs)) by nia.
       rewrite lor_add by lia. lia. }
  unfold v. rewrite unmap_mapped by lia. rewrite i32_ok by exact Ho. cbn [bind].
  exists (mk_bitbuf (b2 mod 2 ^ n2) n2 s2). repeat split; cbn; auto; try lia.
  all: apply Z.mod_pos_bound; apply pow_pos; lia.
Qed.

(** ** A raw number *)
Lemma high_bytes_ok W : 0 <= W <= 32 -> forall src b V k,
  bytes_ok src -> -8 <= k <= W - 8 -> 0 <= V < 2 ^ (W - k - 8) ->
  k + 1 <= 8 * len src ->
  exists b' V' k' src', high_bytes b (V * 2 ^ (k + 8)) k src = Ok (b', V' * 2 ^ (k' + 8), k', src') /\
    -8 <= k' < 0 /\ k' mod 8 = k mod 8 /\ 0 <= V' < 2 ^ (W - k' - 8) /\ bytes_ok src' /\
    k + 8 * len src' = k' + 8 * len src /\
    bits_of (Z.to_nat (W - k' - 8)) V' ++ bit_stream src' = bits_of (Z.to_nat (W - k - 8)) V ++ bit_stream src.
Proof.
  intros HW. induction src as [|x r IH]; intros b V k Hs Hk HV Hl; cbn [high_bytes].
  - change (len []) with 0 in Hl. replace (0 <=? k) with false by lia.
    exists b, V, k, []. repeat split; auto; lia.
  - destruct (0 <=? k) eqn:E.
    + inversion Hs as [|? ? Hx Hr]; subst. red in Hx.
      assert (P : 2 ^ (W - k - 8) * 2 ^ (k + 8) <= 2 ^ 32).
      { rewrite <- Z.pow_add_r by lia. apply pow_le. lia. }
      assert (Pk : 0 < 2 ^ k) by (apply pow_pos; lia).
      assert (P2 : 2 ^ (k + 8) = 2 ^ k * 256) by (rewrite Z.pow_add_r by lia; reflexivity).
      assert (Lo : Z.lor (V * 2 ^ (k + 8)) (as_u32 (Z.shiftl x k)) = (V * 256 + x) * 2 ^ (k - 8 + 8)).
      { unfold as_u32. rewrite Z.shiftl_mul_pow2 by lia.
        rewrite (Z.mod_small (x * 2 ^ k)).
        2: { split; [nia|]. assert (2 ^ (k + 8) <= 2 ^ 32) by (apply pow_le; lia). nia. }
        rewrite lor_add by nia. replace (k - 8 + 8) with k by lia. rewrite P2. lia. }
      rewrite Lo. rewrite len_cons in Hl.
      destruct (IH x (V * 256 + x) (k - 8)) as (b' & V' & k' & s' & A & B & C & D & F & F2 & G); auto; try lia.
      { replace (W - (k - 8) - 8) with (W - k - 8 + 8) by lia. rewrite Z.pow_add_r by lia. change (2 ^ 8) with 256. lia. }
      exists b', V', k', s'. repeat split; auto; try lia.
      { rewrite C. replace (k - 8) with (k + (-1) * 8) by lia. apply Z.mod_add. lia. }
      { rewrite len_cons. lia. }
      rewrite G, bit_stream_cons. replace (Z.to_nat (W - (k - 8) - 8)) with (Z.to_nat (W - k - 8) + 8)%nat by lia.
      rewrite bits_of_byte by exact Hx. rewrite <- app_assoc. reflexivity.
    + exists b, V, k, (x :: r). repeat split; auto; lia.
Qed.

Lemma high_step_ok m t d last : - 2 ^ (pixel_bits t - 1) <= d < 2 ^ (pixel_bits t - 1) ->
  step_ok m (high_step m t) (bits_of (Z.to_nat (pixel_bits t)) (mapped d)) d last.
Proof.
  intros Hd Ho q rest (Hn & Hb & Hs) Hn8 E.
  pose proof (mapped_range t d Hd) as Hv.
  assert (Hdi : - 2 ^ 31 <= d < 2 ^ 31).
  { assert (2 ^ (pixel_bits t - 1) <= 2 ^ 31) by (apply pow_le; destruct t; cbn; lia). lia. }
  set (v := mapped d) in *. set (W := pixel_bits t) in *.
  assert (HW : bbits t = W) by (destruct t; reflexivity).
  assert (W8 : 8 <= W <= 32) by (destruct t; cbn; lia).
  assert (Wm : W mod 8 = 0) by (destruct t; reflexivity).
  unfold high_step. rewrite HW. set (n := q_n q) in *.
  assert (D0 : as_u32 (Z.shiftl (q_b q) (W - n)) = q_b q * 2 ^ (W - n - 8 + 8)).
  { unfold as_u32. replace (W - n - 8 + 8) with (W - n) by lia. rewrite Z.shiftl_mul_pow2 by lia. apply Z.mod_small.
    assert (2 ^ n * 2 ^ (W - n) <= 2 ^ 32) by (rewrite <- Z.pow_add_r by lia; apply pow_le; lia).
    assert (0 < 2 ^ (W - n)) by (apply pow_pos; lia). nia. }
  assert (LS : W <= n + 8 * len (q_src q)).
  { unfold stream in E. fold n in E. apply (f_equal (@length bool)) in E.
    rewrite !app_length, !bits_of_length, bit_stream_length in E. unfold len. lia. }
  cbv zeta. rewrite D0.
  destruct (high_bytes_ok W ltac:(lia) (q_src q) (q_b q) (q_b q) (W - n - 8)) as (b' & V & k & src & A & B & C & D & F & F2 & G);
    auto; try lia.
  { replace (W - (W - n - 8) - 8) with n by lia. exact Hb. }
  rewrite A. cbn [bind]. replace (W - (W - n - 8) - 8) with n in G by lia. unfold stream in E. fold n in E. rewrite E in G.
  assert (Kn : k = if 0 <? n then - n else -8).
  { clear - B C Wm Hn Hn8. destruct (Z.ltb_spec 0 n); Z.to_euclidean_division_equations; lia. }
  destruct (Z.ltb_spec 0 n) as [n0|n0].
  - subst k. destruct src as [|x r].
    { exfalso. change (len []) with 0 in F2. lia. }
    cbn [read_u8 bind]. inversion F as [|? ? Hx Hr]; subst. red in Hx.
    rewrite shr32_in by lia. cbn [bind]. rewrite low_bits_in by lia. cbn [bind].
    replace (- - n) with n by lia. replace (W - - n - 8) with (W + n - 8) in * by lia.
    replace (- n + 8) with (8 - n) in * by lia.
    assert (Pn : 2 ^ (8 - n) * 2 ^ n = 256) by (rewrite <- Z.pow_add_r by lia; replace (8 - n + n) with 8 by lia; reflexivity).
    assert (P0 : 0 < 2 ^ n) by (apply pow_pos; lia).
    rewrite lor_add; [|lia|split; [apply Z.div_pos; lia|apply Z.div_lt_upper_bound; lia]].
    rewrite bit_stream_cons, app_assoc in G.
    replace (bits_of (Z.to_nat (W + n - 8)) V ++ bits_of 8 x) with (bits_of (Z.to_nat (n + W)) (V * 256 + x)) in G.
    2: { replace (Z.to_nat (n + W)) with (Z.to_nat (W + n - 8) + 8)%nat by lia. apply bits_of_byte. exact Hx. }
    destruct (take_bits W n (V * 256 + x) r v rest) as [T1 T2]; auto; try lia.
    { replace (n + W) with (W + n - 8 + 8) by lia. rewrite Z.pow_add_r by lia. change (2 ^ 8) with 256. lia. }
    replace (V * 2 ^ (8 - n) + x / 2 ^ n) with v.
    2: { rewrite <- T1. rewrite <- Pn, Z.mul_assoc, Z.add_comm, Z.div_add by lia. lia. }
    unfold v. rewrite unmap_mapped by lia. rewrite i32_ok by exact Ho. cbn [bind].
    exists (mk_bitbuf (x mod 2 ^ n) n r). unfold buf_ok, stream. cbn.
    replace ((V * 256 + x) mod 2 ^ n) with (x mod 2 ^ n) in T2.
    2: { rewrite <- Pn, Z.mul_assoc, Z.add_comm, Z.mod_add by lia. reflexivity. }
    repeat split; auto; try lia; apply Z.mod_pos_bound; lia.
  - subst k. cbn [bind]. replace (-8 + 8) with 0 in * by lia. change (2 ^ 0) with 1. rewrite Z.mul_1_r.
    replace (W - -8 - 8) with (0 + W) in * by lia.
    destruct (take_bits W 0 V src v rest) as [T1 T2]; auto; try lia.
    change (2 ^ 0) with 1 in T1. rewrite Z.div_1_r in T1. subst V.
    unfold v. rewrite unmap_mapped by lia. rewrite i32_ok by exact Ho. cbn [bind].
    exists (mk_bitbuf 0 n src). unfold buf_ok, stream. cbn. assert (n = 0) by lia.
    repeat split; auto; try lia. replace n with 0 by lia. exact T2.
Qed.

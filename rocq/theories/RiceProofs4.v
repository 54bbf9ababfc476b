(** The RICE decoder on arbitrary bytes. *)

From Verif Require Import Base Bytes BytesProofs Rice SpecRice RiceProofs RiceProofs2 RiceProofs3.

Definition room (q : bitbuf) : Z := q_n q + 8 * len (q_src q).

Lemma fill_any src : forall b n, bytes_ok src -> n < 8 -> 0 <= b ->
  fill b n src = Err EEof \/
  exists b' n' src', fill b n src = Ok (b', n', src') /\ 0 <= n' < 8 /\ 0 <= b' /\ bytes_ok src' /\
    n' + 8 * len src' = n + 8 * len src.
Proof.
  induction src as [|x r IH]; intros b n Hs Hn Hb; cbn [fill]; destruct (Z.ltb_spec n 0).
  - left. reflexivity.
  - right. exists b, n, []. repeat split; auto; lia.
  - inversion Hs as [|? ? Hx Hr]; subst. red in Hx.
    assert (B : 0 <= Z.lor (as_u32 (Z.shiftl b 8)) x).
    { apply Z.lor_nonneg. split; [apply Z.mod_pos_bound; lia|lia]. }
    destruct (IH (Z.lor (as_u32 (Z.shiftl b 8)) x) (n + 8) Hr ltac:(lia) B)
      as [E|(b' & n' & s' & E & A1 & A2 & A3 & A4)]; [left; exact E|right].
    exists b', n', s'. rewrite len_cons. repeat split; auto; lia.
  - right. exists b, n, (x :: r). repeat split; auto; lia.
Qed.

Lemma skip_any src : forall b n, bytes_ok src -> 0 <= b < 256 ->
  skip_zeros Wrapping b n src = Err EEof \/
  exists b' n' src', skip_zeros Wrapping b n src = Ok (b', n', src') /\ 0 < b' < 256 /\ bytes_ok src' /\
    (b' = b /\ src' = src \/ len src' < len src).
Proof.
  induction src as [|x r IH]; intros b n Hs Hb; cbn [skip_zeros]; destruct (Z.eqb_spec b 0).
  - rewrite i32_ok by (left; reflexivity). left. reflexivity.
  - right. exists b, n, []. repeat split; auto; lia.
  - rewrite i32_ok by (left; reflexivity). inversion Hs as [|? ? Hx Hr]; subst. red in Hx.
    destruct (IH x (w32 (n + 8)) Hr Hx) as [E|(b' & n' & s' & E & A1 & A2 & A3)]; [left; exact E|right].
    exists b', n', s'. rewrite len_cons. repeat split; auto; try lia.
    right. destruct A3 as [[_ ->]|A3]; lia.
  - right. exists b, n, (x :: r). repeat split; auto; lia.
Qed.

Lemma high_any src : forall b d k, bytes_ok src -> k <= 32 ->
  high_bytes b d k src = Err EEof \/
  exists b' d' k' src', high_bytes b d k src = Ok (b', d', k', src') /\ bytes_ok src' /\
    k' < 0 /\ (-8 <= k -> -8 <= k') /\ len src' <= len src /\ k' - k = 8 * (len src' - len src).
Proof.
  induction src as [|x r IH]; intros b d k Hs Hk; cbn [high_bytes]; destruct (Z.leb_spec 0 k).
  - left. reflexivity.
  - right. exists b, d, k, []. repeat split; auto; lia.
  - inversion Hs as [|? ? Hx Hr]; subst.
    destruct (IH x (Z.lor d (as_u32 (Z.shiftl x k))) (k - 8) Hr ltac:(lia))
      as [E|(b' & d' & k' & s' & E & A1 & A2 & A3 & A4 & A5)]; [left; exact E|right].
    exists b', d', k', s'. rewrite len_cons. repeat split; auto; lia.
  - right. exists b, d, k, (x :: r). repeat split; auto; lia.
Qed.

Definition step_safe (step : bitbuf -> Z -> res (Z * bitbuf)) : Prop :=
  forall q lastpix, buf_ok q -> q_n q < 8 ->
  step q lastpix = Err EEof \/
  exists cur q', step q lastpix = Ok (cur, q') /\ buf_ok q' /\ q_n q' < 8 /\ room q' <= room q.

Lemma low_safe : step_safe low_step.
Proof. intros q l Hq Hn. right. exists l, q. unfold low_step. repeat split; auto; try apply Hq; lia. Qed.

Lemma high_safe t : step_safe (high_step Wrapping t).
Proof.
  intros q l (Hn & Hb & Hs) Hn8. unfold high_step. cbv zeta.
  assert (B : bbits t <= 32 /\ 8 <= bbits t /\ bbits t mod 8 = 0) by (destruct t; (split; [|split]); vm_compute; congruence).
  destruct (high_any (q_src q) (q_b q) (as_u32 (Z.shiftl (q_b q) (bbits t - q_n q))) (bbits t - q_n q - 8) Hs ltac:(lia))
    as [E|(b' & d' & k' & s' & E & A1 & A2 & A3 & A4 & A5)]; rewrite E; cbn [bind]; [left; reflexivity|].
  destruct (Z.ltb_spec 0 (q_n q)).
  - destruct s' as [|x r]; cbn [read_u8 bind]; [left; reflexivity|].
    rewrite shr32_in by lia. cbn [bind]. rewrite low_bits_in by lia. cbn [bind].
    rewrite i32_ok by (left; reflexivity). cbn [bind]. right.
    eexists _, _. split; [reflexivity|]. inversion A1; subst. unfold buf_ok, room. cbn.
    rewrite len_cons in *. repeat split; auto; try lia; apply Z.mod_pos_bound; apply pow_pos; lia.
  - cbn [bind]. rewrite i32_ok by (left; reflexivity). cbn [bind]. right.
    eexists _, _. split; [reflexivity|]. unfold buf_ok, room. cbn.
    repeat split; auto; try lia.
Qed.

Lemma rice_safe fs : 0 <= fs <= 30 -> step_safe (rice_step Wrapping fs).
Proof.
  intros Hfs q l (Hn & Hb & Hs) Hn8. unfold rice_step.
  assert (B : q_b q < 256).
  { apply Z.lt_le_trans with (2 ^ q_n q); [lia|]. change 256 with (2 ^ 8). apply pow_le. lia. }
  destruct (skip_any (q_src q) (q_b q) (q_n q) Hs ltac:(lia)) as [E|(b & n & s & E & A1 & A2 & A3)];
    rewrite E; cbn [bind]; [left; reflexivity|].
  rewrite nonzero_count_spec by lia. cbn [bind].
  pose proof (Z.log2_nonneg b) as L0.
  assert (L8 : Z.log2 b < 8) by (apply Z.log2_lt_pow2; lia).
  set (k := Z.log2 b) in *.
  rewrite i32_ok by (left; reflexivity). cbn [bind].
  rewrite i32_ok by (left; reflexivity). cbn [bind].
  rewrite i32_ok by (left; reflexivity). cbn [bind].
  assert (N1 : w32 (n - w32 (w32 (n - (k + 1)) + 1)) = k).
  { apply w32_unique; [|lia]. rewrite w32_add. rewrite Zminus_mod, w32_mod, <- Zminus_mod. f_equal. lia. }
  rewrite N1, shl32_in by lia. cbn [bind].
  rewrite Z.mul_1_l, (Z.mod_small (2 ^ k)) by (split; [apply Z.pow_nonneg; lia|apply Z.pow_lt_mono_r; lia]).
  unfold k at 1. rewrite lxor_top by lia. fold k.
  rewrite i32_in by lia. cbn [bind].
  assert (M : 0 <= b mod 2 ^ k) by (apply Z.mod_pos_bound; apply pow_pos; lia).
  destruct (fill_any s (b mod 2 ^ k) (k - fs) A2 ltac:(lia) M) as [F|(b2 & n2 & s2 & F & C1 & C2 & C3 & C4)];
    rewrite F; cbn [bind]; [left; reflexivity|].
  rewrite shl32_in by lia. cbn [bind]. rewrite shr32_in by lia. cbn [bind]. rewrite low_bits_in by lia. cbn [bind].
  rewrite i32_ok by (left; reflexivity). cbn [bind]. right.
  eexists _, _. split; [reflexivity|]. unfold buf_ok, room. cbn.
  repeat split; auto; try lia.
  1-2: apply Z.mod_pos_bound; apply pow_pos; lia.
  destruct A3 as [[-> ->]|A3]; [|lia].
  assert (k < q_n q) by (apply Z.log2_lt_pow2; lia). lia.
Qed.

Lemma le_bytes_length n z : len (le_bytes n z) = Z.of_nat n.
Proof. revert z. induction n as [|n IH]; intros z; [reflexivity|]. cbn [le_bytes]. rewrite len_cons, IH. lia. Qed.

Lemma block_safe t L step : step_safe step -> forall n i q lastpix out,
  buf_ok q -> q_n q < 8 -> len out + Z.of_nat (rsize t) * Z.of_nat n <= L ->
  (exists out', block t L step n i q lastpix out = (Err EEof, out') /\ len out' <= L) \/
  (exists q' lastpix' out', block t L step n i q lastpix out = (Ok (i + Z.of_nat n, q', lastpix'), out') /\
     len out' = len out + Z.of_nat (rsize t) * Z.of_nat n /\ buf_ok q' /\ q_n q' < 8 /\ room q' <= room q).
Proof.
  intros Hst. assert (S1 : 1 <= Z.of_nat (rsize t)) by (destruct t; cbn; lia).
  induction n as [|n IH]; intros i q l out Hq Hn HL; cbn [block].
  - right. exists q, l, out. split; [do 4 f_equal; lia|]. split; [lia|]. split; [exact Hq|]. split; lia.
  - rewrite Nat2Z.inj_succ in *. assert (0 <= Z.of_nat (rsize t) * Z.of_nat n) by (apply Z.mul_nonneg_nonneg; lia).
    unfold Z.succ in HL. rewrite Z.mul_add_distr_l in HL.
    replace (len out <? L) with true by lia.
    destruct (Hst q l Hq Hn) as [E|(cur & q1 & E & A1 & A2 & A3)]; rewrite E.
    + left. exists out. split; [reflexivity|lia].
    + replace (len out + Z.of_nat (rsize t) <=? L) with true by lia.
      destruct (IH (i + 1) q1 cur (out ++ le_bytes (rsize t) cur) A1 A2) as [(o & F & G)|(q2 & l2 & o & F & G & B1 & B2 & B3)].
      { rewrite len_app, le_bytes_length. lia. }
      * left. exists o. auto.
      * right. exists q2, l2, o. rewrite F. rewrite len_app, le_bytes_length in G.
        split; [do 4 f_equal; lia|]. split; [lia|]. split; [exact B1|]. split; lia.
Qed.

Lemma fs_step_safe t nblock nx q i lastpix : buf_ok q ->
  0 <= i -> i + nblock < 2 ^ 31 -> 0 <= nblock -> i <= nx ->
  fs_step Wrapping t nblock nx (q_b q) i lastpix (q_n q) (q_src q) = Err EEof \/
  exists q' fs, fs_step Wrapping t nblock nx (q_b q) i lastpix (q_n q) (q_src q) =
    Ok (if fs <? 0 then RLow (q_b q') i (Z.min (i + nblock) nx) lastpix (q_n q')
        else if fs =? fsmax t then RHigh (q_b q') i (Z.min (i + nblock) nx) (q_n q') lastpix
        else RRice (q_b q') fs i (Z.min (i + nblock) nx) lastpix (q_n q'), q_src q') /\
    fs <= 30 /\ buf_ok q' /\ q_n q' < 8 /\ room q' < room q.
Proof.
  intros (Hn & Hb & Hs) Hi Hin Hnb Hx.
  assert (F : 3 <= fsbits t <= 5) by (destruct t; cbn; lia).
  assert (H1 := fill_any (q_src q) (q_b q) (q_n q - fsbits t) Hs ltac:(lia) ltac:(lia)).
  unfold fs_step.
  destruct H1 as [E|(b & n & s & E & A1 & A2 & A3 & A4)]; [left; rewrite E; reflexivity|right].
  (* the value of the level code *)
  assert (LS : fsbits t <= q_n q - fsbits t + fsbits t + 8 * len (q_src q)) by (pose proof (len_nonneg s); lia).
  destruct (fill_ok (fsbits t) ltac:(lia) (q_src q) (q_b q) (q_n q - fsbits t)) as (b2 & n2 & s2 & E2 & C1 & C2 & C3 & C4);
    auto; try lia.
  { replace (q_n q - fsbits t + fsbits t) with (q_n q) by lia. exact Hb. }
  rewrite E2 in E. injection E as -> -> ->.
  rewrite E2. cbn [bind]. rewrite shr32_in by lia. cbn [bind]. rewrite low_bits_in by lia. cbn [bind].
  rewrite i32_in by lia. cbn [bind].
  assert (V : 0 <= b / 2 ^ n < 2 ^ 5).
  { split; [apply Z.div_pos; [lia|apply pow_pos; lia]|].
    apply Z.lt_le_trans with (2 ^ fsbits t); [|apply pow_le; lia].
    apply Z.div_lt_upper_bound; [apply pow_pos; lia|]. rewrite <- Z.pow_add_r by lia. lia. }
  change (2 ^ 5) with 32 in V.
  rewrite as_i32_small by lia.
  exists (mk_bitbuf (b mod 2 ^ n) n s), (b / 2 ^ n - 1). unfold buf_ok, room. cbn.
  repeat split; auto; try lia; apply Z.mod_pos_bound; apply pow_pos; lia.
Qed.

Definition finished L (x : option (res unit) * rstate * list Z * list Z) : Prop :=
  let '(o, _, _, out) := x in
  o = Some (Ok tt) /\ len out = L \/ o = Some (Err EEof) /\ len out <= L.

Lemma loop_safe t nblock nx L : 0 <= nblock -> nx + nblock < 2 ^ 31 -> forall k q i lastpix out fuel,
  room q <= Z.of_nat k -> buf_ok q -> 0 <= i <= nx -> L = len out + Z.of_nat (rsize t) * (nx - i) ->
  (2 * k + 2 <= fuel)%nat ->
  finished L (read_loop Wrapping t nblock nx L fuel (RFs (q_b q) i lastpix (q_n q)) (q_src q) out).
Proof.
  intros Hnb Hnx. assert (S1 : 1 <= Z.of_nat (rsize t)) by (destruct t; cbn; lia).
  assert (FM : 0 <= fsmax t) by (destruct t; cbn; lia).
  induction k as [|k IH]; intros q i l out fuel Hk Hq Hi HL Hf; destruct fuel as [|[|fuel]]; try lia.
  - destruct (fs_step_safe t nblock nx q i l Hq ltac:(lia) ltac:(lia) Hnb ltac:(lia)) as [E|(q' & fs & E & A1 & A2 & A3 & A4)].
    + cbn [read_loop]. rewrite E. right. split; [reflexivity|]. nia.
    + exfalso. destruct A2 as (B & _). pose proof (len_nonneg (q_src q')). unfold room in *. lia.
  - destruct (fs_step_safe t nblock nx q i l Hq ltac:(lia) ltac:(lia) Hnb ltac:(lia)) as [E|(q' & fs & E & A1 & A2 & A3 & A4)];
      cbn [read_loop]; rewrite E.
    + right. split; [reflexivity|]. nia.
    + set (imax := Z.min (i + nblock) nx). fold imax in E.
      assert (Im : i <= imax <= nx) by lia.
      set (st := if fs <? 0 then _ else _).
      assert (B : (exists out', block_step Wrapping t L st (q_src q') out = (Err EEof, out') /\ len out' <= L) \/
        (exists q2 l2 out', block_step Wrapping t L st (q_src q') out = (Ok (imax, q2, l2), out') /\
           len out' = len out + Z.of_nat (rsize t) * (imax - i) /\ buf_ok q2 /\ q_n q2 < 8 /\ room q2 <= room q')).
      { assert (HB : len out + Z.of_nat (rsize t) * Z.of_nat (Z.to_nat (imax - i)) <= L) by nia.
        assert (Hi2 : i + Z.of_nat (Z.to_nat (imax - i)) = imax) by lia.
        assert (Hi3 : Z.of_nat (Z.to_nat (imax - i)) = imax - i) by lia.
        assert (G : forall step, step_safe step ->
          let x := block t L step (Z.to_nat (imax - i)) i (mk_bitbuf (q_b q') (q_n q') (q_src q')) l out in
          (exists out', x = (Err EEof, out') /\ len out' <= L) \/
          (exists q2 l2 out', x = (Ok (imax, q2, l2), out') /\
             len out' = len out + Z.of_nat (rsize t) * (imax - i) /\ buf_ok q2 /\ q_n q2 < 8 /\ room q2 <= room q')).
        { intros step Hst x. subst x. destruct q' as [qb qn qs]. cbn [q_b q_n q_src] in *.
          pose proof (block_safe t L step Hst (Z.to_nat (imax - i)) i (mk_bitbuf qb qn qs) l out A2 A3 HB) as P.
          rewrite Hi2, Hi3 in P. exact P. }
        unfold st. destruct (Z.ltb_spec fs 0); [apply (G _ low_safe)|].
        destruct (Z.eqb_spec fs (fsmax t)); [apply (G _ (high_safe t))|apply (G _ (rice_safe fs ltac:(lia)))]. }
      assert (Ist : block_imax st = imax).
      { unfold st. destruct (fs <? 0); [reflexivity|]. destruct (fs =? fsmax t); reflexivity. }
      assert (Hst : forall X (a b : X) (f : rstate -> X), (match st with RStart => a | RFs _ _ _ _ => b | _ => f st end) = f st).
      { intros X a b f. unfold st. destruct (fs <? 0); [reflexivity|]. destruct (fs =? fsmax t); reflexivity. }
      match goal with |- finished L ?x => assert (Ex : x =
        match block_step Wrapping t L st (q_src q') out with
        | (Ok (i0, q0, lastpix), out') =>
          let st' := if i0 =? block_imax st then RFs (q_b q0) i0 lastpix (q_n q0) else st in
          if len out' =? L then (Some (Ok tt), st', q_src q0, out')
          else read_loop Wrapping t nblock nx L fuel st' (q_src q0) out'
        | (Err e, out') => (Some (Err e), st, [], out')
        | (Panic, out') => (Some Panic, st, q_src q', out')
        end) end.
      { unfold st. destruct (fs <? 0); [reflexivity|]. destruct (fs =? fsmax t); reflexivity. }
      rewrite Ex. clear Ex. destruct B as [(o & B & G)|(q2 & l2 & o & B & G & H1 & H2 & H3)]; rewrite B.
      * right. split; [reflexivity|exact G].
      * cbv zeta. rewrite Ist, Z.eqb_refl. destruct (Z.eqb_spec (len o) L) as [EL|EL].
        -- left. split; [reflexivity|exact EL].
        -- apply IH; auto; try lia.
Qed.

Lemma decode_safe t nblock nx bytes fuel : 0 <= nblock -> 0 <= nx -> nx + nblock < 2 ^ 31 -> bytes_ok bytes ->
  (16 * length bytes + 10 <= fuel)%nat ->
  let '(o, _, out) := rice_read_exact Wrapping t nblock nx (Z.of_nat (rsize t) * nx) fuel bytes in
  o = Some (Ok tt) /\ len out = Z.of_nat (rsize t) * nx \/
  o = Some (Err EEof) /\ len out <= Z.of_nat (rsize t) * nx.
Proof.
  intros Hnb Hnx Hlim Hb Hf. unfold rice_read_exact.
  assert (S1 : 1 <= Z.of_nat (rsize t)) by (destruct t; cbn; lia).
  destruct (Z.eqb_spec (Z.of_nat (rsize t) * nx) 0) as [E|E]; [left; split; [reflexivity|rewrite E; reflexivity]|].
  destruct fuel as [|fuel]; [lia|]. cbn [read_loop].
  unfold read_first. destruct (Z.ltb_spec (len bytes) (Z.of_nat (rsize t))); cbn [bind];
    [right; split; [reflexivity|change (len (@nil Z)) with 0; nia]|].
  assert (Hb' : bytes_ok (skipn (rsize t) bytes)) by (apply Forall_skipn; exact Hb).
  assert (Hl : (length (skipn (rsize t) bytes) <= length bytes)%nat) by (rewrite skipn_length; lia).
  destruct (skipn (rsize t) bytes) as [|b src]; cbn [read_u8 bind];
    [right; split; [reflexivity|change (len (@nil Z)) with 0; nia]|].
  inversion Hb' as [|? ? B1 B2]; subst. red in B1. cbn [length] in Hl.
  match goal with |- context [read_loop _ _ _ _ ?L fuel (RFs _ _ ?p _) _ _] =>
    pose proof (loop_safe t nblock nx L Hnb Hlim (8 * length src + 8) (mk_bitbuf b 8 src) 0 p [] fuel) as P end.
  cbn [q_b q_n q_src] in P. unfold finished in P.
  destruct (read_loop _ _ _ _ _ _ _ _ _) as [[[o st] s] out]. apply P; auto; try lia.
  - unfold room. cbn. unfold len. lia.
  - repeat split; cbn; auto; lia.
  - change (len (@nil Z)) with 0. rewrite Z.sub_0_r. lia.
Qed.

(** ** Builds with overflow checks: a panic, or the same result *)
Definition refines {A} (a b : res A) : Prop := a = Panic \/ a = b.

Lemma refines_refl {A} (a : res A) : refines a a.
Proof. right. reflexivity. Qed.
Lemma refines_bind {A B} (a b : res A) (f g : A -> res B) :
  refines a b -> (forall x, refines (f x) (g x)) -> refines (bind a f) (bind b g).
Proof.
  intros [->| ->] H; [left; reflexivity|]. destruct b; cbn [bind]; [apply H|right; reflexivity|left; reflexivity].
Qed.
Lemma refines_i32 z : refines (i32_result Checked z) (i32_result Wrapping z).
Proof. unfold i32_result, refines. destruct (_ && _); auto. Qed.
Lemma refines_shl x n : refines (shl32 Checked x n) (shl32 Wrapping x n).
Proof. unfold shl32, refines. destruct (_ && _); auto. Qed.
Lemma refines_shr x n : refines (shr32 Checked x n) (shr32 Wrapping x n).
Proof. unfold shr32, refines. destruct (_ && _); auto. Qed.
Lemma refines_low b n : refines (low_bits Checked b n) (low_bits Wrapping b n).
Proof. apply refines_bind; [apply refines_shl|]. intros. apply refines_refl. Qed.
Lemma refines_skip src : forall b n, refines (skip_zeros Checked b n src) (skip_zeros Wrapping b n src).
Proof.
  induction src as [|x r IH]; intros b n; cbn [skip_zeros]; destruct (b =? 0); try apply refines_refl;
    destruct (refines_i32 (n + 8)) as [E|E]; rewrite E; try (left; reflexivity);
    destruct (i32_result Wrapping (n + 8)); try apply IH; apply refines_refl.
Qed.

Lemma refines_rice fs q l : refines (rice_step Checked fs q l) (rice_step Wrapping fs q l).
Proof.
  unfold rice_step. apply refines_bind; [apply refines_skip|]. intros [[b n] src].
  repeat (apply refines_bind; [first [apply refines_refl|apply refines_i32|apply refines_shl]|]; intros).
  match goal with x : (Z * Z * list Z)%type |- _ => destruct x as [[b2 n2] s2] end.
  repeat (apply refines_bind; [first [apply refines_low|apply refines_i32|apply refines_shl|apply refines_shr]|]; intros).
  apply refines_refl.
Qed.
Lemma refines_high t q l : refines (high_step Checked t q l) (high_step Wrapping t q l).
Proof.
  unfold high_step. cbv zeta. apply refines_bind; [apply refines_refl|]. intros [[[b d] k] src].
  apply refines_bind.
  - destruct (0 <? q_n q); [|apply refines_refl]. apply refines_bind; [apply refines_refl|]. intros [b2 s2].
    apply refines_bind; [apply refines_shr|]. intros. apply refines_bind; [apply refines_low|]. intros. apply refines_refl.
  - intros [[b2 d2] s2]. apply refines_bind; [apply refines_i32|]. intros. apply refines_refl.
Qed.
Lemma refines_fs t nblock nx b i l n src :
  refines (fs_step Checked t nblock nx b i l n src) (fs_step Wrapping t nblock nx b i l n src).
Proof.
  unfold fs_step. apply refines_bind; [apply refines_refl|]. intros [[b2 n2] s2].
  repeat (apply refines_bind; [first [apply refines_low|apply refines_i32|apply refines_shr]|]; intros).
  apply refines_refl.
Qed.

Lemma refines_block t L f g : (forall q l, refines (f q l) (g q l)) -> forall n i q l out,
  fst (block t L f n i q l out) = Panic \/ block t L f n i q l out = block t L g n i q l out.
Proof.
  intros H. induction n as [|n IH]; intros i q l out; cbn [block]; [right; reflexivity|].
  destruct (len out <? L); [|right; reflexivity].
  destruct (H q l) as [E|E]; rewrite E; [left; reflexivity|].
  destruct (g q l) as [[cur q']| |]; [|right; reflexivity|left; reflexivity].
  destruct (_ <=? L); [apply IH|left; reflexivity].
Qed.

Lemma refines_block_step t L st src out :
  fst (block_step Checked t L st src out) = Panic \/
  block_step Checked t L st src out = block_step Wrapping t L st src out.
Proof.
  destruct st; try (left; reflexivity); cbn [block_step]; apply refines_block; intros.
  - apply refines_refl.
  - apply refines_high.
  - apply refines_rice.
Qed.

Lemma refines_loop t nblock nx L fuel : forall st src out,
  fst (fst (fst (read_loop Checked t nblock nx L fuel st src out))) = Some Panic \/
  read_loop Checked t nblock nx L fuel st src out = read_loop Wrapping t nblock nx L fuel st src out.
Proof.
  induction fuel as [|fuel IH]; intros st src out; [right; reflexivity|]. cbn [read_loop].
  destruct st as [|b i l n|b i im l n|b i im n l|b fs i im l n].
  - destruct (let! (p, src1) := read_first t src in let! (b, src2) := read_u8 src1 in Ok (p, b, src2)) as [[[p b] s]| |];
      [apply IH|right; reflexivity|left; reflexivity].
  - destruct (refines_fs t nblock nx b i l n src) as [E|E]; rewrite E; [left; reflexivity|].
    destruct (fs_step Wrapping t nblock nx b i l n src) as [[st' s']| |]; [apply IH|right; reflexivity|left; reflexivity].
  - pose proof (refines_block_step t L (RLow b i im l n) src out) as [E|E];
      [destruct (block_step Checked t L (RLow b i im l n) src out) as [[[[i' q] l']| |] o]; try discriminate E; left; reflexivity|].
    rewrite E. destruct (block_step Wrapping t L (RLow b i im l n) src out) as [[[[i' q] l']| |] o];
      [|right; reflexivity|left; reflexivity].
    cbv zeta. destruct (len o =? L); [right; reflexivity|apply IH].
  - pose proof (refines_block_step t L (RHigh b i im n l) src out) as [E|E];
      [destruct (block_step Checked t L (RHigh b i im n l) src out) as [[[[i' q] l']| |] o]; try discriminate E; left; reflexivity|].
    rewrite E. destruct (block_step Wrapping t L (RHigh b i im n l) src out) as [[[[i' q] l']| |] o];
      [|right; reflexivity|left; reflexivity].
    cbv zeta. destruct (len o =? L); [right; reflexivity|apply IH].
  - pose proof (refines_block_step t L (RRice b fs i im l n) src out) as [E|E];
      [destruct (block_step Checked t L (RRice b fs i im l n) src out) as [[[[i' q] l']| |] o]; try discriminate E; left; reflexivity|].
    rewrite E. destruct (block_step Wrapping t L (RRice b fs i im l n) src out) as [[[[i' q] l']| |] o];
      [|right; reflexivity|left; reflexivity].
    cbv zeta. destruct (len o =? L); [right; reflexivity|apply IH].
Qed.

Lemma decode_checked t nblock nx L fuel bytes :
  fst (fst (rice_read_exact Checked t nblock nx L fuel bytes)) = Some Panic \/
  rice_read_exact Checked t nblock nx L fuel bytes = rice_read_exact Wrapping t nblock nx L fuel bytes.
Proof.
  unfold rice_read_exact. destruct (L =? 0); [right; reflexivity|].
  destruct (refines_loop t nblock nx L fuel RStart bytes []) as [E|E]; [left|right; rewrite E; reflexivity].
  destruct (read_loop Checked t nblock nx L fuel RStart bytes []) as [[[o st] s] out]. exact E.
Qed.

(** The RICE decoder inverts the encoder: blocks and tiles. *)

From Coq Require Import Znumtheory.
From Verif Require Import Base Bytes BytesProofs Rice SpecRice RiceProofs RiceProofs2.

Definition tracks (t : rty) (lastpix prev : Z) : Prop :=
  lastpix mod 2 ^ pixel_bits t = prev mod 2 ^ pixel_bits t /\ - 2 ^ 31 <= lastpix < 2 ^ 31 /\
  (t = RI32 -> lastpix = prev).

Lemma mod_sub_congr a b n k : 0 <= n <= k -> a mod 2 ^ k = b mod 2 ^ k -> a mod 2 ^ n = b mod 2 ^ n.
Proof.
  intros H E. assert (P : (2 ^ n | 2 ^ k)).
  { exists (2 ^ (k - n)). rewrite <- Z.pow_add_r by lia. f_equal. lia. }
  assert (0 < 2 ^ n) by (apply pow_pos; lia). assert (0 < 2 ^ k) by (apply pow_pos; lia).
  rewrite (Zmod_div_mod (2 ^ n) (2 ^ k) a), (Zmod_div_mod (2 ^ n) (2 ^ k) b) by auto. rewrite E. reflexivity.
Qed.

Lemma tracks_step t lastpix prev x : tracks t lastpix prev -> pixel_ok t x ->
  tracks t (w32 (difference t prev x + lastpix)) x.
Proof.
  intros (A & R & I) Hx. pose proof (w32_range (difference t prev x + lastpix)).
  assert (M : w32 (difference t prev x + lastpix) mod 2 ^ pixel_bits t = x mod 2 ^ pixel_bits t).
  { rewrite (mod_sub_congr _ (difference t prev x + lastpix) _ 32); [|destruct t; cbn; lia|apply w32_mod].
    rewrite Zplus_mod, difference_mod, A, <- Zplus_mod. f_equal. lia. }
  split; [exact M|]. split; [assumption|]. intros ->. cbn in M, Hx.
  apply w32_unique; [rewrite <- w32_mod; exact M|exact Hx].
Qed.

Lemma le_bytes_pixel t cur x : cur mod 2 ^ pixel_bits t = x mod 2 ^ pixel_bits t ->
  le_bytes (rsize t) cur = pixel_bytes t x.
Proof.
  assert (K : forall z k w, 0 <= k -> 8 * (k + 1) <= w -> byte_of (z mod 2 ^ w) k = byte_of z k).
  { intros z k w Hk Hw. unfold byte_of. change 256 with (2 ^ 8). rewrite <- Z.pow_mul_r by lia.
    apply Z.bits_inj'. intros n Hn. destruct (Z_lt_ge_dec n 8).
    - rewrite !Z.mod_pow2_bits_low by lia. rewrite !Z.div_pow2_bits by lia.
      apply Z.mod_pow2_bits_low. lia.
    - rewrite !Z.mod_pow2_bits_high by lia. reflexivity. }
  assert (E : le_bytes (rsize t) cur = pixel_bytes t cur).
  { destruct t; unfold pixel_bytes, byte_of; cbn [le_bytes rsize map]; rewrite ?Z.div_div by lia;
      repeat f_equal; rewrite ?Z.div_1_r; reflexivity. }
  intros H. rewrite E. unfold pixel_bytes.
  apply map_ext_in. intros k Hk.
  rewrite <- (K cur k (pixel_bits t)), <- (K x k (pixel_bits t)); [rewrite H; reflexivity|..];
    destruct t; cbn in Hk |- *; lia.
Qed.

Lemma len_pixel_bytes t x : len (pixel_bytes t x) = Z.of_nat (rsize t).
Proof. destruct t; reflexivity. Qed.

Lemma len_pixels_bytes t px : len (flat_map (pixel_bytes t) px) = Z.of_nat (rsize t) * len px.
Proof.
  induction px as [|x r IH]; [cbn [flat_map]; change (len (@nil Z)) with 0; lia|]. cbn [flat_map].
  rewrite len_app, len_cons, IH, len_pixel_bytes. lia.
Qed.

Definition quiet m t prev px : Prop := m = Wrapping \/ t = RI32 /\ gentle prev px.

Lemma quiet_head m t prev x px lastpix : quiet m t prev (x :: px) -> tracks t lastpix prev -> pixel_ok t x ->
  m = Wrapping \/ - 2 ^ 31 <= difference t prev x + lastpix < 2 ^ 31.
Proof.
  intros [Q|[-> [Q _]]] (_ & _ & T) Hx; [left; exact Q|right].
  rewrite difference_exact by exact Q. rewrite T by reflexivity. cbn in Hx. lia.
Qed.
Lemma quiet_tail m t prev x px : quiet m t prev (x :: px) -> quiet m t x px.
Proof. intros [Q|[-> [_ Q]]]; [left|right]; auto. Qed.

Lemma last_cons_default (x d : Z) l : last (x :: l) d = last l x.
Proof.
  destruct l as [|y l]; [reflexivity|]. change (last (y :: l) d = last (y :: l) x).
  revert y. induction l as [|z l IH]; intros y; [reflexivity|]. apply (IH z).
Qed.

(** ** A block *)
Lemma block_ok m t L step (code : Z -> list bool) (good : Z -> Prop) :
  (forall d lastpix, - 2 ^ (pixel_bits t - 1) <= d < 2 ^ (pixel_bits t - 1) -> - 2 ^ 31 <= lastpix < 2 ^ 31 ->
     good (mapped d) -> step_ok m step (code (mapped d)) d lastpix) ->
  forall px prev lastpix q rest out i,
  Forall (pixel_ok t) px -> tracks t lastpix prev -> quiet m t prev px ->
  Forall good (mapped_differences t prev px) -> buf_ok q -> q_n q < 8 ->
  stream q = flat_map code (mapped_differences t prev px) ++ rest ->
  len out + Z.of_nat (rsize t) * len px <= L ->
  exists q' lastpix', block t L step (length px) i q lastpix out
      = (Ok (i + len px, q', lastpix'), out ++ flat_map (pixel_bytes t) px) /\
    buf_ok q' /\ q_n q' < 8 /\ stream q' = rest /\ tracks t lastpix' (last px prev).
Proof.
  intros Hstep. induction px as [|x px IH]; intros prev lastpix q rest out i Hp Ht Hq Hg Hb Hn E HL.
  - cbn [block length flat_map]. exists q, lastpix. rewrite app_nil_r. change (len (@nil Z)) with 0.
    rewrite Z.add_0_r. auto.
  - inversion Hp as [|? ? Hx Hpx]; subst. cbn [mapped_differences] in Hg, E.
    inversion Hg as [|? ? Hgx Hgr]; subst. cbn [flat_map] in E. rewrite <- app_assoc in E.
    pose proof (len_nonneg px). rewrite len_cons in HL.
    assert (1 <= Z.of_nat (rsize t)) by (destruct t; cbn; lia).
    destruct (Hstep (difference t prev x) lastpix (difference_range t prev x) (proj1 (proj2 Ht)) Hgx
                (quiet_head _ _ _ _ _ _ Hq Ht Hx) q _ Hb Hn E) as (q1 & S1 & B1 & N1 & E1).
    cbn [block length]. assert (0 <= Z.of_nat (rsize t) * len px) by (apply Z.mul_nonneg_nonneg; lia).
    replace (len out <? L) with true by nia.
    rewrite S1. replace (len out + Z.of_nat (rsize t) <=? L) with true by nia.
    pose proof (tracks_step _ _ _ _ Ht Hx) as Ht'.
    rewrite (le_bytes_pixel t _ x) by apply Ht'.
    destruct (IH x (w32 (difference t prev x + lastpix)) q1 rest (out ++ pixel_bytes t x) (i + 1))
      as (q2 & l2 & A & B & C & D & F); auto.
    { exact (quiet_tail _ _ _ _ _ Hq). }
    { rewrite len_app, len_pixel_bytes. nia. }
    exists q2, l2. rewrite A. repeat split; auto; try apply F; try apply B.
    + rewrite len_cons. cbn [flat_map]. rewrite <- app_assoc. do 4 f_equal. lia.
    + rewrite last_cons_default. apply F.
    + rewrite last_cons_default. apply F.
Qed.

(** ** The code of a block selects the matching loop *)
Lemma as_i32_small v : 0 <= v < 2 ^ 31 -> as_i32 v = v.
Proof. intros H. apply w32_id. lia. Qed.

Lemma fs_step_ok m t nblock nx q i lastpix v rest :
  buf_ok q -> 0 <= v < 2 ^ fsbits t -> stream q = bits_of (code_bits t) v ++ rest ->
  - 2 ^ 31 <= i + nblock < 2 ^ 31 ->
  exists q', buf_ok q' /\ q_n q' < 8 /\ stream q' = rest /\
  fs_step m t nblock nx (q_b q) i lastpix (q_n q) (q_src q) =
  Ok (if v - 1 <? 0 then RLow (q_b q') i (Z.min (i + nblock) nx) lastpix (q_n q')
      else if v - 1 =? fsmax t then RHigh (q_b q') i (Z.min (i + nblock) nx) (q_n q') lastpix
      else RRice (q_b q') (v - 1) i (Z.min (i + nblock) nx) lastpix (q_n q'), q_src q').
Proof.
  intros Hb Hv E Hi. destruct (read_level m t q v rest Hb Hv E) as (b & n & src & A & B & C & D & F & G).
  exists (mk_bitbuf (b mod 2 ^ n) n src). repeat split; cbn; auto; try lia.
  1-2: apply Z.mod_pos_bound; apply pow_pos; lia.
  unfold fs_step. rewrite A. cbn [bind]. rewrite C. cbn [bind]. rewrite D. cbn [bind].
  rewrite i32_in by exact Hi. cbn [bind].
  rewrite as_i32_small; [reflexivity|]. assert (2 ^ fsbits t <= 2 ^ 5) by (apply pow_le; destruct t; cbn; lia). lia.
Qed.

Definition runs_ok m t prev (b : coding * list Z) : Prop :=
  m = Wrapping \/
  match fst b with
  | SplitAt fs => Forall (fun v => v / 2 ^ fs <= 2 ^ 31 - 16) (mapped_differences t prev (snd b))
  | _ => True
  end.

Lemma flat_map_nil {A B} (f : A -> list B) l : (forall x, f x = []) -> flat_map f l = [].
Proof. intros H. induction l; cbn; [reflexivity|]. rewrite H. exact IHl. Qed.

(** The level code, and the loop it selects. *)
Definition loops (m : mode) (t : rty) (nblock nx L : Z) (stb : rstate) (step : bitbuf -> Z -> res (Z * bitbuf)) (n : nat) (i : Z)
  (q : bitbuf) (lastpix : Z) : Prop :=
  forall fuel out, read_loop m t nblock nx L (S fuel) stb (q_src q) out =
    match block t L step n i q lastpix out with
    | (Ok (i', q', lastpix'), out') =>
      let st' := if i' =? block_imax stb then RFs (q_b q') i' lastpix' (q_n q') else stb in
      if len out' =? L then (Some (Ok tt), st', q_src q', out')
      else read_loop m t nblock nx L fuel st' (q_src q') out'
    | (Err e, out') => (Some (Err e), stb, [], out')
    | (Panic, out') => (Some Panic, stb, q_src q, out')
    end.

Lemma block_start m t nblock nx L c px prev lastpix q rest out i :
  coding_ok t c (mapped_differences t prev px) -> runs_ok m t prev (c, px) ->
  Forall (pixel_ok t) px -> tracks t lastpix prev -> quiet m t prev px ->
  buf_ok q -> stream q = block_code t c (mapped_differences t prev px) ++ rest ->
  0 <= i -> i + nblock < 2 ^ 31 -> 0 <= nblock ->
  len out + Z.of_nat (rsize t) * len px <= L ->
  exists stb step q1 q2 lastpix', block_imax stb = Z.min (i + nblock) nx /\
    fs_step m t nblock nx (q_b q) i lastpix (q_n q) (q_src q) = Ok (stb, q_src q1) /\
    loops m t nblock nx L stb step (Z.to_nat (Z.min (i + nblock) nx - i)) i q1 lastpix /\
    block t L step (length px) i q1 lastpix out = (Ok (i + len px, q2, lastpix'), out ++ flat_map (pixel_bytes t) px) /\
    buf_ok q2 /\ stream q2 = rest /\ tracks t lastpix' (last px prev).
Proof.
  intros Hc Hr Hp Ht Hq Hb E Hi Hin Hnb HL.
  assert (FR : raw_level t = fsmax t) by (destruct t; reflexivity).
  assert (FM : 0 <= fsmax t <= 25 /\ fsmax t + 2 <= 2 ^ fsbits t) by (destruct t; cbn; lia).
  destruct c as [|fs|]; cbn [block_code coding_ok] in *.
  - destruct (fs_step_ok m t nblock nx q i lastpix 0 rest) as (q1 & B1 & N1 & S1 & F1); auto; try lia.
    change (0 - 1 <? 0) with true in F1. cbv iota in F1.
    destruct (block_ok m t L low_step (fun _ => []) (fun v => v = 0)) with
      (px := px) (prev := prev) (lastpix := lastpix) (q := q1) (rest := rest) (out := out) (i := i)
      as (q2 & l2 & A & B & C & D & T); auto.
    { intros d lp Hd Hlp Hz Ho qq rr Hbq Hnq Eq. exists qq. unfold low_step.
      assert (d = 0) by (unfold mapped in Hz; destruct (Z.ltb_spec d 0); lia). subst d.
      rewrite w32_id by lia. rewrite Z.add_0_l. auto. }
    { rewrite flat_map_nil by reflexivity. exact S1. }
    eexists _, low_step, q1, q2, l2. split; [|split; [exact F1|]]; [reflexivity|]. split; [|auto].
    intros fuel o. cbn [read_loop]. unfold block_step.
    replace (mk_bitbuf (q_b q1) (q_n q1) (q_src q1)) with q1 by (destruct q1; reflexivity). reflexivity.
  - rewrite <- app_assoc in E.
    destruct (fs_step_ok m t nblock nx q i lastpix (fs + 1) _ Hb ltac:(lia) E ltac:(lia)) as (q1 & B1 & N1 & S1 & F1).
    replace (fs + 1 - 1) with fs in F1 by lia.
    replace (fs <? 0) with false in F1 by lia. replace (fs =? fsmax t) with false in F1 by lia.
    destruct (block_ok m t L (rice_step m fs) (split_code fs) (fun v => m = Wrapping \/ v / 2 ^ fs <= 2 ^ 31 - 16)) with
      (px := px) (prev := prev) (lastpix := lastpix) (q := q1) (rest := rest) (out := out) (i := i)
      as (q2 & l2 & A & B & C & D & T); auto.
    { intros d lp Hd Hlp Hz. apply rice_step_ok; auto; [lia|].
      assert (2 ^ (pixel_bits t - 1) <= 2 ^ 31) by (apply pow_le; destruct t; cbn; lia). lia. }
    { destruct Hr as [Hr|Hr]; [apply Forall_forall; auto|]. cbn in Hr. revert Hr. apply Forall_impl. auto. }
    eexists _, (rice_step m fs), q1, q2, l2. split; [|split; [exact F1|]]; [reflexivity|]. split; [|auto].
    intros fuel o. cbn [read_loop]. unfold block_step.
    replace (mk_bitbuf (q_b q1) (q_n q1) (q_src q1)) with q1 by (destruct q1; reflexivity). reflexivity.
  - rewrite <- app_assoc in E.
    destruct (fs_step_ok m t nblock nx q i lastpix (raw_level t + 1) _ Hb ltac:(lia) E ltac:(lia)) as (q1 & B1 & N1 & S1 & F1).
    replace (raw_level t + 1 - 1) with (fsmax t) in F1 by lia.
    replace (fsmax t <? 0) with false in F1 by lia. rewrite Z.eqb_refl in F1.
    destruct (block_ok m t L (high_step m t) (bits_of (Z.to_nat (pixel_bits t))) (fun _ => True)) with
      (px := px) (prev := prev) (lastpix := lastpix) (q := q1) (rest := rest) (out := out) (i := i)
      as (q2 & l2 & A & B & C & D & T); auto.
    { intros d lp Hd Hlp Hz. apply high_step_ok; auto. }
    { apply Forall_forall. auto. }
    eexists _, (high_step m t), q1, q2, l2. split; [|split; [exact F1|]]; [reflexivity|]. split; [|auto].
    intros fuel o. cbn [read_loop]. unfold block_step.
    replace (mk_bitbuf (q_b q1) (q_n q1) (q_src q1)) with q1 by (destruct q1; reflexivity). reflexivity.
Qed.

(** The level code and the pixels of one block. *)
Lemma block_read m t nblock nx L c px prev lastpix q rest out i fuel :
  coding_ok t c (mapped_differences t prev px) -> runs_ok m t prev (c, px) ->
  Forall (pixel_ok t) px -> tracks t lastpix prev -> quiet m t prev px ->
  buf_ok q -> stream q = block_code t c (mapped_differences t prev px) ++ rest ->
  0 <= i -> i + nblock < 2 ^ 31 -> 0 <= nblock -> Z.min (i + nblock) nx = i + len px ->
  len out + Z.of_nat (rsize t) * len px <= L ->
  exists st0 q' lastpix', buf_ok q' /\ stream q' = rest /\ tracks t lastpix' (last px prev) /\
  read_loop m t nblock nx L (S (S fuel)) (RFs (q_b q) i lastpix (q_n q)) (q_src q) out =
  if len (out ++ flat_map (pixel_bytes t) px) =? L
  then (Some (Ok tt), st0, q_src q', out ++ flat_map (pixel_bytes t) px)
  else read_loop m t nblock nx L fuel (RFs (q_b q') (i + len px) lastpix' (q_n q')) (q_src q')
         (out ++ flat_map (pixel_bytes t) px).
Proof.
  intros Hc Hr Hp Ht Hq Hb E Hi Hin Hnb Hmin HL.
  assert (Hn : Z.to_nat (i + len px - i) = length px) by (unfold len; lia).
  destruct (block_start m t nblock nx L c px prev lastpix q rest out i) as (stb & step & q1 & q2 & l2 & Im & F & Lo & Bl & B & S1 & T); auto.
  exists (RFs (q_b q2) (i + len px) l2 (q_n q2)), q2, l2. split; [exact B|]. split; [exact S1|]. split; [exact T|].
  assert (U : read_loop m t nblock nx L (S (S fuel)) (RFs (q_b q) i lastpix (q_n q)) (q_src q) out
            = read_loop m t nblock nx L (S fuel) stb (q_src q1) out) by (cbn [read_loop]; rewrite F; reflexivity).
  rewrite U, (Lo fuel out), Hmin, Hn, Bl, Im, Hmin, Z.eqb_refl. reflexivity.
Qed.

(** ** A tile *)
Lemma gentle_app prev a b : gentle prev (a ++ b) -> gentle prev a /\ gentle (last a prev) b.
Proof.
  revert prev. induction a as [|x a IH]; intros prev H; [split; [exact I|exact H]|].
  cbn [app gentle] in *. destruct H as [H1 H2]. destruct (IH _ H2) as [A B].
  rewrite last_cons_default. auto.
Qed.

Lemma blocks_ok_nonempty t nblock prev b r : blocks_ok t nblock prev (b :: r) ->
  1 <= nblock /\ 1 <= len (flat_map snd (b :: r)).
Proof.
  revert prev b. induction r as [|b2 r IH]; intros prev [c px] H; cbn [blocks_ok] in H.
  - destruct H as [H _]. cbn [flat_map snd]. rewrite app_nil_r. lia.
  - destruct H as (H1 & _ & H3). destruct (IH _ _ H3) as [A B].
    split; [exact A|]. cbn [flat_map] in *. rewrite len_app. pose proof (len_nonneg (snd (c, px))). lia.
Qed.

Lemma tile_read m t nblock nx L rest : 1 <= nblock -> nx + nblock <= 2 ^ 31 -> forall blocks prev lastpix q out i fuel,
  blocks <> [] -> blocks_ok t nblock prev blocks ->
  (m = Wrapping \/ t = RI32 /\ gentle prev (flat_map snd blocks) /\ short_runs t prev blocks) ->
  Forall (pixel_ok t) (flat_map snd blocks) -> tracks t lastpix prev -> buf_ok q ->
  stream q = blocks_code t prev blocks ++ rest -> 0 <= i ->
  nx = i + len (flat_map snd blocks) ->
  L = len out + Z.of_nat (rsize t) * len (flat_map snd blocks) ->
  (2 * length blocks <= fuel)%nat ->
  exists st src, (8 * length src <= length rest)%nat /\ read_loop m t nblock nx L fuel (RFs (q_b q) i lastpix (q_n q)) (q_src q) out
    = (Some (Ok tt), st, src, out ++ flat_map (pixel_bytes t) (flat_map snd blocks)).
Proof.
  intros Hnb Hnx. induction blocks as [|[c px] r IH]; intros prev lastpix q out i fuel Hne Hok Hm Hp Ht Hb E Hi Hx HL Hf;
    [congruence|].
  cbn [blocks_ok] in Hok. destruct Hok as (H1 & H2 & H3). cbn [flat_map snd] in *.
  cbn [blocks_code] in E. rewrite <- app_assoc in E. apply Forall_app in Hp as [Hp1 Hp2].
  rewrite len_app in Hx, HL. cbn [length] in Hf.
  destruct fuel as [|[|fuel]]; try lia.
  pose proof (len_nonneg px). pose proof (len_nonneg (flat_map snd r)).
  assert (Sz : 1 <= Z.of_nat (rsize t)) by (destruct t; cbn; lia).
  assert (NE : r <> [] -> 1 <= len (flat_map snd r)).
  { destruct r as [|b2 r2]; [congruence|]. intros _. apply (blocks_ok_nonempty _ _ _ _ _ H3). }
  assert (Px : len px <= nblock) by (destruct r; lia).
  assert (Px1 : 1 <= len px) by (destruct r; lia).
  assert (Q : quiet m t prev px).
  { destruct Hm as [Hm|(-> & Hm & _)]; [left; exact Hm|right]. split; [reflexivity|]. apply gentle_app in Hm. apply Hm. }
  assert (R : runs_ok m t prev (c, px)).
  { destruct Hm as [Hm|(_ & _ & Hm)]; [left; exact Hm|right]. cbn [short_runs] in Hm. apply Hm. }
  destruct (block_read m t nblock nx L c px prev lastpix q (blocks_code t (last px prev) r ++ rest) out i fuel)
    as (st0 & q1 & l1 & A & B & C & D); auto; try lia.
  { destruct r; [cbn [flat_map] in Hx; change (len (@nil Z)) with 0 in Hx; lia|]. rewrite H1. specialize (NE ltac:(congruence)). lia. }
  rewrite D. rewrite len_app, len_pixels_bytes.
  destruct r as [|b2 r2].
  - cbn [flat_map] in *. change (len (@nil Z)) with 0 in *.
    replace (_ =? L) with true by nia. rewrite app_nil_r. exists st0, (q_src q1). split; [|reflexivity].
    cbn [blocks_code app] in B. rewrite <- B. unfold stream. rewrite app_length, bit_stream_length. lia.
  - specialize (NE ltac:(congruence)). replace (_ =? L) with false by nia.
    destruct (IH (last px prev) l1 q1 (out ++ flat_map (pixel_bytes t) px) (i + len px) fuel) as (st & src & Fl & F); auto; try lia.
    { congruence. }
    { destruct Hm as [Hm|(-> & Hm & Hs)]; [left; exact Hm|right]. apply gentle_app in Hm.
      cbn [short_runs] in Hs. repeat split; [apply Hm|apply Hs]. }
    { rewrite len_app, len_pixels_bytes. nia. }
    exists st, src. split; [exact Fl|]. rewrite F. rewrite flat_map_app, app_assoc. reflexivity.
Qed.

Lemma be_value_unsigned bs : be_unsigned bs = be_value bs.
Proof.
  unfold be_unsigned. assert (G : forall a, fold_left (fun a b => a * 256 + b) bs a = a * 256 ^ len bs + be_value bs).
  { induction bs as [|b r IH]; intros a; cbn [fold_left be_value].
    - change (len (@nil Z)) with 0. change (256 ^ 0) with 1. lia.
    - rewrite IH, len_cons, Z.pow_add_r by (pose proof (len_nonneg r); lia). change (256 ^ 1) with 256. ring. }
  rewrite G. lia.
Qed.

Lemma bytes_from_tail (a b : list Z) : bytes_ok (a ++ b) -> bytes_ok b.
Proof. intros H. apply Forall_app in H. apply H. Qed.

Lemma first_pixel t head data x : len head = pixel_bits t / 8 -> be_value head = x mod 2 ^ pixel_bits t ->
  pixel_ok t x -> read_first t (head ++ data) = Ok (x, data).
Proof.
  intros Hl Hv Hx. unfold read_first.
  assert (S : Z.of_nat (rsize t) = len head) by (rewrite Hl; destruct t; reflexivity).
  assert (S' : rsize t = length head) by (unfold len in S; lia).
  rewrite len_app. pose proof (len_nonneg data). replace (len head + len data <? Z.of_nat (rsize t)) with false by lia.
  rewrite S' , firstn_app, Nat.sub_diag, firstn_O, app_nil_r, firstn_all.
  rewrite skipn_app, Nat.sub_diag, skipn_O, skipn_all. cbn [app]. do 2 f_equal.
  rewrite be_value_unsigned, Hv. destruct t; cbn [pixel_bits] in *; cbn in Hx.
  - apply Z.mod_small. change (2 ^ 8) with 256. lia.
  - unfold to_signed. change (8 * 2 - 1) with 15. change (8 * 2) with 16.
    change (2 ^ 16) with 65536. change (2 ^ 15) with 32768 in *.
    destruct (Z.ltb_spec (x mod 65536) 32768); Z.to_euclidean_division_equations; lia.
  - change (to_signed 4 (x mod 2 ^ 32)) with (w32 x). apply w32_id. lia.
Qed.

(** The whole of [read_exact]. *)
Lemma tile_decoded m t nblock pixels bytes fuel x0 head data blocks rest :
  hd_error pixels = Some x0 -> bytes = head ++ data -> len head = pixel_bits t / 8 ->
  be_value head = x0 mod 2 ^ pixel_bits t -> pixels = flat_map snd blocks -> blocks_ok t nblock x0 blocks ->
  bit_stream data = blocks_code t x0 blocks ++ rest ->
  bytes_ok bytes -> Forall (pixel_ok t) pixels -> len pixels + nblock <= 2 ^ 31 ->
  (m = Wrapping \/ t = RI32 /\ gentle x0 pixels /\ short_runs t x0 blocks) ->
  (2 * length pixels + 1 <= fuel)%nat ->
  exists src, (8 * length src <= length rest)%nat /\ rice_read_exact m t nblock (len pixels) (pixel_bits t / 8 * len pixels) fuel bytes
    = (Some (Ok tt), src, flat_map (pixel_bytes t) pixels).
Proof.
  intros Hh Hbs Hl Hv Hpx Hok Hst Hby Hp Hnx Hm Hf.
  assert (Hx0 : pixel_ok t x0).
  { destruct pixels; [discriminate|]. injection Hh as ->. inversion Hp; auto. }
  assert (P1 : 1 <= len pixels) by (destruct pixels; [discriminate|rewrite len_cons; pose proof (len_nonneg pixels); lia]).
  assert (Bne : blocks <> []) by (intros ->; subst pixels; discriminate).
  assert (N1 : 1 <= nblock) by (destruct blocks as [|b r]; [congruence|apply (blocks_ok_nonempty _ _ _ _ _ Hok)]).
  assert (Sz : Z.of_nat (rsize t) = pixel_bits t / 8) by (destruct t; reflexivity).
  assert (S1 : 1 <= Z.of_nat (rsize t)) by (destruct t; cbn; lia).
  assert (Hfb : (2 * length blocks <= 2 * length pixels)%nat).
  { clear - Hok Hpx Bne. subst pixels. revert x0 Hok. induction blocks as [|[c px] r IH]; intros x0 Hok; [congruence|].
    pose proof (blocks_ok_nonempty _ _ _ _ _ Hok) as [N1 _].
    cbn [blocks_ok] in Hok. destruct Hok as (H1 & _ & H3). cbn [flat_map snd length]. rewrite app_length.
    destruct r as [|b2 r2].
    - cbn [length flat_map]. unfold len in H1. lia.
    - specialize (IH ltac:(congruence) _ H3). unfold len in H1. lia. }
  unfold rice_read_exact. replace (pixel_bits t / 8 * len pixels =? 0) with false by nia.
  destruct fuel as [|fuel]; [lia|]. cbn [read_loop]. rewrite Hbs, (first_pixel t head data x0) by auto. cbn [bind].
  destruct data as [|b src].
  { exfalso. destruct blocks as [|[c px] r]; [congruence|]. cbn [blocks_code] in Hst. rewrite <- app_assoc in Hst.
    unfold block_code in Hst. cbn in Hst. destruct c, t; cbn in Hst; discriminate. }
  cbn [read_u8 bind]. rewrite Hbs in Hby. apply bytes_from_tail in Hby. inversion Hby as [|? ? Hb8 Hsrc]; subst.
  destruct (tile_read m t nblock (len (flat_map snd blocks)) (pixel_bits t / 8 * len (flat_map snd blocks)) rest N1 ltac:(lia) blocks x0 x0
              (mk_bitbuf b 8 src) [] 0 fuel) as (st & src' & Fl & F); auto; try lia.
  { repeat split; auto. all: destruct t; cbn in Hx0; lia. }
  { repeat split; cbn; auto; red in Hb8; lia. }
  { change (len (@nil Z)) with 0. rewrite Sz. lia. }
  cbn [q_b q_n q_src] in F. rewrite F. eauto.
Qed.

(** The decoder on codes that are cut, and on codes of fewer pixels than it is told. *)

From Verif Require Import Base TextLemmas Bytes Rice SpecImage SpecRice RiceProofs RiceProofs2 RiceProofs3 RiceProofs5.

(** ** What is written stays *)

Lemma block_extends t L step : forall n i q lastpix out,
  exists ws, snd (block t L step n i q lastpix out) = out ++ flat_map (le_bytes (rsize t)) ws.
Proof.
  induction n as [|n IH]; intros i q lastpix out; cbn [block]; [exists []; rewrite app_nil_r; reflexivity|].
  destruct (len out <? L); [|exists []; rewrite app_nil_r; reflexivity].
  destruct (step q lastpix) as [[cur q']|e|]; try (exists []; rewrite app_nil_r; reflexivity).
  destruct (len out + Z.of_nat (rsize t) <=? L); [|exists []; rewrite app_nil_r; reflexivity].
  destruct (IH (i + 1) q' cur (out ++ le_bytes (rsize t) cur)) as (ws & E). exists (cur :: ws). rewrite E.
  cbn [flat_map]. rewrite <- app_assoc. reflexivity.
Qed.

Lemma block_step_extends m t L st src out : exists ws, snd (block_step m t L st src out) = out ++ flat_map (le_bytes (rsize t)) ws.
Proof. destruct st; cbn [block_step]; try (exists []; rewrite app_nil_r; reflexivity); apply block_extends. Qed.

Lemma loop_extends m t nblock nx L : forall fuel st src out,
  exists ws, snd (read_loop m t nblock nx L fuel st src out) = out ++ flat_map (le_bytes (rsize t)) ws.
Proof.
  induction fuel as [|fuel IH]; intros st src out; [exists []; rewrite app_nil_r; reflexivity|]. cbn [read_loop].
  assert (Nil : forall A (x : A), exists ws, snd (x, out) = out ++ flat_map (le_bytes (rsize t)) ws)
    by (intros; exists []; rewrite app_nil_r; reflexivity).
  assert (Bl : exists ws, snd (match block_step m t L st src out with
      | (Ok (i, q, lastpix), out') =>
        let st' := if i =? block_imax st then RFs (q_b q) i lastpix (q_n q) else st in
        if len out' =? L then (Some (Ok tt), st', q_src q, out')
        else read_loop m t nblock nx L fuel st' (q_src q) out'
      | (Err e, out') => (Some (Err e), st, [], out')
      | (Panic, out') => (Some Panic, st, src, out')
      end) = out ++ flat_map (le_bytes (rsize t)) ws).
  { destruct (block_step_extends m t L st src out) as (ws & E).
    destruct (block_step m t L st src out) as [[[[i q] lp]|e|] out']; cbn [snd] in E; subst out'; try (exists ws; reflexivity).
    cbv zeta. destruct (len (out ++ flat_map (le_bytes (rsize t)) ws) =? L); [exists ws; reflexivity|].
    match goal with |- context [read_loop m t nblock nx L fuel ?st' ?s ?o] => destruct (IH st' s o) as (ws' & E) end.
    exists (ws ++ ws'). rewrite E, flat_map_app, app_assoc. reflexivity. }
  destruct st; auto.
  - destruct (let! (p, src1) := read_first t src in let! (b, src2) := read_u8 src1 in Ok (p, b, src2)) as [[[p b] s]|e|]; auto.
  - destruct (fs_step m t nblock nx b i lastpix nbits src) as [[st' s]|e|]; auto.
Qed.

(** ** Fewer pixels than wanted *)

Lemma block_more t L step n2 : forall n1 i q lastpix out i' q' lastpix' out',
  block t L step n1 i q lastpix out = (Ok (i', q', lastpix'), out') -> i' = i + Z.of_nat n1 ->
  block t L step (n1 + n2) i q lastpix out = block t L step n2 i' q' lastpix' out'.
Proof.
  induction n1 as [|n1 IH]; intros i q lastpix out i' q' lastpix' out' E Ei; cbn [block Nat.add] in *; [inversion E; subst; reflexivity|].
  destruct (len out <? L); [|inversion E; lia].
  destruct (step q lastpix) as [[cur q1]|e|]; try discriminate.
  destruct (len out + Z.of_nat (rsize t) <=? L); [|discriminate].
  apply IH with (1 := E). lia.
Qed.

Lemma tile_short m t nblock nx L rest : 1 <= nblock -> nx + nblock <= 2 ^ 31 -> forall blocks prev lastpix q out i fuel,
  blocks <> [] -> blocks_ok t nblock prev blocks ->
  (m = Wrapping \/ t = RI32 /\ gentle prev (flat_map snd blocks) /\ short_runs t prev blocks) ->
  Forall (pixel_ok t) (flat_map snd blocks) -> tracks t lastpix prev -> buf_ok q ->
  stream q = blocks_code t prev blocks ++ rest -> 0 <= i ->
  i + len (flat_map snd blocks) < nx ->
  L = len out + Z.of_nat (rsize t) * (nx - i) ->
  (2 * length blocks <= fuel)%nat ->
  exists ws, snd (read_loop m t nblock nx L fuel (RFs (q_b q) i lastpix (q_n q)) (q_src q) out)
    = out ++ flat_map (pixel_bytes t) (flat_map snd blocks) ++ flat_map (le_bytes (rsize t)) ws.
Proof.
  intros Hnb Hnx. induction blocks as [|[c px] r IH]; intros prev lastpix q out i fuel Hne Hok Hm Hp Ht Hb E Hi Hx HL Hf;
    [congruence|].
  cbn [blocks_ok] in Hok. destruct Hok as (H1 & H2 & H3). cbn [flat_map snd] in *.
  cbn [blocks_code] in E. rewrite <- app_assoc in E. apply Forall_app in Hp as [Hp1 Hp2].
  rewrite len_app in Hx. cbn [length] in Hf.
  destruct fuel as [|[|fuel]]; try lia.
  pose proof (len_nonneg px). pose proof (len_nonneg (flat_map snd r)).
  assert (Sz : 1 <= Z.of_nat (rsize t)) by (destruct t; cbn; lia).
  assert (Px : len px <= nblock) by (destruct r; lia).
  assert (Px1 : 1 <= len px) by (destruct r; lia).
  assert (Q : quiet m t prev px).
  { destruct Hm as [Hm|(-> & Hm & _)]; [left; exact Hm|right]. split; [reflexivity|]. apply gentle_app in Hm. apply Hm. }
  assert (R : runs_ok m t prev (c, px)).
  { destruct Hm as [Hm|(_ & _ & Hm)]; [left; exact Hm|right]. cbn [short_runs] in Hm. apply Hm. }
  destruct r as [|b2 r2].
  - cbn [flat_map] in *. rewrite app_nil_r. change (len (@nil Z)) with 0 in *.
    destruct (block_start m t nblock nx L c px prev lastpix q (blocks_code t (last px prev) [] ++ rest) out i)
      as (stb & step & q1 & q2 & l2 & Im & F & Lo & Bl & B & S1 & T); auto; try nia.
    assert (U : read_loop m t nblock nx L (S (S fuel)) (RFs (q_b q) i lastpix (q_n q)) (q_src q) out
            = read_loop m t nblock nx L (S fuel) stb (q_src q1) out) by (cbn [read_loop]; rewrite F; reflexivity).
    rewrite U, (Lo fuel out).
    set (n2 := (Z.to_nat (Z.min (i + nblock) nx - i) - length px)%nat).
    replace (Z.to_nat (Z.min (i + nblock) nx - i)) with (length px + n2)%nat by (unfold n2, len in *; lia).
    rewrite (block_more t L step n2 _ _ _ _ _ _ _ _ _ Bl) by reflexivity.
    destruct (block_extends t L step n2 (i + len px) q2 l2 (out ++ flat_map (pixel_bytes t) px)) as (ws & Ex).
    destruct (block t L step n2 (i + len px) q2 l2 (out ++ flat_map (pixel_bytes t) px)) as [[[[i' q'] lp]|e|] out'];
      cbn [snd] in Ex; subst out'; try (exists ws; cbn [snd]; rewrite app_assoc; reflexivity).
    cbv zeta. destruct (_ =? L); [exists ws; cbn [snd]; rewrite app_assoc; reflexivity|].
    match goal with |- context [read_loop m t nblock nx L fuel ?st' ?s ?o] => destruct (loop_extends m t nblock nx L fuel st' s o) as (ws' & E') end.
    exists (ws ++ ws'). rewrite E', flat_map_app, <- !app_assoc. reflexivity.
  - assert (NE : 1 <= len (flat_map snd (b2 :: r2))) by apply (blocks_ok_nonempty _ _ _ _ _ H3).
    destruct (block_read m t nblock nx L c px prev lastpix q (blocks_code t (last px prev) (b2 :: r2) ++ rest) out i fuel)
      as (st0 & q1 & l1 & A & B & C & D); auto; try nia.
    rewrite D. rewrite len_app, len_pixels_bytes. replace (_ =? L) with false by nia.
    destruct (IH (last px prev) l1 q1 (out ++ flat_map (pixel_bytes t) px) (i + len px) fuel) as (ws & F); auto; try lia.
    { congruence. }
    { destruct Hm as [Hm|(-> & Hm & Hs)]; [left; exact Hm|right]. apply gentle_app in Hm.
      cbn [short_runs] in Hs. repeat split; [apply Hm|apply Hs]. }
    { rewrite len_app, len_pixels_bytes. nia. }
    exists ws. rewrite F. rewrite flat_map_app, <- !app_assoc. reflexivity.
Qed.

Lemma blocks_fewer t nblock : forall blocks x0, blocks_ok t nblock x0 blocks -> (length blocks <= length (block_pixels blocks))%nat.
Proof.
  unfold block_pixels. induction blocks as [|[c px] r IH]; intros x0 Hok; [cbn; lia|].
  pose proof (blocks_ok_nonempty _ _ _ _ _ Hok) as [N1 _].
  cbn [blocks_ok] in Hok. destruct Hok as (H1 & _ & H3). specialize (IH _ H3). cbn [flat_map snd length]. rewrite app_length.
  destruct r; unfold len in H1; lia.
Qed.

Lemma short_decoded m t nblock nx x0 blocks bytes fuel :
  compressed t nblock x0 blocks bytes ->
  bytes_ok bytes -> Forall (pixel_ok t) (block_pixels blocks) -> len (block_pixels blocks) < nx -> nx + nblock <= 2 ^ 31 ->
  (m = Wrapping \/ t = RI32 /\ gentle x0 (block_pixels blocks) /\ short_runs t x0 blocks) ->
  (2 * length (block_pixels blocks) + 1 <= fuel)%nat ->
  exists ws, snd (rice_read_exact m t nblock nx (pixel_bits t / 8 * nx) fuel bytes)
    = flat_map (pixel_bytes t) (block_pixels blocks) ++ flat_map (le_bytes (rsize t)) ws.
Proof.
  intros (head & data & rest & Hh & Hbs & Hl & Hv & Hok & Hst) Hby Hp Hs Hnx Hm Hf.
  pose proof (blocks_fewer _ _ _ _ Hok) as Hfb. unfold block_pixels in *.
  assert (Hx0 : pixel_ok t x0).
  { destruct (flat_map snd blocks); [discriminate|]. injection Hh as ->. inversion Hp; auto. }
  assert (Bne : blocks <> []) by (intros ->; discriminate).
  assert (N1 : 1 <= nblock /\ 1 <= len (flat_map snd blocks)) by (destruct blocks as [|b r]; [congruence|apply (blocks_ok_nonempty _ _ _ _ _ Hok)]).
  assert (Sz : Z.of_nat (rsize t) = pixel_bits t / 8) by (destruct t; reflexivity).
  assert (S1 : 1 <= Z.of_nat (rsize t)) by (destruct t; cbn; lia).
  unfold rice_read_exact. replace (pixel_bits t / 8 * nx =? 0) with false by nia.
  destruct fuel as [|fuel]; [lia|]. cbn [read_loop]. rewrite Hbs, (first_pixel t head data x0) by auto. cbn [bind].
  destruct data as [|b src].
  { exfalso. destruct blocks as [|[c px] r]; [congruence|]. cbn [blocks_code] in Hst. rewrite <- app_assoc in Hst.
    unfold block_code in Hst. cbn in Hst. destruct c, t; cbn in Hst; discriminate. }
  cbn [read_u8 bind]. rewrite Hbs in Hby. apply bytes_from_tail in Hby. inversion Hby as [|? ? Hb8 Hsrc]; subst.
  destruct (tile_short m t nblock nx (pixel_bits t / 8 * nx) rest (proj1 N1) ltac:(lia) blocks x0 x0
              (mk_bitbuf b 8 src) [] 0 fuel) as (ws & F); auto; try lia.
  { repeat split; auto. all: destruct t; cbn in Hx0; lia. }
  { repeat split; cbn; auto; red in Hb8; lia. }
  { change (len (@nil Z)) with 0. rewrite Sz. lia. }
  cbn [q_b q_n q_src app] in F. exists ws. rewrite <- F.
  destruct (read_loop m t nblock nx (pixel_bits t / 8 * nx) fuel (RFs b 0 x0 8) src []) as [[[? ?] ?] ?]. reflexivity.
Qed.

(** ** Codes that are cut *)

(** What is computed from [src ++ more] is computed from [src], or the end of [src] is met. *)
Definition cut {A} (more : list Z) (full part : res (A * list Z)) : Prop :=
  forall a rest, full = Ok (a, rest) ->
    (exists r, rest = r ++ more /\ part = Ok (a, r)) \/ (part = Err EEof /\ len rest < len more).

Lemma read_u8_cut src more : cut more (read_u8 (src ++ more)) (read_u8 src).
Proof.
  intros a rest E. destruct src as [|x src]; cbn [read_u8 app] in *.
  - right. split; auto. destruct more as [|y more]; [discriminate|]. inversion E; subst. rewrite len_cons. lia.
  - left. inversion E; subst. eauto.
Qed.
Lemma read_first_cut t src more : cut more (read_first t (src ++ more)) (read_first t src).
Proof.
  intros a rest. unfold read_first. rewrite len_app. pose proof (len_nonneg more).
  destruct (Z.ltb_spec (len src + len more) (Z.of_nat (rsize t))); [discriminate|]. intro E.
  destruct (Z.ltb_spec (len src) (Z.of_nat (rsize t))).
  - right. split; auto. inversion E; subst. unfold len in *. rewrite skipn_length, app_length. lia.
  - left. unfold len in *. rewrite firstn_app, skipn_app in E. replace (rsize t - length src)%nat with O in E by lia.
    rewrite firstn_O, skipn_O, app_nil_r in E. inversion E; subst. eauto.
Qed.
Lemma fill_shrinks : forall s b n b' n' rest, fill b n s = Ok (b', n', rest) -> len rest <= len s.
Proof.
  induction s as [|x s IH]; intros b n b' n' rest E; cbn [fill] in E; destruct (n <? 0); try discriminate; try (inversion E; subst; lia).
  apply IH in E. rewrite len_cons. lia.
Qed.
Lemma high_shrinks : forall s b d k b' d' k' rest, high_bytes b d k s = Ok (b', d', k', rest) -> len rest <= len s.
Proof.
  induction s as [|x s IH]; intros b d k b' d' k' rest E; cbn [high_bytes] in E; destruct (0 <=? k); try discriminate; try (inversion E; subst; lia).
  apply IH in E. rewrite len_cons. lia.
Qed.
Lemma skip_shrinks m : forall s b n b' n' rest, skip_zeros m b n s = Ok (b', n', rest) -> len rest <= len s.
Proof.
  induction s as [|x s IH]; intros b n b' n' rest E; cbn [skip_zeros] in E; destruct (b =? 0); try (inversion E; subst; lia);
    destruct (i32_result m (n + 8)); try discriminate. apply IH in E. rewrite len_cons. lia.
Qed.
Lemma fill_cut more : forall src b n b' n' rest, fill b n (src ++ more) = Ok (b', n', rest) ->
  (exists r, rest = r ++ more /\ fill b n src = Ok (b', n', r)) \/ (fill b n src = Err EEof /\ len rest < len more).
Proof.
  pose proof (fill_shrinks) as Sh.
  induction src as [|x src IH]; intros b n b' n' rest E.
  - destruct (n <? 0) eqn:N; cbn [fill]; rewrite N; cbn [app] in E; destruct more as [|y more]; cbn [fill] in E; rewrite N in E.
    + discriminate.
    + right. split; auto. apply Sh in E. rewrite len_cons. lia.
    + left. inversion E; subst. exists []. auto.
    + left. inversion E; subst. exists []. auto.
  - cbn [fill app] in *. destruct (n <? 0); [apply IH, E|]. left. inversion E; subst. exists (x :: src). auto.
Qed.
Lemma high_bytes_cut more : forall src b d k b' d' k' rest, high_bytes b d k (src ++ more) = Ok (b', d', k', rest) ->
  (exists r, rest = r ++ more /\ high_bytes b d k src = Ok (b', d', k', r)) \/ (high_bytes b d k src = Err EEof /\ len rest < len more).
Proof.
  pose proof (high_shrinks) as Sh.
  induction src as [|x src IH]; intros b d k b' d' k' rest E.
  - destruct (0 <=? k) eqn:N; cbn [high_bytes]; rewrite N; cbn [app] in E; destruct more as [|y more]; cbn [high_bytes] in E; rewrite N in E.
    + discriminate.
    + right. split; auto. apply Sh in E. rewrite len_cons. lia.
    + left. inversion E; subst. exists []. auto.
    + left. inversion E; subst. exists []. auto.
  - cbn [high_bytes app] in *. destruct (0 <=? k); [apply IH, E|]. left. inversion E; subst. exists (x :: src). auto.
Qed.
Lemma skip_zeros_cut m more : forall src b n b' n' rest, skip_zeros m b n (src ++ more) = Ok (b', n', rest) ->
  (exists r, rest = r ++ more /\ skip_zeros m b n src = Ok (b', n', r)) \/ (skip_zeros m b n src = Err EEof /\ len rest < len more).
Proof.
  pose proof (skip_shrinks m) as Sh.
  induction src as [|x src IH]; intros b n b' n' rest E.
  - destruct (b =? 0) eqn:N; cbn [skip_zeros]; rewrite N; cbn [app] in E; destruct more as [|y more]; cbn [skip_zeros] in E; rewrite N in E.
    + destruct (i32_result m (n + 8)); discriminate.
    + destruct (i32_result m (n + 8)); try discriminate. right. split; auto. apply Sh in E. rewrite len_cons. lia.
    + left. inversion E; subst. exists []. auto.
    + left. inversion E; subst. exists []. auto.
  - cbn [skip_zeros app] in *. destruct (b =? 0); [|left; inversion E; subst; exists (x :: src); auto].
    destruct (i32_result m (n + 8)); try discriminate. apply IH, E.
Qed.

(** The same for one pixel. *)
Definition with_src (q : bitbuf) (src : list Z) : bitbuf := mk_bitbuf (q_b q) (q_n q) src.
Definition step_cut (step : bitbuf -> Z -> res (Z * bitbuf)) : Prop :=
  forall b n src more lastpix cur q', step (mk_bitbuf b n (src ++ more)) lastpix = Ok (cur, q') ->
    (exists r, q_src q' = r ++ more /\ step (mk_bitbuf b n src) lastpix = Ok (cur, with_src q' r)) \/
    (step (mk_bitbuf b n src) lastpix = Err EEof /\ len (q_src q') < len more).

Ltac bind_in E :=
  match type of E with
  | bind ?a _ = Ok _ => let H := fresh "Eb" in destruct a eqn:H; cbn [bind] in E; try discriminate
  end.

Lemma low_cut : step_cut low_step.
Proof. intros b n src more lp cur q' E. unfold low_step in *. inversion E; subst. left. exists src. auto. Qed.
Lemma high_cut m t : step_cut (high_step m t).
Proof.
  intros b n src more lp cur q' E. unfold high_step in *. cbn [q_b q_n q_src] in *. cbv zeta in *.
  destruct (high_bytes b (as_u32 (Z.shiftl b (bbits t - n))) (bbits t - n - 8) (src ++ more)) as [[[[b1 d1] k1] s1]|e|] eqn:H1; cbn [bind] in E; try discriminate.
  destruct (high_bytes_cut more _ _ _ _ _ _ _ _ H1) as [(r1 & -> & P1)|(P1 & L1)]; rewrite P1; cbn [bind].
  - destruct (0 <? n).
    + destruct (read_u8 (r1 ++ more)) as [[b2 s2]|e|] eqn:H2; cbn [bind] in E; try discriminate.
      destruct (read_u8_cut r1 more b2 s2 H2) as [(r2 & -> & P2)|(P2 & L2)]; rewrite P2; cbn [bind].
      * destruct (shr32 m b2 (- k1)); cbn [bind] in *; try discriminate.
        destruct (low_bits m b2 n); cbn [bind] in *; try discriminate.
        destruct (i32_result m _); cbn [bind] in *; try discriminate. inversion E; subst. left. exists r2. auto.
      * right. split; auto.
        destruct (shr32 m b2 (- k1)); cbn [bind] in *; try discriminate.
        destruct (low_bits m b2 n); cbn [bind] in *; try discriminate.
        destruct (i32_result m _); cbn [bind] in *; try discriminate. inversion E; subst. exact L2.
    + cbn [bind] in *. destruct (i32_result m _); cbn [bind] in *; try discriminate. inversion E; subst. left. exists r1. auto.
  - right. split; auto. destruct (0 <? n).
    + destruct s1 as [|y s1]; cbn [read_u8 bind] in E; [discriminate|]. rewrite len_cons in L1.
      destruct (shr32 m y (- k1)); cbn [bind] in *; try discriminate.
      destruct (low_bits m y n); cbn [bind] in *; try discriminate.
      destruct (i32_result m _); cbn [bind] in *; try discriminate. inversion E; subst. cbn [q_src]. lia.
    + cbn [bind] in *. destruct (i32_result m _); cbn [bind] in *; try discriminate. inversion E; subst. exact L1.
Qed.
Lemma rice_cut m fs : step_cut (rice_step m fs).
Proof.
  intros b n src more lp cur q' E. unfold rice_step in *. cbn [q_b q_n q_src] in *.
  destruct (skip_zeros m b n (src ++ more)) as [[[b1 n1] s1]|e|] eqn:H1; cbn [bind] in E; try discriminate.
  destruct (skip_zeros_cut m more _ _ _ _ _ _ H1) as [(r1 & -> & P1)|(P1 & L1)]; rewrite P1; cbn [bind].
  - destruct (nonzero_count b1) as [c|e|]; cbn [bind] in *; try discriminate.
    destruct (i32_result m (n1 - c)) as [nz|e|]; cbn [bind] in *; try discriminate.
    destruct (i32_result m (nz + 1)) as [n2|e|]; cbn [bind] in *; try discriminate.
    destruct (i32_result m (n1 - n2)) as [n3|e|]; cbn [bind] in *; try discriminate.
    destruct (shl32 m 1 n3) as [p|e|]; cbn [bind] in *; try discriminate.
    destruct (i32_result m (n3 - fs)) as [n4|e|]; cbn [bind] in *; try discriminate.
    destruct (fill (Z.lxor b1 p) n4 (r1 ++ more)) as [[[b5 n5] s5]|e|] eqn:H5; cbn [bind] in E; try discriminate.
    destruct (fill_cut more _ _ _ _ _ _ H5) as [(r5 & -> & P5)|(P5 & L5)]; rewrite P5; cbn [bind].
    + repeat bind_in E. inversion E; subst. left. exists r5. split; [reflexivity|].
      cbn [bind]. repeat match goal with H : ?x = Ok _ |- context [bind ?x _] => rewrite H; cbn [bind] end. reflexivity.
    + right. split; auto. repeat bind_in E. inversion E; subst. exact L5.
  - right. split; auto. repeat bind_in E. destruct a5 as [[b5 n5] s5]. cbn [bind] in E.
    repeat bind_in E. inversion E; subst. cbn [q_src].
    match goal with H : fill _ _ s1 = Ok _ |- _ => apply fill_shrinks in H end. lia.
Qed.

Definition step_shrinks (step : bitbuf -> Z -> res (Z * bitbuf)) : Prop :=
  forall q lastpix cur q', step q lastpix = Ok (cur, q') -> len (q_src q') <= len (q_src q).
Lemma low_step_shrinks : step_shrinks low_step.
Proof. intros q l cur q' E. inversion E; subst. lia. Qed.
Lemma high_step_shrinks m t : step_shrinks (high_step m t).
Proof.
  intros q l cur q' E. unfold high_step in E. cbv zeta in E.
  destruct (high_bytes _ _ _ (q_src q)) as [[[[b1 d1] k1] s1]|e|] eqn:H1; cbn [bind] in E; try discriminate. apply high_shrinks in H1.
  destruct (0 <? q_n q).
  - destruct s1 as [|y s1]; cbn [read_u8 bind] in E; [discriminate|]. rewrite len_cons in H1.
    repeat bind_in E. destruct a as [[b2 d2] s2]. cbn [bind] in E.
    repeat bind_in E. inversion E; subst. cbn [q_src].
    match goal with H : bind _ _ = Ok (b2, d2, s2) |- _ => rename H into H2 end.
    repeat bind_in H2. inversion H2; subst. lia.
  - cbn [bind] in E. repeat bind_in E. inversion E; subst. exact H1.
Qed.
Lemma rice_step_shrinks m fs : step_shrinks (rice_step m fs).
Proof.
  intros q l cur q' E. unfold rice_step in E.
  destruct (skip_zeros m (q_b q) (q_n q) (q_src q)) as [[[b1 n1] s1]|e|] eqn:H1; cbn [bind] in E; try discriminate. apply skip_shrinks in H1.
  repeat bind_in E. destruct a5 as [[b5 n5] s5]. cbn [bind] in E.
  repeat bind_in E. inversion E; subst. cbn [q_src].
  match goal with H : fill _ _ s1 = Ok _ |- _ => apply fill_shrinks in H end. lia.
Qed.

(** A block. *)
Lemma block_shrinks t L step : step_shrinks step -> forall n i q lastpix out i' q' lastpix' out',
  block t L step n i q lastpix out = (Ok (i', q', lastpix'), out') -> len (q_src q') <= len (q_src q).
Proof.
  intro Sh. induction n as [|n IH]; intros i q lp out i' q' lp' out' E; cbn [block] in E; [inversion E; subst; lia|].
  destruct (len out <? L); [|inversion E; subst; lia].
  destruct (step q lp) as [[cur q1]|e|] eqn:S1; try discriminate.
  destruct (len out + Z.of_nat (rsize t) <=? L); [|discriminate].
  apply IH in E. apply Sh in S1. lia.
Qed.
Lemma block_cut t L step : step_cut step -> step_shrinks step -> forall n i b nb src more lastpix out i' q' lastpix' out',
  block t L step n i (mk_bitbuf b nb (src ++ more)) lastpix out = (Ok (i', q', lastpix'), out') ->
  (exists r, q_src q' = r ++ more /\ block t L step n i (mk_bitbuf b nb src) lastpix out = (Ok (i', with_src q' r, lastpix'), out')) \/
  (fst (block t L step n i (mk_bitbuf b nb src) lastpix out) = Err EEof /\ len (q_src q') < len more).
Proof.
  intros C Sh. induction n as [|n IH]; intros i b nb src more lp out i' q' lp' out' E; cbn [block] in *.
  { inversion E; subst. left. exists src. auto. }
  destruct (len out <? L); [|inversion E; subst; left; exists src; auto].
  destruct (step (mk_bitbuf b nb (src ++ more)) lp) as [[cur q1]|e|] eqn:S1; try discriminate.
  destruct (len out + Z.of_nat (rsize t) <=? L) eqn:F; [|discriminate].
  destruct (C _ _ _ _ _ _ _ S1) as [(r & Er & P)|(P & Lt)]; rewrite P; cbn [fst].
  - destruct q1 as [b1 n1 s1]. cbn [q_src with_src q_b q_n] in *. subst s1. apply IH, E.
  - right. split; auto. apply (block_shrinks t L step Sh) in E. lia.
Qed.

Definition rest_of (x : option (res unit) * rstate * list Z * list Z) : list Z := snd (fst x).

Lemma loop_shrinks m t nblock nx L : forall fuel st src out st' rest out',
  read_loop m t nblock nx L fuel st src out = (Some (Ok tt), st', rest, out') -> len rest <= len src.
Proof.
  induction fuel as [|fuel IH]; intros st src out st' rest out' E; [discriminate|]. cbn [read_loop] in E.
  assert (Bl : forall step n i q lp, step_shrinks step -> len (q_src q) <= len src ->
    match block t L step n i q lp out with
    | (Ok (i, q, lastpix), out') =>
        let st' := if i =? block_imax st then RFs (q_b q) i lastpix (q_n q) else st in
        if len out' =? L then (Some (Ok tt), st', q_src q, out')
        else read_loop m t nblock nx L fuel st' (q_src q) out'
    | (Err e, out') => (Some (Err e), st, [], out')
    | (Panic, out') => (Some Panic, st, src, out')
    end = (Some (Ok tt), st', rest, out') -> len rest <= len src).
  { intros step n i q lp Sh Lq X. destruct (block t L step n i q lp out) as [[[[i1 q1] lp1]|e|] o1] eqn:B; try discriminate.
    apply (block_shrinks t L step Sh) in B. cbv zeta in X. destruct (len o1 =? L); [inversion X; subst; lia|].
    apply IH in X. lia. }
  destruct st.
  - destruct (read_first t src) as [[p s1]|e|] eqn:H1; cbn [bind] in E; try discriminate.
    destruct s1 as [|b s1]; cbn [read_u8 bind] in E; [discriminate|]. apply IH in E.
    unfold read_first in H1. destruct (_ <? _); [discriminate|]. inversion H1 as [[H2 H3]].
    assert (L3 := f_equal (@length Z) H3). rewrite skipn_length in L3. cbn [length] in L3. unfold len in *. lia.
  - destruct (fs_step m t nblock nx b i lastpix nbits src) as [[st1 s1]|e|] eqn:H1; try discriminate. apply IH in E.
    unfold fs_step in H1. bind_in H1. destruct a as [[b1 n1] s2]. apply fill_shrinks in Eb.
    repeat bind_in H1. inversion H1; subst. lia.
  - cbn [block_step] in E. apply Bl in E; auto using low_step_shrinks. cbn [q_src]. lia.
  - cbn [block_step] in E. apply Bl in E; auto using high_step_shrinks. cbn [q_src]. lia.
  - cbn [block_step] in E. apply Bl in E; auto using rice_step_shrinks. cbn [q_src]. lia.
Qed.

Lemma fs_step_cut m t nblock nx b i lastpix nbits src more :
  cut more (fs_step m t nblock nx b i lastpix nbits (src ++ more)) (fs_step m t nblock nx b i lastpix nbits src).
Proof.
  intros a rest E. unfold fs_step in *.
  destruct (fill b (nbits - fsbits t) (src ++ more)) as [[[b1 n1] s1]|e|] eqn:H1; cbn [bind] in E; try discriminate.
  destruct (fill_cut more _ _ _ _ _ _ H1) as [(r & -> & P)|(P & Lt)]; rewrite P; cbn [bind].
  - left. exists r. repeat bind_in E. inversion E; subst. split; [reflexivity|].
    cbn [bind]. repeat match goal with H : ?x = Ok _ |- context [bind ?x _] => rewrite H; cbn [bind] end. reflexivity.
  - right. split; auto. repeat bind_in E. inversion E; subst. exact Lt.
Qed.

Lemma loop_cut m t nblock nx L more : forall fuel st src out st' rest out',
  read_loop m t nblock nx L fuel st (src ++ more) out = (Some (Ok tt), st', rest, out') ->
  (exists r, rest = r ++ more /\ read_loop m t nblock nx L fuel st src out = (Some (Ok tt), st', r, out')) \/
  (fst (fst (fst (read_loop m t nblock nx L fuel st src out))) = Some (Err EEof) /\ len rest < len more).
Proof.
  induction fuel as [|fuel IH]; intros st src out st' rest out' E; [discriminate|]. cbn [read_loop] in *.
  assert (Bl : forall step n i b nb lp, step_cut step -> step_shrinks step ->
    let go s := match block t L step n i (mk_bitbuf b nb s) lp out with
    | (Ok (i, q, lastpix), out') =>
        let st' := if i =? block_imax st then RFs (q_b q) i lastpix (q_n q) else st in
        if len out' =? L then (Some (Ok tt), st', q_src q, out')
        else read_loop m t nblock nx L fuel st' (q_src q) out'
    | (Err e, out') => (Some (Err e), st, [], out')
    | (Panic, out') => (Some Panic, st, s, out')
    end in go (src ++ more) = (Some (Ok tt), st', rest, out') ->
    (exists r, rest = r ++ more /\ go src = (Some (Ok tt), st', r, out')) \/
    (fst (fst (fst (go src))) = Some (Err EEof) /\ len rest < len more)).
  { intros step n i b nb lp C Sh go X. unfold go in *.
    destruct (block t L step n i (mk_bitbuf b nb (src ++ more)) lp out) as [[[[i1 q1] lp1]|e|] o1] eqn:B; try discriminate.
    cbv zeta in X. destruct (block_cut t L step C Sh _ _ _ _ _ _ _ _ _ _ _ _ B) as [(r & Er & P)|(P & Lt)].
    - rewrite P. cbv zeta. cbn [with_src q_b q_n q_src]. destruct (len o1 =? L); [inversion X; subst; left; exists r; auto|].
      rewrite Er in X. apply IH, X.
    - right. destruct (block t L step n i (mk_bitbuf b nb src) lp out) as [o2 o3]. cbn [fst] in P. subst o2. split; auto.
      destruct (len o1 =? L); [inversion X; subst; exact Lt|]. apply loop_shrinks in X. lia. }
  destruct st.
  - destruct (read_first t (src ++ more)) as [[p s1]|e|] eqn:H1; cbn [bind] in E; try discriminate.
    destruct (read_first_cut t src more p s1 H1) as [(r & -> & P)|(P & Lt)]; rewrite P; cbn [bind].
    + destruct (read_u8 (r ++ more)) as [[b s2]|e|] eqn:H2; cbn [bind] in E; try discriminate.
      destruct (read_u8_cut r more b s2 H2) as [(r2 & -> & P2)|(P2 & L2)]; rewrite P2; cbn [bind]; [apply IH, E|].
      right. split; auto. apply loop_shrinks in E. lia.
    + right. split; auto. destruct s1 as [|b s1]; cbn [read_u8 bind] in E; [discriminate|]. apply loop_shrinks in E.
      rewrite len_cons in Lt. lia.
  - destruct (fs_step m t nblock nx b i lastpix nbits (src ++ more)) as [[st1 s1]|e|] eqn:H1; try discriminate.
    destruct (fs_step_cut m t nblock nx b i lastpix nbits src more st1 s1 H1) as [(r & -> & P)|(P & Lt)]; rewrite P; [apply IH, E|].
    right. split; auto. apply loop_shrinks in E. lia.
  - cbn [block_step] in *. apply Bl; auto using low_step_shrinks, low_cut.
  - cbn [block_step] in *. apply Bl; auto using high_step_shrinks, high_cut.
  - cbn [block_step] in *. apply Bl; auto using rice_step_shrinks, rice_cut.
Qed.

(** A code that is cut is found out. *)
Lemma cut_found m t nblock x0 blocks bytes more fuel :
  compressed t nblock x0 blocks (bytes ++ more) ->
  8 * (len bytes - pixel_bits t / 8) < Z.of_nat (length (blocks_code t x0 blocks)) ->
  bytes_ok (bytes ++ more) -> Forall (pixel_ok t) (block_pixels blocks) -> len (block_pixels blocks) + nblock <= 2 ^ 31 ->
  (m = Wrapping \/ t = RI32 /\ gentle x0 (block_pixels blocks) /\ short_runs t x0 blocks) ->
  (2 * length (block_pixels blocks) + 1 <= fuel)%nat ->
  fst (fst (rice_read_exact m t nblock (len (block_pixels blocks)) (pixel_bits t / 8 * len (block_pixels blocks)) fuel bytes))
  = Some (Err EEof).
Proof.
  intros (head & data & rest & H1 & H2 & H3 & H4 & H5 & H6) Hc Hb Hp Hl Hm Hf.
  destruct (tile_decoded m t nblock (block_pixels blocks) (bytes ++ more) fuel x0 head data blocks rest) as (src & Ls & E); auto.
  assert (P1 : 1 <= len (block_pixels blocks)) by (destruct (block_pixels blocks) as [|y l]; [discriminate|rewrite len_cons; pose proof (len_nonneg l); lia]).
  assert (S1 : 1 <= pixel_bits t / 8) by (destruct t; vm_compute; discriminate).
  unfold rice_read_exact in *. replace (pixel_bits t / 8 * len (block_pixels blocks) =? 0) with false in * by nia.
  destruct (read_loop m t nblock (len (block_pixels blocks)) (pixel_bits t / 8 * len (block_pixels blocks)) fuel RStart (bytes ++ more) [])
    as [[[o st'] s'] out'] eqn:F. inversion E; subst o s' out'.
  destruct (loop_cut _ _ _ _ _ _ _ _ _ _ _ _ _ F) as [(r & -> & _)|(P & _)].
  - exfalso. apply (f_equal (@length bool)) in H6. rewrite bit_stream_length, app_length in H6.
    apply (f_equal (@length Z)) in H2. rewrite !app_length in H2. rewrite app_length in Ls. unfold len in *. lia.
  - destruct (read_loop m t nblock (len (block_pixels blocks)) (pixel_bits t / 8 * len (block_pixels blocks)) fuel RStart bytes [])
      as [[[o2 st2] s2] out2]. cbn [fst] in P. exact P.
Qed.

Lemma short_first m t nblock nx x0 blocks bytes fuel :
  compressed t nblock x0 blocks bytes ->
  bytes_ok bytes -> Forall (pixel_ok t) (block_pixels blocks) -> len (block_pixels blocks) < nx -> nx + nblock <= 2 ^ 31 ->
  (m = Wrapping \/ t = RI32 /\ gentle x0 (block_pixels blocks) /\ short_runs t x0 blocks) ->
  (2 * length (block_pixels blocks) + 1 <= fuel)%nat ->
  exists more, snd (rice_read_exact m t nblock nx (pixel_bits t / 8 * nx) fuel bytes)
    = flat_map (pixel_bytes t) (block_pixels blocks) ++ more.
Proof.
  intros H1 H2 H3 H4 H5 H6 H7. destruct (short_decoded m t nblock nx x0 blocks bytes fuel H1 H2 H3 H4 H5 H6 H7) as (ws & E). eauto.
Qed.

(** The decoders of [Utf8] invert the encoder of [SpecUtf8]. *)

From Verif Require Import Base Utf8 SpecUtf8.
From Coq Require Import ZifyBool.
Ltac Zify.zify_post_hook ::= Z.div_mod_to_equations.

Ltac iff_true e := let H := fresh in assert (H : e = true) by lia; rewrite H; clear H.
Ltac iff_false e := let H := fresh in assert (H : e = false) by lia; rewrite H; clear H.

Lemma lossy_char c r : scalar c -> utf8_lossy (utf8_char c ++ r) = c :: utf8_lossy r.
Proof.
  unfold scalar, utf8_char. intro H.
  destruct (c <=? 127) eqn:E1.
  { cbn [app utf8_lossy]. iff_true (c <? 128). reflexivity. }
  destruct (c <=? 2047) eqn:E2.
  { cbn [app utf8_lossy]. iff_false (192 + c / 64 <? 128).
    iff_true ((194 <=? 192 + c / 64) && (192 + c / 64 <=? 223)).
    unfold is_cont. iff_true ((128 <=? 128 + c mod 64) && (128 + c mod 64 <=? 191)).
    f_equal. unfold dec2. lia. }
  destruct (c <=? 65535) eqn:E3.
  { cbn [app utf8_lossy]. iff_false (224 + c / 4096 <? 128).
    iff_false ((194 <=? 224 + c / 4096) && (224 + c / 4096 <=? 223)).
    iff_true ((224 <=? 224 + c / 4096) && (224 + c / 4096 <=? 239)).
    assert (S: second3 (224 + c / 4096) (128 + (c / 64) mod 64) = true).
    { unfold second3, is_cont. lia. }
    rewrite S.
    assert (Q: is_cont (128 + c mod 64) = true) by (unfold is_cont; lia).
    rewrite Q. f_equal. unfold dec3. lia. }
  cbn [app utf8_lossy]. iff_false (240 + c / 262144 <? 128).
  iff_false ((194 <=? 240 + c / 262144) && (240 + c / 262144 <=? 223)).
  iff_false ((224 <=? 240 + c / 262144) && (240 + c / 262144 <=? 239)).
  iff_true ((240 <=? 240 + c / 262144) && (240 + c / 262144 <=? 244)).
  assert (S: second4 (240 + c / 262144) (128 + (c / 4096) mod 64) = true).
  { unfold second4, is_cont. lia. }
  rewrite S.
  assert (Q1: is_cont (128 + (c / 64) mod 64) = true) by (unfold is_cont; lia).
  assert (Q2: is_cont (128 + c mod 64) = true) by (unfold is_cont; lia).
  rewrite Q1, Q2. f_equal. unfold dec4. lia.
Qed.

Lemma utf8_lossy_encode s : Forall scalar s -> utf8_lossy (utf8_encode s) = s.
Proof.
  induction 1 as [|c s Hc Hs IH]; auto. cbn [utf8_encode flat_map].
  fold (utf8_encode s). rewrite lossy_char by auto. now rewrite IH.
Qed.

Lemma from_utf8_lossy l s : from_utf8 l = Some s -> utf8_lossy l = s.
Proof.
  revert l s.
  fix IH 1. intros [|b0 r0] s; cbn [from_utf8 utf8_lossy]; [congruence|].
  assert (M: forall c r, option_map (cons c) (from_utf8 r) = Some s ->
     exists t, from_utf8 r = Some t /\ s = c :: t).
  { intros c r H. destruct (from_utf8 r); inversion H; eauto. }
  destruct (b0 <? 128).
  { intro H. apply M in H as [t [H ->]]. now rewrite (IH _ _ H). }
  destruct ((194 <=? b0) && (b0 <=? 223)).
  { destruct r0 as [|b1 r1]; [discriminate|]. destruct (is_cont b1); [|discriminate].
    intro H. apply M in H as [t [H ->]]. now rewrite (IH _ _ H). }
  destruct ((224 <=? b0) && (b0 <=? 239)).
  { destruct r0 as [|b1 [|b2 r2]]; try discriminate.
    destruct (second3 b0 b1); [|discriminate]. destruct (is_cont b2); [|discriminate].
    intro H. cbn [andb] in H. apply M in H as [t [H ->]]. now rewrite (IH _ _ H). }
  destruct ((240 <=? b0) && (b0 <=? 244)); [|discriminate].
  destruct r0 as [|b1 [|b2 [|b3 r3]]]; try discriminate.
  destruct (second4 b0 b1); [|discriminate]. destruct (is_cont b2); [|discriminate].
  destruct (is_cont b3); [|discriminate]. cbn [andb].
  intro H. apply M in H as [t [H ->]]. now rewrite (IH _ _ H).
Qed.

Lemma from_char c r : scalar c -> from_utf8 (utf8_char c ++ r) = option_map (cons c) (from_utf8 r).
Proof.
  unfold scalar, utf8_char. intro H.
  destruct (c <=? 127) eqn:E1.
  { cbn [app from_utf8]. iff_true (c <? 128). reflexivity. }
  destruct (c <=? 2047) eqn:E2.
  { cbn [app from_utf8]. iff_false (192 + c / 64 <? 128).
    iff_true ((194 <=? 192 + c / 64) && (192 + c / 64 <=? 223)).
    unfold is_cont. iff_true ((128 <=? 128 + c mod 64) && (128 + c mod 64 <=? 191)).
    do 2 f_equal. unfold dec2. lia. }
  destruct (c <=? 65535) eqn:E3.
  { cbn [app from_utf8]. iff_false (224 + c / 4096 <? 128).
    iff_false ((194 <=? 224 + c / 4096) && (224 + c / 4096 <=? 223)).
    iff_true ((224 <=? 224 + c / 4096) && (224 + c / 4096 <=? 239)).
    assert (S: second3 (224 + c / 4096) (128 + (c / 64) mod 64) = true).
    { unfold second3, is_cont. lia. }
    rewrite S.
    assert (Q: is_cont (128 + c mod 64) = true) by (unfold is_cont; lia).
    rewrite Q. cbn [andb]. do 2 f_equal. unfold dec3. lia. }
  cbn [app from_utf8]. iff_false (240 + c / 262144 <? 128).
  iff_false ((194 <=? 240 + c / 262144) && (240 + c / 262144 <=? 223)).
  iff_false ((224 <=? 240 + c / 262144) && (240 + c / 262144 <=? 239)).
  iff_true ((240 <=? 240 + c / 262144) && (240 + c / 262144 <=? 244)).
  assert (S: second4 (240 + c / 262144) (128 + (c / 4096) mod 64) = true).
  { unfold second4, is_cont. lia. }
  rewrite S.
  assert (Q1: is_cont (128 + (c / 64) mod 64) = true) by (unfold is_cont; lia).
  assert (Q2: is_cont (128 + c mod 64) = true) by (unfold is_cont; lia).
  rewrite Q1, Q2. cbn [andb]. do 2 f_equal. unfold dec4. lia.
Qed.

Lemma from_utf8_encode s : Forall scalar s -> from_utf8 (utf8_encode s) = Some s.
Proof.
  induction 1 as [|c s Hc Hs IH]; auto. cbn [utf8_encode flat_map].
  fold (utf8_encode s). rewrite from_char by auto. now rewrite IH.
Qed.

Lemma from_utf8_inv l s :
  Forall (fun b => 0 <= b) l -> from_utf8 l = Some s -> l = utf8_encode s /\ Forall scalar s.
Proof.
  revert l s. induction l as [l IH] using list_len_ind.
  destruct l as [|b0 r0]; intros s; cbn [from_utf8]; intros Hl.
  { intro H; inversion H; auto. }
  assert (M: forall c r, option_map (cons c) (from_utf8 r) = Some s ->
     exists t, from_utf8 r = Some t /\ s = c :: t).
  { intros c r H. destruct (from_utf8 r); inversion H; eauto. }
  destruct (b0 <? 128) eqn:E0.
  { intro H. apply M in H as [t [H ->]]. inversion Hl; subst.
    assert (HL: (length r0 < length (b0 :: r0))%nat) by (subst; simpl; lia); destruct (IH r0 HL t) as [G1 G2]; auto.
    split; [|constructor; auto; unfold scalar; lia].
    cbn [utf8_encode flat_map]. fold (utf8_encode t). rewrite <- G1. unfold utf8_char.
    iff_true (b0 <=? 127). reflexivity. }
  destruct ((194 <=? b0) && (b0 <=? 223)) eqn:E1.
  { destruct r0 as [|b1 r1]; [discriminate|]. destruct (is_cont b1) eqn:C1; [|discriminate].
    intro H. apply M in H as [t [H ->]]. inversion Hl as [|? ? _ Hl1]; subst.
    inversion Hl1; subst. assert (HL: (length r1 < length (b0 :: b1 :: r1))%nat) by (subst; simpl; lia); destruct (IH r1 HL t) as [G1 G2]; auto.
    unfold is_cont in C1.
    split; [|constructor; auto; unfold scalar, dec2; lia].
    cbn [utf8_encode flat_map]. fold (utf8_encode t). rewrite <- G1. unfold utf8_char, dec2.
    iff_false ((b0 - 192) * 64 + (b1 - 128) <=? 127).
    iff_true ((b0 - 192) * 64 + (b1 - 128) <=? 2047). cbn [app]. f_equal; [lia|]. f_equal; lia. }
  destruct ((224 <=? b0) && (b0 <=? 239)) eqn:E2.
  { destruct r0 as [|b1 [|b2 r2]]; try discriminate.
    destruct (second3 b0 b1) eqn:C1; [|discriminate]. destruct (is_cont b2) eqn:C2; [|discriminate].
    cbn [andb]. intro H. apply M in H as [t [H ->]]. inversion Hl as [|? ? _ Hl1]; subst.
    inversion Hl1 as [|? ? _ Hl2]; subst. inversion Hl2; subst.
    assert (HL: (length r2 < length (b0 :: b1 :: b2 :: r2))%nat) by (subst; simpl; lia); destruct (IH r2 HL t) as [G1 G2]; auto.
    unfold second3, is_cont in C1, C2.
    split; [|constructor; auto; unfold scalar, dec3; lia].
    cbn [utf8_encode flat_map]. fold (utf8_encode t). rewrite <- G1. unfold utf8_char.
    set (c := dec3 b0 b1 b2). assert (Hc: c = dec3 b0 b1 b2) by reflexivity. clearbody c.
    unfold dec3 in Hc.
    iff_false (c <=? 127). iff_false (c <=? 2047). iff_true (c <=? 65535). cbn [app].
    f_equal; [lia|]. f_equal; [lia|]. f_equal; lia. }
  destruct ((240 <=? b0) && (b0 <=? 244)) eqn:E3; [|discriminate].
  destruct r0 as [|b1 [|b2 [|b3 r3]]]; try discriminate.
  destruct (second4 b0 b1) eqn:C1; [|discriminate]. destruct (is_cont b2) eqn:C2; [|discriminate].
  destruct (is_cont b3) eqn:C3; [|discriminate].
  cbn [andb]. intro H. apply M in H as [t [H ->]]. inversion Hl as [|? ? _ Hl1]; subst.
  inversion Hl1 as [|? ? _ Hl2]; subst. inversion Hl2 as [|? ? _ Hl3]; subst. inversion Hl3; subst.
  assert (HL: (length r3 < length (b0 :: b1 :: b2 :: b3 :: r3))%nat) by (subst; simpl; lia); destruct (IH r3 HL t) as [G1 G2]; auto.
  unfold second4, is_cont in C1, C2, C3.
  split; [|constructor; auto; unfold scalar, dec4; lia].
  cbn [utf8_encode flat_map]. fold (utf8_encode t). rewrite <- G1. unfold utf8_char.
  set (c := dec4 b0 b1 b2 b3). assert (Hc: c = dec4 b0 b1 b2 b3) by reflexivity. clearbody c.
  unfold dec4 in Hc.
  iff_false (c <=? 127). iff_false (c <=? 2047). iff_false (c <=? 65535). cbn [app].
  f_equal; [lia|]. f_equal; [lia|]. f_equal; [lia|]. f_equal; lia.
Qed.

Lemma from_utf8_iff l s :
  Forall (fun b => 0 <= b) l -> (from_utf8 l = Some s <-> l = utf8_encode s /\ Forall scalar s).
Proof.
  intro Hl. split.
  - now apply from_utf8_inv.
  - intros [-> H]. now apply from_utf8_encode.
Qed.

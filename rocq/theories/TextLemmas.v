(** Lemmas about trimming, literals and UTF-8 used by the card proofs. *)

From Verif Require Import Base Utf8 Text SpecCard.
From Coq Require Import ZifyBool ZifyNat.

(** ** drop_while and trimming *)

Lemma drop_while_all p w l :
  Forall (fun c => p c = true) w -> drop_while p (w ++ l) = drop_while p l.
Proof. induction 1; simpl; auto. now rewrite H. Qed.

Lemma drop_while_stop p c l : p c = false -> drop_while p (c :: l) = c :: l.
Proof. simpl. now intros ->. Qed.

Lemma drop_while_spec p l :
  exists w, l = w ++ drop_while p l /\ Forall (fun c => p c = true) w.
Proof.
  induction l as [|c l [w [H1 H2]]]; simpl.
  - exists []. auto.
  - destruct (p c) eqn:E.
    + exists (c :: w). simpl. split; [now rewrite <- H1|]. auto.
    + exists []. auto.
Qed.

Lemma drop_while_head p l : match drop_while p l with [] => True | c :: _ => p c = false end.
Proof. induction l; simpl; auto. destruct (p a) eqn:E; auto. Qed.

Lemma drop_while_nil p l : drop_while p l = [] <-> Forall (fun c => p c = true) l.
Proof.
  split.
  - destruct (drop_while_spec p l) as [w [H1 H2]]. intro H. rewrite H, app_nil_r in H1. now subst.
  - intro H. rewrite <- (app_nil_r l). rewrite drop_while_all; auto.
Qed.

Lemma trim_end_by_app p l w :
  Forall (fun c => p c = true) w -> trim_end_by p (l ++ w) = trim_end_by p l.
Proof.
  intros. unfold trim_end_by. rewrite rev_app_distr. rewrite drop_while_all; auto.
  now apply Forall_rev.
Qed.

Lemma trim_end_by_last p l c : p c = false -> trim_end_by p (l ++ [c]) = l ++ [c].
Proof.
  intros. unfold trim_end_by. rewrite rev_app_distr. simpl. rewrite H. simpl.
  now rewrite rev_involutive.
Qed.

Lemma trim_end_by_spec p l :
  exists w, l = trim_end_by p l ++ w /\ Forall (fun c => p c = true) w /\
    (trim_end_by p l = [] \/ exists t' c, trim_end_by p l = t' ++ [c] /\ p c = false).
Proof.
  unfold trim_end_by. destruct (drop_while_spec p (rev l)) as [w [H1 H2]].
  exists (rev w). split; [|split].
  - rewrite <- rev_app_distr, <- H1. now rewrite rev_involutive.
  - now apply Forall_rev.
  - pose proof (drop_while_head p (rev l)) as H.
    destruct (drop_while p (rev l)) as [|c t]; simpl; auto.
    right. exists (rev t), c. auto.
Qed.

Lemma stripped_right_unique P l t1 t2 :
  stripped_right P l t1 -> stripped_right P l t2 -> t1 = t2.
Proof.
  assert (Haux: forall t1 t2 w1 w2, t1 ++ w1 = t2 ++ w2 -> Forall P w1 ->
     (t2 = [] \/ exists t' c, t2 = t' ++ [c] /\ ~ P c) -> exists k, t1 = t2 ++ k).
  { clear. intros t1 t2. revert t1. induction t2 as [|x t2 IH]; intros t1 w1 w2 E F Hl.
    - now exists t1.
    - destruct t1 as [|y t1].
      + simpl in E. subst w1. destruct Hl as [Hl|[t' [c [Hc Hn]]]]; [discriminate|].
        rewrite app_comm_cons in F. rewrite Hc in F. apply Forall_app in F as [F _].
        apply Forall_app in F as [_ F]. inversion F; subst. contradiction.
      + simpl in E. inversion E; subst y. destruct (IH t1 w1 w2 H1 F) as [k Hk].
        * destruct t2; [now left|]. right. destruct Hl as [Hl|[t' [c [Hc Hn]]]]; [discriminate|].
          destruct t'; simpl in Hc; inversion Hc; subst. eauto.
        * exists k. simpl. now rewrite Hk. }
  intros [w1 [E1 [F1 L1]]] [w2 [E2 [F2 L2]]].
  destruct (Haux t1 t2 w1 w2) as [k1 K1]; [congruence|auto|auto|].
  destruct (Haux t2 t1 w2 w1) as [k2 K2]; [congruence|auto|auto|].
  assert (k1 = []).
  { rewrite K1 in K2. rewrite <- app_assoc in K2. rewrite <- (app_nil_r t2) in K2 at 1.
    apply app_inv_head in K2. now destruct k1. }
  subst. now rewrite app_nil_r.
Qed.

Lemma trim_end_by_iff p P l t :
  (forall c, p c = true <-> P c) -> (trim_end_by p l = t <-> stripped_right P l t).
Proof.
  intro HP.
  assert (S: stripped_right P l (trim_end_by p l)).
  { destruct (trim_end_by_spec p l) as [w [H1 [H2 H3]]]. exists w. split; auto. split.
    - eapply Forall_impl; [|exact H2]. intros; now apply HP.
    - destruct H3 as [|[t' [c [H3 H4]]]]; auto. right. exists t', c. split; auto.
      rewrite <- HP. now rewrite H4. }
  split; intro H.
  - now subst.
  - now apply (stripped_right_unique P l).
Qed.

Lemma trim_by_spec p l :
  exists w1 w2, l = w1 ++ trim_by p l ++ w2 /\ Forall (fun c => p c = true) w1 /\
    Forall (fun c => p c = true) w2 /\
    (trim_by p l = [] \/ ((exists c t', trim_by p l = c :: t' /\ p c = false) /\
                          (exists t' c, trim_by p l = t' ++ [c] /\ p c = false))).
Proof.
  unfold trim_by, trim_start_by.
  destruct (drop_while_spec p l) as [w1 [H1 H2]].
  destruct (trim_end_by_spec p (drop_while p l)) as [w2 [H3 [H4 H5]]].
  exists w1, w2. rewrite <- H3. split; auto. split; auto. split; auto.
  destruct H5 as [H5|H5]; auto. right. split; auto.
  pose proof (drop_while_head p l) as Hh.
  destruct H5 as [t' [c [H5 H6]]].
  rewrite H5 in *. destruct t' as [|d t'].
  - exists c, []. auto.
  - exists d, (t' ++ [c]). split; auto. rewrite H3 in Hh. simpl in Hh. exact Hh.
Qed.

Lemma app_eq_prefix (P : Z -> Prop) (w1 w1' a b : list Z) :
  w1 ++ a = w1' ++ b -> Forall P w1 -> Forall P w1' ->
  match a with [] => False | c :: _ => ~ P c end ->
  match b with [] => False | c :: _ => ~ P c end -> w1 = w1' /\ a = b.
Proof.
  revert w1'. induction w1 as [|x w1 IH]; intros w1' E F1 F2 Ha Hb.
  - destruct w1' as [|y w1']; auto. simpl in E. subst a. inversion F2; subst. contradiction.
  - destruct w1' as [|y w1'].
    + simpl in E. subst b. inversion F1; subst. contradiction.
    + simpl in E. inversion E; subst. inversion F1; inversion F2; subst.
      destruct (IH w1') as [-> ->]; auto.
Qed.

Lemma stripped_unique P l t1 t2 : stripped P l t1 -> stripped P l t2 -> t1 = t2.
Proof.
  intros [a1 [b1 [E1 [A1 [B1 T1]]]]] [a2 [b2 [E2 [A2 [B2 T2]]]]].
  destruct T1 as [T1|[[c1 [r1 [C1 N1]]] [s1 [d1 [D1 M1]]]]].
  { subst t1. simpl in E1. destruct T2 as [T2|[[c2 [r2 [C2 N2]]] _]]; [congruence|].
    exfalso. assert (F: Forall P l) by (rewrite E1; apply Forall_app; auto).
    rewrite E2, C2 in F. apply Forall_app in F as [_ F]. simpl in F. inversion F; subst. contradiction. }
  destruct T2 as [T2|[[c2 [r2 [C2 N2]]] [s2 [d2 [D2 M2]]]]].
  { subst t2. simpl in E2. exfalso.
    assert (F: Forall P l) by (rewrite E2; apply Forall_app; auto).
    rewrite E1, C1 in F. apply Forall_app in F as [_ F]. simpl in F. inversion F; subst. contradiction. }
  assert (E: a1 ++ (t1 ++ b1) = a2 ++ (t2 ++ b2)) by congruence.
  destruct (app_eq_prefix P a1 a2 (t1 ++ b1) (t2 ++ b2)) as [_ E']; auto.
  { rewrite C1. simpl. auto. }
  { rewrite C2. simpl. auto. }
  apply (stripped_right_unique P (t1 ++ b1)).
  - exists b1. split; auto. split; auto. right; eauto.
  - exists b2. split; auto. split; auto. right; eauto.
Qed.

Lemma trim_by_iff p P l t :
  (forall c, p c = true <-> P c) -> (trim_by p l = t <-> stripped P l t).
Proof.
  intro HP.
  assert (S: stripped P l (trim_by p l)).
  { destruct (trim_by_spec p l) as [w1 [w2 [H1 [H2 [H3 H4]]]]]. exists w1, w2. split; auto.
    split; [|split].
    - eapply Forall_impl; [|exact H2]. intros; now apply HP.
    - eapply Forall_impl; [|exact H3]. intros; now apply HP.
    - destruct H4 as [|[[c [t' [Q1 Q2]]] [t2 [c2 [Q3 Q4]]]]]; auto. right. split.
      + exists c, t'. split; auto. rewrite <- HP. now rewrite Q2.
      + exists t2, c2. split; auto. rewrite <- HP. now rewrite Q4. }
  split; intro H.
  - now subst.
  - now apply (stripped_unique P l).
Qed.

Lemma is_ascii_ws_white c : is_ascii_ws c = true <-> white c.
Proof. unfold is_ascii_ws, white. lia. Qed.

Lemma trim_ascii_iff l t : trim_ascii l = t <-> stripped white l t.
Proof. apply trim_by_iff, is_ascii_ws_white. Qed.

Lemma trim_ascii_end_iff l t : trim_ascii_end l = t <-> stripped_right white l t.
Proof. apply trim_end_by_iff, is_ascii_ws_white. Qed.

Lemma blanks_ws n : Forall (fun c => is_ascii_ws c = true) (blanks n).
Proof. unfold blanks. induction n; simpl; auto. Qed.

Lemma blanks_uws n : Forall (fun c => is_unicode_ws c = true) (blanks n).
Proof. unfold blanks. induction n; simpl; auto. Qed.

Lemma blanks_printable n : Forall printable (blanks n).
Proof. unfold blanks. induction n; simpl; auto. constructor; auto. unfold printable; lia. Qed.

Lemma trim_by_blank_l p w l :
  Forall (fun c => p c = true) w -> trim_by p (w ++ l) = trim_by p l.
Proof. intros. unfold trim_by, trim_start_by. now rewrite drop_while_all. Qed.

Lemma trim_by_blank_r p w l :
  Forall (fun c => p c = true) w -> trim_by p (l ++ w) = trim_by p l.
Proof.
  intros H. unfold trim_by, trim_start_by.
  destruct (drop_while_spec p l) as [w1 [E F]].
  destruct (drop_while p l) as [|c t] eqn:D.
  - apply drop_while_nil in D.
    assert (D2: drop_while p (l ++ w) = []) by (apply drop_while_nil, Forall_app; auto).
    now rewrite D2.
  - pose proof (drop_while_head p l) as Hh. rewrite D in Hh.
    assert (D2: drop_while p (l ++ w) = (c :: t) ++ w).
    { rewrite E at 1. rewrite <- app_assoc. rewrite drop_while_all by auto.
      simpl. now rewrite Hh. }
    rewrite D2. now apply trim_end_by_app.
Qed.

Lemma trim_by_id p l c1 t1 t2 c2 :
  l = c1 :: t1 -> l = t2 ++ [c2] -> p c1 = false -> p c2 = false -> trim_by p l = l.
Proof.
  intros E1 E2 H1 H2. unfold trim_by, trim_start_by. rewrite E1 at 1. simpl. rewrite H1.
  rewrite <- E1. rewrite E2. now apply trim_end_by_last.
Qed.

(** Every trim commutes with membership: trimmed text keeps only original characters. *)
Lemma Forall_trim_by P p l : Forall P l -> Forall P (trim_by p l).
Proof.
  intro H. destruct (trim_by_spec p l) as [w1 [w2 [E _]]]. rewrite E in H.
  apply Forall_app in H as [_ H]. apply Forall_app in H as [H _]. exact H.
Qed.

Lemma Forall_trim_end_by P p l : Forall P l -> Forall P (trim_end_by p l).
Proof.
  intro H. destruct (trim_end_by_spec p l) as [w [E _]]. rewrite E in H.
  apply Forall_app in H as [H _]. exact H.
Qed.

(** ** rtrim *)

Lemma rtrim_spec l : stripped_right (fun c => c = 32) l (rtrim l).
Proof.
  induction l as [|c l [w [E [F T]]]]; simpl.
  - exists []. auto.
  - destruct (rtrim l) as [|d t] eqn:R.
    + destruct (Z.eqb_spec c 32).
      * exists (c :: w). simpl in *. subst. split; auto.
      * exists w. simpl in *. split; [congruence|]. split; auto. right. exists [], c. auto.
    + exists w. split; [simpl; now rewrite E|]. split; auto. right.
      destruct T as [T|[t' [e [T1 T2]]]]; [discriminate|]. exists (c :: t'), e.
      split; [simpl; now rewrite T1|auto].
Qed.

Lemma stripped_right_change (P Q : Z -> Prop) l t :
  (forall c, In c l -> (P c <-> Q c)) -> stripped_right P l t -> stripped_right Q l t.
Proof.
  intros H [w [E [F T]]]. exists w. split; auto. split.
  - apply Forall_forall. intros c Hc. rewrite Forall_forall in F. apply H; auto.
    rewrite E. apply in_or_app. auto.
  - destruct T as [T|[t' [c [T1 T2]]]]; auto. right. exists t', c. split; auto.
    intro. apply T2. apply H; auto. rewrite E, T1. apply in_or_app. left. apply in_or_app.
    right. simpl. auto.
Qed.

Lemma trim_end_rtrim l : Forall printable l -> trim_end l = rtrim l.
Proof.
  intro H. unfold trim_end.
  apply (trim_end_by_iff is_unicode_ws (fun c => is_unicode_ws c = true)); [tauto|].
  apply (stripped_right_change (fun c => c = 32)); [|apply rtrim_spec].
  intros c Hc. rewrite Forall_forall in H. apply H in Hc. unfold printable in Hc.
  unfold is_unicode_ws. lia.
Qed.

Lemma rtrim_blanks l n : rtrim (l ++ blanks n) = rtrim l.
Proof.
  apply (stripped_right_unique (fun c => c = 32) (l ++ blanks n)).
  - apply rtrim_spec.
  - destruct (rtrim_spec l) as [w [E [F T]]]. exists (w ++ blanks n). split; [|split; auto].
    + rewrite app_assoc. now rewrite <- E.
    + apply Forall_app. split; auto. clear. unfold blanks; induction n; simpl; auto.
Qed.

Lemma rtrim_printable l : Forall printable l -> Forall printable (rtrim l).
Proof.
  intro H. destruct (rtrim_spec l) as [w [E _]]. rewrite E in H.
  apply Forall_app in H as [H _]. exact H.
Qed.

Lemma rtrim_last l c : c <> 32 -> rtrim (l ++ [c]) = l ++ [c].
Proof.
  intros. apply (stripped_right_unique (fun c => c = 32) (l ++ [c])).
  - apply rtrim_spec.
  - exists []. rewrite app_nil_r. split; auto. split; auto. right. exists l, c. auto.
Qed.

(** ** Digits *)

Lemma is_digit_char d : digit d -> is_digit (48 + d) = true.
Proof. unfold digit, is_digit. lia. Qed.

Lemma digits_acc_chars ds acc :
  Forall digit ds ->
  digits_acc acc (digit_chars ds) = Some (acc * 10 ^ Z.of_nat (length ds) + dec_value ds).
Proof.
  intro H. revert acc. induction H as [|d ds Hd _ IH]; intro acc.
  - simpl. f_equal. change (10 ^ Z.of_nat 0) with 1. lia.
  - unfold digit_chars. cbn [map digits_acc]. rewrite is_digit_char by auto.
    fold (digit_chars ds). rewrite IH. f_equal. cbn [length dec_value].
    replace (Z.of_nat (S (length ds))) with (Z.succ (Z.of_nat (length ds))) by lia.
    rewrite Z.pow_succ_r by lia. ring.
Qed.

Lemma digits_val_chars ds : Forall digit ds -> digits_val (digit_chars ds) = dec_value ds.
Proof.
  intro H. unfold digits_val.
  assert (G: forall acc, fold_left (fun acc c => 10 * acc + (c - 48)) (digit_chars ds) acc
                 = acc * 10 ^ Z.of_nat (length ds) + dec_value ds).
  { induction H as [|d ds Hd _ IH]; intro acc.
    - simpl. change (10 ^ Z.of_nat 0) with 1. lia.
    - unfold digit_chars. cbn [map fold_left]. fold (digit_chars ds). rewrite IH.
      cbn [length dec_value].
      replace (Z.of_nat (S (length ds))) with (Z.succ (Z.of_nat (length ds))) by lia.
      rewrite Z.pow_succ_r by lia. ring. }
  rewrite G. lia.
Qed.

Lemma dec_value_nonneg ds : Forall digit ds -> 0 <= dec_value ds.
Proof.
  induction 1; cbn [dec_value]; [lia|].
  unfold digit in H. assert (0 < 10 ^ Z.of_nat (length l)) by (apply Z.pow_pos_nonneg; lia). nia.
Qed.

Lemma span_digits_chars ds rest :
  Forall digit ds ->
  match rest with [] => True | c :: _ => is_digit c = false end ->
  span_digits (digit_chars ds ++ rest) = (digit_chars ds, rest).
Proof.
  intros H Hr. induction H as [|d ds Hd _ IH].
  - simpl. destruct rest; auto. simpl. now rewrite Hr.
  - unfold digit_chars. cbn [map app span_digits]. rewrite is_digit_char by auto.
    fold (digit_chars ds). now rewrite IH.
Qed.

Lemma digit_chars_app a b : digit_chars (a ++ b) = digit_chars a ++ digit_chars b.
Proof. apply map_app. Qed.

Lemma digit_chars_printable ds : Forall digit ds -> Forall graphic (digit_chars ds).
Proof.
  induction 1; simpl; constructor; auto. unfold digit in H. unfold graphic. lia.
Qed.

Lemma printable_ascii l : Forall printable l -> Forall is_ascii l.
Proof. apply Forall_impl. unfold printable, is_ascii. lia. Qed.

Lemma graphic_printable l : Forall graphic l -> Forall printable l.
Proof. apply Forall_impl. unfold printable, graphic. lia. Qed.

(** Which texts [parse_number] reads as numbers, and the same for whole records. *)

From Coq Require Import Lia ZifyBool.
From Verif Require Import Base Utf8 Text Card SpecCard SpecNumber.
From Verif Require Import TextLemmas Utf8Proofs CardProofs CardProofs2 CardProps.

Lemma digit_of c : is_digit c = true -> exists x, digit x /\ c = 48 + x.
Proof. intro H. exists (c - 48). unfold is_digit, digit in *. lia. Qed.

Lemma span_digits_inv l a r : span_digits l = (a, r) -> l = a ++ r /\ exists ds, a = digit_chars ds /\ Forall digit ds.
Proof.
  revert a r. induction l as [|c l IH]; intros a r H; cbn [span_digits] in H.
  - inversion H. split; [reflexivity|]. exists []. split; [reflexivity|constructor].
  - destruct (is_digit c) eqn:D.
    + destruct (span_digits l) as [a' b'] eqn:E. inversion H; subst. destruct (IH _ _ eq_refl) as (-> & ds & -> & F).
      destruct (digit_of c D) as (x & Dx & ->). split; [reflexivity|]. exists (x :: ds). split; [reflexivity|]. constructor; auto.
    + inversion H; subst. split; [reflexivity|]. exists []. split; [reflexivity|constructor].
Qed.

Lemma digits_acc_inv l : forall acc n, digits_acc acc l = Some n -> exists ds, l = digit_chars ds /\ Forall digit ds.
Proof.
  induction l as [|c l IH]; intros acc n H; cbn [digits_acc] in H.
  - exists []. split; [reflexivity|constructor].
  - destruct (is_digit c) eqn:D; [|discriminate]. destruct (IH _ _ H) as (ds & -> & F). destruct (digit_of c D) as (x & Dx & ->).
    exists (x :: ds). split; [reflexivity|]. constructor; auto.
Qed.

(** Integers. *)
Lemma parse_i64_inv v n : parse_i64 v = Some n -> int_text v n.
Proof.
  intro H. assert (L: exists s ds, v = int_literal s ds /\ Forall digit ds /\ ds <> []).
  { unfold parse_i64 in H. destruct v as [|c r]; [discriminate|]. destruct (Z.eqb_spec c 45) as [->|N].
    - destruct r as [|c r]; [discriminate|]. destruct (digits_acc 0 (c :: r)) as [x|] eqn:D; [|discriminate].
      destruct (digits_acc_inv _ _ _ D) as (ds & E & F). exists Minus, ds. split; [rewrite E; reflexivity|]. split; [exact F|].
      intros ->. discriminate.
    - unfold parse_unsigned in H. destruct (Z.eqb_spec c 43) as [->|N'].
      + destruct r as [|c r]; [discriminate|]. destruct (digits_acc 0 (c :: r)) as [x|] eqn:D; [|discriminate].
        destruct (digits_acc_inv _ _ _ D) as (ds & E & F). exists Plus, ds. split; [rewrite E; reflexivity|]. split; [exact F|].
        intros ->. discriminate.
      + destruct (digits_acc 0 (c :: r)) as [x|] eqn:D; [|discriminate].
        destruct (digits_acc_inv _ _ _ D) as (ds & E & F). exists NoSign, ds. split; [exact E|]. split; [exact F|].
        intros ->. discriminate. }
  destruct L as (s & ds & -> & F & N). rewrite parse_i64_literal in H by auto. cbv zeta in H.
  destruct ((- 2 ^ 63 <=? _) && _) eqn:R in H; [|discriminate]. inversion H; subst n. exists s, ds. do 3 (split; [auto|]).
  split; [reflexivity|lia].
Qed.

(** Reals: what is in the text, the exponent with any letter [ok]. *)
Definition real_text (ok : Z -> Prop) (body : list Z) (neg : bool) (x : fval) : Prop :=
  exists ip f e, body = real_body ip f e /\ Forall digit ip /\ Forall digit (frac_digits f) /\ ip ++ frac_digits f <> [] /\
    match e with NoExp => True | Exp l _ ds => ok l /\ Forall digit ds /\ ds <> [] end /\
    x = FDec neg (dec_value (ip ++ frac_digits f)) (expo_value e - len (frac_digits f)).

Definition letter_e (l : Z) : Prop := l = 69 \/ l = 101.

Lemma parse_exponent_inv l n : parse_exponent l = Some n ->
  exists s ds, l = sign_chars s ++ digit_chars ds /\ Forall digit ds /\ ds <> [].
Proof.
  unfold parse_exponent. intro H.
  set (q := match l with c :: r => if c =? 45 then (true, r) else if c =? 43 then (false, r) else (false, l) | [] => (false, l) end) in *.
  assert (Q: exists s, l = sign_chars s ++ snd q).
  { unfold q. destruct l as [|c r]; [exists NoSign; reflexivity|]. destruct (Z.eqb_spec c 45) as [->|]; [exists Minus; reflexivity|].
    destruct (Z.eqb_spec c 43) as [->|]; [exists Plus; reflexivity|exists NoSign; reflexivity]. }
  clearbody q. destruct q as [neg r]. destruct Q as [s ->]. cbn [snd]. destruct (span_digits r) as [a b] eqn:E.
  destruct (span_digits_inv _ _ _ E) as (-> & ds & -> & F). destruct ds as [|x ds]; [discriminate|]. cbn [digit_chars map] in H.
  destruct b; [|discriminate]. exists s, (x :: ds). rewrite app_nil_r. split; [reflexivity|]. split; [exact F|discriminate].
Qed.

Lemma parse_unsigned_real_inv neg l x : parse_unsigned_real neg l = Some x -> real_text letter_e l neg x.
Proof.
  unfold parse_unsigned_real. intro H. destruct (span_digits l) as [a r1] eqn:E1.
  destruct (span_digits_inv _ _ _ E1) as (-> & ip & -> & Fi). clear E1.
  set (q := match r1 with c :: r => if c =? 46 then span_digits r else ([], r1) | [] => ([], r1) end) in *.
  assert (Q: exists f, r1 = point_chars f ++ snd q /\ fst q = digit_chars (frac_digits f) /\ Forall digit (frac_digits f)).
  { unfold q. destruct r1 as [|c r]; [exists None; repeat split; constructor|].
    destruct (Z.eqb_spec c 46) as [->|N]; [|exists None; repeat split; constructor].
    destruct (span_digits r) as [b r2] eqn:E2. destruct (span_digits_inv _ _ _ E2) as (-> & fp & -> & Ff).
    exists (Some fp). repeat split; auto. }
  clearbody q. destruct q as [b r2]. destruct Q as (f & -> & Q2 & Ff). cbn [fst snd] in *. subst b. rewrite <- digit_chars_app in H.
  destruct (ip ++ frac_digits f) as [|y ys] eqn:Ey; [discriminate|]. rewrite <- Ey in *.
  assert (Nn: ip ++ frac_digits f <> []) by (rewrite Ey; discriminate).
  assert (H': match r2 with
              | [] => Some (FDec neg (dec_value (ip ++ frac_digits f)) (- len (frac_digits f)))
              | c :: r3 => if (c =? 101) || (c =? 69)
                  then match parse_exponent r3 with
                       | Some x0 => Some (FDec neg (dec_value (ip ++ frac_digits f)) (x0 - len (frac_digits f)))
                       | None => None end
                  else None
              end = Some x).
  { rewrite digits_val_chars in H by (apply Forall_app; auto).
    assert (Ll: Z.of_nat (length (digit_chars (frac_digits f))) = len (frac_digits f)) by (unfold digit_chars, len; rewrite map_length; reflexivity).
    rewrite Ll in H. rewrite <- H. rewrite Ey. cbn [digit_chars map]. destruct r2 as [|c r3]; [reflexivity|].
    destruct ((c =? 101) || (c =? 69)); [|reflexivity]. destruct (parse_exponent r3); reflexivity. }
  clear H. destruct r2 as [|c r3].
  - inversion H'; subst x. exists ip, f, NoExp. split; [unfold real_body; reflexivity|]. repeat (split; [assumption || exact I|]). reflexivity.
  - destruct ((c =? 101) || (c =? 69)) eqn:C; [|discriminate]. destruct (parse_exponent r3) as [n|] eqn:P; [|discriminate].
    inversion H'; subst x. destruct (parse_exponent_inv _ _ P) as (s & ds & -> & Fd & Nd).
    rewrite parse_exponent_literal in P by auto. inversion P; subst n.
    exists ip, f, (Exp c s ds). split; [reflexivity|]. repeat (split; [assumption|]). split; [|reflexivity].
    split; [unfold letter_e; lia|]. auto.
Qed.

Lemma parse_unsigned_real_text neg l x : real_text letter_e l neg x -> parse_unsigned_real neg l = Some x.
Proof.
  intros (ip & f & e & -> & Hi & Hf & Hn & He & ->). unfold parse_unsigned_real, real_body.
  assert (Le: match e with Exp l _ _ => l = 69 \/ l = 101 | NoExp => True end) by (destruct e; [exact I|apply He]).
  assert (Hstop2: match expo_chars e with [] => True | c :: _ => is_digit c = false end).
  { destruct e; simpl in *; auto. destruct Le as [->| ->]; reflexivity. }
  assert (Hstop: match point_chars f ++ expo_chars e with [] => True | c :: _ => is_digit c = false end).
  { destruct f; simpl; auto. }
  rewrite span_digits_chars by auto.
  assert (Hfp: match point_chars f ++ expo_chars e with
               | c :: r => if c =? 46 then span_digits r else ([], point_chars f ++ expo_chars e)
               | [] => ([], point_chars f ++ expo_chars e)
               end = (digit_chars (frac_digits f), expo_chars e)).
  { destruct f as [fp|]; cbn [point_chars frac_digits app].
    - rewrite Z.eqb_refl. now apply span_digits_chars.
    - destruct e; simpl in *; auto. destruct Le as [->| ->]; reflexivity. }
  rewrite Hfp. rewrite <- digit_chars_app.
  destruct (digit_chars (ip ++ frac_digits f)) as [|c0 l0] eqn:E0.
  { destruct (ip ++ frac_digits f); [congruence|discriminate]. }
  rewrite <- E0. rewrite digits_val_chars by (apply Forall_app; auto).
  assert (Ll: Z.of_nat (length (digit_chars (frac_digits f))) = len (frac_digits f)) by (unfold digit_chars, len; rewrite map_length; reflexivity).
  rewrite Ll. destruct e as [|l s ds]; cbn [expo_chars expo_value].
  - reflexivity.
  - destruct He as (_ & Hd & Hdn). rewrite parse_exponent_literal by auto. destruct Le as [->| ->]; reflexivity.
Qed.

(** The words. *)
Lemma lower_spelt w word : Forall (fun u => 65 <= u <= 90) word -> (map lower w = map (fun u => u + 32) word <-> spelt w word).
Proof.
  intro F. revert w. induction F as [|u word U F IH]; intro w.
  - destruct w; cbn [map]; split; intro H; try discriminate; [constructor|reflexivity|inversion H].
  - destruct w as [|c w]; cbn [map]; [split; intro H; [discriminate|inversion H]|]. split; intro H.
    + inversion H as [[H1 H2]]. apply IH in H2. constructor; [|exact H2]. unfold lower in H1. destruct ((65 <=? c) && (c <=? 90)) eqn:X; lia.
    + inversion H as [|? ? ? ? H1 H2]; subst. apply IH in H2. rewrite H2. f_equal. unfold lower. destruct ((65 <=? c) && (c <=? 90)) eqn:X; lia.
Qed.

Definition word_text (w : list Z) (neg : bool) (x : fval) : Prop :=
  (spelt w (chars "INF") \/ spelt w (chars "INFINITY")) /\ x = FInf neg \/ spelt w (chars "NAN") /\ x = FNan.

Lemma parse_inf_nan_iff neg w x : parse_inf_nan neg w = Some x <-> word_text w neg x.
Proof.
  pose proof (lower_spelt w (chars "INF") ltac:(repeat constructor; vm_compute; discriminate)) as A.
  pose proof (lower_spelt w (chars "INFINITY") ltac:(repeat constructor; vm_compute; discriminate)) as B.
  pose proof (lower_spelt w (chars "NAN") ltac:(repeat constructor; vm_compute; discriminate)) as C.
  change (map (fun u => u + 32) (chars "INF")) with (chars "inf") in A.
  change (map (fun u => u + 32) (chars "INFINITY")) with (chars "infinity") in B.
  change (map (fun u => u + 32) (chars "NAN")) with (chars "nan") in C.
  unfold parse_inf_nan, word_text.
  destruct (str_eqb (map lower w) (chars "nan")) eqn:E1.
  - apply str_eqb_eq in E1. split.
    + intro H. inversion H; subst. right. split; [apply C; exact E1|reflexivity].
    + intros [[[H|H] _]|[_ ->]]; [apply A in H|apply B in H|reflexivity]; rewrite E1 in H; discriminate.
  - assert (N: ~ spelt w (chars "NAN")).
    { intro H. apply C in H. rewrite H in E1. discriminate. }
    destruct (str_eqb (map lower w) (chars "inf")) eqn:E2; cbn [orb].
    + apply str_eqb_eq in E2. split; [intro H; inversion H; left; split; [left; apply A; exact E2|reflexivity]|].
      intros [[_ ->]|[H _]]; [reflexivity|contradiction].
    + destruct (str_eqb (map lower w) (chars "infinity")) eqn:E3.
      * apply str_eqb_eq in E3. split; [intro H; inversion H; left; split; [right; apply B; exact E3|reflexivity]|].
        intros [[_ ->]|[H _]]; [reflexivity|contradiction].
      * split; [discriminate|]. intros [[[H|H] _]|[H _]]; [apply A in H; rewrite H in E2; discriminate|apply B in H; rewrite H in E3; discriminate|contradiction].
Qed.

Lemma parse_f64_inv v x : parse_f64 v = Some x ->
  exists s body, v = sign_chars s ++ body /\ (real_text letter_e body (is_neg s) x \/ word_text body (is_neg s) x).
Proof.
  unfold parse_f64. destruct v as [|c r]; [discriminate|]. intro H.
  assert (S: exists s, c :: r = sign_chars s ++ (if (c =? 45) || (c =? 43) then r else c :: r) /\ is_neg s = (c =? 45)).
  { destruct (Z.eqb_spec c 45) as [->|N]; [exists Minus; split; reflexivity|].
    destruct (Z.eqb_spec c 43) as [->|N']; [exists Plus; split; reflexivity|]. exists NoSign. split; reflexivity. }
  destruct S as (s & E & Ns). exists s, (if (c =? 45) || (c =? 43) then r else c :: r). split; [exact E|]. rewrite Ns.
  set (body := if (c =? 45) || (c =? 43) then r else c :: r) in *. clearbody body.
  destruct body as [|y body]; [discriminate|]. destruct (parse_unsigned_real (c =? 45) (y :: body)) as [z|] eqn:P.
  - left. inversion H; subst z. apply parse_unsigned_real_inv. exact P.
  - right. apply parse_inf_nan_iff. exact H.
Qed.

Lemma spelt_head w u word : spelt w (u :: word) -> exists c r, w = c :: r /\ (c = u \/ c = u + 32).
Proof. intro H. inversion H; subst. eauto. Qed.

Lemma word_head w neg x : word_text w neg x -> exists c r, w = c :: r /\ is_digit c = false /\ c <> 46 /\ c <> 45 /\ c <> 43.
Proof.
  intro H. assert (G: exists u word, spelt w (u :: word) /\ (u = 73 \/ u = 78)).
  { destruct H as [[[H|H] _]|[H _]]; eexists; eexists; (split; [exact H|]); vm_compute; auto. }
  destruct G as (u & word & S & U). destruct (spelt_head _ _ _ S) as (c & r & -> & C). exists c, r. split; [reflexivity|].
  unfold is_digit. lia.
Qed.

Lemma parse_f64_word s w x : word_text w (is_neg s) x -> parse_f64 (sign_chars s ++ w) = Some x.
Proof.
  intro H. destruct (word_head _ _ _ H) as (c & r & -> & D & P & M & Q).
  assert (U: forall neg, parse_unsigned_real neg (c :: r) = None).
  { intro neg. unfold parse_unsigned_real. cbn [span_digits]. rewrite D. rewrite (proj2 (Z.eqb_neq _ _) P). reflexivity. }
  apply parse_inf_nan_iff in H. unfold parse_f64. destruct s; cbn [sign_chars app is_neg] in *.
  - rewrite (proj2 (Z.eqb_neq _ _) M), (proj2 (Z.eqb_neq _ _) Q). cbn [orb]. rewrite U. exact H.
  - change (43 =? 45) with false. change (43 =? 43) with true. cbn [orb]. rewrite U. exact H.
  - change (45 =? 45) with true. cbn [orb]. rewrite U. exact H.
Qed.
Lemma parse_f64_real s body x : real_text letter_e body (is_neg s) x -> parse_f64 (sign_chars s ++ body) = Some x.
Proof.
  intro H. pose proof H as (ip & f & e & E & Hi & Hf & Hn & He & _).
  pose proof (real_body_nonempty ip f e Hn) as Hb. rewrite <- E in Hb. destruct body as [|c r]; [contradiction|].
  destruct (real_body_head ip f e c r Hi Hn (eq_sym E)) as [N1 N2]. apply parse_unsigned_real_text in H.
  unfold parse_f64. destruct s; cbn [sign_chars app is_neg] in *.
  - rewrite (proj2 (Z.eqb_neq _ _) N1), (proj2 (Z.eqb_neq _ _) N2). cbn [orb]. rewrite H. reflexivity.
  - change (43 =? 45) with false. change (43 =? 43) with true. cbn [orb]. rewrite H. reflexivity.
  - change (45 =? 45) with true. cbn [orb]. rewrite H. reflexivity.
Qed.

(** The characters of numbers. *)
Definition number_char (c : Z) : Prop := is_digit c = true \/ c = 43 \/ c = 45 \/ c = 46 \/ 65 <= c <= 90 \/ 97 <= c <= 122.

Lemma digits_number ds : Forall digit ds -> Forall number_char (digit_chars ds).
Proof. intro F. unfold digit_chars. apply Forall_map. eapply Forall_impl; [|exact F]. intros x D. left. unfold digit, is_digit in *. lia. Qed.
Lemma sign_number s : Forall number_char (sign_chars s).
Proof. unfold number_char. destruct s; repeat constructor; lia. Qed.
Lemma spelt_number w word : spelt w word -> Forall (fun u => 65 <= u <= 90) word -> Forall number_char w.
Proof.
  intros S F. induction S as [|c u w word C S IH]; [constructor|]. inversion F; subst. constructor; [unfold number_char; lia|auto].
Qed.
Lemma real_number s ip f e : Forall digit ip -> Forall digit (frac_digits f) ->
  match e with NoExp => True | Exp l _ ds => (l = 69 \/ l = 68 \/ l = 101) /\ Forall digit ds /\ ds <> [] end ->
  Forall number_char (real_literal s ip f e).
Proof.
  intros Hi Hf He. unfold real_literal, real_body. apply Forall_app. split; [apply sign_number|].
  apply Forall_app. split; [apply digits_number, Hi|]. apply Forall_app. split.
  - destruct f; cbn [point_chars]; [|constructor]. constructor; [unfold number_char; lia|apply digits_number, Hf].
  - destruct e as [|l s' ds]; cbn [expo_chars]; [constructor|]. destruct He as (L & Fd & _). constructor; [unfold number_char; lia|].
    apply Forall_app. split; [apply sign_number|apply digits_number, Fd].
Qed.
Lemma float_number v x : float_text v x -> Forall number_char v.
Proof.
  intro H. destruct H as [s ip f e Hi Hf Hn He _|s w _ W|s w _ W].
  - apply real_number; auto.
  - apply Forall_app. split; [apply sign_number|]. destruct W as [W|W]; (eapply spelt_number; [exact W|]); repeat constructor; vm_compute; discriminate.
  - apply Forall_app. split; [apply sign_number|]. eapply spelt_number; [exact W|]; repeat constructor; vm_compute; discriminate.
Qed.
Lemma int_number v n : int_text v n -> Forall number_char v.
Proof. intros (s & ds & -> & F & _). apply Forall_app. split; [apply sign_number|apply digits_number, F]. Qed.

Lemma real_start s ip f e : Forall digit ip -> ip ++ frac_digits f <> [] ->
  exists c t, real_literal s ip f e = c :: t /\ number_start c.
Proof.
  intros Hi Hn. unfold number_start, real_literal. destruct s; cbn [sign_chars app]; [|eexists; eexists; split; [reflexivity|lia]..].
  unfold real_body. destruct ip as [|d ip].
  - destruct f; cbn in *; [|congruence]. eexists; eexists; split; [reflexivity|lia].
  - inversion Hi as [|? ? D]; subst. cbn. eexists; eexists; split; [reflexivity|]. unfold digit in D. lia.
Qed.
Lemma float_start v x : float_text v x -> exists c t, v = c :: t /\ number_start c.
Proof.
  intro H. destruct H as [s ip f e Hi Hf Hn He _|s w S W|s w S W]; [now apply real_start|..];
    (destruct s; [congruence|eexists; eexists; split; [reflexivity|unfold number_start; lia]..]).
Qed.
Lemma int_start v n : int_text v n -> exists c t, v = c :: t /\ number_start c.
Proof.
  intros (s & ds & -> & F & N & _). rewrite int_literal_real. apply real_start; [exact F|]. cbn. rewrite app_nil_r. exact N.
Qed.

(** An integer holds digits only. *)
Lemma int_chars v n c : int_text v n -> In c v -> is_digit c = true \/ c = 43 \/ c = 45.
Proof.
  intros (s & ds & -> & F & _) I. apply in_app_or in I as [I|I].
  - destruct s; cbn in I; lia.
  - left. unfold digit_chars in I. apply in_map_iff in I as (x & <- & Hx). rewrite Forall_forall in F. specialize (F x Hx).
    unfold digit, is_digit in *. lia.
Qed.

Lemma int_parsed v n : int_text v n -> parse_i64 v = Some n.
Proof.
  intros (s & ds & -> & F & N & -> & R). rewrite parse_i64_literal by auto. cbv zeta.
  destruct ((- 2 ^ 63 <=? apply_sign s (dec_value ds)) && (apply_sign s (dec_value ds) <=? 2 ^ 63 - 1)) eqn:X; [reflexivity|lia].
Qed.

Lemma word_spelt w neg x : word_text w neg x -> exists word, spelt w word /\ Forall (fun u => 65 <= u <= 90 /\ u <> 68 /\ u <> 69) word /\ word <> [].
Proof.
  intros [[[H|H] _]|[H _]]; (eexists; split; [exact H|]); (split; [|discriminate]); repeat constructor; vm_compute; discriminate.
Qed.

Lemma float_not_int v x : float_text v x -> parse_i64 v = None.
Proof.
  intro H. destruct (parse_i64 v) as [n|] eqn:P; [exfalso|reflexivity]. apply parse_i64_inv in P.
  assert (W: forall s w neg y, word_text w neg y -> int_text (sign_chars s ++ w) n -> False).
  { intros s w neg y Wt It. destruct (word_head _ _ _ Wt) as (c & r & -> & D & P1 & P2 & P3).
    destruct (int_chars _ _ c It); [apply in_or_app; right; left; reflexivity|congruence|lia]. }
  destruct H as [s ip f e Hi Hf Hn He Ho|s w S Wd|s w S Wd].
  - destruct f as [fp|].
    { destruct (int_chars _ _ 46 P) as [X|X]; [|discriminate|lia].
      unfold real_literal, real_body. apply in_or_app. right. apply in_or_app. right. left. reflexivity. }
    destruct e as [|l s' ds].
    { unfold real_literal in P. change (sign_chars s ++ real_body ip None NoExp) with (real_literal s ip None NoExp) in P.
      rewrite <- int_literal_real in P. apply int_parsed in P. cbn [frac_digits] in Hn. rewrite app_nil_r in Hn.
      rewrite parse_i64_literal in P by auto. cbv zeta in P. specialize (Ho eq_refl eq_refl).
      destruct ((- 2 ^ 63 <=? apply_sign s (dec_value ip)) && (apply_sign s (dec_value ip) <=? 2 ^ 63 - 1)) eqn:X; [lia|discriminate]. }
    destruct He as (L & _). destruct (int_chars _ _ l P) as [X|X]; [|unfold is_digit in X; lia|lia].
    unfold real_literal, real_body. apply in_or_app. right. apply in_or_app. right. left. reflexivity.
  - eapply (W s w (is_neg s)); [left; split; [exact Wd|reflexivity]|exact P].
  - eapply (W s w (is_neg s)); [right; split; [exact Wd|reflexivity]|exact P].
Qed.

(** With D for E. *)
Lemma unD v l : replace_D v = l -> Forall (fun c => c <> 69) l -> v = l.
Proof.
  intros <-. unfold replace_D. induction v as [|c v IH]; intro F; [reflexivity|]. cbn [map] in *. inversion F as [|? ? A B]; subst.
  rewrite <- (IH B) at 1. f_equal. destruct (Z.eqb_spec c 68); [contradiction|reflexivity].
Qed.
Lemma unD_digits v ds : replace_D v = digit_chars ds -> Forall digit ds -> v = digit_chars ds.
Proof.
  intros E F. apply unD; [exact E|]. unfold digit_chars. apply Forall_map. eapply Forall_impl; [|exact F]. unfold digit. intros; lia.
Qed.
Lemma unD_sign v s : replace_D v = sign_chars s -> v = sign_chars s.
Proof. intro E. apply unD; [exact E|]. destruct s; repeat constructor; discriminate. Qed.

Lemma unD_real v s ip f e : Forall digit ip -> Forall digit (frac_digits f) ->
  match e with NoExp => True | Exp l _ ds => letter_e l /\ Forall digit ds /\ ds <> [] end ->
  replace_D v = real_literal s ip f e ->
  exists e', v = real_literal s ip f e' /\ expo_value e' = expo_value e /\ (e = NoExp <-> e' = NoExp) /\
    match e' with NoExp => True | Exp l _ ds => (l = 69 \/ l = 68 \/ l = 101) /\ Forall digit ds /\ ds <> [] end.
Proof.
  intros Hi Hf He E. unfold real_literal, real_body in E. unfold replace_D in E.
  apply map_eq_app in E as (v1 & v2 & -> & E1 & E). apply map_eq_app in E as (v3 & v4 & -> & E3 & E). apply map_eq_app in E as (v5 & v6 & -> & E5 & E6).
  apply unD_sign in E1. apply unD_digits in E3; [|exact Hi]. subst v1 v3.
  assert (V5: v5 = point_chars f).
  { apply unD; [exact E5|]. destruct f; cbn [point_chars]; constructor; [discriminate|]. unfold digit_chars. apply Forall_map.
    eapply Forall_impl; [|exact Hf]. unfold digit. intros; lia. }
  subst v5. destruct e as [|l s' ds]; cbn [expo_chars] in E6.
  - apply map_eq_nil in E6. subst v6. exists NoExp. split; [unfold real_literal, real_body; reflexivity|]. split; [reflexivity|]. split; [tauto|exact I].
  - destruct He as (L & Fd & Nd). destruct v6 as [|c v6]; [discriminate|]. cbn [map] in E6. inversion E6 as [[El E7]].
    apply map_eq_app in E7 as (v7 & v8 & -> & E7 & E8). apply unD_sign in E7. apply unD_digits in E8; [|exact Fd]. subst v7 v8.
    exists (Exp c s' ds). split; [reflexivity|]. split; [reflexivity|]. split; [split; discriminate|]. split; [|auto].
    unfold letter_e in L. destruct (Z.eqb_spec c 68); lia.
Qed.

Lemma unD_word v s w neg x : word_text w neg x -> replace_D v = sign_chars s ++ w -> v = sign_chars s ++ w.
Proof.
  intros W E. apply unD; [exact E|]. apply Forall_app. split; [destruct s; repeat constructor; discriminate|].
  destruct (word_spelt _ _ _ W) as (word & S & F & _). clear W E. induction S as [|c u w word C S IH]; [constructor|].
  inversion F; subst. constructor; [lia|auto].
Qed.

(** [parse_number] on texts that begin like a number. *)
Lemma parse_number_float v x cm : float_text v x -> parse_number v cm = Ok (VFloat x cm).
Proof.
  intro H. pose proof (float_not_int _ _ H) as N. destruct (float_start _ _ H) as (c & t & E & _).
  assert (G: parse_f64 v = Some x \/ parse_f64 v = None /\ parse_f64 (replace_D v) = Some x).
  { destruct H as [s ip f e Hi Hf Hn He Ho|s w S Wd|s w S Wd].
    - assert (C: (match e with NoExp => True | Exp l _ ds => letter_e l /\ Forall digit ds /\ ds <> [] end) \/ exists s' ds, e = Exp 68 s' ds /\ Forall digit ds /\ ds <> []).
      { unfold letter_e. destruct e as [|l s' ds]; [left; exact I|]. destruct He as ([->|[->| ->]] & A & B); [left; auto|right; eauto|left; auto]. }
      destruct C as [C|(s' & ds & -> & A & B)].
      + left. apply parse_f64_real. exists ip, f, e. auto 10.
      + right. split; [apply parse_f64_literal_D; auto|]. rewrite replace_D_literal by (simpl; auto). cbn [expo_DE].
        rewrite parse_f64_literal_E by (simpl; auto). reflexivity.
    - left. apply parse_f64_word. left. auto.
    - left. apply parse_f64_word. right. auto. }
  unfold parse_number. rewrite E. rewrite <- E. rewrite N. destruct G as [-> | [-> ->]]; reflexivity.
Qed.

Lemma parse_number_int v n cm : int_text v n -> parse_number v cm = Ok (VInteger n cm).
Proof.
  intro H. destruct (int_start _ _ H) as (c & t & E & _). unfold parse_number. rewrite E. rewrite <- E. rewrite (int_parsed _ _ H). reflexivity.
Qed.

Lemma number_sign s w c t neg x : word_text w neg x -> sign_chars s ++ w = c :: t -> number_start c -> s <> NoSign.
Proof.
  intros W E N. destruct (word_head _ _ _ W) as (c' & r & -> & D & P). destruct s; [|discriminate..]. cbn in E. inversion E; subst.
  exfalso. unfold number_start, is_digit in *. lia.
Qed.

Lemma parse_number_cases c t cm : number_start c ->
  exists v, parse_number (c :: t) cm = Ok v /\
    match v with
    | VInteger n k => k = cm /\ int_text (c :: t) n
    | VFloat x k => k = cm /\ float_text (c :: t) x
    | VInvalid u => u = map (fun x => if x =? 68 then 69 else x) (c :: t) /\
        (forall n, ~ int_text (c :: t) n) /\ (forall x, ~ float_text (c :: t) x)
    | _ => False
    end.
Proof.
  intro N. destruct (parse_i64 (c :: t)) as [n|] eqn:P.
  { exists (VInteger n cm). unfold parse_number. rewrite P. split; [reflexivity|]. split; [reflexivity|]. now apply parse_i64_inv. }
  assert (F: forall x, parse_f64 (c :: t) = Some x \/ parse_f64 (replace_D (c :: t)) = Some x -> float_text (c :: t) x).
  { intros x Hx.
    assert (G: exists s body, (c :: t = sign_chars s ++ body \/ replace_D (c :: t) = sign_chars s ++ body) /\ (real_text letter_e body (is_neg s) x \/ word_text body (is_neg s) x)).
    { destruct Hx as [Hx|Hx]; apply parse_f64_inv in Hx as (s & body & E & G); exists s, body; auto. }
    destruct G as (s & body & E & [(ip & f & e & -> & Hi & Hf & Hn & He & ->)|W]).
    - assert (E': exists e', c :: t = real_literal s ip f e' /\ expo_value e' = expo_value e /\ (e = NoExp <-> e' = NoExp) /\
        match e' with NoExp => True | Exp l _ ds => (l = 69 \/ l = 68 \/ l = 101) /\ Forall digit ds /\ ds <> [] end).
      { destruct E as [E|E]; [|apply unD_real; auto]. exists e. split; [exact E|]. split; [reflexivity|]. split; [tauto|].
        unfold letter_e in He. destruct e as [|l s' ds]; [exact I|]. destruct He as (L & R). split; [lia|exact R]. }
      destruct E' as (e' & E' & V & Ne & He'). rewrite E', <- V. apply float_decimal; auto.
      intros -> -> R. cbn [frac_digits] in Hn. rewrite app_nil_r in Hn.
      assert (Pn: parse_i64 (c :: t) = Some (apply_sign s (dec_value ip))); [|congruence].
      apply int_parsed. exists s, ip. split; [rewrite E', int_literal_real; reflexivity|]. auto.
    - assert (E': c :: t = sign_chars s ++ body) by (destruct E as [E|E]; [exact E|eapply unD_word; eauto]).
      pose proof (number_sign s body c t _ _ W (eq_sym E') N) as S. rewrite E'.
      destruct W as [[W ->]|[W ->]]; [apply float_inf|apply float_nan]; auto. }
  unfold parse_number. rewrite P. destruct (parse_f64 (c :: t)) as [x|] eqn:P1; [exists (VFloat x cm); auto|].
  destruct (parse_f64 (replace_D (c :: t))) as [x|] eqn:P2; [exists (VFloat x cm); auto|].
  eexists. split; [reflexivity|]. split; [reflexivity|]. split.
  - intros n H. apply int_parsed in H. congruence.
  - intros x H. apply (parse_number_float _ _ cm) in H. unfold parse_number in H. rewrite P, P1, P2 in H. discriminate.
Qed.

(** Records written with such texts. *)
Lemma number_field n lead c t trail comment : compact (c :: t) -> Forall plain (c :: t) -> opt_printable comment -> number_start c ->
  parse_value (padded n (value_field lead (c :: t) trail comment)) = parse_number (c :: t) (option_map rtrim comment).
Proof.
  intros C P O N. unfold number_start in N. eapply parse_value_dispatch_number; eauto; try lia.
  unfold is_digit. destruct ((48 <=? c) && (c <=? 57)) eqn:X; [reflexivity|]. cbn [orb]. lia.
Qed.

Lemma number_plain v : v <> [] -> Forall number_char v -> compact v /\ Forall plain v.
Proof.
  intros N F. apply graphic_plain_compact; [|exact N]. eapply Forall_impl; [|exact F]. unfold number_char, graphic, is_digit. intros; lia.
Qed.

Lemma float_record kw lead lit x trail comment : ordinary_keyword kw -> float_text lit x -> opt_printable comment ->
  parse_card (value_record kw (value_field lead lit trail comment)) = Ok (CValue kw (VFloat x (option_map rtrim comment))).
Proof.
  intros K F O. rewrite parse_card_value_record by auto. destruct (float_start _ _ F) as (c & t & -> & N).
  destruct (number_plain (c :: t) ltac:(discriminate) (float_number _ _ F)) as [C P].
  rewrite number_field by auto. rewrite (parse_number_float _ _ _ F). reflexivity.
Qed.

Lemma invalid_record kw lead c t trail comment : ordinary_keyword kw -> compact (c :: t) -> Forall plain (c :: t) -> opt_printable comment ->
  number_start c -> (forall n, ~ int_text (c :: t) n) -> (forall x, ~ float_text (c :: t) x) ->
  parse_card (value_record kw (value_field lead (c :: t) trail comment))
  = Ok (CValue kw (VInvalid (map (fun x => if x =? 68 then 69 else x) (c :: t)))).
Proof.
  intros K C P O N NI NF. rewrite parse_card_value_record by auto. rewrite number_field by auto.
  destruct (parse_number_cases c t (option_map rtrim comment) N) as (v & -> & H). cbn [bind].
  destruct v; try contradiction; [destruct H as [_ H]; destruct (NI _ H)|destruct H as [_ H]; destruct (NF _ H)|destruct H as [-> _]; reflexivity].
Qed.

(** Any record. *)
Lemma split_loop_noquote l : forall acc raw cm, split_loop false false acc l = Ok (raw, cm) ->
  forall q, raw = rev acc ++ q -> Forall (fun c => c <> 39) q ->
  l = q ++ match cm with None => [] | Some r => 47 :: r end /\ Forall printable q.
Proof.
  induction l as [|c l IH]; intros acc raw cm H q E F; cbn [split_loop] in H.
  - inversion H as [[H1 H2]]. rewrite E in H1. rewrite <- (app_nil_r (rev acc)) in H1 at 1. apply app_inv_head in H1. subst q. split; [reflexivity|constructor].
  - destruct (Z.eqb_spec c QUOTE) as [->|N].
    { pose proof (split_loop_prefix _ _ _ _ _ _ H) as [suf S]. rewrite S in E. cbn [rev] in E. rewrite <- app_assoc in E.
      apply app_inv_head in E. subst q. inversion F as [|? ? Q1 Q2]. exfalso. apply Q1. reflexivity. }
    destruct (Z.eqb_spec c SLASH) as [->|N'].
    { inversion H as [[H1 H2]]. rewrite E in H1. rewrite <- (app_nil_r (rev acc)) in H1 at 1. apply app_inv_head in H1. subst q. split; [reflexivity|constructor]. }
    destruct (is_fits_char c) eqn:P; [|discriminate].
    pose proof (split_loop_prefix _ _ _ _ _ _ H) as [suf S]. rewrite S in E. cbn [rev] in E. rewrite <- app_assoc in E.
    apply app_inv_head in E. subst q. cbn [app] in F. inversion F; subst.
    destruct (IH _ _ _ H suf eq_refl) as [E' P']; [assumption|]. subst l. split; [reflexivity|]. constructor; [unfold printable, is_fits_char in *; lia|exact P'].
Qed.

Lemma lossy_cons_ascii l c r : utf8_lossy l = c :: r -> is_ascii c -> exists l', l = c :: l' /\ utf8_lossy l' = r.
Proof.
  intros E A. destruct l as [|b0 r0]; [discriminate|]. cbn [utf8_lossy] in E.
  destruct (b0 <? 128) eqn:E0; [inversion E; subst; eauto|]. exfalso.
  assert (B: forall y z, y :: z = c :: r -> 128 <= y -> False) by (intros y z X Y; inversion X; subst; unfold is_ascii in A; lia).
  assert (RB: 128 <= REPL) by (unfold REPL; lia).
  destruct ((194 <=? b0) && (b0 <=? 223)) eqn:E1.
  { destruct r0; [eapply B; eauto|]. destruct (is_cont z) eqn:?; eapply B; eauto. apply dec2_big; auto; lia. }
  destruct ((224 <=? b0) && (b0 <=? 239)) eqn:E2.
  { destruct r0 as [|b1 r1]; [eapply B; eauto|]. destruct (second3 b0 b1) eqn:?; [|eapply B; eauto].
    destruct r1 as [|b2 r2]; [eapply B; eauto|]. destruct (is_cont b2) eqn:?; eapply B; eauto. apply dec3_big; auto. }
  destruct ((240 <=? b0) && (b0 <=? 244)) eqn:E3.
  { destruct r0 as [|b1 r1]; [eapply B; eauto|]. destruct (second4 b0 b1) eqn:?; [|eapply B; eauto].
    destruct r1 as [|b2 r2]; [eapply B; eauto|]. destruct (is_cont b2) eqn:?; [|eapply B; eauto].
    destruct r2 as [|b3 r3]; [eapply B; eauto|]. destruct (is_cont b3) eqn:?; eapply B; eauto. apply dec4_big; auto. }
  eapply B; eauto.
Qed.
Lemma lossy_prefix q : forall l r, utf8_lossy l = q ++ r -> Forall is_ascii q -> exists l', l = q ++ l' /\ utf8_lossy l' = r.
Proof.
  induction q as [|c q IH]; intros l r E F; [exists l; auto|]. inversion F; subst. cbn [app] in E.
  destruct (lossy_cons_ascii _ _ _ E) as (l' & -> & E'); [assumption|]. destruct (IH _ _ E') as (l2 & -> & E2); [assumption|].
  exists l2. auto.
Qed.
Lemma lossy_nil l : utf8_lossy l = [] -> l = [].
Proof.
  destruct l as [|b0 r0]; [reflexivity|]. cbn [utf8_lossy]. intro H. exfalso. revert H.
  repeat match goal with |- context [if ?b then _ else _] => destruct b | |- context [match ?l with [] => _ | _ :: _ => _ end] => destruct l end; discriminate.
Qed.

Lemma split_plain_inv f v c : split_value_and_comment f = Ok (v, c) -> Forall (fun x => x <> 39) v ->
  exists w1 w2 tail, f = w1 ++ v ++ w2 ++ tail /\ Forall white w1 /\ Forall white w2 /\
    match tail, c with [], None => True | x :: _, Some _ => x = 47 | _, _ => False end.
Proof.
  unfold split_value_and_comment. intros H NQ.
  destruct (trim_by_spec is_ascii_ws f) as (u1 & u2 & E1 & F1 & F2 & _). fold (trim_ascii f) in *.
  destruct (split_loop false false [] (utf8_lossy (trim_ascii f))) as [[raw cm]| |] eqn:E; cbn [bind] in H; try discriminate.
  assert (Tr: trim raw = v) by (destruct cm; inversion H; auto).
  assert (Cm: match cm with None => c = None | Some _ => exists k, c = Some k end) by (destruct cm; inversion H; eauto). clear H.
  destruct (trim_by_spec is_unicode_ws raw) as (a & b & R & Fa & Fb & _). fold (trim raw) in R. rewrite Tr in R.
  assert (NR: Forall (fun x => x <> 39) raw).
  { rewrite R. apply Forall_app. split; [|apply Forall_app; split; [exact NQ|]]; (eapply Forall_impl; [|eassumption]); intros x Hx ->; discriminate. }
  destruct (split_loop_noquote _ _ _ _ E raw eq_refl NR) as [U Pr].
  assert (Bl: forall l, Forall printable l -> Forall (fun x => is_unicode_ws x = true) l -> Forall white l).
  { intros l P W. rewrite Forall_forall in *. intros x Hx. specialize (P x Hx). specialize (W x Hx). left. unfold printable, is_unicode_ws in *. lia. }
  rewrite R in Pr. apply Forall_app in Pr as [Pa Pr]. apply Forall_app in Pr as [Pv Pb].
  assert (W: forall l, Forall (fun x => is_ascii_ws x = true) l -> Forall white l) by (intros l; apply Forall_impl; intros; now apply is_ascii_ws_white).
  destruct (lossy_prefix raw _ _ U) as (l' & El & Ul).
  { rewrite R. repeat (apply Forall_app; split); (eapply Forall_impl; [|eassumption]); unfold printable, is_ascii; intros; lia. }
  rewrite El, R in E1. destruct cm as [r|].
  - destruct Cm as [k ->]. destruct (lossy_cons_ascii _ _ _ Ul) as (l2 & -> & _); [unfold is_ascii; lia|].
    exists (u1 ++ a), b, (47 :: l2 ++ u2). split; [rewrite E1, <- !app_assoc; reflexivity|].
    split; [apply Forall_app; split; auto|]. split; [auto|reflexivity].
  - subst c. apply lossy_nil in Ul. subst l'. exists (u1 ++ a), (b ++ u2), []. split; [rewrite E1, !app_nil_r, <- !app_assoc; reflexivity|].
    split; [apply Forall_app; split; auto|]. split; [apply Forall_app; split; auto|exact I].
Qed.

Lemma number_read b name v : parse_card b = Ok (CValue name v) ->
  match v with
  | VInteger n c => exists lit, value_text b lit c /\ int_text lit n
  | VFloat x c => exists lit, value_text b lit c /\ float_text lit x
  | _ => True
  end.
Proof.
  intro H. rewrite parse_card_kind in H. destruct (kw_of b) as [kw|]; [|discriminate].
  destruct (kind_of_kw kw _); try discriminate.
  - unfold parse_empty_keyword_card in H. destruct (parse_comment_text _); discriminate.
  - apply parse_continuation_kind in H as [? [? H]]. discriminate.
  - apply parse_extension_kind in H as [? [? H]]. discriminate.
  - apply parse_hierarch_kind in H as [? [? H]]. discriminate.
  - destruct (parse_value (skipn 10 b)) as [w| |] eqn:P; try discriminate. cbn [bind] in H. inversion H; subst name v. clear H.
    unfold parse_value in P. destruct (split_value_and_comment (skipn 10 b)) as [[t c]| |] eqn:E; cbn [bind] in P; try discriminate.
    destruct t as [|ch t]; [inversion P; exact I|].
    destruct (ch =? QUOTE). { destruct (parse_string _); cbn [bind] in P; inversion P; exact I. }
    destruct (ch =? 84); [inversion P; exact I|]. destruct (ch =? 70); [inversion P; exact I|]. destruct (ch =? 40); [discriminate|].
    destruct (is_digit ch || (ch =? 45) || (ch =? 43) || (ch =? 46)) eqn:D; [|inversion P; exact I].
    assert (N: number_start ch) by (unfold number_start, is_digit in *; lia).
    destruct (parse_number_cases ch t c N) as (v & E' & G). rewrite E' in P. inversion P; subst w.
    assert (V: Forall number_char (ch :: t) -> value_text b (ch :: t) c).
    { intro F. apply (split_plain_inv _ _ _ E). eapply Forall_impl; [|exact F]. unfold number_char, is_digit. intros; lia. }
    destruct v; try exact I; destruct G as [-> G]; exists (ch :: t); (split; [|exact G]); apply V; [eapply int_number|eapply float_number]; exact G.
Qed.

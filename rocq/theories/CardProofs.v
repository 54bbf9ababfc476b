(** Proofs about the record parser. *)

From Verif Require Import Base Utf8 Text Card SpecCard TextLemmas.
From Coq Require Import ZifyBool ZifyNat.

(** ** The value/comment splitter *)

Lemma split_loop_no_panic tic toc acc l :
  (toc = true -> tic = true) -> split_loop tic toc acc l <> Panic.
Proof.
  revert tic toc acc. induction l as [|c l IH]; intros tic toc acc H; simpl; [discriminate|].
  destruct (c =? QUOTE).
  { destruct tic, toc; try (apply IH; auto; fail). exfalso. assert (false = true) by auto. discriminate. }
  destruct (c =? SLASH).
  { destruct tic, toc; try (apply IH; auto; fail); try discriminate.
    exfalso. assert (false = true) by auto. discriminate. }
  destruct (is_fits_char c).
  { destruct toc; apply IH; auto. }
  destruct tic; [apply IH; auto|discriminate].
Qed.

Lemma split_no_panic buf : split_value_and_comment buf <> Panic.
Proof.
  unfold split_value_and_comment.
  pose proof (split_loop_no_panic false false [] (utf8_lossy (trim_ascii buf))) as H.
  destruct (split_loop _ _ _ _) as [[v [c|]]|e|]; simpl; try discriminate.
  exfalso. apply H; auto.
Qed.

Definition text_char (c : Z) : Prop := printable c \/ c = REPL.

Lemma split_loop_chars tic toc acc l v c :
  split_loop tic toc acc l = Ok (v, c) -> Forall text_char acc -> Forall text_char v.
Proof.
  revert tic toc acc. induction l as [|x l IH]; intros tic toc acc H F; simpl in H.
  { inversion H; subst. now apply Forall_rev. }
  assert (Hq: text_char QUOTE) by (left; unfold printable, QUOTE; lia).
  assert (Hs: text_char SLASH) by (left; unfold printable, SLASH; lia).
  destruct (Z.eqb_spec x QUOTE).
  { destruct tic, toc; try discriminate; eapply IH; eauto. }
  destruct (Z.eqb_spec x SLASH).
  { destruct tic, toc; try discriminate; try (eapply IH; eauto; fail);
    inversion H; subst; now apply Forall_rev. }
  destruct (is_fits_char x) eqn:E.
  { assert (text_char x) by (left; unfold is_fits_char, printable in *; lia).
    destruct toc; eapply IH; eauto. }
  destruct tic; [|discriminate]. eapply IH; eauto. constructor; auto. now right.
Qed.

Lemma is_fits_char_printable c : printable c -> is_fits_char c = true.
Proof. unfold printable, is_fits_char. lia. Qed.

Lemma map_repl_printable l : Forall printable l -> map repl_char l = l.
Proof.
  induction 1; simpl; auto. unfold repl_char at 1. rewrite is_fits_char_printable by auto.
  now rewrite IHForall.
Qed.

(** Inside a string: an escaped text is copied unescaped. *)
Lemma split_loop_escaped s acc rest :
  Forall printable s ->
  split_loop true false acc (escape_quotes s ++ rest) = split_loop true false (rev s ++ acc) rest.
Proof.
  intro H. revert acc. induction H as [|c s Hc _ IH]; intro acc; [reflexivity|].
  cbn [escape_quotes]. unfold QUOTE, SLASH in *.
  destruct (Z.eqb_spec c 39).
  - subst. cbn [app split_loop]. unfold QUOTE, SLASH.
    rewrite Z.eqb_refl. cbn [app]. rewrite IH. cbn [rev]. now rewrite <- app_assoc.
  - cbn [app split_loop]. unfold QUOTE, SLASH.
    rewrite (proj2 (Z.eqb_neq _ _) n).
    destruct (Z.eqb_spec c 47).
    + subst. rewrite IH. cbn [rev]. now rewrite <- app_assoc.
    + rewrite is_fits_char_printable by auto. rewrite IH. cbn [rev]. now rewrite <- app_assoc.
Qed.

Lemma split_loop_plain s acc rest :
  Forall plain s ->
  split_loop false false acc (s ++ rest) = split_loop false false (rev s ++ acc) rest.
Proof.
  intro H. revert acc. induction H as [|c s [Hc [H1 H2]] _ IH]; intro acc; [reflexivity|].
  cbn [app split_loop]. unfold QUOTE, SLASH.
  rewrite (proj2 (Z.eqb_neq _ _) H1), (proj2 (Z.eqb_neq _ _) H2).
  rewrite is_fits_char_printable by auto. rewrite IH. cbn [rev]. now rewrite <- app_assoc.
Qed.

Lemma blanks_plain n : Forall plain (blanks n).
Proof.
  unfold blanks. induction n; simpl; auto. constructor; auto. unfold plain, printable. lia.
Qed.

Lemma rev_blanks n : rev (blanks n) = blanks n.
Proof.
  unfold blanks. induction n; simpl; auto. rewrite IHn.
  clear. induction n; simpl; auto. now rewrite IHn.
Qed.

(** What follows the value: blanks, then nothing or a slash and comment. *)
Lemma split_loop_tail tic toc acc n c :
  tic = toc ->
  split_loop tic toc acc (blanks n ++ match c with Some c => 47 :: c | None => [] end)
  = Ok (rev acc ++ blanks n, c).
Proof.
  intros ->. destruct n as [|n].
  - unfold blanks. simpl. rewrite app_nil_r. destruct c; simpl; auto. now destruct toc.
  - unfold blanks. cbn [repeat app split_loop]. unfold QUOTE, SLASH.
    change (32 =? 39) with false. change (32 =? 47) with false. cbn [is_fits_char].
    change (is_fits_char 32) with true. cbn iota.
    assert (E: (if toc then split_loop false false (32 :: acc) (repeat 32 n ++ match c with Some c => 47 :: c | None => [] end)
        else split_loop toc toc (32 :: acc) (repeat 32 n ++ match c with Some c => 47 :: c | None => [] end))
      = split_loop false false (32 :: acc) (blanks n ++ match c with Some c => 47 :: c | None => [] end)).
    { destruct toc; reflexivity. }
    rewrite E. rewrite split_loop_plain by apply blanks_plain.
    rewrite rev_blanks.
    assert (A: blanks n ++ 32 :: acc = blanks (S n) ++ acc).
    { unfold blanks. clear. induction n; simpl; auto. now rewrite IHn. }
    rewrite A.
    destruct c; cbn [split_loop]; unfold QUOTE, SLASH;
      try (change (47 =? 39) with false; change (47 =? 47) with true; cbn iota);
      rewrite rev_app_distr, rev_blanks; reflexivity.
Qed.

Lemma rtrim_cases c : (rtrim c = [] /\ True) \/ (exists t d, rtrim c = t ++ [d] /\ d <> 32).
Proof. destruct (rtrim_spec c) as [w [E [F [T|T]]]]; auto. Qed.

Lemma rtrim_idem c : rtrim (rtrim c) = rtrim c.
Proof.
  destruct (rtrim_cases c) as [[E _]|[t [d [E N]]]]; rewrite E; auto. now apply rtrim_last.
Qed.

Lemma trim_ascii_field n lead body trail comment :
  compact body -> Forall printable body -> opt_printable comment ->
  trim_ascii (padded n (value_field lead body trail comment))
  = match comment with
    | None => body
    | Some c => body ++ blanks trail ++ 47 :: rtrim c
    end.
Proof.
  intros [[c1 [t1 [E1 N1]]] [t2 [c2 [E2 N2]]]] Hp Hc. unfold trim_ascii, padded, value_field.
  rewrite trim_by_blank_r by apply blanks_ws.
  rewrite trim_by_blank_l by apply blanks_ws.
  assert (P1: is_ascii_ws c1 = false).
  { assert (printable c1) by (rewrite E1 in Hp; inversion Hp; auto). unfold printable, is_ascii_ws in *. lia. }
  assert (P2: is_ascii_ws c2 = false).
  { assert (printable c2).
    { rewrite E2 in Hp. apply Forall_app in Hp as [_ Hp]. inversion Hp; auto. }
    unfold printable, is_ascii_ws in *. lia. }
  destruct comment as [c|]; simpl in Hc.
  - destruct (rtrim_spec c) as [w [Ec [Fw T]]]. rewrite Ec at 1.
    replace (body ++ blanks trail ++ 47 :: rtrim c ++ w)
      with ((body ++ blanks trail ++ 47 :: rtrim c) ++ w).
    2:{ rewrite <- !app_assoc. reflexivity. }
    rewrite trim_by_blank_r.
    2:{ eapply Forall_impl; [|exact Fw]. intros a ->. reflexivity. }
    destruct T as [T|[t' [d [T Nd]]]].
    + rewrite T. eapply trim_by_id with (c1 := c1) (c2 := 47).
      * rewrite E1. reflexivity.
      * rewrite app_assoc. reflexivity.
      * auto.
      * reflexivity.
    + rewrite T. eapply trim_by_id with (c1 := c1) (c2 := d).
      * rewrite E1. reflexivity.
      * rewrite app_comm_cons, !app_assoc. reflexivity.
      * auto.
      * assert (printable d).
        { rewrite Ec in Hc. apply Forall_app in Hc as [Hc _]. rewrite T in Hc.
          apply Forall_app in Hc as [_ Hc]. inversion Hc; auto. }
        unfold printable, is_ascii_ws in *. lia.
  - rewrite app_nil_r. rewrite trim_by_blank_r by apply blanks_ws.
    eapply trim_by_id; eauto.
Qed.

Lemma trim_compact l n :
  compact l -> Forall printable l -> trim (l ++ blanks n) = l.
Proof.
  intros [[c1 [t1 [E1 N1]]] [t2 [c2 [E2 N2]]]] Hp. unfold trim.
  rewrite trim_by_blank_r by apply blanks_uws.
  eapply trim_by_id; eauto.
  - assert (printable c1) by (rewrite E1 in Hp; inversion Hp; auto).
    unfold printable, is_unicode_ws in *. lia.
  - assert (printable c2).
    { rewrite E2 in Hp. apply Forall_app in Hp as [_ Hp]. inversion Hp; auto. }
    unfold printable, is_unicode_ws in *. lia.
Qed.

Lemma escape_printable s : Forall printable s -> Forall printable (escape_quotes s).
Proof.
  induction 1; simpl; auto. destruct (x =? 39); repeat apply Forall_cons; auto;
    unfold printable; lia.
Qed.

Lemma fits_string_printable s : Forall printable s -> Forall printable (fits_string s).
Proof.
  intro. unfold fits_string. constructor; [unfold printable; lia|].
  apply Forall_app. split; [now apply escape_printable|]. constructor; auto. unfold printable; lia.
Qed.

Lemma fits_string_compact s : compact (fits_string s).
Proof.
  split.
  - exists 39, (escape_quotes s ++ [39]). split; [reflexivity|lia].
  - exists (39 :: escape_quotes s), 39. split; [reflexivity|lia].
Qed.

Lemma split_string_field n lead s trail comment :
  Forall printable s -> opt_printable comment ->
  split_value_and_comment (padded n (value_field lead (fits_string s) trail comment))
  = Ok (39 :: s ++ [39], option_map rtrim comment).
Proof.
  intros Hs Hc. unfold split_value_and_comment.
  rewrite trim_ascii_field; auto using fits_string_compact, fits_string_printable.
  assert (Hq: compact (39 :: s ++ [39])).
  { split; [exists 39, (s ++ [39]); split; [reflexivity|lia]
           |exists (39 :: s), 39; split; [reflexivity|lia]]. }
  assert (Hqp: Forall printable (39 :: s ++ [39])).
  { constructor; [unfold printable; lia|]. apply Forall_app. split; auto.
    constructor; auto. unfold printable; lia. }
  destruct comment as [c|]; cbn [option_map].
  - rewrite utf8_lossy_ascii.
    2:{ apply printable_ascii. apply Forall_app. split; [now apply fits_string_printable|].
        apply Forall_app. split; [apply blanks_printable|]. constructor; [unfold printable; lia|].
        now apply rtrim_printable. }
    unfold fits_string. rewrite <- app_comm_cons. cbn [split_loop].
    unfold QUOTE at 1. rewrite Z.eqb_refl. rewrite <- app_assoc.
    rewrite split_loop_escaped by auto. cbn [app split_loop]. unfold QUOTE at 1. rewrite Z.eqb_refl.
    rewrite (split_loop_tail true true _ trail (Some (rtrim c))) by auto. cbn [bind].
    f_equal. cbn [rev]. rewrite rev_app_distr, rev_involutive. cbn [rev app]. unfold QUOTE.
    rewrite app_comm_cons. rewrite trim_compact by auto.
    rewrite map_repl_printable by now apply rtrim_printable.
    rewrite trim_end_rtrim by now apply rtrim_printable. now rewrite rtrim_idem.
  - rewrite utf8_lossy_ascii.
    2:{ apply printable_ascii. now apply fits_string_printable. }
    unfold fits_string. cbn [split_loop].
    unfold QUOTE at 1. rewrite Z.eqb_refl.
    rewrite split_loop_escaped by auto. cbn [app split_loop]. unfold QUOTE at 1. rewrite Z.eqb_refl.
    cbn [split_loop bind].
    f_equal. cbn [rev]. rewrite rev_app_distr, rev_involutive. cbn [rev app]. unfold QUOTE.
    f_equal. pose proof (trim_compact (39 :: s ++ [39]) 0 Hq Hqp) as T.
    unfold blanks in T. cbn [repeat] in T. rewrite app_nil_r in T. exact T.
Qed.

(** The result of splitting an unquoted field. *)
Lemma split_plain_field n lead body trail comment :
  compact body -> Forall plain body -> opt_printable comment ->
  split_value_and_comment (padded n (value_field lead body trail comment))
  = Ok (body, option_map rtrim comment).
Proof.
  intros Hcp Hs Hc. unfold split_value_and_comment.
  assert (Hp: Forall printable body).
  { eapply Forall_impl; [|exact Hs]. intros a [Ha _]; auto. }
  rewrite trim_ascii_field; auto.
  destruct comment as [c|]; cbn [option_map].
  - rewrite utf8_lossy_ascii.
    2:{ apply printable_ascii. apply Forall_app. split; auto.
        apply Forall_app. split; [apply blanks_printable|]. constructor; [unfold printable; lia|].
        now apply rtrim_printable. }
    rewrite split_loop_plain by auto. 
    rewrite (split_loop_tail false false _ trail (Some (rtrim c))) by auto. cbn [bind].
    f_equal. rewrite app_nil_r, rev_involutive. 
    rewrite trim_compact by auto.
    rewrite map_repl_printable by now apply rtrim_printable.
    rewrite trim_end_rtrim by now apply rtrim_printable. now rewrite rtrim_idem.
  - rewrite utf8_lossy_ascii by now apply printable_ascii.
    rewrite <- (app_nil_r body). rewrite split_loop_plain by auto. cbn [split_loop bind].
    f_equal. rewrite app_nil_r, rev_involutive.
    f_equal. pose proof (trim_compact body 0 Hcp Hp) as T.
    unfold blanks in T. cbn [repeat] in T. rewrite app_nil_r in T. rewrite T. now rewrite app_nil_r.
Qed.

(** ** Value records *)

Lemma padded_length n l : (length l <= n)%nat -> length (padded n l) = n.
Proof. intro. unfold padded, blanks. rewrite app_length, repeat_length. lia. Qed.

Lemma firstn_app_exact {A} (a b : list A) n : length a = n -> firstn n (a ++ b) = a.
Proof. intros <-. rewrite firstn_app, Nat.sub_diag, firstn_all. simpl. apply app_nil_r. Qed.

Lemma skipn_app_exact {A} (a b : list A) n : length a = n -> skipn n (a ++ b) = b.
Proof. intros <-. rewrite skipn_app, Nat.sub_diag, skipn_all. reflexivity. Qed.

Lemma trim_ascii_keyword kw n :
  Forall graphic kw -> kw <> [] -> trim_ascii (padded n kw) = kw.
Proof.
  intros H Hn. unfold trim_ascii, padded. rewrite trim_by_blank_r by apply blanks_ws.
  destruct kw as [|c t] eqn:E; [congruence|].
  destruct (exists_last (l := kw)) as [t' [d D]]; [congruence|]. subst kw.
  assert (G: forall x, graphic x -> is_ascii_ws x = false).
  { intro x. unfold graphic, is_ascii_ws. lia. }
  eapply trim_by_id with (c1 := c) (c2 := d); eauto.
  - inversion H; auto.
  - rewrite D in H. apply Forall_app in H as [_ H]. inversion H; auto.
Qed.

Lemma parse_card_value_record kw f :
  ordinary_keyword kw ->
  parse_card (value_record kw f) = let! v := parse_value (padded 70 f) in Ok (CValue kw v).
Proof.
  intros [[H1 H2] [Hg Hs]]. unfold parse_card, value_record.
  rewrite firstn_app_exact by (apply padded_length; lia).
  assert (Hne: kw <> []) by (destruct kw; simpl in *; [lia|congruence]).
  rewrite trim_ascii_keyword by auto.
  rewrite from_utf8_ascii by (apply printable_ascii, graphic_printable; auto).
  assert (Ne: forall k, kw <> k -> str_eqb kw k = false) by (intros; now apply str_eqb_neq).
  unfold special_keyword in Hs.
  rewrite !Ne by tauto.
  replace (skipn 8 (padded 8 kw ++ [61; 32] ++ padded 70 f)) with ([61; 32] ++ padded 70 f)
    by (symmetry; apply skipn_app_exact, padded_length; lia).
  replace (skipn 10 (padded 8 kw ++ [61; 32] ++ padded 70 f)) with (padded 70 f).
  2:{ symmetry. rewrite app_assoc. apply skipn_app_exact. rewrite app_length, padded_length by lia.
      reflexivity. }
  reflexivity.
Qed.

Lemma strip_quotes_ok s : strip_quotes (39 :: s ++ [39]) = Ok s.
Proof.
  unfold strip_quotes. destruct (s ++ [39]) eqn:E; [destruct s; discriminate|].
  rewrite <- E. f_equal. apply removelast_last.
Qed.

Lemma parse_string_quoted s :
  Forall printable s -> parse_string (39 :: s ++ [39]) = Ok (canonical_string s).
Proof.
  intro H. unfold parse_string.
  assert (E1: starts_with QUOTE (39 :: s ++ [39]) = true) by reflexivity.
  assert (E2: ends_with QUOTE (39 :: s ++ [39]) = true).
  { unfold ends_with. cbn [rev]. rewrite rev_app_distr. reflexivity. }
  rewrite E1, E2, strip_quotes_ok. cbn [bind]. unfold canonical_string.
  destruct s as [|c s]; auto. rewrite trim_end_rtrim by auto.
  destruct (rtrim (c :: s)); auto.
Qed.

Lemma parse_value_string n lead s trail comment :
  Forall printable s -> opt_printable comment ->
  parse_value (padded n (value_field lead (fits_string s) trail comment))
  = Ok (VString (canonical_string s) (option_map rtrim comment)).
Proof.
  intros. unfold parse_value. rewrite split_string_field by auto. cbn [bind].
  unfold QUOTE. rewrite Z.eqb_refl. now rewrite parse_string_quoted.
Qed.

Lemma string_value_roundtrip_proof kw lead s trail comment :
  ordinary_keyword kw -> Forall printable s -> opt_printable comment ->
  parse_card (value_record kw (value_field lead (fits_string s) trail comment))
  = Ok (CValue kw (VString (canonical_string s) (option_map rtrim comment))).
Proof.
  intros. rewrite parse_card_value_record by auto. now rewrite parse_value_string.
Qed.

(** ** Numbers *)

Lemma parse_i64_literal s ds :
  Forall digit ds -> ds <> [] ->
  parse_i64 (int_literal s ds) =
    let v := apply_sign s (dec_value ds) in
    if (- 2 ^ 63 <=? v) && (v <=? 2 ^ 63 - 1) then Some v else None.
Proof.
  intros H Hn. pose proof (dec_value_nonneg ds H) as Hv.
  unfold int_literal. destruct ds as [|d ds]; [congruence|].
  assert (D: digit d) by (inversion H; auto).
  destruct s; unfold parse_i64, parse_unsigned, apply_sign; cbn [sign_chars app is_neg].
  - unfold digit_chars at 1. cbn [map].
    assert (E1: (48 + d =? 45) = false) by (unfold digit in D; lia).
    assert (E2: (48 + d =? 43) = false) by (unfold digit in D; lia).
    rewrite E1. cbn zeta iota beta. unfold digit_chars at 1. cbn [map].
    rewrite E2. change (48 + d :: map (fun d => 48 + d) ds) with (digit_chars (d :: ds)).
    rewrite digits_acc_chars by auto. replace (0 * _ + dec_value (d :: ds)) with (dec_value (d :: ds)) by lia.
    destruct (Z.leb_spec (dec_value (d :: ds)) (2 ^ 63 - 1));
    destruct (Z.leb_spec (- 2 ^ 63) (dec_value (d :: ds))); simpl; auto; lia.
  - change (43 =? 45) with false. change (43 =? 43) with true. cbn zeta iota beta.
    unfold digit_chars at 1. cbn [map].
    rewrite digits_acc_chars by auto. replace (0 * _ + dec_value (d :: ds)) with (dec_value (d :: ds)) by lia.
    destruct (Z.leb_spec (dec_value (d :: ds)) (2 ^ 63 - 1));
    destruct (Z.leb_spec (- 2 ^ 63) (dec_value (d :: ds))); simpl; auto; lia.
  - change (45 =? 45) with true. cbn zeta iota beta.
    unfold digit_chars at 1. cbn [map].
    rewrite digits_acc_chars by auto. replace (0 * _ + dec_value (d :: ds)) with (dec_value (d :: ds)) by lia.
    destruct (Z.leb_spec (dec_value (d :: ds)) (2 ^ 63));
    destruct (Z.leb_spec (- 2 ^ 63) (- dec_value (d :: ds)));
    destruct (Z.leb_spec (- dec_value (d :: ds)) (2 ^ 63 - 1)); simpl; auto; lia.
Qed.

Lemma parse_exponent_literal s ds :
  Forall digit ds -> ds <> [] ->
  parse_exponent (sign_chars s ++ digit_chars ds) = Some (apply_sign s (dec_value ds)).
Proof.
  intros H Hn. destruct ds as [|d ds]; [congruence|].
  assert (D: digit d) by (inversion H; auto).
  assert (S: span_digits (digit_chars (d :: ds)) = (digit_chars (d :: ds), [])).
  { rewrite <- (app_nil_r (digit_chars (d :: ds))) at 1. now apply span_digits_chars. }
  assert (E1: (48 + d =? 45) = false) by (unfold digit in D; lia).
  assert (E2: (48 + d =? 43) = false) by (unfold digit in D; lia).
  unfold parse_exponent. destruct s; cbn [sign_chars app].
  - unfold digit_chars at 1. cbn [map]. rewrite E1, E2.
    change (48 + d :: map (fun d => 48 + d) ds) with (digit_chars (d :: ds)) in *.
    rewrite S. unfold digit_chars at 1. cbn [map].
    change (48 + d :: map (fun d => 48 + d) ds) with (digit_chars (d :: ds)).
    rewrite digits_val_chars by auto. reflexivity.
  - change (43 =? 45) with false. change (43 =? 43) with true. cbn iota.
    rewrite S. unfold digit_chars at 1. cbn [map].
    change (48 + d :: map (fun d => 48 + d) ds) with (digit_chars (d :: ds)).
    rewrite digits_val_chars by auto. reflexivity.
  - change (45 =? 45) with true. cbn iota.
    rewrite S. unfold digit_chars at 1. cbn [map].
    change (48 + d :: map (fun d => 48 + d) ds) with (digit_chars (d :: ds)).
    rewrite digits_val_chars by auto. reflexivity.
Qed.

Definition expo_E (e : expo) : Prop := match e with Exp l _ _ => l = 69 | NoExp => True end.

Lemma parse_unsigned_real_literal neg ip f e :
  Forall digit ip -> Forall digit (frac_digits f) -> ip ++ frac_digits f <> [] ->
  expo_ok e -> expo_E e ->
  parse_unsigned_real neg (real_body ip f e)
  = Some (FDec neg (dec_value (ip ++ frac_digits f))
           (expo_value e - Z.of_nat (length (frac_digits f)))).
Proof.
  intros Hi Hf Hn He HE. unfold parse_unsigned_real, real_body.
  assert (Hstop: match point_chars f ++ expo_chars e with [] => True | c :: _ => is_digit c = false end).
  { destruct f; simpl; auto. destruct e; simpl in *; auto. subst. reflexivity. }
  rewrite span_digits_chars by auto.
  assert (Hstop2: match expo_chars e with [] => True | c :: _ => is_digit c = false end).
  { destruct e; simpl in *; auto. subst. reflexivity. }
  assert (Hfp: match point_chars f ++ expo_chars e with
               | c :: r => if c =? 46 then span_digits r else ([], point_chars f ++ expo_chars e)
               | [] => ([], point_chars f ++ expo_chars e)
               end = (digit_chars (frac_digits f), expo_chars e)).
  { destruct f as [fp|]; cbn [point_chars frac_digits app].
    - rewrite Z.eqb_refl. now apply span_digits_chars.
    - destruct e; simpl in *; auto. subst. reflexivity. }
  rewrite Hfp. rewrite <- digit_chars_app.
  destruct (digit_chars (ip ++ frac_digits f)) as [|c0 l0] eqn:E0.
  { destruct (ip ++ frac_digits f); [congruence|discriminate]. }
  rewrite <- E0. rewrite digits_val_chars by (apply Forall_app; auto).
  replace (length (digit_chars (frac_digits f))) with (length (frac_digits f))
    by (unfold digit_chars; now rewrite map_length).
  destruct e as [|l s ds]; cbn [expo_chars expo_value].
  - reflexivity.
  - simpl in HE. subst l. change ((69 =? 101) || (69 =? 69)) with true. cbn iota.
    destruct He as [_ [Hd Hdn]]. rewrite parse_exponent_literal by auto.
    f_equal.
Qed.

Lemma real_body_nonempty ip f e : ip ++ frac_digits f <> [] -> real_body ip f e <> [].
Proof.
  intros H E. apply H. unfold real_body in E. apply app_eq_nil in E as [E1 E2].
  apply app_eq_nil in E2 as [E2 _]. destruct ip; [|discriminate].
  destruct f; simpl in *; [discriminate|reflexivity].
Qed.

Lemma real_body_head ip f e c t :
  Forall digit ip -> ip ++ frac_digits f <> [] ->
  real_body ip f e = c :: t -> c <> 45 /\ c <> 43.
Proof.
  intros Hi Hn E. unfold real_body in E. destruct ip as [|d ip].
  - destruct f; simpl in *; [|congruence]. inversion E. lia.
  - simpl in E. inversion E; subst. inversion Hi; subst. unfold digit in *. lia.
Qed.

Lemma parse_f64_literal_E s ip f e :
  Forall digit ip -> Forall digit (frac_digits f) -> ip ++ frac_digits f <> [] ->
  expo_ok e -> expo_E e ->
  parse_f64 (real_literal s ip f e)
  = Some (FDec (is_neg s) (dec_value (ip ++ frac_digits f))
           (expo_value e - Z.of_nat (length (frac_digits f)))).
Proof.
  intros Hi Hf Hn He HE. unfold real_literal.
  pose proof (real_body_nonempty ip f e Hn) as Hb.
  destruct (real_body ip f e) as [|c t] eqn:E; [congruence|].
  destruct (real_body_head ip f e c t Hi Hn E) as [N1 N2].
  assert (L: forall neg, parse_unsigned_real neg (c :: t) = Some (FDec neg (dec_value (ip ++ frac_digits f))
           (expo_value e - Z.of_nat (length (frac_digits f))))).
  { intro neg. rewrite <- E. now apply parse_unsigned_real_literal. }
  unfold parse_f64. destruct s; cbn [sign_chars app is_neg].
  - rewrite (proj2 (Z.eqb_neq _ _) N1), (proj2 (Z.eqb_neq _ _) N2). cbn [orb].
    now rewrite L.
  - change (43 =? 45) with false. change (43 =? 43) with true. cbn [orb]. now rewrite L.
  - change (45 =? 45) with true. cbn [orb]. now rewrite L.
Qed.

(** The D exponent: rejected as it stands, accepted after the D -> E replacement. *)
Lemma replace_D_digits ds : Forall digit ds -> replace_D (digit_chars ds) = digit_chars ds.
Proof.
  unfold replace_D, digit_chars. induction 1; simpl; auto. rewrite IHForall.
  f_equal. unfold digit in H. destruct (Z.eqb_spec (48 + x) 68); lia.
Qed.

Definition expo_DE (e : expo) : expo := match e with Exp _ s ds => Exp 69 s ds | NoExp => NoExp end.

Lemma replace_D_literal s ip f e :
  Forall digit ip -> Forall digit (frac_digits f) -> expo_ok e ->
  replace_D (real_literal s ip f e) = real_literal s ip f (expo_DE e).
Proof.
  intros Hi Hf He. unfold real_literal, real_body. unfold replace_D. rewrite !map_app.
  fold replace_D. f_equal; [destruct s; reflexivity|].
  f_equal; [now apply replace_D_digits|]. f_equal.
  - destruct f; simpl; auto. f_equal. now apply replace_D_digits.
  - destruct e as [|l s' ds]; simpl; auto. destruct He as [Hl [Hd _]].
    f_equal.
    + destruct Hl; subst; reflexivity.
    + rewrite map_app. f_equal; [destruct s'; reflexivity|]. now apply replace_D_digits.
Qed.

(** No literal with a D exponent is a number for [parse_f64]. *)
Lemma parse_inf_nan_no_digit neg c t :
  is_digit c = true \/ c = 46 -> parse_inf_nan neg (c :: t) = None.
Proof.
  intro H. unfold parse_inf_nan. cbn [map].
  assert (L: lower c = c /\ c <> 110 /\ c <> 105).
  { unfold lower, is_digit in *. destruct ((65 <=? c) && (c <=? 90)) eqn:E; lia. }
  destruct L as [-> [L1 L2]].
  change (chars "nan") with [110; 97; 110].
  change (chars "inf") with [105; 110; 102].
  change (chars "infinity") with [105; 110; 102; 105; 110; 105; 116; 121].
  cbn [str_eqb]. rewrite (proj2 (Z.eqb_neq _ _) L1), (proj2 (Z.eqb_neq _ _) L2). reflexivity.
Qed.

Lemma real_body_head2 ip f e c t :
  Forall digit ip -> ip ++ frac_digits f <> [] ->
  real_body ip f e = c :: t -> is_digit c = true \/ c = 46.
Proof.
  intros Hi Hn E. unfold real_body in E. destruct ip as [|d ip].
  - destruct f; simpl in *; [|congruence]. inversion E. auto.
  - simpl in E. inversion E; subst. inversion Hi; subst. left. now apply is_digit_char.
Qed.

Lemma parse_f64_literal_D s ip f s' ds :
  Forall digit ip -> Forall digit (frac_digits f) -> ip ++ frac_digits f <> [] ->
  parse_f64 (real_literal s ip f (Exp 68 s' ds)) = None.
Proof.
  intros Hi Hf Hn. unfold real_literal.
  set (e := Exp 68 s' ds).
  pose proof (real_body_nonempty ip f e Hn) as Hb.
  destruct (real_body ip f e) as [|c t] eqn:E; [congruence|].
  destruct (real_body_head ip f e c t Hi Hn E) as [N1 N2].
  pose proof (real_body_head2 ip f e c t Hi Hn E) as N3.
  assert (L: forall neg, parse_unsigned_real neg (c :: t) = None).
  { intro neg. rewrite <- E. unfold parse_unsigned_real, real_body.
    assert (Hstop: match point_chars f ++ expo_chars e with [] => True | c :: _ => is_digit c = false end).
    { destruct f; simpl; auto. }
    rewrite span_digits_chars by auto.
    assert (Hfp: match point_chars f ++ expo_chars e with
               | c :: r => if c =? 46 then span_digits r else ([], point_chars f ++ expo_chars e)
               | [] => ([], point_chars f ++ expo_chars e)
               end = (digit_chars (frac_digits f), expo_chars e)).
    { destruct f as [fp|]; cbn [point_chars frac_digits app].
      - rewrite Z.eqb_refl. apply span_digits_chars; auto.
      - reflexivity. }
    rewrite Hfp. destruct (digit_chars ip ++ digit_chars (frac_digits f)); auto. }
  unfold parse_f64. destruct s; cbn [sign_chars app].
  - rewrite (proj2 (Z.eqb_neq _ _) N1), (proj2 (Z.eqb_neq _ _) N2). cbn [orb].
    rewrite L. now apply parse_inf_nan_no_digit.
  - change (43 =? 45) with false. change (43 =? 43) with true. cbn [orb]. rewrite L.
    now apply parse_inf_nan_no_digit.
  - change (45 =? 45) with true. cbn [orb]. rewrite L. now apply parse_inf_nan_no_digit.
Qed.

(** A literal with a point or an exponent is not an integer. *)
Lemma digits_acc_bad acc a c b : is_digit c = false -> digits_acc acc (a ++ c :: b) = None.
Proof.
  intro H. revert acc. induction a as [|x a IH]; intro acc; simpl.
  - now rewrite H.
  - destruct (is_digit x); auto.
Qed.

Lemma real_not_int s ip f e :
  Forall digit ip -> ip ++ frac_digits f <> [] -> expo_ok e -> (f <> None \/ e <> NoExp) ->
  parse_i64 (real_literal s ip f e) = None.
Proof.
  intros Hi Hn He Hfe. unfold real_literal.
  assert (B: exists a c b, real_body ip f e = a ++ c :: b /\ is_digit c = false).
  { unfold real_body. destruct f as [fp|].
    - exists (digit_chars ip), 46, (digit_chars fp ++ expo_chars e). split; reflexivity.
    - destruct e as [|l s' ds]; [destruct Hfe; congruence|].
      exists (digit_chars ip), l, (sign_chars s' ++ digit_chars ds). split; auto.
      destruct He as [[->| ->] _]; reflexivity. }
  destruct B as [a [c [b [B1 B2]]]].
  assert (D: forall acc, digits_acc acc (real_body ip f e) = None).
  { intro. rewrite B1. now apply digits_acc_bad. }
  destruct (real_body ip f e) as [|x t] eqn:E; [destruct a; discriminate|].
  destruct (real_body_head ip f e x t Hi Hn E) as [N1 N2].
  unfold parse_i64, parse_unsigned. destruct s; cbn [sign_chars app].
  - rewrite (proj2 (Z.eqb_neq _ _) N1), (proj2 (Z.eqb_neq _ _) N2). now rewrite D.
  - change (43 =? 45) with false. change (43 =? 43) with true. cbn iota. now rewrite D.
  - change (45 =? 45) with true. cbn iota. now rewrite D.
Qed.

Lemma real_literal_graphic s ip f e :
  Forall digit ip -> Forall digit (frac_digits f) -> expo_ok e ->
  Forall (fun c => graphic c /\ c <> 39 /\ c <> 47) (real_literal s ip f e).
Proof.
  intros Hi Hf He.
  assert (Hd: forall ds, Forall digit ds ->
     Forall (fun c => graphic c /\ c <> 39 /\ c <> 47) (digit_chars ds)).
  { induction 1; simpl; constructor; auto. unfold digit, graphic in *. lia. }
  assert (Hs: forall s, Forall (fun c => graphic c /\ c <> 39 /\ c <> 47) (sign_chars s)).
  { destruct s0; simpl; constructor; auto; unfold graphic; lia. }
  unfold real_literal, real_body. apply Forall_app. split; auto.
  apply Forall_app. split; auto. apply Forall_app. split.
  - destruct f; simpl; auto. constructor; auto. unfold graphic; lia.
  - destruct e as [|l s' ds]; simpl; auto. destruct He as [Hl [Hds _]]. constructor.
    + destruct Hl; subst; unfold graphic; lia.
    + apply Forall_app. auto.
Qed.

Lemma graphic_plain_compact l :
  Forall (fun c => graphic c /\ c <> 39 /\ c <> 47) l -> l <> [] -> compact l /\ Forall plain l.
Proof.
  intros H Hn. split.
  - split.
    + destruct l as [|c t]; [congruence|]. exists c, t. split; auto. inversion H; subst.
      unfold graphic in *. lia.
    + destruct (exists_last Hn) as [t [c E]]. exists t, c. split; auto. rewrite E in H.
      apply Forall_app in H as [_ H]. inversion H; subst. unfold graphic in *. lia.
  - eapply Forall_impl; [|exact H]. intros a [Ha [H1 H2]]. split; auto.
    unfold graphic, printable in *. lia.
Qed.

Lemma real_head s ip f e :
  Forall digit ip -> ip ++ frac_digits f <> [] ->
  exists c t, real_literal s ip f e = c :: t /\
    (is_digit c || (c =? 45) || (c =? 43) || (c =? 46)) = true /\
    c <> 39 /\ c <> 84 /\ c <> 70 /\ c <> 40.
Proof.
  intros Hi Hn. unfold real_literal. destruct s; cbn [sign_chars app].
  - destruct (real_body ip f e) as [|c t] eqn:E.
    + exfalso. eapply real_body_nonempty; eauto.
    + exists c, t. split; auto. destruct (real_body_head2 ip f e c t Hi Hn E).
      * unfold is_digit in *. lia.
      * subst. split; [reflexivity|lia].
  - exists 43, (real_body ip f e). split; auto. split; [reflexivity|lia].
  - exists 45, (real_body ip f e). split; auto. split; [reflexivity|lia].
Qed.

Lemma parse_value_dispatch_number n lead body trail comment c t :
  compact body -> Forall plain body -> opt_printable comment ->
  body = c :: t -> (is_digit c || (c =? 45) || (c =? 43) || (c =? 46)) = true ->
  c <> 39 -> c <> 84 -> c <> 70 -> c <> 40 ->
  parse_value (padded n (value_field lead body trail comment))
  = parse_number body (option_map rtrim comment).
Proof.
  intros H1 H2 H3 E H4 N1 N2 N3 N4. unfold parse_value. rewrite split_plain_field by auto.
  cbn [bind]. rewrite E. unfold QUOTE.
  rewrite (proj2 (Z.eqb_neq _ _) N1), (proj2 (Z.eqb_neq _ _) N2),
    (proj2 (Z.eqb_neq _ _) N3), (proj2 (Z.eqb_neq _ _) N4), H4. reflexivity.
Qed.

Lemma real_literal_nonempty s ip f e : ip ++ frac_digits f <> [] -> real_literal s ip f e <> [].
Proof.
  intros H E. unfold real_literal in E. apply app_eq_nil in E as [_ E].
  eapply real_body_nonempty; eauto.
Qed.

Lemma parse_value_real n lead s ip f e trail comment :
  Forall digit ip -> Forall digit (frac_digits f) -> ip ++ frac_digits f <> [] -> expo_ok e ->
  (f <> None \/ e <> NoExp) -> opt_printable comment ->
  parse_value (padded n (value_field lead (real_literal s ip f e) trail comment))
  = Ok (VFloat (FDec (is_neg s) (dec_value (ip ++ frac_digits f))
                  (expo_value e - Z.of_nat (length (frac_digits f))))
               (option_map rtrim comment)).
Proof.
  intros Hi Hf Hn He Hfe Hc.
  destruct (real_head s ip f e Hi Hn) as [c [t [E [H4 [N1 [N2 [N3 N4]]]]]]].
  destruct (graphic_plain_compact (real_literal s ip f e)) as [C1 C2].
  { now apply real_literal_graphic. } { now apply real_literal_nonempty. }
  erewrite parse_value_dispatch_number; eauto.
  unfold parse_number. rewrite E. rewrite <- E.
  rewrite real_not_int by auto.
  destruct e as [|l s' ds].
  - rewrite parse_f64_literal_E by (simpl; auto). reflexivity.
  - destruct He as [[Hl|Hl] [Hd Hdn]]; subst l.
    + rewrite parse_f64_literal_E by (simpl; auto). reflexivity.
    + rewrite parse_f64_literal_D by auto.
      rewrite replace_D_literal by (simpl; auto). cbn [expo_DE].
      rewrite parse_f64_literal_E by (simpl; auto). reflexivity.
Qed.

Lemma int_literal_real s ds : int_literal s ds = real_literal s ds None NoExp.
Proof. unfold int_literal, real_literal, real_body. simpl. now rewrite app_nil_r. Qed.

Lemma parse_value_int n lead s ds trail comment :
  Forall digit ds -> ds <> [] -> opt_printable comment ->
  parse_value (padded n (value_field lead (int_literal s ds) trail comment))
  = Ok (let v := apply_sign s (dec_value ds) in
        if (- 2 ^ 63 <=? v) && (v <=? 2 ^ 63 - 1) then VInteger v (option_map rtrim comment)
        else VFloat (FDec (is_neg s) (dec_value ds) 0) (option_map rtrim comment)).
Proof.
  intros Hd Hn Hc. 
  assert (Hn': ds ++ frac_digits None <> []) by (simpl; now rewrite app_nil_r).
  destruct (real_head s ds None NoExp Hd Hn') as [c [t [E [H4 [N1 [N2 [N3 N4]]]]]]].
  rewrite <- int_literal_real in E.
  destruct (graphic_plain_compact (int_literal s ds)) as [C1 C2].
  { rewrite int_literal_real. now apply real_literal_graphic; simpl. }
  { rewrite int_literal_real. now apply real_literal_nonempty. }
  erewrite parse_value_dispatch_number; eauto.
  unfold parse_number. rewrite E. rewrite <- E. rewrite parse_i64_literal by auto. cbn zeta.
  destruct ((- 2 ^ 63 <=? apply_sign s (dec_value ds)) && (apply_sign s (dec_value ds) <=? 2 ^ 63 - 1)) eqn:R;
    [reflexivity|].
  rewrite int_literal_real. rewrite parse_f64_literal_E by (simpl; auto).
  simpl frac_digits. rewrite app_nil_r. reflexivity.
Qed.

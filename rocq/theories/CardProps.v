(** Lemmas in the exact form of the theorems of [Prop_Card]. *)

From Verif Require Import Base Utf8 Text Card SpecUtf8 SpecCard TextLemmas CardProofs Utf8Proofs CardProofs2.
From Coq Require Import ZifyBool ZifyNat.

Lemma special_kinds b :
  (forall s c, parse_card b = Ok (CContinuation s c) -> has_keyword b (chars "CONTINUE")) /\
  (forall x c, parse_card b = Ok (CXtension x c) -> has_keyword b (chars "XTENSION")) /\
  (forall n v, parse_card b = Ok (CHierarch n v) -> has_keyword b (chars "HIERARCH")).
Proof.
  split; [|split].
  - apply record_continuation_kind.
  - apply record_xtension_kind.
  - apply record_hierarch_kind.
Qed.

Lemma utf8_decoding l s :
  octets l ->
  (from_utf8 l = Some s <-> l = utf8_encode s /\ Forall scalar s) /\
  (l = utf8_encode s -> Forall scalar s -> utf8_lossy l = s).
Proof.
  intro H. split.
  - apply from_utf8_iff. eapply Forall_impl; [|exact H]. simpl; lia.
  - intros -> Hs. now apply utf8_lossy_encode.
Qed.

Lemma integer_roundtrip kw lead s ds trail comment :
  ordinary_keyword kw -> Forall digit ds -> ds <> [] -> opt_printable comment ->
  let n := apply_sign s (dec_value ds) in
  parse_card (value_record kw (value_field lead (int_literal s ds) trail comment))
  = Ok (CValue kw
      (if (- 2 ^ 63 <=? n) && (n <=? 2 ^ 63 - 1) then VInteger n (option_map rtrim comment)
       else VFloat (FDec (is_neg s) (dec_value ds) 0) (option_map rtrim comment))).
Proof.
  intros. rewrite parse_card_value_record by auto. rewrite parse_value_int by auto. reflexivity.
Qed.

Lemma real_roundtrip kw lead s ip f e trail comment :
  ordinary_keyword kw ->
  Forall digit ip -> Forall digit (frac_digits f) -> ip ++ frac_digits f <> [] -> expo_ok e ->
  (f <> None \/ e <> NoExp) -> opt_printable comment ->
  parse_card (value_record kw (value_field lead (real_literal s ip f e) trail comment))
  = Ok (CValue kw
      (VFloat (FDec (is_neg s) (dec_value (ip ++ frac_digits f))
                 (expo_value e - Z.of_nat (length (frac_digits f))))
              (option_map rtrim comment))).
Proof.
  intros. rewrite parse_card_value_record by auto. rewrite parse_value_real by auto. reflexivity.
Qed.

Lemma d_is_e kw lead s ip f es eds trail comment :
  ordinary_keyword kw ->
  Forall digit ip -> Forall digit (frac_digits f) -> ip ++ frac_digits f <> [] ->
  Forall digit eds -> eds <> [] -> opt_printable comment ->
  parse_card (value_record kw (value_field lead (real_literal s ip f (Exp 68 es eds)) trail comment))
  = parse_card (value_record kw (value_field lead (real_literal s ip f (Exp 69 es eds)) trail comment)).
Proof.
  intros. rewrite !real_roundtrip; auto; simpl; auto; right; discriminate.
Qed.

Lemma logical_value kw lead (v : bool) t trail comment :
  ordinary_keyword kw ->
  compact ((if v then 84 else 70) :: t) -> Forall plain t -> opt_printable comment ->
  parse_card (value_record kw (value_field lead ((if v then 84 else 70) :: t) trail comment))
  = Ok (CValue kw (VLogical v (option_map rtrim comment))).
Proof.
  intros. rewrite parse_card_value_record by auto. now rewrite parse_value_logical by auto.
Qed.

Lemma value_kinds b name v :
  parse_card b = Ok (CValue name v) ->
  match v with
  | VLogical x _ => exists w rest, skipn 10 b = w ++ (if x then 84 else 70) :: rest /\ Forall white w
  | VString _ _ => exists w rest, skipn 10 b = w ++ 39 :: rest /\ Forall white w
  | VInteger _ _ | VFloat _ _ =>
      exists w c rest, skipn 10 b = w ++ c :: rest /\ Forall white w /\
        (48 <= c <= 57 \/ c = 45 \/ c = 43 \/ c = 46)
  | _ => True
  end.
Proof.
  intro H. rewrite parse_card_kind in H. destruct (kw_of b) as [kw|]; [|discriminate].
  destruct (kind_of_kw kw _); try discriminate.
  - unfold parse_empty_keyword_card in H. destruct (parse_comment_text _); discriminate.
  - apply parse_continuation_kind in H as [? [? H]]. discriminate.
  - apply parse_extension_kind in H as [? [? H]]. discriminate.
  - apply parse_hierarch_kind in H as [? [? H]]. discriminate.
  - destruct (parse_value (skipn 10 b)) as [w| |] eqn:P; try discriminate.
    cbn [bind] in H. inversion H; subst. now apply parse_value_head in P.
Qed.

Lemma logical_only b name v c :
  parse_card b = Ok (CValue name (VLogical v c)) ->
  exists w rest, skipn 10 b = w ++ (if v then 84 else 70) :: rest /\ Forall white w.
Proof. intro H. exact (value_kinds _ _ _ H). Qed.

Lemma sanitized_printable l : Forall printable l -> sanitized l = l.
Proof. apply map_repl_printable. Qed.

Lemma stripped_rtrim l : Forall printable l -> stripped_right white l (rtrim l).
Proof.
  intro H. apply (stripped_right_change (fun c => c = 32)); [|apply rtrim_spec].
  intros c Hc. rewrite Forall_forall in H. apply H in Hc. unfold printable, white in *. lia.
Qed.

Lemma commentary_roundtrip text :
  Forall printable text ->
  parse_card (chars "COMMENT " ++ text) = Ok (CComment (rtrim text)) /\
  parse_card (chars "HISTORY " ++ text) = Ok (CHistory (rtrim text)) /\
  parse_card (blanks 8 ++ text) = Ok (if str_eqb (rtrim text) [] then CSpace else CComment (rtrim text)).
Proof.
  intro H. split; [|split].
  - apply record_comment. split.
    + change (skipn 8 (chars "COMMENT " ++ text)) with text.
      rewrite sanitized_printable by auto. now apply stripped_rtrim.
    + left. apply kw_of_iff; reflexivity.
  - apply record_history. split; [apply kw_of_iff; reflexivity|].
    change (skipn 8 (chars "HISTORY " ++ text)) with text.
    rewrite sanitized_printable by auto. now apply stripped_rtrim.
  - assert (K: has_keyword (blanks 8 ++ text) []) by (apply has_keyword_nil; reflexivity).
    assert (S: stripped_right white (sanitized (skipn 8 (blanks 8 ++ text))) (rtrim text)).
    { change (skipn 8 (blanks 8 ++ text)) with text.
      rewrite sanitized_printable by auto. now apply stripped_rtrim. }
    destruct (str_eqb (rtrim text) []) eqn:E.
    + apply str_eqb_eq in E. rewrite E in S. apply record_space. auto.
    + apply str_eqb_neq in E. apply record_comment. split; auto.
Qed.

Lemma commentary_any b :
  (has_keyword b (chars "COMMENT") ->
     exists t, parse_card b = Ok (CComment t) /\ stripped_right white (sanitized (skipn 8 b)) t) /\
  (has_keyword b (chars "HISTORY") ->
     exists t, parse_card b = Ok (CHistory t) /\ stripped_right white (sanitized (skipn 8 b)) t).
Proof.
  assert (S: stripped_right white (sanitized (skipn 8 b)) (parse_comment_text (skipn 8 b)))
    by now apply parse_comment_text_iff.
  split; intro H; exists (parse_comment_text (skipn 8 b)); split; auto.
  - apply record_comment. auto.
  - apply record_history. auto.
Qed.

Lemma xtension_record lead name n1 n2 trail comment :
  Forall printable name -> compact name -> opt_printable comment ->
  parse_card (value_record (chars "XTENSION")
    (value_field lead (fits_string (blanks n1 ++ name ++ blanks n2)) trail comment))
  = if str_eqb name (chars "IMAGE") || str_eqb name (chars "IUEIMAGE")
    then Ok (CXtension XImage (option_map rtrim comment))
    else if str_eqb name (chars "TABLE") then Ok (CXtension XAsciiTable (option_map rtrim comment))
    else if str_eqb name (chars "BINTABLE") then Ok (CXtension XBinTable (option_map rtrim comment))
    else Err (ENotSupportedXt name).
Proof.
  intros. rewrite xtension_record_proof by auto. unfold xtension_of.
  destruct (str_eqb name (chars "IMAGE")), (str_eqb name (chars "IUEIMAGE")),
    (str_eqb name (chars "TABLE")), (str_eqb name (chars "BINTABLE")); reflexivity.
Qed.

Lemma card_panic_witness : exists b, octets b /\ length b = 80%nat /\ parse_card b = Panic.
Proof.
  exists (padded 80 (chars "OBJECT  = '")). split; [|split; vm_compute; reflexivity].
  unfold octets. apply Forall_forall. intros x Hx.
  assert (G: forallb (fun x => (0 <=? x) && (x <=? 255)) (padded 80 (chars "OBJECT  = '")) = true)
    by (vm_compute; reflexivity).
  rewrite forallb_forall in G. apply G in Hx. lia.
Qed.

Lemma split_unquoted lead body trail comment n :
  compact body -> Forall plain body -> opt_printable comment ->
  split_value_and_comment (padded n (value_field lead body trail comment))
  = Ok (body, option_map rtrim comment).
Proof. apply split_plain_field. Qed.

Lemma split_quoted lead s trail comment n :
  Forall printable s -> opt_printable comment ->
  split_value_and_comment (padded n (value_field lead (fits_string s) trail comment))
  = Ok (39 :: s ++ [39], option_map rtrim comment).
Proof. apply split_string_field. Qed.

Lemma unit_iff c u :
  let in_brackets := exists rest, c = Some (91 :: u ++ 93 :: rest) /\ ~ In 93 u in
  (forall i, value_unit (VInteger i c) = Some u <-> in_brackets) /\
  (forall f, value_unit (VFloat f c) = Some u <-> in_brackets) /\
  (forall b, value_unit (VLogical b c) = Some u <-> in_brackets) /\
  (forall s, value_unit (VString s c) = Some u <-> in_brackets) /\
  value_unit VUndefined = None /\ (forall s, value_unit (VInvalid s) = None).
Proof. repeat split; intros; try (now apply parse_unit_spec); auto. Qed.

Lemma rtrim_keep a c b : c <> 32 -> rtrim (a ++ c :: b) = a ++ c :: rtrim b.
Proof.
  intro H. induction a as [|x a IH]; cbn [app rtrim].
  - destruct (rtrim b); auto. destruct (Z.eqb_spec c 32); congruence.
  - rewrite IH. destruct a; reflexivity.
Qed.

Lemma unit_standard_layout kw lead s ds trail unit text :
  ordinary_keyword kw -> Forall digit ds -> ds <> [] -> Forall printable unit -> Forall printable text ->
  exists v,
    parse_card (value_record kw (value_field lead (int_literal s ds) trail
                  (Some (chars " [" ++ unit ++ chars "] " ++ text)))) = Ok (CValue kw v) /\
    value_unit v = None.
Proof.
  intros. eexists. split.
  { apply integer_roundtrip; auto.
    change (Forall printable (32 :: 91 :: unit ++ 93 :: 32 :: text)).
    constructor; [unfold printable; lia|].
    constructor; [unfold printable; lia|]. apply Forall_app. split; auto.
    constructor; [unfold printable; lia|]. constructor; [unfold printable; lia|]. auto. }
  assert (E: exists t, rtrim (chars " [" ++ unit ++ chars "] " ++ text) = 32 :: t).
  { change (chars " [" ++ unit ++ chars "] " ++ text) with ([32] ++ 91 :: (unit ++ 93 :: 32 :: text)).
    rewrite rtrim_keep by lia. simpl. eauto. }
  destruct E as [t E].
  destruct (_ && _); cbn [option_map]; rewrite E; reflexivity.
Qed.

Lemma unit_tight_layout kw lead s ds trail unit text :
  ordinary_keyword kw -> Forall digit ds -> ds <> [] -> Forall printable unit -> ~ In 93 unit ->
  Forall printable text ->
  exists v,
    parse_card (value_record kw (value_field lead (int_literal s ds) trail
                  (Some (chars "[" ++ unit ++ chars "]" ++ text)))) = Ok (CValue kw v) /\
    value_unit v = Some unit.
Proof.
  intros. eexists. split.
  { apply integer_roundtrip; auto.
    change (Forall printable (91 :: unit ++ 93 :: text)).
    constructor; [unfold printable; lia|]. apply Forall_app. split; auto.
    constructor; [unfold printable; lia|]. auto. }
  assert (E: rtrim (chars "[" ++ unit ++ chars "]" ++ text) = 91 :: unit ++ 93 :: rtrim text).
  { change (chars "[" ++ unit ++ chars "]" ++ text) with ((91 :: unit) ++ 93 :: text).
    now rewrite rtrim_keep by lia. }
  assert (U: parse_unit (Some (rtrim (chars "[" ++ unit ++ chars "]" ++ text))) = Some unit).
  { apply parse_unit_spec. rewrite E. eauto. }
  destruct (_ && _); cbn [option_map]; exact U.
Qed.

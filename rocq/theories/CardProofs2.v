(** Classification, commentary, HIERARCH, XTENSION, panics and units. *)

From Verif Require Import Base Utf8 Text Card SpecUtf8 SpecCard TextLemmas CardProofs Utf8Proofs.
From Coq Require Import ZifyBool ZifyNat.

(** ** UTF-8 decoding that yields ASCII is the identity *)

Lemma dec2_big b0 b1 : 194 <= b0 -> is_cont b1 = true -> 128 <= dec2 b0 b1.
Proof. unfold is_cont, dec2. lia. Qed.
Lemma dec3_big b0 b1 b2 : second3 b0 b1 = true -> is_cont b2 = true -> 128 <= dec3 b0 b1 b2.
Proof. unfold second3, is_cont, dec3. lia. Qed.
Lemma dec4_big b0 b1 b2 b3 :
  second4 b0 b1 = true -> is_cont b2 = true -> is_cont b3 = true -> 128 <= dec4 b0 b1 b2 b3.
Proof. unfold second4, is_cont, dec4. lia. Qed.

Lemma Forall_ascii_inv x l : Forall is_ascii (x :: l) -> 128 <= x -> False.
Proof. intros H; inversion H; unfold is_ascii in *; lia. Qed.

Ltac kill_big :=
  match goal with
  | H : Forall is_ascii (REPL :: _) |- _ =>
    exfalso; apply (Forall_ascii_inv _ _ H); unfold REPL; lia
  | H : Forall is_ascii (dec2 _ _ :: _) |- _ =>
    exfalso; apply (Forall_ascii_inv _ _ H); apply dec2_big; auto; lia
  | H : Forall is_ascii (dec3 _ _ _ :: _) |- _ =>
    exfalso; apply (Forall_ascii_inv _ _ H); apply dec3_big; auto
  | H : Forall is_ascii (dec4 _ _ _ _ :: _) |- _ =>
    exfalso; apply (Forall_ascii_inv _ _ H); apply dec4_big; auto
  end.

Lemma utf8_lossy_ascii_inv l : Forall is_ascii (utf8_lossy l) -> utf8_lossy l = l.
Proof.
  induction l as [|b0 r0 IH]; intro H; [reflexivity|]. cbn [utf8_lossy] in *.
  destruct (b0 <? 128) eqn:E0.
  { inversion H; subst. now rewrite IH. }
  destruct ((194 <=? b0) && (b0 <=? 223)) eqn:E1.
  { destruct r0; [kill_big|]. destruct (is_cont z) eqn:?; kill_big. }
  destruct ((224 <=? b0) && (b0 <=? 239)) eqn:E2.
  { destruct r0 as [|b1 r1]; [kill_big|]. destruct (second3 b0 b1) eqn:?; [|kill_big].
    destruct r1 as [|b2 r2]; [kill_big|]. destruct (is_cont b2) eqn:?; kill_big. }
  destruct ((240 <=? b0) && (b0 <=? 244)) eqn:E3.
  { destruct r0 as [|b1 r1]; [kill_big|]. destruct (second4 b0 b1) eqn:?; [|kill_big].
    destruct r1 as [|b2 r2]; [kill_big|]. destruct (is_cont b2) eqn:?; [|kill_big].
    destruct r2 as [|b3 r3]; [kill_big|]. destruct (is_cont b3) eqn:?; kill_big. }
  kill_big.
Qed.

Lemma option_map_some {A B} (f : A -> B) o y :
  option_map f o = Some y -> exists x, o = Some x /\ f x = y.
Proof. destruct o; simpl; intro H; inversion H; eauto. Qed.

Lemma from_utf8_ascii_inv l k : from_utf8 l = Some k -> Forall is_ascii k -> l = k.
Proof.
  revert k. induction l as [|b0 r0 IH]; intros k H Hk; cbn [from_utf8] in H; [congruence|].
  destruct (b0 <? 128) eqn:E0.
  { apply option_map_some in H as [x [X1 X2]]. subst k. inversion Hk; subst.
    now rewrite (IH x). }
  destruct ((194 <=? b0) && (b0 <=? 223)) eqn:E1.
  { destruct r0; [discriminate|]. destruct (is_cont z) eqn:?; [|discriminate].
    apply option_map_some in H as [x [X1 X2]]. subst k. kill_big. }
  destruct ((224 <=? b0) && (b0 <=? 239)) eqn:E2.
  { destruct r0 as [|b1 [|b2 r2]]; try discriminate.
    destruct (second3 b0 b1 && is_cont b2) eqn:E; [|discriminate].
    apply andb_true_iff in E as [? ?].
    apply option_map_some in H as [x [X1 X2]]. subst k. kill_big. }
  destruct ((240 <=? b0) && (b0 <=? 244)) eqn:E3; [|discriminate].
  destruct r0 as [|b1 [|b2 [|b3 r3]]]; try discriminate.
  destruct (second4 b0 b1 && is_cont b2 && is_cont b3) eqn:E; [|discriminate].
  apply andb_true_iff in E as [E ?]. apply andb_true_iff in E as [? ?].
  apply option_map_some in H as [x [X1 X2]]. subst k. kill_big.
Qed.

Lemma from_utf8_ascii_iff l k :
  Forall is_ascii k -> (from_utf8 l = Some k <-> l = k).
Proof.
  intro Hk. split; intro H.
  - eapply from_utf8_ascii_inv; eauto.
  - subst. now apply from_utf8_ascii.
Qed.

(** ** Keyword classification *)

Lemma keyword_iff buf k :
  Forall is_ascii k -> (from_utf8 (trim_ascii (firstn 8 buf)) = Some k <-> has_keyword buf k).
Proof.
  intro. rewrite from_utf8_ascii_iff by auto. apply trim_ascii_iff.
Qed.

Lemma ascii_kw (s : String.string) :
  forallb (fun c => (0 <=? c) && (c <? 128)) (chars s) = true -> Forall is_ascii (chars s).
Proof.
  intro H. apply Forall_forall. intros c Hc. rewrite forallb_forall in H. apply H in Hc.
  unfold is_ascii. lia.
Qed.

(** The decoded keyword. *)
Definition kw_of (buf : list Z) : option str := from_utf8 (trim_ascii (firstn 8 buf)).

Lemma kw_of_iff buf (s : String.string) :
  forallb (fun c => (0 <=? c) && (c <? 128)) (chars s) = true ->
  (kw_of buf = Some (chars s) <-> has_keyword buf (chars s)).
Proof. intro H. apply keyword_iff, ascii_kw, H. Qed.

(** A record whose keyword is decided: unfolding lemmas. *)
Ltac kwcases :=
  repeat match goal with
  | |- context [str_eqb ?a ?b] => destruct (str_eqb a b) eqn:?
  | H : context [str_eqb ?a ?b] |- _ => destruct (str_eqb a b) eqn:?
  end.

Lemma parse_hierarch_kind buf c :
  parse_hierarch buf = Ok c -> exists n v, c = CHierarch n v.
Proof.
  unfold parse_hierarch. destruct (split_eq _) as [[a b]|]; [|discriminate].
  destruct (map _ _); [discriminate|]. destruct (parse_value b); simpl; intro H; inversion H; eauto.
Qed.

Lemma parse_continuation_kind buf c :
  parse_continuation buf = Ok c -> exists s cm, c = CContinuation (Some s) cm.
Proof.
  unfold parse_continuation. destruct (split_value_and_comment _) as [[v cm]| |]; simpl; try discriminate.
  destruct (parse_string v); simpl; intro H; inversion H; eauto.
Qed.

Lemma parse_extension_kind buf c :
  parse_extension buf = Ok c -> exists x cm, c = CXtension x cm.
Proof.
  unfold parse_extension. destruct (split_value_and_comment _) as [[v cm]| |]; simpl; try discriminate.
  destruct (_ && _); try discriminate. destruct (strip_quotes v); simpl; try discriminate.
  destruct (xtype_from_str _); simpl; intro H; inversion H; eauto.
Qed.

(** The shape of the parser as a function of the decoded keyword. *)
Inductive record_kind :=
| KBlank | KComment | KHistory | KContinue | KXtension | KHierarch | KEnd | KValue (n : str) | KOther.

Definition kind_of_kw (kw : str) (ind : list Z) : record_kind :=
  if str_eqb kw [] then KBlank
  else if str_eqb kw (chars "COMMENT") then KComment
  else if str_eqb kw (chars "HISTORY") then KHistory
  else if str_eqb kw (chars "CONTINUE") then KContinue
  else if str_eqb kw (chars "XTENSION") then KXtension
  else if str_eqb kw (chars "HIERARCH") then KHierarch
  else if str_eqb kw (chars "END") then KEnd
  else if str_eqb ind (chars "= ") then KValue kw
  else KOther.

Lemma parse_card_kind buf :
  parse_card buf =
  match kw_of buf with
  | None => Err EUtf8
  | Some kw =>
    match kind_of_kw kw (firstn 2 (skipn 8 buf)) with
    | KBlank => Ok (parse_empty_keyword_card buf)
    | KComment => Ok (CComment (parse_comment_text (skipn 8 buf)))
    | KHistory => Ok (CHistory (parse_comment_text (skipn 8 buf)))
    | KContinue => parse_continuation buf
    | KXtension => parse_extension buf
    | KHierarch => parse_hierarch buf
    | KEnd => Ok CEnd
    | KValue n => let! v := parse_value (skipn 10 buf) in Ok (CValue n v)
    | KOther => Ok (CUndefined (utf8_lossy buf))
    end
  end.
Proof.
  unfold parse_card, kw_of. destruct (from_utf8 _) as [kw|]; auto. unfold kind_of_kw.
  repeat match goal with
  | |- context [str_eqb ?a ?b] => destruct (str_eqb a b); [reflexivity|]
  end. reflexivity.
Qed.

Lemma kind_of_kw_const s ind :
  forall k, kind_of_kw (chars s) ind = k ->
  forall buf, kw_of buf = Some (chars s) -> firstn 2 (skipn 8 buf) = ind ->
  exists kw, kw_of buf = Some kw /\ kind_of_kw kw (firstn 2 (skipn 8 buf)) = k.
Proof. intros k H buf H1 H2. exists (chars s). rewrite H2. auto. Qed.

Lemma kind_inv kw ind :
  match kind_of_kw kw ind with
  | KBlank => kw = []
  | KComment => kw = chars "COMMENT"
  | KHistory => kw = chars "HISTORY"
  | KContinue => kw = chars "CONTINUE"
  | KXtension => kw = chars "XTENSION"
  | KHierarch => kw = chars "HIERARCH"
  | KEnd => kw = chars "END"
  | KValue n => n = kw /\ kw <> [] /\ ~ special_keyword kw /\ ind = chars "= "
  | KOther => kw <> [] /\ ~ special_keyword kw /\ ind <> chars "= "
  end.
Proof.
  unfold kind_of_kw.
  destruct (str_eqb kw []) eqn:E0; [now apply str_eqb_eq|]. apply str_eqb_neq in E0.
  repeat match goal with
  | |- context [str_eqb kw ?b] =>
    let E := fresh "E" in destruct (str_eqb kw b) eqn:E; [now apply str_eqb_eq|]; apply str_eqb_neq in E
  end.
  assert (~ special_keyword kw) by (unfold special_keyword; tauto).
  destruct (str_eqb ind (chars "= ")) eqn:E6.
  - apply str_eqb_eq in E6. auto.
  - apply str_eqb_neq in E6. auto.
Qed.

(** Outcome of a record as a function of its keyword. *)
Lemma record_end buf : parse_card buf = Ok CEnd <-> has_keyword buf (chars "END").
Proof.
  rewrite <- kw_of_iff by reflexivity. rewrite parse_card_kind. split; intro H.
  - destruct (kw_of buf) as [kw|]; [|discriminate].
    pose proof (kind_inv kw (firstn 2 (skipn 8 buf))) as K.
    destruct (kind_of_kw kw _); try discriminate; try congruence.
    + unfold parse_empty_keyword_card in H. destruct (parse_comment_text _); discriminate.
    + apply parse_continuation_kind in H as [? [? H]]. discriminate.
    + apply parse_extension_kind in H as [? [? H]]. discriminate.
    + apply parse_hierarch_kind in H as [? [? H]]. discriminate.
    + destruct (parse_value _); discriminate.
  - now rewrite H.
Qed.

Lemma map_repl_sanitized l : map repl_char l = sanitized l.
Proof. reflexivity. Qed.

Lemma parse_comment_text_iff l t :
  parse_comment_text l = t <-> stripped_right white (sanitized l) t.
Proof. unfold parse_comment_text. rewrite map_repl_sanitized. apply trim_ascii_end_iff. Qed.

Lemma record_history buf t :
  parse_card buf = Ok (CHistory t) <->
  has_keyword buf (chars "HISTORY") /\ stripped_right white (sanitized (skipn 8 buf)) t.
Proof.
  rewrite <- kw_of_iff by reflexivity. rewrite <- parse_comment_text_iff.
  rewrite parse_card_kind. split.
  - intro H. destruct (kw_of buf) as [kw|]; [|discriminate].
    pose proof (kind_inv kw (firstn 2 (skipn 8 buf))) as K.
    destruct (kind_of_kw kw _); try discriminate.
    + unfold parse_empty_keyword_card in H. destruct (parse_comment_text _); discriminate.
    + inversion H; subst; auto.
    + apply parse_continuation_kind in H as [? [? H]]. discriminate.
    + apply parse_extension_kind in H as [? [? H]]. discriminate.
    + apply parse_hierarch_kind in H as [? [? H]]. discriminate.
    + destruct (parse_value _); discriminate.
  - intros [H1 <-]. now rewrite H1.
Qed.

Lemma has_keyword_nil buf : kw_of buf = Some [] <-> has_keyword buf [].
Proof. apply (keyword_iff buf []). constructor. Qed.

Lemma record_comment buf t :
  parse_card buf = Ok (CComment t) <->
  stripped_right white (sanitized (skipn 8 buf)) t /\
  (has_keyword buf (chars "COMMENT") \/ (has_keyword buf [] /\ t <> [])).
Proof.
  rewrite <- kw_of_iff by reflexivity. rewrite <- has_keyword_nil. rewrite <- parse_comment_text_iff.
  rewrite parse_card_kind. split.
  - intro H. destruct (kw_of buf) as [kw|]; [|discriminate].
    pose proof (kind_inv kw (firstn 2 (skipn 8 buf))) as K.
    destruct (kind_of_kw kw _); try discriminate.
    + unfold parse_empty_keyword_card in H. destruct (parse_comment_text _); [discriminate|].
      inversion H; subst. split; auto. right. split; auto. discriminate.
    + inversion H; subst; auto.
    + apply parse_continuation_kind in H as [? [? H]]. discriminate.
    + apply parse_extension_kind in H as [? [? H]]. discriminate.
    + apply parse_hierarch_kind in H as [? [? H]]. discriminate.
    + destruct (parse_value _); discriminate.
  - intros [<- [H1|[H1 H2]]]; rewrite H1; auto. cbn [kind_of_kw].
    change (kind_of_kw [] (firstn 2 (skipn 8 buf))) with KBlank. cbn iota.
    unfold parse_empty_keyword_card. destruct (parse_comment_text _); congruence.
Qed.

Lemma record_space buf :
  parse_card buf = Ok CSpace <->
  has_keyword buf [] /\ stripped_right white (sanitized (skipn 8 buf)) [].
Proof.
  rewrite <- has_keyword_nil. rewrite <- parse_comment_text_iff.
  rewrite parse_card_kind. split.
  - intro H. destruct (kw_of buf) as [kw|]; [|discriminate].
    pose proof (kind_inv kw (firstn 2 (skipn 8 buf))) as K.
    destruct (kind_of_kw kw _); try discriminate.
    + unfold parse_empty_keyword_card in H. destruct (parse_comment_text _); [|discriminate].
      subst; auto.
    + apply parse_continuation_kind in H as [? [? H]]. discriminate.
    + apply parse_extension_kind in H as [? [? H]]. discriminate.
    + apply parse_hierarch_kind in H as [? [? H]]. discriminate.
    + destruct (parse_value _); discriminate.
  - intros [H1 H2]. rewrite H1.
    change (kind_of_kw [] (firstn 2 (skipn 8 buf))) with KBlank. cbn iota.
    unfold parse_empty_keyword_card. now rewrite H2.
Qed.

(** The keyword bytes decode to the name: as bytes, [name] is the UTF-8 text of the trimmed
    keyword field (for ASCII it is the trimmed field itself). *)
Lemma record_value_kind buf n v :
  parse_card buf = Ok (CValue n v) ->
  n <> [] /\ ~ special_keyword n /\ firstn 2 (skipn 8 buf) = chars "= " /\ kw_of buf = Some n.
Proof.
  rewrite parse_card_kind. intro H. destruct (kw_of buf) as [kw|]; [|discriminate].
  pose proof (kind_inv kw (firstn 2 (skipn 8 buf))) as K.
  destruct (kind_of_kw kw _); try discriminate.
  - unfold parse_empty_keyword_card in H. destruct (parse_comment_text _); discriminate.
  - apply parse_continuation_kind in H as [? [? H]]. discriminate.
  - apply parse_extension_kind in H as [? [? H]]. discriminate.
  - apply parse_hierarch_kind in H as [? [? H]]. discriminate.
  - destruct (parse_value _); try discriminate. simpl in H. inversion H; subst.
    destruct K as [-> K]. tauto.
Qed.

Lemma record_xtension_kind buf x c :
  parse_card buf = Ok (CXtension x c) -> has_keyword buf (chars "XTENSION").
Proof.
  rewrite <- kw_of_iff by reflexivity.
  rewrite parse_card_kind. intro H. destruct (kw_of buf) as [kw|]; [|discriminate].
  pose proof (kind_inv kw (firstn 2 (skipn 8 buf))) as K.
  destruct (kind_of_kw kw _); try discriminate; try congruence.
  - unfold parse_empty_keyword_card in H. destruct (parse_comment_text _); discriminate.
  - apply parse_continuation_kind in H as [? [? H]]. discriminate.
  - apply parse_hierarch_kind in H as [? [? H]]. discriminate.
  - destruct (parse_value _); discriminate.
Qed.

Lemma record_continuation_kind buf s c :
  parse_card buf = Ok (CContinuation s c) -> has_keyword buf (chars "CONTINUE").
Proof.
  rewrite <- kw_of_iff by reflexivity.
  rewrite parse_card_kind. intro H. destruct (kw_of buf) as [kw|]; [|discriminate].
  pose proof (kind_inv kw (firstn 2 (skipn 8 buf))) as K.
  destruct (kind_of_kw kw _); try discriminate; try congruence.
  - unfold parse_empty_keyword_card in H. destruct (parse_comment_text _); discriminate.
  - apply parse_extension_kind in H as [? [? H]]. discriminate.
  - apply parse_hierarch_kind in H as [? [? H]]. discriminate.
  - destruct (parse_value _); discriminate.
Qed.

Lemma record_hierarch_kind buf n v :
  parse_card buf = Ok (CHierarch n v) -> has_keyword buf (chars "HIERARCH").
Proof.
  rewrite <- kw_of_iff by reflexivity.
  rewrite parse_card_kind. intro H. destruct (kw_of buf) as [kw|]; [|discriminate].
  pose proof (kind_inv kw (firstn 2 (skipn 8 buf))) as K.
  destruct (kind_of_kw kw _); try discriminate; try congruence.
  - unfold parse_empty_keyword_card in H. destruct (parse_comment_text _); discriminate.
  - apply parse_continuation_kind in H as [? [? H]]. discriminate.
  - apply parse_extension_kind in H as [? [? H]]. discriminate.
  - destruct (parse_value _); discriminate.
Qed.

Lemma record_undefined buf t :
  parse_card buf = Ok (CUndefined t) <->
  t = utf8_lossy buf /\
  (exists kw, kw_of buf = Some kw /\ kw <> [] /\ ~ special_keyword kw) /\
  firstn 2 (skipn 8 buf) <> chars "= ".
Proof.
  rewrite parse_card_kind. split.
  - intro H. destruct (kw_of buf) as [kw|]; [|discriminate].
    pose proof (kind_inv kw (firstn 2 (skipn 8 buf))) as K.
    destruct (kind_of_kw kw _); try discriminate.
    + unfold parse_empty_keyword_card in H. destruct (parse_comment_text _); discriminate.
    + apply parse_continuation_kind in H as [? [? H]]. discriminate.
    + apply parse_extension_kind in H as [? [? H]]. discriminate.
    + apply parse_hierarch_kind in H as [? [? H]]. discriminate.
    + destruct (parse_value _); discriminate.
    + inversion H; subst. split; auto. split; [|tauto]. exists kw. tauto.
  - intros [-> [[kw [H1 [H2 H3]]] H4]]. rewrite H1.
    pose proof (kind_inv kw (firstn 2 (skipn 8 buf))) as K.
    unfold special_keyword in H3.
    destruct (kind_of_kw kw _); auto; try tauto.
Qed.

(** ** Panics *)

Lemma split_loop_prefix tic toc acc l raw c :
  split_loop tic toc acc l = Ok (raw, c) -> exists suf, raw = rev acc ++ suf.
Proof.
  revert tic toc acc. induction l as [|x l IH]; intros tic toc acc H; cbn [split_loop] in H.
  { inversion H. exists []. now rewrite app_nil_r. }
  assert (Step: forall tic toc y, split_loop tic toc (y :: acc) l = Ok (raw, c) ->
                exists suf, raw = rev acc ++ suf).
  { intros ti to y H'. apply IH in H' as [suf ->]. simpl. rewrite <- app_assoc. eauto. }
  destruct (x =? QUOTE).
  { destruct tic, toc; try discriminate; eauto. }
  destruct (x =? SLASH).
  { destruct tic, toc; try discriminate; eauto; inversion H; exists []; now rewrite app_nil_r. }
  destruct (is_fits_char x).
  { destruct toc; eauto. }
  destruct tic; [eauto|discriminate].
Qed.

Lemma app_blanks_head (acc : list Z) y suf suf2 :
  rev acc ++ suf = rev (y :: acc) ++ suf2 -> suf = y :: suf2.
Proof. simpl. rewrite <- app_assoc. intro H. now apply app_inv_head in H. Qed.

(** In state (true, false), only blanks can be copied as blanks. *)
Lemma split_loop_open_blank acc l c suf :
  split_loop true false acc l = Ok (rev acc ++ suf, c) -> Forall (fun x => x = 32) suf ->
  l = suf /\ c = None.
Proof.
  revert acc suf. induction l as [|x l IH]; intros acc suf H F; cbn [split_loop] in H.
  { inversion H. rewrite <- (app_nil_r (rev acc)) in H1 at 1. apply app_inv_head in H1. auto. }
  assert (Step: forall to y, split_loop true to (y :: acc) l = Ok (rev acc ++ suf, c) -> y = 32).
  { intros to y H'. pose proof (split_loop_prefix _ _ _ _ _ _ H') as [s2 E].
    apply app_blanks_head in E. subst suf. inversion F; auto. }
  destruct (Z.eqb_spec x QUOTE). { apply Step in H. discriminate. }
  destruct (Z.eqb_spec x SLASH). { apply Step in H. discriminate. }
  destruct (is_fits_char x).
  - pose proof (Step _ _ H) as ->.
    pose proof (split_loop_prefix _ _ _ _ _ _ H) as [s2 E].
    pose proof (app_blanks_head _ _ _ _ E) as E2. subst suf.
    assert (E3: rev acc ++ 32 :: s2 = rev (32 :: acc) ++ s2) by (simpl; now rewrite <- app_assoc).
    rewrite E3 in H. destruct (IH _ _ H) as [-> ->]; auto. inversion F; auto.
  - apply Step in H. discriminate.
Qed.

Lemma split_loop_lone acc l c a b :
  split_loop false false acc l = Ok (rev acc ++ blanks a ++ 39 :: b, c) ->
  Forall (fun x => x = 32) b -> l = blanks a ++ 39 :: b /\ c = None.
Proof.
  revert acc a. induction l as [|x l IH]; intros acc a H F; cbn [split_loop] in H.
  { inversion H. rewrite <- (app_nil_r (rev acc)) in H1 at 1. apply app_inv_head in H1.
    destruct a; discriminate. }
  assert (Step: forall ti to y s, split_loop ti to (y :: acc) l = Ok (rev acc ++ s, c) ->
      exists s2, s = y :: s2 /\ split_loop ti to (y :: acc) l = Ok (rev (y :: acc) ++ s2, c)).
  { intros ti to y s H'. pose proof (split_loop_prefix _ _ _ _ _ _ H') as [s2 E].
    pose proof (app_blanks_head _ _ _ _ E). subst. exists s2. split; auto. now rewrite H', E. }
  destruct (Z.eqb_spec x QUOTE).
  { subst. apply Step in H as [s2 [E H]]. destruct a as [|a]; [|discriminate].
    unfold blanks in *; simpl in E. inversion E; subst s2.
    destruct (split_loop_open_blank _ _ _ _ H F) as [-> ->]. split; reflexivity. }
  destruct (Z.eqb_spec x SLASH).
  { inversion H. rewrite <- (app_nil_r (rev acc)) in H1 at 1. apply app_inv_head in H1.
    destruct a; discriminate. }
  destruct (is_fits_char x); [|discriminate].
  apply Step in H as [s2 [E H]]. destruct a as [|a]; unfold blanks in E; simpl in E; inversion E.
  - exfalso. apply n. now rewrite <- H1.
  - subst. change (repeat 32 a) with (blanks a) in H. apply IH in H as [-> ->]; auto.
Qed.

Lemma Forall_32_blanks l : Forall (fun x => x = 32) l -> l = blanks (length l).
Proof. unfold blanks. induction 1; simpl; congruence. Qed.

Lemma split_lone_quote f c :
  split_value_and_comment f = Ok ([39], c) <-> trim_ascii f = [39] /\ c = None.
Proof.
  unfold split_value_and_comment. split.
  - destruct (split_loop _ _ _ _) as [[raw cm]|e|] eqn:E; simpl; try discriminate.
    intro H.
    assert (T: trim raw = [39]) by (destruct cm; inversion H; auto).
    assert (Hc: Forall text_char raw) by (eapply split_loop_chars; eauto).
    unfold trim in T.
    destruct (trim_by_spec is_unicode_ws raw) as [w1 [w2 [E1 [F1 [F2 _]]]]].
    rewrite T in E1.
    assert (B: forall w, Forall (fun c => is_unicode_ws c = true) w -> Forall text_char w ->
                Forall (fun x => x = 32) w).
    { intros w G1 G2. apply Forall_forall. intros x Hx. rewrite Forall_forall in G1, G2.
      apply G1 in Hx as X1. apply G2 in Hx as X2.
      unfold text_char, printable, REPL, is_unicode_ws in *. lia. }
    rewrite E1 in Hc. apply Forall_app in Hc as [C1 C2]. apply Forall_app in C2 as [_ C2].
    pose proof (B _ F1 C1) as B1. pose proof (B _ F2 C2) as B2.
    rewrite E1 in E. rewrite (Forall_32_blanks _ B1) in E.
    change (blanks (length w1) ++ [39] ++ w2) with (rev [] ++ blanks (length w1) ++ 39 :: w2) in E.
    destruct (split_loop_lone _ _ _ _ _ E B2) as [L ->].
    assert (A: Forall is_ascii (utf8_lossy (trim_ascii f))).
    { rewrite L. apply Forall_app. split; [apply printable_ascii, blanks_printable|].
      constructor; [unfold is_ascii; lia|]. rewrite (Forall_32_blanks _ B2).
      apply printable_ascii, blanks_printable. }
    rewrite (utf8_lossy_ascii_inv _ A) in L.
    split; [|inversion H; auto].
    assert (S: stripped white f [39]).
    { apply (proj1 (trim_ascii_iff f _)) in L as [u1 [u2 [G1 [G2 [G3 _]]]]].
      exists (u1 ++ blanks (length w1)), (w2 ++ u2). split; [|split; [|split]].
      - rewrite G1, <- !app_assoc. simpl. reflexivity.
      - apply Forall_app. split; auto. eapply Forall_impl; [|apply blanks_ws].
        intros. now apply is_ascii_ws_white.
      - apply Forall_app. split; auto. eapply Forall_impl; [|exact B2]. intros a ->. now left.
      - right. split.
        + exists 39, []. split; auto. unfold white. lia.
        + exists [], 39. split; auto. unfold white. lia. }
    now apply trim_ascii_iff in S.
  - intros [E ->]. rewrite E. reflexivity.
Qed.

Lemma parse_string_panic v : parse_string v = Panic <-> v = [39].
Proof.
  unfold parse_string. split.
  - intro H. destruct (starts_with QUOTE v) eqn:E1, (ends_with QUOTE v) eqn:E2;
      cbn [bind] in H; try discriminate.
    + destruct v as [|x v]; [discriminate|]. destruct v as [|y v].
      * simpl in E1. unfold QUOTE in E1. apply Z.eqb_eq in E1. now subst.
      * cbn [strip_quotes bind] in H. destruct (removelast (y :: v)) as [|q t]; [discriminate|].
        destruct (trim_end (q :: t)); discriminate.
    + destruct v; [discriminate|]. destruct (trim_end (z :: v)); discriminate.
  - intros ->. reflexivity.
Qed.

Lemma parse_number_no_panic v c : parse_number v c <> Panic.
Proof.
  unfold parse_number. destruct v; [discriminate|].
  destruct (parse_i64 _); [discriminate|].
  destruct (parse_f64 _); [discriminate|].
  destruct (parse_f64 (replace_D _)); discriminate.
Qed.

Lemma parse_value_panic f : parse_value f = Panic <-> lone_quote f.
Proof.
  unfold lone_quote. rewrite <- trim_ascii_iff. split.
  - intro H. unfold parse_value in H. pose proof (split_no_panic f) as NP.
    destruct (split_value_and_comment f) as [[v c]|e|] eqn:E; cbn [bind] in H;
      try discriminate; try congruence.
    destruct v as [|ch v]; [discriminate|].
    destruct (Z.eqb_spec ch QUOTE).
    { destruct (parse_string (ch :: v)) eqn:P; cbn [bind] in H; try discriminate.
      apply parse_string_panic in P. rewrite P in E. now apply split_lone_quote in E. }
    destruct (ch =? 84); [discriminate|]. destruct (ch =? 70); [discriminate|].
    destruct (ch =? 40); [discriminate|].
    destruct (_ || _); [|discriminate]. exfalso. eapply parse_number_no_panic; eauto.
  - intro H. unfold parse_value.
    assert (E: split_value_and_comment f = Ok ([39], None)) by (apply split_lone_quote; auto).
    rewrite E. reflexivity.
Qed.

Lemma parse_continuation_panic b :
  parse_continuation b = Panic <-> lone_quote (skipn 8 b).
Proof.
  unfold lone_quote. rewrite <- trim_ascii_iff. unfold parse_continuation. split.
  - intro H. pose proof (split_no_panic (skipn 8 b)) as NP.
    destruct (split_value_and_comment _) as [[v c]|e|] eqn:E; cbn [bind] in H;
      try discriminate; try congruence.
    destruct (parse_string v) eqn:P; cbn [bind] in H; try discriminate.
    apply parse_string_panic in P. rewrite P in E. now apply split_lone_quote in E.
  - intro H.
    assert (E: split_value_and_comment (skipn 8 b) = Ok ([39], None)) by (apply split_lone_quote; auto).
    rewrite E. reflexivity.
Qed.

Lemma parse_extension_panic b :
  parse_extension b = Panic <-> lone_quote (skipn 10 b).
Proof.
  unfold lone_quote. rewrite <- trim_ascii_iff. unfold parse_extension. split.
  - intro H. pose proof (split_no_panic (skipn 10 b)) as NP.
    destruct (split_value_and_comment _) as [[v c]|e|] eqn:E; cbn [bind] in H;
      try discriminate; try congruence.
    destruct (starts_with QUOTE v) eqn:S; [|discriminate].
    destruct (ends_with QUOTE v) eqn:S2; [|discriminate]. cbn [andb] in H.
    destruct v as [|x [|y v]].
    + discriminate.
    + simpl in S. apply Z.eqb_eq in S. rewrite S in E. now apply split_lone_quote in E.
    + cbn [strip_quotes bind] in H. unfold xtype_from_str in H.
      repeat match goal with H : context [if ?b then _ else _] |- _ => destruct b end; discriminate.
  - intro H.
    assert (E: split_value_and_comment (skipn 10 b) = Ok ([39], None)) by (apply split_lone_quote; auto).
    rewrite E. reflexivity.
Qed.

Lemma split_eq_spec l a b : split_eq l = Some (a, b) <-> l = a ++ 61 :: b /\ ~ In 61 a.
Proof.
  revert a. induction l as [|c l IH]; intro a; simpl.
  - split; [discriminate|]. intros [H _]. destruct a; discriminate.
  - destruct (Z.eqb_spec c 61).
    + subst. split.
      * intro H. inversion H; subst. auto.
      * intros [H1 H2]. destruct a as [|x a]; simpl in H1; inversion H1; subst; auto.
        exfalso. apply H2. now left.
    + destruct (split_eq l) as [[a' b']|] eqn:E.
      * split.
        -- intro H. inversion H; subst. destruct (proj1 (IH a') eq_refl) as [-> H2].
           split; auto. simpl. intros [|]; [congruence|tauto].
        -- intros [H1 H2]. destruct a as [|x a]; simpl in H1; inversion H1; subst; [congruence|].
           assert (G: Some (a', b') = Some (a, b)).
           { apply IH. split; auto. intro. apply H2. now right. }
           inversion G; subst; auto.
      * split; [discriminate|]. intros [H1 H2].
        destruct a as [|x a]; simpl in H1; inversion H1; subst; [congruence|].
        assert (G: None = Some (a, b)). { apply IH. split; auto. intro. apply H2. now right. }
        discriminate.
Qed.

Lemma tokens_nil p cur l :
  tokens p cur l = [] <-> cur = [] /\ Forall (fun c => p c = true) l.
Proof.
  revert cur. induction l as [|c l IH]; intro cur; simpl.
  - destruct cur; split; auto; try discriminate. intros [H _]; discriminate.
  - destruct (p c) eqn:E.
    + destruct cur; [|split; [discriminate|intros [H _]; discriminate]].
      rewrite IH. split; intros [_ H]; split; auto. now inversion H.
    + rewrite IH. split; intros [H1 H2]; [discriminate|]. inversion H2; congruence.
Qed.

(** The HIERARCH name is the empty one exactly when only white space precedes the '='. *)
Lemma parse_hierarch_panic b :
  parse_hierarch b = Panic <->
  exists name field, skipn 9 b = name ++ 61 :: field /\ ~ In 61 name /\ ~ Forall white name /\
                     lone_quote field.
Proof.
  unfold parse_hierarch.
  assert (W: forall l, Forall white l <-> Forall (fun c => is_ascii_ws c = true) l).
  { intro l. split; apply Forall_impl; intros; now apply is_ascii_ws_white. }
  split.
  - destruct (split_eq (skipn 9 b)) as [[a f]|] eqn:E; [|discriminate].
    apply split_eq_spec in E as [E1 E2].
    destruct (tokens is_ascii_ws [] a) as [|t ts] eqn:T; simpl; [discriminate|].
    destruct (parse_value f) eqn:P; cbn [bind]; try discriminate. intros _.
    exists a, f. split; auto. split; auto. split.
    + rewrite W. intro H. assert (tokens is_ascii_ws [] a = []) by (apply tokens_nil; auto). congruence.
    + now apply parse_value_panic.
  - intros [a [f [E1 [E2 [E3 E4]]]]].
    assert (E: split_eq (skipn 9 b) = Some (a, f)) by (apply split_eq_spec; auto).
    rewrite E. destruct (tokens is_ascii_ws [] a) as [|t ts] eqn:T.
    + exfalso. apply E3, W. now apply tokens_nil in T.
    + simpl. apply parse_value_panic in E4. now rewrite E4.
Qed.

(** The decoded keyword, in terms of the specification. *)
Lemma kw_of_text buf kw : octets buf -> (kw_of buf = Some kw <-> keyword_text buf kw).
Proof.
  intro Hb. unfold kw_of, keyword_text.
  assert (Hn: Forall (fun b => 0 <= b) (trim_ascii (firstn 8 buf))).
  { apply Forall_trim_by. apply Forall_firstn. eapply Forall_impl; [|exact Hb]. simpl; lia. }
  rewrite from_utf8_iff by auto. unfold has_keyword. rewrite <- trim_ascii_iff. tauto.
Qed.

Lemma parse_card_panic_iff b : octets b -> (parse_card b = Panic <-> lone_quote_record b).
Proof.
  intro Hb. unfold lone_quote_record.
  assert (KT: forall kw, keyword_text b kw <-> kw_of b = Some kw) by (intro; symmetry; now apply kw_of_text). rewrite <- !kw_of_iff by reflexivity. rewrite parse_card_kind. split.
  - intro H. destruct (kw_of b) as [kw|]; [|discriminate].
    pose proof (kind_inv kw (firstn 2 (skipn 8 b))) as K.
    destruct (kind_of_kw kw _); try discriminate; subst.
    + left. split; auto. now apply parse_continuation_panic.
    + right; left. split; auto. now apply parse_extension_panic.
    + right; right; left. split; auto. now apply parse_hierarch_panic.
    + right; right; right. destruct K as [-> [K1 [K2 K3]]].
      split; [exists kw; rewrite KT; auto|]. split; auto.
      destruct (parse_value _) eqn:P; try discriminate. now apply parse_value_panic.
  - intros [[H1 H2]|[[H1 H2]|[[H1 H2]|[[kw [H1 [H2 H3]]] [H4 H5]]]]].
    + rewrite H1. now apply parse_continuation_panic.
    + rewrite H1. now apply parse_extension_panic.
    + rewrite H1. now apply parse_hierarch_panic.
    + apply KT in H1. rewrite H1. pose proof (kind_inv kw (firstn 2 (skipn 8 b))) as K.
      unfold special_keyword in H3.
      destruct (kind_of_kw kw _); try (exfalso; tauto).
      apply parse_value_panic in H5. now rewrite H5.
Qed.

(** ** HIERARCH round trip *)

Lemma tokens_graphic t cur rest :
  Forall graphic t ->
  tokens is_ascii_ws cur (t ++ rest) = tokens is_ascii_ws (rev t ++ cur) rest.
Proof.
  intro H. revert cur. induction H as [|c t Hc _ IH]; intro cur; [reflexivity|].
  cbn [app tokens]. assert (E: is_ascii_ws c = false) by (unfold graphic, is_ascii_ws in *; lia).
  rewrite E, IH. simpl. now rewrite <- app_assoc.
Qed.

Lemma tokens_blanks n rest : tokens is_ascii_ws [] (blanks n ++ rest) = tokens is_ascii_ws [] rest.
Proof. unfold blanks. induction n; simpl; auto. Qed.

Lemma tokens_spaced toks :
  Forall token (map fst toks) -> separated toks ->
  tokens is_ascii_ws [] (spaced toks) = map fst toks.
Proof.
  induction toks as [|[t n] toks IH]; intros Ht Hs; [reflexivity|].
  cbn [map fst spaced]. inversion Ht as [|? ? [Hne Hg] Ht2]; subst.
  rewrite tokens_graphic.
  2:{ eapply Forall_impl; [|exact Hg]. intros a [Ha _]; auto. }
  rewrite app_nil_r.
  assert (Hr: rev t <> []).
  { intro E. apply Hne. rewrite <- (rev_involutive t), E. reflexivity. }
  destruct (rev t) as [|x r] eqn:R; [congruence|].
  assert (Rt: rev (x :: r) = t) by (rewrite <- R; apply rev_involutive).
  destruct n as [|n].
  - destruct toks as [|p toks].
    + simpl. change (rev r ++ [x]) with (rev (x :: r)). now rewrite Rt.
    + destruct p. destruct Hs as [Hs _]. lia.
  - unfold blanks. cbn [repeat app tokens]. change (is_ascii_ws 32) with true. cbn iota.
    rewrite Rt. f_equal. change (repeat 32 n) with (blanks n). rewrite tokens_blanks.
    apply IH; auto. destruct toks; [exact I|]. destruct Hs as [_ Hs]. exact Hs.
Qed.

Lemma join_dots_dotted l : join_dots l = dotted l.
Proof. reflexivity. Qed.

Lemma spaced_no_eq toks : Forall token (map fst toks) -> ~ In 61 (spaced toks).
Proof.
  induction toks as [|[t n] toks IH]; simpl; auto. intros H Hin.
  inversion H as [|? ? [_ Hg] H2]; subst. apply in_app_or in Hin as [Hin|Hin].
  - rewrite Forall_forall in Hg. apply Hg in Hin. tauto.
  - apply in_app_or in Hin as [Hin|Hin].
    + unfold blanks in Hin. apply repeat_spec in Hin. lia.
    + now apply IH.
Qed.

Lemma utf8_lossy_tokens toks :
  Forall token toks -> map utf8_lossy toks = toks.
Proof.
  induction 1 as [|t toks [_ Hg] _ IH]; simpl; auto. rewrite IH. f_equal.
  apply utf8_lossy_ascii, printable_ascii, graphic_printable.
  eapply Forall_impl; [|exact Hg]. intros a [Ha _]; auto.
Qed.

Lemma parse_card_hierarch_record lead toks f :
  toks <> [] -> Forall token (map fst toks) -> separated toks ->
  exists n, parse_card (hierarch_record lead toks f)
    = let! v := parse_value (f ++ blanks n) in Ok (CHierarch (dotted (map fst toks)) v).
Proof.
  intros Hne Ht Hs. unfold hierarch_record, padded.
  set (body := chars "HIERARCH" ++ [32] ++ blanks lead ++ spaced toks ++ [61] ++ f).
  exists (80 - length body)%nat.
  set (pad := blanks (80 - length body)).
  rewrite parse_card_kind.
  assert (K: kw_of (body ++ pad) = Some (chars "HIERARCH")) by reflexivity.
  rewrite K. cbn iota.
  change (kind_of_kw (chars "HIERARCH") (firstn 2 (skipn 8 (body ++ pad)))) with KHierarch. cbn iota.
  unfold parse_hierarch.
  assert (E: split_eq (skipn 9 (body ++ pad)) = Some (blanks lead ++ spaced toks, f ++ pad)).
  { apply split_eq_spec. split.
    - unfold body. rewrite <- !app_assoc. reflexivity.
    - intro H. apply in_app_or in H as [H|H].
      + unfold blanks in H. apply repeat_spec in H. lia.
      + eapply spaced_no_eq; eauto. }
  rewrite E. rewrite tokens_blanks, tokens_spaced by auto.
  rewrite utf8_lossy_tokens by auto.
  destruct (map fst toks) eqn:M; [destruct toks; [congruence|discriminate]|].
  rewrite ?M. reflexivity.
Qed.

(** Value parsing does not depend on trailing blanks, except for invalid values. *)
Lemma split_trailing f n :
  split_value_and_comment (f ++ blanks n) = split_value_and_comment f.
Proof.
  unfold split_value_and_comment, trim_ascii. now rewrite trim_by_blank_r by apply blanks_ws.
Qed.

Lemma parse_value_trailing f n v :
  parse_value (f ++ blanks n) = Ok v -> (forall s, v <> VInvalid s) ->
  forall k, parse_value (f ++ blanks k) = Ok v.
Proof.
  unfold parse_value. intros H Hv k. rewrite split_trailing in *.
  destruct (split_value_and_comment f) as [[w c]|e|]; cbn [bind] in *; try discriminate.
  destruct w as [|ch w]; auto.
  destruct (ch =? QUOTE); auto. destruct (ch =? 84); auto. destruct (ch =? 70); auto.
  destruct (ch =? 40); auto. destruct (_ || _); auto.
  inversion H; subst. exfalso. eapply Hv; eauto.
Qed.

Lemma hierarch_record_proof kw lead toks f v :
  ordinary_keyword kw -> toks <> [] -> Forall token (map fst toks) -> separated toks ->
  parse_card (value_record kw f) = Ok (CValue kw v) -> (forall s, v <> VInvalid s) ->
  parse_card (hierarch_record lead toks f) = Ok (CHierarch (dotted (map fst toks)) v).
Proof.
  intros Hk Hne Ht Hs H Hv.
  destruct (parse_card_hierarch_record lead toks f Hne Ht Hs) as [n ->].
  rewrite parse_card_value_record in H by auto. unfold padded in H.
  destruct (parse_value (f ++ _)) as [w|e|] eqn:E; cbn [bind] in H; try discriminate.
  inversion H; subst w.
  now rewrite (parse_value_trailing f (70 - length f) v E Hv n).
Qed.

Lemma hierarch_errors b :
  has_keyword b (chars "HIERARCH") ->
  (~ In 61 (skipn 9 b) \/
   exists name field, skipn 9 b = name ++ 61 :: field /\ Forall white name) ->
  parse_card b = Err EDynamic.
Proof.
  rewrite <- kw_of_iff by reflexivity. rewrite parse_card_kind. intros -> H. cbn iota.
  change (kind_of_kw (chars "HIERARCH") (firstn 2 (skipn 8 b))) with KHierarch. cbn iota.
  unfold parse_hierarch. destruct H as [H|[a [f [H1 H2]]]].
  - destruct (split_eq (skipn 9 b)) as [[x y]|] eqn:E; auto.
    apply split_eq_spec in E as [E _]. exfalso. apply H. rewrite E. apply in_or_app. right. now left.
  - assert (E: split_eq (skipn 9 b) = Some (a, f)).
    { apply split_eq_spec. split; auto. intro Hin. rewrite Forall_forall in H2. apply H2 in Hin.
      unfold white in Hin. lia. }
    rewrite E.
    assert (T: tokens is_ascii_ws [] a = []).
    { apply tokens_nil. split; auto. eapply Forall_impl; [|exact H2]. intros. now apply is_ascii_ws_white. }
    now rewrite T.
Qed.

(** ** XTENSION *)

Definition xtension_of (name : str) : option xtype :=
  if str_eqb name (chars "IMAGE") then Some XImage
  else if str_eqb name (chars "IUEIMAGE") then Some XImage
  else if str_eqb name (chars "TABLE") then Some XAsciiTable
  else if str_eqb name (chars "BINTABLE") then Some XBinTable
  else None.

Lemma trim_ascii_blank_text s n1 n2 :
  compact s -> Forall printable s -> trim_ascii (blanks n1 ++ s ++ blanks n2) = s.
Proof.
  intros [[c1 [t1 [E1 N1]]] [t2 [c2 [E2 N2]]]] Hp. unfold trim_ascii.
  rewrite trim_by_blank_l by apply blanks_ws. rewrite trim_by_blank_r by apply blanks_ws.
  eapply trim_by_id; eauto.
  - assert (printable c1) by (rewrite E1 in Hp; inversion Hp; auto).
    unfold printable, is_ascii_ws in *. lia.
  - assert (printable c2).
    { rewrite E2 in Hp. apply Forall_app in Hp as [_ Hp]. inversion Hp; auto. }
    unfold printable, is_ascii_ws in *. lia.
Qed.

Lemma xtension_record_proof lead name n1 n2 trail comment :
  Forall printable name -> compact name -> opt_printable comment ->
  parse_card (value_record (chars "XTENSION")
    (value_field lead (fits_string (blanks n1 ++ name ++ blanks n2)) trail comment))
  = match xtension_of name with
    | Some x => Ok (CXtension x (option_map rtrim comment))
    | None => Err (ENotSupportedXt name)
    end.
Proof.
  intros Hp Hc Hcm. rewrite parse_card_kind.
  set (f := value_field _ _ _ _).
  assert (K: kw_of (value_record (chars "XTENSION") f) = Some (chars "XTENSION")) by reflexivity.
  rewrite K. cbn iota.
  change (kind_of_kw (chars "XTENSION") (firstn 2 (skipn 8 (value_record (chars "XTENSION") f)))) with KXtension.
  cbn iota. unfold parse_extension.
  change (skipn 10 (value_record (chars "XTENSION") f)) with (padded 70 f).
  unfold f. rewrite split_string_field; auto.
  2:{ apply Forall_app. split; [apply blanks_printable|]. apply Forall_app. split; auto. apply blanks_printable. }
  cbn [bind].
  set (s := blanks n1 ++ name ++ blanks n2).
  assert (E1: starts_with QUOTE (39 :: s ++ [39]) = true) by reflexivity.
  assert (E2: ends_with QUOTE (39 :: s ++ [39]) = true).
  { unfold ends_with. cbn [rev]. rewrite rev_app_distr. reflexivity. }
  rewrite E1, E2. cbn [andb]. rewrite strip_quotes_ok. cbn [bind]. unfold s.
  rewrite trim_ascii_blank_text by auto. unfold xtype_from_str, xtension_of.
  destruct (str_eqb name (chars "IMAGE")); [reflexivity|].
  destruct (str_eqb name (chars "IUEIMAGE")); [reflexivity|]. cbn [orb].
  destruct (str_eqb name (chars "TABLE")); [reflexivity|].
  destruct (str_eqb name (chars "BINTABLE")); reflexivity.
Qed.

(** ** Logical values *)

Lemma split_head f ch v c :
  split_value_and_comment f = Ok (ch :: v, c) ->
  exists w rest, trim_ascii f = ch :: rest /\ f = w ++ ch :: rest ++ skipn (length w + S (length rest)) f
    /\ Forall white w /\ printable ch /\ ch <> 32 /\ ch <> 47.
Proof.
  unfold split_value_and_comment. intro H.
  destruct (trim_by_spec is_ascii_ws f) as [w1 [w2 [E1 [F1 [F2 T]]]]].
  fold (trim_ascii f) in *.
  destruct (split_loop _ _ _ _) as [[raw cm]|e|] eqn:E; cbn [bind] in H; try discriminate.
  assert (Tr: trim raw = ch :: v) by (destruct cm; inversion H; auto).
  destruct T as [T|[[x [t [T Tx]]] _]].
  { rewrite T in E. simpl in E. inversion E; subst. discriminate. }
  rewrite T in E.
  assert (U: exists y r, utf8_lossy (x :: t) = y :: r /\ (is_ascii y -> y = x)).
  { cbn [utf8_lossy]. destruct (x <? 128); [eauto|].
    assert (Z0: forall y, 128 <= y -> is_ascii y -> y = x) by (unfold is_ascii; intros; lia).
    assert (ZR: is_ascii REPL -> REPL = x) by (unfold is_ascii, REPL; lia).
    destruct ((194 <=? x) && (x <=? 223)) eqn:E2.
    { destruct t; [eauto|]. destruct (is_cont z) eqn:Q; [|eauto]. do 2 eexists. split; eauto.
      apply Z0. apply dec2_big; auto. lia. }
    destruct ((224 <=? x) && (x <=? 239)).
    { destruct t as [|b1 t]; [eauto|]. destruct (second3 x b1) eqn:Q1; [|eauto].
      destruct t as [|b2 t]; [eauto|]. destruct (is_cont b2) eqn:Q2; [|eauto].
      do 2 eexists. split; eauto. apply Z0. apply dec3_big; auto. }
    destruct ((240 <=? x) && (x <=? 244)).
    { destruct t as [|b1 t]; [eauto|]. destruct (second4 x b1) eqn:Q1; [|eauto].
      destruct t as [|b2 t]; [eauto|]. destruct (is_cont b2) eqn:Q2; [|eauto].
      destruct t as [|b3 t]; [eauto|]. destruct (is_cont b3) eqn:Q3; [|eauto].
      do 2 eexists. split; eauto. apply Z0. apply dec4_big; auto. }
    eauto. }
  destruct U as [y [r [U Uy]]]. rewrite U in E. cbn [split_loop] in E.
  assert (Hy: exists s2, raw = y :: s2 /\ printable y /\ y <> 47 \/ raw = []).
  { destruct (Z.eqb_spec y QUOTE).
    { subst. pose proof (split_loop_prefix _ _ _ _ _ _ E) as [s2 ->]. exists s2. left.
      split; auto. unfold printable, QUOTE. lia. }
    destruct (Z.eqb_spec y SLASH).
    { inversion E; subst. exists []. now right. }
    destruct (is_fits_char y) eqn:Fy; [|discriminate].
    pose proof (split_loop_prefix _ _ _ _ _ _ E) as [s2 ->]. exists s2. left.
    split; auto. unfold printable, is_fits_char, SLASH in *. lia. }
  destruct Hy as [s2 [[R1 [R2 R3]]|R1]]; [|subst raw; discriminate].
  assert (Yx: y = x) by (apply Uy; unfold printable, is_ascii in *; lia). subst y.
  assert (X32: x <> 32) by (unfold is_ascii_ws in Tx; lia).
  assert (Hw: is_unicode_ws x = false) by (unfold printable, is_unicode_ws in *; lia).
  assert (Hx: x = ch).
  { rewrite R1 in Tr. unfold trim, trim_by, trim_start_by in Tr. cbn [drop_while] in Tr.
    rewrite Hw in Tr. destruct (trim_end_by_spec is_unicode_ws (x :: s2)) as [w [G1 [G2 _]]].
    rewrite Tr in G1. simpl in G1. congruence. }
  subst x. exists w1, t. rewrite T in E1. split; auto. split; [|split; [|auto]].
  - rewrite E1 at 1. simpl. f_equal. f_equal. f_equal.
    rewrite E1. rewrite app_assoc. symmetry. apply skipn_app_exact.
    rewrite app_length. simpl. lia.
  - eapply Forall_impl; [|exact F1]. intros. now apply is_ascii_ws_white.
Qed.

Lemma parse_value_head f v :
  parse_value f = Ok v ->
  match v with
  | VLogical b _ => exists w rest, f = w ++ (if b then 84 else 70) :: rest /\ Forall white w
  | VString _ _ => exists w rest, f = w ++ 39 :: rest /\ Forall white w
  | VInteger _ _ | VFloat _ _ =>
      exists w c rest, f = w ++ c :: rest /\ Forall white w /\
        (48 <= c <= 57 \/ c = 45 \/ c = 43 \/ c = 46)
  | _ => True
  end.
Proof.
  unfold parse_value. intro H.
  destruct (split_value_and_comment f) as [[w c]|e|] eqn:E; cbn [bind] in H; try discriminate.
  destruct w as [|ch w]; [inversion H; subst; exact I|].
  destruct (split_head _ _ _ _ E) as [w1 [rest [_ [F1 [F2 _]]]]].
  assert (F: exists w rest, f = w ++ ch :: rest /\ Forall white w) by eauto.
  destruct (Z.eqb_spec ch QUOTE).
  { destruct (parse_string _); cbn [bind] in H; inversion H; subst. exact F. }
  destruct (Z.eqb_spec ch 84). { inversion H; subst. exact F. }
  destruct (Z.eqb_spec ch 70). { inversion H; subst. exact F. }
  destruct (ch =? 40); [discriminate|].
  destruct (is_digit ch || (ch =? 45) || (ch =? 43) || (ch =? 46)) eqn:D.
  - assert (G: exists w c rest, f = w ++ c :: rest /\ Forall white w /\
        (48 <= c <= 57 \/ c = 45 \/ c = 43 \/ c = 46)).
    { destruct F as [w2 [r2 [F3 F4]]]. exists w2, ch, r2. split; auto. split; auto.
      unfold is_digit in D. lia. }
    unfold parse_number in H.
    destruct (parse_i64 _); [inversion H; subst; exact G|].
    destruct (parse_f64 _); [inversion H; subst; exact G|].
    destruct (parse_f64 (replace_D _)); inversion H; subst; [exact G|exact I].
  - inversion H; subst. exact I.
Qed.

Lemma parse_value_logical n lead b t trail comment :
  compact ((if b : bool then 84 else 70) :: t) -> Forall plain t -> opt_printable comment ->
  parse_value (padded n (value_field lead ((if b then 84 else 70) :: t) trail comment))
  = Ok (VLogical b (option_map rtrim comment)).
Proof.
  intros. unfold parse_value. rewrite split_plain_field; auto.
  - cbn [bind]. destruct b; reflexivity.
  - constructor; auto. destruct b; unfold plain, printable; lia.
Qed.

(** ** Units *)

Lemma before_bracket_spec l u :
  before_bracket l = Some u <-> exists rest, l = u ++ 93 :: rest /\ ~ In 93 u.
Proof.
  revert u. induction l as [|c l IH]; intro u; simpl.
  - split; [discriminate|]. intros [r [H _]]. destruct u; discriminate.
  - destruct (Z.eqb_spec c 93).
    + subst. split.
      * intro H. inversion H; subst. exists l. auto.
      * intros [r [H1 H2]]. destruct u as [|x u]; simpl in *; [reflexivity|].
        inversion H1; subst. exfalso. apply H2. now left.
    + split.
      * intro H. apply option_map_some in H as [x [H1 H2]]. subst u. apply IH in H1 as [r [-> H3]].
        exists r. split; auto. simpl. intros [|]; [congruence|tauto].
      * intros [r [H1 H2]]. destruct u as [|x u]; simpl in *; inversion H1; subst; [congruence|].
        assert (G: before_bracket (u ++ 93 :: r) = Some u) by (apply IH; exists r; split; auto).
        rewrite G. reflexivity.
Qed.

Lemma parse_unit_spec c u :
  parse_unit c = Some u <-> exists rest, c = Some (91 :: u ++ 93 :: rest) /\ ~ In 93 u.
Proof.
  unfold parse_unit. destruct c as [[|x c]|].
  - split; [discriminate|]. intros [r [H _]]; discriminate.
  - destruct (Z.eqb_spec x 91).
    + subst. rewrite before_bracket_spec. split; intros [r [H1 H2]]; exists r.
      * subst; auto.
      * inversion H1; auto.
    + split; [discriminate|]. intros [r [H1 _]]. inversion H1; congruence.
  - split; [discriminate|]. intros [r [H _]]; discriminate.
Qed.

(** ** Characters of parsed values *)

Lemma parse_value_string_text f s c : parse_value f = Ok (VString s c) -> Forall text_char s.
Proof.
  unfold parse_value, split_value_and_comment. intro H.
  destruct (split_loop _ _ _ _) as [[raw cm]|e|] eqn:E; cbn [bind] in H; try discriminate.
  assert (T: Forall text_char (trim raw)).
  { apply Forall_trim_by. eapply split_loop_chars; eauto. }
  assert (G: forall w c', (let! s := parse_string w in Ok (VString s c')) = Ok (VString s c) ->
      Forall text_char w -> Forall text_char s).
  { intros w c' G Hw. unfold parse_string in G.
    assert (L: forall v, Forall text_char v ->
       (let! s := match v with [] => Ok [] | _ => match trim_end v with [] => Ok [32] | t => Ok t end end in
        Ok (VString s c')) = Ok (VString s c) -> Forall text_char s).
    { intros v Hv Q. destruct v as [|x v]; [cbn [bind] in Q; inversion Q; auto|].
      pose proof (Forall_trim_end_by _ is_unicode_ws _ Hv) as Hv'.
      fold (trim_end (x :: v)) in Hv'.
      destruct (trim_end (x :: v)) as [|y t]; cbn [bind] in Q; inversion Q; subst; auto.
      constructor; auto. left. unfold printable. lia. }
    destruct (starts_with QUOTE w), (ends_with QUOTE w); cbn [bind] in G; try discriminate.
    - destruct w as [|a [|b w]]; try discriminate. cbn [strip_quotes bind] in G.
      apply (L (removelast (b :: w))); auto.
      inversion Hw as [|? ? _ Hw']. rewrite Forall_forall in *. intros y Hy.
      apply Hw'. rewrite (app_removelast_last 0) by discriminate. apply in_or_app. now left.
    - eapply L; eauto. }
  destruct cm as [cm|]; cbn [bind] in H.
  all: destruct (trim raw) as [|ch w]; [discriminate|];
    (destruct (ch =? QUOTE); [eapply G; eauto|]);
    destruct (ch =? 84); [discriminate|]; destruct (ch =? 70); [discriminate|];
    destruct (ch =? 40); [discriminate|];
    (destruct (_ || _); [|discriminate]);
    unfold parse_number in H;
    destruct (parse_i64 _); [discriminate|]; destruct (parse_f64 _); [discriminate|];
    destruct (parse_f64 (replace_D _)); discriminate.
Qed.

Lemma record_undefined_spec buf t :
  octets buf ->
  (parse_card buf = Ok (CUndefined t) <->
   t = utf8_lossy buf /\
   (exists kw, keyword_text buf kw /\ kw <> [] /\ ~ special_keyword kw) /\
   firstn 2 (skipn 8 buf) <> [61; 32]).
Proof.
  intro Hb. rewrite record_undefined.
  split; intros [H1 [[kw [H2 H3]] H4]]; (split; [auto|]; split; [|auto]); exists kw;
    (split; [now apply kw_of_text|auto]).
Qed.

Lemma record_value_spec buf n v :
  octets buf -> parse_card buf = Ok (CValue n v) ->
  keyword_text buf n /\ n <> [] /\ ~ special_keyword n /\ firstn 2 (skipn 8 buf) = [61; 32].
Proof.
  intros Hb H. apply record_value_kind in H as [H1 [H2 [H3 H4]]].
  apply kw_of_text in H4; auto.
Qed.

Lemma record_bad_keyword buf :
  octets buf -> (forall kw, ~ keyword_text buf kw) -> parse_card buf = Err EUtf8.
Proof.
  intros Hb H. rewrite parse_card_kind.
  destruct (kw_of buf) as [kw|] eqn:E; auto. apply kw_of_text in E; auto.
  exfalso. eapply H; eauto.
Qed.

(** Proofs about files written by the standard: from the records to the keyword table. *)

From Verif Require Import Base Utf8 Text Card Reader Header Xtension Fits.
From Verif Require Import SpecUtf8 SpecCard SpecHeader SpecXt SpecFits SpecImage SpecWrite.
From Verif Require Import TextLemmas CardProofs CardProofs2 CardProps HeaderProofs HeaderProofs2 HeaderProps.
From Verif Require Import FitsProofs FitsProofs2 FitsProofs3 FitsProofs4 XtProofs.
From Coq Require Import ZifyBool.

(** ** One record *)

Definition value_said (v : said) (c : option str) : value :=
  match v with SaysInt n => VInteger n c | SaysText s => VString s c | SaysLogical b => VLogical b c end.

Lemma written_card kw v r : ordinary_keyword kw -> written kw v r ->
  exists c, parse_card r = Ok (CValue kw (value_said v c)).
Proof.
  intros K W. destruct W as [lead s ds trail c D N R P _|lead t trail c D P _|lead b trail c P _].
  - exists (option_map rtrim c). rewrite integer_roundtrip by auto. cbn [value_said].
    replace ((- 2 ^ 63 <=? apply_sign s (dec_value ds)) && (apply_sign s (dec_value ds) <=? 2 ^ 63 - 1)) with true by lia.
    reflexivity.
  - exists (option_map rtrim c). rewrite string_value_roundtrip_proof by auto. reflexivity.
  - exists (option_map rtrim c).
    pose proof (logical_value kw lead b [] trail c K) as L. cbn [value_said].
    rewrite L; auto. split; [exists (if b then 84 else 70), []|exists [], (if b then 84 else 70)]; split; auto; destruct b; lia.
Qed.

Lemma written_length kw v r : (length kw <= 8)%nat -> written kw v r -> length r = 80%nat.
Proof.
  intros K W. destruct W; unfold value_record; rewrite !app_length, !padded_length by auto; reflexivity.
Qed.

Ltac prn := repeat (apply Forall_cons; [unfold printable; lia|]); apply Forall_nil.

Lemma printable_octet l : Forall printable l -> octets l.
Proof. apply Forall_impl. unfold printable. lia. Qed.

Lemma blanks_printable n : Forall printable (blanks n).
Proof. unfold blanks. apply Forall_forall. intros c H. apply repeat_spec in H. subst. unfold printable. lia. Qed.

Lemma padded_printable n l : Forall printable l -> Forall printable (padded n l).
Proof. intro H. apply Forall_app. split; auto. apply blanks_printable. Qed.

Lemma value_field_printable lead body trail c :
  Forall printable body -> opt_printable c -> Forall printable (value_field lead body trail c).
Proof.
  intros B C. unfold value_field. repeat (apply Forall_app; split); auto using blanks_printable.
  destruct c; auto. constructor; auto. unfold printable; lia.
Qed.

Lemma digit_chars_printable ds : Forall digit ds -> Forall printable (digit_chars ds).
Proof. intro H. apply Forall_map. eapply Forall_impl; [|exact H]. unfold digit, printable. simpl. lia. Qed.

Lemma escape_printable t : Forall printable t -> Forall printable (escape_quotes t).
Proof.
  induction 1 as [|c t H _ IH]; cbn [escape_quotes]; [constructor|].
  destruct (c =? 39); repeat (apply Forall_cons; [first [exact H | unfold printable; lia]|]); exact IH.
Qed.

Lemma written_printable kw v r : Forall graphic kw -> written kw v r -> Forall printable r.
Proof.
  intros K W.
  assert (KP : Forall printable kw) by (eapply Forall_impl; [|exact K]; unfold graphic, printable; simpl; lia).
  assert (G : forall f, Forall printable f -> Forall printable (value_record kw f)).
  { intros f F. unfold value_record. apply Forall_app. split; [now apply padded_printable|].
    apply Forall_app. split; [prn|now apply padded_printable]. }
  destruct W as [lead s ds trail c D N R P _|lead t trail c D P _|lead b trail c P _];
    apply G, value_field_printable; auto.
  - unfold int_literal. apply Forall_app. split; [|now apply digit_chars_printable].
    destruct s; prn.
  - unfold fits_string. constructor; [unfold printable; lia|]. apply Forall_app. split; [now apply escape_printable|].
    prn.
  - destruct b; prn.
Qed.

Lemma parsed_header_record r c : octets r -> length r = 80%nat -> parse_card r = Ok c -> c <> CEnd -> header_record r.
Proof.
  intros O L P N. destruct (record_cases r O L) as [H|[H|H]]; auto; exfalso.
  - destruct H as (_ & H). apply record_end in H. congruence.
  - apply parse_card_panic_iff in H; congruence.
Qed.

Lemma written_record kw v r : ordinary_keyword kw -> written kw v r ->
  header_record r /\ octets r /\ exists c, reads_as r (CValue kw (value_said v c)).
Proof.
  intros K W. destruct (written_card kw v r K W) as (c & P). destruct K as (L & G & _).
  assert (O : octets r) by (apply printable_octet; eapply written_printable; eauto).
  split; [|split; auto; exists c; now left].
  eapply parsed_header_record; eauto; [eapply written_length; eauto; lia|discriminate].
Qed.

(** ** Records that leave keywords alone *)

Lemma tokens_one_cur p l : forall cur t, cur <> [] -> tokens p cur l = [t] ->
  exists u w, l = u ++ w /\ t = rev cur ++ u /\ Forall (fun c => p c = false) u /\ Forall (fun c => p c = true) w.
Proof.
  induction l as [|c l IH]; intros cur t N E; cbn [tokens] in E.
  - destruct cur; [congruence|]. injection E as <-. exists [], []. repeat split; rewrite ?app_nil_r; auto.
  - destruct (p c) eqn:P.
    + destruct cur as [|x cur]; [congruence|]. injection E as <- E. apply tokens_nil in E as (_ & E).
      exists [], (c :: l). repeat split; rewrite ?app_nil_r; auto.
    + destruct (IH (c :: cur) t ltac:(discriminate) E) as (u & w & -> & -> & U & W).
      exists (c :: u), w. cbn [rev]. rewrite <- app_assoc. repeat split; auto.
Qed.

Lemma tokens_one p l : forall t, tokens p [] l = [t] ->
  exists w1 w2, l = w1 ++ t ++ w2 /\ Forall (fun c => p c = true) w1 /\ Forall (fun c => p c = true) w2 /\
    Forall (fun c => p c = false) t /\ t <> [].
Proof.
  induction l as [|c l IH]; intros t E; cbn [tokens] in E; [discriminate|].
  destruct (p c) eqn:P.
  - destruct (IH t E) as (w1 & w2 & -> & W1 & W2 & T & N). exists (c :: w1), w2. auto.
  - destruct (tokens_one_cur p l [c] t ltac:(discriminate) E) as (u & w & -> & -> & U & W).
    exists [], w. cbn [rev app]. repeat split; auto. discriminate.
Qed.

Lemma join_dots_one l n : join_dots l = n -> l <> [] -> ~ In 46 n -> l = [n].
Proof.
  intros E N D. destruct l as [|a [|b l]]; [congruence|cbn [join_dots] in E; congruence|].
  exfalso. apply D. rewrite <- E. cbn [join_dots]. apply in_or_app. right. now left.
Qed.

Lemma lossy_exact a : forall l, utf8_lossy l = a -> Forall (fun c => c < 128) a -> l = a.
Proof.
  induction a as [|y a IH]; intros l H F.
  - destruct l as [|x l]; auto. exfalso. cbn [utf8_lossy] in H.
    repeat match goal with H : context [match ?x with _ => _ end] |- _ => destruct x end; discriminate.
  - inversion F; subst. destruct l as [|x l]; [discriminate|].
    apply lossy_head in H as (-> & H); auto. f_equal. auto.
Qed.

Lemma utf8_encode_ascii l : Forall is_ascii l -> utf8_encode l = l.
Proof.
  induction 1 as [|c l H _ IH]; [reflexivity|]. unfold utf8_encode in *. cbn [flat_map]. rewrite IH.
  unfold is_ascii in H. unfold utf8_char. replace (c <=? 127) with true by lia. reflexivity.
Qed.

Definition simple_name (n : str) : Prop := Forall graphic n /\ ~ In 46 n.

Lemma graphic_ascii n : Forall graphic n -> Forall is_ascii n.
Proof. apply Forall_impl. unfold graphic, is_ascii. lia. Qed.

Lemma defines_redefines r c n v : octets r -> simple_name n -> reads_as r c -> defines c = Some (n, v) -> redefines r n.
Proof.
  intros O (G & D) R E. destruct R as [R|(_ & ->)]; [|discriminate].
  assert (A : Forall is_ascii n) by now apply graphic_ascii.
  destruct c as [n' v'| |x cm| | |n' v'| | |]; try discriminate; cbn [defines] in E.
  - injection E as -> ->. apply record_value_spec in R as ((K & _) & _); auto.
    left. now rewrite utf8_encode_ascii in K.
  - left. apply record_xtension_kind in R. destruct x; injection E as <- _; exact R.
  - injection E as -> ->. right. pose proof (record_hierarch_kind _ _ _ R) as K. split; auto.
    pose proof K as K'. apply kw_of_iff in K'; [|reflexivity]. rewrite parse_card_kind, K' in R.
    cbn in R. unfold parse_hierarch in R.
    destruct (split_eq (skipn 9 r)) as [[before after]|] eqn:S; [|discriminate].
    apply split_eq_spec in S as (S & _). exists before, after. split; auto.
    destruct (map utf8_lossy (tokens is_ascii_ws [] before)) as [|t0 toks] eqn:T; [discriminate|].
    destruct (parse_value after) as [pv| |]; try discriminate. cbn [bind] in R. injection R as J _.
    change (join_dots (t0 :: toks) = n) in J. apply join_dots_one in J; [|discriminate|exact D]. rewrite J in T.
    destruct (tokens is_ascii_ws [] before) as [|b1 [|b2 bs]] eqn:TK; try discriminate.
    injection T as T. apply lossy_exact in T; [|eapply Forall_impl; [|exact A]; unfold is_ascii; simpl; lia]. subst b1.
    apply tokens_one in TK as (w1 & w2 & -> & W1 & W2 & F & N).
    exists w1, w2. split; auto.
    split; [eapply Forall_impl; [|exact W1]; intros; now apply is_ascii_ws_white|].
    split; [eapply Forall_impl; [|exact W2]; intros; now apply is_ascii_ws_white|].
    right. rewrite Forall_forall in F.
    assert (NW : forall c, In c n -> ~ white c).
    { intros c I W. apply is_ascii_ws_white in W. rewrite (F c I) in W. discriminate. }
    split.
    + destruct n as [|c n]; [congruence|]. exists c, n. split; auto. apply NW. now left.
    + destruct (exists_last N) as (t' & c & ->). exists t', c. split; auto. apply NW. apply in_or_app. right. now left.
Qed.

(** ** Whole headers *)

Definition says (vs : vmap) (kw : str) (v : said) : Prop := exists c, get vs kw = Some (value_said v c).

Lemma completed_said v c post : whole v -> completed (value_said v c) post = value_said v c.
Proof.
  intro W. destruct v; cbn [value_said]; try (apply completed_closed; reflexivity). now apply completed_plain.
Qed.

Lemma header_of_cards ns es rs :
  Forall simple_name ns -> Forall (fun e => ordinary_keyword (fst e)) es -> header_of ns es rs ->
  exists cards, Forall2 reads_as rs cards /\ Forall (fun c => c <> CEnd) cards /\ Forall header_record rs /\
    Forall octets rs /\
    (forall n c v, In n ns -> ~ In n (map fst es) -> In c cards -> defines c <> Some (n, v)) /\
    (NoDup (map fst es) -> incl (map fst es) ns -> forall kw v, In (kw, v) es ->
       exists pre c post, cards = pre ++ CValue kw (value_said v c) :: post /\
         forall c' v', In c' post -> defines c' <> Some (kw, v')).
Proof.
  intros SN OK H. induction H as [|kw v es r rs W H IH|es r rs (HR & O & NR) H IH].
  - exists []. repeat split; auto; intros; contradiction.
  - inversion OK as [|? ? K OK']; subst. cbn [fst] in K.
    destruct IH as (cards & F & NE & HRs & Os & NoDef & Def); auto.
    destruct (written_record kw v r K W) as (HR & O & c & R).
    exists (CValue kw (value_said v c) :: cards).
    split; [constructor; auto|]. split; [constructor; auto; discriminate|].
    split; [constructor; auto|]. split; [constructor; auto|]. split.
    + intros n c' v' I NI [<-|I']; cbn [map fst] in NI.
      * cbn [defines]. intro E. injection E as -> _. apply NI. now left.
      * apply NoDef; auto. intro. apply NI. now right.
    + cbn [map fst]. intros ND IN kw' v' [E|I].
      * injection E as <- <-. exists [], c, cards. split; auto.
        intros c' v' I'. inversion ND; subst. apply NoDef; auto. apply IN. now left.
      * inversion ND; subst. destruct (Def H3 (fun x Hx => IN x (or_intror Hx)) kw' v' I) as (pre & c0 & post & -> & P).
        exists (CValue kw (value_said v c) :: pre), c0, post. auto.
  - destruct IH as (cards & F & NE & HRs & Os & NoDef & Def); auto.
    destruct (header_record_reads r O HR) as (c & R & N & _).
    exists (c :: cards). split; [constructor; auto|]. split; [constructor; auto|].
    split; [constructor; auto|]. split; [constructor; auto|]. split.
    + intros n c' v' I NI [<-|I'].
      * intro E. apply (NR n I). rewrite Forall_forall in SN. eapply defines_redefines; eauto.
      * now apply NoDef.
    + intros ND IN kw' v' I. destruct (Def ND IN kw' v' I) as (pre & c0 & post & -> & P).
      exists (c :: pre), c0, post. auto.
Qed.

Lemma header_says ns es rs c0 : c0 <> CEnd ->
  Forall simple_name ns -> Forall (fun e => ordinary_keyword (fst e)) es -> Forall (fun e => whole (snd e)) es ->
  NoDup (map fst es) -> incl (map fst es) ns -> header_of ns es rs ->
  exists cards vs, Forall2 reads_as rs cards /\ Forall header_record rs /\ Forall octets rs /\
    (forall m, process_cards m (c0 :: cards ++ [CEnd]) = Ok vs) /\
    (forall kw v, In (kw, v) es -> says vs kw v) /\
    (forall n, In n ns -> ~ In n (map fst es) -> (forall v, defines c0 <> Some (n, v)) -> get vs n = None).
Proof.
  intros N0 SN OK WH ND IN H.
  destruct (header_of_cards ns es rs SN OK H) as (cards & F & NE & HR & O & NoDef & Def).
  destruct (process_cards_spec (c0 :: cards)) as (vs & P & _); [constructor; auto|].
  exists cards, vs. split; auto. split; auto. split; auto. split; [exact P|].
  destruct (table_spec Wrapping _ _ (P Wrapping)) as (_ & TN & TL). split.
  - intros kw v I. destruct (Def ND IN kw v I) as (pre & c & post & E & L).
    exists c. rewrite (TL (c0 :: pre) (CValue kw (value_said v c)) post kw (value_said v c)); auto.
    + f_equal. apply completed_said. rewrite Forall_forall in WH. exact (WH _ I).
    + rewrite E. reflexivity.
  - intros n I NI D. apply TN. intros c v [<-|I']; auto.
Qed.

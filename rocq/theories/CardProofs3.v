(** Proofs about header values with any text: characters outside of the FITS set. *)

From Verif Require Import Base Utf8 Text Card SpecUtf8 SpecCard SpecText TextLemmas Utf8Proofs CardProofs.

Lemma kept_char_repl c : kept_char c = repl_char c.
Proof. reflexivity. Qed.

Definition in_table (c : Z) : Prop := printable c \/ c = 65533.
Lemma kept_char_in_table c : in_table (kept_char c).
Proof. unfold in_table, kept_char, printable. destruct ((32 <=? c) && (c <=? 126)) eqn:E; lia. Qed.
Lemma in_table_ws c : in_table c -> is_unicode_ws c = true <-> c = 32.
Proof. unfold in_table, printable, is_unicode_ws. lia. Qed.
Lemma kept_char_blank c : kept_char c = 32 <-> c = 32.
Proof. unfold kept_char. destruct ((32 <=? c) && (c <=? 126)) eqn:E; lia. Qed.

Lemma encode_app a b : utf8_encode (a ++ b) = utf8_encode a ++ utf8_encode b.
Proof. apply flat_map_app. Qed.
Lemma encode_ascii l : Forall (fun c => c <= 127) l -> utf8_encode l = l.
Proof. induction 1; auto. cbn [utf8_encode flat_map]. unfold utf8_char at 1. replace (x <=? 127) with true by lia. cbn [app]. f_equal. exact IHForall. Qed.
Lemma encode_blanks n : utf8_encode (blanks n) = blanks n.
Proof. apply encode_ascii. unfold blanks. apply Forall_forall. intros x H. apply repeat_spec in H. lia. Qed.

(** The last byte of a character that is not white is not white. *)
Lemma last_byte c : scalar c -> ~ white c -> exists t b, utf8_char c = t ++ [b] /\ is_ascii_ws b = false.
Proof.
  intros S W. unfold utf8_char. destruct (c <=? 127) eqn:E.
  - exists [], c. split; auto. rewrite <- is_ascii_ws_white in W. destruct (is_ascii_ws c); congruence.
  - assert (B : forall x, 0 <= x -> is_ascii_ws (128 + x mod 64) = false).
    { intros x H. pose proof (Z.mod_pos_bound x 64). unfold is_ascii_ws. lia. }
    assert (0 <= c) by (unfold scalar in S; lia).
    destruct (c <=? 2047); [|destruct (c <=? 65535)].
    + exists [192 + c / 64], (128 + c mod 64). auto.
    + exists [224 + c / 4096; 128 + (c / 64) mod 64], (128 + c mod 64). auto.
    + exists [240 + c / 262144; 128 + (c / 4096) mod 64; 128 + (c / 64) mod 64], (128 + c mod 64). auto.
Qed.

Lemma first_byte c : scalar c -> ~ white c -> exists b t, utf8_char c = b :: t /\ is_ascii_ws b = false.
Proof.
  intros S W. unfold utf8_char. assert (0 <= c) by (unfold scalar in S; lia). destruct (c <=? 127) eqn:E.
  - exists c, []. split; auto. rewrite <- is_ascii_ws_white in W. destruct (is_ascii_ws c); congruence.
  - assert (B : forall x y, 0 <= x -> 192 <= y -> is_ascii_ws (y + x) = false) by (intros; unfold is_ascii_ws; lia).
    destruct (c <=? 2047); [|destruct (c <=? 65535)]; eexists _, _; (split; [reflexivity|apply B; [apply Z.div_pos; lia|lia]]).
Qed.

Lemma split_loop_text s : forall acc rest,
  split_loop true false acc (escape_quotes s ++ rest) = split_loop true false (rev (map kept_char s) ++ acc) rest.
Proof.
  induction s as [|c s IH]; intros acc rest; [reflexivity|]. cbn [escape_quotes map rev]. rewrite <- app_assoc. cbn [app].
  destruct (Z.eqb_spec c 39) as [->|Q].
  - cbn [app split_loop]. unfold QUOTE. rewrite !Z.eqb_refl. rewrite IH. reflexivity.
  - cbn [app split_loop]. unfold QUOTE, SLASH. replace (c =? 39) with false by lia.
    destruct (Z.eqb_spec c 47) as [->|L]; [rewrite IH; reflexivity|].
    rewrite kept_char_repl. unfold repl_char. destruct (is_fits_char c); rewrite IH; reflexivity.
Qed.

Lemma trim_end_text l : Forall in_table l -> trim_end l = rtrim l.
Proof.
  intro H. unfold trim_end. apply (trim_end_by_iff _ (fun c => is_unicode_ws c = true)); [reflexivity|].
  destruct (rtrim_spec l) as (w & E & F & T). exists w. split; auto. split; [eapply Forall_impl; [|exact F]; intros a ->; reflexivity|].
  destruct T as [T|(t & c & T & N)]; [now left|right]. exists t, c. split; auto. rewrite in_table_ws; auto.
  rewrite E, T in H. apply Forall_app in H as [H _]. apply Forall_app in H as [_ H]. now inversion H.
Qed.

Lemma rtrim_id l : (l = [] \/ exists t c, l = t ++ [c] /\ c <> 32) -> rtrim l = l.
Proof. intros [->|(t & c & -> & N)]; auto. now apply rtrim_last. Qed.

Lemma escape_scalar s : Forall scalar s -> Forall scalar (escape_quotes s).
Proof. induction 1; cbn [escape_quotes]; auto. destruct (x =? 39); repeat apply Forall_cons; auto; unfold scalar; lia. Qed.
Lemma blanks_scalar n : Forall scalar (blanks n).
Proof. unfold blanks. apply Forall_forall. intros x H. apply repeat_spec in H. unfold scalar. lia. Qed.

Definition tail (trail : nat) (comment : option (list Z)) : list Z :=
  match comment with None => [] | Some c => blanks trail ++ 47 :: c end.

Lemma trimmed_text n lead s trail comment kept :
  Forall scalar s -> match comment with Some c => Forall scalar c | None => True end ->
  match comment, kept with Some c, Some k => stripped_right white c k | None, None => True | _, _ => False end ->
  trim_ascii (padded n (utf8_encode (value_field lead (fits_string s) trail comment)))
  = utf8_encode (fits_string s ++ tail trail kept).
Proof.
  intros HS HC HK. unfold trim_ascii, padded, value_field. rewrite trim_by_blank_r by apply blanks_ws.
  rewrite encode_app, encode_blanks. rewrite trim_by_blank_l by apply blanks_ws.
  assert (B0 : forall x, exists t, utf8_encode (fits_string s ++ x) = 39 :: t).
  { intro x. exists (utf8_encode ((escape_quotes s ++ [39]) ++ x)). reflexivity. }
  destruct comment as [c|], kept as [k|]; try tauto; cbn [tail].
  - destruct HK as (w & -> & W & T).
    replace (fits_string s ++ blanks trail ++ 47 :: k ++ w) with ((fits_string s ++ blanks trail ++ 47 :: k) ++ w).
    2:{ rewrite <- !app_assoc. reflexivity. }
    rewrite encode_app. rewrite (encode_ascii w).
    2:{ eapply Forall_impl; [|exact W]. intros a. unfold white. lia. }
    rewrite trim_by_blank_r.
    2:{ eapply Forall_impl; [|exact W]. intros a. apply is_ascii_ws_white. }
    destruct (B0 (blanks trail ++ 47 :: k)) as (t0 & E0).
    destruct T as [->|(k' & d & -> & ND)].
    + eapply trim_by_id with (c1 := 39) (c2 := 47) (t2 := utf8_encode (fits_string s ++ blanks trail)); eauto.
      rewrite app_assoc, encode_app. reflexivity.
    + apply Forall_app in HC as [HC _]. apply Forall_app in HC as [_ HC].
      destruct (last_byte d) as (t & b & EB & WB); [now inversion HC|auto|].
      eapply trim_by_id with (c1 := 39) (c2 := b) (t2 := utf8_encode (fits_string s ++ blanks trail ++ 47 :: k') ++ t); eauto.
      replace (fits_string s ++ blanks trail ++ 47 :: k' ++ [d]) with ((fits_string s ++ blanks trail ++ 47 :: k') ++ [d]) by (rewrite <- !app_assoc; reflexivity).
      rewrite encode_app. cbn [utf8_encode flat_map]. rewrite app_nil_r, EB. apply app_assoc.
  - rewrite !app_nil_r. rewrite encode_app, encode_blanks, trim_by_blank_r by apply blanks_ws.
    destruct (B0 []) as (t0 & E0). rewrite app_nil_r in E0.
    eapply trim_by_id with (c1 := 39) (c2 := 39) (t2 := utf8_encode (39 :: escape_quotes s)); eauto.
    unfold fits_string. rewrite app_comm_cons, encode_app. reflexivity.
Qed.

Lemma parse_string_text s : parse_string (39 :: map kept_char s ++ [39]) = Ok (canonical_string (map kept_char s)).
Proof.
  unfold parse_string.
  assert (E1: starts_with QUOTE (39 :: map kept_char s ++ [39]) = true) by reflexivity.
  assert (E2: ends_with QUOTE (39 :: map kept_char s ++ [39]) = true).
  { unfold ends_with. cbn [rev]. rewrite rev_app_distr. reflexivity. }
  rewrite E1, E2, strip_quotes_ok. cbn [bind]. unfold canonical_string.
  destruct s as [|c s]; auto. cbn [map]. rewrite trim_end_text.
  - destruct (rtrim (kept_char c :: map kept_char s)); auto.
  - change (Forall in_table (map kept_char (c :: s))). apply Forall_map, Forall_forall. intros; apply kept_char_in_table.
Qed.

Lemma any_text kw lead s trail comment kept :
  ordinary_keyword kw -> Forall scalar s ->
  match comment, kept with
  | Some c, Some k => Forall scalar c /\ stripped_right white c k
  | None, None => True
  | _, _ => False
  end ->
  parse_card (value_record kw (utf8_encode (value_field lead (fits_string s) trail comment)))
  = Ok (CValue kw (VString (canonical_string (map kept_char s)) (option_map (map kept_char) kept))).
Proof.
  intros K HS HK. rewrite parse_card_value_record by auto. unfold parse_value, split_value_and_comment.
  rewrite (trimmed_text 70 lead s trail comment kept HS) by (destruct comment, kept; tauto).
  rewrite utf8_lossy_encode.
  2:{ apply Forall_app. split.
      - unfold fits_string. constructor; [unfold scalar; lia|]. apply Forall_app. split; [now apply escape_scalar|].
        constructor; auto. unfold scalar. lia.
      - destruct comment, kept; try tauto; cbn [tail]; auto. apply Forall_app. split; [apply blanks_scalar|].
        constructor; [unfold scalar; lia|]. destruct HK as (HC & w & -> & _). apply Forall_app in HC. tauto. }
  unfold fits_string. rewrite <- app_comm_cons. cbn [split_loop]. unfold QUOTE at 1. rewrite Z.eqb_refl.
  rewrite <- app_assoc, split_loop_text. cbn [app split_loop]. unfold QUOTE at 1. rewrite Z.eqb_refl.
  assert (T : forall n, trim (39 :: map kept_char s ++ 39 :: blanks n) = 39 :: map kept_char s ++ [39]).
  { intro n. unfold trim. replace (39 :: map kept_char s ++ 39 :: blanks n) with ((39 :: map kept_char s ++ [39]) ++ blanks n).
    2:{ cbn [app]. rewrite <- app_assoc. reflexivity. }
    rewrite trim_by_blank_r by apply blanks_uws.
    eapply trim_by_id with (c1 := 39) (c2 := 39) (t2 := 39 :: map kept_char s); reflexivity. }
  destruct comment as [c|], kept as [k|]; try tauto; cbn [tail option_map].
  - rewrite (split_loop_tail true true _ trail (Some k)) by auto. cbn [bind].
    cbn [rev]. rewrite rev_app_distr, rev_involutive. cbn [rev app]. unfold QUOTE.
    rewrite <- app_assoc. cbn [app]. rewrite T. rewrite Z.eqb_refl, parse_string_text. cbn [bind].
    do 4 f_equal. change (map repl_char k) with (map kept_char k). rewrite trim_end_text.
    + apply rtrim_id. destruct HK as (_ & w & _ & _ & [->|(t & d & -> & N)]); [now left|right].
      exists (map kept_char t), (kept_char d). rewrite map_app. split; auto. rewrite kept_char_blank. unfold white in N. tauto.
    + apply Forall_map, Forall_forall. intros; apply kept_char_in_table.
  - cbn [split_loop bind]. cbn [rev]. rewrite rev_app_distr, rev_involutive. cbn [rev app]. unfold QUOTE.
    pose proof (T 0%nat) as T0. change (39 :: blanks 0) with [39] in T0. rewrite T0.
    rewrite Z.eqb_refl, parse_string_text. reflexivity.
Qed.

(** Outside of quotes such a character makes the record unreadable. *)
Lemma foreign_text kw lead body c rest :
  ordinary_keyword kw -> Forall plain body -> scalar c -> ~ printable c -> ~ white c -> Forall scalar rest ->
  parse_card (value_record kw (utf8_encode (blanks lead ++ body ++ c :: rest))) = Err EStatic.
Proof.
  intros K HB S P W R. rewrite parse_card_value_record by auto. unfold parse_value, split_value_and_comment.
  destruct (trim_end_by_spec is_ascii_ws rest) as (w & ER & FW & TR). set (r' := trim_end_by is_ascii_ws rest) in *. clearbody r'.
  destruct (drop_while_spec is_ascii_ws (blanks lead ++ body)) as (w1 & EB & FW1).
  set (b' := drop_while is_ascii_ws (blanks lead ++ body)) in *.
  assert (PB : Forall plain (blanks lead ++ body)) by (apply Forall_app; split; [apply blanks_plain|auto]).
  assert (PB' : Forall plain b') by (rewrite EB in PB; apply Forall_app in PB; tauto).
  assert (E : trim_ascii (padded 70 (utf8_encode (blanks lead ++ body ++ c :: rest))) = utf8_encode (b' ++ c :: r')).
  { unfold trim_ascii, padded. rewrite trim_by_blank_r by apply blanks_ws.
    replace (blanks lead ++ body ++ c :: rest) with (w1 ++ (b' ++ c :: r') ++ w).
    2:{ rewrite (app_assoc (blanks lead)), EB, ER. rewrite <- !app_assoc. reflexivity. }
    rewrite !encode_app. rewrite (encode_ascii w1), (encode_ascii w).
    2:{ eapply Forall_impl; [|exact FW]. intros a A. apply is_ascii_ws_white in A. unfold white in A. lia. }
    2:{ eapply Forall_impl; [|exact FW1]. intros a A. apply is_ascii_ws_white in A. unfold white in A. lia. }
    rewrite trim_by_blank_l by auto. rewrite trim_by_blank_r by auto.
    assert (L : exists t b, utf8_encode (b' ++ c :: r') = t ++ [b] /\ is_ascii_ws b = false).
    { destruct TR as [RR|(t' & d & RR & ND)]; rewrite RR.
      - destruct (last_byte c S W) as (t & b & EC & WB). exists (utf8_encode b' ++ t), b. split; auto.
        rewrite encode_app. cbn [utf8_encode flat_map]. now rewrite app_nil_r, EC, app_assoc.
      - assert (SD : scalar d). { rewrite ER, RR in R. apply Forall_app in R as [R _]. apply Forall_app in R as [_ R]. now inversion R. }
        destruct (last_byte d SD) as (t & b & EC & WB).
        { rewrite <- is_ascii_ws_white. congruence. }
        exists (utf8_encode (b' ++ c :: t') ++ t), b. split; auto.
        rewrite app_comm_cons, app_assoc, encode_app. cbn [utf8_encode flat_map]. now rewrite app_nil_r, EC, app_assoc. }
    assert (F : exists b t, utf8_encode (b' ++ c :: r') = b :: t /\ is_ascii_ws b = false).
    { pose proof (drop_while_head is_ascii_ws (blanks lead ++ body)) as H. fold b' in H. destruct b' as [|x b''].
      - destruct (first_byte c S W) as (b & t & EC & WB). exists b, (t ++ utf8_encode r'). split; auto.
        cbn [app utf8_encode flat_map]. now rewrite EC.
      - exists x, (utf8_encode (b'' ++ c :: r')). split; auto. cbn [app utf8_encode flat_map]. unfold utf8_char at 1.
        replace (x <=? 127) with true; [reflexivity|]. inversion PB'; subst. unfold plain, printable in *. lia. }
    destruct L as (t2 & c2 & E2 & W2), F as (c1 & t1 & E1 & W1). rewrite <- encode_app.
    eapply trim_by_id; eauto. }
  rewrite E, utf8_lossy_encode.
  2:{ apply Forall_app. split; [eapply Forall_impl; [|exact PB']; unfold plain, printable, scalar; lia|].
      constructor; auto. rewrite ER in R. apply Forall_app in R. tauto. }
  rewrite split_loop_plain by auto. cbn [split_loop]. unfold QUOTE, SLASH.
  unfold printable in P. replace (c =? 39) with false by lia. replace (c =? 47) with false by lia.
  unfold is_fits_char. replace ((32 <=? c) && (c <=? 126)) with false by lia. reflexivity.
Qed.

(** Comments of unquoted values. *)
Lemma any_comment n lead body trail comment kept :
  compact body -> Forall plain body -> Forall scalar comment -> stripped_right white comment kept ->
  split_value_and_comment (padded n (utf8_encode (value_field lead body trail (Some comment)))) = Ok (body, Some (map kept_char kept)).
Proof.
  intros CB PB HC (w & -> & W & T). unfold split_value_and_comment.
  assert (PP : Forall printable body) by (eapply Forall_impl; [|exact PB]; unfold plain; tauto).
  assert (AB : utf8_encode body = body) by (apply encode_ascii; eapply Forall_impl; [|exact PP]; unfold printable; lia).
  apply Forall_app in HC as [HK _].
  assert (E : trim_ascii (padded n (utf8_encode (value_field lead body trail (Some (kept ++ w)))))
              = utf8_encode (body ++ blanks trail ++ 47 :: kept)).
  { unfold trim_ascii, padded, value_field. rewrite trim_by_blank_r by apply blanks_ws.
    rewrite encode_app, encode_blanks. rewrite trim_by_blank_l by apply blanks_ws.
    replace (body ++ blanks trail ++ 47 :: kept ++ w) with ((body ++ blanks trail ++ 47 :: kept) ++ w) by (rewrite <- !app_assoc; reflexivity).
    rewrite encode_app. rewrite (encode_ascii w).
    2:{ eapply Forall_impl; [|exact W]. intros a. unfold white. lia. }
    rewrite trim_by_blank_r.
    2:{ eapply Forall_impl; [|exact W]. intros a. apply is_ascii_ws_white. }
    destruct CB as ((c1 & t1 & E1 & N1) & _).
    assert (W1 : is_ascii_ws c1 = false).
    { rewrite E1 in PP. inversion PP; subst. unfold printable in *. unfold is_ascii_ws. lia. }
    assert (F : utf8_encode (body ++ blanks trail ++ 47 :: kept) = c1 :: t1 ++ utf8_encode (blanks trail ++ 47 :: kept)).
    { rewrite encode_app, AB, E1. reflexivity. }
    destruct T as [->|(k' & d & -> & ND)].
    - eapply trim_by_id with (c2 := 47) (t2 := utf8_encode (body ++ blanks trail)); [exact F| |exact W1|reflexivity].
      rewrite app_assoc, encode_app. reflexivity.
    - apply Forall_app in HK as [_ HK]. destruct (last_byte d) as (t & b & EB & WB); [now inversion HK|auto|].
      eapply trim_by_id with (c2 := b) (t2 := utf8_encode (body ++ blanks trail ++ 47 :: k') ++ t); [exact F| |exact W1|exact WB].
      replace (body ++ blanks trail ++ 47 :: k' ++ [d]) with ((body ++ blanks trail ++ 47 :: k') ++ [d]) by (rewrite <- !app_assoc; reflexivity).
      rewrite encode_app. cbn [utf8_encode flat_map]. rewrite app_nil_r, EB. apply app_assoc. }
  rewrite E, utf8_lossy_encode.
  2:{ apply Forall_app. split; [eapply Forall_impl; [|exact PP]; unfold printable, scalar; lia|].
      apply Forall_app. split; [apply blanks_scalar|]. constructor; auto. unfold scalar; lia. }
  rewrite split_loop_plain by auto. rewrite (split_loop_tail false false _ trail (Some kept)) by auto. cbn [bind].
  rewrite app_nil_r, rev_involutive, trim_compact by auto. do 3 f_equal.
  change (map repl_char kept) with (map kept_char kept). rewrite trim_end_text.
  - apply rtrim_id. destruct T as [->|(t & d & -> & N)]; [now left|right].
    exists (map kept_char t), (kept_char d). rewrite map_app. split; auto. rewrite kept_char_blank. unfold white in N. tauto.
  - apply Forall_map, Forall_forall. intros; apply kept_char_in_table.
Qed.

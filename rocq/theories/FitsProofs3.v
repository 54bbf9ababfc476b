(** Proofs about opening records, final states and alignment. *)

From Verif Require Import Base Utf8 Text Card Reader Header Xtension Fits.
From Verif Require Import SpecUtf8 SpecCard SpecHeader SpecXt SpecFits.
From Verif Require Import TextLemmas CardProofs CardProofs2 CardProps HeaderProofs HeaderProps FitsProofs FitsProofs2.
From Coq Require Import ZifyBool.

(** ** XTENSION records *)

Lemma lossy_head x t y r :
  utf8_lossy (x :: t) = y :: r -> y < 128 -> x = y /\ utf8_lossy t = r.
Proof.
  intros H Y. cbn [utf8_lossy] in H.
  destruct (x <? 128) eqn:E0; [inversion H; auto|].
  exfalso.
  destruct ((194 <=? x) && (x <=? 223)) eqn:E1.
  { destruct t as [|b1 t]; [unfold REPL in H; inversion H; lia|].
    destruct (is_cont b1) eqn:C; inversion H; unfold REPL, dec2, is_cont in *; lia. }
  destruct ((224 <=? x) && (x <=? 239)) eqn:E2.
  { destruct t as [|b1 t]; [inversion H; unfold REPL in *; lia|].
    destruct (second3 x b1) eqn:C; [|inversion H; unfold REPL in *; lia].
    destruct t as [|b2 t]; [inversion H; unfold REPL in *; lia|].
    destruct (is_cont b2) eqn:C2; inversion H; unfold second3, REPL, dec3, is_cont in *; lia. }
  destruct ((240 <=? x) && (x <=? 244)) eqn:E3.
  { destruct t as [|b1 t]; [inversion H; unfold REPL in *; lia|].
    destruct (second4 x b1) eqn:C; [|inversion H; unfold REPL in *; lia].
    destruct t as [|b2 t]; [inversion H; unfold REPL in *; lia|].
    destruct (is_cont b2) eqn:C2; [|inversion H; unfold REPL in *; lia].
    destruct t as [|b3 t]; [inversion H; unfold REPL in *; lia|].
    destruct (is_cont b3) eqn:C3; inversion H; unfold second4, REPL, dec4, is_cont in *; lia. }
  inversion H; unfold REPL in *; lia.
Qed.

Lemma lossy_prefix a : forall l r,
  utf8_lossy l = a ++ r -> Forall (fun c => c < 128) a -> exists l', l = a ++ l'.
Proof.
  induction a as [|y a IH]; intros l r H F; [exists l; reflexivity|].
  inversion F; subst. destruct l as [|x l]; [discriminate|].
  cbn [app] in H. apply lossy_head in H as (-> & H); auto.
  destruct (IH _ _ H) as (l' & ->); auto. exists l'. reflexivity.
Qed.

(** The text in a quoted string up to the next quote is copied. *)
Lemma split_loop_inner u : forall acc r raw c,
  ~ In 39 u -> split_loop true false acc (u ++ 39 :: r) = Ok (raw, c) ->
  exists s, raw = rev acc ++ map repl_char u ++ 39 :: s.
Proof.
  induction u as [|x u IH]; intros acc r raw c N H; cbn [app split_loop] in H.
  - change (39 =? QUOTE) with true in H. cbn iota in H.
    apply split_loop_prefix in H as (s & ->). exists s. simpl. rewrite <- app_assoc. reflexivity.
  - destruct (Z.eqb_spec x QUOTE) as [->|Nq]; [exfalso; apply N; simpl; auto|].
    assert (N': ~ In 39 u) by (intro I; apply N; simpl; auto).
    assert (G: split_loop true false (repl_char x :: acc) (u ++ 39 :: r) = Ok (raw, c) ->
               exists s, raw = rev acc ++ map repl_char (x :: u) ++ 39 :: s).
    { intro G. destruct (IH _ _ _ _ N' G) as (s & ->). exists s. simpl. rewrite <- app_assoc. reflexivity. }
    destruct (Z.eqb_spec x SLASH) as [->|Ns].
    + apply G. exact H.
    + destruct (is_fits_char x) eqn:Fc; unfold repl_char in G; rewrite Fc in G; auto.
Qed.

Lemma split_loop_open u : forall acc raw c,
  ~ In 39 u -> split_loop true false acc u = Ok (raw, c) -> raw = rev acc ++ map repl_char u.
Proof.
  induction u as [|x u IH]; intros acc raw c N H; cbn [split_loop] in H.
  - inversion H. simpl. now rewrite app_nil_r.
  - destruct (Z.eqb_spec x QUOTE) as [->|Nq]; [exfalso; apply N; simpl; auto|].
    assert (N': ~ In 39 u) by (intro I; apply N; simpl; auto).
    assert (G: split_loop true false (repl_char x :: acc) u = Ok (raw, c) ->
               raw = rev acc ++ map repl_char (x :: u)).
    { intro G. apply IH in G; auto. rewrite G. simpl. rewrite <- app_assoc. reflexivity. }
    destruct (Z.eqb_spec x SLASH) as [->|Ns].
    + apply G. exact H.
    + destruct (is_fits_char x) eqn:Fc; unfold repl_char in G; rewrite Fc in G; auto.
Qed.

Lemma split_quote l : (exists u r, l = u ++ 39 :: r /\ ~ In 39 u) \/ ~ In 39 l.
Proof.
  induction l as [|x l IH]; [right; auto|].
  destruct (Z.eq_dec x 39) as [->|N]; [left; exists [], l; auto|].
  destruct IH as [(u & r & -> & I)|I].
  - left. exists (x :: u), r. split; auto. simpl. intros [?|?]; auto.
  - right. simpl. intros [?|?]; auto.
Qed.

(** A value text that starts with a quote comes from a field that does. *)
Lemma split_head f v c t :
  split_value_and_comment f = Ok (v, c) -> v = 39 :: t ->
  exists raw tx, utf8_lossy (trim_ascii f) = 39 :: tx /\
    (exists cm, split_loop true false [39] tx = Ok (raw, cm)) /\ v = trim raw.
Proof.
  unfold split_value_and_comment. intros H V.
  destruct (split_loop false false [] (utf8_lossy (trim_ascii f))) as [[raw cm]|e|] eqn:E; cbn [bind] in H; try discriminate.
  assert (T: v = trim raw) by (destruct cm; inversion H; auto). clear H.
  destruct (trim_ascii f) as [|y l] eqn:TF.
  { simpl in E. inversion E; subst raw. rewrite T in V. discriminate. }
  destruct (utf8_lossy (y :: l)) as [|x tx] eqn:L.
  { cbn [split_loop] in E. inversion E; subst raw. rewrite T in V. discriminate. }
  cbn [split_loop] in E.
  destruct (Z.eqb_spec x QUOTE) as [->|Nq].
  { exists raw, tx. split; auto. split; eauto. }
  exfalso.
  destruct (x =? SLASH); [inversion E; subst raw; rewrite T in V; discriminate|].
  destruct (is_fits_char x) eqn:Fc; [|discriminate].
  apply split_loop_prefix in E as (s & ->). simpl in T.
  assert (X: x <> 32).
  { intro X. subst x. unfold is_fits_char in Fc.
    apply lossy_head in L as (-> & _); [|lia].
    apply trim_ascii_iff in TF as (w1 & w2 & _ & _ & _ & [TF|((c0 & t0 & E0 & NW) & _)]); [discriminate|].
    inversion E0; subst. apply NW. unfold white. auto. }
  assert (U: is_unicode_ws x = false) by (unfold is_fits_char in Fc; unfold is_unicode_ws; lia).
  unfold trim, trim_by, trim_start_by in T. cbn [drop_while] in T. rewrite U in T.
  unfold trim_end_by in T. simpl in T.
  destruct (trim_end_by_spec is_unicode_ws (x :: s)) as (w & Ew & Fw & _).
  unfold trim_end_by in Ew. simpl in Ew. rewrite <- T, V in Ew. inversion Ew. unfold QUOTE in Nq. lia.
Qed.

Lemma trim_quote_head raw s :
  raw = 39 :: s -> exists s' w, trim raw = 39 :: s' /\ s = s' ++ w /\ Forall (fun c => is_unicode_ws c = true) w.
Proof.
  intros ->. unfold trim, trim_by, trim_start_by. cbn [drop_while].
  change (is_unicode_ws 39) with false. cbn iota.
  destruct (trim_end_by_spec is_unicode_ws (39 :: s)) as (w & E & F & C).
  destruct (trim_end_by is_unicode_ws (39 :: s)) as [|x s'].
  - exfalso. simpl in E. destruct w as [|y w]; [discriminate|]. inversion E; subst.
    inversion F; discriminate.
  - inversion E; subst. eauto.
Qed.

Lemma xtype_from_str_iff s x : xtype_from_str s = Ok x -> xtension_name x s.
Proof.
  unfold xtype_from_str. intro H.
  destruct (str_eqb s (chars "IMAGE")) eqn:E1.
  { cbn [orb] in H. inversion H; subst. apply str_eqb_eq in E1. left; auto. }
  destruct (str_eqb s (chars "IUEIMAGE")) eqn:E2; cbn [orb] in H.
  { inversion H; subst. apply str_eqb_eq in E2. right; auto. }
  destruct (str_eqb s (chars "TABLE")) eqn:E3.
  { inversion H; subst. apply str_eqb_eq in E3. exact E3. }
  destruct (str_eqb s (chars "BINTABLE")) eqn:E4; [|discriminate].
  inversion H; subst. apply str_eqb_eq in E4. exact E4.
Qed.

Lemma xtension_name_graphic x name : xtension_name x name -> Forall (fun c => graphic c /\ c <> 39) name.
Proof.
  unfold graphic. destruct x; simpl; intros H; [destruct H as [->| ->]|subst|subst];
    vm_compute chars; repeat constructor; try lia; discriminate.
Qed.

Lemma repl_inv c x : repl_char c = x -> 32 <= x <= 126 -> c = x.
Proof. unfold repl_char, REPL, is_fits_char. destruct ((32 <=? c) && (c <=? 126)) eqn:E; lia. Qed.

Lemma map_repl_inv u : forall l, map repl_char u = l -> Forall printable l -> u = l.
Proof.
  induction u as [|c u IH]; intros l H F; destruct l as [|x l]; try discriminate; auto.
  inversion H; inversion F; subst. f_equal; [|apply IH; auto].
  eapply repl_inv; eauto.
Qed.

Lemma white_map_blanks w : forall u, map repl_char u = w -> Forall (fun c => is_ascii_ws c = true) w -> w = blanks (length w).
Proof.
  unfold blanks. induction w as [|x w IH]; intros u E F; auto.
  destruct u as [|c u]; [discriminate|]. inversion E; inversion F; subst. simpl. f_equal.
  - unfold repl_char, REPL, is_fits_char, is_ascii_ws in *.
    destruct ((32 <=? c) && (c <=? 126)) eqn:Q; lia.
  - eapply IH; eauto.
Qed.

Lemma map_app_inv {A B} (f : A -> B) u a b : map f u = a ++ b -> exists u1 u2, u = u1 ++ u2 /\ map f u1 = a /\ map f u2 = b.
Proof. intro H. apply map_eq_app in H. firstorder. Qed.

Lemma xtension_only b x c :
  parse_card b = Ok (CXtension x c) ->
  has_keyword b (chars "XTENSION") /\
  exists w i j name rest, skipn 10 b = w ++ 39 :: blanks i ++ name ++ blanks j ++ 39 :: rest /\
    Forall white w /\ xtension_name x name.
Proof.
  intro H. pose proof (record_xtension_kind _ _ _ H) as K. split; auto.
  assert (P: parse_extension b = Ok (CXtension x c)).
  { rewrite parse_card_kind in H. apply kw_of_iff in K; [|reflexivity]. rewrite K in H. exact H. }
  unfold parse_extension in P.
  destruct (split_value_and_comment (skipn 10 b)) as [[v cm]|e|] eqn:S; cbn [bind] in P; try discriminate.
  destruct (starts_with QUOTE v) eqn:SW; [|discriminate].
  destruct (ends_with QUOTE v) eqn:EW; [|discriminate]. cbn [andb] in P.
  destruct (strip_quotes v) as [inner|e|] eqn:SQ; cbn [bind] in P; try discriminate.
  destruct (xtype_from_str (trim_ascii inner)) as [x'|e|] eqn:XS; cbn [bind] in P; try discriminate.
  inversion P; subst x' cm. clear P.
  destruct v as [|q v']; [discriminate|]. simpl in SW. apply Z.eqb_eq in SW. unfold QUOTE in SW. subst q.
  destruct (split_head _ _ _ _ S eq_refl) as (raw & tx & L & (cm & SL) & T).
  apply xtype_from_str_iff in XS. remember (trim_ascii inner) as name eqn:Nm. symmetry in Nm.
  pose proof (xtension_name_graphic _ _ XS) as G.
  assert (NQ: ~ In 39 inner).
  { intro I. apply trim_ascii_iff in Nm as (w1 & w2 & E & F1 & F2 & _). rewrite E in I.
    apply in_app_or in I as [I|I]; [|apply in_app_or in I as [I|I]].
    - rewrite Forall_forall in F1. apply F1 in I. unfold white in I. lia.
    - rewrite Forall_forall in G. apply G in I. tauto.
    - rewrite Forall_forall in F2. apply F2 in I. unfold white in I. lia. }
  assert (IN: exists w1 w2, inner = w1 ++ name ++ w2 /\ Forall (fun c => is_ascii_ws c = true) w1 /\ Forall (fun c => is_ascii_ws c = true) w2).
  { destruct (trim_by_spec is_ascii_ws inner) as (w1 & w2 & E & F1 & F2 & _).
    unfold trim_ascii in Nm. rewrite Nm in E. eauto. }
  assert (LV: v' <> []) by (intro; subst; discriminate).
  destruct v' as [|y v'']; [congruence|]. assert (RI: removelast (y :: v'') = inner) by (injection SQ; auto). clear SQ LV.
  remember (y :: v'') as vv eqn:Evv.
  assert (VV: vv = inner ++ [39]).
  { destruct (@exists_last _ vv) as (l0 & z & El); [subst; discriminate|].
    rewrite El, removelast_last in RI. subst inner. rewrite El. f_equal. f_equal.
    unfold ends_with in EW. rewrite El in EW.
    change (39 :: l0 ++ [z]) with ((39 :: l0) ++ [z]) in EW. rewrite rev_app_distr in EW. simpl in EW.
    unfold QUOTE in EW. lia. }
  assert (TX: exists r, tx = inner ++ 39 :: r).
  { destruct (split_quote tx) as [(u & r & E & I)|I].
    - subst tx. destruct (split_loop_inner _ _ _ _ _ I SL) as (s & ->).
      destruct (trim_quote_head (rev [39] ++ map repl_char u ++ 39 :: s) (map repl_char u ++ 39 :: s) eq_refl)
        as (s' & w & T1 & T2 & T3).
      rewrite T1 in T. inversion T as [T4]. rewrite VV in T4. subst s'.
      (* the first quote after the opening one is the closing one *)
      assert (U39: ~ In 39 (map repl_char u)).
      { intro J. apply in_map_iff in J as (z & Z1 & Z2). apply repl_inv in Z1; [|lia]. subst z. auto. }
      assert (MU: map repl_char u = inner).
      { clear -T2 NQ U39. revert T2 NQ U39. generalize (map repl_char u) as a. intro a.
        revert inner. induction a as [|c a IH]; intros [|d inner] E N1 N2; cbn [app] in E; auto.
        - inversion E; subst. exfalso; apply N1; simpl; auto.
        - inversion E; subst. exfalso; apply N2; simpl; auto.
        - inversion E; subst. f_equal. apply IH; auto; simpl in *; tauto. }
      exists r. f_equal.
      destruct IN as (w1 & w2 & E & F1 & F2). rewrite E in MU.
      apply map_app_inv in MU as (u1 & u23 & -> & M1 & M23).
      apply map_app_inv in M23 as (u2 & u3 & -> & M2 & M3).
      rewrite E. pose proof (white_map_blanks _ _ M1 F1) as B1. pose proof (white_map_blanks _ _ M3 F2) as B2.
      rewrite (map_repl_inv u1 _ M1) by (rewrite B1; apply blanks_printable).
      rewrite (map_repl_inv u3 _ M3) by (rewrite B2; apply blanks_printable).
      rewrite (map_repl_inv u2 _ M2); auto.
      eapply Forall_impl; [|exact G]. unfold graphic, printable. lia.
    - exfalso. apply (split_loop_open _ _ _ _ I) in SL.
      destruct (trim_quote_head raw (map repl_char tx)) as (s' & w & T1 & T2 & T3); [exact SL|].
      rewrite T1 in T. inversion T as [T4]. rewrite VV in T4. subst s'.
      assert (J: In 39 (map repl_char tx)) by (rewrite T2, !in_app_iff; simpl; auto).
      apply in_map_iff in J as (z & Z1 & Z2). apply repl_inv in Z1; [|lia]. subst z. auto. }
  destruct TX as (r & ->).
  destruct IN as (w1 & w2 & E & F1 & F2).
  assert (TC: Forall text_char inner).
  { assert (C: Forall text_char raw) by (eapply (split_loop_chars true false [39]); [exact SL|repeat constructor; unfold text_char, printable; lia]).
    assert (C2: Forall text_char (39 :: inner ++ [39])).
    { rewrite <- VV, T. apply Forall_trim_by. exact C. }
    inversion C2 as [|? ? _ C3]; subst. apply Forall_app in C3. tauto. }
  assert (W: forall w, Forall text_char w -> Forall (fun c => is_ascii_ws c = true) w -> w = blanks (length w)).
  { intros w W1 W2. apply Forall_32_blanks. rewrite Forall_forall in *. intros z Iz.
    specialize (W1 z Iz). specialize (W2 z Iz). unfold text_char, printable, REPL, is_ascii_ws in *. lia. }
  rewrite E in TC. apply Forall_app in TC as (TC1 & TC). apply Forall_app in TC as (_ & TC2).
  pose proof (W _ TC1 F1) as B1. pose proof (W _ TC2 F2) as B2.
  rewrite E, B1, B2 in L.
  replace (39 :: (blanks (length w1) ++ name ++ blanks (length w2)) ++ 39 :: r)
    with ((39 :: blanks (length w1) ++ name ++ blanks (length w2) ++ [39]) ++ r) in L
    by (simpl; rewrite <- !app_assoc; reflexivity).
  apply lossy_prefix in L as (l' & L).
  - pose proof L as L'. apply (proj1 (trim_ascii_iff _ _)) in L' as (u1 & u2 & E2 & Fu1 & Fu2 & _).
    exists u1, (length w1), (length w2), name, (l' ++ u2). split; auto.
    rewrite E2. simpl. rewrite <- !app_assoc. reflexivity.
  - assert (PB: forall n, Forall (fun c => c < 128) (blanks n)) by (intro n; eapply Forall_impl; [|apply (blanks_printable n)]; unfold printable; lia).
    constructor; [lia|]. rewrite !Forall_app. repeat split; auto; try apply PB; [|repeat constructor].
    eapply Forall_impl; [|exact G]. unfold graphic. lia.
Qed.

Lemma opening_record_of r k c : octets r -> reads_as r c -> opens k c -> opening_record k r.
Proof.
  intros O R Op. destruct R as [P|((e & _) & ->)].
  2: { destruct k; destruct Op as (cm & E); discriminate. }
  assert (X: forall x cm, c = CXtension x cm -> has_keyword r (chars "XTENSION") /\
     exists w i j name rest, skipn 10 r = w ++ 39 :: blanks i ++ name ++ blanks j ++ 39 :: rest /\
       Forall white w /\ xtension_name x name).
  { intros x cm ->. eapply xtension_only; eauto. }
  destruct k; destruct Op as (cm & ->); try (eapply X; reflexivity).
  destruct (record_value_spec _ _ _ O P) as (K & _ & _ & I). split; auto. split; auto.
  exact (logical_only _ _ _ _ P).
Qed.

(** ** Moving to the next header, whatever the declared size *)

Ltac Zify.zify_post_hook ::= Z.div_mod_to_equations.

Lemma u64_result_ok m z y : u64_result m z = Ok y -> y mod 2 ^ 64 = z mod 2 ^ 64 /\ 0 <= y < 2 ^ 64 /\ (m = Checked -> y = z).
Proof.
  unfold u64_result. destruct ((0 <=? z) && (z <? 2 ^ 64)) eqn:D; intro H.
  - inversion H; subst. repeat split; auto; lia.
  - destruct m; inversion H; subst. rewrite Z.mod_mod by lia.
    repeat split; auto; try (apply Z.mod_pos_bound; lia). discriminate.
Qed.

Lemma u64_result_wrapping z : exists y, u64_result Wrapping z = Ok y.
Proof. unfold u64_result. destruct (_ && _); eauto. Qed.

Lemma size_range m x n : xt_num_bytes m x = Ok n -> 0 <= n < 2 ^ 64.
Proof.
  destruct x as [i|t|t]; simpl.
  - unfold image_num_bytes. destruct (num_pixels m i); simpl; try discriminate. intro H. now apply u64_result_ok in H.
  - intro H. now apply u64_result_ok in H.
  - unfold bintable_num_bytes. destruct (u64_result m _); simpl; try discriminate. intro H. now apply u64_result_ok in H.
Qed.

Definition skip_of (m : mode) (o n p : Z) : res Z :=
  let! consumed := u64_result m (p - o) in
  let! skip := u64_result m (n - consumed) in
  if n mod 2880 =? 0 then Ok skip else u64_result m (skip + (2880 - n mod 2880)).

Lemma skip_ok m o n p s :
  skip_of m o n p = Ok s ->
  s mod 2 ^ 64 = (o + in_blocks n - p) mod 2 ^ 64 /\ 0 <= s < 2 ^ 64 /\
  (m = Checked -> o <= p <= o + n /\ s = o + in_blocks n - p).
Proof.
  unfold skip_of. intro H. pose proof (in_blocks_pad n) as E.
  destruct (u64_result m (p - o)) as [a| |] eqn:A; cbn [bind] in H; try discriminate.
  destruct (u64_result m (n - a)) as [b| |] eqn:B; cbn [bind] in H; try discriminate.
  apply u64_result_ok in A as (A1 & A2 & A3). apply u64_result_ok in B as (B1 & B2 & B3).
  assert (B4: b mod 2 ^ 64 = (n - (p - o)) mod 2 ^ 64)
    by (rewrite B1, <- (Zminus_mod_idemp_r n a), A1, Zminus_mod_idemp_r; reflexivity).
  destruct (n mod 2880 =? 0).
  - inversion H; subst s. split; [rewrite B4; f_equal; lia|]. split; auto. intro M. specialize (A3 M). specialize (B3 M). lia.
  - apply u64_result_ok in H as (C1 & C2 & C3).
    split; [rewrite C1, <- Zplus_mod_idemp_l, B4, Zplus_mod_idemp_l; f_equal; lia|]. split; auto.
    intro M. specialize (A3 M). specialize (B3 M). specialize (C3 M). lia.
Qed.

Lemma skip_wrapping o n p : exists s, skip_of Wrapping o n p = Ok s.
Proof.
  unfold skip_of. destruct (u64_result_wrapping (p - o)) as (a & ->). cbn [bind].
  destruct (u64_result_wrapping (n - a)) as (b & ->). cbn [bind].
  destruct (n mod 2880 =? 0); eauto. apply u64_result_wrapping.
Qed.

Lemma skip_checked o n p :
  0 <= o <= p -> p <= o + n -> p < 2 ^ 63 -> o + in_blocks n - p < 2 ^ 64 ->
  skip_of Checked o n p = Ok (o + in_blocks n - p).
Proof.
  intros H1 H2 H3 H4. unfold skip_of. pose proof (in_blocks_pad n) as E. pose proof (in_blocks_range n).
  rewrite u64_result_small by lia. cbn [bind]. rewrite u64_result_small by lia. cbn [bind].
  destruct (n mod 2880 =? 0); [f_equal; lia|]. rewrite u64_result_small by lia. f_equal. lia.
Qed.

Lemma consume_skip m f p :
  consume_until_next_hdu m (moved f p)
  = match skip_of m (f_pos_du f) (f_num_du f) p with
    | Ok s => seek_relative (mk_reader (rd_data (f_reader f)) p) (as_i64 s)
    | Err e => (Err e, mk_reader (rd_data (f_reader f)) p)
    | Panic => (Panic, mk_reader (rd_data (f_reader f)) p)
    end.
Proof. reflexivity. Qed.

Lemma consume_again m f p p2 r :
  0 <= p -> p <= p2 < 2 ^ 63 -> 0 <= f_pos_du f ->
  (m = Checked -> p2 <= f_pos_du f + f_num_du f) ->
  consume_until_next_hdu m (moved f p) = (Ok tt, r) ->
  consume_until_next_hdu m (moved f p2) = (Ok tt, r).
Proof.
  intros H1 H2 H0 HC. rewrite !consume_skip.
  set (o := f_pos_du f) in *. set (n := f_num_du f) in *. clearbody o n.
  destruct (skip_of m o n p) as [s| |] eqn:S; try discriminate.
  pose proof (skip_ok _ _ _ _ _ S) as (S1 & S2 & S3). unfold seek_relative at 1. cbn [rd_pos rd_data].
  destruct ((0 <=? p + as_i64 s) && (p + as_i64 s <? 2 ^ 64)) eqn:R; [|discriminate].
  intro H. inversion H; subst r. clear H.
  assert (G: exists s2, skip_of m o n p2 = Ok s2).
  { destruct m; [|apply skip_wrapping]. specialize (HC eq_refl). specialize (S3 eq_refl).
    eexists. apply skip_checked; lia. }
  destruct G as (s2 & G). rewrite G. pose proof (skip_ok _ _ _ _ _ G) as (G1 & G2 & G3).
  assert (Q: p2 + as_i64 s2 = p + as_i64 s) by (unfold as_i64 in *; destruct (s <? 2 ^ 63) eqn:Z1, (s2 <? 2 ^ 63) eqn:Z2; lia).
  unfold seek_relative. cbn [rd_pos rd_data]. rewrite Q, R. reflexivity.
Qed.

Lemma consume_pos m f p r :
  consume_until_next_hdu m (moved f p) = (Ok tt, r) -> exists q, r = mk_reader (rd_data (f_reader f)) q /\ 0 <= q.
Proof.
  rewrite consume_skip. destruct (skip_of m _ _ p); try discriminate.
  unfold seek_relative. cbn [rd_pos rd_data]. destruct (_ && _) eqn:R; [|discriminate].
  intro H; inversion H; subst. eexists. split; [reflexivity|]. lia.
Qed.

Lemma moved_same f : moved f (rd_pos (f_reader f)) = f.
Proof. destruct f as [a b c d r]; destruct r; reflexivity. Qed.

(** ** The end of the file *)

Lemma hdu_new_count m kind k r n cards x n' r' :
  hdu_new m kind k r n cards = (x, n', r') -> n <= n'.
Proof.
  unfold hdu_new. destruct (let! vs := process_cards m cards in _) as [(vs, xt)| |]; intro H; try (inversion H; lia).
  destruct (n mod 2880 =? 0) eqn:E; [inversion H; lia|].
  destruct (read_exact r (2880 - n mod 2880)) as (y, r2). destruct y; inversion H; lia.
Qed.

Lemma eof_here m d q primary :
  octets d -> 0 <= q -> len d < q + 80 ->
  new_hdu m primary (mk_reader d q) = (Err EEof, 0, mk_reader d (len d)).
Proof.
  intros O Q L.
  assert (C: consume_cards (mk_reader d q) 0 = (Err EEof, 0, mk_reader d (len d))).
  { etransitivity; [apply (consume_cards_eof d q 0 [] (skipn (Z.to_nat q) d)); auto|reflexivity].
    rewrite skipn_length. unfold len in L. lia. }
  unfold new_hdu, new_primary, new_xtension. rewrite C. destruct primary; reflexivity.
Qed.

Lemma eof_only m d q n r' :
  octets d -> 0 <= q -> new_xtension m (mk_reader d q) = (Err EEof, n, r') -> n <= 0 ->
  len d < q + 80 /\ r' = mk_reader d (len d).
Proof.
  intros O Q H N.
  assert (Os: octets (skipn (Z.to_nat q) d)) by (apply octets_skipn; auto).
  destruct (stream_cases _ Os) as (recs & tail & E & F & [L|(r & rest & -> & C)]).
  - pose proof (consume_cards_eof d q 0 recs tail O Q E F L) as C. unfold new_xtension in H. rewrite C in H.
    inversion H; subst. pose proof (len_nonneg recs). assert (len recs = 0) by lia.
    destruct recs; [|rewrite len_cons in *; pose proof (len_nonneg recs); lia].
    split; auto. simpl in E. assert (X: length (skipn (Z.to_nat q) d) = length tail) by (rewrite E; auto).
    rewrite skipn_length in X. unfold len. lia.
  - exfalso. unfold new_xtension in H. pose proof (len_nonneg recs). destruct C as [C|(C1 & C2)].
    + destruct (consume_cards_ok d q 0 recs r rest O Q E F C) as (cards & _ & _ & CC). rewrite CC in H.
      destruct (cards ++ [CEnd]) as [|c cs]; [inversion H|].
      destruct c as [| |x ?| | | | | |]; try (inversion H; lia).
      destruct x; apply hdu_new_count in H; lia.
    + rewrite (consume_cards_panic d q 0 recs r rest O Q E F C1 C2) in H. inversion H.
Qed.

(** ** Finality *)

Lemma error_final m f e f' :
  next m f = (IErr e, f') -> forall l f2, yields m f' l f2 -> Forall (fun i => i = INone) l.
Proof.
  intro H.
  assert (E: f_error f' = true).
  { unfold next in H. destruct (f_error f); [discriminate|].
    destruct (if f_start f then _ else _) as (n, r). destruct n; try (inversion H; subst; reflexivity).
    destruct (hdu_size m h); inversion H. }
  clear H. intros l f2 Y. induction Y as [f0|f0 p f1 L N|f0 p i f1 l f2 L N NP Y IH].
  - constructor.
  - unfold next in N. cbn [moved f_error] in N. rewrite E in N. discriminate.
  - unfold next in N. cbn [moved f_error] in N. rewrite E in N. inversion N; subst.
    constructor; auto.
Qed.

Lemma next_none m d f f' :
  octets d -> rd_data (f_reader f) = d -> next m f = (INone, f') -> f_error f = false ->
  f_start f = false /\ f' = moved f (len d) /\
  exists q, consume_until_next_hdu m f = (Ok tt, mk_reader d q) /\ 0 <= q /\ len d < q + 80.
Proof.
  intros O D H E.
  assert (S: f_start f = false).
  { destruct (f_start f) eqn:S; auto. exfalso. rewrite next_start in H by auto. unfold finish in H.
    destruct (new_primary m (f_reader f)) as ((x, n), r). rewrite S in H. cbn [negb andb] in H.
    destruct x as [h|e|]; try discriminate; [destruct (hdu_size m h)|destruct e]; discriminate. }
  split; auto.
  destruct (consume_until_next_hdu m f) as (x, r) eqn:C. destruct x as [[]|e|].
  - rewrite (next_not_start m f r E S C) in H.
    pose proof C as C'. rewrite <- (moved_same f) in C'. apply consume_pos in C' as (q & -> & Q). rewrite D in *.
    unfold finish in H.
    destruct (new_xtension m (mk_reader d q)) as ((x, n), r') eqn:X. rewrite S in H. cbn [negb andb] in H.
    destruct x as [h|e|]; [destruct (hdu_size m h); discriminate| |discriminate].
    destruct e; try discriminate. destruct (Z.eqb_spec n 0) as [->|]; [|discriminate].
    destruct (eof_only m d q 0 r' O Q X) as (L & ->); [lia|].
    inversion H; subst f'. split; [|exists q; auto].
    unfold moved. rewrite S, E, D. reflexivity.
  - exfalso. unfold next in H. rewrite E, S, C in H. discriminate.
  - exfalso. unfold next in H. rewrite E, S, C in H. discriminate.
Qed.

(** What a further call does, when nothing has moved the reader since the end was found. *)
Lemma after_none m d f f' :
  octets d -> rd_data (f_reader f) = d -> 0 <= rd_pos (f_reader f) <= len d -> len d < 2 ^ 63 -> 0 <= f_pos_du f ->
  next m f = (INone, f') -> f_error f = false ->
  (m = Checked -> len d <= f_pos_du f + f_num_du f) -> next m f' = (INone, f').
Proof.
  intros O D P L P0 H E M.
  destruct (next_none m d f f' O D H E) as (S & -> & q & C & Q & Lq).
  rewrite <- (moved_same f) in C.
  pose proof (consume_again m f (rd_pos (f_reader f)) (len d) _ ltac:(lia) ltac:(lia) P0 M C) as C2.
  rewrite (next_not_start m (moved f (len d)) (mk_reader d q)); [|exact E|exact S|exact C2].
  pose proof (eof_here m d q false O Q Lq) as EH. unfold new_hdu in EH.
  rewrite EH. unfold finish. cbn [moved f_start f_pos_du f_num_du f_reader].
  rewrite S. cbn [negb andb]. change (0 =? 0) with true. cbn iota. unfold moved. rewrite S, E, D. reflexivity.
Qed.

Lemma run_none m f : next m f = (INone, f) -> forall n, run m n f = (repeat INone n, f).
Proof. intros H n. induction n as [|n IH]; simpl; auto. rewrite H, IH. reflexivity. Qed.

Lemma end_final_release f f' :
  octets (rd_data (f_reader f)) -> 0 <= rd_pos (f_reader f) <= len (rd_data (f_reader f)) ->
  len (rd_data (f_reader f)) < 2 ^ 63 -> 0 <= f_pos_du f ->
  next Wrapping f = (INone, f') -> forall n, run Wrapping n f' = (repeat INone n, f').
Proof.
  intros O P L P0 H. apply run_none. destruct (f_error f) eqn:E.
  - pose proof H as H'. unfold next in H. rewrite E in H. inversion H; subst. exact H'.
  - eapply (after_none Wrapping _ f f'); eauto. discriminate.
Qed.

Lemma next_consume_panic m g r :
  f_error g = false -> f_start g = false -> consume_until_next_hdu m g = (Panic, r) -> fst (next m g) = IPanic.
Proof. intros E S K. unfold next. rewrite E, S, K. reflexivity. Qed.

Lemma end_checked f f' :
  octets (rd_data (f_reader f)) -> 0 <= rd_pos (f_reader f) <= len (rd_data (f_reader f)) ->
  len (rd_data (f_reader f)) < 2 ^ 63 -> 0 <= f_pos_du f ->
  next Checked f = (INone, f') -> f_error f = false ->
  (len (rd_data (f_reader f)) <= f_pos_du f + f_num_du f ->
     forall n, run Checked n f' = (repeat INone n, f')) /\
  (f_pos_du f + f_num_du f < len (rd_data (f_reader f)) -> fst (next Checked f') = IPanic).
Proof.
  intros O P L P0 H E. split.
  - intro C. apply run_none. eapply (after_none Checked _ f f'); eauto.
  - intro C. destruct (next_none Checked _ f f' O eq_refl H E) as (S & -> & q & CC & Q & Lq).
    assert (K: consume_until_next_hdu Checked (moved f (len (rd_data (f_reader f))))
               = (Panic, mk_reader (rd_data (f_reader f)) (len (rd_data (f_reader f))))).
    { rewrite consume_skip. destruct (skip_of Checked _ _ _) as [s| |] eqn:SK; auto.
      - apply skip_ok in SK as (_ & _ & SK). specialize (SK eq_refl). lia.
      - exfalso. clear -SK. unfold skip_of in SK.
        assert (NE: forall z e, u64_result Checked z <> Err e) by (intros z e'; unfold u64_result; destruct (_ && _); discriminate).
        destruct (u64_result Checked _) eqn:X; cbn [bind] in SK; try discriminate; [|eapply NE; eauto].
        destruct (u64_result Checked (_ - a)) eqn:X2; cbn [bind] in SK; try discriminate; [|eapply NE; eauto].
        destruct (_ =? 0); [discriminate|]. eapply NE; eauto. }
    eapply next_consume_panic; [exact E|exact S|exact K].
Qed.

(** Proofs of C66: ASCII tables written by the standard are read back. *)

From Coq Require Import Permutation.
From Verif Require Import Base Utf8 Text Card Reader Header Xtension Fits Bytes ImageIt.
From Verif Require Import SpecUtf8 SpecCard SpecHeader SpecXt SpecFits SpecImage SpecWrite SpecWriteAscii.
From Verif Require Import HeaderProofs XtProofs XtProofs2 FitsProofs FitsProofs2 FitsProofs4 BytesProofs ImageProofs WriteProofs WriteProofs2 WriteProofs4.
From Coq Require Import ZifyBool.

Lemma acol_names i cols e : In e (acol_entries i cols) -> 0 <= i ->
  exists j c, i <= j < i + len cols /\ In c cols /\
    (e = (indexed (chars "TBCOL") j, SaysInt (ac_start c)) \/ e = (indexed (chars "TFORM") j, SaysText (ac_text c))).
Proof.
  revert i. induction cols as [|c cols IH]; intros i I P; [contradiction|]. cbn [acol_entries] in I. rewrite len_cons.
  pose proof (len_nonneg cols). destruct I as [<-|[<-|I]].
  - exists i, c. split; [lia|]. split; [now left|]. now left.
  - exists i, c. split; [lia|]. split; [now left|]. now right.
  - destruct (IH (i + 1) I ltac:(lia)) as (j & c' & J & IC & E). exists j, c'. split; [lia|]. split; [now right|]. exact E.
Qed.

Lemma tbcol_tform i j : indexed (chars "TBCOL") i <> indexed (chars "TFORM") j.
Proof. unfold indexed. cbn. discriminate. Qed.

Lemma acol_later i cols n : 0 <= i -> In n (map fst (acol_entries (i + 1) cols)) ->
  n <> indexed (chars "TBCOL") i /\ n <> indexed (chars "TFORM") i.
Proof.
  intros P I. apply in_map_iff in I as (e & <- & I).
  apply acol_names in I as (j & c & J & _ & [->| ->]); [| |lia]; cbn [fst]; split.
  - intro E. apply indexed_inj in E; lia.
  - apply tbcol_tform.
  - intro E. symmetry in E. revert E. apply tbcol_tform.
  - intro E. apply indexed_inj in E; lia.
Qed.

Lemma acol_nodup i cols : 0 <= i -> NoDup (map fst (acol_entries i cols)).
Proof.
  revert i. induction cols as [|c cols IH]; intros i P; [constructor|]. cbn [acol_entries map fst]. constructor.
  - intros [E|I]; [symmetry in E; revert E; apply tbcol_tform|now apply acol_later in I].
  - constructor; [intro I; now apply acol_later in I|]. apply IH. lia.
Qed.

Lemma spelled_last f s : atform_spelled f s -> exists t c, s = t ++ [c] /\ 48 <= c <= 57.
Proof.
  assert (U : forall n u, unsigned_text n u -> exists t c, u = t ++ [c] /\ 48 <= c <= 57).
  { intros n u (p & ds & -> & _ & F & NE & _). destruct (exists_last NE) as (ds' & x & ->).
    apply Forall_app in F as (_ & F). inversion F as [|? ? D _]; subst. unfold digit in D.
    exists (p ++ digit_chars ds'), (48 + x). split; [|lia]. unfold digit_chars. rewrite map_app, app_assoc. reflexivity. }
  destruct f; cbn [atform_spelled];
    [intros (u & -> & H)|intros (u & -> & H)|intros (u & v & -> & _ & H)|intros (u & v & -> & _ & H)|intros (u & v & -> & _ & H)];
    apply U in H as (t & c & -> & C).
  - exists (65 :: t), c. split; auto.
  - exists (73 :: t), c. split; auto.
  - exists (70 :: u ++ 46 :: t), c. split; auto. cbn [app]. f_equal. rewrite <- app_assoc. reflexivity.
  - exists (69 :: u ++ 46 :: t), c. split; auto. cbn [app]. f_equal. rewrite <- app_assoc. reflexivity.
  - exists (68 :: u ++ 46 :: t), c. split; auto. cbn [app]. f_equal. rewrite <- app_assoc. reflexivity.
Qed.

Lemma spelled_whole f s : atform_spelled f s -> whole (SaysText s).
Proof. intros H t ->. apply spelled_last in H as (t' & c & E & C). apply app_inj_tail in E as (_ & <-). lia. Qed.

Lemma spelled_stripped f s : atform_spelled f s -> stripped_right (fun c => is_unicode_ws c = true) s s.
Proof.
  intro H. apply spelled_last in H as (t & c & -> & C). exists []. split; [now rewrite app_nil_r|]. split; [constructor|].
  right. exists t, c. split; auto. unfold is_unicode_ws. lia.
Qed.

Lemma ascii_proper n1 n2 cols : len cols <= 999 -> Forall (acol_ok n1) cols -> proper_entries (ascii_entries n1 n2 cols) [].
Proof.
  intros L OK.
  assert (A : forall e, In e (ascii_entries n1 n2 cols) -> (ordinary_keyword (fst e) /\ simple_name (fst e)) /\ whole (snd e)).
  { intros e I. unfold ascii_entries in I. apply in_app_or in I as [I|I].
    - repeat (destruct I as [<-|I]; [split; [apply keywordb_ok; reflexivity|exact Logic.I]|]). contradiction.
    - rewrite Forall_forall in OK.
      apply acol_names in I as (j & c & J & IC & [->| ->]); [| |lia]; cbn [fst snd];
        (split; [apply indexed_keyword; [lia|reflexivity|vm_compute; split; discriminate]|]); [exact Logic.I|].
      destruct (OK c IC) as (W & _). eapply spelled_whole; eauto. }
  split; [|split; [|split]].
  - apply Forall_forall. intros e I. apply (A e I).
  - rewrite app_nil_r. apply Forall_map, Forall_forall. intros e I. apply (A e I).
  - apply Forall_forall. intros e I. apply (A e I).
  - unfold ascii_entries. rewrite map_app. pose proof (acol_nodup 1 cols ltac:(lia)) as ND.
    assert (C : forall n, In n (map fst (acol_entries 1 cols)) -> exists x, n = chars "TBCOL" ++ x \/ n = chars "TFORM" ++ x).
    { intros n I. apply in_map_iff in I as (e & <- & I).
      apply acol_names in I as (j & c & J & _ & [->| ->]); [| |lia]; cbn [fst]; unfold indexed; eauto. }
    cbn [map fst app].
    repeat (constructor; [cbn [In]; intro I; repeat (destruct I as [I|I]; [discriminate|]); apply C in I as (x & [I|I]); discriminate|]).
    exact ND.
Qed.

Lemma acolumns_said vs n1 cols : forall i, (forall kw v, In (kw, v) (acol_entries i cols) -> says vs kw v) -> Forall (acol_ok n1) cols ->
  n1 < 2 ^ 63 -> (forall kw n, In (kw, SaysInt n) (acol_entries i cols) -> - 2 ^ 63 <= n < 2 ^ 63) ->
  columns (fun i a => acolumn vs i (fst a) (snd a)) (length cols) i (map (fun c => (ac_start c, ac_form c)) cols).
Proof.
  induction cols as [|c cols IH]; intros i S OK N R; cbn [length map]; constructor; inversion OK as [|? ? C OK']; subst.
  - cbn [fst snd]. split; [apply says_int, S; now left|]. split; [destruct C as (_ & C & _); pose proof (R _ _ (or_introl eq_refl)); unfold u64; lia|].
    exists (ac_text c), (ac_text c). split; [apply says_text, S; right; now left|]. destruct C as (C & _).
    split; [eapply spelled_stripped; eauto|exact C].
  - apply IH; auto.
    + intros kw v I. apply S. right. now right.
    + intros kw n I. apply (R kw). right. now right.
Qed.

Lemma arows_len n1 cols rows parts : Forall2 (arow_written n1 cols) rows parts -> len (concat parts) = n1 * len rows.
Proof.
  induction 1 as [|r p rows parts (L & _) F IH]; [symmetry; apply Z.mul_0_r|]. cbn [concat]. rewrite len_app, len_cons, IH, L. lia.
Qed.

(** What the header says. *)
Definition listed (t : asciitable) (n1 n2 : Z) (cols : list acol) : Prop :=
  at_naxis1 t = n1 /\ at_naxis2 t = n2 /\ at_tfields t = len cols /\
  at_tbcols t = map ac_start cols /\ at_tforms t = map ac_form cols.

Lemma ascii_well_formed m n1 cols rows s : ascii_written n1 cols rows s ->
  exists vs t, well_formed m HAsciiTable s vs (XtAscii t) /\ listed t n1 (len rows) cols.
Proof.
  intros (es & parts & L & N0 & OK & RW & D & LD & P & U).
  pose proof (arows_len _ _ _ _ RW) as LR. rewrite <- D in LR.
  pose proof (ascii_proper n1 (len rows) cols L OK) as PR. apply (proper_perm _ es) in PR; auto.
  destruct (unit_table _ _ _ _ PR U) as (vs & c & cards & HR & F & OC & PC & S & _).
  assert (S' : forall kw v, In (kw, v) (ascii_entries n1 (len rows) cols) -> says vs kw v).
  { intros kw v I. apply S. eapply Permutation_in; [exact P|]. exact I. }
  assert (IR : forall kw n, In (kw, SaysInt n) (ascii_entries n1 (len rows) cols) -> - 2 ^ 63 <= n < 2 ^ 63).
  { intros kw n I. pose proof U as ((r & rs & _ & _ & H) & _). eapply header_of_int; [exact H|]. eapply Permutation_in; [exact P|]. exact I. }
  assert (IN : forall kw n, In (kw, SaysInt n) (ascii_entries n1 (len rows) cols) -> has_int vs kw n).
  { intros kw n I. apply says_int, S', I. }
  unfold ascii_entries in IR, IN, S'.
  pose proof (len_nonneg rows). pose proof (len_nonneg cols).
  pose proof (IR (chars "NAXIS1") n1 ltac:(right; right; now left)).
  pose proof (IR (chars "NAXIS2") (len rows) ltac:(right; right; right; now left)).
  destruct (asciitable_accepted vs n1 (len rows) (len cols)) as (t & T & T1 & T2 & T3); unfold u64; try lia.
  { apply IN; now left. } { apply IN; right; now left. } { apply IN; right; right; now left. }
  { apply IN; right; right; right; now left. } { apply IN; right; right; right; right; now left. }
  { apply IN; right; right; right; right; right; now left. } { apply IN; right; right; right; right; right; right; now left. }
  exists vs, t. split.
  - destruct U as (_ & E1 & E2 & E3). split; auto. split; auto. split; auto. split; auto. exists c, cards.
    split; auto. split; auto. split; auto. split; [cbn [xt_parse xtype_of]; rewrite T; reflexivity|].
    exists n1, (len rows).
    split; [apply IN; right; right; now left|]. split; [apply IN; right; right; right; now left|]. exact LR.
  - split; auto. split; auto. split; auto.
    destruct (asciitable_parse_ok _ _ T) as (_ & _ & _ & _ & _ & _ & _ & _ & _ & _ & _ & _ & LE & CO).
    assert (CO' : columns (fun i a => acolumn vs i (fst a) (snd a)) (length cols) 1 (map (fun c => (ac_start c, ac_form c)) cols)).
    { apply (acolumns_said vs n1); auto; [| |].
      - intros kw v I. apply S'. apply in_or_app. now right.
      - lia.
      - intros kw n I. apply (IR kw). apply in_or_app. now right. }
    rewrite T3 in CO. replace (Z.to_nat (len cols)) with (length cols) in CO by (unfold len; lia).
    apply atfields_columns in CO, CO'. rewrite <- CO' in CO.
    assert (G : forall (a : list Z) (b : list atform) l, length a = length b -> combine a b = l -> a = map fst l /\ b = map snd l).
    { clear. induction a as [|x a IH]; intros [|y b] l LE E; try discriminate; cbn [combine] in E; subst l; auto.
      cbn [map fst snd]. injection LE as LE. destruct (IH b _ LE eq_refl) as (<- & <-). auto. }
    destruct (G _ _ _ LE CO) as (-> & ->). now rewrite !map_map.
Qed.

Lemma accepted_ascii m n1 cols rows s : ascii_written n1 cols rows s -> accepted m (HAsciiTable, s).
Proof. intro W. destruct (ascii_well_formed m _ _ _ _ W) as (vs & t & H & _). exists vs, (XtAscii t). exact H. Qed.

Lemma slice_in_row (parts : list (list Z)) n1 : Forall (fun p => len p = n1) parts -> 0 <= n1 -> forall i row a w,
  nth_error parts (Z.to_nat i) = Some row -> 0 <= i -> 0 <= a -> a + w <= n1 -> slice (concat parts) (i * n1 + a) w = slice row a w.
Proof.
  intros F N. induction F as [|p parts LP F IH]; intros i row a w E I A W; [destruct (Z.to_nat i); discriminate|].
  destruct (Z.eq_dec i 0) as [->|NZ].
  - cbn [Z.to_nat nth_error] in E. injection E as ->. cbn [concat]. unfold slice. rewrite Z.mul_0_l, Z.add_0_l.
    unfold len in LP. rewrite skipn_app, firstn_app, skipn_length.
    replace (Z.to_nat w - (length row - Z.to_nat a))%nat with 0%nat by lia. cbn [firstn]. apply app_nil_r.
  - replace (Z.to_nat i) with (S (Z.to_nat (i - 1))) in E by lia. cbn [nth_error] in E.
    cbn [concat]. rewrite <- (IH (i - 1) row a w E) by lia. unfold slice. unfold len in LP.
    rewrite skipn_app. replace (Z.to_nat (i * n1 + a)) with (length p + Z.to_nat ((i - 1) * n1 + a))%nat by nia.
    rewrite skipn_all2 by lia. cbn [app]. do 2 f_equal. lia.
Qed.

Lemma ascii_read_back m d pre s post n1 cols rows l f :
  octets d -> file_kinds (pre ++ (HAsciiTable, s) :: post) -> Forall (accepted m) pre -> ascii_written n1 cols rows s ->
  d = file_bytes (pre ++ (HAsciiTable, s) :: post) -> len d < 2 ^ 63 ->
  yields m (opened d) l f -> length l = S (length pre) ->
  exists l' h t tk, l = l' ++ [IOk h] /\ h_kind h = HAsciiTable /\ h_xt h = XtAscii t /\
    at_naxis1 t = n1 /\ at_naxis2 t = len rows /\ at_tfields t = len cols /\
    at_tbcols t = map ac_start cols /\ at_tforms t = map ac_form cols /\
    get_ascii m f t = Ok tk /\
    (forall sizes k, Forall (fun k => 0 <= k) sizes -> 0 < k ->
       let got := concat (fst (ascii_run tk sizes)) in
       let more := fst (buf_read (snd (ascii_run tk sizes)) k) in
       got ++ more = firstn (length (got ++ more)) (s_data s) /\ len more <= k /\ (more = [] <-> got = s_data s)) /\
    forall i cells, 0 <= i -> nth_error rows (Z.to_nat i) = Some cells -> fields_at t (s_data s) i = cells.
Proof.
  intros O K A W D B Y L.
  destruct (nth_hdu m d pre HAsciiTable s post l f) as (l' & h & f1 & EL & RD & RP & N & RF & HO & SL); auto.
  { apply Forall_app. split; auto. constructor; auto. eapply accepted_ascii; eauto. }
  destruct (ascii_well_formed m n1 cols rows s W) as (vs & t & WF & T1 & T2 & T3 & T4 & T5).
  destruct (read_from_xt m HAsciiTable s vs _ _ h WF RF) as (X & _).
  destruct (ascii_bytes m d f1 h f t O RD RP N X) as (n & tk & HS & G & R).
  destruct RF as (HK & _ & _ & _ & HOE & HSZ).
  assert (n = len (s_data s)) as -> by congruence. rewrite SL in R.
  exists l', h, t, tk. do 9 (split; auto). split; auto.
  intros i cells I E. destruct W as (es & parts & _ & N0 & OK & RW & DD & _).
  destruct (Forall2_nth_fwd _ _ _ RW _ _ E) as (row & ER & LR & CE).
  unfold fields_at. rewrite T1, T4, T5, DD.
  assert (FL : Forall (fun p => len p = n1) parts).
  { clear -RW. induction RW as [|a b la lb (H & _) F IH]; constructor; auto. }
  clear -CE OK ER FL N0 I. induction CE as [|c cell cols cells H CE IH]; auto.
  inversion OK as [|? ? (C1 & C2 & C3) OK']; subst. cbn [map combine fst snd]. f_equal; [|now apply IH].
  apply slice_in_row; auto; lia.
Qed.

(** ** The writer *)

Lemma dec_text n : 0 <= n < 2 ^ 31 -> unsigned_text n (dec n) /\ Forall graphic (dec n) /\ len (dec n) <= 10.
Proof.
  intro N. destruct (dec_decimal n ltac:(lia)) as (ds & E & F & NE & V & LZ). rewrite E. split; [|split].
  - exists [], ds. split; [reflexivity|]. split; [now left|]. repeat (split; auto). lia.
  - apply Forall_map. eapply Forall_impl; [|exact F]. unfold digit, graphic. cbn. lia.
  - unfold len, digit_chars. rewrite map_length. apply (digits_length ds 10); auto; lia.
Qed.

Lemma spell_ok f : form_ok f -> atform_spelled f (spell f) /\ Forall graphic (spell f) /\ len (spell f) <= 22.
Proof.
  intros (W & D).
  destruct f as [w|w|w d|w d|w d]; cbn [form_width] in W; cbn [spell atform_spelled]; destruct (dec_text w W) as (A1 & A2 & A3);
    [| |destruct (dec_text d D) as (B1 & B2 & B3)..].
  all: split; [eauto 8|]; rewrite ?len_cons, ?len_app, ?len_cons; split; [|lia].
  1, 2: constructor; [unfold graphic; lia|auto].
  all: constructor; [unfold graphic; lia|]; apply Forall_app; split; auto; constructor; [unfold graphic; lia|auto].
Qed.

Lemma escape_twice l : (length (escape_quotes l) <= 2 * length l)%nat.
Proof. induction l as [|c l IH]; cbn [escape_quotes length]; [lia|]. destruct (c =? 39); cbn [length]; lia. Qed.

Lemma spell_sayable f : form_ok f -> sayable (SaysText (spell f)).
Proof.
  intro H. destruct (spell_ok f H) as (S & G & L). cbn [sayable]. split; [|split].
  - eapply Forall_impl; [|exact G]. unfold graphic, printable. lia.
  - destruct (spelled_last _ _ S) as (t & c & E & C). exists t, c. split; auto. lia.
  - pose proof (escape_twice (padded 8 (spell f))) as E. unfold padded in *. rewrite app_length in E. unfold blanks in *. rewrite repeat_length in E.
    unfold len in L. lia.
Qed.

Lemma row_width_nonneg fs : Forall form_ok fs -> 0 <= row_width fs.
Proof. induction 1 as [|f fs (W & _) F IH]; cbn; unfold row_width in *; lia. Qed.

Lemma lay_out_ok fs : Forall form_ok fs -> forall start n1, 1 <= start -> start - 1 + row_width fs <= n1 -> Forall (acol_ok n1) (lay_out start fs).
Proof.
  induction 1 as [|f fs H F IH]; intros start n1 S N; cbn [lay_out]; constructor.
  - pose proof (row_width_nonneg fs F). change (row_width (f :: fs)) with (form_width f + 1 + row_width fs) in N.
    split; [apply spell_ok, H|]. cbn [ac_start ac_form]. lia.
  - pose proof H as (W & _). apply IH; [lia|]. change (row_width (f :: fs)) with (form_width f + 1 + row_width fs) in N. lia.
Qed.

Lemma lay_out_len fs : forall start, len (lay_out start fs) = len fs.
Proof. induction fs as [|f fs IH]; intro start; [reflexivity|]. cbn [lay_out]. now rewrite !len_cons, IH. Qed.

Lemma write_arow_len fs cells : Forall2 (fun f c => len c = form_width f /\ Forall printable c) fs cells ->
  len (write_arow cells) = row_width fs.
Proof.
  induction 1 as [|f c fs cells (L & _) F IH]; [reflexivity|]. unfold write_arow in *. cbn [map concat]. rewrite !len_app, IH, L.
  change (row_width (f :: fs)) with (form_width f + 1 + row_width fs). change (len [32]) with 1. lia.
Qed.

Lemma write_arow_cells fs cells : Forall form_ok fs ->
  Forall2 (fun f c => len c = form_width f /\ Forall printable c) fs cells -> forall p,
  Forall2 (fun c cell => slice (p ++ write_arow cells) (ac_start c - 1) (form_width (ac_form c)) = cell) (lay_out (len p + 1) fs) cells.
Proof.
  intros OK. induction 1 as [|f c fs cells (L & _) F IH]; intro p; cbn [lay_out]; constructor; inversion OK as [|? ? (W & _) OK']; subst.
  - cbn [ac_start ac_form]. unfold write_arow. cbn [map concat]. unfold slice.
    replace (Z.to_nat (len p + 1 - 1)) with (length p) by (unfold len; lia).
    rewrite skipn_app, skipn_all, Nat.sub_diag. cbn [skipn app]. rewrite <- app_assoc.
    replace (Z.to_nat (form_width f)) with (length c) by (unfold len in L; lia).
    rewrite firstn_app, firstn_all, Nat.sub_diag. apply app_nil_r.
  - specialize (IH OK' (p ++ c ++ [32])). rewrite !len_app, L in IH. change (len [32]) with 1 in IH.
    replace (len p + 1 + form_width f + 1) with (len p + (form_width f + 1) + 1) by lia.
    unfold write_arow in *. cbn [map concat]. rewrite app_assoc. exact IH.
Qed.

Lemma ascii_sayable x : listing_ok x ->
  Forall (fun e => sayable (snd e)) (ascii_entries (row_width (fst x)) (len (snd x)) (lay_out 1 (fst x))).
Proof.
  intros (L & OK & _ & _ & R). destruct x as (fs, rows). cbn [fst snd] in *.
  pose proof (len_nonneg rows). pose proof (len_nonneg fs). pose proof (row_width_nonneg fs OK) as N.
  assert (WB : row_width fs <= 2 ^ 32 * len fs).
  { clear -OK. induction OK as [|f fs (W & _) F IH]; [reflexivity|]. rewrite len_cons.
    change (row_width (f :: fs)) with (form_width f + 1 + row_width fs). lia. }
  unfold ascii_entries. apply Forall_app. split.
  - repeat (apply Forall_cons; [cbn [snd sayable]; rewrite ?lay_out_len; lia|]). apply Forall_nil.
  - assert (G : forall start i, 1 <= start -> start - 1 + row_width fs < 2 ^ 62 -> Forall (fun e => sayable (snd e)) (acol_entries i (lay_out start fs))).
    { clear -OK. induction OK as [|f fs H F IH]; intros start i S B; cbn [lay_out acol_entries]; [constructor|].
      pose proof H as (W & _). pose proof (row_width_nonneg fs F).
      change (row_width (f :: fs)) with (form_width f + 1 + row_width fs) in B.
      constructor; [cbn [snd sayable ac_start]; lia|]. constructor; [now apply spell_sayable|]. apply IH; lia. }
    apply G; lia.
Qed.

Lemma write_data_len fs rows : Forall (fun r => Forall2 (fun f c => len c = form_width f /\ Forall printable c) fs r) rows ->
  len (concat (map write_arow rows)) = len rows * row_width fs.
Proof.
  induction 1 as [|r rows H F IH]; [reflexivity|]. cbn [map concat]. rewrite len_app, len_cons, (write_arow_len _ _ H), IH. lia.
Qed.

Lemma written_ascii x : listing_ok x ->
  ascii_written (row_width (fst x)) (lay_out 1 (fst x)) (snd x) (write_ascii x).
Proof.
  intro H. pose proof (ascii_sayable x H) as S. destruct x as (fs, rows). cbn [fst snd] in *. destruct H as (L & OK & R & B & _). cbn [fst snd] in *.
  exists (ascii_entries (row_width fs) (len rows) (lay_out 1 fs)), (map write_arow rows).
  split; [rewrite lay_out_len; exact L|]. split; [now apply row_width_nonneg|]. split; [apply lay_out_ok; auto; lia|].
  split.
  { clear B S. induction R as [|r rows H F IH]; cbn [map]; constructor; auto. split; [now apply write_arow_len|].
    apply (write_arow_cells fs r OK H []). }
  split; [reflexivity|]. split; [cbn [write_ascii write_unit s_data]; rewrite (write_data_len fs rows R); lia|]. split; [apply Permutation_refl|].
  apply unit_written; auto.
  pose proof (ascii_proper (row_width fs) (len rows) (lay_out 1 fs) ltac:(rewrite lay_out_len; exact L) ltac:(apply lay_out_ok; auto; lia)) as (P & _).
  eapply Forall_impl; [|exact P]. intros e (Le & _). lia.
Qed.

Lemma ascii_octets x : listing_ok x -> octets (hdu_bytes (write_ascii x)).
Proof.
  intro H. pose proof (ascii_sayable x H) as S. destruct x as (fs, rows). cbn [fst snd] in *. destruct H as (L & OK & R & B & _). cbn [fst snd] in *.
  apply unit_octets; auto.
  - apply (ascii_proper (row_width fs) (len rows) (lay_out 1 fs)); [rewrite lay_out_len; exact L|apply lay_out_ok; auto; lia].
  - clear -R. apply Forall_concat, Forall_map. eapply Forall_impl; [|exact R]. intros r F. clear R. unfold write_arow. apply Forall_concat, Forall_map.
    induction F as [|f c fs r (_ & P) F IH]; constructor; auto. apply Forall_app. split; [|repeat constructor; lia].
    eapply Forall_impl; [|exact P]. unfold printable. lia.
Qed.

Lemma listings_round_trip m p xs l f n x :
  picture_ok p -> Forall listing_ok xs -> let d := file_bytes (write_listings p xs) in len d < 2 ^ 63 ->
  yields m (opened d) l f -> length l = S (S n) -> nth_error xs n = Some x ->
  exists l' h t tk, l = l' ++ [IOk h] /\ h_xt h = XtAscii t /\ at_tforms t = fst x /\ at_naxis2 t = len (snd x) /\
    get_ascii m f t = Ok tk /\
    forall sizes k, Forall (fun k => 0 <= k) sizes -> 0 < k ->
      let got := concat (fst (ascii_run tk sizes)) in
      fst (buf_read (snd (ascii_run tk sizes)) k) = [] ->
      forall i cells, 0 <= i -> nth_error (snd x) (Z.to_nat i) = Some cells -> fields_at t got i = cells.
Proof.
  intros P F d B Y L N. destruct (nth_error_split _ _ N) as (xs1 & xs2 & -> & L1).
  apply Forall_app in F as (F1 & F2). inversion F2 as [|? ? H F3]; subst.
  set (pre := write_listings p xs1).
  assert (E : write_listings p (xs1 ++ x :: xs2) = pre ++ (HAsciiTable, write_ascii x) :: map (fun x => (HAsciiTable, write_ascii x)) xs2).
  { unfold pre, write_listings. now rewrite map_app. }
  assert (O : octets d).
  { unfold d, file_bytes. apply Forall_concat. unfold write_listings. cbn [map snd]. constructor; [apply image_octets; auto|].
    rewrite map_map. apply Forall_map. cbn [snd]. assert (F : Forall listing_ok (xs1 ++ x :: xs2)) by (apply Forall_app; auto).
    eapply Forall_impl; [|exact F]. intros a A. now apply ascii_octets. }
  assert (A : Forall (accepted m) pre).
  { constructor; [eapply accepted_image, written_image; auto|]. apply Forall_map. eapply Forall_impl; [|exact F1]. intros a Q.
    eapply accepted_ascii, written_ascii, Q. }
  destruct (ascii_read_back m d pre (write_ascii x) (map (fun x => (HAsciiTable, write_ascii x)) xs2) (row_width (fst x)) (lay_out 1 (fst x)) (snd x) l f O) as
    (l' & h & t & tk & EL & _ & X & _ & T2 & _ & _ & T5 & G & R & FA); auto.
  - rewrite <- E. split; [reflexivity|]. apply Forall_map, Forall_forall. intros. discriminate.
  - now apply written_ascii.
  - unfold d. now rewrite E.
  - rewrite L. unfold pre, write_listings. cbn [length]. now rewrite map_length.
  - exists l', h, t, tk. split; auto. split; auto. split.
    { rewrite T5. clear. generalize 1. induction (fst x) as [|g fs IH]; intro i; [reflexivity|]. cbn [lay_out map ac_form]. now rewrite IH. }
    split; auto. split; auto. intros sizes k S K got M i cells I C.
    destruct (R sizes k S K) as (_ & _ & Q). apply Q in M. unfold got. rewrite M. now apply FA.
Qed.

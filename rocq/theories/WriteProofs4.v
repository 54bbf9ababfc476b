(** Proofs about binary tables written by the standard: the header, and reading back. *)

From Coq Require Import Permutation ZifyBool.
From Verif Require Import Base Utf8 Text Card Reader Header Xtension Bytes Fits ImageIt BinTable.
From Verif Require Import SpecUtf8 SpecCard SpecHeader SpecXt SpecFits SpecImage SpecBin SpecWrite SpecWriteTable.
From Verif Require Import TextLemmas CardProofs CardProofs2 CardProps HeaderProofs HeaderProofs2 HeaderProps.
From Verif Require Import FitsProofs FitsProofs2 FitsProofs3 FitsProofs4 XtProofs XtProofs2 XtProofs3 BytesProofs ImageProofs.
From Verif Require Import BinProofs BinProofs2 BinProofs3 WriteProofs WriteProofs2 WriteProofs3.

(** ** Keywords *)

Lemma proper_perm es es' ns : Permutation es es' -> proper_entries es ns -> proper_entries es' ns.
Proof.
  intros P (A & B & C & D). split; [eapply Permutation_Forall; eauto|].
  split; [|split; [eapply Permutation_Forall; eauto|eapply Permutation_NoDup; [apply Permutation_map, P|exact D]]].
  eapply Permutation_Forall; [|exact B]. apply Permutation_app_tail, Permutation_map, P.
Qed.

Lemma column_names i cols e : In e (column_entries i cols) -> 0 <= i ->
  exists j c, i <= j < i + len cols /\ In c cols /\
    (e = (indexed (chars "TFORM") j, SaysText (tc_text c)) \/
     exists n, tc_name c = Some n /\ e = (indexed (chars "TTYPE") j, SaysText n)).
Proof.
  revert i. induction cols as [|c cols IH]; intros i I P; [contradiction|]. cbn [column_entries] in I. rewrite len_cons.
  pose proof (len_nonneg cols). destruct I as [<-|I].
  - exists i, c. split; [lia|]. split; [now left|]. now left.
  - apply in_app_or in I as [I|I].
    + destruct (tc_name c) as [n|] eqn:N; [|contradiction]. destruct I as [<-|[]].
      exists i, c. split; [lia|]. split; [now left|]. right. exists n. auto.
    + destruct (IH (i + 1) I ltac:(lia)) as (j & c' & J & IC & E). exists j, c'. split; [lia|]. split; [now right|exact E].
Qed.

Lemma unnamed_names i cols n : In n (unnamed i cols) -> 0 <= i ->
  exists j, i <= j < i + len cols /\ n = indexed (chars "TTYPE") j.
Proof.
  revert i. induction cols as [|c cols IH]; intros i I P; [contradiction|]. cbn [unnamed] in I. rewrite len_cons.
  pose proof (len_nonneg cols). apply in_app_or in I as [I|I].
  - destruct (tc_name c); [contradiction|]. destruct I as [<-|[]]. exists i. split; [lia|reflexivity].
  - destruct (IH (i + 1) I ltac:(lia)) as (j & J & ->). exists j. split; [lia|reflexivity].
Qed.

Lemma form_type i j : indexed (chars "TFORM") i <> indexed (chars "TTYPE") j.
Proof. unfold indexed. cbn. discriminate. Qed.

Lemma later_names i cols n : 0 <= i -> In n (map fst (column_entries (i + 1) cols)) ->
  n <> indexed (chars "TFORM") i /\ n <> indexed (chars "TTYPE") i.
Proof.
  intros P I. apply in_map_iff in I as (e & <- & I).
  apply column_names in I as (j & c & J & _ & [->|(x & _ & ->)]); [| |lia]; cbn [fst]; split.
  - intro E. apply indexed_inj in E; lia.
  - apply form_type.
  - intro E. symmetry in E. revert E. apply form_type.
  - intro E. apply indexed_inj in E; lia.
Qed.

Lemma columns_nodup i cols : 0 <= i -> NoDup (map fst (column_entries i cols)).
Proof.
  revert i. induction cols as [|c cols IH]; intros i P; [constructor|]. cbn [column_entries map fst].
  rewrite map_app. constructor.
  - intro I. apply in_app_or in I as [I|I].
    + destruct (tc_name c); [|contradiction]. destruct I as [E|[]]. cbn [fst] in E. symmetry in E. revert E. apply form_type.
    + now apply later_names in I.
  - destruct (tc_name c) as [n|]; cbn [map app fst]; [constructor|]; try (apply IH; lia).
    intro I. now apply later_names in I.
Qed.

Lemma unnamed_absent i cols n : 0 <= i -> In n (unnamed i cols) -> ~ In n (map fst (column_entries i cols)).
Proof.
  revert i. induction cols as [|c cols IH]; intros i P I; [contradiction|]. cbn [unnamed] in I. cbn [column_entries map fst].
  rewrite map_app. intros [E|J].
  - apply unnamed_names with (i := i) (cols := c :: cols) in I as (j & _ & ->); [|lia]. revert E. apply form_type.
  - apply in_app_or in I as [I|I].
    + destruct (tc_name c); [contradiction|]. destruct I as [<-|[]]. cbn [map app] in J. now apply later_names in J.
    + apply in_app_or in J as [J|J]; [|exact (IH (i + 1) ltac:(lia) I J)].
      destruct (tc_name c); [|contradiction]. destruct J as [<-|[]]. cbn [fst] in I.
      apply unnamed_names in I as (j & J & E); [|lia]. apply indexed_inj in E; lia.
Qed.

Lemma table_entries_proper n1 n2 pc theap cols : len cols <= 999 -> Forall column_ok cols ->
  proper_entries (table_entries n1 n2 pc theap cols) (unnamed 1 cols ++ [chars "THEAP"]).
Proof.
  intros L OK.
  assert (A : forall e, In e (table_entries n1 n2 pc theap cols) ->
            (ordinary_keyword (fst e) /\ simple_name (fst e)) /\ whole (snd e)).
  { intros e I. unfold table_entries in I. apply in_app_or in I as [I|I].
    - repeat (destruct I as [<-|I]; [split; [apply keywordb_ok; reflexivity|exact Logic.I]|]). contradiction.
    - apply in_app_or in I as [I|I].
      + destruct theap; [|contradiction]. destruct I as [<-|[]]. split; [apply keywordb_ok; reflexivity|exact Logic.I].
      + rewrite Forall_forall in OK.
        apply column_names in I as (j & c & J & IC & [->|(n & N & ->)]); [| |lia]; cbn [fst snd];
          (split; [apply indexed_keyword; [lia|reflexivity|vm_compute; split; discriminate]|]);
          destruct (OK c IC) as (_ & W & _ & _ & W2); auto. rewrite N in W2. exact W2. }
  split; [|split; [|split]].
  - apply Forall_forall. intros e I. apply (A e I).
  - apply Forall_app. split; [apply Forall_map, Forall_forall; intros e I; apply (A e I)|].
    apply Forall_app. split; [|repeat (apply Forall_cons; [apply lettersb_ok; reflexivity|]); apply Forall_nil].
    apply Forall_forall. intros n I. apply unnamed_names in I as (j & J & ->); [|lia].
    apply indexed_keyword; [lia|reflexivity|vm_compute; split; discriminate].
  - apply Forall_forall. intros e I. apply (A e I).
  - unfold table_entries. rewrite !map_app.
    assert (C : forall n, In n (map fst (column_entries 1 cols)) -> exists x, n = chars "TFORM" ++ x \/ n = chars "TTYPE" ++ x).
    { intros n I. apply in_map_iff in I as (e & <- & I).
      apply column_names in I as (j & c & J & _ & [->|(x & _ & ->)]); [| |lia]; cbn [fst]; unfold indexed; eauto. }
    pose proof (columns_nodup 1 cols ltac:(lia)) as ND.
    cbn [map fst app].
    assert (K : NoDup (map fst (match theap with Some h => [(chars "THEAP", SaysInt h)] | None => [] end) ++ map fst (column_entries 1 cols))).
    { destruct theap; cbn [map fst app]; auto. constructor; auto. intro I. apply C in I as (x & [I|I]); discriminate. }
    assert (K2 : forall n, In n (map fst (match theap with Some h => [(chars "THEAP", SaysInt h)] | None => [] end) ++ map fst (column_entries 1 cols)) ->
               exists x, n = chars "THEAP" \/ n = chars "TFORM" ++ x \/ n = chars "TTYPE" ++ x).
    { intros n I. apply in_app_or in I as [I|I].
      - exists []. destruct theap; [|contradiction]. destruct I as [<-|[]]. now left.
      - destruct (C n I) as (x & H). exists x. now right. }
    repeat (constructor;
      [cbn [In]; intro I; repeat (destruct I as [I|I]; [discriminate|]); apply K2 in I as (x & [I|[I|I]]); discriminate|]).
    exact K.
Qed.

(** ** The description *)

Lemma says_text vs kw s : says vs kw (SaysText s) -> has_text vs kw s.
Proof. intros (c & G). left. exists c. exact G. Qed.

Lemma columns_said vs cols : forall i,
  (forall kw v, In (kw, v) (column_entries i cols) -> says vs kw v) ->
  (forall n, In n (unnamed i cols) -> get vs n = None) -> Forall column_ok cols ->
  columns (fun i a => column vs i (fst a) (snd a)) (length cols) i (map (fun c => (tc_form c, tc_name c)) cols).
Proof.
  induction cols as [|c cols IH]; intros i S N OK; cbn [length map]; constructor; inversion OK as [|? ? C OK']; subst.
  - cbn [fst snd]. split.
    + exists (tc_text c). split; [|apply C]. apply says_text, S. now left.
    + cbn [column_entries unnamed] in S, N. destruct (tc_name c) as [n|].
      * apply says_text, S. right. now left.
      * intros n [(x & G)|G]; rewrite (N (indexed (chars "TTYPE") i)) in G by (now left); discriminate.
  - apply IH; auto.
    + intros kw v I. apply S. cbn [column_entries]. right. apply in_or_app. now right.
    + intros n I. apply N. cbn [unnamed]. apply in_or_app. now right.
Qed.

Lemma field_bits_mod f : elem_type f <> TyX -> field_bits f mod 8 = 0.
Proof.
  destruct f as [t n|t|t]; cbn [elem_type field_bits]; intro N; try reflexivity.
  destruct t; try congruence; cbn [type_bits]; Z.div_mod_to_equations; lia.
Qed.

Definition description (t : bintable) (cols : list tcolumn) (n2 theap pc : Z) : Prop :=
  bt_naxis1 t = total (map field_bytes (forms cols)) /\ bt_naxis2 t = n2 /\ bt_theap t = theap /\ bt_pcount t = pc /\
  bt_tforms t = forms cols /\ bt_ttypes t = map tc_name cols.

Lemma field_bytes_nonneg' c : column_ok c -> 0 <= field_bytes (tc_form c).
Proof.
  intros (_ & _ & N & N1 & _). destruct (tc_form c) as [t n|t|t]; cbn [elem_type] in N; try (vm_compute; discriminate).
  rewrite field_bytes_elem by auto. pose proof (N1 t n eq_refl). pose proof (elem_bytes_pos t). nia.
Qed.

(** Further keywords: their names begin with Z, as no name of a table does, or are those of the scaling. *)
Definition zname (n : str) : Prop := (exists x, n = 90 :: x) \/ n = chars "BZERO" \/ n = chars "BSCALE".
Definition extra_ok (extra : list (str * said)) (absent : list str) : Prop :=
  proper_entries extra absent /\ Forall zname (map fst extra ++ absent) /\
  (In (chars "ZNAXIS") absent /\ ~ In (chars "ZNAXIS") (map fst extra) \/
   exists n, In (chars "ZNAXIS", SaysInt n) extra /\ n < 2 ^ 60).

Lemma table_names n1 n2 pc theap cols n : In n (map fst (table_entries n1 n2 pc theap cols)) -> ~ zname n.
Proof.
  unfold table_entries. rewrite !map_app. intros I Z.
  assert (H : hd 0 n = 90 \/ n = chars "BZERO" \/ n = chars "BSCALE") by (destruct Z as [(x & ->)|Z]; auto). clear Z.
  apply in_app_or in I as [I|I].
  - cbn [map fst In] in I. repeat (destruct I as [<-|I]; [destruct H as [H|[H|H]]; discriminate|]). contradiction.
  - apply in_app_or in I as [I|I].
    + destruct theap; [destruct I as [<-|[]]; destruct H as [H|[H|H]]; discriminate|contradiction].
    + apply in_map_iff in I as (e & <- & I). apply column_names in I as (j & c' & J & _ & [->|(y & _ & ->)]); [| |lia]; destruct H as [H|[H|H]]; discriminate.
Qed.

Lemma table_with_proper extra absent n1 n2 pc theap cols : len cols <= 999 -> Forall column_ok cols -> extra_ok extra absent ->
  proper_entries (table_entries n1 n2 pc theap cols ++ extra) (unnamed 1 cols ++ chars "THEAP" :: absent).
Proof.
  intros L OK ((A & B & C & D) & Z & _).
  destruct (table_entries_proper n1 n2 pc theap cols L OK) as (A' & B' & C' & D').
  rewrite Forall_app in B, B', Z. destruct B as (B1 & B2), B' as (B1' & B2'), Z as (Z1 & Z2).
  rewrite Forall_app in B2'. destruct B2' as (B2' & B3'). inversion B3' as [|? ? B4' _]; subst.
  unfold proper_entries. rewrite map_app.
  split; [apply Forall_app; auto|]. split; [|split; [apply Forall_app; auto|]].
  - repeat (apply Forall_app; split); auto.
  - clear -D D' Z1. pose proof (table_names n1 n2 pc theap cols) as T.
    induction (map fst (table_entries n1 n2 pc theap cols)) as [|x l IH]; cbn [app]; auto.
    inversion D'; subst. constructor; [|apply IH; auto; intros; apply T; now right].
    intro I. apply in_app_or in I as [I|I]; [contradiction|]. rewrite Forall_forall in Z1. apply (T x); [now left|auto].
Qed.

Lemma table_with_well_formed m extra absent cols rows s : extra_ok extra absent -> table_with extra absent cols rows s ->
  exists parts gap heap vs t, Forall2 (row_written heap (forms cols)) rows parts /\ s_data s = concat parts ++ gap ++ heap /\
    well_formed m HBinTable s vs (XtBin t) /\ description t cols (len rows) (len (concat parts ++ gap)) (len (gap ++ heap)) /\
    (forall kw v, In (kw, v) extra -> says vs kw v) /\
    (forall n, In n absent -> ~ In n (map fst extra) -> get vs n = None).
Proof.
  intros EX (es & parts & gap & heap & theap & L & OK & N1 & RW & D & LD & TH & P & U).
  exists parts, gap, heap.
  set (n1 := total (map field_bytes (forms cols))) in *.
  assert (NX : Forall (fun f => elem_type f <> TyX) (forms cols)).
  { apply Forall_map. eapply Forall_impl; [|exact OK]. intros c C. apply C. }
  pose proof (rows_len _ _ _ _ RW NX) as LR. fold n1 in LR.
  assert (N0 : 0 <= n1).
  { apply total_nonneg. unfold forms. rewrite map_map. apply Forall_map. eapply Forall_impl; [|exact OK]. apply field_bytes_nonneg'. }
  pose proof (table_with_proper extra absent n1 (len rows) (len (gap ++ heap)) theap cols ltac:(lia) OK EX) as PR.
  apply (proper_perm _ es) in PR; auto.
  destruct (unit_table _ _ _ _ PR U) as (vs & c & cards & HR & F & OC & PC & S & NG).
  assert (S' : forall kw v, In (kw, v) (table_entries n1 (len rows) (len (gap ++ heap)) theap cols) -> says vs kw v).
  { intros kw v I. apply S. eapply Permutation_in; [exact P|]. apply in_or_app. now left. }
  assert (S2 : forall kw v, In (kw, v) extra -> says vs kw v).
  { intros kw v I. apply S. eapply Permutation_in; [exact P|]. apply in_or_app. now right. }
  pose proof EX as (_ & ZZ & ZN). rewrite Forall_app in ZZ. destruct ZZ as (Z1 & Z2). rewrite Forall_forall in Z1, Z2.
  assert (NG0 : forall n, In n (unnamed 1 cols ++ chars "THEAP" :: absent) ->
     ~ In n (map fst (table_entries n1 (len rows) (len (gap ++ heap)) theap cols)) -> ~ In n (map fst extra) ->
     n <> chars "SIMPLE" -> n <> chars "XTENSION" -> get vs n = None).
  { intros n I NI NX'. apply NG; auto. intro J. eapply Permutation_in in J; [|apply Permutation_map, Permutation_sym, P].
    rewrite map_app in J. apply in_app_or in J as [J|J]; auto. }
  assert (NG' : forall n, In n (unnamed 1 cols ++ [chars "THEAP"]) ->
     ~ In n (map fst (table_entries n1 (len rows) (len (gap ++ heap)) theap cols)) ->
     n <> chars "SIMPLE" -> n <> chars "XTENSION" -> get vs n = None).
  { intros n I NI. apply NG0; auto; [apply in_or_app; apply in_app_or in I as [I|[I|[]]]; [now left|subst n; right; now left]|].
    intro J. apply Z1 in J. apply in_app_or in I as [I|[I|[]]]; [apply unnamed_names in I as (j & _ & ->); [|lia]|subst n];
      destruct J as [(y & J)|[J|J]]; discriminate. }
  assert (NA : forall n, In n absent -> ~ In n (map fst extra) -> get vs n = None).
  { intros n I NI. pose proof (Z2 n I) as EY. apply NG0; auto.
    - apply in_or_app. right. now right.
    - intro J. apply table_names in J. apply J. exact EY.
    - destruct EY as [(y & ->)|[-> | ->]]; discriminate.
    - destruct EY as [(y & ->)|[-> | ->]]; discriminate. }
  clear S NG.
  assert (IR : forall kw n, In (kw, SaysInt n) (table_entries n1 (len rows) (len (gap ++ heap)) theap cols) -> - 2 ^ 63 <= n < 2 ^ 63).
  { intros kw n I. destruct U as ((r & rs & _ & _ & H) & _). eapply header_of_int; [exact H|]. eapply Permutation_in; [exact P|]. apply in_or_app. left; exact I. }
  assert (IN : forall kw n, In (kw, SaysInt n) (table_entries n1 (len rows) (len (gap ++ heap)) theap cols) -> has_int vs kw n).
  { intros kw n I. apply says_int, S', I. }
  unfold table_entries in IR, IN.
  pose proof (len_nonneg rows). pose proof (len_nonneg gap). pose proof (len_nonneg heap). pose proof (len_nonneg cols).
  assert (LD' : len (s_data s) = n1 * len rows + len (gap ++ heap)) by (rewrite D, len_app, LR; reflexivity).
  pose proof (len_nonneg (gap ++ heap)).
  assert (R2 := IR (chars "NAXIS2") (len rows) ltac:(right; right; right; now left)).
  assert (ZL : forall z, has_int vs (chars "ZNAXIS") z -> z < 2 ^ 60).
  { intros z (x & G). destruct ZN as [(ZI & ZE)|(n & ZI & ZL)].
    - rewrite (NA _ ZI ZE) in G. discriminate.
    - destruct (says_int _ _ _ (S2 _ _ ZI)) as (y & G'). rewrite G' in G. now injection G as <-. }
  assert (CO : columns (fun i a => column vs i (fst a) (snd a)) (Z.to_nat (len cols)) 1 (map (fun c => (tc_form c, tc_name c)) cols)).
  { replace (Z.to_nat (len cols)) with (length cols) by (unfold len; lia). apply columns_said; auto.
    - intros kw v I. apply S'. unfold table_entries. apply in_or_app. right. apply in_or_app. now right.
    - intros n I. pose proof (unnamed_names 1 cols n I ltac:(lia)) as (j & J & EN).
      apply NG'; [apply in_or_app; now left| | |]; [|rewrite EN; discriminate|rewrite EN; discriminate].
      unfold table_entries. rewrite !map_app. intro K. apply in_app_or in K as [K|K].
      + rewrite EN in K. cbn [map fst In] in K. repeat (destruct K as [K|K]; [discriminate|]). contradiction.
      + apply in_app_or in K as [K|K].
        * rewrite EN in K. destruct theap; [destruct K as [K|[]]; discriminate|contradiction].
        * revert K. apply unnamed_absent; [lia|exact I]. }
  assert (SB : standard_bintable vs n1 (len rows) (len (gap ++ heap)) (len cols) (map (fun c => (tc_form c, tc_name c)) cols)).
  { unfold standard_bintable, u64. rewrite !map_map. cbn [fst].
    split; [apply IN; now left|]. split; [apply IN; right; now left|].
    split; [apply IN; right; right; now left|]. split; [lia|].
    split; [apply IN; right; right; right; now left|]. split; [lia|].
    split; [apply IN; right; right; right; right; now left|]. split; [lia|].
    split; [apply IN; right; right; right; right; right; now left|].
    split; [apply IN; right; right; right; right; right; right; now left|]. split; [lia|].
    split; [exact CO|]. split; [unfold n1, forms; now rewrite map_map|]. split; [lia|]. split; [lia|].
    exact ZL. }
  destruct (standard_accepted m vs _ _ _ _ _ SB) as (t & BP & B1 & B2 & B3 & B4 & B5).
  { apply Forall_map. cbn [fst]. eapply Forall_impl; [|exact OK]. intros x X. apply field_bits_mod, X. }
  rewrite !map_map in B4, B5. cbn [fst snd] in B4, B5.
  assert (BT : bt_theap t = len (concat parts ++ gap)).
  { destruct (bintable_parse_ok m vs t BP) as (_ & _ & _ & _ & _ & _ & _ & _ & _ & _ & _ & _ & _ & _ & [(TI & TU)|(TI & TE)] & _).
    - destruct TH as [->|(-> & ->)].
      + destruct (IN (chars "THEAP") (len (concat parts ++ gap))) as (x & G1); [do 7 right; now left|].
        destruct TI as (y & G2). rewrite G1 in G2. now injection G2 as ->.
      + destruct TI as (y & G2). rewrite (NG' (chars "THEAP")) in G2; try discriminate.
        * apply in_or_app. right. now left.
        * unfold table_entries. rewrite !map_app. intro I. apply in_app_or in I as [I|I].
          { cbn [map fst In] in I. repeat (destruct I as [I|I]; [discriminate|]). contradiction. }
          apply in_app_or in I as [I|I]; [contradiction|].
          apply in_map_iff in I as (e & E & I). apply column_names in I as (j & c' & J & _ & [->|(x & _ & ->)]); [| |lia]; discriminate.
    - assert (len (concat parts ++ gap) < 2 ^ 63) by (rewrite len_app in *; rewrite D, !len_app in LD; lia).
      destruct TH as [->|(-> & ->)].
      + exfalso. apply (TI (len (concat parts ++ gap))); [apply IN; do 7 right; now left|].
        pose proof (len_nonneg (concat parts ++ gap)). unfold u64. lia.
      + rewrite TE, B1, B2, app_nil_r, LR. apply Z.mod_small. rewrite app_nil_r, LR in *. pose proof (len_nonneg (concat parts)). lia. }
  exists vs, t. split; auto. split; auto. split.
  - destruct U as (_ & E1 & E2 & E3). split; auto. split; auto. split; auto. split; auto. exists c, cards.
    split; auto. split; auto. split; auto. split; [cbn [xt_parse xtype_of]; rewrite BP; reflexivity|].
    exists n1, (len rows), (len (gap ++ heap)).
    split; [apply IN; right; right; now left|]. split; [apply IN; right; right; right; now left|].
    split; [apply IN; right; right; right; right; now left|]. exact LD'.
  - split; [unfold description, forms; auto 8|]. split; auto.
Qed.

Lemma no_extra : extra_ok [] [chars "ZNAXIS"].
Proof.
  split; [|split].
  - split; [constructor|]. split; [|split; constructor]. constructor; [apply lettersb_ok; reflexivity|constructor].
  - constructor; [left; eexists; reflexivity|constructor].
  - left. split; [now left|intros []].
Qed.

Lemma table_well_formed m cols rows s : table_written cols rows s ->
  exists parts gap heap vs t, Forall2 (row_written heap (forms cols)) rows parts /\ s_data s = concat parts ++ gap ++ heap /\
    well_formed m HBinTable s vs (XtBin t) /\ description t cols (len rows) (len (concat parts ++ gap)) (len (gap ++ heap)).
Proof.
  intro W. destruct (table_with_well_formed m _ _ cols rows s no_extra W) as (parts & gap & heap & vs & t & A & B & C & D & _).
  exists parts, gap, heap, vs, t. auto.
Qed.

Lemma accepted_table m cols rows s : table_written cols rows s -> accepted m (HBinTable, s).
Proof.
  intro W. destruct (table_well_formed m cols rows s W) as (_ & _ & _ & vs & t & _ & _ & H & _). exists vs, (XtBin t). exact H.
Qed.

(** ** The cells *)

Section Written.
Variables (d : list Z) (o : Z) (t : bintable) (cols : list tcolumn) (rows : list (list (list (list Z)))).
Variables (parts : list (list Z)) (gap heap : list Z) (pc : Z).
Hypothesis OK : Forall column_ok cols.
Hypothesis RW : Forall2 (row_written heap (forms cols)) rows parts.
Hypothesis DE : description t cols (len rows) (len (concat parts ++ gap)) pc.
Hypothesis O0 : 0 <= o.
Hypothesis LD : o + len (concat parts ++ gap ++ heap) <= len d.
Hypothesis SD : slice d o (len (concat parts ++ gap ++ heap)) = concat parts ++ gap ++ heap.

Lemma forms_ok : Forall (fun f => elem_type f <> TyX) (forms cols).
Proof. apply Forall_map. eapply Forall_impl; [|exact OK]. intros c C. apply C. Qed.

Lemma cell_in_file i c cells f : nth_error rows (Z.to_nat i) = Some cells -> 0 <= i ->
  0 <= c -> nth_error (forms cols) (Z.to_nat c) = Some f ->
  Forall2 (slot_value d) (cell d t o true i c) (cell_at (forms cols) cells c) /\
  cell_readable d (len d) true (o + bt_theap t) f (o + i * bt_naxis1 t + column_start (bt_tforms t) c).
Proof.
  intros N I C F. destruct DE as (D1 & D2 & D3 & D4 & D5 & D6).
  destruct (row_at _ _ _ _ RW forms_ok _ _ N) as (bs & W & B & S). rewrite Z2Nat.id in * by auto.
  destruct (row_cell_at _ _ _ _ W forms_ok _ _ F) as (vs & cb & NV & CW & B0 & B1 & S1).
  unfold cell, format, cell_at. rewrite D5, F, NV. replace (c <? 0) with false by lia.
  rewrite D3, D1. unfold column_start.
  pose proof (len_nonneg (concat parts)). pose proof (len_nonneg gap). pose proof (len_nonneg heap). pose proof (len_nonneg bs).
  pose proof (len_nonneg cb). rewrite !len_app in *.
  assert (T0 : 0 <= total (map field_bytes (forms cols))).
  { destruct (row_len _ _ _ _ W forms_ok) as (<- & _). lia. }
  assert (IR : 0 <= i * total (map field_bytes (forms cols))) by nia.
  assert (CK : exists k, In k cols /\ tc_form k = f).
  { apply nth_error_In in F. unfold forms in F. apply in_map_iff in F as (k & E & IK). eauto. }
  destruct CK as (k & IK & EK). rewrite Forall_forall in OK. destruct (OK k IK) as (_ & _ & NX & N1 & _). rewrite EK in NX, N1.
  apply (cell_found d (len d) heap _ f vs cb); auto; try lia.
  - rewrite <- (slice_slice d o (len (concat parts) + (len gap + len heap)) (len (concat parts) + len gap) (len heap)) by lia.
    rewrite SD, app_assoc, slice_app_r by (rewrite len_app; lia). rewrite len_app, Z.sub_diag. now apply slice_all.
  - rewrite <- Z.add_assoc.
    rewrite <- (slice_slice d o (len (concat parts) + (len gap + len heap)) (i * total (map field_bytes (forms cols)) + _) (len cb)) by lia.
    rewrite SD, slice_app_l by lia.
    rewrite <- (slice_slice (concat parts) (i * total (map field_bytes (forms cols))) (len bs) _ (len cb)) by lia. now rewrite S.
Qed.

Lemma written_readable sel : (forall c, In c sel -> 0 <= c < len cols) ->
  columns_readable d (len d) t o true sel.
Proof.
  intros S c I. apply S in I. destruct DE as (D1 & D2 & D3 & D4 & D5 & D6).
  unfold format. rewrite D5. replace (c <? 0) with false by lia.
  destruct (nth_error (forms cols) (Z.to_nat c)) as [f|] eqn:F.
  2:{ apply nth_error_None in F. unfold forms in F. rewrite map_length in F. unfold len in I. lia. }
  exists f. split; auto. intros i R. rewrite D2 in R.
  destruct (nth_error rows (Z.to_nat i)) as [cells|] eqn:N.
  2:{ apply nth_error_None in N. unfold len in R. lia. }
  rewrite <- D5. eapply (cell_in_file i c cells f); auto; lia.
Qed.

Lemma row_in_file sel i cells : (forall c, In c sel -> 0 <= c < len cols) -> 0 <= i ->
  nth_error rows (Z.to_nat i) = Some cells ->
  Forall2 (slot_value d) (row_slots d t o true sel i) (row_values (forms cols) sel cells).
Proof.
  intros S I N. unfold row_slots, row_values. induction sel as [|c sel IH]; cbn [flat_map]; [constructor|].
  apply Forall2_app; [|apply IH; intros; apply S; now right].
  assert (C := S c (or_introl eq_refl)).
  destruct (nth_error (forms cols) (Z.to_nat c)) as [f|] eqn:F.
  2:{ apply nth_error_None in F. unfold forms in F. rewrite map_length in F. unfold len in C. lia. }
  eapply cell_in_file; eauto; lia.
Qed.

Lemma rows_in_file sel i : (forall c, In c sel -> 0 <= c < len cols) -> 0 <= i <= len rows ->
  Forall2 (fun j v => Forall2 (slot_value d) (row_slots d t o true sel j) v) (rows_from t i)
          (map (row_values (forms cols) sel) (skipn (Z.to_nat i) rows)).
Proof.
  intros S R. destruct DE as (D1 & D2 & D3 & D4 & D5 & D6). unfold rows_from, upto. rewrite D2, map_map.
  assert (G : forall k, Z.of_nat k <= len rows - i ->
    Forall2 (fun j v => Forall2 (slot_value d) (row_slots d t o true sel j) v)
      (map (fun x => i + Z.of_nat x) (seq (length rows - Z.to_nat i - k) k))
      (map (row_values (forms cols) sel) (skipn (length rows - k) rows))).
  { induction k as [|k IH]; intro K.
    - replace (length rows - 0)%nat with (length rows) by lia. rewrite skipn_all. constructor.
    - destruct (nth_error rows (length rows - Datatypes.S k)) as [cells|] eqn:N.
      2:{ apply nth_error_None in N. unfold len in *. lia. }
      assert (E : skipn (length rows - Datatypes.S k) rows = cells :: skipn (length rows - k) rows).
      { apply nth_error_split in N as (a & b & E & LA). rewrite <- LA. rewrite E at 1.
        rewrite skipn_app, skipn_all, Nat.sub_diag. cbn [skipn app]. f_equal.
        assert (length rows = (length a + Datatypes.S (length b))%nat) by (rewrite E, app_length; reflexivity).
        replace (length rows - k)%nat with (length a + 1)%nat by (unfold len in *; lia).
        rewrite E, <- skipn_skipn. rewrite skipn_app, skipn_all, Nat.sub_diag. reflexivity. }
      rewrite E. cbn [seq map]. constructor.
      + apply row_in_file; auto; [lia|].
        replace (Z.to_nat (i + Z.of_nat (length rows - Z.to_nat i - Datatypes.S k))) with (length rows - Datatypes.S k)%nat by (unfold len in *; lia).
        exact N.
      + replace (Datatypes.S (length rows - Z.to_nat i - Datatypes.S k)) with (length rows - Z.to_nat i - k)%nat by (unfold len in *; lia).
        apply IH. lia. }
  specialize (G (length rows - Z.to_nat i)%nat). unfold len in *.
  replace (length rows - Z.to_nat i - (length rows - Z.to_nat i))%nat with 0%nat in G by lia.
  replace (length rows - (length rows - Z.to_nat i))%nat with (Z.to_nat i) in G by lia.
  replace (Z.to_nat (Z.of_nat (length rows) - i)) with (length rows - Z.to_nat i)%nat by lia. apply G. lia.
Qed.

Lemma flat_slots sel is vss :
  Forall2 (fun j v => Forall2 (slot_value d) (row_slots d t o true sel j) v) is vss ->
  Forall2 (slot_value d) (flat_map (row_slots d t o true sel) is) (concat vss).
Proof. induction 1 as [|j v is vss H F IH]; cbn [flat_map concat]; [constructor|]. now apply Forall2_app. Qed.

Lemma slots_in_file sel i : (forall c, In c sel -> 0 <= c < len cols) -> 0 <= i <= len rows ->
  Forall2 (slot_value d) (slots_from d t o true sel i) (flat_map (row_values (forms cols) sel) (skipn (Z.to_nat i) rows)).
Proof. intros S R. unfold slots_from. rewrite flat_map_concat_map with (f := row_values _ _). apply flat_slots, rows_in_file; auto. Qed.

End Written.

(** ** Reading back *)

Lemma outside_between d t cur vcur :
  Forall2 (slot_value d) cur vcur -> (forall ty p c i, In (SElem ty p c i) cur -> 0 <= c) ->
  outside_array (bt_tforms t) vcur -> between t cur.
Proof.
  intros F P O. destruct F as [|x v cur vcur S F]; [exact Logic.I|]. destruct x as [ty p c i|w p]; [|exact Logic.I].
  destruct S as (y & -> & _). cbn [outside_array between] in *. unfold format.
  specialize (P ty p c i (or_introl eq_refl)). replace (c <? 0) with false by lia. exact O.
Qed.

Definition columns_in (cur : list slot) : Prop := forall ty p c i, In (SElem ty p c i) cur -> 0 <= c.

Lemma columns_in_tl x l : columns_in (x :: l) -> columns_in l.
Proof. intros H ty p c i I. apply (H ty p c i). now right. Qed.

Lemma columns_in_nil : columns_in [].
Proof. intros ? ? ? ? []. Qed.

Lemma seek_history d t from vfrom ops : forall cur vcur results,
  (forall i, 0 <= i < bt_naxis2 t -> Forall2 (slot_value d) (from i) (vfrom i) /\ columns_in (from i)) ->
  Forall2 (slot_value d) cur vcur -> columns_in cur ->
  seek_ok (bt_tforms t) (bt_naxis2 t) vfrom vcur ops ->
  proper t from cur ops /\
  (history d t from cur ops results -> results = seek_spec (bt_naxis2 t) vfrom vcur ops).
Proof.
  induction ops as [|op ops IH]; intros cur vcur results FR F C OK.
  - split; [exact Logic.I|]. destruct results; [reflexivity|contradiction].
  - destruct op as [|i]; cbn [seek_ok proper history seek_spec] in *.
    + destruct F as [|x v cur vcur S F].
      * cbn [tl] in *. split; [apply (IH [] [] []); auto|]. destruct results as [|r results]; [contradiction|].
        intros (-> & H). f_equal. apply (IH [] [] results); auto.
      * cbn [tl] in *. apply columns_in_tl in C. split; [apply (IH cur vcur []); auto|].
        destruct results as [|r results]; [contradiction|].
        intros (w & -> & S' & H). rewrite (slot_value_inj _ _ _ _ S' S). f_equal. apply (IH cur vcur results); auto.
    + destruct OK as (U & OK). destruct (i <? bt_naxis2 t) eqn:L.
      * destruct OK as (OA & OK). destruct (FR i ltac:(unfold u64 in U; lia)) as (F' & C').
        split; [split; auto; split; [eapply outside_between; eauto|apply (IH (from i) (vfrom i) []); auto]|].
        destruct results as [|r results]; [contradiction|]. intros (-> & H). f_equal. apply (IH (from i) (vfrom i) results); auto.
      * split; [split; auto; apply (IH cur vcur []); auto|].
        destruct results as [|r results]; [contradiction|]. intros (-> & H). f_equal. apply (IH cur vcur results); auto.
Qed.

Lemma slots_columns d t o sel i : (forall c, In c sel -> 0 <= c) -> columns_in (slots_from d t o true sel i).
Proof.
  intros S ty p c k I. unfold slots_from in I. apply in_flat_map in I as (j & _ & I).
  unfold row_slots in I. apply in_flat_map in I as (c' & IC & I). apply S in IC.
  assert (G : forall ty' n pos, In (SElem ty p c k) (elems ty' n pos c') -> c = c').
  { intros ty' n pos J. unfold elems in J. apply in_map_iff in J as (q & E & _). now injection E as _ _ ->. }
  unfold cell in I. destruct (format t c') as [[t' n|t'|t']|]; cbn [cell_slots] in I; try (apply G in I; now subst). contradiction.
Qed.

Lemma upto_columns (cols : list tcolumn) c : In c (upto (len cols)) -> 0 <= c < len cols.
Proof. apply upto_In. Qed.

Lemma Forall2_nth_fwd {A B} (R : A -> B -> Prop) la lb : Forall2 R la lb ->
  forall j a, nth_error la j = Some a -> exists b, nth_error lb j = Some b /\ R a b.
Proof.
  induction 1 as [|a b la lb H F IH]; intros [|j] x J; try discriminate.
  - injection J as <-. exists b. auto.
  - now apply IH.
Qed.

Lemma table_read_back m d pre s post cols rows l f :
  octets d -> file_kinds (pre ++ (HBinTable, s) :: post) -> Forall (accepted m) pre -> table_written cols rows s ->
  d = file_bytes (pre ++ (HBinTable, s) :: post) -> len d < 2 ^ 63 ->
  yields m (opened d) l f -> length l = S (length pre) ->
  exists l' h t tb, l = l' ++ [IOk h] /\ h_kind h = HBinTable /\ h_xt h = XtBin t /\
    bt_tforms t = forms cols /\ bt_ttypes t = map tc_name cols /\ bt_naxis2 t = len rows /\
    get_table m f t = Ok tb /\ table_raw_bytes m tb = Ok (s_data s) /\
    let values := row_values (forms cols) (upto (len cols)) in
    let from i := flat_map values (skipn (Z.to_nat i) rows) in
    (forall n, fst (table_run m tb (repeat TNext n)) = firstn n (map TValue (from 0) ++ repeat TEnd n)) /\
    (forall ops, seek_ok (forms cols) (len rows) from (from 0) ops ->
       fst (table_run m tb ops) = seek_spec (len rows) from (from 0) ops) /\
    (forall fuel n, (1 <= fuel)%nat -> (forall r, In r rows -> (length (values r) <= fuel)%nat) ->
       row_run m fuel (row_iter tb) n = firstn n (map RowOf (map values rows) ++ repeat RowEnd n)) /\
    (forall ids sel, Forall id_ok ids -> distinct t ids -> selection t ids sel -> sel <> [] -> rows <> [] ->
       (forall n, fst (table_run m (select_fields tb ids) (repeat TNext n))
                  = firstn n (map TValue (flat_map (row_values (forms cols) sel) rows) ++ repeat TEnd n)) /\
       (forall fuel n, (1 <= fuel)%nat -> (forall r, In r rows -> (length (row_values (forms cols) sel r) <= fuel)%nat) ->
          row_run m fuel (row_iter (select_fields tb ids)) n
          = firstn n (map RowOf (map (row_values (forms cols) sel) rows) ++ repeat RowEnd n))).
Proof.
  intros O K A W D B Y L.
  destruct (nth_hdu m d pre HBinTable s post l f) as (l' & h & f1 & EL & RD & RP & N & RF & HO & SL); auto.
  { apply Forall_app. split; auto. constructor; auto. eapply accepted_table; eauto. }
  destruct (table_well_formed m cols rows s W) as (parts & gap & heap & vs & t & RW & DD & WF & DE).
  destruct (read_from_xt m _ s vs _ _ h WF RF) as (X & _).
  destruct RF as (HK & _ & _ & _ & HOE & HSZ).
  assert (O0 : 0 <= h_offset h).
  { rewrite HOE. pose proof (len_nonneg (file_bytes pre)). pose proof (len_nonneg (header_bytes s)). lia. }
  assert (WOK : 1 <= len cols /\ Forall column_ok cols /\ total (map field_bytes (forms cols)) < 2 ^ 60).
  { destruct W as (es & ? & ? & ? & ? & L1 & C1 & N1 & _). split; [lia|]. auto. }
  destruct WOK as (LC & OK & N1). rewrite DD in HO, SL.
  pose proof DE as (D1 & D2 & D3 & D4 & D5 & D6).
  assert (NX : Forall (fun f => elem_type f <> TyX) (forms cols)).
  { apply Forall_map. eapply Forall_impl; [|exact OK]. intros c C. apply C. }
  pose proof (rows_len _ _ _ _ RW NX) as LR.
  pose proof (len_nonneg gap). pose proof (len_nonneg heap).
  assert (TI : table_inside d t (h_offset h)).
  { split; auto. rewrite D5, D1, D2. split; [|split].
    - assert (E : total (map field_bits (forms cols)) = 8 * total (map field_bytes (forms cols))); [|lia].
      clear -NX. induction NX as [|x fs X F IH]; cbn [map total]; [reflexivity|].
      rewrite IH. pose proof (field_bits_mod x X). unfold field_bytes. Z.div_mod_to_equations. lia.
    - eapply Forall_impl; [|exact NX]. apply field_bits_mod.
    - rewrite !len_app in HO. lia. }
  assert (NE : bt_tforms t <> []).
  { rewrite D5. intro E. apply (f_equal (@length _)) in E. unfold forms in E. rewrite map_length in E. unfold len in LC. cbn in E. lia. }
  assert (AC : all_columns t = upto (len cols)).
  { unfold all_columns. rewrite D5. unfold forms. now rewrite len_map. }
  pose proof (written_readable d (h_offset h) t cols rows parts gap heap _ OK RW DE O0 HO SL (upto (len cols)) (upto_columns cols)) as RE.
  rewrite <- AC in RE.
  destruct (table_cells m d f1 h f t O RD RP N X TI (len d) ltac:(lia) RE NE) as (tb & cells & G & V & RUN).
  exists l', h, t, tb. split; auto. split; auto. split; auto. split; auto. split; auto. split; auto. split; auto.
  split.
  { destruct (raw_bytes_table m d f1 h f t tb O ltac:(lia) RD RP N X G) as (n & HS & RB).
    assert (n = len (s_data s)) as -> by congruence. rewrite RB, DD, SL.
    match goal with |- (if ?x then _ else _) = _ => replace x with true by lia end. reflexivity. }
  pose proof (len_nonneg rows) as LN.
  assert (SF := fun sel S i R => slots_in_file d (h_offset h) t cols rows parts gap heap _ OK RW DE O0 HO SL sel i S R).
  assert (RI := fun sel S => rows_in_file d (h_offset h) t cols rows parts gap heap _ OK RW DE O0 HO SL sel 0 S ltac:(lia)).
  assert (RU : forall A B (R : A -> B -> Prop) (la : list A) (lb lc : list B),
            (forall a b c, R a b -> R a c -> b = c) -> Forall2 R la lb -> Forall2 R la lc -> lb = lc).
  { intros T1 T2 R la lb lc U F1. revert lc. induction F1; intros lc F2; inversion F2; subst; auto. f_equal; eauto. }
  intros values from. split; [|split; [|split]].
  - intro n. rewrite RUN. do 3 f_equal. rewrite AC in V.
    exact (slot_values_inj _ _ _ _ V (SF _ (upto_columns cols) 0 ltac:(lia))).
  - intros ops OKS.
    destruct (table_history m d f1 h f t O RD RP N X TI (len d) ltac:(lia) RE NE) as (tb' & G' & HIS).
    rewrite G in G'. injection G' as <-. rewrite AC in HIS.
    destruct (seek_history d t (slots_from d t (h_offset h) true (upto (len cols))) from ops
                (slots_from d t (h_offset h) true (upto (len cols)) 0) (from 0) (fst (table_run m tb ops))) as (P & H').
    + intros i I. split; [apply (SF _ (upto_columns cols)); lia|]. apply slots_columns. intros c C. apply upto_columns in C. lia.
    + apply (SF _ (upto_columns cols)). lia.
    + apply slots_columns. intros c C. apply upto_columns in C. lia.
    + rewrite D5, D2. exact OKS.
    + rewrite D2 in H'. apply H'. apply HIS. exact P.
  - intros fuel n FU FL.
    destruct (table_rows m d f1 h f t O RD RP N X TI (len d) ltac:(lia) RE NE) as (tb' & rws & G' & RV & RR).
    rewrite G in G'. injection G' as <-. rewrite AC in RV, RR.
    assert (rws = map values rows) as ->.
    { pose proof (RI _ (upto_columns cols)) as R2. cbn [Z.to_nat skipn] in R2.
      eapply RU; [|exact RV|exact R2]. intros a b c. apply slot_values_inj. }
    apply RR; auto. intros i I. pose proof (RI _ (upto_columns cols)) as R2. cbn [Z.to_nat skipn] in R2.
    destruct (In_nth_error _ _ I) as (j & J).
    destruct (Forall2_nth_fwd _ _ _ R2 j i J) as (v & J2 & FV).
    rewrite (Forall2_length _ _ _ FV). apply nth_error_In in J2. apply in_map_iff in J2 as (r & <- & IR). auto.
  - intros ids sel IO DI SE NS NR.
    assert (SC : forall c, In c sel -> 0 <= c < len cols).
    { intros c I. destruct SE as (_ & SE). apply SE in I as (I & _). rewrite D5 in I. unfold forms in I. rewrite len_map in I. exact I. }
    pose proof (written_readable d (h_offset h) t cols rows parts gap heap _ OK RW DE O0 HO SL sel SC) as RE2.
    assert (R1 : 1 <= bt_naxis2 t).
    { rewrite D2. destruct rows; [congruence|]. rewrite len_cons. pose proof (len_nonneg rows). lia. }
    destruct (table_selected m d f1 h f t O RD RP N X TI (len d) ids sel ltac:(lia) RE2 NS R1 IO DI SE)
      as (tb' & cells' & rws & G' & V' & RUN' & RV & RR & _).
    rewrite G in G'. injection G' as <-.
    pose proof (RI _ SC) as R2. cbn [Z.to_nat skipn] in R2. split.
    + intro n. rewrite RUN'. do 3 f_equal. exact (slot_values_inj _ _ _ _ V' (SF _ SC 0 ltac:(lia))).
    + intros fuel n FU FL.
      assert (rws = map (row_values (forms cols) sel) rows) as ->.
      { eapply RU; [|exact RV|exact R2]. intros a b c. apply slot_values_inj. }
      apply RR; auto. intros i I.
      destruct (In_nth_error _ _ I) as (j & J).
      destruct (Forall2_nth_fwd _ _ _ R2 j i J) as (v & J2 & FV).
      rewrite (Forall2_length _ _ _ FV). apply nth_error_In in J2. apply in_map_iff in J2 as (r & <- & IR). auto.
Qed.

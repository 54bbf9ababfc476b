(** Proofs about [fits struct]. *)

From Verif Require Import Base Utf8 Text Card Reader Header Xtension Fits Cli SpecUtf8 SpecCard SpecHeader SpecXt SpecFits SpecCli.
From Verif Require Import TextLemmas XtProofs XtProofs2 XtProofs3 FitsProofs FitsProofs2 FitsProofs3 FitsProofs4 AsyncProofs4.

(** ** The printed text *)

Lemma join_listed sep l : Forall (fun n => 0 <= n) l -> l <> [] -> listed sep l (join sep (map dec l)).
Proof.
  induction l as [|n l IH]; intros F N; [congruence|]. inversion F as [|x y F1 F2]; subst.
  destruct l as [|p l].
  - cbn. constructor. apply dec_decimal. exact F1.
  - change (join sep (map dec (n :: p :: l))) with (dec n ++ sep ++ join sep (map dec (p :: l))).
    constructor; [apply dec_decimal; exact F1|]. apply IH; [exact F2|discriminate].
Qed.

Lemma fold_join (sep : str) r : forall s,
  fold_left (fun s d : str => s ++ sep ++ d) r s = join sep (s :: r).
Proof.
  induction r as [|d r IH]; intros s; [reflexivity|]. cbn [fold_left]. rewrite IH.
  destruct r as [|e r]; cbn [join]; [reflexivity|]. rewrite <- !app_assoc. reflexivity.
Qed.

Lemma dimensions_listed l : Forall (fun n => 0 <= n) l -> listed_or (chars "x") (chars "0") l (dimensions l).
Proof.
  intros F. unfold dimensions, listed_or. destruct l as [|n l]; [left; split; reflexivity|]. right.
  cbn [map]. rewrite (fold_join [120]). change (dec n :: map dec l) with (map dec (n :: l)).
  apply join_listed; [exact F|discriminate].
Qed.

Lemma axes_nonneg vs name l : forall i, axes_from vs name i l -> Forall (fun n => 0 <= n) l.
Proof.
  induction l as [|n l IH]; intros i H; constructor.
  - destruct H as (_ & U & _). unfold u64 in U. lia.
  - destruct H as (_ & _ & H). eapply IH; eauto.
Qed.

Lemma describes_hdu m k vs x : xt_parse m (xtype_of k) vs = Ok x ->
  describes k vs (chars " * HDU type: " ++ type_name k) (head_line x).
Proof.
  intros P.
  assert (IMG : xtype_of k = XImage -> exists im, x = XtImage im /\ image_parse vs = Ok im).
  { intros E. rewrite E in P. cbn [xt_parse] in P. destruct (image_parse vs) as [im| |]; try discriminate.
    cbn in P. injection P as <-. eauto. }
  assert (I : xtype_of k = XImage -> exists bits axes b a d,
      has_int vs (chars "BITPIX") bits /\ pixel_name bits b /\
      has_int vs (chars "NAXIS") (len axes) /\ axes_from vs (chars "NAXIS") 1 axes /\
      listed_or (chars ", ") [] axes a /\ listed_or (chars "x") (chars "0") axes d /\
      head_line x = chars " * HEAD naxis: [" ++ a ++ chars "]; bitpix : " ++ b ++ chars "; dimensions: " ++ d ++ chars ".").
  { intros E. destruct (IMG E) as (im & -> & IP). apply image_parse_iff in IP as (B & N & _ & A).
    exists (bitpix_code (im_bitpix im)), (im_naxisn im), (bitpix_debug (im_bitpix im)),
      (join (chars ", ") (map dec (im_naxisn im))), (dimensions (im_naxisn im)).
    split; [exact B|]. split; [destruct (im_bitpix im); cbn; unfold pixel_name; auto 10|].
    split; [exact N|]. split; [exact A|]. pose proof (axes_nonneg _ _ _ _ A) as F.
    split; [|split; [apply dimensions_listed; exact F|]].
    - destruct (im_naxisn im); [left; split; reflexivity|right; apply join_listed; [exact F|discriminate]].
    - cbn [head_line]. unfold img_header, u64s_debug. rewrite <- !app_assoc. reflexivity. }
  destruct k; cbn [describes xtype_of] in *.
  - destruct (I eq_refl) as (bits & axes & b & a & d & H). exists bits, axes, b, a, d. split; [reflexivity|exact H].
  - destruct (I eq_refl) as (bits & axes & b & a & d & H). exists bits, axes, b, a, d. split; [reflexivity|exact H].
  - cbn [xt_parse] in P. destruct (bintable_parse m vs) as [t| |] eqn:BP; try discriminate. cbn in P. injection P as <-.
    apply bintable_parse_ok in BP as (_ & _ & _ & _ & N2 & U2 & _ & _ & _ & _ & T & UT & _).
    exists (bt_tfields t), (bt_naxis2 t), (dec (bt_tfields t)), (dec (bt_naxis2 t)). unfold u64 in *.
    repeat (split; [try reflexivity; try assumption; apply dec_decimal; lia|]). reflexivity.
  - cbn [xt_parse] in P. destruct (asciitable_parse vs) as [t| |] eqn:BP; try discriminate. cbn in P. injection P as <-.
    apply asciitable_parse_ok in BP as (_ & _ & _ & _ & N2 & U2 & _ & _ & _ & _ & T & UT & _).
    exists (at_tfields t), (at_naxis2 t), (dec (at_tfields t)), (dec (at_naxis2 t)). unfold u64 in *.
    repeat (split; [try reflexivity; try assumption; apply dec_decimal; lia|]). reflexivity.
Qed.

(** ** The loop *)

Fixpoint printed (m : mode) (i : Z) (hs : list hdu) : list str :=
  match hs with
  | [] => []
  | h :: r => fst (print_hdu m i h) ++ printed m (i + 1) r
  end.

Definition ends_with (i : item) : option ending :=
  match i with INone => Some Finished | IErr e => Some (Failed e) | IPanic => Some Panicked | IOk _ => None end.

Lemma struct_loop_run m hs last e : forall fuel i f,
  fst (run m (S (length hs)) f) = map IOk hs ++ [last] -> ends_with last = Some e ->
  Forall (fun h => exists n, hdu_size m h = Ok n) hs -> (length hs < fuel)%nat ->
  struct_loop m fuel i f = Some (printed m i hs, e).
Proof.
  induction hs as [|h hs IH]; intros fuel i f R E F L; (destruct fuel as [|fuel]; [lia|]); cbn [struct_loop].
  - cbn in R. destruct (next m f) as (x, f'). cbn in R. injection R as ->.
    destruct last; cbn in E; try discriminate; injection E as <-; reflexivity.
  - change (S (length (h :: hs))) with (S (S (length hs))) in R.
    remember (S (length hs)) as k. cbn [run] in R. subst k. destruct (next m f) as (x, f') eqn:N.
    destruct (run m (S (length hs)) f') as (l, f2) eqn:R2. cbn [fst map app] in R. injection R as -> R.
    inversion F as [|y z (n & SZ) F2]; subst. cbn [printed].
    assert (PR : snd (print_hdu m i h) = true) by (unfold print_hdu; rewrite SZ; reflexivity).
    destruct (print_hdu m i h) as (lines, b). cbn [fst snd] in *. subst b.
    rewrite (IH fuel (i + 1) f').
    + reflexivity.
    + rewrite R2. exact eq_refl.
    + exact E.
    + exact F2.
    + cbn in L. lia.
Qed.

Lemma run_or_panic m n : forall f,
  no_panicb (fst (run m n f)) = true \/
  exists l f2, yields m f (l ++ [IPanic]) f2 /\ (length (l ++ [IPanic]) <= n)%nat.
Proof.
  induction n as [|n IH]; intros f; [left; reflexivity|]. cbn [run].
  destruct (next m f) as (i, f') eqn:N. destruct (run m n f') as (l, f2) eqn:R. cbn [fst].
  assert (NP : next m (moved f (rd_pos (f_reader f))) = (i, f')) by (rewrite moved_same; exact N).
  destruct i as [|h|e|].
  - specialize (IH f'). rewrite R in IH. destruct IH as [H|(l' & f3 & Y & L)].
    + left. exact H.
    + right. exists (INone :: l'), f3. split; [|cbn in *; lia]. cbn [app].
      eapply yields_next; [left; reflexivity|exact NP|discriminate|exact Y].
  - specialize (IH f'). rewrite R in IH. destruct IH as [H|(l' & f3 & Y & L)].
    + left. exact H.
    + right. exists (IOk h :: l'), f3. split; [|cbn in *; lia]. cbn [app].
      eapply yields_next; [left; reflexivity|exact NP|discriminate|exact Y].
  - specialize (IH f'). rewrite R in IH. destruct IH as [H|(l' & f3 & Y & L)].
    + left. exact H.
    + right. exists (IErr e :: l'), f3. split; [|cbn in *; lia]. cbn [app].
      eapply yields_next; [left; reflexivity|exact NP|discriminate|exact Y].
  - right. exists [], f'. split; [|cbn; lia]. cbn [app].
    eapply yields_panic; [left; reflexivity|exact NP].
Qed.

Lemma run_determined m f X :
  (forall l f2, yields m f l f2 -> (length l <= length X)%nat -> l = firstn (length l) X) ->
  ~ In IPanic X -> fst (run m (length X) f) = X.
Proof.
  intros U NP. destruct (run_or_panic m (length X) f) as [H|(l & f2 & Y & L)].
  - pose proof (run_yields m _ f H) as Y. rewrite <- (firstn_all X) at 2.
    specialize (U _ _ Y). rewrite run_length in U. apply U. lia.
  - specialize (U _ _ Y L). destruct NP. rewrite <- (firstn_skipn (length (l ++ [IPanic])) X), <- U.
    apply in_or_app. left. apply in_or_app. right. left. reflexivity.
Qed.

Lemma items_list m hs : forall start full i, 0 <= i -> 0 <= start ->
  items_for m start hs full -> Forall (accepted m) hs ->
  exists hl, full = map IOk hl /\ length hl = length hs /\
    Forall (fun h => exists n, hdu_size m h = Ok n) hl /\ report m i start hs (printed m i hl).
Proof.
  induction hs as [|(k, s) hs IH]; intros start full i I S H A.
  - inversion H; subst. exists []. repeat constructor.
  - inversion H as [|st k0 s0 h rest l (K & (cards & C & RA) & PC & XP & OF & SZ) IT]; subst.
    inversion A as [|y z (vs & x & W) A2]; subst.
    destruct (IH (start + len (hdu_bytes s)) _ (i + 1) ltac:(lia) ltac:(unfold len; lia) IT A2) as (hl & -> & L & F & R).
    exists (h :: hl). split; [reflexivity|]. split; [cbn; lia|]. split; [constructor; eauto|].
    cbn [printed]. unfold print_hdu. rewrite SZ. cbn [fst app].
    destruct W as (_ & _ & _ & _ & c & cs & RA2 & _). cbn [snd] in RA2.
    destruct cards as [|c1 cards]; [destruct (s_records s); [inversion RA2|inversion RA]|].
    apply (report_cons m i start (h_kind h) s hs (printed m (i + 1) hl) (h_values h) cards c1); auto.
    + rewrite C in PC. exact PC.
    + eapply describes_hdu; eauto.
    + apply dec_decimal. exact I.
    + rewrite OF. apply dec_decimal. unfold len. lia.
    + apply dec_decimal. unfold len. lia.
Qed.

Lemma no_panic_items hl last : last <> IPanic -> ~ In IPanic (map IOk hl ++ [last]).
Proof.
  intros N I. apply in_app_or in I as [I|[I|[]]]; [|congruence].
  apply in_map_iff in I as (h & E & _). discriminate.
Qed.

Lemma struct_items m d hs full last e fuel :
  items_for m 0 hs full -> Forall (accepted m) hs -> ends_with last = Some e -> last <> IPanic ->
  (forall l f2, yields m (opened d) l f2 -> (length l <= length hs + 1)%nat ->
     l = firstn (length l) (full ++ [last])) ->
  (length hs < fuel)%nat ->
  exists lines, report m 0 0 hs lines /\ cli_struct m fuel (mk_reader d 0) = Some (lines, e).
Proof.
  intros IT A E N U L. destruct (items_list m hs 0 full 0 ltac:(lia) ltac:(lia) IT A) as (hl & -> & LH & F & R).
  exists (printed m 0 hl). split; [exact R|]. unfold cli_struct. apply (struct_loop_run m hl last e); auto; [|lia].
  change (from_reader (mk_reader d 0)) with (opened d).
  pose proof (run_determined m (opened d) (map IOk hl ++ [last])) as D.
  rewrite app_length, map_length in D. cbn [length] in D. rewrite Nat.add_1_r in D. apply D.
  - intros l f2 Y LL. apply (U l f2 Y). lia.
  - apply no_panic_items. exact N.
Qed.

Lemma struct_whole_file m d hs fuel :
  octets d -> file_kinds hs -> Forall (accepted m) hs -> d = file_bytes hs -> len d < 2 ^ 63 ->
  (length hs < fuel)%nat ->
  exists lines, report m 0 0 hs lines /\ cli_struct m fuel (mk_reader d 0) = Some (lines, Finished).
Proof.
  intros O K A D L F. destruct (whole_file_items m d hs O K A D L) as (full & IT & _ & U).
  eapply struct_items; eauto; [reflexivity|discriminate].
Qed.

Lemma struct_cut_data m d init k s rest fuel :
  octets d -> file_kinds (init ++ [(k, s)]) -> Forall (accepted m) (init ++ [(k, s)]) ->
  d = file_bytes init ++ header_bytes s ++ rest ->
  len rest < in_blocks (len (s_data s)) + 80 ->
  len (file_bytes (init ++ [(k, s)])) < 2 ^ 63 ->
  (length (init ++ [(k, s)]) < fuel)%nat ->
  exists lines, report m 0 0 (init ++ [(k, s)]) lines /\
    cli_struct m fuel (mk_reader d 0) = Some (lines, Finished).
Proof.
  intros O K A D L L2 F. destruct (file_items m d init k s rest O K A D L L2) as (full & IT & _ & U).
  eapply struct_items; eauto; [reflexivity|discriminate].
Qed.

Lemma struct_cut_header m d hs k s n fuel :
  octets d -> file_kinds hs -> Forall (accepted m) hs -> k <> HPrimary -> accepted m (k, s) ->
  d = file_bytes hs ++ firstn n (header_bytes s) ->
  (80 <= n)%nat -> (n < length (header_bytes s))%nat -> len d < 2 ^ 63 -> (length hs < fuel)%nat ->
  exists lines e, report m 0 0 hs lines /\ cli_struct m fuel (mk_reader d 0) = Some (lines, Failed e).
Proof.
  intros O K A KP AK D N1 N2 L F.
  destruct (cut_extension_items m d hs k s n O K A KP AK D N1 N2 L) as (full & IT & _ & U).
  match type of U with context [IErr ?e] =>
    destruct (struct_items m d hs full (IErr e) (Failed e) fuel IT A eq_refl ltac:(discriminate) U F) as (lines & R & E);
    exists lines, e; auto
  end.
Qed.

Lemma next_sized m f h f' : next m f = (IOk h, f') -> exists n, hdu_size m h = Ok n.
Proof.
  unfold next. destruct (f_error f); [discriminate|].
  match goal with |- (let '(n, r) := ?X in _) = _ -> _ => destruct X as (i, r) end.
  destruct i as [|g|e|]; try discriminate. destruct (hdu_size m g) as [n| |] eqn:S; try discriminate.
  intros [= <- _]. eauto.
Qed.

Lemma struct_endless m d : (forall n, exists l f, run m n (opened d) = (map IOk l, f) /\ length l = n) ->
  forall fuel, cli_struct m fuel (mk_reader d 0) = None.
Proof.
  intros H fuel. unfold cli_struct. change (from_reader (mk_reader d 0)) with (opened d).
  destruct (H fuel) as (l & f & R & L). clear H. revert R L. generalize (opened d), 0. revert l f.
  induction fuel as [|fuel IH]; intros l f g i R L; [reflexivity|]. cbn [run struct_loop] in *.
  destruct (next m g) as (x, g') eqn:N. destruct (run m fuel g') as (l', f2) eqn:R2.
  destruct l as [|h l]; [discriminate|]. cbn [map] in R. injection R as -> -> <-.
  destruct (next_sized _ _ _ _ N) as (n & SZ).
  assert (PR : snd (print_hdu m i h) = true) by (unfold print_hdu; rewrite SZ; reflexivity).
  destruct (print_hdu m i h) as (lines, b). cbn [fst snd] in *. subst b.
  rewrite (IH l f2 g' (i + 1) R2 ltac:(cbn in L; lia)). reflexivity.
Qed.

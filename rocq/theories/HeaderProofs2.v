(** Proofs about the keyword table. *)

From Verif Require Import Base Utf8 Text Card Reader Header SpecUtf8 SpecCard SpecHeader.
From Verif Require Import TextLemmas Utf8Proofs CardProofs CardProofs2 HeaderProofs.
From Coq Require Import ZifyBool.

Lemma get_insert vs k v n : get (insert vs k v) n = if str_eqb k n then Some v else get vs n.
Proof.
  induction vs as [|(a, w) vs IH]; simpl.
  - reflexivity.
  - destruct (str_eqb a k) eqn:E; simpl.
    + apply str_eqb_eq in E. subst. destruct (str_eqb k n); reflexivity.
    + rewrite IH. destruct (str_eqb a n) eqn:E2; auto.
      apply str_eqb_eq in E2. subst. rewrite str_eqb_sym, E. reflexivity.
Qed.

Definition mem (k : str) (l : list str) : bool := existsb (fun b => str_eqb k b) l.

Lemma mem_in k l : mem k l = true <-> In k l.
Proof.
  unfold mem. rewrite existsb_exists. split.
  - intros (x & I & E). apply str_eqb_eq in E. subst. auto.
  - intros I. exists k. split; auto. apply str_eqb_refl.
Qed.

Lemma keywords_insert vs k v :
  keywords (insert vs k v) = if mem k (keywords vs) then keywords vs else keywords vs ++ [k].
Proof.
  induction vs as [|(a, w) vs IH]; simpl; auto.
  rewrite (str_eqb_sym k a). destruct (str_eqb a k) eqn:E; simpl; auto.
  rewrite IH. fold (mem k (keywords vs)). destruct (mem k (keywords vs)); reflexivity.
Qed.

Lemma without_amp_iff s t : without_amp s = Some t <-> s = t ++ [38].
Proof.
  revert t. induction s as [|c s IH]; intros t.
  - simpl. split; [discriminate|]. intros. destruct t; discriminate.
  - destruct s as [|d s].
    + simpl. destruct (Z.eqb_spec c 38) as [->|N]; split; intro H.
      * inversion H; subst. reflexivity.
      * destruct t as [|x [|y t]]; inversion H; subst; reflexivity.
      * discriminate.
      * destruct t as [|x [|y t]]; inversion H; subst; congruence.
    + change (without_amp (c :: d :: s)) with (option_map (cons c) (without_amp (d :: s))).
      split; intro H.
      * destruct (without_amp (d :: s)) as [u|] eqn:E; [|discriminate].
        simpl in H. inversion H; subst. simpl. f_equal. apply IH. auto.
      * destruct t as [|x t]; [discriminate|]. simpl in H. inversion H; subst.
        rewrite H2. assert (without_amp (t ++ [38]) = Some t).
        { rewrite <- H2. apply IH. rewrite H2. reflexivity. }
        rewrite H0. reflexivity.
Qed.

Lemma ends_amp_iff s : ends_with AMP s = true <-> exists t, s = t ++ [38].
Proof.
  unfold ends_with. split.
  - intro H. destruct (rev s) as [|c r] eqn:E; simpl in H; [discriminate|].
    exists (rev r). apply Z.eqb_eq in H. subst c. unfold AMP in E.
    rewrite <- (rev_involutive s), E. reflexivity.
  - intros (t & ->). rewrite rev_app_distr. reflexivity.
Qed.

Lemma append_string_joined m t p : append_string m (t ++ [38]) p = Ok (joined t p).
Proof.
  unfold append_string.
  assert (T: truncate_last m (t ++ [38]) = Ok t).
  { unfold truncate_last. destruct m.
    - replace (ends_with AMP (t ++ [38])) with true; [rewrite removelast_last; auto|].
      symmetry. apply ends_amp_iff. eauto.
    - rewrite rev_app_distr. simpl. rewrite removelast_last. reflexivity. }
  rewrite T. cbn [bind]. unfold joined.
  destruct p as [p|]; auto. destruct p as [|c [|d p]]; auto.
  - simpl. rewrite andb_true_r. destruct (Z.eqb_spec c 32) as [->|N]; auto.
    destruct c as [|c|c]; auto. do 7 (try destruct c as [c|c|]; auto); congruence.
  - simpl. rewrite andb_false_r. destruct c as [|c|c]; auto. do 7 (try destruct c as [c|c|]; auto).
Qed.

Lemma value_append_joined m t tc p c :
  value_append m (VString (t ++ [38]) tc) p c = Ok (VString (joined t p) (joined_comment tc c)).
Proof. unfold value_append. rewrite append_string_joined. destruct tc, c; reflexivity. Qed.

Definition is_cont_card (c : card) : bool := match c with CContinuation _ _ => true | _ => false end.

Lemma completed_closed v cards : value_continued v = false -> completed v cards = v.
Proof.
  intro H. induction cards as [|c cards IH]; simpl; auto.
  destruct (defines c) as [[? ?]|]; auto.
  destruct c; auto. destruct v; auto.
  destruct (without_amp v) as [t|] eqn:E; auto.
  apply without_amp_iff in E. subst. simpl in H.
  assert (ends_with AMP (t ++ [38]) = true) by (apply ends_amp_iff; eauto). congruence.
Qed.

Lemma continued_shape v : value_continued v = true -> exists t c, v = VString (t ++ [38]) c.
Proof.
  destruct v; simpl; try discriminate. intro H. apply ends_amp_iff in H as (t & ->). eauto.
Qed.

(** The last definition of [name], completed. *)
Fixpoint lookup (cards : list card) (name : str) : option value :=
  match cards with
  | [] => None
  | c :: r =>
    match lookup r name with
    | Some v => Some v
    | None => match defines c with
              | Some (n, v) => if str_eqb n name then Some (completed v r) else None
              | None => None
              end
    end
  end.

Definition kw_inv (vs : vmap) (kw : option str) : Prop :=
  match kw with Some n => exists v, get vs n = Some v /\ value_continued v = true | None => True end.

(** [process_card] on a defining card. *)
Lemma process_card_defines m vs kw c n v :
  defines c = Some (n, v) ->
  process_card m vs kw c = Ok (insert vs n v, if value_continued v then Some n else None).
Proof.
  destruct c; simpl; intro H; try discriminate; try (inversion H; subst; reflexivity).
  destruct x; inversion H; subst; reflexivity.
Qed.

Definition open_value (vs : vmap) (kw : option str) (cards : list card) (name : str) : option value :=
  match get vs name with
  | Some v => match kw with
              | Some k => if str_eqb k name then Some (completed v cards) else Some v
              | None => Some v
              end
  | None => None
  end.

Definition not_in (kv : list str) (k : str) : bool := negb (mem k kv).

Lemma mem_snoc k l n : mem k (l ++ [n]) = mem k l || str_eqb k n.
Proof. unfold mem. rewrite existsb_app. simpl. rewrite orb_false_r. reflexivity. Qed.

Lemma filter_not_in_cons kv n D :
  filter (not_in kv) (n :: filter (fun b => negb (str_eqb n b)) D)
  = if mem n kv then filter (not_in kv) D else n :: filter (not_in (kv ++ [n])) D.
Proof.
  assert (F: filter (not_in kv) (filter (fun b => negb (str_eqb n b)) D) =
             filter (not_in (kv ++ [n])) D).
  { induction D as [|x D IH]; simpl; auto.
    replace (not_in (kv ++ [n]) x) with (not_in kv x && negb (str_eqb n x))
      by (unfold not_in; rewrite mem_snoc, negb_orb, (str_eqb_sym x n); auto).
    destruct (str_eqb n x) eqn:E; simpl.
    - rewrite andb_false_r. apply IH.
    - rewrite andb_true_r. destruct (not_in kv x); rewrite IH; auto. }
  cbn [filter]. unfold not_in at 1.
  destruct (mem n kv) eqn:M; cbn [negb]; rewrite F; auto.
  apply filter_ext_in. intros x Hx. unfold not_in. rewrite mem_snoc.
  destruct (str_eqb x n) eqn:E; [|rewrite orb_false_r; auto].
  apply str_eqb_eq in E. subst. rewrite M. reflexivity.
Qed.

Lemma completed_continued_step v p cm r :
  value_continued v = true ->
  exists t tc, v = VString (t ++ [38]) tc /\
    completed v (CContinuation p cm :: r)
    = completed (VString (joined t p) (joined_comment tc cm)) r.
Proof.
  intro H. destruct (continued_shape v H) as (t & tc & ->). exists t, tc. split; auto.
  simpl. assert (E: without_amp (t ++ [38]) = Some t) by (apply without_amp_iff; auto).
  rewrite E. reflexivity.
Qed.

Lemma process_spec cards : forall vs kw,
  Forall (fun c => c <> CEnd) cards -> kw_inv vs kw ->
  exists vs', (forall m, process_cards_from m vs kw (cards ++ [CEnd]) = Ok vs') /\
    keywords vs' = keywords vs ++ filter (not_in (keywords vs)) (distinct (names cards)) /\
    forall name, get vs' name = match lookup cards name with
                                | Some v => Some v
                                | None => open_value vs kw cards name
                                end.
Proof.
  induction cards as [|c cards IH]; intros vs kw H I.
  - exists vs. split; [reflexivity|]. simpl. rewrite app_nil_r. split; auto.
    intro name. unfold open_value. destruct (get vs name), kw; auto. destruct (str_eqb _ _); auto.
  - inversion H as [|? ? Hc Hcs]; subst.
    assert (Step: forall m, process_cards_from m vs kw ((c :: cards) ++ [CEnd]) =
      let! (vs', kw') := process_card m vs kw c in process_cards_from m vs' kw' (cards ++ [CEnd]))
      by (intros; destruct c; auto; congruence).
    destruct (defines c) as [[n v]|] eqn:D.
    + set (kw1 := if value_continued v then Some n else None).
      destruct (IH (insert vs n v) kw1 Hcs) as (vs' & P & K & G).
      { unfold kw1. destruct (value_continued v) eqn:E; simpl; auto.
        exists v. rewrite get_insert, str_eqb_refl. auto. }
      exists vs'. split; [|split].
      * intro m. rewrite Step, (process_card_defines _ _ _ _ _ _ D). cbn [bind]. apply P.
      * rewrite K, keywords_insert. unfold names. cbn [flat_map]. rewrite D. cbn [app].
        cbn [distinct]. rewrite filter_not_in_cons. fold (names cards).
        destruct (mem n (keywords vs)); auto. rewrite <- app_assoc. reflexivity.
      * intro name. rewrite G. cbn [lookup]. destruct (lookup cards name) as [w|]; auto.
        rewrite D. unfold open_value. rewrite get_insert.
        destruct (str_eqb n name) eqn:E.
        { unfold kw1. destruct (value_continued v) eqn:Cv.
          - rewrite E. reflexivity.
          - rewrite completed_closed; auto. }
        { cbn [completed]. rewrite D.
          destruct (get vs name) as [w|]; auto. unfold kw1.
          destruct (value_continued v); [rewrite E|]; destruct kw as [k|]; auto; destruct (str_eqb k name); auto. }
    + assert (Noop: is_cont_card c = false -> forall m, process_card m vs kw c = Ok (vs, kw))
        by (destruct c; simpl in *; try discriminate; auto;
            destruct x; discriminate).
      destruct (is_cont_card c) eqn:Ck.
      * destruct c as [| p cm | | | | | | |]; try discriminate.
        destruct kw as [n|].
        { destruct I as (v & Gv & Cv).
          destruct (completed_continued_step v p cm cards Cv) as (t & tc & -> & Cs).
          set (v1 := VString (joined t p) (joined_comment tc cm)) in *.
          set (kw1 := if value_continued v1 then Some n else None).
          destruct (IH (insert vs n v1) kw1 Hcs) as (vs' & P & K & G).
          { unfold kw1. destruct (value_continued v1) eqn:E; simpl; auto.
            exists v1. rewrite get_insert, str_eqb_refl. auto. }
          exists vs'. split; [|split].
          - intro m. rewrite Step. cbn [process_card]. rewrite Gv, value_append_joined.
            cbn [bind]. apply P.
          - rewrite K, keywords_insert. unfold names at 2. cbn [flat_map defines app].
            fold (names cards).
            assert (M: mem n (keywords vs) = true).
            { apply mem_in. clear - Gv. induction vs as [|(a, w) vs IH]; simpl in *; [discriminate|].
              destruct (str_eqb a n) eqn:E; auto. apply str_eqb_eq in E. auto. }
            rewrite M. reflexivity.
          - intro name. rewrite G. cbn [lookup defines]. destruct (lookup cards name) as [w|]; auto.
            unfold open_value. rewrite get_insert. destruct (str_eqb n name) eqn:E.
            + apply str_eqb_eq in E. subst n. rewrite Gv, Cs.
              unfold kw1. destruct (value_continued v1) eqn:Cv1.
              * rewrite str_eqb_refl. reflexivity.
              * rewrite completed_closed; auto.
            + destruct (get vs name); auto. unfold kw1. destruct (value_continued v1); auto.
              rewrite E. auto. }
        { destruct (IH vs None Hcs I) as (vs' & P & K & G).
          exists vs'. split; [|split].
          - intro m. rewrite Step. cbn [process_card bind]. apply P.
          - exact K.
          - intro name. rewrite G. cbn [lookup defines]. destruct (lookup cards name); auto. }
      * destruct (IH vs kw Hcs I) as (vs' & P & K & G).
        exists vs'. split; [|split].
        { intro m. rewrite Step, Noop by auto. apply P. }
        { rewrite K. unfold names at 2. cbn [flat_map]. rewrite D. reflexivity. }
        { intro name. rewrite G. cbn [lookup]. rewrite D. destruct (lookup cards name); auto.
          unfold open_value. destruct (get vs name) as [v|]; auto. destruct kw as [k|]; auto.
          destruct (str_eqb k name); auto. cbn [completed]. rewrite D.
          destruct c; auto; discriminate. }
Qed.

Lemma filter_all {A} (f : A -> bool) l : (forall x, f x = true) -> filter f l = l.
Proof. intro H. induction l; simpl; auto. rewrite H, IHl. auto. Qed.

Lemma process_cards_spec cards :
  Forall (fun c => c <> CEnd) cards ->
  exists vs, (forall m, process_cards m (cards ++ [CEnd]) = Ok vs) /\
    keywords vs = distinct (names cards) /\ forall name, get vs name = lookup cards name.
Proof.
  intro H. destruct (process_spec cards [] None H Logic.I) as (vs & P & K & G).
  exists vs. split; [exact P|]. split.
  - rewrite K. simpl. apply filter_all. reflexivity.
  - intro name. rewrite G. destruct (lookup cards name); reflexivity.
Qed.

Lemma names_in cards name : In name (names cards) <-> exists c v, In c cards /\ defines c = Some (name, v).
Proof.
  unfold names. rewrite in_flat_map. split.
  - intros (c & I & H). destruct (defines c) as [[n v]|] eqn:D; simpl in H; [|tauto].
    destruct H as [->|[]]. eauto.
  - intros (c & v & I & D). exists c. split; auto. rewrite D. simpl; auto.
Qed.

Lemma lookup_none cards name : ~ In name (names cards) <-> lookup cards name = None.
Proof.
  induction cards as [|c cards IH]; simpl; [tauto|].
  unfold names in *. cbn [flat_map]. rewrite in_app_iff.
  destruct (lookup cards name) as [v|] eqn:E.
  - split; [|discriminate]. intro N. exfalso.
    assert (~ In name (flat_map (fun c => match defines c with Some (n, _) => [n] | None => [] end) cards)) by tauto.
    apply IH in H. discriminate.
  - destruct IH as (_ & IH). specialize (IH eq_refl).
    destruct (defines c) as [[n v]|]; simpl; [|tauto].
    destruct (str_eqb n name) eqn:S1.
    + apply str_eqb_eq in S1. split; [tauto|discriminate].
    + apply str_eqb_neq in S1. tauto.
Qed.

Lemma lookup_last cards name : forall pre c post v,
  cards = pre ++ c :: post -> defines c = Some (name, v) -> ~ In name (names post) ->
  lookup cards name = Some (completed v post).
Proof.
  intros pre c post v -> D N. induction pre as [|a pre IH]; simpl.
  - apply lookup_none in N. rewrite N, D, str_eqb_refl. reflexivity.
  - rewrite IH. reflexivity.
Qed.

Lemma distinct_in l x : In x (distinct l) <-> In x l.
Proof.
  induction l as [|a l IH]; simpl; [tauto|]. rewrite filter_In, IH.
  destruct (str_eqb a x) eqn:E; [apply str_eqb_eq in E; subst; simpl; intuition discriminate|].
  simpl. tauto.
Qed.

Lemma distinct_nodup l : NoDup (distinct l).
Proof.
  induction l as [|a l IH]; simpl; constructor.
  - rewrite filter_In, str_eqb_refl. simpl. intuition discriminate.
  - apply NoDup_filter. auto.
Qed.

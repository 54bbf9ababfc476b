(** The property statements about whole headers, in the form used by [Prop_Header]. *)

From Verif Require Import Base Utf8 Text Card Reader Header SpecUtf8 SpecCard SpecHeader.
From Verif Require Import TextLemmas Utf8Proofs CardProofs CardProofs2 CardProps HeaderProofs HeaderProofs2.
From Coq Require Import ZifyBool.

(** ** Long strings *)

Lemma canonical_amp s : canonical_string (s ++ [38]) = s ++ [38].
Proof.
  unfold canonical_string. rewrite rtrim_last by lia.
  destruct (s ++ [38]) eqn:E; auto.
Qed.

Lemma parse_card_continue_field lead s trail comment :
  Forall printable s -> opt_printable comment ->
  parse_card (continue_record (value_field lead (fits_string s) trail comment))
  = Ok (CContinuation (Some (canonical_string s)) (option_map rtrim comment)).
Proof.
  intros Hs Hc. set (f := value_field lead (fits_string s) trail comment).
  unfold continue_record, padded. rewrite <- app_assoc.
  set (k := (80 - length (chars "CONTINUE" ++ f))%nat).
  unfold parse_card. rewrite firstn_app_exact by reflexivity.
  replace (from_utf8 (trim_ascii (chars "CONTINUE"))) with (Some (chars "CONTINUE"))
    by (vm_compute; reflexivity).
  replace (skipn 8 (chars "CONTINUE" ++ f ++ blanks k)) with (padded 72 f).
  2:{ rewrite skipn_app_exact by reflexivity. unfold padded, k. rewrite app_length. do 3 f_equal. }
  change (parse_continuation (chars "CONTINUE" ++ f ++ blanks k) = 
    Ok (CContinuation (Some (canonical_string s)) (option_map rtrim comment))).
  unfold parse_continuation.
  replace (skipn 8 (chars "CONTINUE" ++ f ++ blanks k)) with (padded 72 f).
  2:{ rewrite skipn_app_exact by reflexivity. unfold padded, k. rewrite app_length. do 3 f_equal. }
  unfold f. rewrite split_string_field by auto. cbn [bind].
  rewrite parse_string_quoted by auto. reflexivity.
Qed.

Definition cont_card (amp : bool) (p : piece) : card :=
  CContinuation (Some (canonical_string (pc_text p ++ if amp then [38] else [])))
                (option_map rtrim (pc_comment p)).

Lemma parse_card_continue amp p :
  piece_ok p -> parse_card (continue_record (piece_field amp p)) = Ok (cont_card amp p).
Proof.
  intros (H1 & H2). unfold piece_field, cont_card. apply parse_card_continue_field; auto.
  apply Forall_app. split; auto. destruct amp; auto. constructor; auto. unfold printable; lia.
Qed.

Fixpoint cont_cards (l : list piece) : list card :=
  match l with
  | [] => []
  | [p] => [cont_card false p]
  | p :: r => cont_card true p :: cont_cards r
  end.

Lemma reads_as_ok r c c' : parse_card r = Ok c -> reads_as r c' -> c' = c.
Proof. intros E [H|((e & H) & _)]; congruence. Qed.

Lemma continue_records_read l cards :
  Forall piece_ok l -> Forall2 reads_as (continue_records l) cards -> cards = cont_cards l.
Proof.
  revert cards. induction l as [|p [|q r] IH]; intros cards H F.
  - inversion F; auto.
  - inversion F as [|? c ? ? R F' ]; subst. inversion F'; subst. simpl. f_equal.
    inversion H; subst. eapply reads_as_ok; eauto. now apply parse_card_continue.
  - inversion H as [|? ? Hp Hr]; subst.
    change (continue_records (p :: q :: r)) with
      (continue_record (piece_field true p) :: continue_records (q :: r)) in F.
    inversion F as [|? c ? cs R F']; subst.
    change (cont_cards (p :: q :: r)) with (cont_card true p :: cont_cards (q :: r)). f_equal.
    + eapply reads_as_ok; eauto. now apply parse_card_continue.
    + apply IH; auto.
Qed.

Lemma rtrim_app_nonblank a b : rtrim b <> [] -> rtrim (a ++ b) = a ++ rtrim b.
Proof.
  intro H. induction a as [|c a IH]; simpl; auto. rewrite IH.
  destruct (a ++ rtrim b) eqn:E; auto. apply app_eq_nil in E. tauto.
Qed.

Lemma rtrim_app_blank a b : rtrim b = [] -> rtrim (a ++ b) = rtrim a.
Proof.
  intro H. induction a as [|c a IH]; simpl; auto. rewrite IH. auto.
Qed.

Lemma joined_last t s :
  Forall printable t -> Forall printable s ->
  joined t (Some (canonical_string s)) = rtrim (t ++ s).
Proof.
  intros Ht Hs. unfold joined, canonical_string. destruct s as [|c s].
  - simpl. rewrite app_nil_r. now apply trim_end_rtrim.
  - destruct (rtrim (c :: s)) as [|d u] eqn:E.
    + simpl. rewrite (rtrim_app_blank _ _ E). now apply trim_end_rtrim.
    + rewrite rtrim_app_nonblank by congruence. rewrite E.
      destruct (str_eqb (d :: u) [] || str_eqb (d :: u) [32]) eqn:B; auto.
      apply orb_true_iff in B as [B|B]; apply str_eqb_eq in B; [discriminate|].
      destruct (rtrim_spec (c :: s)) as (w & _ & _ & [T|(t' & x & T & N)]); [congruence|].
      rewrite E in T. rewrite B in T. destruct t' as [|? [|? ?]]; inversion T. congruence.
Qed.

Lemma joined_amp t s : joined t (Some (canonical_string (s ++ [38]))) = (t ++ s) ++ [38].
Proof.
  rewrite canonical_amp. unfold joined. destruct (str_eqb (s ++ [38]) [] || _) eqn:B.
  - apply orb_true_iff in B as [B|B]; apply str_eqb_eq in B.
    + destruct s; discriminate.
    + destruct s as [|? [|? ?]]; discriminate.
  - now rewrite app_assoc.
Qed.

Lemma completed_conts post l : forall t tc,
  l <> [] -> Forall piece_ok l -> Forall printable t ->
  completed (VString (t ++ [38]) tc) (cont_cards l ++ post)
  = completed (VString (rtrim (t ++ concat (map pc_text l))) (joined_comment tc (all_comments l))) post.
Proof.
  induction l as [|p [|q r] IH]; intros t tc Hn H Ht; [congruence| |].
  - inversion H as [|? ? (Hp & Hc) _]; subst.
    assert (E: without_amp (t ++ [38]) = Some t) by (apply without_amp_iff; auto).
    cbn [cont_cards app completed defines cont_card]. rewrite E.
    rewrite app_nil_r. cbn [map concat]. rewrite app_nil_r.
    rewrite joined_last by auto. cbn [all_comments].
    destruct (option_map rtrim (pc_comment p)); reflexivity.
  - inversion H as [|? ? (Hp & Hc) Hr]; subst.
    assert (E: without_amp (t ++ [38]) = Some t) by (apply without_amp_iff; auto).
    change (cont_cards (p :: q :: r)) with (cont_card true p :: cont_cards (q :: r)).
    cbn [app completed defines]. unfold cont_card at 1. cbn [defines]. rewrite E. cbn [cont_card].
    rewrite joined_amp. rewrite IH; auto; [|congruence|apply Forall_app; auto].
    change (concat (map pc_text (p :: q :: r))) with (pc_text p ++ concat (map pc_text (q :: r))).
    rewrite app_assoc. f_equal. f_equal.
    change (all_comments (p :: q :: r)) with
      (match option_map rtrim (pc_comment p), all_comments (q :: r) with
       | Some a, Some b => Some (a ++ [10] ++ b) | Some a, None => Some a | None, b => b end).
    destruct tc as [x|], (option_map rtrim (pc_comment p)) as [y|], (all_comments (q :: r)) as [z|];
      simpl; auto. f_equal. rewrite <- !app_assoc. reflexivity.
Qed.

Lemma long_string_cards kw first rest cards :
  ordinary_keyword kw -> Forall piece_ok (first :: rest) ->
  Forall2 reads_as (long_string_records kw first rest) cards ->
  cards = CValue kw (VString (pc_text first ++ [38]) (option_map rtrim (pc_comment first)))
          :: cont_cards rest.
Proof.
  intros K H F. inversion H as [|? ? (H1 & H2) Hr]; subst.
  inversion F as [|? c ? cs R F']; subst. f_equal.
  - eapply reads_as_ok; eauto. unfold piece_field.
    rewrite string_value_roundtrip_proof; auto.
    + rewrite canonical_amp. reflexivity.
    + apply Forall_app. split; auto. constructor; auto. unfold printable; lia.
  - apply continue_records_read; auto.
Qed.

Lemma completed_plain s c post :
  (forall t, s <> t ++ [38]) -> completed (VString s c) post = VString s c.
Proof.
  intro H. apply completed_closed. simpl.
  destruct (ends_with AMP s) eqn:E; auto. apply ends_amp_iff in E as (t & ->). destruct (H t eq_refl).
Qed.

Lemma process_ok_no_end m cards : forall vs kw vs',
  process_cards_from m vs kw (cards ++ [CEnd]) = Ok vs' -> Forall (fun c => c <> CEnd) cards.
Proof.
  induction cards as [|c cards IH]; intros vs kw vs' H; constructor.
  - intros ->. simpl in H. destruct (cards ++ [CEnd]) eqn:E; [destruct cards; discriminate|discriminate].
  - assert (D: c = CEnd \/ process_cards_from m vs kw ((c :: cards) ++ [CEnd]) =
      let! (vs', kw') := process_card m vs kw c in process_cards_from m vs' kw' (cards ++ [CEnd]))
      by (destruct c; auto).
    destruct D as [->|D].
    + simpl in H. destruct (cards ++ [CEnd]) eqn:E; [destruct cards; discriminate|discriminate].
    + rewrite D in H. destruct (process_card m vs kw c) as [(v1, k1)|e|]; try discriminate.
      cbn [bind] in H. eapply IH; eauto.
Qed.

(** What a successfully built table contains. *)
Lemma process_ok_spec m cards vs :
  process_cards m (cards ++ [CEnd]) = Ok vs ->
  keywords vs = distinct (names cards) /\ forall name, get vs name = lookup cards name.
Proof.
  intro P. destruct (process_cards_spec cards) as (vs' & P' & K & G).
  { eapply process_ok_no_end; eauto. }
  rewrite P' in P. inversion P; subst. auto.
Qed.

Lemma cont_cards_names rest : names (cont_cards rest) = [].
Proof.
  induction rest as [|p [|q r] IH]; auto.
Qed.

Lemma names_app a b : names (a ++ b) = names a ++ names b.
Proof. unfold names. apply flat_map_app. Qed.

Lemma long_string kw first rest pre lcards post vs m :
  ordinary_keyword kw -> rest <> [] -> Forall piece_ok (first :: rest) ->
  let whole := rtrim (concat (map pc_text (first :: rest))) in
  (forall t, whole <> t ++ [38]) ->
  Forall2 reads_as (long_string_records kw first rest) lcards ->
  ~ In kw (names post) ->
  process_cards m (pre ++ lcards ++ post ++ [CEnd]) = Ok vs ->
  get vs kw = Some (VString whole (all_comments (first :: rest))).
Proof.
  intros K Hn H whole Hw F N P.
  pose proof (long_string_cards _ _ _ _ K H F) as ->.
  rewrite !app_assoc in P. apply process_ok_spec in P as (_ & G). rewrite G.
  rewrite <- app_assoc. erewrite lookup_last; [|reflexivity|reflexivity|].
  - inversion H as [|? ? (H1 & H2) Hr]; subst.
    rewrite completed_conts by auto.
    change (pc_text first ++ concat (map pc_text rest)) with (concat (map pc_text (first :: rest))).
    fold whole. rewrite completed_plain by auto. cbn [all_comments].
    destruct (option_map rtrim (pc_comment first)), (all_comments rest); reflexivity.
  - rewrite names_app, cont_cards_names. exact N.
Qed.

(** ** Orphans and kept ampersands *)

Lemma completed_no_cont v post :
  (forall pre c rest, post = pre ++ c :: rest -> Forall (fun c => defines c = None) pre ->
     is_cont_card c = false) ->
  completed v post = v.
Proof.
  induction post as [|c post IH]; intro H; auto. simpl.
  destruct (defines c) as [p|] eqn:D; auto.
  pose proof (H [] c post eq_refl (Forall_nil _)) as Nc.
  destruct c; try discriminate; apply IH; intros pre c' rest -> Hp;
    (eapply (H (_ :: pre)); [reflexivity|constructor; auto]).
Qed.

Lemma completed_app v a b :
  Forall (fun c => defines c = None) a ->
  value_continued (completed v a) = true -> completed v (a ++ b) = completed (completed v a) b.
Proof.
  revert v. induction a as [|c a IH]; intros v H Hc; auto. inversion H as [|? ? D Ha]; subst.
  simpl in *. rewrite D in *. destruct c; auto. destruct v; auto.
  destruct (without_amp v) as [t|] eqn:E; auto.
  exfalso. simpl in Hc. apply ends_amp_iff in Hc as (t & ->).
  assert (without_amp (t ++ [38]) = Some t) by (apply without_amp_iff; auto). congruence.
Qed.

Lemma completed_orphan v a p cm b :
  (exists x, In x a /\ defines x <> None) \/ value_continued (completed v a) = false ->
  completed v (a ++ CContinuation p cm :: b) = completed v (a ++ b).
Proof.
  revert v. induction a as [|c a IH]; intros v H; simpl.
  - destruct H as [(x & [] & _)|H]. simpl in H.
    rewrite (completed_closed v b H). destruct v; auto.
    destruct (without_amp v) as [t|] eqn:E; auto. simpl in H.
    apply without_amp_iff in E. assert (ends_with AMP v = true) by (apply ends_amp_iff; eauto). congruence.
  - simpl in H. destruct (defines c) as [q|] eqn:D; auto.
    assert (H': forall w, (exists x, In x a /\ defines x <> None) \/ value_continued (completed w a) = false
                 -> completed w (a ++ CContinuation p cm :: b) = completed w (a ++ b)) by (intros; auto).
    assert (X: (exists x, In x (c :: a) /\ defines x <> None) -> exists x, In x a /\ defines x <> None).
    { intros (x & [<-|I] & N); [congruence|eauto]. }
    destruct c; try (apply H'; destruct H as [H|H]; auto).
    destruct v; try (apply H'; destruct H as [H|H]; auto).
    destruct (without_amp v) as [t|]; auto. apply H'. destruct H as [H|H]; auto.
Qed.

Lemma closed_continued pre a c b n v :
  closed pre -> pre = a ++ c :: b -> defines c = Some (n, v) -> names b = [] ->
  value_continued (completed v b) = false.
Proof.
  intros H E D N. destruct (value_continued (completed v b)) eqn:C; auto.
  apply continued_shape in C as (t & cm & C). destruct (H a c b n v E D N t cm C).
Qed.

Lemma names_nil_inv b : names b <> [] -> exists x, In x b /\ defines x <> None.
Proof.
  induction b as [|c b IH]; intro H; [destruct H; auto|]. unfold names in H. cbn [flat_map] in H.
  destruct (defines c) as [[n v]|] eqn:D.
  - exists c. simpl. split; auto. congruence.
  - destruct (IH H) as (x & I & N). exists x. simpl. auto.
Qed.

Lemma lookup_orphan pre p cm post name :
  closed pre -> lookup (pre ++ CContinuation p cm :: post) name = lookup (pre ++ post) name.
Proof.
  induction pre as [|c pre IH]; intro H; simpl.
  - destruct (lookup post name); auto.
  - rewrite IH by (intros a c' b n v -> D; eapply (H (c :: a)); eauto; reflexivity).
    destruct (lookup (pre ++ post) name); auto. destruct (defines c) as [[n v]|] eqn:D; auto.
    rewrite completed_orphan; auto.
    destruct (names pre) as [|x l] eqn:E.
    + right. eapply (closed_continued (c :: pre) [] c pre); eauto.
    + left. apply names_nil_inv. congruence.
Qed.

Lemma orphan_continue pre p cm post m vs1 vs2 :
  closed pre ->
  process_cards m (pre ++ CContinuation p cm :: post ++ [CEnd]) = Ok vs1 ->
  process_cards m (pre ++ post ++ [CEnd]) = Ok vs2 ->
  keywords vs1 = keywords vs2 /\ forall name, get vs1 name = get vs2 name.
Proof.
  intros C P1 P2.
  replace (pre ++ CContinuation p cm :: post ++ [CEnd]) with
      ((pre ++ CContinuation p cm :: post) ++ [CEnd]) in P1 by (rewrite <- app_assoc; reflexivity).
  rewrite app_assoc in P2.
  apply process_ok_spec in P1 as (K1 & G1). apply process_ok_spec in P2 as (K2 & G2).
  split.
  - rewrite K1, K2, !names_app. reflexivity.
  - intro name. rewrite G1, G2. now apply lookup_orphan.
Qed.

Lemma amp_kept m pre c post n v vs :
  defines c = Some (n, v) -> ~ In n (names post) ->
  (forall a x rest, post = a ++ x :: rest -> Forall (fun y => defines y = None) a ->
     forall p cm, x <> CContinuation p cm) ->
  process_cards m (pre ++ c :: post ++ [CEnd]) = Ok vs ->
  get vs n = Some v.
Proof.
  intros D N H P.
  replace (pre ++ c :: post ++ [CEnd]) with ((pre ++ c :: post) ++ [CEnd]) in P
    by (rewrite <- app_assoc; reflexivity).
  apply process_ok_spec in P as (_ & G). rewrite G.
  erewrite lookup_last; eauto. f_equal. apply completed_no_cont.
  intros a x rest E F. specialize (H a x rest E F). destruct x; auto. destruct (H string comment eq_refl).
Qed.

(** ** Lookup *)

Lemma table_spec m cards vs :
  process_cards m (cards ++ [CEnd]) = Ok vs ->
  keywords vs = distinct (names cards) /\
  (forall name, get vs name = None <-> forall c v, In c cards -> defines c <> Some (name, v)) /\
  (forall pre c post name v, cards = pre ++ c :: post -> defines c = Some (name, v) ->
     (forall c' v', In c' post -> defines c' <> Some (name, v')) ->
     get vs name = Some (completed v post)).
Proof.
  intro P. apply process_ok_spec in P as (K & G). split; auto. split.
  - intro name. rewrite G, <- lookup_none, names_in. split.
    + intros N c v I D. apply N. eauto.
    + intros N (c & v & I & D). eapply N; eauto.
  - intros pre c post name v -> D N. rewrite G. eapply lookup_last; eauto.
    rewrite names_in. intros (c' & v' & I & D'). eapply N; eauto.
Qed.

Lemma keywords_once m cards vs :
  process_cards m (cards ++ [CEnd]) = Ok vs ->
  NoDup (keywords vs) /\
  forall name, In name (keywords vs) <-> exists c v, In c cards /\ defines c = Some (name, v).
Proof.
  intro P. apply process_ok_spec in P as (K & G). rewrite K. split; [apply distinct_nodup|].
  intro name. rewrite distinct_in. apply names_in.
Qed.

(** Order of first appearance. *)
Lemma distinct_order l a b :
  (exists p q r, distinct l = p ++ a :: q ++ b :: r) ->
  exists p s, l = p ++ a :: s /\ ~ In a p /\ ~ In b p /\ In b s.
Proof.
  induction l as [|x l IH]; intros (p & q & r & E); [destruct p; discriminate|]. simpl in E.
  destruct p as [|y p]; simpl in E; inversion E; subst.
  - exists [], l. simpl. repeat split; auto. apply distinct_in.
    assert (I: In b (filter (fun b0 => negb (str_eqb a b0)) (distinct l))).
    { rewrite H1. apply in_or_app. simpl; auto. }
    apply filter_In in I. tauto.
  - assert (Ia: In a (filter (fun b0 => negb (str_eqb y b0)) (distinct l))) by (rewrite H1; apply in_or_app; simpl; auto).
    assert (Ib: In b (filter (fun b0 => negb (str_eqb y b0)) (distinct l))).
    { rewrite H1. apply in_or_app. right. simpl. right. apply in_or_app. simpl; auto. }
    apply filter_In in Ia as (Ia & Na). apply filter_In in Ib as (Ib & Nb).
    assert (S1: exists p q r, distinct l = p ++ a :: q ++ b :: r).
    { clear -H1. revert p H1. induction (distinct l) as [|z d IHd]; intros p H1; simpl in H1.
      - destruct p; discriminate.
      - destruct (negb (str_eqb y z)).
        + destruct p as [|w p]; simpl in H1; inversion H1; subst.
          * assert (Ib: In b d).
            { assert (In b (filter (fun b0 => negb (str_eqb y b0)) d)).
              { rewrite H2. apply in_or_app. simpl; auto. }
              apply filter_In in H. tauto. }
            apply in_split in Ib as (q' & r' & ->). exists [], q', r'. auto.
          * destruct (IHd p H2) as (p' & q' & r' & ->). exists (w :: p'), q', r'. auto.
        + destruct (IHd p H1) as (p' & q' & r' & ->). exists (z :: p'), q', r'. auto. }
    destruct (IH S1) as (p' & s & -> & N1 & N2 & I).
    exists (y :: p'), s. simpl. apply negb_true_iff, str_eqb_neq in Na. apply negb_true_iff, str_eqb_neq in Nb.
    repeat split; auto; intros [|]; auto.
Qed.

(** ** Assembly of a header that was read *)

Lemma assembly_total d p n cards n' r' :
  octets d -> 0 <= p -> consume_cards (mk_reader d p) n = (Ok cards, n', r') ->
  exists vs, forall m, process_cards m cards = Ok vs.
Proof.
  intros O Hp C. apply consume_cards_inv in C as (recs & last & rest & cs & _ & _ & _ & _ & NE & -> & _); auto.
  destruct (process_cards_spec cs NE) as (vs & P & _). eauto.
Qed.

(** ** Typed access *)

Lemma typed_int lo hi vs k z :
  get_parsed (de_int lo hi) vs k = Ok z <->
  (exists c, get vs k = Some (VInteger z c)) /\ lo <= z <= hi.
Proof.
  unfold get_parsed, value_or_undefined, de_int. split.
  - destruct (get vs k) as [v|]; [|discriminate]. destruct v; try discriminate.
    destruct ((lo <=? v) && (v <=? hi)) eqn:E; [|discriminate]. intro H. inversion H; subst.
    split; [eauto|lia].
  - intros ((c & ->) & H). replace ((lo <=? z) && (z <=? hi)) with true by lia. reflexivity.
Qed.

Lemma typed_int_err lo hi vs k :
  (forall z c, get vs k = Some (VInteger z c) -> ~ lo <= z <= hi) ->
  get_parsed (de_int lo hi) vs k = Err EDynamic.
Proof.
  intro H. unfold get_parsed, value_or_undefined, de_int.
  destruct (get vs k) as [v|]; auto. destruct v; auto.
  specialize (H _ _ eq_refl). replace ((lo <=? v) && (v <=? hi)) with false by lia. reflexivity.
Qed.

Lemma typed_option lo hi vs k :
  (get_parsed (de_option (de_int lo hi)) vs k = Ok None <->
     get vs k = None \/ get vs k = Some VUndefined) /\
  (forall z, get_parsed (de_option (de_int lo hi)) vs k = Ok (Some z) <->
     (exists c, get vs k = Some (VInteger z c)) /\ lo <= z <= hi) /\
  get_parsed (de_option (de_int lo hi)) vs k <> Panic.
Proof.
  unfold get_parsed, value_or_undefined, de_option, de_int.
  assert (X: forall (v : value) z, Some v = Some v -> (forall c, v <> VInteger z c) ->
            ~ ((exists c, Some v = Some (VInteger z c)) /\ lo <= z <= hi)).
  { intros v z _ N ((c & E) & _). inversion E. eapply N; eauto. }
  destruct (get vs k) as [v|]; [destruct v|]; cbn [bind];
    try (split; [|split]; [split; [discriminate|intros [|]; discriminate]
                          |intro z; split; [discriminate|intro Y; exfalso; eapply X; eauto; discriminate]
                          |discriminate]).
  - destruct ((lo <=? v) && (v <=? hi)) eqn:E; cbn [bind]; (split; [|split]).
    + split; [discriminate|intros [|]; discriminate].
    + intro z. split; intro Y.
      * inversion Y; subst. split; [eauto|lia].
      * destruct Y as ((c & Y) & R). inversion Y; subst. reflexivity.
    + discriminate.
    + split; [discriminate|intros [|]; discriminate].
    + intro z. split; intro Y; [discriminate|].
      destruct Y as ((c & Y) & R). inversion Y; subst. lia.
    + discriminate.
  - split; [|split]; [tauto| |discriminate].
    intro z. split; [discriminate|]. intros ((c & Y) & _). discriminate.
  - split; [|split]; [tauto| |discriminate].
    intro z. split; [discriminate|]. intros ((c & Y) & _). discriminate.
Qed.

Lemma typed_others vs k :
  (forall b, get_parsed de_bool vs k = Ok b <-> exists c, get vs k = Some (VLogical b c)) /\
  (forall s, get_parsed de_string vs k = Ok s <->
     (exists c, get vs k = Some (VString s c)) \/ get vs k = Some (VInvalid s)) /\
  (forall f, get_parsed de_f64 vs k = Ok f <->
     (exists c, get vs k = Some (VFloat f c)) \/
     (exists z c, get vs k = Some (VInteger z c) /\ f = FDec (z <? 0) (Z.abs z) 0)) /\
  (forall b, get_parsed de_bitpix vs k = Ok b <-> exists c, get vs k = Some (VInteger (bitpix_code b) c)).
Proof.
  unfold get_parsed, value_or_undefined.
  destruct (get vs k) as [v|]; [destruct v|]; simpl;
    (split; [|split; [|split]]); intros; split; intro H; try discriminate;
    repeat match goal with
    | H : exists _, _ |- _ => destruct H
    | H : _ \/ _ |- _ => destruct H
    | H : _ /\ _ |- _ => destruct H
    end; try discriminate; try (inversion H; subst; eauto 6; fail).
  - revert H. unfold de_bitpix, de_i8, de_int.
    destruct ((-128 <=? v) && (v <=? 127)); [|discriminate]. cbn [bind].
    repeat match goal with |- context [?a =? ?b] => destruct (Z.eqb_spec a b) as [->|] end;
      intro H; inversion H; subst; eauto.
  - inversion H; subst. destruct b; reflexivity.
Qed.

(** ** Cards of a header, by position *)

Lemma slice_concat (recs : list (list Z)) : forall (d : list Z) p rest i r,
  0 <= p -> skipn (Z.to_nat p) d = concat recs ++ rest ->
  Forall (fun r => length r = 80%nat) recs -> nth_error recs i = Some r ->
  slice d (p + 80 * Z.of_nat i) 80 = r.
Proof.
  induction recs as [|a recs IH]; intros d p rest i r Hp E F N; [destruct i; discriminate|].
  inversion F as [|? ? L F']; subst. simpl in E. rewrite <- app_assoc in E.
  destruct i as [|i]; simpl in N.
  - inversion N; subst. unfold slice. replace (p + 80 * Z.of_nat 0) with p by lia. rewrite E.
    apply firstn_app_exact. rewrite L. reflexivity.
  - replace (p + 80 * Z.of_nat (S i)) with ((p + 80) + 80 * Z.of_nat i) by lia.
    eapply (IH d (p + 80) rest); eauto; [lia|].
    replace (Z.to_nat (p + 80)) with (Z.to_nat p + 80)%nat by lia.
    rewrite <- skipn_skipn, E. apply skipn_app_exact. auto.
Qed.

Lemma Forall2_nth {A B} (R : A -> B -> Prop) l l' i y :
  Forall2 R l l' -> nth_error l' i = Some y -> exists x, nth_error l i = Some x /\ R x y.
Proof.
  intro F. revert i. induction F as [|a b l l' H F IH]; intros [|i] E; simpl in *; try discriminate.
  - inversion E; subst. eauto.
  - eauto.
Qed.

Lemma cards_by_position d p n cards n' r' :
  octets d -> 0 <= p -> consume_cards (mk_reader d p) n = (Ok cards, n', r') ->
  forall i c, nth_error cards i = Some c -> reads_as (slice d (p + 80 * Z.of_nat i) 80) c.
Proof.
  intros O Hp C i c N.
  apply consume_cards_inv in C as (recs & last & rest & cs & E & F & (L & HE) & F2 & NE & -> & _ & _); auto.
  assert (F80: Forall (fun r => length r = 80%nat) (recs ++ [last])).
  { apply Forall_app. split; [|auto]. eapply Forall_impl; [|exact F]. intros a (X & _). exact X. }
  assert (F3: Forall2 reads_as (recs ++ [last]) (cs ++ [CEnd])).
  { apply Forall2_app; auto. constructor; auto. left. apply record_end. auto. }
  destruct (Forall2_nth _ _ _ _ _ F3 N) as (r & Nr & R).
  rewrite (slice_concat (recs ++ [last]) d p rest i r); auto. rewrite concat_app. simpl. rewrite app_nil_r, <- app_assoc. exact E.
Qed.

Lemma undefined_preserved d p n cards n' r' i :
  octets d -> 0 <= p -> consume_cards (mk_reader d p) n = (Ok cards, n', r') ->
  Z.of_nat i < len cards ->
  let rec := slice d (p + 80 * Z.of_nat i) 80 in
  ((exists e, parse_card rec = Err e) \/ (exists t, parse_card rec = Ok (CUndefined t)) <->
   nth_error cards i = Some (CUndefined (utf8_lossy rec))) /\
  (forall t, nth_error cards i = Some (CUndefined t) -> t = utf8_lossy rec).
Proof.
  intros O Hp C Hi rec. destruct (nth_error cards i) as [c|] eqn:N.
  2:{ apply nth_error_None in N. unfold len in Hi. lia. }
  pose proof (cards_by_position _ _ _ _ _ _ O Hp C i c N) as R. fold rec in R.
  assert (Or: octets rec) by (apply Forall_slice; auto).
  assert (U: forall t, parse_card rec = Ok (CUndefined t) -> t = utf8_lossy rec).
  { intros t H. apply record_undefined_spec in H; auto. tauto. }
  destruct R as [R|((e & R) & ->)].
  - split.
    + split.
      * intros [(e & E)|(t & E)]; [congruence|]. rewrite R in E. inversion E; subst.
        rewrite (U _ R). reflexivity.
      * intro E. inversion E; subst. right. eauto.
    + intros t E. inversion E; subst. auto.
  - split; [|intros t E; inversion E; auto]. split; auto. intros _. left. eauto.
Qed.

(** ** [check_card_keyword] *)

Lemma check_keyword_spec b kw v :
  check_card_keyword b kw = Ok v <->
  firstn 8 b = kw /\ exists name, parse_card b = Ok (CValue name v).
Proof.
  unfold check_card_keyword. destruct (str_eqb (firstn 8 b) kw) eqn:E.
  - apply str_eqb_eq in E. split.
    + intro H. split; auto.
      destruct (parse_card b) as [c|e|]; try discriminate.
      destruct c; try (destruct (from_utf8 kw); discriminate). inversion H; subst. eauto.
    + intros (_ & name & ->). reflexivity.
  - apply str_eqb_neq in E. split; [destruct (from_utf8 kw); discriminate|]. tauto.
Qed.

(** ** History *)

Lemma history_spec d p n cards n' r' :
  octets d -> 0 <= p -> consume_cards (mk_reader d p) n = (Ok cards, n', r') ->
  forall t, In t (history cards) <->
    exists i, 0 <= i < len cards /\ has_keyword (slice d (p + 80 * i) 80) (chars "HISTORY") /\
      stripped_right white (sanitized (skipn 8 (slice d (p + 80 * i) 80))) t.
Proof.
  intros O Hp C t. unfold history. rewrite in_flat_map. split.
  - intros (c & I & H). destruct c; simpl in H; try tauto. destruct H as [->|[]].
    apply In_nth_error in I as (i & N).
    pose proof (cards_by_position _ _ _ _ _ _ O Hp C i _ N) as R.
    destruct R as [R|(_ & R)]; [|discriminate]. apply record_history in R as (R1 & R2).
    exists (Z.of_nat i). split; auto.
    assert (i < length cards)%nat by (apply nth_error_Some; congruence). unfold len. lia.
  - intros (i & Hi & R1 & R2).
    destruct (nth_error cards (Z.to_nat i)) as [c|] eqn:N.
    2:{ apply nth_error_None in N. unfold len in Hi. lia. }
    pose proof (cards_by_position _ _ _ _ _ _ O Hp C _ _ N) as R.
    rewrite Z2Nat.id in R by lia.
    assert (P: parse_card (slice d (p + 80 * i) 80) = Ok (CHistory t)) by (apply record_history; auto).
    exists c. split; [eapply nth_error_In; eauto|].
    destruct R as [R|((e & R) & _)]; [|congruence]. rewrite P in R. inversion R; subst. simpl; auto.
Qed.

(** ** From record to typed value *)

Lemma integer_end_to_end d p n cards n' r' i kw lead s ds trail comment m vs :
  octets d -> 0 <= p -> consume_cards (mk_reader d p) n = (Ok cards, n', r') ->
  process_cards m cards = Ok vs ->
  ordinary_keyword kw -> Forall digit ds -> ds <> [] -> opt_printable comment ->
  0 <= i < len cards ->
  slice d (p + 80 * i) 80 = value_record kw (value_field lead (int_literal s ds) trail comment) ->
  (forall j name v, i < j < len cards ->
     parse_card (slice d (p + 80 * j) 80) = Ok (CValue name v) \/
     parse_card (slice d (p + 80 * j) 80) = Ok (CHierarch name v) -> name <> kw) ->
  let x := apply_sign s (dec_value ds) in
  - 2 ^ 63 <= x <= 2 ^ 63 - 1 ->
  get vs kw = Some (VInteger x (option_map rtrim comment)) /\ get_parsed de_i64 vs kw = Ok x.
Proof.
  intros O Hp C P K Hd Hn Ho Hi E Last x Hx.
  destruct (nth_error cards (Z.to_nat i)) as [c|] eqn:N.
  2:{ apply nth_error_None in N. unfold len in Hi. lia. }
  pose proof (cards_by_position _ _ _ _ _ _ O Hp C _ _ N) as R.
  rewrite Z2Nat.id in R by lia. rewrite E in R.
  pose proof (integer_roundtrip kw lead s ds trail comment K Hd Hn Ho) as RT.
  cbv zeta in RT. fold x in RT. replace ((- 2 ^ 63 <=? x) && (x <=? 2 ^ 63 - 1)) with true in RT by lia.
  pose proof (reads_as_ok _ _ _ RT R) as ->.
  pose proof C as C'. apply consume_cards_inv in C' as (recs & last & rest & cs & _ & _ & _ & _ & NE & Ec & _ & _); auto.
  assert (Ni: (Z.to_nat i < length cs)%nat).
  { destruct (Nat.lt_ge_cases (Z.to_nat i) (length cs)) as [H|H]; auto. exfalso.
    rewrite Ec in N. rewrite nth_error_app2 in N by lia.
    destruct (Z.to_nat i - length cs)%nat as [|[|k]]; simpl in N; discriminate. }
  assert (N2: nth_error cs (Z.to_nat i) = Some (CValue kw (VInteger x (option_map rtrim comment)))).
  { rewrite Ec in N. rewrite nth_error_app1 in N; auto. }
  apply nth_error_split in N2 as (pre & post & Es & Lp).
  assert (G: get vs kw = Some (VInteger x (option_map rtrim comment))).
  { rewrite Ec in P. apply table_spec in P as (_ & _ & G).
    erewrite (G pre _ post kw); eauto; [|reflexivity|].
    - rewrite completed_closed; auto.
    - intros c' v' I D.
      apply In_nth_error in I as (j & Nj).
      assert (Nj': nth_error cards (S (Z.to_nat i) + j) = Some c').
      { rewrite Ec, Es. rewrite <- app_assoc. rewrite nth_error_app2 by lia.
        replace (S (Z.to_nat i) + j - length pre)%nat with (S j) by lia. simpl.
        rewrite nth_error_app1; auto. apply nth_error_Some. congruence. }
      pose proof (cards_by_position _ _ _ _ _ _ O Hp C _ _ Nj') as Rj.
      assert (B: i < Z.of_nat (S (Z.to_nat i) + j) < len cards).
      { assert (S (Z.to_nat i) + j < length cards)%nat by (apply nth_error_Some; congruence).
        unfold len. lia. }
      destruct Rj as [Rj|(_ & ->)]; [|discriminate].
      destruct c'; simpl in D; try discriminate; try (inversion D; subst).
      + eapply (Last _ _ _ B); eauto.
      + exfalso. destruct K as (_ & _ & K). apply K. unfold special_keyword.
        destruct x0; inversion D; auto.
      + eapply (Last _ _ _ B); eauto. }
  split; auto. apply typed_int. split; eauto.
Qed.

(** [Card::continued] and [Card::append]. *)
Lemma continued_iff c : card_continued c = true <->
  exists t, (exists n tc, c = CValue n (VString (t ++ [38]) tc) \/ c = CHierarch n (VString (t ++ [38]) tc)) \/
            (exists tc, c = CContinuation (Some (t ++ [38])) tc).
Proof.
  split.
  - destruct c as [n v|o tc| | | |n v| | |]; cbn [card_continued]; try discriminate.
    + destruct v; try discriminate. intro H. apply ends_amp_iff in H as (t & ->). exists t. left. eauto.
    + destruct o as [s|]; [|discriminate]. intro H. apply ends_amp_iff in H as (t & ->). exists t. right. eauto.
    + destruct v; try discriminate. intro H. apply ends_amp_iff in H as (t & ->). exists t. left. eauto.
  - intros (t & [(n & tc & [-> | ->])|(tc & ->)]); cbn [card_continued]; apply ends_amp_iff; eauto.
Qed.

Lemma card_append_iff m self r out : card_append m self r = Ok out <->
  exists n t tc p c, r = CContinuation p c /\
    ((self = CValue n (VString (t ++ [38]) tc) /\ out = CValue n (VString (joined t p) (joined_comment tc c))) \/
     (self = CHierarch n (VString (t ++ [38]) tc) /\ out = CHierarch n (VString (joined t p) (joined_comment tc c)))).
Proof.
  split.
  - unfold card_append. destruct (card_continued self) eqn:C; [|discriminate]. apply continued_iff in C.
    destruct r as [|p c| | | | | | |]; try discriminate.
    destruct C as (t & [(n & tc & [-> | ->])|(tc & ->)]); [| |discriminate]; rewrite value_append_joined; cbn [bind]; intro H;
      inversion H; exists n, t, tc, p, c; auto.
  - intros (n & t & tc & p & c & -> & [(-> & ->)|(-> & ->)]); unfold card_append;
      (replace (card_continued _) with true by (symmetry; apply continued_iff; eauto 10)); rewrite value_append_joined; reflexivity.
Qed.
Lemma card_append_no_error m self r e : card_append m self r <> Err e.
Proof.
  unfold card_append. destruct (card_continued self) eqn:C; [|discriminate]. apply continued_iff in C.
  destruct r as [|p c| | | | | | |]; try discriminate.
  destruct C as (t & [(n & tc & [-> | ->])|(tc & ->)]); [| |discriminate]; rewrite value_append_joined; discriminate.
Qed.
Lemma card_append_all m self r :
  (forall out, card_append m self r = Ok out <->
    exists n t tc p c, r = CContinuation p c /\
    ((self = CValue n (VString (t ++ [38]) tc) /\ out = CValue n (VString (joined t p) (joined_comment tc c))) \/
     (self = CHierarch n (VString (t ++ [38]) tc) /\ out = CHierarch n (VString (joined t p) (joined_comment tc c))))) /\
  (forall e, card_append m self r <> Err e).
Proof. split; [apply card_append_iff|apply card_append_no_error]. Qed.

(** Proofs about lookup by value and struct deserialisation. *)

From Coq Require Import Floats.SpecFloat.
From Verif Require Import Base Utf8 Text Card Reader Header Float Serde SpecUtf8 SpecCard SpecHeader SpecSerde.
From Verif Require Import TextLemmas HeaderProofs HeaderProofs2 HeaderProps.

(** ** Equality *)

Lemma opt_str_eqb_eq a b : opt_str_eqb a b = true <-> a = b.
Proof.
  destruct a as [x|], b as [y|]; cbn [opt_str_eqb]; try (split; congruence).
  rewrite str_eqb_eq. split; [intros ->; reflexivity|intros [= ->]; reflexivity].
Qed.

Lemma SFeqb_iff x y : SFeqb x y = true <-> same_f64 x y.
Proof.
  unfold same_f64, SFeqb.
  destruct x as [s|s| |s m e], y as [t|t| |t n f]; cbn [SFcompare];
    try destruct s; try destruct t; cbn [SFcompare];
    try (split; [discriminate|intros (N & [E|(a & b & E & F)]); congruence]);
    try (split; [intros _; split; [discriminate|eauto 6]|reflexivity]).
  - split.
    + destruct (Z.compare e f) eqn:C; try discriminate. apply Z.compare_eq in C. subst f.
      destruct (Pos.compare_cont Eq m n) eqn:D; cbn [CompOpp]; try discriminate.
      apply Pos.compare_eq in D. subst n. intros _. split; [discriminate|auto].
    + intros (_ & [E|(a & b & E & F)]); [|congruence]. injection E as -> ->.
      rewrite Z.compare_refl. change (Pos.compare_cont Eq n n) with (Pos.compare n n).
      rewrite Pos.compare_refl. reflexivity.
  - split.
    + destruct (Z.compare e f) eqn:C; try discriminate. apply Z.compare_eq in C. subst f.
      destruct (Pos.compare_cont Eq m n) eqn:D; try discriminate.
      apply Pos.compare_eq in D. subst n. intros _. split; [discriminate|auto].
    + intros (_ & [E|(a & b & E & F)]); [|congruence]. injection E as -> ->.
      rewrite Z.compare_refl. change (Pos.compare_cont Eq n n) with (Pos.compare n n).
      rewrite Pos.compare_refl. reflexivity.
Qed.

Lemma value_eqb_iff v w : value_eqb v w = true <-> same_value v w.
Proof.
  split.
  - destruct v, w; cbn [value_eqb]; try discriminate; rewrite ?andb_true_iff, ?opt_str_eqb_eq,
      ?str_eqb_eq, ?Z.eqb_eq, ?Bool.eqb_true_iff, ?SFeqb_iff; intros H.
    + destruct H; subst. apply same_other. discriminate.
    + destruct H; subst. apply same_float. assumption.
    + destruct H; subst. apply same_other. discriminate.
    + destruct H; subst. apply same_other. discriminate.
    + apply same_other. discriminate.
    + subst. apply same_other. discriminate.
  - intros [x y c S|u N].
    + cbn [value_eqb]. rewrite andb_true_iff, opt_str_eqb_eq, SFeqb_iff. auto.
    + destruct u; cbn [value_eqb]; rewrite ?andb_true_iff, ?opt_str_eqb_eq,
        ?str_eqb_eq, ?Z.eqb_eq, ?Bool.eqb_true_iff; auto. edestruct N. reflexivity.
Qed.

Lemma same_value_refl v : same_value v v <-> ~ nan_value v.
Proof.
  split.
  - intros S (x & c & -> & N). inversion S as [a b d (M & _)|u M]; subst; [auto|].
    apply (M x c). reflexivity.
  - intros N. destruct v; try (apply same_other; discriminate). apply same_float. split; [|auto].
    intro E. apply N. unfold nan_value. eauto.
Qed.

Lemma same_value_sym v w : same_value v w -> same_value w v.
Proof.
  intros [x y c (N & S)|u N]; [|apply same_other; exact N]. apply same_float.
  destruct S as [E|(s & t & E & F)].
  - split; [congruence|auto].
  - split; [congruence|eauto 6].
Qed.

(** ** Lookup by value *)

Lemma get_In vs k v : get vs k = Some v -> In (k, v) vs.
Proof.
  induction vs as [|(n, w) r IH]; cbn [get]; [discriminate|].
  destruct (str_eqb n k) eqn:E.
  - apply str_eqb_eq in E. subst. intros [= ->]. left. reflexivity.
  - intro H. right. auto.
Qed.

Lemma get_NoDup vs k v : NoDup (keywords vs) -> In (k, v) vs -> get vs k = Some v.
Proof.
  induction vs as [|(n, w) r IH]; cbn [get keywords map fst]; intros N I; [destruct I|].
  inversion N as [|a b N1 N2]; subst. destruct I as [[= -> ->]|I].
  - rewrite str_eqb_refl. reflexivity.
  - destruct (str_eqb n k) eqn:E; [|auto]. apply str_eqb_eq in E. subst n.
    destruct N1. change (In (fst (k, v)) (map fst r)). apply in_map. exact I.
Qed.

Lemma get_None vs k : get vs k = None <-> ~ In k (keywords vs).
Proof.
  induction vs as [|(n, w) r IH]; cbn [get keywords map fst In]; [tauto|].
  destruct (str_eqb n k) eqn:E.
  - apply str_eqb_eq in E. subst. split; [discriminate|tauto].
  - apply str_eqb_neq in E. rewrite IH. unfold keywords. tauto.
Qed.

Lemma get_keyword_some vs v k : NoDup (keywords vs) ->
  (get_keyword vs v = Some k <->
   exists p q, keywords vs = p ++ k :: q /\
     (exists w, get vs k = Some w /\ same_value w v) /\
     forall k' w, In k' p -> get vs k' = Some w -> ~ same_value w v).
Proof.
  induction vs as [|(n, w) r IH]; intros N.
  - cbn. split; [discriminate|]. intros (p & q & E & _). destruct p; discriminate.
  - cbn [keywords map fst] in N |- *. inversion N as [|a b N1 N2]; subst.
    specialize (IH N2). cbn [get_keyword get]. destruct (value_eqb w v) eqn:E.
    + apply value_eqb_iff in E. split.
      * intros [= <-]. exists [], (keywords r). split; [reflexivity|]. split.
        { exists w. rewrite str_eqb_refl. auto. }
        { intros ? ? []. }
      * intros (p & q & P & _ & M). destruct p as [|k' p].
        { injection P as -> _. reflexivity. }
        { injection P as -> P. destruct (M k' w); auto; [left; reflexivity|].
          rewrite str_eqb_refl. reflexivity. }
    + assert (D : ~ same_value w v) by (rewrite <- value_eqb_iff; congruence).
      rewrite IH. split.
      * intros (p & q & P & (u & G & S) & M). exists (n :: p), q. split; [unfold keywords in P; rewrite P; reflexivity|].
        assert (NE : forall x, In x (keywords r) -> str_eqb n x = false).
        { intros x I. apply str_eqb_neq. intros <-. apply N1, I. }
        split.
        { exists u. rewrite NE; [auto|]. rewrite P. apply in_elt. }
        intros k' w' [<-|I] G'.
        { rewrite str_eqb_refl in G'. injection G' as <-. exact D. }
        { rewrite NE in G'; [eapply M; eauto|]. rewrite P. apply in_or_app. auto. }
      * intros (p & q & P & (u & G & S) & M). destruct p as [|k' p].
        { injection P as -> _. rewrite str_eqb_refl in G. injection G as ->. tauto. }
        injection P as -> P.
        assert (NE : forall x, In x (keywords r) -> str_eqb k' x = false).
        { intros x I. apply str_eqb_neq. intros <-. apply N1, I. }
        exists p, q. split; [exact P|]. rewrite NE in G; [|unfold keywords; rewrite P; apply in_elt]. split; [eauto|].
        intros k2 w2 I G2. apply (M k2 w2); [right; exact I|]. rewrite NE; [exact G2|].
        unfold keywords. rewrite P. apply in_or_app. auto.
Qed.

Lemma get_keyword_none vs v : NoDup (keywords vs) ->
  (get_keyword vs v = None <-> forall k w, get vs k = Some w -> ~ same_value w v).
Proof.
  intros N. destruct (get_keyword vs v) as [k|] eqn:E.
  - split; [discriminate|]. intros H. apply get_keyword_some in E as (p & q & _ & (w & G & S) & _); [|exact N].
    destruct (H k w G S).
  - split; [|reflexivity]. intros _ k w G S. apply get_In in G. clear N. revert E G.
    induction vs as [|(n, u) r IH]; cbn [get_keyword In]; [tauto|].
    destruct (value_eqb u v) eqn:V; [discriminate|]. intros E [[= -> ->]|I]; [|auto].
    apply value_eqb_iff in S. congruence.
Qed.

(** Looking up the value of a keyword. *)
Lemma get_keyword_of_get vs k v : NoDup (keywords vs) -> get vs k = Some v -> ~ nan_value v ->
  exists p q k', keywords vs = p ++ k' :: q /\ ~ In k p /\ get_keyword vs v = Some k' /\
    exists w, get vs k' = Some w /\ same_value w v.
Proof.
  intros N G V. apply same_value_refl in V. destruct (get_keyword vs v) as [k'|] eqn:E.
  - pose proof E as E'. apply get_keyword_some in E as (p & q & P & W & M); [|exact N].
    exists p, q, k'. repeat split; auto. intros I. exact (M k v I G V).
  - apply (proj1 (get_keyword_none vs v N)) with (k := k) (w := v) in E; tauto.
Qed.

(** ** Cards and headers *)

Lemma card_eqb_refl c : card_eqb c c = true <-> ~ nan_card c.
Proof.
  unfold nan_card. destruct c; cbn [card_eqb]; rewrite ?andb_true_iff, ?str_eqb_refl, ?opt_str_eqb_eq.
  - rewrite value_eqb_iff, same_value_refl. split.
    + intros (_ & N) (n & w & [[= <- <-]|[=]] & K). auto.
    + intros N. split; [reflexivity|]. intro H. apply N. eauto 6.
  - split; [intros _ (n & w & [K|K] & _); discriminate K|auto].
  - split; [intros _ (n & w & [K|K] & _); discriminate K|]. intros _. destruct x; auto.
  - split; [intros _ (n & w & [K|K] & _); discriminate K|auto].
  - split; [intros _ (n & w & [K|K] & _); discriminate K|auto].
  - rewrite value_eqb_iff, same_value_refl. split.
    + intros (_ & N) (n & w & [[=]|[= <- <-]] & K). auto.
    + intros N. split; [reflexivity|]. intro H. apply N. eauto 6.
  - split; [intros _ (n & w & [K|K] & _); discriminate K|auto].
  - split; [intros _ (n & w & [K|K] & _); discriminate K|auto].
  - split; [intros _ (n & w & [K|K] & _); discriminate K|auto].
Qed.

Lemma cards_eqb_refl l : cards_eqb l l = true <-> Forall (fun c => ~ nan_card c) l.
Proof.
  induction l as [|c l IH]; cbn [cards_eqb]; [split; auto|].
  rewrite andb_true_iff, card_eqb_refl, IH. split; [intros (A & B); auto|].
  intros H. inversion H; subst. auto.
Qed.

Lemma vmap_eqb_refl vs : NoDup (keywords vs) ->
  (vmap_eqb vs vs = true <-> forall k v, get vs k = Some v -> ~ nan_value v).
Proof.
  intros N. unfold vmap_eqb. rewrite Z.eqb_refl. cbn [andb]. rewrite forallb_forall. split.
  - intros H k v G. specialize (H (k, v) (get_In _ _ _ G)). cbn in H. rewrite G in H.
    apply value_eqb_iff, same_value_refl in H. exact H.
  - intros H (k, v) I. cbn. pose proof (get_NoDup _ _ _ N I) as G. rewrite G.
    apply value_eqb_iff, same_value_refl. eauto.
Qed.


(** Two maps are equal when they hold the same keywords with the same values, in any order. *)
Lemma vmap_eqb_iff a b : NoDup (keywords a) -> NoDup (keywords b) ->
  (vmap_eqb a b = true <->
   (forall k, In k (keywords a) <-> In k (keywords b)) /\
   forall k v w, get a k = Some v -> get b k = Some w -> same_value v w).
Proof.
  intros NA NB. unfold vmap_eqb. rewrite andb_true_iff, forallb_forall, Z.eqb_eq. split.
  - intros (L & H).
    assert (INC : incl (keywords a) (keywords b)).
    { intros k I. apply in_map_iff in I as ((k0 & v) & E & I). cbn in E. subst k0.
      specialize (H _ I). cbn in H. destruct (get b k) as [w|] eqn:G; [|discriminate].
      apply get_In in G. change k with (fst (k, w)). apply in_map. exact G. }
    split.
    + intros k. split; [apply INC|].
      assert (INC2 : incl (keywords b) (keywords a)).
      { apply NoDup_length_incl; auto. unfold keywords. rewrite !map_length. unfold len in L. lia. }
      apply INC2.
    + intros k v w GA GB. specialize (H _ (get_In _ _ _ GA)). cbn in H. rewrite GB in H.
      apply value_eqb_iff. exact H.
  - intros (K & S). split.
    + unfold len. assert (length (keywords a) = length (keywords b)) as E.
      { apply Nat.le_antisymm; apply NoDup_incl_length; auto; intros k; apply K. }
      unfold keywords in E. rewrite !map_length in E. lia.
    + intros (k, v) I. cbn. destruct (get b k) as [w|] eqn:G.
      * apply value_eqb_iff. eapply S; eauto. apply get_NoDup; auto.
      * apply get_None in G. destruct G. apply K. change k with (fst (k, v)). apply in_map. exact I.
Qed.

(** ** Structs *)

Section Struct.
Context {A : Type}.
Implicit Types (fs : list (field A)) (slots : list (option A)).

Lemma field_index_some fs k i : field_index fs k = Some i ->
  exists f, nth_error fs i = Some f /\ fd_name f = k.
Proof.
  revert i. induction fs as [|f r IH]; cbn [field_index]; intros i H; [discriminate|].
  destruct (str_eqb (fd_name f) k) eqn:E.
  - injection H as <-. apply str_eqb_eq in E. exists f. auto.
  - destruct (field_index r k) as [j|] eqn:F; [|discriminate]. injection H as <-. cbn. auto.
Qed.

Lemma field_index_nth fs i f : NoDup (map fd_name fs) -> nth_error fs i = Some f ->
  field_index fs (fd_name f) = Some i.
Proof.
  revert i. induction fs as [|g r IH]; intros i N H; [destruct i; discriminate|].
  cbn [map] in N. inversion N as [|a b N1 N2]; subst. destruct i as [|i]; cbn [nth_error field_index] in *.
  - injection H as ->. rewrite str_eqb_refl. reflexivity.
  - destruct (str_eqb (fd_name g) (fd_name f)) eqn:E.
    + apply str_eqb_eq in E. destruct N1. rewrite E. apply in_map. eapply nth_error_In; eauto.
    + rewrite (IH i); auto.
Qed.

Lemma field_index_none fs k : field_index fs k = None <-> ~ In k (map fd_name fs).
Proof.
  induction fs as [|f r IH]; cbn [field_index map In]; [tauto|].
  destruct (str_eqb (fd_name f) k) eqn:E.
  - apply str_eqb_eq in E. split; [discriminate|tauto].
  - apply str_eqb_neq in E. destruct (field_index r k); cbn [option_map].
    + split; [discriminate|]. intros H. destruct IH as [_ IH]. discriminate IH. tauto.
    + tauto.
Qed.

Lemma set_slot_length slots i a : length (set_slot slots i a) = length slots.
Proof. revert i. induction slots; intros [|i]; cbn; auto. Qed.

Lemma set_slot_same slots i a : (i < length slots)%nat -> nth_error (set_slot slots i a) i = Some (Some a).
Proof. revert i. induction slots; intros [|i]; cbn; intros; try lia; auto. apply IHslots. lia. Qed.

Lemma set_slot_other slots i j a : i <> j -> nth_error (set_slot slots i a) j = nth_error slots j.
Proof. revert i j. induction slots; intros [|i] [|j]; cbn; intros; try congruence; auto. Qed.

Lemma nth_error_ext {B} (l l' : list B) : length l = length l' ->
  (forall i, (i < length l)%nat -> nth_error l i = nth_error l' i) -> l = l'.
Proof.
  revert l'. induction l as [|x l IH]; intros [|y l'] L H; cbn in L; try discriminate; [reflexivity|].
  f_equal.
  - specialize (H 0%nat). cbn in H. assert (Some x = Some y) by (apply H; lia). congruence.
  - apply IH; [lia|]. intros i I. apply (H (S i)). cbn. lia.
Qed.

Lemma visit_entries_iff deny fs es slots slots' :
  NoDup (map fd_name fs) -> NoDup (keywords es) -> length slots = length fs ->
  (forall i f, nth_error fs i = Some f -> In (fd_name f) (keywords es) -> nth_error slots i = Some None) ->
  (visit_entries deny fs es slots = Ok slots' <->
   (deny = true -> forall k, In k (keywords es) -> In k (map fd_name fs)) /\
   length slots' = length fs /\
   forall i f, nth_error fs i = Some f ->
     match get es (fd_name f) with
     | Some v => exists a, fd_de f v = Ok a /\ nth_error slots' i = Some (Some a)
     | None => nth_error slots' i = nth_error slots i
     end).
Proof.
  intros NF. revert slots. induction es as [|(k, v) r IH]; intros slots NK L E.
  - cbn [visit_entries get]. split.
    + intros [= <-]. repeat split; auto. intros _ k [].
    + intros (_ & L' & H). f_equal. apply nth_error_ext; [congruence|]. intros i I.
      destruct (nth_error fs i) as [f|] eqn:F; [symmetry; eauto|].
      apply nth_error_None in F. lia.
  - cbn [keywords map fst] in NK, E. inversion NK as [|x y NK1 NK2]; subst.
    cbn [visit_entries keywords map fst]. destruct (field_index fs k) as [i|] eqn:FI.
    + apply field_index_some in FI as (f & F & FN).
      rewrite F. rewrite (E i f F); [|left; auto].
      assert (I : (i < length slots)%nat).
      { rewrite L. apply nth_error_Some. congruence. }
      assert (UN : forall j g, nth_error fs j = Some g -> j <> i -> fd_name g <> k).
      { intros j g G J K. rewrite <- FN in K. pose proof (field_index_nth _ _ _ NF F) as A1.
        pose proof (field_index_nth _ _ _ NF G) as A2. congruence. }
      destruct (fd_de f v) as [a| |] eqn:D; cbn [bind].
      * rewrite (IH (set_slot slots i a)); auto.
        { split; intros (H1 & H2 & H3); (split; [|split; [exact H2|]]).
          - intros DN k' [<-|K]; [|auto]. rewrite <- FN. apply in_map. eapply nth_error_In; eauto.
          - intros j g G. specialize (H3 j g G). cbn [get].
            destruct (Nat.eq_dec j i) as [->|J].
            + assert (g = f) by congruence. subst g. rewrite FN, str_eqb_refl in *.
              destruct (get r k) eqn:GR.
              { apply get_In in GR. destruct NK1. change k with (fst (k, v0)). apply in_map. exact GR. }
              exists a. split; [exact D|]. rewrite H3. apply set_slot_same. exact I.
            + specialize (UN j g G J). assert (str_eqb k (fd_name g) = false) as -> by (apply str_eqb_neq; auto).
              rewrite set_slot_other in H3; auto.
          - intros DN k' K. apply H1; [exact DN|right; exact K].
          - intros j g G. specialize (H3 j g G). cbn [get] in H3.
            destruct (Nat.eq_dec j i) as [->|J].
            + assert (g = f) by congruence. subst g. rewrite FN, str_eqb_refl in *.
              destruct (get r k) eqn:GR.
              { apply get_In in GR. destruct NK1. change k with (fst (k, v0)). apply in_map. exact GR. }
              destruct H3 as (a' & D' & S). rewrite set_slot_same; auto. congruence.
            + specialize (UN j g G J). assert (str_eqb k (fd_name g) = false) as EK by (apply str_eqb_neq; auto).
              rewrite EK in H3. rewrite set_slot_other; auto. }
        { rewrite set_slot_length. exact L. }
        { intros j g G K. destruct (Nat.eq_dec j i) as [->|J].
          - assert (g = f) by congruence. subst g. rewrite FN in K. destruct NK1. exact K.
          - rewrite set_slot_other by auto. apply (E j g G). right. exact K. }
      * split; [discriminate|]. intros (_ & _ & H). specialize (H i f F). cbn [get] in H.
        rewrite FN, str_eqb_refl in H. destruct H as (a & D' & _). congruence.
      * split; [discriminate|]. intros (_ & _ & H). specialize (H i f F). cbn [get] in H.
        rewrite FN, str_eqb_refl in H. destruct H as (a & D' & _). congruence.
    + apply field_index_none in FI. destruct deny.
      { split; [discriminate|]. intros (H & _). destruct FI. apply H; [reflexivity|left; reflexivity]. }
      rewrite IH; auto; [|intros; eapply E; eauto; right; assumption].
      assert (UN : forall j g, nth_error fs j = Some g -> str_eqb k (fd_name g) = false).
      { intros j g G. apply str_eqb_neq. intros ->. apply FI, in_map. eapply nth_error_In; eauto. }
      split; intros (H1 & H2 & H3); (split; [discriminate|split; [exact H2|]]).
      * intros j g G. cbn [get]. rewrite (UN j g G). exact (H3 j g G).
      * intros j g G. specialize (H3 j g G). cbn [get] in H3. rewrite (UN j g G) in H3. exact H3.
Qed.

Lemma fill_missing_iff fs slots l : length slots = length fs ->
  (fill_missing fs slots = Ok l <->
   length l = length fs /\
   forall i f, nth_error fs i = Some f ->
     exists a, nth_error l i = Some a /\
       (nth_error slots i = Some (Some a) \/ nth_error slots i = Some None /\ fd_missing f = Some a)).
Proof.
  revert slots l. induction fs as [|f fs IH]; intros [|s slots] l L; cbn in L; try discriminate.
  - cbn. split.
    + intros [= <-]. split; [reflexivity|]. intros [|i] f; discriminate.
    + intros (H & _). destruct l; [reflexivity|discriminate].
  - cbn [fill_missing]. split.
    + intros H.
      destruct (match s with Some a => Ok a | None => match fd_missing f with Some a => Ok a | None => Err EDynamic end end)
        as [a| |] eqn:S; cbn [bind] in H; try discriminate.
      destruct (fill_missing fs slots) as [l'| |] eqn:F; cbn [bind] in H; try discriminate.
      injection H as <-. apply IH in F as (L' & F); [|lia]. split; [cbn; lia|].
      intros [|i] g G; cbn [nth_error] in *; [|auto]. injection G as <-. exists a. split; [reflexivity|].
      destruct s as [b|]; [left; congruence|right]. destruct (fd_missing f); split; congruence.
    + intros (L' & H). destruct l as [|a l]; [discriminate|].
      assert (F : fill_missing fs slots = Ok l).
      { apply IH; [lia|]. split; [cbn in L'; lia|]. intros i g G. apply (H (S i) g G). }
      destruct (H 0%nat f eq_refl) as (b & E & S). cbn in E. injection E as <-. cbn [nth_error] in S.
      destruct S as [S|(S & M)]; injection S as ->; [|rewrite M]; cbn [bind]; rewrite F; reflexivity.
Qed.

Lemma Forall2_nth_iff {B C} (R : B -> C -> Prop) l l' :
  Forall2 R l l' <-> length l' = length l /\
    forall i x, nth_error l i = Some x -> exists y, nth_error l' i = Some y /\ R x y.
Proof.
  split.
  - intros H. induction H as [|x y l l' P H IH].
    + split; [reflexivity|]. intros [|i] x; discriminate.
    + destruct IH as (L & IH). split; [cbn; lia|]. intros [|i] z; cbn [nth_error]; [|auto].
      intros [= <-]. eauto.
  - revert l'. induction l as [|x l IH]; intros [|y l'] (L & H); cbn in L; try discriminate; constructor.
    + destruct (H 0%nat x eq_refl) as (z & E & P). cbn in E. congruence.
    + apply IH. split; [lia|]. intros i z. apply (H (S i) z).
Qed.

Lemma de_struct_iff deny fs vs l :
  NoDup (map fd_name fs) -> NoDup (keywords vs) ->
  (de_struct deny fs vs = Ok l <->
   (deny = true -> forall k, In k (keywords vs) -> In k (map fd_name fs)) /\
   Forall2 (fun f a => field_reads vs (fd_name f) (fd_de f) (fd_missing f) a) fs l).
Proof.
  intros NF NK. unfold de_struct, field_reads.
  set (s0 := map (fun _ => None) fs).
  assert (L0 : length s0 = length fs) by apply map_length.
  assert (E0 : forall i f, nth_error fs i = Some f -> nth_error s0 i = Some None).
  { intros i f F. unfold s0. rewrite nth_error_map, F. reflexivity. }
  rewrite Forall2_nth_iff. split.
  - intros H. destruct (visit_entries deny fs vs s0) as [s1| |] eqn:V; cbn [bind] in H; try discriminate.
    apply visit_entries_iff in V as (D & L1 & V); auto; [|eauto].
    apply fill_missing_iff in H as (L & H); [|exact L1]. split; [exact D|]. split; [exact L|].
    intros i f F. destruct (H i f F) as (a & LA & S). exists a. split; [exact LA|].
    specialize (V i f F). destruct (get vs (fd_name f)) as [v|].
    + destruct V as (b & DB & S'). left. exists v. split; [reflexivity|].
      destruct S as [S|(S & _)]; congruence.
    + right. split; [reflexivity|]. rewrite (E0 i f F) in V. destruct S as [S|(S & M)]; congruence.
  - intros (D & L & H).
    set (pick := fun f : field A => match get vs (fd_name f) with
                          | Some v => ok (fd_de f v) | None => None end).
    assert (V : visit_entries deny fs vs s0 = Ok (map pick fs)).
    { apply visit_entries_iff; auto; [eauto|]. split; [exact D|]. split; [apply map_length|].
      intros i f F. rewrite nth_error_map, F. cbn [option_map]. unfold pick.
      destruct (H i f F) as (a & _ & [(v & G & DV)|(G & M)]); rewrite G.
      - exists a. rewrite DV. auto.
      - symmetry. eauto. }
    rewrite V. cbn [bind]. apply fill_missing_iff; [apply map_length|]. split; [exact L|].
    intros i f F. destruct (H i f F) as (a & LA & S). exists a. split; [exact LA|].
    rewrite nth_error_map, F. cbn [option_map]. unfold pick.
    destruct S as [(v & G & DV)|(G & M)]; rewrite G; [left; rewrite DV|right]; auto.
Qed.

Lemma visit_entries_total deny fs es slots : (forall f v, In f fs -> fd_de f v <> Panic) ->
  visit_entries deny fs es slots <> Panic.
Proof.
  intros P. revert slots. induction es as [|(k, v) r IH]; intros slots; cbn [visit_entries]; [discriminate|].
  destruct (field_index fs k) as [i|].
  - destruct (nth_error slots i) as [[x|]|]; try discriminate.
    destruct (nth_error fs i) as [f|] eqn:F; [|discriminate].
    destruct (fd_de f v) as [a| |] eqn:D; cbn [bind]; [apply IH|discriminate|].
    destruct (P f v); auto. eapply nth_error_In; eauto.
  - destruct deny; [discriminate|apply IH].
Qed.

Lemma fill_missing_total fs slots : fill_missing fs slots <> Panic.
Proof.
  revert slots. induction fs as [|f fs IH]; intros [|s slots]; cbn [fill_missing]; try discriminate.
  specialize (IH slots).
  destruct s as [x|]; [|destruct (fd_missing f) as [a|]]; cbn [bind]; try discriminate;
    destruct (fill_missing fs slots); cbn [bind]; congruence.
Qed.

Lemma de_struct_total deny fs vs : (forall f v, In f fs -> fd_de f v <> Panic) ->
  de_struct deny fs vs <> Panic.
Proof.
  intros P. unfold de_struct. pose proof (visit_entries_total deny fs vs (map (fun _ => None) fs) P) as V.
  destruct (visit_entries deny fs vs _) as [s| |]; cbn [bind]; try congruence. apply fill_missing_total.
Qed.
End Struct.

Lemma res_map_total {A B} (f : A -> B) x : x <> Panic -> res_map f x <> Panic.
Proof. unfold res_map. destruct x; cbn [bind]; congruence. Qed.

Lemma de_int_total lo hi v : de_int lo hi v <> Panic.
Proof. destruct v; cbn [de_int]; try discriminate. destruct ((lo <=? v) && (v <=? hi)); discriminate. Qed.

Lemma de_ftype_total t v : de_ftype t v <> Panic.
Proof.
  induction t; cbn [de_ftype]; apply res_map_total.
  - apply de_int_total.
  - destruct v; discriminate.
  - destruct v; discriminate.
  - destruct v; discriminate.
  - unfold de_bitpix. destruct (de_i8 v) as [i| |] eqn:E; cbn [bind]; try discriminate.
    + repeat (destruct (i =? _)); discriminate.
    + destruct (de_int_total (-128) 127 v E).
  - unfold de_option. destruct v; try discriminate;
      match goal with |- (let! a := ?x in _) <> _ => destruct x as [y| |] eqn:E end; cbn [bind];
      try discriminate; exfalso; apply IHt; unfold res_map; rewrite E || (cbn in E; try discriminate); auto.
Qed.

(** A missing keyword is the typed lookup of an undefined value. *)
Lemma typed_missing nt a : fd_missing (typed_field nt) = Some a <-> de_ftype (snd nt) VUndefined = Ok a.
Proof.
  destruct nt as (n, t). destruct t; cbn; try (split; discriminate). split; intros [= <-]; reflexivity.
Qed.

Lemma typed_struct deny nts vs l :
  NoDup (map fst nts) -> NoDup (keywords vs) ->
  (de_struct deny (map typed_field nts) vs = Ok l <->
   (deny = true -> forall k, In k (keywords vs) -> In k (map fst nts)) /\
   Forall2 (fun nt a => get_parsed (de_ftype (snd nt)) vs (fst nt) = Ok a) nts l).
Proof.
  intros NF NK. assert (M : map fd_name (map typed_field nts) = map fst nts).
  { rewrite map_map. apply map_ext. intros nt. reflexivity. }
  rewrite de_struct_iff; [|rewrite M; exact NF|exact NK]. rewrite M.
  assert (X : Forall2 (fun f a => field_reads vs (fd_name f) (fd_de f) (fd_missing f) a) (map typed_field nts) l
              <-> Forall2 (fun nt a => get_parsed (de_ftype (snd nt)) vs (fst nt) = Ok a) nts l).
  { assert (R : forall nt a, field_reads vs (fd_name (typed_field nt)) (fd_de (typed_field nt)) (fd_missing (typed_field nt)) a
                 <-> get_parsed (de_ftype (snd nt)) vs (fst nt) = Ok a).
    { intros nt a. unfold field_reads, get_parsed. rewrite typed_missing. cbn [typed_field fd_name fd_de].
      destruct (get vs (fst nt)) as [v|]; cbn [value_or_undefined].
      - split; [intros [(w & [= ->] & H)|([=] & _)]; exact H|eauto].
      - split; [intros [(w & [=] & H)|(_ & H)]; exact H|auto]. }
    clear NF M. revert l. induction nts as [|nt nts IH]; intros l; cbn [map].
    - split; intros H; inversion H; constructor.
    - split; intros H; inversion H; subst; constructor; try (apply R; assumption); apply IH; assumption. }
  rewrite X. reflexivity.
Qed.

(** ** For headers *)

Lemma struct_of_header m cards vs deny nts l :
  process_cards m (cards ++ [CEnd]) = Ok vs -> NoDup (map fst nts) ->
  (de_struct deny (map typed_field nts) vs = Ok l <->
   (deny = true -> forall k, In k (keywords vs) -> In k (map fst nts)) /\
   Forall2 (fun nt a => get_parsed (de_ftype (snd nt)) vs (fst nt) = Ok a) nts l).
Proof. intros P N. apply typed_struct; [exact N|]. eapply keywords_once; eauto. Qed.

Lemma fields_of_header {A} m cards vs deny (fs : list (field A)) l :
  process_cards m (cards ++ [CEnd]) = Ok vs -> NoDup (map fd_name fs) ->
  (de_struct deny fs vs = Ok l <->
   (deny = true -> forall k, In k (keywords vs) -> In k (map fd_name fs)) /\
   Forall2 (fun f a => field_reads vs (fd_name f) (fd_de f) (fd_missing f) a) fs l).
Proof. intros P N. apply de_struct_iff; [exact N|]. eapply keywords_once; eauto. Qed.

Lemma struct_total deny nts vs : de_struct deny (map typed_field nts) vs <> Panic.
Proof.
  apply de_struct_total. intros f v I. apply in_map_iff in I as (nt & <- & _). apply de_ftype_total.
Qed.

Lemma struct_local m1 m2 cards1 cards2 vs1 vs2 nts l :
  process_cards m1 (cards1 ++ [CEnd]) = Ok vs1 -> process_cards m2 (cards2 ++ [CEnd]) = Ok vs2 ->
  NoDup (map fst nts) -> (forall k, In k (map fst nts) -> get vs1 k = get vs2 k) ->
  de_struct false (map typed_field nts) vs1 = Ok l -> de_struct false (map typed_field nts) vs2 = Ok l.
Proof.
  intros P1 P2 N E H. apply (struct_of_header m1 cards1) in H as (_ & H); auto.
  apply (struct_of_header m2 cards2); auto. split; [discriminate|].
  clear N. revert E. induction H as [|nt a nts l R H IH]; intros E; constructor.
  - unfold get_parsed in *. rewrite <- E; [exact R|left; reflexivity].
  - apply IH. intros k I. apply E. right. exact I.
Qed.

Lemma keyword_some m cards vs v k :
  process_cards m (cards ++ [CEnd]) = Ok vs ->
  (get_keyword vs v = Some k <->
   exists p q, keywords vs = p ++ k :: q /\
     (exists w, get vs k = Some w /\ same_value w v) /\
     forall k' w, In k' p -> get vs k' = Some w -> ~ same_value w v).
Proof. intros P. apply get_keyword_some. eapply keywords_once; eauto. Qed.

Lemma keyword_none m cards vs v :
  process_cards m (cards ++ [CEnd]) = Ok vs ->
  (get_keyword vs v = None <-> forall k w, get vs k = Some w -> ~ same_value w v).
Proof. intros P. apply get_keyword_none. eapply keywords_once; eauto. Qed.

Lemma keyword_of_value m cards vs k v :
  process_cards m (cards ++ [CEnd]) = Ok vs -> get vs k = Some v -> ~ nan_value v ->
  exists p q k', keywords vs = p ++ k' :: q /\ ~ In k p /\ get_keyword vs v = Some k' /\
    exists w, get vs k' = Some w /\ same_value w v.
Proof. intros P. apply get_keyword_of_get. eapply keywords_once; eauto. Qed.

Lemma header_maps_equal m1 m2 cards1 cards2 a b :
  process_cards m1 (cards1 ++ [CEnd]) = Ok a -> process_cards m2 (cards2 ++ [CEnd]) = Ok b ->
  (vmap_eqb a b = true <->
   (forall k, In k (keywords a) <-> In k (keywords b)) /\
   forall k v w, get a k = Some v -> get b k = Some w -> same_value v w).
Proof. intros P Q. apply vmap_eqb_iff; eapply keywords_once; eauto. Qed.

(** ** Fields and cards, by what they are *)

Lemma de_ftype_holds : forall t v a, de_ftype t v = Ok a <-> holds t v a.
Proof.
  induction t as [lo hi| | | | |t IH]; intros v a; split.
  - destruct v; cbn; try discriminate. destruct ((lo <=? _) && (_ <=? hi)) eqn:E; cbn; [|discriminate].
    intros [= <-]. constructor. lia.
  - intro H. inversion H; subst. cbn. replace ((lo <=? i) && (i <=? hi)) with true by lia. reflexivity.
  - destruct v; cbn; try discriminate; intros [= <-]; constructor.
  - intro H. inversion H; reflexivity.
  - destruct v; cbn; try discriminate; intros [= <-]; constructor.
  - intro H. inversion H; reflexivity.
  - destruct v; cbn; try discriminate; intros [= <-]; constructor.
  - intro H. inversion H; reflexivity.
  - cbn [de_ftype]. unfold de_bitpix, de_i8. destruct v as [i c| | | | |]; cbn [de_int bind res_map]; try discriminate.
    destruct ((-128 <=? i) && (i <=? 127)); cbn [bind res_map]; [|discriminate].
    repeat match goal with
    | |- context [if i =? ?k then _ else _] =>
        destruct (Z.eqb_spec i k); [subst i; cbn; intros [= <-]; constructor; cbn; tauto|]
    end. discriminate.
  - intro H. inversion H as [| | | | | |i b c I| |]; subst. cbn in I.
    repeat (destruct I as [[= <- <-]|I]; [reflexivity|]). contradiction.
  - cbn [de_ftype]. intro H. destruct v; cbn in H; try (injection H as <-; constructor);
      (match type of H with context [de_ftype t ?v] => destruct (de_ftype t v) as [x|e|] eqn:E end;
       cbn in H; try discriminate; injection H as <-; apply holds_some; [discriminate|apply IH; exact E]).
  - intro H. inversion H as [| | | | | | |t' |t' v' a' N K]; subst; [reflexivity|].
    apply IH in K. cbn [de_ftype]. destruct v; cbn [de_option]; try congruence; rewrite K; reflexivity.
Qed.

Lemma struct_holds m cards vs deny nts l :
  process_cards m (cards ++ [CEnd]) = Ok vs -> NoDup (map fst nts) ->
  (de_struct deny (map typed_field nts) vs = Ok l <->
   (deny = true -> forall k, In k (keywords vs) -> In k (map fst nts)) /\
   Forall2 (fun nt a => (exists v, get vs (fst nt) = Some v /\ holds (snd nt) v a) \/
                        (get vs (fst nt) = None /\ (exists t, snd nt = TOption t) /\ a = DNone)) nts l).
Proof.
  intros P N. rewrite (struct_of_header m cards vs deny nts l P N).
  assert (E : forall nt a, get_parsed (de_ftype (snd nt)) vs (fst nt) = Ok a <->
    (exists v, get vs (fst nt) = Some v /\ holds (snd nt) v a) \/
    (get vs (fst nt) = None /\ (exists t, snd nt = TOption t) /\ a = DNone)).
  { intros (k, t) a. cbn [fst snd]. unfold get_parsed. rewrite de_ftype_holds.
    destruct (get vs k) as [v|]; cbn [value_or_undefined].
    - split; [eauto|]. intros [(w & [= <-] & H)|([=] & _)]. exact H.
    - split.
      + intro H. right. inversion H; subst; [eauto|congruence].
      + intros [(w & [=] & _)|(_ & (t' & ->) & ->)]. constructor. }
  assert (G : forall P Q : str * ftype -> fdata -> Prop, (forall nt a, P nt a -> Q nt a) ->
    forall x y, Forall2 P x y -> Forall2 Q x y) by (intros A B H x y K; induction K; auto).
  split; intros (D & F); (split; [exact D|]); revert F; apply G; intros nt a; apply E.
Qed.

Lemma card_eqb_iff c d : card_eqb c d = true <-> same_card c d.
Proof.
  split.
  - destruct c, d; cbn [card_eqb]; try discriminate; rewrite ?andb_true_iff, ?opt_str_eqb_eq, ?str_eqb_eq, ?value_eqb_iff;
      intro H; repeat match goal with H : _ /\ _ |- _ => destruct H end; subst;
      try (constructor; (assumption || discriminate)).
    destruct x, x0; try discriminate; constructor; discriminate.
  - intro H. inversion H as [n v w V|n v w V|c' A B]; subst; cbn [card_eqb].
    + now rewrite andb_true_iff, str_eqb_eq, value_eqb_iff.
    + now rewrite andb_true_iff, str_eqb_eq, value_eqb_iff.
    + apply card_eqb_refl. intros (n & v & [E | E] & _); subst; [now apply (A n v)|now apply (B n v)].
Qed.

Lemma cards_eqb_iff : forall a b, cards_eqb a b = true <-> Forall2 same_card a b.
Proof.
  induction a as [|c a IH]; intros [|d b]; cbn [cards_eqb]; split; try discriminate; try (intro H; now inversion H); auto.
  - rewrite andb_true_iff, card_eqb_iff, IH. intros (H & K). now constructor.
  - intro H. inversion H; subst. rewrite andb_true_iff, card_eqb_iff, IH. auto.
Qed.

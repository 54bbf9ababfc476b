(** Proofs for the binary tables of a FITS file that lies behind other bytes of its source. *)

From Coq Require Import List Lia ZifyBool.
From Verif Require Import Base Text Card Reader Header Xtension Bytes Fits BinTable.
From Verif Require Import SpecUtf8 SpecCard SpecHeader SpecXt SpecFits SpecImage SpecBin SpecBehind.
From Verif Require Import HeaderProofs FitsProofs FitsProofs4 BytesProofs BinProofs BinProofs3 WriteProofs3 BehindProofs BehindProofs2.
Local Open Scope list_scope.
Local Open Scope Z_scope.

(** The same slot with its byte [j] bytes further on. *)
Definition same_slot (j : Z) (x y : slot) : Prop :=
  match x, y with
  | SElem t p c i, SElem t' p' c' i' => t' = t /\ p' = p + j /\ c' = c /\ i' = i /\ 0 <= p
  | SDesc w p, SDesc w' p' => w' = w /\ p' = p + j /\ 0 <= p
  | _, _ => False
  end.

Lemma slice_behind (junk d : list Z) p n : 0 <= p -> slice (junk ++ d) (p + len junk) n = slice d p n.
Proof. intro P. rewrite slice_app_r by lia. f_equal. lia. Qed.

Lemma same_value junk d x y v w : same_slot (len junk) x y ->
  slot_value d x v -> slot_value (junk ++ d) y w -> w = v.
Proof.
  intros S V W. apply (slot_value_inj d x); [|exact V]. destruct x as [t p c i|b p], y as [t' p' c' i'|b' p']; try contradiction.
  - destruct S as (-> & -> & -> & -> & P). destruct W as (z & -> & W). rewrite slice_behind in W by exact P. exists z. auto.
  - destruct S as (-> & -> & P). cbn in *. destruct b; rewrite W; rewrite slice_behind by exact P.
    + replace (p + len junk + 8) with (p + 8 + len junk) by lia. now rewrite slice_behind by lia.
    + replace (p + len junk + 4) with (p + 4 + len junk) by lia. now rewrite slice_behind by lia.
Qed.

Lemma in_upto n i : In i (upto n) -> 0 <= i.
Proof. unfold upto. rewrite in_map_iff. intros (k & <- & _). lia. Qed.

Lemma same_map {A} j (f g : A -> slot) l : (forall x, In x l -> same_slot j (f x) (g x)) ->
  Forall2 (same_slot j) (map f l) (map g l).
Proof.
  induction l as [|x l IH]; intro H; cbn; constructor; [apply H; now left|]. apply IH. intros y I. apply H. now right.
Qed.
Lemma same_flat {A} j (f g : A -> list slot) l : (forall x, In x l -> Forall2 (same_slot j) (f x) (g x)) ->
  Forall2 (same_slot j) (flat_map f l) (flat_map g l).
Proof.
  induction l as [|x l IH]; intro H; cbn; [constructor|]. apply Forall2_app; [apply H; now left|].
  apply IH. intros y I. apply H. now right.
Qed.

Lemma same_elems j t n p c : 0 <= p -> Forall2 (same_slot j) (elems t n p c) (elems t n (p + j) c).
Proof.
  intro P. apply same_map. intros i I. apply in_upto in I. pose proof (elem_bytes_pos t). cbn. repeat split; nia.
Qed.

Section Behind.
Variables (junk d : list Z) (t : bintable) (o : Z).
Hypothesis Pr : table_present d t o.
Let j := len junk.

Lemma place_nonneg row c : 0 <= row -> 0 <= o + row * bt_naxis1 t + column_start (bt_tforms t) c.
Proof.
  intro R. destruct Pr as (_ & _ & O & _ & _ & F & N & _). pose proof (column_start_nonneg t c F).
  assert (0 <= bt_naxis1 t).
  { pose proof (column_start_nonneg t (len (bt_tforms t)) F) as X. unfold column_start in X.
    rewrite firstn_all2 in X by (unfold len; lia). lia. }
  nia.
Qed.

Lemma number_nonneg p n : 0 <= be_value (slice d p n).
Proof.
  destruct Pr as (Oc & _). apply be_value_nonneg. unfold slice. unfold octets in *.
  rewrite <- (firstn_skipn (Z.to_nat p) d) in Oc. apply Forall_app in Oc. destruct Oc as (_ & Oc).
  rewrite <- (firstn_skipn (Z.to_nat n)) in Oc. apply Forall_app in Oc. apply Oc.
Qed.

Lemma same_cell row c : 0 <= row -> Forall2 (same_slot j) (cell d t o true row c) (cell (junk ++ d) t (o + j) true row c).
Proof.
  intro R. pose proof (place_nonneg row c R) as P. unfold cell. destruct (format t c) as [f|]; [|constructor].
  replace (o + j + row * bt_naxis1 t + column_start (bt_tforms t) c)
    with (o + row * bt_naxis1 t + column_start (bt_tforms t) c + j) by lia.
  set (p := o + row * bt_naxis1 t + column_start (bt_tforms t) c) in *.
  assert (H : 0 <= o + bt_theap t) by (destruct Pr as (_ & _ & ? & _ & ? & _); lia).
  destruct f as [e n|e|e]; cbn [cell_slots]; [now apply same_elems| |].
  - replace (p + j + 4) with (p + 4 + j) by lia. unfold j. rewrite !slice_behind by lia.
    pose proof (number_nonneg (p + 4) 4). set (x := be_value (slice d (p + 4) 4)) in *.
    replace (o + len junk + bt_theap t + x) with (o + bt_theap t + x + len junk) by lia. apply same_elems. lia.
  - replace (p + j + 8) with (p + 8 + j) by lia. unfold j. rewrite !slice_behind by lia.
    pose proof (number_nonneg (p + 8) 8). set (x := be_value (slice d (p + 8) 8)) in *.
    replace (o + len junk + bt_theap t + x) with (o + bt_theap t + x + len junk) by lia. apply same_elems. lia.
Qed.

Lemma same_slots sel i : 0 <= i ->
  Forall2 (same_slot j) (slots_from d t o true sel i) (slots_from (junk ++ d) t (o + j) true sel i).
Proof.
  intro I. apply same_flat. intros row R. apply same_flat. intros c _. apply same_cell.
  unfold rows_from in R. apply in_map_iff in R. destruct R as (k & <- & K). apply in_upto in K. lia.
Qed.

Lemma readable_behind lim sel : columns_readable d lim t o true sel ->
  columns_readable (junk ++ d) (lim + j) t (o + j) true sel.
Proof.
  intros C c I. destruct (C c I) as (f & F & R). exists f. split; [exact F|]. intros row B. specialize (R row B).
  pose proof (place_nonneg row c ltac:(lia)) as P.
  replace (o + j + row * bt_naxis1 t + column_start (bt_tforms t) c)
    with (o + row * bt_naxis1 t + column_start (bt_tforms t) c + j) by lia.
  set (p := o + row * bt_naxis1 t + column_start (bt_tforms t) c) in *.
  destruct f as [e n|e|e]; cbn [cell_readable] in *; auto; intro X; specialize (R X).
  - replace (p + j + 4) with (p + 4 + j) by lia. unfold j. rewrite !slice_behind by lia.
    unfold array_present in *. repeat split; try apply R. lia.
  - replace (p + j + 8) with (p + 8 + j) by lia. unfold j. rewrite !slice_behind by lia.
    unfold array_present in *. repeat split; try apply R. lia.
Qed.
End Behind.

Lemma same_tl j a b : Forall2 (same_slot j) a b -> Forall2 (same_slot j) (tl a) (tl b).
Proof. intro H. destruct H; [constructor|assumption]. Qed.

Lemma proper_behind j t from from' : (forall i, 0 <= i -> Forall2 (same_slot j) (from i) (from' i)) ->
  forall ops cur cur', Forall2 (same_slot j) cur cur' -> proper t from cur ops -> proper t from' cur' ops.
Proof.
  intro F. induction ops as [|[|i] ops IH]; intros cur cur' C H; cbn [proper] in *; [exact Logic.I| |].
  - apply (IH (tl cur)); [now apply same_tl|exact H].
  - destruct H as (U & H). split; [exact U|]. destruct (i <? bt_naxis2 t).
    + destruct H as (B & H). split.
      * destruct C as [|x y ? ? S C]; [exact Logic.I|].
        destruct x, y; try contradiction; cbn in *; auto. destruct S as (-> & _ & -> & -> & _). exact B.
      * apply (IH (from i)); [|exact H]. apply F. unfold u64 in U. lia.
    + apply (IH cur); assumption.
Qed.

Lemma history_behind junk d t from from' :
  (forall i, 0 <= i -> Forall2 (same_slot (len junk)) (from i) (from' i)) ->
  forall ops cur cur' l l', Forall2 (same_slot (len junk)) cur cur' -> proper t from cur ops ->
  history d t from cur ops l -> history (junk ++ d) t from' cur' ops l' -> l' = l.
Proof.
  intro F. induction ops as [|[|i] ops IH]; intros cur cur' l l' C P H H'; destruct l as [|x l], l' as [|x' l'];
    cbn [history proper] in *; try contradiction; [reflexivity| |].
  - destruct C as [|y y' cur cur' S C].
    + destruct H as (-> & H), H' as (-> & H'). f_equal. apply (IH [] [] l l'); auto.
    + destruct H as (v & -> & V & H), H' as (w & -> & W & H').
      rewrite (same_value junk d y y' v w S V W). f_equal. apply (IH cur cur' l l'); auto.
  - destruct P as (U & P). destruct (i <? bt_naxis2 t).
    + destruct H as (-> & H), H' as (-> & H'). f_equal.
      apply (IH (from i) (from' i) l l'); auto; [|apply P]. apply F. unfold u64 in U. lia.
    + destruct H as (-> & H), H' as (-> & H'). f_equal. apply (IH cur cur' l l'); auto.
Qed.

Lemma table_behind junk m d n l h f' l' g' t lim : octets d -> octets junk -> len (junk ++ d) < 2 ^ 63 ->
  run m (Datatypes.S n) (opened d) = (l ++ [IOk h], f') -> Forall (ends_below m (len junk)) l ->
  run m (Datatypes.S n) (from_reader (mk_reader (junk ++ d) (len junk))) = (l', g') ->
  h_xt h = XtBin t -> table_inside d t (h_offset h) -> lim <= len d ->
  columns_readable d lim t (h_offset h) true (all_columns t) -> bt_tforms t <> [] ->
  exists s s', get_table m f' t = Ok s /\ get_table m g' t = Ok s' /\
    let from := slots_from d t (h_offset h) true (all_columns t) in
    forall ops, proper t from (from 0) ops -> fst (table_run m s' ops) = fst (table_run m s ops).
Proof.
  intros O OJ DL R E R' X TI Li Re Ne. pose proof (len_nonneg junk) as J.
  destruct (last_found junk m d n l h f' l' g' O OJ R E R') as (f & g & N & N' & D & D' & P & P').
  pose proof (file_present m d f h f' t O D P N X TI) as Pr.
  assert (TI' : table_inside (junk ++ d) t (h_offset (further (len junk) h))).
  { destruct TI as (_ & T1 & T2 & T3). split; [exact DL|]. split; [exact T1|]. split; [exact T2|].
    cbn [further h_offset]. rewrite len_app. unfold len in *. lia. }
  destruct (table_history m d f h f' t O D P N X TI lim Li Re Ne) as (s & G & H).
  destruct (table_history m (junk ++ d) g _ g' t ltac:(apply Forall_app; split; assumption) D' P' N' X TI'
    (lim + len junk) ltac:(rewrite len_app; lia) (readable_behind junk d t (h_offset h) Pr lim _ Re) Ne) as (s' & G' & H').
  exists s, s'. do 2 (split; [assumption|]). intros from ops PP.
  cbn [further h_offset] in H'.
  pose proof (fun i I => same_slots junk d t (h_offset h) Pr (all_columns t) i I) as F.
  assert (F0 : 0 <= 0) by lia.
  apply (history_behind junk d t _ _ F ops _ _ _ _ (F 0 F0) PP (H ops PP)).
  apply H'. exact (proper_behind (len junk) t _ _ F ops _ _ (F 0 F0) PP).
Qed.

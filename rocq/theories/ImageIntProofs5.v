(** Files on which the search for an image ends, and files on which it does not. *)

From Coq Require Import ZifyBool.
From Verif Require Import Base Text Card Reader Header Xtension Bytes Fits ImageIt BinTable Float Tile ImageInt.
From Verif Require Import SpecCard SpecHeader SpecXt SpecFits SpecImage SpecImageInt.
From Verif Require Import HeaderProofs FitsProofs4 AsyncProofs4 ImageIntProofs2.

Lemma find_image_none m : forall fuel f, find_image m fuel f = None ->
  exists l f2, run m fuel f = (map IOk l, f2) /\ length l = fuel.
Proof.
  induction fuel as [|fuel IH]; intros f E; [exists [], f; auto|].
  cbn [find_image] in E. cbn [run]. destruct (next m f) as ([|h|e|], f1); try discriminate.
  destruct (stops_at m h) as [[k|]| |]; try discriminate.
  destruct (IH f1 E) as (l & f2 & R & L). rewrite R. exists (h :: l), f2. cbn [map length]. auto.
Qed.

Lemma none_find_image m l : forall fuel f f2, run m fuel f = (map IOk l, f2) -> Forall (fun h => stops_at m h = Ok None) l ->
  find_image m fuel f = None.
Proof.
  induction l as [|h l IH]; intros fuel f f2 R F.
  - destruct fuel; [reflexivity|]. cbn [run] in R. destruct (next m f). destruct (run m fuel f0). discriminate.
  - destruct fuel as [|fuel]; [reflexivity|]. inversion F as [|? ? F0 F1]; subst. cbn [run find_image] in *. destruct (next m f) as (i, f1).
    destruct (run m fuel f1) as (l2, f3) eqn:R2. cbn [map] in R. injection R as -> -> ->. rewrite F0. eapply IH; eauto.
Qed.

Lemma all_ok_yields m n f l f2 : run m n f = (map IOk l, f2) -> yields m f (map IOk l) f2.
Proof.
  intro R. pose proof (run_yields m n f) as Y. rewrite R in Y. apply Y. cbn [fst]. clear. induction l; auto.
Qed.

Lemma decoder_ends m d fuel :
  octets d -> len d < 2 ^ 63 ->
  (forall n l f, run m n (opened d) = (map IOk l, f) -> sizes_fit m (map IOk l)) ->
  len d < 2880 * Z.of_nat fuel -> decoder_new m fuel (mk_reader d 0) <> None.
Proof.
  intros O L SF FU H. unfold decoder_new in H.
  destruct (find_image m fuel (from_reader (mk_reader d 0))) as [[((h, k), f)| |]|] eqn:F; try discriminate.
  destruct (find_image_none _ _ _ F) as (l & f2 & R & LL). fold (opened d) in R.
  pose proof (iteration_ends m d l f2 O L (all_ok_yields _ _ _ _ _ R) (SF _ _ _ R)) as B. unfold len in *. lia.
Qed.

(** ** Periodic iterations *)

Lemma run_prefix m a b f : fst (run m a f) = firstn a (fst (run m (a + b) f)).
Proof. rewrite run_app. cbn [fst]. rewrite <- (run_length m a f) at 2. rewrite firstn_app, Nat.sub_diag, firstn_all. cbn [firstn]. rewrite app_nil_r. reflexivity. Qed.

Lemma Forall_firstn' {A} (P : A -> Prop) n l : Forall P l -> Forall P (firstn n l).
Proof. revert l. induction n; intros l H; [constructor|]. destruct H; cbn [firstn]; constructor; auto. Qed.

Lemma run_periodic (P : item -> Prop) m p f : (0 < p)%nat -> snd (run m p f) = f -> Forall P (fst (run m p f)) ->
  forall n, Forall P (fst (run m n f)).
Proof.
  intros PP S F n. induction n as [n IH] using lt_wf_ind. destruct (Nat.le_gt_cases p n) as [C|C].
  - replace n with (p + (n - p))%nat by lia. rewrite run_app, S. cbn [fst]. apply Forall_app. split; auto. apply IH. lia.
  - replace p with (n + (p - n))%nat in F by lia. rewrite (run_prefix m n (p - n)). apply Forall_firstn'. exact F.
Qed.

Lemma run_eventually (P : item -> Prop) m a p f : (0 < p)%nat ->
  snd (run m (a + p) f) = snd (run m a f) -> Forall P (fst (run m (a + p) f)) -> forall n, Forall P (fst (run m n f)).
Proof.
  intros PP S F n. rewrite run_app in S, F. cbn [fst snd] in S, F. apply Forall_app in F as (F1 & F2).
  destruct (Nat.le_gt_cases a n) as [C|C].
  - replace n with (a + (n - a))%nat by lia. rewrite run_app. cbn [fst]. apply Forall_app. split; auto.
    eapply run_periodic; eauto.
  - replace a with (n + (a - n))%nat in F1 by lia. rewrite (run_prefix m n (a - n)). apply Forall_firstn'. exact F1.
Qed.

Definition passed_over (m : mode) (i : item) : Prop := exists h, i = IOk h /\ stops_at m h = Ok None.
Definition passed_overb (m : mode) (i : item) : bool :=
  match i with IOk h => match stops_at m h with Ok None => true | _ => false end | _ => false end.
Lemma passed_overb_ok m l : forallb (passed_overb m) l = true -> Forall (passed_over m) l.
Proof.
  intro H. apply Forall_forall. intros i I. pose proof (proj1 (forallb_forall _ _) H i I) as P. unfold passed_overb in P.
  destruct i as [|h|e|]; try discriminate. exists h. split; auto. destruct (stops_at m h) as [[k|]| |]; try discriminate. reflexivity.
Qed.

Lemma passed_over_list m l : Forall (passed_over m) l -> exists hs, l = map IOk hs /\ Forall (fun h => stops_at m h = Ok None) hs.
Proof.
  induction 1 as [|i l (h & -> & S) _ (hs & -> & F)]; [exists []; auto|]. exists (h :: hs). auto.
Qed.

Lemma search_endless m d : (forall n, Forall (passed_over m) (fst (run m n (opened d)))) ->
  forall fuel, decoder_new m fuel (mk_reader d 0) = None.
Proof.
  intros H fuel. unfold decoder_new. fold (opened d). destruct (passed_over_list m _ (H fuel)) as (hs & E & F).
  rewrite (none_find_image m hs fuel (opened d) (snd (run m fuel (opened d)))); auto.
  rewrite <- E. destruct (run m fuel (opened d)); reflexivity.
Qed.

Fixpoint same_list (a b : list Z) : bool :=
  match a, b with
  | [], [] => true
  | x :: a', y :: b' => if x =? y then same_list a' b' else false
  | _, _ => false
  end.
Definition same_fits (f g : fits) : bool :=
  Bool.eqb (f_start f) (f_start g) && (f_pos_du f =? f_pos_du g) && (f_num_du f =? f_num_du g) && Bool.eqb (f_error f) (f_error g) &&
  (rd_pos (f_reader f) =? rd_pos (f_reader g)) && same_list (rd_data (f_reader f)) (rd_data (f_reader g)).
Lemma same_list_ok a : forall b, same_list a b = true -> a = b.
Proof.
  induction a as [|x a IH]; intros [|y b] H; try discriminate; auto. cbn [same_list] in H.
  destruct (Z.eqb_spec x y); [|discriminate]. subst. f_equal. auto.
Qed.
Lemma same_fits_ok f g : same_fits f g = true -> f = g.
Proof.
  unfold same_fits. intro H. repeat (apply andb_true_iff in H as (H & ?)).
  destruct f as [a b c e [r p]], g as [a' b' c' e' [r' p']]. cbn [f_start f_pos_du f_num_du f_error f_reader rd_data rd_pos] in *.
  apply Bool.eqb_prop in H. f_equal; try lia; auto using Bool.eqb_prop. f_equal; [apply same_list_ok; auto|lia].
Qed.

(** Both at once. *)
Definition turnsb (m : mode) (a p : nat) (f : fits) : bool :=
  let (l1, f1) := run m a f in let (l2, f2) := run m p f1 in
  forallb (passed_overb m) (l1 ++ l2) && same_fits f2 f1.
Lemma turnsb_ok m a p f : (0 < p)%nat -> turnsb m a p f = true -> forall n, Forall (passed_over m) (fst (run m n f)).
Proof.
  intros P T. unfold turnsb in T. pose proof (run_app m a p f) as E.
  destruct (run m a f) as [l1 f1] eqn:R1. cbn [fst snd] in E. destruct (run m p f1) as [l2 f2] eqn:R2. cbn [fst snd] in E.
  apply andb_true_iff in T as (T1 & T2). apply (run_eventually _ m a p); [exact P| |].
  - rewrite E, R1. cbn [snd]. apply same_fits_ok, T2.
  - rewrite E. apply passed_overb_ok, T1.
Qed.

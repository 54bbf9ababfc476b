(** Proofs that the asynchronous stream finds the HDUs the synchronous iterator finds. *)

From Verif Require Import Base Utf8 Text Card Reader Header Xtension Fits Bytes Async.
From Verif Require Import SpecUtf8 SpecCard SpecHeader SpecXt SpecFits SpecImage SpecAsync.
From Verif Require Import HeaderProofs FitsProofs FitsProofs2 FitsProofs3 FitsProofs4 BytesProofs AsyncProofs AsyncProofs2.
From Coq Require Import ZifyBool.

Lemma aready_opened s : always_ready s -> aready (content s) (afrom_reader s) 0.
Proof.
  intro R. split; auto. left. cbn [afrom_reader af_start af_reader af_rem]. split; auto. split; auto.
  split; auto. pose proof (len_nonneg (content s)). split; [lia|]. reflexivity.
Qed.

(** ** Arbitrary bytes *)

Lemma same_ok m d : octets d -> len d < 2 ^ 62 -> forall hs f g q f',
  ready d f q -> aready d g q -> f_start f = af_start g ->
  run m (length hs) f = (map IOk hs, f') -> complete m (len d) hs ->
  exists g', polls m (length hs) g = (map (fun h => AOk (without_offset h)) hs, g') /\
    exists q', ready d f' q' /\ aready d g' q' /\ f_start f' = af_start g' /\ 
      (hs <> [] -> f_start f' = false) /\
      forall h size, last (map Some hs) None = Some h -> hdu_size m h = Ok size -> q' = h_offset h + in_blocks size.
Proof.
  intros O B. induction hs as [|h hs IH]; intros f g q f' R A S N C.
  - simpl in N. inversion N; subst. exists g. split; auto. exists q. split; auto. split; auto. split; auto. split; [congruence|]. discriminate.
  - cbn [length run map] in N. destruct (next m f) as (i, f1) eqn:N1. destruct (run m (length hs) f1) as (l, f2) eqn:N2.
    inversion N; subst i l f2. inversion C as [|? ? C0 C1]; subst.
    assert (N1': next m (moved f (rd_pos (f_reader f))) = (IOk h, f1)) by (rewrite moved_same; auto).
    destruct (both_ok m d f g q h f1 _ O B R A S (or_introl eq_refl) N1') as (g1 & P1 & q1 & R1 & A1 & S1 & S1').
    { constructor; auto. }
    destruct (IH f1 g1 q1 f' R1 A1) as (g2 & P2 & q2 & R2 & A2 & S2 & S2' & L2); auto; [congruence|].
    exists g2. cbn [length polls]. rewrite P1, P2. split; auto. exists q2. split; auto. split; auto. split; auto.
    split.
    + intros _. destruct hs as [|h' hs]; [|apply S2'; discriminate]. simpl in N2. inversion N2; subst. auto.
    + intros h' size La Sz. destruct hs as [|h1 hs].
      * simpl in La. inversion La; subst h'. simpl in N2. inversion N2; subst f'. simpl in P2. inversion P2; subst g2.
        rewrite moved_same in N1'. rewrite <- (moved_same f), (next_ready m d f q _ R (or_introl eq_refl)) in N1.
        apply finish_ok in N1 as (n & r & size' & X & Sz' & ->). rewrite Sz in Sz'. inversion Sz'; subst size'.
        destruct R2 as (_ & _ & _ & [(R2 & _)|(_ & _ & _ & R2 & _)]); [discriminate|]. exact R2.
      * apply L2; auto.
Qed.

Lemma run_app m a : forall b f, run m (a + b) f =
  (fst (run m a f) ++ fst (run m b (snd (run m a f))), snd (run m b (snd (run m a f)))).
Proof.
  induction a as [|a IH]; intros b f; cbn [Nat.add run fst snd app].
  - destruct (run m b f); reflexivity.
  - destruct (next m f) as (i, f1). rewrite IH. destruct (run m a f1) as (l, f2). cbn [fst snd]. reflexivity.
Qed.
Lemma polls_app m a : forall b f, polls m (a + b) f =
  (fst (polls m a f) ++ fst (polls m b (snd (polls m a f))), snd (polls m b (snd (polls m a f)))).
Proof.
  induction a as [|a IH]; intros b f; cbn [Nat.add polls fst snd app].
  - destruct (polls m b f); reflexivity.
  - destruct (poll_next m f) as (i, f1). rewrite IH. destruct (polls m a f1) as (l, f2). cbn [fst snd]. reflexivity.
Qed.

Lemma run_length m n : forall f, length (fst (run m n f)) = n.
Proof. induction n as [|n IH]; intro f; cbn [run]; auto. destruct (next m f) as (i, f1). specialize (IH f1). destruct (run m n f1). simpl in *. auto. Qed.

Lemma one_more m d f g q : octets d -> ready d f q -> aready d g q -> f_start f = af_start g -> af_start g = false ->
  match fst (next m f) with
  | IOk h' => fst (poll_next m g) = AOk (without_offset h')
  | IErr _ => exists e, fst (poll_next m g) = AErr e
  | INone => fst (poll_next m g) = if len d <=? q then ANone else AErr EStatic
  | IPanic => fst (poll_next m g) = APanic
  end.
Proof.
  intros O R A S S0.
  assert (Q: 0 <= q) by (destruct R as (_ & _ & Q & _); auto).
  pose proof (next_ready m d f q _ R (or_introl eq_refl)) as NR. rewrite moved_same in NR. rewrite NR. clear NR.
  rewrite S0 in S. pose proof (poll_sim m d g q O A Q) as H. rewrite S0 in H. rewrite S.
  destruct (new_hdu m false (mk_reader d q)) as ((x, n), r) eqn:X. unfold finish. rewrite S. cbn [negb andb].
  destruct x as [h|e|].
  - destruct (hdu_size m h) as [size| |]; cbn [fst]; auto. destruct H as (s' & -> & _). reflexivity.
  - destruct (Z.leb_spec (len d) q) as [L|L].
    + pose proof (eof_here m d q false O Q ltac:(lia)) as EH. rewrite EH in X. inversion X; subst.
      cbn [Z.eqb fst]. destruct H as (s' & -> & _). reflexivity.
    + destruct H as (e' & H & He). destruct e; cbn [fst]; try (eexists; exact H).
      destruct (n =? 0) eqn:N0; cbn [fst]; [|eexists; exact H].
      destruct He as [->|(_ & ->)]; [|exact H].
      (* the crate reports no end of file here *)
      exfalso.
      assert (L80: len d < q + 80 /\ r = mk_reader d (len d)).
      { apply (eof_only m d q n r O Q); [exact X|lia]. }
      clear -A S0 H L Q O L80 X.
      destruct (until_ready d g q A S0) as (s1 & U & R1 & C1).
      unfold poll_next in H. destruct A as (E & _). rewrite E, S0, U in H. replace (len d <=? q) with false in H by lia.
      assert (A1: at_pos s1 d q) by (split; auto; split; auto; lia).
      pose proof (consume_cards_sim s1 d q A1) as CS. unfold new_hdu, new_xtension in X.
      unfold anew_xtension in H. destruct (consume_cards (mk_reader d q) 0) as ((x, k), r1) eqn:CC.
      destruct (aconsume_cards s1) as ((y, k'), s'). destruct CS as (y' & -> & _ & _ & CS).
      assert (HC: new_hdu m false (mk_reader d q) = (Err EEof, 0, mk_reader d (len d))) by (apply eof_here; auto; lia).
      unfold new_hdu, new_xtension in HC. rewrite CC in HC.
      destruct x as [cs|e|].
      * assert (CE: consume_cards (mk_reader d q) 0 = (Err EEof, 0 + 80 * 0, mk_reader d (len d))).
        { etransitivity; [apply (consume_cards_eof d q 0 [] (skipn (Z.to_nat q) d)); auto|reflexivity].
          rewrite skipn_length. unfold len in L80. lia. }
        rewrite CC in CE. discriminate.
      * destruct CS as (_ & ->). discriminate.
      * subst y'. discriminate.
  - cbn [fst]. exact H.
Qed.

(** C46 for arbitrary bytes. *)
Lemma same_headers m s hs f' :
  octets (content s) -> len (content s) < 2 ^ 62 -> always_ready s ->
  run m (length hs) (opened (content s)) = (map IOk hs, f') -> complete m (len (content s)) hs ->
  fst (polls m (length hs) (afrom_reader s)) = map (fun h => AOk (without_offset h)) hs.
Proof.
  intros O B R N C.
  destruct (same_ok m (content s) O B hs (opened (content s)) (afrom_reader s) 0 f') as (g' & P & _); auto.
  - apply ready_opened.
  - apply aready_opened; auto.
  - rewrite P. reflexivity.
Qed.

Lemma same_end m s hs h i f' :
  octets (content s) -> len (content s) < 2 ^ 62 -> always_ready s ->
  run m (length hs + 2) (opened (content s)) = (map IOk (hs ++ [h]) ++ [i], f') ->
  complete m (len (content s)) (hs ++ [h]) ->
  exists j, fst (polls m (length hs + 2) (afrom_reader s)) =
    map (fun h => AOk (without_offset h)) (hs ++ [h]) ++ [j] /\ ends_alike m (len (content s)) h i j.
Proof.
  intros O B R N C.
  replace (length hs + 2)%nat with (length (hs ++ [h]) + 1)%nat in * by (rewrite app_length; simpl; lia).
  rewrite run_app in N. set (k := length (hs ++ [h])) in *.
  assert (L: fst (run m k (opened (content s))) = map IOk (hs ++ [h]) /\
             fst (run m 1 (snd (run m k (opened (content s))))) = [i]).
  { pose proof (f_equal fst N) as N1. cbn [fst] in N1.
    assert (Ll: length (fst (run m k (opened (content s)))) = length (map IOk (hs ++ [h]))) by (rewrite run_length, map_length; reflexivity).
    apply (f_equal (firstn (length (map IOk (hs ++ [h]))))) in N1 as N3.
    apply (f_equal (skipn (length (map IOk (hs ++ [h]))))) in N1 as N4.
    rewrite <- Ll in N3 at 1. rewrite <- Ll in N4 at 1.
    rewrite !firstn_app, !Nat.sub_diag, !firstn_all, !app_nil_r in N3.
    rewrite !skipn_app, !Nat.sub_diag, !skipn_all in N4. auto. }
  destruct L as (L1 & L2). destruct (run m k (opened (content s))) as (l, f1) eqn:E1. cbn [fst snd] in *. subst l.
  destruct (same_ok m (content s) O B (hs ++ [h]) (opened (content s)) (afrom_reader s) 0 f1) as (g1 & P & q & R1 & A1 & S1 & S1' & Q1); auto.
  { apply ready_opened. } { apply aready_opened; auto. }
  fold k in P. rewrite polls_app, P. cbn [fst snd polls].
  assert (S0: f_start f1 = false) by (apply S1'; destruct hs; discriminate).
  pose proof (one_more m (content s) f1 g1 q O R1 A1 S1 ltac:(congruence)) as OM.
  cbn [run] in L2. destruct (next m f1) as (i', f2). cbn [fst] in *. inversion L2; subst i'. 
  destruct (poll_next m g1) as (j, g2). cbn [fst] in *. exists j. split; auto.
  unfold ends_alike. destruct i; auto. intros size Sz. rewrite <- (Q1 h size); auto.
  rewrite map_app. cbn [map]. rewrite last_last. reflexivity.
Qed.

(** The first call. *)
Lemma same_first m s e f' : octets (content s) -> always_ready s ->
  next m (opened (content s)) = (IErr e, f') -> e <> EDynamic ->
  exists e', fst (poll_next m (afrom_reader s)) = AErr e'.
Proof.
  intros O R N NE. pose proof (aready_opened s R) as A. pose proof (ready_opened (content s)) as Rd.
  rewrite <- (moved_same (opened (content s))), (next_ready m (content s) _ 0 _ Rd (or_introl eq_refl)) in N.
  pose proof (poll_sim m (content s) _ 0 O A ltac:(lia)) as H.
  change (af_start (afrom_reader s)) with true in H. change (f_start (opened (content s))) with true in N.
  destruct (new_hdu m true (mk_reader (content s) 0)) as ((x, n), r). unfold finish in N.
  change (f_start (opened (content s))) with true in N. cbn [negb andb] in N.
  destruct x as [h|e0|].
  - destruct (hdu_size m h); discriminate.
  - destruct e0; inversion N; subst e; (destruct H as (e' & H & _); [congruence|]; exists e'; exact H).
  - discriminate.
Qed.

(** ** Well-formed files *)

Lemma read_from_fun m k q s h h' : read_from m k q s h -> read_from m k q s h' -> h = h'.
Proof.
  intros (A1 & (c & A2 & A2') & A3 & A4 & A5 & _) (B1 & (c' & B2 & B2') & B3 & B4 & B5 & _).
  assert (c = c') by (eapply Forall2_reads_fun; eauto). subst c'.
  destruct h as [u1 u2 u3 u4 u5], h' as [v1 v2 v3 v4 v5]. cbn [h_kind h_cards h_values h_xt h_offset] in *. subst.
  rewrite A3 in B3. inversion B3; subst. rewrite A4 in B4. inversion B4; subst. reflexivity.
Qed.

Lemma items_for_fun m q hs a : items_for m q hs a -> forall b, items_for m q hs b -> a = b.
Proof.
  induction 1 as [|q k s h rest l R _ IH]; intros b H; inversion H; subst; auto.
  f_equal; [f_equal; eapply read_from_fun; eauto|auto].
Qed.

Lemma aiterate m d : octets d -> len d < 2 ^ 63 -> forall hs f g q,
  ready d f q -> aready d g q -> f_start f = af_start g -> kinds_from (f_start f) hs -> Forall (accepted m) hs -> placed d q hs ->
  q + total_len hs <= len d ->
  exists full, items_for m q hs full /\
    (exists g', ayields m g (map as_async full) g' /\ aready d g' (q + total_len hs) /\ (hs <> [] -> af_start g' = false)) /\
    (forall l g2, ayields m g l g2 -> (length l <= length hs)%nat -> l = firstn (length l) (map as_async full)) /\
    (forall l g2, ayields m g l g2 -> (length l = length hs)%nat -> aready d g2 (q + total_len hs) /\ (hs <> [] -> af_start g2 = false)).
Proof.
  intros O B. induction hs as [|(k, s) hs IH]; intros f g q R A SA K Ac P LT.
  - exists []. split; [constructor|]. cbn [total_len]. rewrite Z.add_0_r. split; [|split].
    + exists g. split; [constructor|]. split; auto. congruence.
    + intros [|i l] g2 _ L; auto. simpl in L. lia.
    + intros [|i l] g2 Y L; [|discriminate]. inversion Y; subst. split; auto. congruence.
  - destruct K as (K & KT). inversion Ac as [|? ? (vs & x & W) AT]; subst. cbn [fst snd] in W.
    destruct P as ((rest & E) & P). cbn [total_len] in *.
    pose proof (total_len_nonneg hs). pose proof (len_nonneg (hdu_bytes s)).
    destruct (step_hdu m d f q k s vs x rest (rd_pos (f_reader f)) O R K) as (h & f1 & N & RF & R1 & S1 & PD & ND); auto; [left; auto|lia|].
    (* one poll after any number of items *)
    assert (Step: forall g0, aready d g0 q -> af_start g0 = af_start g ->
      exists g1, poll_next m g0 = (AOk (without_offset h), g1) /\ aready d g1 (q + len (hdu_bytes s)) /\ af_start g1 = false).
    { intros g0 A0 S0. pose proof (next_ready m d f q _ R (or_introl eq_refl)) as NR. rewrite N in NR. symmetry in NR.
      apply finish_ok in NR as (n & r & size & X & Sz & F1).
      assert (Q: 0 <= q) by (destruct R as (_ & _ & Q & _); auto).
      pose proof (poll_sim m d g0 q O A0 Q) as H1. rewrite S0, <- SA, X, Sz in H1. destruct H1 as (s' & Ep & As).
      pose proof RF as (_ & _ & _ & _ & HO & HS). rewrite HS in Sz. inversion Sz; subst size.
      pose proof W as (_ & _ & W3 & W4 & _).
      assert (LH: len (hdu_bytes s) = len (header_bytes s) + in_blocks (len (s_data s))).
      { unfold hdu_bytes. rewrite len_app, W4. reflexivity. }
      pose proof (in_blocks_range (len (s_data s))).
      eexists. split; [exact Ep|]. split; [|reflexivity].
      replace (q + len (hdu_bytes s)) with (h_offset h + in_blocks (len (s_data s))) by lia.
      apply (aready_next m d g0 h (len (s_data s)) s' As HS); auto. lia. }
    assert (Items: forall b k0, (width b | af_rem g) ->
       let g0 := snd (arun m g (repeat (OItem b) k0)) in aready d g0 q /\ af_start g0 = af_start g).
    { intros b k0 D. apply items_aready; auto. lia. }
    destruct (Step g A eq_refl) as (g1 & P1 & A1 & Sg1).
    assert (IHg: forall g1, aready d g1 (q + len (hdu_bytes s)) -> af_start g1 = false -> exists full, items_for m (q + len (hdu_bytes s)) hs full /\
      (exists g', ayields m g1 (map as_async full) g' /\ aready d g' (q + len (hdu_bytes s) + total_len hs) /\ (hs <> [] -> af_start g' = false)) /\
      (forall l g2, ayields m g1 l g2 -> (length l <= length hs)%nat -> l = firstn (length l) (map as_async full)) /\
      (forall l g2, ayields m g1 l g2 -> (length l = length hs)%nat -> aready d g2 (q + len (hdu_bytes s) + total_len hs) /\ (hs <> [] -> af_start g2 = false))).
    { intros g1' A1' S1'. apply (IH f1 g1' (q + len (hdu_bytes s))); auto.
      - congruence.
      - rewrite S1. now apply kinds_tail.
      - lia. }
    destruct (IHg g1 A1 Sg1) as (full & I1 & (g' & I2 & I3 & I4) & _ & _).
    exists (IOk h :: full). split; [constructor; auto|]. rewrite Z.add_assoc. split; [|split].
    + exists g'. split; [|split; auto].
      * cbn [map as_async]. eapply (ayields_next m g BU8 0); [apply Z.divide_1_l|reflexivity|exact P1|exact I2].
      * intros _. destruct hs as [|a hs]; [|apply I4; discriminate].
        inversion I1; subst. inversion I2; subst. auto.
    + intros l g2 Y L. inversion Y as [|f0 b k0 f1' i f2 l0 f3 D E1 E2 Y0]; subst; auto.
      destruct (Items b k0 D) as (Ai & Si). destruct (Step _ Ai Si) as (g1' & P1' & A1' & S1').
      rewrite P1' in E2. inversion E2; subst. cbn [map as_async length firstn]. f_equal.
      destruct (IHg f2 A1' S1') as (full' & I1' & _ & I5 & _).
      rewrite (items_for_fun _ _ _ _ I1 _ I1'). eapply I5; eauto. simpl in L. lia.
    + intros l g2 Y L. inversion Y as [|f0 b k0 f1' i f2 l0 f3 D E1 E2 Y0]; subst; [discriminate|].
      destruct (Items b k0 D) as (Ai & Si). destruct (Step _ Ai Si) as (g1' & P1' & A1' & S1').
      rewrite P1' in E2. inversion E2; subst.
      destruct (IHg f2 A1' S1') as (full' & I1' & _ & _ & I6).
      destruct (I6 _ _ Y0) as (I7 & I8); [simpl in L; lia|]. split; auto.
      intros _. destruct hs as [|a hs]; [|apply I8; discriminate].
      destruct l0; [|discriminate]. inversion Y0; subst. auto.
Qed.

Lemma ayields_split m l1 : forall f l2 f2, ayields m f (l1 ++ l2) f2 -> exists f1, ayields m f l1 f1 /\ ayields m f1 l2 f2.
Proof.
  induction l1 as [|i l1 IH]; intros f l2 f2 Y.
  - exists f. split; [constructor|exact Y].
  - cbn [app] in Y. inversion Y as [|f0 b k0 f1' i' f2' l0 f3 D E1 E2 Y0]; subst.
    destruct (IH _ _ _ Y0) as (f1 & Y1 & Y2). exists f1. split; auto. eapply ayields_next; eauto.
Qed.

Lemma ayields_snoc m l : forall f f1 i f2, ayields m f l f1 -> poll_next m f1 = (i, f2) -> ayields m f (l ++ [i]) f2.
Proof.
  induction l as [|j l IH]; intros f f1 i f2 Y P; inversion Y as [|f0 b k0 f1' i' f2' l0 f3 D E1 E2 Y0]; subst; cbn [app].
  - eapply (ayields_next m f1 BU8 0); [apply Z.divide_1_l|reflexivity|exact P|constructor].
  - eapply ayields_next; eauto.
Qed.

Lemma async_file m s hs :
  octets (content s) -> always_ready s -> file_kinds hs -> Forall (accepted m) hs ->
  content s = file_bytes hs -> len (content s) < 2 ^ 63 ->
  exists full,
    (exists f', yields m (opened (content s)) (full ++ [INone]) f') /\ length full = length hs /\
    (exists g', ayields m (afrom_reader s) (map as_async (full ++ [INone])) g') /\
    (forall l g2, ayields m (afrom_reader s) l g2 -> (length l <= length hs + 1)%nat ->
       l = firstn (length l) (map as_async (full ++ [INone]))).
Proof.
  intros O R K A D L. destruct (whole_file_items m (content s) hs O K A D L) as (full & I & Y & _).
  exists full. split; auto.
  assert (Lf: length full = length hs) by (clear -I; induction I; simpl; auto).
  split; auto.
  assert (P: placed (content s) 0 hs).
  { apply (placed_concat (content s) hs 0 []); [lia|]. rewrite app_nil_r. exact D. }
  assert (T: total_len hs = len (content s)) by (rewrite total_len_concat, D; reflexivity).
  destruct (aiterate m (content s) O L hs (opened (content s)) (afrom_reader s) 0) as (full' & I1 & (g' & I2 & I3 & I4) & I5 & I6); auto.
  - apply ready_opened.
  - apply aready_opened; auto.
  - cbn [opened from_reader f_start]. now apply file_kinds_from.
  - lia.
  - rewrite (items_for_fun _ _ _ _ I1 _ I) in *. rewrite Z.add_0_l, T in *.
    assert (NE: hs <> []) by (destruct hs; [contradiction|discriminate]).
    assert (Last: forall g, aready (content s) g (len (content s)) -> af_start g = false ->
      exists g1, poll_next m g = (ANone, g1)).
    { intros g Ag Sg. pose proof (len_nonneg (content s)) as Ln.
      pose proof (poll_sim m (content s) g (len (content s)) O Ag Ln) as H.
      pose proof (eof_here m (content s) (len (content s)) false O Ln ltac:(lia)) as EH. rewrite Sg, EH in H.
      rewrite Z.leb_refl in H. destruct H as (s' & H & _). eauto. }
    split.
    + destruct (Last g' I3 (I4 NE)) as (g1 & Pg). exists g1. rewrite map_app. apply (ayields_snoc m _ _ g'); auto.
    + intros l g2 Yl Ll. destruct (Nat.leb_spec (length l) (length hs)) as [Le|Gt].
      * rewrite map_app, firstn_app, map_length, Lf. rewrite (I5 l g2 Yl Le) at 1.
        replace (length l - length hs)%nat with 0%nat by lia. simpl. now rewrite app_nil_r.
      * assert (Hs: exists l0 i, l = l0 ++ [i]).
        { destruct (rev l) as [|i r] eqn:Er.
          - apply (f_equal (@length _)) in Er. rewrite rev_length in Er. simpl in Er. lia.
          - exists (rev r), i. rewrite <- (rev_involutive l), Er. reflexivity. }
        destruct Hs as (l0 & i & ->). rewrite app_length in Ll, Gt. cbn [length] in Ll, Gt.
        destruct (ayields_split _ _ _ _ _ Yl) as (g1 & Y1 & Y2).
        destruct (I6 _ _ Y1 ltac:(lia)) as (A1 & S1).
        pose proof (I5 _ _ Y1 ltac:(lia)) as El.
        inversion Y2 as [|f0 b k0 f1' i' f2' l1 f3 Dv E1 E2 Y0]; subst.
        destruct (items_aready m b (content s) (len (content s)) k0 O ltac:(lia) g1 A1 Dv) as (A2 & S2).
        destruct (Last _ A2 ltac:(rewrite S2; auto)) as (g3 & P3). rewrite P3 in E2. inversion E2; subst.
        inversion Y0; subst.
        rewrite app_length. cbn [length]. rewrite map_app, firstn_app, map_length, Lf, firstn_all2 by (rewrite map_length; lia).
        replace (length l0 + 1 - length hs)%nat with 1%nat by lia. cbn [map as_async firstn]. f_equal.
        rewrite El, firstn_all2; auto. rewrite map_length. lia.
Qed.

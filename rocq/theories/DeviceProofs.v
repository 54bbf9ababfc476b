(** Reading from devices that fail, against reading from devices that work. *)

From Verif Require Import Base Text Card Reader Header Xtension Bytes Fits ImageIt Device SpecDevice Utf8.

Definition follows {A} (N : nat) (fs fs' : faults) (dev plain : A) (bad : A -> Prop) : Prop :=
  (working N fs /\ fs' = skipn N fs /\ dev = plain) \/
  (exists j, (j < N)%nat /\ first_fault fs j /\ fs' = skipn (S j) fs /\ bad dev).

Lemma firstn_add {A} (a b : nat) (l : list A) : firstn (a + b) l = firstn a l ++ firstn b (skipn a l).
Proof. revert l. induction a as [|a IH]; intros [|x l]; cbn; rewrite ?firstn_nil; auto. now rewrite IH. Qed.
Lemma skipn_add {A} (a b : nat) (l : list A) : skipn (a + b) l = skipn b (skipn a l).
Proof. revert l. induction a as [|a IH]; intros [|x l]; cbn; rewrite ?skipn_nil; auto. Qed.
Lemma nth_error_skip {A} (a j : nat) (l : list A) : nth_error (skipn a l) j = nth_error l (a + j).
Proof. revert l. induction a as [|a IH]; intros [|x l]; cbn; auto. now destruct j. Qed.

Lemma working_add a b fs : working (a + b) fs <-> working a fs /\ working b (skipn a fs).
Proof. unfold working. rewrite firstn_add, Forall_app. tauto. Qed.
Lemma fault_add a j fs : working a fs -> first_fault (skipn a fs) j -> first_fault fs (a + j).
Proof.
  intros W (W2 & k & E). split; [now apply working_add|]. exists k. now rewrite <- nth_error_skip.
Qed.

Lemma follows_seq {A} a N fs fs' (dev plain : A) bad :
  working a fs -> follows N (skipn a fs) fs' dev plain bad -> follows (a + N) fs fs' dev plain bad.
Proof.
  intros W [(W2 & -> & ->)|(j & L & F & -> & B)]; [left|right].
  - rewrite working_add, skipn_add. auto.
  - exists (a + j)%nat. rewrite <- skipn_add. replace (S (a + j)) with (a + S j)%nat by lia.
    repeat split; auto; try lia; now apply fault_add.
Qed.
Lemma follows_O {A} fs (x : A) bad : follows 0 fs fs x x bad.
Proof. left. unfold working. cbn. auto. Qed.

Lemma follows_call {A} fs r (c : reader -> res A * reader) x r' fs' :
  device_call fs r c = (x, r', fs') ->
  follows 1 fs fs' (x, r') (c r) (fun y => fst y = Err EIoOther).
Proof.
  unfold device_call. destruct fs as [|[k|] fs0]; intro H.
  - destruct (c r) as (y, r0) eqn:E. inversion H; subst. left. unfold working. cbn. auto.
  - inversion H; subst. right. exists 0%nat. cbn. repeat split; auto; unfold working; cbn; eauto.
  - destruct (c r) as (y, r0) eqn:E. inversion H; subst. left. unfold working. cbn. auto.
Qed.

Lemma loop_follows fuel : forall r nread acc, exists N,
  (forall cards n r', consume_loop fuel r nread acc = (Ok cards, n, r') ->
     length cards = (length acc + N)%nat /\ n = nread + 80 * Z.of_nat N) /\
  (forall n r', consume_loop fuel r nread acc = (Err EEof, n, r') -> n = nread -> N = 1%nat) /\
  (forall n r', consume_loop fuel r nread acc = (Err EEof, n, r') -> nread <= n) /\
  forall fs x n r' fs', dev_consume_loop fuel fs r nread acc = (x, n, r', fs') ->
    follows N fs fs' (x, n, r') (consume_loop fuel r nread acc) (fun y => fst (fst y) = Err EIoOther).
Proof.
  induction fuel as [|f IH]; intros r nread acc; cbn [consume_loop dev_consume_loop].
  - exists 0%nat. repeat split; try (intros; discriminate).
    intros fs x n r' fs' H. inversion H; subst. apply follows_O.
  - destruct (read_exact r 80) as (y, r1) eqn:R.
    assert (ST: forall fs x r' fs', dev_read fs r 80 = (x, r', fs') ->
                follows 1 fs fs' (x, r') (y, r1) (fun z => fst z = Err EIoOther))
      by (intros fs x r' fs' H; rewrite <- R; exact (follows_call _ _ _ _ _ _ H)).
    destruct y as [buf|e|].
    + destruct (parse_card buf) as [c|e|] eqn:PC.
      * assert (D: c = CEnd \/ c <> CEnd) by (destruct c; auto; right; discriminate).
        destruct D as [->|NE].
        -- exists 1%nat. repeat split; try (intros; discriminate).
           ++ inversion H; subst. cbn [rev]. rewrite app_length, rev_length. cbn. lia.
           ++ inversion H; subst. lia.
           ++ intros fs x n r' fs' H. destruct (dev_read fs r 80) as ((z, r2), fs2) eqn:DR.
              destruct (ST _ _ _ _ DR) as [(W & -> & E)|(j & L & F & -> & B)].
              ** inversion E; subst. rewrite PC in H. inversion H; subst. left. auto.
              ** cbn [fst] in B. subst z. inversion H; subst. right. exists j. auto.
        -- destruct (IH r1 (nread + 80) (c :: acc)) as (N & C1 & C2 & C3 & C4). exists (1 + N)%nat.
           assert (EQ: match c with CEnd => (Ok (rev (CEnd :: acc)), nread + 80, r1) | _ => consume_loop f r1 (nread + 80) (c :: acc) end
                       = consume_loop f r1 (nread + 80) (c :: acc)) by (destruct c; auto; congruence).
           rewrite EQ. repeat split.
           ++ destruct (C1 _ _ _ H) as (-> & _). cbn. lia.
           ++ destruct (C1 _ _ _ H) as (_ & ->). lia.
           ++ intros n r' H ->. specialize (C3 _ _ H). lia.
           ++ intros n r' H. specialize (C3 _ _ H). lia.
           ++ intros fs x n r' fs' H. destruct (dev_read fs r 80) as ((z, r2), fs2) eqn:DR.
              destruct (ST _ _ _ _ DR) as [(W & -> & E)|(j & L & F & -> & B)].
              ** inversion E; subst. rewrite PC in H. apply follows_seq; [assumption|]. apply C4.
                 destruct c; auto; congruence.
              ** cbn [fst] in B. subst z. inversion H; subst. right. exists j. repeat split; auto; try lia; apply F.
      * destruct (IH r1 (nread + 80) (CUndefined (utf8_lossy buf) :: acc)) as (N & C1 & C2 & C3 & C4). exists (1 + N)%nat.
        repeat split.
        -- destruct (C1 _ _ _ H) as (-> & _). cbn. lia.
        -- destruct (C1 _ _ _ H) as (_ & ->). lia.
        -- intros n r' H ->. specialize (C3 _ _ H). lia.
        -- intros n r' H. specialize (C3 _ _ H). lia.
        -- intros fs x n r' fs' H. destruct (dev_read fs r 80) as ((z, r2), fs2) eqn:DR.
           destruct (ST _ _ _ _ DR) as [(W & -> & E)|(j & L & F & -> & B)].
           ** inversion E; subst. rewrite PC in H. apply follows_seq; [assumption|]. apply C4. auto.
           ** cbn [fst] in B. subst z. inversion H; subst. right. exists j. repeat split; auto; try lia; apply F.
      * exists 1%nat. repeat split; try (intros; discriminate).
        intros fs x n r' fs' H. destruct (dev_read fs r 80) as ((z, r2), fs2) eqn:DR.
        destruct (ST _ _ _ _ DR) as [(W & -> & E)|(j & L & F & -> & B)].
        -- inversion E; subst. rewrite PC in H. inversion H; subst. left. auto.
        -- cbn [fst] in B. subst z. inversion H; subst. right. exists j. auto.
    + exists 1%nat. repeat split; try (intros; discriminate).
      * intros n r' H. inversion H; subst. lia.
      * intros fs x n r' fs' H. destruct (dev_read fs r 80) as ((z, r2), fs2) eqn:DR.
        destruct (ST _ _ _ _ DR) as [(W & -> & E)|(j & L & F & -> & B)].
        -- inversion E; subst. inversion H; subst. left. auto.
        -- cbn [fst] in B. subst z. inversion H; subst. right. exists j. auto.
    + exists 1%nat. repeat split; try (intros; discriminate).
      intros fs x n r' fs' H. destruct (dev_read fs r 80) as ((z, r2), fs2) eqn:DR.
      destruct (ST _ _ _ _ DR) as [(W & -> & E)|(j & L & F & -> & B)].
      -- inversion E; subst. inversion H; subst. left. auto.
      -- cbn [fst] in B. subst z. inversion H; subst. right. exists j. auto.
Qed.

Definition failed {A} (x : res A) : Prop := x = Err EIoOther \/ x = Err EStatic.

Lemma cards_follows r : exists N,
  (forall cards n r', consume_cards r 0 = (Ok cards, n, r') -> length cards = N /\ n = 80 * len cards) /\
  (forall r', consume_cards r 0 = (Err EEof, 0, r') -> N = 1%nat) /\
  forall fs x n r' fs', dev_consume_cards fs r 0 = (x, n, r', fs') ->
    follows N fs fs' (x, n, r') (consume_cards r 0) (fun y => fst (fst y) = Err EIoOther).
Proof.
  unfold consume_cards, dev_consume_cards.
  destruct (loop_follows (S (length (rd_data r))) r 0 []) as (N & C1 & C2 & C3 & C4). exists N. repeat split.
  - destruct (C1 _ _ _ H) as (-> & _). reflexivity.
  - destruct (C1 _ _ _ H) as (E & ->). unfold len. rewrite E. cbn [length]. lia.
  - intros r' H. now apply (C2 _ _ H).
  - exact C4.
Qed.

Lemma hdu_follows m kind k r nread cards : exists N,
  (forall h n r', hdu_new m kind k r nread cards = (Ok h, n, r') ->
     N = (if (nread mod 2880 =? 0)%Z then 0 else 1)%nat /\ h_cards h = cards) /\
  (forall e n r', hdu_new m kind k r nread cards = (Err e, n, r') -> n = nread) /\
  forall fs x n r' fs', dev_hdu_new m kind k fs r nread cards = (x, n, r', fs') ->
    follows N fs fs' (x, n, r') (hdu_new m kind k r nread cards) (fun y => failed (fst (fst y))).
Proof.
  unfold hdu_new, dev_hdu_new.
  destruct (let! vs := process_cards m cards in let! x := xt_parse m k vs in Ok (vs, x)) as [(vs, x)|e|].
  - destruct (nread mod 2880 =? 0).
    + exists 0%nat. repeat split; try (inversion H; subst; reflexivity); try (intros; discriminate).
      intros fs y n r' fs' H. inversion H; subst. apply follows_O.
    + set (off := 2880 - nread mod 2880).
      destruct (read_exact r off) as (y, r1) eqn:R. exists 1%nat. repeat split.
      * destruct y; inversion H; subst; reflexivity.
      * intros e n r' H. destruct y; inversion H; subst; reflexivity.
      * intros fs z n r' fs' H. destruct (dev_read fs r off) as ((w, r2), fs2) eqn:DR.
        destruct (follows_call _ _ _ _ _ _ DR) as [(W & -> & E)|(j & L & F & -> & B)].
        -- cbv beta in E. rewrite R in E. inversion E; subst.
           left. split; [assumption|]. destruct y; inversion H; subst; auto.
        -- cbn [fst] in B. subst w. inversion H; subst. right. exists j. unfold failed. cbn. auto.
  - exists 0%nat. repeat split; try (intros; discriminate).
    + intros e0 n r' H. now inversion H.
    + intros fs y n r' fs' H. inversion H; subst. apply follows_O.
  - exists 0%nat. repeat split; try (intros; discriminate).
    intros fs y n r' fs' H. inversion H; subst. apply follows_O.
Qed.

Lemma blocks_of c : (80 * c) mod 2880 =? 0 = (c mod 36 =? 0).
Proof. replace 2880 with (80 * 36) by lia. rewrite Z.mul_mod_distr_l by lia. pose proof (Z.mod_pos_bound c 36). lia. Qed.

Definition tail_ok (kp : reader -> Z -> list card -> res hdu * Z * reader)
  (kd : faults -> reader -> Z -> list card -> res hdu * Z * reader * faults) : Prop :=
  forall r nread cards, exists N,
  (forall h n r', kp r nread cards = (Ok h, n, r') ->
     N = (if (nread mod 2880 =? 0)%Z then 0 else 1)%nat) /\
  (forall e n r', kp r nread cards = (Err e, n, r') -> n = nread) /\
  forall fs x n r' fs', kd fs r nread cards = (x, n, r', fs') ->
    follows N fs fs' (x, n, r') (kp r nread cards) (fun y => failed (fst (fst y))).

Lemma tail_hdu m kind k cards : tail_ok (fun r n _ => hdu_new m kind k r n cards) (fun fs r n _ => dev_hdu_new m kind k fs r n cards).
Proof.
  intros r n c. destruct (hdu_follows m kind k r n cards) as (N & A & B & C). exists N. repeat split; auto.
  intros h n0 r' H. now destruct (A _ _ _ H).
Qed.
Lemma tail_now (x : res hdu) : (forall h, x <> Ok h) -> tail_ok (fun r n _ => (x, n, r)) (fun fs r n _ => (x, n, r, fs)).
Proof.
  intros NO r n c. exists 0%nat. repeat split.
  - intros h n0 r' H. inversion H; subst. exfalso. eapply NO; reflexivity.
  - intros e n0 r' H. now inversion H.
  - intros fs y n0 r' fs' H. inversion H; subst. apply follows_O.
Qed.

Definition header_ok (r : reader) (p : res hdu * Z * reader) (d : faults -> res hdu * Z * reader * faults) : Prop :=
  exists N,
  (forall h n r', p = (Ok h, n, r') -> N = (length (h_cards h) + (if (len (h_cards h) mod 36 =? 0)%Z then 0 else 1))%nat) /\
  (forall r', p = (Err EEof, 0, r') -> N = 1%nat) /\
  forall fs x n r' fs', d fs = (x, n, r', fs') ->
    follows N fs fs' (x, n, r') p (fun y => failed (fst (fst y))).

Lemma after_cards kp kd r :
  (forall cards, tail_ok (fun r n _ => kp r n cards) (fun fs r n _ => kd fs r n cards)) ->
  (forall n r h n' r', kp r n [] <> (Ok h, n', r')) ->
  (forall n r e n' r', kp r n [] <> (Err e, n', r')) ->
  (forall r n cards h n' r', kp r n cards = (Ok h, n', r') -> h_cards h = cards) ->
  header_ok r
   (match consume_cards r 0 with
    | (Ok cards, n, r') => kp r' n cards | (Err e, n, r') => (Err e, n, r') | (Panic, n, r') => (Panic, n, r') end)
   (fun fs => match dev_consume_cards fs r 0 with
    | (Ok cards, n, r', fs') => kd fs' r' n cards
    | (Err e, n, r', fs') => (Err e, n, r', fs') | (Panic, n, r', fs') => (Panic, n, r', fs') end).
Proof.
  intros T E0 E1 HC. destruct (cards_follows r) as (N & C1 & C2 & C3).
  destruct (consume_cards r 0) as ((x, n), r1) eqn:CC. destruct x as [cards|e|].
  - destruct (C1 _ _ _ eq_refl) as (L & ->). clear C2.
    destruct (T cards r1 (80 * len cards) []) as (N2 & D1 & D2 & D3). exists (N + N2)%nat. repeat split.
    + intros h n r' H. rewrite (D1 _ _ _ H), (HC _ _ _ _ _ _ H), blocks_of, L. reflexivity.
    + intros r' H. specialize (D2 _ _ _ H). assert (cards = []).
      { destruct cards; auto. unfold len in D2. cbn [length] in D2. lia. }
      subst cards. exfalso. eapply E1; eauto.
    + intros fs x n r' fs' H. destruct (dev_consume_cards fs r 0) as (((y, n2), r2), fs2) eqn:DC.
      destruct (C3 _ _ _ _ _ DC) as [(W & -> & E)|(j & J & F & -> & B)].
      * inversion E; subst. apply follows_seq; [assumption|]. now apply D3.
      * cbn [fst] in B. subst y. inversion H; subst. right. exists j. unfold failed. cbn.
        repeat split; auto; try lia; apply F.
  - exists N. repeat split; try (intros; discriminate).
    + intros r' H. inversion H; subst. eapply C2. reflexivity.
    + intros fs x n0 r' fs' H. destruct (dev_consume_cards fs r 0) as (((y, n2), r2), fs2) eqn:DC.
      destruct (C3 _ _ _ _ _ DC) as [(W & -> & E)|(j & J & F & -> & B)].
      * inversion E; subst. inversion H; subst. left. auto.
      * cbn [fst] in B. subst y. inversion H; subst. right. exists j. unfold failed. cbn.
        repeat split; auto; try lia; apply F.
  - exists N. repeat split; try (intros; discriminate).
    intros fs x n0 r' fs' H. destruct (dev_consume_cards fs r 0) as (((y, n2), r2), fs2) eqn:DC.
    destruct (C3 _ _ _ _ _ DC) as [(W & -> & E)|(j & J & F & -> & B)].
    * inversion E; subst. inversion H; subst. left. auto.
    * cbn [fst] in B. subst y. inversion H; subst. right. exists j. unfold failed. cbn.
      repeat split; auto; try lia; apply F.
Qed.

Lemma hdu_new_cards m kind k r n cards h n' r' : hdu_new m kind k r n cards = (Ok h, n', r') -> h_cards h = cards.
Proof. intro H. destruct (hdu_follows m kind k r n cards) as (N & C1 & _). now destruct (C1 _ _ _ H). Qed.

Lemma xtension_follows m r : header_ok r (new_xtension m r) (fun fs => dev_new_xtension m fs r).
Proof.
  unfold new_xtension, dev_new_xtension.
  apply (after_cards (fun r' n cards => match cards with
    | [] => (Panic, n, r')
    | CXtension XImage _ :: _ => hdu_new m HImage XImage r' n cards
    | CXtension XBinTable _ :: _ => hdu_new m HBinTable XBinTable r' n cards
    | CXtension XAsciiTable _ :: _ => hdu_new m HAsciiTable XAsciiTable r' n cards
    | _ :: _ => (Err EStatic, n, r') end)
   (fun fs' r' n cards => match cards with
    | [] => (Panic, n, r', fs')
    | CXtension XImage _ :: _ => dev_hdu_new m HImage XImage fs' r' n cards
    | CXtension XBinTable _ :: _ => dev_hdu_new m HBinTable XBinTable fs' r' n cards
    | CXtension XAsciiTable _ :: _ => dev_hdu_new m HAsciiTable XAsciiTable fs' r' n cards
    | _ :: _ => (Err EStatic, n, r', fs') end)); try discriminate.
  - intros [|c cs]; [apply (tail_now Panic); discriminate|].
    destruct c; try (apply (tail_now (Err EStatic)); discriminate).
    destruct x; apply tail_hdu.
  - intros r0 n [|c cs] h n' r' H; [discriminate|]. destruct c; try discriminate.
    destruct x; eapply hdu_new_cards; exact H.
Qed.

Lemma primary_follows m r : header_ok r (new_primary m r) (fun fs => dev_new_primary m fs r).
Proof.
  unfold new_primary, dev_new_primary.
  apply (after_cards (fun r' n cards => match cards with
    | [] => (Panic, n, r')
    | CValue name (VLogical true _) :: _ =>
      if str_eqb name (chars "SIMPLE") then hdu_new m HPrimary XImage r' n cards else (Err EDynamic, n, r')
    | _ :: _ => (Err EStatic, n, r') end)
   (fun fs' r' n cards => match cards with
    | [] => (Panic, n, r', fs')
    | CValue name (VLogical true _) :: _ =>
      if str_eqb name (chars "SIMPLE") then dev_hdu_new m HPrimary XImage fs' r' n cards else (Err EDynamic, n, r', fs')
    | _ :: _ => (Err EStatic, n, r', fs') end)); try discriminate.
  - intros [|c cs]; [apply (tail_now Panic); discriminate|].
    destruct c; try (apply (tail_now (Err EStatic)); discriminate).
    match goal with v : value |- _ => destruct v; try (apply (tail_now (Err EStatic)); discriminate) end.
    match goal with v : bool |- _ => destruct v; try (apply (tail_now (Err EStatic)); discriminate) end.
    destruct (str_eqb _ _); [|apply (tail_now (Err EDynamic)); discriminate].
    apply tail_hdu.
  - intros r0 n [|c cs] h n' r' H; [discriminate|]. destruct c; try discriminate.
    match goal with v : value |- _ => destruct v; try discriminate end.
    match goal with v : bool |- _ => destruct v; try discriminate end.
    destruct (str_eqb _ _); [|discriminate]. eapply hdu_new_cards; exact H.
Qed.

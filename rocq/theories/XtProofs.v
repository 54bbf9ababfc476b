(** Proofs about the extension descriptions. *)

From Verif Require Import Base Utf8 Text Card Reader Header Xtension SpecUtf8 SpecCard SpecHeader SpecXt.
From Verif Require Import TextLemmas CardProofs CardProofs2 HeaderProofs HeaderProofs2 HeaderProps.
From Coq Require Import ZifyBool.
Ltac Zify.zify_post_hook ::= Z.div_mod_to_equations.

(** ** Decimal numbers *)

Lemma dec_value_snoc ds d : dec_value (ds ++ [d]) = 10 * dec_value ds + d.
Proof.
  induction ds as [|a ds IH]; simpl.
  - change (10 ^ Z.of_nat 0) with 1. lia.
  - rewrite IH, app_length. simpl length.
    replace (Z.of_nat (length ds + 1)) with (Z.succ (Z.of_nat (length ds))) by lia.
    rewrite Z.pow_succ_r by lia. lia.
Qed.

Lemma dec_value_pos d r : Forall digit (d :: r) -> d <> 0 -> 0 < dec_value (d :: r).
Proof.
  intros H N. inversion H as [|? ? Hd Hr]; subst. simpl.
  pose proof (dec_value_nonneg r Hr). unfold digit in Hd.
  assert (0 < 10 ^ Z.of_nat (length r)) by (apply Z.pow_pos_nonneg; lia). nia.
Qed.

Lemma digit_chars_inj a b : digit_chars a = digit_chars b -> a = b.
Proof.
  revert b; induction a as [|x a IH]; destruct b as [|y b]; simpl; intro H; try discriminate; auto.
  inversion H. f_equal; [lia|auto].
Qed.

Lemma dec_fuel_spec f : forall n acc,
  0 <= n < 10 ^ Z.of_nat (S f) ->
  exists ds, dec_digits_fuel (S f) n acc = digit_chars ds ++ acc /\ Forall digit ds /\ ds <> [] /\
    dec_value ds = n /\ (ds = [0] \/ exists d r, ds = d :: r /\ d <> 0).
Proof.
  induction f as [|f IH]; intros n acc H.
  - change (10 ^ Z.of_nat 1) with 10 in H. exists [n].
    assert (D: digit n) by (unfold digit; lia).
    cbn [dec_digits_fuel]. rewrite Z.mod_small by lia. replace (n <? 10) with true by lia.
    split; [reflexivity|]. split; [auto|]. split; [congruence|]. split.
    + unfold dec_value. simpl length. change (10 ^ Z.of_nat 0) with 1. lia.
    + destruct (Z.eq_dec n 0) as [->|]; [auto|right; eauto].
  - remember (S f) as g. cbn [dec_digits_fuel]. destruct (n <? 10) eqn:L.
    + exists [n]. assert (D: digit n) by (unfold digit; lia).
      rewrite Z.mod_small by lia.
      split; [reflexivity|]. split; [auto|]. split; [congruence|]. split.
      * unfold dec_value. simpl length. change (10 ^ Z.of_nat 0) with 1. lia.
      * destruct (Z.eq_dec n 0) as [->|]; [auto|right; eauto].
    + subst g. destruct (IH (n / 10) ((48 + n mod 10) :: acc)) as (ds & E & F & N & V & Z0).
      { replace (Z.of_nat (S (S f))) with (Z.succ (Z.of_nat (S f))) in H by lia.
        rewrite Z.pow_succ_r in H by lia. lia. }
      exists (ds ++ [n mod 10]). split; [|split; [|split; [|split]]].
      * rewrite E, digit_chars_app, <- app_assoc. reflexivity.
      * apply Forall_app. split; auto. constructor; auto. unfold digit. lia.
      * destruct ds; discriminate.
      * rewrite dec_value_snoc, V. lia.
      * right. destruct Z0 as [->|(d & r & -> & Nd)].
        { simpl in V. change (10 ^ Z.of_nat 0) with 1 in V. lia. }
        { exists d, (r ++ [n mod 10]). auto. }
Qed.

Lemma dec_decimal n : 0 <= n -> decimal n (dec n).
Proof.
  intro H. unfold dec.
  destruct (dec_fuel_spec (Z.to_nat (Z.log2 n)) n []) as (ds & E & F & N & V & Z0).
  - split; auto. pose proof (Z.log2_nonneg n).
    replace (Z.of_nat (S (Z.to_nat (Z.log2 n)))) with (Z.succ (Z.log2 n)) by lia.
    destruct (Z.eq_dec n 0) as [->|].
    + simpl. vm_compute. reflexivity.
    + pose proof (Z.log2_spec n ltac:(lia)) as (_ & L).
      eapply Z.lt_le_trans; [exact L|]. apply Z.pow_le_mono_l. lia.
  - exists ds. rewrite E, app_nil_r. auto.
Qed.

Lemma digits_unique a : forall b,
  Forall digit a -> Forall digit b -> dec_value a = dec_value b ->
  (a = [] \/ exists d r, a = d :: r /\ d <> 0) -> (b = [] \/ exists d r, b = d :: r /\ d <> 0) -> a = b.
Proof.
  induction a as [|x a IH] using rev_ind; intros b Fa Fb V Ha Hb.
  - destruct Hb as [->|(d & r & -> & N)]; auto.
    pose proof (dec_value_pos d r Fb N). simpl in V, H. lia.
  - destruct Ha as [Ha|(d & r & Ea & N)]; [destruct a; discriminate|].
    assert (Pa: 0 < dec_value (a ++ [x])) by (rewrite Ea in Fa |- *; now apply dec_value_pos).
    destruct b as [|y b _] using rev_ind; [simpl in V; lia|].
    apply Forall_app in Fa as (Fa & Fx). apply Forall_app in Fb as (Fb & Fy).
    inversion Fx as [|? ? Dx _]; subst. inversion Fy as [|? ? Dy _]; subst. unfold digit in Dx, Dy.
    rewrite !dec_value_snoc in V.
    pose proof (dec_value_nonneg a Fa). pose proof (dec_value_nonneg b Fb).
    assert (x = y /\ dec_value a = dec_value b) as (-> & V') by lia.
    f_equal. apply IH; auto.
    + destruct a as [|z a]; [auto|]. right. simpl in Ea. inversion Ea; subst. eauto.
    + destruct Hb as [Hb|(d' & r' & Eb & N')]; [destruct b; discriminate|].
      destruct b as [|z b]; [auto|]. right. simpl in Eb. inversion Eb; subst. eauto.
Qed.

Lemma decimal_unique n s : 0 <= n -> decimal n s -> s = dec n.
Proof.
  intros Hn (ds & -> & F & N & V & Z0).
  destruct (dec_decimal n Hn) as (ds' & -> & F' & N' & V' & Z0').
  f_equal. destruct Z0 as [->|Z0], Z0' as [->|Z0']; auto.
  - destruct Z0' as (d & r & -> & Nd). pose proof (dec_value_pos d r F' Nd).
    simpl in V. change (10 ^ Z.of_nat 0) with 1 in V. lia.
  - destruct Z0 as (d & r & -> & Nd). pose proof (dec_value_pos d r F Nd).
    simpl in V'. change (10 ^ Z.of_nat 0) with 1 in V'. lia.
  - apply digits_unique; auto. congruence.
Qed.

Lemma dec_inj i j : 0 <= i -> 0 <= j -> dec i = dec j -> i = j.
Proof.
  intros Hi Hj E. destruct (dec_decimal i Hi) as (a & Ea & _ & _ & Va & _).
  destruct (dec_decimal j Hj) as (b & Eb & _ & _ & Vb & _).
  rewrite Ea, Eb in E. apply digit_chars_inj in E. congruence.
Qed.

Lemma indexed_inj name i j : 0 <= i -> 0 <= j -> indexed name i = indexed name j -> i = j.
Proof. intros Hi Hj E. apply app_inv_head in E. now apply dec_inj. Qed.

Lemma is_digit_iff c : is_digit c = true <-> exists d, digit d /\ c = 48 + d.
Proof.
  unfold is_digit, digit. split.
  - intro H. exists (c - 48). lia.
  - intros (d & H & ->). lia.
Qed.

Lemma digits_acc_some l : forall acc v,
  digits_acc acc l = Some v -> exists ds, l = digit_chars ds /\ Forall digit ds /\
    v = acc * 10 ^ Z.of_nat (length ds) + dec_value ds.
Proof.
  induction l as [|c l IH]; simpl; intros acc v H.
  - inversion H; subst. exists []. simpl. change (10 ^ Z.of_nat 0) with 1. split; auto. split; auto. lia.
  - destruct (is_digit c) eqn:D; [|discriminate]. apply is_digit_iff in D as (d & D & ->).
    destruct (IH _ _ H) as (ds & -> & F & ->). exists (d :: ds).
    split; auto. split; auto. simpl length. simpl dec_value.
    replace (Z.of_nat (S (length ds))) with (Z.succ (Z.of_nat (length ds))) by lia.
    rewrite Z.pow_succ_r by lia. ring.
Qed.

Lemma parse_usize_iff s n : parse_usize s = Ok n <-> unsigned_text n s.
Proof.
  unfold parse_usize, parse_unsigned.
  assert (X: forall l v, match match l with
      | [] => None
      | _ :: _ => match digits_acc 0 l with
                  | Some v => if v <=? 2 ^ 64 - 1 then Some v else None | None => None end end with
      | Some n => Ok n | None => @Err Z EDynamic end = Ok v <->
      exists ds, l = digit_chars ds /\ Forall digit ds /\ ds <> [] /\ dec_value ds = v /\ v < 2 ^ 64).
  { intros l v. destruct l as [|c l].
    - split; [discriminate|]. intros (ds & E & _ & N & _). destruct ds; [congruence|discriminate].
    - split.
      + destruct (digits_acc 0 (c :: l)) as [w|] eqn:E; [|discriminate].
        apply digits_acc_some in E as (ds & E & F & ->). rewrite Z.mul_0_l, Z.add_0_l.
        destruct (dec_value ds <=? 2 ^ 64 - 1) eqn:L; [|discriminate]. intro H. inversion H; subst.
        exists ds. split; auto. split; auto. split; [destruct ds; discriminate|]. split; auto. lia.
      + intros (ds & E & F & N & V & L). rewrite E. rewrite digits_acc_chars by auto.
        rewrite Z.mul_0_l, Z.add_0_l, V. replace (v <=? 2 ^ 64 - 1) with true by lia. reflexivity. }
  destruct s as [|c r].
  - split; [discriminate|]. intros (p & ds & E & _ & _ & N & _).
    symmetry in E. apply app_eq_nil in E as (_ & E). destruct ds; [congruence|discriminate].
  - destruct (Z.eqb_spec c 43) as [->|Nc].
    + etransitivity; [apply (X r n)|]. split.
      * intros (ds & -> & F & N & V & L). exists [43], ds. auto 10.
      * intros (p & ds & E & [->| ->] & F & N & V & L).
        { simpl in E. destruct ds as [|d ds]; [congruence|]. inversion E; subst.
          inversion F as [|? ? D _]; subst. unfold digit in D. lia. }
        { inversion E; subst. exists ds. auto. }
    + etransitivity; [apply (X (c :: r) n)|]. split.
      * intros (ds & E & F & N & V & L). exists [], ds. auto 10.
      * intros (p & ds & E & [->| ->] & F & N & V & L).
        { exists ds. auto. }
        { inversion E; congruence. }
Qed.

Lemma unsigned_text_no_dot n s : unsigned_text n s -> ~ In 46 s.
Proof.
  intros (p & ds & -> & Hp & F & _) I. apply in_app_iff in I as [I|I].
  - destruct Hp as [->| ->]; simpl in I; intuition discriminate.
  - apply in_map_iff in I as (d & E & I). rewrite Forall_forall in F. apply F in I.
    unfold digit in I. lia.
Qed.

Lemma split_dot_iff s a b : split_dot s = Some (a, b) <-> s = a ++ 46 :: b /\ ~ In 46 a.
Proof.
  revert a b. induction s as [|c s IH]; intros a b; simpl.
  - split; [discriminate|]. intros (E & _). destruct a; discriminate.
  - destruct (Z.eqb_spec c 46) as [->|N].
    + split; intro H.
      * inversion H; subst. split; auto.
      * destruct H as (E & NI). destruct a as [|x a]; inversion E; subst; auto.
        destruct NI. simpl; auto.
    + split; intro H.
      * destruct (split_dot s) as [(a', b')|] eqn:E; [|discriminate]. inversion H; subst.
        destruct (proj1 (IH a' b) eq_refl) as (-> & NI). split; auto. simpl. intuition.
      * destruct H as (E2 & NI). destruct a as [|x a]; inversion E2; subst; [congruence|].
        rewrite (proj2 (IH a b)); auto. split; auto. intro. apply NI. simpl; auto.
Qed.

Lemma parse_width_dec_iff s w d :
  parse_width_dec s = Ok (w, d) <->
  exists u v, s = u ++ 46 :: v /\ unsigned_text w u /\ unsigned_text d v.
Proof.
  unfold parse_width_dec. split.
  - destruct (split_dot s) as [(a, b)|] eqn:E; [|discriminate]. apply split_dot_iff in E as (-> & _).
    destruct (parse_usize a) as [x| |] eqn:Ea; try discriminate.
    destruct (parse_usize b) as [y| |] eqn:Eb; try discriminate.
    intro H. simpl in H. inversion H; subst. apply parse_usize_iff in Ea, Eb. eauto.
  - intros (u & v & -> & Hu & Hv).
    replace (split_dot (u ++ 46 :: v)) with (Some (u, v)).
    + apply parse_usize_iff in Hu, Hv. rewrite Hu, Hv. reflexivity.
    + symmetry. apply split_dot_iff. split; auto. eapply unsigned_text_no_dot; eauto.
Qed.

Lemma parse_atform_iff s f :
  parse_atform s = Ok f <->
  exists t, stripped_right (fun c => is_unicode_ws c = true) s t /\ atform_spelled f t.
Proof.
  assert (T: forall t, stripped_right (fun c => is_unicode_ws c = true) s t <-> trim_end s = t).
  { intro t. symmetry. apply (trim_end_by_iff is_unicode_ws (fun c => is_unicode_ws c = true)). tauto. }
  assert (R: (exists t, stripped_right (fun c => is_unicode_ws c = true) s t /\ atform_spelled f t) <->
             atform_spelled f (trim_end s)).
  { split.
    - intros (t & H & A). apply T in H. subst. auto.
    - intro A. exists (trim_end s). split; auto. now apply T. }
  rewrite R. clear R T. unfold parse_atform. destruct (trim_end s) as [|c rest].
  { split; [discriminate|]. destruct f; simpl; intro H; decompose [ex and] H; discriminate. }
  assert (U: forall g w, (exists u, c :: rest = g :: u /\ unsigned_text w u) <->
                         c = g /\ parse_usize rest = Ok w).
  { intros g w. rewrite parse_usize_iff. split.
    - intros (u & E & H). inversion E; subst. auto.
    - intros (-> & H). eauto. }
  assert (W: forall g w d, (exists u v, c :: rest = g :: u ++ 46 :: v /\ unsigned_text w u /\ unsigned_text d v) <->
                         c = g /\ parse_width_dec rest = Ok (w, d)).
  { intros g w d. rewrite parse_width_dec_iff. split.
    - intros (u & v & E & H). inversion E; subst. split; auto. exists u, v. auto.
    - intros (-> & u & v & -> & H). exists u, v. auto. }
  assert (B: forall (x : res Z) (k : Z -> atform), (let! w := x in Ok (k w)) = Ok f <-> exists w, x = Ok w /\ k w = f).
  { intros x k. destruct x; simpl; split; try discriminate.
    - intro H. inversion H. eauto.
    - intros (w & H & <-). inversion H. auto.
    - intros (w & H & _). discriminate.
    - intros (w & H & _). discriminate. }
  assert (B2: forall (x : res (Z * Z)) (k : Z -> Z -> atform), (let! (w, d) := x in Ok (k w d)) = Ok f <-> exists w d, x = Ok (w, d) /\ k w d = f).
  { intros x k. destruct x as [(a, b)| |]; simpl; split; try discriminate.
    - intro H. inversion H. eauto.
    - intros (w & d & H & <-). inversion H. auto.
    - intros (w & d & H & _). discriminate.
    - intros (w & d & H & _). discriminate. }
  destruct (Z.eqb_spec c 65) as [->|N1]; [|destruct (Z.eqb_spec c 73) as [->|N2];
    [|destruct (Z.eqb_spec c 70) as [->|N3]; [|destruct (Z.eqb_spec c 69) as [->|N4];
    [|destruct (Z.eqb_spec c 68) as [->|N5]]]]].
  1-2: rewrite B; split;
    [ intros (w & H & <-); simpl; rewrite U; auto
    | destruct f; simpl; intro H; try apply U in H; try apply W in H; destruct H as (E & H);
      try discriminate; eauto ].
  1-3: rewrite B2; split;
    [ intros (w & d & H & <-); simpl; rewrite W; auto
    | destruct f; simpl; intro H; try apply U in H; try apply W in H; destruct H as (E & H);
      try discriminate; eauto ].
  split; [discriminate|].
  destruct f; simpl; intro H; try apply U in H; try apply W in H; destruct H as (E & H); congruence.
Qed.

(** Proofs about the description of tile-compressed images. *)

From Verif Require Import Base Utf8 Text Card Reader Header Xtension SpecUtf8 SpecCard SpecHeader SpecXt.
From Verif Require Import TextLemmas CardProofs CardProofs2 HeaderProofs HeaderProofs2 HeaderProps XtProofs XtProofs2.
From Coq Require Import ZifyBool.

(** ** Block size *)

Lemma get_in vs k v : get vs k = Some v -> In (k, v) vs.
Proof.
  induction vs as [|(n, w) vs IH]; simpl; [discriminate|].
  destruct (str_eqb n k) eqn:E; intro H; [|auto].
  apply str_eqb_eq in E. inversion H; subst. auto.
Qed.

Lemma in_get vs k v : NoDup (keywords vs) -> In (k, v) vs -> get vs k = Some v.
Proof.
  induction vs as [|(n, w) vs IH]; simpl; [tauto|]. intros ND [E|I].
  - inversion E; subst. now rewrite str_eqb_refl.
  - inversion ND as [|? ? NI ND']; subst. destruct (str_eqb n k) eqn:E; [|auto].
    apply str_eqb_eq in E. subst. destruct NI. apply (in_map fst) in I. exact I.
Qed.

Lemma has_prefix_iff p s : has_prefix p s = true <-> exists r, s = p ++ r.
Proof.
  revert s. induction p as [|a p IH]; intro s; simpl.
  - split; eauto.
  - destruct s as [|b s].
    + split; [discriminate|]. intros (r & H). discriminate.
    + rewrite andb_true_iff, Z.eqb_eq, IH. split.
      * intros (-> & r & ->). exists r. reflexivity.
      * intros (r & H). inversion H; subst. eauto.
Qed.

Lemma replace_zname j : len j <= 3 -> replace_name (chars "ZNAME" ++ j) = chars "ZVAL" ++ j.
Proof.
  intro H. destruct j as [|a [|b [|c [|d j]]]]; try reflexivity. unfold len in H. simpl length in H. lia.
Qed.

Lemma u8_iff vs k z : get_parsed de_u8 vs k = Ok z <-> has_int vs k z /\ 0 <= z < 256.
Proof. unfold de_u8, has_int. rewrite typed_int. intuition lia. Qed.

Lemma find_blocksize_spec vs :
  NoDup (keywords vs) -> (forall j, In (chars "ZNAME" ++ j) (keywords vs) -> len j <= 3) ->
  match find_blocksize vs vs with
  | Some n => blocksize_given vs n
  | None => forall n, ~ blocksize_given vs n
  end.
Proof.
  intros ND LK.
  assert (G: forall l, incl l vs ->
    match find_blocksize vs l with
    | Some n => blocksize_given vs n
    | None => forall j c n, In (chars "ZNAME" ++ j, VString (chars "BLOCKSIZE") c) l ->
                ~ (has_int vs (chars "ZVAL" ++ j) n /\ 0 <= n < 256)
    end).
  { induction l as [|(name, v) l IH]; intro I; cbn [find_blocksize].
    - intros j c n [].
    - assert (Il: incl l vs) by (intros x Hx; apply I; right; auto).
      specialize (IH Il).
      assert (Skip: (forall j c, (name, v) <> (chars "ZNAME" ++ j, VString (chars "BLOCKSIZE") c) \/
                       forall n, get_parsed de_u8 vs (chars "ZVAL" ++ j) <> Ok n) ->
              match find_blocksize vs l with
              | Some n => blocksize_given vs n
              | None => forall j c n, In (chars "ZNAME" ++ j, VString (chars "BLOCKSIZE") c) ((name, v) :: l) ->
                          ~ (has_int vs (chars "ZVAL" ++ j) n /\ 0 <= n < 256)
              end).
      { intro S. destruct (find_blocksize vs l); auto. intros j c n [E|H]; [|eauto].
        destruct (S j c) as [N|N]; [congruence|]. intro X. apply u8_iff in X. now apply N in X. }
      destruct v; try (apply Skip; intros; left; discriminate).
      destruct (str_eqb v (chars "BLOCKSIZE") && has_prefix (chars "ZNAME") name) eqn:E.
      2:{ apply Skip. intros j c. left. intro H. inversion H; subst.
          rewrite str_eqb_refl in E. cbn [andb] in E.
          assert (has_prefix (chars "ZNAME") (chars "ZNAME" ++ j) = true) by (apply has_prefix_iff; eauto).
          simpl in E, H0. congruence. }
      apply andb_true_iff in E as (E1 & E2). apply str_eqb_eq in E1. apply has_prefix_iff in E2 as (j & ->).
      subst.
      assert (Lj: len j <= 3).
      { apply LK. change (chars "ZNAME" ++ j) with (fst (chars "ZNAME" ++ j, VString (chars "BLOCKSIZE") comment)).
        apply in_map. apply I. left. reflexivity. }
      rewrite replace_zname by auto.
      destruct (get_parsed de_u8 vs (chars "ZVAL" ++ j)) as [n| |] eqn:D.
      + apply u8_iff in D as (D & R). exists j, comment. split; auto. apply in_get; auto. apply I. left. auto.
      + apply Skip. intros j' c. destruct (list_eq_dec Z.eq_dec j j') as [<-|N].
        * right. congruence.
        * left. intro H. inversion H. congruence.
      + apply Skip. intros j' c. destruct (list_eq_dec Z.eq_dec j j') as [<-|N].
        * right. congruence.
        * left. intro H. inversion H. congruence. }
  specialize (G vs (incl_refl _)). destruct (find_blocksize vs vs); auto.
  intros n (j & c & H1 & H2). apply get_in in H1. exact (G j c n H1 H2).
Qed.

Lemma parse_zcmp_spec vs c :
  NoDup (keywords vs) -> (forall j, In (chars "ZNAME" ++ j) (keywords vs) -> len j <= 3) ->
  (forall n1 n2, blocksize_given vs n1 -> blocksize_given vs n2 -> n1 = n2) ->
  parse_zcmp vs = Some c <-> compression_given vs c.
Proof.
  intros ND LK UB. pose proof (find_blocksize_spec vs ND LK) as FB.
  unfold parse_zcmp, compression_given. split.
  - destruct (get vs (chars "ZCMPTYPE")) as [v|] eqn:G; [|discriminate].
    destruct v as [| | |value comment| |]; try discriminate. intro H. exists value, comment, (trim_ascii_end value).
    split; auto. split; [now apply trim_ascii_end_iff|]. cbv zeta in H.
    destruct (str_eqb (trim_ascii_end value) (chars "GZIP_1")) eqn:E1.
    { apply str_eqb_eq in E1. inversion H; subst. auto. }
    destruct (str_eqb (trim_ascii_end value) (chars "GZIP_2")) eqn:E2.
    { apply str_eqb_eq in E2. inversion H; subst. auto. }
    destruct (str_eqb (trim_ascii_end value) (chars "RICE_1") || str_eqb (trim_ascii_end value) (chars "RICE_ONE")) eqn:E3.
    { apply orb_true_iff in E3. rewrite !str_eqb_eq in E3. inversion H; subst.
      split; auto. split; auto. destruct (find_blocksize vs vs); auto. }
    destruct (str_eqb (trim_ascii_end value) (chars "PLI0_1")) eqn:E4.
    { apply str_eqb_eq in E4. inversion H; subst. auto. }
    destruct (str_eqb (trim_ascii_end value) (chars "HCOMPRESS_1")) eqn:E5; [|discriminate].
    apply str_eqb_eq in E5. inversion H; subst. auto.
  - intros (s & cm & t & -> & S & H). cbv zeta. apply trim_ascii_end_iff in S. rewrite S.
    destruct c as [| |b p| |].
    + subst t. rewrite H. reflexivity.
    + subst t. rewrite H. reflexivity.
    + destruct H as (H & -> & B).
      assert (E: match find_blocksize vs vs with Some n => n | None => 32 end = b).
      { destruct (find_blocksize vs vs) as [n|].
        - destruct B as [B|(B & _)]; [eauto|destruct (B n FB)].
        - destruct B as [B|(_ & ->)]; [destruct (FB b B)|auto]. }
      rewrite E. destruct H as [H|H]; rewrite H; reflexivity.
    + rewrite H. reflexivity.
    + rewrite H. reflexivity.
Qed.

(** ** Axes and tiles *)

Lemma znaxis_loop_spec vs n : forall i l,
  length l = n ->
  (znaxis_loop vs n i = l <-> tiles_given vs i (map fst l) (map snd l)).
Proof.
  induction n as [|n IH]; intros i l L.
  - destruct l; [|discriminate]. simpl. tauto.
  - destruct l as [|(a, t) l]; [discriminate|]. injection L as L.
    cbn [znaxis_loop map fst snd tiles_given].
    destruct (get_parsed de_u64 vs (indexed (chars "ZNAXIS") i)) as [a'| |] eqn:A.
    2,3: split; [discriminate|]; intros (H & U & _); rewrite (u64_get _ _ _ H U) in A; discriminate.
    apply u64_iff in A as (A & UA).
    set (t' := match get_parsed de_u64 vs (indexed (chars "ZTILE") i) with
               | Ok t => t | _ => if i =? 1 then a' else 1 end).
    assert (T: forall t, t = t' <->
       (has_int vs (indexed (chars "ZTILE") i) t /\ u64 t \/
        (forall z, has_int vs (indexed (chars "ZTILE") i) z -> ~ u64 z) /\ t = (if i =? 1 then a' else 1))).
    { intro t0. unfold t'. destruct (get_parsed de_u64 vs (indexed (chars "ZTILE") i)) as [t1| |] eqn:E.
      - apply u64_iff in E as (E & UE). split.
        + intros ->. auto.
        + intros [(H & _)|(H & _)]; [eapply has_int_fun; eauto|destruct (H _ E UE)].
      - split.
        + intros ->. right. split; auto. intros z H U. rewrite (u64_get _ _ _ H U) in E. discriminate.
        + intros [(H & U)|(_ & ->)]; auto. rewrite (u64_get _ _ _ H U) in E. discriminate.
      - split.
        + intros ->. right. split; auto. intros z H U. rewrite (u64_get _ _ _ H U) in E. discriminate.
        + intros [(H & U)|(_ & ->)]; auto. rewrite (u64_get _ _ _ H U) in E. discriminate. }
    split.
    + clearbody t'. intro H. injection H as -> -> H2. split; auto. split; auto.
      split; [now apply T|]. apply IH; auto.
    + intros (H1 & U1 & H2 & H3). assert (a = a') by (eapply has_int_fun; eauto). subst a.
      apply T in H2. apply (IH (i + 1) l) in H3; auto. rewrite H3. subst t. reflexivity.
Qed.

Lemma znaxis_loop_le vs n : forall i, (length (znaxis_loop vs n i) <= n)%nat.
Proof.
  induction n as [|n IH]; intro i; simpl; [lia|].
  destruct (get_parsed de_u64 vs (indexed (chars "ZNAXIS") i)); simpl; try lia. specialize (IH (i + 1)). lia.
Qed.

Lemma tiles_lengths vs axes : forall i tiles, tiles_given vs i axes tiles -> length axes = length tiles.
Proof.
  induction axes as [|a axes IH]; intros i [|t tiles]; simpl; try tauto. intros (_ & _ & _ & H).
  f_equal. eauto.
Qed.

Lemma parse_znaxis_spec vs axes tiles o :
  parse_znaxis vs = Ok o ->
  (o = Some (axes, tiles) <-> has_int vs (chars "ZNAXIS") (len axes) /\ u64 (len axes) /\ tiles_given vs 1 axes tiles).
Proof.
  unfold parse_znaxis.
  destruct (get_parsed de_u64 vs (chars "ZNAXIS")) as [n| |] eqn:E.
  - apply u64_iff in E as (E & U). unfold u64 in U.
    destruct (with_capacity n 8) eqn:W; try discriminate. cbn [bind]. intro H.
    set (l := znaxis_loop vs (Z.to_nat n) 1) in *. split.
    + intros ->. destruct (Z.eqb_spec (len l) n) as [L|L]; [|discriminate]. injection H as <- <-. rewrite <- L in E.
      assert (K: length l = Z.to_nat n) by (rewrite <- L; unfold len; lia).
      assert (LM: len (map fst l) = n) by (rewrite <- L; unfold len; rewrite map_length; reflexivity).
      rewrite LM. rewrite L in E. split; auto. split; [exact U|].
      apply (znaxis_loop_spec vs (Z.to_nat n) 1 l K). reflexivity.
    + intros (H1 & _ & H2). assert (n = len axes) by (eapply has_int_fun; eauto). subst n.
      pose proof (tiles_lengths _ _ _ _ H2) as LL.
      assert (EF: map fst (combine axes tiles) = axes).
      { clear -LL. revert tiles LL. induction axes as [|a axes IH]; intros [|t tiles] LL; simpl in *; try discriminate; auto.
        f_equal. apply IH. congruence. }
      assert (ES: map snd (combine axes tiles) = tiles).
      { clear -LL. revert tiles LL. induction axes as [|a axes IH]; intros [|t tiles] LL; simpl in *; try discriminate; auto.
        f_equal. apply IH. congruence. }
      assert (X: l = combine axes tiles).
      { apply (znaxis_loop_spec vs (Z.to_nat (len axes)) 1 (combine axes tiles)).
        - rewrite combine_length, <- LL. unfold len. lia.
        - rewrite EF, ES. exact H2. }
      assert (LX: len l = len axes).
      { rewrite X. unfold len. rewrite combine_length, <- LL. lia. }
      rewrite LX, Z.eqb_refl in H. inversion H; subst. rewrite X, EF, ES. reflexivity.
  - intro H. inversion H; subst. split; [discriminate|]. intros (H1 & U & _).
    rewrite (u64_get _ _ _ H1 U) in E. discriminate.
  - intro H. inversion H; subst. split; [discriminate|]. intros (H1 & U & _).
    rewrite (u64_get _ _ _ H1 U) in E. discriminate.
Qed.

(** ** The column holding the compressed data *)

Lemma find_ttype_from_spec name l : forall i,
  match find_ttype_from l name i with
  | Some j => i <= j /\ nth_error l (Z.to_nat (j - i)) = Some (Some name) /\
      forall k, i <= k < j -> nth_error l (Z.to_nat (k - i)) <> Some (Some name)
  | None => ~ In (Some name) l
  end.
Proof.
  induction l as [|o l IH]; intro i; cbn [find_ttype_from]; [auto|].
  assert (Skip: o <> Some name ->
     match find_ttype_from l name (i + 1) with
     | Some j => i <= j /\ nth_error (o :: l) (Z.to_nat (j - i)) = Some (Some name) /\
         forall k, i <= k < j -> nth_error (o :: l) (Z.to_nat (k - i)) <> Some (Some name)
     | None => ~ In (Some name) (o :: l)
     end).
  { intro N. specialize (IH (i + 1)). destruct (find_ttype_from l name (i + 1)) as [j|].
    - destruct IH as (H1 & H2 & H3). split; [lia|].
      replace (Z.to_nat (j - i)) with (S (Z.to_nat (j - (i + 1)))) by lia. split; auto.
      intros k K. destruct (Z.eq_dec k i) as [->|Ne].
      + replace (i - i) with 0 by lia. simpl. congruence.
      + replace (Z.to_nat (k - i)) with (S (Z.to_nat (k - (i + 1)))) by lia. apply H3. lia.
    - intros [E|I]; auto. }
  destruct o as [n|]; [|apply Skip; discriminate].
  destruct (str_eqb n name) eqn:E.
  - apply str_eqb_eq in E. subst. split; [lia|]. replace (i - i) with 0 by lia. split; auto.
    intros k K. lia.
  - apply Skip. intro H. inversion H; subst. rewrite str_eqb_refl in E. discriminate.
Qed.

Lemma find_field_spec l name :
  match find_field_by_ttype l name with
  | Some i => first_named l name i
  | None => ~ In (Some name) l
  end.
Proof.
  pose proof (find_ttype_from_spec name l 0) as H. unfold find_field_by_ttype.
  destruct (find_ttype_from l name 0) as [j|]; auto. destruct H as (H1 & H2 & H3).
  rewrite Z.sub_0_r in H2. split; auto. split; auto. intros k K. specialize (H3 k K).
  rewrite Z.sub_0_r in H3. exact H3.
Qed.

Lemma first_named_fun l name i j : first_named l name i -> first_named l name j -> i = j.
Proof.
  intros (H1 & H2 & H3) (K1 & K2 & K3). destruct (Z.lt_trichotomy i j) as [L|[E|L]]; auto; exfalso.
  - apply (K3 i); auto.
  - apply (H3 j); auto.
Qed.

Lemma first_named_in l name i : first_named l name i -> In (Some name) l.
Proof. intros (_ & H & _). eapply nth_error_In; eauto. Qed.

Definition data_idx (l : list (option str)) : option Z :=
  match find_field_by_ttype l (chars "COMPRESSED_DATA") with
  | Some i => Some i
  | None => find_field_by_ttype l (chars "GZIP_COMPRESSED_DATA")
  end.

Lemma data_idx_spec l i : data_idx l = Some i <-> data_column l i.
Proof.
  unfold data_idx, data_column.
  pose proof (find_field_spec l (chars "COMPRESSED_DATA")) as H1.
  pose proof (find_field_spec l (chars "GZIP_COMPRESSED_DATA")) as H2.
  destruct (find_field_by_ttype l (chars "COMPRESSED_DATA")) as [a|]; split.
  - intro H. inversion H; subst. auto.
  - intros [H|(N & _)]; [f_equal; eapply first_named_fun; eauto|]. destruct N. eapply first_named_in; eauto.
  - intro H. rewrite H in H2. auto.
  - intros [H|(_ & H)]; [destruct H1; eapply first_named_in; eauto|].
    destruct (find_field_by_ttype l (chars "GZIP_COMPRESSED_DATA")) as [b|].
    + f_equal. eapply first_named_fun; eauto.
    + destruct H2. eapply first_named_in; eauto.
Qed.

(** ** The whole description *)

Lemma zquantiz_none vs : or_none (get_parsed (de_option de_zquantiz) vs (chars "ZQUANTIZ")) = None.
Proof.
  unfold get_parsed. destruct (value_or_undefined (get vs (chars "ZQUANTIZ"))); reflexivity.
Qed.

Lemma zbitpix_iff vs k b :
  or_none (get_parsed (de_option de_bitpix) vs k) = Some b <-> has_int vs k (bitpix_code b).
Proof.
  rewrite <- bitpix_iff. unfold get_parsed.
  destruct (value_or_undefined (get vs k)) eqn:E; cbn [de_option];
  try (match goal with |- context [de_bitpix ?v] => destruct (de_bitpix v) end; simpl; split; congruence).
  split; discriminate.
Qed.

Lemma zdither_iff vs k o :
  ok (get_parsed de_i64 vs k) = o <->
  match o with
  | Some d => has_int vs k d /\ - 2 ^ 63 <= d < 2 ^ 63
  | None => forall d, has_int vs k d -> ~ - 2 ^ 63 <= d < 2 ^ 63
  end.
Proof.
  assert (I: forall d, get_parsed de_i64 vs k = Ok d <-> has_int vs k d /\ - 2 ^ 63 <= d < 2 ^ 63).
  { intro d. unfold de_i64, has_int. rewrite typed_int. intuition lia. }
  destruct (get_parsed de_i64 vs k) as [d0| |] eqn:E; simpl; destruct o as [d|].
  - split.
    + intro H. inversion H; subst. now apply I.
    + intro H. apply I in H. congruence.
  - split; [discriminate|]. intro H. exfalso. destruct (proj1 (I d0) eq_refl) as (H1 & H2). apply (H _ H1 H2).
  - split; [discriminate|]. intro H. apply I in H. discriminate.
  - split; auto. intros _ d H1 H2. discriminate (proj2 (I d) (conj H1 H2)).
  - split; [discriminate|]. intro H. apply I in H. discriminate.
  - split; auto. intros _ d H1 H2. discriminate (proj2 (I d) (conj H1 H2)).
Qed.

Lemma bintable_zimage m vs t :
  bintable_parse m vs = Ok t ->
  exists zn, parse_znaxis vs = Ok zn /\
  bt_zimage t = make_zimage (parse_zcmp vs) (or_none (get_parsed (de_option de_bitpix) vs (chars "ZBITPIX")))
    zn None (ok (get_parsed de_i64 vs (chars "ZDITHER0"))) (data_idx (bt_ttypes t)).
Proof.
  unfold bintable_parse.
  destruct (check_for_bitpix vs) as [b| |]; try discriminate. cbn [bind].
  destruct (negb (bitpix_eqb b BU8)); try discriminate.
  destruct (check_for_naxis vs) as [n| |]; try discriminate. cbn [bind].
  destruct (negb (n =? 2)); try discriminate.
  destruct (check_for_naxisi vs 1) as [n1| |]; try discriminate. cbn [bind].
  destruct (check_for_naxisi vs 2) as [n2| |]; try discriminate. cbn [bind].
  destruct (check_for_pcount vs) as [pc| |]; try discriminate. cbn [bind].
  destruct (check_for_gcount vs) as [gc| |]; try discriminate. cbn [bind].
  destruct (negb (gc =? 1)); try discriminate.
  destruct (check_for_tfields vs) as [tf| |]; try discriminate. cbn [bind].
  destruct (parse_znaxis vs) as [zn| |]; try discriminate. cbn [bind].
  match goal with |- (let! theap := ?x in _) = _ -> _ => destruct x as [theap| |] end; try discriminate.
  cbn [bind].
  destruct (sum_bits m 0 _) as [bits| |]; try discriminate. cbn [bind].
  destruct (negb (bits / 8 =? n1)); try discriminate. intro H. inversion H; subst. exists zn. split; auto.
  simpl. rewrite zquantiz_none. reflexivity.
Qed.

Lemma zimage_iff m vs t z :
  NoDup (keywords vs) -> (forall j, In (chars "ZNAME" ++ j) (keywords vs) -> len j <= 3) ->
  (forall n1 n2, blocksize_given vs n1 -> blocksize_given vs n2 -> n1 = n2) ->
  bintable_parse m vs = Ok t ->
  (bt_zimage t = Some z <-> image_given vs (bt_ttypes t) z /\ z_quant z = None).
Proof.
  intros ND LK UB P. apply bintable_zimage in P as (zn & PZ & ->). unfold image_given. split.
  - intro H. unfold make_zimage in H.
    destruct (parse_zcmp vs) as [c|] eqn:C; [|discriminate].
    destruct (or_none (get_parsed (de_option de_bitpix) vs (chars "ZBITPIX"))) as [b|] eqn:B; [|discriminate].
    destruct zn as [(na, ti)|]; [|discriminate].
    destruct (data_idx (bt_ttypes t)) as [i|] eqn:I; [|discriminate].
    apply parse_zcmp_spec in C; auto. apply zbitpix_iff in B.
    apply (parse_znaxis_spec vs na ti) in PZ. destruct PZ as (PZ & _). specialize (PZ eq_refl).
    apply data_idx_spec in I.
    assert (Z: z = mk_zimage c b na ti None (ok (get_parsed de_i64 vs (chars "ZDITHER0"))) i /\
               match c with ZGzip1 | ZGzip2 | ZRice _ _ => True | _ => False end /\ b <> BI64).
    { destruct c, b; inversion H; split; auto; split; auto; discriminate. }
    destruct Z as (-> & ZC & ZB). simpl. split; auto. split; auto. split; auto. split; auto. split; auto.
    split; [tauto|]. split; [tauto|]. split; [tauto|]. split; auto. now apply zdither_iff.
  - intros ((H1 & H2 & H3 & H4 & H5 & H6 & H7 & H8 & H9) & Q). destruct z as [c b na ti q d i]. simpl in *.
    apply (parse_zcmp_spec vs c ND LK UB) in H1. apply zbitpix_iff in H3. apply data_idx_spec in H9.
    apply (zdither_iff vs (chars "ZDITHER0") d) in H8.
    apply (parse_znaxis_spec vs na ti) in PZ. destruct PZ as (_ & PZ).
    rewrite H1, H3, H8, H9, PZ, Q by auto. unfold make_zimage. destruct c, b; auto; try tauto; congruence.
Qed.

Lemma zquantiz_never m vs t z : bintable_parse m vs = Ok t -> bt_zimage t = Some z -> z_quant z = None.
Proof.
  intros P H. apply bintable_zimage in P as (zn & _ & E). rewrite E in H. unfold make_zimage in H.
  destruct (parse_zcmp vs) as [c|]; [|discriminate].
  destruct (or_none (get_parsed (de_option de_bitpix) vs (chars "ZBITPIX"))) as [b|]; [|discriminate].
  destruct zn as [(na, ti)|]; [|discriminate].
  destruct (data_idx (bt_ttypes t)) as [i|]; [|discriminate].
  destruct c, b; inversion H; reflexivity.
Qed.

(** ** Acceptance of standard binary tables *)

Lemma bintable_decided m vs n1 n2 pc tf cols :
  has_int vs (chars "BITPIX") 8 -> has_int vs (chars "NAXIS") 2 ->
  has_int vs (chars "NAXIS1") n1 -> u64 n1 -> has_int vs (chars "NAXIS2") n2 -> u64 n2 ->
  has_int vs (chars "PCOUNT") pc -> u64 pc -> has_int vs (chars "GCOUNT") 1 ->
  has_int vs (chars "TFIELDS") tf -> u64 tf ->
  columns (fun i a => column vs i (fst a) (snd a)) (Z.to_nat tf) 1 cols ->
  n1 * n2 < 2 ^ 64 -> total (map field_bits (map fst cols)) < 2 ^ 64 ->
  n1 <> total (map field_bits (map fst cols)) / 8 ->
  (forall z, has_int vs (chars "ZNAXIS") z -> z < 2 ^ 60) ->
  bintable_parse m vs = Err EStatic.
Proof.
  intros HB HN H1 U1 H2 U2 HP UP HG HT UT HC HL HS HE HZ.
  apply btfields_columns in HC.
  destruct (parse_znaxis_ok vs HZ) as (zn & Ezn).
  pose proof (btfields_nonneg vs (Z.to_nat tf) 1) as FN. rewrite <- HC in FN.
  assert (TH: exists theap, match get_parsed de_u64 vs (chars "THEAP") with
                | Ok t => Ok t | _ => u64_result m (n1 * n2) end = Ok theap).
  { assert (X: u64_result m (n1 * n2) = Ok (n1 * n2)).
    { unfold u64_result, u64 in *. replace (0 <=? n1 * n2) with true by nia.
      replace (n1 * n2 <? 2 ^ 64) with true by lia. reflexivity. }
    rewrite X. destruct (get_parsed de_u64 vs (chars "THEAP")); eauto. }
  destruct TH as (theap & TH).
  unfold bintable_parse, check_for_bitpix, check_for_naxis, check_for_naxisi, check_for_pcount,
    check_for_gcount, check_for_tfields.
  rewrite (proj2 (bitpix_iff vs (chars "BITPIX") BU8)) by auto. cbn [bind].
  change (indexed (chars "NAXIS") 1) with (chars "NAXIS1").
  change (indexed (chars "NAXIS") 2) with (chars "NAXIS2").
  rewrite (u64_get vs (chars "NAXIS") 2), (u64_get vs (chars "NAXIS1") n1), (u64_get vs (chars "NAXIS2") n2),
    (u64_get vs (chars "PCOUNT") pc), (u64_get vs (chars "GCOUNT") 1), (u64_get vs (chars "TFIELDS") tf)
    by (auto; unfold u64; lia).
  cbn [bind negb bitpix_eqb bitpix_code Z.eqb]. rewrite Ezn. cbn [bind]. rewrite TH. cbn [bind].
  rewrite <- HC. rewrite sum_bits_exact by (auto; lia). cbn [bind]. rewrite Z.add_0_l.
  destruct (Z.eqb_spec (total (map field_bits (map fst cols)) / 8) n1); [congruence|]. reflexivity.
Qed.

Lemma field_bytes_range f : 8 * field_bytes f - 7 <= field_bits f <= 8 * field_bytes f.
Proof. unfold field_bytes. lia. Qed.

Lemma total_bytes l :
  total (map field_bits l) <= 8 * total (map field_bytes l) /\
  (Forall (fun f => field_bits f mod 8 = 0) l -> total (map field_bits l) = 8 * total (map field_bytes l)) /\
  (~ Forall (fun f => field_bits f mod 8 = 0) l -> total (map field_bits l) < 8 * total (map field_bytes l)).
Proof.
  induction l as [|f l (I1 & I2 & I3)]; cbn [map total].
  - split; [lia|]. split; [lia|]. intro H. destruct H. constructor.
  - pose proof (field_bytes_range f) as R. split; [lia|]. split.
    + intro H. inversion H as [|? ? E F]; subst. specialize (I2 F). unfold field_bytes in *. lia.
    + intro H. destruct (Z.eq_dec (field_bits f mod 8) 0) as [E|E].
      * assert (N: ~ Forall (fun f => field_bits f mod 8 = 0) l) by (intro F; apply H; constructor; auto).
        specialize (I3 N). lia.
      * unfold field_bytes in *. lia.
Qed.

Lemma standard_accepted m vs n1 n2 pc tf cols :
  standard_bintable vs n1 n2 pc tf cols ->
  Forall (fun c => field_bits (fst c) mod 8 = 0) cols ->
  exists t, bintable_parse m vs = Ok t /\ bt_naxis1 t = n1 /\ bt_naxis2 t = n2 /\
    bt_pcount t = pc /\ bt_tforms t = map fst cols /\ bt_ttypes t = map snd cols.
Proof.
  intros (HB & HN & H1 & U1 & H2 & U2 & HP & UP & HG & HT & UT & HC & HE & HL & HS & HZ) F.
  destruct (total_bytes (map fst cols)) as (_ & T & _).
  assert (F': Forall (fun f => field_bits f mod 8 = 0) (map fst cols)) by now apply Forall_map.
  specialize (T F'). eapply bintable_accepted; eauto; rewrite T; lia.
Qed.

Lemma standard_rejected m vs n1 n2 pc tf cols :
  standard_bintable vs n1 n2 pc tf cols ->
  ~ Forall (fun c => field_bits (fst c) mod 8 = 0) cols ->
  bintable_parse m vs = Err EStatic.
Proof.
  intros (HB & HN & H1 & U1 & H2 & U2 & HP & UP & HG & HT & UT & HC & HE & HL & HS & HZ) F.
  destruct (total_bytes (map fst cols)) as (_ & _ & T).
  assert (F': ~ Forall (fun f => field_bits f mod 8 = 0) (map fst cols)) by (now rewrite Forall_map).
  specialize (T F'). eapply (bintable_decided m vs n1 n2 pc tf cols); eauto; lia.
Qed.

(** ** Sizes from headers *)

Lemma axes_u64 vs name l : forall i, axes_from vs name i l -> Forall u64 l.
Proof. induction l as [|a l IH]; intros i H; constructor; simpl in H; [tauto|]. apply (IH (i + 1)). tauto. Qed.

Lemma image_size_release vs im :
  image_parse vs = Ok im ->
  image_num_bytes Wrapping im =
  Ok (if len (im_naxisn im) =? 0 then 0
      else (Z.abs (bitpix_code (im_bitpix im)) / 8 * product (im_naxisn im)) mod 2 ^ 64).
Proof.
  intro H. apply image_parse_iff in H as (_ & _ & _ & A). apply axes_u64 in A.
  rewrite image_size_wrapping.
  - rewrite <- byte_size_spec, Z.div_mul by lia. destruct (im_naxisn im); reflexivity.
  - eapply Forall_impl; [|exact A]. intros a U. unfold u64 in U. lia.
Qed.

Lemma image_size_checked_build vs im :
  image_parse vs = Ok im -> Forall (fun a => a <> 0) (im_naxisn im) ->
  let size := if len (im_naxisn im) =? 0 then 0
              else Z.abs (bitpix_code (im_bitpix im)) / 8 * product (im_naxisn im) in
  image_num_bytes Checked im = if size <? 2 ^ 64 then Ok size else Panic.
Proof.
  intros H N size. apply image_parse_iff in H as (_ & _ & _ & A). apply axes_u64 in A.
  rewrite image_size_checked.
  - unfold size. rewrite <- byte_size_spec, Z.div_mul by lia. destruct (im_naxisn im); reflexivity.
  - rewrite Forall_forall in *. intros a I. specialize (A a I). specialize (N a I). unfold u64 in A. lia.
Qed.

Lemma image_size_exact m vs im :
  image_parse vs = Ok im ->
  (forall l r, im_naxisn im = l ++ r -> product l < 2 ^ 64) ->
  let size := if len (im_naxisn im) =? 0 then 0
              else Z.abs (bitpix_code (im_bitpix im)) / 8 * product (im_naxisn im) in
  size < 2 ^ 64 -> image_num_bytes m im = Ok size.
Proof.
  intros H N size S. apply image_parse_iff in H as (_ & _ & _ & A). apply axes_u64 in A.
  unfold image_num_bytes, num_pixels. unfold size in *. rewrite <- byte_size_spec, Z.div_mul in * by lia.
  pose proof (byte_size_pos (im_bitpix im)).
  destruct (im_naxisn im) as [|x l].
  - cbn [bind]. rewrite Z.mul_0_r. reflexivity.
  - assert (F: Forall (fun a => 0 <= a) (x :: l)).
    { eapply Forall_impl; [|exact A]. intros a U. unfold u64 in U. lia. }
    rewrite product_from_small; auto; [|lia|].
    + cbn [bind]. rewrite Z.mul_1_l. pose proof (product_nonneg _ F) as PN.
      change (len (x :: l) =? 0) with false in *. cbv iota in *.
      set (P := product (x :: l)) in *. unfold u64_result. replace (0 <=? byte_size (im_bitpix im) * P) with true by nia.
      replace (byte_size (im_bitpix im) * P <? 2 ^ 64) with true by lia. reflexivity.
    + intros p s E. rewrite Z.mul_1_l. eauto.
Qed.

Lemma indexed_name name i :
  0 <= i -> exists s, indexed name i = name ++ s /\ decimal i s /\ forall s', decimal i s' -> s' = s.
Proof.
  intro H. exists (dec i). split; [reflexivity|]. split; [now apply dec_decimal|].
  intros s' D. eapply decimal_unique; eauto.
Qed.

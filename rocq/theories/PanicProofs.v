(** Proofs about panics while headers are read. *)

From Verif Require Import Base Utf8 Text Card Reader Header Xtension Fits.
From Verif Require Import SpecUtf8 SpecCard SpecHeader SpecXt SpecFits SpecPanic.
From Verif Require Import TextLemmas HeaderProofs HeaderProofs2 HeaderProps XtProofs XtProofs2 XtProofs3 FitsProofs FitsProofs2 FitsProofs3 FitsProofs4.
From Coq Require Import ZifyBool.

Lemma u64_result_panic m z : 0 <= z -> (u64_result m z = Panic <-> m = Checked /\ 2 ^ 64 <= z).
Proof.
  intro H. unfold u64_result. replace (0 <=? z) with true by lia. cbn [andb].
  destruct (Z.ltb_spec z (2 ^ 64)); destruct m; split; try discriminate; auto; intros (? & ?); try discriminate; lia.
Qed.

Lemma u64_result_not_err m z e : u64_result m z <> Err e.
Proof. unfold u64_result. destruct (_ && _); [|destruct m]; discriminate. Qed.

Lemma u64_no_panic vs k : get_parsed de_u64 vs k <> Panic.
Proof. unfold get_parsed. apply de_u64_no_panic. Qed.

Tactic Notation "head_step" constr(vs) ident(E) :=
  match goal with
  | |- (let! x := get_parsed de_u64 vs ?k in _) = Panic -> _ =>
    destruct (get_parsed de_u64 vs k) as [?| |] eqn:E; [|discriminate|exfalso; eapply u64_no_panic; eassumption]; cbn [bind]
  end.

(** ** ASCII tables *)

Lemma ascii_panic vs :
  asciitable_parse vs = Panic <-> exists n1 n2 tf, table_head vs n1 n2 0 tf /\ 2 ^ 63 <= 24 * tf.
Proof.
  split.
  - unfold asciitable_parse, check_for_bitpix, check_for_naxis, check_for_naxisi, check_for_pcount,
      check_for_gcount, check_for_tfields.
    destruct (get_parsed de_bitpix vs (chars "BITPIX")) as [b| |] eqn:B;
      [|discriminate|unfold get_parsed in B; now apply de_bitpix_no_panic in B]. cbn [bind].
    destruct (negb (bitpix_eqb b BU8)) eqn:B2; try discriminate.
    change (indexed (chars "NAXIS") 1) with (chars "NAXIS1").
    change (indexed (chars "NAXIS") 2) with (chars "NAXIS2").
    head_step vs N. destruct (negb (a =? 2)) eqn:N2; try discriminate.
    head_step vs E1. head_step vs E2. head_step vs EP.
    destruct (negb (a2 =? 0)) eqn:P0; try discriminate.
    head_step vs EG. destruct (negb (a3 =? 1)) eqn:G1; try discriminate.
    head_step vs ET. unfold with_capacity. intro H.
    assert (C: 2 ^ 63 <= 24 * a4).
    { destruct (Z.leb_spec (a4 * 8) (2 ^ 63 - 1)); cbn [bind] in H; [|apply u64_iff in ET as (_ & ET); unfold u64 in ET; lia].
      destruct (Z.leb_spec (a4 * 24) (2 ^ 63 - 1)); cbn [bind] in H; [discriminate|lia]. }
    apply bitpix_iff in B. assert (b = BU8) by (destruct b; auto; discriminate). subst b. simpl in B.
    apply u64_iff in N as (N & _), E1 as (E1 & U1), E2 as (E2 & U2), EP as (EP & UP), EG as (EG & _), ET as (ET & UT).
    assert (a = 2) by lia. assert (a2 = 0) by lia. assert (a3 = 1) by lia. subst.
    exists a0, a1, a4. unfold table_head. auto 20.
  - intros (n1 & n2 & tf & (HB & HN & H1 & U1 & H2 & U2 & HP & UP & HG & HT & UT) & C).
    unfold asciitable_parse, check_for_bitpix, check_for_naxis, check_for_naxisi, check_for_pcount,
      check_for_gcount, check_for_tfields.
    rewrite (proj2 (bitpix_iff vs (chars "BITPIX") BU8)) by auto. cbn [bind].
    change (indexed (chars "NAXIS") 1) with (chars "NAXIS1").
    change (indexed (chars "NAXIS") 2) with (chars "NAXIS2").
    rewrite (u64_get vs (chars "NAXIS") 2), (u64_get vs (chars "NAXIS1") n1), (u64_get vs (chars "NAXIS2") n2),
      (u64_get vs (chars "PCOUNT") 0), (u64_get vs (chars "GCOUNT") 1), (u64_get vs (chars "TFIELDS") tf)
      by (auto; unfold u64; lia).
    cbn [bind negb bitpix_eqb bitpix_code Z.eqb Pos.eqb]. unfold with_capacity.
    destruct (tf * 8 <=? 2 ^ 63 - 1); auto. cbn [bind].
    replace (tf * 24 <=? 2 ^ 63 - 1) with false by lia. reflexivity.
Qed.

(** ** Binary tables *)

Lemma znaxis_panic vs :
  parse_znaxis vs = Panic <-> exists z, has_int vs (chars "ZNAXIS") z /\ u64 z /\ 2 ^ 63 <= 8 * z.
Proof.
  unfold parse_znaxis, with_capacity. split.
  - destruct (get_parsed de_u64 vs (chars "ZNAXIS")) as [n| |] eqn:E; try discriminate.
    destruct (Z.leb_spec (n * 8) (2 ^ 63 - 1)) as [L|L]; cbn [bind].
    { destruct (len _ =? n); discriminate. }
    intros _. apply u64_iff in E as (E & U). exists n. split; auto. split; auto. lia.
  - intros (z & H & U & L). rewrite (u64_get vs _ z H U).
    replace (z * 8 <=? 2 ^ 63 - 1) with false by lia. reflexivity.
Qed.

Lemma znaxis_not_err vs e : parse_znaxis vs <> Err e.
Proof.
  unfold parse_znaxis, with_capacity. destruct (get_parsed de_u64 vs _); try discriminate.
  destruct (_ <=? _); cbn [bind]; try discriminate. destruct (len _ =? _); discriminate.
Qed.

Lemma total_nonneg l : Forall field_nonneg l -> 0 <= total (map field_bits l).
Proof. induction 1 as [|g l Hg Hl IH]; simpl; [lia|]. pose proof (field_bits_nonneg g Hg). lia. Qed.

Lemma sum_bits_panic m l : forall acc,
  0 <= acc < 2 ^ 64 -> Forall field_nonneg l ->
  (sum_bits m acc l = Panic <-> m = Checked /\ 2 ^ 64 <= acc + total (map field_bits l)).
Proof.
  destruct m.
  2:{ intros acc Ha F. rewrite sum_bits_wrapping by auto. split; [discriminate|intros (? & _); discriminate]. }
  intros acc Ha F.
  destruct (Z.lt_ge_cases (acc + total (map field_bits l)) (2 ^ 64)) as [L|L].
  { rewrite sum_bits_exact by (auto; lia). split; [discriminate|lia]. }
  split; [auto|intros _].
  destruct (sum_bits Checked acc l) as [r|e|] eqn:S; auto; exfalso.
  - assert (LT: r < 2 ^ 64).
    { clear -S Ha. revert acc r Ha S. induction l as [|f l IH]; intros acc r Ha H; cbn [sum_bits] in H; [inversion H; lia|].
      destruct (num_bits_field Checked f); try discriminate. cbn [bind] in H.
      unfold u64_result in H. destruct ((0 <=? acc + a) && (acc + a <? 2 ^ 64)) eqn:B; try discriminate.
      cbn [bind] in H. apply IH in H; auto. lia. }
    apply sum_bits_checked in S; auto; lia.
  - clear -S. revert acc S. induction l as [|f l IH]; intros acc S; cbn [sum_bits] in S; [discriminate|].
    destruct (num_bits_field Checked f) as [b|e'|] eqn:N; cbn [bind] in S; try discriminate.
    + destruct (u64_result Checked (acc + b)) eqn:U; cbn [bind] in S; [eauto|now apply u64_result_not_err in U|discriminate].
    + destruct f; cbn [num_bits_field] in N; try discriminate. now apply u64_result_not_err in N.
Qed.

Lemma bin_panic m vs :
  bintable_parse m vs = Panic <->
  huge_count HBinTable vs \/ m = Checked /\ overflows_early HBinTable vs.
Proof.
  split.
  - unfold bintable_parse, check_for_bitpix, check_for_naxis, check_for_naxisi, check_for_pcount,
      check_for_gcount, check_for_tfields.
    destruct (get_parsed de_bitpix vs (chars "BITPIX")) as [b| |] eqn:B;
      [|discriminate|unfold get_parsed in B; now apply de_bitpix_no_panic in B]. cbn [bind].
    destruct (negb (bitpix_eqb b BU8)) eqn:B2; try discriminate.
    change (indexed (chars "NAXIS") 1) with (chars "NAXIS1").
    change (indexed (chars "NAXIS") 2) with (chars "NAXIS2").
    head_step vs N. destruct (negb (a =? 2)) eqn:N2; try discriminate.
    head_step vs E1. head_step vs E2. head_step vs EP.
    head_step vs EG. destruct (negb (a3 =? 1)) eqn:G1; try discriminate.
    head_step vs ET.
    apply bitpix_iff in B. assert (b = BU8) by (destruct b; auto; discriminate). subst b. simpl in B.
    apply u64_iff in N as (N & _), E1 as (E1 & U1), E2 as (E2 & U2), EP as (EP & UP), EG as (EG & _), ET as (ET & UT).
    assert (a = 2) by lia. assert (a3 = 1) by lia. subst.
    assert (H: table_head vs a0 a1 a2 a4) by (unfold table_head; auto 20).
    destruct (parse_znaxis vs) as [zn|e|] eqn:Z; cbn [bind].
    2: now apply znaxis_not_err in Z.
    2:{ intros _. left. apply znaxis_panic in Z as (z & Z). exists a0, a1, a2, a4, z. auto. }
    assert (P0: 0 <= a0 * a1) by (unfold u64 in *; nia).
    match goal with |- (let! theap := ?x in _) = _ -> _ => destruct x as [theap|e|] eqn:TH end; cbn [bind].
    + destruct (sum_bits m 0 _) as [bits|e|] eqn:SB; cbn [bind].
      * match goal with |- (if ?c then _ else _) = _ -> _ => destruct c end; discriminate.
      * discriminate.
      * intros _. apply sum_bits_panic in SB; [|lia|apply btfields_nonneg]. destruct SB as (-> & SB).
        right. split; auto. split; auto. exists a0, a1, a2, a4. split; auto. right.
        exists (btfields vs (Z.to_nat a4) 1). split; [now apply btfields_columns|].
        rewrite <- map_map with (f := fst). lia.
    + discriminate.
    + intros _. right.
      assert (X: u64_result m (a0 * a1) = Panic /\ forall z, has_int vs (chars "THEAP") z -> ~ u64 z).
      { destruct (get_parsed de_u64 vs (chars "THEAP")) eqn:T0; [discriminate| |]; split; auto;
          intros z Hz Uz; rewrite (u64_get _ _ _ Hz Uz) in T0; discriminate. }
      destruct X as (X & NT). apply u64_result_panic in X as (-> & X); auto.
      split; auto. split; auto. exists a0, a1, a2, a4. auto.
  - intro D.
    assert (H: exists n1 n2 pc tf, table_head vs n1 n2 pc tf).
    { destruct D as [(n1 & n2 & pc & tf & z & H & _)|(_ & _ & n1 & n2 & pc & tf & H & _)]; eauto 6. }
    destruct H as (n1 & n2 & pc & tf & HH).
    pose proof HH as (HB & HN & H1 & U1 & H2 & U2 & HP & UP & HG & HT & UT).
    unfold bintable_parse, check_for_bitpix, check_for_naxis, check_for_naxisi, check_for_pcount,
      check_for_gcount, check_for_tfields.
    rewrite (proj2 (bitpix_iff vs (chars "BITPIX") BU8)) by auto. cbn [bind].
    change (indexed (chars "NAXIS") 1) with (chars "NAXIS1").
    change (indexed (chars "NAXIS") 2) with (chars "NAXIS2").
    rewrite (u64_get vs (chars "NAXIS") 2), (u64_get vs (chars "NAXIS1") n1), (u64_get vs (chars "NAXIS2") n2),
      (u64_get vs (chars "PCOUNT") pc), (u64_get vs (chars "GCOUNT") 1), (u64_get vs (chars "TFIELDS") tf)
      by (auto; unfold u64; lia).
    cbn [bind negb bitpix_eqb bitpix_code Z.eqb Pos.eqb].
    destruct (parse_znaxis vs) as [zn|e|] eqn:Z; cbn [bind]; auto; [|now apply znaxis_not_err in Z].
    destruct D as [(n1' & n2' & pc' & tf' & z & _ & D)|(-> & _ & n1' & n2' & pc' & tf' & H' & D)].
    { assert (parse_znaxis vs = Panic) by (apply znaxis_panic; eauto). congruence. }
    destruct H' as (_ & _ & H1' & _ & H2' & _ & _ & _ & _ & HT' & _).
    pose proof (has_int_fun _ _ _ _ H1 H1'). pose proof (has_int_fun _ _ _ _ H2 H2').
    pose proof (has_int_fun _ _ _ _ HT HT'). subst n1' n2' tf'. clear H1' H2' HT'.
    assert (P0: 0 <= n1 * n2) by (unfold u64 in *; nia).
    cbv zeta. match goal with |- bind ?x _ = _ => destruct x as [theap|e|] eqn:TH end; cbn [bind]; auto.
    2:{ exfalso. destruct (get_parsed de_u64 vs (chars "THEAP")); [discriminate| |]; now apply u64_result_not_err in TH. }
    destruct D as [(NT & D)|(cols & C & D)].
    + exfalso. destruct (get_parsed de_u64 vs (chars "THEAP")) eqn:T0.
      * apply u64_iff in T0 as (T0 & T1). exact (NT _ T0 T1).
      * assert (u64_result Checked (n1 * n2) = Panic) by (apply u64_result_panic; auto). congruence.
      * assert (u64_result Checked (n1 * n2) = Panic) by (apply u64_result_panic; auto). congruence.
    + apply btfields_columns in C. subst cols.
      rewrite (proj2 (sum_bits_panic Checked _ 0 ltac:(lia) (btfields_nonneg vs (Z.to_nat tf) 1))); auto.
      split; auto. rewrite map_map. lia.
Qed.

(** ** Sizes *)

Lemma product_app a b : product (a ++ b) = product a * product b.
Proof. induction a as [|x a IH]; cbn [product app]; [lia|rewrite IH; ring]. Qed.

Lemma product_from_cases l : forall acc,
  0 <= acc < 2 ^ 64 -> Forall u64 l ->
  u64_product_from Checked acc l = Ok (acc * product l) /\ 0 <= acc * product l < 2 ^ 64 /\
    (forall a b, l = a ++ b -> acc * product a < 2 ^ 64) \/
  u64_product_from Checked acc l = Panic /\ exists a b, l = a ++ b /\ 2 ^ 64 <= acc * product a.
Proof.
  induction l as [|x l IH]; intros acc Ha F; cbn [u64_product_from].
  - left. cbn [product]. rewrite Z.mul_1_r. split; auto. split; auto. intros a b E.
    symmetry in E. apply app_eq_nil in E as (-> & _). cbn [product]. lia.
  - inversion F as [|? ? Hx Hl]; subst. unfold u64 in Hx.
    assert (P0: 0 <= acc * x) by nia.
    destruct (Z.lt_ge_cases (acc * x) (2 ^ 64)) as [L|L].
    + rewrite u64_result_small by lia. cbn [bind].
      destruct (IH (acc * x) ltac:(lia) Hl) as [(E & R & P)|(E & a & b & -> & P)].
      * left. cbn [product]. rewrite E. split; [f_equal; ring|]. split; [rewrite Z.mul_assoc; lia|].
        intros [|y a] b Eq; cbn [product]; [lia|]. cbn [app] in Eq. inversion Eq; subst.
        rewrite Z.mul_assoc. eapply P; eauto.
      * right. split; auto. exists (x :: a), b. split; auto. cbn [product]. rewrite Z.mul_assoc. exact P.
    + right. rewrite (proj2 (u64_result_panic Checked _ P0)) by auto. split; auto.
      exists [x], l. split; auto. cbn [product]. rewrite Z.mul_1_r. exact L.
Qed.

Lemma wrapping_ok z : exists n, u64_result Wrapping z = Ok n.
Proof. unfold u64_result. destruct (_ && _); eauto. Qed.

Lemma axes_u64 vs name l : forall i, axes_from vs name i l -> Forall u64 l.
Proof. induction l as [|a l IH]; intros i H; constructor; [apply H|eapply IH; apply H]. Qed.

Lemma image_size_panic m vs im :
  image_parse vs = Ok im ->
  (exists n, image_num_bytes m im = Ok n) \/ image_num_bytes m im = Panic.
Proof.
  intro H. destruct m.
  - apply image_parse_iff in H as (_ & _ & _ & A). apply axes_u64 in A.
    unfold image_num_bytes, num_pixels. destruct (im_naxisn im) as [|x l] eqn:E.
    + cbn [bind]. rewrite Z.mul_0_r. left. exists 0. reflexivity.
    + destruct (product_from_cases (x :: l) 1 ltac:(lia) A) as [(-> & R & _)|(-> & _)]; auto.
      cbn [bind]. destruct (u64_result Checked _) eqn:U; eauto. now apply u64_result_not_err in U.
  - left. apply image_size_release in H. eauto.
Qed.

Lemma late_panic m k vs x :
  xt_parse m (xtype_of k) vs = Ok x ->
  (xt_num_bytes m x = Panic <-> m = Checked /\ overflows_late x) /\ (forall e, xt_num_bytes m x <> Err e).
Proof.
  intro P.
  assert (KI: xtype_of k = XImage \/ xtype_of k = XBinTable \/ xtype_of k = XAsciiTable) by (destruct k; cbn; auto).
  destruct KI as [K|[K|K]]; rewrite K in P; cbn [xt_parse] in P.
  - destruct (image_parse vs) as [im| |] eqn:E; try discriminate. cbn [bind] in P. inversion P; subst x.
    cbn [xt_num_bytes overflows_late].
    split; [|intros e H; destruct (image_size_panic m vs im E) as [(n & X)|X]; congruence].
    destruct m.
    2:{ rewrite (image_size_release vs im E). split; [discriminate|intros (? & _); discriminate]. }
    apply image_parse_iff in E as (_ & _ & _ & A). apply axes_u64 in A.
    unfold image_num_bytes, num_pixels. destruct (im_naxisn im) as [|x l] eqn:E.
    + cbn [bind]. rewrite Z.mul_0_r. change (u64_result Checked 0) with (Ok 0 : res Z). split; [discriminate|].
      intros (_ & [(a & b & EE & L)|(N & _)]); [|congruence]. symmetry in EE. apply app_eq_nil in EE as (-> & _).
      cbn [product] in L. lia.
    + assert (BS: byte_size (im_bitpix im) = Z.abs (bitpix_code (im_bitpix im)) / 8) by reflexivity.
      pose proof (byte_size_pos (im_bitpix im)) as BP. rewrite BS in *.
      destruct (product_from_cases (x :: l) 1 ltac:(lia) A) as [(-> & R & PP)|(-> & a & b & EE & L)]; cbn [bind].
      * rewrite Z.mul_1_l in *. rewrite u64_result_panic by nia. split.
        -- intros (_ & L). split; auto. right. split; [discriminate|exact L].
        -- intros (_ & [(a & b & EE & L)|(_ & L)]); auto. apply PP in EE. rewrite Z.mul_1_l in EE. lia.
      * split; auto. intros _. split; auto. left. exists a, b. rewrite Z.mul_1_l in L. auto.
  - destruct (bintable_parse m vs) as [t| |] eqn:E; try discriminate. cbn [bind] in P. inversion P; subst x.
    cbn [xt_num_bytes overflows_late].
    apply bintable_parse_ok in E as (_ & _ & _ & U1 & _ & U2 & _ & U3 & _).
    rewrite bintable_size by auto. destruct (Z.ltb_spec (bt_naxis1 t * bt_naxis2 t + bt_pcount t) (2 ^ 64)).
    + split; [|discriminate]. split; [discriminate|lia].
    + destruct m; (split; [|discriminate]); split; try discriminate; auto. intros (? & _). discriminate.
  - destruct (asciitable_parse vs) as [t| |] eqn:E; try discriminate. cbn [bind] in P. inversion P; subst x.
    cbn [xt_num_bytes overflows_late].
    apply asciitable_parse_ok in E as (_ & _ & _ & U1 & _ & U2 & _).
    rewrite asciitable_size by auto. destruct (Z.ltb_spec (at_naxis1 t * at_naxis2 t) (2 ^ 64)).
    + split; [|discriminate]. split; [discriminate|lia].
    + destruct m; (split; [|discriminate]); split; try discriminate; auto. intros (? & _). discriminate.
Qed.

Lemma early_panic m k vs :
  xt_parse m (xtype_of k) vs = Panic <-> huge_count k vs \/ m = Checked /\ overflows_early k vs.
Proof.
  destruct k; cbn [xtype_of xt_parse].
  - destruct (image_parse vs) as [im|e|] eqn:E; cbn [bind].
    1,2: split; [discriminate|intros [[]|(_ & D & _)]; discriminate].
    now apply image_parse_no_panic in E.
  - destruct (image_parse vs) as [im|e|] eqn:E; cbn [bind].
    1,2: split; [discriminate|intros [[]|(_ & D & _)]; discriminate].
    now apply image_parse_no_panic in E.
  - rewrite <- bin_panic. destruct (bintable_parse m vs); cbn [bind]; split; congruence.
  - cbn [huge_count]. rewrite <- ascii_panic. destruct (asciitable_parse vs); cbn [bind]; split; auto; try discriminate.
    1,2: intros [D|(_ & D & _)]; discriminate.
Qed.

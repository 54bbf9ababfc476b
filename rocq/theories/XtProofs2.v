(** Proofs about the extension descriptions, continued: columns, sizes, tables. *)

From Verif Require Import Base Utf8 Text Card Reader Header Xtension SpecUtf8 SpecCard SpecHeader SpecXt.
From Verif Require Import TextLemmas CardProofs CardProofs2 HeaderProofs HeaderProofs2 HeaderProps XtProofs.
From Coq Require Import ZifyBool.
Ltac Zify.zify_post_hook ::= Z.div_mod_to_equations.

(** ** Keyword access in terms of [has_int] and [has_text] *)

Lemma u64_iff vs k z : get_parsed de_u64 vs k = Ok z <-> has_int vs k z /\ u64 z.
Proof. unfold de_u64, has_int, u64. rewrite typed_int. intuition lia. Qed.

Lemma u64_get vs k z : has_int vs k z -> u64 z -> get_parsed de_u64 vs k = Ok z.
Proof. intros. apply u64_iff. auto. Qed.

Lemma text_iff vs k s : get_parsed de_string vs k = Ok s <-> has_text vs k s.
Proof. destruct (typed_others vs k) as (_ & H & _). apply H. Qed.

Lemma bitpix_iff vs k b : get_parsed de_bitpix vs k = Ok b <-> has_int vs k (bitpix_code b).
Proof. destruct (typed_others vs k) as (_ & _ & _ & H). apply H. Qed.

Lemma has_int_fun vs k a b : has_int vs k a -> has_int vs k b -> a = b.
Proof. intros (c & H) (c' & H'). congruence. Qed.

Lemma has_text_fun vs k a b : has_text vs k a -> has_text vs k b -> a = b.
Proof. intros [(c & H)|H] [(c' & H')|H']; congruence. Qed.

Lemma get_parsed_no_panic {A} (de : value -> res A) vs k :
  (forall v, de v <> Panic) -> get_parsed de vs k <> Panic.
Proof. intro H. apply H. Qed.

Lemma de_u64_no_panic v : de_u64 v <> Panic.
Proof. destruct v; simpl; try discriminate. unfold de_u64, de_int. destruct (_ && _); discriminate. Qed.

Lemma de_bitpix_no_panic v : de_bitpix v <> Panic.
Proof.
  unfold de_bitpix, de_i8, de_int. destruct v; simpl; try discriminate.
  destruct ((-128 <=? v) && (v <=? 127)); simpl; try discriminate.
  repeat match goal with |- context [?a =? ?b] => destruct (a =? b) end; discriminate.
Qed.

(** ** TFORM of binary tables *)

Lemma ety_of_char_iff c t : ety_of_char c = Some t <-> c = type_letter t.
Proof.
  unfold ety_of_char. split.
  - repeat match goal with |- context [?a =? ?b] => destruct (Z.eqb_spec a b) as [->|?]; [intro H; inversion H; subst; reflexivity|] end.
    discriminate.
  - intros ->. destruct t; reflexivity.
Qed.

Lemma type_letter_range t : 65 <= type_letter t <= 88.
Proof. destruct t; simpl; lia. Qed.

Lemma type_letter_not_desc t : type_letter t <> 80 /\ type_letter t <> 81.
Proof. destruct t; simpl; lia. Qed.

Lemma span_digits_spec s count rest :
  span_digits s = (count, rest) ->
  exists ds, s = digit_chars ds ++ rest /\ count = digit_chars ds /\ Forall digit ds /\
    match rest with c :: _ => is_digit c = false | [] => True end.
Proof.
  revert count rest. induction s as [|c s IH]; intros count rest H; simpl in H.
  - inversion H; subst. exists []. simpl. auto.
  - destruct (is_digit c) eqn:D.
    + destruct (span_digits s) as (a, b) eqn:E. inversion H; subst.
      destruct (IH _ _ eq_refl) as (ds & -> & -> & F & R). apply is_digit_iff in D as (d & D & ->).
      exists (d :: ds). simpl. auto.
    + inversion H; subst. exists []. simpl. auto.
Qed.

Lemma repeat_of_parse ds :
  Forall digit ds ->
  match parse_unsigned (2 ^ 64 - 1) (digit_chars ds) with Some n => n | None => 1 end = repeat_of ds.
Proof.
  intro F. destruct ds as [|d ds]; [reflexivity|]. unfold repeat_of.
  assert (H: parse_unsigned (2 ^ 64 - 1) (digit_chars (d :: ds)) =
             if dec_value (d :: ds) <=? 2 ^ 64 - 1 then Some (dec_value (d :: ds)) else None).
  { unfold parse_unsigned.
    assert (Nd: (48 + d =? 43) = false) by (inversion F as [|? ? D _]; subst; unfold digit in D; lia).
    cbn [digit_chars map]. rewrite Nd.
    change (48 + d :: map (fun d0 : Z => 48 + d0) ds) with (digit_chars (d :: ds)).
    rewrite digits_acc_chars by auto. rewrite Z.mul_0_l, Z.add_0_l. reflexivity. }
  rewrite H. destruct (Z.leb_spec (dec_value (d :: ds)) (2 ^ 64 - 1)), (Z.ltb_spec (dec_value (d :: ds)) (2 ^ 64)); auto; lia.
Qed.

Lemma parse_tform_iff s f : parse_tform s = Some f <-> tform_spelled f s.
Proof.
  unfold parse_tform, tform_spelled. split.
  - destruct (span_digits s) as (count, rest) eqn:E.
    destruct (span_digits_spec _ _ _ E) as (ds & -> & -> & F & R). intro H.
    destruct rest as [|c rest]; [discriminate|]. exists ds.
    destruct (Z.eqb_spec c 80) as [->|N80]; [|destruct (Z.eqb_spec c 81) as [->|N81]].
    + destruct rest as [|e rest]; [discriminate|]. destruct (ety_of_char e) as [t|] eqn:T; [|discriminate].
      inversion H; subst. apply ety_of_char_iff in T. subst. exists rest. auto.
    + destruct rest as [|e rest]; [discriminate|]. destruct (ety_of_char e) as [t|] eqn:T; [|discriminate].
      inversion H; subst. apply ety_of_char_iff in T. subst. exists rest. auto.
    + destruct (ety_of_char c) as [t|] eqn:T; [|discriminate]. inversion H; subst.
      apply ety_of_char_iff in T. subst. exists rest. split; auto. split; auto. now apply repeat_of_parse.
  - intros (ds & rest & F & H).
    assert (G: exists c tl, s = digit_chars ds ++ c :: tl /\ is_digit c = false /\
       ((c = 80 /\ exists t, f = TDesc32 t /\ tl = type_letter t :: rest) \/
        (c = 81 /\ exists t, f = TDesc64 t /\ tl = type_letter t :: rest) \/
        (exists t, c = type_letter t /\ f = TElem t (repeat_of ds)))).
    { destruct f.
      - destruct H as (-> & ->). exists (type_letter t), rest. split; auto.
        pose proof (type_letter_range t). split; [unfold is_digit; lia|]. right. right. eauto.
      - subst. exists 80, (type_letter t :: rest). split; auto. split; auto. left. eauto.
      - subst. exists 81, (type_letter t :: rest). split; auto. split; auto. right. left. eauto. }
    destruct G as (c & tl & -> & D & G).
    rewrite span_digits_chars; auto.
    destruct G as [(-> & t & -> & ->)|[(-> & t & -> & ->)|(t & -> & ->)]]; simpl.
    + rewrite (proj2 (ety_of_char_iff _ t) eq_refl). reflexivity.
    + rewrite (proj2 (ety_of_char_iff _ t) eq_refl). reflexivity.
    + destruct (type_letter_not_desc t) as (N1 & N2).
      destruct (Z.eqb_spec (type_letter t) 80); [congruence|].
      destruct (Z.eqb_spec (type_letter t) 81); [congruence|].
      rewrite (proj2 (ety_of_char_iff _ t) eq_refl). simpl. rewrite repeat_of_parse by auto. reflexivity.
Qed.

(** ** Column lists *)

Fixpoint collect {A} (g : Z -> option A) (n : nat) (i : Z) : list A :=
  match n with
  | O => []
  | S n' => match g i with Some a => a :: collect g n' (i + 1) | None => collect g n' (i + 1) end
  end.

Lemma collect_columns {A} (g : Z -> option A) (descr : Z -> A -> Prop) :
  (forall i a, g i = Some a <-> descr i a) ->
  forall n i l, columns descr n i l <-> l = collect g n i.
Proof.
  intros G n. induction n as [|n IH]; intros i l; simpl; split; intro H.
  - inversion H; auto.
  - subst. constructor.
  - inversion H as [|? ? a l' D C|? ? l' D C]; subst.
    + apply G in D. rewrite D. f_equal. now apply IH.
    + destruct (g i) as [a|] eqn:E; [apply G in E; destruct (D a E)|]. now apply IH.
  - subst. destruct (g i) as [a|] eqn:E.
    + constructor; [now apply G|now apply IH].
    + constructor; [|now apply IH]. intros a D. apply G in D. congruence.
Qed.

Definition bt_column (vs : vmap) (i : Z) : option (tform * option str) :=
  match get_parsed de_string vs (indexed (chars "TFORM") i) with
  | Ok s => match parse_tform s with
            | Some f => Some (f, ok (get_parsed de_string vs (indexed (chars "TTYPE") i)))
            | None => None
            end
  | _ => None
  end.

Lemma btfields_collect vs n : forall i, btfields vs n i = collect (bt_column vs) n i.
Proof.
  induction n as [|n IH]; intro i; simpl; auto. unfold bt_column at 1.
  destruct (get_parsed de_string vs (indexed (chars "TFORM") i)) as [s| |]; auto.
  destruct (parse_tform s); auto. rewrite IH. reflexivity.
Qed.

Lemma bt_column_iff vs i a :
  bt_column vs i = Some a <-> column vs i (fst a) (snd a).
Proof.
  unfold bt_column, column. destruct a as (f, name). simpl. split.
  - destruct (get_parsed de_string vs (indexed (chars "TFORM") i)) as [s| |] eqn:E; try discriminate.
    destruct (parse_tform s) as [g|] eqn:P; [|discriminate]. intro H. inversion H; subst.
    apply text_iff in E. apply parse_tform_iff in P. split; [eauto|].
    destruct (get_parsed de_string vs (indexed (chars "TTYPE") i)) as [n|e|] eqn:E2; simpl.
    + now apply text_iff.
    + intros n T. apply text_iff in T. congruence.
    + intros n T. apply text_iff in T. congruence.
  - intros ((s & T & P) & N). apply text_iff in T. rewrite T. apply parse_tform_iff in P. rewrite P.
    f_equal. f_equal. destruct name as [n|].
    + apply text_iff in N. rewrite N. reflexivity.
    + destruct (get_parsed de_string vs (indexed (chars "TTYPE") i)) as [n|e|] eqn:E2; auto.
      apply text_iff in E2. destruct (N n E2).
Qed.

Lemma btfields_columns vs n i l :
  columns (fun i a => column vs i (fst a) (snd a)) n i l <-> l = btfields vs n i.
Proof. rewrite btfields_collect. apply collect_columns. intros. apply bt_column_iff. Qed.

Definition at_column (vs : vmap) (i : Z) : option (Z * atform) :=
  match get_parsed de_u64 vs (indexed (chars "TBCOL") i) with
  | Ok b => match get_parsed de_atform vs (indexed (chars "TFORM") i) with
            | Ok f => Some (b, f)
            | _ => None
            end
  | _ => None
  end.

Lemma atfields_collect vs n : forall i, atfields vs n i = collect (at_column vs) n i.
Proof.
  induction n as [|n IH]; intro i; simpl; auto. unfold at_column at 1.
  destruct (get_parsed de_u64 vs (indexed (chars "TBCOL") i)); auto.
  destruct (get_parsed de_atform vs (indexed (chars "TFORM") i)); auto. rewrite IH. reflexivity.
Qed.

Lemma atform_iff vs k f :
  get_parsed de_atform vs k = Ok f <->
  exists s t, has_text vs k s /\ stripped_right (fun c => is_unicode_ws c = true) s t /\ atform_spelled f t.
Proof.
  unfold get_parsed, de_atform.
  change (de_string (value_or_undefined (get vs k))) with (get_parsed de_string vs k). split.
  - destruct (get_parsed de_string vs k) as [s| |] eqn:E; try discriminate. simpl. intro H.
    apply parse_atform_iff in H as (t & H1 & H2). exists s, t. split; auto. now apply text_iff.
  - intros (s & t & T & H1 & H2). apply text_iff in T. rewrite T. simpl. apply parse_atform_iff. eauto.
Qed.

Lemma at_column_iff vs i a : at_column vs i = Some a <-> acolumn vs i (fst a) (snd a).
Proof.
  unfold at_column, acolumn. destruct a as (b, f). simpl. split.
  - destruct (get_parsed de_u64 vs (indexed (chars "TBCOL") i)) as [x| |] eqn:E; try discriminate.
    destruct (get_parsed de_atform vs (indexed (chars "TFORM") i)) as [g| |] eqn:E2; try discriminate.
    intro H. inversion H; subst. apply u64_iff in E as (E & U). apply atform_iff in E2. auto.
  - intros (T & U & A). rewrite (u64_get _ _ (b)) by auto.
    apply atform_iff in A. rewrite A. reflexivity.
Qed.

Lemma atfields_columns vs n i l :
  columns (fun i a => acolumn vs i (fst a) (snd a)) n i l <-> l = atfields vs n i.
Proof. rewrite atfields_collect. apply collect_columns. intros. apply at_column_iff. Qed.

(** ** Images *)

Lemma naxis_list_iff vs n : forall i l,
  naxis_list vs n i = Ok l <-> length l = n /\ axes_from vs (chars "NAXIS") i l.
Proof.
  induction n as [|n IH]; intros i l; simpl.
  - split; [intro H; inversion H; subst; simpl; auto|].
    intros (L & _). destruct l; [auto|discriminate].
  - unfold check_for_naxisi. split.
    + destruct (get_parsed de_u64 vs (indexed (chars "NAXIS") i)) as [a| |] eqn:E; try discriminate.
      simpl. destruct (naxis_list vs n (i + 1)) as [r| |] eqn:R; try discriminate. simpl. intro H.
      inversion H; subst. apply IH in R as (L & A). apply u64_iff in E as (E & U). simpl. split; [congruence|auto].
    + intros (L & A). destruct l as [|a l]; [discriminate|]. simpl in L, A. destruct A as (H & U & A).
      rewrite (u64_get _ _ (a)) by auto. simpl.
      rewrite (proj2 (IH (i + 1) l)); auto.
Qed.

Lemma image_parse_iff vs im :
  image_parse vs = Ok im <->
  has_int vs (chars "BITPIX") (bitpix_code (im_bitpix im)) /\
  has_int vs (chars "NAXIS") (len (im_naxisn im)) /\ u64 (len (im_naxisn im)) /\
  axes_from vs (chars "NAXIS") 1 (im_naxisn im).
Proof.
  unfold image_parse, check_for_bitpix, check_for_naxis. split.
  - destruct (get_parsed de_bitpix vs (chars "BITPIX")) as [b| |] eqn:B; try discriminate. simpl.
    destruct (get_parsed de_u64 vs (chars "NAXIS")) as [n| |] eqn:N; try discriminate. simpl.
    destruct (naxis_list vs (Z.to_nat n) 1) as [l| |] eqn:L; try discriminate. simpl. intro H.
    inversion H; subst. simpl. apply bitpix_iff in B. apply u64_iff in N as (N & U).
    apply naxis_list_iff in L as (L & A). unfold u64 in U.
    assert (E: len l = n) by (unfold len; lia). rewrite E. unfold u64. auto.
  - intros (B & N & U & A). apply bitpix_iff in B. rewrite B. simpl.
    rewrite (u64_get _ _ (len (im_naxisn im))) by auto. simpl.
    rewrite (proj2 (naxis_list_iff vs _ 1 (im_naxisn im))).
    + simpl. destruct im; reflexivity.
    + split; auto. unfold len. lia.
Qed.

Lemma image_parse_no_panic vs : image_parse vs <> Panic.
Proof.
  unfold image_parse, check_for_bitpix, check_for_naxis.
  pose proof (get_parsed_no_panic de_bitpix vs (chars "BITPIX") de_bitpix_no_panic) as P1.
  pose proof (get_parsed_no_panic de_u64 vs (chars "NAXIS") de_u64_no_panic) as P2.
  destruct (get_parsed de_bitpix vs (chars "BITPIX")); simpl; try congruence.
  destruct (get_parsed de_u64 vs (chars "NAXIS")) as [n| |]; simpl; try congruence.
  assert (P3: forall n i, naxis_list vs n i <> Panic).
  { clear. induction n as [|n IH]; intro i; simpl; [congruence|]. unfold check_for_naxisi.
    pose proof (get_parsed_no_panic de_u64 vs (indexed (chars "NAXIS") i) de_u64_no_panic) as P.
    destruct (get_parsed de_u64 vs (indexed (chars "NAXIS") i)); simpl; try congruence.
    specialize (IH (i + 1)). destruct (naxis_list vs n (i + 1)); simpl; congruence. }
  specialize (P3 (Z.to_nat n) 1). destruct (naxis_list vs (Z.to_nat n) 1); simpl; congruence.
Qed.

Lemma product_from_wrapping l : forall acc,
  0 <= acc < 2 ^ 64 -> Forall (fun a => 0 <= a) l ->
  u64_product_from Wrapping acc l = Ok ((acc * product l) mod 2 ^ 64).
Proof.
  induction l as [|x l IH]; intros acc Ha F; cbn [u64_product_from product].
  - rewrite Z.mul_1_r, Z.mod_small; auto.
  - inversion F as [|? ? Hx Hl]; subst.
    assert (E: u64_result Wrapping (acc * x) = Ok ((acc * x) mod 2 ^ 64)).
    { unfold u64_result. destruct ((0 <=? acc * x) && (acc * x <? 2 ^ 64)) eqn:B; auto.
      rewrite Z.mod_small; auto. lia. }
    rewrite E. cbn [bind]. rewrite IH; auto; [|apply Z.mod_pos_bound; lia].
    f_equal. rewrite Z.mul_mod_idemp_l by lia. f_equal. ring.
Qed.

Lemma product_nonneg l : Forall (fun a => 0 <= a) l -> 0 <= product l.
Proof. induction 1; simpl; [lia|]. apply Z.mul_nonneg_nonneg; auto. Qed.

Lemma product_pos l : Forall (fun a => 1 <= a) l -> 1 <= product l.
Proof. induction 1 as [|x l Hx Hl IH]; simpl; nia. Qed.

Lemma product_from_checked l : forall acc,
  1 <= acc < 2 ^ 64 -> Forall (fun a => 1 <= a) l ->
  u64_product_from Checked acc l =
  if acc * product l <? 2 ^ 64 then Ok (acc * product l) else Panic.
Proof.
  induction l as [|x l IH]; intros acc Ha F; cbn [u64_product_from product].
  - rewrite Z.mul_1_r. replace (acc <? 2 ^ 64) with true by lia. reflexivity.
  - inversion F as [|? ? Hx Hl]; subst. pose proof (product_pos l Hl).
    unfold u64_result. assert (1 <= acc * x) by nia.
    destruct (Z.ltb_spec (acc * x) (2 ^ 64)) as [L|L].
    + replace (0 <=? acc * x) with true by lia. cbn [andb bind]. rewrite IH; auto.
      rewrite Z.mul_assoc. reflexivity.
    + replace (0 <=? acc * x) with true by lia. cbn [andb bind].
      replace (acc * (x * product l) <? 2 ^ 64) with false; auto. symmetry.
      apply Z.ltb_ge. rewrite Z.mul_assoc. nia.
Qed.

Lemma byte_size_pos b : 1 <= byte_size b <= 8.
Proof. destruct b; vm_compute; split; discriminate. Qed.

Lemma byte_size_spec b : byte_size b * 8 = Z.abs (bitpix_code b).
Proof. destruct b; reflexivity. Qed.

Lemma image_size_wrapping im :
  Forall (fun a => 0 <= a) (im_naxisn im) ->
  image_num_bytes Wrapping im =
  Ok (match im_naxisn im with [] => 0 | l => (byte_size (im_bitpix im) * product l) mod 2 ^ 64 end).
Proof.
  intro F. unfold image_num_bytes, num_pixels. pose proof (byte_size_pos (im_bitpix im)) as S.
  destruct (im_naxisn im) as [|x l].
  - cbn [bind]. rewrite Z.mul_0_r. reflexivity.
  - rewrite product_from_wrapping; [|lia|auto]. cbn [bind]. rewrite Z.mul_1_l.
    set (P := product (x :: l)). pose proof (Z.mod_pos_bound P (2 ^ 64) ltac:(lia)).
    unfold u64_result.
    destruct ((0 <=? byte_size (im_bitpix im) * (P mod 2 ^ 64)) && (byte_size (im_bitpix im) * (P mod 2 ^ 64) <? 2 ^ 64)) eqn:B.
    + f_equal. rewrite <- (Z.mod_small (byte_size _ * (P mod 2 ^ 64)) (2 ^ 64)) by lia.
      apply Z.mul_mod_idemp_r. lia.
    + f_equal. apply Z.mul_mod_idemp_r. lia.
Qed.

Lemma image_size_checked im :
  Forall (fun a => 1 <= a) (im_naxisn im) ->
  image_num_bytes Checked im =
  match im_naxisn im with
  | [] => Ok 0
  | l => if byte_size (im_bitpix im) * product l <? 2 ^ 64
         then Ok (byte_size (im_bitpix im) * product l) else Panic
  end.
Proof.
  intro F. unfold image_num_bytes, num_pixels. pose proof (byte_size_pos (im_bitpix im)) as S.
  destruct (im_naxisn im) as [|x l].
  - cbn [bind]. rewrite Z.mul_0_r. reflexivity.
  - rewrite product_from_checked; [|lia|auto]. rewrite Z.mul_1_l.
    pose proof (product_pos (x :: l) F) as P. set (Q := product (x :: l)) in *.
    destruct (Z.ltb_spec Q (2 ^ 64)); cbn [bind].
    + unfold u64_result. replace (0 <=? byte_size (im_bitpix im) * Q) with true by nia.
      cbn [andb]. destruct (byte_size (im_bitpix im) * Q <? 2 ^ 64); auto.
    + replace (byte_size (im_bitpix im) * Q <? 2 ^ 64) with false; auto. symmetry. apply Z.ltb_ge. nia.
Qed.

(** Both modes agree with the exact size when nothing overflows on the way. *)
Lemma product_from_small m l : forall acc,
  0 <= acc -> Forall (fun a => 0 <= a) l ->
  (forall p s, l = p ++ s -> acc * product p < 2 ^ 64) ->
  u64_product_from m acc l = Ok (acc * product l).
Proof.
  induction l as [|x l IH]; intros acc Ha F H; cbn [u64_product_from product].
  - rewrite Z.mul_1_r. reflexivity.
  - inversion F as [|? ? Hx Hl]; subst.
    assert (L: acc * x < 2 ^ 64). { specialize (H [x] l eq_refl). simpl in H. lia. }
    unfold u64_result. replace (0 <=? acc * x) with true by nia.
    replace (acc * x <? 2 ^ 64) with true by lia. cbn [andb bind].
    rewrite IH; auto; [f_equal; ring|nia|].
    intros p s ->. specialize (H (x :: p) s eq_refl). simpl in H. lia.
Qed.

(** ** ASCII tables *)

Lemma asciitable_parse_ok vs t :
  asciitable_parse vs = Ok t ->
  has_int vs (chars "BITPIX") 8 /\ has_int vs (chars "NAXIS") 2 /\
  has_int vs (chars "NAXIS1") (at_naxis1 t) /\ u64 (at_naxis1 t) /\
  has_int vs (chars "NAXIS2") (at_naxis2 t) /\ u64 (at_naxis2 t) /\
  has_int vs (chars "PCOUNT") 0 /\ at_pcount t = 0 /\
  has_int vs (chars "GCOUNT") 1 /\ at_gcount t = 1 /\
  has_int vs (chars "TFIELDS") (at_tfields t) /\ u64 (at_tfields t) /\
  length (at_tbcols t) = length (at_tforms t) /\
  columns (fun i a => acolumn vs i (fst a) (snd a)) (Z.to_nat (at_tfields t)) 1
          (combine (at_tbcols t) (at_tforms t)).
Proof.
  unfold asciitable_parse, check_for_bitpix, check_for_naxis, check_for_naxisi, check_for_pcount,
    check_for_gcount, check_for_tfields.
  destruct (get_parsed de_bitpix vs (chars "BITPIX")) as [b| |] eqn:B; try discriminate. cbn [bind].
  destruct (negb (bitpix_eqb b BU8)) eqn:B2; try discriminate.
  destruct (get_parsed de_u64 vs (chars "NAXIS")) as [n| |] eqn:N; try discriminate. cbn [bind].
  destruct (negb (n =? 2)) eqn:N2; try discriminate.
  change (indexed (chars "NAXIS") 1) with (chars "NAXIS1").
  change (indexed (chars "NAXIS") 2) with (chars "NAXIS2").
  destruct (get_parsed de_u64 vs (chars "NAXIS1")) as [n1| |] eqn:E1; try discriminate. cbn [bind].
  destruct (get_parsed de_u64 vs (chars "NAXIS2")) as [n2| |] eqn:E2; try discriminate. cbn [bind].
  destruct (get_parsed de_u64 vs (chars "PCOUNT")) as [pc| |] eqn:EP; try discriminate. cbn [bind].
  destruct (negb (pc =? 0)) eqn:P0; try discriminate.
  destruct (get_parsed de_u64 vs (chars "GCOUNT")) as [gc| |] eqn:EG; try discriminate. cbn [bind].
  destruct (negb (gc =? 1)) eqn:G1; try discriminate.
  destruct (get_parsed de_u64 vs (chars "TFIELDS")) as [tf| |] eqn:ET; try discriminate. cbn [bind].
  destruct (with_capacity tf 8); try discriminate. cbn [bind].
  destruct (with_capacity tf 24); try discriminate. cbn [bind]. intro H. inversion H; subst. simpl.
  apply bitpix_iff in B.
  assert (b = BU8) by (destruct b; auto; discriminate). subst b. simpl in B.
  apply u64_iff in N as (N & _), E1 as (E1 & U1), E2 as (E2 & U2), EP as (EP & _), EG as (EG & _), ET as (ET & UT).
  assert (n = 2) by lia. assert (pc = 0) by lia. assert (gc = 1) by lia. subst.
  rewrite !map_length. do 13 (split; auto).
  replace (combine (map fst (atfields vs (Z.to_nat tf) 1)) (map snd (atfields vs (Z.to_nat tf) 1)))
    with (atfields vs (Z.to_nat tf) 1).
  - now apply atfields_columns.
  - generalize (atfields vs (Z.to_nat tf) 1). clear. induction l as [|(a, b) l IH]; simpl; congruence.
Qed.

Lemma asciitable_accepted vs n1 n2 tf :
  has_int vs (chars "BITPIX") 8 -> has_int vs (chars "NAXIS") 2 ->
  has_int vs (chars "NAXIS1") n1 -> u64 n1 -> has_int vs (chars "NAXIS2") n2 -> u64 n2 ->
  has_int vs (chars "PCOUNT") 0 -> has_int vs (chars "GCOUNT") 1 ->
  has_int vs (chars "TFIELDS") tf -> 0 <= tf -> tf * 24 < 2 ^ 63 ->
  exists t, asciitable_parse vs = Ok t /\ at_naxis1 t = n1 /\ at_naxis2 t = n2 /\ at_tfields t = tf.
Proof.
  intros. eexists. split.
  - unfold asciitable_parse, check_for_bitpix, check_for_naxis, check_for_naxisi, check_for_pcount,
      check_for_gcount, check_for_tfields.
    rewrite (proj2 (bitpix_iff vs (chars "BITPIX") BU8)) by auto. cbn [bind].
    change (indexed (chars "NAXIS") 1) with (chars "NAXIS1").
    change (indexed (chars "NAXIS") 2) with (chars "NAXIS2").
    rewrite (u64_get vs (chars "NAXIS") 2), (u64_get vs (chars "NAXIS1") n1), (u64_get vs (chars "NAXIS2") n2),
      (u64_get vs (chars "PCOUNT") 0), (u64_get vs (chars "GCOUNT") 1), (u64_get vs (chars "TFIELDS") tf)
      by (auto; unfold u64; lia).
    cbn [bind negb bitpix_eqb bitpix_code Z.eqb]. unfold with_capacity.
    replace (tf * 8 <=? 2 ^ 63 - 1) with true by lia.
    replace (tf * 24 <=? 2 ^ 63 - 1) with true by lia. cbn [bind]. reflexivity.
  - auto.
Qed.

(** ** Binary tables *)

Lemma bits_size_spec t : bits_size t = type_bits t.
Proof. destruct t; reflexivity. Qed.

Lemma type_bits_pos t : 1 <= type_bits t <= 128.
Proof. destruct t; simpl; lia. Qed.

Definition field_nonneg (f : tform) : Prop := match f with TElem _ n => 0 <= n | _ => True end.

Lemma field_bits_nonneg f : field_nonneg f -> 0 <= field_bits f.
Proof. destruct f; simpl; intros; try lia. pose proof (type_bits_pos t). nia. Qed.

Lemma sum_bits_exact m l : forall acc,
  0 <= acc -> Forall field_nonneg l -> acc + total (map field_bits l) < 2 ^ 64 ->
  sum_bits m acc l = Ok (acc + total (map field_bits l)).
Proof.
  induction l as [|f l IH]; intros acc Ha F H; cbn [sum_bits map total] in *.
  - f_equal. lia.
  - inversion F as [|? ? Hf Hl]; subst. pose proof (field_bits_nonneg f Hf).
    assert (0 <= total (map field_bits l)).
    { clear -Hl. induction Hl as [|g l Hg Hl IH]; simpl; [lia|]. pose proof (field_bits_nonneg g Hg). lia. }
    assert (E: num_bits_field m f = Ok (field_bits f)).
    { destruct f; simpl; auto. simpl in *. rewrite bits_size_spec. unfold u64_result.
      replace (0 <=? repeat * type_bits t) with true by lia.
      replace (repeat * type_bits t <? 2 ^ 64) with true by lia. reflexivity. }
    rewrite E. cbn [bind]. unfold u64_result.
    replace (0 <=? acc + field_bits f) with true by lia.
    replace (acc + field_bits f <? 2 ^ 64) with true by lia. cbn [andb bind].
    rewrite IH; auto; [f_equal; lia|lia|lia].
Qed.

Lemma sum_bits_checked l : forall acc r,
  0 <= acc -> Forall field_nonneg l -> sum_bits Checked acc l = Ok r ->
  r = acc + total (map field_bits l).
Proof.
  induction l as [|f l IH]; intros acc r Ha F H; cbn [sum_bits map total] in *.
  - inversion H. lia.
  - inversion F as [|? ? Hf Hl]; subst. pose proof (field_bits_nonneg f Hf).
    destruct (num_bits_field Checked f) as [b| |] eqn:E; try discriminate. cbn [bind] in H.
    assert (b = field_bits f).
    { destruct f; simpl in E; try (inversion E; reflexivity). rewrite bits_size_spec in E.
      unfold u64_result in E. simpl. destruct (_ && _); inversion E; auto. }
    subst b. unfold u64_result in H. destruct ((0 <=? acc + field_bits f) && _); try discriminate.
    cbn [bind] in H. apply IH in H; auto; lia.
Qed.

Lemma sum_bits_wrapping l : forall acc,
  Forall field_nonneg l -> 0 <= acc < 2 ^ 64 ->
  sum_bits Wrapping acc l = Ok ((acc + total (map field_bits l)) mod 2 ^ 64).
Proof.
  induction l as [|f l IH]; intros acc F Ha; cbn [sum_bits map total] in *.
  - rewrite Z.add_0_r, Z.mod_small by lia. reflexivity.
  - inversion F as [|? ? Hf Hl]; subst. pose proof (field_bits_nonneg f Hf).
    assert (W: forall z, 0 <= z -> u64_result Wrapping z = Ok (z mod 2 ^ 64)).
    { intros z Hz. unfold u64_result. destruct ((0 <=? z) && (z <? 2 ^ 64)) eqn:B; auto.
      rewrite Z.mod_small; auto. lia. }
    assert (E: num_bits_field Wrapping f = Ok (field_bits f mod 2 ^ 64)).
    { destruct f; try reflexivity. apply W. exact H. }
    rewrite E. cbn [bind].
    pose proof (Z.mod_pos_bound (field_bits f) (2 ^ 64) ltac:(lia)).
    rewrite W by lia. cbn [bind]. rewrite IH; auto; [|apply Z.mod_pos_bound; lia].
    f_equal. rewrite Z.add_mod_idemp_l by lia.
    replace (acc + field_bits f mod 2 ^ 64 + total (map field_bits l)) with
      ((acc + total (map field_bits l)) + field_bits f mod 2 ^ 64) by lia.
    rewrite Z.add_mod_idemp_r by lia. f_equal. lia.
Qed.

Lemma repeat_of_nonneg ds : Forall digit ds -> 0 <= repeat_of ds.
Proof.
  intro F. unfold repeat_of. destruct ds; [lia|]. pose proof (dec_value_nonneg _ F).
  destruct (_ <? _); lia.
Qed.

Lemma btfields_nonneg vs n : forall i, Forall field_nonneg (map fst (btfields vs n i)).
Proof.
  induction n as [|n IH]; intro i; simpl; auto.
  destruct (get_parsed de_string vs (indexed (chars "TFORM") i)) as [s| |]; auto.
  destruct (parse_tform s) as [f|] eqn:P; auto. constructor; auto. simpl.
  apply parse_tform_iff in P as (ds & rest & F & P). destruct f; simpl; auto.
  destruct P as (-> & _). now apply repeat_of_nonneg.
Qed.

Lemma combine_map {A B} (l : list (A * B)) : combine (map fst l) (map snd l) = l.
Proof. induction l as [|(a, b) l IH]; simpl; congruence. Qed.

Lemma bintable_parse_ok m vs t :
  bintable_parse m vs = Ok t ->
  has_int vs (chars "BITPIX") 8 /\ has_int vs (chars "NAXIS") 2 /\
  has_int vs (chars "NAXIS1") (bt_naxis1 t) /\ u64 (bt_naxis1 t) /\
  has_int vs (chars "NAXIS2") (bt_naxis2 t) /\ u64 (bt_naxis2 t) /\
  has_int vs (chars "PCOUNT") (bt_pcount t) /\ u64 (bt_pcount t) /\
  has_int vs (chars "GCOUNT") 1 /\ bt_gcount t = 1 /\
  has_int vs (chars "TFIELDS") (bt_tfields t) /\ u64 (bt_tfields t) /\
  length (bt_tforms t) = length (bt_ttypes t) /\
  columns (fun i a => column vs i (fst a) (snd a)) (Z.to_nat (bt_tfields t)) 1
          (combine (bt_tforms t) (bt_ttypes t)) /\
  (has_int vs (chars "THEAP") (bt_theap t) /\ u64 (bt_theap t) \/
   (forall z, has_int vs (chars "THEAP") z -> ~ u64 z) /\
   bt_theap t = (bt_naxis1 t * bt_naxis2 t) mod 2 ^ 64) /\
  bt_naxis1 t = (total (map field_bits (bt_tforms t)) mod 2 ^ 64) / 8 /\
  (m = Checked -> total (map field_bits (bt_tforms t)) < 2 ^ 64).
Proof.
  unfold bintable_parse, check_for_bitpix, check_for_naxis, check_for_naxisi, check_for_pcount,
    check_for_gcount, check_for_tfields.
  destruct (get_parsed de_bitpix vs (chars "BITPIX")) as [b| |] eqn:B; try discriminate. cbn [bind].
  destruct (negb (bitpix_eqb b BU8)) eqn:B2; try discriminate.
  destruct (get_parsed de_u64 vs (chars "NAXIS")) as [n| |] eqn:N; try discriminate. cbn [bind].
  destruct (negb (n =? 2)) eqn:N2; try discriminate.
  change (indexed (chars "NAXIS") 1) with (chars "NAXIS1").
  change (indexed (chars "NAXIS") 2) with (chars "NAXIS2").
  destruct (get_parsed de_u64 vs (chars "NAXIS1")) as [n1| |] eqn:E1; try discriminate. cbn [bind].
  destruct (get_parsed de_u64 vs (chars "NAXIS2")) as [n2| |] eqn:E2; try discriminate. cbn [bind].
  destruct (get_parsed de_u64 vs (chars "PCOUNT")) as [pc| |] eqn:EP; try discriminate. cbn [bind].
  destruct (get_parsed de_u64 vs (chars "GCOUNT")) as [gc| |] eqn:EG; try discriminate. cbn [bind].
  destruct (negb (gc =? 1)) eqn:G1; try discriminate.
  destruct (get_parsed de_u64 vs (chars "TFIELDS")) as [tf| |] eqn:ET; try discriminate. cbn [bind].
  destruct (parse_znaxis vs); try discriminate. cbn [bind].
  set (fields := btfields vs (Z.to_nat tf) 1).
  match goal with |- (let! theap := ?x in _) = _ -> _ => destruct x as [theap| |] eqn:TH end; try discriminate.
  cbn [bind].
  destruct (sum_bits m 0 (map fst fields)) as [bits| |] eqn:SB; try discriminate. cbn [bind].
  destruct (negb (bits / 8 =? n1)) eqn:NB; try discriminate. intro H. inversion H; subst. simpl.
  apply bitpix_iff in B.
  assert (b = BU8) by (destruct b; auto; discriminate). subst b. simpl in B.
  apply u64_iff in N as (N & _), E1 as (E1 & U1), E2 as (E2 & U2), EP as (EP & UP), EG as (EG & _), ET as (ET & UT).
  assert (n = 2) by lia. assert (gc = 1) by lia. subst.
  rewrite !map_length, combine_map. do 13 (split; auto). split; [now apply btfields_columns|].
  pose proof (btfields_nonneg vs (Z.to_nat tf) 1) as FN. fold fields in FN.
  split; [|].
  - destruct (get_parsed de_u64 vs (chars "THEAP")) as [t0| |] eqn:T0.
    + inversion TH; subst. left. apply u64_iff in T0. exact T0.
    + right. split.
      * intros z Hz Uz. assert (get_parsed de_u64 vs (chars "THEAP") = Ok z) by (apply u64_iff; auto). congruence.
      * unfold u64, u64_result in *. destruct ((0 <=? n1 * n2) && (n1 * n2 <? 2 ^ 64)) eqn:BB.
        { inversion TH; subst. rewrite Z.mod_small; auto. clear -BB. lia. }
        { destruct m; inversion TH; auto. }
    + right. split.
      * intros z Hz Uz. assert (get_parsed de_u64 vs (chars "THEAP") = Ok z) by (apply u64_iff; auto). congruence.
      * unfold u64, u64_result in *. destruct ((0 <=? n1 * n2) && (n1 * n2 <? 2 ^ 64)) eqn:BB.
        { inversion TH; subst. rewrite Z.mod_small; auto. clear -BB. lia. }
        { destruct m; inversion TH; auto. }
  - assert (T0: 0 <= total (map field_bits (map fst fields))).
    { clear -FN. induction FN as [|g l Hg Hl IH]; simpl; [lia|]. pose proof (field_bits_nonneg g Hg). lia. }
    assert (n1 = bits / 8) by (clear -NB; lia). subst n1.
    destruct m.
    + assert (LT: bits < 2 ^ 64).
      { clear -SB. assert (G: forall l acc r, acc < 2 ^ 64 -> sum_bits Checked acc l = Ok r -> r < 2 ^ 64).
        { induction l as [|f l IH]; intros acc r Ha H; cbn [sum_bits] in H; [inversion H; lia|].
          destruct (num_bits_field Checked f); try discriminate. cbn [bind] in H.
          unfold u64_result in H. destruct ((0 <=? acc + a) && (acc + a <? 2 ^ 64)) eqn:B; try discriminate.
          cbn [bind] in H. apply IH in H; auto. lia. }
        eapply G; [|exact SB]. lia. }
      apply sum_bits_checked in SB; auto; [|lia]. rewrite Z.add_0_l in SB. subst bits.
      rewrite Z.mod_small by lia. auto.
    + rewrite sum_bits_wrapping in SB; auto; [|lia]. rewrite Z.add_0_l in SB. inversion SB; subst.
      split; auto. discriminate.
Qed.

Lemma parse_znaxis_ok vs :
  (forall z, has_int vs (chars "ZNAXIS") z -> z < 2 ^ 60) -> exists o, parse_znaxis vs = Ok o.
Proof.
  intro H. unfold parse_znaxis.
  destruct (get_parsed de_u64 vs (chars "ZNAXIS")) as [n| |] eqn:E; eauto.
  apply u64_iff in E as (E & U). apply H in E. unfold with_capacity.
  replace (n * 8 <=? 2 ^ 63 - 1) with true by lia. cbn [bind].
  destruct (len (znaxis_loop vs (Z.to_nat n) 1) =? n); eauto.
Qed.

Lemma bintable_accepted m vs n1 n2 pc tf cols :
  has_int vs (chars "BITPIX") 8 -> has_int vs (chars "NAXIS") 2 ->
  has_int vs (chars "NAXIS1") n1 -> u64 n1 -> has_int vs (chars "NAXIS2") n2 -> u64 n2 ->
  has_int vs (chars "PCOUNT") pc -> u64 pc -> has_int vs (chars "GCOUNT") 1 ->
  has_int vs (chars "TFIELDS") tf -> u64 tf ->
  columns (fun i a => column vs i (fst a) (snd a)) (Z.to_nat tf) 1 cols ->
  n1 * n2 < 2 ^ 64 -> total (map field_bits (map fst cols)) < 2 ^ 64 ->
  n1 = total (map field_bits (map fst cols)) / 8 ->
  (forall z, has_int vs (chars "ZNAXIS") z -> z < 2 ^ 60) ->
  exists t, bintable_parse m vs = Ok t /\ bt_naxis1 t = n1 /\ bt_naxis2 t = n2 /\
    bt_pcount t = pc /\ bt_tforms t = map fst cols /\ bt_ttypes t = map snd cols.
Proof.
  intros HB HN H1 U1 H2 U2 HP UP HG HT UT HC HL HS HE HZ.
  apply btfields_columns in HC.
  destruct (parse_znaxis_ok vs HZ) as (zn & Ezn).
  pose proof (btfields_nonneg vs (Z.to_nat tf) 1) as FN. rewrite <- HC in FN.
  assert (TH: exists theap, match get_parsed de_u64 vs (chars "THEAP") with
                | Ok t => Ok t | _ => u64_result m (n1 * n2) end = Ok theap).
  { assert (X: u64_result m (n1 * n2) = Ok (n1 * n2)).
    { unfold u64_result, u64 in *. replace (0 <=? n1 * n2) with true by nia.
      replace (n1 * n2 <? 2 ^ 64) with true by lia. reflexivity. }
    rewrite X. destruct (get_parsed de_u64 vs (chars "THEAP")); eauto. }
  destruct TH as (theap & TH).
  eexists. split.
  - unfold bintable_parse, check_for_bitpix, check_for_naxis, check_for_naxisi, check_for_pcount,
      check_for_gcount, check_for_tfields.
    rewrite (proj2 (bitpix_iff vs (chars "BITPIX") BU8)) by auto. cbn [bind].
    change (indexed (chars "NAXIS") 1) with (chars "NAXIS1").
    change (indexed (chars "NAXIS") 2) with (chars "NAXIS2").
    rewrite (u64_get vs (chars "NAXIS") 2), (u64_get vs (chars "NAXIS1") n1), (u64_get vs (chars "NAXIS2") n2),
      (u64_get vs (chars "PCOUNT") pc), (u64_get vs (chars "GCOUNT") 1), (u64_get vs (chars "TFIELDS") tf)
      by (auto; unfold u64; lia).
    cbn [bind negb bitpix_eqb bitpix_code Z.eqb]. rewrite Ezn. cbn [bind]. rewrite TH. cbn [bind].
    rewrite <- HC. rewrite sum_bits_exact by (auto; lia). cbn [bind]. rewrite Z.add_0_l.
    rewrite <- HE, Z.eqb_refl. cbn [negb]. reflexivity.
  - simpl. rewrite HC. auto.
Qed.

Lemma bintable_size m t :
  u64 (bt_naxis1 t) -> u64 (bt_naxis2 t) -> u64 (bt_pcount t) ->
  bintable_num_bytes m t =
  (if bt_naxis1 t * bt_naxis2 t + bt_pcount t <? 2 ^ 64
   then Ok (bt_naxis1 t * bt_naxis2 t + bt_pcount t)
   else match m with
        | Checked => Panic
        | Wrapping => Ok ((bt_naxis1 t * bt_naxis2 t + bt_pcount t) mod 2 ^ 64)
        end).
Proof.
  unfold u64. intros U1 U2 UP. unfold bintable_num_bytes.
  set (a := bt_naxis1 t * bt_naxis2 t). set (p := bt_pcount t) in *.
  assert (0 <= a) by (unfold a; nia).
  unfold u64_result at 1. replace (0 <=? a) with true by lia. cbn [andb].
  destruct (Z.ltb_spec a (2 ^ 64)) as [L|L]; cbn [bind].
  - unfold u64_result. replace (0 <=? a + p) with true by lia. cbn [andb].
    destruct (a + p <? 2 ^ 64); auto.
  - replace (a + p <? 2 ^ 64) with false by lia. destruct m; auto. cbn [bind].
    pose proof (Z.mod_pos_bound a (2 ^ 64) ltac:(lia)).
    unfold u64_result. replace (0 <=? a mod 2 ^ 64 + p) with true by lia. cbn [andb].
    destruct (a mod 2 ^ 64 + p <? 2 ^ 64) eqn:B.
    + f_equal. rewrite <- (Z.mod_small (a mod 2 ^ 64 + p) (2 ^ 64)) by lia.
      apply Z.add_mod_idemp_l. lia.
    + f_equal. apply Z.add_mod_idemp_l. lia.
Qed.

Lemma asciitable_size m t :
  u64 (at_naxis1 t) -> u64 (at_naxis2 t) ->
  asciitable_num_bytes m t =
  (if at_naxis1 t * at_naxis2 t <? 2 ^ 64 then Ok (at_naxis1 t * at_naxis2 t)
   else match m with
        | Checked => Panic
        | Wrapping => Ok ((at_naxis1 t * at_naxis2 t) mod 2 ^ 64)
        end).
Proof.
  unfold u64, asciitable_num_bytes, u64_result. intros U1 U2.
  replace (0 <=? at_naxis1 t * at_naxis2 t) with true by nia. cbn [andb].
  destruct (_ <? _); auto.
Qed.

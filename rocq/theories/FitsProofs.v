(** Proofs about the HDU iterator. *)

From Verif Require Import Base Utf8 Text Card Reader Header Xtension Fits.
From Verif Require Import SpecUtf8 SpecCard SpecHeader SpecXt SpecFits.
From Verif Require Import TextLemmas Utf8Proofs CardProofs CardProofs2 CardProps HeaderProofs HeaderProofs2 HeaderProps.
From Verif Require Import XtProofs XtProofs2 XtProofs3.
From Coq Require Import ZifyBool.
Ltac Zify.zify_post_hook ::= Z.div_mod_to_equations.

(** ** Blocks *)

Lemma in_blocks_range n : n <= in_blocks n < n + 2880.
Proof. unfold in_blocks. lia. Qed.

Lemma in_blocks_mod n : in_blocks n mod 2880 = 0.
Proof. unfold in_blocks. apply Z.mod_mul. lia. Qed.

Lemma in_blocks_pad n : in_blocks n = if n mod 2880 =? 0 then n else n + (2880 - n mod 2880).
Proof. unfold in_blocks. destruct (Z.eqb_spec (n mod 2880) 0); lia. Qed.

(** ** Declared sizes *)

Lemma u64_result_small m z : 0 <= z < 2 ^ 64 -> u64_result m z = Ok z.
Proof.
  intro H. unfold u64_result. replace (0 <=? z) with true by lia. replace (z <? 2 ^ 64) with true by lia.
  reflexivity.
Qed.

Lemma axes_det vs name a : forall i b,
  axes_from vs name i a -> axes_from vs name i b -> length a = length b -> a = b.
Proof.
  induction a as [|x a IH]; intros i [|y b] H1 H2 L; try discriminate; auto.
  destruct H1 as (H1 & _ & H1'), H2 as (H2 & _ & H2'). f_equal.
  - eapply has_int_fun; eauto.
  - eapply IH; eauto.
Qed.

Lemma declared_size m k vs x n :
  xt_parse m (xtype_of k) vs = Ok x -> declares vs k n -> 0 <= n < 2 ^ 64 -> xt_num_bytes m x = Ok n.
Proof.
  intros P D R.
  assert (I: xtype_of k = XImage -> xt_num_bytes m x = Ok n).
  { intro K. rewrite K in P. cbn [xt_parse] in P.
    destruct (image_parse vs) as [im| |] eqn:E; try discriminate. cbn [bind] in P. inversion P; subst.
    cbn [xt_num_bytes].
    assert (D': exists b axes,
      has_int vs (chars "BITPIX") (bitpix_code b) /\ has_int vs (chars "NAXIS") (len axes) /\
      axes_from vs (chars "NAXIS") 1 axes /\ (forall l r, axes = l ++ r -> product l < 2 ^ 64) /\
      n = if len axes =? 0 then 0 else Z.abs (bitpix_code b) / 8 * product axes)
      by (destruct k; try discriminate; exact D).
    destruct D' as (b & axes & B & N & A & F & S).
    pose proof E as E0. apply image_parse_iff in E0 as (B' & N' & _ & A').
    assert (Eb: bitpix_code b = bitpix_code (im_bitpix im)) by (eapply has_int_fun; eauto).
    assert (El: len axes = len (im_naxisn im)) by (eapply has_int_fun; eauto).
    assert (Ea: axes = im_naxisn im) by (eapply axes_det; eauto; unfold len in El; lia).
    subst axes. rewrite Eb in S.
    rewrite (image_size_exact m vs im E F); rewrite <- S; auto. lia. }
  destruct k; auto.
  - cbn [xt_parse xtype_of] in P. destruct (bintable_parse m vs) as [t| |] eqn:E; try discriminate.
    cbn [bind] in P. inversion P; subst. cbn [xt_num_bytes].
    apply bintable_parse_ok in E as (_ & _ & H1 & U1 & H2 & U2 & H3 & U3 & _).
    destruct D as (n1 & n2 & pc & D1 & D2 & D3 & ->).
    rewrite bintable_size by auto.
    rewrite (has_int_fun _ _ _ _ D1 H1), (has_int_fun _ _ _ _ D2 H2), (has_int_fun _ _ _ _ D3 H3) in R |- *.
    replace (_ <? 2 ^ 64) with true by lia. reflexivity.
  - cbn [xt_parse xtype_of] in P. destruct (asciitable_parse vs) as [t| |] eqn:E; try discriminate.
    cbn [bind] in P. inversion P; subst. cbn [xt_num_bytes].
    apply asciitable_parse_ok in E as (_ & _ & H1 & U1 & H2 & U2 & _).
    destruct D as (n1 & n2 & D1 & D2 & ->).
    rewrite asciitable_size by auto.
    rewrite (has_int_fun _ _ _ _ D1 H1), (has_int_fun _ _ _ _ D2 H2) in R |- *.
    replace (_ <? 2 ^ 64) with true by lia. reflexivity.
Qed.

(** ** Headers *)

Lemma hdu_new_ok m kind k d p nread cards vs x :
  process_cards m cards = Ok vs -> xt_parse m k vs = Ok x -> 0 <= p ->
  p + (in_blocks nread - nread) <= len d ->
  hdu_new m kind k (mk_reader d p) nread cards
  = (Ok (mk_hdu kind cards vs x (p + (in_blocks nread - nread))), in_blocks nread,
     mk_reader d (p + (in_blocks nread - nread))).
Proof.
  intros P X Hp L. unfold hdu_new. rewrite P. cbn [bind]. rewrite X. cbn [bind].
  rewrite in_blocks_pad in *. destruct (Z.eqb_spec (nread mod 2880) 0) as [E|E].
  - rewrite Z.sub_diag, Z.add_0_r. reflexivity.
  - unfold read_exact. cbn [rd_data rd_pos].
    destruct (Z.eqb_spec (2880 - nread mod 2880) 0); [lia|].
    replace (p + (2880 - nread mod 2880) <=? len d) with true by lia. cbn [rd_pos].
    replace (nread + (2880 - nread mod 2880) - nread) with (2880 - nread mod 2880) by lia. reflexivity.
Qed.

(** A header whose padding is cut off. *)
Lemma hdu_new_short m kind k d p nread cards vs x :
  process_cards m cards = Ok vs -> xt_parse m k vs = Ok x -> p <= len d ->
  len d < p + (in_blocks nread - nread) ->
  hdu_new m kind k (mk_reader d p) nread cards = (Err EStatic, nread, mk_reader d (len d)).
Proof.
  intros P X Hp L. unfold hdu_new. rewrite P. cbn [bind]. rewrite X. cbn [bind].
  rewrite in_blocks_pad in *. destruct (Z.eqb_spec (nread mod 2880) 0) as [E|E]; [lia|].
  unfold read_exact. cbn [rd_data rd_pos].
  destruct (Z.eqb_spec (2880 - nread mod 2880) 0); [lia|].
  replace (p + (2880 - nread mod 2880) <=? len d) with false by lia. reflexivity.
Qed.

Lemma hdu_new_inv m kind k d p nread cards h n' r' :
  0 <= p <= len d ->
  hdu_new m kind k (mk_reader d p) nread cards = (Ok h, n', r') ->
  h_kind h = kind /\ h_cards h = cards /\ process_cards m cards = Ok (h_values h) /\
  xt_parse m k (h_values h) = Ok (h_xt h) /\
  h_offset h = p + (in_blocks nread - nread) /\ r' = mk_reader d (h_offset h) /\ h_offset h <= len d.
Proof.
  intros Hp H. unfold hdu_new in H.
  destruct (process_cards m cards) as [vs| |] eqn:P; cbn [bind] in H; try discriminate.
  destruct (xt_parse m k vs) as [x| |] eqn:X; cbn [bind] in H; try discriminate.
  rewrite in_blocks_pad. destruct (Z.eqb_spec (nread mod 2880) 0) as [E|E].
  - inversion H; subst. simpl. rewrite Z.sub_diag, Z.add_0_r. repeat split; auto. lia.
  - unfold read_exact in H. cbn [rd_data rd_pos] in H.
    destruct (Z.eqb_spec (2880 - nread mod 2880) 0); [lia|].
    destruct (Z.leb_spec (p + (2880 - nread mod 2880)) (len d)) as [L|L]; [|discriminate].
    inversion H; subst. simpl.
    replace (nread + (2880 - nread mod 2880) - nread) with (2880 - nread mod 2880) by lia.
    repeat split; auto.
Qed.

(** [new_primary] and [new_xtension] choose the parser by the first card. *)
Definition new_hdu (m : mode) (primary : bool) (r : reader) : res hdu * Z * reader :=
  if primary then new_primary m r else new_xtension m r.

Lemma new_hdu_ok m k d p n' c cards :
  consume_cards (mk_reader d p) 0 = (Ok (c :: cards), n', mk_reader d (p + n')) ->
  opens k c ->
  new_hdu m (match k with HPrimary => true | _ => false end) (mk_reader d p)
  = hdu_new m k (xtype_of k) (mk_reader d (p + n')) n' (c :: cards).
Proof.
  intros C O. unfold new_hdu. destruct k; destruct O as (cm & ->).
  - unfold new_primary. rewrite C. rewrite str_eqb_refl. reflexivity.
  - unfold new_xtension. rewrite C. reflexivity.
  - unfold new_xtension. rewrite C. reflexivity.
  - unfold new_xtension. rewrite C. reflexivity.
Qed.

Lemma new_hdu_inv m primary d p h n r' :
  octets d -> 0 <= p ->
  new_hdu m primary (mk_reader d p) = (Ok h, n, r') ->
  exists c cards recs last rest,
    skipn (Z.to_nat p) d = concat recs ++ last ++ rest /\ Forall header_record recs /\
    end_record last /\ Forall2 reads_as recs (c :: cards) /\
    h_cards h = c :: cards ++ [CEnd] /\ opens (h_kind h) c /\
    (primary = true <-> h_kind h = HPrimary) /\
    process_cards m (h_cards h) = Ok (h_values h) /\
    xt_parse m (xtype_of (h_kind h)) (h_values h) = Ok (h_xt h) /\
    h_offset h = p + in_blocks (80 * len (h_cards h)) /\ r' = mk_reader d (h_offset h) /\
    h_offset h <= len d.
Proof.
  intros O Hp H.
  assert (G: exists cards0 n', consume_cards (mk_reader d p) 0 = (Ok cards0, n', mk_reader d (p + n')) /\
     exists recs last rest cs, skipn (Z.to_nat p) d = concat recs ++ last ++ rest /\ Forall header_record recs /\
       end_record last /\ Forall2 reads_as recs cs /\ cards0 = cs ++ [CEnd] /\ n' = 80 * (len recs + 1)).
  { unfold new_hdu, new_primary, new_xtension in H.
    destruct (consume_cards (mk_reader d p) 0) as ((c0, n0), r0) eqn:C.
    destruct c0 as [cards0| |]; try (destruct primary; discriminate).
    destruct (consume_cards_inv _ _ _ _ _ _ O Hp C) as (recs & last & rest & cs & E1 & E2 & E3 & E4 & E5 & E6 & E7 & E8).
    rewrite Z.add_0_l in E7. exists cards0, n0. subst n0 r0. split; auto.
    exists recs, last, rest, cs. auto 10. }
  destruct G as (cards0 & n' & C & recs & last & rest & cs & E1 & E2 & E3 & E4 & E5 & E6).
  assert (Lr: 80 * (len recs + 1) <= len d - p).
  { assert (L: len (skipn (Z.to_nat p) d) = 80 * len recs + 80 + len rest).
    { rewrite E1, !len_app. destruct E3 as (E3 & _).
      assert (len last = 80) by (unfold len; lia).
      assert (len (concat recs) = 80 * len recs).
      { clear -E2. induction E2 as [|r recs (L & _) _ IH]; simpl; auto.
        rewrite len_app, len_cons, IH. unfold len. lia. }
      lia. }
    pose proof (len_nonneg rest). unfold len in *. rewrite skipn_length in L. lia. }
  assert (Lc: len recs = len cs) by (unfold len; rewrite (Forall2_length _ _ _ E4); reflexivity).
  destruct cs as [|c cards].
  { (* no card before END *)
    exfalso. unfold new_hdu, new_primary, new_xtension in H. rewrite C, E5 in H.
    destruct primary; discriminate. }
  assert (G: exists k, opens k c /\ (primary = true <-> k = HPrimary) /\
             hdu_new m k (xtype_of k) (mk_reader d (p + n')) n' cards0 = (Ok h, n, r')).
  { unfold new_hdu in H. destruct primary.
    - unfold new_primary in H. rewrite C, E5 in H. cbn [app] in H.
      destruct c as [name v|name v|x cm| | | | | |]; try discriminate.
      destruct v as [| |b cm| | |]; try discriminate. destruct b; try discriminate.
      destruct (str_eqb name (chars "SIMPLE")) eqn:S; [|discriminate]. apply str_eqb_eq in S. subst name.
      exists HPrimary. split; [simpl; eauto|]. split; [tauto|]. rewrite E5. exact H.
    - unfold new_xtension in H. rewrite C, E5 in H. cbn [app] in H.
      destruct c as [name v|name v|x cm| | | | | |]; try discriminate.
      destruct x.
      + exists HImage. split; [simpl; eauto|]. split; [split; discriminate|]. rewrite E5. exact H.
      + exists HBinTable. split; [simpl; eauto|]. split; [split; discriminate|]. rewrite E5. exact H.
      + exists HAsciiTable. split; [simpl; eauto|]. split; [split; discriminate|]. rewrite E5. exact H. }
  destruct G as (k & Op & Pk & HN).
  pose proof (len_nonneg recs). apply hdu_new_inv in HN; [|lia].
  destruct HN as (K & HC & PC & XP & HO & HR & HL). subst cards0.
  assert (LC: 80 * len (h_cards h) = n').
  { rewrite HC, len_app. change (len [CEnd]) with 1. lia. }
  exists c, cards, recs, last, rest. rewrite K. split; auto. split; auto. split; auto. split; auto.
  split; [exact HC|]. split; auto. split; auto. split; [rewrite HC; exact PC|]. split; auto.
  split; [rewrite LC; lia|]. auto.
Qed.

(** ** Moving to the next header *)

Lemma consume_moved m f p :
  0 <= f_pos_du f <= p -> p <= f_pos_du f + f_num_du f ->
  f_pos_du f + in_blocks (f_num_du f) < 2 ^ 63 ->
  consume_until_next_hdu m (moved f p)
  = (Ok tt, mk_reader (rd_data (f_reader f)) (f_pos_du f + in_blocks (f_num_du f))).
Proof.
  intros H1 H2 H3. unfold consume_until_next_hdu, moved. simpl.
  pose proof (in_blocks_range (f_num_du f)) as B.
  rewrite (u64_result_small m (p - f_pos_du f)) by lia. cbn [bind].
  rewrite u64_result_small by lia. cbn [bind].
  pose proof (in_blocks_pad (f_num_du f)) as E.
  assert (S: (if f_num_du f mod 2880 =? 0 then Ok (f_num_du f - (p - f_pos_du f))
          else u64_result m (f_num_du f - (p - f_pos_du f) + (2880 - f_num_du f mod 2880)))
          = Ok (f_pos_du f + in_blocks (f_num_du f) - p)).
  { destruct (f_num_du f mod 2880 =? 0) eqn:D.
    - f_equal. lia.
    - rewrite u64_result_small by lia. f_equal. lia. }
  rewrite S. unfold as_i64, seek_relative. cbn [rd_pos rd_data].
  replace (f_pos_du f + in_blocks (f_num_du f) - p <? 2 ^ 63) with true by lia.
  replace (p + (f_pos_du f + in_blocks (f_num_du f) - p)) with (f_pos_du f + in_blocks (f_num_du f)) by lia.
  replace (0 <=? f_pos_du f + in_blocks (f_num_du f)) with true by lia.
  replace (f_pos_du f + in_blocks (f_num_du f) <? 2 ^ 64) with true by lia. reflexivity.
Qed.

(** In a release build the position does not matter at all. *)
Lemma consume_wrapping f p :
  0 <= f_pos_du f -> 0 <= p < 2 ^ 63 -> 0 <= f_num_du f ->
  f_pos_du f + in_blocks (f_num_du f) < 2 ^ 63 ->
  consume_until_next_hdu Wrapping (moved f p)
  = (Ok tt, mk_reader (rd_data (f_reader f)) (f_pos_du f + in_blocks (f_num_du f))).
Proof.
  intros H1 H2 H3 H4. unfold consume_until_next_hdu, moved. cbn [f_start f_pos_du f_num_du f_error f_reader rd_pos rd_data].
  pose proof (in_blocks_range (f_num_du f)) as B.
  pose proof (in_blocks_pad (f_num_du f)) as E.
  set (o := f_pos_du f) in *. set (n := f_num_du f) in *.
  assert (W: forall z, exists y, u64_result Wrapping z = Ok y /\ y mod 2 ^ 64 = z mod 2 ^ 64 /\ 0 <= y < 2 ^ 64).
  { intro z. unfold u64_result. destruct ((0 <=? z) && (z <? 2 ^ 64)) eqn:D.
    - exists z. repeat split; auto; lia.
    - exists (z mod 2 ^ 64). rewrite Z.mod_mod by lia. repeat split; auto; apply Z.mod_pos_bound; lia. }
  destruct (W (p - o)) as (a & -> & Ma & Ra). cbn [bind].
  destruct (W (n - a)) as (b & -> & Mb & Rb). cbn [bind].
  assert (S: exists s, (if n mod 2880 =? 0 then Ok b else u64_result Wrapping (b + (2880 - n mod 2880))) = Ok s /\
             s mod 2 ^ 64 = (o + in_blocks n - p) mod 2 ^ 64 /\ 0 <= s < 2 ^ 64).
  { destruct (n mod 2880 =? 0) eqn:D.
    - exists b. split; auto. split; auto. lia.
    - destruct (W (b + (2880 - n mod 2880))) as (s & -> & Ms & Rs). exists s. split; auto. split; auto. lia. }
  destruct S as (s & -> & Ms & Rs).
  assert (A: as_i64 s = o + in_blocks n - p).
  { unfold as_i64. destruct (Z.ltb_spec s (2 ^ 63)); lia. }
  rewrite A. unfold seek_relative. cbn [rd_pos rd_data].
  replace (p + (o + in_blocks n - p)) with (o + in_blocks n) by lia.
  replace (0 <=? o + in_blocks n) with true by lia.
  replace (o + in_blocks n <? 2 ^ 64) with true by lia. reflexivity.
Qed.

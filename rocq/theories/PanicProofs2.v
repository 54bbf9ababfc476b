(** Proofs about panics while headers are read: whole headers and whole runs. *)

From Verif Require Import Base Utf8 Text Card Reader Header Xtension Fits.
From Verif Require Import SpecUtf8 SpecCard SpecHeader SpecXt SpecFits SpecPanic.
From Verif Require Import TextLemmas HeaderProofs HeaderProofs2 HeaderProps XtProofs XtProofs2 XtProofs3.
From Verif Require Import FitsProofs FitsProofs2 FitsProofs3 FitsProofs4 PanicProofs.
From Coq Require Import ZifyBool.

Lemma reads_as_fun r a b : reads_as r a -> reads_as r b -> a = b.
Proof. intros [A|((e & A) & ->)] [B|((e' & B) & ->)]; congruence. Qed.

Lemma reads_as_list recs : forall a b, Forall2 reads_as recs a -> Forall2 reads_as recs b -> a = b.
Proof.
  induction recs as [|r recs IH]; intros a b A B; inversion A; inversion B; subst; auto.
  f_equal; [eapply reads_as_fun; eauto|auto].
Qed.

Lemma quote_iff d q :
  octets d -> 0 <= q -> (quote_header d q <-> exists n r, consume_cards (mk_reader d q) 0 = (Panic, n, r)).
Proof.
  intros O Q. split.
  - intros (recs & bad & rest & E & F & L & B). rewrite (consume_cards_panic d q 0 recs bad rest); eauto.
  - intros (n & r & C).
    destruct (stream_cases (skipn (Z.to_nat q) d)) as (recs & tail & E & F & [L|(b & rest & -> & [R|(L & R)])]).
    + apply octets_skipn; auto.
    + rewrite (consume_cards_eof d q 0 recs tail) in C; auto. discriminate.
    + destruct (consume_cards_ok d q 0 recs b rest) as (cs & _ & _ & C2); auto. rewrite C2 in C. discriminate.
    + exists recs, b, rest. auto.
Qed.

Lemma header_at_iff d q k n vs :
  octets d -> 0 <= q ->
  (header_at d q k n vs <->
   exists c cards, consume_cards (mk_reader d q) 0 = (Ok (c :: cards ++ [CEnd]), 80 * n, mk_reader d (q + 80 * n)) /\
     opens k c /\ forall m, process_cards m (c :: cards ++ [CEnd]) = Ok vs).
Proof.
  intros O Q. split.
  - intros (recs & last & rest & c & cards & E & F & L & -> & R & Op & P).
    destruct (consume_cards_ok d q 0 recs last rest) as (cs & R2 & _ & C); auto.
    rewrite (reads_as_list _ _ _ R2 R) in C. exists c, cards. split; [|auto].
    rewrite C. cbn [app]. f_equal; f_equal; lia.
  - intros (c & cards & C & Op & P). pose proof C as C'.
    apply consume_cards_inv in C as (recs & last & rest & cs & E & F & L & R & _ & Ec & En & _); auto.
    change (c :: cards ++ [CEnd]) with ((c :: cards) ++ [CEnd]) in Ec. apply app_inj_tail in Ec as (<- & _).
    exists recs, last, rest, c, cards. repeat (split; auto). lia.
Qed.

(** What a header gives, from the four outcomes of reading its records. *)
Lemma new_hdu_cases m d primary q :
  octets d -> 0 <= q ->
  (quote_header d q /\ exists n r, new_hdu m primary (mk_reader d q) = (Panic, n, r)) \/
  (exists k n vs, (primary = true <-> k = HPrimary) /\ header_at d q k n vs /\ q + 80 * n <= len d /\ 1 <= n /\
     exists cards, process_cards m cards = Ok vs /\
     new_hdu m primary (mk_reader d q) = hdu_new m k (xtype_of k) (mk_reader d (q + 80 * n)) (80 * n) cards) \/
  ((forall k n vs, (primary = true <-> k = HPrimary) -> ~ header_at d q k n vs) /\ ~ quote_header d q /\
   exists e n r, new_hdu m primary (mk_reader d q) = (Err e, n, r)).
Proof.
  intros O Q. destruct (consume_cards (mk_reader d q) 0) as ((x, n0), r0) eqn:C. destruct x as [cards|e|].
  - assert (NQ: ~ quote_header d q) by (rewrite quote_iff by auto; intros (n & r & X); congruence).
    destruct (assembly_total d q 0 cards n0 r0 O Q C) as (vs & PV).
    pose proof C as C0.
    apply consume_cards_inv in C0 as (recs & last & rest & cs & E & F & L & R & NE & -> & En & Er); auto.
    assert (BL: q + 80 * (len recs + 1) <= len d).
    { assert (X: len (skipn (Z.to_nat q) d) = 80 * len recs + 80 + len rest).
      { rewrite E, !len_app. destruct L as (L & _). assert (len last = 80) by (unfold len; lia).
        assert (len (concat recs) = 80 * len recs).
        { clear -F. induction F as [|r recs (L & _) _ IH]; simpl; auto.
          rewrite len_app, len_cons, IH. unfold len. lia. }
        lia. }
      pose proof (len_nonneg rest). pose proof (len_nonneg recs). unfold len in *. rewrite skipn_length in X. lia. }
    assert (Er': r0 = mk_reader d (q + 80 * (len recs + 1))) by exact Er.
    assert (En': n0 = 80 * (len recs + 1)) by lia. subst n0 r0.
    destruct cs as [|c cards].
    { right. right. split; [|split; auto].
      - intros k n vs' K HA. apply header_at_iff in HA as (c & cards & C2 & Op & _); auto.
        rewrite C in C2. inversion C2 as [[X1 X2]]. destruct cards; discriminate.
      - unfold new_hdu, new_primary, new_xtension. rewrite C. cbn [app]. destruct primary; eauto. }
    assert (HAT: forall k, opens k c -> header_at d q k (len recs + 1) vs).
    { intros k Op. exists recs, last, rest, c, cards. repeat (split; auto). }
    assert (NO: (forall k, (primary = true <-> k = HPrimary) -> ~ opens k c) ->
                forall k n vs', (primary = true <-> k = HPrimary) -> ~ header_at d q k n vs').
    { intros N k n vs' K HA. apply header_at_iff in HA as (c' & cards' & C2 & Op & _); auto.
      rewrite C in C2. inversion C2; subst. eapply N; eauto. }
    pose proof (len_nonneg recs) as LN.
    assert (KS: (exists k, (primary = true <-> k = HPrimary) /\ opens k c) \/
                (forall k, (primary = true <-> k = HPrimary) -> ~ opens k c) /\
                exists e n r, new_hdu m primary (mk_reader d q) = (Err e, n, r)).
    { unfold new_hdu. destruct primary.
      - unfold new_primary. rewrite C. cbn [app].
        assert (D: (exists cm, c = CValue (chars "SIMPLE") (VLogical true cm)) \/
                   ~ exists cm, c = CValue (chars "SIMPLE") (VLogical true cm)).
        { destruct c as [name v|name v|x cm| | | | | |]; try (right; intros (? & ?); discriminate).
          destruct v as [| |b cm| | |]; try (right; intros (? & ?); discriminate).
          destruct b; try (right; intros (? & ?); discriminate).
          destruct (str_eqb name (chars "SIMPLE")) eqn:S.
          - apply str_eqb_eq in S. subst name. left. eauto.
          - right. intros (cm' & X). inversion X; subst name. rewrite str_eqb_refl in S. discriminate. }
        destruct D as [D|D].
        + left. exists HPrimary. split; [tauto|exact D].
        + right. split.
          * intros k K Op. assert (k = HPrimary) by tauto. subst k. exact (D Op).
          * destruct c as [name v|name v|x cm| | | | | |]; eauto.
            destruct v as [| |b cm| | |]; eauto. destruct b; eauto.
            destruct (str_eqb name (chars "SIMPLE")) eqn:S; eauto.
            apply str_eqb_eq in S. subst name. exfalso. apply D. eauto.
      - unfold new_xtension. rewrite C. cbn [app].
        assert (N: (forall x cm, c <> CXtension x cm) ->
          (forall k, (false = true <-> k = HPrimary) -> ~ opens k c)).
        { intros N k K Op. destruct k; [destruct K as (_ & K); specialize (K eq_refl); discriminate| | |]; destruct Op as (cm & ->); eapply N; eauto. }
        destruct c as [name v|name v|x cm| | | | | |]; try (right; split; [apply N; discriminate|eauto]).
        left. destruct x; [exists HImage|exists HBinTable|exists HAsciiTable]; (split; [split; discriminate|cbn; eauto]). }
    destruct KS as [(k & K & Op)|(N & X)].
    + right. left. exists k, (len recs + 1), vs. split; auto. split; auto. split; auto. split; [lia|].
      exists (c :: cards ++ [CEnd]). split; [apply PV|].
      replace primary with (match k with HPrimary => true | _ => false end).
      2:{ destruct k, primary; auto; try (symmetry; apply K; reflexivity); try (apply K; reflexivity);
            destruct K as (K & _); specialize (K eq_refl); discriminate. }
      apply new_hdu_ok; auto.
    + right. right. split; [apply NO; exact N|]. split; auto.
  - right. right.
    assert (NQ: ~ quote_header d q) by (rewrite quote_iff by auto; intros (n & r & X); congruence).
    split; [|split; auto].
    + intros k n vs' K HA. apply header_at_iff in HA as (c & cards & C2 & _); auto. congruence.
    + unfold new_hdu, new_primary, new_xtension. rewrite C. destruct primary; eauto.
  - left. split; [apply quote_iff; eauto|].
    unfold new_hdu, new_primary, new_xtension. rewrite C. destruct primary; eauto.
Qed.

Lemma header_at_fun d q k n vs k' n' vs' primary :
  octets d -> 0 <= q -> (primary = true <-> k = HPrimary) -> (primary = true <-> k' = HPrimary) ->
  header_at d q k n vs -> header_at d q k' n' vs' -> k = k' /\ n = n' /\ vs = vs'.
Proof.
  intros O Q K K' A B. apply header_at_iff in A as (c & cards & C & Op & P); auto.
  apply header_at_iff in B as (c' & cards' & C' & Op' & P'); auto. rewrite C in C'.
  assert (EE: c :: cards ++ [CEnd] = c' :: cards' ++ [CEnd] /\ n = n') by (inversion C'; split; [congruence|lia]).
  destruct EE as (EE & ->). rewrite EE in P. assert (c = c') by congruence. subst c'.
  split; [|split; auto].
  - clear C C' P P' EE. destruct k, k'; auto; cbn in Op, Op'; destruct Op as (cm & ->), Op' as (cm' & X); try discriminate X.
  - specialize (P Checked). rewrite (P' Checked) in P. congruence.
Qed.

Lemma no_both d q k n vs : octets d -> 0 <= q -> quote_header d q -> ~ header_at d q k n vs.
Proof.
  intros O Q A B. apply quote_iff in A as (? & ? & A); auto. apply header_at_iff in B as (? & ? & B & _); auto. congruence.
Qed.

Lemma finish_panic m f d q :
  octets d -> 0 <= q ->
  (fst (finish m f (new_hdu m (f_start f) (mk_reader d q))) = IPanic <->
   panics_at d (f_start f) q \/ m = Checked /\ overflows_at d (f_start f) q).
Proof.
  intros O Q. unfold panics_at, overflows_at.
  destruct (new_hdu_cases m d (f_start f) q O Q)
    as [(A & n & r & ->)|[(k & n & vs & K & HA & B & N1 & cards & P & ->)|(N & NQ & e & n & r & ->)]].
  - cbn [finish fst]. split; auto.
  - assert (U: forall k' n' vs', (f_start f = true <-> k' = HPrimary) -> header_at d q k' n' vs' ->
       k' = k /\ n' = n /\ vs' = vs) by (intros; eapply header_at_fun; eauto).
    destruct (xt_parse m (xtype_of k) vs) as [x|e|] eqn:X.
    + assert (NE: ~ (huge_count k vs \/ m = Checked /\ overflows_early k vs)) by (rewrite <- early_panic; congruence).
      destruct (late_panic m k vs x X) as (LP & LE).
      destruct (Z.le_gt_cases (q + in_blocks (80 * n)) (len d)) as [L|L].
      * rewrite (hdu_new_ok m k (xtype_of k) d _ _ cards vs x P X) by (unfold len in *; lia).
        cbn [finish]. unfold hdu_size. cbn [h_xt].
        destruct (xt_num_bytes m x) as [sz|e|] eqn:Sz.
        -- cbn [fst]. split; [discriminate|]. intros [[D|(k' & n' & vs' & K' & HA' & D)]|(-> & k' & n' & vs' & K' & HA' & D)].
           ++ exfalso. eapply no_both; eauto.
           ++ destruct (U _ _ _ K' HA') as (-> & -> & ->). tauto.
           ++ destruct (U _ _ _ K' HA') as (-> & -> & ->). destruct D as [D|(x' & X' & _ & D)]; [tauto|].
              assert (x' = x) by congruence. subst x'.
              assert (Ok sz = Panic) by (apply LP; auto). discriminate.
        -- exfalso. exact (LE e eq_refl).
        -- cbn [fst]. split; auto. intros _. destruct (proj1 LP eq_refl) as (-> & D). right. split; auto. exists k, n, vs.
           split; auto. split; auto. right. exists x. auto.
      * rewrite (hdu_new_short m k (xtype_of k) d _ _ cards vs x P X) by lia. cbn [finish fst].
        split; [discriminate|]. intros [[D|(k' & n' & vs' & K' & HA' & D)]|(-> & k' & n' & vs' & K' & HA' & D)].
        -- exfalso. eapply no_both; eauto.
        -- destruct (U _ _ _ K' HA') as (-> & -> & ->). tauto.
        -- destruct (U _ _ _ K' HA') as (-> & -> & ->). destruct D as [D|(x' & X' & L' & D)]; [tauto|lia].
    + assert (NE: ~ (huge_count k vs \/ m = Checked /\ overflows_early k vs)) by (rewrite <- early_panic; congruence).
      unfold hdu_new. rewrite P. cbn [bind]. rewrite X. cbn [bind].
      assert (G: fst (finish m f (Err e, 80 * n, mk_reader d (q + 80 * n))) <> IPanic).
      { unfold finish. destruct e; try discriminate. destruct (_ && _); discriminate. }
      split; [tauto|]. intros [[D|(k' & n' & vs' & K' & HA' & D)]|(-> & k' & n' & vs' & K' & HA' & D)].
      * exfalso. eapply no_both; eauto.
      * destruct (U _ _ _ K' HA') as (-> & -> & ->). tauto.
      * destruct (U _ _ _ K' HA') as (-> & -> & ->). destruct D as [D|(x' & X' & L' & D)]; [tauto|congruence].
    + unfold hdu_new. rewrite P. cbn [bind]. rewrite X. cbn [bind finish fst]. split; auto. intros _.
      apply early_panic in X as [X|(-> & X)].
      * left. right. eauto 6.
      * right. split; auto. exists k, n, vs. auto.
  - assert (G: fst (finish m f (Err e, n, r)) <> IPanic).
    { unfold finish. destruct e; try discriminate. destruct (_ && _); discriminate. }
    split; [tauto|]. intros [[D|(k' & n' & vs' & K' & HA' & D)]|(-> & k' & n' & vs' & K' & HA' & D)];
      exfalso; [tauto|eapply N; eauto|eapply N; eauto].
Qed.

(** One call. *)
Lemma panic_iff m d f q :
  octets d -> comes_to d f q ->
  (fst (next m f) = IPanic <-> panics_at d (f_start f) q \/ m = Checked /\ overflows_at d (f_start f) q).
Proof.
  intros O R. assert (Q: 0 <= q) by (destruct R as (_ & _ & Q & _); exact Q).
  rewrite <- finish_panic by auto.
  pose proof (next_ready m d f q (rd_pos (f_reader f)) R (or_introl eq_refl)) as X. rewrite moved_same in X.
  rewrite X. reflexivity.
Qed.

(** A release build, whatever came before. *)
Lemma panic_release f f' :
  octets (rd_data (f_reader f)) -> 0 <= rd_pos (f_reader f) -> next Wrapping f = (IPanic, f') ->
  exists q, 0 <= q /\ panics_at (rd_data (f_reader f)) (f_start f) q.
Proof.
  intros O P H. destruct (f_error f) eqn:E.
  { unfold next in H. rewrite E in H. discriminate. }
  destruct (f_start f) eqn:S.
  - rewrite next_start in H by auto. exists (rd_pos (f_reader f)). split; auto.
    assert (X: fst (finish Wrapping f (new_hdu Wrapping (f_start f) (mk_reader (rd_data (f_reader f)) (rd_pos (f_reader f))))) = IPanic).
    { unfold new_hdu. rewrite S. destruct (f_reader f) as (dd, pp); cbn [rd_data rd_pos]. rewrite H. reflexivity. }
    apply finish_panic in X; auto. rewrite S in X. destruct X as [X|(? & _)]; [exact X|discriminate].
  - destruct (consume_until_next_hdu Wrapping f) as (x, r) eqn:C. destruct x as [[]|e|].
    + rewrite (next_not_start Wrapping f r E S C) in H.
      rewrite <- (moved_same f) in C. apply consume_pos in C as (q & -> & Q).
      exists q. split; auto.
      assert (X: fst (finish Wrapping f (new_hdu Wrapping (f_start f) (mk_reader (rd_data (f_reader f)) q))) = IPanic).
      { unfold new_hdu. rewrite S, H. reflexivity. }
      apply finish_panic in X; auto. rewrite S in X. destruct X as [X|(? & _)]; [exact X|discriminate].
    + exfalso. unfold next in H. rewrite E, S, C in H. discriminate.
    + exfalso. unfold consume_until_next_hdu in C.
      destruct (wrapping_ok (rd_pos (f_reader f) - f_pos_du f)) as (a & Ea). rewrite Ea in C. cbn [bind] in C.
      destruct (wrapping_ok (f_num_du f - a)) as (b & Eb). rewrite Eb in C. cbn [bind] in C.
      destruct (wrapping_ok (b + (2880 - f_num_du f mod 2880))) as (c & Ec). rewrite Ec in C.
      assert (SR: forall o, fst (seek_relative (f_reader f) o) <> Panic).
      { intro o. unfold seek_relative. destruct (_ && _); discriminate. }
      destruct (f_num_du f mod 2880 =? 0); cbn iota in C; [apply (SR (as_i64 b))|apply (SR (as_i64 c))]; rewrite C; reflexivity.
Qed.

Lemma after_call m d f i f' :
  octets d -> rd_data (f_reader f) = d -> 0 <= rd_pos (f_reader f) -> 0 <= f_pos_du f -> next m f = (i, f') ->
  i <> IPanic -> f_error f' = true \/ rd_data (f_reader f') = d /\ 0 <= rd_pos (f_reader f') /\ 0 <= f_pos_du f'.
Proof.
  intros O D P P0 H NP. destruct i as [|h|e|]; [| | |congruence].
  - destruct (f_error f) eqn:E; [left; unfold next in H; rewrite E in H; inversion H; subst; auto|].
    destruct (next_none m d f f' O D H E) as (S & -> & _). right. cbn [moved f_reader rd_data rd_pos f_pos_du].
    split; auto. split; auto. apply len_nonneg.
  - right. pose proof H as H'. destruct (next_ok_inv m d f h f' O D P H) as (_ & q & n & Q & N & _ & _ & size & _ & ->).
    cbn [f_reader rd_data rd_pos f_pos_du]. split; auto.
    apply new_hdu_inv in N as (c & cards & recs & last & rest & E & F & LE & R & HC & Op & K & _ & _ & HO & _ & HL); auto.
    pose proof (in_blocks_range (80 * len (h_cards h))). pose proof (len_nonneg (h_cards h)). lia.
  - left. unfold next in H. destruct (f_error f) eqn:E; [inversion H|].
    destruct (if f_start f then _ else _) as (n, r). destruct n as [|h|e'|]; inversion H; subst; auto.
    destruct (hdu_size m h); discriminate.
Qed.

(** A whole run of a release build. *)
Lemma run_release d l f2 :
  octets d -> calls Wrapping (opened d) l f2 -> In IPanic l ->
  exists primary q, 0 <= q /\ panics_at d primary q.
Proof.
  intros O Y. assert (G: forall f, calls Wrapping f l f2 ->
    f_error f = true \/ rd_data (f_reader f) = d /\ 0 <= rd_pos (f_reader f) /\ 0 <= f_pos_du f ->
    In IPanic l -> exists primary q, 0 <= q /\ panics_at d primary q).
  { clear Y. intros f Y. induction Y as [f0|f0 p f1 L N|f0 p i f1 l f2 L N NP Y IH]; intros I H; [destruct H| |].
    - destruct I as [E|(D & P & P0)].
      { unfold next in N. cbn [moved f_error] in N. rewrite E in N. discriminate. }
      exists (f_start (moved f0 p)). rewrite <- D. eapply (panic_release (moved f0 p)); [| |exact N].
      + cbn [moved f_reader rd_data]. rewrite D. exact O.
      + exact L.
    - destruct H as [->|H]; [congruence|]. apply IH; auto. destruct I as [E|(D & P & P0)].
      { unfold next in N. cbn [moved f_error] in N. rewrite E in N. inversion N; subst. left. exact E. }
      eapply (after_call Wrapping d (moved f0 p)); [exact O|exact D|exact L|exact P0|exact N|exact NP]. }
  intro H. apply (G _ Y); auto. right. split; [reflexivity|split; apply Z.le_refl].
Qed.

(** Without an apostrophe in the file there is neither a lone quote nor a table. *)
Lemma lone_quote_has b : lone_quote_record b -> In 39 b.
Proof.
  assert (L: forall f, lone_quote f -> In 39 f).
  { intros f (w & v & -> & _). rewrite !in_app_iff. cbn. auto. }
  assert (S: forall n, In 39 (skipn n b) -> In 39 b).
  { intros n H. rewrite <- (firstn_skipn n b). apply in_or_app. auto. }
  intros [(_ & H)|[(_ & H)|[(_ & name & field & E & _ & _ & H)|(_ & _ & H)]]].
  - apply (S 8%nat), L, H.
  - apply (S 10%nat), L, H.
  - apply (S 9%nat). rewrite E. apply in_or_app. right. right. apply L, H.
  - apply (S 10%nat), L, H.
Qed.

Lemma no_apostrophe d : octets d -> ~ In 39 d -> forall primary q, 0 <= q -> ~ panics_at d primary q.
Proof.
  intros O N primary q Q. 
  assert (S: forall a b, skipn (Z.to_nat q) d = a ++ b -> In 39 (a ++ b) -> False).
  { intros a b E H. apply N. rewrite <- (firstn_skipn (Z.to_nat q) d), E. apply in_or_app. auto. }
  intros [(recs & bad & rest & E & _ & _ & B)|(k & n & vs & _ & (recs & last & rest & c & cards & E & F & _ & _ & R & Op & _) & H)].
  - apply (S _ _ E). rewrite !in_app_iff. right. left. apply lone_quote_has, B.
  - destruct recs as [|r recs]; [inversion R|]. apply (S _ _ E). cbn [concat]. rewrite !in_app_iff. left. left.
    assert (O2: octets r).
    { apply (octets_skipn (Z.to_nat q)) in O. rewrite E in O. cbn [concat] in O. rewrite <- app_assoc in O.
      now apply octets_app in O. }
    inversion R as [|? ? ? ? R0 RT]; subst.
    pose proof (opening_record_of r k c O2 R0 Op) as OR.
    destruct k; cbn [huge_count] in H; try destruct H; destruct OR as (_ & w & i & j & name & rest' & E2 & _);
      rewrite <- (firstn_skipn 10 r), E2; rewrite !in_app_iff; right; right; left; reflexivity.
Qed.

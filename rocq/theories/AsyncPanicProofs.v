(** Proofs about panics of the asynchronous reader. *)

From Verif Require Import Base Utf8 Text Card Reader Header Xtension Fits Bytes Async.
From Verif Require Import SpecUtf8 SpecCard SpecHeader SpecXt SpecFits SpecImage SpecPanic SpecAsync SpecAsyncLoss SpecAsyncPanic.
From Verif Require Import TextLemmas HeaderProofs HeaderProofs2 HeaderProps XtProofs XtProofs2 XtProofs3.
From Verif Require Import FitsProofs FitsProofs2 FitsProofs3 FitsProofs4 PanicProofs PanicProofs2.
From Verif Require Import AsyncProofs AsyncProofs2 AsyncProofs3 AsyncLossProofs.
From Coq Require Import ZifyBool.

(** Headers at which every build panics. *)
Definition apanics (t : list Z) (primary : bool) : Prop :=
  quote_header t 0 \/
  exists k n vs, (primary = true <-> k = HPrimary) /\ aheader t k n vs /\ huge_count k vs.

(** They are those of the synchronous reader: the first header has no count to go wrong. *)
Lemma apanics_at t primary : apanics t primary <-> panics_at t primary 0.
Proof.
  unfold apanics, panics_at, aheader, header_at. cbn [Z.to_nat skipn]. split; (intros [H|(k & n & vs & K & H & C)]; [auto|]);
    right; exists k, n, vs; (split; [exact K|]); (split; [|exact C]); destruct k; exact H || (cbn in C; contradiction).
Qed.

Lemma aheader_iff t k n vs :
  octets t ->
  (aheader t k n vs <->
   exists c cards, consume_cards (mk_reader t 0) 0 = (Ok (c :: cards ++ [CEnd]), 80 * n, mk_reader t (80 * n)) /\
     aopens k c /\ forall m, process_cards m (c :: cards ++ [CEnd]) = Ok vs).
Proof.
  intros O. split.
  - intros (recs & last & rest & c & cards & E & F & L & -> & R & Op & P).
    destruct (consume_cards_ok t 0 0 recs last rest) as (cs & R2 & _ & C); auto; [lia|].
    rewrite (reads_as_list _ _ _ R2 R) in C. exists c, cards. split; [|auto].
    rewrite C. cbn [app]. f_equal; f_equal; lia.
  - intros (c & cards & C & Op & P). pose proof C as C'.
    apply consume_cards_inv in C as (recs & last & rest & cs & E & F & L & R & _ & Ec & En & _); auto; [|lia].
    change (c :: cards ++ [CEnd]) with ((c :: cards) ++ [CEnd]) in Ec. apply app_inj_tail in Ec as (<- & _).
    exists recs, last, rest, c, cards. repeat (split; auto). lia.
Qed.

Lemma aheader_fun t k n vs k' n' vs' primary :
  octets t -> (primary = true <-> k = HPrimary) -> (primary = true <-> k' = HPrimary) ->
  aheader t k n vs -> aheader t k' n' vs' -> k = k' /\ n = n' /\ vs = vs'.
Proof.
  intros O K K' A B. apply aheader_iff in A as (c & cards & C & Op & P); auto.
  apply aheader_iff in B as (c' & cards' & C' & Op' & P'); auto. rewrite C in C'.
  assert (EE: c :: cards ++ [CEnd] = c' :: cards' ++ [CEnd] /\ n = n') by (inversion C'; split; [congruence|lia]).
  destruct EE as (EE & ->). rewrite EE in P. assert (c = c') by congruence. subst c'.
  split; [|split; auto].
  - clear C C' P P' EE. destruct primary.
    + transitivity HPrimary; [|symmetry]; tauto.
    + destruct k, k'; auto; try (destruct K as (_ & K); specialize (K eq_refl); discriminate);
        try (destruct K' as (_ & K'); specialize (K' eq_refl); discriminate);
        cbn in Op, Op'; destruct Op as (cm & ->), Op' as (cm' & X); try discriminate X.
  - specialize (P Checked). rewrite (P' Checked) in P. congruence.
Qed.

Lemma ano_both t k n vs : octets t -> quote_header t 0 -> ~ aheader t k n vs.
Proof.
  intros O A B. apply quote_iff in A as (? & ? & A); auto; [|lia]. apply aheader_iff in B as (? & ? & B & _); auto. congruence.
Qed.

Lemma anew_cases m t primary s :
  octets t -> at_pos s t 0 ->
  (quote_header t 0 /\ exists s', anew m primary s = (Ready Panic, s')) \/
  (exists k n vs, (primary = true <-> k = HPrimary) /\ aheader t k n vs /\ 80 * n <= len t /\ 1 <= n /\
     exists cards s', process_cards m cards = Ok vs /\ at_pos s' t (80 * n) /\
     anew m primary s = ahdu_new m k (xtype_of k) s' (80 * n) cards) \/
  ((forall k n vs, (primary = true <-> k = HPrimary) -> ~ aheader t k n vs) /\ ~ quote_header t 0 /\
   exists e s', anew m primary s = (Ready (Err e), s')).
Proof.
  intros O A. pose proof (consume_cards_sim s t 0 A) as S.
  destruct (consume_cards (mk_reader t 0) 0) as ((x, n0), r0) eqn:C.
  destruct (aconsume_cards s) as ((y, n1), s1) eqn:Y. destruct S as (y' & -> & A1 & _ & S).
  assert (Z0: 0 <= 0) by lia.
  destruct x as [cards|e|].
  - destruct S as (-> & ->).
    assert (NQ: ~ quote_header t 0) by (rewrite quote_iff by auto; intros (n & r & X); congruence).
    destruct (assembly_total t 0 0 cards n0 r0 O Z0 C) as (vs & PV).
    pose proof C as C0.
    apply consume_cards_inv in C0 as (recs & last & rest & cs & E & F & L & R & NE & -> & En & Er); auto.
    assert (Er': r0 = mk_reader t (80 * (len recs + 1))) by (rewrite Er; f_equal; lia).
    assert (En': n0 = 80 * (len recs + 1)) by lia. subst n0 r0. cbn [rd_pos] in A1.
    pose proof A1 as (_ & A1r & _).
    destruct cs as [|c cards].
    { right. right. split; [|split; auto].
      - intros k n vs' K HA. apply aheader_iff in HA as (c & cards & C2 & Op & _); auto.
        rewrite C in C2. inversion C2 as [[X1 X2]]. destruct cards; discriminate.
      - unfold anew, anew_primary, anew_xtension. rewrite Y. cbn [app]. destruct primary; eauto. }
    assert (HAT: forall k, aopens k c -> aheader t k (len recs + 1) vs).
    { intros k Op. exists recs, last, rest, c, cards. repeat (split; auto). }
    assert (NO: (forall k, (primary = true <-> k = HPrimary) -> ~ aopens k c) ->
                forall k n vs', (primary = true <-> k = HPrimary) -> ~ aheader t k n vs').
    { intros N k n vs' K HA. apply aheader_iff in HA as (c' & cards' & C2 & Op & _); auto.
      rewrite C in C2. inversion C2; subst. eapply N; eauto. }
    pose proof (len_nonneg recs) as LN.
    assert (KS: (exists k, (primary = true <-> k = HPrimary) /\ aopens k c /\
                   anew m primary s = ahdu_new m k (xtype_of k) s1 (80 * (len recs + 1)) (c :: cards ++ [CEnd])) \/
                (forall k, (primary = true <-> k = HPrimary) -> ~ aopens k c) /\
                exists e s', anew m primary s = (Ready (Err e), s')).
    { unfold anew. destruct primary.
      - unfold anew_primary. rewrite Y. cbn [app].
        assert (D: (exists name cm, c = CValue name (VLogical true cm)) \/
                   ~ exists name cm, c = CValue name (VLogical true cm)).
        { destruct c as [name v|name v|x cm| | | | | |]; try (right; intros (? & ? & ?); discriminate).
          destruct v as [| |b cm| | |]; try (right; intros (? & ? & ?); discriminate).
          destruct b; try (right; intros (? & ? & ?); discriminate). left. eauto. }
        destruct D as [D|D].
        + left. exists HPrimary. split; [tauto|]. split; [exact D|]. destruct D as (name & cm & ->). reflexivity.
        + right. split.
          * intros k K Op. assert (k = HPrimary) by tauto. subst k. exact (D Op).
          * destruct c as [name v|name v|x cm| | | | | |]; eauto.
            destruct v as [| |b cm| | |]; eauto. destruct b; eauto. exfalso. apply D. eauto.
      - unfold anew_xtension. rewrite Y. cbn [app].
        assert (N: (forall x cm, c <> CXtension x cm) ->
          (forall k, (false = true <-> k = HPrimary) -> ~ aopens k c)).
        { intros N k K Op. destruct k; [destruct K as (_ & K); specialize (K eq_refl); discriminate| | |]; destruct Op as (cm & ->); eapply N; eauto. }
        destruct c as [name v|name v|x cm| | | | | |]; try (right; split; [apply N; discriminate|eauto]).
        left. destruct x; [exists HImage|exists HBinTable|exists HAsciiTable]; (split; [split; discriminate|split; [cbn; eauto|reflexivity]]). }
    destruct KS as [(k & K & Op & X)|(N & X)].
    + right. left. exists k, (len recs + 1), vs. split; auto. split; auto. split; [lia|]. split; [lia|].
      exists (c :: cards ++ [CEnd]), s1. split; [apply PV|]. split; auto.
    + right. right. split; [apply NO; exact N|]. split; auto.
  - right. right.
    assert (NQ: ~ quote_header t 0) by (rewrite quote_iff by auto; intros (n & r & X); congruence).
    split; [|split; auto].
    + intros k n vs' K HA. apply aheader_iff in HA as (c & cards & C2 & _); auto. congruence.
    + unfold anew, anew_primary, anew_xtension. rewrite Y. destruct S as (_ & ->). destruct primary; eauto.
  - left. split; [apply quote_iff; eauto|].
    unfold anew, anew_primary, anew_xtension. rewrite Y. subst y'. destruct primary; eauto.
Qed.

(** What is done with a header after it is read. *)
Definition afinish (m : mode) (x : poll ahdu) : aitem :=
  match x with
  | Ready (Ok h) => match xt_num_bytes m (a_xt h) with Ok _ => AOk h | _ => APanic end
  | Ready (Err e) => AErr e
  | Ready Panic => APanic
  | Pending => APending
  end.

Lemma poll_finish m f :
  fst (poll_next m f) =
  if af_error f then ANone
  else if af_start f then afinish m (fst (anew m true (af_reader f)))
  else match aconsume_until f with
       | (Ready (Ok true), _) => ANone
       | (Ready (Ok false), s) => afinish m (fst (anew m false s))
       | (Ready (Err e), _) => AErr e
       | (Ready Panic, _) => APanic
       | (Pending, _) => APending
       end.
Proof.
  unfold poll_next, anew, afinish. destruct (af_error f); auto. destruct (af_start f).
  - destruct (anew_primary m (af_reader f)) as ([|[h|e|]], s); cbn [fst]; auto. destruct (xt_num_bytes m (a_xt h)); auto.
  - destruct (aconsume_until f) as ([|[[]|e|]], s0); cbn [fst]; auto.
    destruct (anew_xtension m s0) as ([|[h|e|]], s); cbn [fst]; auto. destruct (xt_num_bytes m (a_xt h)); auto.
Qed.

Lemma in_blocks_of n : 0 <= n -> in_blocks (80 * n) = 80 * n + (if 80 * n mod 2880 =? 0 then 0 else 2880 - 80 * n mod 2880).
Proof. intro H. unfold in_blocks. pose proof (Z.div_mod (80 * n) 2880). destruct (Z.eqb_spec (80 * n mod 2880) 0); lia. Qed.

Lemma afinish_panic m t primary s :
  octets t -> at_pos s t 0 ->
  (afinish m (fst (anew m primary s)) = APanic <-> apanics t primary \/ m = Checked /\ aoverflows t primary).
Proof.
  intros O A. unfold apanics, aoverflows.
  destruct (anew_cases m t primary s O A)
    as [(Q & s' & ->)|[(k & n & vs & K & HA & B & N1 & cards & s1 & P & A1 & ->)|(N & NQ & e & s' & ->)]].
  - cbn [fst afinish]. split; auto.
  - assert (U: forall k' n' vs', (primary = true <-> k' = HPrimary) -> aheader t k' n' vs' ->
       k' = k /\ n' = n /\ vs' = vs) by (intros; eapply aheader_fun; eauto).
    unfold ahdu_new. rewrite P. cbn [bind].
    destruct (xt_parse m (xtype_of k) vs) as [x|e|] eqn:X; cbn [bind].
    + assert (NE: ~ (huge_count k vs \/ m = Checked /\ overflows_early k vs)) by (rewrite <- early_panic; congruence).
      destruct (late_panic m k vs x X) as (LP & LE).
      pose proof (in_blocks_of n ltac:(lia)) as IB.
      assert (Y: fst (if 80 * n mod 2880 =? 0 then (Ready (Ok (mk_ahdu k cards vs x)), s1)
                    else match poll_read_exact s1 (2880 - 80 * n mod 2880) with
                         | (Ready (Ok _), s') => (Ready (Ok (mk_ahdu k cards vs x)), s')
                         | (Ready _, s') => (Ready (Err EStatic), s')
                         | (Pending, s') => (Pending, s')
                         end) = if in_blocks (80 * n) <=? len t then Ready (Ok (mk_ahdu k cards vs x)) else Ready (Err EStatic)).
      { pose proof (at_pos_len _ _ _ A1) as L1. destruct A1 as (R1 & _ & _).
        destruct (Z.eqb_spec (80 * n mod 2880) 0) as [E|E]; [replace (_ <=? _) with true by lia; reflexivity|].
        pose proof (Z.mod_pos_bound (80 * n) 2880). destruct (read_ready s1 (2880 - 80 * n mod 2880)) as (s2 & -> & _); [lia|auto|].
        rewrite L1. destruct (Z.leb_spec (2880 - 80 * n mod 2880) (len t - 80 * n)); cbn [fst]; destruct (Z.leb_spec (in_blocks (80 * n)) (len t)); auto; lia. }
      rewrite Y. destruct (Z.leb_spec (in_blocks (80 * n)) (len t)) as [L|L]; cbn [afinish a_xt].
      * destruct (xt_num_bytes m x) as [sz|e|] eqn:Sz.
        -- split; [discriminate|]. intros [[D|(k' & n' & vs' & K' & HA' & D)]|(-> & k' & n' & vs' & K' & HA' & D)].
           ++ exfalso. eapply ano_both; eauto.
           ++ destruct (U _ _ _ K' HA') as (-> & -> & ->). tauto.
           ++ destruct (U _ _ _ K' HA') as (-> & -> & ->). destruct D as [D|(x' & X' & _ & D)]; [tauto|].
              assert (x' = x) by congruence. subst x'.
              assert (Ok sz = Panic) by (apply LP; auto). discriminate.
        -- exfalso. exact (LE e eq_refl).
        -- split; auto. intros _. destruct (proj1 LP eq_refl) as (-> & D). right. split; auto. exists k, n, vs.
           split; auto. split; auto. right. exists x. auto.
      * split; [discriminate|]. intros [[D|(k' & n' & vs' & K' & HA' & D)]|(-> & k' & n' & vs' & K' & HA' & D)].
        -- exfalso. eapply ano_both; eauto.
        -- destruct (U _ _ _ K' HA') as (-> & -> & ->). tauto.
        -- destruct (U _ _ _ K' HA') as (-> & -> & ->). destruct D as [D|(x' & X' & L' & D)]; [tauto|lia].
    + assert (NE: ~ (huge_count k vs \/ m = Checked /\ overflows_early k vs)) by (rewrite <- early_panic; congruence).
      cbn [fst afinish].
      split; [discriminate|]. intros [[D|(k' & n' & vs' & K' & HA' & D)]|(-> & k' & n' & vs' & K' & HA' & D)].
      * exfalso. eapply ano_both; eauto.
      * destruct (U _ _ _ K' HA') as (-> & -> & ->). tauto.
      * destruct (U _ _ _ K' HA') as (-> & -> & ->). destruct D as [D|(x' & X' & L' & D)]; [tauto|congruence].
    + cbn [fst afinish]. split; auto. intros _.
      apply early_panic in X as [X|(-> & X)].
      * left. right. eauto 6.
      * right. split; auto. exists k, n, vs. auto.
  - cbn [fst afinish].
    split; [discriminate|]. intros [[D|(k' & n' & vs' & K' & HA' & D)]|(-> & k' & n' & vs' & K' & HA' & D)];
      exfalso; [tauto|eapply N; eauto|eapply N; eauto].
Qed.

(** Where the next header is looked for. *)
Lemma until_cases f : always_ready (af_reader f) -> 0 <= af_rem f ->
  let gap := af_rem f + (in_blocks (af_num f) - af_num f) in
  (exists s', aconsume_until f = (Ready (Ok false), s') /\ always_ready s' /\ gap < len (content (af_reader f)) /\
     content s' = skipn (Z.to_nat gap) (content (af_reader f))) \/
  (len (content (af_reader f)) <= gap /\ exists r s', aconsume_until f = (Ready r, s') /\ (r = Ok true \/ exists e, r = Err e)).
Proof.
  intros AR N. cbv zeta. unfold aconsume_until.
  assert (G: in_blocks (af_num f) - af_num f = if af_num f mod 2880 =? 0 then 0 else 2880 - af_num f mod 2880).
  { unfold in_blocks. pose proof (Z.div_mod (af_num f) 2880). destruct (Z.eqb_spec (af_num f mod 2880) 0); lia. }
  pose proof (Z.mod_pos_bound (af_num f) 2880 ltac:(lia)) as MB.
  assert (S1: exists s1, (if 0 <? af_rem f then poll_skip (af_reader f) (af_rem f) else (Ready (Ok tt), af_reader f)) =
      (Ready (if af_rem f <=? len (content (af_reader f)) then Ok tt else Err EStatic), s1) /\
      always_ready s1 /\ content s1 = skipn (Z.to_nat (af_rem f)) (content (af_reader f))).
  { destruct (Z.ltb_spec 0 (af_rem f)); [apply skip_ready; auto|]. pose proof (len_nonneg (content (af_reader f))).
    exists (af_reader f). replace (_ <=? _) with true by lia. replace (af_rem f) with 0 by lia. auto. }
  destruct S1 as (s1 & -> & AR1 & C1).
  destruct (Z.leb_spec (af_rem f) (len (content (af_reader f)))) as [L|L].
  2:{ right. destruct (Z.eqb_spec (af_num f mod 2880) 0); split; eauto 6; lia. }
  assert (L1: len (content s1) = len (content (af_reader f)) - af_rem f).
  { rewrite C1. unfold len in *. rewrite skipn_length. lia. }
  assert (S2: exists s2, (if af_num f mod 2880 =? 0 then (Ready (Ok []), s1)
                    else poll_read_exact s1 (2880 - af_num f mod 2880)) =
      (Ready (if in_blocks (af_num f) - af_num f <=? len (content s1)
              then Ok (firstn (Z.to_nat (in_blocks (af_num f) - af_num f)) (content s1)) else Err EEof), s2) /\
      always_ready s2 /\ content s2 = skipn (Z.to_nat (in_blocks (af_num f) - af_num f)) (content s1)).
  { rewrite G. destruct (Z.eqb_spec (af_num f mod 2880) 0).
    - exists s1. replace (0 <=? _) with true by lia. auto.
    - apply read_ready; auto. lia. }
  destruct S2 as (s2 & -> & AR2 & C2).
  destruct (Z.leb_spec (in_blocks (af_num f) - af_num f) (len (content s1))) as [L2|L2].
  2:{ right. split; [lia|]. exists (Ok true), s2. auto. }
  destruct (fill_ready s2 AR2) as (b & s3 & -> & AR3 & C3 & B).
  assert (GP: 0 <= in_blocks (af_num f) - af_num f) by (rewrite G; destruct (_ =? _); lia).
  assert (L3: len (content s2) = len (content s1) - (in_blocks (af_num f) - af_num f)).
  { rewrite C2. unfold len in *. rewrite skipn_length. lia. }
  assert (CC: content s3 = skipn (Z.to_nat (af_rem f + (in_blocks (af_num f) - af_num f))) (content (af_reader f))).
  { rewrite C3, C2, C1, skipn_skipn. f_equal. lia. }
  destruct b as [|x b].
  - right. assert (E: content s2 = []) by tauto. rewrite E in L3. change (len (@nil Z)) with 0 in L3. split; [lia|eauto 6].
  - left. exists s3. split; auto. split; auto. split; auto.
    assert (content s2 <> []) by (intro E; assert (x :: b = []) by tauto; discriminate).
    destruct (content s2) as [|y l]; [congruence|]. rewrite len_cons in L3. pose proof (len_nonneg l). lia.
Qed.

Lemma ready_panic m f : octets (content (af_reader f)) -> always_ready (af_reader f) -> 0 <= af_rem f ->
  (fst (poll_next m f) = APanic <->
   exists t, looks_at f t /\ (panics_at t (af_start f) 0 \/ m = Checked /\ aoverflows t (af_start f))).
Proof.
  intros O AR N. rewrite poll_finish. unfold looks_at. destruct (af_error f).
  { split; [discriminate|]. intros (t & (D & _) & _). discriminate. }
  destruct (af_start f) eqn:S.
  - assert (A: at_pos (af_reader f) (content (af_reader f)) 0).
    { split; auto. pose proof (len_nonneg (content (af_reader f))). split; [lia|reflexivity]. }
    setoid_rewrite <- apanics_at. rewrite (afinish_panic m _ true _ O A). split.
    + intro H. exists (content (af_reader f)). auto.
    + intros (t & (_ & <-) & H). exact H.
  - pose proof (until_cases f AR N) as U. cbv zeta in U.
    assert (G0: 0 <= af_rem f + (in_blocks (af_num f) - af_num f)).
    { unfold in_blocks. pose proof (Z.div_mod (af_num f) 2880). pose proof (Z.mod_pos_bound (af_num f) 2880).
      pose proof (Z.div_mod (af_num f + 2879) 2880). pose proof (Z.mod_pos_bound (af_num f + 2879) 2880). lia. }
    revert U G0. generalize (af_rem f + (in_blocks (af_num f) - af_num f)) as gap. intros gap [(s' & -> & AR' & L & C)|(L & r & s' & -> & R)] G0.
    + assert (A: at_pos s' (content s') 0).
      { split; auto. pose proof (len_nonneg (content s')). split; [lia|reflexivity]. }
      assert (O': octets (content s')) by (rewrite C; apply octets_skipn; auto).
      setoid_rewrite <- apanics_at. rewrite (afinish_panic m _ false _ O' A).
      assert (X: forall t, (t <> [] /\ exists sk, content (af_reader f) = sk ++ t /\ len sk = gap) <-> t = content s').
      { intro t. split.
        - intros (_ & sk & E & Ls). rewrite C, E. rewrite skipn_app, skipn_all2 by (unfold len in Ls; lia).
          replace (Z.to_nat gap - length sk)%nat with 0%nat by (unfold len in Ls; lia). reflexivity.
        - intros ->. split.
          + intro E. rewrite E in C. apply (f_equal (@length Z)) in C. rewrite skipn_length in C. unfold len in L. cbn in C. lia.
          + exists (firstn (Z.to_nat gap) (content (af_reader f))). rewrite C, firstn_skipn. split; auto.
            unfold len in *. rewrite firstn_length. lia. }
      split.
      * intro H. exists (content s'). split; [split; [reflexivity|apply X; reflexivity]|exact H].
      * intros (t & (_ & T) & H). apply X in T. subst t. exact H.
    + split.
      * destruct R as [->|(e & ->)]; discriminate.
      * intros (t & (_ & NE & sk & E & Ls) & _). exfalso. rewrite E, len_app in L. destruct t; [congruence|].
        rewrite len_cons in L. pose proof (len_nonneg t). lia.
Qed.

Lemma any_panic m f i f' : octets (content (af_reader f)) -> Forall (fun e => e <> Chunk []) (ar_events (af_reader f)) ->
  0 <= af_rem f -> poll_next m f = (i, f') -> i <> APending ->
  (i = APanic <->
   exists t, looks_at f t /\ (panics_at t (af_start f) 0 \/ m = Checked /\ aoverflows t (af_start f))).
Proof.
  intros O F N E NP.
  assert (L: like_f f (af_set_reader f (mk_areader (content (af_reader f)) []))).
  { split; [|split; [exact F|split; [constructor|exact N]]]. unfold same_bytes, af_set_reader. cbn.
    repeat split; auto. unfold content at 2. cbn. now rewrite app_nil_r. }
  pose proof L as ((_ & _ & _ & _ & C) & _ & AR & _).
  destruct (poll_like m _ _ L) as [(P & _)|(_ & P & _)]; cbn [astep] in P; rewrite E in P; cbn [fst] in P.
  { destruct i; try discriminate; congruence. }
  assert (P': i = fst (poll_next m (af_set_reader f (mk_areader (content (af_reader f)) [])))).
  { destruct (poll_next m (af_set_reader f (mk_areader (content (af_reader f)) []))) as (j, g). cbn in P |- *. congruence. }
  rewrite P'. rewrite ready_panic; auto; [|rewrite <- C; exact O].
  unfold looks_at. rewrite <- C. reflexivity.
Qed.

(** Polls for values. *)
Lemma item_panic m b f : 
  fst (item_next m b f) = SPanic -> m = Checked /\ af_rem f <> 0 /\ ~ 0 <= af_rem f - byte_size b < 2 ^ 64.
Proof.
  unfold item_next. destruct (Z.eqb_spec (af_rem f) 0) as [|NZ]; [discriminate|].
  unfold poll_read_exact.
  assert (NP: forall evs n got buf, fst (take_loop n got buf evs) <> Ready Panic).
  { clear. induction evs as [|[|[|a c]] evs IH]; intros n got buf; cbn [take_loop]; destruct (_ <=? _); try discriminate. apply IH. }
  specialize (NP (ar_events (af_reader f)) (byte_size b) [] (ar_buf (af_reader f))).
  destruct (take_loop (byte_size b) [] (ar_buf (af_reader f)) (ar_events (af_reader f))) as ([|[buf|e|]], s); cbn [fst] in *; try discriminate; [|congruence].
  unfold u64_result. destruct (andb (0 <=? af_rem f - byte_size b) (af_rem f - byte_size b <? 2 ^ 64)) eqn:U; cbn [fst]; [discriminate|].
  destruct m; [|discriminate]. intros _. split; auto. split; auto. lia.
Qed.

(** Series of polls: the bytes still to come are a rest of the bytes of the source. *)
Lemma step_rest m f op x f' : no_empty (af_reader f) -> 0 <= af_rem f -> astep m f op = (x, f') ->
  no_empty (af_reader f') /\ 0 <= af_rem f' /\ exists l, content (af_reader f) = l ++ content (af_reader f').
Proof.
  intros F N E. pose proof (step_rem m f op x f' F N E). destruct (pending x) eqn:P.
  - destruct (pending_drops m f op x f' F N E P) as (_ & B & C). split; [subst f'; apply no_empty_behind; auto|]. split; eauto.
  - destruct (step_ready m f op x f' F E P) as (F' & _ & C & _). eauto.
Qed.

Lemma octets_rest a b : octets (a ++ b) -> octets b.
Proof. intro H. apply Forall_app in H. tauto. Qed.

Lemma run_panic : forall ops f, octets (content (af_reader f)) -> no_empty (af_reader f) -> 0 <= af_rem f ->
  In (RNext APanic) (fst (arun Wrapping f ops)) ->
  exists l t primary, content (af_reader f) = l ++ t /\ panics_at t primary 0.
Proof.
  induction ops as [|op ops IH]; intros f O F N H; cbn [arun] in H; [destruct H|].
  destruct (astep Wrapping f op) as (x, f1) eqn:E. destruct (step_rest _ _ _ _ _ F N E) as (F1 & N1 & l & C).
  destruct (arun Wrapping f1 ops) as (rs, f2) eqn:R. destruct H as [->|H].
  - destruct op; cbn [astep] in E; [|destruct (item_next Wrapping b f) as (i, g); discriminate E].
    destruct (poll_next Wrapping f) as (i, g) eqn:P. inversion E; subst i g.
    destruct (proj1 (any_panic Wrapping f APanic f1 O F N P ltac:(discriminate)) eq_refl) as (t & LA & [Q|(D & _)]); [|discriminate].
    destruct LA as (_ & LA). destruct (af_start f).
    + exists [], t, true. auto.
    + destruct LA as (_ & sk & CC & _). exists sk, t, false. auto.
  - destruct (IH f1) as (l' & t & p & C' & Q); auto.
    + rewrite C in O. eapply octets_rest; eauto.
    + rewrite R. exact H.
    + exists (l ++ l'), t, p. rewrite C, C', app_assoc. auto.
Qed.

Lemma item_never : forall ops f, ~ In (RItem SPanic) (fst (arun Wrapping f ops)).
Proof.
  induction ops as [|op ops IH]; intros f H; cbn [arun] in H; [destruct H|].
  destruct (astep Wrapping f op) as (x, f1) eqn:E. specialize (IH f1). destruct (arun Wrapping f1 ops) as (rs, f2). cbn [fst] in *.
  destruct H as [->|H]; [|tauto]. destruct op; cbn [astep] in E; [destruct (poll_next Wrapping f) as (i, g); discriminate E|].
  pose proof (item_panic Wrapping b f) as P. destruct (item_next Wrapping b f) as (i, g). inversion E; subst. cbn in P.
  destruct (P eq_refl) as (D & _). discriminate.
Qed.

Lemma run_quiet f ops : octets (content (af_reader f)) -> no_empty (af_reader f) -> 0 <= af_rem f ->
  ~ In 39 (content (af_reader f)) -> ~ In (RNext APanic) (fst (arun Wrapping f ops)).
Proof.
  intros O F N A H. destruct (run_panic ops f O F N H) as (l & t & p & C & Q). rewrite C in O, A.
  apply (no_apostrophe t (octets_rest _ _ O)) with (primary := p) (q := 0); [|lia|exact Q].
  intro B. apply A. apply in_or_app. auto.
Qed.

(** The iteration over the HDUs of a file on a device that fails. *)

From Verif Require Import Base Text Card Reader Header Xtension Bytes Fits ImageIt Device SpecDevice DeviceProofs.

Lemma until_follows m f : exists N,
  (forall u r, consume_until_next_hdu m f = (Ok u, r) -> N = 2%nat) /\
  forall fs x r' fs', dev_consume_until_next_hdu m f fs = (x, r', fs') ->
    follows N fs fs' (x, r') (consume_until_next_hdu m f) (fun y => fst y = Err EIoOther).
Proof.
  unfold consume_until_next_hdu, dev_consume_until_next_hdu. cbv zeta.
  set (sk := let! consumed := u64_result m (rd_pos (f_reader f) - f_pos_du f) in
         let! skip := u64_result m (f_num_du f - consumed) in
         if f_num_du f mod 2880 =? 0 then Ok skip else u64_result m (skip + (2880 - f_num_du f mod 2880))).
  assert (P: forall fs x r' fs', dev_position fs (f_reader f) = (x, r', fs') ->
             follows 1 fs fs' (x, r') (Ok (rd_pos (f_reader f)), f_reader f) (fun y => fst y = Err EIoOther))
    by (intros fs x r' fs' H; exact (follows_call _ _ _ _ _ _ H)).
  exists (match sk with Ok _ => 2 | _ => 1 end)%nat. split.
  - intros u r. now destruct sk.
  - intros fs x r' fs' H. destruct (dev_position fs (f_reader f)) as ((y, r1), fs1) eqn:DP.
    destruct (P _ _ _ _ DP) as [(W & -> & E)|(j & J & F & -> & B)].
    + inversion E; subst. fold sk in H. destruct sk as [skip|e|].
      * apply (follows_seq 1 1); [assumption|]. exact (follows_call _ _ _ _ _ _ H).
      * inversion H; subst. left. auto.
      * inversion H; subst. left. auto.
    + cbn [fst] in B. subst y. inversion H; subst. right. exists j. cbn. repeat split; auto; try apply F.
      destruct sk; lia.
Qed.

Definition reported (y : item * fits) : Prop :=
  (fst y = IErr EIoOther \/ fst y = IErr EStatic) /\ f_error (snd y) = true.

Lemma next_follows m f : exists N,
  (forall h f', next m f = (IOk h, f') -> N = header_calls (f_start f) h) /\
  (forall f', next m f = (INone, f') -> N = (if f_error f then 0 else 3)%nat) /\
  forall fs i f' fs', dev_next m f fs = (i, f', fs') -> follows N fs fs' (i, f') (next m f) reported.
Proof.
  unfold next, dev_next. destruct (f_error f).
  { exists 0%nat. repeat split; try discriminate. intros fs i f' fs' H. inversion H; subst. apply follows_O. }
  destruct (f_start f) eqn:ST.
  - destruct (primary_follows m (f_reader f)) as (N & C1 & _ & C3). exists N.
    destruct (new_primary m (f_reader f)) as ((x, n), r).
    repeat split.
    + intros h f' H. unfold header_calls. destruct x as [g|e|]; cbv beta iota zeta in H; try (now inversion H).
      destruct (hdu_size m g); inversion H; subst. apply (C1 _ _ _ eq_refl).
    + intros f' H. destruct x as [g|e|]; try (now inversion H). destruct (hdu_size m g); inversion H.
    + intros fs i f' fs' H. destruct (dev_new_primary m fs (f_reader f)) as (((y, n2), r2), fs2) eqn:DN.
      destruct (C3 _ _ _ _ _ DN) as [(W & -> & E)|(j & J & F & -> & B)].
      * inversion E; subst. left. split; [assumption|].
        destruct x as [g|e|]; [destruct (hdu_size m g)|..]; inversion H; subst; auto.
      * right. exists j. cbn [fst] in B. destruct B as [->| ->]; inversion H; subst; (split; [assumption|split; [assumption|split; [reflexivity|unfold reported; cbn; auto]]]).
  - destruct (until_follows m f) as (N1 & A1 & A2).
    destruct (consume_until_next_hdu m f) as (x, r1) eqn:CU. destruct x as [u|e|].
    + rewrite (A1 _ _ eq_refl) in A2. clear A1.
      destruct (xtension_follows m r1) as (N & C1 & C2 & C3).
      exists (2 + N)%nat. destruct (new_xtension m r1) as ((x, n), r) eqn:NX. repeat split.
      * intros h f' H. unfold header_calls. destruct x as [g|e|]; cbv beta iota zeta in H; try (now inversion H).
        -- destruct (hdu_size m g); inversion H; subst. rewrite (C1 _ _ _ eq_refl). lia.
        -- destruct e; try (now inversion H). destruct (n =? 0); inversion H.
      * intros f' H. destruct x as [g|e|]; cbv beta iota zeta in H; try (now inversion H).
        -- destruct (hdu_size m g); inversion H.
        -- destruct e; try (now inversion H). destruct (n =? 0) eqn:N0; inversion H.
           rewrite (C2 r); [lia|]. f_equal. f_equal. lia.
      * intros fs i f' fs' H. destruct (dev_consume_until_next_hdu m f fs) as ((z, r0), fs0) eqn:DU.
        destruct (A2 _ _ _ _ DU) as [(W0 & -> & E)|(j & J & F & -> & B)].
        -- inversion E; subst. clear E.
           destruct (dev_new_xtension m (skipn 2 fs) r1) as (((y, n2), r2), fs2) eqn:DN.
           apply follows_seq; [assumption|].
           destruct (C3 _ _ _ _ _ DN) as [(W & -> & E)|(j & J & F & -> & B)].
           ++ inversion E; subst. left. split; [assumption|].
              destruct x as [g|e|]; cbv beta iota zeta in H |- *; [destruct (hdu_size m g)|destruct e; try destruct (n =? 0)|];
                inversion H; subst; auto.
           ++ right. exists j. cbn [fst] in B. destruct B as [->| ->]; inversion H; subst; (split; [assumption|split; [assumption|split; [reflexivity|unfold reported; cbn; auto]]]).
        -- cbn [fst] in B. subst z. inversion H; subst. right. exists j. unfold reported. cbn.
           repeat split; auto; try apply F. lia.
    + exists N1. repeat split; try (intros; discriminate).
      intros fs i f' fs' H. destruct (dev_consume_until_next_hdu m f fs) as ((z, r0), fs0) eqn:DU.
      destruct (A2 _ _ _ _ DU) as [(W0 & -> & E)|(j & J & F & -> & B)].
      * inversion E; subst. inversion H; subst. left. auto.
      * cbn [fst] in B. subst z. inversion H; subst. right. exists j. split; [assumption|split; [assumption|split; [reflexivity|unfold reported; cbn; auto]]].
    + exists N1. repeat split; try (intros; discriminate).
      intros fs i f' fs' H. destruct (dev_consume_until_next_hdu m f fs) as ((z, r0), fs0) eqn:DU.
      destruct (A2 _ _ _ _ DU) as [(W0 & -> & E)|(j & J & F & -> & B)].
      * inversion E; subst. inversion H; subst. left. auto.
      * cbn [fst] in B. subst z. inversion H; subst. right. exists j. split; [assumption|split; [assumption|split; [reflexivity|unfold reported; cbn; auto]]].
Qed.

Lemma run_error n m f : f_error f = true -> run m n f = (repeat INone n, f).
Proof. intro E. induction n as [|n IH]; cbn [run repeat]; auto. unfold next. rewrite E, IH. reflexivity. Qed.
Lemma dev_run_error n m f fs : f_error f = true -> dev_run m n f fs = (repeat INone n, f, fs).
Proof. intro E. induction n as [|n IH]; cbn [dev_run repeat]; auto. unfold dev_next. rewrite E, IH. reflexivity. Qed.

Lemma dev_run_items m n : forall f fs,
  let items := fst (fst (dev_run m n f fs)) in
  items = fst (run m n f) \/
  exists k e, (k < n)%nat /\ (e = EIoOther \/ e = EStatic) /\ (exists x, In (Some x) fs) /\
    items = firstn k (fst (run m n f)) ++ IErr e :: repeat INone (n - k - 1).
Proof.
  induction n as [|n IH]; intros f fs; cbn [run dev_run]; cbv zeta; [auto|].
  destruct (next_follows m f) as (N & _ & _ & C).
  destruct (dev_next m f fs) as ((i, f1), fs1) eqn:DN. specialize (C _ _ _ _ DN).
  destruct (next m f) as (i0, f0).
  destruct C as [(W & -> & E)|(j & J & F & -> & B)].
  - inversion E; subst. specialize (IH f0 (skipn N fs)). cbv zeta in IH.
    destruct (dev_run m n f0 (skipn N fs)) as ((l, f2), fs2). destruct (run m n f0) as (l0, f3). cbn [fst] in *.
    destruct IH as [->|(k & e & K & He & (x & X) & ->)]; [auto|]. right. exists (S k), e.
    repeat split; auto; try lia. exists x. rewrite <- (firstn_skipn N fs). apply in_or_app. auto.
  - destruct B as (B1 & B2). cbn [fst snd] in B1, B2. rewrite (dev_run_error n m f1 _ B2). cbn [fst].
    right. exists 0%nat. destruct F as (_ & x & X). apply nth_error_In in X.
    destruct B1 as [->| ->]; [exists EIoOther|exists EStatic]; repeat split; eauto; try lia;
      destruct (run m n f0); cbn [firstn fst app]; replace (S n - 0 - 1)%nat with n by lia; reflexivity.
Qed.

(** ** Images *)

From Verif Require Import SpecCard SpecXt SpecImage BytesProofs ImageProofs.

Lemma dev_it_follows s fs x s' fs' :
  dev_it_next s fs = (x, s', fs') ->
  follows (if it_idx s =? it_num s then 0 else 1) fs fs' (x, s') (it_next s) (fun y => fst y = None).
Proof.
  unfold dev_it_next, it_next. destruct (it_idx s =? it_num s); intro H.
  - inversion H; subst. apply follows_O.
  - unfold dev_read_be, read_be in *. destruct (dev_read fs (it_reader s) (byte_size (it_ty s))) as ((y, r), fs1) eqn:DR.
    destruct (follows_call _ _ _ _ _ _ DR) as [(W & -> & E)|(j & J & F & -> & B)].
    + left. cbv beta in E. rewrite <- E. split; [assumption|]. destruct y; inversion H; subst; auto.
    + right. exists j. cbn [fst] in B. subst y. inversion H; subst. cbn. auto.
Qed.

Lemma fault_unique fs i j : first_fault fs i -> first_fault fs j -> i = j.
Proof.
  assert (L: forall fs i j, (i < j)%nat -> first_fault fs i -> working j fs -> False).
  { clear. intros fs i j L (_ & k & E) W. unfold working in W. rewrite Forall_forall in W.
    assert (Some k = None); [|discriminate]. apply W.
    assert (N: nth_error (firstn j fs) i = Some (Some k)).
    { clear W. revert fs j L E. clear. induction i as [|i IH]; intros [|x fs] [|j] L E; try discriminate; try lia; cbn in *; auto.
      apply IH; auto. lia. }
    eapply nth_error_In; eauto. }
  intros A B. destruct (Nat.lt_trichotomy i j) as [H|[H|H]]; auto; exfalso.
  - eapply L; [exact H|exact A|apply B].
  - eapply L; [exact H|exact B|apply A].
Qed.
Lemma working_no_fault fs n j : working n fs -> first_fault fs j -> (n <= j)%nat.
Proof.
  intros W (Wj & k & E). destruct (Nat.le_gt_cases n j) as [H|H]; auto. exfalso.
  replace n with (j + (n - j))%nat in W by lia. apply working_add in W. destruct W as (_ & W).
  unfold working in W. replace (n - j)%nat with (S (n - j - 1)) in W by lia.
  destruct (skipn j fs) as [|x l] eqn:S; rewrite <- (Nat.add_0_r j), <- nth_error_skip, S in E; cbn in *; [discriminate|].
  inversion E; subst. inversion W. discriminate.
Qed.

Lemma dev_loop_values d o b values : stored d o b values ->
  forall n c fs, (c <= length values)%nat -> (length values <= c + n)%nat ->
  (working (length values - c) fs ->
     dev_loop n (at_value d o b (len values) (Z.of_nat c)) fs = skipn c values) /\
  (forall j, (j < length values - c)%nat -> first_fault fs j ->
     dev_loop n (at_value d o b (len values) (Z.of_nat c)) fs = firstn j (skipn c values)).
Proof.
  intro ST. induction n as [|n IH]; intros c fs C1 C2.
  - assert (c = length values) by lia. subst c. cbn [dev_loop]. rewrite skipn_all. split; auto. intros; lia.
  - cbn [dev_loop]. destruct (dev_it_next (at_value d o b (len values) (Z.of_nat c)) fs) as ((x, s'), fs') eqn:DN.
    pose proof (dev_it_follows _ _ _ _ _ DN) as F. unfold at_value in F at 1 2. cbn [it_idx it_num] in F.
    destruct (Nat.eq_dec c (length values)) as [->|NE].
    + rewrite skipn_all. split; [|intros; lia].
      unfold dev_it_next, at_value in DN. cbn [it_idx it_num] in DN. unfold len in DN. rewrite Z.eqb_refl in DN.
      inversion DN; subst. reflexivity.
    + assert (NZ: (Z.of_nat c =? len values) = false) by (unfold len; lia). rewrite NZ in F.
      destruct (nth_error values c) as [v|] eqn:V; [|apply nth_error_None in V; lia].
      pose proof (next_value _ _ _ _ _ _ ST V) as NV. rewrite NV in F.
      assert (SK: skipn c values = v :: skipn (S c) values).
      { revert V. clear. revert c. induction values as [|w l IH]; intros [|c] V; try discriminate.
        - cbn in *. now inversion V.
        - cbn [skipn]. apply IH. exact V. }
      destruct F as [(W & -> & E)|(j & J & F & -> & B)].
      * inversion E; subst x s'. destruct (IH (S c) (skipn 1 fs)) as (I1 & I2); [lia|lia|]. rewrite SK. split.
        -- intro Wk. rewrite I1; auto. replace (length values - c)%nat with (1 + (length values - S c))%nat in Wk by lia.
           now apply working_add in Wk.
        -- intros j J F. pose proof (working_no_fault _ _ _ W F) as J1. destruct j as [|j]; [lia|].
           cbn [firstn]. rewrite (I2 j); auto; [lia|].
           destruct F as (Wj & k & E2). replace (S j) with (1 + j)%nat in Wj by lia. apply working_add in Wj. destruct Wj as (_ & Wj).
           split; auto. exists k. rewrite nth_error_skip. exact E2.
      * cbn [fst] in B. subst x. assert (j = 0)%nat by lia. subst j. split.
        -- intro Wk. pose proof (working_no_fault _ _ _ Wk F). lia.
        -- intros j J2 F2. rewrite (fault_unique _ _ _ F2 F). reflexivity.
Qed.

Lemma dev_pixels m d f fs h f' fs' im :
  octets d -> rd_data (f_reader f) = d -> 0 <= rd_pos (f_reader f) ->
  dev_next m f fs = (IOk h, f', fs') -> h_xt h = XtImage im -> size_fits im ->
  h_offset h + width (im_bitpix im) * pixel_count im <= len d ->
  exists id values, get_image m f' im = Ok id /\
    len values = pixel_count im /\ stored d (h_offset h) (im_bitpix im) values /\
    forall n, (length values <= n)%nat ->
      (working (length values) fs' -> dev_loop n (id_pixels id) fs' = values) /\
      (forall j, (j < length values)%nat -> first_fault fs' j -> dev_loop n (id_pixels id) fs' = firstn j values).
Proof.
  intros O Hd P DN X SF FIT.
  assert (N: next m f = (IOk h, f')).
  { destruct (next_follows m f) as (N & _ & _ & C). destruct (C _ _ _ _ DN) as [(_ & _ & E)|(j & _ & _ & _ & B)]; auto.
    destruct B as ([B|B] & _); discriminate. }
  destruct (after_next m d f h f' im O Hd P N X) as (n & IN & NR & HO & F' & IP & G).
  destruct (exact_size m im n IP SF IN) as (EN & PC).
  set (b := im_bitpix im) in *. pose proof (width_pos b) as W.
  destruct (stored_exists d (h_offset h) b (Z.to_nat (pixel_count im)) O) as (values & LV & ST); [lia|lia|].
  eexists. exists values. split; [exact G|].
  assert (LV': len values = pixel_count im) by (unfold len; lia).
  split; auto. split; auto. intros t T. cbn [id_pixels].
  assert (NE: it_new b (mk_reader d (h_offset h)) n = at_value d (h_offset h) b (len values) (Z.of_nat 0)).
  { unfold it_new, at_value. rewrite byte_size_width, EN, LV'. f_equal; [f_equal; lia|].
    rewrite Z.mul_comm. apply Z.div_mul. lia. }
  rewrite NE. destruct (dev_loop_values d (h_offset h) b values ST t 0%nat fs') as (A & B); [lia|lia|].
  rewrite Nat.sub_0_r in A, B. auto.
Qed.

Lemma value_follows m s idx : exists N,
  (forall v s', read_value m s idx = (Ok v, s') -> N = 2%nat) /\
  forall fs x s' fs', dev_read_value m s fs idx = (x, s', fs') ->
    follows N fs fs' (x, s') (read_value m s idx) (fun y => failed (fst y)).
Proof.
  unfold dev_read_value, read_value. destruct (it_num s <=? idx) eqn:LE.
  { exists 0%nat. split; [discriminate|]. intros fs x s' fs' H. inversion H; subst. apply follows_O. }
  destruct (let! d := i64_result m (as_i64 idx - as_i64 (it_idx s)) in i64_result m (d * byte_size (it_ty s))) as [off|e|].
  - assert (P: forall fs x r' fs', dev_seek fs (it_reader s) off = (x, r', fs') ->
             follows 1 fs fs' (x, r') (seek_relative (it_reader s) off) (fun y => fst y = Err EIoOther))
      by (intros fs x r' fs' H; exact (follows_call _ _ _ _ _ _ H)).
    assert (NZ: (idx =? it_num s) = false) by lia.
    exists (match fst (seek_relative (it_reader s) off) with Ok _ => 2 | _ => 1 end)%nat.
    destruct (seek_relative (it_reader s) off) as (y, r). cbn [fst]. split.
    + intros v s' H. destruct y; try discriminate; reflexivity.
    + intros fs x s' fs' H. destruct (dev_seek fs (it_reader s) off) as ((z, r1), fs1) eqn:DS.
      destruct (P _ _ _ _ DS) as [(W & -> & E)|(j & J & F & -> & B)].
      * inversion E; subst z r1. destruct y as [u|e|].
        -- apply (follows_seq 1 1); [assumption|].
           destruct (dev_it_next (mk_it (it_ty s) r (it_num s) idx) (skipn 1 fs)) as ((w, s2), fs2) eqn:DN.
           pose proof (dev_it_follows _ _ _ _ _ DN) as F. cbn [it_idx it_num] in F. rewrite NZ in F.
           destruct F as [(W2 & -> & E2)|(j & J & F & -> & B)].
           ++ left. rewrite <- E2. split; [assumption|]. destruct w; inversion H; subst; auto.
           ++ right. exists j. cbn [fst] in B. subst w. inversion H; subst. unfold failed. cbn. auto.
        -- inversion H; subst. left. auto.
        -- inversion H; subst. left. auto.
      * cbn [fst] in B. subst z. inversion H; subst. right. exists j. unfold failed. cbn [fst].
        split; [destruct y; lia|auto].
  - exists 0%nat. split; [discriminate|]. intros fs x s' fs' H. inversion H; subst. apply follows_O.
  - exists 0%nat. split; [discriminate|]. intros fs x s' fs' H. inversion H; subst. apply follows_O.
Qed.

(** ** The two outcomes of [follows], by what the device does *)

Lemma follows_iff {A} N fs fs' (dev plain : A) bad :
  follows N fs fs' dev plain bad ->
  (working N fs -> dev = plain /\ fs' = skipn N fs) /\
  (forall j, (j < N)%nat -> first_fault fs j -> bad dev /\ fs' = skipn (S j) fs).
Proof.
  intros [(W & -> & ->)|(i & I & F & -> & B)]; split; auto.
  - intros j J F. pose proof (working_no_fault _ _ _ W F). lia.
  - intro W. pose proof (working_no_fault _ _ _ W F). lia.
  - intros j J F2. now rewrite (fault_unique _ _ _ F2 F).
Qed.

Lemma next_device m f : exists N,
  (forall h f', next m f = (IOk h, f') -> N = header_calls (f_start f) h) /\
  (forall f', next m f = (INone, f') -> N = (if f_error f then 0 else 3)%nat) /\
  forall fs,
    (working N fs -> dev_next m f fs = (fst (next m f), snd (next m f), skipn N fs)) /\
    (forall j, (j < N)%nat -> first_fault fs j ->
       exists e f', dev_next m f fs = (IErr e, f', skipn (S j) fs) /\ (e = EIoOther \/ e = EStatic) /\ f_error f' = true).
Proof.
  destruct (next_follows m f) as (N & A & B & C). exists N. split; [exact A|]. split; [exact B|]. intro fs.
  destruct (dev_next m f fs) as ((i, f1), fs1) eqn:DN. destruct (follows_iff _ _ _ _ _ _ (C _ _ _ _ DN)) as (F1 & F2). split.
  - intro W. destruct (F1 W) as (<- & ->). reflexivity.
  - intros j J F. destruct (F2 j J F) as ((R & E) & ->). cbn [fst snd] in *.
    destruct R as [->| ->]; eauto 6.
Qed.

Lemma value_device m s idx : exists N,
  (forall v s', read_value m s idx = (Ok v, s') -> N = 2%nat) /\
  forall fs,
    (working N fs -> dev_read_value m s fs idx = (fst (read_value m s idx), snd (read_value m s idx), skipn N fs)) /\
    (forall j, (j < N)%nat -> first_fault fs j ->
       exists e s', dev_read_value m s fs idx = (Err e, s', skipn (S j) fs) /\ (e = EIoOther \/ e = EStatic)).
Proof.
  destruct (value_follows m s idx) as (N & A & C). exists N. split; [exact A|]. intro fs.
  destruct (dev_read_value m s fs idx) as ((i, f1), fs1) eqn:DN. destruct (follows_iff _ _ _ _ _ _ (C _ _ _ _ DN)) as (F1 & F2). split.
  - intro W. destruct (F1 W) as (<- & ->). reflexivity.
  - intros j J F. destruct (F2 j J F) as (R & ->). cbn [fst snd] in *.
    destruct R as [->| ->]; eauto 6.
Qed.

(** Asynchronous reading from sources that fail, against the same sources that are late. *)

From Verif Require Import Base Utf8 Text Card Reader Header Xtension Fits Bytes Async AsyncDevice SpecAsyncDevice.

Lemma takes_refl s : takes_chunks s s.
Proof. exists []. auto. Qed.
Lemma takes_trans s t u : takes_chunks s t -> takes_chunks t u -> takes_chunks s u.
Proof. intros (a & A & E) (b & B & F). exists (a ++ b). rewrite Forall_app, E, F, app_assoc. auto. Qed.
Lemma stops_trans e s t u : takes_chunks s t -> stops_at e t u -> stops_at e s u.
Proof. intros (a & A & E) (b & B & F). exists (a ++ b). rewrite Forall_app, E, F, <- app_assoc. auto. Qed.

(** How a poll of the failing source goes, compared with the poll of the late one. *)
Definition sim {A} (s s' : freader) (x y : poll A) : Prop :=
  (takes_chunks s s' /\ y <> Pending /\ x = y) \/
  (stops_at FWait s s' /\ y = Pending /\ x = Pending) \/
  (stops_at FFail s s' /\ y = Pending /\ exists e, io_error e /\ x = Ready (Err e)).

Lemma sim_trans {A} s t u (x y : poll A) : takes_chunks s t -> sim t u x y -> sim s u x y.
Proof.
  intros T [(H & R)|[(H & R)|(H & R)]]; [left|right; left|right; right]; (split; [|exact R]).
  - eapply takes_trans; eauto.
  - eapply stops_trans; eauto.
  - eapply stops_trans; eauto.
Qed.
Lemma sim_now {A} s (x : poll A) : x <> Pending -> sim s s x x.
Proof. left. split; [apply takes_refl|auto]. Qed.

Ltac one_event ev := exists [ev]; split; [constructor; [eexists; reflexivity|constructor]|reflexivity].

Lemma fill_sim s : exists x y s', fpoll_fill s = (x, s') /\ poll_fill (patient_source s) = (y, patient_source s') /\ sim s s' x y.
Proof.
  destruct s as (buf, evs). unfold fpoll_fill, poll_fill, patient_source. cbn [fr_buf fr_events ar_buf ar_events].
  destruct buf as [|b buf].
  - destruct evs as [|[|c|] evs]; cbn [map patient_event].
    + do 3 eexists. split; [reflexivity|]. split; [reflexivity|]. apply sim_now. discriminate.
    + do 3 eexists. split; [reflexivity|]. split; [reflexivity|]. right; left. split; [|auto]. exists []. auto.
    + do 3 eexists. split; [reflexivity|]. split; [reflexivity|]. left. split; [|split; [discriminate|reflexivity]].
      one_event (FChunk c).
    + do 3 eexists. split; [reflexivity|]. split; [reflexivity|]. right; right. split; [exists []; auto|].
      split; auto. exists EIoOther. unfold io_error. auto.
  - do 3 eexists. split; [reflexivity|]. split; [reflexivity|]. apply sim_now. discriminate.
Qed.

Lemma take_sim evs : forall n got buf, exists x y s', ftake_loop n got buf evs = (x, s') /\
  take_loop n got buf (map patient_event evs) = (y, patient_source s') /\ sim (mk_freader buf evs) s' x y.
Proof.
  induction evs as [|ev evs IH]; intros n got buf; cbn [ftake_loop take_loop map].
  - destruct (n <=? len buf).
    + do 3 eexists. split; [reflexivity|]. split; [reflexivity|]. left. split; [|split; [discriminate|reflexivity]]. exists []. auto.
    + do 3 eexists. split; [reflexivity|]. split; [reflexivity|]. left. split; [|split; [discriminate|reflexivity]]. exists []. auto.
  - destruct (n <=? len buf).
    + do 3 eexists. split; [reflexivity|]. split; [reflexivity|]. left. split; [|split; [discriminate|reflexivity]]. exists []. auto.
    + destruct ev as [|c|]; cbn [patient_event].
      * do 3 eexists. split; [reflexivity|]. split; [reflexivity|]. right; left. split; [|auto]. exists []. auto.
      * destruct c as [|b c].
        -- do 3 eexists. split; [reflexivity|]. split; [reflexivity|]. left. split; [|split; [discriminate|reflexivity]].
           one_event (FChunk []).
        -- destruct (IH (n - len buf) (got ++ buf) (b :: c)) as (x & y & s' & E1 & E2 & S).
           exists x, y, s'. split; [exact E1|]. split; [exact E2|]. eapply sim_trans; [|exact S].
           one_event (FChunk (b :: c)).
      * do 3 eexists. split; [reflexivity|]. split; [reflexivity|]. right; right. split; [exists []; auto|].
        split; auto. exists EIoOther. unfold io_error. auto.
Qed.
Lemma read_sim s n : exists x y s', fpoll_read_exact s n = (x, s') /\
  poll_read_exact (patient_source s) n = (y, patient_source s') /\ sim s s' x y.
Proof. destruct s as (buf, evs). apply take_sim. Qed.

Lemma skip_sim evs : forall n buf, exists x y s', fskip_loop n buf evs = (x, s') /\
  skip_loop n buf (map patient_event evs) = (y, patient_source s') /\ sim (mk_freader buf evs) s' x y.
Proof.
  induction evs as [|ev evs IH]; intros n buf; cbn [fskip_loop skip_loop map].
  - destruct ((1 <=? len buf) && (n <=? len buf)).
    + do 3 eexists. split; [reflexivity|]. split; [reflexivity|]. left. split; [|split; [discriminate|reflexivity]]. exists []. auto.
    + do 3 eexists. split; [reflexivity|]. split; [reflexivity|]. left. split; [|split; [discriminate|reflexivity]]. exists []. auto.
  - destruct ((1 <=? len buf) && (n <=? len buf)).
    + do 3 eexists. split; [reflexivity|]. split; [reflexivity|]. left. split; [|split; [discriminate|reflexivity]]. exists []. auto.
    + destruct ev as [|c|]; cbn [patient_event].
      * do 3 eexists. split; [reflexivity|]. split; [reflexivity|]. right; left. split; [|auto]. exists []. auto.
      * destruct c as [|b c].
        -- do 3 eexists. split; [reflexivity|]. split; [reflexivity|]. left. split; [|split; [discriminate|reflexivity]].
           one_event (FChunk []).
        -- destruct (IH (n - len buf) (b :: c)) as (x & y & s' & E1 & E2 & S).
           exists x, y, s'. split; [exact E1|]. split; [exact E2|]. eapply sim_trans; [|exact S].
           one_event (FChunk (b :: c)).
      * do 3 eexists. split; [reflexivity|]. split; [reflexivity|]. right; right. split; [exists []; auto|].
        split; auto. exists EStatic. unfold io_error. auto.
Qed.
Lemma poll_skip_sim s n : exists x y s', fpoll_skip s n = (x, s') /\
  poll_skip (patient_source s) n = (y, patient_source s') /\ sim s s' x y.
Proof. destruct s as (buf, evs). apply skip_sim. Qed.

(** Results that only come with an error or a wait are carried along. *)
Lemma sim_map {A B} s s' (x y : poll A) (k : poll A -> poll B) :
  sim s s' x y -> k Pending = Pending -> (forall e, io_error e -> exists e', io_error e' /\ k (Ready (Err e)) = Ready (Err e')) ->
  (y <> Pending -> k y <> Pending) -> sim s s' (k x) (k y).
Proof.
  intros [(H & N & ->)|[(H & -> & ->)|(H & -> & e & He & ->)]] KP KE KN.
  - left. auto.
  - right; left. rewrite KP. auto.
  - right; right. rewrite KP. destruct (KE e He) as (e' & He' & ->). eauto 6.
Qed.

Ltac now_done := do 3 eexists; split; [reflexivity|]; split; [reflexivity|]; left; split; [assumption || apply takes_refl|split; [discriminate|reflexivity]].

Lemma loop_sim fuel : forall s n acc, exists x y n1 n2 s', fconsume_loop fuel s n acc = (x, n1, s') /\
  aconsume_loop fuel (patient_source s) n acc = (y, n2, patient_source s') /\ sim s s' x y /\ (y <> Pending -> n1 = n2).
Proof.
  induction fuel as [|f IH]; intros s n acc; cbn [fconsume_loop aconsume_loop].
  - do 5 eexists. split; [reflexivity|]. split; [reflexivity|]. split; [apply sim_now; discriminate|auto].
  - destruct (read_sim s 80) as (x & y & s' & -> & -> & [(T & N & ->)|[(H & -> & ->)|(H & -> & e & He & ->)]]).
    + assert (DONE: forall (r : res (list card)) (k : Z), exists x y n1 n2 s0, (Ready r, k, s') = (x, n1, s0) /\
                (Ready r, k, patient_source s') = (y, n2, patient_source s0) /\ sim s s0 x y /\ (y <> Pending -> n1 = n2)).
      { intros r k. exists (Ready r), (Ready r), k, k, s'. repeat split; auto. left. split; [exact T|split; [discriminate|reflexivity]]. }
      assert (GO: forall k c, exists x y n1 n2 s0, fconsume_loop f s' k c = (x, n1, s0) /\
                aconsume_loop f (patient_source s') k c = (y, n2, patient_source s0) /\ sim s s0 x y /\ (y <> Pending -> n1 = n2)).
      { intros k c. destruct (IH s' k c) as (x & z & n1 & n2 & s0 & E1 & E2 & S & Q). exists x, z, n1, n2, s0.
        repeat split; auto. eapply sim_trans; eauto. }
      destruct y as [|[buf|e|]]; [congruence| |apply DONE|apply DONE].
      destruct (parse_card buf) as [c|e|]; [|apply GO|apply DONE].
      destruct c; first [apply DONE|apply GO].
    + do 5 eexists. split; [reflexivity|]. split; [reflexivity|]. split; [right; left; auto|]. congruence.
    + do 5 eexists. split; [reflexivity|]. split; [reflexivity|]. split; [|congruence].
      right; right. split; [exact H|]. split; auto. exists EStatic. unfold io_error. auto.
Qed.

Lemma content_length s : length (content (patient_source s)) = length (fcontent s).
Proof.
  destruct s as (buf, evs). unfold content, fcontent, patient_source. cbn [ar_buf ar_events fr_buf fr_events].
  rewrite !app_length. f_equal. induction evs as [|e evs IH]; auto. cbn [map flat_map].
  rewrite !app_length, IH. destruct e; reflexivity.
Qed.
Lemma cards_sim s : exists x y n1 n2 s', fconsume_cards s = (x, n1, s') /\
  aconsume_cards (patient_source s) = (y, n2, patient_source s') /\ sim s s' x y /\ (y <> Pending -> n1 = n2).
Proof. unfold fconsume_cards, aconsume_cards. rewrite content_length. apply loop_sim. Qed.

Lemma hdu_sim m kind k s n cards : exists x y s', fhdu_new m kind k s n cards = (x, s') /\
  ahdu_new m kind k (patient_source s) n cards = (y, patient_source s') /\ sim s s' x y.
Proof.
  unfold fhdu_new, ahdu_new.
  destruct (let! vs := process_cards m cards in let! x := xt_parse m k vs in Ok (vs, x)) as [(vs, z)|e|]; try now_done.
  destruct (n mod 2880 =? 0); [now_done|].
  destruct (read_sim s (2880 - n mod 2880)) as (x & y & s' & -> & -> & [(T & N & ->)|[(H & -> & ->)|(H & -> & e & He & ->)]]).
  - destruct y as [|[buf|e|]]; [congruence|now_done|now_done|now_done].
  - do 3 eexists. split; [reflexivity|]. split; [reflexivity|]. right; left. auto.
  - do 3 eexists. split; [reflexivity|]. split; [reflexivity|]. right; right. split; [exact H|]. split; auto.
    exists EStatic. unfold io_error. auto.
Qed.

Definition opens_alike (fk : freader -> Z -> list card -> poll ahdu * freader) (ak : areader -> Z -> list card -> poll ahdu * areader) :=
  forall s n cards, exists x y s', fk s n cards = (x, s') /\ ak (patient_source s) n cards = (y, patient_source s') /\ sim s s' x y.

Lemma header_sim fk ak s : opens_alike fk ak ->
  exists x y s',
   match fconsume_cards s with
   | (Ready (Ok cards), n, s') => fk s' n cards
   | (Ready (Err e), _, s') => (Ready (Err e), s')
   | (Ready Panic, _, s') => (Ready Panic, s')
   | (Pending, _, s') => (Pending, s')
   end = (x, s') /\
   match aconsume_cards (patient_source s) with
   | (Ready (Ok cards), n, s') => ak s' n cards
   | (Ready (Err e), _, s') => (Ready (Err e), s')
   | (Ready Panic, _, s') => (Ready Panic, s')
   | (Pending, _, s') => (Pending, s')
   end = (y, patient_source s') /\ sim s s' x y.
Proof.
  intro K. destruct (cards_sim s) as (x & y & n1 & n2 & s' & -> & -> & S & Q).
  destruct S as [(T & N & ->)|[(H & -> & ->)|(H & -> & e & He & ->)]].
  - rewrite (Q N). destruct y as [|[cards|e|]]; [congruence| |now_done|now_done].
    destruct (K s' n2 cards) as (x & z & s0 & -> & -> & S). do 3 eexists. split; [reflexivity|]. split; [reflexivity|].
    eapply sim_trans; eauto.
  - do 3 eexists. split; [reflexivity|]. split; [reflexivity|]. right; left. auto.
  - do 3 eexists. split; [reflexivity|]. split; [reflexivity|]. right; right. eauto 6.
Qed.

Lemma xtension_sim m s : exists x y s', fnew_xtension m s = (x, s') /\
  anew_xtension m (patient_source s) = (y, patient_source s') /\ sim s s' x y.
Proof.
  unfold fnew_xtension, anew_xtension.
  apply (header_sim (fun s' n cards => match cards with
    | [] => (Ready Panic, s')
    | CXtension XImage _ :: _ => fhdu_new m HImage XImage s' n cards
    | CXtension XBinTable _ :: _ => fhdu_new m HBinTable XBinTable s' n cards
    | CXtension XAsciiTable _ :: _ => fhdu_new m HAsciiTable XAsciiTable s' n cards
    | _ :: _ => (Ready (Err EStatic), s')
    end) (fun s' n cards => match cards with
    | [] => (Ready Panic, s')
    | CXtension XImage _ :: _ => ahdu_new m HImage XImage s' n cards
    | CXtension XBinTable _ :: _ => ahdu_new m HBinTable XBinTable s' n cards
    | CXtension XAsciiTable _ :: _ => ahdu_new m HAsciiTable XAsciiTable s' n cards
    | _ :: _ => (Ready (Err EStatic), s')
    end)).
  intros t n [|c cards]; [now_done|]. destruct c; try now_done. destruct x; apply hdu_sim.
Qed.
Lemma primary_sim m s : exists x y s', fnew_primary m s = (x, s') /\
  anew_primary m (patient_source s) = (y, patient_source s') /\ sim s s' x y.
Proof.
  unfold fnew_primary, anew_primary.
  apply (header_sim (fun s' n cards => match cards with
    | [] => (Ready Panic, s')
    | CValue _ (VLogical true _) :: _ => fhdu_new m HPrimary XImage s' n cards
    | _ :: _ => (Ready (Err EStatic), s')
    end) (fun s' n cards => match cards with
    | [] => (Ready Panic, s')
    | CValue _ (VLogical true _) :: _ => ahdu_new m HPrimary XImage s' n cards
    | _ :: _ => (Ready (Err EStatic), s')
    end)).
  intros t n [|c cards]; [now_done|]. destruct c; try now_done.
  match goal with v : value |- _ => destruct v; try now_done end.
  match goal with v : bool |- _ => destruct v; try now_done end. apply hdu_sim.
Qed.

Lemma until_sim f : exists x y s', fconsume_until f = (x, s') /\
  aconsume_until (patient f) = (y, patient_source s') /\ sim (ff_reader f) s' x y.
Proof.
  unfold fconsume_until, aconsume_until, patient. cbn [af_rem af_num af_reader].
  assert (H1: exists x y s1, (if 0 <? ff_rem f then fpoll_skip (ff_reader f) (ff_rem f) else (Ready (Ok tt), ff_reader f)) = (x, s1) /\
     (if 0 <? ff_rem f then poll_skip (patient_source (ff_reader f)) (ff_rem f) else (Ready (Ok tt), patient_source (ff_reader f)))
       = (y, patient_source s1) /\ sim (ff_reader f) s1 x y).
  { destruct (0 <? ff_rem f); [apply poll_skip_sim|now_done]. }
  destruct H1 as (x & y & s1 & -> & -> & [(T1 & N & ->)|[(H & -> & ->)|(H & -> & e & He & ->)]]).
  - destruct y as [|[u|e|]]; [congruence| |now_done|now_done].
    assert (H2: exists x y s2, (if ff_num f mod 2880 =? 0 then (Ready (Ok []), s1) else fpoll_read_exact s1 (2880 - ff_num f mod 2880)) = (x, s2) /\
       (if ff_num f mod 2880 =? 0 then (Ready (Ok []), patient_source s1) else poll_read_exact (patient_source s1) (2880 - ff_num f mod 2880))
         = (y, patient_source s2) /\ sim (ff_reader f) s2 x y).
    { destruct (ff_num f mod 2880 =? 0); [now_done|].
      destruct (read_sim s1 (2880 - ff_num f mod 2880)) as (x & y & s2 & -> & -> & S). do 3 eexists. split; [reflexivity|].
      split; [reflexivity|]. eapply sim_trans; eauto. }
    destruct H2 as (x & y & s2 & -> & -> & [(T2 & N2 & ->)|[(H & -> & ->)|(H & -> & e & He & ->)]]).
    + destruct y as [|[u2|e|]]; [congruence| |destruct e; now_done|now_done].
      destruct (fill_sim s2) as (x & y & s3 & -> & -> & [(T3 & N3 & ->)|[(H & -> & ->)|(H & -> & e & He & ->)]]).
      * pose proof (takes_trans _ _ _ T2 T3). destruct y as [|[u3|e|]]; [congruence|now_done|now_done|now_done].
      * do 3 eexists. split; [reflexivity|]. split; [reflexivity|]. right; left. split; auto. eapply stops_trans; eauto.
      * do 3 eexists. split; [reflexivity|]. split; [reflexivity|]. right; right. split; [eapply stops_trans; eauto|]. eauto.
    + do 3 eexists. split; [reflexivity|]. split; [reflexivity|]. right; left. auto.
    + destruct He as [->| ->]; (do 3 eexists; split; [reflexivity|]; split; [reflexivity|]; right; right; split; [exact H|]; split; [reflexivity|];
        eexists; split; [|reflexivity]; unfold io_error; auto).
  - do 3 eexists. split; [reflexivity|]. split; [reflexivity|]. right; left. auto.
  - do 3 eexists. split; [reflexivity|]. split; [reflexivity|]. right; right. eauto 6.
Qed.

(** ** The stream of HDUs and the streams of values *)

Definition next_alike (m : mode) (f f' : ffits) (i : aitem) : Prop :=
  (takes_chunks (ff_reader f) (ff_reader f') /\ i <> APending /\ poll_next m (patient f) = (i, patient f')) \/
  (stops_at FWait (ff_reader f) (ff_reader f') /\ i = APending /\ poll_next m (patient f) = (APending, patient f')) \/
  (stops_at FFail (ff_reader f) (ff_reader f') /\ (exists e, io_error e /\ i = AErr e) /\
   ff_error f' = true /\ ff_rem f' = ff_rem f /\
   poll_next m (patient f) = (APending, af_set_reader (patient f) (patient_source (ff_reader f')))).

Lemma next_sim m f i f' : fpoll_next m f = (i, f') -> next_alike m f f' i.
Proof.
  destruct f as (st, rem, num, err, rd). unfold next_alike, fpoll_next, poll_next, patient, ff_set_reader, af_set_reader.
  cbn [af_error af_start af_rem af_num af_reader ff_error ff_start ff_rem ff_num ff_reader].
  destruct err.
  { intro H. inversion H; subst. left. split; [apply takes_refl|]. split; [discriminate|reflexivity]. }
  assert (GO: forall (x y : poll ahdu) s, sim rd s x y -> forall
     (H : (let '(i0, s0) := (match x with Ready (Ok h) => (AOk h, s) | Ready (Err e) => (AErr e, s) | Ready Panic => (APanic, s) | Pending => (APending, s) end) in
      match i0 with
      | AOk h => match xt_num_bytes m (a_xt h) with
                 | Ok n => (AOk h, mk_ffits false n n false s0)
                 | _ => (APanic, mk_ffits false rem num false s0) end
      | AErr e => (AErr e, mk_ffits false rem num true s0)
      | ANone => (ANone, mk_ffits false rem num false s0)
      | APending => (APending, mk_ffits st rem num false s0)
      | APanic => (APanic, mk_ffits st rem num false s0)
      end) = (i, f')) plain
     (P : plain = (let '(i0, s0) := (match y with Ready (Ok h) => (AOk h, patient_source s) | Ready (Err e) => (AErr e, patient_source s) | Ready Panic => (APanic, patient_source s) | Pending => (APending, patient_source s) end) in
      match i0 with
      | AOk h => match xt_num_bytes m (a_xt h) with
                 | Ok n => (AOk h, mk_afits false n n false s0)
                 | _ => (APanic, mk_afits false rem num false s0) end
      | AErr e => (AErr e, mk_afits false rem num true s0)
      | ANone => (ANone, mk_afits false rem num false s0)
      | APending => (APending, mk_afits st rem num false s0)
      | APanic => (APanic, mk_afits st rem num false s0)
      end)),
     (takes_chunks rd (ff_reader f') /\ i <> APending /\
        plain = (i, mk_afits (ff_start f') (ff_rem f') (ff_num f') (ff_error f') (patient_source (ff_reader f')))) \/
     (stops_at FWait rd (ff_reader f') /\ i = APending /\
        plain = (APending, mk_afits (ff_start f') (ff_rem f') (ff_num f') (ff_error f') (patient_source (ff_reader f')))) \/
     (stops_at FFail rd (ff_reader f') /\ (exists e, io_error e /\ i = AErr e) /\ ff_error f' = true /\ ff_rem f' = rem /\
        plain = (APending, mk_afits st rem num false (patient_source (ff_reader f'))))).
  { intros x y s S H plain P. destruct S as [(T & N & ->)|[(T & -> & ->)|(T & -> & e & He & ->)]].
    - left. destruct y as [|[h|e|]]; [congruence|destruct (xt_num_bytes m (a_xt h))|..]; inversion H; subst; cbn;
        (split; [assumption|split; [discriminate|reflexivity]]).
    - right; left. inversion H; subst. cbn. auto.
    - right; right. inversion H; subst. cbn. eauto 8. }
  destruct st.
  - destruct (primary_sim m rd) as (x & y & s & E1 & E2 & S). rewrite E1, E2. intro H. eapply GO; eauto.
  - destruct (until_sim (mk_ffits false rem num false rd)) as (x & y & s & E1 & E2 & S).
    unfold patient in E2. cbn [ff_error ff_start ff_rem ff_num ff_reader] in *. rewrite E1, E2. intro H.
    destruct S as [(T & N & ->)|[(T & -> & ->)|(T & -> & e & He & ->)]].
    + destruct y as [|[eof|e|]]; [congruence| | |].
      * destruct eof.
        -- inversion H; subst. left. cbn. split; [assumption|]. split; [discriminate|reflexivity].
        -- destruct (xtension_sim m s) as (x & y & s2 & E3 & E4 & S2). rewrite E3 in H. rewrite E4.
           eapply GO; [|exact H|reflexivity]. eapply sim_trans; eauto.
      * inversion H; subst. left. cbn. split; [assumption|]. split; [discriminate|reflexivity].
      * inversion H; subst. left. cbn. split; [assumption|]. split; [discriminate|reflexivity].
    + inversion H; subst. right; left. cbn. auto.
    + inversion H; subst. right; right. cbn. eauto 8.
Qed.

Definition item_alike (m : mode) (b : bitpix) (f f' : ffits) (i : sitem) : Prop :=
  (takes_chunks (ff_reader f) (ff_reader f') /\ i <> SPending /\ item_next m b (patient f) = (i, patient f')) \/
  (stops_at FWait (ff_reader f) (ff_reader f') /\ i = SPending /\ item_next m b (patient f) = (SPending, patient f')) \/
  (stops_at FFail (ff_reader f) (ff_reader f') /\ i = SErr EIoOther /\ item_next m b (patient f) = (SPending, patient f')).

Lemma read_kind s n x s' : fpoll_read_exact s n = (x, s') -> forall e, x = Ready (Err e) -> e = EEof \/ e = EIoOther.
Proof.
  unfold fpoll_read_exact. generalize (@nil Z) (fr_buf s). generalize (fr_events s) as evs. intro evs. revert n.
  induction evs as [|ev evs IH]; intros n got buf; cbn [ftake_loop]; destruct (n <=? len buf); intros H e ->;
    try (inversion H; subst; auto; fail).
  destruct ev as [|c|]; [discriminate| |inversion H; auto].
  destruct c as [|a c]; [inversion H; auto|]. eapply IH; [exact H|reflexivity].
Qed.

Lemma item_sim m b f i f' : fitem_next m b f = (i, f') -> item_alike m b f f' i.
Proof.
  destruct f as (st, rem, num, err, rd). unfold item_alike, fitem_next, item_next, patient, ff_set_reader, af_set_reader.
  cbn [af_error af_start af_rem af_num af_reader ff_error ff_start ff_rem ff_num ff_reader].
  destruct (rem =? 0).
  { intro H. inversion H; subst. left. split; [apply takes_refl|]. split; [discriminate|reflexivity]. }
  destruct (read_sim rd (byte_size b)) as (x & y & s & E1 & E2 & S). pose proof (read_kind _ _ _ _ E1) as RK. rewrite E1, E2.
  intro H. destruct S as [(T & N & ->)|[(T & -> & ->)|(T & -> & e & He & ->)]].
  - left. destruct y as [|[buf|e|]]; [congruence|destruct (u64_result m (rem - byte_size b))|..]; inversion H; subst; cbn;
      (split; [assumption|split; [discriminate|reflexivity]]).
  - right; left. inversion H; subst. cbn. auto.
  - right; right. inversion H; subst. cbn. split; [assumption|]. split; [|reflexivity].
    destruct (RK _ eq_refl) as [->| ->]; auto. destruct He; discriminate.
Qed.

Lemma over_run m : forall ops f, ff_error f = true -> Forall over (fst (frun m f ops)).
Proof.
  induction ops as [|op ops IH]; intros f E; cbn [frun]; [constructor|].
  destruct op as [|b]; cbn [fstep].
  - unfold fpoll_next. rewrite E. specialize (IH f E). destruct (frun m f ops) as (l, f2). cbn [fst] in *.
    constructor; auto. intros i H. congruence.
  - destruct (fitem_next m b f) as (i, f1) eqn:FI.
    assert (E1: ff_error f1 = true).
    { revert FI. unfold fitem_next. destruct (ff_rem f =? 0); [intro H; inversion H; now subst|].
      destruct (fpoll_read_exact (ff_reader f) (byte_size b)) as ([|[buf|e|]], s);
        [|destruct (u64_result m (ff_rem f - byte_size b))|..]; intro H; inversion H; subst; exact E. }
    specialize (IH f1 E1). destruct (frun m f1 ops) as (l, f2). cbn [fst] in *. constructor; auto. intros j H. discriminate.
Qed.
Lemma frun_length m : forall ops f, length (fst (frun m f ops)) = length ops.
Proof.
  induction ops as [|op ops IH]; intro f; cbn [frun]; auto. destruct (fstep m f op) as (x, f1).
  specialize (IH f1). destruct (frun m f1 ops). cbn in *. now rewrite IH.
Qed.
Lemma arun_length m : forall ops f, length (fst (arun m f ops)) = length ops.
Proof.
  induction ops as [|op ops IH]; intro f; cbn [arun]; auto. destruct (astep m f op) as (x, f1).
  specialize (IH f1). destruct (arun m f1 ops). cbn in *. now rewrite IH.
Qed.

Lemma run_alike m : forall ops f, alike (fst (frun m f ops)) (fst (arun m (patient f) ops)).
Proof.
  induction ops as [|op ops IH]; intro f; cbn [frun arun]; [constructor|]. destruct op as [|b]; cbn [fstep astep].
  - destruct (fpoll_next m f) as (i, f1) eqn:FN. pose proof (IH f1) as I. pose proof (frun_length m ops f1) as L1.
    destruct (next_sim _ _ _ _ FN) as [(_ & N & E)|[(_ & -> & E)|(_ & (e & He & ->) & ER & _ & E)]]; rewrite E.
    + destruct (frun m f1 ops) as (l, f2). destruct (arun m (patient f1) ops) as (l', f2'). cbn [fst] in *. now constructor.
    + destruct (frun m f1 ops) as (l, f2). destruct (arun m (patient f1) ops) as (l', f2'). cbn [fst] in *. now constructor.
    + pose proof (over_run m ops f1 ER) as O. clear I.
      pose proof (arun_length m ops (af_set_reader (patient f) (patient_source (ff_reader f1)))) as L2.
      destruct (frun m f1 ops) as (l, f2). destruct (arun m (af_set_reader _ _) ops) as (l', f2'). cbn [fst] in *.
      constructor; auto. congruence.
  - destruct (fitem_next m b f) as (i, f1) eqn:FN. pose proof (IH f1) as I.
    destruct (item_sim _ _ _ _ _ FN) as [(_ & N & E)|[(_ & -> & E)|(_ & -> & E)]]; rewrite E;
      destruct (frun m f1 ops) as (l, f2); destruct (arun m (patient f1) ops) as (l', f2'); cbn [fst] in *; now constructor.
Qed.

Lemma run_sound m : forall ops f, Forall (fun e => e <> FFail) (fr_events (ff_reader f)) ->
  fst (frun m f ops) = fst (arun m (patient f) ops).
Proof.
  induction ops as [|op ops IH]; intros f W; cbn [frun arun]; auto.
  assert (T: forall f1, takes_chunks (ff_reader f) (ff_reader f1) -> Forall (fun e => e <> FFail) (fr_events (ff_reader f1)))
    by (intros f1 (u & _ & E); rewrite E in W; now apply Forall_app in W).
  assert (S: forall e f1, stops_at e (ff_reader f) (ff_reader f1) -> e <> FFail /\ Forall (fun e => e <> FFail) (fr_events (ff_reader f1)))
    by (intros e f1 (u & _ & E); rewrite E in W; apply Forall_app in W; destruct W as (_ & W); inversion W; auto).
  destruct op as [|b]; cbn [fstep astep].
  - destruct (fpoll_next m f) as (i, f1) eqn:FN.
    destruct (next_sim _ _ _ _ FN) as [(A & N & E)|[(A & -> & E)|(A & _)]]; [| |destruct (S _ _ A); congruence]; rewrite E;
      [specialize (IH f1 (T _ A))|destruct (S _ _ A) as (_ & A'); specialize (IH f1 A')];
      destruct (frun m f1 ops); destruct (arun m (patient f1) ops); cbn [fst] in *; now rewrite IH.
  - destruct (fitem_next m b f) as (i, f1) eqn:FN.
    destruct (item_sim _ _ _ _ _ FN) as [(A & N & E)|[(A & -> & E)|(A & _)]]; [| |destruct (S _ _ A); congruence]; rewrite E;
      [specialize (IH f1 (T _ A))|destruct (S _ _ A) as (_ & A'); specialize (IH f1 A')];
      destruct (frun m f1 ops); destruct (arun m (patient f1) ops); cbn [fst] in *; now rewrite IH.
Qed.

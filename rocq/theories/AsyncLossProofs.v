(** What a poll that is not ready loses. *)

From Verif Require Import Base Text Card Reader Header Xtension Fits Bytes Utf8 Async SpecFits SpecImage SpecAsync SpecAsyncLoss.
From Verif Require Import AsyncProofs AsyncProofs3.

Definition waits (s : areader) : Prop := In Wait (ar_events s).

Lemma content_hand s : content s = at_hand s ++ flat_map chunk_of (after_wait (ar_events s)).
Proof.
  destruct s as (buf, evs). unfold content, at_hand. cbn [ar_buf ar_events]. rewrite <- app_assoc. f_equal.
  induction evs as [|[|c] evs IH]; cbn; auto. now rewrite IH, app_assoc.
Qed.

(** A poll [P]: it is not ready, and everything at hand is gone; or it has taken some bytes [x] that were at
    hand, and does the same on every source that is ready and has these bytes. *)
Definition goes {R} (P : areader -> option R * areader) (s : areader) (L : R -> list Z -> Prop) (K : list Z -> Prop) : Prop :=
  match P s with
  | (None, s') => waits s /\ s' = behind s
  | (Some r, s') =>
    no_empty s' /\ (waits s <-> waits s') /\ after_wait (ar_events s') = after_wait (ar_events s) /\
    exists x, at_hand s = x ++ at_hand s' /\
      (waits s -> L r x /\ forall t z, always_ready t -> content t = x ++ z -> K z ->
         exists t', P t = (Some r, t') /\ always_ready t' /\ content t' = z)
  end.

Definition bindo {R R'} (P : areader -> option R * areader) (Q : R -> areader -> option R' * areader) (s : areader) :=
  match P s with (None, s') => (None, s') | (Some r, s') => Q r s' end.

Definition any (x : list Z) : Prop := True.
Definition whatever {R} (r : R) (x : list Z) : Prop := True.

Lemma goes_ret {R} (r : R) s : no_empty s -> goes (fun s => (Some r, s)) s whatever any.
Proof.
  intro N. unfold goes. split; auto. split; [tauto|]. split; auto. exists []. split; auto.
  intros _. split; [exact I|]. intros t z A C _. exists t. auto.
Qed.
Lemma goes_ext {R} (P P' : areader -> option R * areader) s L K : (forall s, P s = P' s) -> goes P' s L K -> goes P s L K.
Proof.
  intros E G. unfold goes in *. rewrite E. destruct (P' s) as ([r|], s'); auto.
  destruct G as (N & W & A & x & X & G). repeat (split; auto). exists x. split; auto. intro H. destruct (G H) as (HL & T).
  split; auto. intros t z A1 C1 K1. rewrite E. eauto.
Qed.
Lemma goes_weaken {R} (P : areader -> option R * areader) s (L L' : R -> list Z -> Prop) (K K' : list Z -> Prop) :
  (forall r x, L r x -> L' r x) -> (forall z, K' z -> K z) -> goes P s L K -> goes P s L' K'.
Proof.
  intros HL HK G. unfold goes in *. destruct (P s) as ([r|], s'); auto.
  destruct G as (N & W & A & x & X & G). repeat (split; auto). exists x. split; auto. intro H. destruct (G H) as (Lx & T).
  split; auto.
Qed.
Lemma goes_bind {R R'} (P : areader -> option R * areader) (Q : R -> areader -> option R' * areader) s
    (L1 : R -> list Z -> Prop) (L2 L : R' -> list Z -> Prop) (K1 K2 : list Z -> Prop) :
  goes P s L1 K1 ->
  (forall r s', no_empty s' -> (waits s' -> exists x, L1 r x) -> goes (Q r) s' L2 K2) ->
  (forall r2 x2 z, L2 r2 x2 -> K2 z -> K1 (x2 ++ z)) -> (forall r1 r2 x1 x2, L1 r1 x1 -> L2 r2 x2 -> L r2 (x1 ++ x2)) ->
  goes (bindo P Q) s L K2.
Proof.
  intros G1 G2 HK HL. unfold goes in G1. unfold goes, bindo. destruct (P s) as ([r|], s1) eqn:E; [|exact G1].
  destruct G1 as (N1 & W1 & A1 & x1 & X1 & T1). specialize (G2 r s1 N1 ltac:(intro D; destruct (T1 (proj2 W1 D)) as (D1 & _); eauto)). unfold goes in G2.
  destruct (Q r s1) as ([r2|], s2) eqn:E2.
  - destruct G2 as (N2 & W2 & A2 & x2 & X2 & T2). split; auto. split; [tauto|]. split; [congruence|].
    exists (x1 ++ x2). split; [now rewrite X1, X2, app_assoc|]. intro H. destruct (T1 H) as (HL1 & T1').
    destruct (T2 (proj1 W1 H)) as (HL2 & T2'). split; [eauto|]. intros t z AR C Kz. rewrite <- app_assoc in C.
    destruct (T1' t (x2 ++ z) AR C (HK _ _ _ HL2 Kz)) as (t1 & -> & AR1 & C1). apply T2'; auto.
  - destruct G2 as (W2 & ->). split; [tauto|]. unfold behind. now rewrite A1.
Qed.

(** ** The source *)

Definition pv {A} (x : poll A * areader) : option (res A) * areader :=
  match x with (Pending, s) => (None, s) | (Ready r, s) => (Some r, s) end.

Lemma take_hand evs : forall n got buf, 0 <= n -> Forall (fun e => e <> Chunk []) evs ->
  match take_loop n got buf evs with
  | (Pending, s') => In Wait evs /\ s' = mk_areader [] (after_wait evs)
  | (Ready r, s') => no_empty s' /\ (In Wait evs <-> waits s') /\ after_wait (ar_events s') = after_wait evs /\
      exists x, buf ++ pieces evs = x ++ at_hand s' /\ (In Wait evs -> r = Ok (got ++ x) /\ len x = n)
  end.
Proof.
  induction evs as [|ev evs IH]; intros n got buf Hn F; cbn [take_loop]; destruct (n <=? len buf) eqn:LE.
  - split; [exact F|]. split; [reflexivity|]. split; auto. exists (firstn (Z.to_nat n) buf). unfold at_hand. cbn [ar_buf ar_events pieces].
    split; [now rewrite !app_nil_r, firstn_skipn|intros []].
  - split; [constructor|]. split; [reflexivity|]. split; auto. exists buf. unfold at_hand. cbn. split; [auto|intros []].
  - split; [exact F|]. split; [reflexivity|]. split; auto. exists (firstn (Z.to_nat n) buf). unfold at_hand. cbn [ar_buf ar_events].
    split; [now rewrite app_assoc, firstn_skipn|]. intros _. split; auto. unfold len in *. rewrite firstn_length. lia.
  - inversion F; subst. destruct ev as [|c].
    + cbn. auto.
    + destruct c as [|a c]; [congruence|]. assert (0 <= n - len buf) by lia.
      specialize (IH (n - len buf) (got ++ buf) (a :: c) H H2).
      destruct (take_loop (n - len buf) (got ++ buf) (a :: c) evs) as (p, s'). destruct p as [|r].
      * destruct IH as (W & ->). cbn. auto.
      * destruct IH as (N & W & A & x & X & T). split; auto. split; [cbn; split; [intros [D|D]; [discriminate|tauto]|intro D; right; tauto]|].
        split; [exact A|]. exists (buf ++ x). cbn [pieces]. rewrite X, app_assoc. split; auto.
        intros [D|D]; [discriminate|]. destruct (T D) as (-> & L). split; [now rewrite app_assoc|]. unfold len in *. rewrite app_length. lia.
Qed.

Lemma skip_hand evs : forall n buf, 0 < n -> Forall (fun e => e <> Chunk []) evs ->
  match skip_loop n buf evs with
  | (Pending, s') => In Wait evs /\ s' = mk_areader [] (after_wait evs)
  | (Ready r, s') => no_empty s' /\ (In Wait evs <-> waits s') /\ after_wait (ar_events s') = after_wait evs /\
      exists x, buf ++ pieces evs = x ++ at_hand s' /\ (In Wait evs -> r = Ok tt /\ len x = n)
  end.
Proof.
  induction evs as [|ev evs IH]; intros n buf Hn F; cbn [skip_loop]; destruct ((1 <=? len buf) && (n <=? len buf)) eqn:LE.
  - split; [exact F|]. split; [reflexivity|]. split; auto. exists (firstn (Z.to_nat n) buf). unfold at_hand. cbn [ar_buf ar_events pieces].
    split; [now rewrite !app_nil_r, firstn_skipn|intros []].
  - split; [constructor|]. split; [reflexivity|]. split; auto. exists buf. unfold at_hand. cbn. split; [auto|intros []].
  - split; [exact F|]. split; [reflexivity|]. split; auto. exists (firstn (Z.to_nat n) buf). unfold at_hand. cbn [ar_buf ar_events].
    split; [now rewrite app_assoc, firstn_skipn|]. intros _. split; auto. unfold len in *. rewrite firstn_length. lia.
  - inversion F; subst. destruct ev as [|c].
    + cbn. auto.
    + destruct c as [|a c]; [congruence|]. pose proof (len_nonneg buf). assert (0 < n - len buf) by lia.
      specialize (IH (n - len buf) (a :: c) H0 H2).
      destruct (skip_loop (n - len buf) (a :: c) evs) as (p, s'). destruct p as [|r].
      * destruct IH as (W & ->). cbn. auto.
      * destruct IH as (N & W & A & x & X & T). split; auto. split; [cbn; split; [intros [D|D]; [discriminate|tauto]|intro D; right; tauto]|].
        split; [exact A|]. exists (buf ++ x). cbn [pieces]. rewrite X, app_assoc. split; auto.
        intros [D|D]; [discriminate|]. destruct (T D) as (-> & L). split; [auto|]. unfold len in *. rewrite app_length. lia.
Qed.

Lemma firstn_len {A} (x z : list A) n : len x = n -> firstn (Z.to_nat n) (x ++ z) = x /\ skipn (Z.to_nat n) (x ++ z) = z.
Proof.
  intros <-. unfold len. rewrite Nat2Z.id. split.
  - rewrite firstn_app, firstn_all, Nat.sub_diag. apply app_nil_r.
  - rewrite skipn_app, skipn_all, Nat.sub_diag. reflexivity.
Qed.
Lemma len_app_le {A} (x z : list A) : len x <= len (x ++ z).
Proof. unfold len. rewrite app_length. lia. Qed.

Lemma read_goes s n : 0 <= n -> no_empty s -> goes (fun s => pv (poll_read_exact s n)) s (fun r x => (exists buf, r = Ok buf) /\ len x = n) any.
Proof.
  intros Hn F. destruct s as (buf, evs). unfold goes, poll_read_exact at 1. cbn [ar_buf ar_events].
  pose proof (take_hand evs n [] buf Hn F) as H. destruct (take_loop n [] buf evs) as ([|r], s') eqn:E; cbn [pv].
  - exact H.
  - destruct H as (N & W & A & x & X & T). split; auto. split; auto. split; auto. exists x. split; auto. intro D. destruct (T D) as (-> & L).
    split; [eauto|]. intros t z AR C _. destruct (read_ready t n Hn AR) as (t' & E' & R' & C').
    rewrite C in E', C'. destruct (firstn_len x z n L) as (F1 & F2). pose proof (len_app_le x z).
    replace (n <=? len (x ++ z)) with true in E' by lia. rewrite F1 in E'. rewrite F2 in C'.
    exists t'. rewrite E'. cbn. auto.
Qed.

Lemma skip_goes s n : 0 < n -> no_empty s -> goes (fun s => pv (poll_skip s n)) s (fun r x => r = Ok tt /\ len x = n) any.
Proof.
  intros Hn F. destruct s as (buf, evs). unfold goes, poll_skip at 1. cbn [ar_buf ar_events].
  pose proof (skip_hand evs n buf Hn F) as H. destruct (skip_loop n buf evs) as ([|r], s') eqn:E; cbn [pv].
  - exact H.
  - destruct H as (N & W & A & x & X & T). split; auto. split; auto. split; auto. exists x. split; auto. intro D. destruct (T D) as (-> & L).
    split; auto. intros t z AR C _. destruct (skip_ready t n ltac:(lia) AR) as (t' & E' & R' & C').
    rewrite C in E', C'. destruct (firstn_len x z n L) as (F1 & F2). pose proof (len_app_le x z).
    replace (n <=? len (x ++ z)) with true in E' by lia. rewrite F2 in C'.
    exists t'. rewrite E'. cbn. auto.
Qed.

(** The look at the buffer that finds out whether the file ends: only whether it is empty matters. *)
Definition look (s : areader) : option (res bool) * areader :=
  match poll_fill s with
  | (Pending, s') => (None, s')
  | (Ready (Ok b), s') => (Some (Ok match b with [] => true | _ => false end), s')
  | (Ready (Err e), s') => (Some (Err e), s')
  | (Ready Panic, s') => (Some Panic, s')
  end.
Definition some_left (z : list Z) : Prop := z <> [].
Lemma look_ready t : always_ready t -> some_left (content t) ->
  exists t', look t = (Some (Ok false), t') /\ always_ready t' /\ content t' = content t.
Proof.
  intros AR Z. destruct (fill_ready t AR) as (b & t' & E & AR' & C & B). exists t'. unfold look. rewrite E.
  destruct b; [destruct Z; tauto|]. auto.
Qed.
Lemma look_goes s : no_empty s -> goes look s (fun r _ => r = Ok false) some_left.
Proof.
  intro F. destruct s as (buf, evs). unfold goes, look at 1, poll_fill. cbn [ar_buf ar_events].
  assert (G: forall t z, always_ready t -> content t = [] ++ z -> some_left z ->
    exists t', look t = (Some (Ok false), t') /\ always_ready t' /\ content t' = z).
  { intros t z AR C Z. cbn in C. subst z. now apply look_ready. }
  destruct buf as [|a buf].
  - destruct evs as [|[|c] evs].
    + split; auto. split; [reflexivity|]. split; auto. exists []. split; auto. intros [].
    + unfold waits. cbn. auto.
    + inversion F; subst. destruct c as [|a c]; [congruence|]. split; auto.
      unfold waits. cbn [ar_events after_wait]. split; [split; [intros [D|D]; [discriminate|auto]|cbn; auto]|].
      split; auto. exists []. split; [reflexivity|]. intros _. split; [reflexivity|exact G].
  - split; auto. split; [reflexivity|]. split; auto. exists []. split; [reflexivity|]. intros _. split; [reflexivity|exact G].
Qed.

Lemma never_waits s : no_empty s -> ~ waits s -> always_ready s.
Proof.
  unfold no_empty, waits, always_ready. intros F N. rewrite Forall_forall in *. intros e I. specialize (F e I).
  destruct e as [|c]; [destruct (N I)|]. exists c. split; auto. intros ->. auto.
Qed.
Lemma waits_dec s : waits s \/ ~ waits s.
Proof.
  unfold waits. induction (ar_events s) as [|[|c] l IH]; [right; auto|left; left; auto|].
  destruct IH as [H|H]; [left; right; auto|right]. intros [D|D]; [discriminate|auto].
Qed.

Lemma read_shorter s n buf s' : 0 < n -> no_empty s -> pv (poll_read_exact s n) = (Some (Ok buf), s') ->
  (length (content s') < length (content s))%nat.
Proof.
  intros Hn F E. pose proof (read_goes s n ltac:(lia) F) as G. unfold goes in G. rewrite E in G.
  destruct G as (N & W & A & x & X & T). destruct (waits_dec s) as [D|D].
  - destruct (T D) as ((_ & L) & _). rewrite !content_hand, X, A, !app_length. unfold len in L. lia.
  - apply never_waits in D; auto. destruct (read_ready s n ltac:(lia) D) as (t & E' & _ & C). rewrite E' in E. cbn in E.
    inversion E; subst t. destruct (n <=? len (content s)) eqn:LE; [|discriminate]. rewrite C, skipn_length. unfold len in LE. lia.
Qed.

(** ** Headers *)

Definition eighty (x : list Z) : Prop := 80 <= len x.
Lemma loop_goes fuel : forall s n acc, no_empty s -> (length (content s) < fuel)%nat ->
  match aconsume_loop fuel s n acc with
  | (Pending, _, s') => waits s /\ s' = behind s
  | (Ready r, k, s') =>
    no_empty s' /\ (waits s <-> waits s') /\ after_wait (ar_events s') = after_wait (ar_events s) /\
    exists x, at_hand s = x ++ at_hand s' /\
      (waits s -> eighty x /\ forall t z ft, always_ready t -> content t = x ++ z -> (length (content t) < ft)%nat ->
         exists t', aconsume_loop ft t n acc = (Ready r, k, t') /\ always_ready t' /\ content t' = z)
  end.
Proof.
  induction fuel as [|fuel IH]; intros s n acc F Fu; [lia|]. cbn [aconsume_loop].
  pose proof (read_goes s 80 ltac:(lia) F) as G. pose proof (fun buf s' => read_shorter s 80 buf s' ltac:(lia) F) as SH.
  unfold goes in G. destruct (poll_read_exact s 80) as (p, s1). cbn [pv] in G, SH.
  destruct p as [|r]; cbn [pv] in G, SH; [exact G|].
  destruct G as (N1 & W1 & A1 & x1 & X1 & T1).
  assert (STOP: forall r' k, (forall ft t t', poll_read_exact t 80 = (Ready r, t') -> aconsume_loop (S ft) t n acc = (Ready r', k, t')) ->
    no_empty s1 /\ (waits s <-> waits s1) /\ after_wait (ar_events s1) = after_wait (ar_events s) /\
    exists x, at_hand s = x ++ at_hand s1 /\
      (waits s -> eighty x /\ forall t z ft, always_ready t -> content t = x ++ z -> (length (content t) < ft)%nat ->
         exists t', aconsume_loop ft t n acc = (Ready r', k, t') /\ always_ready t' /\ content t' = z)).
  { intros r' k ST. split; auto. split; auto. split; auto. exists x1. split; auto. intro D. destruct (T1 D) as ((_ & L) & T).
    split; [unfold eighty; lia|]. intros t z ft AR C LT. destruct ft as [|ft]; [lia|].
    destruct (T t z AR C I) as (t' & E & AR' & C'). exists t'. split; auto. apply ST.
    destruct (poll_read_exact t 80) as ([|q], t2); cbn in E; inversion E; reflexivity. }
  assert (GO: forall buf acc', r = Ok buf ->
    (forall ft t t', poll_read_exact t 80 = (Ready r, t') -> aconsume_loop (S ft) t n acc = aconsume_loop ft t' (n + 80) acc') ->
    match aconsume_loop fuel s1 (n + 80) acc' with
    | (Pending, _, s') => waits s /\ s' = behind s
    | (Ready r, k, s') =>
      no_empty s' /\ (waits s <-> waits s') /\ after_wait (ar_events s') = after_wait (ar_events s) /\
      exists x, at_hand s = x ++ at_hand s' /\
        (waits s -> eighty x /\ forall t z ft, always_ready t -> content t = x ++ z -> (length (content t) < ft)%nat ->
           exists t', aconsume_loop ft t n acc = (Ready r, k, t') /\ always_ready t' /\ content t' = z)
    end).
  { intros buf acc' -> ST. pose proof (SH _ _ eq_refl) as SH1.
    specialize (IH s1 (n + 80) acc' N1 ltac:(lia)). destruct (aconsume_loop fuel s1 (n + 80) acc') as ((q, k), s2).
    destruct q as [|r2].
    - destruct IH as (W2 & ->). split; [tauto|]. unfold behind. now rewrite A1.
    - destruct IH as (N2 & W2 & A2 & x2 & X2 & T2). split; auto. split; [tauto|]. split; [congruence|].
      exists (x1 ++ x2). split; [now rewrite X1, X2, app_assoc|]. intro D. destruct (T1 D) as ((_ & L) & T).
      destruct (T2 (proj1 W1 D)) as (L2 & T3). split; [unfold eighty, len in *; rewrite app_length; lia|].
      intros t z ft AR C LT. rewrite <- app_assoc in C. destruct ft as [|ft]; [lia|].
      destruct (T t (x2 ++ z) AR C I) as (t' & E & AR' & C'). 
      destruct (poll_read_exact t 80) as ([|q], t2) eqn:E2; cbn in E; inversion E; subst q t2.
      rewrite (ST ft _ _ E2). apply T3; auto. rewrite C'. rewrite C, app_length in LT. unfold len in L. lia. }
  destruct r as [buf|e|].
  - destruct (parse_card buf) as [c|e|] eqn:PC.
    + destruct c; try (apply (GO buf); [reflexivity|]; intros ft t t' E; cbn [aconsume_loop]; rewrite E, PC; reflexivity).
      apply STOP. intros ft t t' E. cbn [aconsume_loop]. rewrite E, PC. reflexivity.
    + apply (GO buf); [reflexivity|]. intros ft t t' E. cbn [aconsume_loop]. rewrite E, PC. reflexivity.
    + apply STOP. intros ft t t' E. cbn [aconsume_loop]. rewrite E, PC. reflexivity.
  - apply STOP. intros ft t t' E. cbn [aconsume_loop]. rewrite E. reflexivity.
  - apply STOP. intros ft t t' E. cbn [aconsume_loop]. rewrite E. reflexivity.
Qed.

Definition lv {A} (x : poll A * Z * areader) : option (res A * Z) * areader :=
  match x with (Pending, _, s) => (None, s) | (Ready r, k, s) => (Some (r, k), s) end.
Lemma cards_goes s : no_empty s -> goes (fun s => lv (aconsume_cards s)) s (fun _ => eighty) any.
Proof.
  intro F. unfold goes, aconsume_cards at 1. pose proof (loop_goes (S (length (content s))) s 0 [] F ltac:(lia)) as H.
  destruct (aconsume_loop (S (length (content s))) s 0 []) as ((p, k), s'). destruct p as [|r]; cbn [lv]; [exact H|].
  destruct H as (N & W & A & x & X & T). split; auto. split; auto. split; auto. exists x. split; auto. intro D.
  destruct (T D) as (L & T'). split; auto. intros t z AR C _. destruct (T' t z (S (length (content t))) AR C ltac:(lia)) as (t' & E & R).
  exists t'. unfold aconsume_cards. rewrite E. cbn. auto.
Qed.

Lemma hdu_goes m kind k s n cards : no_empty s -> goes (fun s => pv (ahdu_new m kind k s n cards)) s whatever any.
Proof.
  intro F. unfold ahdu_new. destruct (let! vs := process_cards m cards in let! x := xt_parse m k vs in Ok (vs, x)) as [(vs, x)|e|];
    try (apply goes_ret; exact F).
  pose proof (Z.mod_pos_bound n 2880 ltac:(lia)) as MB.
  destruct (n mod 2880 =? 0) eqn:Z0; [apply goes_ret; exact F|].
  eapply goes_ext with (P' := bindo (fun s => pv (poll_read_exact s (2880 - n mod 2880)))
     (fun r s => (Some match r with Ok _ => Ok (mk_ahdu kind cards vs x) | _ => Err EStatic end, s))).
  - intro u. unfold bindo. destruct (poll_read_exact u (2880 - n mod 2880)) as ([|r], u'); [reflexivity|]. destruct r; reflexivity.
  - eapply goes_bind; [apply read_goes; [lia|exact F]|intros r s' N _; apply goes_ret; exact N| |]; unfold any, whatever; auto.
Qed.

(** A header, and what is made of it. *)
Lemma header_goes s (k : areader -> Z -> list card -> poll ahdu * areader) :
  no_empty s -> (forall s' n cards, no_empty s' -> goes (fun s => pv (k s n cards)) s' whatever any) ->
  goes (fun s => pv match aconsume_cards s with
   | (Ready (Ok cards), n, s') => k s' n cards
   | (Ready (Err e), _, s') => (Ready (Err e), s')
   | (Ready Panic, _, s') => (Ready Panic, s')
   | (Pending, _, s') => (Pending, s')
   end) s (fun _ => eighty) any.
Proof.
  intros F H. eapply goes_ext with (P' := bindo (fun s => lv (aconsume_cards s))
     (fun r s => match fst r with Ok cards => pv (k s (snd r) cards) | Err e => (Some (Err e), s) | Panic => (Some Panic, s) end)).
  - intro u. unfold bindo. destruct (aconsume_cards u) as (([|r], n), u'); [reflexivity|]. destruct r; reflexivity.
  - eapply goes_bind; [apply cards_goes; exact F| | |].
    + intros (r, n) s' N _. cbn [fst snd]. destruct r; [apply H; exact N|apply goes_ret; exact N|apply goes_ret; exact N].
    + unfold any; auto.
    + intros r1 r2 x1 x2 E _. unfold eighty, len in *. rewrite app_length. lia.
Qed.
Lemma xtension_goes m s : no_empty s -> goes (fun s => pv (anew_xtension m s)) s (fun _ => eighty) any.
Proof.
  intro F. eapply (header_goes s (fun s' n cards => match cards with
    | [] => (Ready Panic, s')
    | CXtension XImage _ :: _ => ahdu_new m HImage XImage s' n cards
    | CXtension XBinTable _ :: _ => ahdu_new m HBinTable XBinTable s' n cards
    | CXtension XAsciiTable _ :: _ => ahdu_new m HAsciiTable XAsciiTable s' n cards
    | _ :: _ => (Ready (Err EStatic), s')
    end)); [exact F|]. intros s' n cards N.
  destruct cards as [|c l]; [apply goes_ret; exact N|]. destruct c as [| | x o| | | | | |]; try (apply goes_ret; exact N).
  destruct x; apply hdu_goes; exact N.
Qed.
Lemma primary_goes m s : no_empty s -> goes (fun s => pv (anew_primary m s)) s (fun _ => eighty) any.
Proof.
  intro F. eapply (header_goes s (fun s' n cards => match cards with
    | [] => (Ready Panic, s')
    | CValue _ (VLogical true _) :: _ => ahdu_new m HPrimary XImage s' n cards
    | _ :: _ => (Ready (Err EStatic), s')
    end)); [exact F|]. intros s' n cards N.
  destruct cards as [|c l]; [apply goes_ret; exact N|]. destruct c as [nm v| | | | | | | |]; try (apply goes_ret; exact N).
  destruct v as [| | [|] | | |]; try (apply goes_ret; exact N). apply hdu_goes; exact N.
Qed.

(** ** The stream of HDUs *)

Lemma goes_idle {R} (r : R) s L K : no_empty s -> ~ waits s -> goes (fun s => (Some r, s)) s L K.
Proof.
  intros N W. unfold goes. split; auto. split; [tauto|]. split; auto. exists []. split; auto. intro D. destruct (W D).
Qed.

Lemma until_goes f s : no_empty s ->
  goes (fun s => pv (aconsume_until (af_set_reader f s))) s (fun r _ => r = Ok false) some_left.
Proof.
  intro F. destruct f as (st, rem, num, err, rd).
  pose (P1 := fun s => if 0 <? rem then pv (poll_skip s rem) else (Some (Ok tt), s)).
  pose (P2 := fun s => if num mod 2880 =? 0 then (Some (Ok (@nil Z)), s) else pv (poll_read_exact s (2880 - num mod 2880))).
  pose (Q2 := fun (r : res (list Z)) s => match r with Ok _ => look s | Err EEof => (Some (Ok true), s) | Err e => (Some (Err e), s) | Panic => (Some Panic, s) end).
  pose (Q1 := fun (r : res unit) s => match r with Ok _ => bindo P2 Q2 s | Err e => (Some (Err e), s) | Panic => (Some Panic, s) end).
  apply goes_ext with (P' := bindo P1 Q1).
  { intro u. unfold bindo, P1, Q1, aconsume_until, af_set_reader. cbn [af_rem af_num af_reader].
    assert (D: (if 0 <? rem then pv (poll_skip u rem) else (Some (Ok tt), u)) = pv (if 0 <? rem then poll_skip u rem else (Ready (Ok tt), u)))
      by (destruct (0 <? rem); reflexivity). rewrite D. clear D.
    destruct (if 0 <? rem then poll_skip u rem else (Ready (Ok tt), u)) as ([|r], u1); [reflexivity|]. cbn [pv].
    destruct r as [x|e|]; try reflexivity. unfold bindo, P2, Q2.
    assert (D: (if num mod 2880 =? 0 then (Some (Ok []), u1) else pv (poll_read_exact u1 (2880 - num mod 2880)))
      = pv (if num mod 2880 =? 0 then (Ready (Ok []), u1) else poll_read_exact u1 (2880 - num mod 2880)))
      by (destruct (num mod 2880 =? 0); reflexivity). rewrite D. clear D.
    destruct (if num mod 2880 =? 0 then (Ready (Ok []), u1) else poll_read_exact u1 (2880 - num mod 2880)) as ([|r], u2); [reflexivity|].
    cbn [pv]. destruct r as [y|e|]; [|destruct e; reflexivity|reflexivity].
    unfold look. destruct (poll_fill u2) as ([|r], u3); [reflexivity|]. destruct r; reflexivity. }
  apply goes_bind with (L1 := fun r _ => r = Ok tt) (K1 := any) (L2 := fun r _ => r = Ok false).
  - unfold P1. destruct (0 <? rem) eqn:R0.
    + apply goes_weaken with (L := fun r x => r = Ok tt /\ len x = rem) (K := any); [tauto|auto|]. apply skip_goes; [lia|exact F].
    + apply goes_weaken with (L := fun r (_ : list Z) => r = Ok tt) (K := any); [auto|auto|].
      unfold goes. split; auto. split; [tauto|]. split; auto. exists []. split; auto. intros _. split; auto. intros t z A C _. exists t. auto.
  - intros r s1 N1 W1. unfold Q1. destruct r as [u|e|].
    + apply goes_bind with (L1 := fun r _ => exists b, r = Ok b) (K1 := any) (L2 := fun r _ => r = Ok false).
      * unfold P2. destruct (num mod 2880 =? 0).
        -- unfold goes. split; auto. split; [tauto|]. split; auto. exists []. split; auto. intros _. split; [eauto|]. intros t z A C _. exists t. auto.
        -- pose proof (Z.mod_pos_bound num 2880 ltac:(lia)).
           eapply goes_weaken with (K := any); [|auto|apply read_goes; [lia|exact N1]]. intros r x (D & _). exact D.
      * intros r s2 N2 W2. unfold Q2. destruct r as [b|e|].
        -- apply look_goes. exact N2.
        -- assert (~ waits s2) by (intro D; destruct (W2 D) as (? & ? & ?); discriminate).
           destruct e; apply goes_idle; assumption.
        -- assert (~ waits s2) by (intro D; destruct (W2 D) as (? & ? & ?); discriminate). apply goes_idle; assumption.
      * unfold any. auto.
      * auto.
    + apply goes_idle; auto. intro D. destruct (W1 D) as (? & ?). discriminate.
    + apply goes_idle; auto. intro D. destruct (W1 D) as (? & ?). discriminate.
  - unfold any. auto.
  - auto.
Qed.

(** One poll of either kind, with everything of the state but the source in the result. *)
Definition state_of (f : afits) := (af_start f, af_rem f, af_num f, af_error f).
Definition step (m : mode) (op : aop) (f : afits) (s : areader) : option (aresult * (bool * Z * Z * bool)) * areader :=
  let (x, f') := astep m (af_set_reader f s) op in
  (if pending x then None else Some (x, state_of f'), af_reader f').

Definition item_of (r : res ahdu) : aitem := match r with Ok h => AOk h | Err e => AErr e | Panic => APanic end.

Lemma ready_item r : match item_of r with APending => false | _ => true end = true.
Proof. destruct r; reflexivity. Qed.

Lemma next_goes m f s : no_empty s -> goes (step m ONext f) s whatever any.
Proof.
  intro F. destruct f as (st, rem, num, err, rd). unfold step, astep.
  destruct err.
  { apply goes_ext with (P' := fun s => (Some (RNext ANone, (st, rem, num, true)), s)); [reflexivity|]. apply goes_ret. exact F. }
  pose (fin := fun (i : aitem) (s : areader) => (Some (RNext match i with AOk h => match xt_num_bytes m (a_xt h) with Ok _ => i | _ => APanic end | _ => i end,
     match i with
     | AOk h => match xt_num_bytes m (a_xt h) with Ok n => (false, n, n, false) | _ => (false, rem, num, false) end
     | AErr e => (false, rem, num, true)
     | ANone => (false, rem, num, false)
     | _ => (st, rem, num, false)
     end), s)).
  pose (heads := fun s : areader => if st then bindo (fun s => pv (anew_primary m s)) (fun r s => (Some (item_of r), s)) s
    else bindo (fun s => pv (aconsume_until (mk_afits st rem num false s)))
      (fun r s => match r with
        | Ok true => (Some ANone, s)
        | Ok false => bindo (fun s => pv (anew_xtension m s)) (fun r s => (Some (item_of r), s)) s
        | Err e => (Some (AErr e), s) | Panic => (Some APanic, s) end) s).
  apply goes_ext with (P' := bindo heads fin).
  { intro u. unfold bindo, heads, poll_next, af_set_reader. cbn [af_error af_start af_rem af_num af_reader].
    assert (E: forall q, (q : poll ahdu * areader) = q ->
      (let (x, f') := let (i, f') :=
        let '(i, s0) := match q with
          | (Ready (Ok h), s) => (AOk h, s) | (Ready (Err e), s) => (AErr e, s) | (Ready Panic, s) => (APanic, s) | (Pending, s) => (APending, s) end in
        match i with
        | AOk h => match xt_num_bytes m (a_xt h) with
                   | Ok n => (AOk h, mk_afits false n n false s0)
                   | _ => (APanic, mk_afits false rem num false s0)
                   end
        | AErr e => (AErr e, mk_afits false rem num true s0)
        | ANone => (ANone, mk_afits false rem num false s0)
        | APending => (APending, mk_afits st rem num false s0)
        | APanic => (APanic, mk_afits st rem num false s0)
        end in (RNext i, f') in
       (if pending x then None else Some (x, state_of f'), af_reader f'))
      = match (match pv q with (None, s') => (None, s') | (Some r, s') => (Some (item_of r), s') end) with
        | (None, s') => (None, s') | (Some i, s') => fin i s' end).
    { intros ([|r], s0) _; [reflexivity|]. destruct r as [h|e|]; cbn [pv item_of]; [|reflexivity|reflexivity].
      unfold fin. destruct (xt_num_bytes m (a_xt h)); reflexivity. }
    destruct st.
    - unfold bindo. destruct (anew_primary m u) as (q, s0). exact (E (q, s0) eq_refl).
    - unfold bindo. destruct (aconsume_until (mk_afits false rem num false u)) as ([|r], s0); [reflexivity|]. cbn [pv].
      destruct r as [[|]|e|]; try reflexivity.
      destruct (anew_xtension m s0) as (q, s1). exact (E (q, s1) eq_refl). }
  eapply goes_bind with (L1 := whatever) (K1 := any).
  2: { intros r s' N _. unfold fin. apply goes_ret. exact N. }
  2: { unfold any; auto. }
  2: { unfold whatever; auto. }
  unfold heads. destruct st.
  - eapply goes_bind; [apply primary_goes; exact F|intros r s' N _; apply goes_ret; exact N| |]; unfold any, whatever; auto.
  - apply goes_bind with (L1 := fun r _ => r = Ok false) (K1 := some_left) (L2 := fun _ => eighty).
    + exact (until_goes (mk_afits false rem num false rd) s F).
    + intros r s1 N1 W1. destruct r as [[|]|e|].
      1, 3, 4: apply goes_idle; [exact N1|]; intro D; destruct (W1 D); discriminate.
      eapply goes_bind; [apply xtension_goes; exact N1|intros r s' N _; apply goes_ret; exact N| |].
      * unfold any. auto.
      * intros r1 r2 x1 x2 E _. unfold eighty, len in *. rewrite app_length. lia.
    + intros r x z E _. unfold some_left. intro D. apply app_eq_nil in D as (-> & _). unfold eighty, len in E. cbn in E. lia.
    + unfold whatever. auto.
Qed.

Lemma item_goes m b f s : no_empty s -> goes (step m (OItem b) f) s whatever any.
Proof.
  intro F. destruct f as (st, rem, num, err, rd). unfold step, astep, item_next, af_set_reader. cbn [af_rem af_reader af_start af_num af_error].
  destruct (rem =? 0).
  { apply goes_ext with (P' := fun s => (Some (RItem SEnd, (st, rem, num, err)), s)); [reflexivity|]. apply goes_ret. exact F. }
  apply goes_ext with (P' := bindo (fun s => pv (poll_read_exact s (byte_size b)))
    (fun r s => (Some match r with
      | Ok buf => match u64_result m (rem - byte_size b) with
                  | Ok k => (RItem (SItem (decode b buf)), (st, k, num, err))
                  | _ => (RItem SPanic, (st, rem, num, err)) end
      | Err e => (RItem (SErr e), (st, rem, num, err))
      | Panic => (RItem SPanic, (st, rem, num, err)) end, s))).
  { intro u. unfold bindo. destruct (poll_read_exact u (byte_size b)) as ([|r], s0); [reflexivity|]. cbn [pv].
    destruct r as [buf|e|]; try reflexivity. destruct (u64_result m (rem - byte_size b)); reflexivity. }
  eapply goes_bind; [apply read_goes; [destruct b; vm_compute; discriminate|exact F]|intros r s' N _; apply goes_ret; exact N| |]; unfold any, whatever; auto.
Qed.

Lemma step_goes m op f s : no_empty s -> goes (step m op f) s whatever any.
Proof. destruct op; [apply next_goes|apply item_goes]. Qed.

(** ** Series of polls *)

Lemma af_eta f : af_set_reader f (af_reader f) = f.
Proof. destruct f. reflexivity. Qed.
Lemma same_state f g : state_of f = state_of g -> af_set_reader f (af_reader g) = g.
Proof. destruct f, g. unfold state_of, af_set_reader. cbn. intro E. inversion E. reflexivity. Qed.
Lemma state_bytes f g : state_of f = state_of g -> content (af_reader f) = content (af_reader g) -> same_bytes f g.
Proof. unfold state_of, same_bytes. intros E C. inversion E. auto. Qed.

Lemma some_like f : no_empty (af_reader f) -> 0 <= af_rem f -> exists g, like_f f g.
Proof.
  intros F N. exists (af_set_reader f (mk_areader (content (af_reader f)) [])).
  split; [|split; [exact F|split; [constructor|exact N]]]. unfold same_bytes, af_set_reader. cbn.
  repeat split; auto. unfold content at 2. cbn. now rewrite app_nil_r.
Qed.

Lemma step_pending m f op x f' : no_empty (af_reader f) -> 0 <= af_rem f ->
  astep m f op = (x, f') -> pending x = true ->
  waits (af_reader f) /\ f' = af_set_reader f (behind (af_reader f)).
Proof.
  intros F N E P. pose proof (step_goes m op f (af_reader f) F) as G. unfold goes, step in G. rewrite af_eta, E, P in G.
  destruct G as (W & B). split; auto. destruct (some_like f F N) as (g & L).
  destruct (step_like m op f g L) as [(_ & _ & s & H & _)|(H & _)]; rewrite E in H; cbn [fst snd] in H; [|congruence].
  subst f'. cbn [af_set_reader af_reader] in B. now subst s.
Qed.

Lemma step_rem m f op x f' : no_empty (af_reader f) -> 0 <= af_rem f -> astep m f op = (x, f') -> 0 <= af_rem f'.
Proof.
  intros F N E. destruct (some_like f F N) as (g & L).
  destruct (step_like m op f g L) as [(_ & _ & s & H & _)|(_ & _ & (_ & _ & _ & H) & _)]; rewrite E in H; cbn [fst snd] in H; auto.
  now subst f'.
Qed.

Lemma step_ready m f op x f' : no_empty (af_reader f) -> astep m f op = (x, f') -> pending x = false ->
  no_empty (af_reader f') /\ (waits (af_reader f) <-> waits (af_reader f')) /\
  content (af_reader f) = taken f f' ++ content (af_reader f') /\
  (waits (af_reader f) -> forall g z, always_ready (af_reader g) -> state_of f = state_of g -> content (af_reader g) = taken f f' ++ z ->
     exists g', astep m g op = (x, g') /\ state_of f' = state_of g' /\ always_ready (af_reader g') /\ content (af_reader g') = z).
Proof.
  intros F E P. pose proof (step_goes m op f (af_reader f) F) as G. pose proof G as G0; unfold goes in G; unfold step at 1 in G; rewrite af_eta, E, P in G.
  destruct G as (N & W & A & y & Y & T). split; auto. split; auto.
  assert (C: content (af_reader f) = y ++ content (af_reader f')) by (rewrite !content_hand, Y, A; now rewrite app_assoc).
  assert (TK: taken f f' = y).
  { unfold taken. rewrite C. rewrite app_length. replace (length y + length (content (af_reader f')) - length (content (af_reader f')))%nat with (length y + 0)%nat by lia.
    rewrite firstn_app_2. cbn. apply app_nil_r. }
  rewrite TK. split; auto. intros D g z AR S Cg. destruct (T D) as (_ & T').
  destruct (T' (af_reader g) z AR Cg I) as (t & E2 & AR2 & C2). unfold step in E2. rewrite (same_state f g S) in E2.
  destruct (astep m g op) as (x2, g'). destruct (pending x2); [discriminate|]. injection E2 as E2 E3 E4; subst. exists g'. unfold state_of in *. repeat split; auto; congruence.
Qed.

Definition is_ready (x : aresult) : bool := negb (pending x).

Lemma ready_all m : forall ops f, always_ready (af_reader f) ->
  kept m f ops = content (af_reader f) /\ ready_ops m f ops = ops /\ filter is_ready (fst (arun m f ops)) = fst (arun m f ops).
Proof.
  induction ops as [|op ops IH]; intros f AR; cbn [kept ready_ops arun]; auto.
  assert (F: no_empty (af_reader f)).
  { unfold no_empty, always_ready in *. rewrite Forall_forall in *. intros e I ->. destruct (AR _ I) as (c & D & N). congruence. }
  assert (W: ~ waits (af_reader f)).
  { unfold waits. intro I. unfold always_ready in AR. rewrite Forall_forall in AR. destruct (AR _ I) as (c & D & _). discriminate. }
  pose proof (step_goes m op f (af_reader f) F) as G. pose proof G as G0; unfold goes in G; unfold step at 1 in G; rewrite af_eta in G.
  destruct (astep m f op) as (x, f1) eqn:E. destruct (pending x) eqn:P; [destruct G; contradiction|]. clear G.
  destruct (step_ready m f op x f1 F E P) as (N1 & W1 & C1 & _).
  assert (AR1: always_ready (af_reader f1)) by (apply never_waits; tauto).
  destruct (IH f1 AR1) as (I1 & I2 & I3). rewrite I1, I2, <- C1. split; auto. split; auto.
  destruct (arun m f1 ops) as (l, f2). cbn [fst] in *. cbn [filter]. unfold is_ready at 1. rewrite P. cbn. now rewrite I3.
Qed.

Lemma no_empty_behind s : no_empty s -> no_empty (behind s).
Proof.
  unfold no_empty, behind. cbn [ar_events]. intro F. induction F as [|e l H F IH]; cbn; [constructor|]. destruct e; auto.
Qed.

Lemma lossy_run m : forall ops f g, no_empty (af_reader f) -> 0 <= af_rem f -> always_ready (af_reader g) ->
  state_of f = state_of g -> content (af_reader g) = kept m f ops ->
  fst (arun m g (ready_ops m f ops)) = filter is_ready (fst (arun m f ops)) /\
  same_bytes (snd (arun m f ops)) (snd (arun m g (ready_ops m f ops))).
Proof.
  induction ops as [|op ops IH]; intros f g F N AR S C.
  - cbn in *. split; auto. apply state_bytes; auto.
  - destruct (waits_dec (af_reader f)) as [W|W].
    + cbn [ready_ops kept] in *. cbn [arun]. destruct (astep m f op) as (x, f1) eqn:E. pose proof (step_rem m f op x f1 F N E) as N1.
      destruct (pending x) eqn:P.
      * destruct (step_pending m f op x f1 F N E P) as (_ & ->). cbn [app] in C |- *.
        destruct (IH (af_set_reader f (behind (af_reader f))) g (no_empty_behind _ F) N1 AR S C) as (I1 & I2).
        rewrite I1. destruct (arun m (af_set_reader f (behind (af_reader f))) ops) as (l, f2). cbn [fst snd filter] in *.
        unfold is_ready at 2. rewrite P. cbn. auto.
      * destruct (step_ready m f op x f1 F E P) as (F1 & _ & _ & T). destruct (T W g _ AR S C) as (g1 & E1 & S1 & AR1 & C1).
        cbn [app arun]. rewrite E1. destruct (IH f1 g1 F1 N1 AR1 S1 C1) as (I1 & I2).
        destruct (arun m g1 (ready_ops m f1 ops)) as (l', g2). destruct (arun m f1 ops) as (l, f2). cbn [fst snd filter] in *.
        unfold is_ready at 1. rewrite P. cbn. rewrite I1. auto.
    + assert (ARf: always_ready (af_reader f)) by (apply never_waits; auto).
      destruct (ready_all m (op :: ops) f ARf) as (K & O & R). rewrite K in C. rewrite O, R.
      destruct (chunking m f g (op :: ops) ARf AR N) as (H1 & H2); [apply state_bytes; auto|]. auto.
Qed.

(** How many bytes a poll for an item can lose. *)
Lemma item_loss m b f f' : no_empty (af_reader f) -> item_next m b f = (SPending, f') -> len (at_hand (af_reader f)) < byte_size b.
Proof.
  intros F E. unfold item_next in E. destruct (af_rem f =? 0); [discriminate|].
  destruct (Z.ltb_spec (len (at_hand (af_reader f))) (byte_size b)) as [L|L]; auto. exfalso.
  assert (H: forall evs n got buf, Forall (fun e => e <> Chunk []) evs -> n <= len (buf ++ pieces evs) -> fst (take_loop n got buf evs) <> Pending).
  { clear. induction evs as [|ev evs IH]; intros n got buf F L; cbn [take_loop]; destruct (n <=? len buf) eqn:LE; try discriminate.
    inversion F; subst. destruct ev as [|c]; [cbn in L; rewrite app_nil_r in L; lia|]. destruct c as [|a c]; [congruence|].
    apply IH; auto. cbn [pieces] in L. unfold len in *. rewrite !app_length in *. lia. }
  specialize (H (ar_events (af_reader f)) (byte_size b) [] (ar_buf (af_reader f)) F L).
  unfold poll_read_exact in E. destruct (take_loop (byte_size b) [] (ar_buf (af_reader f)) (ar_events (af_reader f))) as ([|r], s); [apply H; reflexivity|].
  destruct r as [buf|e|]; try discriminate. destruct (u64_result m (af_rem f - byte_size b)); discriminate.
Qed.

(** ** In the form of the properties *)

Lemma pending_drops m f op x f' : no_empty (af_reader f) -> 0 <= af_rem f ->
  astep m f op = (x, f') -> pending x = true ->
  In Wait (ar_events (af_reader f)) /\ f' = af_set_reader f (behind (af_reader f)) /\
  content (af_reader f) = at_hand (af_reader f) ++ content (af_reader f').
Proof.
  intros F N E P. destruct (step_pending m f op x f' F N E P) as (W & ->). repeat split; auto.
  rewrite content_hand. cbn [af_set_reader af_reader]. unfold behind, content. cbn. reflexivity.
Qed.

Lemma lossy_run_on m ops f g : no_empty (af_reader f) -> 0 <= af_rem f -> always_ready (af_reader g) ->
  af_start g = af_start f -> af_rem g = af_rem f -> af_num g = af_num f -> af_error g = af_error f ->
  content (af_reader g) = kept m f ops ->
  fst (arun m g (ready_ops m f ops)) = filter (fun x => negb (pending x)) (fst (arun m f ops)) /\
  same_bytes (snd (arun m f ops)) (snd (arun m g (ready_ops m f ops))).
Proof.
  intros F N AR E1 E2 E3 E4 C. apply (lossy_run m ops f g F N AR); auto. unfold state_of. now rewrite E1, E2, E3, E4.
Qed.

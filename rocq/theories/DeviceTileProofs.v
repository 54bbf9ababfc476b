(** The RICE decoder on a device that fails. *)

From Verif Require Import Base Text Card Reader Header Xtension Bytes Fits ImageIt BinTable Rice Float Tile.
From Verif Require Import Device DeviceTable DeviceTile.
From Verif Require Import SpecUtf8 SpecCard SpecHeader SpecXt SpecFits SpecImage SpecBin SpecDevice SpecDeviceTable.
From Verif Require Import DeviceProofs DeviceProofs2 DeviceTableProofs.

Definition suffix (src' src : list Z) : Prop := exists pre, src = pre ++ src'.
Definition lift {A} (r : reader) (x : res (A * list Z)) : outcome A :=
  match x with
  | Ok (a, src) => Got a (left_with r src)
  | Err e => Lost e (left_with r [])
  | Panic => Broke
  end.
Definition lost {A} (y : outcome A) : Prop := exists e r, y = Lost e r.

Lemma suffix_refl l : suffix l l. Proof. exists []. reflexivity. Qed.
Lemma suffix_trans a b c : suffix a b -> suffix b c -> suffix a c.
Proof. intros (p & ->) (q & ->). exists (q ++ p). now rewrite app_assoc. Qed.
Lemma suffix_nil l : suffix [] l. Proof. exists l. now rewrite app_nil_r. Qed.

Lemma left_pos r src : 0 <= rd_pos r -> suffix src (rd_rest r) -> 0 <= rd_pos (left_with r src).
Proof. intros P (pre & E). unfold left_with. cbn [rd_pos]. rewrite E. unfold len. rewrite app_length. lia. Qed.
Lemma left_rest r src : 0 <= rd_pos r -> suffix src (rd_rest r) -> rd_rest (left_with r src) = src.
Proof.
  intros P (pre & E). unfold left_with, rd_rest at 1. cbn [rd_data rd_pos]. rewrite E. unfold len. rewrite app_length.
  replace (Z.to_nat (rd_pos r + (Z.of_nat (length pre + length src) - Z.of_nat (length src))))
    with (Z.to_nat (rd_pos r) + length pre)%nat by lia.
  rewrite skipn_add. fold (rd_rest r). rewrite E. rewrite skipn_app, skipn_all, Nat.sub_diag. reflexivity.
Qed.
Lemma left_left r src src2 : 0 <= rd_pos r -> suffix src (rd_rest r) -> left_with (left_with r src) src2 = left_with r src2.
Proof.
  intros P S. unfold left_with at 1. rewrite left_rest by auto. unfold left_with. cbn [rd_data rd_pos]. f_equal. lia.
Qed.
Lemma left_all r : left_with r (rd_rest r) = r.
Proof. unfold left_with. destruct r as (d, p). cbn [rd_data rd_pos]. f_equal. lia. Qed.
Lemma lift_left {A} r src (x : res (A * list Z)) : 0 <= rd_pos r -> suffix src (rd_rest r) ->
  lift (left_with r src) x = lift r x.
Proof. intros P S. destruct x as [(a, s)|e|]; cbn; try reflexivity; now rewrite left_left. Qed.

(** ** Parts *)

Definition ptracks {A} (d : part A) (p : list Z -> res (A * list Z)) : Prop :=
  (forall src a src', p src = Ok (a, src') -> suffix src' src) /\
  forall r, 0 <= rd_pos r -> tracks (d r) (lift r (p (rd_rest r))) lost.

Lemma tracks_ext {A} (d d' : faults -> A * faults) p bad : (forall fs, d fs = d' fs) -> tracks d p bad -> tracks d' p bad.
Proof. intros E (N & H). exists N. intros fs x fs' D. apply H. now rewrite E. Qed.

Lemma then_tracks {A B} (d : part A) p (k : A -> part B) q r :
  0 <= rd_pos r -> tracks (d r) (lift r (p (rd_rest r))) lost ->
  (forall a src', p (rd_rest r) = Ok (a, src') -> suffix src' (rd_rest r) /\
     tracks (k a (left_with r src')) (lift (left_with r src') (q a src')) lost) ->
  tracks (then_ d k r) (lift r (let! (a, src') := p (rd_rest r) in q a src')) lost.
Proof.
  intros P T K. unfold then_.
  pose (K' := fun (o : outcome A) (fs1 : faults) =>
    match o with Got a r' => k a r' fs1 | Lost e r' => (Lost e r', fs1) | Broke => (Broke, fs1) end : outcome B * faults).
  apply tracks_ext with (d := fun fs => let (a, fs1) := d r fs in K' a fs1).
  { intro fs. destruct (d r fs) as ([a r'|e r'|], fs1); reflexivity. }
  eapply tracks_bind; [exact T| |].
  - intros o fs (e & r' & ->). cbn [K']. eexists. split; [reflexivity|]. exists e, r'. reflexivity.
  - destruct (p (rd_rest r)) as [(a, src')|e|] eqn:E; cbn [lift bind K'].
    + destruct (K a src' eq_refl) as (S & T2). rewrite lift_left in T2 by auto. exact T2.
    + apply tracks_ret.
    + apply tracks_ret.
Qed.

Lemma ptracks_then {A B} (d : part A) p (k : A -> part B) q :
  ptracks d p -> (forall a, ptracks (k a) (q a)) -> ptracks (then_ d k) (fun src => let! (a, src') := p src in q a src').
Proof.
  intros (S & T) K. split.
  - intros src b src' E. destruct (p src) as [(a, s1)|e|] eqn:E1; try discriminate. cbn [bind] in E.
    destruct (K a) as (S2 & _). eapply suffix_trans; eauto.
  - intros r P. apply then_tracks; auto. intros a src' E. split; eauto. destruct (K a) as (_ & T2).
    pose proof (S _ _ _ E) as Sf. specialize (T2 (left_with r src') (left_pos _ _ P Sf)).
    now rewrite left_rest in T2.
Qed.
Lemma ptracks_then2 {A A2 B} (d : part (A * A2)) p (k : A * A2 -> part B) q :
  ptracks d p -> (forall a b, ptracks (k (a, b)) (q a b)) ->
  ptracks (then_ d k) (fun src => let! (ab, src') := p src in let (a, b) := ab in q a b src').
Proof.
  intros H K. apply (ptracks_then d p k (fun ab src' => let (a, b) := ab in q a b src')); auto. intros (a, b). apply K.
Qed.
Lemma ptracks_then3 {A A2 A3 B} (d : part (A * A2 * A3)) p (k : A * A2 * A3 -> part B) q :
  ptracks d p -> (forall a b c, ptracks (k (a, b, c)) (q a b c)) ->
  ptracks (then_ d k) (fun src => let! (abc, src') := p src in let '(a, b, c) := abc in q a b c src').
Proof.
  intros H K. apply (ptracks_then d p k (fun abc src' => let '(a, b, c) := abc in q a b c src')); auto. intros ((a, b), c). apply K.
Qed.
Lemma ptracks_give {A} (a : A) : ptracks (give a) (fun src => Ok (a, src)).
Proof.
  split.
  - intros src b src' E. injection E as <- <-. apply suffix_refl.
  - intros r P. cbn [lift]. rewrite left_all. apply tracks_ret.
Qed.
Lemma ptracks_pure {A B} (x : res A) (k : A -> part B) q :
  (forall e, x <> Err e) -> (forall a, ptracks (k a) (q a)) ->
  ptracks (then_ (pure x) k) (fun src => let! a := x in q a src).
Proof.
  intros N K. destruct x as [a|e|].
  - destruct (K a) as (S & T). split; [exact S|]. intros r P. apply tracks_ext with (d := k a r); [reflexivity|]. exact (T r P).
  - destruct (N e eq_refl).
  - split; [discriminate|]. intros r P. cbn. apply tracks_ret.
Qed.
Lemma ptracks_ext {A} (d : part A) p p' : (forall src, p src = p' src) -> ptracks d p -> ptracks d p'.
Proof.
  intros E (S & T). split.
  - intros src a src' H. rewrite <- E in H. eauto.
  - intros r P. rewrite <- E. auto.
Qed.
Lemma ptracks_at {A} (d : part A) p r : ptracks d p -> 0 <= rd_pos r -> tracks (d r) (lift r (p (rd_rest r))) lost.
Proof. intros (_ & T). auto. Qed.

Lemma ptracks_bytes {A} (f : list Z -> res (A * list Z)) :
  (forall src a src', f src = Ok (a, src') -> suffix src' src) -> (forall src, f src <> Panic) -> ptracks (dev_bytes f) f.
Proof.
  intros S NP. split; [exact S|]. intros r P. unfold dev_bytes.
  match goal with |- context [device_call _ r ?c] => pose proof (tracks_call r c) as T; set (c0 := c) in * end.
  pose (K := fun (y : res A * reader) (fs1 : faults) =>
    match y with (Ok a, r') => (Got a r', fs1) | (Err e, r') => (Lost e r', fs1) | (Panic, _) => (Broke, fs1) end : outcome A * faults).
  apply tracks_ext with (d := fun fs => let (y, fs1) := device_call fs r c0 in K y fs1).
  { intro fs. destruct (device_call fs r c0) as ((x, r'), fs1). destruct x; reflexivity. }
  eapply tracks_bind; [exact T| |].
  - intros (x, r') fs E. cbn [fst] in E. subst x. cbn [K]. eexists. split; [reflexivity|]. eexists _, _. reflexivity.
  - unfold c0. destruct (f (rd_rest r)) as [(a, src)|e|] eqn:E; cbn [lift K]; try apply tracks_ret.
Qed.
Lemma u8_ptracks : ptracks dev_u8 read_u8.
Proof.
  apply ptracks_bytes.
  - intros [|x src] a src' E; cbn in E; try discriminate. injection E as <- <-. exists [x]. reflexivity.
  - intros [|x src]; discriminate.
Qed.
Lemma first_ptracks t : ptracks (dev_first t) (read_first t).
Proof.
  apply ptracks_bytes; unfold read_first; intro src; destruct (len src <? Z.of_nat (rsize t)); try discriminate.
  intros a src' E. injection E as _ <-. exists (firstn (rsize t) src). now rewrite firstn_skipn.
Qed.

(** ** The loops over bytes *)

(** A step of such a loop. *)
Lemma byte_then {B} (k : Z -> part B) q r :
  0 <= rd_pos r ->
  (forall x src, rd_rest r = x :: src -> tracks (k x (left_with r src)) (lift (left_with r src) (q x src)) lost) ->
  tracks (then_ dev_u8 k r) (lift r (match rd_rest r with [] => Err EEof | x :: src => q x src end)) lost.
Proof.
  intros P H. pose proof (then_tracks dev_u8 read_u8 k q r P (ptracks_at _ _ _ u8_ptracks P)) as T.
  destruct (rd_rest r) as [|x src] eqn:E; cbn [read_u8 bind] in T; apply T.
  - intros a src'. discriminate.
  - intros a src' F. injection F as <- <-. split; [exists [x]; reflexivity|]. auto.
Qed.

Lemma fill_loop_tracks n : forall b nb r, 0 <= rd_pos r -> length (rd_rest r) = n ->
  tracks (dev_fill_loop n b nb r) (lift r (fill b nb (rd_rest r))) lost.
Proof.
  induction n as [|n IH]; intros b nb r P L; cbn [dev_fill_loop].
  - assert (E: rd_rest r = []) by (destruct (rd_rest r); [reflexivity|discriminate]).
    destruct (nb <? 0) eqn:C.
    + replace (fill b nb (rd_rest r)) with (match rd_rest r with [] => Err EEof | x :: src => @Panic (Z * Z * list Z) end)
        by (rewrite E; cbn; now rewrite C).
      apply (byte_then _ (fun _ _ => @Panic (Z * Z * list Z))); auto. intros x src F. rewrite E in F. discriminate.
    + replace (fill b nb (rd_rest r)) with (Ok (b, nb, rd_rest r)) by (rewrite E; cbn; now rewrite C).
      apply (ptracks_at _ (fun src => Ok (b, nb, src)) r (ptracks_give _) P).
  - destruct (rd_rest r) as [|x src] eqn:E; [discriminate|]. cbn [fill]. rewrite <- E. destruct (nb <? 0) eqn:C.
    + replace (fill (Z.lor (as_u32 (Z.shiftl b 8)) x) (nb + 8) src)
        with (match rd_rest r with [] => Err EEof | x :: src => fill (Z.lor (as_u32 (Z.shiftl b 8)) x) (nb + 8) src end) by now rewrite E.
      apply (byte_then _ (fun x src => fill (Z.lor (as_u32 (Z.shiftl b 8)) x) (nb + 8) src)); auto.
      intros y s F. rewrite E in F. injection F as <- <-.
      assert (Sf: suffix src (rd_rest r)) by (rewrite E; exists [x]; reflexivity).
      specialize (IH (Z.lor (as_u32 (Z.shiftl b 8)) x) (nb + 8) (left_with r src) (left_pos _ _ P Sf)).
      rewrite left_rest in IH by auto. apply IH. now injection L.
    + apply (ptracks_at _ (fun src => Ok (b, nb, src)) r (ptracks_give _) P).
Qed.
Lemma fill_suffix src : forall b nb a src', fill b nb src = Ok (a, src') -> suffix src' src.
Proof.
  induction src as [|x src IH]; intros b nb a src' E; cbn [fill] in E; destruct (nb <? 0); try discriminate.
  - injection E as _ <-. apply suffix_refl.
  - eapply suffix_trans; [eapply IH; exact E|]. exists [x]. reflexivity.
  - injection E as _ <-. apply suffix_refl.
Qed.
Lemma fill_ptracks b nb : ptracks (dev_fill b nb) (fill b nb).
Proof. split; [intros src a src'; apply fill_suffix|]. intros r P. unfold dev_fill. now apply fill_loop_tracks. Qed.

Lemma high_loop_tracks n : forall b df k r, 0 <= rd_pos r -> length (rd_rest r) = n ->
  tracks (dev_high_loop n b df k r) (lift r (high_bytes b df k (rd_rest r))) lost.
Proof.
  induction n as [|n IH]; intros b df k r P L; cbn [dev_high_loop].
  - assert (E: rd_rest r = []) by (destruct (rd_rest r); [reflexivity|discriminate]).
    destruct (0 <=? k) eqn:C.
    + replace (high_bytes b df k (rd_rest r)) with (match rd_rest r with [] => Err EEof | x :: src => @Panic (Z * Z * Z * list Z) end)
        by (rewrite E; cbn; now rewrite C).
      apply (byte_then _ (fun _ _ => @Panic (Z * Z * Z * list Z))); auto. intros x src F. rewrite E in F. discriminate.
    + replace (high_bytes b df k (rd_rest r)) with (Ok (b, df, k, rd_rest r)) by (rewrite E; cbn; now rewrite C).
      apply (ptracks_at _ (fun src => Ok (b, df, k, src)) r (ptracks_give _) P).
  - destruct (rd_rest r) as [|x src] eqn:E; [discriminate|]. cbn [high_bytes]. rewrite <- E. destruct (0 <=? k) eqn:C.
    + replace (high_bytes x (Z.lor df (as_u32 (Z.shiftl x k))) (k - 8) src)
        with (match rd_rest r with [] => Err EEof | x :: src => high_bytes x (Z.lor df (as_u32 (Z.shiftl x k))) (k - 8) src end) by now rewrite E.
      apply (byte_then _ (fun x src => high_bytes x (Z.lor df (as_u32 (Z.shiftl x k))) (k - 8) src)); auto.
      intros y s F. rewrite E in F. injection F as <- <-.
      assert (Sf: suffix src (rd_rest r)) by (rewrite E; exists [x]; reflexivity).
      specialize (IH x (Z.lor df (as_u32 (Z.shiftl x k))) (k - 8) (left_with r src) (left_pos _ _ P Sf)).
      rewrite left_rest in IH by auto. apply IH. now injection L.
    + apply (ptracks_at _ (fun src => Ok (b, df, k, src)) r (ptracks_give _) P).
Qed.
Lemma high_suffix src : forall b df k a src', high_bytes b df k src = Ok (a, src') -> suffix src' src.
Proof.
  induction src as [|x src IH]; intros b df k a src' E; cbn [high_bytes] in E; destruct (0 <=? k); try discriminate.
  - injection E as _ <-. apply suffix_refl.
  - eapply suffix_trans; [eapply IH; exact E|]. exists [x]. reflexivity.
  - injection E as _ <-. apply suffix_refl.
Qed.
Lemma high_ptracks b df k : ptracks (dev_high_bytes b df k) (high_bytes b df k).
Proof. split; [intros src a src'; apply high_suffix|]. intros r P. unfold dev_high_bytes. now apply high_loop_tracks. Qed.

Lemma i32_no_err m z e : i32_result m z <> Err e.
Proof. unfold i32_result. destruct ((- 2 ^ 31 <=? z) && (z <? 2 ^ 31)), m; discriminate. Qed.
Lemma shl_no_err m x n e : shl32 m x n <> Err e.
Proof. unfold shl32. destruct ((0 <=? n) && (n <? 32)), m; discriminate. Qed.
Lemma shr_no_err m x n e : shr32 m x n <> Err e.
Proof. unfold shr32. destruct ((0 <=? n) && (n <? 32)), m; discriminate. Qed.
Lemma low_no_err m x n e : low_bits m x n <> Err e.
Proof. unfold low_bits. pose proof (shl_no_err m 1 n). destruct (shl32 m 1 n); cbn; congruence. Qed.
Lemma count_no_err b e : nonzero_count b <> Err e.
Proof. unfold nonzero_count. destruct (nth_error NONZERO_COUNT (Z.to_nat b)); discriminate. Qed.

Lemma pure_then_tracks {A B} (x : res A) (k : A -> part B) q r :
  (forall e, x <> Err e) -> (forall a, x = Ok a -> tracks (k a r) (lift r (q a)) lost) ->
  tracks (then_ (pure x) k r) (lift r (let! a := x in q a)) lost.
Proof.
  intros N K. destruct x as [a|e|].
  - apply tracks_ext with (d := k a r); [reflexivity|]. now apply K.
  - destruct (N e eq_refl).
  - cbn. apply tracks_ret.
Qed.

Lemma skip_loop_tracks m n : forall b nb r, 0 <= rd_pos r -> length (rd_rest r) = n ->
  tracks (dev_skip_loop m n b nb r) (lift r (skip_zeros m b nb (rd_rest r))) lost.
Proof.
  induction n as [|n IH]; intros b nb r P L; cbn [dev_skip_loop].
  - assert (E: rd_rest r = []) by (destruct (rd_rest r); [reflexivity|discriminate]).
    destruct (b =? 0) eqn:C.
    + replace (skip_zeros m b nb (rd_rest r)) with (let! n := i32_result m (nb + 8) in match rd_rest r with [] => Err EEof | x :: src => @Panic (Z * Z * list Z) end)
        by (rewrite E; cbn; rewrite C; now destruct (i32_result m (nb + 8))).
      apply pure_then_tracks; [apply i32_no_err|]. intros n' _.
      apply (byte_then _ (fun _ _ => @Panic (Z * Z * list Z))); auto. intros x src F. rewrite E in F. discriminate.
    + replace (skip_zeros m b nb (rd_rest r)) with (Ok (b, nb, rd_rest r)) by (rewrite E; cbn; now rewrite C).
      apply (ptracks_at _ (fun src => Ok (b, nb, src)) r (ptracks_give _) P).
  - destruct (rd_rest r) as [|x src] eqn:E; [discriminate|]. cbn [skip_zeros]. rewrite <- E. destruct (b =? 0) eqn:C.
    + match goal with |- tracks _ (lift r ?t) _ =>
        replace t with (let! n := i32_result m (nb + 8) in match rd_rest r with [] => Err EEof | x :: src => skip_zeros m x n src end)
          by (rewrite E; destruct (i32_result m (nb + 8)); reflexivity) end.
      apply pure_then_tracks; [apply i32_no_err|]. intros n' _.
      apply (byte_then _ (fun x src => skip_zeros m x n' src)); auto.
      intros y s F. rewrite E in F. injection F as <- <-.
      assert (Sf: suffix src (rd_rest r)) by (rewrite E; exists [x]; reflexivity).
      specialize (IH x n' (left_with r src) (left_pos _ _ P Sf)).
      rewrite left_rest in IH by auto. apply IH. now injection L.
    + apply (ptracks_at _ (fun src => Ok (b, nb, src)) r (ptracks_give _) P).
Qed.
Lemma skip_suffix m src : forall b nb a src', skip_zeros m b nb src = Ok (a, src') -> suffix src' src.
Proof.
  induction src as [|x src IH]; intros b nb a src' E; cbn [skip_zeros] in E; destruct (b =? 0).
  - destruct (i32_result m (nb + 8)); discriminate.
  - injection E as _ <-. apply suffix_refl.
  - destruct (i32_result m (nb + 8)) as [n|e|]; try discriminate.
    eapply suffix_trans; [eapply IH; exact E|]. exists [x]. reflexivity.
  - injection E as _ <-. apply suffix_refl.
Qed.
Lemma skip_ptracks m b nb : ptracks (dev_skip_zeros m b nb) (skip_zeros m b nb).
Proof. split; [intros src a src'; apply skip_suffix|]. intros r P. unfold dev_skip_zeros. now apply skip_loop_tracks. Qed.

(** ** Steps *)

Definition as_parts (x : res (Z * bitbuf)) : res (Z * Z * Z * list Z) :=
  let! (cur, q) := x in Ok (cur, q_b q, q_n q, q_src q).

Ltac no_err := first [apply i32_no_err|apply shl_no_err|apply shr_no_err|apply low_no_err|apply count_no_err].
Ltac crush := repeat (reflexivity || match goal with
  | |- context [bind ?x _] => lazymatch x with bind _ _ => fail | _ => destruct x; cbn [bind] end
  | |- context [let (_, _) := ?x in _] => destruct x; cbn [bind] end).

Lemma low_step_ptracks b nb lp : ptracks (dev_low_step b nb lp) (fun src => as_parts (low_step (mk_bitbuf b nb src) lp)).
Proof. apply (ptracks_give (lp, b, nb)). Qed.

Lemma high_step_ptracks m t b nb lp :
  ptracks (dev_high_step m t b nb lp) (fun src => as_parts (high_step m t (mk_bitbuf b nb src) lp)).
Proof.
  unfold dev_high_step. cbv zeta.
  eapply ptracks_ext; [|eapply ptracks_then3; [apply high_ptracks|]; intros b1 df k;
    eapply ptracks_then2; [|intros b2 df2; eapply ptracks_pure; [no_err|intro cur; apply ptracks_give]]].
  2: instantiate (1 := fun src => if 0 <? nb then let! (x, src) := read_u8 src in let! d := shr32 m x (- k) in
                          let! b' := low_bits m x nb in Ok (b', Z.lor df d, src) else Ok (0, df, src)).
  - intro src. cbn beta. unfold as_parts, high_step. cbn [q_b q_n q_src].
    destruct (high_bytes b (as_u32 (Z.shiftl b (bbits t - nb))) (bbits t - nb - 8) src) as [(((b1, df), k), s1)|e|]; cbn [bind]; try reflexivity.
    destruct (0 <? nb).
    + destruct (read_u8 s1) as [(x, s2)|e|]; cbn [bind]; try reflexivity.
      destruct (shr32 m x (- k)) as [d|e|]; cbn [bind]; try reflexivity.
      destruct (low_bits m x nb) as [b'|e|]; cbn [bind]; try reflexivity.
      destruct (i32_result m (as_i32 (unmap (Z.lor df d)) + lp)) as [c|e|]; reflexivity.
    + cbn [bind]. destruct (i32_result m (as_i32 (unmap df) + lp)) as [c|e|]; reflexivity.
  - destruct (0 <? nb); [|apply ptracks_give].
    eapply ptracks_then; [apply u8_ptracks|]. intro x.
    eapply ptracks_pure; [no_err|]. intro d. eapply ptracks_pure; [no_err|]. intro b'. apply ptracks_give.
Qed.

Lemma rice_step_ptracks m s b nb lp :
  ptracks (dev_rice_step m s b nb lp) (fun src => as_parts (rice_step m s (mk_bitbuf b nb src) lp)).
Proof.
  unfold dev_rice_step. cbv zeta.
  eapply ptracks_ext; [|eapply ptracks_then2; [apply skip_ptracks|]; intros b1 nb1;
    eapply ptracks_pure; [no_err|]; intro c;
    eapply ptracks_pure; [no_err|]; intro nz;
    eapply ptracks_pure; [no_err|]; intro n1;
    eapply ptracks_pure; [no_err|]; intro nb2;
    eapply ptracks_pure; [no_err|]; intro p;
    eapply ptracks_pure; [no_err|]; intro nb3;
    eapply ptracks_then2; [apply fill_ptracks|]; intros b4 nb4;
    eapply ptracks_pure; [no_err|]; intro top;
    eapply ptracks_pure; [no_err|]; intro low;
    eapply ptracks_pure; [no_err|]; intro b5;
    eapply ptracks_pure; [no_err|]; intro cur; apply ptracks_give].
  intro src. cbn beta. unfold as_parts, rice_step. cbn [q_b q_n q_src].
  destruct (skip_zeros m b nb src) as [((b1, nb1), s1)|e|]; cbn [bind]; try reflexivity.
  destruct (nonzero_count b1) as [c|e|]; cbn [bind]; try reflexivity.
  destruct (i32_result m (nb1 - c)) as [nz|e|]; cbn [bind]; try reflexivity.
  destruct (i32_result m (nz + 1)) as [n1|e|]; cbn [bind]; try reflexivity.
  destruct (i32_result m (nb1 - n1)) as [nb2|e|]; cbn [bind]; try reflexivity.
  destruct (shl32 m 1 nb2) as [p|e|]; cbn [bind]; try reflexivity.
  destruct (i32_result m (nb2 - s)) as [nb3|e|]; cbn [bind]; try reflexivity.
  destruct (fill (Z.lxor b1 p) nb3 s1) as [((b4, nb4), s4)|e|]; cbn [bind]; try reflexivity.
  destruct (shl32 m (as_u32 nz) s) as [top|e|]; cbn [bind]; try reflexivity.
  destruct (shr32 m b4 nb4) as [low|e|]; cbn [bind]; try reflexivity.
  destruct (low_bits m b4 nb4) as [b5|e|]; cbn [bind]; try reflexivity.
  destruct (i32_result m (as_i32 (unmap (Z.lor top low)) + lp)) as [cur|e|]; reflexivity.
Qed.

Lemma fs_step_ptracks m t nblock nx b i lp nb :
  ptracks (dev_fs_step m t nblock nx b i lp nb) (fs_step m t nblock nx b i lp nb).
Proof.
  unfold dev_fs_step. cbv zeta.
  eapply ptracks_ext; [|eapply ptracks_then2; [apply fill_ptracks|]; intros b1 nb1;
    eapply ptracks_pure; [no_err|]; intro f;
    eapply ptracks_pure; [no_err|]; intro b2;
    eapply ptracks_pure; [no_err|]; intro e; apply ptracks_give].
  intro src. cbn beta. unfold fs_step.
  destruct (fill b (nb - fsbits t) src) as [((b1, nb1), s1)|e|]; cbn [bind]; reflexivity.
Qed.

(** ** Blocks *)

Definition block_lift (r : reader) (x : res (Z * bitbuf * Z) * list Z) : outcome (Z * Z * Z * Z) * list Z :=
  (lift r (let! (i, q, lp) := fst x in Ok (i, q_b q, q_n q, lp, q_src q)), snd x).
Definition block_lost {A} (y : outcome A * list Z) : Prop := lost (fst y).

Lemma block_tracks t L step dstep :
  (forall b nb lp, ptracks (dstep b nb lp) (fun src => as_parts (step (mk_bitbuf b nb src) lp))) ->
  forall n i b nb lp out r, 0 <= rd_pos r ->
  tracks (fun fs => dev_block t L dstep n i b nb lp out r fs)
    (block_lift r (block t L step n i (mk_bitbuf b nb (rd_rest r)) lp out)) block_lost.
Proof.
  intros St. induction n as [|n IH]; intros i b nb lp out r P; cbn [dev_block block].
  - unfold block_lift. cbn. rewrite left_all. apply tracks_ret.
  - destruct (len out <? L).
    2:{ unfold block_lift. cbn. rewrite left_all. apply tracks_ret. }
    destruct (St b nb lp) as (Sf & T). specialize (Sf (rd_rest r)). specialize (T r P).
    pose (K := fun (y : outcome (Z * Z * Z)) (fs' : faults) =>
      match y with
      | Got (cur, b', nbits') r' =>
        if len out + Z.of_nat (rsize t) <=? L
        then dev_block t L dstep n (i + 1) b' nbits' cur (out ++ le_bytes (rsize t) cur) r' fs'
        else (Broke, out, fs')
      | Lost e r' => (Lost e r', out, fs')
      | Broke => (Broke, out, fs')
      end : outcome (Z * Z * Z * Z) * list Z * faults).
    apply tracks_ext with (d := fun fs => let (y, fs1) := dstep b nb lp r fs in K y fs1).
    { intro fs. destruct (dstep b nb lp r fs) as ([((c, b'), n') r'|e r'|], fs1); reflexivity. }
    eapply tracks_bind; [exact T| |].
    + intros y fs (e & r' & ->). cbn [K]. eexists. split; [reflexivity|]. exists e, r'. reflexivity.
    + destruct (step (mk_bitbuf b nb (rd_rest r)) lp) as [(cur, q)|e|] eqn:E; cbn [as_parts bind lift K] in *;
        unfold block_lift; cbn [fst snd bind lift]; try apply tracks_ret.
      specialize (Sf _ _ eq_refl).
      destruct (len out + Z.of_nat (rsize t) <=? L); [|apply tracks_ret].
      specialize (IH (i + 1) (q_b q) (q_n q) cur (out ++ le_bytes (rsize t) cur) (left_with r (q_src q)) (left_pos _ _ P Sf)).
      rewrite left_rest in IH by auto. destruct q as (qb, qn, qs). cbn [q_b q_n q_src] in *.
      unfold block_lift in IH. rewrite lift_left in IH by auto. exact IH.
Qed.

Lemma block_step_tracks m t L st out r : 0 <= rd_pos r ->
  tracks (fun fs => dev_block_step m t L st out r fs) (block_lift r (block_step m t L st (rd_rest r) out)) block_lost.
Proof.
  intro P. destruct st; cbn [dev_block_step block_step]; try apply tracks_ret; apply block_tracks; auto; intros.
  - apply low_step_ptracks.
  - apply high_step_ptracks.
  - apply rice_step_ptracks.
Qed.

Lemma block_suffix t L step :
  (forall q lp cur q', step q lp = Ok (cur, q') -> suffix (q_src q') (q_src q)) ->
  forall n i q lp out i' q' lp' out', block t L step n i q lp out = (Ok (i', q', lp'), out') -> suffix (q_src q') (q_src q).
Proof.
  intros St. induction n as [|n IH]; intros i q lp out i' q' lp' out' E; cbn [block] in E.
  - injection E as _ <- _ _. apply suffix_refl.
  - destruct (len out <? L); [|injection E as _ <- _ _; apply suffix_refl].
    destruct (step q lp) as [(cur, q1)|e|] eqn:S1; try discriminate.
    destruct (len out + Z.of_nat (rsize t) <=? L); try discriminate.
    eapply suffix_trans; eauto.
Qed.
Lemma parts_suffix (dstep : Z -> Z -> Z -> part (Z * Z * Z)) (step : bitbuf -> Z -> res (Z * bitbuf)) : (forall b nb lp, ptracks (dstep b nb lp) (fun src => as_parts (step (mk_bitbuf b nb src) lp))) ->
  forall q lp cur q', step q lp = Ok (cur, q') -> suffix (q_src q') (q_src q).
Proof.
  intros H (b, nb, src) lp cur q' E. cbn [q_src]. destruct (H b nb lp) as (Sf & _).
  apply (Sf src (cur, q_b q', q_n q')). rewrite E. reflexivity.
Qed.
Lemma block_step_suffix m t L st src out i q lp out' :
  block_step m t L st src out = (Ok (i, q, lp), out') -> suffix (q_src q) src.
Proof.
  destruct st; cbn [block_step]; try discriminate; intro E; apply block_suffix in E; auto.
  - exact (parts_suffix _ _ low_step_ptracks).
  - exact (parts_suffix _ _ (high_step_ptracks m t)).
  - exact (parts_suffix _ _ (rice_step_ptracks m fs)).
Qed.

(** ** The decoder *)

Definition loop_lift (r : reader) (x : option (res unit) * rstate * list Z * list Z) : option (res unit) * list Z * reader :=
  let '(o, _, src, out) := x in (o, out, left_with r src).
Definition loop_lost {A B} (y : option (res unit) * A * B) : Prop := exists e, fst (fst y) = Some (Err e).

Lemma loop_left r src x : 0 <= rd_pos r -> suffix src (rd_rest r) -> loop_lift (left_with r src) x = loop_lift r x.
Proof. intros P Sf. destruct x as (((o, st), s), out). cbn. now rewrite left_left. Qed.

Lemma start_ptracks t : ptracks (then_ (dev_first t) (fun p => then_ dev_u8 (fun b => give (p, b))))
  (fun src => let! (p, src1) := read_first t src in let! (b, src2) := read_u8 src1 in Ok (p, b, src2)).
Proof. eapply ptracks_then; [apply first_ptracks|]. intro p. eapply ptracks_then; [apply u8_ptracks|]. intro b. apply ptracks_give. Qed.

Lemma read_loop_tracks m t nblock nx L : forall fuel st out r, 0 <= rd_pos r ->
  tracks (fun fs => dev_read_loop m t nblock nx L fuel st out r fs)
    (loop_lift r (read_loop m t nblock nx L fuel st (rd_rest r) out)) loop_lost.
Proof.
  induction fuel as [|f IH]; intros st out r P.
  { cbn. rewrite left_all. apply tracks_ret. }
  assert (Part: forall A (d : part A) p (k : A -> reader -> faults -> _) q, ptracks d p ->
    (forall a r', 0 <= rd_pos r' -> tracks (k a r') (loop_lift r' (q a (rd_rest r'))) loop_lost) ->
    tracks (fun fs => match d r fs with
      | (Got a r', fs') => k a r' fs'
      | (Lost e r', fs') => (Some (Err e), out, r', fs')
      | (Broke, fs') => (Some Panic, out, r, fs')
      end)
      (loop_lift r (match p (rd_rest r) with
      | Ok (a, src') => q a src'
      | Err e => (Some (Err e), st, [], out)
      | Panic => (Some Panic, st, rd_rest r, out)
      end)) loop_lost).
  { intros A d p k q (Sf & T) K. specialize (Sf (rd_rest r)). specialize (T r P).
    pose (K' := fun (y : outcome A) (fs' : faults) =>
      match y with
      | Got a r' => k a r' fs'
      | Lost e r' => (Some (Err e), out, r', fs')
      | Broke => (Some Panic, out, r, fs')
      end).
    apply tracks_ext with (d := fun fs => let (y, fs1) := d r fs in K' y fs1).
    { intro fs. destruct (d r fs) as ([a r'|e r'|], fs1); reflexivity. }
    eapply tracks_bind; [exact T| |].
    - intros y fs (e & r' & ->). cbn [K']. eexists. split; [reflexivity|]. exists e. reflexivity.
    - destruct (p (rd_rest r)) as [(a, src')|e|] eqn:E; cbn [lift K' loop_lift].
      + specialize (Sf _ _ eq_refl). specialize (K a (left_with r src') (left_pos _ _ P Sf)).
        rewrite left_rest, loop_left in K by auto. exact K.
      + apply tracks_ret.
      + rewrite left_all. apply tracks_ret. }
  assert (Blk: forall st, tracks (fun fs => match dev_block_step m t L st out r fs with
      | (Got (i, b, nbits, lastpix) r', out', fs') =>
        let st' := if i =? block_imax st then RFs b i lastpix nbits else st in
        if len out' =? L then (Some (Ok tt), out', r', fs')
        else dev_read_loop m t nblock nx L f st' out' r' fs'
      | (Lost e r', out', fs') => (Some (Err e), out', r', fs')
      | (Broke, out', fs') => (Some Panic, out', r, fs')
      end) (loop_lift r (match block_step m t L st (rd_rest r) out with
      | (Ok (i, q, lastpix), out') =>
        let st' := if i =? block_imax st then RFs (q_b q) i lastpix (q_n q) else st in
        if len out' =? L then (Some (Ok tt), st', q_src q, out')
        else read_loop m t nblock nx L f st' (q_src q) out'
      | (Err e, out') => (Some (Err e), st, [], out')
      | (Panic, out') => (Some Panic, st, rd_rest r, out')
      end)) loop_lost).
  { clear Part st. intro st. pose proof (block_step_tracks m t L st out r P) as T.
    pose (K' := fun (y : outcome (Z * Z * Z * Z) * list Z) (fs' : faults) =>
      match y with
      | (Got (i, b, nbits, lastpix) r', out') =>
        let st' := if i =? block_imax st then RFs b i lastpix nbits else st in
        if len out' =? L then (Some (Ok tt), out', r', fs')
        else dev_read_loop m t nblock nx L f st' out' r' fs'
      | (Lost e r', out') => (Some (Err e), out', r', fs')
      | (Broke, out') => (Some Panic, out', r, fs')
      end).
    apply tracks_ext with (d := fun fs => let (y, fs1) := dev_block_step m t L st out r fs in K' y fs1).
    { intro fs. destruct (dev_block_step m t L st out r fs) as (([(((i, b), nb), lp) r'|e r'|], out'), fs1); reflexivity. }
    eapply tracks_bind; [exact T| |].
    - intros (y, out') fs (e & r' & E). cbn [fst] in E. subst y. cbn [K']. eexists. split; [reflexivity|]. exists e. reflexivity.
    - destruct (block_step m t L st (rd_rest r) out) as ([((i, q), lp)|e|], out') eqn:E; unfold block_lift;
        cbn [fst snd bind lift K' loop_lift].
      + apply block_step_suffix in E. unfold K'. cbv beta iota zeta. destruct (len out' =? L); [apply tracks_ret|].
        specialize (IH (if i =? block_imax st then RFs (q_b q) i lp (q_n q) else st) out' (left_with r (q_src q)) (left_pos _ _ P E)).
        rewrite left_rest, loop_left in IH by auto. exact IH.
      + apply tracks_ret.
      + rewrite left_all. apply tracks_ret. }
  destruct st as [|b i lp nb|b i im lp nb|b i im nb lp|b s i im lp nb].
  - cbn [dev_read_loop read_loop].
    pose proof (Part _ _ _ (fun '(p, b) r' fs' => dev_read_loop m t nblock nx L f (RFs b 0 p 8) out r' fs')
      (fun '(p, b) src' => read_loop m t nblock nx L f (RFs b 0 p 8) src' out) (start_ptracks t)) as Q.
    cbn beta in Q.
    assert (Q': forall (a : Z * Z) r', 0 <= rd_pos r' ->
      tracks ((fun '(p, b) r' fs' => dev_read_loop m t nblock nx L f (RFs b 0 p 8) out r' fs') a r')
        (loop_lift r' ((fun '(p, b) src' => read_loop m t nblock nx L f (RFs b 0 p 8) src' out) a (rd_rest r'))) loop_lost).
    { intros (p, b) r' P'. apply IH. exact P'. }
    specialize (Q Q'). clear Q'.
    match type of Q with tracks _ (loop_lift _ ?t) _ => match goal with |- tracks _ (loop_lift _ ?u) _ => replace u with t end end.
    2:{ destruct (let! (p, src1) := read_first t (rd_rest r) in let! (b, src2) := read_u8 src1 in Ok (p, b, src2)) as [((p, b), s2)|e|]; reflexivity. }
    eapply tracks_ext; [|exact Q]. intro fs. cbn beta.
    destruct (then_ (dev_first t) (fun p => then_ dev_u8 (fun b => give (p, b))) r fs) as ([(p, b) r'|e r'|], fs1); reflexivity.
  - cbn [dev_read_loop read_loop].
    apply (Part _ _ _ (fun st' r' fs' => dev_read_loop m t nblock nx L f st' out r' fs')
      (fun st' src' => read_loop m t nblock nx L f st' src' out) (fs_step_ptracks m t nblock nx b i lp nb)).
    intros a r' P'. apply IH. exact P'.
  - apply (Blk (RLow b i im lp nb)).
  - apply (Blk (RHigh b i im nb lp)).
  - apply (Blk (RRice b s i im lp nb)).
Qed.

(** Proofs about [fits struct] on any file and any device (C89). *)

From Coq Require Import List Lia ZifyBool.
From Verif Require Import Base Text Card Reader Header Xtension Fits Cli Device DeviceCli.
From Verif Require Import TextLemmas PanicProofs PanicProofs2 XtProofs XtProofs2 XtProofs3 FitsProofs FitsProofs3 FitsProofs4 CliProofs ImageIntProofs2 DeviceProofs DeviceProofs2.
From Verif Require Import SpecCard SpecHeader SpecXt SpecFits SpecPanic SpecCli SpecDevice SpecCliAny.

(** ** Any file *)

Lemma print_ok m d f h f' i : 0 <= i ->
  octets d -> rd_data (f_reader f) = d -> 0 <= rd_pos (f_reader f) -> next m f = (IOk h, f') ->
  exists lines, print_hdu m i h = (lines, true) /\
    forall rest l, listing m (i + 1) rest l -> listing m i (h :: rest) (lines ++ l).
Proof.
  intros I O D P N. destruct (next_ok_inv m d f h f' O D P N) as (_ & q & n & Q & NH & _ & _ & size & HS & F').
  destruct (new_hdu_inv _ _ _ _ _ _ _ O Q NH)
    as (c & cards & recs & last & rest & E & F & LE & R & HC & Op & K & PC & XP & HO & _ & HL).
  destruct (ok_offset_inside m d f h f' O D P N) as (B & _).
  unfold print_hdu. rewrite HS. eexists. split; [reflexivity|]. intros rs l L. cbn [app].
  apply (listing_cons m i h rs l) with (n := size); auto.
  - exact (describes_hdu m _ _ _ XP).
  - now apply dec_decimal.
  - apply dec_decimal. lia.
  - apply dec_decimal. apply (size_range m (h_xt h) size HS).
Qed.

Lemma any_loop m d : octets d -> forall fuel i f lines e, 0 <= i ->
  rd_data (f_reader f) = d -> 0 <= rd_pos (f_reader f) ->
  struct_loop m fuel i f = Some (lines, e) ->
  exists hs last, fst (run m (S (length hs)) f) = map IOk hs ++ [last] /\ (length hs < fuel)%nat /\
    listing m i hs lines /\ ended_by last e /\ Forall (fun h => 0 <= h_offset h <= len d) hs.
Proof.
  intro O. induction fuel as [|fuel IH]; intros i f lines e I D P H; [discriminate|]. cbn [struct_loop] in H.
  destruct (next m f) as (x, f') eqn:N. destruct x as [|h|e0|].
  - injection H as <- <-. exists [], INone. cbn [length run map app fst]. rewrite N. split; [reflexivity|]. split; [lia|]. split; [constructor|]. split; [reflexivity|constructor].
  - destruct (print_ok m d f h f' i I O D P N) as (l & E & K). rewrite E in H.
    destruct (struct_loop m fuel (i + 1) f') as [(rest, e1)|] eqn:S; [|discriminate]. injection H as <- <-.
    destruct (ok_offset_inside m d f h f' O D P N) as (B & R & _).
    destruct (IH (i + 1) f' rest e1) as (hs & last & R1 & L1 & K1 & E1 & F1); auto; try lia;
      try (rewrite R; cbn [rd_data rd_pos]; auto; lia).
    exists (h :: hs), last. change (length (h :: hs)) with (Datatypes.S (length hs)).
    remember (Datatypes.S (length hs)) as k eqn:Ek. cbn [run]. rewrite N. destruct (run m k f') as (a, b). cbn [fst] in *. subst a.
    split; [reflexivity|]. split; [lia|]. split; [now apply K|]. split; [exact E1|]. constructor; auto.
  - injection H as <- <-. exists [], (IErr e0). cbn [length run map app fst]. rewrite N. split; [reflexivity|]. split; [lia|]. split; [constructor|]. split; [reflexivity|constructor].
  - injection H as <- <-. exists [], IPanic. cbn [length run map app fst]. rewrite N. split; [reflexivity|]. split; [lia|]. split; [constructor|]. split; [reflexivity|constructor].
Qed.

Lemma any_file m d fuel lines e : octets d -> cli_struct m fuel (mk_reader d 0) = Some (lines, e) ->
  exists hs last, fst (run m (S (length hs)) (opened d)) = map IOk hs ++ [last] /\
    listing m 0 hs lines /\ ended_by last e /\ Forall (fun h => 0 <= h_offset h <= len d) hs.
Proof.
  intros O H. destruct (any_loop m d O fuel 0 (opened d) lines e) as (hs & last & A & _ & B); try (cbn; auto; lia).
  exists hs, last. tauto.
Qed.

(** ** Panics *)

Lemma panic_loop d : octets d -> forall fuel i f lines, 0 <= i ->
  rd_data (f_reader f) = d -> 0 <= rd_pos (f_reader f) ->
  struct_loop Wrapping fuel i f = Some (lines, Panicked) -> exists l f', calls Wrapping f l f' /\ In IPanic l.
Proof.
  intro O. induction fuel as [|fuel IH]; intros i f lines I D P H; [discriminate|]. cbn [struct_loop] in H.
  destruct (next Wrapping f) as (x, f') eqn:N.
  assert (N': next Wrapping (moved f (rd_pos (f_reader f))) = (x, f')) by (rewrite moved_same; exact N).
  destruct x as [|h|e0|]; try discriminate.
  - destruct (print_ok Wrapping d f h f' i I O D P N) as (l & E & K). rewrite E in H.
    destruct (struct_loop Wrapping fuel (i + 1) f') as [(rest, e1)|] eqn:S; [|discriminate]. injection H as <- ->.
    destruct (ok_offset_inside Wrapping d f h f' O D P N) as (B & R & _).
    destruct (IH (i + 1) f' rest) as (c & f2 & C & In2); auto; try lia; try (rewrite R; cbn [rd_data rd_pos]; auto; lia).
    exists (IOk h :: c), f2. split; [|right; exact In2]. eapply calls_next; eauto. discriminate.
  - exists [IPanic], f'. split; [|left; reflexivity]. eapply calls_panic; eauto.
Qed.

Lemma panic_any d fuel lines : octets d -> cli_struct Wrapping fuel (mk_reader d 0) = Some (lines, Panicked) ->
  exists primary q, 0 <= q /\ panics_at d primary q.
Proof.
  intros O H. destruct (panic_loop d O fuel 0 (opened d) lines) as (l & f & C & I); try (cbn; auto; lia).
  exact (run_release d l f O C I).
Qed.

(** ** The end *)

Lemma endless_run m : forall fuel i f, struct_loop m fuel i f = None ->
  exists hs f', run m fuel f = (map IOk hs, f') /\ length hs = fuel /\ yields m f (map IOk hs) f'.
Proof.
  induction fuel as [|fuel IH]; intros i f H; [exists [], f; repeat split; constructor|]. cbn [struct_loop] in H.
  destruct (next m f) as (x, f') eqn:N. destruct x as [|h|e0|]; try discriminate.
  destruct (print_hdu m i h) as (lines, [|]); [|discriminate].
  destruct (struct_loop m fuel (i + 1) f') as [(rest, e1)|] eqn:S; [discriminate|].
  destruct (IH (i + 1) f' S) as (hs & f2 & R & L & Y). exists (h :: hs), f2. cbn [run]. rewrite N, R.
  split; [reflexivity|]. split; [cbn; lia|]. cbn [map].
  eapply (yields_next m f (rd_pos (f_reader f)) (IOk h) f'); [left; reflexivity|rewrite moved_same; exact N|discriminate|exact Y].
Qed.

Lemma ends m d fuel : octets d -> len d < 2 ^ 63 ->
  (forall n l f, run m n (opened d) = (map IOk l, f) -> sizes_fit m (map IOk l)) ->
  len d / 2880 < Z.of_nat fuel -> exists lines e, cli_struct m fuel (mk_reader d 0) = Some (lines, e).
Proof.
  intros O LD SF L. destruct (cli_struct m fuel (mk_reader d 0)) as [(lines, e)|] eqn:E; [eauto|]. exfalso.
  destruct (endless_run m fuel 0 (opened d) E) as (hs & f & R & LH & Y).
  pose proof (iteration_ends m d hs f O LD Y (SF _ _ _ R)) as H. unfold len in H at 1. rewrite LH in H.
  pose proof (Z.div_le_lower_bound (len d) 2880 (Z.of_nat fuel) ltac:(lia) ltac:(lia)). lia.
Qed.

(** ** Devices that fail *)

Lemma device_loop m d : octets d -> forall fuel i f fs, 0 <= i ->
  rd_data (f_reader f) = d -> 0 <= rd_pos (f_reader f) ->
  dev_struct_loop m fuel i f fs = struct_loop m fuel i f \/
  exists lines hs f' e, dev_struct_loop m fuel i f fs = Some (lines, Failed e) /\ (e = EIoOther \/ e = EStatic) /\
    (exists x, In (Some x) fs) /\ run m (length hs) f = (map IOk hs, f') /\ listing m i hs lines /\
    forall l e', struct_loop m fuel i f = Some (l, e') -> exists l', l = lines ++ l'.
Proof.
  intro O. induction fuel as [|fuel IH]; intros i f fs I D P; [auto|]. cbn [struct_loop dev_struct_loop].
  destruct (next_follows m f) as (N & _ & _ & C).
  destruct (dev_next m f fs) as ((x, f1), fs1) eqn:DN. specialize (C _ _ _ _ DN).
  destruct (next m f) as (x0, f0) eqn:Nx. destruct C as [(W & -> & E)|(j & J & F & -> & B)].
  - inversion E; subst. destruct x0 as [|h|e0|]; auto.
    destruct (print_ok m (rd_data (f_reader f)) f h f0 i I O eq_refl P Nx) as (l & El & K). rewrite El.
    destruct (ok_offset_inside m (rd_data (f_reader f)) f h f0 O eq_refl P Nx) as (B & R & _).
    destruct (IH (i + 1) f0 (skipn N fs)) as [->|(lines & hs & f' & e & -> & He & (x & X) & Rn & L & Pre)];
      try lia; try (rewrite R; cbn [rd_data rd_pos]; auto; lia); [auto|].
    right. exists (l ++ lines), (h :: hs), f', e. split; [reflexivity|]. split; [exact He|].
    split; [exists x; rewrite <- (firstn_skipn N fs); apply in_or_app; auto|].
    split; [cbn [length run]; rewrite Nx, Rn; reflexivity|]. split; [now apply K|].
    intros l0 e' S. destruct (struct_loop m fuel (i + 1) f0) as [(rest, e1)|]; [|discriminate].
    destruct (Pre _ _ eq_refl) as (l' & ->). injection S as <- <-. exists l'. now rewrite app_assoc.
  - right. destruct B as (B1 & B2). cbn [fst snd] in B1, B2. destruct F as (_ & k & X). apply nth_error_In in X.
    exists [], [], f. destruct B1 as [->| ->]; [exists EIoOther|exists EStatic]; (split; [reflexivity|]);
      (split; [auto|]); (split; [eauto|]); (split; [reflexivity|]); (split; [constructor|]); intros l e' _; exists l; reflexivity.
Qed.

Lemma device_any m d fuel fs : octets d ->
  dev_cli_struct m fuel (mk_reader d 0) fs = cli_struct m fuel (mk_reader d 0) \/
  exists lines hs f' e, dev_cli_struct m fuel (mk_reader d 0) fs = Some (lines, Failed e) /\ (e = EIoOther \/ e = EStatic) /\
    (exists x, In (Some x) fs) /\ run m (length hs) (opened d) = (map IOk hs, f') /\ listing m 0 hs lines /\
    forall l e', cli_struct m fuel (mk_reader d 0) = Some (l, e') -> exists l', l = lines ++ l'.
Proof. intro O. apply (device_loop m d O fuel 0 (opened d) fs); cbn; auto; lia. Qed.

Lemma device_finished m d fuel fs lines : octets d ->
  dev_cli_struct m fuel (mk_reader d 0) fs = Some (lines, Finished) ->
  cli_struct m fuel (mk_reader d 0) = Some (lines, Finished).
Proof.
  intros O H. destruct (device_any m d fuel fs O) as [E|(l & hs & f & e & E & _)]; rewrite H in E; [auto|discriminate].
Qed.

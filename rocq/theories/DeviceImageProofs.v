(** Proofs about the decoder of the [image] crate on a device that fails. *)

From Verif Require Import Base Text Card Reader Header Xtension Bytes Fits ImageIt BinTable Rice Float Tile ImageInt.
From Verif Require Import Device DeviceTable DeviceTile DeviceImage.
From Verif Require Import SpecUtf8 SpecCard SpecHeader SpecXt SpecFits SpecImage SpecBin SpecRice SpecTile SpecTileBreak SpecImageInt.
From Verif Require Import SpecDevice SpecDeviceTable SpecDeviceTile SpecDeviceImage.
From Verif Require Import HeaderProofs BytesProofs FitsProofs4 ImageProofs ImageIntProofs ImageIntProofs2 ImageIntProofs4.
From Verif Require Import DeviceProofs DeviceProofs2 DeviceTableProofs DeviceTileProofs2.
From Coq Require Import ZifyBool.

(** ** Opening *)

Definition open_bad {A} (x : option (res A)) : Prop := x = Some (Err EIoOther) \/ x = Some (Err EStatic).

Lemma working_dec n fs : working n fs \/ exists j, (j < n)%nat /\ first_fault fs j.
Proof.
  revert fs. induction n as [|n IH]; intro fs; [left; constructor|].
  destruct fs as [|[k|] fs].
  - left. constructor.
  - right. exists 0%nat. split; [lia|]. split; [constructor|]. exists k. reflexivity.
  - destruct (IH fs) as [W|(j & J & W & k & E)].
    + left. constructor; auto.
    + right. exists (S j). split; [lia|]. split; [constructor; auto|]. exists k. exact E.
Qed.

Lemma first_fault_skip N fs j : working N fs -> (N <= j)%nat -> first_fault fs j -> first_fault (skipn N fs) (j - N).
Proof.
  intros W L (Wj & k & E). replace j with (N + (j - N))%nat in Wj by lia. apply working_add in Wj as (_ & Wj).
  split; auto. exists k. rewrite nth_error_skip. replace (N + (j - N))%nat with j by lia. exact E.
Qed.

Lemma working_first n fs j : (n <= j)%nat -> first_fault fs j -> working n fs.
Proof. intros L (W & _). replace j with (n + (j - n))%nat in W by lia. apply working_add in W as (W & _). exact W. Qed.

Lemma find_device m : forall fuel f, exists N, forall fs,
  (working N fs -> dev_find_image m fuel f fs = (find_image m fuel f, skipn N fs)) /\
  (forall j, (j < N)%nat -> first_fault fs j ->
     exists x, dev_find_image m fuel f fs = (x, skipn (S j) fs) /\ open_bad x).
Proof.
  induction fuel as [|fuel IH]; intro f.
  - exists 0%nat. intro fs. split; [reflexivity|intros; lia].
  - destruct (next_device m f) as (N & _ & _ & D). cbn [dev_find_image find_image].
    destruct (next m f) as (i, f') eqn:NX. cbn [fst snd] in D.
    assert (STOP: forall x, (match i with
        | IErr e => x = Some (Err e) | IPanic => x = Some Panic | INone => x = Some (Err EDynamic)
        | IOk h => match stops_at m h with
                   | Ok (Some k) => x = Some (Ok (h, k, f')) | Ok None => False | Err e => x = Some (Err e) | Panic => x = Some Panic end
        end) ->
      exists N, forall fs,
        (working N fs -> match dev_next m f fs with
          | (IErr e, _, fs') => (Some (Err e), fs') | (IPanic, _, fs') => (Some Panic, fs') | (INone, _, fs') => (Some (Err EDynamic), fs')
          | (IOk h, f', fs') => match stops_at m h with
              | Ok (Some k) => (Some (Ok (h, k, f')), fs') | Ok None => dev_find_image m fuel f' fs'
              | Err e => (Some (Err e), fs') | Panic => (Some Panic, fs') end end = (x, skipn N fs)) /\
        (forall j, (j < N)%nat -> first_fault fs j -> exists x, match dev_next m f fs with
          | (IErr e, _, fs') => (Some (Err e), fs') | (IPanic, _, fs') => (Some Panic, fs') | (INone, _, fs') => (Some (Err EDynamic), fs')
          | (IOk h, f', fs') => match stops_at m h with
              | Ok (Some k) => (Some (Ok (h, k, f')), fs') | Ok None => dev_find_image m fuel f' fs'
              | Err e => (Some (Err e), fs') | Panic => (Some Panic, fs') end end = (x, skipn (S j) fs) /\ open_bad x)).
    { intros x X. exists N. intro fs. destruct (D fs) as (D1 & D2). split.
      - intro W. rewrite (D1 W). destruct i as [|h|e|]; try (rewrite X; reflexivity).
        destruct (stops_at m h) as [[k|]|e|]; try (rewrite X; reflexivity). contradiction.
      - intros j J F. destruct (D2 j J F) as (e & f2 & -> & E & _). exists (Some (Err e)). split; auto.
        unfold open_bad. destruct E as [->| ->]; auto. }
    destruct i as [|h|e|]; [apply STOP; reflexivity| |apply STOP; reflexivity..].
    destruct (stops_at m h) as [[k|]|e|] eqn:SA; [apply STOP; reflexivity| |apply STOP; reflexivity..].
    clear STOP. destruct (IH f') as (N2 & D'). exists (N + N2)%nat. intro fs. destruct (D fs) as (D1 & D2). split.
    + intro W. apply working_add in W as (W1 & W2). rewrite (D1 W1), SA. rewrite (proj1 (D' _) W2), <- skipn_add. reflexivity.
    + intros j J F. destruct (Nat.lt_ge_cases j N) as [L|L].
      * destruct (D2 j L F) as (e & f2 & -> & E & _). exists (Some (Err e)). split; auto.
        unfold open_bad. destruct E as [->| ->]; auto.
      * pose proof (working_first _ _ _ L F) as W. rewrite (D1 W), SA.
        destruct (proj2 (D' (skipn N fs)) (j - N)%nat ltac:(lia) (first_fault_skip _ _ _ W L F)) as (x & -> & B).
        exists x. split; auto. f_equal. rewrite <- skipn_add. f_equal. lia.
Qed.

Lemma opening_device m fuel r : exists N, forall fs,
  (working N fs -> dev_decoder_new m fuel r fs = (decoder_new m fuel r, skipn N fs)) /\
  (forall j, (j < N)%nat -> first_fault fs j ->
     exists e, dev_decoder_new m fuel r fs = (Some (Err e), skipn (S j) fs) /\ (e = EIoOther \/ e = EStatic)).
Proof.
  destruct (find_device m fuel (from_reader r)) as (N & D). exists N. intro fs. destruct (D fs) as (D1 & D2).
  unfold dev_decoder_new, decoder_new. split.
  - intro W. rewrite (D1 W). destruct (find_image m fuel (from_reader r)) as [[((h, k), f)|e|]|]; reflexivity.
  - intros j J F. destruct (D2 j J F) as (x & -> & B). destruct B as [->| ->]; eauto.
Qed.

Lemma opened_healthy m fuel r fs dec fs' : dev_decoder_new m fuel r fs = (Some (Ok dec), fs') -> decoder_new m fuel r = Some (Ok dec).
Proof.
  intro H. destruct (opening_device m fuel r) as (N & D). destruct (D fs) as (D1 & D2).
  destruct (working_dec N fs) as [W|(j & J & F)].
  - rewrite (D1 W) in H. congruence.
  - destruct (D2 j J F) as (e & E & _). congruence.
Qed.

(** ** One loop over the pixels *)

Section Until.
  Context {S : Type} (pull : S -> out (option (list Z)) * S).

  (** The iterator gives these samples, and then [None] once. *)
  Fixpoint until (vs : list (list Z)) (s : S) : Prop :=
    match vs with
    | [] => exists s', pull s = (Some (Ok None), s')
    | v :: r => exists s', pull s = (Some (Ok (Some v)), s') /\ until r s'
    end.

  Lemma zip_until {A} (put : A -> list Z -> A) : forall l vs s, until vs s ->
    fst (zip_write S pull put l s) = Some (Ok (zipw put l vs)).
  Proof.
    induction l as [|x l IH]; intros vs s U; [destruct vs; reflexivity|]. cbn [zip_write].
    destruct vs as [|v vs]; cbn [until] in U.
    - destruct U as (s' & ->). reflexivity.
    - destruct U as (s' & -> & U). specialize (IH vs s' U). destruct (zip_write S pull put l s') as (r, s2).
      cbn [fst] in IH. subst r. reflexivity.
  Qed.
End Until.

Definition pull_list (l : list (list Z)) : out (option (list Z)) * list (list Z) :=
  match l with [] => (Some (Ok None), []) | v :: r => (Some (Ok (Some v)), r) end.

Lemma list_gives p : forall vs, Forall (fun v => len v = p) vs -> gives pull_list vs p vs.
Proof.
  intros vs F. split; auto. intro n. clear F. revert vs. induction n as [|n IH]; intro vs; [reflexivity|].
  cbn [pulls]. destruct vs as [|v vs]; cbn [pull_list fst snd map app firstn repeat]; rewrite IH.
  - cbn [map app]. reflexivity.
  - f_equal. rewrite repeat_cons, app_assoc. set (l := map _ vs ++ repeat _ n).
    assert (LL: length l = (length vs + n)%nat) by (unfold l; rewrite app_length, map_length, repeat_length; lia).
    rewrite (firstn_app n l), LL.
    replace (n - (length vs + n))%nat with 0%nat by lia. cbn [firstn]. now rewrite app_nil_r.
Qed.

Lemma grey_until {S} (pull : S -> out (option (list Z)) * S) b buf s vs :
  Forall (fun v => len v = depth b) vs -> until pull vs s ->
  exists after, write_pixels S pull b false buf s = Some (Ok after) /\
    laid_out (depth b) (channels b false) (place false) vs buf after.
Proof.
  intros F U. destruct (pixels_layout pull_list b false buf vs vs (list_gives _ _ F)) as (after & E & L).
  exists after. split; auto. rewrite <- E. unfold write_pixels, write_luma, write_splat, finish.
  assert (Z: forall A (put : A -> list Z -> A) l, fst (zip_write S pull put l s) = fst (zip_write _ pull_list put l vs)).
  { intros A put l. rewrite (zip_until pull put l vs s U).
    destruct (zip_write_gives pull_list (depth b) put l vs vs (list_gives _ _ F)) as (s' & -> & _). reflexivity. }
  destruct b; destruct (as_chunks _ buf) as (cs, rest); try (rewrite Z; reflexivity);
    destruct (as_chunks 3 cs) as (ps, rest2); rewrite Z; reflexivity.
Qed.

(** ** Images *)

Lemma image_start m fuel d dec im :
  octets d -> decoder_new m fuel (mk_reader d 0) = Some (Ok dec) -> de_kind dec = KImage im -> size_fits im ->
  h_offset (de_hdu dec) + width (im_bitpix im) * SpecImage.pixel_count im <= len d ->
  exists id values, get_image m (de_fits dec) im = Ok id /\
    id_pixels id = at_value d (h_offset (de_hdu dec)) (im_bitpix im) (len values) (Z.of_nat 0) /\
    len values = de_width dec * de_height dec * (if de_rgb dec then 3 else 1) /\
    stored d (h_offset (de_hdu dec)) (im_bitpix im) values /\ de_bitpix dec = im_bitpix im /\
    0 <= de_width dec * de_height dec.
Proof.
  intros O N K SF FIT.
  destruct (image_axes m fuel d dec im O N K) as (BP & NN & AX).
  destruct (decoder_inv m fuel d dec O N) as (f0 & D & P & NX & ST & DE). rewrite K in ST.
  assert (X: h_xt (de_hdu dec) = XtImage im).
  { unfold stops_at in ST. destruct (h_kind (de_hdu dec)), (h_xt (de_hdu dec)) as [im'|t|t]; try discriminate.
    - destruct (hdu_size m (de_hdu dec)) as [n| |]; try discriminate. cbn [bind] in ST. destruct (n =? 0); try discriminate. congruence.
    - destruct (hdu_size m (de_hdu dec)) as [n| |]; try discriminate. cbn [bind] in ST. destruct (n =? 0); try discriminate. congruence.
    - destruct (bt_zimage t); discriminate. }
  assert (PC: SpecImage.pixel_count im = de_width dec * de_height dec * (if de_rgb dec then 3 else 1) /\ 0 <= de_width dec * de_height dec).
  { assert (L0: (len (im_naxisn im) =? 0) = false) by (destruct AX as [(_ & [A|A])|(_ & A)]; rewrite A; reflexivity).
    unfold SpecImage.pixel_count. rewrite L0. destruct AX as [(R & [A|A])|(R & A)]; rewrite R, A in *; inversion NN as [|x1 l1 W0 NN2 E1]; subst x1 l1;
      inversion NN2 as [|x2 l2 H0 NN3 E2]; subst x2 l2; cbn [product]; (split; [ring|apply Z.mul_nonneg_nonneg; assumption]). }
  destruct PC as (PC & N0).
  destruct (after_next m d f0 _ _ im O D P NX X) as (n & IN & NR & HO & F' & IP & G).
  destruct (exact_size m im n IP SF IN) as (EN & PN).
  set (b := im_bitpix im) in *. pose proof (width_pos b) as W.
  destruct (stored_exists d (h_offset (de_hdu dec)) b (Z.to_nat (SpecImage.pixel_count im)) O) as (values & LV & SV); [lia|lia|].
  assert (LV': len values = SpecImage.pixel_count im) by (unfold len; lia).
  eexists. exists values. split; [exact G|]. split; [|rewrite LV'; auto]. cbn [id_pixels].
  unfold it_new, at_value. rewrite byte_size_width, EN, LV'. f_equal; [f_equal; lia|].
  rewrite Z.mul_comm. apply Z.div_mul. lia.
Qed.

Definition fs_tail (fs : faults) : faults := skipn 1 fs.

Lemma pull_ok d o b values sc c v fs : stored d o b values -> nth_error values c = Some v -> working 1 fs ->
  pull_dev_image sc (at_value d o b (len values) (Z.of_nat c), fs)
  = (Some (Ok (Some (image_sample b sc v))), (at_value d o b (len values) (Z.of_nat (S c)), skipn 1 fs)).
Proof.
  intros SV NV W. unfold pull_dev_image. cbn [fst snd].
  destruct (dev_it_next (at_value d o b (len values) (Z.of_nat c)) fs) as ((x, s'), fs') eqn:DN.
  pose proof (dev_it_follows _ _ _ _ _ DN) as F. unfold at_value in F at 1 2. cbn [it_idx it_num] in F.
  assert (I: (c < length values)%nat) by (apply nth_error_Some; congruence).
  assert (NZ: (Z.of_nat c =? len values) = false) by (unfold len; lia). rewrite NZ in F.
  rewrite (next_value _ _ _ _ _ _ SV NV) in F.
  destruct F as [(_ & -> & E)|(j & J & F & _)]; [injection E as -> ->; reflexivity|].
  pose proof (working_no_fault _ _ _ W F). lia.
Qed.

Lemma pull_fault d o b num sc c k fs : Z.of_nat c <> num ->
  pull_dev_image sc (at_value d o b num (Z.of_nat c), Some k :: fs)
  = (Some (Ok None), (mk_it b (mk_reader d (o + width b * Z.of_nat c + k)) num (Z.of_nat c + 1), fs)).
Proof.
  intro NE. unfold pull_dev_image, dev_it_next, at_value. cbn [fst snd it_idx it_num it_ty it_reader].
  rewrite (proj2 (Z.eqb_neq _ _) NE). reflexivity.
Qed.

Lemma pull_end d o b num sc fs :
  pull_dev_image sc (at_value d o b num num, fs) = (Some (Ok None), (at_value d o b num num, fs)).
Proof. unfold pull_dev_image, dev_it_next, at_value. cbn [fst snd it_idx it_num]. rewrite Z.eqb_refl. reflexivity. Qed.

Lemma skipn_nth {A} (l : list A) c v : nth_error l c = Some v -> skipn c l = v :: skipn (S c) l.
Proof. revert c. induction l as [|x l IH]; intros [|c] H; cbn in *; try discriminate; [congruence|]. now apply IH. Qed.

Lemma first_fault_S fs j : first_fault fs (S j) -> working 1 fs /\ first_fault (skipn 1 fs) j.
Proof.
  intro F. pose proof (working_first 1 fs (S j) ltac:(lia) F) as W. split; auto.
  replace j with (S j - 1)%nat by lia. apply first_fault_skip; auto. lia.
Qed.

Lemma first_fault_O fs : first_fault fs 0 -> exists k r, fs = Some k :: r.
Proof. intros (_ & k & E). destruct fs as [|x r]; [discriminate|]. cbn in E. injection E as ->. eauto. Qed.

Lemma image_until d o b values sc : stored d o b values -> forall j c fs,
  (c + j < length values)%nat -> first_fault fs j ->
  until (pull_dev_image sc) (map (image_sample b sc) (firstn j (skipn c values))) (at_value d o b (len values) (Z.of_nat c), fs).
Proof.
  intro SV. induction j as [|j IH]; intros c fs L F.
  - apply first_fault_O in F as (k & r & ->). cbn [firstn map until]. eexists. apply pull_fault. unfold len. lia.
  - apply first_fault_S in F as (W & F). destruct (nth_error values c) as [v|] eqn:NV; [|apply nth_error_None in NV; lia].
    rewrite (skipn_nth _ _ _ NV). cbn [firstn map until]. eexists. split; [apply (pull_ok _ _ _ _ _ _ _ _ SV NV W)|].
    apply IH; auto. lia.
Qed.

Lemma image_until_all d o b values sc : stored d o b values -> forall n c fs,
  (c + n = length values)%nat -> working n fs ->
  until (pull_dev_image sc) (map (image_sample b sc) (skipn c values)) (at_value d o b (len values) (Z.of_nat c), fs).
Proof.
  intro SV. induction n as [|n IH]; intros c fs L W.
  - replace c with (length values) by lia. rewrite skipn_all. cbn [map until]. eexists.
    replace (Z.of_nat (length values)) with (len values) by reflexivity. apply pull_end.
  - destruct (nth_error values c) as [v|] eqn:NV; [|apply nth_error_None in NV; lia].
    change (S n) with (1 + n)%nat in W. apply working_add in W as (W & W2).
    rewrite (skipn_nth _ _ _ NV). cbn [map until]. eexists. split; [apply (pull_ok _ _ _ _ _ _ _ _ SV NV W)|].
    apply IH; auto. lia.
Qed.

Lemma samples_depth b sc l : Forall (fun v => len v = depth b) (map (image_sample b sc) l).
Proof. apply Forall_map. apply Forall_forall. intros v _. apply sample_depth. Qed.

(** ** Three planes *)

Section Breaks.
  Context {S : Type} (pull : S -> out (option (list Z)) * S) (p : Z) (after : list (list Z)).

  (** The iterator gives [before], [None] once, then [after], and then [None] for ever. *)
  Fixpoint breaks (before : list (list Z)) (s : S) : Prop :=
    match before with
    | [] => exists s', pull s = (Some (Ok None), s') /\ gives pull s' p after
    | v :: r => exists s', pull s = (Some (Ok (Some v)), s') /\ breaks r s'
    end.

  Lemma zip_breaks {A} (put : A -> list Z -> A) : forall l before s, breaks before s ->
    exists s', zip_write S pull put l s = (Some (Ok (zipw put l before)), s') /\
      if (length before <? length l)%nat then gives pull s' p after else breaks (skipn (length l) before) s'.
  Proof.
    induction l as [|x l IH]; intros before s B.
    - exists s. split; [destruct before; reflexivity|]. exact B.
    - destruct before as [|v before]; cbn [breaks] in B.
      + destruct B as (s' & E & G). exists s'. cbn [zip_write zipw]. rewrite E. split; [reflexivity|]. exact G.
      + destruct B as (s1 & E & B). destruct (IH before s1 B) as (s' & E2 & G2).
        exists s'. cbn [zip_write zipw length skipn]. rewrite E, E2. split; [reflexivity|].
        change (Datatypes.S (length before) <? Datatypes.S (length l))%nat with (length before <? length l)%nat. exact G2.
  Qed.
End Breaks.

Lemma nth_error_skipn {A} (l : list A) n i : nth_error (skipn n l) i = nth_error l (n + i).
Proof. apply nth_error_skip. Qed.

(** Three channels written one after the other, from these lists. *)
Lemma three_layout (p : nat) buf v0 v1 v2 src vs :
  let cs := chunks (length buf / p) p buf in
  let k := (length cs / 3)%nat in
  let ps := chunks k 3 cs in
  let put c := fun (x : list (list Z)) v => set_nth c v x in
  (0 < p)%nat -> Forall (fun v => length v = p) v0 -> Forall (fun v => length v = p) v1 -> Forall (fun v => length v = p) v2 ->
  (forall i, (i < k)%nat -> nth_error v0 i = nth_error vs (Z.to_nat (src (Z.of_nat k) 0 (Z.of_nat i)))) ->
  (forall i, (i < k)%nat -> nth_error v1 i = nth_error vs (Z.to_nat (src (Z.of_nat k) 1 (Z.of_nat i)))) ->
  (forall i, (i < k)%nat -> nth_error v2 i = nth_error vs (Z.to_nat (src (Z.of_nat k) 2 (Z.of_nat i)))) ->
  laid_out (Z.of_nat p) 3 src vs buf
    (concat (concat (zipw (put 2%nat) (zipw (put 1%nat) (zipw (put 0%nat) ps v0) v1) v2))
     ++ concat (skipn (k * 3) cs) ++ skipn (length buf / p * p) buf).
Proof.
  intros cs k ps put P F0 F1 F2 E0 E1 E2.
  assert (LP: length ps = k) by (unfold ps; apply chunks_length).
  assert (SH: Forall (pixel_shape p) ps) by (apply pixels_shape; auto).
  assert (PU: forall c x v, pixel_shape p x -> length v = p -> pixel_shape p (put c x v)) by (intros; apply set_nth_shape; auto).
  apply pixels_written; auto.
  - rewrite !zipw_length. exact LP.
  - apply (zipw_all _ (fun v => length v = p)); auto. apply (zipw_all _ (fun v => length v = p)); auto.
    apply (zipw_all _ (fun v => length v = p)); auto.
  - fold cs. fold k. intros i c I C. rewrite !zipw_nth. unfold ps, cs. rewrite (pixels_nth p buf k i) by auto.
    specialize (E0 i I). specialize (E1 i I). specialize (E2 i I). unfold put.
    assert (CC: c = 0 \/ c = 1 \/ c = 2) by lia.
    destruct CC as [ -> | [ -> | -> ]]; rewrite <- ?E0, <- ?E1, <- ?E2;
      destruct (nth_error v0 i), (nth_error v1 i), (nth_error v2 i); reflexivity.
Qed.

Lemma gap_before j n c i : c * n + i < j -> gap j n c i = c * n + i.
Proof. intro H. unfold gap. rewrite (proj2 (Z.ltb_lt _ _) H). reflexivity. Qed.

Lemma rgb_breaks {S} (pull : S -> out (option (list Z)) * S) (p : nat) buf s before later :
  let n := len buf / (Z.of_nat p * 3) in
  (0 < p)%nat -> Forall (fun v => length v = p) before -> Forall (fun v => length v = p) later ->
  len before + len later < 3 * n ->
  breaks pull (Z.of_nat p) later before s ->
  exists after, write_rgb S pull p buf s = Some (Ok after) /\
    laid_out (Z.of_nat p) 3 (gap (len before)) (before ++ later) buf after.
Proof.
  intros n P FB FL LT B. unfold write_rgb, as_chunks.
  set (cs := chunks (length buf / p) p buf). set (k := (length cs / 3)%nat). set (ps := chunks k 3 cs).
  assert (LC: length cs = (length buf / p)%nat) by (unfold cs; apply chunks_length).
  assert (EK: n = Z.of_nat k).
  { unfold n. rewrite <- Z.div_div by lia. unfold k. rewrite nat_div_div by lia. rewrite LC, nat_div_div by lia. reflexivity. }
  rewrite EK in LT. clear EK n.
  assert (LP: length ps = k) by (unfold ps; apply chunks_length).
  assert (FS: forall (l : list (list Z)) m, Forall (fun v => length v = p) l -> Forall (fun v => length v = p) (skipn m l)).
  { intros l m F. revert m. induction F; intros [|m]; cbn [skipn]; auto. }
  set (j := length before) in *. assert (J: len before = Z.of_nat j) by reflexivity.
  assert (K0: (0 < k)%nat) by (unfold len in LT; lia).
  assert (IN: forall c i, (c * k + i < j)%nat -> (i < k)%nat ->
    nth_error (before ++ later) (Z.to_nat (gap (len before) (Z.of_nat k) (Z.of_nat c) (Z.of_nat i))) = nth_error before (c * k + i)).
  { intros c i L I. rewrite gap_before by nia. rewrite nth_error_app1 by (fold j; nia). f_equal. nia. }
  assert (NO: forall c i, (i < k)%nat -> (j <= c * k + i)%nat -> (c * k <= j)%nat -> (j < 3 * k)%nat ->
    nth_error (before ++ later) (Z.to_nat (gap (len before) (Z.of_nat k) (Z.of_nat c) (Z.of_nat i))) = None).
  { intros c i I L1 L2 L3. unfold gap. rewrite (proj2 (Z.ltb_ge _ _)) by nia.
    assert (Q: len before / Z.of_nat k = Z.of_nat c).
    { symmetry. apply (Z.div_unique _ _ _ (Z.of_nat j - Z.of_nat c * Z.of_nat k)); [left; nia|]. rewrite J. lia. }
    rewrite Q, Z.eqb_refl. apply nth_error_None. rewrite app_length. unfold len in LT. lia. }
  assert (AF: forall c q i, (i < k)%nat -> (q * k <= j < Datatypes.S q * k)%nat -> (q < c)%nat ->
    nth_error (before ++ later) (Z.to_nat (gap (len before) (Z.of_nat k) (Z.of_nat c) (Z.of_nat i)))
    = nth_error later ((c - q - 1) * k + i)).
  { intros c q i I (Q1 & Q2) C. unfold gap. rewrite (proj2 (Z.ltb_ge _ _)) by nia.
    assert (Q: len before / Z.of_nat k = Z.of_nat q).
    { symmetry. apply (Z.div_unique _ _ _ (Z.of_nat j - Z.of_nat q * Z.of_nat k)); [left; nia|]. rewrite J. lia. }
    rewrite Q. rewrite (proj2 (Z.eqb_neq _ _)) by lia.
    assert (E: Z.to_nat (len before + (Z.of_nat c - Z.of_nat q - 1) * Z.of_nat k + Z.of_nat i) = (j + ((c - q - 1) * k + i))%nat) by nia.
    rewrite E. generalize ((c - q - 1) * k + i)%nat. intro w. rewrite nth_error_app2 by apply Nat.le_add_r. f_equal.
    unfold j. rewrite Nat.add_comm. apply Nat.add_sub. }
  cbn [write_channels].
  destruct (zip_breaks pull _ later (fun x v => set_nth 0 v x) ps before s B) as (s1 & E1 & G1). rewrite E1.
  rewrite LP in G1. fold j in G1. destruct (Nat.ltb_spec j k) as [L1|L1].
  - destruct (zip_write_gives pull _ (fun x v => set_nth 1 v x) (zipw (fun x v => set_nth 0 v x) ps before) s1 _ G1) as (s2 & E2 & G2).
    rewrite E2. rewrite zipw_length, LP in G2.
    destruct (zip_write_gives pull _ (fun x v => set_nth 2 v x) (zipw (fun x v => set_nth 1 v x) (zipw (fun x v => set_nth 0 v x) ps before) later) s2 _ G2) as (s3 & E3 & _).
    rewrite E3. cbn [finish fst]. eexists. split; [reflexivity|].
    apply three_layout; auto; fold cs; fold k; intros i I.
    + destruct (Nat.lt_ge_cases i j) as [L|L].
      * symmetry. exact (IN 0%nat i ltac:(lia) I).
      * rewrite (proj2 (nth_error_None before i)) by (fold j; lia). symmetry. exact (NO 0%nat i I ltac:(lia) ltac:(lia) ltac:(lia)).
    + symmetry. exact (AF 1%nat 0%nat i I ltac:(lia) ltac:(lia)).
    + rewrite nth_error_skipn. symmetry. etransitivity; [exact (AF 2%nat 0%nat i I ltac:(lia) ltac:(lia))|f_equal; lia].
  - destruct (zip_breaks pull _ later (fun x v => set_nth 1 v x) (zipw (fun x v => set_nth 0 v x) ps before) _ s1 G1) as (s2 & E2 & G2).
    rewrite E2. rewrite zipw_length, LP, skipn_length in G2. fold j in G2. destruct (Nat.ltb_spec (j - k) k) as [L2|L2].
    + destruct (zip_write_gives pull _ (fun x v => set_nth 2 v x) (zipw (fun x v => set_nth 1 v x) (zipw (fun x v => set_nth 0 v x) ps before) (skipn k before)) s2 _ G2) as (s3 & E3 & _).
      rewrite E3. cbn [finish fst]. eexists. split; [reflexivity|].
      apply three_layout; auto; fold cs; fold k; intros i I.
      * symmetry. exact (IN 0%nat i ltac:(lia) I).
      * rewrite nth_error_skipn. destruct (Nat.lt_ge_cases (k + i) j) as [L|L].
        -- symmetry. etransitivity; [exact (IN 1%nat i ltac:(lia) I)|f_equal; lia].
        -- rewrite (proj2 (nth_error_None before (k + i))) by (fold j; lia). symmetry. exact (NO 1%nat i I ltac:(lia) ltac:(lia) ltac:(lia)).
      * symmetry. etransitivity; [exact (AF 2%nat 1%nat i I ltac:(lia) ltac:(lia))|f_equal; lia].
    + destruct (zip_breaks pull _ later (fun x v => set_nth 2 v x) (zipw (fun x v => set_nth 1 v x) (zipw (fun x v => set_nth 0 v x) ps before) (skipn k before)) _ s2 G2) as (s3 & E3 & _).
      rewrite E3. cbn [finish fst]. eexists. split; [reflexivity|].
      assert (J3: (j < 3 * k)%nat) by (unfold len in LT; fold j in LT; lia).
      apply three_layout; auto; fold cs; fold k; intros i I.
      * symmetry. exact (IN 0%nat i ltac:(lia) I).
      * rewrite nth_error_skipn. symmetry. etransitivity; [exact (IN 1%nat i ltac:(lia) I)|f_equal; lia].
      * rewrite !nth_error_skipn. destruct (Nat.lt_ge_cases (2 * k + i) j) as [L|L].
        -- symmetry. etransitivity; [exact (IN 2%nat i ltac:(lia) I)|f_equal; lia].
        -- rewrite (proj2 (nth_error_None before (k + (k + i)))) by (fold j; lia). symmetry. exact (NO 2%nat i I ltac:(lia) ltac:(lia) ltac:(lia)).
Qed.

(** Proofs for images asked again after a failure of the device. *)

From Coq Require Import List Lia ZifyBool.
From Verif Require Import Base Text Card Reader Header Xtension Bytes Fits ImageIt Device.
From Verif Require Import SpecUtf8 SpecCard SpecHeader SpecXt SpecFits SpecImage SpecDevice SpecAgain.
From Verif Require Import HeaderProofs FitsProofs FitsProofs2 FitsProofs3 FitsProofs4 BytesProofs ImageProofs DeviceProofs DeviceProofs2 DeviceTableProofs.
Local Open Scope list_scope.
Local Open Scope Z_scope.

Lemma failures_nonneg fs : 0 <= failures fs.
Proof. induction fs as [|[k|] fs]; cbn; lia. Qed.
Lemma moved_by_nonneg b fs : within_pixel b fs -> 0 <= moved_by fs.
Proof. induction 1 as [|[k|] fs H]; cbn in *; lia. Qed.

Definition value_at (d : list Z) (b : bitpix) (p : Z) : Z := decode b (slice d p (width b)).

Definition room (d : list Z) (o : Z) (b : bitpix) (num e : Z) (fs : faults) : Prop :=
  within_pixel b fs /\ e + width b * failures fs <= o /\ o + width b * num - e + moved_by fs <= len d.

Lemma room_tl d o b num e fs : hd_error fs <> None -> (forall k, hd_error fs <> Some (Some k)) ->
  room d o b num e fs -> room d o b num e (tl fs).
Proof.
  intros N K (W & A & B). destruct fs as [|[k|] fs]; [now destruct N|now destruct (K k)|].
  inversion W; subst. cbn in *. split; auto.
Qed.

Lemma room_tl' d o b num e fs : (forall k, hd_error fs <> Some (Some k)) ->
  room d o b num e fs -> room d o b num e (tl fs).
Proof.
  intros K R. destruct fs as [|[k|] fs]; [exact R|now destruct (K k)|].
  apply (room_tl d o b num e (None :: fs)); auto. discriminate.
Qed.

Lemma room_fail d o b num e k fs : room d o b num e (Some k :: fs) ->
  0 <= k <= width b /\ room d o b num (e + (width b - k)) fs /\ room d o b num (e - k) fs.
Proof.
  intros (W & A & B). inversion W; subst. cbn [failures moved_by] in *. pose proof (width_pos b).
  pose proof (moved_by_nonneg b fs ltac:(assumption)).
  repeat split; auto; try lia; nia.
Qed.

Lemma room_pos d o b num e fs : room d o b num e fs -> e <= o /\ o + width b * num - e <= len d.
Proof.
  intros (W & A & B). pose proof (width_pos b). pose proof (failures_nonneg fs). pose proof (moved_by_nonneg _ _ W). nia.
Qed.

Lemma read_late d o b num e c : 0 <= c < num -> e <= o -> o + width b * num - e <= len d ->
  read_be b (mk_reader d (o - e + width b * c))
  = (Ok (value_at d b (o + width b * c - e)), mk_reader d (o - e + width b * (c + 1))).
Proof.
  intros C E L. unfold read_be, read_exact. rewrite byte_size_width. cbn [rd_pos rd_data].
  pose proof (width_pos b).
  destruct (width b =? 0) eqn:E0; [lia|].
  destruct (o - e + width b * c + width b <=? len d) eqn:E1; [|nia].
  unfold value_at. replace (o - e + width b * c) with (o + width b * c - e) by lia.
  f_equal. f_equal. lia.
Qed.

Lemma dev_read_be_ok b fs r : (forall k, hd_error fs <> Some (Some k)) ->
  dev_read_be b fs r = (read_be b r, tl fs).
Proof.
  intro K. unfold dev_read_be, dev_read, device_call, read_be.
  destruct fs as [|[k|] fs]; [|now destruct (K k)|]; cbn [tl]; destruct (read_exact r (byte_size b)) as [[?|?|] ?]; reflexivity.
Qed.

Lemma next_late d o b num e c fs : 0 <= c <= num -> room d o b num e fs ->
  dev_it_next (at_value d (o - e) b num c) fs =
  if c =? num then (None, at_value d (o - e) b num c, fs)
  else match fs with
       | Some k :: fs' => (None, at_value d (o - (e + (width b - k))) b num (c + 1), fs')
       | _ => (Some (value_at d b (o + width b * c - e)), at_value d (o - e) b num (c + 1), tl fs)
       end.
Proof.
  intros C R. destruct (room_pos _ _ _ _ _ _ R) as (P1 & P2).
  unfold dev_it_next, at_value. cbn [it_idx it_num it_ty it_reader].
  destruct (c =? num) eqn:E; auto.
  assert (OK: (forall k, hd_error fs <> Some (Some k)) ->
    (let '(v, r, fs') := dev_read_be b fs (mk_reader d (o - e + width b * c)) in
     (match v with Ok x => Some x | _ => None end, mk_it b r num (c + 1), fs'))
    = (Some (value_at d b (o + width b * c - e)), mk_it b (mk_reader d (o - e + width b * (c + 1))) num (c + 1), tl fs)).
  { intro K. rewrite dev_read_be_ok by auto. rewrite (read_late d o b num e c) by lia. reflexivity. }
  destruct fs as [|[k|] fs].
  - apply OK. discriminate.
  - unfold dev_read_be, dev_read, device_call. cbn [rd_data rd_pos]. do 3 f_equal. f_equal. lia.
  - apply OK. discriminate.
Qed.

Lemma seek_late d o b num e c i : 0 <= i < num -> e <= o -> o + width b * num - e <= len d -> len d < 2 ^ 63 ->
  seek_relative (mk_reader d (o - e + width b * c)) ((i - c) * width b)
  = (Ok tt, mk_reader d (o - e + width b * i)).
Proof.
  intros I E L D. unfold seek_relative. cbn [rd_pos rd_data]. pose proof (width_pos b).
  replace (o - e + width b * c + (i - c) * width b) with (o - e + width b * i) by lia.
  destruct ((0 <=? o - e + width b * i) && (o - e + width b * i <? 2 ^ 64)) eqn:E2; [reflexivity|nia].
Qed.

Lemma value_late m d o b num e c i fs : len d < 2 ^ 63 -> 0 <= c <= num -> 0 <= i -> room d o b num e fs ->
  match dev_read_value m (at_value d (o - e) b num c) fs i with
  | (Ok v, s', fs') => (RValue v, s', fs')
  | (Err _, s', fs') => (RError, s', fs')
  | (Panic, s', fs') => (RPanic, s', fs')
  end =
  if num <=? i then (RError, at_value d (o - e) b num c, fs)
  else match fs with
       | Some k :: fs' => (RError, at_value d (o - (e - k)) b num c, fs')
       | _ => match tl fs with
              | Some k :: fs' => (RError, at_value d (o - (e + (width b - k))) b num (i + 1), fs')
              | _ => (RValue (value_at d b (o + width b * i - e)), at_value d (o - e) b num (i + 1), tl (tl fs))
              end
       end.
Proof.
  intros D C I R. destruct (room_pos _ _ _ _ _ _ R) as (P1 & P2). pose proof (width_pos b).
  unfold dev_read_value. cbn [it_num it_idx it_ty it_reader at_value].
  destruct (num <=? i) eqn:E; [reflexivity|].
  rewrite !as_i64_small by nia. rewrite i64_result_small by nia. cbn [bind].
  rewrite byte_size_width, i64_result_small by nia.
  assert (G: forall fs1, room d o b num e fs1 ->
    match (match dev_it_next (mk_it b (mk_reader d (o - e + width b * i)) num i) fs1 with
           | (Some v, s', fs') => (Ok v, s', fs')
           | (None, s', fs') => (Err EStatic, s', fs')
           end) with
    | (Ok v, s', fs') => (RValue v, s', fs')
    | (Err _, s', fs') => (RError, s', fs')
    | (Panic, s', fs') => (RPanic, s', fs')
    end =
    match fs1 with
    | Some k :: fs' => (RError, at_value d (o - (e + (width b - k))) b num (i + 1), fs')
    | _ => (RValue (value_at d b (o + width b * i - e)), at_value d (o - e) b num (i + 1), tl fs1)
    end).
  { intros fs1 R1. pose proof (next_late d o b num e i fs1 ltac:(lia) R1) as NL.
    unfold at_value at 1 in NL. rewrite NL. destruct (i =? num) eqn:E3; [lia|].
    destruct fs1 as [|[k|] fs1]; reflexivity. }
  unfold dev_seek, device_call. destruct fs as [|[k|] fs].
  - rewrite (seek_late d o b num e c i) by lia. exact (G [] R).
  - cbn [rd_data rd_pos]. unfold at_value. do 3 f_equal. f_equal. lia.
  - rewrite (seek_late d o b num e c i) by lia. apply (room_tl' _ _ _ _ _ (None :: fs)) in R; [|discriminate].
    exact (G fs R).
Qed.

Lemma run_late m d o b num : len d < 2 ^ 63 -> forall ops c e fs,
  0 <= c <= num -> Forall op_ok ops -> room d o b num e fs ->
  exists l c' e' fs', late_run (value_at d b) o (width b) num c e ops fs = (l, c', e', fs') /\
    dev_pixel_run m (at_value d (o - e) b num c) ops fs = (l, at_value d (o - e') b num c', fs') /\
    0 <= c' <= num /\ room d o b num e' fs'.
Proof.
  intros D. induction ops as [|[|i] ops IH]; intros c e fs C F R.
  - exists [], c, e, fs. auto.
  - inversion F; subst. cbn [dev_pixel_run dev_pixel_do late_run]. rewrite next_late by auto.
    assert (G: forall x c1 e1 fs1, 0 <= c1 <= num -> room d o b num e1 fs1 ->
      exists l c' e' fs',
        (let '(l, c2, e2, fs2) := late_run (value_at d b) o (width b) num c1 e1 ops fs1 in (x :: l, c2, e2, fs2))
          = (l, c', e', fs') /\
        (let '(l, s2, fs2) := dev_pixel_run m (at_value d (o - e1) b num c1) ops fs1 in (x :: l, s2, fs2))
          = (l, at_value d (o - e') b num c', fs') /\ 0 <= c' <= num /\ room d o b num e' fs').
    { intros x c1 e1 fs1 C1 R1. destruct (IH c1 e1 fs1 C1 ltac:(assumption) R1) as (l & c' & e' & fs' & A & B & C' & R').
      rewrite A, B. eauto 10. }
    destruct (c =? num) eqn:E; [now apply G|]. destruct fs as [|[k|] fs].
    + apply G; [lia|exact R].
    + apply G; [lia|]. apply (room_fail _ _ _ _ _ _ _ R).
    + apply G; [lia|]. apply (room_tl' _ _ _ _ _ (None :: fs)); [discriminate|exact R].
  - inversion F as [|? ? F1 F2]; subst. cbn in F1. unfold u64 in F1.
    cbn [dev_pixel_run dev_pixel_do late_run]. rewrite value_late by (auto; lia).
    assert (G: forall x c1 e1 fs1, 0 <= c1 <= num -> room d o b num e1 fs1 ->
      exists l c' e' fs',
        (let '(l, c2, e2, fs2) := late_run (value_at d b) o (width b) num c1 e1 ops fs1 in (x :: l, c2, e2, fs2))
          = (l, c', e', fs') /\
        (let '(l, s2, fs2) := dev_pixel_run m (at_value d (o - e1) b num c1) ops fs1 in (x :: l, s2, fs2))
          = (l, at_value d (o - e') b num c', fs') /\ 0 <= c' <= num /\ room d o b num e' fs').
    { intros x c1 e1 fs1 C1 R1. destruct (IH c1 e1 fs1 C1 ltac:(assumption) R1) as (l & c' & e' & fs' & A & B & C' & R').
      rewrite A, B. eauto 10. }
    destruct (num <=? i) eqn:E; [now apply G|].
    assert (G2: forall fs1, room d o b num e fs1 -> forall y,
      y = match fs1 with
          | Some k :: fs' => (RError, i + 1, e + (width b - k), fs')
          | _ => (RValue (value_at d b (o + width b * i - e)), i + 1, e, tl fs1)
          end -> 0 <= snd (fst (fst y)) <= num /\ room d o b num (snd (fst y)) (snd y)).
    { intros fs1 R1 y Y. subst y. destruct fs1 as [|[k|] fs1]; cbn [fst snd].
      - split; [lia|exact R1].
      - split; [lia|]. apply (room_fail _ _ _ _ _ _ _ R1).
      - split; [lia|]. apply (room_tl' _ _ _ _ _ (None :: fs1)); [discriminate|exact R1]. }
    destruct fs as [|[k|] fs].
    + apply G; [lia|exact R].
    + apply G; [lia|]. apply (room_fail _ _ _ _ _ _ _ R).
    + apply (room_tl' _ _ _ _ _ (None :: fs)) in R; [|discriminate]. cbn [tl] in *.
      specialize (G2 fs R _ eq_refl). destruct fs as [|[k|] fs]; cbn [fst snd] in G2; apply G; apply G2.
Qed.

(** ** From the HDU iterator *)

Lemma value_at_stored d b p : octets d -> 0 <= p -> p + width b <= len d -> stored d p b [value_at d b p].
Proof.
  intros O P L. destruct (stored_exists d p b 1 O P ltac:(lia)) as ([|v [|? ?]] & LV & S); try discriminate.
  destruct (stored_nth _ _ _ _ 0 v S eq_refl) as (SL & IR & _).
  unfold value_at. replace (p + width b * Z.of_nat 0) with p in SL by lia. rewrite SL, decode_encode; auto.
Qed.

Lemma image_start m d f fs0 h f' fs im :
  octets d -> rd_data (f_reader f) = d -> 0 <= rd_pos (f_reader f) ->
  dev_next m f fs0 = (IOk h, f', fs) -> h_xt h = XtImage im -> size_fits im ->
  exists id, get_image m f' im = Ok id /\ 0 <= pixel_count im /\
    id_pixels id = at_value d (h_offset h - 0) (im_bitpix im) (pixel_count im) 0.
Proof.
  intros O Hd P DN X SF. pose proof (dev_next_ok _ _ _ _ _ _ DN) as N.
  destruct (after_next m d f h f' im O Hd P N X) as (n & IN & NR & HO & F' & IP & G).
  destruct (exact_size m im n IP SF IN) as (EN & PC). pose proof (width_pos (im_bitpix im)).
  eexists. split; [exact G|]. split; [lia|]. cbn [id_pixels].
  unfold it_new, at_value. rewrite byte_size_width, EN. f_equal; [f_equal; lia|].
  rewrite Z.mul_comm. apply Z.div_mul. lia.
Qed.

Lemma after_late m d o b num e c fs : octets d -> len d < 2 ^ 63 -> 0 <= c <= num -> room d o b num e fs ->
  exists values, stored d (o - e) b values /\ len values = num /\
    forall more, Forall op_ok more ->
      fst (pixel_run m (at_value d (o - e) b num c) more) = pixel_spec values (Z.to_nat c) more.
Proof.
  intros O D C R. destruct (room_pos _ _ _ _ _ _ R) as (P1 & P2).
  destruct (stored_exists d (o - e) b (Z.to_nat num) O) as (values & LV & ST); [lia|rewrite Z2Nat.id by lia; lia|].
  assert (LN: len values = num) by (unfold len; lia).
  exists values. split; auto. split; auto. intros more F.
  destruct (run_history m d (o - e) b values ST D more (Z.to_nat c) ltac:(lia) F) as (c' & _ & H).
  rewrite LN, Z2Nat.id in H by lia. now rewrite H.
Qed.

Lemma image_state m d f fs0 h f' fs im :
  octets d -> rd_data (f_reader f) = d -> 0 <= rd_pos (f_reader f) ->
  dev_next m f fs0 = (IOk h, f', fs) -> h_xt h = XtImage im -> size_fits im ->
  0 <= h_offset h /\
  f' = mk_fits false (h_offset h) (width (im_bitpix im) * pixel_count im) false (mk_reader d (h_offset h)).
Proof.
  intros O Hd P DN X SF. pose proof (dev_next_ok _ _ _ _ _ _ DN) as N.
  destruct (after_next m d f h f' im O Hd P N X) as (n & IN & NR & HO & F' & IP & G).
  destruct (exact_size m im n IP SF IN) as (EN & PC). split; [lia|]. now rewrite <- EN.
Qed.

Lemma next_outside d o n p : 0 <= o -> 0 <= n -> o + in_blocks n < 2 ^ 63 -> 0 <= p < 2 ^ 63 -> ~ o <= p <= o + n ->
  fst (next Checked (mk_fits false o n false (mk_reader d p))) = IPanic.
Proof.
  intros O N B P NO. pose proof (in_blocks_range n) as IB.
  set (f := mk_fits false o n false (mk_reader d o)).
  change (mk_fits false o n false (mk_reader d p)) with (SpecFits.moved f p).
  assert (C: exists r, consume_until_next_hdu Checked (SpecFits.moved f p) = (Panic, r)).
  { destruct (consume_any Checked f p O P N B) as [C|C]; auto. exfalso.
    rewrite consume_skip in C. destruct (skip_of Checked (f_pos_du f) (f_num_du f) p) as [s|e|] eqn:SK; try discriminate.
    apply skip_ok in SK as (_ & _ & SK). specialize (SK eq_refl). cbn in SK. lia. }
  destruct C as (r & C). unfold next. rewrite C. reflexivity.
Qed.

Lemma image_again m d f fs0 h f' fs im :
  octets d -> len d < 2 ^ 63 -> rd_data (f_reader f) = d -> 0 <= rd_pos (f_reader f) ->
  dev_next m f fs0 = (IOk h, f', fs) -> h_xt h = XtImage im -> size_fits im ->
  within_pixel (im_bitpix im) fs -> width (im_bitpix im) * failures fs <= h_offset h ->
  h_offset h + width (im_bitpix im) * pixel_count im + moved_by fs <= len d ->
  exists id at_byte, get_image m f' im = Ok id /\
    (forall p, 0 <= p -> p + width (im_bitpix im) <= len d -> stored d p (im_bitpix im) [at_byte p]) /\
    forall ops, Forall op_ok ops ->
    exists l c e rest s,
      late_run at_byte (h_offset h) (width (im_bitpix im)) (pixel_count im) 0 0 ops fs = (l, c, e, rest) /\
      dev_pixel_run m (id_pixels id) ops fs = (l, s, rest) /\
      exists values, stored d (h_offset h - e) (im_bitpix im) values /\ len values = pixel_count im /\
        (forall more, Forall op_ok more -> fst (pixel_run m s more) = pixel_spec values (Z.to_nat c) more) /\
        (h_offset h + in_blocks (width (im_bitpix im) * pixel_count im) < 2 ^ 63 ->
         let here := width (im_bitpix im) * c - e in
         if (match m with Checked => false | Wrapping => true end)
            || ((0 <=? here) && (here <=? width (im_bitpix im) * pixel_count im))
         then next m (give_back f' (it_reader s)) = next m f'
         else fst (next m (give_back f' (it_reader s))) = IPanic).
Proof.
  intros O D Hd P DN X SF W A B.
  destruct (image_start m d f fs0 h f' fs im O Hd P DN X SF) as (id & G & PC & ID).
  exists id, (value_at d (im_bitpix im)). split; auto. split; [intros; now apply value_at_stored|].
  intros ops F. rewrite ID.
  destruct (run_late m d (h_offset h) (im_bitpix im) (pixel_count im) D ops 0 0 fs ltac:(lia) F) as (l & c & e & rest & L & DR & C & R).
  { split; auto. split; lia. }
  exists l, c, e, rest, (at_value d (h_offset h - e) (im_bitpix im) (pixel_count im) c).
  split; auto. split; auto.
  destruct (after_late m d (h_offset h) (im_bitpix im) (pixel_count im) e c rest O D C R) as (values & S1 & S2 & S3).
  exists values. split; auto. split; auto. split; auto. intros FIT here.
  destruct (room_pos _ _ _ _ _ _ R) as (P1 & P2).
  destruct (image_state m d f fs0 h f' fs im O Hd P DN X SF) as (HO & F').
  pose proof (width_pos (im_bitpix im)).
  rewrite F'. unfold give_back, at_value. cbn [it_reader f_start f_pos_du f_num_du f_error].
  destruct (_ || _) eqn:T.
  - apply next_same; try lia; try nia. intros ->. cbn in T. unfold here in T. lia.
  - destruct m; [|discriminate]. cbn in T. apply next_outside; try lia; try nia.
Qed.

(** ** One failure in a loop *)

Lemma after_header m d f h f' : octets d -> rd_data (f_reader f) = d -> 0 <= rd_pos (f_reader f) ->
  next m f = (IOk h, f') -> 2880 <= h_offset h.
Proof.
  intros O D P H. destruct (next_ok_inv m d f h f' O D P H) as (_ & q & n & Q & N & _).
  destruct (new_hdu_inv _ _ _ _ _ _ _ O Q N)
    as (c & cards & recs & last & rest & _ & _ & _ & _ & HC & _ & _ & _ & _ & HO & _ & _).
  rewrite HC in HO. unfold len in HO. cbn [length] in HO. unfold in_blocks in HO. lia.
Qed.

Lemma late_loop f o w count n : forall c e fs, 0 <= c -> c + Z.of_nat n < count ->
  late_run f o w count c e (repeat PNext (S n)) (repeat None n ++ Some 0 :: fs)
  = (map (fun i => RValue (f (o + w * (c + Z.of_nat i) - e))) (seq 0 n) ++ [REnd], c + Z.of_nat n + 1, e + w, fs).
Proof.
  induction n as [|n IH]; intros c e fs C L.
  - cbn [repeat late_run app seq map]. destruct (c =? count) eqn:E; [lia|]. repeat f_equal; lia.
  - change (repeat PNext (S (S n))) with (PNext :: repeat PNext (S n)). cbn [repeat app].
    cbn [late_run]. destruct (c =? count) eqn:E; [lia|]. cbn [tl].
    specialize (IH (c + 1) e fs ltac:(lia) ltac:(lia)). cbn [repeat] in IH. cbn [late_run] in IH. rewrite IH.
    cbn [seq map app]. rewrite <- seq_shift, map_map.
    replace (o + w * (c + Z.of_nat 0) - e) with (o + w * c - e) by lia.
    replace (c + 1 + Z.of_nat n + 1) with (c + Z.of_nat (S n) + 1) by lia.
    do 3 f_equal. do 2 f_equal. apply map_ext. intro i. do 2 f_equal. lia.
Qed.

Lemma stored_value d o b values i v : stored d o b values -> nth_error values i = Some v ->
  value_at d b (o + width b * Z.of_nat i) = v.
Proof.
  intros S N. destruct (stored_nth _ _ _ _ _ _ S N) as (SL & IR & _). unfold value_at. now rewrite SL, decode_encode.
Qed.

Lemma nth_error_ext {A} (l1 l2 : list A) : (forall i, nth_error l1 i = nth_error l2 i) -> l1 = l2.
Proof.
  revert l2. induction l1 as [|a l1 IH]; intros [|a2 l2] H; auto.
  - specialize (H 0%nat). discriminate.
  - specialize (H 0%nat). discriminate.
  - pose proof (H 0%nat) as H0. cbn in H0. injection H0 as ->. f_equal. apply IH. intro i. exact (H (S i)).
Qed.

Lemma nth_error_removelast {A} (l : list A) i : (S i < length l)%nat -> nth_error (removelast l) i = nth_error l i.
Proof.
  intro L. destruct l as [|a l] using rev_ind; [cbn in L; lia|]. rewrite removelast_last.
  rewrite app_length in L. cbn in L. rewrite nth_error_app1 by lia. reflexivity.
Qed.

Lemma length_removelast {A} (l : list A) : length (removelast l) = (length l - 1)%nat.
Proof. destruct l as [|a l] using rev_ind; auto. rewrite removelast_last, app_length. cbn. lia. Qed.

(** The values stored one pixel earlier. *)
Lemma stored_earlier d o b values values' : stored d o b values -> stored d (o - width b) b values' ->
  len values' = len values -> values <> [] -> exists x, values' = x :: removelast values.
Proof.
  intros S S' L NE. destruct values' as [|x vs]; [destruct values; [now destruct NE|unfold len in L; cbn in L; lia]|].
  assert (LE: length values = Datatypes.S (length vs)) by (unfold len in L; cbn [length] in L; lia).
  exists x. f_equal. apply nth_error_ext. intro i.
  destruct (nth_error vs i) as [v|] eqn:N.
  - assert (I: (i < length vs)%nat) by (apply nth_error_Some; congruence).
    rewrite nth_error_removelast by lia.
    destruct (nth_error values i) as [v'|] eqn:N'; [|apply nth_error_None in N'; lia].
    rewrite <- (stored_value _ _ _ _ _ _ S N'), <- (stored_value _ _ _ _ (Datatypes.S i) v S' N). do 2 f_equal. lia.
  - apply nth_error_None in N. symmetry. apply nth_error_None. rewrite length_removelast. lia.
Qed.

Lemma loop_again m d f fs0 h f' fs im i :
  octets d -> len d < 2 ^ 63 -> rd_data (f_reader f) = d -> 0 <= rd_pos (f_reader f) ->
  dev_next m f fs0 = (IOk h, f', fs) -> h_xt h = XtImage im -> size_fits im ->
  fs = repeat None i ++ [Some 0] -> Z.of_nat i < pixel_count im ->
  h_offset h + width (im_bitpix im) * pixel_count im <= len d ->
  exists id values before s, get_image m f' im = Ok id /\
    stored d (h_offset h) (im_bitpix im) values /\ len values = pixel_count im /\
    stored d (h_offset h - width (im_bitpix im)) (im_bitpix im) [before] /\
    dev_pixel_run m (id_pixels id) (repeat PNext (S i)) fs = (map RValue (firstn i values) ++ [REnd], s, []) /\
    forall more, Forall op_ok more ->
      fst (pixel_run m s more) = pixel_spec (before :: removelast values) (S i) more.
Proof.
  intros O D Hd P DN X SF FS I B.
  assert (A: width (im_bitpix im) <= h_offset h).
  { pose proof (after_header m d f h f' O Hd P (dev_next_ok _ _ _ _ _ _ DN)). destruct (im_bitpix im); cbn; lia. }
  destruct (image_start m d f fs0 h f' fs im O Hd P DN X SF) as (id & G & PC & ID).
  set (b := im_bitpix im) in *. set (o := h_offset h) in *. pose proof (width_pos b) as W.
  destruct (stored_exists d o b (Z.to_nat (pixel_count im)) O) as (values & LV & ST); [lia|rewrite Z2Nat.id by lia; lia|].
  assert (LN: len values = pixel_count im) by (unfold len; lia).
  assert (R0: room d o b (pixel_count im) 0 fs).
  { subst fs. split; [|split].
    - apply Forall_app. split; [|repeat constructor; lia]. apply Forall_forall. intros x IN. apply repeat_spec in IN. now subst.
    - replace (failures (repeat None i ++ [Some 0])) with 1; [lia|]. clear. induction i; cbn in *; lia.
    - replace (moved_by (repeat None i ++ [Some 0])) with 0; [lia|]. clear. induction i; cbn in *; lia. }
  destruct (run_late m d o b (pixel_count im) D (repeat PNext (S i)) 0 0 fs ltac:(lia)) as (l & c & e & rest & L & DR & C & R);
    [apply Forall_forall; intros x IN; apply repeat_spec in IN; now subst|exact R0|].
  rewrite FS, late_loop in L by lia. apply pair_equal_spec in L. destruct L as (L & <-).
  apply pair_equal_spec in L. destruct L as (L & <-). apply pair_equal_spec in L. destruct L as (L & <-).
  destruct (after_late m d o b (pixel_count im) (0 + width b) (0 + Z.of_nat i + 1) [] O D C R) as (values' & ST' & LN' & AF).
  destruct (stored_earlier d o b values values') as (before & E).
  { exact ST. } { replace (o - width b) with (o - (0 + width b)) by lia. exact ST'. } { lia. }
  { intro E. rewrite E in LN. unfold len in LN. cbn in LN. lia. }
  exists id, values, before, (at_value d (o - (0 + width b)) b (pixel_count im) (0 + Z.of_nat i + 1)).
  split; auto. split; auto. split; auto. split.
  { replace before with (value_at d b (o - width b)); [apply value_at_stored; auto; nia|].
    rewrite E in ST'. rewrite <- (stored_value _ _ _ _ 0 before ST' eq_refl). f_equal. lia. }
  split.
  { rewrite ID, DR, <- L. do 3 f_equal. rewrite <- map_map with (f := fun j => value_at d b (o + width b * (0 + Z.of_nat j) - 0)) (g := RValue).
    f_equal. apply nth_error_ext. intro j.
    destruct (Nat.lt_ge_cases j i) as [J|J].
    - rewrite nth_error_map, (nth_error_nth' (seq 0 i) 0%nat) by (rewrite seq_length; lia). rewrite seq_nth by lia. cbn [option_map].
      destruct (nth_error values j) as [v|] eqn:N; [|apply nth_error_None in N; lia].
      replace (nth_error (firstn i values) j) with (Some v).
      + f_equal. rewrite <- (stored_value _ _ _ _ _ _ ST N). f_equal. lia.
      + rewrite <- N. rewrite <- (firstn_skipn i values) at 1. rewrite nth_error_app1; auto. rewrite firstn_length. lia.
    - replace (nth_error (map _ (seq 0 i)) j) with (@None Z); [symmetry|symmetry]; apply nth_error_None;
        rewrite ?firstn_length, ?map_length, ?seq_length; lia. }
  intros more F. rewrite AF by auto. rewrite E. f_equal. lia.
Qed.

(** ** One failure never disturbs the HDUs *)

Lemma late_one f o w count : 0 < w -> forall ops c e fs l c' e' fs',
  0 <= c <= count -> Forall op_ok ops -> Forall (fun x => match x with Some k => k = 0 | None => True end) fs ->
  0 <= e -> e + w * failures fs <= w -> (e = 0 \/ 1 <= c) ->
  late_run f o w count c e ops fs = (l, c', e', fs') -> 0 <= w * c' - e' <= w * count.
Proof.
  intro W. induction ops as [|[|i] ops IH]; intros c e fs l c' e' fs' C F K E E1 E2 H.
  - inversion H; subst. pose proof (failures_nonneg fs'). nia.
  - inversion F; subst. cbn [late_run] in H.
    assert (G: forall x c1 e1 fs1, 0 <= c1 <= count -> Forall (fun x => match x with Some k => k = 0 | None => True end) fs1 ->
      0 <= e1 -> e1 + w * failures fs1 <= w -> (e1 = 0 \/ 1 <= c1) ->
      (let '(l, c2, e2, fs2) := late_run f o w count c1 e1 ops fs1 in (x :: l, c2, e2, fs2)) = (l, c', e', fs') ->
      0 <= w * c' - e' <= w * count).
    { intros x c1 e1 fs1 ? ? ? ? ? R. destruct (late_run f o w count c1 e1 ops fs1) as (((l1, c2), e2), fs2) eqn:L.
      inversion R; subst. eapply IH; [..|exact L]; auto. }
    destruct (c =? count) eqn:EC; [now apply G in H|].
    destruct fs as [|[k|] fs]; cbn [tl] in H.
    + apply G in H; auto; lia.
    + inversion K; subst. cbn [failures] in E1. pose proof (failures_nonneg fs).
      apply G in H; auto; try lia.
    + inversion K; subst. cbn [failures] in E1. apply G in H; auto; lia.
  - inversion F as [|? ? F1 F2]; subst. cbn in F1. unfold u64 in F1. cbn [late_run] in H.
    assert (G: forall x c1 e1 fs1, 0 <= c1 <= count -> Forall (fun x => match x with Some k => k = 0 | None => True end) fs1 ->
      0 <= e1 -> e1 + w * failures fs1 <= w -> (e1 = 0 \/ 1 <= c1) ->
      (let '(l, c2, e2, fs2) := late_run f o w count c1 e1 ops fs1 in (x :: l, c2, e2, fs2)) = (l, c', e', fs') ->
      0 <= w * c' - e' <= w * count).
    { intros x c1 e1 fs1 ? ? ? ? ? R. destruct (late_run f o w count c1 e1 ops fs1) as (((l1, c2), e2), fs2) eqn:L.
      inversion R; subst. eapply IH; [..|exact L]; auto. }
    destruct (count <=? i) eqn:EC; [now apply G in H|].
    destruct fs as [|[k|] fs]; cbn [tl] in H.
    + apply G in H; auto; lia.
    + inversion K; subst. cbn [failures] in E1. pose proof (failures_nonneg fs).
      apply G in H; auto; try lia.
    + inversion K; subst. cbn [failures] in E1. destruct fs as [|[k|] fs]; cbn [tl] in H.
      * apply G in H; auto; lia.
      * match goal with X : Forall _ (Some _ :: _) |- _ => inversion X; subst end.
        cbn [failures] in E1. pose proof (failures_nonneg fs). apply G in H; auto; try lia.
      * match goal with X : Forall _ (None :: _) |- _ => inversion X; subst end.
        cbn [failures] in E1. apply G in H; auto; lia.
Qed.

Lemma one_failure m d f fs0 h f' fs im :
  octets d -> len d < 2 ^ 63 -> rd_data (f_reader f) = d -> 0 <= rd_pos (f_reader f) ->
  dev_next m f fs0 = (IOk h, f', fs) -> h_xt h = XtImage im -> size_fits im ->
  Forall (fun x => match x with Some k => k = 0 | None => True end) fs -> failures fs <= 1 ->
  h_offset h + width (im_bitpix im) * pixel_count im <= len d ->
  h_offset h + in_blocks (width (im_bitpix im) * pixel_count im) < 2 ^ 63 ->
  exists id, get_image m f' im = Ok id /\
    forall ops, Forall op_ok ops ->
    next m (give_back f' (it_reader (snd (fst (dev_pixel_run m (id_pixels id) ops fs))))) = next m f'.
Proof.
  intros O D Hd P DN X SF K F1 B FIT.
  assert (A: width (im_bitpix im) <= h_offset h).
  { pose proof (after_header m d f h f' O Hd P (dev_next_ok _ _ _ _ _ _ DN)). destruct (im_bitpix im); cbn; lia. }
  pose proof (width_pos (im_bitpix im)) as W. pose proof (failures_nonneg fs).
  assert (M0: moved_by fs = 0).
  { clear - K. induction K as [|[k|] fs H]; cbn; lia. }
  destruct (image_again m d f fs0 h f' fs im) as (id & at_byte & G & _ & R); auto.
  { eapply Forall_impl; [|exact K]. intros [k|]; auto. intros ->. lia. }
  { nia. } { lia. }
  exists id. split; auto. intros ops OK.
  destruct (R ops OK) as (l & c & e & rest & s & L & DR & values & _ & _ & _ & N).
  specialize (N FIT). cbn zeta in N. rewrite DR. cbn [fst snd].
  destruct (image_start m d f fs0 h f' fs im O Hd P DN X SF) as (_ & _ & PC & _).
  apply (late_one at_byte _ _ _ W) in L; auto; try nia; try lia.
  replace ((0 <=? width (im_bitpix im) * c - e) && _) with true in N by lia.
  rewrite Bool.orb_true_r in N. exact N.
Qed.

(** Pixel iteration, random access, raw bytes, and the reader position left behind. *)

From Coq Require Import Lia ZifyBool.
From Verif Require Import Base Text Card Reader Header Xtension Bytes Fits ImageIt.
From Verif Require Import SpecCard SpecHeader SpecXt SpecFits SpecImage.
From Verif Require Import HeaderProofs BytesProofs XtProofs2 XtProofs3 FitsProofs FitsProofs2 FitsProofs3 FitsProofs4.

(** ** Stored values *)

Lemma stored_none d o b : 0 <= o <= len d -> stored d o b [].
Proof.
  intro H. unfold stored. change (len (@nil Z)) with 0; rewrite Z.mul_0_r. simpl. repeat split; try lia; auto.
Qed.

Lemma slice_octets d p n : octets d -> octets (slice d p n).
Proof. apply Forall_slice. Qed.

(** One more value. *)
Lemma stored_snoc d o b values :
  octets d -> stored d o b values -> o + width b * (len values + 1) <= len d ->
  stored d o b (values ++ [decode b (slice d (o + width b * len values) (width b))]).
Proof.
  intros O (H1 & H2 & H3 & H4) L. pose proof (width_pos b) as W. pose proof (len_nonneg values) as N.
  set (v := decode b (slice d (o + width b * len values) (width b))).
  assert (SL: len (slice d (o + width b * len values) (width b)) = width b)
    by (apply slice_length; nia).
  assert (LV: len (values ++ [v]) = len values + 1) by (rewrite len_app; reflexivity).
  unfold stored. rewrite LV. split; [auto|]. split; [lia|]. split.
  - apply Forall_app. split; auto. constructor; auto. apply decode_range; auto. apply slice_octets; auto.
  - rewrite (slice_split d o (width b * (len values + 1)) (width b * len values)) by nia.
    rewrite H4, map_app, concat_app. f_equal. cbn [map concat]. rewrite app_nil_r.
    replace (width b * (len values + 1) - width b * len values) with (width b) by lia.
    symmetry. apply encode_decode; auto. apply slice_octets; auto.
Qed.

Lemma stored_exists d o b n :
  octets d -> 0 <= o -> o + width b * Z.of_nat n <= len d ->
  exists values, length values = n /\ stored d o b values.
Proof.
  intros O H. induction n; intro L.
  - exists []. split; auto. apply stored_none. pose proof (width_pos b). nia.
  - destruct IHn as (values & LV & ST); [pose proof (width_pos b); nia|].
    exists (values ++ [decode b (slice d (o + width b * len values) (width b))]).
    split; [rewrite app_length; simpl; lia|]. apply stored_snoc; auto. unfold len at 1. rewrite LV. lia.
Qed.

Lemma concat_encode_len b values : len (concat (map (encode b) values)) = width b * len values.
Proof.
  induction values; simpl; [rewrite len_nil; lia|].
  rewrite len_app, encode_length, IHvalues, len_cons. lia.
Qed.

(** The bytes of one of them. *)
Lemma stored_nth d o b values i v :
  stored d o b values -> nth_error values i = Some v ->
  slice d (o + width b * Z.of_nat i) (width b) = encode b v /\ in_range b v /\
  o + width b * (Z.of_nat i + 1) <= len d.
Proof.
  intros (H1 & H2 & H3 & H4) N. pose proof (width_pos b) as W.
  assert (I: (i < length values)%nat) by (apply nth_error_Some; congruence).
  assert (IR: in_range b v) by (rewrite Forall_forall in H3; eapply H3, nth_error_In; eauto).
  apply nth_error_split in N as (l1 & l2 & E & L1). subst i.
  assert (LV: len values = len l1 + (1 + len l2)) by (rewrite E, len_app, len_cons; lia).
  pose proof (len_nonneg l1). pose proof (len_nonneg l2).
  change (Z.of_nat (length l1)) with (len l1).
  split; [|split; [auto|nia]].
  rewrite <- (slice_slice d o (width b * len values)) by nia.
  rewrite H4, E, map_app, concat_app. cbn [map concat].
  rewrite <- (concat_encode_len b l1). transitivity (slice (concat (map (encode b) l1) ++ encode b v ++ concat (map (encode b) l2))
    (len (concat (map (encode b) l1))) (len (encode b v))); [rewrite encode_length; reflexivity|]. apply slice_app_exact.
Qed.

Lemma stored_fun d o b l l' : stored d o b l -> stored d o b l' -> length l = length l' -> l = l'.
Proof.
  intros S1 S2 L.
  assert (G: forall n, nth_error l n = nth_error l' n).
  { intro n. destruct (nth_error l n) eqn:E1; destruct (nth_error l' n) eqn:E2; auto.
    - destruct (stored_nth _ _ _ _ _ _ S1 E1) as (A & R1 & _).
      destruct (stored_nth _ _ _ _ _ _ S2 E2) as (B & R2 & _).
      f_equal. rewrite <- (decode_encode b z R1), <- (decode_encode b z0 R2). congruence.
    - apply nth_error_None in E2. assert (n < length l)%nat by (apply nth_error_Some; congruence). lia.
    - apply nth_error_None in E1. assert (n < length l')%nat by (apply nth_error_Some; congruence). lia. }
  clear -G. revert l' G. induction l as [|a l IH]; intros [|b l'] G; auto.
  - specialize (G 0%nat). discriminate.
  - specialize (G 0%nat). discriminate.
  - pose proof (G 0%nat) as G0. simpl in G0. inversion G0; subst. f_equal. apply IH.
    intro n. apply (G (S n)).
Qed.

(** ** Element reads *)

Lemma read_be_ok d p b v :
  0 <= p -> p + width b <= len d -> slice d p (width b) = encode b v -> in_range b v ->
  read_be b (mk_reader d p) = (Ok v, mk_reader d (p + width b)).
Proof.
  intros P L S R. unfold read_be, read_exact. rewrite byte_size_width. simpl.
  pose proof (width_pos b).
  destruct (width b =? 0) eqn:E0; [lia|]. destruct (p + width b <=? len d) eqn:E1; [|lia].
  rewrite S, decode_encode by auto. reflexivity.
Qed.

Lemma read_be_short d p b :
  len d < p + width b -> read_be b (mk_reader d p) = (Err EEof, mk_reader d (len d)).
Proof.
  intros L. unfold read_be, read_exact. rewrite byte_size_width. simpl.
  pose proof (width_pos b).
  destruct (width b =? 0) eqn:E0; [lia|]. destruct (p + width b <=? len d) eqn:E1; [lia|]. reflexivity.
Qed.

(** ** Sequential iteration *)

Lemma end_run m n : forall s, it_idx s = it_num s -> pixel_run m s (repeat PNext n) = (repeat REnd n, s).
Proof.
  induction n; intros s H; auto. simpl. unfold it_next. rewrite H, Z.eqb_refl. rewrite IHn by auto. reflexivity.
Qed.

(** Nothing can be read any more. *)
Lemma short_run m n : forall b d p num c,
  0 <= p <= len d -> len d < p + width b -> fst (pixel_run m (mk_it b (mk_reader d p) num c) (repeat PNext n)) = repeat REnd n.
Proof.
  induction n; intros b d p num c P L; auto. simpl. unfold it_next. simpl.
  destruct (c =? num) eqn:E.
  - specialize (IHn b d p num c P L). destruct (pixel_run _ _ _). simpl in *. congruence.
  - rewrite read_be_short by lia.
    specialize (IHn b d (len d) num (c + 1)).
    destruct (pixel_run _ _ _). simpl in *. rewrite IHn; auto.
    + pose proof (len_nonneg d). lia.
    + pose proof (width_pos b). lia.
Qed.

Lemma seq_run m b d o num : forall n values c,
  0 <= o <= len d -> 0 <= c ->
  stored d (o + width b * c) b values ->
  c + len values <= num -> (c + len values < num -> len d < o + width b * (c + len values + 1)) ->
  fst (pixel_run m (mk_it b (mk_reader d (o + width b * c)) num c) (repeat PNext n))
  = firstn n (map RValue values ++ repeat REnd n).
Proof.
  induction n; intros values c O C S LE GT; auto.
  pose proof (width_pos b) as W.
  destruct values as [|v values].
  - cbn [map app]. rewrite firstn_all2 by (rewrite repeat_length; auto).
    change (len (@nil Z)) with 0 in *. destruct (Z.eq_dec c num).
    + rewrite end_run by auto. reflexivity.
    + destruct S as (S1 & S2 & _). apply short_run; [change (len (@nil Z)) with 0 in *; lia|]. lia.
  - rewrite len_cons in *. pose proof (len_nonneg values).
    destruct (stored_nth _ _ _ _ 0%nat v S eq_refl) as (SL & IR & L).
    simpl repeat. cbn [pixel_run pixel_do]. unfold it_next. simpl.
    destruct (c =? num) eqn:E; [lia|].
    replace (o + width b * c + width b * Z.of_nat 0) with (o + width b * c) in SL by lia.
    rewrite (read_be_ok d _ b v) by (auto; lia).
    assert (S': stored d (o + width b * (c + 1)) b values).
    { destruct S as (S1 & S2 & S3 & S4). rewrite len_cons in S2, S4.
      split; [lia|]. split; [lia|]. split; [inversion S3; auto|].
      rewrite (slice_split d _ _ (width b)) in S4 by lia. rewrite SL in S4.
      cbn [map concat] in S4. apply app_inv_head in S4. rewrite <- S4. f_equal; lia. }
    replace (o + width b * c + width b) with (o + width b * (c + 1)) by lia.
    specialize (IHn values (c + 1) O ltac:(lia) S' ltac:(lia) ltac:(intro; replace (c + 1 + len values + 1) with (c + (1 + len values) + 1) by lia; lia)).
    destruct (pixel_run _ _ _). simpl in *. rewrite IHn. f_equal.
    rewrite !firstn_app. f_equal.
    clear. set (k := (n - _)%nat). replace (REnd :: repeat REnd n) with (repeat REnd (S n)) by reflexivity.
    assert (k <= n)%nat by (unfold k; lia). clearbody k. revert k H.
    assert (F: forall k n, (k <= n)%nat -> firstn k (repeat REnd n) = repeat REnd k).
    { induction k; intros [|n0]; simpl; intros; auto; [lia|]. rewrite IHk; auto. lia. }
    intros. rewrite !F by lia. reflexivity.
Qed.

(** ** Random access *)

Lemma i64_result_small m z : - 2 ^ 63 <= z < 2 ^ 63 -> i64_result m z = Ok z.
Proof. intro H. unfold i64_result. destruct ((- 2 ^ 63 <=? z) && (z <? 2 ^ 63)) eqn:E; auto. lia. Qed.

Lemma as_i64_small z : 0 <= z < 2 ^ 63 -> as_i64 z = z.
Proof. intro H. unfold as_i64. destruct (z <? 2 ^ 63) eqn:E; auto. lia. Qed.

Definition at_value (d : list Z) (o : Z) (b : bitpix) (num c : Z) : it :=
  mk_it b (mk_reader d (o + width b * c)) num c.

Lemma next_value d o b values c v :
  stored d o b values -> nth_error values c = Some v ->
  it_next (at_value d o b (len values) (Z.of_nat c)) = (Some v, at_value d o b (len values) (Z.of_nat (S c))).
Proof.
  intros S N. destruct (stored_nth _ _ _ _ _ _ S N) as (SL & IR & L). destruct S as (S1 & S2 & _).
  assert (I: (c < length values)%nat) by (apply nth_error_Some; congruence).
  pose proof (width_pos b).
  unfold it_next, at_value. simpl. destruct (Z.of_nat c =? len values) eqn:E; [unfold len in E; lia|].
  rewrite (read_be_ok d _ b v) by (auto; lia). f_equal. f_equal; [f_equal|]; lia.
Qed.

Lemma run_history m d o b values :
  stored d o b values -> len d < 2 ^ 63 ->
  forall ops c, (c <= length values)%nat -> Forall op_ok ops ->
  exists c', (c' <= length values)%nat /\
  pixel_run m (at_value d o b (len values) (Z.of_nat c)) ops
  = (pixel_spec values c ops, at_value d o b (len values) (Z.of_nat c')).
Proof.
  intros S D. pose proof (width_pos b) as W. pose proof (width_le b) as W8.
  induction ops as [|op ops IH]; intros c C F; [exists c; auto|].
  inversion F as [|? ? F1 F2]; subst. destruct op as [|i].
  - cbn [pixel_run pixel_do pixel_spec]. destruct (nth_error values c) as [v|] eqn:N.
    + rewrite (next_value d o b values c v S N).
      assert (c < length values)%nat by (apply nth_error_Some; congruence).
      destruct (IH (Datatypes.S c) ltac:(lia) F2) as (c' & C' & R). rewrite R. exists c'. auto.
    + apply nth_error_None in N.
      unfold it_next at 1. simpl. destruct (Z.of_nat c =? len values) eqn:E; [|unfold len in E; lia].
      destruct (IH c C F2) as (c' & C' & R). rewrite R. exists c'. auto.
  - cbn [pixel_run pixel_do pixel_spec]. simpl in F1. unfold u64 in F1.
    destruct (nth_error values (Z.to_nat i)) as [v|] eqn:N.
    + assert (I: (Z.to_nat i < length values)%nat) by (apply nth_error_Some; congruence).
      assert (B: 0 <= o /\ o + width b * len values < 2 ^ 63) by (destruct S as (S1 & S2 & _); lia).
      assert (L2: i < len values /\ Z.of_nat c <= len values) by (unfold len; lia).
      unfold read_value. cbn [it_num it_idx it_ty it_reader at_value].
      destruct (len values <=? i) eqn:E; [lia|].
      rewrite !as_i64_small by nia. rewrite i64_result_small by nia. cbn [bind].
      rewrite byte_size_width, i64_result_small by nia.
      unfold seek_relative. cbn [rd_pos rd_data].
      destruct ((0 <=? o + width b * Z.of_nat c + (i - Z.of_nat c) * width b)
                && (o + width b * Z.of_nat c + (i - Z.of_nat c) * width b <? 2 ^ 64)) eqn:E2; [|nia].
      replace (o + width b * Z.of_nat c + (i - Z.of_nat c) * width b) with (o + width b * i) by lia.
      pose proof (next_value d o b values (Z.to_nat i) v S N) as NV.
      unfold at_value at 1 in NV. rewrite Z2Nat.id in NV by lia. rewrite NV.
      destruct (IH (Datatypes.S (Z.to_nat i)) ltac:(lia) F2) as (c' & C' & R). rewrite R. exists c'. auto.
    + apply nth_error_None in N. unfold read_value. cbn [it_num at_value].
      destruct (len values <=? i) eqn:E; [|unfold len in E; lia].
      destruct (IH c C F2) as (c' & C' & R). rewrite R. exists c'. auto.
Qed.

(** ** From the HDU iterator *)

Lemma after_next m d f h f' im :
  octets d -> rd_data (f_reader f) = d -> 0 <= rd_pos (f_reader f) -> next m f = (IOk h, f') ->
  h_xt h = XtImage im ->
  exists n, image_num_bytes m im = Ok n /\ 0 <= n < 2 ^ 64 /\ 0 <= h_offset h <= len d /\
    f' = mk_fits false (h_offset h) n false (mk_reader d (h_offset h)) /\
    (exists vs, image_parse vs = Ok im) /\
    get_image m f' im
    = Ok (mk_image_data (h_offset h) n (it_new (im_bitpix im) (mk_reader d (h_offset h)) n)).
Proof.
  intros O D P N X.
  destruct (next_ok_inv m d f h f' O D P N) as (_ & q & n & Q & NH & _ & _ & size & HS & F').
  destruct (new_hdu_inv _ _ _ _ _ _ _ O Q NH)
    as (c & cards & recs & last & rest & E & F & LE & R & HC & Op & K & PC & XP & HO & _ & HL).
  unfold hdu_size in HS. pose proof (size_range m (h_xt h) size HS) as SR. rewrite X in HS. simpl in HS.
  exists size. split; auto. split; auto.
  pose proof (in_blocks_range (80 * len (h_cards h))). pose proof (len_nonneg (h_cards h)).
  split; [lia|]. split; auto. split.
  - rewrite X in XP. destruct (xtype_of (h_kind h)); simpl in XP.
    + destruct (image_parse (h_values h)) eqn:IP; try discriminate. inversion XP; subst. eauto.
    + destruct (bintable_parse m (h_values h)); discriminate.
    + destruct (asciitable_parse (h_values h)); discriminate.
  - unfold get_image, image_data_new. rewrite HS. simpl. rewrite F'. reflexivity.
Qed.

Lemma exact_size m im n :
  (exists vs, image_parse vs = Ok im) -> size_fits im -> image_num_bytes m im = Ok n ->
  n = width (im_bitpix im) * pixel_count im /\ 0 <= pixel_count im.
Proof.
  intros (vs & IP) (F1 & F2) E.
  assert (A: Forall u64 (im_naxisn im)).
  { apply image_parse_iff in IP as (_ & _ & _ & AX). revert AX. generalize 1. clear.
    induction (im_naxisn im); simpl; intros; auto. destruct AX as (_ & U & AX). eauto. }
  assert (PP: 0 <= pixel_count im).
  { unfold pixel_count. destruct (len (im_naxisn im) =? 0); [lia|]. clear -A.
    induction A; simpl; [lia|]. unfold u64 in *. nia. }
  split; auto.
  pose proof (image_size_exact m vs im IP F1) as SE. cbv zeta in SE.
  assert (SZ: (if len (im_naxisn im) =? 0 then 0 else Z.abs (bitpix_code (im_bitpix im)) / 8 * product (im_naxisn im))
          = width (im_bitpix im) * pixel_count im).
  { unfold pixel_count. rewrite <- byte_size_width. unfold byte_size. destruct (len (im_naxisn im) =? 0); lia. }
  rewrite SZ in SE. rewrite SE in E by auto. congruence.
Qed.

Lemma pixels_sequential m d f h f' im :
  octets d -> rd_data (f_reader f) = d -> 0 <= rd_pos (f_reader f) -> next m f = (IOk h, f') ->
  h_xt h = XtImage im -> size_fits im ->
  exists id values, get_image m f' im = Ok id /\
    len values = Z.min (pixel_count im) ((len d - h_offset h) / width (im_bitpix im)) /\
    stored d (h_offset h) (im_bitpix im) values /\
    forall n, fst (pixel_run m (id_pixels id) (repeat PNext n))
            = firstn n (map RValue values ++ repeat REnd n).
Proof.
  intros O D P N X SF.
  destruct (after_next m d f h f' im O D P N X) as (n & IN & NR & HO & F' & IP & G).
  destruct (exact_size m im n IP SF IN) as (EN & PC).
  set (b := im_bitpix im) in *. pose proof (width_pos b) as W.
  set (k := Z.min (pixel_count im) ((len d - h_offset h) / width b)).
  assert (K: 0 <= k) by (unfold k; pose proof (Z.div_pos (len d - h_offset h) (width b)); lia).
  assert (KL: width b * k <= len d - h_offset h).
  { unfold k. pose proof (Z.mul_div_le (len d - h_offset h) (width b) W). nia. }
  destruct (stored_exists d (h_offset h) b (Z.to_nat k) O) as (values & LV & ST); [lia|lia|].
  eexists. exists values. split; [exact G|].
  assert (LV': len values = k) by (unfold len; lia).
  split; auto. split; auto. intro j. cbn [id_pixels].
  pose proof (seq_run m b d (h_offset h) (pixel_count im) j values 0 ltac:(lia) ltac:(lia)) as SR.
  rewrite Z.mul_0_r, Z.add_0_r in SR.
  assert (NE: it_new b (mk_reader d (h_offset h)) n = mk_it b (mk_reader d (h_offset h)) (pixel_count im) 0).
  { unfold it_new. rewrite byte_size_width, EN. f_equal. rewrite Z.mul_comm. apply Z.div_mul. lia. }
  rewrite NE. apply SR; auto; rewrite LV'; rewrite ?Z.add_0_l; [lia|].
  intro LT. unfold k in LT. assert (k = (len d - h_offset h) / width b) by lia.
  pose proof (Z.mul_succ_div_gt (len d - h_offset h) (width b) W). nia.
Qed.

Lemma pixels_random m d f h f' im :
  octets d -> len d < 2 ^ 63 -> rd_data (f_reader f) = d -> 0 <= rd_pos (f_reader f) ->
  next m f = (IOk h, f') -> h_xt h = XtImage im -> size_fits im ->
  h_offset h + width (im_bitpix im) * pixel_count im <= len d ->
  exists id values, get_image m f' im = Ok id /\
    len values = pixel_count im /\ stored d (h_offset h) (im_bitpix im) values /\
    forall ops, Forall op_ok ops ->
      fst (pixel_run m (id_pixels id) ops) = pixel_spec values 0 ops /\
      exists c, 0 <= c <= pixel_count im /\
        it_reader (snd (pixel_run m (id_pixels id) ops))
        = mk_reader d (h_offset h + width (im_bitpix im) * c).
Proof.
  intros O DL D P N X SF FULL.
  destruct (after_next m d f h f' im O D P N X) as (n & IN & NR & HO & F' & IP & G).
  destruct (exact_size m im n IP SF IN) as (EN & PC).
  set (b := im_bitpix im) in *. pose proof (width_pos b) as W.
  destruct (stored_exists d (h_offset h) b (Z.to_nat (pixel_count im)) O) as (values & LV & ST); [lia|lia|].
  eexists. exists values. split; [exact G|].
  assert (LV': len values = pixel_count im) by (unfold len; lia).
  split; auto. split; auto. intros ops FO. cbn [id_pixels].
  destruct (run_history m d (h_offset h) b values ST DL ops 0%nat ltac:(lia) FO) as (c' & C' & R).
  assert (NE: it_new b (mk_reader d (h_offset h)) n = at_value d (h_offset h) b (len values) (Z.of_nat 0)).
  { unfold it_new, at_value. rewrite byte_size_width, EN, LV'. f_equal; [f_equal; lia|].
    rewrite Z.mul_comm. apply Z.div_mul. lia. }
  rewrite NE, R. split; auto. exists (Z.of_nat c'). split; [unfold len in LV'; lia|]. reflexivity.
Qed.

(** ** Raw bytes *)

Lemma raw_bytes_image m d f h f' im :
  octets d -> len d < 2 ^ 64 -> rd_data (f_reader f) = d -> 0 <= rd_pos (f_reader f) ->
  next m f = (IOk h, f') -> h_xt h = XtImage im ->
  exists id n, get_image m f' im = Ok id /\ hdu_size m h = Ok n /\
    image_raw_bytes m id = if h_offset h + n <=? len d then Ok (slice d (h_offset h) n) else Panic.
Proof.
  intros O DL D P N X.
  destruct (after_next m d f h f' im O D P N X) as (n & IN & NR & HO & F' & IP & G).
  eexists. exists n. split; [exact G|]. split; [unfold hdu_size; rewrite X; exact IN|].
  unfold image_raw_bytes. cbn [id_start id_bytes id_pixels it_new it_reader rd_data].
  unfold u64_result. destruct ((0 <=? h_offset h + n) && (h_offset h + n <? 2 ^ 64)) eqn:E.
  - cbn [bind]. unfold slice_range. destruct ((h_offset h <=? h_offset h + n) && (h_offset h + n <=? len d)) eqn:E2;
      destruct (h_offset h + n <=? len d) eqn:E3; try lia; auto.
    f_equal. f_equal. lia.
  - destruct (h_offset h + n <=? len d) eqn:E3; [lia|]. destruct m; auto. cbn [bind].
    unfold slice_range.
    assert (M: (h_offset h + n) mod 2 ^ 64 = h_offset h + n - 2 ^ 64).
    { symmetry. apply Z.mod_unique with 1; lia. }
    rewrite M. destruct ((h_offset h <=? h_offset h + n - 2 ^ 64) && _) eqn:E4; auto. lia.
Qed.

(** ** The HDU iterator after data reads *)

Lemma next_same m d o n p :
  0 <= o -> 0 <= n -> o + in_blocks n < 2 ^ 63 -> 0 <= p < 2 ^ 63 -> (m = Checked -> o <= p <= o + n) ->
  next m (mk_fits false o n false (mk_reader d p)) = next m (mk_fits false o n false (mk_reader d o)).
Proof.
  intros O N B P C.
  assert (G: forall q, 0 <= q < 2 ^ 63 -> (m = Checked -> o <= q <= o + n) ->
    next m (mk_fits false o n false (mk_reader d q))
    = finish m (mk_fits false o n false (mk_reader d o)) (new_xtension m (mk_reader d (o + in_blocks n)))).
  { intros q Q CQ. erewrite next_not_start; [reflexivity|reflexivity|reflexivity|].
    change (mk_fits false o n false (mk_reader d q)) with (moved (mk_fits false o n false (mk_reader d o)) q).
    destruct m.
    - rewrite consume_moved; simpl; auto; specialize (CQ eq_refl); lia.
    - rewrite consume_wrapping; simpl; auto; lia. }
  pose proof (in_blocks_range n). rewrite !G; auto; lia.
Qed.

(** Wherever reads fail, the reader stays within the file. *)
Definition inside (d : list Z) (s : it) : Prop :=
  rd_data (it_reader s) = d /\ 0 <= rd_pos (it_reader s) <= len d.

Lemma read_be_inside d b r :
  rd_data r = d -> 0 <= rd_pos r ->
  rd_data (snd (read_be b r)) = d /\ 0 <= rd_pos (snd (read_be b r)) <= len d.
Proof.
  intros D P. unfold read_be, read_exact. rewrite byte_size_width, D. pose proof (width_pos b).
  destruct (width b =? 0) eqn:E; [lia|]. pose proof (len_nonneg d).
  destruct (rd_pos r + width b <=? len d) eqn:E2; simpl; split; auto; lia.
Qed.

Lemma it_next_inside d s : inside d s -> inside d (snd (it_next s)).
Proof.
  intros (D & P). unfold it_next. destruct (it_idx s =? it_num s); [split; auto|].
  destruct (read_be (it_ty s) (it_reader s)) as (v, r) eqn:E. simpl.
  pose proof (read_be_inside d (it_ty s) (it_reader s) D ltac:(lia)) as R. rewrite E in R. exact R.
Qed.

Lemma pixel_do_inside m d s o : inside d s -> inside d (snd (pixel_do m s o)).
Proof.
  intros I. destruct o as [|i]; simpl.
  - pose proof (it_next_inside d s I). destruct (it_next s) as ([v|], s'); auto.
  - unfold read_value. destruct (it_num s <=? i) eqn:LE; [auto|].
    destruct (bind _ _) as [off|e|] eqn:B; auto. unfold seek_relative.
    destruct ((0 <=? rd_pos (it_reader s) + off) && (rd_pos (it_reader s) + off <? 2 ^ 64)) eqn:S; [|exact I].
    destruct I as (D & P). unfold it_next at 1. cbn [it_idx it_num it_ty it_reader].
    destruct (i =? it_num s) eqn:E; [lia|].
    pose proof (read_be_inside d (it_ty s) (mk_reader (rd_data (it_reader s)) (rd_pos (it_reader s) + off)) D
                  ltac:(simpl; lia)) as R.
    destruct (read_be _ _) as (v, r). simpl in R. destruct v; exact R.
Qed.

Lemma pixel_run_inside m d : forall ops s, inside d s -> inside d (snd (pixel_run m s ops)).
Proof.
  induction ops as [|o ops IH]; intros s I; auto. cbn [pixel_run].
  pose proof (pixel_do_inside m d s o I) as I1. destruct (pixel_do m s o) as (x, s1). simpl in I1.
  specialize (IH s1 I1). destruct (pixel_run m s1 ops). exact IH.
Qed.

Lemma images_undisturbed m d f h f' im id n ops :
  octets d -> len d < 2 ^ 63 -> rd_data (f_reader f) = d -> 0 <= rd_pos (f_reader f) ->
  next m f = (IOk h, f') -> h_xt h = XtImage im -> hdu_size m h = Ok n ->
  h_offset h + in_blocks n < 2 ^ 63 -> (m = Checked -> h_offset h + n <= len d) ->
  get_image m f' im = Ok id -> Forall op_ok ops ->
  next m (give_back f' (it_reader (snd (pixel_run m (id_pixels id) ops)))) = next m f'.
Proof.
  intros O DL D P N X HS FIT FULL G OPS.
  destruct (after_next m d f h f' im O D P N X) as (n' & IN & NR & HO & F' & IP & G').
  unfold hdu_size in HS. rewrite X in HS. simpl in HS. assert (n' = n) by congruence. subst n'.
  rewrite G' in G. inversion G; subst id. cbn [id_pixels]. rewrite F'.
  set (s := it_new _ _ _) in *.
  assert (I: inside d s) by (split; simpl; auto).
  pose proof (pixel_run_inside m d ops s I) as (RD & RP).
  set (r := it_reader _) in *. destruct r as (rdd, p) eqn:ER. simpl in RD, RP. subst rdd.
  unfold give_back. cbn [f_start f_pos_du f_num_du f_error].
  apply next_same; try lia. intros M. specialize (FULL M).
  set (b := im_bitpix im) in *. pose proof (width_pos b) as W.
  assert (DV: 0 <= n / width b) by (apply Z.div_pos; lia).
  pose proof (Z.mul_div_le n (width b) W) as ML.
  destruct (stored_exists d (h_offset h) b (Z.to_nat (n / width b)) O) as (values & LV & ST); [lia|lia|].
  destruct (run_history m d (h_offset h) b values ST DL ops 0%nat ltac:(lia) OPS) as (c' & C' & R).
  assert (NE: s = at_value d (h_offset h) b (len values) (Z.of_nat 0)).
  { unfold s, it_new, at_value. rewrite byte_size_width. f_equal; [f_equal; lia|]. unfold len. lia. }
  unfold r in ER. rewrite NE, R in ER. simpl in ER. injection ER as <-. nia.
Qed.

(** ** ASCII tables *)

(** [c] bytes of the data unit have been handed out. *)
Definition ascii_at (d : list Z) (o n c : Z) (t : taker) : Prop :=
  rd_data (tk_reader t) = d /\
  0 <= o /\ o + c <= rd_pos (tk_reader t) <= len d /\ 0 <= c /\
  tk_limit t = o + n - rd_pos (tk_reader t) /\ 0 <= tk_limit t /\
  tk_buf t = slice d (o + c) (rd_pos (tk_reader t) - o - c).

Lemma slice_len_min {A} (l : list A) p n : 0 <= p <= len l -> 0 <= n -> len (slice l p n) = Z.min n (len l - p).
Proof. intros. unfold slice, len in *. rewrite firstn_length, skipn_length. lia. Qed.

Lemma firstn_slice {A} (l : list A) p n k : 0 <= p -> 0 <= k -> firstn (Z.to_nat k) (slice l p n) = slice l p (Z.min k n).
Proof. intros. unfold slice. rewrite firstn_firstn. f_equal. lia. Qed.

Lemma skipn_slice {A} (l : list A) p n k : 0 <= p -> 0 <= k -> skipn (Z.to_nat k) (slice l p n) = slice l (p + k) (n - k).
Proof. intros. unfold slice. rewrite skipn_firstn_comm, skipn_skipn. f_equal; [lia|]. f_equal. lia. Qed.

Lemma slice_min {A} (l : list A) p n : 0 <= p <= len l -> 0 <= n -> slice l p n = slice l p (Z.min n (len l - p)).
Proof.
  intros. unfold slice. destruct (Z.le_ge_cases n (len l - p)); [rewrite Z.min_l by lia; auto|].
  rewrite Z.min_r by lia. unfold len in *. rewrite !firstn_all2; auto; rewrite skipn_length; lia.
Qed.

Lemma buf_read_at d o n c t k :
  ascii_at d o n c t -> 0 <= k ->
  exists c', ascii_at d o n c' (snd (buf_read t k)) /\ c <= c' <= c + k /\
    fst (buf_read t k) = slice d (o + c) (c' - c) /\
    (0 < k -> c' = c -> c = Z.min n (len d - o)).
Proof.
  intros (D & O & P & C & L & L0 & B) K. unfold buf_read. rewrite B.
  set (p := rd_pos (tk_reader t)) in *.
  destruct (slice d (o + c) (p - o - c)) as [|x bs] eqn:E.
  - assert (PC: p = o + c).
    { assert (Z0: len (slice d (o + c) (p - o - c)) = 0) by (rewrite E; reflexivity).
      rewrite slice_len_min in Z0 by lia. lia. }
    destruct (buf_capacity <=? k) eqn:KC; unfold buf_capacity in *.
    + unfold take_read, read_some. rewrite D. fold p.
      set (q := Z.min k (tk_limit t)).
      assert (LS: len (slice d p q) = Z.min q (len d - p)) by (apply slice_len_min; unfold q; lia).
      exists (c + Z.min q (len d - p)).
      cbn [fst snd tk_reader tk_limit tk_buf rd_data rd_pos]. rewrite LS, B.
      split; [|split; [unfold q; lia|split]].
      * unfold ascii_at. cbn [tk_reader tk_limit tk_buf rd_data rd_pos]. repeat split; auto; try (unfold q; lia).
        replace (p + Z.min q (len d - p) - o - (c + Z.min q (len d - p))) with 0 by lia. reflexivity.
      * rewrite <- PC. replace (c + Z.min q (len d - p) - c) with (Z.min q (len d - p)) by lia.
        apply slice_min; unfold q; lia.
      * unfold q. lia.
    + unfold take_read, read_some. rewrite D. fold p.
      set (q := Z.min 8192 (tk_limit t)).
      assert (LS: len (slice d p q) = Z.min q (len d - p)) by (apply slice_len_min; unfold q; lia).
      exists (c + Z.min k (Z.min q (len d - p))).
      cbn [fst snd tk_reader tk_limit tk_buf rd_data rd_pos]. rewrite LS.
      split; [|split; [unfold q; lia|split]].
      * unfold ascii_at. cbn [tk_reader tk_limit tk_buf rd_data rd_pos]. repeat split; auto; try (unfold q; lia).
        rewrite (slice_min d p q) by (unfold q; lia). rewrite skipn_slice by lia.
        destruct (Z.le_gt_cases k (Z.min q (len d - p))).
        -- rewrite (Z.min_l k) by lia. f_equal; lia.
        -- rewrite (Z.min_r k) by lia.
           replace (p + Z.min q (len d - p) - o - (c + Z.min q (len d - p))) with 0 by lia.
           unfold slice. replace (Z.to_nat (Z.min q (len d - p) - k)) with 0%nat by lia. reflexivity.
      * rewrite (slice_min d p q) by (unfold q; lia). rewrite firstn_slice by lia. f_equal; lia.
      * unfold q. lia.
  - assert (NE: 0 < len (slice d (o + c) (p - o - c)))
      by (rewrite E, len_cons; pose proof (len_nonneg bs); lia).
    rewrite <- E. clear B E.
    assert (LS: len (slice d (o + c) (p - o - c)) = p - o - c) by (rewrite slice_len_min; lia).
    exists (c + Z.min k (p - o - c)).
    cbn [fst snd tk_reader tk_limit tk_buf rd_data rd_pos].
    split; [|split; [lia|split]].
    + unfold ascii_at. cbn [tk_reader tk_limit tk_buf rd_data rd_pos]. fold p. repeat split; auto; try lia.
      rewrite skipn_slice by lia. destruct (Z.le_gt_cases k (p - o - c)).
      * rewrite Z.min_l by lia. f_equal; lia.
      * rewrite Z.min_r by lia. unfold slice.
        replace (Z.to_nat (p - o - c - k)) with 0%nat by lia.
        replace (Z.to_nat (p - o - (c + (p - o - c)))) with 0%nat by lia. reflexivity.
    + rewrite firstn_slice by lia. f_equal. lia.
    + lia.
Qed.

Lemma ascii_run_at d o n sizes : forall c t,
  ascii_at d o n c t -> Forall (fun k => 0 <= k) sizes ->
  exists c', ascii_at d o n c' (snd (ascii_run t sizes)) /\ c <= c' /\
    concat (fst (ascii_run t sizes)) = slice d (o + c) (c' - c).
Proof.
  induction sizes as [|k sizes IH]; intros c t A F.
  - exists c. split; auto. split; [lia|]. simpl. rewrite Z.sub_diag. reflexivity.
  - inversion F; subst. destruct (buf_read_at d o n c t k A) as (c1 & A1 & C1 & E1 & _); auto.
    cbn [ascii_run]. destruct (buf_read t k) as (bs, t1). simpl in A1, E1.
    destruct (IH c1 t1 A1) as (c2 & A2 & C2 & E2); auto.
    destruct (ascii_run t1 sizes) as (l, t2). simpl in A2, E2 |- *.
    exists c2. split; auto. split; [lia|]. rewrite E1, E2.
    destruct A as (D & O & P & C & _). destruct A2 as (D2 & O2 & P2 & CC2 & _).
    rewrite (slice_split d (o + c) (c2 - c) (c1 - c)) by lia. f_equal. f_equal; lia.
Qed.

Lemma after_next_ascii m d f h f' t :
  octets d -> rd_data (f_reader f) = d -> 0 <= rd_pos (f_reader f) -> next m f = (IOk h, f') ->
  h_xt h = XtAscii t ->
  exists n, asciitable_num_bytes m t = Ok n /\ 0 <= n < 2 ^ 64 /\ 0 <= h_offset h <= len d /\
    f' = mk_fits false (h_offset h) n false (mk_reader d (h_offset h)) /\
    exists tk, get_ascii m f' t = Ok tk /\ ascii_at d (h_offset h) n 0 tk.
Proof.
  intros O D P N X.
  destruct (next_ok_inv m d f h f' O D P N) as (_ & q & n & Q & NH & _ & _ & size & HS & F').
  destruct (new_hdu_inv _ _ _ _ _ _ _ O Q NH)
    as (c & cards & recs & last & rest & E & F & LE & R & HC & Op & K & PC & XP & HO & _ & HL).
  unfold hdu_size in HS. pose proof (size_range m (h_xt h) size HS) as SR. rewrite X in HS. simpl in HS.
  exists size. split; auto. split; auto.
  pose proof (in_blocks_range (80 * len (h_cards h))). pose proof (len_nonneg (h_cards h)).
  split; [lia|]. split; auto.
  eexists. split; [unfold get_ascii, ascii_data_new; rewrite HS; reflexivity|].
  rewrite F'. unfold ascii_at. simpl. rewrite Z.add_0_r. repeat split; try lia.
  replace (h_offset h - h_offset h - 0) with 0 by lia. reflexivity.
Qed.

Lemma ascii_bytes m d f h f' t :
  octets d -> rd_data (f_reader f) = d -> 0 <= rd_pos (f_reader f) -> next m f = (IOk h, f') ->
  h_xt h = XtAscii t ->
  exists n tk, hdu_size m h = Ok n /\ get_ascii m f' t = Ok tk /\
    forall sizes k, Forall (fun k => 0 <= k) sizes -> 0 < k ->
      let unit := slice d (h_offset h) n in
      let got := concat (fst (ascii_run tk sizes)) in
      let more := fst (buf_read (snd (ascii_run tk sizes)) k) in
      got ++ more = firstn (length (got ++ more)) unit /\ len more <= k /\
      (more = [] <-> got = unit).
Proof.
  intros O D P N X. destruct (after_next_ascii m d f h f' t O D P N X) as (n & IN & NR & HO & F' & tk & G & A).
  exists n, tk. split; [unfold hdu_size; rewrite X; exact IN|]. split; auto.
  intros sizes k FS K0. cbv zeta.
  destruct (ascii_run_at d (h_offset h) n sizes 0 tk A FS) as (c & A1 & C1 & E1).
  destruct (buf_read_at d (h_offset h) n c _ k A1 ltac:(lia)) as (c' & A2 & C2 & E2 & Z2).
  rewrite E1, E2. rewrite Z.add_0_r, Z.sub_0_r.
  destruct A1 as (_ & _ & P1 & _ & L1 & LL1 & _). destruct A2 as (_ & _ & P2 & _ & L2 & LL2 & _).
  assert (CM: c' <= Z.min n (len d - h_offset h)) by lia.
  assert (SP: slice d (h_offset h) c ++ slice d (h_offset h + c) (c' - c) = slice d (h_offset h) c').
  { rewrite (slice_split d (h_offset h) c' c) by lia. reflexivity. }
  assert (LC: len (slice d (h_offset h) c) = c) by (apply slice_length; lia).
  assert (LC': len (slice d (h_offset h) c') = c') by (apply slice_length; lia).
  assert (LCC: len (slice d (h_offset h + c) (c' - c)) = c' - c) by (apply slice_length; lia).
  assert (LU: len (slice d (h_offset h) n) = Z.min n (len d - h_offset h)) by (apply slice_len_min; lia).
  split; [|split; [lia|]].
  - rewrite SP. replace (length (slice d (h_offset h) c')) with (Z.to_nat c') by (unfold len in LC'; lia).
    rewrite firstn_slice by lia. f_equal. lia.
  - split; intro H.
    + rewrite H in LCC. change (len (@nil Z)) with 0 in LCC. specialize (Z2 K0 ltac:(lia)).
      rewrite (slice_min d (h_offset h) n) by lia. f_equal. lia.
    + rewrite <- H in LU. rewrite LC in LU. assert (c' = c) by lia. subst c'. rewrite Z.sub_diag. reflexivity.
Qed.

Lemma ascii_undisturbed m d f h f' t tk n sizes :
  octets d -> len d < 2 ^ 63 -> rd_data (f_reader f) = d -> 0 <= rd_pos (f_reader f) ->
  next m f = (IOk h, f') -> h_xt h = XtAscii t -> hdu_size m h = Ok n ->
  h_offset h + in_blocks n < 2 ^ 63 ->
  get_ascii m f' t = Ok tk -> Forall (fun k => 0 <= k) sizes ->
  next m (give_back f' (tk_reader (snd (ascii_run tk sizes)))) = next m f'.
Proof.
  intros O DL D P N X HS FIT G FS.
  destruct (after_next_ascii m d f h f' t O D P N X) as (n' & IN & NR & HO & F' & tk' & G' & A).
  unfold hdu_size in HS. rewrite X in HS. simpl in HS. assert (n' = n) by congruence. subst n'.
  assert (tk' = tk) by congruence. subst tk'.
  destruct (ascii_run_at d (h_offset h) n sizes 0 tk A FS) as (c & A1 & C1 & E1).
  destruct A1 as (D1 & _ & P1 & C0 & L1 & LL1 & _).
  set (r := tk_reader _) in *. destruct r as (rdd, p). simpl in *. subst rdd.
  rewrite F'. unfold give_back. cbn [f_start f_pos_du f_num_du f_error].
  apply next_same; lia.
Qed.

(** A second [get_data] continues where the first stopped. *)
Lemma second_image m d f h f' im id ops :
  octets d -> len d < 2 ^ 63 -> rd_data (f_reader f) = d -> 0 <= rd_pos (f_reader f) ->
  next m f = (IOk h, f') -> h_xt h = XtImage im -> size_fits im ->
  h_offset h + width (im_bitpix im) * pixel_count im <= len d ->
  get_image m f' im = Ok id -> Forall op_ok ops ->
  exists id2 c, get_image m (give_back f' (it_reader (snd (pixel_run m (id_pixels id) ops)))) im = Ok id2 /\
    0 <= c <= pixel_count im /\
    it_reader (id_pixels id2) = mk_reader d (h_offset h + width (im_bitpix im) * c).
Proof.
  intros O DL D P N X SF FULL G FO.
  destruct (pixels_random m d f h f' im O DL D P N X SF FULL) as (id' & values & G' & LV & ST & R).
  assert (id' = id) by congruence. subst id'. destruct (R ops FO) as (_ & c & C & RR).
  unfold get_image, image_data_new in *. rewrite RR.
  destruct (image_num_bytes m im); try discriminate. simpl. eexists. exists c. auto.
Qed.

Lemma raw_bytes_file m d before k s after f h f' im :
  octets d -> len d < 2 ^ 64 -> rd_data (f_reader f) = d -> 0 <= rd_pos (f_reader f) ->
  d = before ++ hdu_bytes s ++ after -> next m f = (IOk h, f') -> read_from m k (len before) s h ->
  h_xt h = XtImage im ->
  exists id, get_image m f' im = Ok id /\ image_raw_bytes m id = Ok (s_data s).
Proof.
  intros O DL D P E N (_ & _ & _ & _ & HO & HS) X.
  destruct (raw_bytes_image m d f h f' im O DL D P N X) as (id & n & G & HS' & R).
  exists id. split; auto. assert (n = len (s_data s)) by congruence. subst n.
  unfold hdu_bytes in E. rewrite R, HO.
  assert (L: len d = len before + (len (header_bytes s) + (len (s_data s) + len (s_dpad s)) + len after))
    by (rewrite E, !len_app; lia).
  pose proof (len_nonneg (s_dpad s)). pose proof (len_nonneg after).
  destruct (len before + len (header_bytes s) + len (s_data s) <=? len d) eqn:LE; [|lia].
  f_equal. rewrite E. rewrite <- !app_assoc.
  rewrite (app_assoc before). rewrite <- len_app. apply slice_app_exact.
Qed.

(** Used with concrete files. *)
Lemma item_ok (p : item * fits) (A : hdu -> Prop) g :
  match fst p with IOk h => A h | _ => False end -> snd p = g -> exists h, p = (IOk h, g) /\ A h.
Proof. destruct p as ([|h| |], g'); simpl; intros H <-; try contradiction. eauto. Qed.

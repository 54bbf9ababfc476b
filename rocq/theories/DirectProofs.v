(** Proofs for reads through the [Fits] value itself. *)

From Coq Require Import List Lia ZifyBool.
From Verif Require Import Base Text Card Reader Header Xtension Bytes Fits ImageIt Direct.
From Verif Require Import SpecUtf8 SpecCard SpecHeader SpecXt SpecFits SpecImage SpecDirect.
From Verif Require Import HeaderProofs FitsProofs FitsProofs2 FitsProofs3 FitsProofs4 BytesProofs ImageProofs AgainProofs.
Local Open Scope list_scope.
Local Open Scope Z_scope.

Lemma len_slice (d : list Z) p n : 0 <= p <= len d -> 0 <= n -> len (slice d p n) = Z.min n (len d - p).
Proof. intros P N. unfold slice, len in *. rewrite firstn_length, skipn_length. lia. Qed.

Lemma slice_join (d : list Z) p a b : 0 <= p -> 0 <= a -> 0 <= b ->
  slice d p a ++ slice d (p + a) b = slice d p (a + b).
Proof.
  intros P A B. unfold slice. rewrite Z2Nat.inj_add, Z2Nat.inj_add by lia.
  replace (skipn (Z.to_nat p + Z.to_nat a) d) with (skipn (Z.to_nat a) (skipn (Z.to_nat p) d)).
  - generalize (skipn (Z.to_nat p) d). intro l. rewrite <- (firstn_skipn (Z.to_nat a) l) at 3.
    rewrite firstn_app, firstn_firstn. rewrite Nat.min_r by lia.
    destruct (Nat.le_gt_cases (Z.to_nat a) (length l)) as [H|H].
    + rewrite firstn_length, Nat.min_l by lia. do 2 f_equal. lia.
    + rewrite (skipn_all2 l) by lia. now rewrite !firstn_nil.
  - rewrite skipn_skipn. f_equal; lia.
Qed.

Lemma slice_own (d : list Z) p n : 0 <= p -> 0 <= n -> slice d p (len (slice d p n)) = slice d p n.
Proof.
  intros P N. unfold slice, len. rewrite Nat2Z.id, firstn_length.
  destruct (Nat.le_gt_cases (Z.to_nat n) (length (skipn (Z.to_nat p) d))) as [H|H].
  - now rewrite Nat.min_l by lia.
  - rewrite Nat.min_r by lia. rewrite firstn_all. rewrite firstn_all2 by lia. reflexivity.
Qed.

Lemma len_concat_cons (x : list Z) l : len (concat (x :: l)) = len x + len (concat l).
Proof. cbn [concat]. unfold len. rewrite app_length. lia. Qed.

Lemma reads_follow d : forall asks f got f', Forall ask_ok asks ->
  rd_data (f_reader f) = d -> 0 <= rd_pos (f_reader f) <= len d -> fits_reads f asks = (got, f') ->
  concat got = slice d (rd_pos (f_reader f)) (len (concat got)) /\
  f' = give_back f (mk_reader d (rd_pos (f_reader f) + len (concat got))) /\
  rd_pos (f_reader f) + len (concat got) <= len d /\
  Forall2 (fun a x => len x <= fst a /\ len x <= snd a) asks got.
Proof.
  induction asks as [|(n, k) asks IH]; intros f got f' F D P H.
  - inversion H; subst. cbn [concat]. change (len (@nil Z)) with 0. split; [reflexivity|]. split; [|split; [lia|constructor]].
    destruct f' as [st pd nd er [rd p]]. unfold give_back. cbn. rewrite Z.add_0_r. reflexivity.
  - inversion F as [|? ? (A1 & A2) F2]; subst. cbn [fst snd] in A1, A2. cbn [fits_reads] in H.
    unfold fits_read, read_some in H. set (d := rd_data (f_reader f)) in *. set (p := rd_pos (f_reader f)) in *.
    set (x := slice d p (Z.min n k)) in *.
    assert (LX: len x = Z.min (Z.min n k) (len d - p)) by (unfold x; apply len_slice; lia).
    destruct (fits_reads _ asks) as (l, f2) eqn:R. inversion H; subst got f'.
    apply IH in R; auto; [|cbn; lia]. cbn [f_reader give_back rd_pos] in R. destruct R as (R1 & R2 & R3 & R4).
    assert (LN: 0 <= len (concat l)) by (unfold len; lia).
    rewrite len_concat_cons. split.
    + cbn [concat]. rewrite <- slice_join by lia. rewrite R1 at 1. f_equal. unfold x. symmetry. apply slice_own; lia.
    + split; [|split; [lia|]].
      * rewrite R2. unfold give_back. cbn. do 2 f_equal. lia.
      * constructor; auto. cbn [fst snd]. lia.
Qed.

Lemma found_state m d f h f' : octets d -> rd_data (f_reader f) = d -> 0 <= rd_pos (f_reader f) ->
  next m f = (IOk h, f') ->
  exists n, hdu_size m h = Ok n /\ 0 <= h_offset h <= len d /\
    f' = mk_fits false (h_offset h) n false (mk_reader d (h_offset h)).
Proof.
  intros O D P H. destruct (next_ok_inv m d f h f' O D P H) as (_ & q & n & Q & N & _ & _ & size & HS & F').
  destruct (new_hdu_inv _ _ _ _ _ _ _ O Q N)
    as (c & cards & recs & last & rest & _ & _ & _ & _ & HC & _ & _ & _ & _ & HO & _ & HL).
  exists size. pose proof (in_blocks_range (80 * len (h_cards h))). unfold len in *. repeat split; auto; lia.
Qed.

Lemma direct_bytes m d f h f' asks got f'' :
  octets d -> rd_data (f_reader f) = d -> 0 <= rd_pos (f_reader f) -> next m f = (IOk h, f') ->
  Forall ask_ok asks -> fits_reads f' asks = (got, f'') ->
  concat got = slice d (h_offset h) (len (concat got)) /\
  Forall2 (fun a x => len x <= fst a /\ len x <= snd a) asks got /\
  position_data_unit f'' = h_offset h /\
  forall n k, 1 <= n -> 1 <= k ->
    (fst (fits_read f'' n k) = [] <-> concat got = skipn (Z.to_nat (h_offset h)) d).
Proof.
  intros O D P H A R. destruct (found_state m d f h f' O D P H) as (sz & HS & HO & F').
  destruct (reads_follow d asks f' got f'' A) as (R1 & R2 & R3 & R4); auto;
    try (rewrite F'; cbn; auto; lia). rewrite F' in R1, R2, R3. cbn [f_reader rd_pos] in R1, R2, R3.
  split; auto. split; auto. split; [now rewrite R2|].
  intros n k N K. rewrite R2. unfold fits_read, read_some. cbn [fst f_reader give_back rd_data rd_pos].
  assert (LG: 0 <= len (concat got)) by (unfold len; lia).
  assert (E: forall l : list Z, l = [] <-> len l = 0).
  { intros [|x l]; [split; auto|]. unfold len. cbn. split; [discriminate|lia]. }
  rewrite E, len_slice by lia.
  split; intro X.
  - rewrite R1. unfold slice. apply firstn_all2. rewrite skipn_length. unfold len in *. lia.
  - apply (f_equal len) in X. unfold len in X at 2. rewrite skipn_length in X. unfold len in *. lia.
Qed.

Lemma direct_next m d f h f' asks got f'' n :
  octets d -> len d < 2 ^ 63 -> rd_data (f_reader f) = d -> 0 <= rd_pos (f_reader f) -> next m f = (IOk h, f') ->
  Forall ask_ok asks -> fits_reads f' asks = (got, f'') ->
  hdu_size m h = Ok n -> h_offset h + in_blocks n < 2 ^ 63 ->
  (m = Wrapping \/ len (concat got) <= n -> next m f'' = next m f') /\
  (m = Checked -> n < len (concat got) -> fst (next m f'') = IPanic).
Proof.
  intros O DL D P H A R HN FIT. pose proof (size_range m (h_xt h) n HN) as (N0 & _). destruct (found_state m d f h f' O D P H) as (sz & HS & HO & F').
  assert (sz = n) by congruence. subst sz.
  destruct (reads_follow d asks f' got f'' A) as (R1 & R2 & R3 & R4); auto;
    try (rewrite F'; cbn; auto; lia). rewrite F' in R2, R3. cbn [f_reader rd_pos] in R2, R3.
  assert (LG: 0 <= len (concat got)) by (unfold len; lia).
  rewrite R2, F'. unfold give_back. cbn [f_start f_pos_du f_num_du f_error]. split.
  - intro C. apply next_same; try lia. intros ->. destruct C as [C|C]; [discriminate|lia].
  - intros -> C. apply next_outside; lia.
Qed.

Lemma direct_image m d f h f' asks got f'' im :
  octets d -> len d < 2 ^ 63 -> rd_data (f_reader f) = d -> 0 <= rd_pos (f_reader f) -> next m f = (IOk h, f') ->
  Forall ask_ok asks -> fits_reads f' asks = (got, f'') ->
  h_xt h = XtImage im -> size_fits im ->
  h_offset h + len (concat got) + width (im_bitpix im) * pixel_count im <= len d ->
  exists id values, get_image m f'' im = Ok id /\ len values = pixel_count im /\
    stored d (h_offset h + len (concat got)) (im_bitpix im) values /\
    forall ops, Forall op_ok ops -> fst (pixel_run m (id_pixels id) ops) = pixel_spec values 0 ops.
Proof.
  intros O DL D P H A R X SF FULL.
  destruct (after_next m d f h f' im O D P H X) as (n & IN & NR & HO & F' & IP & G).
  destruct (exact_size m im n IP SF IN) as (EN & PC).
  destruct (reads_follow d asks f' got f'' A) as (R1 & R2 & R3 & R4); auto;
    try (rewrite F'; cbn; auto; lia). rewrite F' in R2, R3. cbn [f_reader rd_pos] in R2, R3.
  assert (LG: 0 <= len (concat got)) by (unfold len; lia).
  set (b := im_bitpix im) in *. pose proof (width_pos b) as W.
  destruct (stored_exists d (h_offset h + len (concat got)) b (Z.to_nat (pixel_count im)) O) as (values & LV & ST);
    [lia|rewrite Z2Nat.id by lia; lia|].
  assert (LV': len values = pixel_count im) by (unfold len; lia).
  eexists. exists values. split.
  { rewrite R2. unfold get_image, give_back. cbn [f_reader f_pos_du]. unfold image_data_new. rewrite IN. cbn [bind]. reflexivity. }
  split; auto. split; auto. intros ops F. cbn [id_pixels].
  assert (NE: it_new b (mk_reader d (h_offset h + len (concat got))) n
              = at_value d (h_offset h + len (concat got)) b (len values) (Z.of_nat 0)).
  { unfold it_new, at_value. rewrite byte_size_width, EN, LV'. f_equal; [f_equal; lia|].
    rewrite Z.mul_comm. apply Z.div_mul. lia. }
  fold b. rewrite NE. destruct (run_history m d _ b values ST DL ops 0%nat ltac:(lia) F) as (c' & C' & RR). now rewrite RR.
Qed.

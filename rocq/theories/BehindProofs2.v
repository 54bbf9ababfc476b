(** Proofs for the images of a FITS file that lies behind other bytes of its source. *)

From Coq Require Import List Lia ZifyBool.
From Verif Require Import Base Text Card Reader Header Xtension Bytes Fits ImageIt Direct.
From Verif Require Import SpecUtf8 SpecCard SpecHeader SpecXt SpecFits SpecImage SpecDirect SpecBehind.
From Verif Require Import HeaderProofs FitsProofs FitsProofs2 FitsProofs3 FitsProofs4 BytesProofs ImageProofs DirectProofs BehindProofs.
Local Open Scope list_scope.
Local Open Scope Z_scope.

Lemma run_last m : forall n f,
  run m (Datatypes.S n) f
  = (fst (run m n f) ++ [fst (next m (snd (run m n f)))], snd (next m (snd (run m n f)))).
Proof.
  induction n as [|n IH]; intro f.
  - cbn. destruct (next m f). reflexivity.
  - change (run m (Datatypes.S (Datatypes.S n)) f)
      with (let (i, f1) := next m f in let (l, f2) := run m (Datatypes.S n) f1 in (i :: l, f2)).
    change (run m (Datatypes.S n) f)
      with (let (i, f1) := next m f in let (l, f2) := run m n f1 in (i :: l, f2)).
    destruct (next m f) as (i, f1). rewrite IH. destruct (run m n f1) as (l, f2). reflexivity.
Qed.

Lemma states_matched junk m d : octets d -> octets junk -> forall n q f g l f',
  matched junk d q f g -> 0 <= rd_pos (f_reader f) -> 0 <= rd_pos (f_reader g) ->
  run m n f = (l, f') -> Forall (ends_below m (len junk)) l ->
  exists q', matched junk d q' f' (snd (run m n g)) /\
    0 <= rd_pos (f_reader f') /\ 0 <= rd_pos (f_reader (snd (run m n g))).
Proof.
  intros O OJ. pose proof (len_nonneg junk) as J.
  induction n as [|n IH]; intros q f g l f' M P P' R E.
  - cbn in *. injection R as <- <-. exists q. auto.
  - cbn [run] in R |- *. pose proof (item_matched junk m d q f g M) as I.
    destruct (next m f) as (i, f1) eqn:N, (next m g) as (i', g1) eqn:N'. cbn [fst] in I. subst i'.
    destruct (run m n f1) as (l1, f2) eqn:R1. injection R as <- <-.
    inversion E as [|? ? (h & z & -> & HS & B) E1]; subst.
    pose proof (size_range m _ z HS) as Z0.
    assert (D : rd_data (f_reader f) = d) by (apply M).
    assert (D' : rd_data (f_reader g) = junk ++ d) by (apply M).
    destruct (found_state m d f h f1 O D P N) as (z1 & HS1 & HO & ->).
    cbn [item_further] in N'.
    destruct (found_state m (junk ++ d) g _ g1 ltac:(apply Forall_app; split; assumption) D' P' N')
      as (z2 & HS2 & HO2 & ->).
    change (hdu_size m (further (len junk) h)) with (hdu_size m h) in HS2.
    rewrite HS in HS1, HS2. injection HS1 as <-. injection HS2 as <-. cbn [further h_offset] in *.
    pose proof (in_blocks_range z) as IB.
    specialize (IH (h_offset h + in_blocks z)
      (mk_fits false (h_offset h) z false (mk_reader d (h_offset h)))
      (mk_fits false (h_offset h + len junk) z false (mk_reader (junk ++ d) (h_offset h + len junk))) l1 f2).
    assert (M1 : matched junk d (h_offset h + in_blocks z)
      (mk_fits false (h_offset h) z false (mk_reader d (h_offset h)))
      (mk_fits false (h_offset h + len junk) z false (mk_reader (junk ++ d) (h_offset h + len junk)))).
    { unfold matched, ready. cbn [f_error f_reader rd_data rd_pos f_start f_pos_du f_num_du].
      repeat split; try lia; right; repeat split; lia. }
    specialize (IH M1). cbn [f_reader rd_pos] in IH.
    specialize (IH ltac:(lia) ltac:(lia) R1 E1).
    destruct (run m n (mk_fits false (h_offset h + len junk) z _ _)) as (lb, fb). exact IH.
Qed.

(** The states after the last HDU. *)
Lemma last_found junk m d n l h f' l' g' : octets d -> octets junk ->
  run m (Datatypes.S n) (opened d) = (l ++ [IOk h], f') -> Forall (ends_below m (len junk)) l ->
  run m (Datatypes.S n) (from_reader (mk_reader (junk ++ d) (len junk))) = (l', g') ->
  exists f g, next m f = (IOk h, f') /\ next m g = (IOk (further (len junk) h), g') /\
    rd_data (f_reader f) = d /\ rd_data (f_reader g) = junk ++ d /\
    0 <= rd_pos (f_reader f) /\ 0 <= rd_pos (f_reader g).
Proof.
  intros O OJ R E R'. pose proof (len_nonneg junk) as J.
  rewrite run_last in R, R'. injection R as R1 R2. injection R' as _ R2'.
  apply app_inj_tail in R1. destruct R1 as (R1 & R3).
  destruct (run m n (opened d)) as (l0, f0) eqn:X. cbn [fst snd] in *. subst l0.
  set (g0 := snd (run m n (from_reader (mk_reader (junk ++ d) (len junk))))) in *.
  destruct (states_matched junk m d O OJ n 0 (opened d) (from_reader (mk_reader (junk ++ d) (len junk))) l f0)
    as (q & M & P & P'); auto; cbn; try lia.
  { unfold matched, ready, opened, from_reader. cbn. repeat split; try lia; left; auto. }
  fold g0 in M, P'. exists f0, g0.
  pose proof (item_matched junk m d q f0 g0 M) as I. rewrite R3 in I. cbn [item_further] in I.
  destruct (next m f0) as (a, b), (next m g0) as (a', b'). cbn [fst snd] in *. subst.
  repeat split; auto; apply M.
Qed.

Lemma stored_behind junk d o b values : stored d o b values -> stored (junk ++ d) (o + len junk) b values.
Proof.
  intros (O & L & R & S). pose proof (len_nonneg junk). unfold stored. rewrite len_app.
  repeat split; auto; try lia. rewrite slice_app_r by lia.
  replace (o + len junk - len junk) with o by lia. exact S.
Qed.

Lemma image_found m d f h f' im : octets d -> len d < 2 ^ 63 -> rd_data (f_reader f) = d -> 0 <= rd_pos (f_reader f) ->
  next m f = (IOk h, f') -> h_xt h = XtImage im -> size_fits im ->
  h_offset h + width (im_bitpix im) * pixel_count im <= len d ->
  exists id values, get_image m f' im = Ok id /\ len values = pixel_count im /\
    stored d (h_offset h) (im_bitpix im) values /\
    (forall ops, Forall op_ok ops -> fst (pixel_run m (id_pixels id) ops) = pixel_spec values 0 ops) /\
    image_raw_bytes m id = Ok (slice d (h_offset h) (width (im_bitpix im) * pixel_count im)).
Proof.
  intros O DL D P H X SF FULL.
  destruct (direct_image m d f h f' [] [] f' im O DL D P H (Forall_nil _) eq_refl X SF) as (id & values & G & L & S & R).
  { change (len (concat (@nil (list Z)))) with 0. lia. }
  change (len (concat (@nil (list Z)))) with 0 in S. rewrite Z.add_0_r in S.
  exists id, values. do 4 (split; [assumption|]).
  destruct (after_next m d f h f' im O D P H X) as (n & IN & NR & HO & F' & IP & _).
  destruct (exact_size m im n IP SF IN) as (EN & PC).
  rewrite F' in G. unfold get_image, image_data_new in G. rewrite IN in G. cbn [bind f_reader f_pos_du] in G.
  injection G as <-. unfold image_raw_bytes. cbn [id_start id_bytes id_pixels it_new it_reader rd_data].
  rewrite <- EN in *.
  replace (u64_result m (h_offset h + n)) with (Ok (h_offset h + n)).
  - cbn [bind]. unfold slice_range.
    replace ((h_offset h <=? h_offset h + n) && (h_offset h + n <=? len d)) with true by lia.
    do 2 f_equal. lia.
  - unfold u64_result.
    replace ((0 <=? h_offset h + n) && (h_offset h + n <? 2 ^ 64)) with true by lia. reflexivity.
Qed.

Lemma image_behind junk m d n l h f' l' g' im : octets d -> octets junk -> len (junk ++ d) < 2 ^ 63 ->
  run m (Datatypes.S n) (opened d) = (l ++ [IOk h], f') -> Forall (ends_below m (len junk)) l ->
  run m (Datatypes.S n) (from_reader (mk_reader (junk ++ d) (len junk))) = (l', g') ->
  h_xt h = XtImage im -> size_fits im -> h_offset h + width (im_bitpix im) * pixel_count im <= len d ->
  exists id id', get_image m f' im = Ok id /\ get_image m g' im = Ok id' /\
    (forall ops, Forall op_ok ops -> fst (pixel_run m (id_pixels id') ops) = fst (pixel_run m (id_pixels id) ops)) /\
    image_raw_bytes m id' = image_raw_bytes m id.
Proof.
  intros O OJ DL R E R' X SF FULL. pose proof (len_nonneg junk) as J. rewrite len_app in DL.
  destruct (last_found junk m d n l h f' l' g' O OJ R E R') as (f & g & N & N' & D & D' & P & P').
  destruct (image_found m d f h f' im O ltac:(lia) D P N X SF FULL) as (id & values & G & L & S & Q & B).
  destruct (image_found m (junk ++ d) g _ g' im ltac:(apply Forall_app; split; assumption)
    ltac:(rewrite len_app; lia) D' P' N' X SF) as (id' & values' & G' & L' & S' & Q' & B').
  { rewrite len_app. cbn [further h_offset]. lia. }
  cbn [further h_offset] in S', B'.
  assert (values' = values).
  { apply (stored_fun (junk ++ d) (h_offset h + len junk) (im_bitpix im)); auto.
    - now apply stored_behind.
    - unfold len in *. lia. }
  subst values'. exists id, id'. do 2 (split; [assumption|]). split.
  - intros ops A. now rewrite Q, Q'.
  - rewrite B, B'. f_equal. destruct S as (S0 & _). rewrite slice_app_r by lia. f_equal. lia.
Qed.

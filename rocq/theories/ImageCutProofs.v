(** Random access to images of which the end is missing. *)

From Coq Require Import Lia ZifyBool.
From Verif Require Import Base TextLemmas Text Card Reader Header Xtension Bytes Fits ImageIt.
From Verif Require Import SpecCard SpecHeader SpecXt SpecFits SpecImage SpecImageCut.
From Verif Require Import HeaderProofs BytesProofs FitsProofs4 ImageProofs.

Lemma one_stored d b p : octets d -> 0 <= p -> p + width b <= len d -> exists v, stored d p b [v].
Proof.
  intros O P L. destruct (stored_exists d p b 1 O) as (values & N & S); [lia|lia|].
  destruct values as [|v [|? ?]]; try discriminate. exists v. exact S.
Qed.
Lemma next_found d x b num c v : c <> num -> stored d (x + width b * c) b [v] ->
  it_next (at_value d x b num c) = (Some v, at_value d x b num (c + 1)).
Proof.
  intros N S. destruct (stored_nth _ _ _ _ 0%nat v S eq_refl) as (SL & IR & L). destruct S as (S1 & _).
  unfold it_next, at_value. cbn [it_idx it_num it_ty it_reader]. destruct (c =? num) eqn:E; [lia|].
  rewrite Z.mul_0_r, Z.add_0_r in *. rewrite (read_be_ok d _ b v) by (auto; lia). f_equal. f_equal. f_equal. lia.
Qed.
Lemma next_missing d x b num c : c <> num -> len d < x + width b * c + width b ->
  it_next (at_value d x b num c) = (None, at_value d (len d - width b * (c + 1)) b num (c + 1)).
Proof.
  intros N L. unfold it_next, at_value. cbn [it_idx it_num it_ty it_reader]. destruct (c =? num) eqn:E; [lia|].
  rewrite read_be_short by lia. f_equal. f_equal. f_equal. lia.
Qed.

Lemma cut_run m d b num : octets d -> len d < 2 ^ 63 -> width b * num < 2 ^ 63 ->
  forall ops c x, 0 <= c <= num -> 0 <= x + width b * c <= len d -> Forall op_ok ops ->
  cut_history d b num c x ops (fst (pixel_run m (at_value d x b num c) ops)).
Proof.
  intros O D NB. pose proof (width_pos b) as W. pose proof (width_le b) as W8.
  induction ops as [|op ops IH]; intros c x C X F; [exact I|].
  inversion F as [|? ? F1 F2]; subst. cbn [pixel_run cut_history]. destruct op as [|i]; cbn [pixel_do].
  - destruct (c =? num) eqn:E.
    + assert (E' : it_next (at_value d x b num c) = (None, at_value d x b num c))
        by (unfold it_next; cbn [at_value it_idx it_num]; rewrite E; reflexivity).
      rewrite E'. specialize (IH c x C X F2). destruct (pixel_run m (at_value d x b num c) ops). cbn [fst] in *. auto.
    + destruct (x + width b * c + width b <=? len d) eqn:L.
      * destruct (one_stored d b (x + width b * c) O ltac:(lia) ltac:(lia)) as (v & S).
        rewrite (next_found d x b num c v) by (auto; lia).
        specialize (IH (c + 1) x ltac:(lia) ltac:(lia) F2). destruct (pixel_run m (at_value d x b num (c + 1)) ops). cbn [fst] in *. eauto.
      * rewrite next_missing by lia. specialize (IH (c + 1) (len d - width b * (c + 1)) ltac:(lia) ltac:(pose proof (len_nonneg d); lia) F2).
        destruct (pixel_run m _ ops). cbn [fst] in *. auto.
  - cbn [op_ok] in F1. unfold u64 in F1. unfold read_value. cbn [it_num it_idx it_ty it_reader at_value].
    destruct (num <=? i) eqn:E.
    + fold (at_value d x b num c). specialize (IH c x C X F2). destruct (pixel_run m (at_value d x b num c) ops). cbn [fst] in *. auto.
    + assert (B1 : width b * i <= width b * num) by nia. assert (B2 : width b * c <= width b * num) by nia.
      assert (B3 : num <= width b * num) by nia. assert (B4 : 0 <= width b * i) by nia. assert (B5 : 0 <= width b * c) by nia.
      rewrite !as_i64_small by lia. rewrite i64_result_small by lia. cbn [bind].
      rewrite byte_size_width, i64_result_small by lia.
      unfold seek_relative. cbn [rd_pos rd_data].
      replace (x + width b * c + (i - c) * width b) with (x + width b * i) by lia.
      destruct (x + width b * i <? 0) eqn:Ng.
      * destruct (0 <=? x + width b * i) eqn:Y; [lia|]. cbn [andb]. change (mk_it b (mk_reader d (x + width b * c)) num c) with (at_value d x b num c).
        specialize (IH c x C X F2). destruct (pixel_run m (at_value d x b num c) ops). cbn [fst] in *. auto.
      * destruct ((0 <=? x + width b * i) && (x + width b * i <? 2 ^ 64)) eqn:Y; [|lia].
        change (mk_it b (mk_reader d (x + width b * i)) num i) with (at_value d x b num i).
        destruct (x + width b * i + width b <=? len d) eqn:L.
        -- destruct (one_stored d b (x + width b * i) O ltac:(lia) ltac:(lia)) as (v & S).
           rewrite (next_found d x b num i v) by (auto; lia).
           specialize (IH (i + 1) x ltac:(lia) ltac:(lia) F2). destruct (pixel_run m (at_value d x b num (i + 1)) ops). cbn [fst] in *. eauto.
        -- rewrite next_missing by lia. specialize (IH (i + 1) (len d - width b * (i + 1)) ltac:(lia) ltac:(pose proof (len_nonneg d); lia) F2).
           destruct (pixel_run m _ ops). cbn [fst] in *. auto.
Qed.

Section File.
Variables (m : mode) (d : list Z) (f : fits) (h : hdu) (f' : fits) (im : image).
Hypothesis Oc : octets d.
Hypothesis Ld : len d < 2 ^ 63.
Hypothesis Da : rd_data (f_reader f) = d.
Hypothesis Po : 0 <= rd_pos (f_reader f).
Hypothesis Nx : next m f = (IOk h, f').
Hypothesis Xt : h_xt h = XtImage im.
Hypothesis Sf : size_fits im.
Notation b := (im_bitpix im).
Notation o := (h_offset h).
Hypothesis S63 : width b * pixel_count im < 2 ^ 63.

Lemma image_start : exists id, get_image m f' im = Ok id /\ id_pixels id = at_value d o b (pixel_count im) 0 /\ 0 <= pixel_count im /\ 0 <= o <= len d.
Proof.
  destruct (after_next m d f h f' im Oc Da Po Nx Xt) as (n & IN & NR & HO & F' & IP & G).
  destruct (exact_size m im n IP Sf IN) as (EN & PC). pose proof (width_pos b).
  eexists. split; [exact G|]. split; [|split; [exact PC|exact HO]]. cbn [id_pixels]. unfold it_new, at_value.
  rewrite byte_size_width, EN. f_equal; [f_equal; lia|]. rewrite Z.mul_comm. apply Z.div_mul. lia.
Qed.

Lemma cut_images : exists id, get_image m f' im = Ok id /\
  forall ops, Forall op_ok ops -> cut_history d b (pixel_count im) 0 o ops (fst (pixel_run m (id_pixels id) ops)).
Proof.
  destruct image_start as (id & G & E & PC & HO). exists id. split; [exact G|]. intros ops F. rewrite E.
  apply cut_run; auto; lia.
Qed.

(** As long as every call gives a value, the values are those of the image. *)
Lemma cut_good values : stored d o b values -> len values = Z.min (pixel_count im) ((len d - o) / width b) ->
  forall ops c rs, Forall op_ok ops -> (c <= length values)%nat -> Forall gave_value rs ->
  cut_history d b (pixel_count im) (Z.of_nat c) o ops rs -> rs = pixel_spec values c ops.
Proof.
  intros S Lv. pose proof (width_pos b) as W.
  assert (Mx : forall i, 0 <= i -> o + width b * i + width b <= len d -> i < (len d - o) / width b).
  { intros i I L. pose proof (Z.div_le_lower_bound (len d - o) (width b) (i + 1) W ltac:(lia)). lia. }
  assert (V : forall i v, 0 <= i < pixel_count im -> o + width b * i + width b <= len d -> stored d (o + width b * i) b [v] ->
    nth_error values (Z.to_nat i) = Some v /\ (Z.to_nat i < length values)%nat).
  { intros i v Hi L Sv. specialize (Mx i ltac:(lia) L).
    assert (I : (Z.to_nat i < length values)%nat) by (assert (Y : i < len values) by lia; unfold len in Y; lia). split; [|exact I].
    destruct (nth_error values (Z.to_nat i)) as [u|] eqn:E; [|apply nth_error_None in E; lia]. f_equal.
    destruct (stored_nth _ _ _ _ _ _ S E) as (SL & IR & _). rewrite Z2Nat.id in SL by lia.
    assert (Su : stored d (o + width b * i) b [u]).
    { destruct Sv as (A1 & A2 & _). split; [exact A1|]. split; [exact A2|]. split; [repeat constructor; exact IR|].
      change (len [u]) with 1. rewrite Z.mul_1_r. cbn [map concat]. rewrite app_nil_r. exact SL. }
    pose proof (stored_fun _ _ _ _ _ Su Sv eq_refl). congruence. }
  induction ops as [|op ops IH]; intros c rs F C G H; [destruct rs; [reflexivity|contradiction]|].
  pose proof (Forall_inv F) as F1. pose proof (Forall_inv_tail F) as F2. destruct op as [|i]; (destruct rs as [|r rs]; [contradiction|]); destruct (Forall_inv G) as (v0 & G1); pose proof (Forall_inv_tail G) as G2; subst r;
    cbn [cut_history pixel_spec] in *.
  - destruct (Z.of_nat c =? pixel_count im) eqn:E; [destruct H; discriminate|].
    destruct (o + width b * Z.of_nat c + width b <=? len d) eqn:L; [|destruct H; discriminate].
    destruct H as (v & Sv & Ev & H). injection Ev as ->.
    destruct (V (Z.of_nat c) v) as (N & Nl); [assert (Y : Z.of_nat c <= len values) by (unfold len; lia); lia|lia|exact Sv|]. rewrite Nat2Z.id in *. rewrite N. f_equal.
    apply IH; auto. replace (Z.of_nat (Datatypes.S c)) with (Z.of_nat c + 1) by lia. exact H.
  - cbn [op_ok] in F1. unfold u64 in F1.
    destruct (pixel_count im <=? i) eqn:E; [destruct H; discriminate|].
    destruct (o + width b * i <? 0) eqn:Ng; [destruct H; discriminate|].
    destruct (o + width b * i + width b <=? len d) eqn:L; [|destruct H; discriminate].
    destruct H as (v & Sv & Ev & H). injection Ev as ->.
    destruct (V i v) as (N & Nl); [lia|lia|exact Sv|]. rewrite N. f_equal.
    apply IH; auto. replace (Z.of_nat (Datatypes.S (Z.to_nat i))) with (i + 1) by lia. exact H.
Qed.

Lemma cut_while_good : exists id values, get_image m f' im = Ok id /\
  len values = Z.min (pixel_count im) ((len d - o) / width b) /\ stored d o b values /\
  forall ops, Forall op_ok ops -> Forall gave_value (fst (pixel_run m (id_pixels id) ops)) ->
    fst (pixel_run m (id_pixels id) ops) = pixel_spec values 0 ops.
Proof.
  destruct cut_images as (id & G & H).
  destruct (pixels_sequential m d f h f' im Oc Da Po Nx Xt Sf) as (id' & values & G' & Lv & S & _).
  exists id, values. split; [exact G|]. split; [exact Lv|]. split; [exact S|]. intros ops F A.
  apply (cut_good values S Lv ops 0%nat _ F ltac:(lia) A). exact (H ops F).
Qed.

(** After a pixel that is not in the file. *)
Lemma cut_after i j : u64 i -> u64 j -> i < pixel_count im -> len d < o + width b * i + width b -> j <= i -> 0 <= len d - width b * (i + 1 - j) ->
  exists id v, get_image m f' im = Ok id /\ stored d (len d - width b * (i + 1 - j)) b [v] /\
    fst (pixel_run m (id_pixels id) [PRead i; PRead j]) = [RError; RValue v].
Proof.
  intros Ui Uj Ni Li Lj Lp. destruct cut_images as (id & G & H). pose proof (width_pos b) as W. unfold u64 in *.
  destruct (image_start) as (_ & _ & _ & _ & HO).
  specialize (H [PRead i; PRead j] ltac:(constructor; [exact Ui|constructor; [exact Uj|constructor]])).
  destruct (fst (pixel_run m (id_pixels id) [PRead i; PRead j])) as [|r1 [|r2 rs]] eqn:E; cbn [cut_history] in H.
  - contradiction.
  - destruct (pixel_count im <=? i); [destruct H; contradiction|]. destruct (_ <? 0); [destruct H; contradiction|].
    destruct (_ <=? len d); [destruct H as (? & _ & _ & []) |destruct H; contradiction].
  - destruct (pixel_count im <=? i) eqn:X1; [lia|]. destruct (o + width b * i <? 0) eqn:X2; [nia|].
    destruct (o + width b * i + width b <=? len d) eqn:X3; [lia|]. destruct H as (-> & H).
    destruct (pixel_count im <=? j) eqn:X4; [lia|].
    replace (len d - width b * (i + 1) + width b * j) with (len d - width b * (i + 1 - j)) in H by lia.
    destruct (len d - width b * (i + 1 - j) <? 0) eqn:X5; [lia|].
    destruct (len d - width b * (i + 1 - j) + width b <=? len d) eqn:X6; [|nia].
    destruct H as (v & S & -> & H). destruct rs; [|contradiction]. exists id, v. auto.
Qed.
End File.

(** Proofs of C68: written pictures are shown by the [image] crate. *)
From Coq Require Import ZifyBool Permutation.
From Verif Require Import Base Text Card Reader Header Xtension Bytes Fits ImageIt BinTable Float Tile ImageInt.
From Verif Require Import SpecCard SpecHeader SpecXt SpecFits SpecImage SpecBin SpecTile SpecWrite SpecImageInt SpecWriteShow.
From Verif Require Import BytesProofs HeaderProofs HeaderProps XtProofs2 XtProofs3 FitsProofs2 FitsProofs3 FitsProofs4 ImageProofs BinProofs TileProofs6.
From Verif Require Import ImageIntProofs ImageIntProofs2 ImageIntProofs3 ImageIntProofs4 AsyncProofs4 CliProofs WriteProofs WriteProofs2.

(** ** The header *)

Lemma nodup_app {A} (l1 l2 : list A) : NoDup l1 -> NoDup l2 -> (forall x, In x l1 -> ~ In x l2) -> NoDup (l1 ++ l2).
Proof.
  induction 1 as [|x l N D IH]; intros D2 X; [exact D2|]. cbn [app]. constructor.
  - intro I. apply in_app_or in I as [I|I]; auto. exact (X x (or_introl eq_refl) I).
  - apply IH; auto. intros y I. apply X. now right.
Qed.

Lemma scale_names zero scale e : In e (scale_entries zero scale) ->
  (fst e = chars "BZERO" \/ fst e = chars "BSCALE") /\ exists n, snd e = SaysInt n.
Proof. unfold scale_entries. destruct zero, scale; cbn; intuition (subst; cbn; eauto). Qed.

Lemma scale_proper k b axes zero scale es : len axes <= 999 -> Permutation (scale_entries zero scale) es ->
  proper_entries (image_entries k b axes ++ es) [chars "BZERO"; chars "BSCALE"].
Proof.
  intros L P. destruct (image_entries_proper k b axes L) as (A1 & A2 & A3 & A4).
  assert (S1 : forall e, In e es -> (fst e = chars "BZERO" \/ fst e = chars "BSCALE") /\ exists n, snd e = SaysInt n).
  { intros e I. apply scale_names with zero scale. eapply Permutation_in; [apply Permutation_sym, P|exact I]. }
  assert (K2 : forall n, n = chars "BZERO" \/ n = chars "BSCALE" -> ordinary_keyword n /\ simple_name n).
  { intros n [-> | ->]; apply keywordb_ok; reflexivity. }
  split; [|split; [|split]].
  - apply Forall_app. split; auto. apply Forall_forall. intros e I. apply K2, S1, I.
  - rewrite map_app, <- app_assoc. rewrite app_nil_r in A2. apply Forall_app. split; auto. apply Forall_app. split.
    + apply Forall_map, Forall_forall. intros e I. apply K2, S1, I.
    + constructor; [apply K2; auto|]. constructor; [apply K2; auto|constructor].
  - apply Forall_app. split; auto. apply Forall_forall. intros e I. destruct (S1 e I) as (_ & n & ->). exact Logic.I.
  - rewrite map_app. apply nodup_app; auto.
    + apply (Permutation_NoDup (l := map fst (scale_entries zero scale))); [now apply Permutation_map|].
      unfold scale_entries. destruct zero, scale; cbn; repeat constructor; cbn; try tauto; intros [H|[]]; discriminate.
    + intros x I J. apply in_map_iff in J as (e & <- & J). destruct (S1 e J) as (E & _). clear J.
      apply in_map_iff in I as (e' & E' & I).
      assert (ND : no_digitb (fst e) = true) by (destruct E as [-> | ->]; reflexivity).
      destruct I as [<-|[<-|I]]; [destruct E as [E|E]; rewrite E in E'; discriminate..|].
      apply in_app_or in I as [I|I].
      * apply axis_names in I as (j & a & J & -> & _); [|lia]. cbn [fst] in E'. symmetry in E'. revert E'. apply no_digit_indexed; [auto|lia].
      * destruct k; cbn [In] in I; try contradiction;
          (destruct I as [<-|[<-|[]]]; destruct E as [E|E]; rewrite E in E'; discriminate).
Qed.

Lemma scaled_well_formed m k b axes pixels zero scale s : scaled_written k b axes pixels zero scale s ->
  exists vs, well_formed m k s vs (XtImage (mk_image b axes)) /\
    keyword_integer vs (chars "BZERO") 0 (match zero with Some z => z | None => 0 end) /\
    keyword_integer vs (chars "BSCALE") 1 (match scale with Some a => a | None => 1 end) /\
    exists sc, scaling vs sc.
Proof.
  intros (K & L & NN & PP & LP & R & (es & P & U) & D).
  pose proof (scale_proper k b axes zero scale es L P) as PR.
  destruct (unit_table k _ _ s PR U) as (vs & c & cards & HR & F & OC & PC & S & NG).
  assert (UA : Forall u64 axes).
  { destruct U as ((r & rs & _ & _ & H) & _). apply Forall_forall. intros a I.
    rewrite Forall_forall in NN. specialize (NN a I). unfold u64.
    assert (exists n, In (n, SaysInt a) (axis_entries (chars "NAXIS") 1 axes)) as (n & IN).
    { generalize 1. clear -I. induction axes as [|x axes IH]; intro i; [contradiction|].
      destruct I as [->|I]; [exists (indexed (chars "NAXIS") i); now left|].
      destruct (IH I (i + 1)) as (n & J). exists n. now right. }
    pose proof (header_of_int _ _ _ n a H) as B.
    assert (- 2 ^ 63 <= a < 2 ^ 63); [|lia]. apply B. apply in_or_app. left. right. right. apply in_or_app. now left. }
  assert (B : has_int vs (chars "BITPIX") (bitpix_code b)) by (apply says_int, S; now left).
  assert (N : has_int vs (chars "NAXIS") (len axes)) by (apply says_int, S; right; now left).
  assert (A : axes_from vs (chars "NAXIS") 1 axes).
  { apply axis_says; auto. intros kw v I. apply S. apply in_or_app. left. right. right. apply in_or_app. now left. }
  assert (IP : image_parse vs = Ok (mk_image b axes)).
  { apply image_parse_iff. cbn [im_bitpix im_naxisn]. pose proof (len_nonneg axes). unfold u64. repeat split; auto; lia. }
  assert (LD : len (s_data s) = if len axes =? 0 then 0 else Z.abs (bitpix_code b) / 8 * product axes).
  { rewrite D, concat_encode_len, LP, width_bits. destruct (len axes =? 0); lia. }
  assert (KW : forall n v, In (n, SaysInt v) (scale_entries zero scale) -> exists c, get vs n = Some (VInteger v c)).
  { intros n v I. destruct (S n (SaysInt v)) as (c' & G); [apply in_or_app; right; eapply Permutation_in; eauto|]. eauto. }
  assert (NO : forall n, n = chars "BZERO" \/ n = chars "BSCALE" -> ~ In n (map fst (scale_entries zero scale)) -> get vs n = None).
  { intros n E NI. assert (I : In n [chars "BZERO"; chars "BSCALE"]) by (destruct E as [-> | ->]; cbn; auto).
    apply NG; auto; [|destruct E as [-> | ->]; discriminate..].
    intro J. destruct PR as (_ & _ & _ & _). rewrite map_app in J. apply in_app_or in J as [J|J].
    - assert (ND : no_digitb n = true) by (destruct E as [-> | ->]; reflexivity).
      apply in_map_iff in J as (e' & E' & J). destruct J as [<-|[<-|J]]; [destruct E as [E|E]; rewrite E in E'; discriminate..|].
      apply in_app_or in J as [J|J].
      + apply axis_names in J as (j & a & J & -> & _); [|lia]. cbn [fst] in E'. symmetry in E'. revert E'. apply no_digit_indexed; [auto|lia].
      + destruct k; cbn [In] in J; try contradiction;
          (destruct J as [<-|[<-|[]]]; destruct E as [E|E]; rewrite E in E'; discriminate).
    - apply NI. eapply Permutation_in; [apply Permutation_sym, Permutation_map, P|exact J]. }
  exists vs. split.
  { destruct U as (_ & E & L1 & L2). split; auto. split; auto. split; auto. split; auto. exists c, cards.
    split; auto. split; auto. split; auto.
    destruct K as [-> | ->]; cbn [xtype_of xt_parse]; rewrite IP; cbn [bind]; split; auto; exists b, axes; auto 6. }
  assert (Z0 : (exists z c', zero = Some z /\ get vs (chars "BZERO") = Some (VInteger z c')) \/ (zero = None /\ get vs (chars "BZERO") = None)).
  { destruct zero as [z|].
    - left. destruct (KW (chars "BZERO") z) as (c' & G); [left; reflexivity|]. eauto.
    - right. split; auto. apply NO; auto. unfold scale_entries. destruct scale; cbn; [intros [H|[]]; discriminate|tauto]. }
  assert (S0 : (exists a c', scale = Some a /\ get vs (chars "BSCALE") = Some (VInteger a c')) \/ (scale = None /\ get vs (chars "BSCALE") = None)).
  { destruct scale as [a|].
    - left. destruct (KW (chars "BSCALE") a) as (c' & G); [apply in_or_app; right; left; reflexivity|]. eauto.
    - right. split; auto. apply NO; auto. unfold scale_entries. destruct zero; cbn; [intros [H|[]]; discriminate|tauto]. }
  unfold keyword_integer, scaling, keyword_float.
  destruct Z0 as [(z & cz & -> & ->)|(-> & ->)], S0 as [(a & ca & -> & ->)|(-> & ->)]; (split; [reflexivity|]; split; [reflexivity|]);
    eexists (mk_scale _ _); cbn [sc_zero sc_scale]; split; reflexivity.
Qed.

Lemma accepted_scaled m k b axes pixels zero scale s : scaled_written k b axes pixels zero scale s -> accepted m (k, s).
Proof. intro W. destruct (scaled_well_formed m k b axes pixels zero scale s W) as (vs & H & _). exists vs, (XtImage (mk_image b axes)). exact H. Qed.

(** ** The search *)

Lemma items_app m hs1 : forall q hs2 full, items_for m q (hs1 ++ hs2) full ->
  exists l1 l2, full = map IOk l1 ++ l2 /\ items_for m q hs1 (map IOk l1) /\ items_for m (q + total_len hs1) hs2 l2.
Proof.
  induction hs1 as [|(k, s) hs1 IH]; intros q hs2 full I; cbn [app total_len] in *.
  - exists [], full. rewrite Z.add_0_r. split; auto. split; [constructor|auto].
  - inversion I as [|q0 k0 s0 h rest l RF I2]; subst. destruct (IH _ _ _ I2) as (l1 & l2 & -> & I1 & I3).
    exists (h :: l1), l2. split; auto. split; [constructor; auto|]. cbn [snd]. replace (q + (len (hdu_bytes s) + total_len hs1)) with (q + len (hdu_bytes s) + total_len hs1) by lia. auto.
Qed.

Lemma file_prefix m d pre k s post :
  octets d -> file_kinds (pre ++ (k, s) :: post) -> Forall (accepted m) (pre ++ [(k, s)]) ->
  d = file_bytes (pre ++ (k, s) :: post) -> len d < 2 ^ 63 ->
  exists l h f, run m (length l + 1) (opened d) = (map IOk l ++ [IOk h], f) /\ items_for m 0 pre (map IOk l) /\ length l = length pre /\
    yields m (opened d) (map IOk l ++ [IOk h]) f.
Proof.
  intros O K A D B.
  assert (K1 : kinds_from true (pre ++ [(k, s)])).
  { destruct pre as [|(k0, s0) pre]; cbn [app file_kinds kinds_from] in *.
    - destruct K as (-> & _). auto.
    - destruct K as (-> & F). split; auto. apply Forall_app in F as (F1 & F2). inversion F2; subst. apply Forall_app. auto. }
  assert (DD : d = file_bytes (pre ++ [(k, s)]) ++ file_bytes post).
  { rewrite D. unfold file_bytes. rewrite !map_app, !concat_app. cbn [map concat]. rewrite app_nil_r, <- app_assoc. reflexivity. }
  destruct (iterate m d O (pre ++ [(k, s)]) (opened d) 0) as (full & f & I & LF & Y & _ & _ & U & _); auto.
  - apply ready_opened.
  - apply (placed_concat d _ 0 (file_bytes post)); [lia|]. exact DD.
  - rewrite total_len_concat. fold (file_bytes (pre ++ [(k, s)])). rewrite DD, len_app in B. pose proof (len_nonneg (file_bytes post)). lia.
  - destruct (items_app m pre 0 [(k, s)] full I) as (l & l2 & -> & I1 & I2).
    inversion I2 as [|q0 k0 s0 h rest l0 RF I3]; subst q0 k0 s0 rest l2. inversion I3; subst.
    assert (LL : length l = length pre).
    { rewrite !app_length, map_length in LF. cbn [length] in LF. lia. }
    pose proof (run_determined m (opened (file_bytes (pre ++ (k, s) :: post))) (map IOk l ++ [IOk h])) as R.
    rewrite app_length, map_length in R. cbn [length] in R. 
    assert (R' : fst (run m (length l + 1) (opened (file_bytes (pre ++ (k, s) :: post)))) = map IOk l ++ [IOk h]).
    { apply R; [|apply no_panic_items; discriminate]. intros l' f2 Y' L'. apply (U l' f2 Y'). rewrite app_length. cbn [length]. lia. }
    destruct (run m (length l + 1) (opened (file_bytes (pre ++ (k, s) :: post)))) as (lr, fr) eqn:RR. cbn [fst] in R'. subst lr.
    exists l, h, fr. split; auto. split; auto. split; auto.
    pose proof (run_yields m (length l + 1) (opened (file_bytes (pre ++ (k, s) :: post)))) as YY. rewrite RR in YY. cbn [fst snd] in YY. apply YY.
    clear. induction l as [|x l IH]; cbn; auto.
Qed.

Lemma no_picture_unsuitable m k s q h : accepted m (k, s) -> no_picture (k, s) -> read_from m k q s h -> ~ suitable m h.
Proof.
  intros (vs & x & W) NP RF. cbn [fst snd] in W. destruct (read_from_xt m k s vs x q h W RF) as (X & V).
  destruct RF as (HK & (cards & E & F) & PC & XP & _ & SZ). unfold no_picture in NP. cbn [fst snd] in NP.
  intros [(KK & n & S & NZ)|(KK & t & z & T & ZI)].
  - rewrite SZ in S. injection S as <-. rewrite HK in KK. destruct KK as [-> | ->]; apply NZ; now rewrite NP.
  - rewrite HK in KK. clear HK. subst k. rewrite T in XP. cbn [xtype_of xt_parse] in XP.
    destruct (bintable_parse m (h_values h)) as [t'| |] eqn:BP; try discriminate. cbn [bind] in XP. injection XP as ->.
    destruct (bintable_zimage m _ t BP) as (zn & _ & ZE). rewrite ZI in ZE.
    assert (G : get (h_values h) (chars "ZCMPTYPE") = None).
    { rewrite E in PC. destruct (table_spec m cards (h_values h) PC) as (_ & TN & _). apply TN. intros c v I D.
      assert (exists r, In r (s_records s) /\ reads_as r c) as (r & IR & RA).
      { clear -F I. induction F as [|r c' rs cs R F IH]; [contradiction|]. destruct I as [->|I]; [exists r; split; [now left|auto]|].
        destruct (IH I) as (r' & I' & R'). exists r'. split; [now right|auto]. }
      destruct (NP r IR) as (OR & NR). apply NR. apply (defines_redefines r c _ v OR); auto. apply (keywordb_ok (chars "ZCMPTYPE")). reflexivity. }
    unfold parse_zcmp in ZE. rewrite G in ZE. cbn [make_zimage] in ZE. discriminate.
Qed.

Lemma unsuitable_list m pre : forall q l, Forall (accepted m) pre -> Forall no_picture pre -> items_for m q pre (map IOk l) ->
  Forall (fun x => ~ suitable m x) l.
Proof.
  induction pre as [|(k, s) pre IH]; intros q [|h l] A N I.
  - constructor.
  - inversion I.
  - inversion I.
  - cbn [map] in I. inversion I as [|q0 k0 s0 h0 rest l0 RF I2]; subst q0 k0 s0 h0 rest l0.
    inversion A; inversion N; subst. constructor; [eapply no_picture_unsuitable; eauto|eapply IH; eauto].
Qed.

(** ** What is shown *)

Lemma shown_image gz m d pre k s post b axes pixels zero scale w ht rgb fuel :
  octets d -> file_kinds (pre ++ (k, s) :: post) -> Forall (accepted m) pre -> Forall no_picture pre ->
  scaled_written k b axes pixels zero scale s -> pixels <> [] -> shows axes w ht rgb ->
  d = file_bytes (pre ++ (k, s) :: post) -> len d < 2 ^ 63 -> (length pre < fuel)%nat ->
  exists dec sc, decoder_new m fuel (mk_reader d 0) = Some (Ok dec) /\
    de_width dec = w /\ de_height dec = ht /\ ImageInt.total_bytes dec = w * ht * (depth b * channels b rgb) /\
    (exists vs, scaling vs sc /\
       keyword_integer vs (chars "BZERO") 0 (match zero with Some z => z | None => 0 end) /\
       keyword_integer vs (chars "BSCALE") 1 (match scale with Some a => a | None => 1 end)) /\
    forall fuel2 buf, len buf = ImageInt.total_bytes dec ->
      read_image gz m fuel2 dec buf = Some (Ok (picture_buffer 0 (channels b rgb) rgb (w * ht) (image_sample b sc) pixels)).
Proof.
  intros O K A NP W NE SH D B FU.
  assert (A1 : Forall (accepted m) (pre ++ [(k, s)])).
  { apply Forall_app. split; auto. constructor; auto. eapply accepted_scaled; eauto. }
  destruct (file_prefix m d pre k s post O K A1 D B) as (l & h & f & R & I & L & Y).
  destruct (nth_hdu m d pre k s post _ f O K A1 D B Y) as (l' & h' & f1 & EL & RD & RP & N & RF & HO & SL).
  { rewrite app_length, map_length. cbn [length]. lia. }
  apply app_inj_tail in EL as (_ & E). injection E as <-.
  destruct (scaled_well_formed m k b axes pixels zero scale s W) as (vs & WF & KZ & KS & sc & SC).
  destruct (read_from_xt m k s vs _ _ h WF RF) as (X & V).
  destruct W as (KK & _ & NN & PP & LP & RG & _ & DD).
  assert (LD : len (s_data s) = width b * len pixels) by (rewrite DD; apply concat_encode_len).
  assert (LE : 0 < len pixels) by (destruct pixels; [congruence|rewrite len_cons; pose proof (len_nonneg pixels); lia]).
  assert (SU : suitable m h).
  { left. destruct RF as (HK & _ & _ & _ & _ & SZ). rewrite HK. split; auto. exists (len (s_data s)). split; auto.
    rewrite LD. pose proof (width_pos b). nia. }
  pose proof (opens_first m d l h f fuel O R (unsuitable_list m pre 0 l A NP I) SU ltac:(lia)) as (ax & b' & PI & OW).
  assert (ax = axes /\ b' = b) as (-> & ->).
  { destruct PI as [(im & X' & -> & ->)|(t & z & X' & _)]; rewrite X in X'; [injection X' as <-; auto|discriminate]. }
  destruct (decoder_new m fuel (mk_reader d 0)) as [[dec|e|]|] eqn:DN; try contradiction.
  2: { exfalso. destruct OW as (_ & NS). exact (NS w ht rgb SH). }
  destruct OW as (SH2 & DB & DH & DF).
  assert (de_width dec = w /\ de_height dec = ht /\ de_rgb dec = rgb) as (EW & EH & ER).
  { destruct SH as (_ & _ & S1), SH2 as (_ & _ & S2). rewrite ?DB in *.
    destruct S1 as [(-> & ->)|[(-> & ->)|(-> & ->)]]; destruct S2 as [(E & F)|[(E & F)|(E & F)]]; injection E; intros; subst; try discriminate; auto. }
  assert (KI : de_kind dec = KImage (mk_image b axes)).
  { destruct (decoder_inv m fuel d dec O DN) as (f0 & _ & _ & _ & ST & _). unfold stops_at in ST. rewrite DH, X in ST.
    destruct RF as (HK & _ & _ & _ & _ & SZ). rewrite HK, SZ in ST. cbn [bind] in ST.
    destruct KK as [-> | ->]; destruct (len (s_data s) =? 0); try discriminate; injection ST; auto. }
  assert (PC : pixel_count (mk_image b axes) = len pixels) by (unfold pixel_count; cbn [im_naxisn]; auto).
  assert (SF : size_fits (mk_image b axes)).
  { split; cbn [im_naxisn im_bitpix]; auto. rewrite PC.
    assert (0 <= h_offset h).
    { destruct RF as (_ & _ & _ & _ & HOE & _). rewrite HOE. pose proof (len_nonneg (file_bytes pre)). pose proof (len_nonneg (header_bytes s)). lia. }
    lia. }
  exists dec, sc. split; auto. split; auto. split; auto. split.
  { unfold ImageInt.total_bytes, color_type. rewrite EW, EH, DB, ER. destruct b, rgb; cbn; lia. }
  split. { exists vs. auto. }
  intros fuel2 buf LB.
  assert (G : forall fu, fu = fuel2 -> read_image gz m fu dec buf = read_image gz m fuel dec buf).
  { intros fu _. unfold read_image. rewrite KI. reflexivity. }
  rewrite (G fuel2 eq_refl).
  destruct (image_complete gz m fuel d dec (mk_image b axes) sc O DN KI SF) as (values & LV & ST & RI).
  { rewrite DH, V. exact SC. }
  { rewrite DH. cbn [im_bitpix]. rewrite PC. lia. }
  cbn [im_bitpix] in ST, RI. rewrite (RI buf LB).
  assert (values = pixels) as ->.
  { assert (LL : len values = len pixels).
    { rewrite LV, <- PC, ER, EW, EH. unfold pixel_count. cbn [im_naxisn].
      destruct SH as (_ & _ & [(-> & ->)|[(-> & ->)|(-> & ->)]]); unfold len; cbn [length]; cbn [product];
        match goal with |- context [Z.of_nat ?n =? 0] => change (Z.of_nat n =? 0) with false end; cbv iota; ring. }
    destruct ST as (_ & _ & RV & SV). apply (concat_encode_inj b); auto; [unfold len in LL; lia|].
    rewrite <- SV, <- DD, <- SL, LL, LD, DH. reflexivity. }
  unfold picture_buffer, place, by_plane, one_plane. rewrite ER, EW, EH. destruct rgb; reflexivity.
Qed.

Lemma be_bytes_snoc n v : be_bytes (S n) v = be_bytes n (v / 256) ++ [v mod 256].
Proof.
  unfold be_bytes. rewrite seq_S, map_app. cbn [map]. f_equal.
  - apply map_ext_in. intros i I. apply in_seq in I. rewrite Z.div_div by lia. f_equal. f_equal.
    rewrite <- Z.pow_succ_r by lia. f_equal. lia.
  - replace (Z.of_nat (S n) - 1 - Z.of_nat (0 + n)) with 0 by lia. rewrite Z.pow_0_r, Z.div_1_r. reflexivity.
Qed.

Lemma le_bytes_rev n : forall z, le_bytes n z = rev (be_bytes n z).
Proof.
  induction n as [|n IH]; intro z; [reflexivity|]. rewrite be_bytes_snoc, rev_app_distr. cbn [rev app le_bytes]. now rewrite IH.
Qed.

Lemma le_value_inj l1 : forall l2, octets l1 -> octets l2 -> length l1 = length l2 -> le_value l1 = le_value l2 -> l1 = l2.
Proof.
  induction l1 as [|x l1 IH]; intros [|y l2] O1 O2 L E; try discriminate; auto.
  inversion O1; inversion O2; subst. cbn [le_value] in E. injection L as L.
  assert (x = y) by lia. subst y. f_equal. apply IH; auto. lia.
Qed.

Lemma sample_exact b vs sc zero scale v : b = BU8 \/ b = BI16 ->
  scaling vs sc ->
  keyword_integer vs (chars "BZERO") 0 (match zero with Some z => z | None => 0 end) ->
  keyword_integer vs (chars "BSCALE") 1 (match scale with Some a => a | None => 1 end) ->
  Z.abs (match zero with Some z => z | None => 0 end) < 2 ^ 53 -> Z.abs (match scale with Some a => a | None => 1 end) < 2 ^ 53 ->
  in_range b v -> Z.abs (physical zero scale v) < 2 ^ 53 ->
  image_sample b sc v = sample_bytes (depth b) (limited 0 (256 ^ depth b - 1) (physical zero scale v)).
Proof.
  intros B SC KZ KS BZ BS R BP. unfold physical in *.
  set (z := match zero with Some z => z | None => 0 end) in *. set (a := match scale with Some a => a | None => 1 end) in *.
  destruct (scaled_samples vs sc a z v SC KS KZ) as (U & W); try lia.
  destruct (sample_means b sc v R) as (O & LS & _).
  assert (E : le_value (image_sample b sc v) = limited 0 (256 ^ depth b - 1) (v * a + z)).
  { destruct B as [-> | ->]; [apply U|apply W]; auto. }
  assert (RG : 0 <= limited 0 (256 ^ depth b - 1) (v * a + z) < 256 ^ depth b).
  { assert (0 < 256 ^ depth b) by (destruct b; cbn; lia). unfold limited.
    destruct (Z.ltb_spec (v * a + z) 0); [lia|]. destruct (Z.ltb_spec (256 ^ depth b - 1) (v * a + z)); lia. }
  unfold sample_bytes. rewrite <- le_bytes_rev. apply le_value_inj; auto.
  - apply le_bytes_octets.
  - apply Nat2Z.inj. fold (len (image_sample b sc v)). fold (len (le_bytes (Z.to_nat (depth b)) (limited 0 (256 ^ depth b - 1) (v * a + z)))).
    rewrite LS, le_bytes_len. destruct b; reflexivity.
  - rewrite E, le_value_bytes. rewrite Z2Nat.id by (destruct b; cbn; lia). symmetry. apply Z.mod_small. exact RG.
Qed.

Lemma picture_ext ch rgb n f g values : (forall v, In v values \/ v = 0 -> f v = g v) ->
  picture_buffer 0 ch rgb n f values = picture_buffer 0 ch rgb n g values.
Proof.
  intro E. unfold picture_buffer. apply flat_map_ext. intro i. apply flat_map_ext. intro c. apply E.
  destruct (nth_in_or_default (Z.to_nat (if rgb then c * n + i else i)) values 0); auto.
Qed.

Lemma shown_small gz m d pre k s post b axes pixels zero scale w ht rgb fuel :
  octets d -> file_kinds (pre ++ (k, s) :: post) -> Forall (accepted m) pre -> Forall no_picture pre ->
  scaled_written k b axes pixels zero scale s -> pixels <> [] -> shows axes w ht rgb -> b = BU8 \/ b = BI16 ->
  Z.abs (match zero with Some z => z | None => 0 end) < 2 ^ 53 -> Z.abs (match scale with Some a => a | None => 1 end) < 2 ^ 53 ->
  Forall (fun v => Z.abs (physical zero scale v) < 2 ^ 53) pixels ->
  d = file_bytes (pre ++ (k, s) :: post) -> len d < 2 ^ 63 -> (length pre < fuel)%nat ->
  exists dec, decoder_new m fuel (mk_reader d 0) = Some (Ok dec) /\
    de_width dec = w /\ de_height dec = ht /\ ImageInt.total_bytes dec = w * ht * (depth b * channels b rgb) /\
    forall fuel2 buf, len buf = ImageInt.total_bytes dec ->
      read_image gz m fuel2 dec buf = Some (Ok (picture_buffer 0 (channels b rgb) rgb (w * ht)
        (fun v => sample_bytes (depth b) (limited 0 (256 ^ depth b - 1) (physical zero scale v))) pixels)).
Proof.
  intros O K A NP W NE SH B BZ BS BP D LD FU.
  destruct (shown_image gz m d pre k s post b axes pixels zero scale w ht rgb fuel O K A NP W NE SH D LD FU)
    as (dec & sc & DN & EW & EH & ET & (vs & SC & KZ & KS) & RI).
  exists dec. split; auto. split; auto. split; auto. split; auto. intros fuel2 buf LB. rewrite (RI fuel2 buf LB). do 2 f_equal.
  apply picture_ext. intros v I. apply sample_exact with vs; auto.
  - destruct W as (_ & _ & _ & _ & _ & RG & _). rewrite Forall_forall in RG. destruct I as [I| ->]; [auto|]. destruct b; cbn; lia.
  - rewrite Forall_forall in BP. destruct I as [I| ->]; [auto|]. unfold physical. lia.
Qed.

Lemma shown_floats gz m d pre k s post axes pixels zero scale w ht rgb fuel :
  octets d -> file_kinds (pre ++ (k, s) :: post) -> Forall (accepted m) pre -> Forall no_picture pre ->
  scaled_written k BF32 axes pixels zero scale s -> pixels <> [] -> shows axes w ht rgb ->
  d = file_bytes (pre ++ (k, s) :: post) -> len d < 2 ^ 63 -> (length pre < fuel)%nat ->
  exists dec, decoder_new m fuel (mk_reader d 0) = Some (Ok dec) /\
    de_width dec = w /\ de_height dec = ht /\ ImageInt.total_bytes dec = w * ht * 12 /\
    forall fuel2 buf, len buf = ImageInt.total_bytes dec ->
      read_image gz m fuel2 dec buf = Some (Ok (picture_buffer 0 3 rgb (w * ht) (sample_bytes 4) pixels)).
Proof.
  intros O K A NP W NE SH D LD FU.
  destruct (shown_image gz m d pre k s post BF32 axes pixels zero scale w ht rgb fuel O K A NP W NE SH D LD FU)
    as (dec & sc & DN & EW & EH & ET & _ & RI).
  exists dec. split; auto. split; auto. split; auto. split; [rewrite ET; destruct rgb; cbn; lia|].
  intros fuel2 buf LB. rewrite (RI fuel2 buf LB). do 2 f_equal. replace (channels BF32 rgb) with 3 by (destruct rgb; reflexivity).
  apply picture_ext. intros v I. cbn [image_sample]. apply le_bytes_rev.
Qed.

(** Unsigned numbers by the convention of section 4.4.2.5 (table 11): exactly what was written. *)
Lemma upto_nth (l : list Z) : map (fun i => nth (Z.to_nat i) l 0) (upto (len l)) = l.
Proof.
  unfold upto, len. rewrite Nat2Z.id, map_map. erewrite map_ext; [|intro i; rewrite Nat2Z.id; reflexivity].
  induction l as [|x l IH]; [reflexivity|]. cbn [length seq map]. f_equal.
  rewrite <- seq_shift, map_map. cbn [nth]. exact IH.
Qed.

Lemma picture_grey f values : picture_buffer 0 1 false (len values) f values = flat_map f values.
Proof.
  unfold picture_buffer. change (upto 1) with [0]. transitivity (flat_map f (map (fun i => nth (Z.to_nat i) values 0) (upto (len values)))); [|now rewrite upto_nth].
  rewrite !flat_map_concat_map, map_map. f_equal. apply map_ext. intro i. cbn [flat_map]. apply app_nil_r.
Qed.

Lemma shown_unsigned gz m d pre k s post us axes w ht fuel :
  octets d -> file_kinds (pre ++ (k, s) :: post) -> Forall (accepted m) pre -> Forall no_picture pre ->
  us <> [] -> shows axes w ht false ->
  d = file_bytes (pre ++ (k, s) :: post) -> len d < 2 ^ 63 -> (length pre < fuel)%nat ->
  (Forall (fun u => 0 <= u < 65536) us -> scaled_written k BI16 axes (map (fun u => u - 32768) us) (Some 32768) (Some 1) s ->
   exists dec, decoder_new m fuel (mk_reader d 0) = Some (Ok dec) /\ de_width dec = w /\ de_height dec = ht /\
     forall fuel2 buf, len buf = ImageInt.total_bytes dec ->
       read_image gz m fuel2 dec buf = Some (Ok (flat_map (sample_bytes 2) us))) /\
  (Forall (fun u => 0 <= u < 256) us -> scaled_written k BU8 axes us None None s ->
   exists dec, decoder_new m fuel (mk_reader d 0) = Some (Ok dec) /\ de_width dec = w /\ de_height dec = ht /\
     forall fuel2 buf, len buf = ImageInt.total_bytes dec -> read_image gz m fuel2 dec buf = Some (Ok us)).
Proof.
  intros O K A NP NE SH D LD FU.
  assert (NS : forall l b z sc, scaled_written k b axes l z sc s -> len l = w * ht).
  { intros l b z sc (_ & _ & _ & _ & LP & _). rewrite LP. destruct SH as (_ & _ & [(-> & _)|[(-> & _)|(_ & E)]]); [..|discriminate];
      unfold len; cbn [length product]; match goal with |- context [Z.of_nat ?n =? 0] => change (Z.of_nat n =? 0) with false end; cbv iota; ring. }
  split; intros RG W; pose proof (NS _ _ _ _ W) as LN.
  - destruct (shown_small gz m d pre k s post BI16 axes _ _ _ w ht false fuel O K A NP W) as (dec & DN & EW & EH & _ & RI); auto; try lia.
    { destruct us; [congruence|discriminate]. }
    { apply Forall_map. eapply Forall_impl; [|exact RG]. intros u U. unfold physical. cbn beta in U. lia. }
    exists dec. split; auto. split; auto. split; auto. intros fuel2 buf LB. rewrite (RI fuel2 buf LB). do 2 f_equal.
    change (channels BI16 false) with 1. rewrite <- LN, picture_grey. rewrite !flat_map_concat_map, map_map. f_equal.
    apply map_ext_in. intros u I. rewrite Forall_forall in RG. specialize (RG u I). cbn beta. change (256 ^ depth BI16 - 1) with 65535. change (depth BI16) with 2.
    f_equal. unfold limited, physical. replace ((u - 32768) * 1 + 32768) with u by lia.
    destruct (Z.ltb_spec u 0); [lia|]. destruct (Z.ltb_spec 65535 u); [lia|reflexivity].
  - destruct (shown_small gz m d pre k s post BU8 axes _ _ _ w ht false fuel O K A NP W) as (dec & DN & EW & EH & _ & RI); auto; try lia.
    { eapply Forall_impl; [|exact RG]. intros u U. unfold physical. cbn beta in U. lia. }
    exists dec. split; auto. split; auto. split; auto. intros fuel2 buf LB. rewrite (RI fuel2 buf LB). do 2 f_equal.
    change (channels BU8 false) with 1. rewrite <- LN, picture_grey. 
    transitivity (flat_map (fun u => [u]) us).
    + rewrite !flat_map_concat_map. f_equal. apply map_ext_in. intros u I. rewrite Forall_forall in RG. specialize (RG u I). cbn beta.
      unfold sample_bytes, limited, physical. change (256 ^ depth BU8 - 1) with 255. replace (u * 1 + 0) with u by lia.
      destruct (Z.ltb_spec u 0); [lia|]. destruct (Z.ltb_spec 255 u); [lia|]. change (rev (be_bytes (Z.to_nat (depth BU8)) u)) with [u / 256 ^ 0 mod 256].
      rewrite Z.pow_0_r, Z.div_1_r, Z.mod_small by lia. reflexivity.
    + clear. induction us; cbn; congruence.
Qed.

(** The writer writes such images. *)
Lemma scale_sayable zero scale : number_ok zero -> number_ok scale -> Forall (fun e => sayable (snd e)) (scale_entries zero scale).
Proof. intros Z S. unfold scale_entries. destruct zero, scale; repeat constructor; cbn in *; lia. Qed.
Lemma image_sayable k b axes : len axes <= 999 -> Forall (fun a => 0 <= a < 2 ^ 63) axes ->
  Forall (fun e => sayable (snd e)) (image_entries k b axes).
Proof.
  intros L A. pose proof (len_nonneg axes).
  assert (LB : - 2 ^ 63 <= bitpix_code b < 2 ^ 63) by (destruct b; cbn; lia).
  constructor; [exact LB|]. constructor; [cbn; lia|]. apply Forall_app. split.
  - apply Forall_forall. intros e I. apply axis_names in I as (j & a & J & -> & IA); [|lia].
    rewrite Forall_forall in A. specialize (A a IA). cbn. lia.
  - destruct k; repeat constructor; cbn; lia.
Qed.

Lemma written_scaled k b axes pixels zero scale : k = HPrimary \/ k = HImage -> picture_ok (b, axes, pixels) ->
  number_ok zero -> number_ok scale ->
  scaled_written k b axes pixels zero scale (write_scaled k (b, axes, pixels) zero scale) /\
  octets (hdu_bytes (write_scaled k (b, axes, pixels) zero scale)).
Proof.
  intros K (L & A & P & LP & R) NZ NS.
  assert (S : Forall (fun e => sayable (snd e)) (image_entries k b axes ++ scale_entries zero scale)).
  { apply Forall_app. split; [now apply image_sayable|now apply scale_sayable]. }
  destruct (scale_proper k b axes zero scale _ L (Permutation_refl _)) as (OK & _).
  split.
  - split; auto. split; auto. split; [eapply Forall_impl; [|exact A]; cbn; lia|]. split; auto. split; auto. split; auto.
    split; [|reflexivity]. exists (scale_entries zero scale). split; auto. apply unit_written; auto.
    eapply Forall_impl; [|exact OK]. intros e (Le & _). lia.
  - apply unit_octets; auto. now apply encode_octets.
Qed.

(** A file with such an image first, and others behind. *)
Lemma shown_file_ok p zero scale ps : picture_ok p -> number_ok zero -> number_ok scale -> Forall picture_ok ps ->
  octets (file_bytes (shown_file p zero scale ps)) /\ file_kinds (shown_file p zero scale ps).
Proof.
  intros P Z S F. split.
  - unfold file_bytes, shown_file. cbn [map concat]. apply Forall_app. split.
    + destruct p as ((b, axes), pixels). apply written_scaled; auto.
    + apply Forall_concat, Forall_map, Forall_map. eapply Forall_impl; [|exact F]. intros q Q. cbn [snd]. apply image_octets; auto.
  - split; [reflexivity|]. apply Forall_map, Forall_forall. intros. discriminate.
Qed.

Lemma file_shown gz m b axes pixels zero scale ps w ht rgb :
  picture_ok (b, axes, pixels) -> number_ok zero -> number_ok scale -> Forall picture_ok ps ->
  pixels <> [] -> shows axes w ht rgb -> b = BU8 \/ b = BI16 ->
  Z.abs (match zero with Some z => z | None => 0 end) < 2 ^ 53 -> Z.abs (match scale with Some a => a | None => 1 end) < 2 ^ 53 ->
  Forall (fun v => Z.abs (physical zero scale v) < 2 ^ 53) pixels ->
  let d := file_bytes (shown_file (b, axes, pixels) zero scale ps) in
  len d < 2 ^ 63 ->
  exists dec, decoder_new m 1 (mk_reader d 0) = Some (Ok dec) /\
    de_width dec = w /\ de_height dec = ht /\ ImageInt.total_bytes dec = w * ht * (depth b * channels b rgb) /\
    forall fuel2 buf, len buf = ImageInt.total_bytes dec ->
      read_image gz m fuel2 dec buf = Some (Ok (picture_buffer 0 (channels b rgb) rgb (w * ht)
        (fun v => sample_bytes (depth b) (limited 0 (256 ^ depth b - 1) (physical zero scale v))) pixels)).
Proof.
  intros P Z S F NE SH B BZ BS BP d LD.
  destruct (shown_file_ok (b, axes, pixels) zero scale ps P Z S F) as (O & K).
  eapply (shown_small gz m d [] HPrimary); eauto.
  apply written_scaled; auto.
Qed.

(** Proofs of C65: written files read asynchronously. *)

From Verif Require Import Base Utf8 Text Card Reader Header Xtension Fits Bytes Async.
From Verif Require Import SpecUtf8 SpecCard SpecHeader SpecXt SpecFits SpecImage SpecAsync SpecWrite.
From Verif Require Import HeaderProofs FitsProofs FitsProofs2 FitsProofs3 FitsProofs4 BytesProofs ImageProofs AsyncProofs AsyncProofs2 AsyncProofs4 WriteProofs WriteProofs2.
From Coq Require Import ZifyBool.

Lemma nth_ahdu m r pre k s post l g :
  octets (content r) -> always_ready r -> file_kinds (pre ++ (k, s) :: post) -> Forall (accepted m) (pre ++ [(k, s)]) ->
  content r = file_bytes (pre ++ (k, s) :: post) -> len (content r) < 2 ^ 63 ->
  ayields m (afrom_reader r) l g -> length l = S (length pre) ->
  exists l' h, l = l' ++ [AOk (without_offset h)] /\ read_from m k (len (file_bytes pre)) s h /\
    always_ready (af_reader g) /\ af_rem g = len (s_data s) /\
    content (af_reader g) = s_data s ++ s_dpad s ++ file_bytes post.
Proof.
  intros O AR K A D B Y L. apply Forall_app in A as (A & A1). inversion A1 as [|? ? (vs & x & W) _]; subst. cbn [fst snd] in W.
  destruct (@exists_last _ l) as (l' & i & ->); [destruct l; discriminate|].
  rewrite app_length in L. cbn [length] in L. assert (L' : length l' = length pre) by lia. clear L.
  destruct (ayields_split _ _ _ _ _ Y) as (g1 & Y1 & Y2).
  set (d := content r) in *.
  assert (D' : d = file_bytes pre ++ header_bytes s ++ s_data s ++ s_dpad s ++ file_bytes post).
  { rewrite D. unfold file_bytes. rewrite map_app, concat_app. cbn [map concat snd]. unfold hdu_bytes. now rewrite <- !app_assoc. }
  assert (LD : len d = len (file_bytes pre) + len (hdu_bytes s) + len (file_bytes post)).
  { rewrite D'. unfold hdu_bytes. rewrite !len_app. lia. }
  pose proof (len_nonneg (file_bytes post)). pose proof (len_nonneg (file_bytes pre)). pose proof (len_nonneg (hdu_bytes s)).
  pose proof (len_nonneg (s_dpad s)).
  assert (K1 : kinds_from true pre /\ prim k = match pre with [] => true | _ => false end).
  { destruct pre as [|(k0, s0) pre]; cbn [app file_kinds kinds_from] in *.
    - destruct K as (-> & _). auto.
    - destruct K as (-> & F). apply Forall_app in F as (F1 & F2). inversion F2; subst. cbn [fst] in *.
      split; auto. destruct k; auto. congruence. }
  destruct K1 as (K1 & K2).
  assert (P : placed d 0 pre).
  { apply (placed_concat d pre 0 (header_bytes s ++ s_data s ++ s_dpad s ++ file_bytes post)); [lia|]. exact D'. }
  assert (T : total_len pre = len (file_bytes pre)) by apply total_len_concat.
  destruct (iterate m d O pre (opened d) 0) as (full & f & _ & _ & YF & RD & ST & _ & FU); auto; [apply ready_opened|lia|].
  destruct (aiterate m d O B pre (opened d) (afrom_reader r) 0) as (full' & _ & _ & _ & AL); auto; [apply ready_opened|apply aready_opened; auto|lia|].
  destruct (AL l' g1 Y1 L') as (AG & SG). rewrite Z.add_0_l, T in RD, AG.
  assert (S1 : f_start f = prim k /\ af_start g1 = prim k).
  { rewrite K2. destruct pre as [|a pre].
    - destruct l'; [|discriminate]. inversion Y1; subst. split; auto.
      assert (f = opened d) as -> by (symmetry; apply (FU []); [constructor|reflexivity]). reflexivity.
    - split; [apply ST|apply SG]; discriminate. }
  destruct S1 as (Sf & Sg).
  destruct (step_hdu m d f (len (file_bytes pre)) k s vs x (s_data s ++ s_dpad s ++ file_bytes post) (rd_pos (f_reader f)))
    as (h & f2 & N & RF & _); auto; [left; auto|lia| |].
  { rewrite D' at 1. unfold len. rewrite Nat2Z.id, skipn_app, skipn_all, Nat.sub_diag. reflexivity. }
  inversion Y2 as [|f0 b k0 f1' i' g2 l0 g3 DV E1 E2 Y0]; subst.
  inversion Y0; subst.
  destruct (items_aready m b d (len (file_bytes pre)) k0 O ltac:(lia) g1 AG DV) as (A2 & S2).
  pose proof (next_ready m d f _ _ RD (or_introl eq_refl)) as NR. rewrite N in NR. symmetry in NR.
  apply finish_ok in NR as (n & rr & size & X & Sz & _).
  pose proof (poll_sim m d _ _ O A2 ltac:(lia)) as H3. rewrite S2, Sg, <- Sf, X, Sz in H3. destruct H3 as (s' & Ep & As).
  rewrite Ep in E2. injection E2 as <- <-.
  exists l', h. split; auto. split; auto. cbn [af_reader af_rem]. pose proof RF as (_ & _ & _ & _ & HO & HS).
  destruct As as (R' & _ & C'). split; auto. split; [congruence|]. rewrite C', HO.
  replace (file_bytes pre ++ header_bytes s ++ s_data s ++ s_dpad s ++ file_bytes post)
    with ((file_bytes pre ++ header_bytes s) ++ s_data s ++ s_dpad s ++ file_bytes post) in D' by now rewrite <- app_assoc.
  rewrite D'. replace (Z.to_nat _) with (length (file_bytes pre ++ header_bytes s)) by (rewrite app_length; unfold len; lia).
  now rewrite skipn_app, skipn_all, Nat.sub_diag.
Qed.

Lemma async_image m r pre k s post b axes pixels l g :
  octets (content r) -> always_ready r -> file_kinds (pre ++ (k, s) :: post) -> Forall (accepted m) pre ->
  image_written k b axes pixels s -> content r = file_bytes (pre ++ (k, s) :: post) -> len (content r) < 2 ^ 63 ->
  ayields m (afrom_reader r) l g -> length l = S (length pre) ->
  exists l' h, l = l' ++ [AOk h] /\ a_kind h = k /\ a_xt h = XtImage (mk_image b axes) /\
    forall n, fst (arun m g (repeat (OItem b) n)) = map (fun v => RItem (SItem v)) (firstn n pixels) ++ repeat (RItem SEnd) (n - length pixels).
Proof.
  intros O AR K A W D B Y L.
  destruct (nth_ahdu m r pre k s post l g) as (l' & h & EL & RF & R & RM & C); auto.
  { apply Forall_app. split; auto. constructor; auto. eapply accepted_image; eauto. }
  destruct (image_well_formed m k b axes pixels s W) as (vs & WF).
  destruct (read_from_xt m k s vs _ _ h WF RF) as (X & _).
  destruct W as (_ & _ & NN & PP & LP & RG & _ & DD).
  assert (LD : len (s_data s) = width b * len pixels) by (rewrite DD; apply concat_encode_len).
  exists l', (without_offset h). split; auto. split; [apply RF|]. split; [exact X|]. intro n.
  assert (BD : len (s_data s) <= len (content r)).
  { rewrite D. unfold file_bytes. rewrite map_app, concat_app. cbn [map concat snd]. unfold hdu_bytes. rewrite !len_app.
    pose proof (len_nonneg (concat (map (fun ks => header_bytes (snd ks) ++ s_data (snd ks) ++ s_dpad (snd ks)) pre))).
    pose proof (len_nonneg (concat (map (fun ks => header_bytes (snd ks) ++ s_data (snd ks) ++ s_dpad (snd ks)) post))).
    pose proof (len_nonneg (header_bytes s)). pose proof (len_nonneg (s_dpad s)). lia. }
  destruct (items_run m b pixels n g (s_dpad s ++ file_bytes post)) as (s' & E & _); auto; [now rewrite C, DD|lia|lia|].
  now rewrite E.
Qed.

Lemma async_bytes m r pre k s post l g :
  octets (content r) -> always_ready r -> file_kinds (pre ++ (k, s) :: post) -> Forall (accepted m) (pre ++ [(k, s)]) ->
  content r = file_bytes (pre ++ (k, s) :: post) -> len (content r) < 2 ^ 63 ->
  ayields m (afrom_reader r) l g -> length l = S (length pre) ->
  exists l' h, l = l' ++ [AOk h] /\ a_kind h = k /\
    forall n, fst (arun m g (repeat (OItem BU8) n)) = map (fun v => RItem (SItem v)) (firstn n (s_data s)) ++ repeat (RItem SEnd) (n - length (s_data s)).
Proof.
  intros O AR K A D B Y L.
  destruct (nth_ahdu m r pre k s post l g) as (l' & h & EL & RF & R & RM & C); auto.
  exists l', (without_offset h). split; auto. split; [apply RF|]. intro n.
  assert (IN : incl (s_data s) (content r)).
  { rewrite D. unfold file_bytes. rewrite map_app, concat_app. cbn [map concat snd]. unfold hdu_bytes.
    intros v I. apply in_or_app. right. apply in_or_app. left. apply in_or_app. right. apply in_or_app. now left. }
  assert (BD : len (s_data s) <= len (content r)).
  { rewrite D. unfold file_bytes. rewrite map_app, concat_app. cbn [map concat snd]. unfold hdu_bytes. rewrite !len_app.
    pose proof (len_nonneg (concat (map (fun ks => header_bytes (snd ks) ++ s_data (snd ks) ++ s_dpad (snd ks)) pre))).
    pose proof (len_nonneg (concat (map (fun ks => header_bytes (snd ks) ++ s_data (snd ks) ++ s_dpad (snd ks)) post))).
    pose proof (len_nonneg (header_bytes s)). pose proof (len_nonneg (s_dpad s)). lia. }
  assert (OC : octets (s_data s)) by (unfold octets in *; rewrite Forall_forall in *; auto).
  assert (EN : concat (map (encode BU8) (s_data s)) = s_data s).
  { clear -OC. induction OC as [|v l V OC IH]; auto. cbn [map concat]. rewrite IH.
    assert (encode BU8 v = [v]) as ->; auto. unfold encode. change (Z.to_nat (width BU8)) with 1%nat. rewrite be_bytes_snoc.
    cbn [be_bytes seq map app]. f_equal. apply Z.mod_small. lia. }
  destruct (items_run m BU8 (s_data s) n g (s_dpad s ++ file_bytes post)) as (s' & E & _); auto.
  - eapply Forall_impl; [|exact OC]. cbn. lia.
  - now rewrite EN.
  - cbn [width]. lia.
  - lia.
  - now rewrite E.
Qed.

Lemma async_round_trip m p ps r l g n q :
  picture_ok p -> Forall picture_ok ps -> always_ready r -> content r = file_bytes (write_images p ps) -> len (content r) < 2 ^ 63 ->
  ayields m (afrom_reader r) l g -> length l = S n -> nth_error (p :: ps) n = Some q ->
  exists l' h, l = l' ++ [AOk h] /\ a_xt h = XtImage (mk_image (fst (fst q)) (snd (fst q))) /\
    forall j, fst (arun m g (repeat (OItem (fst (fst q))) j)) =
              map (fun v => RItem (SItem v)) (firstn j (snd q)) ++ repeat (RItem SEnd) (j - length (snd q)).
Proof.
  intros P F AR D B Y L N. pose proof (written_octets p ps P F) as O. pose proof (written_kinds p ps) as K.
  pose proof (written_pictures p ps P F) as W. rewrite <- D in O.
  assert (NW : forall (R : picture -> hkind * source -> Prop) l1 l2, Forall2 R l1 l2 -> forall i x, nth_error l1 i = Some x ->
             exists y, nth_error l2 i = Some y /\ R x y).
  { induction 1 as [|a b l1 l2 H F2 IH]; intros [|i] x Ex; try discriminate.
    - injection Ex as <-. exists b. auto.
    - apply IH. exact Ex. }
  destruct (NW _ _ _ W n q N) as ((k, s) & NS & WS). cbn [fst snd] in WS.
  destruct (nth_error_split _ _ NS) as (pre & post & EQ & LP).
  assert (A : Forall (accepted m) pre).
  { assert (A : Forall (accepted m) (write_images p ps)).
    { clear -W. induction W as [|x (k, s) ims hs W F IH]; constructor; auto. eapply accepted_image; exact W. }
    rewrite EQ in A. apply Forall_app in A. tauto. }
  rewrite EQ in K, D.
  destruct (async_image m r pre k s post _ _ _ l g O AR K A WS D B Y) as (l' & h & EL & _ & X & R); [lia|].
  exists l', h. auto.
Qed.

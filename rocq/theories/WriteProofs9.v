(** Proofs about files with tile-compressed images. *)

From Coq Require Import Permutation ZifyBool.
From Verif Require Import Base Utf8 Text Card Reader Header Xtension Bytes Fits ImageIt BinTable Rice Float Tile.
From Verif Require Import SpecUtf8 SpecCard SpecHeader SpecXt SpecFits SpecImage SpecBin SpecRice SpecTile SpecWrite SpecWriteTable SpecWriteTile.
From Verif Require Import HeaderProofs TextLemmas FitsProofs FitsProofs2 FitsProofs3 FitsProofs4 BytesProofs ImageProofs BinProofs BinProofs2 BinProofs3.
From Verif Require Import WriteProofs WriteProofs2 WriteProofs3 WriteProofs4 WriteProofs5 WriteProofs6 WriteProofs7 WriteProofs8 WriteFloatProofs.

Lemma zcontent_accepted gz m c ks : zcontent_written gz m c ks -> accepted m ks.
Proof.
  destruct c as [c|p|p]; cbn [zcontent_written]; [apply content_accepted| |];
  destruct ks as (k, s); cbn [fst snd]; intros (-> & W); [eapply accepted_zpicture; eauto|eapply accepted_fpicture; eauto].
Qed.

Lemma zcontent_shown gz m c k s q h : zcontent_written gz m c (k, s) -> read_from m k q s h -> zshown c (IOk h).
Proof.
  intros W RF.
  assert (G : forall p more absent cols rows c, k = HBinTable -> side_ok more absent -> tiled_table gz m p more absent cols rows c s ->
            exists h' t z, IOk h = IOk h' /\ h_xt h' = XtBin t /\ bt_zimage t = Some z /\ zimage_of p z).
  { intros p more absent cols rows c0 -> SO T. destruct (tiled_well_formed gz m p more absent cols rows c0 s SO T) as
      (f & parts & gap & heap & vs & t & dither & _ & _ & _ & _ & _ & _ & _ & _ & _ & _ & _ & WF & _ & ZI & _).
    destruct (read_from_xt m _ s vs (XtBin t) _ h WF RF) as (X & _).
    exists h, t, (mk_zimage (zp_cmp p) (zp_bitpix p) (zp_dims p) (zp_tiles p) None dither c0). split; auto. split; auto. split; auto. repeat split. }
  destruct c as [c|p|p]; cbn [zcontent_written zshown fst snd] in *; [eapply content_shown; eauto| |].
  - destruct W as (-> & cols & rows & c & _ & _ & T). eapply G; eauto using no_side.
  - destruct W as (-> & told & cols & rows & c & kb & _ & _ & _ & _ & _ & T). eapply G; eauto using float_side.
Qed.

Lemma zfiles_listed gz m d hs cs :
  octets d -> file_kinds hs -> Forall2 (zcontent_written gz m) cs hs -> d = file_bytes hs -> len d < 2 ^ 63 ->
  exists full, Forall2 zshown cs full /\
    (exists f, yields m (opened d) (full ++ [INone]) f) /\
    forall l f, yields m (opened d) l f ->
      ((length l <= length cs + 1)%nat -> l = firstn (length l) (full ++ [INone])) /\
      forall n c, length l = S n -> nth_error cs n = Some c -> exists i, nth_error l n = Some i /\ zcontained gz m c i f.
Proof.
  intros O K W D B.
  assert (A : Forall (accepted m) hs).
  { clear -W. induction W; constructor; auto. eapply zcontent_accepted; eauto. }
  destruct (whole_file_items m d hs O K A D B) as (full & I & E & U). exists full. split; [|split; auto].
  - clear -W I. revert I. generalize 0 full. induction W as [|c (k, s) cs hs W F IH]; intros q full0 I; inversion I; subst.
    + constructor.
    + constructor; [|eapply IH; eauto]. eapply zcontent_shown; eauto.
  - intros l f Y. split; [intro L; apply (U l f Y); rewrite <- (Forall2_length _ _ _ W); exact L|].
    intros n c L N. destruct (Forall2_nth_fwd _ _ _ W n c N) as ((k, s) & NS & WS).
    destruct (nth_error_split _ _ NS) as (pre & post & EQ & LP). subst n.
    assert (AP : Forall (accepted m) pre) by (rewrite EQ in A; apply Forall_app in A; tauto).
    assert (NL : forall l' (i : item), length (l' ++ [i]) = Datatypes.S (length pre) -> nth_error (l' ++ [i]) (length pre) = Some i).
    { intros l' i LL. rewrite app_length in LL. cbn [length] in LL. rewrite nth_error_app2 by lia.
      replace (length pre - length l')%nat with 0%nat by lia. reflexivity. }
    rewrite EQ in K, D. destruct c as [[((b, axes), pixels)|(cols, rows)]|p|p]; cbn [zcontent_written content_written fst snd] in WS.
    + destruct (image_read_back m d pre k s post _ _ _ l f O K AP WS D B Y L) as (l' & h & id & -> & _ & _ & G & _ & RUN).
      exists (IOk h). split; [now apply NL|]. exists h. split; auto. exists id. auto.
    + destruct WS as (-> & WS).
      destruct (table_read_back m d pre s post _ _ l f O K AP WS D B Y L)
        as (l' & h & t & tb & -> & _ & X & _ & _ & _ & G & _ & V & _ & RW & _).
      exists (IOk h). split; [now apply NL|]. exists h. split; auto. exists t, tb. auto.
    + destruct WS as (-> & WS).
      destruct (zpicture_read_back gz m d pre s post p l f O K AP WS D B Y L)
        as (l' & h & t & z & st & fu & -> & _ & X & _ & _ & G & RU).
      exists (IOk h). split; [now apply NL|]. exists h, t, st, fu. auto.
    + destruct WS as (-> & WS).
      destruct (fpicture_read_back gz m d pre s post p l f O K AP WS D B Y L)
        as (l' & h & t & z & st & fu & -> & _ & X & _ & _ & G & RU).
      exists (IOk h). split; [now apply NL|]. exists h, t, st, fu. auto.
Qed.

Lemma zwritten_contents gz m p ws : picture_ok p -> Forall (zwritable_ok m) ws ->
  Forall2 (zcontent_written gz m) (Plain (Picture p) :: map zwritten ws) (write_zfile p ws).
Proof.
  intros P F. constructor.
  - destruct p as ((b, axes), pixels). apply (written_image HPrimary (b, axes, pixels)); auto.
  - clear P. induction F as [|c cs C F IH]; cbn [map]; constructor; auto.
    destruct c as [[((b, axes), pixels)|(cols, rows)]|p' bs blocks|q bs blocks]; cbn [zwritten zcontent_written content_written write_zcontent write_content fst snd].
    + apply (written_image HImage (b, axes, pixels)); auto.
    + split; auto. apply (written_table (cols, rows)). exact C.
    + split; auto. destruct C. eapply written_zpicture; eauto.
    + split; auto. destruct C. eapply written_quantised; eauto.
Qed.

Lemma zfile_octets m p ws : picture_ok p -> Forall (zwritable_ok m) ws -> octets (file_bytes (write_zfile p ws)).
Proof.
  intros P F. unfold file_bytes. apply Forall_concat. cbn [write_zfile map]. constructor; [apply image_octets; auto|].
  rewrite map_map. apply Forall_map. eapply Forall_impl; [|exact F]. intros [[q|x]|p' bs blocks|q bs blocks] C; cbn [write_zcontent write_content snd].
  - apply image_octets; auto.
  - now apply table_octets.
  - destruct C. eapply zpicture_octets; eauto.
  - destruct C. eapply quantised_octets; eauto.
Qed.

Lemma zfiles_round_trip gz m p ws :
  picture_ok p -> Forall (zwritable_ok m) ws -> let d := file_bytes (write_zfile p ws) in len d < 2 ^ 63 ->
  let cs := Plain (Picture p) :: map zwritten ws in
  exists full, Forall2 zshown cs full /\
    (exists f, yields m (opened d) (full ++ [INone]) f) /\
    forall l f, yields m (opened d) l f ->
      ((length l <= length cs + 1)%nat -> l = firstn (length l) (full ++ [INone])) /\
      forall n c, length l = Datatypes.S n -> nth_error cs n = Some c ->
        exists i, nth_error l n = Some i /\ zcontained gz m c i f.
Proof.
  intros P F d B.
  assert (K : file_kinds (write_zfile p ws)).
  { split; [reflexivity|]. apply Forall_map, Forall_forall. intros [[q|x]|p' bs blocks|q bs blocks] _; discriminate. }
  exact (zfiles_listed gz m d _ _ (zfile_octets m p ws P F) K (zwritten_contents gz m p ws P F) eq_refl B).
Qed.

Lemma tilewise_slabs p : slabs (zp_dims p) (zp_tiles p) -> whole_tiles (zp_dims p) (zp_tiles p) -> len (zp_pixels p) = product (zp_dims p) ->
  tilewise p = zp_pixels p.
Proof. apply slabs_in_order. Qed.

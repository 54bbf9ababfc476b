(** Proofs about the table writer. *)

From Coq Require Import Permutation ZifyBool.
From Verif Require Import Base Utf8 Text Card Reader Header Xtension Bytes Fits ImageIt BinTable.
From Verif Require Import SpecUtf8 SpecCard SpecHeader SpecXt SpecFits SpecImage SpecBin SpecWrite SpecWriteTable.
From Verif Require Import HeaderProofs FitsProofs4 BytesProofs BinProofs WriteProofs WriteProofs2 WriteProofs3 WriteProofs4.

Lemma elem_encode_written t v : elem_ok t v -> elem_written t (elem_encode t v) v.
Proof.
  intro H. destruct t; cbn [elem_ok elem_encode elem_written elem_stored] in *;
    destruct v as [|x [|y [|z v]]]; try contradiction; cbn [map concat];
    try (subst; split; reflexivity);
    try (rewrite app_nil_r; exists x; split; [split; auto|reflexivity]).
  - destruct H as (H1 & H2). exists (encode BF32 x), (encode BF32 y), x, y. rewrite app_nil_r.
    split; auto. split; [split; auto|]. split; [split; auto|reflexivity].
  - destruct H as (H1 & H2). exists (encode BF64 x), (encode BF64 y), x, y. rewrite app_nil_r.
    split; auto. split; [split; auto|]. split; [split; auto|reflexivity].
Qed.

Lemma elems_encode_written t vs : Forall (elem_ok t) vs -> Forall2 (elem_written t) (map (elem_encode t) vs) vs.
Proof. induction 1; cbn [map]; constructor; auto. now apply elem_encode_written. Qed.

Lemma array_app heap x t w vs bs : array_written heap t w vs bs -> array_written (heap ++ x) t w vs bs.
Proof.
  intros (b1 & b2 & p & es & E & N1 & N2 & NE & F & B & S). exists b1, b2, p, es.
  pose proof (len_nonneg x). pose proof (len_nonneg (concat es)).
  assert (0 <= p) by (destruct N2 as (O & _ & <-); now apply be_value_nonneg).
  split; auto. split; auto. split; auto. split; auto. split; auto. split; [rewrite len_app; lia|].
  rewrite slice_app_l by lia. exact S.
Qed.

Lemma cell_app heap x f vs bs : cell_written heap f vs bs -> cell_written (heap ++ x) f vs bs.
Proof. destruct f; cbn [cell_written]; auto using array_app. Qed.

Lemma row_app heap x fs cells bs : row_written heap fs cells bs -> row_written (heap ++ x) fs cells bs.
Proof. induction 1; constructor; auto using cell_app. Qed.

Lemma number_encoded b v : 0 <= v < 256 ^ width b -> number_written (width b) v (encode b v).
Proof.
  intro H. split; [apply be_bytes_octets|]. split; [apply encode_length|].
  rewrite be_value_unsigned. unfold encode. rewrite be_decode_encode.
  replace (Z.of_nat (Z.to_nat (width b))) with (width b) by (destruct b; reflexivity). now apply Z.mod_small.
Qed.

(** The heap only grows. *)
Lemma write_cell_heap heap f vs : exists x, snd (write_cell heap f vs) = heap ++ x.
Proof. destruct f; cbn [write_cell snd]; eauto. exists []. now rewrite app_nil_r. Qed.
Lemma write_row_heap fs : forall heap cells, exists x, snd (write_row heap fs cells) = heap ++ x.
Proof.
  induction fs as [|f fs IH]; intros heap cells; cbn [write_row]; [exists []; now rewrite app_nil_r|].
  destruct cells as [|vs cells]; [exists []; now rewrite app_nil_r|].
  destruct (write_cell_heap heap f vs) as (x & X). destruct (write_cell heap f vs) as (b, h1). cbn [snd] in X. subst h1.
  destruct (IH (heap ++ x) cells) as (y & Y). destruct (write_row (heap ++ x) fs cells) as (r, h2). cbn [snd] in *. subst h2.
  exists (x ++ y). now rewrite app_assoc.
Qed.
Lemma write_rows_heap fs rows : forall heap, exists x, snd (write_rows heap fs rows) = heap ++ x.
Proof.
  induction rows as [|r rows IH]; intro heap; cbn [write_rows]; [exists []; now rewrite app_nil_r|].
  destruct (write_row_heap fs heap r) as (x & X). destruct (write_row heap fs r) as (b, h1). cbn [snd] in X. subst h1.
  destruct (IH (heap ++ x)) as (y & Y). destruct (write_rows (heap ++ x) fs rows) as (bs, h2). cbn [snd] in *. subst h2.
  exists (x ++ y). now rewrite app_assoc.
Qed.

(** Descriptors reach the whole heap. *)
Definition reaches (f : tform) (n : Z) : Prop := match f with TElem _ _ => True | TDesc32 _ => n < 2 ^ 31 | TDesc64 _ => n < 2 ^ 63 end.

Lemma write_cell_written heap f vs : cell_ok f vs -> reaches f (len heap) ->
  cell_written (snd (write_cell heap f vs)) f vs (fst (write_cell heap f vs)).
Proof.
  intros (F & C) R. apply elems_encode_written in F. pose proof (len_nonneg heap). pose proof (len_nonneg vs).
  destruct f as [t n|t|t]; cbn [write_cell cell_written elem_type fst snd reaches] in *.
  - split; auto. exists (map (elem_encode t) vs). auto.
  - destruct C as (NE & LV). exists (encode BI32 (len vs)), (encode BI32 (len heap)), (len heap), (map (elem_encode t) vs).
    split; auto. split; [apply (number_encoded BI32); cbn; lia|]. split; [apply (number_encoded BI32); cbn; lia|].
    split; auto. split; auto. rewrite len_app. split; [lia|].
    rewrite slice_app_r by lia. rewrite Z.sub_diag. now apply slice_all.
  - destruct C as (NE & LV). exists (encode BI64 (len vs)), (encode BI64 (len heap)), (len heap), (map (elem_encode t) vs).
    split; auto. split; [apply (number_encoded BI64); cbn; lia|]. split; [apply (number_encoded BI64); cbn; lia|].
    split; auto. split; auto. rewrite len_app. split; [lia|].
    rewrite slice_app_r by lia. rewrite Z.sub_diag. now apply slice_all.
Qed.

Lemma reaches_le f n k : reaches f n -> k <= n -> reaches f k.
Proof. destruct f; cbn [reaches]; lia. Qed.

Lemma write_row_written fs : forall heap cells, Forall2 cell_ok fs cells ->
  Forall (fun f => reaches f (len (snd (write_row heap fs cells)))) fs ->
  row_written (snd (write_row heap fs cells)) fs cells (fst (write_row heap fs cells)).
Proof.
  induction fs as [|f fs IH]; intros heap cells C R; inversion C as [|? vs ? cells' C1 C2]; subst; [constructor|].
  cbn [write_row] in *. destruct (write_cell_heap heap f vs) as (x & X).
  pose proof (write_cell_written heap f vs C1) as W. destruct (write_cell heap f vs) as (b, h1). cbn [fst snd] in *. subst h1.
  destruct (write_row_heap fs (heap ++ x) cells') as (y & Y).
  specialize (IH (heap ++ x) cells' C2). destruct (write_row (heap ++ x) fs cells') as (r, h2). cbn [fst snd] in *. subst h2.
  inversion R as [|? ? R1 R2]; subst. constructor; [|now apply IH].
  apply cell_app, W. eapply reaches_le; [exact R1|]. rewrite !len_app. pose proof (len_nonneg x). pose proof (len_nonneg y). lia.
Qed.

Lemma write_rows_written fs rows : forall heap, Forall (fun r => Forall2 cell_ok fs r) rows ->
  Forall (fun f => reaches f (len (snd (write_rows heap fs rows)))) fs ->
  Forall2 (row_written (snd (write_rows heap fs rows)) fs) rows (fst (write_rows heap fs rows)).
Proof.
  induction rows as [|r rows IH]; intros heap C R; inversion C as [|? ? C1 C2]; subst; [constructor|].
  cbn [write_rows] in *. destruct (write_row_heap fs heap r) as (x & X).
  pose proof (write_row_written fs heap r C1) as W. destruct (write_row heap fs r) as (b, h1). cbn [fst snd] in *. subst h1.
  destruct (write_rows_heap fs rows (heap ++ x)) as (y & Y).
  specialize (IH (heap ++ x) C2). destruct (write_rows (heap ++ x) fs rows) as (bs, h2). cbn [fst snd] in *. subst h2.
  constructor; [|now apply IH].
  apply row_app, W. eapply Forall_impl; [|exact R]. intros f Rf. eapply reaches_le; [exact Rf|]. rewrite !len_app. pose proof (len_nonneg y). lia.
Qed.

Lemma entries_sayable extra cols rows : tabular_ok (cols, rows) -> Forall (fun e => sayable (snd e)) extra ->
  Forall (fun e => sayable (snd e))
    (table_entries (total (map field_bytes (forms cols))) (len rows) (len (snd (write_rows [] (forms cols) rows))) None cols ++ extra).
Proof.
  intros (L & OK & SY & N1 & RO & H) SE. destruct (write_rows [] (forms cols) rows) as (parts, heap). cbn [snd]. destruct H as (LD & LN & HD).
  assert (N0 : 0 <= total (map field_bytes (forms cols))).
  { apply total_nonneg. unfold forms. rewrite map_map. apply Forall_map. eapply Forall_impl; [|exact OK]. apply field_bytes_nonneg'. }
  pose proof (len_nonneg rows). pose proof (len_nonneg heap). pose proof (len_nonneg (concat parts)). rewrite len_app in LD.
  apply Forall_app. split; auto.
  unfold table_entries. cbn [app]. repeat (apply Forall_cons; [cbn; lia|]).
  apply Forall_forall. intros e I. rewrite Forall_forall in SY.
  apply column_names in I as (j & c & J & IC & [->|(n & N & ->)]); [| |lia]; destruct (SY c IC) as (S1 & S2); auto.
  rewrite N in S2. exact S2.
Qed.

Lemma written_table_with extra absent x : extra_ok extra absent -> Forall (fun e => sayable (snd e)) extra -> tabular_ok x ->
  table_with extra absent (fst x) (snd x) (write_table_with extra x).
Proof.
  destruct x as (cols, rows). cbn [fst snd write_table_with]. intros EX SE TOK.
  pose proof (entries_sayable extra cols rows TOK SE) as SA. destruct TOK as (L & OK & SY & N1 & RO & H).
  pose proof (write_rows_written (forms cols) rows [] RO) as W.
  destruct (write_rows [] (forms cols) rows) as (parts, heap). cbn [fst snd] in W, SA. destruct H as (LD & LN & HD).
  set (es := table_entries (total (map field_bytes (forms cols))) (len rows) (len heap) None cols ++ extra) in *.
  exists es, parts, [], heap, None. cbn [app]. rewrite !app_nil_r.
  split; auto. split; auto. split; auto. split.
  { apply W. apply Forall_forall. intros f I. pose proof (len_nonneg (concat parts)). rewrite len_app in LD.
    destruct f; cbn [reaches]; auto; [apply HD; eauto|lia]. }
  split; [reflexivity|]. split; [exact LD|]. split; [auto|]. split; [apply Permutation_refl|].
  pose proof (table_with_proper extra absent (total (map field_bytes (forms cols))) (len rows) (len heap) None cols ltac:(lia) OK EX) as (PO & _).
  fold es in PO. apply unit_written; auto.
  eapply Forall_impl; [|exact PO]. intros e (Le & _). lia.
Qed.

Lemma written_table x : tabular_ok x -> table_written (fst x) (snd x) (write_table x).
Proof. apply written_table_with; [apply no_extra|constructor]. Qed.

Lemma elem_encode_octets t v : octets (elem_encode t v).
Proof.
  destruct t; cbn [elem_encode]; try (apply Forall_concat, Forall_map, Forall_forall; intros; apply be_bytes_octets).
  - repeat constructor; lia.
  - constructor.
Qed.

Lemma write_cell_octets heap f vs : octets heap ->
  octets (fst (write_cell heap f vs)) /\ octets (snd (write_cell heap f vs)).
Proof.
  intro H. assert (O : octets (concat (map (elem_encode (elem_type f)) vs))).
  { apply Forall_concat, Forall_map, Forall_forall. intros. apply elem_encode_octets. }
  destruct f; cbn [write_cell fst snd] in *; auto;
    (split; apply Forall_app; split; auto; apply be_bytes_octets).
Qed.
Lemma write_row_octets fs : forall heap cells, octets heap ->
  octets (fst (write_row heap fs cells)) /\ octets (snd (write_row heap fs cells)).
Proof.
  induction fs as [|f fs IH]; intros heap cells H; cbn [write_row]; [split; [constructor|auto]|].
  destruct cells as [|vs cells]; [split; [constructor|auto]|].
  destruct (write_cell_octets heap f vs H) as (A & B). destruct (write_cell heap f vs) as (b, h1). cbn [fst snd] in *.
  destruct (IH h1 cells B) as (A2 & B2). destruct (write_row h1 fs cells) as (r, h2). cbn [fst snd] in *.
  split; auto. apply Forall_app. auto.
Qed.
Lemma write_rows_octets fs rows : forall heap, octets heap ->
  octets (concat (fst (write_rows heap fs rows))) /\ octets (snd (write_rows heap fs rows)).
Proof.
  induction rows as [|r rows IH]; intros heap H; cbn [write_rows]; [split; [constructor|auto]|].
  destruct (write_row_octets fs heap r H) as (A & B). destruct (write_row heap fs r) as (b, h1). cbn [fst snd] in *.
  destruct (IH h1 B) as (A2 & B2). destruct (write_rows h1 fs rows) as (bs, h2). cbn [fst snd concat] in *.
  split; auto. apply Forall_app. auto.
Qed.

Lemma table_with_octets extra absent x : extra_ok extra absent -> Forall (fun e => sayable (snd e)) extra -> tabular_ok x ->
  octets (hdu_bytes (write_table_with extra x)).
Proof.
  intros EX SE OK. destruct x as (cols, rows). cbn [write_table_with].
  pose proof (entries_sayable extra cols rows OK SE) as SA. destruct OK as (L & CO & SY & N1 & RO & H).
  destruct (write_rows_octets (forms cols) rows [] ltac:(constructor)) as (A & B).
  destruct (write_rows [] (forms cols) rows) as (parts, heap). cbn [fst snd] in *.
  apply unit_octets; [apply (table_with_proper extra absent _ (len rows) (len heap) None cols ltac:(lia) CO EX)|exact SA|apply Forall_app; auto].
Qed.
Lemma table_octets x : tabular_ok x -> octets (hdu_bytes (write_table x)).
Proof. apply (table_with_octets [] [chars "ZNAXIS"]); [apply no_extra|constructor]. Qed.

(** ** Files of images and tables *)

Lemma content_accepted m c ks : content_written c ks -> accepted m ks.
Proof.
  destruct ks as (k, s), c as [((b, axes), pixels)|(cols, rows)]; cbn [content_written fst snd].
  - apply accepted_image.
  - intros (-> & W). eapply accepted_table; eauto.
Qed.

Lemma content_shown m c k s q h : content_written c (k, s) -> read_from m k q s h -> shown c (IOk h).
Proof.
  intros W RF. exists h. split; auto. destruct c as [((b, axes), pixels)|(cols, rows)]; cbn [content_written fst snd] in W.
  - destruct (image_well_formed m _ _ _ _ _ W) as (vs & WF). eapply read_from_xt; eauto.
  - destruct W as (-> & W). destruct (table_well_formed m cols rows s W) as (parts & gap & heap & vs & t & _ & _ & WF & DE).
    exists t. destruct DE as (D1 & D2 & D3 & D4 & D5 & D6). split; [eapply read_from_xt; eauto|auto].
Qed.

Lemma files_listed m d hs cs :
  octets d -> file_kinds hs -> Forall2 content_written cs hs -> d = file_bytes hs -> len d < 2 ^ 63 ->
  exists full, Forall2 shown cs full /\
    (exists f, yields m (opened d) (full ++ [INone]) f) /\
    forall l f, yields m (opened d) l f ->
      ((length l <= length cs + 1)%nat -> l = firstn (length l) (full ++ [INone])) /\
      forall n c, length l = S n -> nth_error cs n = Some c -> exists i, nth_error l n = Some i /\ contained m c i f.
Proof.
  intros O K W D B.
  assert (A : Forall (accepted m) hs).
  { clear -W. induction W; constructor; auto. eapply content_accepted; eauto. }
  destruct (whole_file_items m d hs O K A D B) as (full & I & E & U). exists full. split; [|split; auto].
  - clear -W I. revert I. generalize 0 full. induction W as [|c (k, s) cs hs W F IH]; intros q full0 I; inversion I; subst.
    + constructor.
    + constructor; [|eapply IH; eauto]. eapply content_shown; eauto.
  - intros l f Y. split; [intro L; apply (U l f Y); rewrite <- (Forall2_length _ _ _ W); exact L|].
    intros n c L N. destruct (Forall2_nth_fwd _ _ _ W n c N) as ((k, s) & NS & WS).
    destruct (nth_error_split _ _ NS) as (pre & post & EQ & LP). subst n.
    assert (AP : Forall (accepted m) pre) by (rewrite EQ in A; apply Forall_app in A; tauto).
    assert (NL : forall l' (i : item), length (l' ++ [i]) = Datatypes.S (length pre) -> nth_error (l' ++ [i]) (length pre) = Some i).
    { intros l' i LL. rewrite app_length in LL. cbn [length] in LL. rewrite nth_error_app2 by lia.
      replace (length pre - length l')%nat with 0%nat by lia. reflexivity. }
    rewrite EQ in K, D. destruct c as [((b, axes), pixels)|(cols, rows)]; cbn [content_written fst snd] in WS.
    + destruct (image_read_back m d pre k s post _ _ _ l f O K AP WS D B Y L) as (l' & h & id & -> & _ & _ & G & _ & RUN).
      exists (IOk h). split; [now apply NL|]. exists h. split; auto. exists id. auto.
    + destruct WS as (-> & WS).
      destruct (table_read_back m d pre s post _ _ l f O K AP WS D B Y L)
        as (l' & h & t & tb & -> & _ & X & _ & _ & _ & G & _ & V & _ & RW & _).
      exists (IOk h). split; [now apply NL|]. exists h. split; auto. exists t, tb. auto.
Qed.

Lemma written_contents p cs : picture_ok p -> Forall content_ok cs ->
  Forall2 content_written (Picture p :: cs) (write_file p cs).
Proof.
  intros P F. constructor.
  - destruct p as ((b, axes), pixels). apply (written_image HPrimary (b, axes, pixels)); auto.
  - clear P. induction F as [|c cs C F IH]; cbn [map]; constructor; auto.
    destruct c as [((b, axes), pixels)|(cols, rows)]; cbn [content_written write_content fst snd].
    + apply (written_image HImage (b, axes, pixels)); auto.
    + split; auto. apply (written_table (cols, rows)). exact C.
Qed.

Lemma file_octets p cs : picture_ok p -> Forall content_ok cs -> octets (file_bytes (write_file p cs)).
Proof.
  intros P F. unfold file_bytes. apply Forall_concat. cbn [write_file map]. constructor; [apply image_octets; auto|].
  rewrite map_map. apply Forall_map. eapply Forall_impl; [|exact F]. intros [q|x] C; cbn [write_content snd].
  - apply image_octets; auto.
  - now apply table_octets.
Qed.

Lemma files_round_trip m p cs :
  picture_ok p -> Forall content_ok cs -> let d := file_bytes (write_file p cs) in len d < 2 ^ 63 ->
  exists full, Forall2 shown (Picture p :: cs) full /\
    (exists f, yields m (opened d) (full ++ [INone]) f) /\
    forall l f, yields m (opened d) l f ->
      ((length l <= length full + 1)%nat -> l = firstn (length l) (full ++ [INone])) /\
      forall n c, length l = Datatypes.S n -> nth_error (Picture p :: cs) n = Some c ->
        exists i, nth_error l n = Some i /\ contained m c i f.
Proof.
  intros P F d B.
  assert (K : file_kinds (write_file p cs)).
  { split; [reflexivity|]. apply Forall_map, Forall_forall. intros [q|x] _; discriminate. }
  destruct (files_listed m d _ _ (file_octets p cs P F) K (written_contents p cs P F) eq_refl B) as (full & S & E & U).
  exists full. split; auto. split; auto. intros l f Y. destruct (U l f Y) as (U1 & U2). split; auto.
  intro L. apply U1. now rewrite (Forall2_length _ _ _ S).
Qed.

(** Proofs about the writer of tile-compressed images. *)

From Coq Require Import Permutation ZifyBool.
From Verif Require Import Base Utf8 Text Card Reader Header Xtension Bytes Fits ImageIt BinTable Rice Float Tile.
From Verif Require Import SpecUtf8 SpecCard SpecHeader SpecXt SpecFits SpecImage SpecBin SpecRice SpecTile SpecWrite SpecWriteTable SpecWriteTile.
From Verif Require Import TextLemmas CardProofs CardProofs2 CardProps HeaderProofs HeaderProofs2 HeaderProps.
From Verif Require Import FitsProofs FitsProofs2 FitsProofs3 FitsProofs4 XtProofs XtProofs2 XtProofs3 BytesProofs ImageProofs.
From Verif Require Import RiceProofs.
From Verif Require Import BinProofs BinProofs2 BinProofs3 TileProofs6 WriteProofs WriteProofs2 WriteProofs3 WriteProofs4 WriteProofs5 WriteProofs6 WriteProofs7.

(** ** Bits *)

Lemma byte_bits b7 b6 b5 b4 b3 b2 b1 b0 :
  bits_of 8 (byte_of_bits [b7; b6; b5; b4; b3; b2; b1; b0]) = [b7; b6; b5; b4; b3; b2; b1; b0] /\
  0 <= byte_of_bits [b7; b6; b5; b4; b3; b2; b1; b0] < 256.
Proof. destruct b7, b6, b5, b4, b3, b2, b1, b0; cbn; split; try lia; reflexivity. Qed.

Lemma pack_spec n : forall l, (length l <= n)%nat -> Forall (fun b => 0 <= b < 256) (pack l) /\ exists rest, bit_stream (pack l) = l ++ rest.
Proof.
  induction n as [|n IH]; intros l L.
  { destruct l; [|cbn in L; lia]. split; [constructor|]. exists []. reflexivity. }
  destruct l as [|b7 [|b6 [|b5 [|b4 [|b3 [|b2 [|b1 [|b0 l]]]]]]]]; [split; [constructor|exists []; reflexivity]| | | | | | | |].
  8:{ cbn [pack]. cbn [length] in L. destruct (IH l ltac:(lia)) as (F & rest & E). destruct (byte_bits b7 b6 b5 b4 b3 b2 b1 b0) as (B & R).
      split; [constructor; auto|]. exists rest. rewrite bit_stream_cons, B, E. reflexivity. }
  all: cbn [pack repeat app firstn];
    match goal with |- context [byte_of_bits [?a; ?b; ?c; ?d; ?e; ?f; ?g; ?h]] => destruct (byte_bits a b c d e f g h) as (B & R) end;
    (split; [constructor; [exact R|constructor]|]); unfold bit_stream; cbn [flat_map]; rewrite B; cbn [app]; eexists; reflexivity.
Qed.

Lemma rice_compressed bs blocks : block_pixels blocks <> [] -> blocks_ok RI32 bs (hd 0 (block_pixels blocks)) blocks ->
  compressed RI32 bs (hd 0 (block_pixels blocks)) blocks (rice_bytes blocks).
Proof.
  intros NE OK. destruct (pack_spec _ (blocks_code RI32 (hd 0 (block_pixels blocks)) blocks) (le_n _)) as (_ & rest & E).
  exists (encode BI32 (hd 0 (block_pixels blocks))), (pack (blocks_code RI32 (hd 0 (block_pixels blocks)) blocks)), rest.
  split; [destruct (block_pixels blocks); [congruence|reflexivity]|]. split; [reflexivity|]. split; [reflexivity|]. split; auto.
  rewrite <- RiceProofs3.be_value_unsigned. unfold encode. rewrite be_decode_encode. reflexivity.
Qed.

Lemma rice_bytes_octets blocks : Forall (fun b => 0 <= b < 256) (rice_bytes blocks) /\ rice_bytes blocks <> [].
Proof.
  unfold rice_bytes. destruct (pack_spec _ (blocks_code RI32 (hd 0 (block_pixels blocks)) blocks) (le_n _)) as (F & _).
  split; [|discriminate]. apply Forall_app. split; auto. apply Forall_forall. intros b I.
  pose proof (be_bytes_octets (Z.to_nat (width BI32)) (hd 0 (block_pixels blocks))) as O. unfold octets in O. rewrite Forall_forall in O.
  apply O in I. lia.
Qed.

(** ** Rows and heap *)

Lemma concat_singles (l : list Z) : Forall (fun b => 0 <= b < 256) l -> concat (map (elem_encode TyB) (map (fun b => [b]) l)) = l.
Proof.
  induction 1 as [|b l B F IH]; [reflexivity|]. cbn [map concat]. rewrite IH.
  cbn [elem_encode map concat app]. rewrite encode_byte by (cbn; lia). reflexivity.
Qed.

(** Columns that have nothing in the heap. *)
Definition fixed (f : tform) : Prop := match f with TElem _ _ => True | _ => False end.

Lemma fixed_heap fs : Forall fixed fs -> forall heap cells, snd (write_row heap fs cells) = heap.
Proof.
  induction 1 as [|f fs F FS IH]; intros heap [|vs cells]; try reflexivity. cbn [write_row].
  destruct f; try contradiction. cbn [write_cell]. specialize (IH heap cells). destruct (write_row heap fs cells). exact IH.
Qed.

Lemma zp_heap fs (g : Z -> list Z) more : Forall fixed fs -> (forall k, Forall (fun b => 0 <= b < 256) (g k)) -> forall ks heap,
  len (snd (write_rows heap (TDesc32 TyB :: fs) (map (fun k => map (fun b => [b]) (g k) :: more k) ks))) = len heap + total (map (fun k => len (g k)) ks).
Proof.
  intros F G. induction ks as [|k ks IH]; intro heap; cbn [map write_rows snd total]; [lia|].
  cbn [write_row write_cell elem_type]. rewrite concat_singles by auto.
  pose proof (fixed_heap fs F (heap ++ g k) (more k)) as H. destruct (write_row (heap ++ g k) fs (more k)) as (r, h). cbn [snd] in H. subst h.
  specialize (IH (heap ++ g k)). destruct (write_rows (heap ++ g k) _ _) as (parts, h). cbn [snd] in *. rewrite IH, len_app. lia.
Qed.

Lemma text_sayable s : forallb (fun c => (32 <=? c) && (c <=? 126)) s = true -> last s 32 <> 32 ->
  (length (escape_quotes (padded 8 s)) <= 68)%nat -> sayable (SaysText s).
Proof.
  intros P L E. split; [|split; auto].
  - apply Forall_forall. intros c I. rewrite forallb_forall in P. specialize (P c I). unfold printable. lia.
  - destruct (@exists_last _ s) as (t & c & ->); [intros ->; now apply L|].
    exists t, c. split; auto. now rewrite last_last in L.
Qed.
Lemma text_whole s : last s 0 <> 38 -> whole (SaysText s).
Proof. intros L t ->. apply L. apply last_last. Qed.

Lemma total_part (f : Z -> Z) ks k : (forall j, 0 <= f j) -> In k ks -> f k <= total (map f ks).
Proof.
  intro P. induction ks as [|x l IH]; [contradiction|]. cbn [map total].
  assert (0 <= total (map f l)) by (apply total_nonneg, Forall_map, Forall_forall; auto).
  pose proof (P x). intros [->|I]; [lia|]. specialize (IH I). lia.
Qed.

(** Further columns of the table. *)
Definition further (cols : list tcolumn) : Prop :=
  len cols <= 99 /\ Forall column_ok cols /\ Forall fixed (forms cols) /\ total (map field_bytes (forms cols)) < 2 ^ 50 /\
  Forall (fun c => sayable (SaysText (tc_text c)) /\ match tc_name c with Some n => sayable (SaysText n) | None => True end) cols.

Lemma zp_tabular p bs w blocks cols more : codings_ok p bs w blocks -> further cols -> w = 8 + total (map field_bytes (forms cols)) ->
  (forall k, Forall2 cell_ok (forms cols) (more k)) -> tabular_ok (tile_column :: cols, zp_rows p blocks more).
Proof.
  intros (LA & RA & CM & PR & BS & WT & PB & LX & BL & LR & LH) (F1 & F2 & F3 & F4 & F5) -> MO.
  set (ks := upto (product (grid (zp_dims p) (zp_tiles p)))) in *.
  assert (RB : forall k, Forall (fun b => 0 <= b < 256) (rice_bytes (blocks k))) by (intro k; apply rice_bytes_octets).
  pose proof (zp_heap (forms cols) (fun k => rice_bytes (blocks k)) more F3 RB ks []) as H. change (len (@nil Z)) with 0 in H. cbv beta in H.
  pose proof (len_nonneg cols).
  assert (LR' : len (zp_rows p blocks more) = product (grid (zp_dims p) (zp_tiles p))).
  { unfold zp_rows. rewrite len_map. unfold upto. rewrite len_map. unfold len. rewrite seq_length.
    pose proof (product_nonneg _ (proj2 (proj2 (whole_tiles_nonneg _ _ WT)))). lia. }
  assert (CO : column_ok tile_column).
  { split; [exists [1], []; split; [constructor; [unfold digit; lia|constructor]|reflexivity]|].
    split; [apply text_whole; discriminate|]. split; [discriminate|]. split; [discriminate|]. apply text_whole. discriminate. }
  assert (OK : Forall column_ok (tile_column :: cols)) by (constructor; auto).
  assert (RO : Forall (fun r => Forall2 cell_ok (forms (tile_column :: cols)) r) (zp_rows p blocks more)).
  { apply Forall_map, Forall_forall. intros k I. constructor; [|apply MO].
    destruct (rice_bytes_octets (blocks k)) as (O & NE). split; [|split].
    + apply Forall_map. eapply Forall_impl; [|exact O]. intros b B. cbn in *. lia.
    + destruct (rice_bytes (blocks k)); [congruence|discriminate].
    + rewrite len_map.
      pose proof (total_part (fun k => len (rice_bytes (blocks k))) ks k ltac:(intros; apply len_nonneg) I) as T. cbv beta in T. lia. }
  assert (N0 : 0 <= total (map field_bytes (forms cols))).
  { unfold forms. rewrite map_map. apply total_nonneg, Forall_map. eapply Forall_impl; [|exact F2]. apply field_bytes_nonneg'. }
  assert (ET : total (map field_bytes (forms (tile_column :: cols))) = 8 + total (map field_bytes (forms cols))) by reflexivity.
  assert (NX : Forall (fun f => elem_type f <> TyX) (forms (tile_column :: cols))).
  { apply Forall_map. eapply Forall_impl; [|exact OK]. intros c0 C. apply C. }
  pose proof (write_rows_written (forms (tile_column :: cols)) (zp_rows p blocks more) [] RO) as W.
  assert (HH : len (snd (write_rows [] (forms (tile_column :: cols)) (zp_rows p blocks more))) < 2 ^ 31).
  { unfold zp_rows. fold ks. change (forms (tile_column :: cols)) with (TDesc32 TyB :: forms cols). rewrite H. lia. }
  assert (RE : Forall (fun f => reaches f (len (snd (write_rows [] (forms (tile_column :: cols)) (zp_rows p blocks more))))) (forms (tile_column :: cols))).
  { apply Forall_forall. intros [t n|t|t] _; cbn [reaches]; lia. }
  specialize (W RE). pose proof (rows_len _ _ _ _ W NX) as LW. unfold tabular_ok.
  destruct (write_rows [] (forms (tile_column :: cols)) (zp_rows p blocks more)) as (parts, heap). cbn [fst snd] in *.
  split; [rewrite len_cons; lia|]. split; auto.
  split; [constructor; auto; split; apply text_sayable; try reflexivity; try discriminate; vm_compute; lia|].
  split; [lia|]. split; auto. rewrite len_app. split; [|split; lia]. nia.
Qed.

(** ** The header *)

Lemma zp_sayable p bs w blocks : codings_ok p bs w blocks -> Forall (fun e => sayable (snd e)) (zp_entries p).
Proof.
  intros (LA & RA & CM & PR & BS & WT & PB & LX & BL & LR & LH). unfold zp_entries.
  apply Forall_app. split; [|apply Forall_app; split].
  - rewrite CM. pose proof (len_nonneg (zp_axes p)).
    repeat (apply Forall_cons; [|]); try apply Forall_nil; cbn [snd]; [exact I| | |cbn; lia].
    + apply text_sayable; [reflexivity|discriminate|vm_compute; lia].
    + destruct (zp_bitpix p); cbn; lia.
  - destruct (whole_tiles_nonneg _ _ WT) as (A0 & T1 & _).
    assert (G : forall l i, Forall (fun a => fst a < 2 ^ 63 /\ match snd a with Some t => t < 2 ^ 63 | None => True end) l ->
              Forall (fun a => 0 <= a) (map fst l) -> Forall (fun t => 1 <= t) (tile_sizes i l) ->
              Forall (fun e => sayable (snd e)) (zaxis_entries i l)); [|apply G; auto].
    clear. induction l as [|(a, o) l IH]; intros i R A T; cbn [zaxis_entries]; [constructor|].
    inversion R as [|? ? (R1 & R2) R3]; subst. inversion A; subst. inversion T; subst. cbn [fst snd] in *.
    constructor; [cbn; lia|]. apply Forall_app. split; auto. destruct o; constructor; [cbn; lia|constructor].
  - rewrite PR. cbn [param_entries]. repeat (apply Forall_cons; [|]); try apply Forall_nil; cbn [snd]; try (cbn; lia);
      (apply text_sayable; [reflexivity|discriminate|vm_compute; lia]).
Qed.

Lemma codings_extra p bs w blocks more absent : codings_ok p bs w blocks -> side_ok more absent ->
  extra_ok (zp_entries p ++ more) (untiled 1 (zp_axes p) ++ absent).
Proof.
  intros (LA & RA & CM & PR & _) SO. apply zp_extra; auto; rewrite PR; [vm_compute; discriminate|]. repeat constructor; apply text_whole; discriminate.
Qed.

Lemma record_keyword kw v k : (1 <= length kw <= 8)%nat -> Forall graphic kw -> has_keyword (record_of kw v) k -> k = kw.
Proof.
  intros (L1 & L2) G H. unfold has_keyword in H.
  assert (E : firstn 8 (record_of kw v) = padded 8 kw).
  { unfold record_of, value_record.
    assert (L : length (padded 8 kw) = 8%nat) by (unfold padded, blanks; rewrite app_length, repeat_length; lia).
    rewrite firstn_app, L, Nat.sub_diag, firstn_O, app_nil_r. apply firstn_all2. lia. }
  rewrite E in H. eapply stripped_unique; [exact H|].
  exists [], (blanks (8 - length kw)). split; [reflexivity|]. split; [constructor|].
  split; [apply Forall_forall; intros c I; apply repeat_spec in I; subst; unfold white; lia|].
  right. rewrite Forall_forall in G. assert (W : forall c, In c kw -> ~ white c).
  { intros c I. apply G in I. unfold graphic, white in *. lia. }
  destruct kw as [|c kw]; [cbn in L1; lia|]. split; [exists c, kw; split; auto; apply W; now left|].
  destruct (@exists_last _ (c :: kw)) as (t & x & E'); [discriminate|]. exists t, x. split; auto. apply W. rewrite E'. apply in_or_app. right. now left.
Qed.

Lemma zp_only p bs w blocks more absent cols rows : codings_ok p bs w blocks -> side_ok more absent -> tabular_ok (cols, rows) ->
  only_parameters p (write_table_with (zp_entries p ++ more) (cols, rows)).
Proof.
  intros OK SO TOK _ r I PA.
  pose proof (codings_extra p bs w blocks more absent OK SO) as EX.
  unfold write_table_with in I. destruct TOK as (L & CO & SY & N1 & RO & H).
  destruct (write_rows [] (forms cols) rows) as (parts, heap).
  pose proof (table_with_proper _ _ (total (map field_bytes (forms cols))) (len rows)
    (len heap) None cols ltac:(lia) CO EX) as (PO & _).
  unfold write_unit in I. cbn [s_records] in I. 
  assert (X : exists kw v, r = record_of kw v /\ (1 <= length kw <= 8)%nat /\ Forall graphic kw /\ kw <> chars "HIERARCH" /\
            (kw = chars "XTENSION" \/ In (kw, v) (table_entries (total (map field_bytes (forms cols))) (len rows) (len heap) None cols ++ zp_entries p ++ more))).
  { destruct I as [<-|I].
    - exists (chars "XTENSION"), (SaysText (chars "BINTABLE")). split; [reflexivity|]. split; [cbn; lia|].
      split; [apply lettersb_ok; reflexivity|]. split; [discriminate|]. now left.
    - apply in_map_iff in I as ((kw, v) & <- & I). exists kw, v. split; auto. rewrite Forall_forall in PO.
      destruct (PO _ I) as (P1 & P2 & P3). cbn [fst] in *. repeat (split; auto). intro E. apply P3. rewrite E. unfold special_keyword. tauto. }
  destruct X as (kw & v & -> & K1 & K2 & K3 & X).
  destruct PA as [(j & HK)|(HK & _)]; [|apply record_keyword in HK; auto; congruence].
  pose proof (record_keyword kw v _ K1 K2 HK) as E. exists kw. split; [|rewrite E in HK; exact HK].
  destruct X as [->|X]; [discriminate|]. apply in_app_or in X as [X|X].
  - exfalso. apply (in_map fst) in X. apply table_names in X. apply X. cbn [fst]. rewrite <- E. left; eexists; reflexivity.
  - apply in_app_or in X as [X|X].
    2:{ exfalso. destruct SO as (SI & _). apply (in_map fst) in X. cbn [fst] in X. rewrite <- E in X.
        destruct (SI (chars "ZNAME" ++ j)) as [E'|[E'|[E'|[E'|[E'|[]]]]]]; [apply in_or_app; now left|discriminate..]. }
    unfold zp_entries in X. apply in_app_or in X as [X|X].
    { exfalso. rewrite <- E in X. cbn [In] in X. repeat (destruct X as [X|X]; [discriminate|]). contradiction. }
    apply in_app_or in X as [X|X]; [exfalso|apply in_map_iff; exists (kw, v); split; [reflexivity|exact X]].
    apply zaxis_names in X as (i & a & o & _ & _ & [X|(t & _ & X)]); rewrite <- E in X; discriminate.
Qed.

(** ** The image *)

Lemma upto_nth n k q : nth_error (upto n) k = Some q -> q = Z.of_nat k /\ 0 <= q < n.
Proof.
  intro Q. unfold upto in Q. rewrite nth_error_map in Q. destruct (nth_error (seq 0 _) k) as [x|] eqn:X; [|discriminate]. injection Q as <-.
  assert (XL : (k < length (seq 0 (Z.to_nat n)))%nat) by (apply nth_error_Some; congruence).
  rewrite seq_length in XL. apply (nth_error_nth _ _ 0%nat) in X. rewrite seq_nth in X by lia. lia.
Qed.

Lemma tile_nonempty p k : whole_tiles (zp_dims p) (zp_tiles p) -> tile_pixels (zp_dims p) (zp_tiles p) (zp_pixels p) k <> [].
Proof.
  intros WT. destruct (whole_tiles_nonneg _ _ WT) as (A0 & T1 & _).
  assert (PT : 1 <= product (zp_tiles p)). { clear -T1. induction T1; cbn [product]; [lia|]. nia. }
  intro E. apply (f_equal len) in E. rewrite tile_pixels_len in E by lia. change (len (@nil Z)) with 0 in E. lia.
Qed.

Lemma written_tiled gz m p bs w blocks more absent cols cells : codings_ok p bs w blocks -> m = Wrapping \/ gently_coded p blocks ->
  whole_pixels (zp_bitpix p) \/ real_pixels (zp_bitpix p) -> side_ok more absent -> Forall (fun e => sayable (snd e)) more ->
  further cols -> w = 8 + total (map field_bytes (forms cols)) -> (forall k, Forall2 cell_ok (forms cols) (cells k)) ->
  tiled_table gz m p more absent (tile_column :: cols) (zp_rows p blocks cells) 0
    (write_table_with (zp_entries p ++ more) (tile_column :: cols, zp_rows p blocks cells)).
Proof.
  intros OK MG WR SO SM FU W CE. pose proof (zp_tabular p bs w blocks cols cells OK FU W CE) as TOK.
  pose proof (zp_only p bs w blocks more absent _ _ OK SO TOK) as ON.
  pose proof (zp_sayable p bs w blocks OK) as SA. pose proof (codings_extra p bs w blocks more absent OK SO) as EX.
  destruct OK as (LA & RA & CM & PR & BS & WT & PB & LX & BL & LR & LH).
  assert (PN : Forall (fun n => whole (SaysText (fst n))) (zp_params p)).
  { rewrite PR. repeat constructor; apply text_whole; discriminate. }
  assert (PL : len (zp_params p) <= 999) by (rewrite PR; vm_compute; discriminate).
  pose proof (product_nonneg _ (proj2 (proj2 (whole_tiles_nonneg _ _ WT)))) as PG.
  exists (TDesc32 TyB).
  split; auto. split; auto. split; auto. split.
  { unfold zp_compression. rewrite CM, PR. split; auto. split; auto. split.
    - intros v [E|[E|[]]]; [discriminate|]. now injection E as <-.
    - left. split; [now left|]. split; auto. intros v [E|[E|[]]]; [now injection E as <-|discriminate]. }
  split; auto. split; [lia|]. split; auto.
  split; [split; [lia|]; split; [reflexivity|]; intros; lia|]. split; [reflexivity|]. split; [now left|]. split; [constructor|].
  split. { unfold zp_rows, upto. rewrite !len_map. unfold len. rewrite seq_length. lia. }
  split; [|split; [|exact ON]].
  2:{ exact (written_table_with _ _ (tile_column :: cols, zp_rows p blocks cells) EX ltac:(apply Forall_app; auto) TOK). }
  intros k row N. unfold zp_rows in N. rewrite nth_error_map in N.
  destruct (nth_error (upto (product (grid (zp_dims p) (zp_tiles p)))) k) as [q|] eqn:Q; [|discriminate]. injection N as <-.
  assert (K : q = Z.of_nat k /\ 0 <= q < product (grid (zp_dims p) (zp_tiles p))) by now apply upto_nth.
  destruct K as (-> & K). destruct (BL _ K) as (B1 & B2).
  exists (rice_bytes (blocks (Z.of_nat k))). split; [reflexivity|]. rewrite CM. cbn [coded_tile].
  destruct (whole_tiles_nonneg _ _ WT) as (A0 & T1 & _).
  split; [rewrite tile_pixels_len; [lia|apply product_nonneg; eapply Forall_impl; [|exact T1]; cbv beta; lia]|].
  exists (hd 0 (block_pixels (blocks (Z.of_nat k)))), (blocks (Z.of_nat k)). split; auto. split.
  - apply rice_compressed; auto. rewrite B1. now apply tile_nonempty.
  - destruct MG as [->|MG]; [now left|]. right. rewrite <- B1. now apply MG.
Qed.

Lemma no_further : further [].
Proof. repeat split; try constructor; vm_compute; discriminate. Qed.

Lemma scales_further : further scale_columns.
Proof.
  assert (S : sayable (SaysText (chars "1D")) /\ sayable (SaysText (chars "ZSCALE")) /\ sayable (SaysText (chars "ZZERO"))).
  { repeat split; apply text_sayable; try reflexivity; try discriminate; vm_compute; lia. }
  assert (C : forall n, whole (SaysText n) -> column_ok (mk_tcolumn (chars "1D") (TElem TyD 1) (Some n))).
  { intros n W. split; [exists [1], []; split; [constructor; [unfold digit; lia|constructor]|split; reflexivity]|].
    split; [apply text_whole; discriminate|]. split; [discriminate|]. split; [intros t k E; injection E as <- <-; lia|exact W]. }
  unfold further. split; [vm_compute; discriminate|].
  split; [unfold scale_columns; repeat (apply Forall_cons || apply Forall_nil); apply C, text_whole; discriminate|].
  split; [repeat constructor|]. split; [reflexivity|].
  unfold scale_columns; repeat (apply Forall_cons || apply Forall_nil); cbn [tc_text tc_name]; tauto.
Qed.

Lemma written_zpicture gz m p bs blocks : zpicture_ok p bs blocks -> m = Wrapping \/ gently_coded p blocks ->
  zpicture_written gz m p (write_zpicture p blocks).
Proof.
  intros (WP & RX & OK) MG. exists [tile_column], (zp_rows p blocks (fun _ => [])), 0. split; auto. split; auto.
  unfold write_zpicture. rewrite <- (app_nil_r (zp_entries p)).
  apply (written_tiled gz m p bs 8); auto using no_side, no_further. intro. constructor.
Qed.

Lemma scale_cells q bs blocks : quantised_ok q bs blocks -> forall k, Forall2 cell_ok (forms scale_columns) [[[qi_scale q k]]; [[qi_zero q k]]].
Proof. intros (_ & _ & _ & R & _) k. destruct (R k) as (R1 & R2). apply Forall2_cons; [|apply Forall2_cons; [|apply Forall2_nil]];
  (split; [apply Forall_cons; [assumption|apply Forall_nil]|reflexivity]). Qed.

Lemma float_sayable q bs blocks : quantised_ok q bs blocks -> Forall (fun e => sayable (snd e)) (float_entries (qi_blank q) (qi_told q)).
Proof.
  intros (_ & _ & _ & _ & B & T). apply Forall_app. split.
  - destruct (qi_blank q); constructor; [|constructor]. cbn in *. lia.
  - destruct (qi_told q) as [[|n|n]|]; repeat (apply Forall_cons || apply Forall_nil);
      try (apply text_sayable; [reflexivity|discriminate|vm_compute; lia]); cbn [snd sayable]; lia.
Qed.

Lemma written_quantised gz m q bs blocks : quantised_ok q bs blocks -> m = Wrapping \/ gently_coded (qi_ints q) blocks ->
  fpicture_written gz m (qi_picture q) (write_quantised q blocks).
Proof.
  intros OK MG. pose proof (scale_cells q bs blocks OK) as CE. pose proof (float_sayable q bs blocks OK) as SE.
  destruct OK as (RP & RX & OK & R & B & _).
  exists (qi_told q), (tile_column :: scale_columns), (zp_rows (qi_ints q) blocks (fun k => [[[qi_scale q k]]; [[qi_zero q k]]])), 0, (qi_blank q).
  split; auto. split; auto.
  assert (RW : forall k cells, nth_error (zp_rows (qi_ints q) blocks (fun k => [[[qi_scale q k]]; [[qi_zero q k]]])) k = Some cells ->
             nth_error cells 1 = Some [[qi_scale q (Z.of_nat k)]] /\ nth_error cells 2 = Some [[qi_zero q (Z.of_nat k)]]).
  { intros k cells N. unfold zp_rows in N. rewrite nth_error_map in N.
    destruct (nth_error (upto _) k) as [j|] eqn:Q; [|discriminate]. injection N as <-. apply upto_nth in Q as (-> & _). auto. }
  assert (FN : forall i n, 0 <= i -> nth_error (map tc_name (tile_column :: scale_columns)) (Z.to_nat i) = Some (Some n) ->
             (forall j, 0 <= j < i -> nth_error (map tc_name (tile_column :: scale_columns)) (Z.to_nat j) <> Some (Some n)) ->
             first_named (map tc_name (tile_column :: scale_columns)) n i) by (intros; split; auto).
  split; [|split; [|split]].
  - exists 1, (TElem TyD 1). split; [apply FN; [lia|reflexivity|]; intros j J; replace j with 0 by lia; discriminate|].
    split; [reflexivity|]. split; [repeat constructor|]. intros k cells N. destruct (RW _ _ N) as (N1 & _).
    exists (qi_scale q (Z.of_nat k)). split; auto.
  - exists 2, (TElem TyD 1).
    split; [apply FN; [lia|reflexivity|]; intros j J; assert (j = 0 \/ j = 1) as [->| ->] by lia; discriminate|].
    split; [reflexivity|]. split; [repeat constructor|]. intros k cells N. destruct (RW _ _ N) as (_ & N1).
    exists (qi_zero q (Z.of_nat k)). split; auto.
  - right. split; [cbn; intros [E|[E|[E|[]]]]; discriminate|]. split; auto.
  - unfold write_quantised, qi_picture. cbn [fp_ints]. apply (written_tiled gz m (qi_ints q) bs 24); auto using float_side, scales_further.
Qed.

Lemma zpicture_octets p bs blocks : zpicture_ok p bs blocks -> octets (hdu_bytes (write_zpicture p blocks)).
Proof.
  intros (_ & _ & OK). unfold write_zpicture. rewrite <- (app_nil_r (zp_entries p)).
  apply (table_with_octets _ (untiled 1 (zp_axes p) ++ [])).
  - eapply codings_extra; eauto using no_side.
  - apply Forall_app. split; [eapply zp_sayable; eauto|constructor].
  - eapply zp_tabular; eauto using no_further; try reflexivity. intro. constructor.
Qed.
Lemma quantised_octets q bs blocks : quantised_ok q bs blocks -> octets (hdu_bytes (write_quantised q blocks)).
Proof.
  intros OK. pose proof (scale_cells q bs blocks OK) as CE. pose proof (float_sayable q bs blocks OK) as SE. destruct OK as (_ & _ & OK & _).
  unfold write_quantised.
  apply (table_with_octets _ (untiled 1 (zp_axes (qi_ints q)) ++ [chars "ZBLANK"; chars "ZQUANTIZ"])).
  - eapply codings_extra; eauto using float_side.
  - apply Forall_app. split; [eapply zp_sayable; eauto|auto].
  - eapply zp_tabular; eauto using scales_further; reflexivity.
Qed.

(** Every image has a coding. *)
Lemma raw_blocks_ok bs fuel : 1 <= bs -> forall l prev, (length l <= fuel)%nat ->
  block_pixels (raw_blocks fuel bs l) = l /\ blocks_ok RI32 bs prev (raw_blocks fuel bs l) /\ short_runs RI32 prev (raw_blocks fuel bs l).
Proof.
  intro B. induction fuel as [|fuel IH]; intros l prev L.
  { destruct l; [|cbn in L; lia]. repeat split. }
  destruct l as [|x l]; [repeat split|]. cbn [raw_blocks].
  set (h := firstn (Z.to_nat bs) (x :: l)). set (t := skipn (Z.to_nat bs) (x :: l)).
  assert (LT : (length t <= fuel)%nat) by (unfold t; rewrite skipn_length; cbn [length] in *; lia).
  destruct (IH t (last h prev) LT) as (I1 & I2 & I3). unfold block_pixels in *. cbn [flat_map snd blocks_ok short_runs].
  rewrite I1. split; [apply firstn_skipn|]. split; [|auto]. split; [|split; [exact I|exact I2]].
  assert (LH : len h = Z.min bs (len (x :: l))) by (unfold h, len; rewrite firstn_length; lia).
  pose proof (len_nonneg l). rewrite len_cons in LH.
  destruct t as [|y t'] eqn:ET.
  - destruct fuel; cbn [raw_blocks]; lia.
  - destruct fuel as [|fuel]; [cbn in LT; lia|]. cbn [raw_blocks].
    assert (LL : len h + len (y :: t') = len (x :: l)).
    { unfold h. rewrite <- ET. unfold t. rewrite <- len_app. now rewrite firstn_skipn. }
    rewrite !len_cons in LL. pose proof (len_nonneg t'). lia.
Qed.

Lemma uncoded_ok p bs k : 1 <= bs -> whole_tiles (zp_dims p) (zp_tiles p) -> len (zp_pixels p) = product (zp_dims p) ->
  0 <= k < product (grid (zp_dims p) (zp_tiles p)) ->
  block_pixels (uncoded p bs k) = tile_pixels (zp_dims p) (zp_tiles p) (zp_pixels p) k /\
  blocks_ok RI32 bs (hd 0 (block_pixels (uncoded p bs k))) (uncoded p bs k) /\
  short_runs RI32 (hd 0 (block_pixels (uncoded p bs k))) (uncoded p bs k).
Proof.
  intros B WT L K. apply raw_blocks_ok; auto.
  pose proof (grid_product _ _ WT) as G. destruct (whole_tiles_nonneg _ _ WT) as (A0 & T1 & _).
  assert (PT : 1 <= product (zp_tiles p)). { clear -T1. induction T1; cbn [product]; [lia|]. nia. }
  pose proof (tile_pixels_len (zp_dims p) (zp_tiles p) (zp_pixels p) k ltac:(lia)) as LT. unfold len in *. nia.
Qed.

(** Tables of a file: fresh tables, selections, rows, and the HDU iterator afterwards. *)

From Coq Require Import Lia ZifyBool Sorted Permutation.
From Verif Require Import Base Text Card Reader Header Xtension Bytes Fits ImageIt BinTable.
From Verif Require Import SpecCard SpecHeader SpecXt SpecFits SpecImage SpecBin.
From Verif Require Import HeaderProofs BytesProofs XtProofs2 XtProofs3 FitsProofs FitsProofs2 FitsProofs3 FitsProofs4
  ImageProofs BinProofs BinProofs2.

(** ** The table the HDU iterator has found *)

Lemma btable_parsed m vs t : bintable_parse m vs = Ok t ->
  Forall field_nonneg (bt_tforms t) /\ length (bt_tforms t) = length (bt_ttypes t) /\
  u64 (bt_naxis1 t) /\ u64 (bt_naxis2 t) /\ u64 (bt_pcount t) /\ 0 <= bt_theap t /\
  bt_naxis1 t = (total (map field_bits (bt_tforms t)) mod 2 ^ 64) / 8.
Proof.
  intro H. pose proof (bintable_parse_ok m vs t H)
    as (_ & _ & _ & U1 & _ & U2 & _ & U3 & _ & _ & _ & _ & LL & C & TH & N1 & _).
  split.
  - apply btfields_columns in C. pose proof (btfields_nonneg vs (Z.to_nat (bt_tfields t)) 1) as F.
    rewrite <- C in F.
    assert (E: forall (a : list tform) (b : list (option str)), length a = length b -> map fst (combine a b) = a).
    { induction a as [|x a IH]; intros [|y b] L; simpl in *; auto; try discriminate. f_equal. apply IH. lia. }
    rewrite E in F; auto.
  - repeat (split; [assumption|]). split; [|exact N1].
    destruct TH as [[_ U]|[_ E]]; [unfold u64 in U; lia|]. rewrite E. apply Z.mod_pos_bound. lia.
Qed.

Lemma after_next_bin m d f h f' t :
  octets d -> rd_data (f_reader f) = d -> 0 <= rd_pos (f_reader f) -> next m f = (IOk h, f') ->
  h_xt h = XtBin t ->
  exists n, bintable_num_bytes m t = Ok n /\ 0 <= n < 2 ^ 64 /\ 0 <= h_offset h <= len d /\
    f' = mk_fits false (h_offset h) n false (mk_reader d (h_offset h)) /\
    get_table m f' t = table_new m t (mk_reader d (h_offset h)) (h_offset h) /\
    exists vs, bintable_parse m vs = Ok t.
Proof.
  intros O D P N X.
  destruct (next_ok_inv m d f h f' O D P N) as (_ & q & n & Q & NH & _ & _ & size & HS & F').
  destruct (new_hdu_inv _ _ _ _ _ _ _ O Q NH)
    as (c & cards & recs & last & rest & E & F & LE & R & HC & Op & K & PC & XP & HO & _ & HL).
  unfold hdu_size in HS. pose proof (size_range m (h_xt h) size HS) as SR. rewrite X in HS. simpl in HS.
  exists size. split; auto. split; auto.
  pose proof (in_blocks_range (80 * len (h_cards h))). pose proof (len_nonneg (h_cards h)).
  split; [lia|]. split; auto. split; [rewrite F'; reflexivity|].
  exists (h_values h). rewrite X in XP. unfold xt_parse in XP.
  destruct (xtype_of (h_kind h));
    match type of XP with (let! _ := ?x in _) = _ => destruct x end; cbn [bind] in XP; congruence.
Qed.

Lemma total_bits l : Forall (fun f => 0 <= field_bits f) l -> Forall (fun f => field_bits f mod 8 = 0) l ->
  total (map field_bits l) = 8 * total (map field_bytes l).
Proof.
  induction l as [|f l IH]; intros F G; [reflexivity|]. inversion F; inversion G; subst. cbn [map total].
  assert (field_bits f = 8 * field_bytes f).
  { unfold field_bytes. pose proof (Z.div_mod (field_bits f) 8 ltac:(lia)).
    assert ((field_bits f + 7) / 8 = field_bits f / 8); [|lia].
    symmetry. apply Z.div_unique with 7; lia. }
  specialize (IH ltac:(auto) ltac:(auto)). lia.
Qed.

Lemma present_file m d vs t o :
  octets d -> 0 <= o -> bintable_parse m vs = Ok t -> table_inside d t o -> table_present d t o.
Proof.
  intros O Ho P (D & T & W & I).
  destruct (btable_parsed m vs t P) as (F & LL & U1 & U2 & U3 & TH & N1). unfold u64 in *.
  assert (F': Forall (fun f => 0 <= field_bits f) (bt_tforms t))
    by (eapply Forall_impl; [|exact F]; intros; apply field_bits_nonneg; auto).
  pose proof (total_bits _ F' W) as TB. pose proof (total_nonneg _ (all_nonneg _ F')) as TN.
  rewrite Z.mod_small in N1 by lia. rewrite TB in N1. replace (8 * _) with (total (map field_bytes (bt_tforms t)) * 8) in N1 by lia.
  rewrite Z.div_mul in N1 by lia.
  unfold table_present. repeat (split; [assumption || lia|]). assumption.
Qed.

(** ** A fresh table *)

Definition fresh (d : list Z) (t : bintable) (o : Z) : table :=
  mk_table (mk_reader d o) InMain (all_columns t) (offsets_of t) t 0 0 0 (bt_naxis1 t * bt_naxis2 t) o false 0 true.

Lemma read_the_heap_fresh d t o b : read_the_heap (fresh d t o) b =
  mk_table (mk_reader d o) InMain (all_columns t) (offsets_of t) t 0 0 0 (bt_naxis1 t * bt_naxis2 t) o false 0 b.
Proof. reflexivity. Qed.
Lemma read_the_heap_true d t o : read_the_heap (fresh d t o) true = fresh d t o.
Proof. reflexivity. Qed.

Lemma upto_sorted n : StronglySorted Z.lt (upto n).
Proof.
  unfold upto. generalize 0%nat. induction (Z.to_nat n) as [|k IH]; intro a; [constructor|]. cbn [seq map].
  constructor; [apply IH|]. apply Forall_forall. intros x Hx. apply in_map_iff in Hx as (y & <- & Hy).
  apply in_seq in Hy. lia.
Qed.
Lemma columns_ne t : bt_tforms t <> [] -> all_columns t <> [].
Proof. unfold all_columns, upto, len. destruct (bt_tforms t); [contradiction|]. rewrite Nat2Z.id. discriminate. Qed.

Lemma col_at_zero t : col_at (all_columns t) 0 = 0.
Proof. unfold col_at, all_columns, upto, len. rewrite Nat2Z.id. destruct (bt_tforms t); reflexivity. Qed.

Lemma slots_at_zero d t o b sel row : slots_at d t o b sel row 0 = row_slots d t o b sel row.
Proof. reflexivity. Qed.

Lemma fresh_inv d lim t o b :
  table_present d t o -> columns_readable d lim t o b (all_columns t) -> bt_tforms t <> [] ->
  inv d t o b (all_columns t) (read_the_heap (fresh d t o) b) 0 (row_of d t o b (all_columns t) 0).
Proof.
  intros Pr Re Ne. pose proof (columns_ne t Ne) as Nc. rewrite read_the_heap_fresh.
  assert (L1: 1 <= len (all_columns t)).
  { destruct (all_columns t); [contradiction|]. unfold len. simpl. lia. }
  assert (C0: column_start (bt_tforms t) 0 = 0) by reflexivity.
  pose proof Pr as (_ & _ & _ & N2 & _).
  unfold row_of. destruct (0 <? bt_naxis2 t) eqn:X.
  -
    replace (mk_table _ _ _ _ _ _ _ _ _ _ _ _ _) with (in_cell d t o b (all_columns t) 0 0 0 0).
    + eapply start_inv; eauto using upto_sorted; try lia.
    + unfold in_cell, at_, base. rewrite col_at_zero, C0. f_equal. f_equal. lia.
  - replace (mk_table _ _ _ _ _ _ _ _ _ _ _ _ _) with (finished d t o b (all_columns t) 0 0).
    + pose proof (inv_end d t o b (all_columns t) 0 0 ltac:(lia)) as H. replace (bt_naxis2 t) with 0 in H at 1 by lia. exact H.
    + unfold finished, at_. replace (bt_naxis2 t) with 0 by lia. rewrite Z.mul_0_r, Z.add_0_r. reflexivity.
Qed.

(** ** Selections *)

Lemma insert_perm x l : Permutation (insert x l) (x :: l).
Proof.
  induction l as [|y l IH]; cbn [insert]; [reflexivity|]. destruct (x <=? y); [reflexivity|].
  rewrite IH. apply perm_swap.
Qed.
Lemma sort_perm l : Permutation (sort l) l.
Proof. induction l as [|x l IH]; cbn [sort]; [reflexivity|]. rewrite insert_perm, IH. reflexivity. Qed.

Lemma insert_sorted x l : StronglySorted Z.le l -> StronglySorted Z.le (insert x l).
Proof.
  induction 1 as [|y l S IH F]; cbn [insert]; [repeat constructor|]. destruct (x <=? y) eqn:X.
  - constructor; [constructor; auto|]. constructor; [lia|]. eapply Forall_impl; [|exact F]. intros; lia.
  - constructor; auto. apply (Permutation_Forall (Permutation_sym (insert_perm x l))). constructor; auto. lia.
Qed.
Lemma sort_sorted l : StronglySorted Z.le (sort l).
Proof. induction l; cbn [sort]; [constructor|]. apply insert_sorted. auto. Qed.

Lemma sorted_strict l : StronglySorted Z.le l -> NoDup l -> StronglySorted Z.lt l.
Proof.
  induction 1 as [|y l S IH F]; intro N; [constructor|]. inversion N; subst. constructor; auto.
  rewrite Forall_forall in *. intros x Hx. specialize (F x Hx). assert (x <> y) by congruence. lia.
Qed.

Lemma sorted_unique a : forall b, StronglySorted Z.lt a -> StronglySorted Z.lt b ->
  (forall x, In x a <-> In x b) -> a = b.
Proof.
  induction a as [|x a IH]; intros [|y b] Sa Sb E; auto.
  - exfalso. apply (proj2 (E y)). left. reflexivity.
  - exfalso. apply (proj1 (E x)). left. reflexivity.
  - inversion Sa as [|? ? Sa' Fa]; inversion Sb as [|? ? Sb' Fb]; subst. rewrite Forall_forall in Fa, Fb.
    assert (x = y).
    { destruct (proj1 (E x) ltac:(left; reflexivity)) as [H|H]; [auto|].
      destruct (proj2 (E y) ltac:(left; reflexivity)) as [H'|H']; [auto|].
      specialize (Fa _ H'). specialize (Fb _ H). lia. }
    subst y. f_equal. apply IH; auto. intro z. split; intro H.
    + destruct (proj1 (E z) ltac:(right; exact H)) as [->|H']; auto. specialize (Fa _ H). lia.
    + destruct (proj2 (E z) ltac:(right; exact H)) as [->|H']; auto. specialize (Fb _ H). lia.
Qed.

Lemma resolve_In t i c : length (bt_tforms t) = length (bt_ttypes t) -> id_ok i ->
  In c (resolve t i) <-> 0 <= c < len (bt_tforms t) /\ names t i c.
Proof.
  intros L I. destruct i as [j|n]; cbn [resolve names].
  - cbn [id_ok] in I. unfold u64 in I. destruct (len (bt_tforms t) <=? j) eqn:X; simpl; lia.
  - pose proof (find_field_spec (bt_ttypes t) n) as S. destruct (find_field_by_ttype (bt_ttypes t) n) as [k|].
    + assert (0 <= k < len (bt_tforms t)).
      { destruct S as (S1 & S2 & _). assert (Z.to_nat k < length (bt_ttypes t))%nat by (apply nth_error_Some; congruence).
        unfold len. lia. }
      split.
      * intros [->|[]]. auto.
      * intros [_ H']. left. eapply first_named_fun; eauto.
    + split; [intros []|]. intros [_ (H & E & _)]. apply S. eapply nth_error_In; eauto.
Qed.

Lemma resolve_one t i : resolve t i = [] \/ exists c, resolve t i = [c].
Proof.
  destruct i as [j|n]; cbn [resolve]; [destruct (len (bt_tforms t) <=? j)|destruct (find_field_by_ttype (bt_ttypes t) n)]; eauto.
Qed.

Lemma resolve_nodup t ids : length (bt_tforms t) = length (bt_ttypes t) -> Forall id_ok ids -> distinct t ids ->
  NoDup (flat_map (resolve t) ids).
Proof.
  intros L. induction ids as [|i ids IH]; intros F D; [constructor|]. inversion F; subst. cbn [flat_map].
  assert (N: NoDup (flat_map (resolve t) ids)).
  { apply IH; auto. intros l1 a l2 b l3 c E. apply (D (i :: l1) a l2 b l3 c). rewrite E. reflexivity. }
  destruct (resolve_one t i) as [->|[c Ec]]; [exact N|]. rewrite Ec. constructor; auto.
  intro I. apply in_flat_map in I as (j & J & Cj).
  apply in_split in J as (l2 & l3 & ->).
  apply resolve_In in Cj; auto.
  2:{ rewrite Forall_forall in H2. apply H2. apply in_or_app. right. left. reflexivity. }
  assert (Ci: In c (resolve t i)) by (rewrite Ec; left; reflexivity). apply resolve_In in Ci; auto.
  apply (D [] i l2 j l3 c); tauto.
Qed.

Lemma select_sorted t ids sel : length (bt_tforms t) = length (bt_ttypes t) -> Forall id_ok ids -> distinct t ids ->
  selection t ids sel -> sort (flat_map (resolve t) ids) = sel.
Proof.
  intros L F D [S1 S2]. apply sorted_unique; auto.
  - apply sorted_strict; [apply sort_sorted|]. eapply Permutation_NoDup; [symmetry; apply sort_perm|].
    apply resolve_nodup; auto.
  - intro x. rewrite S2. rewrite Forall_forall in F. split.
    + intro H. apply (Permutation_in _ (sort_perm _)) in H. apply in_flat_map in H as (i & I & C).
      apply resolve_In in C; auto. destruct C. eauto.
    + intros (R & i & I & N). apply (Permutation_in _ (Permutation_sym (sort_perm _))). apply in_flat_map.
      exists i. split; auto. apply resolve_In; auto.
Qed.

(** The first call after a selection. *)
Lemma select_next m d lim t o b ids sel :
  lim <= len d -> table_present d t o -> columns_readable d lim t o b sel -> sel <> [] -> StronglySorted Z.lt sel ->
  sort (flat_map (resolve t) ids) = sel -> 1 <= bt_naxis2 t ->
  table_next m (select_fields (read_the_heap (fresh d t o) b) ids) = table_next m (in_cell d t o b sel 0 0 0 0).
Proof.
  intros Li Pr Re Ne So E N2. unfold select_fields. rewrite read_the_heap_fresh. cbn [tb_ctx]. rewrite E.
  pose proof (sel_pos d lim t o b sel Re So Ne) as Sp.
  destruct (col_facts d lim t o b sel Pr Re 0 ltac:(lia)) as (f & Ef & _ & B1 & B2 & B3 & B4).
  pose proof (size_small d t o Pr) as (S1 & S2 & S3 & S4 & S5 & S6 & S7).
  unfold table_next, set_first, set_cols, in_cell, at_.
  cbn [tb_reader tb_state tb_cols tb_offsets tb_ctx tb_col tb_item tb_off tb_main tb_start tb_first tb_row tb_heap].
  rewrite (col_index t sel 0) by lia. rewrite (offsets_index _ _ _ Ef).
  rewrite as_i64_small by lia. unfold seek_by. cbn [tb_reader tb_off].
  rewrite seek_relative_ok by (cbn [rd_pos]; lia). cbn [rd_data rd_pos]. rewrite as_usize_small by lia.
  rewrite u64_result_small by lia. unfold set_off, set_reader.
  cbn [tb_reader tb_state tb_cols tb_offsets tb_ctx tb_col tb_item tb_off tb_main tb_start tb_first tb_row tb_heap].
  unfold base. rewrite Z.mul_0_l, !Z.add_0_l, Z.add_0_r. reflexivity.
Qed.

(** ** Statements about the tables of a file *)

Section FileTable.
Variables (m : mode) (d : list Z) (f : fits) (h : hdu) (f' : fits) (t : bintable).
Hypothesis Oc : octets d.
Hypothesis Da : rd_data (f_reader f) = d.
Hypothesis Po : 0 <= rd_pos (f_reader f).
Hypothesis Nx : next m f = (IOk h, f').
Hypothesis Xt : h_xt h = XtBin t.
Hypothesis Ti : table_inside d t (h_offset h).

Let o := h_offset h.
Let all := all_columns t.

Lemma file_present : table_present d t o.
Proof.
  destruct (after_next_bin m d f h f' t Oc Da Po Nx Xt) as (n & _ & _ & HO & _ & _ & vs & P).
  eapply present_file; eauto; unfold o; lia.
Qed.
Lemma file_table : get_table m f' t = Ok (fresh d t o).
Proof.
  destruct (after_next_bin m d f h f' t Oc Da Po Nx Xt) as (n & _ & _ & HO & _ & G & _).
  rewrite G. apply table_new_ok. apply file_present.
Qed.
Lemma file_lengths : length (bt_tforms t) = length (bt_ttypes t).
Proof.
  destruct (after_next_bin m d f h f' t Oc Da Po Nx Xt) as (n & _ & _ & HO & _ & _ & vs & P).
  apply (btable_parsed m vs t P).
Qed.

Lemma table_cells lim :
  lim <= len d -> columns_readable d lim t o true all -> bt_tforms t <> [] ->
  exists s cells, get_table m f' t = Ok s /\
    Forall2 (slot_value d) (slots_from d t o true all 0) cells /\
    forall n, fst (table_run m s (repeat TNext n)) = firstn n (map TValue cells ++ repeat TEnd n).
Proof.
  intros Li Re Ne. exists (fresh d t o).
  pose proof file_present as Pr. pose proof (columns_ne t Ne) as Nc.
  pose proof (fresh_inv d lim t o true Pr Re Ne) as I. rewrite read_the_heap_true in I.
  destruct (walk_values m d lim t o true all Li Pr Re (upto_sorted _) Nc (slots_from d t o true all 0)
              (fresh d t o) 0 (row_of d t o true all 0) I) as (cells & V & R).
  { apply (slots_from_step d t o true all 0). destruct Pr as (_ & _ & _ & N2 & _). lia. }
  exists cells. split; [apply file_table|]. split; auto.
Qed.

Lemma table_history lim :
  lim <= len d -> columns_readable d lim t o true all -> bt_tforms t <> [] ->
  exists s, get_table m f' t = Ok s /\ forall ops,
    proper t (slots_from d t o true all) (slots_from d t o true all 0) ops ->
    history d t (slots_from d t o true all) (slots_from d t o true all 0) ops (fst (table_run m s ops)).
Proof.
  intros Li Re Ne. exists (fresh d t o). split; [apply file_table|]. intros ops Pp.
  pose proof file_present as Pr. pose proof (columns_ne t Ne) as Nc.
  pose proof (fresh_inv d lim t o true Pr Re Ne) as I. rewrite read_the_heap_true in I.
  assert (E: slots_from d t o true all 0 = row_of d t o true all 0 ++ slots_from d t o true all (0 + 1)).
  { apply (slots_from_step d t o true all 0). destruct Pr as (_ & _ & _ & N2 & _). lia. }
  rewrite E in Pp. rewrite E.
  apply (walk_history m d lim t o true all Li Pr Re (upto_sorted _) Nc ops _ _ _ I Pp).
Qed.

Lemma table_rows lim :
  lim <= len d -> columns_readable d lim t o true all -> bt_tforms t <> [] ->
  exists s rows, get_table m f' t = Ok s /\
    Forall2 (fun i cells => Forall2 (slot_value d) (row_slots d t o true all i) cells) (rows_from t 0) rows /\
    forall fuel n, (1 <= fuel)%nat ->
      (forall i, In i (rows_from t 0) -> (length (row_slots d t o true all i) <= fuel)%nat) ->
      row_run m fuel (row_iter s) n = firstn n (map RowOf rows ++ repeat RowEnd n).
Proof.
  intros Li Re Ne. exists (fresh d t o).
  pose proof file_present as Pr. pose proof (columns_ne t Ne) as Nc.
  pose proof (fresh_inv d lim t o true Pr Re Ne) as I. rewrite read_the_heap_true in I.
  destruct (walk_rows m d lim t o true all Li Pr Re (upto_sorted _) Nc _ (fresh d t o) 0 I eq_refl) as (rows & A & B).
  exists rows. split; [apply file_table|]. split; auto.
Qed.

Lemma table_selected lim ids sel :
  lim <= len d -> columns_readable d lim t o true sel -> sel <> [] -> 1 <= bt_naxis2 t ->
  Forall id_ok ids -> distinct t ids -> selection t ids sel ->
  exists s cells rows, get_table m f' t = Ok s /\
    Forall2 (slot_value d) (slots_from d t o true sel 0) cells /\
    (forall n, fst (table_run m (select_fields s ids) (repeat TNext n)) = firstn n (map TValue cells ++ repeat TEnd n)) /\
    Forall2 (fun i cells => Forall2 (slot_value d) (row_slots d t o true sel i) cells) (rows_from t 0) rows /\
    (forall fuel n, (1 <= fuel)%nat ->
      (forall i, In i (rows_from t 0) -> (length (row_slots d t o true sel i) <= fuel)%nat) ->
      row_run m fuel (row_iter (select_fields s ids)) n = firstn n (map RowOf rows ++ repeat RowEnd n)) /\
    forall ops, proper t (slots_from d t o true sel) (slots_from d t o true sel 0) (TNext :: ops) ->
      history d t (slots_from d t o true sel) (slots_from d t o true sel 0) (TNext :: ops)
              (fst (table_run m (select_fields s ids) (TNext :: ops))).
Proof.
  intros Li Re Ne N2 Io Di Se. exists (fresh d t o).
  pose proof file_present as Pr. pose proof Se as [So _].
  pose proof (select_sorted t ids sel file_lengths Io Di Se) as E.
  pose proof (select_next m d lim t o true ids sel Li Pr Re Ne So E N2) as Nxt.
  rewrite read_the_heap_true in Nxt.
  pose proof (sel_pos d lim t o true sel Re So Ne) as Sp.
  pose proof (start_inv d lim t o true sel Pr Re 0 0 ltac:(lia) ltac:(lia)) as I.
  rewrite slots_at_zero in I.
  assert (Er: row_of d t o true sel 0 = row_slots d t o true sel 0).
  { unfold row_of. destruct (0 <? bt_naxis2 t) eqn:X; [reflexivity|lia]. }
  assert (Es: slots_from d t o true sel 0 = row_slots d t o true sel 0 ++ slots_from d t o true sel (0 + 1)).
  { rewrite <- Er. apply (slots_from_step d t o true sel 0). lia. }
  destruct (walk_values m d lim t o true sel Li Pr Re So Ne _ _ _ _ I Es) as (cells & V & R).
  rewrite <- Er in I.
  destruct (walk_rows m d lim t o true sel Li Pr Re So Ne _ _ 0 I eq_refl) as (rows & A & B).
  exists cells, rows. split; [apply file_table|]. split; [exact V|].
  assert (Go: forall ops, fst (table_run m (select_fields (fresh d t o) ids) (TNext :: ops))
              = fst (table_run m (in_cell d t o true sel 0 0 0 0) (TNext :: ops))).
  { intro ops. cbn [table_run table_do]. rewrite Nxt. reflexivity. }
  split; [|split; [exact A|split]].
  - intro n. destruct n as [|n]; [reflexivity|]. specialize (R (S n)). cbn [repeat] in R |- *. rewrite Go. exact R.
  - intros fuel n F1 FL. specialize (B fuel n F1 FL). destruct n as [|n]; [reflexivity|]. rewrite <- B.
    destruct fuel as [|fuel]; [lia|]. cbn [row_run]. unfold row_next, row_iter. cbn [ri_data ri_row row_loop].
    rewrite Nxt. reflexivity.
  - intros ops Pp. rewrite Go. rewrite Es in Pp. rewrite Es. rewrite <- Er in Pp. rewrite <- Er.
    apply (walk_history m d lim t o true sel Li Pr Re So Ne _ _ _ _ I Pp).
Qed.

Lemma fixed_readable : Forall fixed_width (bt_tforms t) -> columns_readable d (len d) t o true all.
Proof.
  intros F c I. unfold all, all_columns in I. apply upto_In in I. unfold format.
  destruct (c <? 0) eqn:X; [lia|].
  destruct (nth_error (bt_tforms t) (Z.to_nat c)) as [x|] eqn:E.
  - exists x. split; [reflexivity|]. intros row R. rewrite Forall_forall in F. specialize (F x (nth_error_In _ _ E)).
    destruct x; cbn [fixed_width cell_readable] in *; tauto.
  - apply nth_error_None in E. unfold len in I. lia.
Qed.

Lemma fixed_cells :
  bt_tforms t <> [] -> Forall fixed_width (bt_tforms t) ->
  exists s cells, get_table m f' t = Ok s /\
    Forall2 (slot_value d) (slots_from d t o true all 0) cells /\
    forall n, fst (table_run m s (repeat TNext n)) = firstn n (map TValue cells ++ repeat TEnd n).
Proof. intros Ne F. apply (table_cells (len d)); auto; [lia|]. apply fixed_readable. exact F. Qed.

Lemma logical_cells :
  bt_tforms t <> [] -> Forall fixed_width (bt_tforms t) ->
  exists s cells, get_table m f' t = Ok s /\
    Forall2 (logical_read d) (slots_from d t o true all 0) cells /\
    forall n, fst (table_run m s (repeat TNext n)) = firstn n (map TValue cells ++ repeat TEnd n).
Proof.
  intros Ne F. destruct (fixed_cells Ne F) as (s & cells & G & V & R). exists s, cells. split; auto. split; auto.
  clear R G. induction V as [|x v xs vs H V IH]; constructor; auto.
  destruct x as [e p c i|]; [|exact I]. destruct e; try exact I. cbn [slot_value elem_stored logical_read] in *.
  destruct H as (y & -> & b & (Rb & Eb) & ->). exists b. split; [|reflexivity].
  change (elem_bytes TyL) with 1 in Eb. rewrite Eb. cbn in Rb. unfold encode. change (Z.to_nat (width BU8)) with 1%nat. rewrite be_bytes_snoc. unfold be_bytes. cbn [seq map app].
  f_equal. apply Z.mod_small. lia.
Qed.

(** The next HDU afterwards. *)
Lemma table_undisturbed n s ops :
  hdu_size m h = Ok n -> o + in_blocks n < 2 ^ 63 -> o + n <= len d ->
  columns_readable d (o + n) t o true all -> bt_tforms t <> [] -> get_table m f' t = Ok s ->
  proper t (slots_from d t o true all) (slots_from d t o true all 0) ops ->
  next m (give_back f' (tb_reader (snd (table_run m s ops)))) = next m f'.
Proof.
  intros HS FIT FULL Re Ne G Pp. rewrite file_table in G. inversion G; subst s. clear G.
  destruct (after_next_bin m d f h f' t Oc Da Po Nx Xt) as (n' & IN & NR & HO & F' & _ & vs & P).
  unfold hdu_size in HS. rewrite Xt in HS. cbn [xt_num_bytes] in HS. assert (n' = n) by congruence. subst n'.
  pose proof file_present as Pr. pose proof (columns_ne t Ne) as Nc.
  pose proof (fresh_inv d _ t o true Pr Re Ne) as I. rewrite read_the_heap_true in I.
  assert (E: slots_from d t o true all 0 = row_of d t o true all 0 ++ slots_from d t o true all (0 + 1)).
  { apply (slots_from_step d t o true all 0). destruct Pr as (_ & _ & _ & N2 & _). lia. }
  rewrite E in Pp.
  destruct (walk_history m d _ t o true all FULL Pr Re (upto_sorted _) Nc ops _ _ _ I Pp) as (_ & row' & l' & I').
  destruct (inv_pos d _ t o true all Pr Re _ _ _ I') as (p & -> & Pb).
  destruct (btable_parsed m vs t P) as (_ & _ & U1 & U2 & U3 & _). unfold u64 in *.
  pose proof Pr as (_ & D & O & N2 & _ & _ & _ & _ & In).
  assert (Sz: m = Checked -> bt_naxis1 t * bt_naxis2 t <= n).
  { intros ->. unfold bintable_num_bytes in IN. rewrite u64_result_small in IN by (fold o in In; nia). cbn [bind] in IN.
    unfold u64_result in IN. destruct ((0 <=? _) && (_ <? _)) eqn:X; [|discriminate]. inversion IN. lia. }
  rewrite F'. unfold give_back. cbn [f_start f_pos_du f_num_du f_error]. pose proof (in_blocks_range n). fold o in In |- *.
  apply next_same; try lia.
Qed.

End FileTable.

(** ** Raw bytes *)

Lemma raw_bytes_table m d f h f' t s :
  octets d -> len d < 2 ^ 64 -> rd_data (f_reader f) = d -> 0 <= rd_pos (f_reader f) ->
  next m f = (IOk h, f') -> h_xt h = XtBin t -> get_table m f' t = Ok s ->
  exists n, hdu_size m h = Ok n /\
    table_raw_bytes m s = if h_offset h + n <=? len d then Ok (slice d (h_offset h) n) else Panic.
Proof.
  intros O DL D P N X G.
  destruct (after_next_bin m d f h f' t O D P N X) as (n & IN & NR & HO & F' & IP & _).
  exists n. split; [unfold hdu_size; rewrite X; exact IN|].
  rewrite IP in G. unfold table_new in G.
  destruct (col_offsets m 0 (bt_tforms t)) as [offs| |]; cbn [bind] in G; try discriminate.
  destruct (u64_result m (bt_naxis1 t * bt_naxis2 t)) as [size| |]; cbn [bind] in G; try discriminate.
  inversion G; subst s. clear G.
  unfold table_raw_bytes. cbn [tb_ctx tb_start tb_reader rd_data]. rewrite IN. cbn [bind].
  unfold u64_result. destruct ((0 <=? h_offset h + n) && (h_offset h + n <? 2 ^ 64)) eqn:E.
  - cbn [bind]. unfold slice_range. destruct ((h_offset h <=? h_offset h + n) && (h_offset h + n <=? len d)) eqn:E2;
      destruct (h_offset h + n <=? len d) eqn:E3; try lia; auto.
    f_equal. f_equal. lia.
  - destruct (h_offset h + n <=? len d) eqn:E3; [lia|]. destruct m; auto. cbn [bind].
    unfold slice_range.
    assert (M: (h_offset h + n) mod 2 ^ 64 = h_offset h + n - 2 ^ 64).
    { symmetry. apply Z.mod_unique with 1; lia. }
    rewrite M. destruct ((h_offset h <=? h_offset h + n - 2 ^ 64) && _) eqn:E4; auto. lia.
Qed.

Lemma table_main_bytes m d f h f' t s :
  octets d -> rd_data (f_reader f) = d -> 0 <= rd_pos (f_reader f) -> next m f = (IOk h, f') ->
  h_xt h = XtBin t -> bt_naxis1 t * bt_naxis2 t < 2 ^ 64 -> get_table m f' t = Ok s ->
  forall sizes k, Forall (fun k => 0 <= k) sizes -> 0 < k ->
    let unit := slice d (h_offset h) (bt_naxis1 t * bt_naxis2 t) in
    let got := concat (fst (ascii_run (table_bytes s) sizes)) in
    let more := fst (buf_read (snd (ascii_run (table_bytes s) sizes)) k) in
    got ++ more = firstn (length (got ++ more)) unit /\ len more <= k /\ (more = [] <-> got = unit).
Proof.
  intros O D P N X SM G sizes k FS K0.
  destruct (after_next_bin m d f h f' t O D P N X) as (n' & IN & NR & HO & F' & IP & vs & PB).
  destruct (btable_parsed m vs t PB) as (_ & _ & U1 & U2 & _). unfold u64 in U1, U2.
  rewrite IP in G. unfold table_new in G.
  destruct (col_offsets m 0 (bt_tforms t)) as [offs| |]; cbn [bind] in G; try discriminate.
  rewrite u64_result_small in G by nia. cbn [bind] in G.
  inversion G; subst s. clear G. unfold table_bytes. cbn [tb_main tb_reader].
  set (n := bt_naxis1 t * bt_naxis2 t) in *. assert (NN: 0 <= n) by (unfold n; nia).
  set (tk := mk_taker [] n (mk_reader d (h_offset h))).
  assert (A: ascii_at d (h_offset h) n 0 tk).
  { unfold ascii_at, tk. simpl. rewrite Z.add_0_r. repeat split; try lia.
    replace (h_offset h - h_offset h - 0) with 0 by lia. reflexivity. }
  cbv zeta.
  destruct (ascii_run_at d (h_offset h) n sizes 0 tk A FS) as (c & A1 & C1 & E1).
  destruct (buf_read_at d (h_offset h) n c _ k A1 ltac:(lia)) as (c' & A2 & C2 & E2 & Z2).
  rewrite E1, E2. rewrite Z.add_0_r, Z.sub_0_r.
  destruct A1 as (_ & _ & P1 & _ & L1 & LL1 & _). destruct A2 as (_ & _ & P2 & _ & L2 & LL2 & _).
  assert (CM: c' <= Z.min n (len d - h_offset h)) by lia.
  assert (SP: slice d (h_offset h) c ++ slice d (h_offset h + c) (c' - c) = slice d (h_offset h) c').
  { rewrite (slice_split d (h_offset h) c' c) by lia. reflexivity. }
  assert (LC: len (slice d (h_offset h) c) = c) by (apply slice_length; lia).
  assert (LC': len (slice d (h_offset h) c') = c') by (apply slice_length; lia).
  assert (LCC: len (slice d (h_offset h + c) (c' - c)) = c' - c) by (apply slice_length; lia).
  assert (LU: len (slice d (h_offset h) n) = Z.min n (len d - h_offset h)) by (apply slice_len_min; lia).
  split; [|split; [lia|]].
  - rewrite SP. replace (length (slice d (h_offset h) c')) with (Z.to_nat c') by (unfold len in LC'; lia).
    rewrite firstn_slice by lia. f_equal. lia.
  - split; intro H.
    + rewrite H in LCC. change (len (@nil Z)) with 0 in LCC. specialize (Z2 K0 ltac:(lia)).
      rewrite (slice_min d (h_offset h) n) by lia. f_equal. lia.
    + rewrite <- H in LU. rewrite LC in LU. assert (c' = c) by lia. subst c'. rewrite Z.sub_diag. reflexivity.
Qed.

(** ** Checking the hypotheses on concrete tables *)

Definition array_presentb (e h : Z) (t : ety) (n o : Z) : bool :=
  match t with TyX => false | _ => (1 <=? n) && (h + o + n * elem_bytes t <=? e) end.
Definition cell_readableb (d : list Z) (e : Z) (heap : bool) (h : Z) (f : tform) (pos : Z) : bool :=
  match f with
  | TElem t n => match t with TyX => false | _ => 1 <=? n end
  | TDesc32 t => negb heap || array_presentb e h t (be_value (slice d pos 4)) (be_value (slice d (pos + 4) 4))
  | TDesc64 t => negb heap || array_presentb e h t (be_value (slice d pos 8)) (be_value (slice d (pos + 8) 8))
  end.
Definition columns_readableb (d : list Z) (e : Z) (t : bintable) (o : Z) (heap : bool) (sel : list Z) : bool :=
  forallb (fun c => match format t c with
                    | Some f => forallb (fun row => cell_readableb d e heap (o + bt_theap t) f
                                   (o + row * bt_naxis1 t + column_start (bt_tforms t) c)) (rows_from t 0)
                    | None => false
                    end) sel.

Lemma array_presentb_ok e h t n o : array_presentb e h t n o = true -> array_present e h t n o.
Proof. unfold array_presentb, array_present. destruct t; try discriminate; intro; (split; [discriminate|lia]). Qed.
Lemma columns_readableb_ok d e t o heap sel :
  columns_readableb d e t o heap sel = true -> columns_readable d e t o heap sel.
Proof.
  intros H c I. unfold columns_readableb in H. rewrite forallb_forall in H. specialize (H c I).
  destruct (format t c) as [f|]; [|discriminate]. exists f. split; [reflexivity|]. intros row R.
  rewrite forallb_forall in H. specialize (H row). unfold rows_from in H.
  assert (K: In row (map (Z.add 0) (upto (bt_naxis2 t - 0)))).
  { apply in_map_iff. exists row. split; [lia|]. apply upto_In. lia. }
  specialize (H K). destruct f as [e' n|e'|e']; cbn [cell_readableb cell_readable] in *.
  - destruct e'; try discriminate; (split; [discriminate|lia]).
  - intros ->. apply array_presentb_ok. exact H.
  - intros ->. apply array_presentb_ok. exact H.
Qed.

Fixpoint nodupb (l : list Z) : bool :=
  match l with [] => true | x :: r => negb (existsb (Z.eqb x) r) && nodupb r end.
Lemma nodupb_ok l : nodupb l = true -> NoDup l.
Proof.
  induction l as [|x l IH]; intro H; [constructor|]. cbn [nodupb] in H. apply andb_prop in H as [H1 H2].
  constructor; auto. intro I. rewrite negb_true_iff in H1.
  assert (existsb (Z.eqb x) l = true) by (apply existsb_exists; exists x; split; auto; lia). congruence.
Qed.
Definition id_okb (i : column_id) : bool := match i with CIndex j => (0 <=? j) && (j <? 2 ^ 64) | CName _ => true end.
Definition selection_of (t : bintable) (ids : list column_id) : list Z := sort (flat_map (resolve t) ids).
Definition selectionb (t : bintable) (ids : list column_id) : bool :=
  (len (bt_tforms t) =? len (bt_ttypes t)) && forallb id_okb ids && nodupb (flat_map (resolve t) ids).

Lemma nodup_right {A} (a b : list A) : NoDup (a ++ b) -> NoDup b.
Proof. induction a; auto. intro H. inversion H. auto. Qed.
Lemma selectionb_ok t ids : selectionb t ids = true ->
  Forall id_ok ids /\ distinct t ids /\ selection t ids (selection_of t ids).
Proof.
  intro H. unfold selectionb in H. apply andb_prop in H as [H H3]. apply andb_prop in H as [H1 H2].
  assert (L: length (bt_tforms t) = length (bt_ttypes t)) by (unfold len in H1; lia).
  assert (F: Forall id_ok ids).
  { apply Forall_forall. intros i I. rewrite forallb_forall in H2. specialize (H2 i I).
    destruct i; simpl in *; [unfold u64; lia|exact Logic.I]. }
  apply nodupb_ok in H3. split; auto. rewrite Forall_forall in F. split.
  - intros l1 i l2 j l3 c E Ni Nj R.
    assert (Ii: In i ids) by (rewrite E; apply in_or_app; right; left; reflexivity).
    assert (Ij: In j ids) by (rewrite E; apply in_or_app; right; right; apply in_or_app; right; left; reflexivity).
    assert (Ci: In c (resolve t i)) by (apply resolve_In; auto).
    assert (Cj: In c (resolve t j)) by (apply resolve_In; auto).
    rewrite E in H3. rewrite flat_map_app in H3. cbn [flat_map] in H3. rewrite flat_map_app in H3. cbn [flat_map] in H3.
    apply nodup_right in H3. destruct (resolve_one t i) as [Ei|[c' Ei]]; rewrite Ei in Ci, H3; [destruct Ci|].
    destruct Ci as [->|[]]. inversion H3 as [|? ? N _]; subst. apply N. apply in_or_app. right. apply in_or_app. left. exact Cj.
  - split.
    + apply sorted_strict; [apply sort_sorted|]. eapply Permutation_NoDup; [symmetry; apply sort_perm|]. exact H3.
    + intro x. unfold selection_of. split.
      * intro I. apply (Permutation_in _ (sort_perm _)) in I. apply in_flat_map in I as (i & I & C).
        apply resolve_In in C; auto. destruct C. eauto.
      * intros (R & i & I & N). apply (Permutation_in _ (Permutation_sym (sort_perm _))). apply in_flat_map.
        exists i. split; auto. apply resolve_In; auto.
Qed.

(** Proofs about the bytes of ASCII tables over short and failing reads. *)

From Coq Require Import ZifyBool.
From Verif Require Import Base Card Reader Header Xtension Bytes Fits ImageIt BinTable Gz DeviceGz DeviceAscii.
From Verif Require Import SpecUtf8 SpecCard SpecHeader SpecXt SpecFits SpecImage SpecBin SpecGz SpecDeviceGz SpecDeviceAscii.
From Verif Require Import BytesProofs XtProofs FitsProofs FitsProofs4 ImageProofs BinProofs BinProofs3 DeviceGzProofs.

Lemma file_read_slice x d p n bs r : 0 <= p <= len d -> 0 <= n -> file_read x (mk_reader d p) n = Some (bs, r) ->
  exists q, bs = slice d p q /\ r = mk_reader d (p + q) /\ 0 <= q <= Z.min n (len d - p) /\ (0 < n -> p < len d -> 0 < q) /\ failure x = false.
Proof.
  intros P N E.
  assert (H: forall n', 0 <= n' <= n -> (0 < n -> 0 < n') -> read_some (mk_reader d p) n' = (bs, r) ->
    exists q, bs = slice d p q /\ r = mk_reader d (p + q) /\ 0 <= q <= Z.min n (len d - p) /\ (0 < n -> p < len d -> 0 < q)).
  { intros n' L1 L2 R. unfold read_some in R. cbn [rd_data rd_pos] in R. inversion R as [[R1 R2]]. clear R.
    exists (Z.min n' (len d - p)). rewrite slice_len_min by lia. split; [apply slice_min; lia|]. split; [reflexivity|]. lia. }
  assert (Some_eq: forall A (a b : A), Some a = Some b -> a = b) by congruence.
  destruct x as [|k|]; cbn [file_read] in E; [| |discriminate]; apply Some_eq in E.
  - destruct (H n ltac:(lia) ltac:(auto) E) as (q & H1 & H2 & H3 & H4). exists q. auto.
  - destruct (H (Z.min n (Z.max 1 k)) ltac:(lia) ltac:(lia) E) as (q & H1 & H2 & H3 & H4). exists q. auto.
Qed.

(** [Take], when nothing is read ahead. *)
Lemma take_read_at d o n c t k fs : ascii_at d o n c t -> tk_buf t = [] -> 0 <= k ->
  match dev_take_read t k fs with
  | (Some bs, t', fs') => exists q, bs = slice d (o + c) q /\ 0 <= q <= k /\
      tk_reader t' = mk_reader d (o + c + q) /\ tk_buf t' = [] /\ tk_limit t' = o + n - (o + c + q) /\ 0 <= tk_limit t' /\
      o + c + q <= len d /\ (0 < k -> q = 0 -> c = Z.min n (len d - o)) /\ spent fs fs' 0
  | (None, t', fs') => t' = t /\ spent fs fs' 1
  end.
Proof.
  intros (D & O & P & C & L & L0 & B) E K. unfold dev_take_read. set (p := rd_pos (tk_reader t)) in *.
  assert (PC: p = o + c).
  { assert (Z0: len (slice d (o + c) (p - o - c)) = 0) by (rewrite <- B, E; reflexivity). rewrite slice_len_min in Z0 by lia. lia. }
  assert (R: tk_reader t = mk_reader d (o + c)) by (rewrite <- PC; unfold p; destruct (tk_reader t); cbn in *; congruence).
  destruct (Z.eqb_spec (tk_limit t) 0).
  - exists 0. rewrite Z.add_0_r. repeat split; auto; try lia. apply spent_none.
  - pose proof (first_spent fs) as Sp. destruct (first_call fs) as (x, fs'). rewrite R.
    destruct (file_read x (mk_reader d (o + c)) (Z.min k (tk_limit t))) as [(bs, r)|] eqn:F.
    + destruct (file_read_slice x d (o + c) (Z.min k (tk_limit t)) bs r ltac:(lia) ltac:(lia) F) as (q & -> & -> & Q & Q0 & Nf). rewrite Nf in Sp.
      exists q. cbn [tk_reader tk_buf tk_limit]. rewrite (slice_length d (o + c) q) by lia. repeat split; auto; try lia.
    + destruct x; try discriminate. auto.
Qed.

Lemma dev_buf_read_at d o n c t k fs : ascii_at d o n c t -> 0 <= k ->
  match dev_buf_read t k fs with
  | (Some bs, t', fs') => exists c', ascii_at d o n c' t' /\ c <= c' <= c + k /\ bs = slice d (o + c) (c' - c) /\
      (0 < k -> c' = c -> c = Z.min n (len d - o)) /\ spent fs fs' 0
  | (None, t', fs') => t' = t /\ spent fs fs' 1
  end.
Proof.
  intros A K. unfold dev_buf_read. destruct (tk_buf t) as [|x bs] eqn:E.
  - destruct (Z.leb_spec buf_capacity k) as [KC|KC].
    + pose proof (take_read_at d o n c t k fs A E K) as H. destruct (dev_take_read t k fs) as (([b|], t'), fs'); auto.
      destruct H as (q & -> & Q & R & B & L & L0 & LD & Z0 & Sp). destruct A as (_ & O & _ & C & _).
      exists (c + q). split; [|split; [lia|split; [f_equal; lia|split; [lia|exact Sp]]]].
      unfold ascii_at. rewrite R, B, L. cbn [rd_data rd_pos]. replace (o + c + q - o - (c + q)) with 0 by lia. repeat split; auto; lia.
    + pose proof (take_read_at d o n c t buf_capacity fs A E ltac:(unfold buf_capacity; lia)) as H.
      destruct (dev_take_read t buf_capacity fs) as (([b|], t'), fs'); auto.
      destruct H as (q & -> & Q & R & B & L & L0 & LD & Z0 & Sp). destruct A as (_ & O & _ & C & _).
      exists (c + Z.min k q). split; [|split; [lia|split; [rewrite firstn_slice by lia; f_equal; lia|split; [unfold buf_capacity in *; lia|exact Sp]]]].
      unfold ascii_at. cbn [tk_reader tk_limit tk_buf]. rewrite R. cbn [rd_data rd_pos]. rewrite L. repeat split; auto; try lia.
      rewrite skipn_slice by lia. destruct (Z.le_gt_cases k q).
      * rewrite Z.min_l by lia. f_equal; lia.
      * rewrite Z.min_r by lia. unfold slice. replace (Z.to_nat (q - k)) with 0%nat by lia.
        replace (Z.to_nat (o + c + q - o - (c + q))) with 0%nat by lia. reflexivity.
  - destruct (buf_read_at d o n c t k A K) as (c' & A' & C' & E' & Z').
    unfold buf_read in *. rewrite E in *. cbn [fst snd] in *. exists c'. repeat split; auto; try lia; try apply A'. apply spent_none.
Qed.

Lemma dev_ascii_run_at d o n sizes : forall c t fs, ascii_at d o n c t -> Forall (fun k => 0 <= k) sizes ->
  let '(l, t', fs') := dev_ascii_run t sizes fs in
  exists c', ascii_at d o n c' t' /\ c <= c' /\ given l = slice d (o + c) (c' - c) /\ spent fs fs' (failed_reads l).
Proof.
  induction sizes as [|k sizes IH]; intros c t fs A F; cbn [dev_ascii_run].
  - exists c. split; auto. split; [lia|]. rewrite Z.sub_diag. split; [reflexivity|apply spent_none].
  - inversion F; subst. pose proof (dev_buf_read_at d o n c t k fs A ltac:(auto)) as H.
    destruct (dev_buf_read t k fs) as ((x, t1), fs1). destruct x as [bs|].
    + destruct H as (c1 & A1 & C1 & E1 & _ & Sp). specialize (IH c1 t1 fs1 A1 ltac:(auto)).
      destruct (dev_ascii_run t1 sizes fs1) as ((l, t2), fs2). destruct IH as (c2 & A2 & C2 & E2 & Sp2).
      exists c2. split; auto. split; [lia|]. split; [|exact (spent_trans _ _ _ _ _ Sp Sp2)].
      unfold given in *. cbn [map concat]. rewrite E1, E2.
      destruct A as (D & O & P & C & _). destruct A2 as (D2 & O2 & P2 & CC2 & _).
      rewrite (slice_split d (o + c) (c2 - c) (c1 - c)) by lia. f_equal. f_equal; lia.
    + destruct H as (-> & Sp). specialize (IH c t fs1 A ltac:(auto)).
      destruct (dev_ascii_run t sizes fs1) as ((l, t2), fs2). destruct IH as (c2 & A2 & C2 & E2 & Sp2).
      exists c2. split; auto. split; auto. split; [exact E2|exact (spent_trans _ _ _ _ _ Sp Sp2)].
Qed.

Lemma unit_read d o n tk sizes k fs : ascii_at d o n 0 tk -> Forall (fun k => 0 <= k) sizes -> 0 < k ->
  reads_unit (slice d o n) tk sizes k fs.
Proof.
  intros A F K. unfold reads_unit. pose proof (dev_ascii_run_at d o n sizes 0 tk fs A F) as H.
  destruct (dev_ascii_run tk sizes fs) as ((l, tk1), fs1). destruct H as (c & A1 & C1 & E1 & Sp1).
  rewrite Z.add_0_r, Z.sub_0_r in E1. split; [exact (spent_failures _ _ _ Sp1)|].
  pose proof (dev_buf_read_at d o n c tk1 k fs1 A1 ltac:(lia)) as H.
  destruct A as (D0 & O & P0 & _ & L0 & LL0 & _). pose proof A1 as (_ & _ & P1 & _ & L1 & LL1 & _).
  assert (LC: len (slice d o c) = c) by (apply slice_length; lia).
  split.
  { rewrite E1. replace (length (slice d o c)) with (Z.to_nat c) by (unfold len in LC; lia). rewrite firstn_slice by lia. f_equal. lia. }
  destruct (dev_buf_read tk1 k fs1) as (([more|], tk2), fs2).
  - destruct H as (c' & A2 & C2 & -> & Z2 & Sp2). rewrite E1.
    destruct A2 as (_ & _ & P2 & _ & L2 & LL2 & _).
    assert (SP: slice d o c ++ slice d (o + c) (c' - c) = slice d o c').
    { rewrite (slice_split d o c' c) by lia. reflexivity. }
    assert (LC': len (slice d o c') = c') by (apply slice_length; lia).
    assert (LCC: len (slice d (o + c) (c' - c)) = c' - c) by (apply slice_length; lia).
    assert (LU: len (slice d o n) = Z.min n (len d - o)) by (apply slice_len_min; lia).
    split; [|split; [lia|split]].
    + rewrite SP. replace (length (slice d o c')) with (Z.to_nat c') by (unfold len in LC'; lia). rewrite firstn_slice by lia. f_equal. lia.
    + split; intro H.
      * rewrite H in LCC. change (len (@nil Z)) with 0 in LCC. specialize (Z2 K ltac:(lia)).
        rewrite (slice_min d o n) by lia. f_equal. lia.
      * rewrite <- H in LU. rewrite LC in LU. assert (c' = c) by lia. subst c'. rewrite Z.sub_diag. reflexivity.
    + pose proof (spent_failures _ _ _ Sp2). lia.
  - destruct H as (_ & Sp2). exact (spent_failures _ _ _ Sp2).
Qed.

Lemma ascii_short m d f h f' t :
  octets d -> rd_data (f_reader f) = d -> 0 <= rd_pos (f_reader f) -> next m f = (IOk h, f') -> h_xt h = XtAscii t ->
  exists n tk, hdu_size m h = Ok n /\ get_ascii m f' t = Ok tk /\
    forall sizes k fs, Forall (fun k => 0 <= k) sizes -> 0 < k -> reads_unit (slice d (h_offset h) n) tk sizes k fs.
Proof.
  intros O D P N X. destruct (after_next_ascii m d f h f' t O D P N X) as (n & IN & NR & HO & F' & tk & G & A).
  exists n, tk. split; [unfold hdu_size; rewrite X; exact IN|]. split; auto. intros. apply unit_read; auto.
Qed.

Lemma table_short m d f h f' t s :
  octets d -> rd_data (f_reader f) = d -> 0 <= rd_pos (f_reader f) -> next m f = (IOk h, f') ->
  h_xt h = XtBin t -> bt_naxis1 t * bt_naxis2 t < 2 ^ 64 -> get_table m f' t = Ok s ->
  forall sizes k fs, Forall (fun k => 0 <= k) sizes -> 0 < k ->
    reads_unit (slice d (h_offset h) (bt_naxis1 t * bt_naxis2 t)) (table_bytes s) sizes k fs.
Proof.
  intros O D P N X SM G sizes k fs FS K0.
  destruct (after_next_bin m d f h f' t O D P N X) as (n' & IN & NR & HO & F' & IP & vs & PB).
  destruct (btable_parsed m vs t PB) as (_ & _ & U1 & U2 & _). unfold u64 in U1, U2.
  rewrite IP in G. unfold table_new in G.
  destruct (col_offsets m 0 (bt_tforms t)) as [offs| |]; cbn [bind] in G; try discriminate.
  rewrite u64_result_small in G by nia. cbn [bind] in G.
  inversion G; subst s. clear G. unfold table_bytes. cbn [tb_main tb_reader].
  set (n := bt_naxis1 t * bt_naxis2 t) in *. assert (NN: 0 <= n) by (unfold n; nia).
  apply unit_read; auto. unfold ascii_at. cbn [tk_reader tk_limit tk_buf rd_data rd_pos]. rewrite Z.add_0_r. repeat split; try lia.
  replace (h_offset h - h_offset h - 0) with 0 by lia. reflexivity.
Qed.

Lemma ascii_failing_undisturbed m d f h f' t tk n sizes fs :
  octets d -> len d < 2 ^ 63 -> rd_data (f_reader f) = d -> 0 <= rd_pos (f_reader f) ->
  next m f = (IOk h, f') -> h_xt h = XtAscii t -> hdu_size m h = Ok n ->
  h_offset h + in_blocks n < 2 ^ 63 ->
  get_ascii m f' t = Ok tk -> Forall (fun k => 0 <= k) sizes ->
  next m (give_back f' (tk_reader (snd (fst (dev_ascii_run tk sizes fs))))) = next m f'.
Proof.
  intros O DL D P N X HS FIT G FS.
  destruct (after_next_ascii m d f h f' t O D P N X) as (n' & IN & NR & HO & F' & tk' & G' & A).
  unfold hdu_size in HS. rewrite X in HS. simpl in HS. assert (n' = n) by congruence. subst n'.
  assert (tk' = tk) by congruence. subst tk'.
  pose proof (dev_ascii_run_at d (h_offset h) n sizes 0 tk fs A FS) as H.
  destruct (dev_ascii_run tk sizes fs) as ((l, tk1), fs1). destruct H as (c & A1 & C1 & _). cbn [fst snd].
  destruct A1 as (D1 & _ & P1 & C0 & L1 & LL1 & _).
  set (r := tk_reader _) in *. destruct r as (rdd, p). simpl in *. subst rdd.
  rewrite F'. unfold give_back. cbn [f_start f_pos_du f_num_du f_error].
  apply next_same; lia.
Qed.

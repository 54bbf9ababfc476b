(** Binary tables on a device that fails. *)

From Verif Require Import Base Text Card Reader Header Xtension Bytes Fits ImageIt BinTable Device DeviceTable.
From Verif Require Import SpecUtf8 SpecCard SpecHeader SpecXt SpecFits SpecImage SpecBin SpecDevice SpecDeviceTable.
From Verif Require Import BinProofs3 DeviceProofs DeviceProofs2.

Definition tracks {A} (dev : faults -> A * faults) (plain : A) (bad : A -> Prop) : Prop :=
  exists N, forall fs x fs', dev fs = (x, fs') -> follows N fs fs' x plain bad.

Lemma tracks_ret {A} (x : A) bad : tracks (fun fs => (x, fs)) x bad.
Proof. exists 0%nat. intros fs y fs' H. inversion H; subst. apply follows_O. Qed.
Lemma tracks_bind {A B} (d : faults -> A * faults) p (k : A -> faults -> B * faults) q bad1 bad2 :
  tracks d p bad1 -> (forall a fs, bad1 a -> exists y, k a fs = (y, fs) /\ bad2 y) -> tracks (k p) q bad2 ->
  tracks (fun fs => let (a, fs1) := d fs in k a fs1) q bad2.
Proof.
  intros (N1 & H1) HB (N2 & H2). exists (N1 + N2)%nat. intros fs x fs' H.
  destruct (d fs) as (a, fs1) eqn:D. destruct (H1 _ _ _ D) as [(W & -> & ->)|(j & J & F & -> & X)].
  - apply follows_seq; auto.
  - destruct (HB a (skipn (S j) fs) X) as (y & E & Y). rewrite E in H. inversion H; subst.
    right. exists j. repeat split; auto; try lia; apply F.
Qed.
Lemma tracks_call {A} r (c : reader -> res A * reader) :
  tracks (fun fs => device_call fs r c) (c r) (fun y => fst y = Err EIoOther).
Proof. exists 1%nat. intros fs (x, r') fs' H. apply follows_call. exact H. Qed.

Definition erred {A B} (y : res A * B) : Prop := exists e, fst y = Err e.
Definition gone {A B} (y : res (option A) * B) : Prop := fst y = Ok None.

Ltac bind_on t := eapply tracks_bind; [exact t|..].
Ltac bad_branch := intros (?, ?) ?; cbn [fst]; intros ->; eexists; split; [reflexivity|]; try (eexists; reflexivity); try reflexivity.
Ltac bad_err := intros (?, ?) ? (? & E); cbn [fst] in E; subst; eexists; split; [reflexivity|]; try (eexists; reflexivity); try reflexivity.

Lemma seek_by_tracks m s off : tracks (fun fs => dev_seek_by m s fs off) (seek_by m s off) erred.
Proof.
  unfold dev_seek_by, seek_by.
  bind_on (tracks_call (tb_reader s) (fun r => seek_relative r off)); [bad_branch|].
  destruct (seek_relative (tb_reader s) off) as (x, r). destruct x as [u|e|]; try apply tracks_ret.
  destruct (u64_result m (tb_off s + as_usize off)); apply tracks_ret.
Qed.

Lemma next_col_tracks m s : tracks (fun fs => dev_seek_to_next_col m s fs) (seek_to_next_col m s) erred.
Proof.
  unfold dev_seek_to_next_col, seek_to_next_col.
  destruct (u64_result m (len (tb_cols s) - 1)) as [lc|e|]; try apply tracks_ret.
  destruct (u64_result m (bt_naxis2 (tb_ctx s) - 1)) as [lr|e|]; try apply tracks_ret. cbv zeta.
  destruct ((tb_col s =? lc) && (tb_row s =? lr)).
  - destruct (i64_result m (as_i64 (tb_main s) - as_i64 (tb_off s))); try apply tracks_ret. apply seek_by_tracks.
  - destruct (len (tb_cols s) =? 0); [apply tracks_ret|].
    match goal with |- context [match ?t with Ok _ => dev_seek_by _ _ _ _ | _ => _ end] => destruct t end;
      try apply tracks_ret. apply seek_by_tracks.
Qed.

Lemma seek_row_tracks m s i : tracks (fun fs => dev_seek_to_row m s fs i) (seek_to_row m s i) erred.
Proof.
  unfold dev_seek_to_row, seek_to_row. destruct (bt_naxis2 (tb_ctx s) <=? i); [apply tracks_ret|]. cbv zeta.
  destruct (row_off m (set_pos s i 0 0) i) as [(new, off)|e|]; try apply tracks_ret.
  bind_on (tracks_call (tb_reader (set_pos s i 0 0)) (fun r => seek_relative r off)); [bad_branch|].
  destruct (seek_relative (tb_reader (set_pos s i 0 0)) off) as (x, r). destruct x as [u|e|]; apply tracks_ret.
Qed.

Lemma heap_jump_tracks m s t o n size :
  tracks (fun fs => dev_jump_to_heap m s fs t o n size) (jump_to_heap m s t o n size) erred.
Proof.
  unfold dev_jump_to_heap, jump_to_heap. destruct (tb_state s); [|apply tracks_ret].
  match goal with |- context [match ?t with Ok _ => match dev_position _ _ with _ => _ end | _ => _ end] => destruct t as [off|e|] end;
    try apply tracks_ret.
  bind_on (tracks_call (tb_reader s) (fun r => (Ok (rd_pos r), r))); [bad_branch|]. cbv beta iota.
  bind_on (tracks_call (tb_reader s) (fun r => seek_relative r off)); [bad_branch|].
  destruct (seek_relative (tb_reader s) off) as (x, r). destruct x as [u|e|]; try apply tracks_ret.
  destruct (u64_result m (n * size)); apply tracks_ret.
Qed.

Lemma main_jump_tracks s : tracks (fun fs => dev_jump_to_main_table s fs) (Ok tt, jump_to_main_table s) erred.
Proof.
  unfold dev_jump_to_main_table, jump_to_main_table. destruct (tb_state s) as [|t p rm n size]; [apply tracks_ret|].
  bind_on (tracks_call (tb_reader s) (fun r => (Ok tt, seek_start r p))); [bad_branch|]. apply tracks_ret.
Qed.

Lemma be_tracks b r : tracks (fun fs => dev_read_be b fs r) (read_be b r) erred.
Proof.
  unfold dev_read_be, read_be. bind_on (tracks_call r (fun r => read_exact r (byte_size b))); [bad_branch|].
  destruct (read_exact r (byte_size b)) as (x, r1). destruct x; apply tracks_ret.
Qed.
Lemma pair_tracks b r : tracks (fun fs => dev_read_pair b fs r) (read_pair b r) erred.
Proof.
  unfold dev_read_pair, read_pair. bind_on (be_tracks b r); [bad_err|].
  destruct (read_be b r) as (x, r1). destruct x as [x|e|]; try apply tracks_ret.
  bind_on (be_tracks b r1); [bad_err|]. destruct (read_be b r1) as (y, r2). destruct y as [y|e|]; apply tracks_ret.
Qed.
Lemma one_tracks b f r : tracks (fun fs => dev_read_one b f fs r) (read_one b f r) erred.
Proof.
  unfold dev_read_one, read_one. bind_on (be_tracks b r); [bad_err|].
  destruct (read_be b r) as (x, r1). destruct x as [x|e|]; apply tracks_ret.
Qed.
Lemma elem_tracks t r : tracks (fun fs => dev_read_elem t fs r) (read_elem t r) erred.
Proof. destruct t; first [apply one_tracks|apply pair_tracks]. Qed.

Lemma finish_tracks m s v :
  tracks (fun fs => dev_finish_next (dev_seek_to_next_col m s fs) v) (finish_next (seek_to_next_col m s) v) gone.
Proof.
  unfold dev_finish_next, finish_next. bind_on (next_col_tracks m s); [bad_err|].
  destruct (seek_to_next_col m s) as (x, s1). destruct x as [x|e|]; apply tracks_ret.
Qed.

Lemma heap_next_tracks m s c : tracks (fun fs => dev_heap_next m s fs c) (heap_next m s c) gone.
Proof.
  unfold dev_heap_next, heap_next. destruct (tb_state s) as [|t p rm n size]; [apply tracks_ret|].
  destruct (u64_result m (n - rm / size)) as [idx|e|]; try apply tracks_ret.
  bind_on (elem_tracks t (tb_reader s)); [bad_err|].
  destruct (read_elem t (tb_reader s)) as (x, r). destruct x as [v|e|]; try apply tracks_ret. cbv zeta.
  destruct (u64_result m (rm - bytes_size t)) as [rm'|e|]; try apply tracks_ret.
  destruct (rm' =? 0); [|apply tracks_ret].
  bind_on (main_jump_tracks (set_state (set_reader s r) (InHeap t p rm' n size))); [bad_err|]. apply finish_tracks.
Qed.

Lemma main_elem_tracks m s c t last : tracks (fun fs => dev_main_elem m s fs c t last) (main_elem m s c t last) gone.
Proof.
  unfold dev_main_elem, main_elem. bind_on (elem_tracks t (tb_reader s)); [bad_err|].
  destruct (read_elem t (tb_reader s)) as (x, r). destruct x as [v|e|]; try apply tracks_ret. cbv zeta.
  destruct (u64_result m (tb_off s + bytes_size t)) as [o|e|]; try apply tracks_ret.
  destruct (tb_item s + 1 =? last); [apply finish_tracks|apply tracks_ret].
Qed.

Lemma main_desc_tracks m s c wide t : tracks (fun fs => dev_main_desc m s fs c wide t) (main_desc m s c wide t) gone.
Proof.
  unfold dev_main_desc, main_desc. bind_on (pair_tracks (if wide then BF64 else BF32) (tb_reader s)); [bad_err|].
  unfold read_desc. destruct (read_pair (if wide then BF64 else BF32) (tb_reader s)) as (x, r).
  destruct x as [[|n [|o l]]|e|]; try apply tracks_ret. cbv zeta.
  destruct (u64_result m (tb_off s + (if wide then 16 else 8))) as [off|e|]; try apply tracks_ret.
  destruct (tb_heap s); [|apply finish_tracks].
  bind_on (heap_jump_tracks m (set_off (set_reader s r) off) t o n (bytes_size t)); [bad_err|].
  destruct (jump_to_heap m (set_off (set_reader s r) off) t o n (bytes_size t)) as (x, s3).
  destruct x as [x|e|]; try apply tracks_ret. apply heap_next_tracks.
Qed.

Lemma main_next_tracks m s c : tracks (fun fs => dev_main_next m s fs c) (main_next m s c) gone.
Proof.
  unfold dev_main_next, main_next. destruct (tb_off s =? tb_main s); [apply tracks_ret|].
  destruct (index (bt_tforms (tb_ctx s)) c) as [[t n|t|t]|e|]; try apply tracks_ret;
    first [apply main_elem_tracks|apply main_desc_tracks].
Qed.

Lemma table_next_tracks m s : tracks (fun fs => dev_table_next m s fs) (table_next m s) gone.
Proof.
  unfold dev_table_next, table_next. destruct (index (tb_cols s) (tb_col s)) as [c|e|]; try apply tracks_ret.
  assert (F: tracks (fun fs => if tb_first s then
        match index (tb_offsets s) c with Ok o => dev_seek_by m (set_first s false) fs (as_i64 o) | _ => (Panic, set_first s false, fs) end
      else (Ok tt, s, fs))
    (if tb_first s then
        match index (tb_offsets s) c with Ok o => seek_by m (set_first s false) (as_i64 o) | _ => (Panic, set_first s false) end
      else (Ok tt, s)) erred).
  { destruct (tb_first s); [|apply tracks_ret]. destruct (index (tb_offsets s) c); try apply tracks_ret. apply seek_by_tracks. }
  cbv zeta. bind_on F; [bad_err|].
  match goal with |- tracks _ (let (_, _) := ?p in _) _ => destruct p as (x, s1) end.
  destruct x as [u|e|]; try apply tracks_ret.
  destruct (tb_state s1); [apply main_next_tracks|apply heap_next_tracks].
Qed.

(** ** Rows *)

Definition row_gone {A B} (y : option (res (option A)) * B) : Prop := fst y = Some (Ok None).

Lemma row_loop_tracks m fuel : forall s row acc,
  tracks (fun fs => dev_row_loop m fuel s fs row acc) (row_loop m fuel s row acc) row_gone.
Proof.
  induction fuel as [|k IH]; intros s row acc; cbn [dev_row_loop row_loop];
    (destruct (tb_row s =? row); [|apply tracks_ret]); [apply tracks_ret|].
  bind_on (table_next_tracks m s).
  - intros (x, s1) fs E. cbn in E. unfold gone in E. cbn in E. subst x. eexists. split; [reflexivity|reflexivity].
  - destruct (table_next m s) as (x, s1). destruct x as [[v|]|e|]; try apply tracks_ret. apply IH.
Qed.

Lemma row_next_tracks m fuel x :
  tracks (fun fs => dev_row_next m fuel x fs) (row_next m fuel x) row_gone.
Proof.
  unfold dev_row_next, row_next.
  bind_on (row_loop_tracks m fuel (ri_data x) (ri_row x) []).
  - intros (y, s1) fs E. unfold row_gone in E. cbn in E. subst y. eexists. split; reflexivity.
  - destruct (row_loop m fuel (ri_data x) (ri_row x) []) as (y, s1). destruct y as [[[l|]|e|]|]; apply tracks_ret.
Qed.

(** ** A value takes a call *)

Lemma broken_elem t k fs r : exists r', dev_read_elem t (Some k :: fs) r = (Err EIoOther, r', fs).
Proof. destruct t; eexists; reflexivity. Qed.
Lemma broken_next m s k fs v s' fs' : dev_table_next m s (Some k :: fs) <> (Ok (Some v), s', fs').
Proof.
  unfold dev_table_next. destruct (index (tb_cols s) (tb_col s)) as [c|e|]; try discriminate.
  destruct (tb_first s).
  { destruct (index (tb_offsets s) c) as [o|e|]; discriminate. }
  destruct (tb_state s) as [|t p rm n size] eqn:ST.
  - unfold dev_main_next. destruct (tb_off s =? tb_main s); try discriminate.
    destruct (index (bt_tforms (tb_ctx s)) c) as [[t n|t|t]|e|]; try discriminate.
    unfold dev_main_elem. destruct (broken_elem t k fs (tb_reader s)) as (r' & ->). discriminate.
  - unfold dev_heap_next. rewrite ST. destruct (u64_result m (n - rm / size)); try discriminate.
    destruct (broken_elem t k fs (tb_reader s)) as (r' & ->). discriminate.
Qed.

Lemma working_O fs : working 0 fs. Proof. constructor. Qed.

Lemma table_next_device m s : exists N,
  (forall v s', table_next m s = (Ok (Some v), s') -> (1 <= N)%nat) /\
  forall fs,
    (working N fs -> dev_table_next m s fs = (table_next m s, skipn N fs)) /\
    (forall j, (j < N)%nat -> first_fault fs j -> exists s', dev_table_next m s fs = (Ok None, s', skipn (S j) fs)).
Proof.
  destruct (table_next_tracks m s) as (N & T). exists N.
  assert (A: forall fs, (working N fs -> dev_table_next m s fs = (table_next m s, skipn N fs)) /\
    (forall j, (j < N)%nat -> first_fault fs j -> exists s', dev_table_next m s fs = (Ok None, s', skipn (S j) fs))).
  { intro fs. destruct (dev_table_next m s fs) as ((x, s1), fs1) eqn:D.
    destruct (follows_iff _ _ _ _ _ _ (T _ _ _ D)) as (F1 & F2). split.
    - intro W. destruct (F1 W) as (-> & ->). reflexivity.
    - intros j J F. destruct (F2 j J F) as (G & ->). unfold gone in G. cbn in G. subst x. eauto. }
  split; [|exact A]. intros v s' E. destruct N as [|N]; [|lia].
  destruct (A [Some 0]) as (B & _). specialize (B (working_O _)). rewrite E in B.
  destruct (broken_next _ _ _ _ _ _ _ B).
Qed.

Lemma seek_row_device m s i : exists N,
  (forall s', seek_to_row m s i = (Ok tt, s') -> N = 1%nat) /\
  forall fs,
    (working N fs -> dev_seek_to_row m s fs i = (seek_to_row m s i, skipn N fs)) /\
    (forall j, (j < N)%nat -> first_fault fs j -> exists e s', dev_seek_to_row m s fs i = (Err e, s', skipn (S j) fs)).
Proof.
  unfold dev_seek_to_row, seek_to_row. destruct (bt_naxis2 (tb_ctx s) <=? i) eqn:LE.
  { exists 0%nat. split; [discriminate|]. intro fs. split; [reflexivity|lia]. }
  cbv zeta. destruct (row_off m (set_pos s i 0 0) i) as [(new, off)|e|].
  - exists 1%nat. split; [reflexivity|]. intros [|[k|] fs].
    + split; [intros _; unfold dev_seek, device_call; destruct (seek_relative (tb_reader (set_pos s i 0 0)) off) as (y, r'); destruct y; reflexivity|].
      intros j J (_ & k & K). destruct j; discriminate.
    + split; [intro W; inversion W; discriminate|]. intros j J _. assert (j = 0)%nat by lia. subst j. cbn. eauto.
    + split; [intros _; unfold dev_seek, device_call; destruct (seek_relative (tb_reader (set_pos s i 0 0)) off) as (y, r'); destruct y; reflexivity|].
      intros j J (_ & k & K). assert (j = 0)%nat by lia. subst j. discriminate.
  - exists 0%nat. split; [discriminate|]. intro fs. split; [reflexivity|lia].
  - exists 0%nat. split; [discriminate|]. intro fs. split; [reflexivity|lia].
Qed.

Lemma row_next_device m fuel x : exists N, forall fs,
    (working N fs -> dev_row_next m fuel x fs = (row_next m fuel x, skipn N fs)) /\
    (forall j, (j < N)%nat -> first_fault fs j ->
       exists x', dev_row_next m fuel x fs = (Some (Ok None), x', skipn (S j) fs)).
Proof.
  destruct (row_next_tracks m fuel x) as (N & T). exists N.
  intro fs. destruct (dev_row_next m fuel x fs) as ((y, s1), fs1) eqn:D.
  destruct (follows_iff _ _ _ _ _ _ (T _ _ _ D)) as (F1 & F2). split.
  - intro W. destruct (F1 W) as (-> & ->). reflexivity.
  - intros j J F. destruct (F2 j J F) as (G & ->). unfold row_gone in G. cbn in G. subst y. eauto.
Qed.

(** ** Loops *)

Lemma fault_skip N j fs : (N <= j)%nat -> first_fault fs j -> working N fs /\ first_fault (skipn N fs) (j - N).
Proof.
  intros L (W & k & K). replace j with (N + (j - N))%nat in W by lia. apply working_add in W. destruct W as (W1 & W2).
  split; [exact W1|]. split; [exact W2|]. exists k. rewrite nth_error_skip. now replace (N + (j - N))%nat with j by lia.
Qed.

Lemma turn_O N calls j : in_turn (N :: calls) 0 j -> (j < N)%nat.
Proof. unfold in_turn, calls_before. cbn [firstn]. change (list_sum [N]) with (N + 0)%nat. cbn. lia. Qed.
Lemma turn_S N calls k j : in_turn (N :: calls) (S k) j -> (N <= j)%nat /\ in_turn calls k (j - N).
Proof.
  unfold in_turn, calls_before. rewrite !(firstn_cons _ N).
  change (list_sum (N :: firstn k calls)) with (N + list_sum (firstn k calls))%nat.
  change (list_sum (N :: firstn (S k) calls)) with (N + list_sum (firstn (S k) calls))%nat. lia.
Qed.
Lemma turn_nil k j : ~ in_turn [] k j.
Proof. unfold in_turn, calls_before. rewrite !firstn_nil. cbn. lia. Qed.

Lemma cells_device m n : forall s, exists calls,
  let cells := cells_of (fst (table_run m s (repeat TNext n))) in
  (forall k, (k < length cells)%nat -> (1 <= nth k calls 0)%nat) /\
  forall fs,
    (working (list_sum calls) fs -> dev_cells m n s fs = cells) /\
    (forall j k, first_fault fs j -> in_turn calls k j -> dev_cells m n s fs = firstn k cells).
Proof.
  induction n as [|n IH]; intro s.
  - exists []. cbn. split; [intros; lia|]. intro fs. split; [reflexivity|]. intros j k _ T. destruct (turn_nil _ _ T).
  - destruct (table_next_device m s) as (N & P & C). cbn [repeat table_run table_do].
    destruct (table_next m s) as (x, s1) eqn:TN.
    destruct x as [[v|]|e|].
    1: {
      destruct (IH s1) as (calls & P2 & C2). cbn zeta in P2, C2. exists (N :: calls).
      destruct (table_run m s1 (repeat TNext n)) as (l, s2). cbn [fst cells_of] in *. cbn zeta. split.
      { intros [|k] K; cbn [nth]; [eauto|]. apply P2. cbn [length] in K. lia. }
      intro fs. destruct (C fs) as (D1 & D2). cbn [dev_cells list_sum]. split.
      - intro W. change (list_sum (N :: calls)) with (N + list_sum calls)%nat in W. apply working_add in W.
        destruct W as (W1 & W2). rewrite (D1 W1). f_equal. destruct (C2 (skipn N fs)) as (E & _). auto.
      - intros j [|k] F T.
        + destruct (D2 j (turn_O _ _ _ T) F) as (s' & ->). reflexivity.
        + destruct (turn_S _ _ _ _ T) as (L & T2). destruct (fault_skip N j fs L F) as (W1 & F2).
          rewrite (D1 W1). cbn [firstn]. f_equal. destruct (C2 (skipn N fs)) as (_ & E). eauto. }
    all: exists [N]; destruct (table_run m s1 (repeat TNext n)) as (l, s2); cbn [fst cells_of]; cbn zeta;
      (split; [cbn; intros; lia|]); intro fs; destruct (C fs) as (D1 & D2); cbn [dev_cells];
      (split;
       [intro W; change (list_sum [N]) with (N + 0)%nat in W; rewrite Nat.add_0_r in W; rewrite (D1 W); reflexivity
       |intros j [|k] F T; [destruct (D2 j (turn_O _ _ _ T) F) as (s' & ->); reflexivity
                           |destruct (turn_nil _ _ (proj2 (turn_S _ _ _ _ T)))]]).
Qed.

Lemma rows_device m fuel n : forall x, exists calls,
  let rows := rows_of (row_run m fuel x n) in
  forall fs,
    (working (list_sum calls) fs -> dev_rows m fuel n x fs = rows) /\
    (forall j k, first_fault fs j -> in_turn calls k j -> dev_rows m fuel n x fs = firstn k rows).
Proof.
  induction n as [|n IH]; intro s.
  - exists []. cbn. intro fs. split; [reflexivity|]. intros j k _ T. destruct (turn_nil _ _ T).
  - destruct (row_next_device m fuel s) as (N & C). cbn [row_run].
    destruct (row_next m fuel s) as (x, s1) eqn:TN.
    destruct x as [[[v|]|e|]|].
    1: {
      destruct (IH s1) as (calls & C2). cbn zeta in C2. exists (N :: calls). cbn [rows_of]. cbn zeta.
      intro fs. destruct (C fs) as (D1 & D2). cbn [dev_rows list_sum]. split.
      - intro W. change (list_sum (N :: calls)) with (N + list_sum calls)%nat in W. apply working_add in W.
        destruct W as (W1 & W2). rewrite (D1 W1). f_equal. destruct (C2 (skipn N fs)) as (E & _). auto.
      - intros j [|k] F T.
        + destruct (D2 j (turn_O _ _ _ T) F) as (s' & ->). reflexivity.
        + destruct (turn_S _ _ _ _ T) as (L & T2). destruct (fault_skip N j fs L F) as (W1 & F2).
          rewrite (D1 W1). cbn [firstn]. f_equal. destruct (C2 (skipn N fs)) as (_ & E). eauto. }
    all: exists [N]; cbn [rows_of]; cbn zeta; intro fs; destruct (C fs) as (D1 & D2); cbn [dev_rows];
      (split;
       [intro W; change (list_sum [N]) with (N + 0)%nat in W; rewrite Nat.add_0_r in W; rewrite (D1 W); reflexivity
       |intros j [|k] F T; [destruct (D2 j (turn_O _ _ _ T) F) as (s' & ->); reflexivity
                           |destruct (turn_nil _ _ (proj2 (turn_S _ _ _ _ T)))]]).
Qed.

(** ** Tables in files *)

Lemma cells_values cells n : (length cells <= n)%nat ->
  cells_of (firstn n (map TValue cells ++ repeat TEnd n)) = cells.
Proof.
  revert n. assert (G: forall n k, (length cells <= n)%nat -> cells_of (firstn n (map TValue cells ++ repeat TEnd k)) = cells).
  { induction cells as [|c cells IH]; intros n k L; cbn [map app].
    - destruct n; [reflexivity|]. destruct k; reflexivity.
    - destruct n as [|n]; cbn [length] in L; [lia|]. cbn. f_equal. apply IH. lia. }
  intros n L. now apply G.
Qed.

Lemma dev_next_ok m f fs h f' fs' : dev_next m f fs = (IOk h, f', fs') -> next m f = (IOk h, f').
Proof.
  intro DN. destruct (next_follows m f) as (N & _ & _ & C).
  destruct (C _ _ _ _ DN) as [(_ & _ & E)|(j & _ & _ & _ & B)]; auto. destruct B as ([B|B] & _); discriminate.
Qed.

Lemma rows_values rows n : (length rows <= n)%nat ->
  rows_of (firstn n (map RowOf rows ++ repeat RowEnd n)) = rows.
Proof.
  revert n. assert (G: forall n k, (length rows <= n)%nat -> rows_of (firstn n (map RowOf rows ++ repeat RowEnd k)) = rows).
  { induction rows as [|c rows IH]; intros n k L; cbn [map app].
    - destruct n; [reflexivity|]. destruct k; reflexivity.
    - destruct n as [|n]; cbn [length] in L; [lia|]. cbn. f_equal. apply IH. lia. }
  intros n L. now apply G.
Qed.

Section InFile.
Variables (m : mode) (d : list Z) (f : fits) (fs : faults) (h : hdu) (f' : fits) (fs' : faults) (t : bintable).
Hypothesis Oc : octets d.
Hypothesis Da : rd_data (f_reader f) = d.
Hypothesis Po : 0 <= rd_pos (f_reader f).
Hypothesis Nx : dev_next m f fs = (IOk h, f', fs').
Hypothesis Xt : h_xt h = XtBin t.
Hypothesis In : table_inside d t (h_offset h).

Lemma file_cells_device lim :
  lim <= len d -> columns_readable d lim t (h_offset h) true (all_columns t) -> bt_tforms t <> [] ->
  exists s cells, get_table m f' t = Ok s /\
    Forall2 (slot_value d) (slots_from d t (h_offset h) true (all_columns t) 0) cells /\
    forall n, (length cells <= n)%nat -> exists calls,
      (forall k, (k < length cells)%nat -> (1 <= nth k calls 0)%nat) /\
      forall fs2,
      (working (list_sum calls) fs2 -> dev_cells m n s fs2 = cells) /\
      (forall j k, first_fault fs2 j -> in_turn calls k j -> dev_cells m n s fs2 = firstn k cells).
Proof.
  intros L R Ne. pose proof (dev_next_ok _ _ _ _ _ _ Nx) as N.
  destruct (table_cells m d f h f' t Oc Da Po N Xt In lim L R Ne) as (s & cells & G & V & E).
  exists s, cells. split; auto. split; auto. intros n K.
  destruct (cells_device m n s) as (calls & A & B). cbn zeta in A, B. rewrite E, cells_values in A, B by exact K.
  exists calls. split; [exact A|]. exact B.
Qed.

Lemma file_rows_device lim :
  lim <= len d -> columns_readable d lim t (h_offset h) true (all_columns t) -> bt_tforms t <> [] ->
  exists s rows, get_table m f' t = Ok s /\
    Forall2 (fun i cells => Forall2 (slot_value d) (row_slots d t (h_offset h) true (all_columns t) i) cells) (rows_from t 0) rows /\
    forall fuel n, (1 <= fuel)%nat ->
      (forall i, List.In i (rows_from t 0) -> (length (row_slots d t (h_offset h) true (all_columns t) i) <= fuel)%nat) ->
      (length rows <= n)%nat -> exists calls,
      forall fs2,
      (working (list_sum calls) fs2 -> dev_rows m fuel n (row_iter s) fs2 = rows) /\
      (forall j k, first_fault fs2 j -> in_turn calls k j -> dev_rows m fuel n (row_iter s) fs2 = firstn k rows).
Proof.
  intros L R Ne. pose proof (dev_next_ok _ _ _ _ _ _ Nx) as N.
  destruct (table_rows m d f h f' t Oc Da Po N Xt In lim L R Ne) as (s & rows & G & V & E).
  exists s, rows. split; auto. split; auto. intros fuel n Fu Le K.
  destruct (rows_device m fuel n (row_iter s)) as (calls & B). cbn zeta in B.
  rewrite (E fuel n Fu Le), rows_values in B by exact K. exists calls. exact B.
Qed.
End InFile.

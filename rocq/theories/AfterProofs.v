(** Rows and values after a failure of the device (C91). *)

From Coq Require Import Lia ZifyBool.
From Verif Require Import Base Text Card Reader Header Xtension Bytes Fits ImageIt BinTable Rice Float Tile Device DeviceTable DeviceTile.
From Verif Require Import SpecUtf8 SpecCard SpecHeader SpecXt SpecFits SpecImage SpecBin SpecRice SpecTile SpecDevice SpecDeviceTable SpecAfter.
From Verif Require Import BinProofs3 DeviceProofs DeviceProofs2 DeviceTableProofs.

Definition counts {A} (dev : faults -> A * faults) (plain : A) (N : nat) : Prop :=
  forall fs, working N fs -> dev fs = (plain, skipn N fs).
Lemma tracks_counts {A} (dev : faults -> A * faults) plain bad : tracks dev plain bad -> exists N, counts dev plain N.
Proof.
  intros (N & T). exists N. intros fs W. destruct (dev fs) as (x, fs') eqn:D. destruct (follows_iff _ _ _ _ _ _ (T _ _ _ D)) as (F & _).
  destruct (F W) as (-> & ->). reflexivity.
Qed.

(** *** A failed read leaves the table as it was *)

Lemma be_stays b r fs : dev_read_be b (Some 0 :: fs) r = (Err EIoOther, r, fs).
Proof. destruct r as [d p]. cbn. rewrite Z.add_0_r. reflexivity. Qed.
Lemma elem_stays t r fs : dev_read_elem t (Some 0 :: fs) r = (Err EIoOther, r, fs).
Proof. destruct t; cbn [dev_read_elem]; unfold dev_read_one, dev_read_pair; rewrite be_stays; reflexivity. Qed.
Lemma same_reader s : set_reader s (tb_reader s) = s.
Proof. destruct s; reflexivity. Qed.

Lemma next_stays m s v s' fs : tb_first s = false -> table_next m s = (Ok (Some v), s') ->
  dev_table_next m s (Some 0 :: fs) = (Ok None, s, fs).
Proof.
  unfold table_next, dev_table_next. intro F. destruct (index (tb_cols s) (tb_col s)) as [c|e|]; try discriminate. rewrite F.
  destruct (tb_state s) as [|t p rm n size] eqn:ST.
  - unfold main_next, dev_main_next. destruct (tb_off s =? tb_main s); try discriminate.
    destruct (index (bt_tforms (tb_ctx s)) c) as [[t n|t|t]|e|]; try discriminate; intros _.
    + unfold dev_main_elem. rewrite elem_stays, same_reader. reflexivity.
    + unfold dev_main_desc, dev_read_desc, dev_read_pair. rewrite be_stays, same_reader. reflexivity.
    + unfold dev_main_desc, dev_read_desc, dev_read_pair. rewrite be_stays, same_reader. reflexivity.
  - unfold heap_next, dev_heap_next. rewrite ST. destruct (u64_result m (n - rm / size)); try discriminate. intros _.
    rewrite elem_stays, same_reader. reflexivity.
Qed.

(** *** The first seek has been done *)

Lemma seek_by_first m s off x s' : seek_by m s off = (x, s') -> tb_first s' = tb_first s.
Proof.
  unfold seek_by. destruct (seek_relative (tb_reader s) off) as ([u|e|], r); [|intro H; inversion H; reflexivity..].
  destruct (u64_result m (tb_off s + as_usize off)); intro H; inversion H; reflexivity.
Qed.
Lemma seek_next_first m s x s' : seek_to_next_col m s = (x, s') -> tb_first s' = tb_first s.
Proof.
  unfold seek_to_next_col. destruct (u64_result m (len (tb_cols s) - 1)); [|intro H; inversion H; reflexivity..].
  destruct (u64_result m (bt_naxis2 (tb_ctx s) - 1)); [|intro H; inversion H; reflexivity..]. cbv zeta.
  destruct ((tb_col s =? a) && (tb_row s =? a0)).
  - destruct (i64_result m (as_i64 (tb_main s) - as_i64 (tb_off s))); [|intro H; inversion H; reflexivity..].
    intro H. apply seek_by_first in H. exact H.
  - destruct (len (tb_cols s) =? 0); [intro H; inversion H; reflexivity|].
    match goal with |- match ?t with Ok _ => _ | _ => _ end = _ -> _ => destruct t end; [|intro H; inversion H; reflexivity..].
    intro H. apply seek_by_first in H. exact H.
Qed.
Lemma finish_first m s v x s' : finish_next (seek_to_next_col m s) v = (x, s') -> tb_first s' = tb_first s.
Proof.
  destruct (seek_to_next_col m s) as (y, s1) eqn:E. apply seek_next_first in E. destruct y; cbn; intro H; inversion H; subst; exact E.
Qed.
Lemma heap_next_first m s c x s' : heap_next m s c = (x, s') -> tb_first s' = tb_first s.
Proof.
  unfold heap_next. destruct (tb_state s) as [|t p rm n size]; [intro H; inversion H; reflexivity|].
  destruct (u64_result m (n - rm / size)); [|intro H; inversion H; reflexivity..].
  destruct (read_elem t (tb_reader s)) as ([v|e|], r); [|intro H; inversion H; reflexivity..]. cbv zeta.
  destruct (u64_result m (rm - bytes_size t)) as [rm'|e|]; [|intro H; inversion H; reflexivity..].
  destruct (rm' =? 0); [|intro H; inversion H; reflexivity]. intro H. apply finish_first in H. exact H.
Qed.
Lemma main_desc_first m s c w t x s' : main_desc m s c w t = (x, s') -> tb_first s' = tb_first s.
Proof.
  unfold main_desc. destruct (read_desc w (tb_reader s)) as ([[|n [|o l]]|e|], r); try (intro H; inversion H; reflexivity).
  cbv zeta. destruct (u64_result m (tb_off s + (if w then 16 else 8))) as [off|e|]; [|intro H; inversion H; reflexivity..].
  destruct (tb_heap s); [|intro H; apply finish_first in H; exact H].
  destruct (jump_to_heap m (set_off (set_reader s r) off) t o n (bytes_size t)) as (y, s3) eqn:J.
  assert (F : tb_first s3 = tb_first s).
  { revert J. unfold jump_to_heap. destruct (tb_state (set_off (set_reader s r) off)); [|intro H; inversion H; reflexivity].
    match goal with |- match ?t with Ok _ => _ | _ => _ end = _ -> _ => destruct t end; [|intro H; inversion H; reflexivity..].
    destruct (seek_relative (tb_reader (set_off (set_reader s r) off)) a) as ([u|e|], r2); [|intro H; inversion H; reflexivity..].
    destruct (u64_result m (n * bytes_size t)); intro H; inversion H; reflexivity. }
  destruct y; [|intro H; inversion H; subst; exact F..]. intro H. apply heap_next_first in H. congruence.
Qed.
Lemma next_first m s x s' : tb_first s = false -> table_next m s = (x, s') -> tb_first s' = false.
Proof.
  unfold table_next. intro F. destruct (index (tb_cols s) (tb_col s)) as [c|e|]; [|intro H; inversion H; subst; exact F..]. rewrite F.
  destruct (tb_state s) as [|t p rm n size] eqn:ST; [|intro H; apply heap_next_first in H; congruence].
  unfold main_next. destruct (tb_off s =? tb_main s); [intro H; inversion H; subst; exact F|].
  destruct (index (bt_tforms (tb_ctx s)) c) as [[t n|t|t]|e|]; [| | |intro H; inversion H; subst; exact F..].
  - unfold main_elem. destruct (read_elem t (tb_reader s)) as ([v|e|], r); [|intro H; inversion H; subst; exact F..]. cbv zeta.
    destruct (u64_result m (tb_off s + bytes_size t)); [|intro H; inversion H; subst; exact F..].
    destruct (tb_item s + 1 =? _); [|intro H; inversion H; subst; exact F]. intro H. apply finish_first in H. rewrite H. exact F.
  - intro H. apply main_desc_first in H. congruence.
  - intro H. apply main_desc_first in H. congruence.
Qed.

(** *** The last call of a row *)

(** The last of the calls moves to the next row, which is counted even when the call fails. *)
Definition ends {A} (dev : faults -> res (option A) * table * faults) (plain : res (option A) * table) : Prop := exists N,
  counts dev plain (S N) /\
  forall fs k, fails_at fs N k -> exists s2, dev fs = (Ok None, s2, skipn (S N) fs) /\ tb_row s2 = tb_row (snd plain).

Lemma ends_bind {A B} (d : faults -> A * faults) p N1 (k : A -> faults -> res (option B) * table * faults) q :
  counts d p N1 -> ends (k p) q -> ends (fun fs => let (a, fs1) := d fs in k a fs1) q.
Proof.
  intros C (N & C2 & L). exists (N1 + N)%nat. split.
  - intros fs W. replace (S (N1 + N)) with (N1 + S N)%nat in * by lia. apply working_add in W as (W1 & W2).
    rewrite (C fs W1), (C2 _ W2), <- skipn_add. reflexivity.
  - intros fs x (W & E). apply working_add in W as (W1 & W2). rewrite (C fs W1).
    destruct (L (skipn N1 fs) x) as (s2 & E2 & R); [split; [exact W2|rewrite nth_error_skip; exact E]|].
    exists s2. rewrite E2, <- skipn_add. replace (N1 + S N)%nat with (S (N1 + N)) by lia. auto.
Qed.

Lemma working_O' fs : working 0 fs. Proof. constructor. Qed.
Lemma fault_O fs k : fails_at fs 0 k -> exists r, fs = Some k :: r.
Proof. intros (_ & E). destruct fs as [|y fs]; inversion E; subst. eauto. Qed.
Lemma working_1 fs : working 1 fs -> fs = [] \/ exists r, fs = None :: r.
Proof. destruct fs as [|y fs]; [auto|]. intro W. inversion W; subst. right. eauto. Qed.

Lemma seek_by_call m s off s' : seek_by m s off = (Ok tt, s') ->
  counts (fun fs => dev_seek_by m s fs off) (Ok tt, s') 1 /\ tb_row s' = tb_row s /\
  forall k fs, exists s2, dev_seek_by m s (Some k :: fs) off = (Err EIoOther, s2, fs) /\ tb_row s2 = tb_row s.
Proof.
  intro E. split; [|split].
  - intros fs W. unfold seek_by in E. unfold dev_seek_by, dev_seek, device_call.
    destruct (working_1 fs W) as [->|(r & ->)]; destruct (seek_relative (tb_reader s) off) as ([u|e|], r1); try discriminate;
      destruct (u64_result m (tb_off s + as_usize off)); inversion E; subst; reflexivity.
  - revert E. unfold seek_by. destruct (seek_relative (tb_reader s) off) as ([u|e|], r1); try discriminate.
    destruct (u64_result m (tb_off s + as_usize off)); intro H; inversion H; reflexivity.
  - intros k fs. eexists. split; reflexivity.
Qed.

Lemma next_col_ends m s v v' s' : finish_next (seek_to_next_col m s) v = (Ok (Some v'), s') ->
  ends (fun fs => dev_finish_next (dev_seek_to_next_col m s fs) v) (Ok (Some v'), s').
Proof.
  intro E.
  assert (K : v' = v /\ seek_to_next_col m s = (Ok tt, s')) by (destruct (seek_to_next_col m s) as ([[]|e|], s1); cbn in E; inversion E; auto).
  destruct K as (-> & K). clear E. revert K. exists 0%nat. revert K. unfold seek_to_next_col, dev_seek_to_next_col.
  destruct (u64_result m (len (tb_cols s) - 1)) as [lc|e|]; try discriminate.
  destruct (u64_result m (bt_naxis2 (tb_ctx s) - 1)) as [lr|e|]; try discriminate. cbv zeta.
  assert (G : forall s1 off, seek_by m s1 off = (Ok tt, s') ->
    counts (fun fs => dev_finish_next (dev_seek_by m s1 fs off) v) (Ok (Some v), s') 1 /\
    forall fs k, fails_at fs 0 k -> exists s2, dev_finish_next (dev_seek_by m s1 fs off) v = (Ok None, s2, skipn 1 fs) /\ tb_row s2 = tb_row s').
  { intros s1 off E. destruct (seek_by_call m s1 off s' E) as (C & R & L). split.
    - intros fs W. rewrite (C fs W). reflexivity.
    - intros fs k F. destruct (fault_O fs k F) as (r & ->). destruct (L k r) as (s2 & -> & R2). exists s2. split; [reflexivity|congruence]. }
  destruct ((tb_col s =? lc) && (tb_row s =? lr)).
  - destruct (i64_result m (as_i64 (tb_main s) - as_i64 (tb_off s))); try discriminate. apply G.
  - destruct (len (tb_cols s) =? 0); try discriminate.
    match goal with |- match ?t with Ok _ => seek_by _ _ _ | _ => _ end = _ -> _ => destruct t end; try discriminate. apply G.
Qed.

Lemma heap_ends m s c v s' : heap_next m s c = (Ok (Some v), s') -> tb_row s' <> tb_row s -> ends (fun fs => dev_heap_next m s fs c) (Ok (Some v), s').
Proof.
  unfold heap_next, dev_heap_next. destruct (tb_state s) as [|t p rm n size]; try discriminate.
  destruct (u64_result m (n - rm / size)) as [idx|e|]; try discriminate. intros E R.
  destruct (tracks_counts _ _ _ (elem_tracks t (tb_reader s))) as (N1 & C1).
  eapply ends_bind; [exact C1|].
  destruct (read_elem t (tb_reader s)) as ([w|e|], r); try discriminate. cbv zeta in *.
  destruct (u64_result m (rm - bytes_size t)) as [rm'|e|]; try discriminate.
  destruct (rm' =? 0); [|inversion E; subst; contradiction].
  destruct (tracks_counts _ _ _ (main_jump_tracks (set_state (set_reader s r) (InHeap t p rm' n size)))) as (N2 & C2).
  eapply ends_bind; [exact C2|]. apply next_col_ends. exact E.
Qed.

Lemma desc_ends m s c w t v s' : main_desc m s c w t = (Ok (Some v), s') -> tb_row s' <> tb_row s ->
  ends (fun fs => dev_main_desc m s fs c w t) (Ok (Some v), s').
Proof.
  unfold main_desc, dev_main_desc. intros E R.
  destruct (tracks_counts _ _ _ (pair_tracks (if w then BF64 else BF32) (tb_reader s))) as (N1 & C1).
  eapply ends_bind; [exact C1|]. unfold read_desc in E.
  destruct (read_pair (if w then BF64 else BF32) (tb_reader s)) as ([[|n [|o l]]|e|], r); try discriminate. cbv zeta in *.
  destruct (u64_result m (tb_off s + (if w then 16 else 8))) as [off|e|]; try discriminate.
  destruct (tb_heap s); [|apply next_col_ends; exact E].
  destruct (tracks_counts _ _ _ (heap_jump_tracks m (set_off (set_reader s r) off) t o n (bytes_size t))) as (N2 & C2).
  eapply ends_bind; [exact C2|].
  destruct (jump_to_heap m (set_off (set_reader s r) off) t o n (bytes_size t)) as (y, s3) eqn:J. destruct y as [y|e|]; try discriminate.
  apply heap_ends; [exact E|]. intro X. apply R. rewrite X.
  revert J. unfold jump_to_heap. destruct (tb_state (set_off (set_reader s r) off)); [|intro H; inversion H; reflexivity].
  match goal with |- match ?t with Ok _ => _ | _ => _ end = _ -> _ => destruct t end; try discriminate.
  destruct (seek_relative (tb_reader (set_off (set_reader s r) off)) a) as ([u|e|], r2); try discriminate.
  destruct (u64_result m (n * bytes_size t)); try discriminate. intro H; inversion H; reflexivity.
Qed.

Lemma next_ends m s v s' : tb_first s = false -> table_next m s = (Ok (Some v), s') -> tb_row s' <> tb_row s ->
  ends (fun fs => dev_table_next m s fs) (Ok (Some v), s').
Proof.
  unfold table_next, dev_table_next. intro F. destruct (index (tb_cols s) (tb_col s)) as [c|e|]; try discriminate. rewrite F.
  destruct (tb_state s) as [|t p rm n size] eqn:ST.
  2:{ intros E R. apply heap_ends; assumption. }
  unfold main_next, dev_main_next. destruct (tb_off s =? tb_main s); try discriminate.
  destruct (index (bt_tforms (tb_ctx s)) c) as [[t n|t|t]|e|]; try discriminate; intros E R; [|apply desc_ends; assumption..].
  unfold main_elem in E. unfold dev_main_elem.
  destruct (tracks_counts _ _ _ (elem_tracks t (tb_reader s))) as (N1 & C1). eapply ends_bind; [exact C1|].
  destruct (read_elem t (tb_reader s)) as ([w|e|], r); try discriminate. cbv zeta in *.
  destruct (u64_result m (tb_off s + bytes_size t)) as [o|e|]; try discriminate.
  match type of E with (if ?b then _ else _) = _ => destruct b end; [|inversion E; subst; contradiction].
  apply next_col_ends. exact E.
Qed.

(** *** Values *)

Lemma next_turn m s v s' : tb_first s = false -> table_next m s = (Ok (Some v), s') -> exists N, (1 <= N)%nat /\ tb_first s' = false /\
  (forall fs, dev_table_next m s (Some 0 :: fs) = (Ok None, s, fs)) /\
  counts (fun fs => dev_table_next m s fs) (Ok (Some v), s') N /\
  (tb_row s' <> tb_row s -> forall fs k, fails_at fs (N - 1) k -> exists s2, dev_table_next m s fs = (Ok None, s2, skipn N fs) /\ tb_row s2 = tb_row s').
Proof.
  intros F E. destruct (Z.eq_dec (tb_row s') (tb_row s)) as [R|R].
  - destruct (table_next_device m s) as (N & P & C). exists N. split; [eauto|]. split; [exact (next_first m s _ _ F E)|].
    split; [intro fs; eapply next_stays; eauto|]. split; [|contradiction]. intros fs W. destruct (C fs) as (D & _). rewrite (D W), E. reflexivity.
  - destruct (next_ends m s v s' F E R) as (N & C & L). exists (S N). split; [lia|]. split; [exact (next_first m s _ _ F E)|].
    split; [intro fs; eapply next_stays; eauto|]. split; [exact C|]. intros _ fs k X. replace (S N - 1)%nat with N in X by lia. apply (L fs k X).
Qed.

Lemma working_repeat n fs : working n (repeat None n ++ fs).
Proof. unfold working. rewrite firstn_app, repeat_length, Nat.sub_diag, firstn_all2 by (rewrite repeat_length; lia). cbn. rewrite app_nil_r. apply Forall_forall. intros x H. apply repeat_spec in H. exact H. Qed.
Lemma skip_repeat {A} (x : A) n l : skipn n (repeat x n ++ l) = l.
Proof. rewrite skipn_app, repeat_length, Nat.sub_diag, skipn_all2 by (rewrite repeat_length; lia). reflexivity. Qed.

Lemma values_paused m : forall cells s, tb_first s = false ->
  fst (table_run m s (repeat TNext (length cells))) = map TValue cells ->
  exists calls, length calls = length cells /\ Forall (fun n => (1 <= n)%nat) calls /\
    forall pauses, length pauses = length cells ->
      dev_values m (list_sum pauses + length cells) s (paused pauses calls)
      = flat_map (fun x => repeat (Ok None) (fst x) ++ [Ok (Some (snd x))]) (combine pauses cells).
Proof.
  induction cells as [|v cells IH]; intros s F E.
  - exists []. repeat split; auto. intros [|p pauses] L; [reflexivity|discriminate].
  - cbn [length repeat table_run table_do] in E. destruct (table_next m s) as (x, s1) eqn:T.
    assert (E1 : x = Ok (Some v) /\ fst (table_run m s1 (repeat TNext (length cells))) = map TValue cells).
    { destruct x as [[w|]|e|]; destruct (table_run m s1 (repeat TNext (length cells))); cbn in E; inversion E; subst; auto. }
    destruct E1 as (-> & E1). destruct (next_turn m s v s1 F T) as (N & P & F1 & St & C & _).
    destruct (IH s1 F1 E1) as (calls & L & A & B). exists (N :: calls). cbn [length]. split; [congruence|]. split; [constructor; assumption|].
    intros [|p pauses] Lp; [discriminate|]. cbn [combine flat_map fst snd]. unfold paused. cbn [combine flat_map fst snd]. fold (paused pauses calls).
    change (list_sum (p :: pauses)) with (p + list_sum pauses)%nat.
    induction p as [|p IHp].
    + cbn [repeat app]. replace (0 + list_sum pauses + S (length cells))%nat with (S (list_sum pauses + length cells)) by lia.
      cbn [dev_values]. rewrite (C _ (working_repeat N _)), skip_repeat. f_equal. apply B. cbn in Lp. lia.
    + replace (S p + list_sum pauses + S (length cells))%nat with (S (p + list_sum pauses + S (length cells))) by lia.
      cbn [repeat app dev_values]. rewrite St. f_equal. apply IHp. cbn in *. lia.
Qed.

(** *** Rows *)

Inductive path (m : mode) (row : Z) : table -> list dvalue -> table -> Prop :=
| path_end s : tb_row s <> row -> path m row s [] s
| path_more s v s1 vals s' : tb_row s = row -> table_next m s = (Ok (Some v), s1) -> path m row s1 vals s' -> path m row s (v :: vals) s'.

Lemma loop_path m row : forall fuel s acc l s', row_loop m fuel s row acc = (Some (Ok (Some l)), s') ->
  exists vals, l = rev acc ++ vals /\ path m row s vals s' /\ (length vals <= fuel)%nat.
Proof.
  induction fuel as [|fuel IH]; intros s acc l s' H; cbn [row_loop] in H; destruct (tb_row s =? row) eqn:R; try discriminate.
  1,3: inversion H; subst; exists []; split; [rewrite app_nil_r; reflexivity|]; split; [constructor; lia|cbn; lia].
  destruct (table_next m s) as ([[v|]|e|], s1) eqn:E; try discriminate.
  destruct (IH _ _ _ _ H) as (vals & -> & P & L). exists (v :: vals). split; [cbn [rev]; rewrite <- app_assoc; reflexivity|].
  split; [econstructor; eauto; lia|cbn; lia].
Qed.

Lemma before_cons N calls i : calls_before (N :: calls) (S i) = (N + calls_before calls i)%nat.
Proof. reflexivity. Qed.

Lemma path_rows m row s vals s' : path m row s vals s' -> tb_first s = false -> exists calls,
  length calls = length vals /\ Forall (fun n => (1 <= n)%nat) calls /\ tb_first s' = false /\
  (forall fuel acc, (length vals <= fuel)%nat -> counts (fun fs => dev_row_loop m fuel s fs row acc) (Some (Ok (Some (rev acc ++ vals))), s') (list_sum calls)) /\
  (forall i, (i < length vals)%nat -> forall fuel fs acc, (length vals <= fuel)%nat -> fails_at fs (calls_before calls i) 0 ->
     exists s1, dev_row_loop m fuel s fs row acc = (Some (Ok None), s1, skipn (S (calls_before calls i)) fs) /\
       forall fuel2, (length vals <= fuel2)%nat ->
         counts (fun fs => dev_row_loop m fuel2 s1 fs row []) (Some (Ok (Some (skipn i vals))), s') (list_sum calls - calls_before calls i)) /\
  (vals <> [] -> forall fuel fs k acc, (length vals <= fuel)%nat -> fails_at fs (list_sum calls - 1) k ->
     exists s1, dev_row_loop m fuel s fs row acc = (Some (Ok None), s1, skipn (list_sum calls) fs) /\ tb_row s1 <> row).
Proof.
  induction 1 as [s R|s v s1 vals s' R E P IH]; intro F.
  - exists []. split; [reflexivity|]. split; [constructor|]. split; [exact F|]. split; [|split; [cbn; lia|contradiction]].
    intros fuel acc _ fs _. destruct fuel; cbn [dev_row_loop]; replace (tb_row s =? row) with false by lia; rewrite app_nil_r; reflexivity.
  - destruct (next_turn m s v s1 F E) as (N & N1 & F1 & St & C & La).
    destruct (IH F1) as (calls & L & A & F' & W & Fa & Em). clear IH.
    assert (Wh : forall fuel acc, (length (v :: vals) <= fuel)%nat ->
      counts (fun fs => dev_row_loop m fuel s fs row acc) (Some (Ok (Some (rev acc ++ v :: vals))), s') (N + list_sum calls)).
    { intros [|fuel] acc Lf; [cbn in Lf; lia|]. intros fs X. apply working_add in X as (X1 & X2). cbn [dev_row_loop].
      replace (tb_row s =? row) with true by lia. rewrite (C fs X1), (W fuel (v :: acc) ltac:(cbn in Lf; lia) _ X2), <- skipn_add.
      cbn [rev]. rewrite <- app_assoc. reflexivity. }
    exists (N :: calls). split; [cbn; congruence|]. split; [constructor; assumption|]. split; [exact F'|].
    change (list_sum (N :: calls)) with (N + list_sum calls)%nat. split; [exact Wh|]. split.
    + intros [|i] Hi fuel fs acc Lf Ft.
      * change (calls_before (N :: calls) 0) with 0%nat in *. destruct (fault_O fs 0 Ft) as (r & ->).
        exists s. split.
        { destruct fuel as [|fuel]; [cbn in Lf; lia|]. cbn [dev_row_loop]. replace (tb_row s =? row) with true by lia. rewrite St. reflexivity. }
        intros fuel2 L2. rewrite Nat.sub_0_r. exact (Wh fuel2 [] L2).
      * rewrite before_cons in *. destruct Ft as (Wf & Ef). apply working_add in Wf as (W1 & W2).
        destruct fuel as [|fuel]; [cbn in Lf; lia|]. cbn [dev_row_loop]. replace (tb_row s =? row) with true by lia. rewrite (C fs W1).
        destruct (Fa i ltac:(cbn in Hi; lia) fuel (skipn N fs) (v :: acc) ltac:(cbn in Lf; lia)) as (s2 & E2 & C2).
        { split; [exact W2|rewrite nth_error_skip; exact Ef]. }
        exists s2. split; [rewrite E2, <- skipn_add; f_equal; f_equal; lia|].
        intros fuel2 L2. replace (N + list_sum calls - (N + calls_before calls i))%nat with (list_sum calls - calls_before calls i)%nat by lia.
        apply C2. cbn in L2. lia.
    + intros _ fuel fs k acc Lf Ft. destruct fuel as [|fuel]; [cbn in Lf; lia|]. cbn [dev_row_loop]. replace (tb_row s =? row) with true by lia.
      destruct vals as [|w vals].
      * inversion P; subst. destruct calls; [|discriminate]. change (list_sum []) with 0%nat in *. rewrite Nat.add_0_r in *.
        destruct (La ltac:(lia) fs k Ft) as (s2 & E2 & R2). rewrite E2. exists s2. split; [reflexivity|lia].
      * assert (Ls : (1 <= list_sum calls)%nat) by (destruct calls as [|c calls]; [discriminate|]; inversion A; subst; change (list_sum (c :: calls)) with (c + list_sum calls)%nat; lia).
        destruct Ft as (Wf & Ef). replace (N + list_sum calls - 1)%nat with (N + (list_sum calls - 1))%nat in * by lia.
        apply working_add in Wf as (W1 & W2). rewrite (C fs W1).
        destruct (Em ltac:(discriminate) fuel (skipn N fs) k (v :: acc) ltac:(cbn in *; lia)) as (s2 & E2 & R2).
        { split; [exact W2|rewrite nth_error_skip; exact Ef]. }
        exists s2. split; [rewrite E2, <- skipn_add; reflexivity|exact R2].
Qed.

Lemma rows_after m fuel x row x' : tb_first (ri_data x) = false -> row_next m fuel x = (Some (Ok (Some row)), x') -> exists calls,
  length calls = length row /\ Forall (fun n => (1 <= n)%nat) calls /\ tb_first (ri_data x') = false /\
  (forall fs, working (list_sum calls) fs -> dev_row_next m fuel x fs = (Some (Ok (Some row)), x', skipn (list_sum calls) fs)) /\
  (forall i fs, (i < length row)%nat -> fails_at fs (calls_before calls i) 0 ->
     exists x1, dev_row_next m fuel x fs = (Some (Ok None), x1, skipn (S (calls_before calls i)) fs) /\
       let left := (list_sum calls - calls_before calls i)%nat in
       forall fs2, working left fs2 -> dev_row_next m fuel x1 fs2 = (Some (Ok (Some (skipn i row))), x', skipn left fs2)) /\
  (row <> [] -> forall fs k, fails_at fs (list_sum calls - 1) k ->
     exists x1, dev_row_next m fuel x fs = (Some (Ok None), x1, skipn (list_sum calls) fs) /\
       forall fs2, exists x2, dev_row_next m fuel x1 fs2 = (Some (Ok (Some [])), x2, fs2)).
Proof.
  intros F H. unfold row_next in H. destruct (row_loop m fuel (ri_data x) (ri_row x) []) as (o, s') eqn:E.
  assert (K : o = Some (Ok (Some row)) /\ x' = mk_row_it s' (ri_row x + 1)) by (destruct o as [[[l|]|e|]|]; inversion H; auto).
  destruct K as (-> & ->). clear H. destruct (loop_path _ _ _ _ _ _ _ E) as (vals & Ev & P & L). cbn [rev app] in Ev. subst vals.
  destruct (path_rows _ _ _ _ _ P F) as (calls & A & B & F' & C & D & G). exists calls. split; [exact A|]. split; [exact B|]. split; [exact F'|].
  unfold dev_row_next. split; [|split].
  - intros fs W. rewrite (C fuel [] L fs W). reflexivity.
  - intros i fs I Ft. destruct (D i I fuel fs [] L Ft) as (s1 & -> & D2). exists (mk_row_it s1 (ri_row x)). split; [reflexivity|].
    cbv zeta. intros fs2 W2. cbn [ri_data ri_row]. rewrite (D2 fuel L fs2 W2). reflexivity.
  - intros Ne fs k Ft. destruct (G Ne fuel fs k [] L Ft) as (s1 & -> & R). exists (mk_row_it s1 (ri_row x)). split; [reflexivity|].
    intro fs2. cbn [ri_data ri_row]. exists (mk_row_it s1 (ri_row x + 1)). destruct fuel; cbn [dev_row_loop]; replace (tb_row s1 =? ri_row x) with false by lia; reflexivity.
Qed.

(** The states that are reached. *)
Lemma new_first m f t s : get_table m f t = Ok s -> tb_first s = false.
Proof.
  unfold get_table, table_new. destruct (col_offsets m 0 (bt_tforms t)); try discriminate. cbn [bind].
  destruct (u64_result m (bt_naxis1 t * bt_naxis2 t)); try discriminate. cbn [bind]. intro H. inversion H. reflexivity.
Qed.
Lemma loop_first m row : forall fuel s acc o s', tb_first s = false -> row_loop m fuel s row acc = (o, s') -> tb_first s' = false.
Proof.
  induction fuel as [|fuel IH]; intros s acc o s' F H; cbn [row_loop] in H; destruct (tb_row s =? row); try (inversion H; subst; exact F).
  destruct (table_next m s) as (x, s1) eqn:E. apply (next_first m s x s1 F) in E.
  destruct x as [[v|]|e|]; try (inversion H; subst; exact E). eapply IH; eauto.
Qed.
Lemma row_first m fuel x : tb_first (ri_data x) = false -> tb_first (ri_data (snd (row_next m fuel x))) = false.
Proof.
  intro F. unfold row_next. destruct (row_loop m fuel (ri_data x) (ri_row x) []) as (o, s') eqn:E. apply (loop_first _ _ _ _ _ _ _ F) in E.
  destruct o as [[[l|]|e|]|]; exact E.
Qed.
Lemma reached_first m fuel x n : tb_first (ri_data x) = false -> tb_first (ri_data (Nat.iter n (fun x => snd (row_next m fuel x)) x)) = false.
Proof. intro F. induction n as [|n IH]; cbn [Nat.iter nat_rect]; [exact F|apply row_first, IH]. Qed.

(** *** Tiles *)

Lemma offset_panics row i : ~ is_array (nth_error row (Z.to_nat i)) -> tile_offset row i = Panic.
Proof.
  intro H. unfold tile_offset, index. destruct (i <? 0); [reflexivity|].
  destruct (nth_error row (Z.to_nat i)) as [[t v c j| |]|]; cbn in *; try tauto; reflexivity.
Qed.

Definition begun (s : tiles) : Prop := tb_first (ri_data (tl_rows s)) = false.
Lemma load_begun gz m fuel s off o s' : load_tile gz m fuel s off = (o, s') -> begun s -> begun s'.
Proof.
  unfold load_tile, begun. destruct (seek_relative (tl_reader s) off) as ([u|e|], r); [|intro H; inversion H; auto..].
  destruct (decompress gz m fuel (tl_cmp s) (tl_n s) (tl_buf s) r) as (([[u1|e|]|], b), r'); intro H; inversion H; auto.
Qed.
Lemma tile_begun gz m fuel s o s' : begun s -> next_tile gz m fuel s = (o, s') -> begun s'.
Proof.
  unfold next_tile, begun. intro F. pose proof (row_first m fuel _ F) as R. destruct (row_next m fuel (tl_rows s)) as ([[[row|]|e|]|], x); cbn [snd] in R;
    try (intro H; inversion H; subst; exact R).
  match goal with |- match ?t with Ok _ => _ | _ => _ end = _ -> _ => destruct t as [((n, k), off)|e|] end; try (intro H; inversion H; subst; exact R).
  destruct (load_tile gz m fuel (tl_set_keys (tl_set_count (tl_set_rows s x) n n) k) off) as (y, s2) eqn:L.
  pose proof (load_begun _ _ _ _ _ _ _ L R) as B. destruct y as [[u|e|]|]; intro H; inversion H; subst; exact B.
Qed.
Lemma pixel_begun m s o s' : begun s -> tile_pixel m s = (o, s') -> begun s'.
Proof.
  unfold tile_pixel, begun. intro F.
  match goal with |- match ?t with Ok _ => _ | _ => _ end = _ -> _ => destruct t as [(p, k)|e|] end; try (intro H; inversion H; subst; exact F).
  destruct (u64_result m (tl_rem s - 1)); intro H; inversion H; subst; exact F.
Qed.
Lemma tiles_begun gz m fuel n : forall s, begun s -> begun (snd (tiles_run gz m fuel s n)).
Proof.
  induction n as [|n IH]; intros s F; [exact F|]. cbn [tiles_run]. destruct (tiles_do gz m fuel s) as (x, s1) eqn:E.
  assert (B : begun s1).
  { unfold tiles_do in E. destruct (tiles_next gz m fuel s) as (y, s2) eqn:T.
    assert (B : begun s2).
    { unfold tiles_next in T. destruct (tl_rem s =? 0).
      - destruct (next_tile gz m fuel s) as (z, s3) eqn:Nt. pose proof (tile_begun _ _ _ _ _ _ F Nt) as B3.
        destruct z as [[[|]|e|]|]; try (inversion T; subst; exact B3).
        destruct (tile_pixel m s3) as (p, s4) eqn:Tp. inversion T; subst. exact (pixel_begun _ _ _ _ B3 Tp).
      - destruct (tile_pixel m s) as (p, s4) eqn:Tp. inversion T; subst. exact (pixel_begun _ _ _ _ F Tp). }
    destruct y as [[[p|]|e|]|]; inversion E; subst; exact B. }
  specialize (IH s1 B). destruct (tiles_run gz m fuel s1 n) as (l, s2). exact IH.
Qed.
Lemma new_begun m f vs t s : get_tiles m f vs t = Some (Ok s) -> begun s.
Proof.
  unfold get_tiles. destruct (bt_zimage t) as [z|]; try discriminate. destruct (get_table m f t) as [data|e|] eqn:G; try discriminate.
  apply new_first in G. cbn [bind]. unfold pixels_new. destruct (usize_product m 1 (z_tilen z)); try discriminate. cbn [bind].
  destruct (u64_result m (a * 4)); try discriminate. cbn [bind]. destruct (2 ^ 63 <=? a0); try discriminate.
  match goal with |- Some (let! k := ?t in _) = _ -> _ => destruct t end; try discriminate. cbn [bind]. intro H. inversion H. exact G.
Qed.

Lemma tiles_after gd m fuel s row x' : tl_rem s = 0 -> begun s -> row_next m fuel (tl_rows s) = (Some (Ok (Some row)), x') -> row <> [] -> exists calls,
  length calls = length row /\ Forall (fun n => (1 <= n)%nat) calls /\
  (forall i fs, (i < length row)%nat -> ~ is_array (nth_error row (i + Z.to_nat (tl_idx s))) -> fails_at fs (calls_before calls i) 0 ->
     exists s1, dev_tiles_next gd m fuel s fs = (Some (Ok None), s1, skipn (S (calls_before calls i)) fs) /\
       forall fs2, working (list_sum calls - calls_before calls i) fs2 -> fst (fst (dev_tiles_next gd m fuel s1 fs2)) = Some Panic) /\
  (forall fs k, fails_at fs (list_sum calls - 1) k ->
     exists s1, dev_tiles_next gd m fuel s fs = (Some (Ok None), s1, skipn (list_sum calls) fs) /\
       forall fs2, fst (fst (dev_tiles_next gd m fuel s1 fs2)) = Some Panic).
Proof.
  intros R0 F E Ne. destruct (rows_after m fuel (tl_rows s) row x' F E) as (calls & A & B & _ & _ & D & G). exists calls. split; [exact A|]. split; [exact B|].
  assert (T : forall x1 fs fs1 l, dev_row_next m fuel (tl_rows s) fs = (Some (Ok None), x1, fs1) -> tile_offset l (tl_idx s) = Panic ->
    dev_tiles_next gd m fuel s fs = (Some (Ok None), tl_set_rows s x1, fs1) /\
    forall fs2 x2 fs3, dev_row_next m fuel x1 fs2 = (Some (Ok (Some l)), x2, fs3) -> fst (fst (dev_tiles_next gd m fuel (tl_set_rows s x1) fs2)) = Some Panic).
  { intros x1 fs fs1 l E1 Ol. unfold dev_tiles_next. change (tl_rem (tl_set_rows s x1)) with (tl_rem s). rewrite R0. cbn [Z.eqb]. unfold dev_next_tile.
    change (tl_rows (tl_set_rows s x1)) with x1. rewrite E1. split; [reflexivity|]. intros fs2 x2 fs3 E2. rewrite E2.
    change (tl_idx (tl_set_rows s x1)) with (tl_idx s). rewrite Ol. reflexivity. }
  split.
  - intros i fs I Na Ft. destruct (D i fs I Ft) as (x1 & E1 & E2). cbv zeta in E2.
    assert (Nk : nth_error (skipn i row) (Z.to_nat (tl_idx s)) = nth_error row (i + Z.to_nat (tl_idx s))) by apply nth_error_skip.
    destruct (T x1 fs _ (skipn i row) E1) as (T1 & T2); [apply offset_panics; rewrite Nk; exact Na|].
    eexists. split; [exact T1|]. intros fs2 W. exact (T2 _ _ _ (E2 fs2 W)).
  - intros fs k Ft. destruct (G Ne fs k Ft) as (x1 & E1 & E2).
    destruct (T x1 fs _ [] E1) as (T1 & T2); [apply offset_panics; destruct (Z.to_nat (tl_idx s)); cbn; tauto|].
    eexists. split; [exact T1|]. intro fs2. destruct (E2 fs2) as (x2 & E3). exact (T2 _ _ _ E3).
Qed.

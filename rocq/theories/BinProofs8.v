(** Selections that name columns more than once. *)

From Coq Require Import Lia ZifyBool Sorted Permutation.
From Verif Require Import Base Text Card Reader Header Xtension Bytes Fits ImageIt BinTable.
From Verif Require Import SpecCard SpecHeader SpecXt SpecFits SpecImage SpecBin SpecBinTwice.
From Verif Require Import HeaderProofs BytesProofs XtProofs2 XtProofs3 ImageProofs BinProofs BinProofs2 BinProofs3.

(** ** Runs of [next] *)

(** These values, then the end for ever, or a panic. *)
Definition gives (m : mode) (s : table) (vs : list dvalue) (panics : bool) : Prop :=
  if panics then fst (table_run m s (repeat TNext (S (length vs)))) = map TValue vs ++ [TPanic]
  else forall n, fst (table_run m s (repeat TNext n)) = firstn n (map TValue vs ++ repeat TEnd n).

Lemma gives_step m s v s' vs b : table_next m s = (Ok (Some v), s') -> gives m s' vs b -> gives m s (v :: vs) b.
Proof.
  intros E G. destruct b; cbn [gives] in *.
  - change (repeat TNext (S (length (v :: vs)))) with (TNext :: repeat TNext (S (length vs))).
    cbn [table_run table_do]. rewrite E. destruct (table_run m s' _) as [l s2]. cbn [fst] in *. rewrite G. reflexivity.
  - intros [|n]; [reflexivity|]. cbn [repeat table_run table_do]. rewrite E. specialize (G n).
    destruct (table_run m s' _) as [l s2]. cbn [fst] in *. rewrite G. cbn [map app firstn]. f_equal. apply (firstn_more (tb_ctx s)).
Qed.
Lemma gives_end m s : table_next m s = (Ok None, s) -> gives m s [] false.
Proof.
  intros E n. cbn [map app]. rewrite firstn_all2 by (rewrite repeat_length; lia).
  induction n as [|n IH]; [reflexivity|]. cbn [repeat table_run table_do]. rewrite E.
  destruct (table_run m s _) as [l s2]. cbn [fst] in *. rewrite IH. reflexivity.
Qed.
Lemma gives_panic m s s' : table_next m s = (Panic, s') -> gives m s [] true.
Proof. intro E. cbn. rewrite E. reflexivity. Qed.
Lemma gives_last m s v s' b : table_next m s = (Ok (Some v), s') -> table_next m s' = (Ok None, s') -> b = false ->
  gives m s [v] b.
Proof. intros E1 E2 ->. eapply gives_step; [exact E1|]. apply gives_end. exact E2. Qed.

Section Twice.
Variables (m : mode) (d : list Z) (t : bintable) (o : Z) (sel : list Z).
Hypothesis Pr : table_present d t o.
Hypothesis Fx : forall c, In c sel -> exists f, format t c = Some f /\ fixed_width f.
Hypothesis L64 : len sel < 2 ^ 64.
Hypothesis Ne : sel <> [].
Hypothesis L62 : len d < 2 ^ 62.

Let n1 := bt_naxis1 t.
Let n2 := bt_naxis2 t.
Let cs := column_start (bt_tforms t).
Notation col := (col_at sel).

Definition st (row ci R item k : Z) : table :=
  at_ d t o true sel row ci item (R * n1 + cs (col ci) + k) (o + (R * n1 + cs (col ci) + k)) InMain.
Definition st_end (row ci item : Z) : table := at_ d t o true sel row ci item (n1 * n2) (o + n1 * n2) InMain.

Lemma len_sel : 1 <= len sel.
Proof. destruct sel; [contradiction|]. rewrite len_cons. pose proof (len_nonneg l). lia. Qed.

Lemma fixed_facts ci : 0 <= ci < len sel ->
  exists e n, format t (col ci) = Some (TElem e n) /\ e <> TyX /\ 1 <= n /\ 0 <= cs (col ci) /\
    cs (col ci) + n * elem_bytes e <= n1 /\ 1 <= n * elem_bytes e.
Proof.
  intro H. assert (I: In (col ci) sel) by (apply nth_In; unfold len in H; lia).
  destruct (Fx _ I) as (f & E & W). destruct f as [e n|e|e]; cbn [fixed_width] in W; try contradiction. destruct W as [We Wn].
  exists e, n. destruct Pr as (Oc & D & O & N2 & Hp & F & N1 & N1' & Ii).
  pose proof (column_start_nonneg t (col ci) F). pose proof (column_inside t _ _ F E) as Ci.
  rewrite (field_bytes_elem t) in Ci by auto. pose proof (elem_bytes_pos e).
  pose proof (le_times n (elem_bytes e) ltac:(lia) ltac:(lia)).
  unfold cs, n1. repeat (split; [auto; lia|]). lia.
Qed.

Lemma small : 0 <= o /\ 1 <= n1 /\ n1 < 2 ^ 60 /\ 0 <= n2 < 2 ^ 63 /\ 0 <= n1 * n2 < 2 ^ 63 /\ o + n1 * n2 <= len d /\ len d < 2 ^ 63.
Proof.
  pose proof (size_small d t o Pr) as (S1 & S2 & S3 & S4 & S5 & S6 & S7).
  pose proof len_sel. destruct (fixed_facts 0 ltac:(lia)) as (e & n & _ & _ & _ & A & B & C).
  assert (len d < 2 ^ 63) by apply Pr. fold n1 n2 in S1, S2, S3, S4, S5, S6, S7. repeat (split; [lia || nia|]). lia.
Qed.

(** The end of a cell, not the last one of the last round. *)
Lemma move_on row ci R item e n :
  0 <= row < n2 -> 0 <= ci < len sel -> 0 <= R -> format t (col ci) = Some (TElem e n) ->
  o + R * n1 + cs (col ci) + n * elem_bytes e <= len d -> ~ (ci = len sel - 1 /\ row = n2 - 1) ->
  let ci' := if ci =? len sel - 1 then 0 else ci + 1 in
  let row' := if ci =? len sel - 1 then row + 1 else row in
  seek_to_next_col m (st row ci R item (n * elem_bytes e))
  = (Ok tt, st row' ci' (if col ci <? col ci' then R else R + 1) 0 0).
Proof.
  intros Hr Hc HR E Hd Nl ci' row'. pose proof small as (S0 & S1 & S2 & S3 & S4 & S5 & S6). pose proof len_sel as Ls.
  destruct (fixed_facts ci Hc) as (e' & n' & E' & X3 & _ & B1 & B2 & B3). rewrite E in E'. inversion E'; subst e' n'.
  assert (Hc': 0 <= ci' < len sel) by (unfold ci'; destruct (ci =? len sel - 1) eqn:X; lia).
  destruct (fixed_facts ci' Hc') as (e2 & k2 & E2 & _ & _ & C1 & C2 & C3).
  set (x := cs (col ci) + n * elem_bytes e) in *.
  assert (RB: 0 <= R * n1) by (apply Z.mul_nonneg_nonneg; lia).
  assert (Off: 0 <= R * n1 + cs (col ci) + n * elem_bytes e < 2 ^ 62) by lia.
  unfold seek_to_next_col, st. cbn [at_ tb_cols tb_ctx tb_col tb_row tb_main tb_off tb_item]. fold n2.
  rewrite !u64_result_small by lia.
  assert (Nb: (ci =? len sel - 1) && (row =? n2 - 1) = false) by lia. rewrite Nb.
  destruct (len sel =? 0) eqn:L0; [lia|].
  assert (Em: (ci + 1) mod len sel = ci').
  { unfold ci'. destruct (ci =? len sel - 1) eqn:X; [|apply Z.mod_small; lia].
    replace (ci + 1) with (len sel) by lia. apply Z.mod_same. lia. }
  rewrite Em. rewrite (col_index t sel ci') by auto. cbn [bind].
  change (if ci =? len sel - 1 then row + 1 else row) with row'. clear Em Nb L0 Nl. clearbody ci' row'.
  unfold next_col_off, set_pos. cbn [at_ tb_offsets tb_off tb_ctx]. rewrite (offsets_index _ _ _ E2). cbn [bind].
  fold cs n1. rewrite !as_i64_small by lia.
  unfold i64_rem. destruct ((n1 =? 0) || _) eqn:Z0; [lia|]. clear Z0. cbn [bind].
  assert (Rm: Z.rem (R * n1 + cs (col ci) + n * elem_bytes e) n1 = if x =? n1 then 0 else x).
  { rewrite Z.rem_mod_nonneg by lia. replace (R * n1 + cs (col ci) + n * elem_bytes e) with (x + R * n1) by (unfold x; lia).
    rewrite Z_mod_plus_full. destruct (x =? n1) eqn:Xn; [replace x with n1 by lia; apply Z.mod_same; lia|apply Z.mod_small; lia]. }
  rewrite Rm. rewrite i64_result_small by (destruct (x =? n1); lia). cbn [bind].
  destruct Pr as (Oc & D & O & N2 & Hp & F & N1 & N1' & I).
  assert (Rel: exists rel, (if cs (col ci') - (if x =? n1 then 0 else x) <? 0
                            then i64_result m (cs (col ci') - (if x =? n1 then 0 else x) + n1)
                            else Ok (cs (col ci') - (if x =? n1 then 0 else x))) = Ok rel /\ 0 <= rel /\ rel <= n1 /\
     R * n1 + x + rel = (if col ci <? col ci' then R else R + 1) * n1 + cs (col ci')).
  { destruct (col ci <? col ci') eqn:Lt.
    - pose proof (column_before t _ (col ci') _ F E ltac:(lia)) as Cm. rewrite (field_bytes_elem t) in Cm by exact X3.
      fold cs in Cm. destruct (x =? n1) eqn:Xn; [unfold x in *; lia|].
      destruct (cs (col ci') - x <? 0) eqn:Neg; [unfold x in *; lia|]. eexists. split; [reflexivity|]. lia.
    - assert (Cm: cs (col ci') < x).
      { destruct (Z.eq_dec (col ci') (col ci)) as [->|Nq]; [unfold x; lia|].
        pose proof (column_before t _ (col ci) _ F E2 ltac:(lia)) as Cm. fold cs in Cm.
        assert (0 <= field_bytes (TElem e2 k2)); [|unfold x; lia].
        apply field_bytes_nonneg. apply format_nth in E2 as [_ E2]. apply nth_error_In in E2. rewrite Forall_forall in F. apply F, E2. }
      destruct (x =? n1) eqn:Xn.
      + destruct (cs (col ci') - 0 <? 0) eqn:Neg; [lia|]. eexists. split; [reflexivity|]. lia.
      + destruct (cs (col ci') - x <? 0) eqn:Neg; [|lia]. rewrite i64_result_small by lia. eexists. split; [reflexivity|]. lia. }
  destruct Rel as (rel & -> & R1 & R2 & R3).
  cbn [at_ tb_reader tb_state tb_cols tb_offsets tb_ctx tb_off tb_main tb_start tb_first tb_heap].
  change (mk_table _ _ _ _ _ _ _ _ _ _ _ _ _) with
    (at_ d t o true sel row' ci' 0 (R * n1 + cs (col ci) + n * elem_bytes e) (o + (R * n1 + cs (col ci) + n * elem_bytes e)) InMain).
  rewrite seek_by_ok by lia. unfold x in R3. f_equal. f_equal; lia.
Qed.

(** The end of the last cell of the last round. *)
Lemma last_move R item e n :
  1 <= n2 -> 0 <= R -> format t (col (len sel - 1)) = Some (TElem e n) ->
  o + R * n1 + cs (col (len sel - 1)) + n * elem_bytes e <= len d ->
  exists s', seek_to_next_col m (st (n2 - 1) (len sel - 1) R item (n * elem_bytes e))
  = (match m with
     | Checked => if n1 * n2 <? R * n1 + cs (col (len sel - 1)) + n * elem_bytes e then Panic else Ok tt
     | Wrapping => Ok tt end, s') /\
    (m = Wrapping \/ R * n1 + cs (col (len sel - 1)) + n * elem_bytes e <= n1 * n2 -> s' = st_end n2 (len sel - 1) item).
Proof.
  intros Hr HR E Hd. pose proof small as (S0 & S1 & S2 & S3 & S4 & S5 & S6). pose proof len_sel as Ls.
  destruct (fixed_facts (len sel - 1) ltac:(lia)) as (e' & n' & E' & X3 & _ & B1 & B2 & B3). rewrite E in E'. inversion E'; subst e' n'.
  set (x := R * n1 + cs (col (len sel - 1)) + n * elem_bytes e) in *.
  assert (RB: 0 <= R * n1) by (apply Z.mul_nonneg_nonneg; lia).
  assert (Off: 0 <= x < 2 ^ 62) by (unfold x; lia).
  unfold seek_to_next_col, st. fold x. cbn [at_ tb_cols tb_ctx tb_col tb_row tb_main tb_off tb_item]. fold n2 n1.
  rewrite !u64_result_small by lia. rewrite !Z.eqb_refl. cbn [andb].
  rewrite !as_i64_small by lia. rewrite i64_result_small by lia.
  unfold seek_by, seek_relative, set_pos. cbn [at_ tb_reader tb_off rd_pos rd_data tb_state tb_cols tb_offsets tb_ctx tb_col tb_main tb_start tb_first tb_heap].
  replace (o + x + (n1 * n2 - x)) with (o + n1 * n2) by lia.
  assert (Hp: (0 <=? o + n1 * n2) && (o + n1 * n2 <? 2 ^ 64) = true) by lia. rewrite Hp.
  unfold set_off, set_reader. cbn [tb_reader tb_off rd_pos rd_data tb_state tb_cols tb_offsets tb_ctx tb_col tb_row tb_item tb_main tb_start tb_first tb_heap].
  replace (n2 - 1 + 1) with n2 by lia.
  destruct (n1 * n2 <? x) eqn:Ov.
  - assert (Eu: as_usize (n1 * n2 - x) = n1 * n2 - x + 2 ^ 64).
    { unfold as_usize. symmetry. apply (Z.mod_unique_pos _ _ (-1)); lia. }
    rewrite Eu. unfold u64_result. replace (x + (n1 * n2 - x + 2 ^ 64)) with (n1 * n2 + 1 * 2 ^ 64) by lia.
    destruct ((0 <=? n1 * n2 + 1 * 2 ^ 64) && (n1 * n2 + 1 * 2 ^ 64 <? 2 ^ 64)) eqn:Q; [lia|].
    destruct m.
    + eexists. split; [reflexivity|]. intros [H|H]; [discriminate|lia].
    + rewrite Z_mod_plus_full, Z.mod_small by lia. eexists. split; [reflexivity|]. intros _. reflexivity.
  - rewrite as_usize_small, u64_result_small by lia. replace (x + (n1 * n2 - x)) with (n1 * n2) by lia.
    eexists. split; [destruct m; reflexivity|]. intros _. reflexivity.
Qed.

Lemma elem_step row ci R item e n :
  0 <= ci < len sel -> 0 <= R -> format t (col ci) = Some (TElem e n) -> 0 <= item < n ->
  o + R * n1 + cs (col ci) + n * elem_bytes e <= len d -> R * n1 + cs (col ci) <> n1 * n2 ->
  exists v, slot_value d (SElem e (o + R * n1 + cs (col ci) + item * elem_bytes e) (col ci) item) v /\
    table_next m (st row ci R item (item * elem_bytes e))
    = if item + 1 =? n then finish_next (seek_to_next_col m (st row ci R n (n * elem_bytes e))) v
      else (Ok (Some v), st row ci R (item + 1) ((item + 1) * elem_bytes e)).
Proof.
  intros Hc HR E Hi Hd Nm. pose proof small as (S0 & S1 & S2 & S3 & S4 & S5 & S6).
  destruct (fixed_facts ci Hc) as (e' & n' & E' & X3 & _ & B1 & B2 & B3). rewrite E in E'. inversion E'; subst e' n'.
  pose proof (elem_bytes_pos e) as Eb.
  assert (Ie: item * elem_bytes e + elem_bytes e <= n * elem_bytes e) by nia.
  assert (RB: 0 <= R * n1) by nia. assert (IB: 0 <= item * elem_bytes e) by nia.
  assert (Oc: octets d) by apply Pr.
  destruct (read_elem_at d (o + (R * n1 + cs (col ci) + item * elem_bytes e)) e) as (v & Rd & Sv); auto; [lia|lia|].
  exists (DVal e v (col ci) item). split.
  { exists v. split; auto. replace (o + R * n1 + cs (col ci) + item * elem_bytes e) with (o + (R * n1 + cs (col ci) + item * elem_bytes e)) by lia. exact Sv. }
  assert (No: R * n1 + cs (col ci) + item * elem_bytes e <> n1 * n2).
  { intro Q. destruct (Z_lt_le_dec R n2) as [Lt|Ge].
    { assert ((R + 1) * n1 <= n2 * n1) by (apply Z.mul_le_mono_nonneg_r; lia). lia. }
    assert (n2 * n1 <= R * n1) by (apply Z.mul_le_mono_nonneg_r; lia). assert (item * elem_bytes e = 0) by lia. lia. }
  unfold table_next, st. cbn [at_ tb_cols tb_col tb_first tb_state]. rewrite (col_index t sel ci) by auto.
  unfold main_next. cbn [at_ tb_off tb_main tb_ctx]. fold n1 n2.
  destruct (_ =? n1 * n2) eqn:Q; [lia|]. apply format_nth in E as [Ec En].
  rewrite (index_nth (bt_tforms t) (col ci) (TElem e n)) by (auto; lia).
  assert (La: (match e with TyX => n / 8 + 1 | _ => n end) = n) by (destruct e; auto; contradiction).
  rewrite La. unfold main_elem. cbn [at_ tb_reader tb_off tb_item tb_row tb_col]. rewrite Rd, elem_bytes_size, u64_result_small by lia.
  unfold set_pos, set_off, set_reader.
  cbn [at_ tb_reader tb_state tb_cols tb_offsets tb_ctx tb_col tb_item tb_off tb_main tb_start tb_first tb_row tb_heap rd_data rd_pos].
  replace (R * n1 + cs (col ci) + item * elem_bytes e + elem_bytes e) with (R * n1 + cs (col ci) + (item + 1) * elem_bytes e) by lia.
  replace (o + (R * n1 + cs (col ci) + item * elem_bytes e) + elem_bytes e)
      with (o + (R * n1 + cs (col ci) + (item + 1) * elem_bytes e)) by lia.
  change (mk_table _ _ _ _ _ _ _ _ _ _ _ _ _) with (st row ci R (item + 1) ((item + 1) * elem_bytes e)).
  destruct (item + 1 =? n) eqn:Ln; [|reflexivity]. replace (item + 1) with n by lia. reflexivity.
Qed.

Lemma st_stop row ci R : 0 <= ci < len sel -> R * n1 + cs (col ci) = n1 * n2 -> gives m (st row ci R 0 0) [] false.
Proof.
  intros Hc E. apply gives_end. unfold table_next, st. cbn [at_ tb_cols tb_col tb_first tb_state].
  rewrite (col_index t sel ci) by auto. unfold main_next. cbn [at_ tb_off tb_main]. fold n1 n2.
  rewrite Z.add_0_r. destruct (_ =? n1 * n2) eqn:Q; [reflexivity|lia].
Qed.
Lemma st_end_stop row ci item : 0 <= ci < len sel -> gives m (st_end row ci item) [] false.
Proof.
  intros Hc. apply gives_end. unfold table_next, st_end. cbn [at_ tb_cols tb_col tb_first tb_state].
  rewrite (col_index t sel ci) by auto. unfold main_next. cbn [at_ tb_off tb_main]. fold n1 n2.
  rewrite Z.eqb_refl. reflexivity.
Qed.

(** A cell from one of its elements on, and what follows. *)
Lemma cell_gives row ci R e n :
  0 <= ci < len sel -> 0 <= R -> format t (col ci) = Some (TElem e n) ->
  o + R * n1 + cs (col ci) + n * elem_bytes e <= len d -> R * n1 + cs (col ci) <> n1 * n2 ->
  forall k item, 0 <= item < n -> n - item = Z.of_nat k ->
  exists ws v, Forall2 (slot_value d) (skipn (Z.to_nat item) (cell d t o true R (col ci))) (ws ++ [v]) /\
    (forall s' vs b, seek_to_next_col m (st row ci R n (n * elem_bytes e)) = (Ok tt, s') -> gives m s' vs b ->
       gives m (st row ci R item (item * elem_bytes e)) ((ws ++ [v]) ++ vs) b) /\
    (forall s', seek_to_next_col m (st row ci R n (n * elem_bytes e)) = (Panic, s') ->
       gives m (st row ci R item (item * elem_bytes e)) ws true).
Proof.
  intros Hc HR E Hd Nm.
  assert (Ce: cell d t o true R (col ci) = elems e n (o + R * n1 + cs (col ci)) (col ci)).
  { unfold cell. rewrite E. reflexivity. }
  rewrite Ce. induction k as [|k IH]; intros item Hi Hk; [lia|].
  destruct (elem_step row ci R item e n Hc HR E Hi Hd Nm) as (v & Sv & Nx). rewrite skipn_elems by auto.
  destruct (item + 1 =? n) eqn:La.
  - exists [], v. replace (item + 1) with n by lia. rewrite skipn_elems_end by lia. split; [constructor; auto|]. split.
    + intros s' vs b Es G. rewrite Es in Nx. cbn [finish_next] in Nx. eapply gives_step; eauto.
    + intros s' Es. rewrite Es in Nx. eapply gives_panic. exact Nx.
  - destruct (IH (item + 1) ltac:(lia) ltac:(lia)) as (ws & w & A & B & C). exists (v :: ws), w. split; [constructor; auto|]. split.
    + intros s' vs b Es G. eapply gives_step; [exact Nx|]. eapply B; eauto.
    + intros s' Es. eapply gives_step; [exact Nx|]. eapply C; eauto.
Qed.

Definition outcome (s : table) (l : list (Z * Z)) : Prop :=
  exists ws, Forall2 (slot_value d) (visited_slots d t o (before_end t l)) ws /\
    (m = Checked /\ runs_over t l -> exists ws' v, ws = ws' ++ [v] /\ gives m s ws' true) /\
    (~ (m = Checked /\ runs_over t l) -> gives m s ws false).

Lemma runs_over_cons x l : l <> [] -> cell_start t x <> n1 * n2 -> (runs_over t (x :: l) <-> runs_over t l).
Proof.
  intros Nl Nx. unfold runs_over. cbn [before_end]. fold n1 n2. destruct (cell_start t x =? n1 * n2) eqn:Q; [lia|]. split.
  - intros [A (l' & y & B & C)]. split; [congruence|]. destruct l' as [|z l']; inversion B; subst; [contradiction|]. eauto.
  - intros [A (l' & y & B & C)]. split; [congruence|]. exists (x :: l'), y. rewrite B. auto.
Qed.

Lemma rounds_outcome : 1 <= n2 -> forall k row ci R,
  0 <= row < n2 -> 0 <= ci < len sel -> 0 <= R ->
  let rest := skipn (Z.to_nat (ci + 1)) sel ++ concat (repeat sel (Z.to_nat (n2 - 1 - row))) in
  let l := (R, col ci) :: visit R (col ci) rest in
  length rest = k -> Forall (fun x => o + cell_end t x <= len d) (before_end t l) ->
  outcome (st row ci R 0 0) l.
Proof.
  intro N. induction k as [k IH] using lt_wf_ind. intros row ci R Hr Hc HR rest l Lk Fa. pose proof len_sel as Ls.
  destruct (fixed_facts ci Hc) as (e & n & E & X3 & Hn & B1 & B2 & B3).
  unfold outcome, l in *. cbn [before_end] in Fa |- *.
  assert (Cs: cell_start t (R, col ci) = R * n1 + cs (col ci)) by reflexivity.
  assert (Cn: cell_end t (R, col ci) = R * n1 + cs (col ci) + n * elem_bytes e).
  { unfold cell_end. rewrite Cs. cbn [snd]. rewrite E, (field_bytes_elem t) by auto. reflexivity. }
  fold n1 n2 in Fa |- *. destruct (cell_start t (R, col ci) =? n1 * n2) eqn:Q.
  { exists []. split; [constructor|]. split.
    - intros [_ [Rb _]]. cbn [before_end] in Rb. fold n1 n2 in Rb. rewrite Q in Rb. discriminate.
    - intros _. apply st_stop; auto. lia. }
  inversion Fa as [|? ? Fh Ft]; subst. rewrite Cn in Fh.
  destruct (cell_gives row ci R e n Hc HR E ltac:(lia) ltac:(lia) (Z.to_nat n) 0 ltac:(lia) ltac:(lia)) as (ws & v & A & B & C).
  change (skipn (Z.to_nat 0) (cell d t o true R (col ci))) with (cell d t o true R (col ci)) in A. rewrite Z.mul_0_l in B, C.
  destruct (rest) as [|c' rest'] eqn:Er; unfold rest in Er; clear rest.
  - (* the last cell *)
    assert (La: ci = len sel - 1 /\ row = n2 - 1).
    { apply app_eq_nil in Er as [E1 E2]. assert (ci = len sel - 1).
      { apply (f_equal (@length Z)) in E1. rewrite skipn_length in E1. cbn [length] in E1. unfold len in *. lia. }
      split; auto. destruct (Z.to_nat (n2 - 1 - row)) eqn:Z0; [lia|]. cbn [repeat concat] in E2. apply app_eq_nil in E2 as [E2 _]. contradiction. }
    destruct La as [-> ->]. destruct (last_move R n e n N HR E ltac:(lia)) as (s' & Mv & Ms).
    exists (ws ++ [v]). cbn [visit before_end] in *. cbn [visited_slots flat_map]. unfold visited_slots. cbn [flat_map fst snd]. rewrite app_nil_r.
    split; [exact A|].
    assert (Ro: runs_over t [(R, col (len sel - 1))] <-> n1 * n2 < R * n1 + cs (col (len sel - 1)) + n * elem_bytes e).
    { unfold runs_over. cbn [before_end]. fold n1 n2. rewrite Q, <- Cn. split.
      - intros [_ (l' & y & D1 & D2)]. destruct l' as [|? [|? ?]]; inversion D1; subst. exact D2.
      - intro D. split; auto. exists [], (R, col (len sel - 1)). auto. }
    rewrite Ro. split.
    + intros [Em Ov]. exists ws, v. split; auto. apply (C s'). rewrite Mv, Em. destruct (n1 * n2 <? _) eqn:Z1; [reflexivity|lia].
    + intro No. rewrite <- (app_nil_r (ws ++ [v])). apply (B s').
      * rewrite Mv. destruct m; [|reflexivity]. destruct (n1 * n2 <? _) eqn:Z1; [exfalso; apply No; split; auto; lia|reflexivity].
      * rewrite Ms; [apply st_end_stop; auto|]. destruct m; [right|left; reflexivity].
        destruct (Z_lt_le_dec (n1 * n2) (R * n1 + cs (col (len sel - 1)) + n * elem_bytes e)) as [Lt|Le]; [|exact Le].
        exfalso. apply No. auto.
  - assert (Nl: ~ (ci = len sel - 1 /\ row = n2 - 1)).
    { intros [-> ->]. replace (Z.to_nat (n2 - 1 - (n2 - 1))) with O in Er by lia. cbn [repeat concat] in Er.
      rewrite app_nil_r, skipn_all2 in Er by (unfold len; lia). discriminate. }
    pose proof (move_on row ci R n e n Hr Hc HR E ltac:(lia) Nl) as Mv. cbv zeta in Mv.
    set (ci' := if ci =? len sel - 1 then 0 else ci + 1) in *. set (row' := if ci =? len sel - 1 then row + 1 else row) in *.
    assert (Nx: c' = col ci' /\ 0 <= ci' < len sel /\ 0 <= row' < n2 /\
                rest' = skipn (Z.to_nat (ci' + 1)) sel ++ concat (repeat sel (Z.to_nat (n2 - 1 - row')))).
    { assert (Sk: forall i, 0 <= i < len sel -> skipn (Z.to_nat i) sel = col i :: skipn (Z.to_nat (i + 1)) sel).
      { intros i Hi. unfold col_at. replace (Z.to_nat (i + 1)) with (S (Z.to_nat i)) by lia.
        assert (Hl: (Z.to_nat i < length sel)%nat) by (unfold len in Hi; lia). revert Hl. generalize (Z.to_nat i). clear.
        induction sel as [|a l IHl]; intros [|j] H; cbn [length] in H; try lia; [reflexivity|]. cbn [skipn nth]. apply IHl. lia. }
      unfold ci', row'. destruct (ci =? len sel - 1) eqn:Lc.
      - rewrite skipn_all2 in Er by (unfold len in *; lia). cbn [app] in Er.
        replace (Z.to_nat (n2 - 1 - row)) with (S (Z.to_nat (n2 - 1 - (row + 1)))) in Er by lia. cbn [repeat concat] in Er.
        assert (E0: sel = col 0 :: skipn (Z.to_nat (0 + 1)) sel) by (rewrite <- (Sk 0) by lia; reflexivity).
        rewrite E0 in Er at 1. cbn [app] in Er. inversion Er. repeat split; try lia.
      - rewrite (Sk (ci + 1)) in Er by lia. cbn [app] in Er. inversion Er. repeat split; try lia. }
    destruct Nx as (-> & Hc' & Hr' & ->). cbn [visit] in Ft |- *. set (R' := if col ci <? col ci' then R else R + 1) in *.
    destruct (IH (length (skipn (Z.to_nat (ci' + 1)) sel ++ concat (repeat sel (Z.to_nat (n2 - 1 - row')))))
                ltac:(cbn [length]; lia) row' ci' R' Hr' Hc' ltac:(unfold R'; destruct (col ci <? col ci'); lia) eq_refl Ft)
      as (us & U1 & U2 & U3).
    exists ((ws ++ [v]) ++ us). split.
    { unfold visited_slots at 1. cbn [flat_map fst snd]. apply Forall2_app; [exact A|exact U1]. }
    rewrite runs_over_cons by (try discriminate; lia). split.
    + intros Ov. destruct (U2 Ov) as (us' & u & -> & G). exists ((ws ++ [v]) ++ us'), u. split; [rewrite !app_assoc; reflexivity|].
      eapply B; [exact Mv|exact G].
    + intro No. eapply B; [exact Mv|]. apply U3. exact No.
Qed.
End Twice.

(** ** The columns asked for *)

Lemma asked_resolve t ids l : length (bt_tforms t) = length (bt_ttypes t) -> Forall id_ok ids -> asked t ids l ->
  l = flat_map (resolve t) ids.
Proof.
  intros L F A. induction A as [|i ids c l Nm Rc A IH|i ids l No A IH]; [reflexivity| |]; inversion F as [|? ? Fi Fr]; subst; cbn [flat_map];
    rewrite <- (IH Fr); destruct (resolve_one t i) as [E|(c' & E)]; rewrite E.
  - assert (I: In c (resolve t i)) by (apply resolve_In; auto). rewrite E in I. destruct I.
  - assert (I: In c (resolve t i)) by (apply resolve_In; auto). rewrite E in I. destruct I as [->|[]]. reflexivity.
  - reflexivity.
  - assert (I: In c' (resolve t i)) by (rewrite E; left; reflexivity). apply resolve_In in I as [I1 I2]; auto. destruct (No _ I2 I1).
Qed.

Lemma sorted_perm a : forall b, StronglySorted Z.le a -> StronglySorted Z.le b -> Permutation a b -> a = b.
Proof.
  induction a as [|x a IH]; intros b Sa Sb P; [symmetry; apply Permutation_nil; auto|].
  destruct b as [|y b]; [apply Permutation_sym, Permutation_nil in P; discriminate|].
  inversion Sa as [|? ? Sa' Fa]; inversion Sb as [|? ? Sb' Fb]; subst. rewrite Forall_forall in Fa, Fb.
  assert (x = y).
  { pose proof (Permutation_in x P ltac:(left; reflexivity)) as [->|I1]; [reflexivity|].
    pose proof (Permutation_in y (Permutation_sym P) ltac:(left; reflexivity)) as [->|I2]; [reflexivity|].
    specialize (Fa _ I2). specialize (Fb _ I1). lia. }
  subst y. f_equal. apply IH; auto. eapply Permutation_cons_inv. exact P.
Qed.

Lemma requested_sort t ids sel : length (bt_tforms t) = length (bt_ttypes t) -> Forall id_ok ids -> requested t ids sel ->
  sort (flat_map (resolve t) ids) = sel.
Proof.
  intros L F (So & l & A & P). apply asked_resolve in A; auto. subst l. apply sorted_perm; auto using sort_sorted.
  rewrite sort_perm. apply Permutation_sym. exact P.
Qed.

Lemma requested_column t ids sel c : requested t ids sel -> In c sel -> 0 <= c.
Proof.
  intros (_ & l & A & P) I. apply (Permutation_in _ P) in I. revert I. clear P. induction A; intro I; [destruct I| |auto].
  destruct I as [->|I]; [lia|auto].
Qed.

Lemma table_twice m d f h f' t :
  octets d -> rd_data (f_reader f) = d -> 0 <= rd_pos (f_reader f) -> next m f = (IOk h, f') ->
  h_xt h = XtBin t -> table_inside d t (h_offset h) -> len d < 2 ^ 62 -> 1 <= bt_naxis2 t ->
  forall ids sel, Forall id_ok ids -> requested t ids sel -> sel <> [] -> len sel < 2 ^ 64 ->
  (forall c, In c sel -> exists w, format t c = Some w /\ fixed_width w) ->
  let o := h_offset h in
  let cells := visited t sel in
  Forall (fun x => o + cell_end t x <= len d) (before_end t cells) ->
  exists s values, get_table m f' t = Ok s /\
    Forall2 (slot_value d) (visited_slots d t o (before_end t cells)) values /\
    (m = Checked /\ runs_over t cells -> exists vs v, values = vs ++ [v] /\
       fst (table_run m (select_fields s ids) (repeat TNext (S (length vs)))) = map TValue vs ++ [TPanic]) /\
    (~ (m = Checked /\ runs_over t cells) -> forall n,
       fst (table_run m (select_fields s ids) (repeat TNext n)) = firstn n (map TValue values ++ repeat TEnd n)).
Proof.
  intros Oc Da Po Nx Xt Ti L62 N ids sel Io Rq Ne L64 Fx o cells Fa.
  pose proof (file_present m d f h f' t Oc Da Po Nx Xt Ti) as Pr. fold o in Pr.
  pose proof (file_lengths m d f h f' t Oc Da Po Nx Xt) as Le.
  exists (fresh d t o). pose proof (requested_sort t ids sel Le Io Rq) as Es.
  assert (Sl: exists c0 sel', sel = c0 :: sel') by (destruct sel; [contradiction|eauto]). destruct Sl as (c0 & sel' & Sel).
  assert (Ls: 1 <= len sel) by (rewrite Sel, len_cons; pose proof (len_nonneg sel'); lia).
  assert (C0: col_at sel 0 = c0) by (rewrite Sel; reflexivity).
  assert (Pos0: 0 <= c0) by (eapply requested_column; eauto; rewrite Sel; left; reflexivity).
  assert (Cells: cells = (0, col_at sel 0) :: visit 0 (col_at sel 0)
      (skipn (Z.to_nat (0 + 1)) sel ++ concat (repeat sel (Z.to_nat (bt_naxis2 t - 1 - 0))))).
  { unfold cells, visited. replace (Z.to_nat (bt_naxis2 t)) with (S (Z.to_nat (bt_naxis2 t - 1 - 0))) by lia.
    cbn [repeat concat]. rewrite C0. rewrite Sel at 1. cbn [app visit].
    destruct (-1 <? c0) eqn:X; [|lia]. rewrite Sel. reflexivity. }
  rewrite Cells in Fa |- *.
  destruct (rounds_outcome m d t o sel Pr Fx L64 Ne L62 N _ 0 0 0 ltac:(lia) ltac:(lia) ltac:(lia) eq_refl Fa) as (ws & A & B & C).
  assert (Go: forall k, fst (table_run m (select_fields (fresh d t o) ids) (repeat TNext k))
              = fst (table_run m (st d t o sel 0 0 0 0 0) (repeat TNext k))).
  { intros [|k]; [reflexivity|]. cbn [repeat table_run table_do].
    assert (E1: table_next m (select_fields (fresh d t o) ids) = table_next m (st d t o sel 0 0 0 0 0)); [|rewrite E1; reflexivity].
    destruct (fixed_facts d t o sel Pr Fx 0 ltac:(lia)) as (e & n & E & X3 & Hn & B1 & B2 & B3).
    pose proof (small d t o sel Pr Fx L64 Ne L62) as (S0 & S1 & S2 & S3 & S4 & S5 & S6).
    unfold select_fields, fresh. cbn [tb_ctx]. rewrite Es.
    unfold table_next, set_first, set_cols, st, at_.
    cbn [tb_reader tb_state tb_cols tb_offsets tb_ctx tb_col tb_item tb_off tb_main tb_start tb_first tb_row tb_heap].
    rewrite (col_index t sel 0) by lia. rewrite (offsets_index _ _ _ E).
    rewrite as_i64_small by lia. unfold seek_by. cbn [tb_reader tb_off].
    rewrite seek_relative_ok by (cbn [rd_pos]; lia). cbn [rd_data rd_pos]. rewrite as_usize_small by lia.
    rewrite u64_result_small by lia. unfold set_off, set_reader.
    cbn [tb_reader tb_state tb_cols tb_offsets tb_ctx tb_col tb_item tb_off tb_main tb_start tb_first tb_row tb_heap].
    rewrite Z.mul_0_l, !Z.add_0_l, Z.add_0_r. reflexivity. }
  exists ws. split; [eapply file_table; eauto|]. split; [exact A|]. split.
  - intro Ov. destruct (B Ov) as (ws' & v & -> & G). exists ws', v. split; [reflexivity|]. rewrite Go. exact G.
  - intros No n. rewrite Go. apply (C No).
Qed.

(** ** One column *)

Lemma visit_same c : forall n r, visit r c (repeat c n) = map (fun i => (r + 1 + Z.of_nat i, c)) (seq 0 n).
Proof.
  induction n as [|n IH]; intro r; [reflexivity|]. cbn [repeat visit]. rewrite Z.ltb_irrefl, IH. cbn [seq map].
  rewrite <- seq_shift, map_map. f_equal; [f_equal; lia|]. apply map_ext. intro. f_equal. lia.
Qed.
Lemma concat_same (c : Z) k : forall n, concat (repeat (repeat c k) n) = repeat c (n * k).
Proof. induction n as [|n IH]; [reflexivity|]. cbn [repeat concat Nat.mul]. rewrite IH, repeat_app. reflexivity. Qed.

Lemma visited_same t c k : 0 <= c -> 0 <= bt_naxis2 t ->
  visited t (repeat c k) = map (fun r => (r, c)) (upto (Z.of_nat k * bt_naxis2 t)).
Proof.
  intros Hc N. unfold visited, upto. rewrite concat_same. rewrite map_map.
  replace (Z.to_nat (Z.of_nat k * bt_naxis2 t)) with (Z.to_nat (bt_naxis2 t) * k)%nat by nia.
  destruct (Z.to_nat (bt_naxis2 t) * k)%nat as [|n]; [reflexivity|]. cbn [repeat visit]. destruct (-1 <? c) eqn:X; [|lia].
  rewrite visit_same. cbn [seq map]. rewrite <- seq_shift, map_map. f_equal. apply map_ext. intro. f_equal. lia.
Qed.

Lemma before_end_same t c e n : 1 <= n -> 0 < bt_naxis1 t -> 0 <= column_start (bt_tforms t) c < bt_naxis1 t ->
  0 <= bt_naxis2 t -> e = bt_naxis2 t * n ->
  before_end t (map (fun r => (r, c)) (upto e))
  = map (fun r => (r, c)) (upto (if column_start (bt_tforms t) c =? 0 then bt_naxis2 t else e)).
Proof.
  intros Hn N1 Cs N2 ->.
  assert (G: forall k i, before_end t (map (fun r => (r, c)) (map Z.of_nat (seq i k)))
     = map (fun r => (r, c)) (map Z.of_nat (seq i (if column_start (bt_tforms t) c =? 0
          then if Z.of_nat i <=? bt_naxis2 t then Nat.min k (Z.to_nat (bt_naxis2 t) - i) else k else k)))).
  { induction k as [|k IH]; intro i.
    - cbn [seq map before_end]. destruct (_ =? 0); [|reflexivity]. destruct (_ <=? _); reflexivity.
    - cbn [seq map before_end]. unfold cell_start. cbn [fst snd].
      destruct (column_start (bt_tforms t) c =? 0) eqn:C0.
      + rewrite IH. destruct (Z.of_nat i * bt_naxis1 t + column_start (bt_tforms t) c =? bt_naxis1 t * bt_naxis2 t) eqn:Q.
        * assert (Z.of_nat i = bt_naxis2 t) by nia. destruct (Z.of_nat i <=? bt_naxis2 t) eqn:Le; [|lia].
          replace (Z.to_nat (bt_naxis2 t) - i)%nat with O by lia. rewrite Nat.min_0_r. reflexivity.
        * assert (Z.of_nat i <> bt_naxis2 t) by nia. destruct (Z.of_nat i <=? bt_naxis2 t) eqn:Le.
          -- destruct (Z.of_nat (S i) <=? bt_naxis2 t) eqn:Le'; [|lia].
             replace (Z.to_nat (bt_naxis2 t) - i)%nat with (S (Z.to_nat (bt_naxis2 t) - S i)) by lia. reflexivity.
          -- destruct (Z.of_nat (S i) <=? bt_naxis2 t) eqn:Le'; [lia|]. reflexivity.
      + rewrite IH. destruct (Z.of_nat i * bt_naxis1 t + column_start (bt_tforms t) c =? bt_naxis1 t * bt_naxis2 t) eqn:Q; [|reflexivity].
        exfalso. destruct (Z_lt_le_dec (Z.of_nat i) (bt_naxis2 t)) as [Lt|Ge]; nia. }
  unfold upto. rewrite G. do 2 f_equal. f_equal. destruct (_ =? 0); [|reflexivity].
  destruct (Z.of_nat 0 <=? bt_naxis2 t) eqn:X; [|lia]. nia.
Qed.

Lemma asked_sorted c k : StronglySorted Z.le (repeat c k).
Proof. induction k; cbn; constructor; auto. apply Forall_forall. intros x H. apply repeat_spec in H. lia. Qed.

Lemma table_same m d f h f' t :
  octets d -> rd_data (f_reader f) = d -> 0 <= rd_pos (f_reader f) -> next m f = (IOk h, f') ->
  h_xt h = XtBin t -> table_inside d t (h_offset h) -> len d < 2 ^ 62 -> 1 <= bt_naxis2 t ->
  forall ids c k w, Forall id_ok ids -> asked t ids (repeat c k) -> (1 <= k)%nat -> Z.of_nat k < 2 ^ 64 ->
  format t c = Some w -> fixed_width w ->
  let o := h_offset h in
  let first := column_start (bt_tforms t) c =? 0 in
  let rows := if first then bt_naxis2 t else Z.of_nat k * bt_naxis2 t in
  o + cell_end t (rows - 1, c) <= len d ->
  exists s values, get_table m f' t = Ok s /\
    Forall2 (slot_value d) (flat_map (fun r => cell d t o true r c) (upto rows)) values /\
    (if negb first && (2 <=? Z.of_nat k) && (match m with Checked => true | Wrapping => false end)
     then exists vs v, values = vs ++ [v] /\
       fst (table_run m (select_fields s ids) (repeat TNext (S (length vs)))) = map TValue vs ++ [TPanic]
     else forall n, fst (table_run m (select_fields s ids) (repeat TNext n)) = firstn n (map TValue values ++ repeat TEnd n)).
Proof.
  intros Oc Da Po Nx Xt Ti L62 N ids c k w Io As Hk K64 Ef Fw o first rows La.
  pose proof (file_present m d f h f' t Oc Da Po Nx Xt Ti) as Pr. fold o in Pr.
  assert (In1: In c (repeat c k)) by (destruct k; [lia|left; reflexivity]).
  assert (Fx: forall c', In c' (repeat c k) -> exists w', format t c' = Some w' /\ fixed_width w').
  { intros c' I. apply repeat_spec in I. subst c'. eauto. }
  assert (Lk: len (repeat c k) = Z.of_nat k) by (unfold len; rewrite repeat_length; reflexivity).
  assert (Ne: repeat c k <> []) by (destruct k; [lia|discriminate]).
  assert (K64': len (repeat c k) < 2 ^ 64) by lia.
  destruct (fixed_facts d t o (repeat c k) Pr Fx 0 ltac:(lia)) as (e & n & E & X3 & Hn & B1 & B2 & B3).
  assert (C0: col_at (repeat c k) 0 = c) by (destruct k; [lia|reflexivity]). rewrite C0 in *.
  rewrite Ef in E. inversion E; subst w. clear E.
  assert (Rq: requested t ids (repeat c k)) by (split; [apply asked_sorted|eauto]).
  assert (Pc: 0 <= c) by (eapply requested_column; eauto).
  pose proof (visited_same t c k Pc ltac:(lia)) as Vs.
  pose proof (before_end_same t c (Z.of_nat k * bt_naxis2 t) (Z.of_nat k) ltac:(lia) ltac:(lia) ltac:(lia) ltac:(lia) ltac:(lia)) as Be.
  fold first in Be. change (if first then bt_naxis2 t else Z.of_nat k * bt_naxis2 t) with rows in Be. rewrite <- Vs in Be.
  assert (Rw: 1 <= rows) by (unfold rows; destruct first; nia).
  assert (Ce: forall r, cell_end t (r, c) = r * bt_naxis1 t + column_start (bt_tforms t) c + n * elem_bytes e).
  { intro r. unfold cell_end, cell_start. cbn [fst snd]. rewrite Ef, (field_bytes_elem t) by auto. reflexivity. }
  destruct (table_twice m d f h f' t Oc Da Po Nx Xt Ti L62 N ids (repeat c k) Io Rq Ne K64' Fx) as (s & values & G & A & B & C).
  { fold o. rewrite Be. apply Forall_forall. intros x Hx. apply in_map_iff in Hx as (r & <- & Hr). apply upto_In in Hr.
    rewrite Ce in *. assert (r * bt_naxis1 t <= (rows - 1) * bt_naxis1 t) by (apply Z.mul_le_mono_nonneg_r; lia). lia. }
  fold o in A. rewrite Be in A. exists s, values. split; [exact G|]. split.
  { replace (flat_map (fun r => cell d t o true r c) (upto rows)) with (visited_slots d t o (map (fun r => (r, c)) (upto rows))); [exact A|].
    unfold visited_slots. rewrite flat_map_concat_map, map_map, <- flat_map_concat_map. reflexivity. }
  assert (Ro: runs_over t (visited t (repeat c k)) <-> negb first && (2 <=? Z.of_nat k) = true).
  { assert (Lst: visited t (repeat c k) = map (fun r => (r, c)) (upto (Z.of_nat k * bt_naxis2 t - 1)) ++ [(Z.of_nat k * bt_naxis2 t - 1, c)]).
    { rewrite Vs. unfold upto. replace (Z.to_nat (Z.of_nat k * bt_naxis2 t)) with (Z.to_nat (Z.of_nat k * bt_naxis2 t - 1) + 1)%nat by nia.
      rewrite seq_app, !map_app. cbn [seq map Nat.add]. do 3 f_equal. nia. }
    split.
    - intros [E1 (l' & x & E2 & E3)]. rewrite Lst in E2. apply app_inj_tail in E2 as [_ <-]. rewrite Ce in E3.
      assert (K2: 2 <= Z.of_nat k).
      { destruct (Z_lt_le_dec (Z.of_nat k) 2) as [Lt|]; [|lia]. exfalso. replace (Z.of_nat k) with 1 in E3 by lia. nia. }
      rewrite Be, Vs in E1. apply (f_equal (@length (Z * Z))) in E1. unfold upto in E1. rewrite !map_length, !seq_length in E1.
      unfold rows in E1. destruct first; [exfalso; nia|]. cbn [negb andb]. lia.
    - intro H. apply andb_prop in H as [H1 H2]. split.
      + rewrite Be, Vs. unfold rows. destruct first; [discriminate|reflexivity].
      + do 2 eexists. split; [exact Lst|]. rewrite Ce.
        assert (H3: bt_naxis2 t <= Z.of_nat k * bt_naxis2 t - 1).
        { assert (2 * bt_naxis2 t <= Z.of_nat k * bt_naxis2 t) by (apply Z.mul_le_mono_nonneg_r; lia). lia. }
        apply (Z.mul_le_mono_nonneg_r _ _ (bt_naxis1 t)) in H3; lia. }
  destruct (negb first && (2 <=? Z.of_nat k) && _) eqn:Q.
  - apply B. apply andb_prop in Q as [Q1 Q2]. split; [destruct m; [reflexivity|discriminate]|]. apply Ro. exact Q1.
  - apply C. intros [Em H]. apply Ro in H. rewrite H, Em in Q. discriminate.
Qed.

(** A test for [requested]. *)
Definition requestedb (t : bintable) (ids : list column_id) (sel : list Z) : bool :=
  (length (bt_tforms t) =? length (bt_ttypes t))%nat &&
  forallb (fun i => match i with CIndex j => (0 <=? j) && (j <? 2 ^ 64) | CName _ => true end) ids &&
  (if list_eq_dec Z.eq_dec (sort (flat_map (resolve t) ids)) sel then true else false).

Lemma resolve_asked t ids : length (bt_tforms t) = length (bt_ttypes t) -> Forall id_ok ids -> asked t ids (flat_map (resolve t) ids).
Proof.
  intros L F. induction F as [|i ids Hi F IH]; [constructor|]. cbn [flat_map].
  destruct (resolve_one t i) as [E|(c & E)]; rewrite E; cbn [app].
  - constructor; auto. intros c Nm Rc. assert (I: In c (resolve t i)) by (apply resolve_In; auto). rewrite E in I. destruct I.
  - assert (I: In c (resolve t i)) by (rewrite E; left; reflexivity). apply resolve_In in I as [I1 I2]; auto. constructor; auto.
Qed.

Lemma requestedb_ok t ids sel : requestedb t ids sel = true -> Forall id_ok ids /\ requested t ids sel.
Proof.
  unfold requestedb. intro H. apply andb_prop in H as [H H3]. apply andb_prop in H as [H1 H2].
  destruct (list_eq_dec _ _ _) as [E|]; [|discriminate]. apply Nat.eqb_eq in H1.
  assert (F: Forall id_ok ids).
  { apply Forall_forall. intros i I. rewrite forallb_forall in H2. specialize (H2 i I). destruct i as [j|]; cbn [id_ok]; [unfold u64; lia|auto]. }
  split; [exact F|]. split; [rewrite <- E; apply sort_sorted|]. exists (flat_map (resolve t) ids). split; [apply resolve_asked; auto|].
  rewrite <- E. apply sort_perm.
Qed.

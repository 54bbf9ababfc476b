(** Selections made on a table in use. *)

From Coq Require Import Lia ZifyBool Sorted Permutation.
From Verif Require Import Base Text Card Reader Header Xtension Bytes Fits ImageIt BinTable.
From Verif Require Import SpecCard SpecHeader SpecXt SpecFits SpecImage SpecBin SpecBinSeek SpecBinTwice SpecBinLate.
From Verif Require Import HeaderProofs BytesProofs XtProofs2 XtProofs3 ImageProofs BinProofs BinProofs2 BinProofs3 BinProofs7 BinProofs8.

(** ** Runs *)

Definition outcome (m : mode) (d : list Z) (e : Z) (s : table) (l : list slot) : Prop :=
  in_file d e l ->
  exists ws, Forall2 (slot_value d) (cut e l) ws /\
    (m = Checked /\ over e l -> exists ws' v, ws = ws' ++ [v] /\ gives m s ws' true) /\
    (~ (m = Checked /\ over e l) -> gives m s ws false).

Lemma outcome_reads m d e s l : outcome m d e s l -> in_file d e l -> reads m d e s l.
Proof.
  intros H F. destruct (H F) as (ws & A & B & C). exists ws. split; [exact A|]. split.
  - intro H1. destruct (B H1) as (ws' & v & E & G). exists ws', v. split; [exact E|exact G].
  - intros H1 n. apply (C H1).
Qed.

Lemma over_cons e x l : l <> [] -> slot_start x <> e -> (over e (x :: l) <-> over e l).
Proof.
  intros Nl Nx. unfold over. cbn [cut]. destruct (slot_start x =? e) eqn:Q; [lia|]. split.
  - intros [A (l' & y & B & C)]. split; [congruence|]. destruct l' as [|z l']; inversion B; subst; [contradiction|]. eauto.
  - intros [A (l' & y & B & C)]. split; [congruence|]. exists (x :: l'), y. rewrite B. auto.
Qed.
Lemma over_one e x : slot_start x <> e -> (over e [x] <-> e < slot_end x).
Proof.
  intro Nx. unfold over. cbn [cut]. destruct (slot_start x =? e) eqn:Q; [lia|]. split.
  - intros [_ (l' & y & B & C)]. destruct l' as [|? [|? ?]]; inversion B; subst. exact C.
  - intro C. split; [reflexivity|]. exists [], x. auto.
Qed.

Lemma outcome_stop m d e s x l : slot_start x = e -> gives m s [] false -> outcome m d e s (x :: l).
Proof.
  intros E G _. exists []. unfold over. cbn [cut]. destruct (slot_start x =? e) eqn:Q; [|lia]. split; [constructor|]. split.
  - intros [_ [Q2 _]]. discriminate.
  - intros _. exact G.
Qed.
Lemma outcome_cons m d e s x l v s' : slot_start x <> e -> l <> [] -> slot_value d x v ->
  table_next m s = (Ok (Some v), s') -> outcome m d e s' l -> outcome m d e s (x :: l).
Proof.
  intros Nx Nl Sv T O F. unfold in_file in F. cbn [cut] in F |- *.
  destruct (slot_start x =? e) eqn:Q; [lia|].
  inversion F as [|? ? F1 F2]; subst. destruct (O F2) as (ws & A & B & C). exists (v :: ws). rewrite over_cons by auto. split; [constructor; auto|]. split.
  - intro H. destruct (B H) as (ws' & w & -> & G). exists (v :: ws'), w. split; [reflexivity|]. eapply gives_step; eauto.
  - intro H. eapply gives_step; eauto.
Qed.
Lemma outcome_last m d e s x v s' : slot_start x <> e -> slot_value d x v ->
  table_next m s = (Ok (Some v), s') -> gives m s' [] false -> ~ (m = Checked /\ e < slot_end x) -> outcome m d e s [x].
Proof.
  intros Nx Sv T G No F. exists [v]. rewrite over_one by auto. cbn [cut]. destruct (slot_start x =? e) eqn:Q; [lia|]. split; [constructor; auto|]. split.
  - intro H. contradiction.
  - intros _. eapply gives_step; eauto.
Qed.
Lemma outcome_panic m d e s x v s' : slot_start x <> e -> slot_value d x v ->
  table_next m s = (Panic, s') -> m = Checked -> e < slot_end x -> outcome m d e s [x].
Proof.
  intros Nx Sv T Em Ov F. exists [v]. rewrite over_one by auto. cbn [cut]. destruct (slot_start x =? e) eqn:Q; [lia|]. split; [constructor; auto|]. split.
  - intros _. exists [], v. split; [reflexivity|]. eapply gives_panic. exact T.
  - intro H. exfalso. apply H. auto.
Qed.

Section Late.
Variables (m : mode) (d : list Z) (t : bintable) (o : Z) (sel : list Z).
Hypothesis Pr : table_present d t o.
Hypothesis Fx : forall c, In c sel -> exists f, format t c = Some f /\ fixed_width f.
Hypothesis L64 : len sel < 2 ^ 64.
Hypothesis Ne : sel <> [].
Hypothesis L62 : len d < 2 ^ 62.

Let n1 := bt_naxis1 t.
Let n2 := bt_naxis2 t.
Let cs := column_start (bt_tforms t).
Notation col := (col_at sel).

Definition sx (row ci item x : Z) : table := at_ d t o true sel row ci item x (o + x) InMain.

Let facts := fixed_facts d t o sel Pr Fx.
Let small := small d t o sel Pr Fx L64 Ne L62.
Let len_sel : 1 <= len sel.
Proof. destruct sel; [contradiction|]. rewrite len_cons. pose proof (len_nonneg l). lia. Qed.

Lemma forward_bound x a : 0 < n1 -> x <= forward n1 x a < x + n1.
Proof. intro H. unfold forward. pose proof (Z.mod_pos_bound (a - x) n1 H). lia. Qed.

Lemma move_on row ci item x :
  0 <= row < n2 -> 0 <= ci < len sel -> 0 <= x < 2 ^ 62 -> o + x < 2 ^ 62 -> ~ (ci = len sel - 1 /\ row = n2 - 1) ->
  let ci' := if ci =? len sel - 1 then 0 else ci + 1 in
  let row' := if ci =? len sel - 1 then row + 1 else row in
  seek_to_next_col m (sx row ci item x) = (Ok tt, sx row' ci' 0 (forward n1 x (cs (col ci')))).
Proof.
  intros Hr Hc Hx Ho Nl ci' row'. pose proof small as (S0 & S1 & S2 & S3 & S4 & S5 & S6). pose proof len_sel as Ls.
  fold n1 n2 in S1, S2, S3, S4, S5.
  assert (Hc': 0 <= ci' < len sel) by (unfold ci'; destruct (ci =? len sel - 1) eqn:X; lia).
  destruct (facts ci' Hc') as (e2 & k2 & E2 & _ & _ & C1 & C2 & C3). fold cs n1 in C1, C2.
  unfold seek_to_next_col, sx. cbn [at_ tb_cols tb_ctx tb_col tb_row tb_main tb_off tb_item]. fold n2.
  rewrite !u64_result_small by lia.
  assert (Nb: (ci =? len sel - 1) && (row =? n2 - 1) = false) by lia. rewrite Nb.
  destruct (len sel =? 0) eqn:L0; [lia|].
  assert (Em: (ci + 1) mod len sel = ci').
  { unfold ci'. destruct (ci =? len sel - 1) eqn:X; [|apply Z.mod_small; lia].
    replace (ci + 1) with (len sel) by lia. apply Z.mod_same. lia. }
  rewrite Em. rewrite (col_index t sel ci') by auto. cbn [bind].
  change (if ci =? len sel - 1 then row + 1 else row) with row'. clear Em Nb L0 Nl. clearbody ci' row'.
  unfold next_col_off, set_pos. cbn [at_ tb_offsets tb_off tb_ctx]. rewrite (offsets_index _ _ _ E2). cbn [bind].
  fold cs n1. rewrite !as_i64_small by lia.
  unfold i64_rem. destruct ((n1 =? 0) || _) eqn:Z0; [lia|]. clear Z0. cbn [bind].
  rewrite Z.rem_mod_nonneg by lia. pose proof (Z.mod_pos_bound x n1 ltac:(lia)) as Mb.
  rewrite i64_result_small by lia. cbn [bind].
  assert (Rel: (if cs (col ci') - x mod n1 <? 0 then i64_result m (cs (col ci') - x mod n1 + n1) else Ok (cs (col ci') - x mod n1))
               = Ok ((cs (col ci') - x) mod n1)).
  { rewrite (Z.mod_eq x n1) in * by lia.
    destruct (cs (col ci') - (x - n1 * (x / n1)) <? 0) eqn:Ng.
    - rewrite i64_result_small by lia. f_equal. apply (Z.mod_unique_pos _ _ (- (x / n1) - 1)); lia.
    - f_equal. apply (Z.mod_unique_pos _ _ (- (x / n1))); lia. }
  rewrite Rel. pose proof (Z.mod_pos_bound (cs (col ci') - x) n1 ltac:(lia)) as Rb.
  cbn [at_ tb_reader tb_state tb_cols tb_offsets tb_ctx tb_off tb_main tb_start tb_first tb_heap].
  change (mk_table _ _ _ _ _ _ _ _ _ _ _ _ _) with (at_ d t o true sel row' ci' 0 x (o + x) InMain).
  rewrite seek_by_ok by lia. unfold forward. f_equal. f_equal; lia.
Qed.

Lemma last_move item x : 1 <= n2 -> 0 <= x < 2 ^ 62 -> o + x < 2 ^ 62 ->
  exists s', seek_to_next_col m (sx (n2 - 1) (len sel - 1) item x)
  = (match m with Checked => if n1 * n2 <? x then Panic else Ok tt | Wrapping => Ok tt end, s') /\
    (m = Wrapping \/ x <= n1 * n2 -> s' = sx n2 (len sel - 1) item (n1 * n2)).
Proof.
  intros Hr Hx Ho. pose proof small as (S0 & S1 & S2 & S3 & S4 & S5 & S6). pose proof len_sel as Ls.
  fold n1 n2 in S1, S2, S3, S4, S5.
  unfold seek_to_next_col, sx. cbn [at_ tb_cols tb_ctx tb_col tb_row tb_main tb_off tb_item]. fold n2 n1.
  rewrite !u64_result_small by lia. rewrite !Z.eqb_refl. cbn [andb].
  rewrite !as_i64_small by lia. rewrite i64_result_small by lia.
  unfold seek_by, seek_relative, set_pos. cbn [at_ tb_reader tb_off rd_pos rd_data tb_state tb_cols tb_offsets tb_ctx tb_col tb_main tb_start tb_first tb_heap].
  replace (o + x + (n1 * n2 - x)) with (o + n1 * n2) by lia.
  assert (Hp: (0 <=? o + n1 * n2) && (o + n1 * n2 <? 2 ^ 64) = true) by lia. rewrite Hp.
  unfold set_off, set_reader. cbn [tb_reader tb_off rd_pos rd_data tb_state tb_cols tb_offsets tb_ctx tb_col tb_row tb_item tb_main tb_start tb_first tb_heap].
  replace (n2 - 1 + 1) with n2 by lia.
  destruct (n1 * n2 <? x) eqn:Ov.
  - assert (Eu: as_usize (n1 * n2 - x) = n1 * n2 - x + 2 ^ 64).
    { unfold as_usize. symmetry. apply (Z.mod_unique_pos _ _ (-1)); lia. }
    rewrite Eu. unfold u64_result. replace (x + (n1 * n2 - x + 2 ^ 64)) with (n1 * n2 + 1 * 2 ^ 64) by lia.
    destruct ((0 <=? n1 * n2 + 1 * 2 ^ 64) && (n1 * n2 + 1 * 2 ^ 64 <? 2 ^ 64)) eqn:Q; [lia|].
    destruct m.
    + eexists. split; [reflexivity|]. intros [H|H]; [discriminate|lia].
    + rewrite Z_mod_plus_full, Z.mod_small by lia. eexists. split; [reflexivity|]. intros _. reflexivity.
  - rewrite as_usize_small, u64_result_small by lia. replace (x + (n1 * n2 - x)) with (n1 * n2) by lia.
    eexists. split; [destruct m; reflexivity|]. intros _. reflexivity.
Qed.

Lemma stop row ci item : 0 <= ci < len sel -> gives m (sx row ci item (n1 * n2)) [] false.
Proof.
  intros Hc. apply gives_end. unfold table_next, sx. cbn [at_ tb_cols tb_col tb_first tb_state].
  rewrite (col_index t sel ci) by auto. unfold main_next. cbn [at_ tb_off tb_main]. fold n1 n2.
  rewrite Z.eqb_refl. reflexivity.
Qed.

Lemma elem_step row ci item x e n :
  0 <= ci < len sel -> format t (col ci) = Some (TElem e n) -> 0 <= item < n ->
  0 <= x -> o + x + elem_bytes e <= len d -> x <> n1 * n2 ->
  exists v, slot_value d (SElem e (o + x) (col ci) item) v /\
    table_next m (sx row ci item x)
    = if item + 1 =? n then finish_next (seek_to_next_col m (sx row ci n (x + elem_bytes e))) v
      else (Ok (Some v), sx row ci (item + 1) (x + elem_bytes e)).
Proof.
  intros Hc E Hi Hx Hd Nm. pose proof small as (S0 & S1 & S2 & S3 & S4 & S5 & S6).
  destruct (facts ci Hc) as (e' & n' & E' & X3 & _ & B1 & B2 & B3). rewrite E in E'. inversion E'; subst e' n'.
  pose proof (elem_bytes_pos e) as Eb. assert (Oc: octets d) by apply Pr.
  destruct (read_elem_at d (o + x) e) as (v & Rd & Sv); auto; [lia|].
  exists (DVal e v (col ci) item). split; [exists v; auto|].
  unfold table_next, sx. cbn [at_ tb_cols tb_col tb_first tb_state]. rewrite (col_index t sel ci) by auto.
  unfold main_next. cbn [at_ tb_off tb_main tb_ctx]. fold n1 n2.
  destruct (x =? n1 * n2) eqn:Q; [lia|]. apply format_nth in E as [Ec En].
  rewrite (index_nth (bt_tforms t) (col ci) (TElem e n)) by (auto; lia).
  assert (La: (match e with TyX => n / 8 + 1 | _ => n end) = n) by (destruct e; auto; contradiction).
  rewrite La. unfold main_elem. cbn [at_ tb_reader tb_off tb_item tb_row tb_col]. rewrite Rd, elem_bytes_size, u64_result_small by lia.
  unfold set_pos, set_off, set_reader.
  cbn [at_ tb_reader tb_state tb_cols tb_offsets tb_ctx tb_col tb_item tb_off tb_main tb_start tb_first tb_row tb_heap rd_data rd_pos].
  replace (o + x + elem_bytes e) with (o + (x + elem_bytes e)) by lia.
  change (mk_table _ _ _ _ _ _ _ _ _ _ _ _ _) with (sx row ci (item + 1) (x + elem_bytes e)).
  destruct (item + 1 =? n) eqn:Ln; [|reflexivity]. replace (item + 1) with n by lia. reflexivity.
Qed.

(** The elements of a cell that are left, one by one. *)
Fixpoint run_slots (e : ety) (k : nat) (p c item : Z) : list slot :=
  match k with O => [] | S k' => SElem e p c item :: run_slots e k' (p + elem_bytes e) c (item + 1) end.

Lemma in_file_next x l : slot_start x <> o + n1 * n2 -> in_file d (o + n1 * n2) (x :: l) -> in_file d (o + n1 * n2) l.
Proof.
  intros Nx F. unfold in_file in *. cbn [cut] in F. destruct (slot_start x =? o + n1 * n2) eqn:Q; [lia|]. inversion F; auto.
Qed.

Lemma cell_outcome row ci e n rest :
  0 <= ci < len sel -> format t (col ci) = Some (TElem e n) ->
  forall k item x, 0 <= item < n -> n - item = Z.of_nat k -> 0 <= x ->
  (let z := x + Z.of_nat k * elem_bytes e in
   o + z <= len d ->
   (rest <> [] /\ exists s', seek_to_next_col m (sx row ci n z) = (Ok tt, s') /\ outcome m d (o + n1 * n2) s' rest) \/
   (rest = [] /\ ci = len sel - 1 /\ row = n2 - 1 /\ 1 <= n2)) ->
  outcome m d (o + n1 * n2) (sx row ci item x) (run_slots e k (o + x) (col ci) item ++ rest).
Proof.
  intros Hc E. induction k as [|k IH]; intros item x Hi Hk Hx K; [lia|]. cbn [run_slots app].
  pose proof small as (S0 & S1 & S2 & S3 & S4 & S5 & S6). fold n1 n2 in S1, S2, S3, S4, S5. pose proof (elem_bytes_pos e) as Eb.
  destruct (Z.eq_dec x (n1 * n2)) as [->|Nm].
  { apply outcome_stop; [reflexivity|]. apply stop. exact Hc. }
  intro F. assert (Fd: o + x + elem_bytes e <= len d).
  { unfold in_file in F. cbn [cut slot_start] in F. destruct (o + x =? o + n1 * n2) eqn:Q; [lia|]. inversion F; subst. cbn [slot_end] in *. lia. }
  destruct (elem_step row ci item x e n Hc E Hi Hx Fd Nm) as (v & Sv & Nx). revert F.
  assert (Ns: slot_start (SElem e (o + x) (col ci) item) <> o + n1 * n2) by (cbn [slot_start]; lia).
  change (outcome m d (o + n1 * n2) (sx row ci item x) (SElem e (o + x) (col ci) item :: run_slots e k (o + x + elem_bytes e) (col ci) (item + 1) ++ rest)).
  destruct (item + 1 =? n) eqn:La.
  - assert (k = O) by lia. subst k. cbn [run_slots app]. cbv zeta in K. replace (Z.of_nat 1 * elem_bytes e) with (elem_bytes e) in K by lia.
    destruct (K ltac:(lia)) as [(Nr & s' & Mv & Oc)|(-> & -> & -> & N)].
    + rewrite Mv in Nx. eapply outcome_cons; eauto.
    + destruct (last_move n (x + elem_bytes e) N ltac:(lia) ltac:(lia)) as (s' & Mv & Ms). rewrite Mv in Nx.
      destruct m eqn:Em.
      * destruct (n1 * n2 <? x + elem_bytes e) eqn:Ov; cbn [finish_next] in Nx.
        -- eapply outcome_panic; eauto. cbn [slot_end]. lia.
        -- eapply outcome_last; eauto; [|cbn [slot_end]; lia]. rewrite Ms by (right; lia). rewrite <- Em. apply stop. exact Hc.
      * cbn [finish_next] in Nx. eapply outcome_last; eauto; [|intros [Q _]; discriminate]. rewrite Ms by (left; reflexivity).
        rewrite <- Em. apply stop. exact Hc.
  - eapply outcome_cons; eauto; [destruct k; [lia|discriminate]|].
    replace (o + x + elem_bytes e) with (o + (x + elem_bytes e)) by lia. apply IH; try lia.
    cbv zeta in K |- *. replace (x + elem_bytes e + Z.of_nat k * elem_bytes e) with (x + Z.of_nat (S k) * elem_bytes e) by lia. exact K.
Qed.

Lemma run_elems e c : forall k item p,
  run_slots e k p c item = map (fun j => SElem e (p + Z.of_nat j * elem_bytes e) c (item + Z.of_nat j)) (seq 0 k).
Proof.
  induction k as [|k IH]; intros item p; [reflexivity|]. cbn [run_slots seq map]. rewrite IH, <- seq_shift, map_map.
  f_equal; [f_equal; lia|]. apply map_ext. intro j. f_equal; lia.
Qed.

(** The rest of a cell and all the columns after it. *)
Lemma rounds : 1 <= n2 -> forall k row ci item x e n,
  0 <= row < n2 -> 0 <= ci < len sel -> 0 <= x -> format t (col ci) = Some (TElem e n) -> 0 <= item < n ->
  let rest := skipn (Z.to_nat (ci + 1)) sel ++ concat (repeat sel (Z.to_nat (n2 - 1 - row))) in
  length rest = k ->
  outcome m d (o + n1 * n2) (sx row ci item x)
    (rest_slots e n (o + x) item (col ci) ++ place_slots d t o (places t (x + (n - item) * elem_bytes e) rest)).
Proof.
  intro N. pose proof small as (S0 & S1 & S2 & S3 & S4 & S5 & S6). fold n1 n2 in S1, S2, S3, S4, S5. pose proof len_sel as Ls.
  induction k as [k IH] using lt_wf_ind. intros row ci item x e n Hr Hc Hx E Hi rest Lk. pose proof (elem_bytes_pos e) as Eb.
  assert (Rs: rest_slots e n (o + x) item (col ci) = run_slots e (Z.to_nat (n - item)) (o + x) (col ci) item).
  { unfold rest_slots, upto. rewrite run_elems, map_map. reflexivity. }
  rewrite Rs. apply (cell_outcome row ci e n); auto; [lia|]. cbv zeta. rewrite Z2Nat.id by lia.
  set (z := x + (n - item) * elem_bytes e). intro Hz. assert (Zp: 0 <= z) by (unfold z; assert (0 <= (n - item) * elem_bytes e) by (apply Z.mul_nonneg_nonneg; lia); lia).
  destruct rest as [|c' rest'] eqn:Er; unfold rest in Er; clear rest.
  - right. split; [reflexivity|]. apply app_eq_nil in Er as [E1 E2]. assert (ci = len sel - 1).
    { apply (f_equal (@length Z)) in E1. rewrite skipn_length in E1. cbn [length] in E1. unfold len in *. lia. }
    split; auto. split; [|exact N]. destruct (Z.to_nat (n2 - 1 - row)) eqn:Z0; [lia|]. cbn [repeat concat] in E2. apply app_eq_nil in E2 as [E2 _]. contradiction.
  - left. assert (Nl: ~ (ci = len sel - 1 /\ row = n2 - 1)).
    { intros [-> ->]. replace (Z.to_nat (n2 - 1 - (n2 - 1))) with O in Er by lia. cbn [repeat concat] in Er.
      rewrite app_nil_r, skipn_all2 in Er by (unfold len; lia). discriminate. }
    pose proof (move_on row ci n z Hr Hc ltac:(lia) ltac:(lia) Nl) as Mv. cbv zeta in Mv.
    set (ci' := if ci =? len sel - 1 then 0 else ci + 1) in *. set (row' := if ci =? len sel - 1 then row + 1 else row) in *.
    assert (Nx: c' = col ci' /\ 0 <= ci' < len sel /\ 0 <= row' < n2 /\
                rest' = skipn (Z.to_nat (ci' + 1)) sel ++ concat (repeat sel (Z.to_nat (n2 - 1 - row')))).
    { assert (Sk: forall i, 0 <= i < len sel -> skipn (Z.to_nat i) sel = col i :: skipn (Z.to_nat (i + 1)) sel).
      { intros i Hj. unfold col_at. replace (Z.to_nat (i + 1)) with (S (Z.to_nat i)) by lia.
        assert (Hl: (Z.to_nat i < length sel)%nat) by (unfold len in Hj; lia). revert Hl. generalize (Z.to_nat i). clear.
        induction sel as [|a l IHl]; intros [|j] H; cbn [length] in H; try lia; [reflexivity|]. cbn [skipn nth]. apply IHl. lia. }
      unfold ci', row'. destruct (ci =? len sel - 1) eqn:Lc.
      - rewrite skipn_all2 in Er by (unfold len in *; lia). cbn [app] in Er.
        replace (Z.to_nat (n2 - 1 - row)) with (S (Z.to_nat (n2 - 1 - (row + 1)))) in Er by lia. cbn [repeat concat] in Er.
        assert (E0: sel = col 0 :: skipn (Z.to_nat (0 + 1)) sel) by (rewrite <- (Sk 0) by lia; reflexivity).
        rewrite E0 in Er at 1. cbn [app] in Er. inversion Er. repeat split; try lia.
      - rewrite (Sk (ci + 1)) in Er by lia. cbn [app] in Er. inversion Er. repeat split; try lia. }
    destruct Nx as (-> & Hc' & Hr' & ->). clearbody ci' row'.
    destruct (facts ci' Hc') as (e2 & k2 & E2 & X2 & K2 & C1 & C2 & C3). fold cs n1 in C1, C2.
    cbn [places]. fold n1 cs. set (y := forward n1 z (cs (col ci'))) in *. rewrite E2, (field_bytes_elem t) by auto.
    pose proof (forward_bound z (cs (col ci')) ltac:(lia)) as Fb. fold y in Fb.
    assert (Pl: forall l, place_slots d t o ((y, col ci') :: l) = rest_slots e2 k2 (o + y) 0 (col ci') ++ place_slots d t o l).
    { intro l. unfold place_slots. cbn [flat_map fst snd]. rewrite E2. cbn [cell_slots]. f_equal. unfold rest_slots, elems.
      rewrite Z.sub_0_r. apply map_ext. intro j. reflexivity. }
    rewrite Pl. split.
    + assert (rest_slots e2 k2 (o + y) 0 (col ci') <> []); [|destruct (rest_slots e2 k2 (o + y) 0 (col ci')); [contradiction|discriminate]].
      unfold rest_slots, upto. intro Q. apply map_eq_nil in Q. apply map_eq_nil in Q. replace (Z.to_nat (k2 - 0)) with (S (Z.to_nat (k2 - 1))) in Q by lia. discriminate.
    + eexists. split; [exact Mv|]. replace (y + k2 * elem_bytes e2) with (y + (k2 - 0) * elem_bytes e2) by lia.
      eapply IH; [|exact Hr'|exact Hc'|lia|exact E2|lia|reflexivity]. rewrite <- Lk. cbn [length]. lia.
Qed.
End Late.

(** ** The tables of a file *)

Lemma index_past {A} (l : list A) i : len l <= i -> index l i = Panic.
Proof.
  intro H. unfold index. destruct (i <? 0) eqn:X; [reflexivity|].
  assert (E: nth_error l (Z.to_nat i) = None) by (apply nth_error_None; unfold len in H; lia). rewrite E. reflexivity.
Qed.

Lemma select_at d t o sel0 ids row ci item x pos st sel : sort (flat_map (resolve t) ids) = sel ->
  select_fields (at_ d t o true sel0 row ci item x pos st) ids = set_first (at_ d t o true sel row ci item x pos st) true.
Proof. intro E. unfold select_fields. cbn [at_ tb_ctx]. rewrite E. reflexivity. Qed.

Lemma select_first m d t o sel row ci item x f : 0 <= ci < len sel -> format t (col_at sel ci) = Some f ->
  0 <= o -> 0 <= x -> 0 <= column_start (bt_tforms t) (col_at sel ci) < 2 ^ 60 -> o + x < 2 ^ 62 ->
  table_next m (set_first (at_ d t o true sel row ci item x (o + x) InMain) true)
  = table_next m (sx d t o sel row ci item (x + column_start (bt_tforms t) (col_at sel ci))).
Proof.
  intros Hc E Ho Hx Hs Hb. unfold table_next, set_first, sx, at_.
  cbn [tb_reader tb_state tb_cols tb_offsets tb_ctx tb_col tb_item tb_off tb_main tb_start tb_first tb_row tb_heap].
  rewrite (col_index t sel ci) by lia. rewrite (offsets_index _ _ _ E).
  rewrite as_i64_small by lia. unfold seek_by. cbn [tb_reader tb_off].
  rewrite seek_relative_ok by (cbn [rd_pos]; lia). cbn [rd_data rd_pos]. rewrite as_usize_small by lia.
  rewrite u64_result_small by lia. unfold set_off, set_reader.
  cbn [tb_reader tb_state tb_cols tb_offsets tb_ctx tb_col tb_item tb_off tb_main tb_start tb_first tb_row tb_heap].
  rewrite Z.add_assoc. reflexivity.
Qed.

Lemma reads_next m d e s s' l : table_next m s = table_next m s' -> reads m d e s' l -> reads m d e s l.
Proof.
  intros E (vs & A & B & C).
  assert (Go: forall k, fst (table_run m s (repeat TNext k)) = fst (table_run m s' (repeat TNext k))).
  { intros [|k]; [reflexivity|]. cbn [repeat table_run table_do]. rewrite E. reflexivity. }
  exists vs. split; [exact A|]. split.
  - intro H. destruct (B H) as (ws & v & E1 & R). exists ws, v. split; [exact E1|]. rewrite Go. exact R.
  - intros H n. rewrite Go. apply (C H).
Qed.

Lemma col_all t i : 0 <= i < len (bt_tforms t) -> col_at (all_columns t) i = i.
Proof.
  intro H. unfold col_at, all_columns, upto. rewrite (nth_indep _ 0 (Z.of_nat 0)).
  - rewrite map_nth, seq_nth by lia. lia.
  - rewrite map_length, seq_length. lia.
Qed.

Lemma fixed_format t c f : Forall fixed_width (bt_tforms t) -> format t c = Some f -> fixed_width f.
Proof. intros F E. apply format_nth in E as [_ E]. apply nth_error_In in E. rewrite Forall_forall in F. auto. Qed.

(** The places of a walk over a table of fixed columns. *)
Lemma inv_elem d t o s row e p c k left : Forall fixed_width (bt_tforms t) ->
  inv d t o true (all_columns t) s row (SElem e p c k :: left) ->
  0 <= row < bt_naxis2 t /\ 0 <= c < len (bt_tforms t) /\ 0 <= k /\
  s = at_ d t o true (all_columns t) row c k (p - o) (o + (p - o)) InMain /\
  exists n, format t c = Some (TElem e n) /\ k < n /\
    p - o = row * bt_naxis1 t + column_start (bt_tforms t) c + k * elem_bytes e.
Proof.
  intros F I. remember (SElem e p c k :: left) as l eqn:El.
  assert (Ls: len (all_columns t) = len (bt_tforms t)).
  { unfold all_columns, upto, len. rewrite map_length, seq_length. lia. }
  destruct I as [ci item Hc | row ci e' n item Hr Hc E Hi | row ci f e' Hr Hc E De | row ci f e' n item p0 Hr Hc E De Hh En Hi Ep].
  - discriminate.
  - rewrite col_all in E, El by lia. unfold in_cell. rewrite col_all by lia.
    assert (Ce: cell d t o true row ci = elems e' n (o + row * bt_naxis1 t + column_start (bt_tforms t) ci) ci).
    { unfold cell. rewrite E. reflexivity. }
    rewrite Ce, skipn_elems in El by lia. cbn [app] in El. inversion El; subst. unfold base.
    replace (o + row * bt_naxis1 t + column_start (bt_tforms t) c + k * elem_bytes e - o)
      with (row * bt_naxis1 t + column_start (bt_tforms t) c + k * elem_bytes e) by lia.
    split; [lia|]. split; [lia|]. split; [lia|]. split; [reflexivity|]. exists n. repeat split; try lia. exact E.
  - pose proof (fixed_format t _ f F E) as W. destruct f; cbn in *; [discriminate|contradiction|contradiction].
  - pose proof (fixed_format t _ f F E) as W. destruct f; cbn in *; [discriminate|contradiction|contradiction].
Qed.
(** Also at the end. *)
Lemma inv_main_at d lim t o s row l : Forall fixed_width (bt_tforms t) -> table_present d t o ->
  columns_readable d lim t o true (all_columns t) -> inv d t o true (all_columns t) s row l ->
  exists r ci k x, s = at_ d t o true (all_columns t) r ci k x (o + x) InMain /\ 0 <= x <= bt_naxis1 t * bt_naxis2 t.
Proof.
  intros F Pr Re I. pose proof (size_small d t o Pr) as (S1 & S2 & S3 & S4 & S5 & S6 & S7).
  destruct I as [ci item Hc | row ci e' n item Hr Hc E Hi | row ci f e' Hr Hc E De | row ci f e' n item p0 Hr Hc E De Hh En Hi Ep].
  - do 4 eexists. split; [reflexivity|]. lia.
  - do 4 eexists. split; [reflexivity|]. destruct (col_facts d lim t o true _ Pr Re ci Hc) as (f' & E' & C & B1 & B2 & B3 & B4).
    rewrite E in E'. inversion E'; subst f'. pose proof (fixed_format t _ _ F E) as [W1 W2].
    rewrite (field_bytes_elem t) in B3, B4 by exact W1. pose proof (elem_bytes_pos e').
    apply base_range; auto; nia.
  - pose proof (fixed_format t _ f F E) as W. destruct f; cbn in *; [discriminate|contradiction|contradiction].
  - pose proof (fixed_format t _ f F E) as W. destruct f; cbn in *; [discriminate|contradiction|contradiction].
Qed.

Lemma requested_format t ids sel c : Forall fixed_width (bt_tforms t) -> requested t ids sel -> In c sel ->
  exists f, format t c = Some f /\ fixed_width f.
Proof.
  intros F (_ & l & A & P) I. apply (Permutation_in _ P) in I.
  assert (R: 0 <= c < len (bt_tforms t)).
  { revert I. clear P. induction A; intro I; [destruct I| |auto]. destruct I as [->|I]; auto. }
  unfold format. destruct (c <? 0) eqn:X; [lia|]. destruct (nth_error (bt_tforms t) (Z.to_nat c)) as [f|] eqn:E.
  - exists f. split; [reflexivity|]. apply nth_error_In in E. rewrite Forall_forall in F. auto.
  - apply nth_error_None in E. unfold len in R. lia.
Qed.

Section File.
Variables (m : mode) (d : list Z) (f : fits) (h : hdu) (f' : fits) (t : bintable).
Hypothesis Oc : octets d.
Hypothesis Da : rd_data (f_reader f) = d.
Hypothesis Po : 0 <= rd_pos (f_reader f).
Hypothesis Nx : next m f = (IOk h, f').
Hypothesis Xt : h_xt h = XtBin t.
Hypothesis Ti : table_inside d t (h_offset h).
Hypothesis L62 : len d < 2 ^ 62.
Hypothesis Nc : bt_tforms t <> [].
Hypothesis Fw : Forall fixed_width (bt_tforms t).

Let o := h_offset h.
Let Pr : table_present d t o := file_present m d f h f' t Oc Da Po Nx Xt Ti.

Lemma history_inv before r l :
  let from := slots_from d t o true (all_columns t) in
  proper t from (from 0) before ->
  standing t (table_row d t o) 0 (table_row d t o 0) before = (r, l) ->
  columns_readable d (len d) t o true (all_columns t) /\
  inv d t o true (all_columns t) (snd (table_run m (fresh d t o) before)) r l.
Proof.
  intros from Pp St. pose proof (fixed_readable d h t Fw) as Re. fold o in Re. split; [exact Re|].
  pose proof (fresh_inv d (len d) t o true Pr Re Nc) as I. rewrite read_the_heap_true in I.
  assert (Es: from 0 = row_of d t o true (all_columns t) 0 ++ from (0 + 1)).
  { apply (slots_from_step d t o true (all_columns t) 0). destruct Pr as (_ & _ & _ & N2 & _). lia. }
  rewrite Es in Pp.
  exact (walk_standing m d (len d) t o true (all_columns t) ltac:(lia) Pr Re (upto_sorted _) (columns_ne t Nc) before _ _ _ r _ I Pp St).
Qed.

Lemma table_late :
  exists s, get_table m f' t = Ok s /\ forall before r e p c k left ids sel,
    let from := slots_from d t o true (all_columns t) in
    proper t from (from 0) before ->
    standing t (table_row d t o) 0 (table_row d t o 0) before = (r, SElem e p c k :: left) ->
    Forall id_ok ids -> requested t ids sel -> len sel < 2 ^ 64 ->
    let s' := select_fields (snd (table_run m s before)) ids in
    (len sel <= c -> fst (table_run m s' [TNext]) = [TPanic]) /\
    (forall c' e' n, nth_error sel (Z.to_nat c) = Some c' -> format t c' = Some (TElem e' n) -> k < n ->
       let x := p - o + column_start (bt_tforms t) c' in
       let after := skipn (Z.to_nat (c + 1)) sel ++ concat (repeat sel (Z.to_nat (bt_naxis2 t - 1 - r))) in
       let slots := rest_slots e' n (o + x) k c' ++ place_slots d t o (places t (x + (n - k) * elem_bytes e') after) in
       let rows_end := o + bt_naxis1 t * bt_naxis2 t in
       in_file d rows_end slots -> reads m d rows_end s' slots).
Proof.
  exists (fresh d t o). split; [apply (file_table m d f h f' t Oc Da Po Nx Xt Ti)|].
  intros before r e p c k left ids sel from Pp St Io Rq L64 s'.
  destruct (history_inv before r _ Pp St) as [Re I].
  destruct (inv_elem d t o _ r e p c k left Fw I) as (Hr & Hc & Hk & Es & n0 & E0 & Hn0 & Ep).
  pose proof (file_lengths m d f h f' t Oc Da Po Nx Xt) as Le.
  pose proof (requested_sort t ids sel Le Io Rq) as Eq.
  assert (Sel: s' = set_first (at_ d t o true sel r c k (p - o) (o + (p - o)) InMain) true).
  { unfold s'. rewrite Es. apply select_at. exact Eq. }
  rewrite Sel. split.
  - intro Lc. cbn [table_run table_do]. unfold table_next. cbn [set_first at_ tb_cols tb_col]. rewrite index_past by exact Lc. reflexivity.
  - intros c' e' n Nth Ef Hkn x after slots rows_end Fi.
    assert (Lc: 0 <= c < len sel).
    { assert (Q: nth_error sel (Z.to_nat c) <> None) by congruence. apply nth_error_Some in Q. unfold len. lia. }
    assert (Cc: col_at sel c = c') by (unfold col_at; apply nth_error_nth; exact Nth).
    assert (Ne: sel <> []) by (intro Q; rewrite Q in Lc; unfold len in Lc; simpl in Lc; lia).
    assert (Fx: forall c, In c sel -> exists f, format t c = Some f /\ fixed_width f) by (intros; eapply requested_format; eauto).
    destruct (fixed_facts d t o sel Pr Fx c Lc) as (e2 & n2 & E2 & X2 & N2 & C1 & C2 & C3). rewrite Cc in E2, C1, C2.
    pose proof (small d t o sel Pr Fx L64 Ne L62) as (S0 & S1 & S2 & S3 & S4 & S5 & S6).
    assert (Xp: 0 <= p - o <= bt_naxis1 t * bt_naxis2 t).
    { destruct (inv_main_at d (len d) t o _ r _ Fw Pr Re I) as (r1 & ci1 & k1 & x1 & Q1 & Q2).
      rewrite Es in Q1. apply (f_equal tb_off) in Q1. cbn [at_ tb_off] in Q1. lia. }
    eapply reads_next.
    { apply (select_first m d t o sel r c k (p - o) (TElem e' n)); try (rewrite Cc); auto; lia. }
    rewrite Cc. apply outcome_reads; [|exact Fi].
    pose proof (rounds m d t o sel Pr Fx L64 Ne L62 ltac:(lia) _ r c k x e' n Hr Lc ltac:(unfold x; lia)
                  ltac:(rewrite Cc; exact Ef) ltac:(lia) eq_refl) as O.
    rewrite Cc in O. exact O.
Qed.

Lemma seek_first ids sel sel0 row ci item x i : sort (flat_map (resolve t) ids) = sel -> sel <> [] ->
  (forall c, In c sel -> exists f, format t c = Some f /\ fixed_width f) -> len sel < 2 ^ 64 ->
  0 <= i < bt_naxis2 t -> 0 <= x <= bt_naxis1 t * bt_naxis2 t ->
  let y := i * bt_naxis1 t + column_start (bt_tforms t) (col_at sel 0) in
  seek_to_row m (select_fields (at_ d t o true sel0 row ci item x (o + x) InMain) ids) i
  = (Ok tt, set_first (at_ d t o true sel i 0 0 y (o + y) InMain) true) /\ 0 <= y < bt_naxis1 t * bt_naxis2 t.
Proof.
  intros Eq Ne Fx L64 Hi Hx y. rewrite (select_at _ _ _ _ _ _ _ _ _ _ _ sel Eq).
  pose proof (small d t o sel Pr Fx L64 Ne L62) as (S0 & S1 & S2 & S3 & S4 & S5 & S6).
  assert (Ls: 1 <= len sel) by (destruct sel as [|? l0]; [contradiction|]; rewrite len_cons; pose proof (len_nonneg l0); lia).
  destruct (fixed_facts d t o sel Pr Fx 0 ltac:(lia)) as (e & n & E & X3 & Hn & B1 & B2 & B3).
  assert (I63: 0 <= i * bt_naxis1 t /\ (i + 1) * bt_naxis1 t <= bt_naxis2 t * bt_naxis1 t).
  { split; [apply Z.mul_nonneg_nonneg; lia|apply Z.mul_le_mono_nonneg_r; lia]. }
  split; [|unfold y; lia].
  unfold seek_to_row. cbn [set_first at_ tb_ctx]. destruct (bt_naxis2 t <=? i) eqn:Big; [lia|].
  unfold row_off, set_pos. cbn [set_first at_ tb_ctx tb_cols tb_offsets tb_off tb_reader].
  rewrite !as_i64_small by lia. rewrite !i64_result_small by lia. cbn [bind]. rewrite (col_index t sel 0) by lia. cbn [bind].
  rewrite (offsets_index _ _ _ E). cbn [bind]. rewrite !as_i64_small by lia. rewrite !i64_result_small by lia. cbn [bind].
  rewrite !i64_result_small by lia. cbn [bind].
  rewrite seek_relative_ok by (cbn [rd_pos]; lia). rewrite as_usize_small by lia.
  unfold set_off, set_reader. cbn [set_first at_ tb_reader tb_state tb_cols tb_offsets tb_ctx tb_col tb_item tb_off tb_main tb_start tb_first tb_row tb_heap rd_data rd_pos].
  unfold set_first, at_, y. cbn [tb_reader tb_state tb_cols tb_offsets tb_ctx tb_col tb_item tb_off tb_main tb_start tb_first tb_row tb_heap].
  f_equal. f_equal. f_equal. lia.
Qed.

Lemma table_seek_first :
  exists s, get_table m f' t = Ok s /\ forall before ids sel c l e n i,
    let from := slots_from d t o true (all_columns t) in
    proper t from (from 0) before -> Forall id_ok ids -> requested t ids sel -> len sel < 2 ^ 64 ->
    sel = c :: l -> format t c = Some (TElem e n) -> 0 <= i < bt_naxis2 t ->
    let x := i * bt_naxis1 t + 2 * column_start (bt_tforms t) c in
    let slots := elems e n (o + x) c ++
                 place_slots d t o (places t (x + n * elem_bytes e) (l ++ concat (repeat sel (Z.to_nat (bt_naxis2 t - 1 - i))))) in
    let rows_end := o + bt_naxis1 t * bt_naxis2 t in
    in_file d rows_end slots ->
    exists s', seek_to_row m (select_fields (snd (table_run m s before)) ids) i = (Ok tt, s') /\ reads m d rows_end s' slots.
Proof.
  exists (fresh d t o). split; [apply (file_table m d f h f' t Oc Da Po Nx Xt Ti)|].
  intros before ids sel c l e n i from Pp Io Rq L64 Sel Ef Hi x slots rows_end Fi.
  destruct (standing t (table_row d t o) 0 (table_row d t o 0) before) as [r l0] eqn:St.
  destruct (history_inv before r _ Pp St) as [Re I].
  destruct (inv_main_at d (len d) t o _ r _ Fw Pr Re I) as (r1 & ci1 & k1 & x1 & Es & Q2). rewrite Es.
  pose proof (file_lengths m d f h f' t Oc Da Po Nx Xt) as Le.
  pose proof (requested_sort t ids sel Le Io Rq) as Eq.
  assert (Fx: forall c, In c sel -> exists f, format t c = Some f /\ fixed_width f) by (intros; eapply requested_format; eauto).
  assert (Ne: sel <> []) by (rewrite Sel; discriminate).
  assert (Ls: 1 <= len sel) by (rewrite Sel, len_cons; pose proof (len_nonneg l); lia).
  assert (Cc: col_at sel 0 = c) by (rewrite Sel; reflexivity).
  destruct (seek_first ids sel (all_columns t) r1 ci1 k1 x1 i Eq Ne Fx L64 Hi Q2) as [Sk Yb]. rewrite Cc in Sk, Yb.
  eexists. split; [exact Sk|].
  pose proof (small d t o sel Pr Fx L64 Ne L62) as (S0 & S1 & S2 & S3 & S4 & S5 & S6).
  destruct (fixed_facts d t o sel Pr Fx 0 ltac:(lia)) as (e2 & n2 & E2 & X2 & N2 & C1 & C2 & C3). rewrite Cc in E2, C1, C2.
  rewrite Ef in E2. inversion E2; subst e2 n2. clear E2.
  eapply reads_next.
  { apply (select_first m d t o sel i 0 0 _ (TElem e n)); try (rewrite Cc); auto; lia. }
  rewrite Cc. apply outcome_reads; [|exact Fi].
  assert (Xq: i * bt_naxis1 t + column_start (bt_tforms t) c + column_start (bt_tforms t) c = x) by (unfold x; lia). rewrite Xq.
  pose proof (rounds m d t o sel Pr Fx L64 Ne L62 ltac:(lia) _ i 0 0 x e n Hi ltac:(lia) ltac:(lia)
                ltac:(rewrite Cc; exact Ef) ltac:(lia) eq_refl) as O.
  rewrite Cc in O. rewrite Z.sub_0_r in O.
  assert (Rs: rest_slots e n (o + x) 0 c = elems e n (o + x) c).
  { unfold rest_slots, elems. rewrite Z.sub_0_r. apply map_ext. intro j. reflexivity. }
  rewrite Rs in O. replace (skipn (Z.to_nat (0 + 1)) sel) with l in O by (rewrite Sel; reflexivity). exact O.
Qed.
End File.

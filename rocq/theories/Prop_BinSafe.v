(** Loops over binary tables of files that may be damaged (C70), in builds without overflow
    checks.  [SpecBinSafe] holds the specification side. *)

From Coq Require Import String List Lia.
From Verif Require Import Base Utf8 Text Card Reader Header Xtension Bytes Fits ImageIt BinTable.
From Verif Require Import SpecUtf8 SpecCard SpecHeader SpecXt SpecFits SpecImage SpecBin SpecBinSafe.
From Verif Require Import HeaderProofs FitsProofs4 BinProofs3 BinProofs4 Prop_Fits Prop_Bin.
Local Open Scope string_scope.
Local Open Scope list_scope.
Local Open Scope Z_scope.

(** Every table found in a file, complete or not, can be opened. *)
Theorem C70_opens : forall d f h f' t,
  octets d -> rd_data (f_reader f) = d -> 0 <= rd_pos (f_reader f) -> next Wrapping f = (IOk h, f') ->
  h_xt h = XtBin t -> exists s, get_table Wrapping f' t = Ok s.
Proof. exact table_opens. Qed.
Print Assumptions C70_opens.

(** Whatever the bytes of the rows, the descriptors and the heap are: no sequence of [next] and
    [seek_to_row] calls panics. *)
Theorem C70_no_panic : forall d t o s s1, found Wrapping d t o s -> prepared t s s1 -> bt_naxis1 t <> 0 ->
  forall ops, ~ In TPanic (fst (table_run Wrapping s1 ops)).
Proof. exact table_safe. Qed.
Print Assumptions C70_no_panic.

(** After any such sequence, a loop over the values comes to its end, however many rows the header
    promises and however long the arrays claim to be. *)
Theorem C70_ends : forall d t o s s1, found Wrapping d t o s -> prepared t s s1 -> bt_naxis1 t <> 0 ->
  forall ops n, total (map field_bytes (bt_tforms t)) < 2 ^ 60 -> enough_calls (len d) <= Z.of_nat n ->
  In TEnd (fst (table_run Wrapping (snd (table_run Wrapping s1 ops)) (repeat TNext n))).
Proof. exact table_ends. Qed.
Print Assumptions C70_ends.

(** The same for the loop over the rows, each of which is made by such a loop ([fuel] bounds its
    steps in the model). *)
Theorem C70_rows_end : forall d t o s s1, found Wrapping d t o s -> prepared t s s1 -> bt_naxis1 t <> 0 ->
  forall fuel n, total (map field_bytes (bt_tforms t)) < 2 ^ 60 -> enough_calls (len d) <= Z.of_nat fuel ->
  Forall (fun y => match y with RowOf _ | RowEnd => True | _ => False end) (row_run Wrapping fuel (row_iter s1) n) /\
  (enough_calls (len d) <= Z.of_nat n -> In RowEnd (row_run Wrapping fuel (row_iter s1) n)).
Proof. exact rows_end. Qed.
Print Assumptions C70_rows_end.

(** A table whose rows have no bytes (columns of less than eight bits) has no values. *)
Theorem C70_no_width : forall m d t o s n, found m d t o s -> bt_tforms t <> [] -> bt_naxis1 t = 0 ->
  fst (table_run m s (repeat TNext n)) = repeat TEnd n.
Proof. exact no_width. Qed.
Print Assumptions C70_no_width.

(** A table that promises 1000000 rows, in a file that ends after a row and a half; the arrays of
    both rows claim more elements than there are bytes. *)
Definition ex_damaged : list Z :=
  ex_table_file ["NAXIS1  = 10"; "NAXIS2  = 1000000"; "PCOUNT  = 12"; "THEAP   = 0"; "TFIELDS = 2"; "TFORM1  = 'I'"; "TFORM2  = '1PJ(2)'"]
                [0; 9;   0; 1; 0; 2;  0; 0; 0; 4;     0; 8;   0; 0; 0].
Definition ex_cut : list Z := firstn (Z.to_nat 5775) ex_damaged.
Example C70_ex :
  exists t o s, found Wrapping ex_cut t o s /\ bt_naxis1 t <> 0 /\ prepared t s s /\
    prepared t s (read_the_heap (select_fields s [CIndex 1; CIndex 5]) false) /\
    total (map field_bytes (bt_tforms t)) = 10 /\ bt_naxis2 t = 1000000 /\ o = 5760 /\ len ex_cut = 5775 /\
    fst (table_run Wrapping s (repeat TNext 5))
    = [TValue (DVal TyI [9] 0 0); TValue (DVal TyJ [2 * 65536] 1 0); TValue (DVal TyJ [4 * 65536 + 8] 1 1);
       TEnd; TEnd] /\
    fst (table_run Wrapping s [TNext; TSeek 1; TNext; TNext; TSeek 0; TNext; TSeek 999999; TNext])
    = [TValue (DVal TyI [9] 0 0); TDone; TValue (DVal TyI [8] 0 0); TEnd; TDone; TValue (DVal TyI [256] 0 0); TDone; TEnd] /\
    row_run Wrapping 5 (row_iter s) 2 = [RowEnd; RowEnd].
Proof.
  destruct (ex_run Wrapping ex_cut (fun t o s =>
    bt_tforms t = [TElem TyI 1; TDesc32 TyJ] /\ bt_naxis1 t = 10 /\ bt_naxis2 t = 1000000 /\ o = 5760 /\
    fst (table_run Wrapping s (repeat TNext 5))
    = [TValue (DVal TyI [9] 0 0); TValue (DVal TyJ [2 * 65536] 1 0); TValue (DVal TyJ [4 * 65536 + 8] 1 1);
       TEnd; TEnd] /\
    fst (table_run Wrapping s [TNext; TSeek 1; TNext; TNext; TSeek 0; TNext; TSeek 999999; TNext])
    = [TValue (DVal TyI [9] 0 0); TDone; TValue (DVal TyI [8] 0 0); TEnd; TDone; TValue (DVal TyI [256] 0 0); TDone; TEnd] /\
    row_run Wrapping 5 (row_iter s) 2 = [RowEnd; RowEnd])) as (t & o & s & F & T & N & R).
  1-3: vm_compute; reflexivity || discriminate.
  { vm_compute. repeat split. }
  exists t, o, s. split; [exact F|]. split; [lia|]. split; [constructor; rewrite T; discriminate|].
  split; [constructor; apply (prepared_some _ _ _ (CIndex 1) 1); [|left; reflexivity|reflexivity|rewrite T; unfold len; cbn; lia]|].
  { repeat constructor; discriminate. }
  split; [rewrite T; reflexivity|]. destruct R as (R1 & R2 & R3). do 2 (split; [assumption|]).
  split; [vm_compute; reflexivity|exact R3].
Qed.

(** After a value that is not completely in the file, [seek_to_row] goes astray (C34): row 0 is in
    the file and starts with 9, but 256 is read after the seek, which is made relative to a place
    the reader is no longer at. *)
Theorem C34_cut_refuted : forall m,
  exists t o s, found m ex_cut t o s /\ bt_tforms t = [TElem TyI 1; TDesc32 TyJ] /\ o + bt_naxis1 t <= len ex_cut /\
    fst (table_run m s [TNext; TSeek 0; TNext]) = [TValue (DVal TyI [9] 0 0); TDone; TValue (DVal TyI [9] 0 0)] /\
    fst (table_run m s [TSeek 1; TNext; TNext; TSeek 0; TNext])
    = [TDone; TValue (DVal TyI [8] 0 0); TEnd; TDone; TValue (DVal TyI [256] 0 0)].
Proof. ex_check. Qed.
Print Assumptions C34_cut_refuted.

(** With overflow checks the length of such an array is enough for a panic. *)
Theorem C70_checked_refuted :
  let d := ex_table_file ["NAXIS1  = 16"; "NAXIS2  = 1"; "PCOUNT  = 0"; "TFIELDS = 1"; "TFORM1  = '1QJ(2)'"]
                         [128; 0; 0; 0; 0; 0; 0; 0;  0; 0; 0; 0; 0; 0; 0; 0] in
  exists t o s, found Checked d t o s /\ bt_naxis1 t <> 0 /\ prepared t s s /\
    fst (table_run Checked s [TNext]) = [TPanic].
Proof.
  intro d. destruct (ex_run Checked d (fun t o s => bt_tforms t = [TDesc64 TyJ] /\ bt_naxis1 t = 16 /\
    fst (table_run Checked s [TNext]) = [TPanic])) as (t & o & s & F & T & N & R).
  1-3: vm_compute; reflexivity || discriminate.
  { vm_compute. repeat split. }
  exists t, o, s. split; [exact F|]. split; [lia|]. split; [constructor; rewrite T; discriminate|exact R].
Qed.
Print Assumptions C70_checked_refuted.

(** Rows without bytes of which a column is selected: a division by zero, in every build. *)
Theorem C70_no_width_refuted : forall m,
  let d := ex_table_file ["NAXIS1  = 0"; "NAXIS2  = 2"; "PCOUNT  = 0"; "TFIELDS = 2"; "TFORM1  = '4X'"; "TFORM2  = '3X'"] [1; 2; 3] in
  exists t o s, found m d t o s /\ bt_naxis1 t = 0 /\ prepared t s (select_fields s [CIndex 1]) /\
    fst (table_run m (select_fields s [CIndex 1]) [TNext]) = [TPanic].
Proof.
  intros m d. destruct (ex_run m d (fun t o s => len (bt_tforms t) = 2 /\ bt_naxis1 t = 0 /\
    fst (table_run m (select_fields s [CIndex 1]) [TNext]) = [TPanic])) as (t & o & s & F & T & N & R).
  1-3: destruct m; vm_compute; reflexivity || discriminate.
  { destruct m; vm_compute; repeat split. }
  exists t, o, s. split; [exact F|]. split; [exact N|]. split; [|exact R].
  apply (prepared_some _ _ _ (CIndex 1) 1); [|left; reflexivity|reflexivity|lia]. repeat constructor; discriminate.
Qed.
Print Assumptions C70_no_width_refuted.

(** Repeat counts whose sum does not fit in 64 bits: the offset of a column is negative, and the
    reader goes back to the same row again and again, 10^18 times in a file of 8640 bytes. *)
Definition ex_circle : list Z :=
  ex_table_file (["NAXIS1  = 10"; "NAXIS2  = 1000000000000000000"; "PCOUNT  = 0"; "TFIELDS = 11"; "TFORM1  = 'B'"] ++
                 ["TFORM2  = '2305843009213693950B'"; "TFORM3  = '2305843009213693950B'";
                  "TFORM4  = '2305843009213693950B'"; "TFORM5  = '2305843009213693950B'";
                  "TFORM6  = '2305843009213693950B'"; "TFORM7  = '2305843009213693950B'";
                  "TFORM8  = '2305843009213693950B'"; "TFORM9  = '2305843009213693950B'";
                  "TFORM10 = 'B'"; "TFORM11 = '24B'"]) (repeat 7 100).
Theorem C70_circle_refuted :
  len ex_circle = 8640 /\
  exists t o s, found Wrapping ex_circle t o s /\ bt_naxis1 t <> 0 /\ prepared t s (select_fields s [CIndex 0; CIndex 9]) /\
    forall n, Z.of_nat n < 10 ^ 18 ->
    ~ In TEnd (fst (table_run Wrapping (select_fields s [CIndex 0; CIndex 9]) (repeat TNext n))).
Proof.
  split; [vm_compute; reflexivity|].
  destruct (ex_run Wrapping ex_circle (fun t o s => exists offs,
    len (bt_tforms t) = 11 /\ bt_naxis1 t = 10 /\ bt_naxis2 t = 10 ^ 18 /\
    index (bt_tforms t) 0 = Ok (TElem TyB 1) /\ index (bt_tforms t) 9 = Ok (TElem TyB 1) /\
    index offs 0 = Ok 0 /\ index offs 9 = Ok (2 ^ 64 - 15) /\
    s = mk_table (mk_reader ex_circle 5760) InMain (upto 11) offs t 0 0 0 (10 ^ 19) 5760 false 0 true))
    as (t & o & s & F & offs & T & N & N2 & T0 & T9 & O0 & O9 & Es).
  1-3: vm_compute; reflexivity || discriminate.
  { set (offs := match ex_find Wrapping ex_circle with Some (_, _, s) => tb_offsets s | None => [] end).
    vm_compute in offs. set (x := ex_find Wrapping ex_circle). vm_compute in x. subst x. cbv iota beta. exists offs. subst offs.
    vm_compute. repeat split. }
  exists t, o, s. split; [exact F|]. split; [lia|].
  split; [apply (prepared_some _ _ _ (CIndex 9) 9); [repeat constructor; discriminate|right; left; reflexivity|reflexivity|lia]|].
  intros n L. destruct n as [|n]; [cbn [repeat table_run fst In]; tauto|].
  assert (Lc: len ex_circle = 8640) by (vm_compute; reflexivity).
  cbn [repeat table_run table_do].
  rewrite (circle_select ex_circle t offs 5760 (10 ^ 19) 5760 _ O0 ltac:(lia)).
  2:{ rewrite Es. unfold select_fields, set_first, set_cols.
      cbn [tb_reader tb_state tb_cols tb_offsets tb_ctx tb_col tb_item tb_off tb_main tb_start tb_first tb_row tb_heap].
      cbn [flat_map resolve]. rewrite T. reflexivity. }
  exact (proj1 (circle ex_circle t offs 5760 (10 ^ 19) 5760 T0 T9 O0 O9 N N2 eq_refl ltac:(lia) ltac:(lia)
                       (S n) 0 (S n) ltac:(lia) eq_refl ltac:(lia))).
Qed.
Print Assumptions C70_circle_refuted.

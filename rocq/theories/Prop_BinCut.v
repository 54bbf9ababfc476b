(** Binary tables of which the end is missing (C71): downloads that broke off, files still being
    written.  [d] is the file there is, [d ++ e] the file as it was meant to be; [SpecBinCut] holds
    the specification side. *)

From Coq Require Import String List Lia ZifyBool.
From Verif Require Import Base Utf8 Text Card Reader Header Xtension Bytes Fits ImageIt BinTable.
From Verif Require Import SpecUtf8 SpecCard SpecHeader SpecXt SpecFits SpecImage SpecBin SpecBinCut.
From Verif Require Import HeaderProofs FitsProofs4 BinProofs3 BinProofs5 Prop_Fits Prop_Bin.
Local Open Scope string_scope.
Local Open Scope list_scope.
Local Open Scope Z_scope.

(** Iterating gives the values up to the first one that is not completely in the file, each as it
    would be read from the whole file, and then the end for ever; the row iterator gives the rows
    up to the first one that is not complete.  [b] says whether arrays are followed into the heap,
    which then comes after the rows. *)
Theorem C71_cut : forall m d e f h f' t,
  octets (d ++ e) -> rd_data (f_reader f) = d -> 0 <= rd_pos (f_reader f) -> next m f = (IOk h, f') ->
  h_xt h = XtBin t -> table_inside (d ++ e) t (h_offset h) ->
  forall lim b, lim <= len (d ++ e) -> columns_readable (d ++ e) lim t (h_offset h) b (all_columns t) ->
  bt_tforms t <> [] ->
  (b = true -> bt_naxis1 t * bt_naxis2 t <= bt_theap t \/ Forall fixed_width (bt_tforms t)) ->
  exists s cells rows, get_table m f' t = Ok s /\
    Forall2 (slot_value d) (leading (within (len d)) (slots_from (d ++ e) t (h_offset h) b (all_columns t) 0)) cells /\
    (forall n, fst (table_run m (read_the_heap s b) (repeat TNext n)) = firstn n (map TValue cells ++ repeat TEnd n)) /\
    Forall2 (fun i cells => Forall2 (slot_value d) (row_slots (d ++ e) t (h_offset h) b (all_columns t) i) cells)
            (leading (fun i => forallb (within (len d)) (row_slots (d ++ e) t (h_offset h) b (all_columns t) i)) (rows_from t 0))
            rows /\
    forall fuel n, (1 <= fuel)%nat ->
      (forall i, In i (rows_from t 0) -> (List.length (row_slots (d ++ e) t (h_offset h) b (all_columns t) i) <= fuel)%nat) ->
      row_run m fuel (row_iter (read_the_heap s b)) n = firstn n (map RowOf rows ++ repeat RowEnd n).
Proof. intros m d e f h f' t O D P N X T lim b. exact (cut_cells m d e f h f' t O D P N X T lim b). Qed.
Print Assumptions C71_cut.

(** A table of numbers, logicals and characters, wherever the file ends: nothing is assumed of the
    bytes that are missing. *)
Theorem C71_fixed : forall m d f h f' t,
  octets d -> rd_data (f_reader f) = d -> 0 <= rd_pos (f_reader f) -> next m f = (IOk h, f') ->
  h_xt h = XtBin t -> table_laid_out d t (h_offset h) ->
  bt_tforms t <> [] -> Forall fixed_width (bt_tforms t) ->
  exists s cells rows, get_table m f' t = Ok s /\
    Forall2 (slot_value d) (leading (within (len d)) (slots_from d t (h_offset h) true (all_columns t) 0)) cells /\
    (forall n, fst (table_run m s (repeat TNext n)) = firstn n (map TValue cells ++ repeat TEnd n)) /\
    Forall2 (fun i cells => Forall2 (slot_value d) (row_slots d t (h_offset h) true (all_columns t) i) cells)
            (leading (fun i => forallb (within (len d)) (row_slots d t (h_offset h) true (all_columns t) i)) (rows_from t 0))
            rows /\
    forall fuel n, (1 <= fuel)%nat ->
      (forall i, In i (rows_from t 0) -> (List.length (row_slots d t (h_offset h) true (all_columns t) i) <= fuel)%nat) ->
      row_run m fuel (row_iter s) n = firstn n (map RowOf rows ++ repeat RowEnd n).
Proof. exact cut_fixed. Qed.
Print Assumptions C71_fixed.

(** The two rows of [ex_fixed], the second of which ends after three of its six bytes: a logical,
    two 16-bit integers and a character, then a logical and one integer.  The row iterator gives
    the first row only. *)
Definition ex_fixed_cut : list Z := firstn (Z.to_nat 5769) ex_fixed.
Example C71_fixed_ex : forall m,
  exists t o s, found m ex_fixed_cut t o s /\ table_laid_out ex_fixed_cut t o /\
    bt_tforms t <> [] /\ Forall fixed_width (bt_tforms t) /\ ~ table_inside ex_fixed_cut t o /\
    leading (within (len ex_fixed_cut)) (slots_from ex_fixed_cut t o true (all_columns t) 0)
    = [SElem TyL o 0 0; SElem TyI (o + 1) 1 0; SElem TyI (o + 3) 1 1; SElem TyA (o + 5) 2 0;
       SElem TyL (o + 6) 0 0; SElem TyI (o + 7) 1 0] /\
    fst (table_run m s (repeat TNext 8))
    = map TValue [DVal TyL [1] 0 0; DVal TyI [1] 1 0; DVal TyI [-2] 1 1; DVal TyA [65] 2 0; DVal TyL [0] 0 0; DVal TyI [256] 1 0]
      ++ [TEnd; TEnd] /\
    row_run m 4 (row_iter s) 3
    = [RowOf [DVal TyL [1] 0 0; DVal TyI [1] 1 0; DVal TyI [-2] 1 1; DVal TyA [65] 2 0]; RowEnd; RowEnd].
Proof.
  intro m. destruct (ex_run m ex_fixed_cut (fun t o s =>
    (bt_tforms t = [TElem TyL 1; TElem TyI 2; TElem TyA 1] /\ bt_naxis1 t = 6 /\ bt_naxis2 t = 2 /\ o = 5760 /\ len ex_fixed_cut = 5769) /\
    leading (within (len ex_fixed_cut)) (slots_from ex_fixed_cut t o true (all_columns t) 0)
    = [SElem TyL o 0 0; SElem TyI (o + 1) 1 0; SElem TyI (o + 3) 1 1; SElem TyA (o + 5) 2 0;
       SElem TyL (o + 6) 0 0; SElem TyI (o + 7) 1 0] /\
    fst (table_run m s (repeat TNext 8))
    = map TValue [DVal TyL [1] 0 0; DVal TyI [1] 1 0; DVal TyI [-2] 1 1; DVal TyA [65] 2 0; DVal TyL [0] 0 0; DVal TyI [256] 1 0]
      ++ [TEnd; TEnd] /\
    row_run m 4 (row_iter s) 3
    = [RowOf [DVal TyL [1] 0 0; DVal TyI [1] 1 0; DVal TyI [-2] 1 1; DVal TyA [65] 2 0]; RowEnd; RowEnd])) as (t & o & s & F & (T & N1 & N2 & E & L) & R).
  1-3: destruct m; vm_compute; reflexivity || discriminate.
  { destruct m; vm_compute; repeat split. }
  exists t, o, s. split; [exact F|]. split; [|split; [|split; [|split; [|exact R]]]].
  - unfold table_laid_out. rewrite T, N1, N2, E, L. repeat split; repeat constructor.
  - rewrite T. discriminate.
  - rewrite T. repeat constructor; discriminate.
  - unfold table_inside. rewrite N1, N2, E, L. lia.
Qed.

(** Two rows with an integer and an array in the heap; the file ends within the second array,
    [lost] is what is missing.  Following the arrays, the value [8] of the second row is read and
    the array is broken off after its first element; the row iterator gives one row.  With the
    descriptors instead of the arrays nothing is missing. *)
Definition ex_arrays : list Z :=
  ex_table_file ["NAXIS1  = 10"; "NAXIS2  = 2"; "PCOUNT  = 10"; "TFIELDS = 2"; "TFORM1  = 'I'"; "TFORM2  = '1PI(3)'"]
                [0; 9;   0; 0; 0; 2;  0; 0; 0; 0;     0; 8;   0; 0; 0; 3;  0; 0; 0; 4;   0; 1; 0; 2; 0; 3; 0; 4; 0; 5].
Definition ex_arrays_cut : list Z := firstn (Z.to_nat 5787) ex_arrays.
Definition ex_arrays_lost : list Z := skipn (Z.to_nat 5787) ex_arrays.
Example C71_arrays_ex : forall m,
  exists t o s, found m ex_arrays_cut t o s /\
    ex_arrays = ex_arrays_cut ++ ex_arrays_lost /\ octets ex_arrays /\ table_inside ex_arrays t o /\
    columns_readable ex_arrays (len ex_arrays) t o true (all_columns t) /\ columns_readable ex_arrays 0 t o false (all_columns t) /\
    bt_tforms t <> [] /\ bt_naxis1 t * bt_naxis2 t <= bt_theap t /\
    leading (within (len ex_arrays_cut)) (slots_from ex_arrays t o true (all_columns t) 0)
    = [SElem TyI o 0 0; SElem TyI (o + 20) 1 0; SElem TyI (o + 22) 1 1; SElem TyI (o + 10) 0 0; SElem TyI (o + 24) 1 0] /\
    fst (table_run m s (repeat TNext 7))
    = map TValue [DVal TyI [9] 0 0; DVal TyI [1] 1 0; DVal TyI [2] 1 1; DVal TyI [8] 0 0; DVal TyI [3] 1 0] ++ [TEnd; TEnd] /\
    row_run m 4 (row_iter s) 2 = [RowOf [DVal TyI [9] 0 0; DVal TyI [1] 1 0; DVal TyI [2] 1 1]; RowEnd] /\
    row_run m 4 (row_iter (read_the_heap s false)) 3
    = [RowOf [DVal TyI [9] 0 0; DVla32 2 0]; RowOf [DVal TyI [8] 0 0; DVla32 3 4]; RowEnd].
Proof.
  intro m. destruct (ex_run m ex_arrays_cut (fun t o s =>
    (bt_tforms t = [TElem TyI 1; TDesc32 TyI] /\ bt_naxis1 t = 10 /\ bt_naxis2 t = 2 /\ bt_theap t = 20 /\ o = 5760 /\ len ex_arrays = 8640) /\
    leading (within (len ex_arrays_cut)) (slots_from ex_arrays t o true (all_columns t) 0)
    = [SElem TyI o 0 0; SElem TyI (o + 20) 1 0; SElem TyI (o + 22) 1 1; SElem TyI (o + 10) 0 0; SElem TyI (o + 24) 1 0] /\
    fst (table_run m s (repeat TNext 7))
    = map TValue [DVal TyI [9] 0 0; DVal TyI [1] 1 0; DVal TyI [2] 1 1; DVal TyI [8] 0 0; DVal TyI [3] 1 0] ++ [TEnd; TEnd] /\
    row_run m 4 (row_iter s) 2 = [RowOf [DVal TyI [9] 0 0; DVal TyI [1] 1 0; DVal TyI [2] 1 1]; RowEnd] /\
    row_run m 4 (row_iter (read_the_heap s false)) 3
    = [RowOf [DVal TyI [9] 0 0; DVla32 2 0]; RowOf [DVal TyI [8] 0 0; DVla32 3 4]; RowEnd]))
    as (t & o & s & F & (T & N1 & N2 & Th & E & L) & R).
  1-3: destruct m; vm_compute; reflexivity || discriminate.
  { destruct m; vm_compute; repeat split. }
  exists t, o, s. split; [exact F|]. split; [symmetry; apply firstn_skipn|].
  split; [apply octetsb_ok; vm_compute; reflexivity|].
  assert (Rd: forall b lim, (b = true -> lim = 8640) -> columns_readable ex_arrays lim t o b (all_columns t)).
  { intros b lim Hb c I. unfold all_columns in I. rewrite T in I. unfold format. rewrite T, N1, N2, Th, E. cbn in I.
    destruct I as [<-|[<-|[]]].
    - exists (TElem TyI 1). split; [reflexivity|]. intros row _. cbn. split; [discriminate|lia].
    - exists (TDesc32 TyI). split; [reflexivity|]. intros row R'. cbn [cell_readable]. intro Hb'. rewrite (Hb Hb').
      assert (C: row = 0 \/ row = 1) by lia. destruct C as [->| ->]; vm_compute; repeat split; discriminate. }
  split; [unfold table_inside; rewrite T, N1, N2, E, L; repeat split; repeat constructor; discriminate|].
  split; [apply Rd; rewrite L; reflexivity|]. split; [apply Rd; discriminate|].
  split; [rewrite T; discriminate|]. split; [rewrite N1, N2, Th; discriminate|]. exact R.
Qed.

(** Tables with an array that is empty or runs over the end of the file (C74).  [SpecBinArrays]
    holds the specification side: [r] and [c] are the row and the column of the first such array,
    [e] its type, [n] its length and [p] the byte where it starts. *)

From Coq Require Import String List Lia ZifyBool.
From Verif Require Import Base Utf8 Text Card Reader Header Xtension Bytes Fits ImageIt BinTable.
From Verif Require Import SpecUtf8 SpecCard SpecHeader SpecXt SpecFits SpecImage SpecBin SpecTileSafe SpecBinArrays.
From Verif Require Import HeaderProofs FitsProofs4 BinProofs BinProofs3 BinProofs6 Prop_Fits Prop_Bin.
Local Open Scope string_scope.
Local Open Scope list_scope.
Local Open Scope Z_scope.

(** The array ends behind the end of the file: the values before it are read, then its elements as
    far as they lie in the file, then the end for ever.  The row iterator gives the rows before it. *)
Theorem C74_overlong : forall m d f h f' t,
  octets d -> rd_data (f_reader f) = d -> 0 <= rd_pos (f_reader f) -> next m f = (IOk h, f') ->
  h_xt h = XtBin t -> table_inside d t (h_offset h) -> Forall filled (bt_tforms t) ->
  forall r c e n p, 0 <= r < bt_naxis2 t -> 0 <= c < len (bt_tforms t) ->
  readable_before d t (h_offset h) r c -> array_cell d t (h_offset h) r c e n p -> p < 2 ^ 63 ->
  1 <= n -> n * elem_bytes e < 2 ^ 64 -> len d < p + n * elem_bytes e ->
  exists s cells rows, get_table m f' t = Ok s /\
    Forall2 (slot_value d) (slots_before d t (h_offset h) r c ++ to_the_end d e p c (fun k => k)) cells /\
    (forall k, fst (table_run m s (repeat TNext k)) = firstn k (map TValue cells ++ repeat TEnd k)) /\
    Forall2 (fun i cells => Forall2 (slot_value d) (row_slots d t (h_offset h) true (all_columns t) i) cells) (upto r) rows /\
    forall fuel k, (forall i, In i (upto r) -> (List.length (row_slots d t (h_offset h) true (all_columns t) i) <= fuel)%nat) ->
      (List.length (flat_map (cell d t (h_offset h) true r) (upto c)) + List.length (to_the_end d e p c (fun k => k)) < fuel)%nat ->
      row_run m fuel (row_iter s) k = firstn k (map RowOf rows ++ repeat RowEnd k).
Proof.
  intros m d f h f' t O D P N X T F r c e n p HR HC Rd Ar P63.
  exact (file_overrun m d f h f' t O D P N X T F r c e n p HR HC Rd Ar P63).
Qed.
Print Assumptions C74_overlong.

(** The array is empty: in a release build, and when no element would fit into the file in any
    build, the same, with all the elements from its place to the end of the file, none of which is
    one of the array; their index numbers jump to the end of the 64-bit integers after the first. *)
Theorem C74_empty : forall m d f h f' t,
  octets d -> rd_data (f_reader f) = d -> 0 <= rd_pos (f_reader f) -> next m f = (IOk h, f') ->
  h_xt h = XtBin t -> table_inside d t (h_offset h) -> Forall filled (bt_tforms t) ->
  forall r c e p, 0 <= r < bt_naxis2 t -> 0 <= c < len (bt_tforms t) ->
  readable_before d t (h_offset h) r c -> array_cell d t (h_offset h) r c e 0 p -> p < 2 ^ 63 ->
  m = Wrapping \/ len d < p + elem_bytes e ->
  exists s cells rows, get_table m f' t = Ok s /\
    Forall2 (slot_value d) (slots_before d t (h_offset h) r c ++ to_the_end d e p c (empty_number e)) cells /\
    (forall k, fst (table_run m s (repeat TNext k)) = firstn k (map TValue cells ++ repeat TEnd k)) /\
    Forall2 (fun i cells => Forall2 (slot_value d) (row_slots d t (h_offset h) true (all_columns t) i) cells) (upto r) rows /\
    forall fuel k, (forall i, In i (upto r) -> (List.length (row_slots d t (h_offset h) true (all_columns t) i) <= fuel)%nat) ->
      (List.length (flat_map (cell d t (h_offset h) true r) (upto c)) + List.length (to_the_end d e p c (empty_number e)) < fuel)%nat ->
      row_run m fuel (row_iter s) k = firstn k (map RowOf rows ++ repeat RowEnd k).
Proof.
  intros m d f h f' t O D P N X T F r c e p HR HC Rd Ar P63 M.
  exact (file_empty m d f h f' t O D P N X T F r c e 0 p HR HC Rd Ar P63 eq_refl M).
Qed.
Print Assumptions C74_empty.

(** With overflow checks, an empty array with room for an element behind its place: the values
    before it, the rows before it, and a panic. *)
Theorem C74_empty_checked : forall d f h f' t,
  octets d -> rd_data (f_reader f) = d -> 0 <= rd_pos (f_reader f) -> next Checked f = (IOk h, f') ->
  h_xt h = XtBin t -> table_inside d t (h_offset h) -> Forall filled (bt_tforms t) ->
  forall r c e p, 0 <= r < bt_naxis2 t -> 0 <= c < len (bt_tforms t) ->
  readable_before d t (h_offset h) r c -> array_cell d t (h_offset h) r c e 0 p -> p < 2 ^ 63 ->
  p + elem_bytes e <= len d ->
  exists s cells rows, get_table Checked f' t = Ok s /\
    Forall2 (slot_value d) (slots_before d t (h_offset h) r c) cells /\
    fst (table_run Checked s (repeat TNext (List.length cells + 1))) = map TValue cells ++ [TPanic] /\
    Forall2 (fun i cells => Forall2 (slot_value d) (row_slots d t (h_offset h) true (all_columns t) i) cells) (upto r) rows /\
    forall fuel, (forall i, In i (upto r) -> (List.length (row_slots d t (h_offset h) true (all_columns t) i) <= fuel)%nat) ->
      (List.length (flat_map (cell d t (h_offset h) true r) (upto c)) < fuel)%nat ->
      row_run Checked fuel (row_iter s) (List.length rows + 1) = map RowOf rows ++ [RowPanic].
Proof.
  intros d f h f' t O D P N X T F r c e p HR HC Rd Ar P63 L.
  exact (file_empty_panics Checked d f h f' t O D P N X T F r c e 0 p HR HC Rd Ar P63 eq_refl eq_refl L).
Qed.
Print Assumptions C74_empty_checked.

(** The file [ex_vla], which now ends two bytes after its heap of three integers, with an array of
    1024 integers and with an empty array in the second row: the cells before it can be read. *)
Definition array_ex (d : list Z) (n : Z) (t : bintable) (o : Z) : Prop :=
  table_inside d t o /\ Forall filled (bt_tforms t) /\ bt_naxis2 t = 2 /\ readable_before d t o 1 1 /\ array_cell d t o 1 1 TyJ n 5780.
Lemma array_ex_ok d n t o : table_inside d t o -> bt_tforms t = [TElem TyI 1; TDesc32 TyJ] -> bt_naxis1 t = 10 -> bt_naxis2 t = 2 -> bt_theap t = 20 ->
  o = 5760 -> be_value (slice d 5762 4) = 2 -> be_value (slice d 5766 4) = 4 -> be_value (slice d 5772 4) = n -> be_value (slice d 5776 4) = 0 ->
  5792 <= len d -> array_ex d n t o.
Proof.
  intros T F N1 N2 Th O A B C D L. split; [exact T|]. split; [rewrite F; repeat constructor; discriminate|]. split; [exact N2|].
  assert (F0 : format t 0 = Some (TElem TyI 1)) by (unfold format; rewrite F; reflexivity).
  assert (F1 : format t 1 = Some (TDesc32 TyJ)) by (unfold format; rewrite F; reflexivity).
  split.
  - intros i j Hi Hj Hb. rewrite F in Hj. change (len [TElem TyI 1; TDesc32 TyJ]) with 2 in Hj. assert (j = 0 \/ i = 0 /\ j = 1) as [-> |[-> ->]] by lia.
    + exists (TElem TyI 1). split; [exact F0|]. split; [discriminate|lia].
    + exists (TDesc32 TyJ). split; [exact F1|]. intros _. rewrite F, N1, Th, O. 
      change (5760 + 0 * 10 + column_start [TElem TyI 1; TDesc32 TyJ] 1) with 5762. rewrite A. change (5762 + 4) with 5766. rewrite B.
      split; [discriminate|]. split; [lia|]. change (elem_bytes TyJ) with 4. lia.
  - unfold array_cell. rewrite F, N1, Th, O. change (5760 + 1 * 10 + column_start [TElem TyI 1; TDesc32 TyJ] 1) with 5772.
    change (5772 + 4) with 5776. rewrite C, D. split; [discriminate|]. left. auto.
Qed.
Ltac array_case m d :=
  match goal with |- exists t o s, _ /\ array_ex _ _ _ _ /\ @?P t o s =>
    destruct (ex_run m d (fun t o s =>
      (bt_tforms t = [TElem TyI 1; TDesc32 TyJ] /\ bt_naxis1 t = 10 /\ bt_naxis2 t = 2 /\ bt_theap t = 20 /\ o = 5760 /\
       be_value (slice d 5762 4) = 2 /\ be_value (slice d 5766 4) = 4 /\ be_value (slice d 5776 4) = 0 /\ len d = 5794) /\
      table_inside d t o /\ P t o s)) as (t & o & s & F & (T & N1 & N2 & Th & E & A & B & D & L) & Ti & R)
  end.

Definition ex_long : list Z := firstn (Z.to_nat 5794)
 (ex_table_file ["NAXIS1  = 10"; "NAXIS2  = 2"; "PCOUNT  = 12"; "TFIELDS = 2"; "TFORM1  = 'I'"; "TFORM2  = '1PJ(2)'"]
                [0; 9;   0; 0; 0; 2;  0; 0; 0; 4;     0; 8;   0; 0; 4; 0;  0; 0; 0; 0;   0; 0; 0; 5;   0; 0; 0; 6;   255; 255; 255; 255]).
Definition ex_empty : list Z := firstn (Z.to_nat 5794) (ex_vla 0).
Example C74_overlong_ex : forall m,
  exists t o s, found m ex_long t o s /\ array_ex ex_long 1024 t o /\
    (len ex_long < 5780 + 1024 * elem_bytes TyJ /\
     slots_before ex_long t o 1 1 = [SElem TyI 5760 0 0; SElem TyJ 5784 1 0; SElem TyJ 5788 1 1; SElem TyI 5770 0 0] /\
     to_the_end ex_long TyJ 5780 1 (fun k => k) = [SElem TyJ 5780 1 0; SElem TyJ 5784 1 1; SElem TyJ 5788 1 2] /\
     fst (table_run m s (repeat TNext 9))
     = map TValue [DVal TyI [9] 0 0; DVal TyJ [6] 1 0; DVal TyJ [-1] 1 1; DVal TyI [8] 0 0;
                   DVal TyJ [5] 1 0; DVal TyJ [6] 1 1; DVal TyJ [-1] 1 2] ++ [TEnd; TEnd] /\
     row_run m 5 (row_iter s) 3 = [RowOf [DVal TyI [9] 0 0; DVal TyJ [6] 1 0; DVal TyJ [-1] 1 1]; RowEnd; RowEnd]).
Proof.
  intro m. array_case m ex_long.
  1-3: destruct m; vm_compute; reflexivity || discriminate.
  { destruct m; vm_compute; repeat (split || constructor); intros; discriminate. }
  exists t, o, s. split; [exact F|]. split; [|exact R].
  apply array_ex_ok; auto; lia.
Qed.

Example C74_empty_ex : forall m,
  exists t o s, found m ex_empty t o s /\ array_ex ex_empty 0 t o /\
    (5780 + elem_bytes TyJ <= len ex_empty /\
     slots_before ex_empty t o 1 1 = [SElem TyI 5760 0 0; SElem TyJ 5784 1 0; SElem TyJ 5788 1 1; SElem TyI 5770 0 0] /\
     to_the_end ex_empty TyJ 5780 1 (empty_number TyJ)
     = [SElem TyJ 5780 1 0; SElem TyJ 5784 1 (2 ^ 64 - 2 ^ 62 + 1); SElem TyJ 5788 1 (2 ^ 64 - 2 ^ 62 + 2)] /\
     match m with
     | Wrapping =>
         fst (table_run m s (repeat TNext 9))
         = map TValue [DVal TyI [9] 0 0; DVal TyJ [6] 1 0; DVal TyJ [-1] 1 1; DVal TyI [8] 0 0;
                       DVal TyJ [5] 1 0; DVal TyJ [6] 1 (2 ^ 64 - 2 ^ 62 + 1); DVal TyJ [-1] 1 (2 ^ 64 - 2 ^ 62 + 2)]
           ++ [TEnd; TEnd] /\
         row_run m 5 (row_iter s) 3 = [RowOf [DVal TyI [9] 0 0; DVal TyJ [6] 1 0; DVal TyJ [-1] 1 1]; RowEnd; RowEnd]
     | Checked =>
         fst (table_run m s (repeat TNext 5))
         = map TValue [DVal TyI [9] 0 0; DVal TyJ [6] 1 0; DVal TyJ [-1] 1 1; DVal TyI [8] 0 0] ++ [TPanic] /\
         row_run m 3 (row_iter s) 2 = [RowOf [DVal TyI [9] 0 0; DVal TyJ [6] 1 0; DVal TyJ [-1] 1 1]; RowPanic]
     end).
Proof.
  intro m. array_case m ex_empty.
  1-3: destruct m; vm_compute; reflexivity || discriminate.
  { destruct m; vm_compute; repeat (split || constructor); intros; discriminate. }
  exists t, o, s. split; [exact F|]. split; [|exact R].
  apply array_ex_ok; auto; lia.
Qed.

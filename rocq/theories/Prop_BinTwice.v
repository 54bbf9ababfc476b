(** Selections that name columns more than once (C85).  [SpecBinTwice] holds the specification
    side: [requested] are the columns asked for, [visited] the cells met by reading them forwards
    only. *)

From Coq Require Import String List Lia ZifyBool Permutation Sorted.
From Verif Require Import Base Utf8 Text Card Reader Header Xtension Bytes Fits ImageIt BinTable.
From Verif Require Import SpecUtf8 SpecCard SpecHeader SpecXt SpecFits SpecImage SpecBin SpecBinTwice.
From Verif Require Import HeaderProofs FitsProofs4 BinProofs BinProofs3 BinProofs8 Prop_Fits Prop_Bin.
Local Open Scope string_scope.
Local Open Scope list_scope.
Local Open Scope Z_scope.

(** The second reading of a column in a round is made in the next row, so that each repetition
    moves the rest of the table one row on.  The values are those of the cells visited, up to the
    first one that would start exactly where the rows end; there the table ends.  If there is no
    such cell, rows are read that the table does not have: with overflow checks the call for the
    last value panics, without them the table ends after it. *)
Theorem C85_repeated : forall m d f h f' t,
  octets d -> rd_data (f_reader f) = d -> 0 <= rd_pos (f_reader f) -> next m f = (IOk h, f') ->
  h_xt h = XtBin t -> table_inside d t (h_offset h) -> len d < 2 ^ 62 -> 1 <= bt_naxis2 t ->
  forall ids sel, Forall id_ok ids -> requested t ids sel -> sel <> [] -> len sel < 2 ^ 64 ->
  (forall c, In c sel -> exists w, format t c = Some w /\ fixed_width w) ->
  let o := h_offset h in
  let cells := visited t sel in
  Forall (fun x => o + cell_end t x <= len d) (before_end t cells) ->
  exists s values, get_table m f' t = Ok s /\
    Forall2 (slot_value d) (visited_slots d t o (before_end t cells)) values /\
    (m = Checked /\ runs_over t cells -> exists vs v, values = vs ++ [v] /\
       fst (table_run m (select_fields s ids) (repeat TNext (S (List.length vs)))) = map TValue vs ++ [TPanic]) /\
    (~ (m = Checked /\ runs_over t cells) -> forall n,
       fst (table_run m (select_fields s ids) (repeat TNext n)) = firstn n (map TValue values ++ repeat TEnd n)).
Proof. exact table_twice. Qed.
Print Assumptions C85_repeated.

(** One column asked for [k] times: its cells in the rows 0 to [k] times the number of rows.  A
    column that starts at the first byte of the row ends after the rows of the table instead, as
    if it had been asked for once. *)
Theorem C85_same_column : forall m d f h f' t,
  octets d -> rd_data (f_reader f) = d -> 0 <= rd_pos (f_reader f) -> next m f = (IOk h, f') ->
  h_xt h = XtBin t -> table_inside d t (h_offset h) -> len d < 2 ^ 62 -> 1 <= bt_naxis2 t ->
  forall ids c k w, Forall id_ok ids -> asked t ids (repeat c k) -> (1 <= k)%nat -> Z.of_nat k < 2 ^ 64 ->
  format t c = Some w -> fixed_width w ->
  let o := h_offset h in
  let first := column_start (bt_tforms t) c =? 0 in
  let rows := if first then bt_naxis2 t else Z.of_nat k * bt_naxis2 t in
  o + cell_end t (rows - 1, c) <= len d ->
  exists s values, get_table m f' t = Ok s /\
    Forall2 (slot_value d) (flat_map (fun r => cell d t o true r c) (upto rows)) values /\
    (if negb first && (2 <=? Z.of_nat k) && (match m with Checked => true | Wrapping => false end)
     then exists vs v, values = vs ++ [v] /\
       fst (table_run m (select_fields s ids) (repeat TNext (S (List.length vs)))) = map TValue vs ++ [TPanic]
     else forall n, fst (table_run m (select_fields s ids) (repeat TNext n)) = firstn n (map TValue values ++ repeat TEnd n)).
Proof. exact table_same. Qed.
Print Assumptions C85_same_column.

(** Two rows of a flag, two integers and a letter.  The column XY by name and by number, then the
    letter: two rows too many are not noticed without overflow checks. *)
Definition ex_xy : list column_id := [CName (chars "XY"); CIndex 7; CIndex 2; CIndex 1].
Example C85_ex : forall m,
  exists t o s, found m ex_fixed t o s /\ table_inside ex_fixed t o /\
    (let sel := [1; 1; 2] in
     requestedb t ex_xy sel = true /\ map (format t) sel = [Some (TElem TyI 2); Some (TElem TyI 2); Some (TElem TyA 1)] /\
     visited t sel = [(0, 1); (1, 1); (1, 2); (2, 1); (3, 1); (3, 2)] /\
     before_end t (visited t sel) = visited t sel /\ cell_end t (3, 2) = 24 /\ bt_naxis1 t * bt_naxis2 t = 12 /\
     forallb (fun x => o + cell_end t x <=? len ex_fixed) (visited t sel) = true /\
     fst (table_run m (select_fields s ex_xy) (repeat TNext 10))
     = map TValue [DVal TyI [1] 1 0; DVal TyI [-2] 1 1; DVal TyI [256] 1 0; DVal TyI [7] 1 1; DVal TyA [66] 2 0;
                   DVal TyI [0] 1 0; DVal TyI [0] 1 1; DVal TyI [0] 1 0; DVal TyI [0] 1 1] ++
       [match m with Checked => TPanic | Wrapping => TValue (DVal TyA [0] 2 0) end]).
Proof. ex_check. Qed.
(** [requestedb] decides [requested]. *)
Example C85_requestedb : forall t ids sel, requestedb t ids sel = true -> Forall id_ok ids /\ requested t ids sel.
Proof. exact requestedb_ok. Qed.

(** A repetition that brings the first column to the end of the rows: the table ends there, and the
    letter of the last round and all that follows is never given. *)
Example C85_early_ex : forall m,
  exists t o s, found m ex_fixed t o s /\ table_inside ex_fixed t o /\
    (let ids := [CIndex 1; CIndex 0; CIndex 1; CIndex 2] in
     let sel := [0; 1; 1; 2] in
     requestedb t ids sel = true /\
     visited t sel = [(0, 0); (0, 1); (1, 1); (1, 2); (2, 0); (2, 1); (3, 1); (3, 2)] /\
     before_end t (visited t sel) = [(0, 0); (0, 1); (1, 1); (1, 2)] /\
     fst (table_run m (select_fields s ids) (repeat TNext 8))
     = map TValue [DVal TyL [1] 0 0; DVal TyI [1] 1 0; DVal TyI [-2] 1 1; DVal TyI [256] 1 0; DVal TyI [7] 1 1; DVal TyA [66] 2 0] ++ [TEnd; TEnd]).
Proof. ex_check. Qed.

(** The first column three times gives its two rows; the last one twice gives four. *)
Example C85_same_ex : forall m,
  exists t o s, found m ex_fixed t o s /\ table_inside ex_fixed t o /\
    requestedb t [CIndex 0; CName (chars "FLAG"); CIndex 0] (repeat 0 3) = true /\
    fst (table_run m (select_fields s [CIndex 0; CName (chars "FLAG"); CIndex 0]) (repeat TNext 4))
    = [TValue (DVal TyL [1] 0 0); TValue (DVal TyL [0] 0 0); TEnd; TEnd] /\
    column_start (bt_tforms t) 0 = 0 /\ column_start (bt_tforms t) 2 = 5 /\
    fst (table_run m (select_fields s [CIndex 2; CIndex 2]) (repeat TNext 4))
    = [TValue (DVal TyA [65] 2 0); TValue (DVal TyA [66] 2 0); TValue (DVal TyA [0] 2 0);
       match m with Checked => TPanic | Wrapping => TValue (DVal TyA [0] 2 0) end].
Proof. ex_check. Qed.

(** Specification side for binary table data (FITS standard section 7.3). *)

From Coq Require Import Sorted.
From Verif Require Import Base Text Card Reader Header Xtension Bytes Fits ImageIt BinTable
  SpecCard SpecXt SpecFits SpecImage.

(** The number written by these bytes, most significant first. *)
Fixpoint be_value (l : list Z) : Z :=
  match l with [] => 0 | b :: r => b * 256 ^ len r + be_value r end.

(** Bytes of one element; only bits share bytes. *)
Definition elem_bytes (t : ety) : Z := (type_bits t + 7) / 8.

(** [bs] are the bytes of one number of this format. *)
Definition number_stored (b : bitpix) (bs : list Z) (x : Z) : Prop := in_range b x /\ bs = encode b x.

(** [bs] are the bytes of an element of type [t] and value [v].  Logicals are those of the crate:
    any byte but NUL is true (see C37). *)
Definition elem_stored (t : ety) (bs v : list Z) : Prop :=
  match t with
  | TyL => exists b, number_stored BU8 bs b /\ v = [if b =? 0 then 0 else 1]
  | TyX | TyB | TyA => exists b, number_stored BU8 bs b /\ v = [b]
  | TyI => exists x, number_stored BI16 bs x /\ v = [x]
  | TyJ => exists x, number_stored BI32 bs x /\ v = [x]
  | TyK => exists x, number_stored BI64 bs x /\ v = [x]
  | TyE => exists x, number_stored BF32 bs x /\ v = [x]
  | TyD => exists x, number_stored BF64 bs x /\ v = [x]
  | TyC => exists b1 b2 x y, bs = b1 ++ b2 /\ number_stored BF32 b1 x /\ number_stored BF32 b2 y /\ v = [x; y]
  | TyM => exists b1 b2 x y, bs = b1 ++ b2 /\ number_stored BF64 b1 x /\ number_stored BF64 b2 y /\ v = [x; y]
  end.

(** What a table holds: an element of type [t] at byte [pos] of the file, number [idx] of its cell
    in column [col]; or a whole array descriptor. *)
Inductive slot := SElem (t : ety) (pos col idx : Z) | SDesc (wide : bool) (pos : Z).

Definition slot_value (d : list Z) (x : slot) (v : dvalue) : Prop :=
  match x with
  | SElem t p c i => exists y, v = DVal t y c i /\ elem_stored t (slice d p (elem_bytes t)) y
  | SDesc false p => v = DVla32 (be_value (slice d p 4)) (be_value (slice d (p + 4) 4))
  | SDesc true p => v = DVla64 (be_value (slice d p 8)) (be_value (slice d (p + 8) 8))
  end.

Definition upto (n : Z) : list Z := map Z.of_nat (seq 0 (Z.to_nat n)).

(** [n] elements in a row. *)
Definition elems (t : ety) (n pos col : Z) : list slot :=
  map (fun i => SElem t (pos + i * elem_bytes t) col i) (upto n).

(** The slots of a cell of format [f] at byte [pos] in column [col]; [heap]: arrays are followed
    into the heap, which starts at byte [h]. *)
Definition cell_slots (d : list Z) (heap : bool) (h : Z) (f : tform) (pos col : Z) : list slot :=
  match f with
  | TElem t n => elems t n pos col
  | TDesc32 t => if heap then elems t (be_value (slice d pos 4)) (h + be_value (slice d (pos + 4) 4)) col
                 else [SDesc false pos]
  | TDesc64 t => if heap then elems t (be_value (slice d pos 8)) (h + be_value (slice d (pos + 8) 8)) col
                 else [SDesc true pos]
  end.

(** The byte of a row where column [c] starts. *)
Definition column_start (l : list tform) (c : Z) : Z := total (map field_bytes (firstn (Z.to_nat c) l)).

Definition format (t : bintable) (c : Z) : option tform :=
  if c <? 0 then None else nth_error (bt_tforms t) (Z.to_nat c).

(** The cell of row [row] and column [c] of the table whose data unit starts at byte [o]. *)
Definition cell (d : list Z) (t : bintable) (o : Z) (heap : bool) (row c : Z) : list slot :=
  match format t c with
  | Some f => cell_slots d heap (o + bt_theap t) f
                (o + row * bt_naxis1 t + column_start (bt_tforms t) c) c
  | None => []
  end.

Definition row_slots (d : list Z) (t : bintable) (o : Z) (heap : bool) (sel : list Z) (row : Z) : list slot :=
  flat_map (cell d t o heap row) sel.

(** The rows from number [i] on. *)
Definition rows_from (t : bintable) (i : Z) : list Z := map (Z.add i) (upto (bt_naxis2 t - i)).
Definition slots_from (d : list Z) (t : bintable) (o : Z) (heap : bool) (sel : list Z) (i : Z) : list slot :=
  flat_map (row_slots d t o heap sel) (rows_from t i).

(** All columns, in order. *)
Definition all_columns (t : bintable) : list Z := upto (len (bt_tforms t)).

(** The table is laid out as the standard says and lies within the file, which is of a size that
    exists. *)
Definition table_present (d : list Z) (t : bintable) (o : Z) : Prop :=
  octets d /\ len d < 2 ^ 63 /\ 0 <= o /\ 0 <= bt_naxis2 t /\ 0 <= bt_theap t /\
  Forall (fun f => 0 <= field_bits f) (bt_tforms t) /\
  bt_naxis1 t = total (map field_bytes (bt_tforms t)) /\ bt_naxis1 t < 2 ^ 60 /\
  o + bt_naxis1 t * bt_naxis2 t <= len d.

(** For a table read from a header: its columns fill whole bytes (other standard tables are not
    accepted, see C19), and its rows are in the file. *)
Definition table_inside (d : list Z) (t : bintable) (o : Z) : Prop :=
  len d < 2 ^ 63 /\ total (map field_bits (bt_tforms t)) < 2 ^ 63 /\
  Forall (fun f => field_bits f mod 8 = 0) (bt_tforms t) /\
  o + bt_naxis1 t * bt_naxis2 t <= len d.

(** A cell the crate can read: not empty, not of bits, and its array ends at byte [e] at the
    latest. *)
Definition array_present (e h : Z) (t : ety) (n o : Z) : Prop :=
  t <> TyX /\ 1 <= n /\ h + o + n * elem_bytes t <= e.
Definition cell_readable (d : list Z) (e : Z) (heap : bool) (h : Z) (f : tform) (pos : Z) : Prop :=
  match f with
  | TElem t n => t <> TyX /\ 1 <= n
  | TDesc32 t => heap = true -> array_present e h t (be_value (slice d pos 4)) (be_value (slice d (pos + 4) 4))
  | TDesc64 t => heap = true -> array_present e h t (be_value (slice d pos 8)) (be_value (slice d (pos + 8) 8))
  end.
Definition columns_readable (d : list Z) (e : Z) (t : bintable) (o : Z) (heap : bool) (sel : list Z) : Prop :=
  forall c, In c sel -> exists f, format t c = Some f /\
    forall row, 0 <= row < bt_naxis2 t ->
      cell_readable d e heap (o + bt_theap t) f (o + row * bt_naxis1 t + column_start (bt_tforms t) c).

(** A column of numbers, logicals or characters. *)
Definition fixed_width (f : tform) : Prop := match f with TElem t n => t <> TyX /\ 1 <= n | _ => False end.

(** Operations on a table iterator and what they give. *)
Inductive table_op := TNext | TSeek (i : Z).
Inductive table_result := TValue (v : dvalue) | TEnd | TDone | TError | TPanic.

Definition table_do (m : mode) (s : table) (o : table_op) : table_result * table :=
  match o with
  | TNext => match table_next m s with
             | (Ok (Some v), s') => (TValue v, s')
             | (Ok None, s') => (TEnd, s')
             | (Err _, s') => (TError, s')
             | (Panic, s') => (TPanic, s')
             end
  | TSeek i => match seek_to_row m s i with
               | (Ok _, s') => (TDone, s')
               | (Err _, s') => (TError, s')
               | (Panic, s') => (TPanic, s')
               end
  end.
Fixpoint table_run (m : mode) (s : table) (ops : list table_op) : list table_result * table :=
  match ops with
  | [] => ([], s)
  | o :: r => let (x, s1) := table_do m s o in let (l, s2) := table_run m s1 r in (x :: l, s2)
  end.

(** The reader is not in the middle of an array of the heap. *)
Definition between (t : bintable) (cur : list slot) : Prop :=
  match cur with
  | SElem _ _ c i :: _ => match format t c with Some (TElem _ _) => True | _ => i = 0 end
  | _ => True
  end.

(** Seeks are made between arrays only; [from i] are the slots from row [i] on, [cur] those still
    to come. *)
Fixpoint proper (t : bintable) (from : Z -> list slot) (cur : list slot) (ops : list table_op) : Prop :=
  match ops with
  | [] => True
  | TNext :: ops' => proper t from (tl cur) ops'
  | TSeek i :: ops' =>
    u64 i /\ if i <? bt_naxis2 t then between t cur /\ proper t from (from i) ops' else proper t from cur ops'
  end.

(** What a history should give. *)
Fixpoint history (d : list Z) (t : bintable) (from : Z -> list slot) (cur : list slot)
         (ops : list table_op) (results : list table_result) : Prop :=
  match ops, results with
  | [], [] => True
  | TNext :: ops', x :: results' =>
    match cur with
    | [] => x = TEnd /\ history d t from [] ops' results'
    | y :: cur' => exists v, x = TValue v /\ slot_value d y v /\ history d t from cur' ops' results'
    end
  | TSeek i :: ops', x :: results' =>
    if i <? bt_naxis2 t then x = TDone /\ history d t from (from i) ops' results'
    else x = TError /\ history d t from cur ops' results'
  | _, _ => False
  end.

(** ** Column selections *)

Definition names (t : bintable) (i : column_id) (c : Z) : Prop :=
  match i with CIndex j => j = c | CName n => first_named (bt_ttypes t) n c end.
(** [sel] are the columns asked for, in the order of the table. *)
Definition selection (t : bintable) (ids : list column_id) (sel : list Z) : Prop :=
  StronglySorted Z.lt sel /\
  forall c, In c sel <-> 0 <= c < len (bt_tforms t) /\ exists i, In i ids /\ names t i c.
(** No column is asked for twice. *)
Definition distinct (t : bintable) (ids : list column_id) : Prop :=
  forall l1 i l2 j l3 c, ids = l1 ++ i :: l2 ++ j :: l3 -> names t i c -> names t j c ->
    ~ 0 <= c < len (bt_tforms t).
Definition id_ok (i : column_id) : Prop := match i with CIndex j => u64 j | CName _ => True end.

(** ** Rows *)

Inductive row_result := RowOf (l : list dvalue) | RowEnd | RowError | RowPanic | RowFuel.
Fixpoint row_run (m : mode) (fuel : nat) (x : row_it) (n : nat) : list row_result :=
  match n with
  | O => []
  | S n' => match row_next m fuel x with
            | (Some (Ok (Some l)), x') => RowOf l :: row_run m fuel x' n'
            | (Some (Ok None), x') => RowEnd :: row_run m fuel x' n'
            | (Some (Err _), x') => RowError :: row_run m fuel x' n'
            | (Some Panic, x') => RowPanic :: row_run m fuel x' n'
            | (None, x') => RowFuel :: row_run m fuel x' n'
            end
  end.

(** A logical slot is read as the crate does: every byte but NUL is true. *)
Definition logical_read (d : list Z) (x : slot) (v : dvalue) : Prop :=
  match x with
  | SElem TyL p c i => exists b, slice d p 1 = [b] /\ v = DVal TyL [if b =? 0 then 0 else 1] c i
  | _ => True
  end.

(** The HDU iterator over [d], in some state, finds this table, with its data unit at byte [o],
    and [get_data] gives [s]. *)
Definition found (m : mode) (d : list Z) (t : bintable) (o : Z) (s : table) : Prop :=
  octets d /\ exists f h f', rd_data (f_reader f) = d /\ 0 <= rd_pos (f_reader f) /\
    next m f = (IOk h, f') /\ h_xt h = XtBin t /\ h_offset h = o /\ get_table m f' t = Ok s.

(** Model of the binary table readers: [src/hdu/data/bintable/data.rs], [row.rs] and [mod.rs]. *)

From Verif Require Import Base Text Reader Header Xtension Bytes Fits ImageIt.

(** [mod.rs] lines 14-21. *)
Inductive column_id := CIndex (i : Z) | CName (name : str).

(** [mod.rs] lines 23-137: [DataValue].  The variant is named by its type letter; the payload is
    one number (a logical is 0 or 1, a character its code, a float its bit pattern, a bit its
    whole byte - [bit_idx] is always 0), or two for the complex types. *)
Inductive dvalue :=
| DVal (t : ety) (v : list Z) (column idx : Z)
| DVla32 (n o : Z)
| DVla64 (n o : Z).

(** [data.rs] lines 97-118. *)
Inductive tstate := InMain | InHeap (t : ety) (main_pos remaining n size : Z).

(** [data.rs] lines 124-153. *)
Record table := mk_table {
  tb_reader : reader; tb_state : tstate; tb_cols : list Z; tb_offsets : list Z; tb_ctx : bintable;
  tb_col : Z; tb_item : Z; tb_off : Z; tb_main : Z; tb_start : Z; tb_first : bool; tb_row : Z;
  tb_heap : bool }.

(** Assignments to the fields. *)
Definition set_reader (s : table) (r : reader) : table :=
  mk_table r (tb_state s) (tb_cols s) (tb_offsets s) (tb_ctx s) (tb_col s) (tb_item s) (tb_off s)
           (tb_main s) (tb_start s) (tb_first s) (tb_row s) (tb_heap s).
Definition set_state (s : table) (x : tstate) : table :=
  mk_table (tb_reader s) x (tb_cols s) (tb_offsets s) (tb_ctx s) (tb_col s) (tb_item s) (tb_off s)
           (tb_main s) (tb_start s) (tb_first s) (tb_row s) (tb_heap s).
Definition set_cols (s : table) (x : list Z) : table :=
  mk_table (tb_reader s) (tb_state s) x (tb_offsets s) (tb_ctx s) (tb_col s) (tb_item s) (tb_off s)
           (tb_main s) (tb_start s) (tb_first s) (tb_row s) (tb_heap s).
Definition set_pos (s : table) (row col item : Z) : table :=
  mk_table (tb_reader s) (tb_state s) (tb_cols s) (tb_offsets s) (tb_ctx s) col item (tb_off s)
           (tb_main s) (tb_start s) (tb_first s) row (tb_heap s).
Definition set_off (s : table) (x : Z) : table :=
  mk_table (tb_reader s) (tb_state s) (tb_cols s) (tb_offsets s) (tb_ctx s) (tb_col s) (tb_item s) x
           (tb_main s) (tb_start s) (tb_first s) (tb_row s) (tb_heap s).
Definition set_first (s : table) (x : bool) : table :=
  mk_table (tb_reader s) (tb_state s) (tb_cols s) (tb_offsets s) (tb_ctx s) (tb_col s) (tb_item s)
           (tb_off s) (tb_main s) (tb_start s) x (tb_row s) (tb_heap s).
(** Lines 241-243: [read_the_heap]. *)
Definition read_the_heap (s : table) (x : bool) : table :=
  mk_table (tb_reader s) (tb_state s) (tb_cols s) (tb_offsets s) (tb_ctx s) (tb_col s) (tb_item s)
           (tb_off s) (tb_main s) (tb_start s) (tb_first s) (tb_row s) x.

(** [v[i]] with the bounds check. *)
Definition index {A} (l : list A) (i : Z) : res A :=
  if i <? 0 then Panic else match nth_error l (Z.to_nat i) with Some x => Ok x | None => Panic end.

(** Lines 200-211: the byte offset of each column. *)
Fixpoint col_offsets (m : mode) (acc : Z) (l : list tform) : res (list Z) :=
  match l with
  | [] => Ok []
  | f :: r => let! b := num_bytes_field m f in
              let! a := u64_result m (acc + b) in
              let! rest := col_offsets m a r in Ok (acc :: rest)
  end.

(** Lines 196-239: [TableData::new]. *)
Definition table_new (m : mode) (ctx : bintable) (r : reader) (start : Z) : res table :=
  let! offs := col_offsets m 0 (bt_tforms ctx) in
  let! size := u64_result m (bt_naxis1 ctx * bt_naxis2 ctx) in
  Ok (mk_table r InMain (map Z.of_nat (seq 0 (length (bt_tforms ctx)))) offs ctx
               0 0 0 size start false 0 true).

(** Lines 255-283: the column numbers of a selection, sorted ([sort_unstable] of integers: the
    order of equal elements cannot be seen). *)
Definition resolve (ctx : bintable) (c : column_id) : list Z :=
  match c with
  | CIndex i => if len (bt_tforms ctx) <=? i then [] else [i]
  | CName n => match find_field_by_ttype (bt_ttypes ctx) n with Some i => [i] | None => [] end
  end.
Fixpoint insert (x : Z) (l : list Z) : list Z :=
  match l with [] => [x] | y :: r => if x <=? y then x :: l else y :: insert x r end.
Fixpoint sort (l : list Z) : list Z := match l with [] => [] | x :: r => insert x (sort r) end.

(** Lines 255-287: [select_fields]. *)
Definition select_fields (s : table) (cols : list column_id) : table :=
  set_first (set_cols s (sort (flat_map (resolve (tb_ctx s)) cols))) true.

(** [self.reader.seek_relative(off)?; self.byte_offset += off as usize], lines 326-328 and
    463-466. *)
Definition seek_by (m : mode) (s : table) (off : Z) : res unit * table :=
  match seek_relative (tb_reader s) off with
  | (Ok _, r) =>
    match u64_result m (tb_off s + as_usize off) with
    | Ok o => (Ok tt, set_off (set_reader s r) o)
    | Err e => (Err e, set_reader s r)
    | Panic => (Panic, set_reader s r)
    end
  | (Err e, r) => (Err e, set_reader s r)
  | (Panic, r) => (Panic, set_reader s r)
  end.

(** [a % b] of signed 64-bit numbers: a zero divisor panics, and so does -2^63 % -1. *)
Definition i64_rem (a b : Z) : res Z :=
  if (b =? 0) || ((a =? - 2 ^ 63) && (b =? -1)) then Panic else Ok (Z.rem a b).

(** Lines 307-322: the relative offset of the next column, [c] being its number. *)
Definition next_col_off (m : mode) (s : table) (c : Z) : res Z :=
  let! o := index (tb_offsets s) c in
  let! cur := i64_rem (as_i64 (tb_off s)) (as_i64 (bt_naxis1 (tb_ctx s))) in
  let! rel := i64_result m (as_i64 o - cur) in
  if rel <? 0 then i64_result m (rel + as_i64 (bt_naxis1 (tb_ctx s))) else Ok rel.

(** Lines 294-331: [seek_to_next_col]. *)
Definition seek_to_next_col (m : mode) (s : table) : res unit * table :=
  match u64_result m (len (tb_cols s) - 1), u64_result m (bt_naxis2 (tb_ctx s) - 1) with
  | Ok lc, Ok lr =>
    let last_col := tb_col s =? lc in
    let last_row := tb_row s =? lr in
    let row := if last_col then tb_row s + 1 else tb_row s in
    if last_col && last_row then
      let s1 := set_pos s row (tb_col s) (tb_item s) in
      match i64_result m (as_i64 (tb_main s) - as_i64 (tb_off s)) with
      | Ok off => seek_by m s1 off
      | Err e => (Err e, s1)
      | Panic => (Panic, s1)
      end
    else if len (tb_cols s) =? 0 then (Panic, set_pos s row (tb_col s) (tb_item s))
    else
      let col := (tb_col s + 1) mod len (tb_cols s) in
      let s1 := set_pos s row col 0 in
      match (let! c := index (tb_cols s) col in next_col_off m s1 c) with
      | Ok off => seek_by m s1 off
      | Err e => (Err e, s1)
      | Panic => (Panic, s1)
      end
  | _, _ => (Panic, s)
  end.

(** Lines 347-358: the byte offset of the row and the relative offset to it. *)
Definition row_off (m : mode) (s : table) (i : Z) : res (Z * Z) :=
  let! p := i64_result m (as_i64 i * as_i64 (bt_naxis1 (tb_ctx s))) in
  let! c := index (tb_cols s) 0 in
  let! o := index (tb_offsets s) c in
  let! new := i64_result m (p + as_i64 o) in
  let! back := i64_result m (- as_i64 (tb_off s)) in
  let! off := i64_result m (back + new) in Ok (new, off).

(** Lines 337-364: [seek_to_row]. *)
Definition seek_to_row (m : mode) (s : table) (i : Z) : res unit * table :=
  if bt_naxis2 (tb_ctx s) <=? i then (Err EStatic, s)
  else
    let s1 := set_pos s i 0 0 in
    match row_off m s1 i with
    | Ok (new, off) =>
      match seek_relative (tb_reader s1) off with
      | (Ok _, r) => (Ok tt, set_off (set_reader s1 r) (as_usize new))
      | (Err e, r) => (Err e, set_reader s1 r)
      | (Panic, r) => (Panic, set_reader s1 r)
      end
    | Err e => (Err e, s1)
    | Panic => (Panic, s1)
    end.

(** Lines 379-420: [jump_to_heap].  [stream_position] does not fail. *)
Definition jump_to_heap (m : mode) (s : table) (t : ety) (o n size : Z) : res unit * table :=
  match tb_state s with
  | InHeap _ _ _ _ _ => (Ok tt, s)
  | InMain =>
    match (let! back := i64_result m (- as_i64 (tb_off s)) in
           let! h := i64_result m (back + as_i64 (bt_theap (tb_ctx s))) in
           i64_result m (h + as_i64 o)) with
    | Ok off =>
      match seek_relative (tb_reader s) off with
      | (Ok _, r) =>
        match u64_result m (n * size) with
        | Ok remaining => (Ok tt, set_state (set_reader s r) (InHeap t (rd_pos (tb_reader s)) remaining n size))
        | Err e => (Err e, set_reader s r)
        | Panic => (Panic, set_reader s r)
        end
      | (Err e, r) => (Err e, set_reader s r)
      | (Panic, r) => (Panic, set_reader s r)
      end
    | Err e => (Err e, s)
    | Panic => (Panic, s)
    end
  end.

(** Lines 422-437: [jump_to_main_table]. *)
Definition jump_to_main_table (s : table) : table :=
  match tb_state s with
  | InHeap _ p _ _ _ => set_state (set_reader s (seek_start (tb_reader s) p)) InMain
  | InMain => s
  end.

(** Two reads in a row. *)
Definition read_pair (b : bitpix) (r : reader) : res (list Z) * reader :=
  match read_be b r with
  | (Ok x, r1) => match read_be b r1 with
                  | (Ok y, r2) => (Ok [x; y], r2)
                  | (Err e, r2) => (Err e, r2)
                  | (Panic, r2) => (Panic, r2)
                  end
  | (Err e, r1) => (Err e, r1)
  | (Panic, r1) => (Panic, r1)
  end.
Definition read_one (b : bitpix) (f : Z -> Z) (r : reader) : res (list Z) * reader :=
  match read_be b r with
  | (Ok x, r1) => (Ok [f x], r1)
  | (Err e, r1) => (Err e, r1)
  | (Panic, r1) => (Panic, r1)
  end.

(** One element, the read expressions of lines 488-574 (heap) and 609-772 (main table). *)
Definition read_elem (t : ety) (r : reader) : res (list Z) * reader :=
  match t with
  | TyL => read_one BU8 (fun b => if b =? 0 then 0 else 1) r
  | TyX | TyB | TyA => read_one BU8 (fun b => b) r
  | TyI => read_one BI16 (fun b => b) r
  | TyJ => read_one BI32 (fun b => b) r
  | TyK => read_one BI64 (fun b => b) r
  | TyE => read_one BF32 (fun b => b) r
  | TyD => read_one BF64 (fun b => b) r
  | TyC => read_pair BF32 r
  | TyM => read_pair BF64 r
  end.

(** The result of [next]; [.ok()?] turns errors into [None]. *)
Definition finish_next (x : res unit * table) (v : dvalue) : res (option dvalue) * table :=
  match x with
  | (Ok _, s) => (Ok (Some v), s)
  | (Err _, s) => (Ok None, s)
  | (Panic, s) => (Panic, s)
  end.

(** Lines 471-588: [next] while an array of the heap is being read; [c] is the column. *)
Definition heap_next (m : mode) (s : table) (c : Z) : res (option dvalue) * table :=
  match tb_state s with
  | InMain => (Ok None, s) (* not reached *)
  | InHeap t p remaining n size =>
    match u64_result m (n - remaining / size) with
    | Ok idx =>
      match read_elem t (tb_reader s) with
      | (Ok v, r) =>
        let s1 := set_reader s r in
        match u64_result m (remaining - bytes_size t) with
        | Ok remaining' =>
          let s2 := set_state s1 (InHeap t p remaining' n size) in
          if remaining' =? 0 then finish_next (seek_to_next_col m (jump_to_main_table s2)) (DVal t v c idx)
          else (Ok (Some (DVal t v c idx)), s2)
        | _ => (Panic, s1)
        end
      | (Err _, r) => (Ok None, set_reader s r)
      | (Panic, r) => (Panic, set_reader s r)
      end
    | _ => (Panic, s)
    end
  end.

(** An element of the main table, lines 607-785; [last] is the item index that ends the column. *)
Definition main_elem (m : mode) (s : table) (c : Z) (t : ety) (last : Z) : res (option dvalue) * table :=
  match read_elem t (tb_reader s) with
  | (Ok v, r) =>
    let s1 := set_reader s r in
    match u64_result m (tb_off s + bytes_size t) with
    | Ok o =>
      let s2 := set_pos (set_off s1 o) (tb_row s) (tb_col s) (tb_item s + 1) in
      let d := DVal t v c (tb_item s) in
      if tb_item s + 1 =? last then finish_next (seek_to_next_col m s2) d else (Ok (Some d), s2)
    | _ => (Panic, s1)
    end
  | (Err _, r) => (Ok None, set_reader s r)
  | (Panic, r) => (Panic, set_reader s r)
  end.

(** [read_u32] / [read_u64] twice. *)
Definition read_desc (wide : bool) (r : reader) : res (list Z) * reader :=
  read_pair (if wide then BF64 else BF32) r.

(** An array descriptor, lines 786-851.  The recursive call of [next] finds the heap state and the
    same column. *)
Definition main_desc (m : mode) (s : table) (c : Z) (wide : bool) (t : ety) : res (option dvalue) * table :=
  match read_desc wide (tb_reader s) with
  | (Ok (n :: o :: _), r) =>
    let s1 := set_reader s r in
    match u64_result m (tb_off s + if wide then 16 else 8) with
    | Ok off =>
      let s2 := set_off s1 off in
      if tb_heap s then
        match jump_to_heap m s2 t o n (bytes_size t) with
        | (Ok _, s3) => heap_next m s3 c
        | (Err _, s3) => (Ok None, s3)
        | (Panic, s3) => (Panic, s3)
        end
      else finish_next (seek_to_next_col m s2) (if wide then DVla64 n o else DVla32 n o)
    | _ => (Panic, s1)
    end
  | (Ok _, r) => (Panic, set_reader s r) (* not reached *)
  | (Err _, r) => (Ok None, set_reader s r)
  | (Panic, r) => (Panic, set_reader s r)
  end.

(** Lines 590-855: [next] in the main table. *)
Definition main_next (m : mode) (s : table) (c : Z) : res (option dvalue) * table :=
  if tb_off s =? tb_main s then (Ok None, s)
  else
    match index (bt_tforms (tb_ctx s)) c with
    | Ok (TElem t n) => main_elem m s c t (match t with TyX => n / 8 + 1 | _ => n end)
    | Ok (TDesc32 t) => main_desc m s c false t
    | Ok (TDesc64 t) => main_desc m s c true t
    | _ => (Panic, s)
    end.

(** Lines 455-858: [Iterator::next]. *)
Definition table_next (m : mode) (s : table) : res (option dvalue) * table :=
  match index (tb_cols s) (tb_col s) with
  | Ok c =>
    let (x, s1) :=
      if tb_first s then
        let s0 := set_first s false in
        match index (tb_offsets s) c with
        | Ok o => seek_by m s0 (as_i64 o)
        | _ => (Panic, s0)
        end
      else (Ok tt, s) in
    match x with
    | Ok _ => match tb_state s1 with
              | InHeap _ _ _ _ _ => heap_next m s1 c
              | InMain => main_next m s1 c
              end
    | Err _ => (Ok None, s1)
    | Panic => (Panic, s1)
    end
  | _ => (Panic, s)
  end.

(** ** [row.rs] *)
Record row_it := mk_row_it { ri_data : table; ri_row : Z }.
Definition row_iter (s : table) : row_it := mk_row_it s 0.

(** Lines 44-61: [TableRowData::next].  [None] of the outer option: the fuel is used up. *)
Fixpoint row_loop (m : mode) (fuel : nat) (s : table) (row : Z) (acc : list dvalue)
  : option (res (option (list dvalue))) * table :=
  if tb_row s =? row then
    match fuel with
    | O => (None, s)
    | S k => match table_next m s with
             | (Ok (Some v), s') => row_loop m k s' row (v :: acc)
             | (Ok None, s') => (Some (Ok None), s')
             | (Err e, s') => (Some (Err e), s')
             | (Panic, s') => (Some Panic, s')
             end
    end
  else (Some (Ok (Some (rev acc))), s).
Definition row_next (m : mode) (fuel : nat) (x : row_it) : option (res (option (list dvalue))) * row_it :=
  match row_loop m fuel (ri_data x) (ri_row x) [] with
  | (Some (Ok (Some l)), s) => (Some (Ok (Some l)), mk_row_it s (ri_row x + 1))
  | (o, s) => (o, mk_row_it s (ri_row x))
  end.

(** ** Raw bytes *)

(** [extension/bintable.rs] lines 185-187 give the size of the data unit; [data.rs] lines 162-169:
    [raw_bytes] of an in-memory reader. *)
Definition table_raw_bytes (m : mode) (s : table) : res (list Z) :=
  let! n := bintable_num_bytes m (tb_ctx s) in
  let! e := u64_result m (tb_start s + n) in
  slice_range (rd_data (tb_reader s)) (tb_start s) e.

(** Lines 186-189: [bytes]. *)
Definition table_bytes (s : table) : taker := mk_taker [] (tb_main s) (tb_reader s).

(** [Fits::get_data] for binary tables that are not tile compressed. *)
Definition get_table (m : mode) (f : fits) (t : bintable) : res table :=
  table_new m t (f_reader f) (f_pos_du f).

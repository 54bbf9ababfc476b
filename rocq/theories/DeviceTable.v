(** Model of the binary table reader over a device that can fail, as in [Device.v]: the same code as [BinTable.v]
    models, with the branches that only an error of the device reaches. *)

From Verif Require Import Base Text Card Reader Header Xtension Bytes Fits ImageIt BinTable Device.

(** [data.rs] lines 326-328 and 463-466, as [seek_by]. *)
Definition dev_seek_by (m : mode) (s : table) (fs : faults) (off : Z) : res unit * table * faults :=
  match dev_seek fs (tb_reader s) off with
  | (Ok _, r, fs') =>
    match u64_result m (tb_off s + as_usize off) with
    | Ok o => (Ok tt, set_off (set_reader s r) o, fs')
    | Err e => (Err e, set_reader s r, fs')
    | Panic => (Panic, set_reader s r, fs')
    end
  | (Err e, r, fs') => (Err e, set_reader s r, fs')
  | (Panic, r, fs') => (Panic, set_reader s r, fs')
  end.

(** Lines 294-331, as [seek_to_next_col]. *)
Definition dev_seek_to_next_col (m : mode) (s : table) (fs : faults) : res unit * table * faults :=
  match u64_result m (len (tb_cols s) - 1), u64_result m (bt_naxis2 (tb_ctx s) - 1) with
  | Ok lc, Ok lr =>
    let last_col := tb_col s =? lc in
    let last_row := tb_row s =? lr in
    let row := if last_col then tb_row s + 1 else tb_row s in
    if last_col && last_row then
      let s1 := set_pos s row (tb_col s) (tb_item s) in
      match i64_result m (as_i64 (tb_main s) - as_i64 (tb_off s)) with
      | Ok off => dev_seek_by m s1 fs off
      | Err e => (Err e, s1, fs)
      | Panic => (Panic, s1, fs)
      end
    else if len (tb_cols s) =? 0 then (Panic, set_pos s row (tb_col s) (tb_item s), fs)
    else
      let col := (tb_col s + 1) mod len (tb_cols s) in
      let s1 := set_pos s row col 0 in
      match (let! c := index (tb_cols s) col in next_col_off m s1 c) with
      | Ok off => dev_seek_by m s1 fs off
      | Err e => (Err e, s1, fs)
      | Panic => (Panic, s1, fs)
      end
  | _, _ => (Panic, s, fs)
  end.

(** Lines 337-364, as [seek_to_row]: the row and column are set before the seek. *)
Definition dev_seek_to_row (m : mode) (s : table) (fs : faults) (i : Z) : res unit * table * faults :=
  if bt_naxis2 (tb_ctx s) <=? i then (Err EStatic, s, fs)
  else
    let s1 := set_pos s i 0 0 in
    match row_off m s1 i with
    | Ok (new, off) =>
      match dev_seek fs (tb_reader s1) off with
      | (Ok _, r, fs') => (Ok tt, set_off (set_reader s1 r) (as_usize new), fs')
      | (Err e, r, fs') => (Err e, set_reader s1 r, fs')
      | (Panic, r, fs') => (Panic, set_reader s1 r, fs')
      end
    | Err e => (Err e, s1, fs)
    | Panic => (Panic, s1, fs)
    end.

(** Lines 379-420, as [jump_to_heap]; [stream_position] can fail too. *)
Definition dev_jump_to_heap (m : mode) (s : table) (fs : faults) (t : ety) (o n size : Z) : res unit * table * faults :=
  match tb_state s with
  | InHeap _ _ _ _ _ => (Ok tt, s, fs)
  | InMain =>
    match (let! back := i64_result m (- as_i64 (tb_off s)) in
           let! h := i64_result m (back + as_i64 (bt_theap (tb_ctx s))) in
           i64_result m (h + as_i64 o)) with
    | Ok off =>
      match dev_position fs (tb_reader s) with
      | (Ok pos, r0, fs0) =>
        match dev_seek fs0 r0 off with
        | (Ok _, r, fs') =>
          match u64_result m (n * size) with
          | Ok remaining => (Ok tt, set_state (set_reader s r) (InHeap t pos remaining n size), fs')
          | Err e => (Err e, set_reader s r, fs')
          | Panic => (Panic, set_reader s r, fs')
          end
        | (Err e, r, fs') => (Err e, set_reader s r, fs')
        | (Panic, r, fs') => (Panic, set_reader s r, fs')
        end
      | (Err e, r, fs') => (Err e, set_reader s r, fs')
      | (Panic, r, fs') => (Panic, set_reader s r, fs')
      end
    | Err e => (Err e, s, fs)
    | Panic => (Panic, s, fs)
    end
  end.

(** Lines 422-437, as [jump_to_main_table]. *)
Definition dev_jump_to_main_table (s : table) (fs : faults) : res unit * table * faults :=
  match tb_state s with
  | InHeap _ p _ _ _ =>
    match device_call fs (tb_reader s) (fun r => (Ok tt, seek_start r p)) with
    | (Ok _, r, fs') => (Ok tt, set_state (set_reader s r) InMain, fs')
    | (Err e, r, fs') => (Err e, set_reader s r, fs')
    | (Panic, r, fs') => (Panic, set_reader s r, fs')
    end
  | InMain => (Ok tt, s, fs)
  end.

(** The reads of one element, as [read_pair], [read_one] and [read_elem]. *)
Definition dev_read_pair (b : bitpix) (fs : faults) (r : reader) : res (list Z) * reader * faults :=
  match dev_read_be b fs r with
  | (Ok x, r1, fs1) => match dev_read_be b fs1 r1 with
                       | (Ok y, r2, fs2) => (Ok [x; y], r2, fs2)
                       | (Err e, r2, fs2) => (Err e, r2, fs2)
                       | (Panic, r2, fs2) => (Panic, r2, fs2)
                       end
  | (Err e, r1, fs1) => (Err e, r1, fs1)
  | (Panic, r1, fs1) => (Panic, r1, fs1)
  end.
Definition dev_read_one (b : bitpix) (f : Z -> Z) (fs : faults) (r : reader) : res (list Z) * reader * faults :=
  match dev_read_be b fs r with
  | (Ok x, r1, fs1) => (Ok [f x], r1, fs1)
  | (Err e, r1, fs1) => (Err e, r1, fs1)
  | (Panic, r1, fs1) => (Panic, r1, fs1)
  end.
Definition dev_read_elem (t : ety) (fs : faults) (r : reader) : res (list Z) * reader * faults :=
  match t with
  | TyL => dev_read_one BU8 (fun b => if b =? 0 then 0 else 1) fs r
  | TyX | TyB | TyA => dev_read_one BU8 (fun b => b) fs r
  | TyI => dev_read_one BI16 (fun b => b) fs r
  | TyJ => dev_read_one BI32 (fun b => b) fs r
  | TyK => dev_read_one BI64 (fun b => b) fs r
  | TyE => dev_read_one BF32 (fun b => b) fs r
  | TyD => dev_read_one BF64 (fun b => b) fs r
  | TyC => dev_read_pair BF32 fs r
  | TyM => dev_read_pair BF64 fs r
  end.

(** As [finish_next]: a value already read is dropped when the step to the next column fails. *)
Definition dev_finish_next (x : res unit * table * faults) (v : dvalue) : res (option dvalue) * table * faults :=
  match x with
  | (Ok _, s, fs) => (Ok (Some v), s, fs)
  | (Err _, s, fs) => (Ok None, s, fs)
  | (Panic, s, fs) => (Panic, s, fs)
  end.

(** Lines 471-588, as [heap_next]. *)
Definition dev_heap_next (m : mode) (s : table) (fs : faults) (c : Z) : res (option dvalue) * table * faults :=
  match tb_state s with
  | InMain => (Ok None, s, fs) (* not reached *)
  | InHeap t p remaining n size =>
    match u64_result m (n - remaining / size) with
    | Ok idx =>
      match dev_read_elem t fs (tb_reader s) with
      | (Ok v, r, fs1) =>
        let s1 := set_reader s r in
        match u64_result m (remaining - bytes_size t) with
        | Ok remaining' =>
          let s2 := set_state s1 (InHeap t p remaining' n size) in
          if remaining' =? 0 then
            match dev_jump_to_main_table s2 fs1 with
            | (Ok _, s3, fs2) => dev_finish_next (dev_seek_to_next_col m s3 fs2) (DVal t v c idx)
            | (Err _, s3, fs2) => (Ok None, s3, fs2)
            | (Panic, s3, fs2) => (Panic, s3, fs2)
            end
          else (Ok (Some (DVal t v c idx)), s2, fs1)
        | _ => (Panic, s1, fs1)
        end
      | (Err _, r, fs1) => (Ok None, set_reader s r, fs1)
      | (Panic, r, fs1) => (Panic, set_reader s r, fs1)
      end
    | _ => (Panic, s, fs)
    end
  end.

(** Lines 607-785, as [main_elem]. *)
Definition dev_main_elem (m : mode) (s : table) (fs : faults) (c : Z) (t : ety) (last : Z)
  : res (option dvalue) * table * faults :=
  match dev_read_elem t fs (tb_reader s) with
  | (Ok v, r, fs1) =>
    let s1 := set_reader s r in
    match u64_result m (tb_off s + bytes_size t) with
    | Ok o =>
      let s2 := set_pos (set_off s1 o) (tb_row s) (tb_col s) (tb_item s + 1) in
      let d := DVal t v c (tb_item s) in
      if tb_item s + 1 =? last then dev_finish_next (dev_seek_to_next_col m s2 fs1) d else (Ok (Some d), s2, fs1)
    | _ => (Panic, s1, fs1)
    end
  | (Err _, r, fs1) => (Ok None, set_reader s r, fs1)
  | (Panic, r, fs1) => (Panic, set_reader s r, fs1)
  end.

(** Lines 786-851, as [read_desc] and [main_desc]. *)
Definition dev_read_desc (wide : bool) (fs : faults) (r : reader) : res (list Z) * reader * faults :=
  dev_read_pair (if wide then BF64 else BF32) fs r.
Definition dev_main_desc (m : mode) (s : table) (fs : faults) (c : Z) (wide : bool) (t : ety)
  : res (option dvalue) * table * faults :=
  match dev_read_desc wide fs (tb_reader s) with
  | (Ok (n :: o :: _), r, fs1) =>
    let s1 := set_reader s r in
    match u64_result m (tb_off s + if wide then 16 else 8) with
    | Ok off =>
      let s2 := set_off s1 off in
      if tb_heap s then
        match dev_jump_to_heap m s2 fs1 t o n (bytes_size t) with
        | (Ok _, s3, fs2) => dev_heap_next m s3 fs2 c
        | (Err _, s3, fs2) => (Ok None, s3, fs2)
        | (Panic, s3, fs2) => (Panic, s3, fs2)
        end
      else dev_finish_next (dev_seek_to_next_col m s2 fs1) (if wide then DVla64 n o else DVla32 n o)
    | _ => (Panic, s1, fs1)
    end
  | (Ok _, r, fs1) => (Panic, set_reader s r, fs1) (* not reached *)
  | (Err _, r, fs1) => (Ok None, set_reader s r, fs1)
  | (Panic, r, fs1) => (Panic, set_reader s r, fs1)
  end.

(** Lines 590-855, as [main_next]. *)
Definition dev_main_next (m : mode) (s : table) (fs : faults) (c : Z) : res (option dvalue) * table * faults :=
  if tb_off s =? tb_main s then (Ok None, s, fs)
  else
    match index (bt_tforms (tb_ctx s)) c with
    | Ok (TElem t n) => dev_main_elem m s fs c t (match t with TyX => n / 8 + 1 | _ => n end)
    | Ok (TDesc32 t) => dev_main_desc m s fs c false t
    | Ok (TDesc64 t) => dev_main_desc m s fs c true t
    | _ => (Panic, s, fs)
    end.

(** Lines 455-858, as [table_next]. *)
Definition dev_table_next (m : mode) (s : table) (fs : faults) : res (option dvalue) * table * faults :=
  match index (tb_cols s) (tb_col s) with
  | Ok c =>
    let '(x, s1, fs1) :=
      if tb_first s then
        let s0 := set_first s false in
        match index (tb_offsets s) c with
        | Ok o => dev_seek_by m s0 fs (as_i64 o)
        | _ => (Panic, s0, fs)
        end
      else (Ok tt, s, fs) in
    match x with
    | Ok _ => match tb_state s1 with
              | InHeap _ _ _ _ _ => dev_heap_next m s1 fs1 c
              | InMain => dev_main_next m s1 fs1 c
              end
    | Err _ => (Ok None, s1, fs1)
    | Panic => (Panic, s1, fs1)
    end
  | _ => (Panic, s, fs)
  end.

(** [row.rs] lines 44-61, as [row_loop] and [row_next]. *)
Fixpoint dev_row_loop (m : mode) (fuel : nat) (s : table) (fs : faults) (row : Z) (acc : list dvalue)
  : option (res (option (list dvalue))) * table * faults :=
  if tb_row s =? row then
    match fuel with
    | O => (None, s, fs)
    | S k => match dev_table_next m s fs with
             | (Ok (Some v), s', fs') => dev_row_loop m k s' fs' row (v :: acc)
             | (Ok None, s', fs') => (Some (Ok None), s', fs')
             | (Err e, s', fs') => (Some (Err e), s', fs')
             | (Panic, s', fs') => (Some Panic, s', fs')
             end
    end
  else (Some (Ok (Some (rev acc))), s, fs).
Definition dev_row_next (m : mode) (fuel : nat) (x : row_it) (fs : faults)
  : option (res (option (list dvalue))) * row_it * faults :=
  match dev_row_loop m fuel (ri_data x) fs (ri_row x) [] with
  | (Some (Ok (Some l)), s, fs') => (Some (Ok (Some l)), mk_row_it s (ri_row x + 1), fs')
  | (o, s, fs') => (o, mk_row_it s (ri_row x), fs')
  end.

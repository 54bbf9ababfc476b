(** Model of the reader of tile-compressed images over a device that can fail, as in [Device.v]: the same code
    as [Rice.v] and [Tile.v] model, with the branches that only an error of the device reaches. *)

From Verif Require Import Base Text Card Reader Header Xtension Bytes Fits ImageIt BinTable Rice Float Tile.
From Verif Require Import Device DeviceTable.

(** ** [rice.rs] *)

(** What a part of the decoder comes to, with the reader it leaves; a panic is the end of the decoder. *)
Inductive outcome (A : Type) := Got (a : A) (r : reader) | Lost (e : error) (r : reader) | Broke.
Arguments Got {A}. Arguments Lost {A}. Arguments Broke {A}.
(** Parts of the decoder: every [read_u8] in them is a call on the device. *)
Definition part (A : Type) := reader -> faults -> outcome A * faults.
Definition then_ {A B} (x : part A) (k : A -> part B) : part B := fun r fs =>
  match x r fs with
  | (Got a r', fs') => k a r' fs'
  | (Lost e r', fs') => (Lost e r', fs')
  | (Broke, fs') => (Broke, fs')
  end.
Definition give {A} (a : A) : part A := fun r fs => (Got a r, fs).
Definition pure {A} (x : res A) : part A := fun r fs =>
  match x with Ok a => (Got a r, fs) | Err e => (Lost e r, fs) | Panic => (Broke, fs) end.
Notation "'do' x <- a ; b" := (then_ a (fun x => b)) (at level 200, x pattern, right associativity).

(** The reader after all but the bytes [src] are read; a read at the end of the file leaves nothing, as
    [Tile.decompress] has it. *)
Definition left_with (r : reader) (src : list Z) : reader :=
  mk_reader (rd_data r) (rd_pos r + (len (rd_rest r) - len src)).
Definition dev_bytes {A} (f : list Z -> res (A * list Z)) : part A := fun r fs =>
  match device_call fs r (fun r => match f (rd_rest r) with
                                   | Ok (a, src) => (Ok a, left_with r src)
                                   | Err e => (Err e, left_with r [])
                                   | Panic => (Panic, r)
                                   end) with
  | (Ok a, r', fs') => (Got a r', fs')
  | (Err e, r', fs') => (Lost e r', fs')
  | (Panic, r', fs') => (Broke, fs')
  end.
Definition dev_u8 : part Z := dev_bytes read_u8.
Definition dev_first (t : rty) : part Z := dev_bytes (read_first t).

(** Lines 183-186 and 332-335, as [fill].  [n] is an upper bound for the number of turns; it is never used up, for
    a read at the end of the bytes fails. *)
Fixpoint dev_fill_loop (n : nat) (b nbits : Z) : part (Z * Z) :=
  if nbits <? 0 then
    match n with
    | O => do _ <- dev_u8; give (b, nbits)
    | S n' => do x <- dev_u8; dev_fill_loop n' (Z.lor (as_u32 (Z.shiftl b 8)) x) (nbits + 8)
    end
  else give (b, nbits).
Definition dev_fill (b nbits : Z) : part (Z * Z) := fun r => dev_fill_loop (length (rd_rest r)) b nbits r.

(** Lines 263-268, as [high_bytes]. *)
Fixpoint dev_high_loop (n : nat) (b diff k : Z) : part (Z * Z * Z) :=
  if 0 <=? k then
    match n with
    | O => do _ <- dev_u8; give (b, diff, k)
    | S n' => do x <- dev_u8; dev_high_loop n' x (Z.lor diff (as_u32 (Z.shiftl x k))) (k - 8)
    end
  else give (b, diff, k).
Definition dev_high_bytes (b diff k : Z) : part (Z * Z * Z) := fun r => dev_high_loop (length (rd_rest r)) b diff k r.

(** Lines 322-325, as [skip_zeros]. *)
Fixpoint dev_skip_loop (m : mode) (n : nat) (b nbits : Z) : part (Z * Z) :=
  if b =? 0 then
    do nb <- pure (i32_result m (nbits + 8));
    match n with
    | O => do _ <- dev_u8; give (b, nb)
    | S n' => do x <- dev_u8; dev_skip_loop m n' x nb
    end
  else give (b, nbits).
Definition dev_skip_zeros (m : mode) (b nbits : Z) : part (Z * Z) := fun r => dev_skip_loop m (length (rd_rest r)) b nbits r.

(** Lines 228-234, 259-291 and 321-348, as [low_step], [high_step] and [rice_step]: the pixel and the bit buffer. *)
Definition dev_low_step (b nbits lastpix : Z) : part (Z * Z * Z) := give (lastpix, b, nbits).
Definition dev_high_step (m : mode) (t : rty) (b nbits lastpix : Z) : part (Z * Z * Z) :=
  let k := bbits t - nbits in
  let diff := as_u32 (Z.shiftl b k) in
  do (b, diff, k) <- dev_high_bytes b diff (k - 8);
  do (b, diff) <- (if 0 <? nbits then
                     do x <- dev_u8;
                     do d <- pure (shr32 m x (- k));
                     do b' <- pure (low_bits m x nbits); give (b', Z.lor diff d)
                   else give (0, diff));
  do cur <- pure (i32_result m (as_i32 (unmap diff) + lastpix));
  give (cur, b, nbits).
Definition dev_rice_step (m : mode) (fs : Z) (b nbits lastpix : Z) : part (Z * Z * Z) :=
  do (b, nbits) <- dev_skip_zeros m b nbits;
  do c <- pure (nonzero_count b);
  do nzero <- pure (i32_result m (nbits - c));
  do n1 <- pure (i32_result m (nzero + 1));
  do nbits <- pure (i32_result m (nbits - n1));
  do p <- pure (shl32 m 1 nbits);
  let b := Z.lxor b p in
  do nbits <- pure (i32_result m (nbits - fs));
  do (b, nbits) <- dev_fill b nbits;
  do top <- pure (shl32 m (as_u32 nzero) fs);
  do low <- pure (shr32 m b nbits);
  let diff := Z.lor top low in
  do b <- pure (low_bits m b nbits);
  do cur <- pure (i32_result m (as_i32 (unmap diff) + lastpix));
  give (cur, b, nbits).

(** The loops over the pixels of a block, as [block]; [i], the bit buffer and the last pixel are given. *)
Fixpoint dev_block (t : rty) (L : Z) (step : Z -> Z -> Z -> part (Z * Z * Z)) (n : nat) (i b nbits lastpix : Z)
         (out : list Z) (r : reader) (fs : faults) : outcome (Z * Z * Z * Z) * list Z * faults :=
  match n with
  | O => (Got (i, b, nbits, lastpix) r, out, fs)
  | S n' =>
    if len out <? L then
      match step b nbits lastpix r fs with
      | (Got (cur, b', nbits') r', fs') =>
        if len out + Z.of_nat (rsize t) <=? L
        then dev_block t L step n' (i + 1) b' nbits' cur (out ++ le_bytes (rsize t) cur) r' fs'
        else (Broke, out, fs')
      | (Lost e r', fs') => (Lost e r', out, fs')
      | (Broke, fs') => (Broke, out, fs')
      end
    else (Got (i, b, nbits, lastpix) r, out, fs)
  end.

(** Lines 175-219, as [fs_step]. *)
Definition dev_fs_step (m : mode) (t : rty) (nblock nx : Z) (b i lastpix nbits : Z) : part rstate :=
  do (b, nbits) <- dev_fill b (nbits - fsbits t);
  do f <- pure (shr32 m b nbits);
  let fs := as_i32 f - 1 in
  do b <- pure (low_bits m b nbits);
  do e <- pure (i32_result m (i + nblock));
  let imax := Z.min e nx in
  give (if fs <? 0 then RLow b i imax lastpix nbits
        else if fs =? fsmax t then RHigh b i imax nbits lastpix
        else RRice b fs i imax lastpix nbits).

(** As [block_step]. *)
Definition dev_block_step (m : mode) (t : rty) (L : Z) (st : rstate) (out : list Z) (r : reader) (fs : faults)
  : outcome (Z * Z * Z * Z) * list Z * faults :=
  match st with
  | RLow b i imax lastpix nbits =>
    dev_block t L dev_low_step (Z.to_nat (imax - i)) i b nbits lastpix out r fs
  | RHigh b i imax nbits lastpix =>
    dev_block t L (dev_high_step m t) (Z.to_nat (imax - i)) i b nbits lastpix out r fs
  | RRice b s i imax lastpix nbits =>
    dev_block t L (dev_rice_step m s) (Z.to_nat (imax - i)) i b nbits lastpix out r fs
  | _ => (Broke, out, fs)
  end.

(** Lines 155-372, as [read_loop]; the state of the decoder is not kept, as nobody uses it again. *)
Fixpoint dev_read_loop (m : mode) (t : rty) (nblock nx L : Z) (fuel : nat) (st : rstate) (out : list Z)
         (r : reader) (fs : faults) : option (res unit) * list Z * reader * faults :=
  match fuel with
  | O => (None, out, r, fs)
  | S f =>
    match st with
    | RStart =>
      match (do p <- dev_first t; do b <- dev_u8; give (p, b)) r fs with
      | (Got (p, b) r', fs') => dev_read_loop m t nblock nx L f (RFs b 0 p 8) out r' fs'
      | (Lost e r', fs') => (Some (Err e), out, r', fs')
      | (Broke, fs') => (Some Panic, out, r, fs')
      end
    | RFs b i lastpix nbits =>
      match dev_fs_step m t nblock nx b i lastpix nbits r fs with
      | (Got st' r', fs') => dev_read_loop m t nblock nx L f st' out r' fs'
      | (Lost e r', fs') => (Some (Err e), out, r', fs')
      | (Broke, fs') => (Some Panic, out, r, fs')
      end
    | _ =>
      match dev_block_step m t L st out r fs with
      | (Got (i, b, nbits, lastpix) r', out', fs') =>
        let st' := if i =? block_imax st then RFs b i lastpix nbits else st in
        if len out' =? L then (Some (Ok tt), out', r', fs')
        else dev_read_loop m t nblock nx L f st' out' r' fs'
      | (Lost e r', out', fs') => (Some (Err e), out', r', fs')
      | (Broke, out', fs') => (Some Panic, out', r, fs')
      end
    end
  end.
Definition dev_rice_read_exact (m : mode) (t : rty) (nblock nx L : Z) (fuel : nat) (r : reader) (fs : faults)
  : option (res unit) * list Z * reader * faults :=
  if L =? 0 then (Some (Ok tt), [], r, fs) else dev_read_loop m t nblock nx L fuel RStart [] r fs.

(** ** [pixels.rs] *)

(** The gzip decoder over the device, which is not modelled: from the bytes that follow and the length of the
    buffer, [gd_plain] is what it gives when all its calls work, and [gd_calls] is the number of them; when call
    number [j] fails it gives an error, and [gd_lost] are the bytes it has written and how far it has read. *)
Record gz_device := mk_gz_device {
  gd_plain : gunzip; gd_calls : list Z -> Z -> nat; gd_lost : list Z -> Z -> nat -> list Z * Z }.

(** [n] calls in a row: the number of the first that fails, with the distance it moves. *)
Fixpoint dev_calls_made (n : nat) (fs : faults) : option (nat * Z) * faults :=
  match n with
  | O => (None, fs)
  | S n' =>
    match fs with
    | [] => (None, [])
    | None :: fs' => match dev_calls_made n' fs' with
                     | (Some (j, k), fs2) => (Some (S j, k), fs2)
                     | (None, fs2) => (None, fs2)
                     end
    | Some k :: fs' => (Some (O, k), fs')
    end
  end.

(** Lines 211-235, as [decompress]. *)
Definition dev_decompress (gd : gz_device) (m : mode) (fuel : nat) (cmp : zcmp) (n : Z) (buf : list Z) (r : reader) (fs : faults)
  : option (res unit) * list Z * reader * faults :=
  match cmp with
  | ZGzip1 | ZGzip2 =>
    if len buf =? 0 then (Some (Ok tt), buf, r, fs)
    else
      match dev_calls_made (gd_calls gd (rd_rest r) (len buf)) fs with
      | (None, fs') => (decompress (gd_plain gd) m fuel cmp n buf r, fs')
      | (Some (j, k), fs') =>
        let (w, used) := gd_lost gd (rd_rest r) (len buf) j in
        (Some (Err EIoOther), overwrite buf w, mk_reader (rd_data r) (rd_pos r + used + k), fs')
      end
  | ZRice bs _ =>
    let '(o, out, r', fs') := dev_rice_read_exact m RI32 bs (as_i32 n) (len buf) fuel r fs in
    (o, overwrite buf out, r', fs')
  | _ => (Some Panic, buf, r, fs)
  end.

(** Lines 852-863, as [load_tile]: the way back is not taken after an error. *)
Definition dev_load_tile (gd : gz_device) (m : mode) (fuel : nat) (s : tiles) (off : Z) (fs : faults)
  : option (res unit) * tiles * faults :=
  match dev_position fs (tl_reader s) with
  | (Ok old, r0, fs0) =>
    match dev_seek fs0 r0 off with
    | (Ok _, r, fs1) =>
      match dev_decompress gd m fuel (tl_cmp s) (tl_n s) (tl_buf s) r fs1 with
      | (Some (Ok _), b, r', fs2) =>
        match device_call fs2 r' (fun r => (Ok tt, seek_start r old)) with
        | (Ok _, r2, fs3) => (Some (Ok tt), tl_set_reader (tl_set_buf s b) r2, fs3)
        | (x, r2, fs3) => (Some x, tl_set_reader (tl_set_buf s b) r2, fs3)
        end
      | (o, b, r', fs2) => (o, tl_set_reader (tl_set_buf s b) r', fs2)
      end
    | (x, r, fs1) => (Some x, tl_set_reader s r, fs1)
    end
  | (Err e, r0, fs0) => (Some (Err e), tl_set_reader s r0, fs0)
  | (Panic, r0, fs0) => (Some Panic, tl_set_reader s r0, fs0)
  end.

(** Lines 175-240 and their like, as [next_tile]: the numbers of pixels are set before the tile is read. *)
Definition dev_next_tile (gd : gz_device) (m : mode) (fuel : nat) (s : tiles) (fs : faults)
  : option (res bool) * tiles * faults :=
  match dev_row_next m fuel (tl_rows s) fs with
  | (Some (Ok (Some row)), x, fs1) =>
    let s1 := tl_set_rows s x in
    match (let! o := tile_offset row (tl_idx s) in
           let! n := usize_product m 1 (tl_tile s) in
           let! k := keys_row m (tl_keys s) row (ri_row x) in
           let! off := tile_jump m (tb_ctx (ri_data x)) (ri_row x) o in Ok (n, k, off)) with
    | Ok (n, k, off) =>
      match dev_load_tile gd m fuel (tl_set_keys (tl_set_count s1 n n) k) off fs1 with
      | (Some (Ok _), s2, fs2) => (Some (Ok true), s2, fs2)
      | (Some (Err _), s2, fs2) => (Some (Ok false), s2, fs2)
      | (Some Panic, s2, fs2) => (Some Panic, s2, fs2)
      | (None, s2, fs2) => (None, s2, fs2)
      end
    | _ => (Some Panic, s1, fs1)
    end
  | (Some (Ok None), x, fs1) => (Some (Ok false), tl_set_rows s x, fs1)
  | (Some (Err _), x, fs1) => (Some Panic, tl_set_rows s x, fs1) (* not reached *)
  | (Some Panic, x, fs1) => (Some Panic, tl_set_rows s x, fs1)
  | (None, x, fs1) => (None, tl_set_rows s x, fs1)
  end.

(** [Iterator::next], as [tiles_next]. *)
Definition dev_tiles_next (gd : gz_device) (m : mode) (fuel : nat) (s : tiles) (fs : faults)
  : option (res (option pixel)) * tiles * faults :=
  if tl_rem s =? 0 then
    match dev_next_tile gd m fuel s fs with
    | (Some (Ok true), s1, fs1) => let (x, s2) := tile_pixel m s1 in (Some x, s2, fs1)
    | (Some (Ok false), s1, fs1) => (Some (Ok None), s1, fs1)
    | (Some _, s1, fs1) => (Some Panic, s1, fs1)
    | (None, s1, fs1) => (None, s1, fs1)
    end
  else let (x, s1) := tile_pixel m s in (Some x, s1, fs).

(** Model of the RICE decoder: [src/hdu/data/bintable/tile_compressed/rice.rs]. *)

From Verif Require Import Base Bytes.

(** The value of a signed 32-bit operation whose mathematical result is [z]. *)
Definition i32_result (m : mode) (z : Z) : res Z :=
  if (- 2 ^ 31 <=? z) && (z <? 2 ^ 31) then Ok z
  else match m with Checked => Panic | Wrapping => Ok (to_signed 4 (z mod 2 ^ 32)) end.

(** [x as u32] and [x as i32] between 32-bit types. *)
Definition as_u32 (z : Z) : Z := z mod 2 ^ 32.
Definition as_i32 (z : Z) : Z := to_signed 4 (z mod 2 ^ 32).

(** [x << n] of u32 and [1 << n]: a count outside 0..31 panics, or is reduced. *)
Definition shl32 (m : mode) (x n : Z) : res Z :=
  if (0 <=? n) && (n <? 32) then Ok (as_u32 (Z.shiftl x n))
  else match m with Checked => Panic | Wrapping => Ok (as_u32 (Z.shiftl x (n mod 32))) end.
Definition shr32 (m : mode) (x n : Z) : res Z :=
  if (0 <=? n) && (n <? 32) then Ok (Z.shiftr x n)
  else match m with Checked => Panic | Wrapping => Ok (Z.shiftr x (n mod 32)) end.

(** [i32::to_ne_bytes()[..size]] on a little-endian machine. *)
Fixpoint le_bytes (size : nat) (z : Z) : list Z :=
  match size with O => [] | S k => z mod 256 :: le_bytes k (z / 256) end.

(** Lines 11-20: [NONZERO_COUNT]. *)
Definition NONZERO_COUNT : list Z :=
  [0; 1; 2; 2; 3; 3; 3; 3; 4; 4; 4; 4; 4; 4; 4; 4;
   5; 5; 5; 5; 5; 5; 5; 5; 5; 5; 5; 5; 5; 5; 5; 5;
   6; 6; 6; 6; 6; 6; 6; 6; 6; 6; 6; 6; 6; 6; 6; 6;
   6; 6; 6; 6; 6; 6; 6; 6; 6; 6; 6; 6; 6; 6; 6; 6;
   7; 7; 7; 7; 7; 7; 7; 7; 7; 7; 7; 7; 7; 7; 7; 7;
   7; 7; 7; 7; 7; 7; 7; 7; 7; 7; 7; 7; 7; 7; 7; 7;
   7; 7; 7; 7; 7; 7; 7; 7; 7; 7; 7; 7; 7; 7; 7; 7;
   7; 7; 7; 7; 7; 7; 7; 7; 7; 7; 7; 7; 7; 7; 7; 7;
   8; 8; 8; 8; 8; 8; 8; 8; 8; 8; 8; 8; 8; 8; 8; 8;
   8; 8; 8; 8; 8; 8; 8; 8; 8; 8; 8; 8; 8; 8; 8; 8;
   8; 8; 8; 8; 8; 8; 8; 8; 8; 8; 8; 8; 8; 8; 8; 8;
   8; 8; 8; 8; 8; 8; 8; 8; 8; 8; 8; 8; 8; 8; 8; 8;
   8; 8; 8; 8; 8; 8; 8; 8; 8; 8; 8; 8; 8; 8; 8; 8;
   8; 8; 8; 8; 8; 8; 8; 8; 8; 8; 8; 8; 8; 8; 8; 8;
   8; 8; 8; 8; 8; 8; 8; 8; 8; 8; 8; 8; 8; 8; 8; 8;
   8; 8; 8; 8; 8; 8; 8; 8; 8; 8; 8; 8; 8; 8; 8; 8].

(** Lines 123-146: the output types with their constants. *)
Inductive rty := RU8 | RI16 | RI32.
Definition fsbits (t : rty) : Z := match t with RU8 => 3 | RI16 => 4 | RI32 => 5 end.
Definition fsmax (t : rty) : Z := match t with RU8 => 6 | RI16 => 14 | RI32 => 25 end.
Definition bbits (t : rty) : Z := Z.shiftl 1 (fsbits t).
Definition rsize (t : rty) : nat := match t with RU8 => 1 | RI16 => 2 | RI32 => 4 end.

(** Lines 22-60: the states, in the order of the Rust fields. *)
Inductive rstate :=
| RStart
| RFs (b i lastpix nbits : Z)
| RLow (b i imax lastpix nbits : Z)
| RHigh (b i imax nbits lastpix : Z)
| RRice (b fs i imax lastpix nbits : Z).

(** [read_u8] of the underlying reader, which is given by the bytes it has left.  After an end of
    file nothing is left. *)
Definition read_u8 (src : list Z) : res (Z * list Z) :=
  match src with [] => Err EEof | x :: r => Ok (x, r) end.

(** Lines 97-119: [FromBytes], then [into::<i32>]. *)
Definition read_first (t : rty) (src : list Z) : res (Z * list Z) :=
  if len src <? Z.of_nat (rsize t) then Err EEof
  else let v := be_unsigned (firstn (rsize t) src) in
       Ok (match t with RU8 => v | RI16 => to_signed 2 v | RI32 => to_signed 4 v end,
           skipn (rsize t) src).

(** Lines 183-186 and 332-335: [while nbits < 0 { b = (b << 8) | read_u8()?; nbits += 8 }]. *)
Fixpoint fill (b nbits : Z) (src : list Z) : res (Z * Z * list Z) :=
  if nbits <? 0 then
    match src with
    | [] => Err EEof
    | x :: r => fill (Z.lor (as_u32 (Z.shiftl b 8)) x) (nbits + 8) r
    end
  else Ok (b, nbits, src).

(** [b &= (1 << nbits) - 1]. *)
Definition low_bits (m : mode) (b nbits : Z) : res Z :=
  let! p := shl32 m 1 nbits in Ok (Z.land b (p - 1)).

(** Lines 282-286 and 340-344: undo the mapping. *)
Definition unmap (diff : Z) : Z :=
  if Z.land diff 1 =? 0 then Z.shiftr diff 1 else 2 ^ 32 - 1 - Z.shiftr diff 1.

(** The bit buffer and the bytes that follow it. *)
Record bitbuf := mk_bitbuf { q_b : Z; q_n : Z; q_src : list Z }.

(** Lines 228-234: one pixel of a low-entropy block. *)
Definition low_step (q : bitbuf) (lastpix : Z) : res (Z * bitbuf) := Ok (lastpix, q).

(** Lines 263-268: the whole bytes of a raw difference. *)
Fixpoint high_bytes (b diff k : Z) (src : list Z) : res (Z * Z * Z * list Z) :=
  if 0 <=? k then
    match src with
    | [] => Err EEof
    | x :: r => high_bytes x (Z.lor diff (as_u32 (Z.shiftl x k))) (k - 8) r
    end
  else Ok (b, diff, k, src).

(** Lines 259-291: one pixel of a high-entropy block. *)
Definition high_step (m : mode) (t : rty) (q : bitbuf) (lastpix : Z) : res (Z * bitbuf) :=
  let k := bbits t - q_n q in
  let diff := as_u32 (Z.shiftl (q_b q) k) in
  let! (b, diff, k, src) := high_bytes (q_b q) diff (k - 8) (q_src q) in
  let! (b, diff, src) :=
    (if 0 <? q_n q then
       let! (b, src) := read_u8 src in
       let! d := shr32 m b (- k) in
       let! b' := low_bits m b (q_n q) in Ok (b', Z.lor diff d, src)
     else Ok (0, diff, src)) in
  let! cur := i32_result m (as_i32 (unmap diff) + lastpix) in
  Ok (cur, mk_bitbuf b (q_n q) src).

(** Lines 322-325: [while b == 0 { nbits += 8; b = read_u8()? }]. *)
Fixpoint skip_zeros (m : mode) (b nbits : Z) (src : list Z) : res (Z * Z * list Z) :=
  if b =? 0 then
    match i32_result m (nbits + 8) with
    | Ok n => match src with [] => Err EEof | x :: r => skip_zeros m x n r end
    | Err e => Err e
    | Panic => Panic
    end
  else Ok (b, nbits, src).

(** [NONZERO_COUNT[b as usize]]. *)
Definition nonzero_count (b : Z) : res Z :=
  match nth_error NONZERO_COUNT (Z.to_nat b) with Some c => Ok c | None => Panic end.

(** Lines 321-348: one pixel of a block with split level [fs]. *)
Definition rice_step (m : mode) (fs : Z) (q : bitbuf) (lastpix : Z) : res (Z * bitbuf) :=
  let! (b, nbits, src) := skip_zeros m (q_b q) (q_n q) (q_src q) in
  let! c := nonzero_count b in
  let! nzero := i32_result m (nbits - c) in
  let! n1 := i32_result m (nzero + 1) in
  let! nbits := i32_result m (nbits - n1) in
  let! p := shl32 m 1 nbits in
  let b := Z.lxor b p in
  let! nbits := i32_result m (nbits - fs) in
  let! (b, nbits, src) := fill b nbits src in
  let! top := shl32 m (as_u32 nzero) fs in
  let! low := shr32 m b nbits in
  let diff := Z.lor top low in
  let! b := low_bits m b nbits in
  let! cur := i32_result m (as_i32 (unmap diff) + lastpix) in
  Ok (cur, mk_bitbuf b nbits src).

(** The loops of lines 228-234, 258-295 and 320-352: [n] is [imax - i], [L] is [buf.len()] and [out] is what
    has been written ([j] is its length).  A slice of [buf] beyond its end panics. *)
Fixpoint block (t : rty) (L : Z) (step : bitbuf -> Z -> res (Z * bitbuf)) (n : nat) (i : Z)
         (q : bitbuf) (lastpix : Z) (out : list Z) : res (Z * bitbuf * Z) * list Z :=
  match n with
  | O => (Ok (i, q, lastpix), out)
  | S n' =>
    if len out <? L then
      match step q lastpix with
      | Ok (cur, q') =>
        if len out + Z.of_nat (rsize t) <=? L
        then block t L step n' (i + 1) q' cur (out ++ le_bytes (rsize t) cur)
        else (Panic, out)
      | Err e => (Err e, out)
      | Panic => (Panic, out)
      end
    else (Ok (i, q, lastpix), out)
  end.

(** Lines 175-219: the FS value of the next block and the state it leads to. *)
Definition fs_step (m : mode) (t : rty) (nblock nx : Z) (b i lastpix nbits : Z) (src : list Z)
  : res (rstate * list Z) :=
  let! (b, nbits, src) := fill b (nbits - fsbits t) src in
  let! f := shr32 m b nbits in
  let fs := as_i32 f - 1 in
  let! b := low_bits m b nbits in
  let! e := i32_result m (i + nblock) in
  let imax := Z.min e nx in
  Ok (if fs <? 0 then RLow b i imax lastpix nbits
      else if fs =? fsmax t then RHigh b i imax nbits lastpix
      else RRice b fs i imax lastpix nbits, src).

(** The pixel loop of a block state with its [i] and [imax]. *)
Definition block_step (m : mode) (t : rty) (L : Z) (st : rstate) (src out : list Z)
  : res (Z * bitbuf * Z) * list Z :=
  match st with
  | RLow b i imax lastpix nbits =>
    block t L low_step (Z.to_nat (imax - i)) i (mk_bitbuf b nbits src) lastpix out
  | RHigh b i imax nbits lastpix =>
    block t L (high_step m t) (Z.to_nat (imax - i)) i (mk_bitbuf b nbits src) lastpix out
  | RRice b fs i imax lastpix nbits =>
    block t L (rice_step m fs) (Z.to_nat (imax - i)) i (mk_bitbuf b nbits src) lastpix out
  | _ => (Panic, out)
  end.
Definition block_imax (st : rstate) : Z :=
  match st with
  | RLow _ _ imax _ _ | RHigh _ _ imax _ _ | RRice _ _ _ imax _ _ => imax
  | _ => 0
  end.

(** Lines 155-372: [read] into a buffer of [L] bytes.  Gives the outcome ([None]: the fuel is used
    up), the state, the bytes left and the bytes written.  An error or a full buffer in the middle
    of a block leaves the state as it was before the block. *)
Fixpoint read_loop (m : mode) (t : rty) (nblock nx L : Z) (fuel : nat) (st : rstate)
         (src out : list Z) : option (res unit) * rstate * list Z * list Z :=
  match fuel with
  | O => (None, st, src, out)
  | S f =>
    match st with
    | RStart =>
      match (let! (p, src1) := read_first t src in
             let! (b, src2) := read_u8 src1 in Ok (p, b, src2)) with
      | Ok (p, b, src') => read_loop m t nblock nx L f (RFs b 0 p 8) src' out
      | Err e => (Some (Err e), st, [], out)
      | Panic => (Some Panic, st, src, out)
      end
    | RFs b i lastpix nbits =>
      match fs_step m t nblock nx b i lastpix nbits src with
      | Ok (st', src') => read_loop m t nblock nx L f st' src' out
      | Err e => (Some (Err e), st, [], out)
      | Panic => (Some Panic, st, src, out)
      end
    | _ =>
      match block_step m t L st src out with
      | (Ok (i, q, lastpix), out') =>
        let st' := if i =? block_imax st then RFs (q_b q) i lastpix (q_n q) else st in
        if len out' =? L then (Some (Ok tt), st', q_src q, out')
        else read_loop m t nblock nx L f st' (q_src q) out'
      | (Err e, out') => (Some (Err e), st, [], out')
      | (Panic, out') => (Some Panic, st, src, out')
      end
    end
  end.

(** [read_exact] on a fresh decoder (lines 75-93): a successful [read] has filled the buffer, and an
    empty buffer is not read into. *)
Definition rice_read_exact (m : mode) (t : rty) (nblock nx L : Z) (fuel : nat) (src : list Z)
  : option (res unit) * list Z * list Z :=
  if L =? 0 then (Some (Ok tt), src, [])
  else let '(o, _, src', out) := read_loop m t nblock nx L fuel RStart src [] in (o, src', out).

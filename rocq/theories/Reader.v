(** In-memory byte source: the behaviour of [std::io::Cursor] over a byte slice, which is also
    what [BufReader<File>] shows while nothing else touches the file.  Library code, used by
    [src/fits.rs], [src/hdu/mod.rs] and [src/hdu/data]. *)

From Verif Require Import Base.

Record reader := mk_reader { rd_data : list Z; rd_pos : Z }.

(** [Read::read_exact] on a buffer of [n] bytes.  On a short source the error kind is
    [UnexpectedEof] and the cursor is left at the end of the data. *)
Definition read_exact (r : reader) (n : Z) : res (list Z) * reader :=
  if n =? 0 then (Ok [], r)
  else if rd_pos r + n <=? len (rd_data r)
  then (Ok (slice (rd_data r) (rd_pos r) n), mk_reader (rd_data r) (rd_pos r + n))
  else (Err EEof, mk_reader (rd_data r) (len (rd_data r))).

(** [Seek::seek_relative] with the signed offset [off]: the position must stay in u64. *)
Definition seek_relative (r : reader) (off : Z) : res unit * reader :=
  let p := rd_pos r + off in
  if (0 <=? p) && (p <? 2 ^ 64) then (Ok tt, mk_reader (rd_data r) p) else (Err EIoOther, r).

(** [Seek::seek(SeekFrom::Start(p))]. *)
Definition seek_start (r : reader) (p : Z) : reader := mk_reader (rd_data r) p.

(** Bytes from the current position on. *)
Definition rd_rest (r : reader) : list Z := skipn (Z.to_nat (rd_pos r)) (rd_data r).

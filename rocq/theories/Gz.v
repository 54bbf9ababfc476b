(** [src/gz.rs] and [src/file.rs]: files that may be gzip-compressed as a whole. *)

From Verif Require Import Base Reader Fits ImageIt.

(** ** Readers (library code) *)

(** [SeekFrom], and the two operations of [Read + Seek]. *)
Inductive from := FromStart (p : Z) | FromCurrent (off : Z) | FromEnd (off : Z).
Inductive op := Read (n : Z) | Seek (s : from).
Inductive outcome := Got (bs : list Z) | At (p : Z) | Failed.

Definition target (c : list Z) (pos : Z) (s : from) : Z :=
  match s with FromStart p => p | FromCurrent off => pos + off | FromEnd off => len c + off end.

(** [Cursor<Box<[u8]>>]: positions are u64. *)
Definition cursor_step (r : reader) (o : op) : outcome * reader :=
  match o with
  | Read n => let (bs, r') := read_some r n in (Got bs, r')
  | Seek s =>
    let t := target (rd_data r) (rd_pos r) s in
    if (0 <=? t) && (t <? 2 ^ 64) then (At t, mk_reader (rd_data r) t) else (Failed, r)
  end.

(** [BufReader<File>]: the bytes read ahead, and the file, whose positions are i64. *)
Record bufr := mk_bufr { br_buf : list Z; br_file : reader }.
Definition buf_pos (b : bufr) : Z := rd_pos (br_file b) - len (br_buf b).
(** [BufReader::read]. *)
Definition bufr_read (b : bufr) (n : Z) : list Z * bufr :=
  match br_buf b with
  | [] =>
    if buf_capacity <=? n then let (bs, f) := read_some (br_file b) n in (bs, mk_bufr [] f)
    else let (bs, f) := read_some (br_file b) buf_capacity in
         (firstn (Z.to_nat n) bs, mk_bufr (skipn (Z.to_nat n) bs) f)
  | bs => (firstn (Z.to_nat n) bs, mk_bufr (skipn (Z.to_nat n) bs) (br_file b))
  end.
(** [BufReader::seek]: drops what was read ahead, unless the file refuses.  (For offsets near the least
    i64 it seeks twice; both are one seek here.) *)
Definition bufr_step (b : bufr) (o : op) : outcome * bufr :=
  match o with
  | Read n => let (bs, b') := bufr_read b n in (Got bs, b')
  | Seek s =>
    let t := target (rd_data (br_file b)) (buf_pos b) s in
    if (0 <=? t) && (t <? 2 ^ 63) then (At t, mk_bufr [] (mk_reader (rd_data (br_file b)) t)) else (Failed, b)
  end.

(** [flate2::read::GzDecoder], an oracle on the bytes it is given: whether they start with a gzip header,
    how many bytes each read asks for to find that out, and the decompressed contents of the first member
    ([None]: [read_to_end] fails). *)
Record gz_library := mk_library {
  gl_header : list Z -> bool; gl_reads : list Z -> list Z; gl_member : list Z -> option (list Z) }.

(** ** [src/gz.rs] *)

(** Lines 10-16: [GzReader], over [BufReader<File>] as in [FITSFile::open]. *)
Inductive gz_reader := InMemory (c : reader) | Plain (b : bufr).

(** Lines 18-46: [read] and [seek]. *)
Definition gz_step (g : gz_reader) (o : op) : outcome * gz_reader :=
  match g with
  | InMemory c => let (x, c') := cursor_step c o in (x, InMemory c')
  | Plain b => let (x, b') := bufr_step b o in (x, Plain b')
  end.

Fixpoint gz_run (g : gz_reader) (ops : list op) : list outcome :=
  match ops with
  | [] => []
  | o :: r => let (x, g') := gz_step g o in x :: gz_run g' r
  end.

(** Lines 94-119: [GzReader::new]. *)
Definition probed (b : bufr) (sizes : list Z) : bufr := fold_left (fun s n => snd (bufr_read s n)) sizes b.
Definition gz_new (lib : gz_library) (b : bufr) : res gz_reader :=
  let src := br_buf b ++ rd_rest (br_file b) in
  if gl_header lib src then
    match gl_member lib src with
    | Some c => Ok (InMemory (mk_reader c 0))
    | None => Err EIoOther
    end
  else
    match bufr_step (probed b (gl_reads lib src)) (Seek (FromStart 0)) with
    | (At _, b') => Ok (Plain b')
    | _ => Err EIoOther
    end.

(** [src/file.rs] lines 22-30: [FITSFile::open] of a file with the bytes [d], up to [Fits::from_reader]. *)
Definition open_file (lib : gz_library) (d : list Z) : res gz_reader := gz_new lib (mk_bufr [] (mk_reader d 0)).

(** ** The calls of the crate *)

(** [Read::read_exact], which [GzReader] does not define itself: it reads until the buffer is full or a
    read gives nothing (library code). *)
Fixpoint fill (fuel : nat) (g : gz_reader) (n : Z) (acc : list Z) : res (list Z) * gz_reader :=
  if n =? 0 then (Ok acc, g)
  else match fuel with
       | O => (Panic, g)
       | S fuel' =>
         match gz_step g (Read n) with
         | (Got [], g') => (Err EEof, g')
         | (Got bs, g') => fill fuel' g' (n - len bs) (acc ++ bs)
         | (_, g') => (Panic, g')
         end
       end.
Definition gz_read_exact (g : gz_reader) (n : Z) : res (list Z) * gz_reader := fill (Z.to_nat n) g n [].

(** What [Fits] and the data readers call: [read_exact], [seek_relative], [seek(SeekFrom::Start)] and
    [stream_position] (the last two forms of [seek]); on the abstract cursor of [Reader.v] ... *)
Inductive call := CExact (n : Z) | CRelative (off : Z) | CStart (p : Z) | CPosition.
Inductive answer := ABytes (bs : list Z) | APos (p : Z) | ADone | AFail (e : error) | APanic.
Definition reader_call (r : reader) (c : call) : answer * reader :=
  match c with
  | CExact n => match read_exact r n with (Ok bs, r') => (ABytes bs, r') | (Err e, r') => (AFail e, r') | (Panic, r') => (APanic, r') end
  | CRelative off => match seek_relative r off with (Ok _, r') => (ADone, r') | (Err e, r') => (AFail e, r') | (Panic, r') => (APanic, r') end
  | CStart p => (APos p, seek_start r p)
  | CPosition => (APos (rd_pos r), r)
  end.
(** ... and on the reader of an opened file. *)
Definition gz_call (g : gz_reader) (c : call) : answer * gz_reader :=
  match c with
  | CExact n => match gz_read_exact g n with (Ok bs, g') => (ABytes bs, g') | (Err e, g') => (AFail e, g') | (Panic, g') => (APanic, g') end
  | CRelative off => match gz_step g (Seek (FromCurrent off)) with (At _, g') => (ADone, g') | (_, g') => (AFail EIoOther, g') end
  | CStart p => match gz_step g (Seek (FromStart p)) with (At q, g') => (APos q, g') | (_, g') => (AFail EIoOther, g') end
  | CPosition => match gz_step g (Seek (FromCurrent 0)) with (At q, g') => (APos q, g') | (_, g') => (AFail EIoOther, g') end
  end.
Fixpoint reader_calls (r : reader) (cs : list call) : list answer :=
  match cs with [] => [] | c :: l => let (a, r') := reader_call r c in a :: reader_calls r' l end.
Fixpoint gz_calls (g : gz_reader) (cs : list call) : list answer :=
  match cs with [] => [] | c :: l => let (a, g') := gz_call g c in a :: gz_calls g' l end.

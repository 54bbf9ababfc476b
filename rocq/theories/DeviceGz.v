(** [src/gz.rs] and [src/file.rs] over a file whose reads can be short and whose calls can fail: the same code as
    [Gz.v] models over a file that works, with the branches that only an error of the file reaches. *)

From Verif Require Import Base Reader Fits ImageIt Gz Device.

(** What a call of the operating system does, one entry per call, behind the end of the list [Whole]: it works; a
    read gives at most [k] bytes (and at least one, before the end); it fails, the position stays. *)
Inductive fcall := Whole | Short (k : Z) | Fails.
Definition fcalls := list fcall.
Definition first_call (fs : fcalls) : fcall * fcalls := match fs with [] => (Whole, []) | x :: l => (x, l) end.
Definition file_read (x : fcall) (r : reader) (n : Z) : option (list Z * reader) :=
  match x with
  | Whole => Some (read_some r n)
  | Short k => Some (read_some r (Z.min n (Z.max 1 k)))
  | Fails => None
  end.

(** [BufReader::read], as [bufr_read] (library code): [None] is an error, after which nothing has been read ahead. *)
Definition dev_bufr_read (b : bufr) (n : Z) (fs : fcalls) : option (list Z) * bufr * fcalls :=
  match br_buf b with
  | [] =>
    let (x, fs') := first_call fs in
    match file_read x (br_file b) (if buf_capacity <=? n then n else buf_capacity) with
    | Some (bs, f) =>
      if buf_capacity <=? n then (Some bs, mk_bufr [] f, fs')
      else (Some (firstn (Z.to_nat n) bs), mk_bufr (skipn (Z.to_nat n) bs) f, fs')
    | None => (None, b, fs')
    end
  | bs => (Some (firstn (Z.to_nat n) bs), mk_bufr (skipn (Z.to_nat n) bs) (br_file b), fs)
  end.
(** [BufReader::seek], as [bufr_step]: one call, and what was read ahead is kept when it fails. *)
Definition dev_bufr_step (b : bufr) (o : op) (fs : fcalls) : outcome * bufr * fcalls :=
  match o with
  | Read n => match dev_bufr_read b n fs with (Some bs, b', fs') => (Got bs, b', fs') | (None, b', fs') => (Failed, b', fs') end
  | Seek _ =>
    match first_call fs with
    | (Fails, fs') => (Failed, b, fs')
    | (_, fs') => (bufr_step b o, fs')
    end
  end.

(** [src/gz.rs] lines 18-46, as [gz_step]. *)
Definition dev_gz_step (g : gz_reader) (o : op) (fs : fcalls) : outcome * gz_reader * fcalls :=
  match g with
  | InMemory c => let (x, c') := cursor_step c o in (x, InMemory c', fs)
  | Plain b => let '(x, b', fs') := dev_bufr_step b o fs in (x, Plain b', fs')
  end.
Fixpoint dev_gz_run (g : gz_reader) (ops : list op) (fs : fcalls) : list outcome :=
  match ops with
  | [] => []
  | o :: l => let '(x, g', fs') := dev_gz_step g o fs in x :: dev_gz_run g' l fs'
  end.

(** Lines 94-119, as [gz_new].  The decoder asks for [probe] (a list of sizes) to find out whether there is a gzip
    header and for [body] to decompress; both lists may be any, as they depend on the lengths of the reads.  An error
    of the file while it looks for the header is kept inside the decoder (flate2 1.0, [GzDecoder::new]), and
    [header] gives [None], as for a plain file. *)
Fixpoint dev_reads (b : bufr) (sizes : list Z) (fs : fcalls) : bool * bufr * fcalls :=
  match sizes with
  | [] => (true, b, fs)
  | n :: l =>
    match dev_bufr_read b n fs with
    | (Some _, b', fs') => dev_reads b' l fs'
    | (None, b', fs') => (false, b', fs')
    end
  end.
Definition dev_gz_new (lib : gz_library) (probe body : list Z) (b : bufr) (fs : fcalls) : res gz_reader * fcalls :=
  let src := br_buf b ++ rd_rest (br_file b) in
  let '(found, b1, fs1) := dev_reads b probe fs in
  if found && gl_header lib src then
    let '(whole, _, fs2) := dev_reads b1 body fs1 in
    (if whole then match gl_member lib src with Some c => Ok (InMemory (mk_reader c 0)) | None => Err EIoOther end
     else Err EIoOther, fs2)
  else
    match dev_bufr_step b1 (Seek (FromStart 0)) fs1 with
    | (At _, b', fs2) => (Ok (Plain b'), fs2)
    | (_, _, fs2) => (Err EIoOther, fs2)
    end.
(** [src/file.rs] lines 22-30, as [open_file]. *)
Definition dev_open_file (lib : gz_library) (probe body : list Z) (d : list Z) (fs : fcalls) : res gz_reader * fcalls :=
  dev_gz_new lib probe body (mk_bufr [] (mk_reader d 0)) fs.

(** ** The calls of the crate *)

(** [Read::read_exact], as [fill]: an error ends it, and the bytes read before are gone. *)
Fixpoint dev_fill (fuel : nat) (g : gz_reader) (n : Z) (acc : list Z) (fs : fcalls) : res (list Z) * gz_reader * fcalls :=
  if n =? 0 then (Ok acc, g, fs)
  else match fuel with
       | O => (Panic, g, fs)
       | S fuel' =>
         match dev_gz_step g (Read n) fs with
         | (Got [], g', fs') => (Err EEof, g', fs')
         | (Got bs, g', fs') => dev_fill fuel' g' (n - len bs) (acc ++ bs) fs'
         | (_, g', fs') => (Err EIoOther, g', fs')
         end
       end.
Definition dev_gz_call (g : gz_reader) (c : call) (fs : fcalls) : answer * gz_reader * fcalls :=
  match c with
  | CExact n =>
    match dev_fill (Z.to_nat n) g n [] fs with
    | (Ok bs, g', fs') => (ABytes bs, g', fs')
    | (Err e, g', fs') => (AFail e, g', fs')
    | (Panic, g', fs') => (APanic, g', fs')
    end
  | CRelative off => match dev_gz_step g (Seek (FromCurrent off)) fs with (At _, g', fs') => (ADone, g', fs') | (_, g', fs') => (AFail EIoOther, g', fs') end
  | CStart p => match dev_gz_step g (Seek (FromStart p)) fs with (At q, g', fs') => (APos q, g', fs') | (_, g', fs') => (AFail EIoOther, g', fs') end
  | CPosition => match dev_gz_step g (Seek (FromCurrent 0)) fs with (At q, g', fs') => (APos q, g', fs') | (_, g', fs') => (AFail EIoOther, g', fs') end
  end.
Fixpoint dev_gz_calls (g : gz_reader) (cs : list call) (fs : fcalls) : list answer :=
  match cs with [] => [] | c :: l => let '(a, g', fs') := dev_gz_call g c fs in a :: dev_gz_calls g' l fs' end.
(** The same calls on the device of [Device.v]. *)
Definition dev_reader_call (r : reader) (c : call) (fs : faults) : answer * reader * faults :=
  match c with
  | CExact n => match dev_read fs r n with (Ok bs, r', fs') => (ABytes bs, r', fs') | (Err e, r', fs') => (AFail e, r', fs') | (Panic, r', fs') => (APanic, r', fs') end
  | CRelative off => match dev_seek fs r off with (Ok _, r', fs') => (ADone, r', fs') | (Err e, r', fs') => (AFail e, r', fs') | (Panic, r', fs') => (APanic, r', fs') end
  | CStart p => match device_call fs r (fun r => (Ok p, seek_start r p)) with (Ok q, r', fs') => (APos q, r', fs') | (Err e, r', fs') => (AFail e, r', fs') | (Panic, r', fs') => (APanic, r', fs') end
  | CPosition => match dev_position fs r with (Ok q, r', fs') => (APos q, r', fs') | (Err e, r', fs') => (AFail e, r', fs') | (Panic, r', fs') => (APanic, r', fs') end
  end.
Fixpoint dev_reader_calls (r : reader) (cs : list call) (fs : faults) : list answer :=
  match cs with [] => [] | c :: l => let '(a, r', fs') := dev_reader_call r c fs in a :: dev_reader_calls r' l fs' end.

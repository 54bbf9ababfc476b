(** Specification side for files that may be compressed as a whole. *)

From Verif Require Import Base Reader Fits ImageIt Gz.

(** The bytes a user expects from the file [d]. *)
Definition contents (lib : gz_library) (d : list Z) : option (list Z) :=
  if gl_header lib d then gl_member lib d else Some d.

(** The outcomes of a series of reads and seeks on the contents [c], from position [pos] on: a read gives a
    stretch of the contents from there, of at most the length asked for and empty only at the end; a seek
    goes where it says, and fails before the start (and may fail from 2^63 on), staying where it was. *)
Fixpoint follows (c : list Z) (pos : Z) (ops : list op) (xs : list outcome) : Prop :=
  match ops, xs with
  | [], [] => True
  | Read n :: ops', Got bs :: xs' =>
    bs = slice c pos (len bs) /\ len bs <= n /\ (0 < n -> pos < len c -> bs <> []) /\ follows c (pos + len bs) ops' xs'
  | Seek s :: ops', x :: xs' =>
    let t := match s with FromStart p => p | FromCurrent off => pos + off | FromEnd off => len c + off end in
    (x = At t /\ 0 <= t /\ follows c t ops' xs') \/ (x = Failed /\ ~ 0 <= t < 2 ^ 63 /\ follows c pos ops' xs')
  | _, _ => False
  end.

(** Operations with sizes and offsets of the types they have. *)
Definition op_in_range (o : op) : Prop :=
  match o with
  | Read n => 0 <= n
  | Seek (FromStart p) => 0 <= p < 2 ^ 64
  | Seek _ => True
  end.

(** A series of calls that stops at the first read that fails, and stays below 2^63. *)
Fixpoint well_placed (c : list Z) (pos : Z) (cs : list call) : Prop :=
  match cs with
  | [] => True
  | CExact n :: l => 0 <= n /\ (if n =? 0 then well_placed c pos l else if pos + n <=? len c then well_placed c (pos + n) l else l = [])
  | CRelative off :: l => pos + off < 2 ^ 63 /\ (if 0 <=? pos + off then well_placed c (pos + off) l else well_placed c pos l)
  | CStart p :: l => 0 <= p < 2 ^ 63 /\ well_placed c p l
  | CPosition :: l => well_placed c pos l
  end.

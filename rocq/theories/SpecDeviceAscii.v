(** Specification side for the bytes of ASCII tables over short and failing reads. *)

From Verif Require Import Base Reader Fits ImageIt Gz DeviceGz DeviceAscii SpecDeviceGz.

(** A series of reads of the given sizes. *)
Fixpoint dev_ascii_run (t : taker) (sizes : list Z) (fs : fcalls) : list (option (list Z)) * taker * fcalls :=
  match sizes with
  | [] => ([], t, fs)
  | n :: r =>
    let '(x, t1, fs1) := dev_buf_read t n fs in
    let '(l, t2, fs2) := dev_ascii_run t1 r fs1 in (x :: l, t2, fs2)
  end.

(** The bytes given, and the number of reads that failed. *)
Definition given (l : list (option (list Z))) : list Z := concat (map (fun x => match x with Some bs => bs | None => [] end) l).
Definition failed_reads (l : list (option (list Z))) : nat :=
  List.length (filter (fun x => match x with Some _ => false | None => true end) l).

(** A series of reads and one more, of [k] bytes: every failed call of the source is one failed read; what was given
    is the data unit from its start, and a read that gives nothing means that all of it was given before. *)
Definition reads_unit (unit : list Z) (tk : taker) (sizes : list Z) (k : Z) (fs : fcalls) : Prop :=
  let '(l, tk1, fs1) := dev_ascii_run tk sizes fs in
  failures fs = (failed_reads l + failures fs1)%nat /\
  given l = firstn (length (given l)) unit /\
  match dev_buf_read tk1 k fs1 with
  | (Some more, _, fs2) => given l ++ more = firstn (length (given l ++ more)) unit /\ len more <= k /\
      (more = [] <-> given l = unit) /\ failures fs2 = failures fs1
  | (None, _, fs2) => failures fs1 = S (failures fs2)
  end.

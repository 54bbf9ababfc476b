(** Files that may be gzip-compressed as a whole (C52).  [open_file] is the model of [FITSFile::open] and
    [GzReader::new], [gz_run] a series of reads and seeks, [gz_calls] a series of the calls the crate makes;
    [SpecGz] holds the specification side.  The gzip decoder is an oracle: the theorems hold for every one. *)

From Coq Require Import List.
From Verif Require Import Base Reader Fits ImageIt Gz SpecGz GzProofs.

(** A decoder reads non-negative numbers of bytes. *)
Definition sane (lib : gz_library) : Prop := forall l, Forall (fun n => 0 <= n) (gl_reads lib l).

(** Every series of reads and seeks on an opened file goes through its contents, the decompressed bytes or
    the file itself from byte 0, however much the decoder had read. *)
Theorem C52_reads : forall lib d g ops,
  sane lib -> open_file lib d = Ok g -> Forall op_in_range ops ->
  exists c, contents lib d = Some c /\ follows c 0 ops (gz_run g ops).
Proof. exact opened_reads. Qed.
Print Assumptions C52_reads.

(** Opening succeeds whenever there are contents. *)
Theorem C52_opens : forall lib d c, contents lib d = Some c -> exists g, open_file lib d = Ok g.
Proof. exact open_ok. Qed.
Print Assumptions C52_opens.

(** The calls of the crate get the same answers as on the cursor over the contents that the other theorems
    are about ([Reader.v]), up to the first failed read. *)
Theorem C52_calls : forall lib d g c cs,
  sane lib -> open_file lib d = Ok g -> contents lib d = Some c -> len c < 2 ^ 63 -> well_placed c 0 cs ->
  gz_calls g cs = reader_calls (mk_reader c 0) cs.
Proof. exact opened_calls. Qed.
Print Assumptions C52_calls.

(** So a compressed file and the file it was made from cannot be told apart. *)
Theorem C52_transparent : forall lib d z g gz cs,
  sane lib -> gl_header lib d = false -> gl_header lib z = true -> gl_member lib z = Some d -> len d < 2 ^ 63 ->
  open_file lib d = Ok g -> open_file lib z = Ok gz -> well_placed d 0 cs -> gz_calls gz cs = gz_calls g cs.
Proof.
  intros lib d z g gz cs S HD HZ M L OD OZ W.
  rewrite (opened_calls lib d g d cs S OD) by (auto; unfold contents; rewrite HD; reflexivity).
  apply (opened_calls lib z gz d cs S OZ); auto. unfold contents. rewrite HZ. exact M.
Qed.
Print Assumptions C52_transparent.

(** Members of the form 31 139 n and n bytes; looking for the header takes ten bytes. *)
Definition ex_lib : gz_library := mk_library
  (fun l => match l with 31 :: 139 :: _ => true | _ => false end) (fun _ => [10; 3])
  (fun l => match l with 31 :: 139 :: n :: r => if n <=? len r then Some (firstn (Z.to_nat n) r) else None | _ => None end).
Definition ex_plain_bytes : list Z := map Z.of_nat (seq 0 25).
Definition ex_zipped : list Z := [31; 139; 25] ++ ex_plain_bytes ++ [7; 7].
Definition ex_ops : list op :=
  [Read 4; Seek (FromCurrent (-2)); Read 9000; Seek (FromEnd (-3)); Read 1; Read 5; Read 5; Seek (FromCurrent (-99)); Seek (FromStart 1); Read 2].
Definition ex_calls : list call := [CExact 4; CPosition; CRelative 6; CExact 2; CStart 3; CRelative (-9); CExact 3; CExact 20].
Definition ex_on (d : list Z) : option (list outcome * list answer) :=
  match open_file ex_lib d with Ok g => Some (gz_run g ex_ops, gz_calls g ex_calls) | _ => None end.

Example C52_ex :
  sane ex_lib /\ contents ex_lib ex_zipped = Some ex_plain_bytes /\ contents ex_lib ex_plain_bytes = Some ex_plain_bytes /\
  Forall op_in_range ex_ops /\ well_placed ex_plain_bytes 0 ex_calls /\
  ex_on ex_zipped
  = Some ([Got [0; 1; 2; 3]; At 2; Got (map Z.of_nat (seq 2 23)); At 22; Got [22]; Got [23; 24]; Got []; Failed; At 1; Got [1; 2]],
          [ABytes [0; 1; 2; 3]; APos 4; ADone; ABytes [10; 11]; APos 3; AFail EIoOther; ABytes [3; 4; 5]; AFail EEof]) /\
  ex_on ex_plain_bytes = ex_on ex_zipped.
Proof.
  split; [intros l; repeat constructor; discriminate|]. split; [vm_compute; reflexivity|]. split; [vm_compute; reflexivity|].
  split; [repeat constructor; discriminate|]. split; [vm_compute; repeat split; discriminate|].
  split; vm_compute; reflexivity.
Qed.

(** A gzip file may have several members, whose contents follow one another; all but the first are ignored. *)
Definition ex_members : list Z := [31; 139; 3; 1; 2; 3] ++ [31; 139; 2; 4; 5].
Theorem C52_members_refuted : exists g,
  gl_member ex_lib [31; 139; 3; 1; 2; 3] = Some [1; 2; 3] /\ gl_member ex_lib [31; 139; 2; 4; 5] = Some [4; 5] /\
  open_file ex_lib ex_members = Ok g /\ gz_run g [Read 10; Read 10] = [Got [1; 2; 3]; Got []].
Proof. eexists. vm_compute. repeat split. Qed.
Print Assumptions C52_members_refuted.

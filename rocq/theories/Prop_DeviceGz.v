(** Opening and reading files that may be gzip-compressed as a whole, when reads are short or the file fails (C92).
    [dev_open_file] is the model of [FITSFile::open] and [GzReader::new], [dev_gz_run] a series of reads and seeks,
    [dev_gz_calls] a series of the calls the crate makes.  The gzip decoder is an oracle, and so are the sizes of its
    reads: the theorems hold for every one. *)

From Coq Require Import List.
From Verif Require Import Base Reader Fits ImageIt Gz SpecGz GzProofs Device DeviceGz SpecDeviceGz SpecUtf8 SpecCard DeviceGzProofs Prop_Gz.

(** An opened file goes through its contents in every series of reads and seeks, whatever fails later: as many
    operations as calls of the file can fail, each leaving the position as it was.  Only when a call of the file
    failed while a compressed file was opened, the compressed bytes can be taken for the contents. *)
Theorem C92_opened : forall lib probe body d fs g fs',
  nonneg probe -> nonneg body -> dev_open_file lib probe body d fs = (Ok g, fs') ->
  exists used c, fs = used ++ fs' /\
    (contents lib d = Some c \/ gl_header lib d = true /\ c = d /\ In Fails used) /\
    forall ops later, Forall op_in_range ops -> follows_failing (failures later) c 0 ops (dev_gz_run g ops later).
Proof.
  intros lib probe body d fs g fs' P B E. destruct (opened _ _ _ _ _ _ _ P B E) as (k & (used & -> & K) & [(c & S & C & _)|(S & H & ->)]).
  - exists used, c. split; auto. split; auto. intros. apply run_follows_failing; auto.
  - exists used, d. split; auto. split; [right; split; auto; split; auto; apply some_failure; lia|]. intros. apply run_follows_failing; auto.
Qed.
Print Assumptions C92_opened.

(** Opening does not panic, and gives an error only when a call of the file failed or the file cannot be decompressed. *)
Theorem C92_not_opened : forall lib probe body d fs r fs',
  nonneg probe -> nonneg body -> dev_open_file lib probe body d fs = (r, fs') -> (forall g, r <> Ok g) ->
  exists e used, r = Err e /\ fs = used ++ fs' /\ (In Fails used \/ contents lib d = None).
Proof.
  intros lib probe body d fs r fs' P B E N. destruct (opened _ _ _ _ _ _ _ P B E) as (k & (used & -> & K) & H). destruct r as [g|e|].
  - destruct (N g eq_refl).
  - exists e, used. split; auto. split; auto. destruct H as [H|H]; auto. left. apply some_failure. lia.
  - contradiction.
Qed.
Print Assumptions C92_not_opened.

(** When no call fails, short reads make no difference: the file opens and shows its contents. *)
Theorem C92_short : forall lib probe body d fs c,
  nonneg probe -> nonneg body -> ~ In Fails fs -> contents lib d = Some c ->
  exists g fs', dev_open_file lib probe body d fs = (Ok g, fs') /\
    forall ops, Forall op_in_range ops -> follows c 0 ops (dev_gz_run g ops fs').
Proof.
  intros lib probe body d fs c P B N C. destruct (dev_open_file lib probe body d fs) as (r, fs') eqn:E.
  destruct (opened _ _ _ _ _ _ _ P B E) as (k & (used & -> & K) & H). apply no_failures in N.
  unfold failures in *. rewrite filter_app, app_length in N. destruct r as [g|e|].
  - exists g, fs'. split; auto. destruct H as [(c' & S & C' & _)|(_ & _ & ->)]; [|lia].
    rewrite C in C'. injection C' as <-. intros ops R. apply follows_whole. replace 0%nat with (failures fs') by (unfold failures; lia).
    apply run_follows_failing; auto.
  - destruct H as [H|H]; [lia|congruence].
  - contradiction.
Qed.
Print Assumptions C92_short.

(** A compressed file whose opening met no failure does not need the file any more: nothing fails later. *)
Theorem C92_in_memory : forall lib probe body d fs g fs',
  nonneg probe -> nonneg body -> gl_header lib d = true -> failures fs = failures fs' ->
  dev_open_file lib probe body d fs = (Ok g, fs') ->
  exists c, gl_member lib d = Some c /\ forall ops later, Forall op_in_range ops -> follows c 0 ops (dev_gz_run g ops later).
Proof.
  intros lib probe body d fs g fs' P B Hd F E. destruct (opened _ _ _ _ _ _ _ P B E) as (k & Sp & H).
  pose proof (spent_failures _ _ _ Sp) as F'. destruct H as [(c & S & C & M)|(_ & _ & ->)]; [|lia].
  destruct (M Hd) as (_ & ->). unfold contents in C. rewrite Hd in C. exists c. split; auto. intros ops later R.
  rewrite (memory_keeps _ ops _ later [] eq_refl). apply follows_whole. exact (run_follows_failing c ops _ 0 [] S R).
Qed.
Print Assumptions C92_in_memory.

(** The calls of the crate on an opened file get the answers of the device of [Device.v], which the theorems C77 to
    C91 are about, over the contents: a call there fails for a call of the file that failed, and a read that fails
    has moved by less than its length.  (Up to the first end of file, as in C52.) *)
Theorem C92_calls : forall lib probe body d fs g fs' cs,
  nonneg probe -> nonneg body -> dev_open_file lib probe body d fs = (Ok g, fs') -> len d < 2 ^ 63 ->
  (forall c, contents lib d = Some c -> len c < 2 ^ 63) -> below 0 cs ->
  exists c faults, (contents lib d = Some c \/ gl_header lib d = true /\ c = d /\ (failures fs' < failures fs)%nat) /\
    List.length faults = List.length cs /\ (broken_calls faults <= failures fs')%nat /\
    Forall2 (fun x k => match x with Some j => 0 <= j /\ match k with CExact n => j < n | _ => j = 0 end | None => True end) faults cs /\
    until_eof (dev_gz_calls g cs fs') = until_eof (dev_reader_calls (mk_reader c 0) cs faults).
Proof.
  intros lib probe body d fs g fs' cs P B E L LC W. destruct (opened _ _ _ _ _ _ _ P B E) as (k & Sp & H).
  pose proof (spent_failures _ _ _ Sp) as F.
  assert (H': exists c, shows_at g c 0 /\ len c < 2 ^ 63 /\ (contents lib d = Some c \/ gl_header lib d = true /\ c = d /\ (failures fs' < failures fs)%nat)).
  { destruct H as [(c & S & C & _)|(S & Hd & ->)]; [exists c; split; [exact S|]; split; [auto|left; exact C]|].
    exists d. split; [exact S|]. split; [exact L|right; split; auto; split; auto; lia]. }
  destruct H' as (c & S & L' & C). destruct (calls_covered c L' cs g 0 fs' S ltac:(lia) W) as (faults & (A1 & A2 & A3) & E').
  exists c, faults. auto.
Qed.
Print Assumptions C92_calls.

(** So does every program that chooses each call by the answers before, as the iterators over HDUs, pixels and rows
    do. *)
Theorem C92_client : forall lib probe body d fs g fs' p b n,
  nonneg probe -> nonneg body -> dev_open_file lib probe body d fs = (Ok g, fs') -> len d < 2 ^ 63 ->
  (forall c, contents lib d = Some c -> len c < 2 ^ 63) ->
  moves_within b p -> 0 <= b -> Z.of_nat n * b < 2 ^ 63 ->
  exists c faults, (contents lib d = Some c \/ gl_header lib d = true /\ c = d /\ (failures fs' < failures fs)%nat) /\
    (broken_calls faults <= failures fs')%nat /\ Forall (fun x => match x with Some j => 0 <= j | None => True end) faults /\
    until_eof (client_on_file p n [] g fs') = until_eof (client_on_device p n [] (mk_reader c 0) faults).
Proof.
  intros lib probe body d fs g fs' p b n P B E L LC M B0 N. destruct (opened _ _ _ _ _ _ _ P B E) as (k & Sp & H).
  pose proof (spent_failures _ _ _ Sp) as F.
  assert (H': exists c, shows_at g c 0 /\ len c < 2 ^ 63 /\ (contents lib d = Some c \/ gl_header lib d = true /\ c = d /\ (failures fs' < failures fs)%nat)).
  { destruct H as [(c & S & C & _)|(S & Hd & ->)]; [exists c; split; [exact S|]; split; [auto|left; exact C]|].
    exists d. split; [exact S|]. split; [exact L|right; split; auto; split; auto; lia]. }
  destruct H' as (c & S & L' & C). destruct (client_covered p b c M B0 L' n [] g 0 fs' S ltac:(lia) ltac:(lia)) as (faults & A1 & A2 & E').
  exists c, faults. auto.
Qed.
Print Assumptions C92_client.

(** A failure of the first read is lost, for every file: it is taken for a plain one and its bytes are shown as they
    are. *)
Theorem C92_lost : forall lib n probe body d fs,
  nth_error fs 0 <> Some Fails ->
  exists g fs', dev_open_file lib (n :: probe) body d (Fails :: fs) = (Ok g, fs') /\
    forall ops later, Forall op_in_range ops -> follows_failing (failures later) d 0 ops (dev_gz_run g ops later).
Proof. exact open_lost. Qed.
Print Assumptions C92_lost.

(** But no HDU comes out of compressed bytes, from any device: [next] gives an error (or panics), about the header and
    not about the file. *)
Theorem C92_no_hdu : forall m d fs h f' fs', octets d -> firstn 1 d = [31] ->
  dev_next m (from_reader (mk_reader d 0)) fs <> (IOk h, f', fs').
Proof. exact compressed_no_hdu. Qed.
Print Assumptions C92_no_hdu.

(** *** Cases *)

(** The compressed file of C52, over short reads; with a failure while it is decompressed; with one in the first read,
    when the compressed bytes come out, and the file can still fail. *)
Definition ex_open (d : list Z) (fs later : fcalls) : option (list outcome * list answer) :=
  match dev_open_file ex_lib [10; 3] [9000; 9000] d fs with
  | (Ok g, _) => Some (dev_gz_run g [Read 4; Seek (FromCurrent (-2)); Read 9000; Seek (FromStart 1); Read 2] later,
                       dev_gz_calls g [CExact 4; CPosition; CRelative 6; CExact 2] later)
  | _ => None
  end.
Example C92_ex :
  nonneg [10; 3] /\ nonneg [9000; 9000] /\
  ex_open ex_zipped [Short 5; Short 2] [Fails; Fails]
  = Some ([Got [0; 1; 2; 3]; At 2; Got (map Z.of_nat (seq 2 23)); At 1; Got [1; 2]], [ABytes [0; 1; 2; 3]; APos 4; ADone; ABytes [10; 11]]) /\
  ex_open ex_zipped [Whole; Fails] [] = None /\
  ex_open ex_plain_bytes [Short 2; Fails; Short 4] [Short 3; Fails; Short 1; Whole; Fails]
  = Some ([Got [0; 1; 2]; Failed; Got [3]; At 1; Failed], [AFail EIoOther; APos 3; ADone; AFail EIoOther]) /\
  dev_reader_calls (mk_reader ex_plain_bytes 0) [CExact 4; CPosition; CRelative 6; CExact 2] [Some 3; None; None; Some 0]
  = [AFail EIoOther; APos 3; ADone; AFail EIoOther] /\ below 0 [CExact 4; CPosition; CRelative 6; CExact 2].
Proof. split; [repeat constructor; discriminate|]. split; [repeat constructor; discriminate|]. vm_compute. repeat split; discriminate. Qed.

(** So opening a compressed file while the file fails can succeed and show compressed bytes, and the error is lost. *)
Theorem C92_compressed_refuted : exists g,
  contents ex_lib ex_zipped = Some ex_plain_bytes /\ dev_open_file ex_lib [10; 3] [9000; 9000] ex_zipped [Fails] = (Ok g, []) /\
  dev_gz_run g [Read 5] [] = [Got [31; 139; 25; 0; 1]].
Proof. eexists. vm_compute. repeat split. Qed.
Print Assumptions C92_compressed_refuted.

(** A program that reads a length and skips it, then asks where it is; the second read of four bytes fails after two. *)
Definition ex_client : client := fun hist =>
  match hist with
  | [] => Some (CExact 1)
  | ABytes [n] :: _ => if n <=? 9 then Some (CRelative n) else None
  | ADone :: _ => Some (CExact 4)
  | AFail _ :: _ => Some CPosition
  | _ => None
  end.
Example C92_ex_client :
  moves_within 9 ex_client /\
  match dev_open_file ex_lib [10; 3] [9000; 9000] (3 :: ex_plain_bytes) [] with
  | (Ok g, _) => client_on_file ex_client 9 [] g [Whole; Whole; Short 2; Fails] = [ABytes [3]; ADone; AFail EIoOther; APos 6]
  | _ => False
  end /\
  client_on_device ex_client 9 [] (mk_reader (3 :: ex_plain_bytes) 0) [None; None; Some 2] = [ABytes [3]; ADone; AFail EIoOther; APos 6].
Proof.
  split; [|split; vm_compute; reflexivity].
  intros hist k E. unfold ex_client in E. destruct hist as [|a h]; [injection E as <-; lia|].
  destruct a as [bs| | |e|]; try discriminate; try (injection E as <-; lia || exact I).
  destruct bs as [|n [|? ?]]; try discriminate. destruct (Z.leb_spec n 9); [|discriminate]. injection E as <-. lia.
Qed.

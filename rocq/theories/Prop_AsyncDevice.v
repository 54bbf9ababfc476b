(** Sources of the asynchronous reader that fail (C78).  [AsyncDevice] holds the models, [SpecAsyncDevice] the
    specification side. *)

From Coq Require Import String List Lia ZifyBool.
From Verif Require Import Base Utf8 Text Card Reader Header Xtension Bytes Fits Async AsyncDevice.
From Verif Require Import SpecUtf8 SpecCard SpecHeader SpecXt SpecFits SpecAsync SpecAsyncDevice.
From Verif Require Import AsyncDeviceProofs Prop_Fits Prop_Async.
Local Open Scope string_scope.
Local Open Scope list_scope.
Local Open Scope Z_scope.

(** One poll for an HDU takes chunks from the source, up to the first event that is none.  A failure is returned
    as an error, and the stream of HDUs is over; without a failure the poll gives what it gives on a source
    that does not fail. *)
Theorem C78_next : forall m f i f', fpoll_next m f = (i, f') ->
  (takes_chunks (ff_reader f) (ff_reader f') /\ i <> APending /\ poll_next m (patient f) = (i, patient f')) \/
  (stops_at FWait (ff_reader f) (ff_reader f') /\ i = APending /\ poll_next m (patient f) = (APending, patient f')) \/
  (stops_at FFail (ff_reader f) (ff_reader f') /\ (exists e, io_error e /\ i = AErr e) /\
   ff_error f' = true /\ ff_rem f' = ff_rem f /\
   poll_next m (patient f) = (APending, af_set_reader (patient f) (patient_source (ff_reader f')))).
Proof. exact next_sim. Qed.
Print Assumptions C78_next.

(** One poll for a value: a failure is returned as it is. *)
Theorem C78_item : forall m b f i f', fitem_next m b f = (i, f') ->
  (takes_chunks (ff_reader f) (ff_reader f') /\ i <> SPending /\ item_next m b (patient f) = (i, patient f')) \/
  (stops_at FWait (ff_reader f) (ff_reader f') /\ i = SPending /\ item_next m b (patient f) = (SPending, patient f')) \/
  (stops_at FFail (ff_reader f) (ff_reader f') /\ i = SErr EIoOther /\ item_next m b (patient f) = (SPending, patient f')).
Proof. exact item_sim. Qed.
Print Assumptions C78_item.

(** Every series of polls gives what it gives on a source that is late where this one fails, with errors in place
    of the waits. *)
Theorem C78_run : forall m ops f, alike (fst (frun m f ops)) (fst (arun m (patient f) ops)).
Proof. exact run_alike. Qed.
Print Assumptions C78_run.

(** No errors of this kind from a source that does not fail. *)
Theorem C78_sound : forall m ops f, Forall (fun e => e <> FFail) (fr_events (ff_reader f)) ->
  fst (frun m f ops) = fst (arun m (patient f) ops).
Proof. exact run_sound. Qed.
Print Assumptions C78_sound.

(** The example file in two parts, with a failure in between, in the padding of the first header, in its data
    and where the second header is to come. *)
Definition ex_failing (n : Z) : ffits :=
  ffrom_reader (mk_freader [] [FChunk (firstn (Z.to_nat n) ex_bytes); FFail; FChunk (skipn (Z.to_nat n) ex_bytes)]).
Definition short (r : aresult) : option (res Z) :=
  match r with
  | RNext (AOk h) => Some (Ok (len (a_cards h))) | RNext (AErr e) => Some (Err e)
  | RItem (SItem v) => Some (Ok v) | RItem (SErr e) => Some (Err e) | _ => None
  end.
Definition ex_ops : list aop := [ONext; OItem BU8; OItem BU8; OItem BU8; ONext; ONext].

Example C78_case :
  map short (fst (frun Checked (ex_failing 100) ex_ops)) = [Some (Err EStatic); None; None; None; None; None] /\
  map short (fst (frun Checked (ex_failing 2000) ex_ops)) = [Some (Err EStatic); None; None; None; None; None] /\
  map short (fst (frun Checked (ex_failing 2881) ex_ops)) =
    [Some (Ok 5); Some (Ok 1); Some (Err EIoOther); Some (Ok 2); Some (Ok 6); Some (Ok 9)] /\
  map short (fst (frun Checked (ex_failing 5760) ex_ops)) =
    [Some (Ok 5); Some (Ok 1); Some (Ok 2); Some (Ok 3); Some (Err EIoOther); None].
Proof. vm_compute. repeat split; reflexivity. Qed.

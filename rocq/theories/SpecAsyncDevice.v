(** Specification side for sources of an asynchronous reader that fail. *)

From Verif Require Import Base Text Card Reader Header Xtension Fits Bytes Async AsyncDevice.

(** The same source with a source that is not ready in place of every failure. *)
Definition patient_event (e : fevent) : event :=
  match e with FWait => Wait | FChunk c => Chunk c | FFail => Wait end.
Definition patient_source (s : freader) : areader := mk_areader (fr_buf s) (map patient_event (fr_events s)).
Definition patient (f : ffits) : afits :=
  mk_afits (ff_start f) (ff_rem f) (ff_num f) (ff_error f) (patient_source (ff_reader f)).

(** What is taken from the source between two states: chunks only, or chunks and then [e]. *)
Definition is_chunk (e : fevent) : Prop := exists c, e = FChunk c.
Definition takes_chunks (s s' : freader) : Prop :=
  exists used, Forall is_chunk used /\ fr_events s = used ++ fr_events s'.
Definition stops_at (e : fevent) (s s' : freader) : Prop :=
  exists used, Forall is_chunk used /\ fr_events s = used ++ e :: fr_events s'.

(** The errors that failures of the source are turned into. *)
Definition io_error (e : error) : Prop := e = EIoOther \/ e = EStatic.

(** The results of a series of polls of the failing source against those of the late one: a failed poll for a
    value gives the error, and a failed poll for an HDU too, after which there are no HDUs. *)
Definition over (r : aresult) : Prop := forall i, r = RNext i -> i = ANone.
Inductive alike : list aresult -> list aresult -> Prop :=
| alike_nil : alike [] []
| alike_same r rs ps : alike rs ps -> alike (r :: rs) (r :: ps)
| alike_item rs ps : alike rs ps -> alike (RItem (SErr EIoOther) :: rs) (RItem SPending :: ps)
| alike_over e rs ps :
    io_error e -> Forall over rs -> length rs = length ps -> alike (RNext (AErr e) :: rs) (RNext APending :: ps).

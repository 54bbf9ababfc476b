(** What polls that are not ready lose (C80).  [Async] holds the model, [SpecAsyncLoss] the specification side. *)

From Coq Require Import String List Lia ZifyBool.
From Verif Require Import Base Utf8 Text Card Reader Header Xtension Bytes Fits Async.
From Verif Require Import SpecUtf8 SpecCard SpecHeader SpecXt SpecFits SpecAsync SpecAsyncLoss.
From Verif Require Import AsyncLossProofs Prop_Fits Prop_Async.
Local Open Scope string_scope.
Local Open Scope list_scope.
Local Open Scope Z_scope.

(** A poll that is not ready, for an HDU or for a value, is not ready because the source is not; it changes nothing
    in the counters of the reader, and the bytes that the source had given before it was not ready are gone: the
    reader goes on behind them. *)
Theorem C80_pending : forall m f op x f', no_empty (af_reader f) -> 0 <= af_rem f ->
  astep m f op = (x, f') -> pending x = true ->
  In Wait (ar_events (af_reader f)) /\ f' = af_set_reader f (behind (af_reader f)) /\
  content (af_reader f) = at_hand (af_reader f) ++ content (af_reader f').
Proof. exact pending_drops. Qed.
Print Assumptions C80_pending.

(** Any series of polls gives, at the polls that are ready, what these polls alone give on a source that is always
    ready and has, of the bytes of the source, those that were not dropped; and the reader ends up the same.  So
    nothing but the bytes at hand is ever lost, and every value is made of bytes that were kept. *)
Theorem C80_run : forall m ops f g, no_empty (af_reader f) -> 0 <= af_rem f -> always_ready (af_reader g) ->
  af_start g = af_start f -> af_rem g = af_rem f -> af_num g = af_num f -> af_error g = af_error f ->
  content (af_reader g) = kept m f ops ->
  fst (arun m g (ready_ops m f ops)) = filter (fun x => negb (pending x)) (fst (arun m f ops)) /\
  same_bytes (snd (arun m f ops)) (snd (arun m g (ready_ops m f ops))).
Proof. exact lossy_run_on. Qed.
Print Assumptions C80_run.

(** A poll for a value is only not ready when fewer bytes than the value has were at hand, so it loses fewer. *)
Theorem C80_item : forall m b f f', no_empty (af_reader f) -> item_next m b f = (SPending, f') ->
  len (at_hand (af_reader f)) < byte_size b.
Proof. exact item_loss. Qed.
Print Assumptions C80_item.

(** The example file with three interruptions: in front of the first header, inside the second of three bytes of data
    read as a number of two bytes, and where the second header begins. *)
Definition ex_late : afits := afrom_reader (mk_areader [] [Wait; Chunk (firstn 2881 ex_bytes); Wait;
  Chunk (slice ex_bytes 2881 2); Chunk (slice ex_bytes 2883 2878); Wait; Chunk (skipn 5761 ex_bytes)]).
Definition ex_late_ops : list aop := [ONext; ONext; OItem BI16; OItem BI16; OItem BU8; ONext; ONext].
Definition short (r : aresult) : option (res Z) :=
  match r with
  | RNext (AOk h) => Some (Ok (len (a_cards h))) | RNext (AErr e) => Some (Err e)
  | RItem (SItem v) => Some (Ok v) | RItem (SErr e) => Some (Err e) | _ => None
  end.

Example C80_case :
  no_empty (af_reader ex_late) /\ 0 <= af_rem ex_late /\
  map pending (fst (arun Checked ex_late ex_late_ops)) = [true; false; true; false; false; true; false] /\
  map short (fst (arun Checked ex_late ex_late_ops)) =
    [None; Some (Ok 5); None; Some (Ok 515); Some (Ok 4); None; Some (Err EStatic)] /\
  len (kept Checked ex_late ex_late_ops) = len ex_bytes - 1 - 2877 /\
  ready_ops Checked ex_late ex_late_ops = [ONext; OItem BI16; OItem BU8; ONext] /\
  map short (fst (arun Checked (afrom_reader (mk_areader (kept Checked ex_late ex_late_ops) [])) [ONext; OItem BI16; OItem BU8; ONext])) =
    [Some (Ok 5); Some (Ok 515); Some (Ok 4); Some (Err EStatic)].
Proof. split; [repeat constructor; discriminate|]. vm_compute. repeat split; try discriminate; reflexivity. Qed.

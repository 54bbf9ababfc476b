(** Specification side for polls that are not ready. *)

From Verif Require Import Base Text Card Reader Header Xtension Fits Bytes Async SpecAsync.

(** The source never gives an empty piece, which would be the end of the file, before its end. *)
Definition no_empty (s : areader) : Prop := Forall (fun e => e <> Chunk []) (ar_events s).

(** The bytes that are there before the source is not ready for the first time, or ends; and the source
    after that. *)
Fixpoint pieces (evs : list event) : list Z := match evs with Chunk c :: r => c ++ pieces r | _ => [] end.
Definition at_hand (s : areader) : list Z := ar_buf s ++ pieces (ar_events s).
Fixpoint after_wait (evs : list event) : list event :=
  match evs with Chunk _ :: r => after_wait r | Wait :: r => r | [] => [] end.
Definition behind (s : areader) : areader := mk_areader [] (after_wait (ar_events s)).

(** The bytes that are left of the content when each poll that is not ready has dropped what was at hand;
    and the polls that are ready. *)
Definition taken (f f' : afits) : list Z :=
  firstn (length (content (af_reader f)) - length (content (af_reader f'))) (content (af_reader f)).
Fixpoint kept (m : mode) (f : afits) (ops : list aop) : list Z :=
  match ops with
  | [] => content (af_reader f)
  | op :: r => let (x, f') := astep m f op in
               (if pending x then [] else taken f f') ++ kept m f' r
  end.
Fixpoint ready_ops (m : mode) (f : afits) (ops : list aop) : list aop :=
  match ops with
  | [] => []
  | op :: r => let (x, f') := astep m f op in
               (if pending x then [] else [op]) ++ ready_ops m f' r
  end.

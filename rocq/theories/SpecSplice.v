(** Specification side for cards spliced by hand (C96). *)

From Verif Require Import Base Utf8 Text Card.

(** [Card::splice] ([src/card.rs] lines 115-118) with one card after the other. *)
Fixpoint splices (m : mode) (c : card) (conts : list card) : res card :=
  match conts with
  | [] => Ok c
  | r :: rest => let! c' := card_append m c r in splices m c' rest
  end.

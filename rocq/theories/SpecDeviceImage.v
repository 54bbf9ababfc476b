(** Specification side for the decoder of the [image] crate on a device that fails. *)

From Verif Require Import Base Text Card Reader Header Xtension Bytes Fits ImageIt Device ImageInt.
From Verif Require Import SpecCard SpecXt SpecFits SpecImage SpecImageInt.

(** Call number [j] fails, with the position moved by [k], and no other call does. *)
Definition only_fault (fs : faults) (j : nat) (k : Z) : Prop :=
  nth_error fs j = Some (Some k) /\ forall i x, nth_error fs i = Some (Some x) -> i = j.

(** Where the samples of three planes of [n] pixels go when the one number [j] could not be read: the rest of its
    plane is left out, and the samples after it make the next planes. *)
Definition gap (j n c i : Z) : Z :=
  if c * n + i <? j then c * n + i
  else if c =? j / n then 3 * n
  else j + (c - j / n - 1) * n + i.

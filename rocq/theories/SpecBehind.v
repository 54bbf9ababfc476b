(** Specification for a FITS file that lies behind other bytes of its source. *)

From Coq Require Import List.
From Verif Require Import Base Card Reader Header Xtension Fits SpecFits.

(** The same HDU with its data unit [j] bytes further on. *)
Definition further (j : Z) (h : hdu) : hdu :=
  mk_hdu (h_kind h) (h_cards h) (h_values h) (h_xt h) (h_offset h + j).
Definition item_further (j : Z) (i : item) : item :=
  match i with IOk h => IOk (further j h) | i => i end.

(** An HDU whose blocks end below 2^63 when [j] bytes are put before the file. *)
Definition ends_below (m : mode) (j : Z) (i : item) : Prop :=
  exists h n, i = IOk h /\ hdu_size m h = Ok n /\ h_offset h + in_blocks n + j < 2 ^ 63.

(** Specification side for devices that fail. *)

From Verif Require Import Base Text Card Reader Header Xtension Bytes Fits ImageIt Device.

(** The next [n] calls on the device work. *)
Definition working (n : nat) (fs : faults) : Prop := Forall (fun x => x = None) (firstn n fs).

(** The call on the device number [j] from here, counted from 0, is the first that fails. *)
Definition first_fault (fs : faults) (j : nat) : Prop :=
  working j fs /\ exists k, nth_error fs j = Some (Some k).

(** The calls on the device that it takes to come to an HDU and to read its header: one per record, one for
    what is left of its last block, and two on the way from the HDU before it. *)
Definition header_calls (start : bool) (h : hdu) : nat :=
  ((if start then 0 else 2) + length (h_cards h) + (if (len (h_cards h) mod 36 =? 0)%Z then 0 else 1))%nat.

(** The values a loop over the pixels is given, in at most [n] turns: it ends at the first [None]. *)
Fixpoint dev_loop (n : nat) (s : it) (fs : faults) : list Z :=
  match n with
  | O => []
  | S n' => match dev_it_next s fs with
            | (Some v, s', fs') => v :: dev_loop n' s' fs'
            | (None, _, _) => []
            end
  end.

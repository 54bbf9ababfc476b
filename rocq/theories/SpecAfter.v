(** Tables and tile-compressed images asked again after a failure of the device. *)

From Verif Require Import Base Text Card Reader Header Xtension Bytes BinTable SpecBin SpecDevice Device DeviceTable.

(** What [n] calls of [next] give, whatever they give. *)
Fixpoint dev_values (m : mode) (n : nat) (s : table) (fs : faults) : list (res (option dvalue)) :=
  match n with
  | O => []
  | S n' => let '(x, s', fs') := dev_table_next m s fs in x :: dev_values m n' s' fs'
  end.

(** A device that, in the turn of each value, fails as often as [pauses] says without having moved, and then works
    for as many calls as [calls] says. *)
Definition paused (pauses calls : list nat) : faults :=
  flat_map (fun x => repeat (Some 0) (fst x) ++ repeat None (snd x)) (combine pauses calls).

(** The call number [j] fails after [j] that worked, and the device has moved by [k]. *)
Definition fails_at (fs : faults) (j : nat) (k : Z) : Prop := working j fs /\ nth_error fs j = Some (Some k).

Definition is_array (v : option dvalue) : Prop :=
  match v with Some (DVla32 _ _) | Some (DVla64 _ _) => True | _ => False end.

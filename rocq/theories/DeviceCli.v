(** Model of [fits struct FILE] when reading the file may fail: [crates/cli/src/struct.rs]. *)

From Verif Require Import Base Text Card Reader Header Xtension Fits Cli Device.

(** Lines 20-26, as [struct_loop]. *)
Fixpoint dev_struct_loop (m : mode) (fuel : nat) (i : Z) (f : fits) (fs : faults) : option (list str * ending) :=
  match fuel with
  | O => None
  | S fuel' =>
    match dev_next m f fs with
    | (INone, _, _) => Some ([], Finished)
    | (IErr e, _, _) => Some ([], Failed e)
    | (IPanic, _, _) => Some ([], Panicked)
    | (IOk h, f', fs') =>
      let (lines, ok) := print_hdu m i h in
      if ok then
        match dev_struct_loop m fuel' (i + 1) f' fs' with
        | Some (rest, e) => Some (lines ++ rest, e)
        | None => None
        end
      else Some (lines, Panicked)
    end
  end.
Definition dev_cli_struct (m : mode) (fuel : nat) (r : reader) (fs : faults) : option (list str * ending) :=
  dev_struct_loop m fuel 0 (from_reader r) fs.

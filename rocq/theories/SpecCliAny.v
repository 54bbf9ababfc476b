(** Specification side of [fits struct] on any file: the lines about HDUs that were read. *)

From Verif Require Import Base Text Card Header Xtension Fits Cli SpecCard SpecXt SpecFits SpecCli.

(** The lines about the HDUs [hs], numbered from [i] on: four for each, with what its keywords say, where its data
    starts and how many bytes it has. *)
Inductive listing (m : mode) : Z -> list hdu -> list str -> Prop :=
| listing_nil i : listing m i [] []
| listing_cons i h rest lines type head no first n size :
    describes (h_kind h) (h_values h) type head ->
    decimal i no -> decimal (h_offset h) first -> hdu_size m h = Ok n -> decimal n size ->
    listing m (i + 1) rest lines ->
    listing m i (h :: rest)
      ((chars "HDU[" ++ no ++ chars "]:") :: type :: head ::
       (chars " * DATA starting byte: " ++ first ++ chars "; byte size: " ++ size ++ chars ".") :: lines).

(** How the tool ends when the iterator gives [last] after the HDUs. *)
Definition ended_by (last : item) (e : ending) : Prop :=
  match last with
  | INone => e = Finished
  | IErr x => e = Failed x
  | IPanic => e = Panicked
  | IOk _ => False
  end.

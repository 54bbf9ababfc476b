(** Specification side for panics of the asynchronous reader: which bytes of a source bring them about. *)

From Verif Require Import Base Text Card Reader Header Xtension Fits Async.
From Verif Require Import SpecCard SpecHeader SpecXt SpecFits SpecPanic.

(** The first card of a header; of the first one in a file only the value is looked at. *)
Definition aopens (k : hkind) (c : card) : Prop :=
  match k with HPrimary => exists name cm, c = CValue name (VLogical true cm) | _ => opens k c end.

(** The bytes begin with a header of [n] records with END, which opens an HDU of kind [k] and assembles to the
    keyword table [vs]. *)
Definition aheader (t : list Z) (k : hkind) (n : Z) (vs : vmap) : Prop :=
  exists recs last rest c cards,
    t = concat recs ++ last ++ rest /\ Forall header_record recs /\
    end_record last /\ n = len recs + 1 /\ Forall2 reads_as recs (c :: cards) /\ aopens k c /\
    forall m, process_cards m (c :: cards ++ [CEnd]) = Ok vs.

(** Headers at which a checked build panics besides those of [panics_at]; a size is computed only when the padding of the
    header is there. *)
Definition aoverflows (t : list Z) (primary : bool) : Prop :=
  exists k n vs, (primary = true <-> k = HPrimary) /\ aheader t k n vs /\
    (overflows_early k vs \/
     exists x, xt_parse Checked (xtype_of k) vs = Ok x /\ in_blocks (80 * n) <= len t /\ overflows_late x).

(** The bytes at which the next poll for an HDU looks for a header, if there are any: at the start the next ones, and
    later those behind the rest of the data unit and its padding. *)
Definition looks_at (f : afits) (t : list Z) : Prop :=
  af_error f = false /\
  if af_start f then content (af_reader f) = t
  else t <> [] /\ exists sk, content (af_reader f) = sk ++ t /\
       len sk = af_rem f + (in_blocks (af_num f) - af_num f).

(** Specification side for selections that name columns more than once (C85). *)

From Coq Require Import Sorted Permutation.
From Verif Require Import Base Text Card Reader Header Xtension Bytes Fits ImageIt BinTable
  SpecCard SpecXt SpecFits SpecImage SpecBin.

(** [l] are the columns the identifiers stand for, one by one; identifiers of no column are left
    out. *)
Inductive asked (t : bintable) : list column_id -> list Z -> Prop :=
| asked_nil : asked t [] []
| asked_column i ids c l :
    names t i c -> 0 <= c < len (bt_tforms t) -> asked t ids l -> asked t (i :: ids) (c :: l)
| asked_nothing i ids l :
    (forall c, names t i c -> ~ 0 <= c < len (bt_tforms t)) -> asked t ids l -> asked t (i :: ids) l.

(** The columns asked for in the order of the table, as often as they are asked for. *)
Definition requested (t : bintable) (ids : list column_id) (sel : list Z) : Prop :=
  StronglySorted Z.le sel /\ exists l, asked t ids l /\ Permutation sel l.

(** The cells met when these columns are read one after the other, forwards only: [r] and [c] are
    row and column of the cell before.  A column that is not behind the last one is read in the
    next row. *)
Fixpoint visit (r c : Z) (columns : list Z) : list (Z * Z) :=
  match columns with
  | [] => []
  | c' :: l => let r' := if c <? c' then r else r + 1 in (r', c') :: visit r' c' l
  end.
(** As many rounds as there are rows. *)
Definition visited (t : bintable) (sel : list Z) : list (Z * Z) :=
  visit 0 (-1) (concat (repeat sel (Z.to_nat (bt_naxis2 t)))).

(** The byte of the table where a cell starts and the one after its end. *)
Definition cell_start (t : bintable) (x : Z * Z) : Z := fst x * bt_naxis1 t + column_start (bt_tforms t) (snd x).
Definition cell_end (t : bintable) (x : Z * Z) : Z :=
  cell_start t x + match format t (snd x) with Some f => field_bytes f | None => 0 end.

(** The cells before the first one that would start exactly at the end of the rows. *)
Fixpoint before_end (t : bintable) (l : list (Z * Z)) : list (Z * Z) :=
  match l with
  | [] => []
  | x :: r => if cell_start t x =? bt_naxis1 t * bt_naxis2 t then [] else x :: before_end t r
  end.

Definition visited_slots (d : list Z) (t : bintable) (o : Z) (l : list (Z * Z)) : list slot :=
  flat_map (fun x => cell d t o true (fst x) (snd x)) l.

(** The rounds are read to the end and the last cell lies behind the rows. *)
Definition runs_over (t : bintable) (l : list (Z * Z)) : Prop :=
  before_end t l = l /\ exists l' x, l = l' ++ [x] /\ bt_naxis1 t * bt_naxis2 t < cell_end t x.

(** Specification side for selections made on a table in use (C86). *)

From Verif Require Import Base Text Card Reader Header Xtension Bytes Fits ImageIt BinTable
  SpecCard SpecXt SpecFits SpecImage SpecBin.

(** The first byte from [x] on that lies at byte [a] of a row of [n] bytes. *)
Definition forward (n x a : Z) : Z := x + (a - x) mod n.

(** The columns read one after the other, forwards only, from byte [x] of the rows on: where each
    cell starts. *)
Fixpoint places (t : bintable) (x : Z) (columns : list Z) : list (Z * Z) :=
  match columns with
  | [] => []
  | c :: l =>
    let y := forward (bt_naxis1 t) x (column_start (bt_tforms t) c) in
    (y, c) :: places t (y + match format t c with Some f => field_bytes f | None => 0 end) l
  end.
(** The elements of cells that start at these bytes of the rows. *)
Definition place_slots (d : list Z) (t : bintable) (o : Z) (l : list (Z * Z)) : list slot :=
  flat_map (fun x => match format t (snd x) with
                     | Some f => cell_slots d true (o + bt_theap t) f (o + fst x) (snd x)
                     | None => []
                     end) l.
(** The elements from number [k] on of a column of [n], looked for at byte [p] of the file. *)
Definition rest_slots (e : ety) (n p k c : Z) : list slot :=
  map (fun j => SElem e (p + j * elem_bytes e) c (k + j)) (upto (n - k)).

Definition slot_start (x : slot) : Z := match x with SElem _ p _ _ | SDesc _ p => p end.
Definition slot_end (x : slot) : Z :=
  match x with SElem e p _ _ => p + elem_bytes e | SDesc w p => p + if w then 16 else 8 end.

(** The elements before the first one that would start at byte [e] of the file. *)
Fixpoint cut (e : Z) (l : list slot) : list slot :=
  match l with
  | [] => []
  | x :: r => if slot_start x =? e then [] else x :: cut e r
  end.
(** None starts there and the last one lies behind it. *)
Definition over (e : Z) (l : list slot) : Prop :=
  cut e l = l /\ exists l' x, l = l' ++ [x] /\ e < slot_end x.

(** Calls of [next] from the state [s] on give the values of the slots [l] up to the one that would
    start at byte [e], where the rows end, then the end for ever.  In checked builds the call for
    the last value panics if it lies behind [e]. *)
Definition reads (m : mode) (d : list Z) (e : Z) (s : table) (l : list slot) : Prop :=
  exists values, Forall2 (slot_value d) (cut e l) values /\
    (m = Checked /\ over e l -> exists vs v, values = vs ++ [v] /\
       fst (table_run m s (repeat TNext (S (length vs)))) = map TValue vs ++ [TPanic]) /\
    (~ (m = Checked /\ over e l) -> forall n,
       fst (table_run m s (repeat TNext n)) = firstn n (map TValue values ++ repeat TEnd n)).
(** The bytes read are in the file. *)
Definition in_file (d : list Z) (e : Z) (l : list slot) : Prop := Forall (fun x => slot_end x <= len d) (cut e l).

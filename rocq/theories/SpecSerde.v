(** Specification side of lookup by value and of struct deserialisation. *)

From Coq Require Import Floats.SpecFloat.
From Verif Require Import Base Text Card Header Float Serde.

(** ** Equality *)

(** IEEE equality: a NaN equals nothing, the two zeros are equal, otherwise the same number. *)
Definition same_f64 (x y : spec_float) : Prop :=
  x <> S754_nan /\ (x = y \/ exists s t, x = S754_zero s /\ y = S754_zero t).

(** Values that Rust's [==] identifies. *)
Inductive same_value : value -> value -> Prop :=
| same_float x y c : same_f64 (f64_of_fval x) (f64_of_fval y) ->
                     same_value (VFloat x c) (VFloat y c)
| same_other v : (forall x c, v <> VFloat x c) -> same_value v v.

Definition nan_value (v : value) : Prop := exists x c, v = VFloat x c /\ f64_of_fval x = S754_nan.

(** A card that holds a NaN. *)
Definition nan_card (c : card) : Prop :=
  exists n v, (c = CValue n v \/ c = CHierarch n v) /\ nan_value v.

(** ** A struct from a header *)

(** What the struct should hold for a field of name [k]: the value the typed lookup gives. *)
Definition field_reads {A} (vs : vmap) (k : str) (de : value -> res A) (missing : option A)
  (a : A) : Prop :=
  (exists v, get vs k = Some v /\ de v = Ok a) \/ (get vs k = None /\ missing = Some a).

(** What a field of type [t] is for a keyword of value [v]: the number, logical or text of the card, an integer also as
    a real, the text of a value that could not be read, and nothing for an undefined value. *)
Inductive holds : ftype -> value -> fdata -> Prop :=
| holds_int lo hi i c : lo <= i <= hi -> holds (TInt lo hi) (VInteger i c) (DInt i)
| holds_real x c : holds TReal (VFloat x c) (DReal x)
| holds_whole i c : holds TReal (VInteger i c) (DReal (FDec (i <? 0) (Z.abs i) 0))
| holds_bool b c : holds TBool (VLogical b c) (DBool b)
| holds_text s c : holds TText (VString s c) (DText s)
| holds_raw s : holds TText (VInvalid s) (DText s)
| holds_bitpix i b c :
    In (i, b) [(8, BU8); (16, BI16); (32, BI32); (64, BI64); (-32, BF32); (-64, BF64)] ->
    holds TBitpix (VInteger i c) (DBitpix b)
| holds_nothing t : holds (TOption t) VUndefined DNone
| holds_some t v a : v <> VUndefined -> holds t v a -> holds (TOption t) v (DSome a).

(** Cards that Rust's [==] identifies. *)
Inductive same_card : card -> card -> Prop :=
| same_card_value n v w : same_value v w -> same_card (CValue n v) (CValue n w)
| same_card_hierarch n v w : same_value v w -> same_card (CHierarch n v) (CHierarch n w)
| same_card_other c : (forall n v, c <> CValue n v) -> (forall n v, c <> CHierarch n v) -> same_card c c.

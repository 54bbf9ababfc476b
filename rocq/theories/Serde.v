(** Model of the two remaining ways of reading a keyword table: lookup by value, and
    deserialisation of a whole struct from a header ([src/hdu/header/mod.rs]; the latter is what
    [src/wcs.rs] does with [WCSParams]). *)

From Coq Require Import Floats.SpecFloat.
From Verif Require Import Base Text Card Header Float.

(** ** Equality of values and cards *)

(** Derived [PartialEq] of [Option<String>]. *)
Definition opt_str_eqb (a b : option str) : bool :=
  match a, b with
  | Some x, Some y => str_eqb x y
  | None, None => true
  | _, _ => false
  end.

(** [src/card.rs] line 422: the derived [PartialEq] of [Value]; [Float] compares the f64s. *)
Definition value_eqb (a b : value) : bool :=
  match a, b with
  | VInteger i c, VInteger j d => (i =? j) && opt_str_eqb c d
  | VFloat x c, VFloat y d => SFeqb (f64_of_fval x) (f64_of_fval y) && opt_str_eqb c d
  | VLogical x c, VLogical y d => Bool.eqb x y && opt_str_eqb c d
  | VString s c, VString t d => str_eqb s t && opt_str_eqb c d
  | VUndefined, VUndefined => true
  | VInvalid s, VInvalid t => str_eqb s t
  | _, _ => false
  end.

(** [src/hdu/header/mod.rs] lines 123-126: [ValueMap::get_keyword]. *)
Fixpoint get_keyword (vs : vmap) (v : value) : option str :=
  match vs with
  | [] => None
  | (n, w) :: r => if value_eqb w v then Some n else get_keyword r v
  end.

(** [src/hdu/header/extension/mod.rs] line 13: the derived [PartialEq] of [XtensionType]. *)
Definition xtype_eqb (a b : xtype) : bool :=
  match a, b with
  | XImage, XImage | XBinTable, XBinTable | XAsciiTable, XAsciiTable => true
  | _, _ => false
  end.

(** [src/card.rs] line 13: the derived [PartialEq] of [Card]. *)
Definition card_eqb (a b : card) : bool :=
  match a, b with
  | CValue n v, CValue m w => str_eqb n m && value_eqb v w
  | CContinuation s c, CContinuation t d => opt_str_eqb s t && opt_str_eqb c d
  | CXtension x c, CXtension y d => xtype_eqb x y && opt_str_eqb c d
  | CComment s, CComment t => str_eqb s t
  | CHistory s, CHistory t => str_eqb s t
  | CHierarch n v, CHierarch m w => str_eqb n m && value_eqb v w
  | CSpace, CSpace => true
  | CEnd, CEnd => true
  | CUndefined s, CUndefined t => str_eqb s t
  | _, _ => false
  end.

(** [Vec<Card> == Vec<Card>]. *)
Fixpoint cards_eqb (a b : list card) : bool :=
  match a, b with
  | [], [] => true
  | c :: a', d :: b' => card_eqb c d && cards_eqb a' b'
  | _, _ => false
  end.

(** [src/hdu/header/mod.rs] line 82: [ValueMap == ValueMap], the [PartialEq] of [IndexMap]: same
    number of entries and every entry of the left map is in the right one. *)
Definition vmap_eqb (a b : vmap) : bool :=
  (len a =? len b)
  && forallb (fun '(n, v) => match get b n with Some w => value_eqb v w | None => false end) a.

(** ** A struct from a header *)

(** One field of a struct with a derived [Deserialize]: its (renamed) name, the deserialiser of
    its type, and what it is when no keyword has its name ([None]: an error; [Option] fields and
    fields with [#[serde(default)]] have a value then). *)
Record field (A : Type) := mk_field {
  fd_name : str;
  fd_de : value -> res A;
  fd_missing : option A
}.
Arguments mk_field {A}. Arguments fd_name {A}. Arguments fd_de {A}. Arguments fd_missing {A}.

(** The derived identifier visitor: index of the field with that name. *)
Fixpoint field_index {A} (fs : list (field A)) (k : str) : option nat :=
  match fs with
  | [] => None
  | f :: r => if str_eqb (fd_name f) k then Some O else option_map S (field_index r k)
  end.

Fixpoint set_slot {A} (slots : list (option A)) (i : nat) (a : A) : list (option A) :=
  match slots, i with
  | [], _ => []
  | _ :: r, O => Some a :: r
  | s :: r, S j => s :: set_slot r j a
  end.

(** The loop of the derived [visit_map] over the entries of the [MapDeserializer] of
    [src/hdu/header/mod.rs] lines 177-183, which are those of [ValueMapIter]
    (lines 163-174), in map order.  [deny] is [#[serde(deny_unknown_fields)]]; otherwise the value
    of an unknown keyword is read as [IgnoredAny], which accepts every [Value].  A second value
    for a field is a duplicate-field error. *)
Fixpoint visit_entries {A} (deny : bool) (fs : list (field A)) (es : vmap)
  (slots : list (option A)) : res (list (option A)) :=
  match es with
  | [] => Ok slots
  | (k, v) :: r =>
    match field_index fs k with
    | None => if deny then Err EDynamic else visit_entries deny fs r slots
    | Some i =>
      match nth_error slots i, nth_error fs i with
      | Some None, Some f =>
        let! a := fd_de f v in visit_entries deny fs r (set_slot slots i a)
      | _, _ => Err EDynamic
      end
    end
  end.

(** The end of [visit_map]: fields without a value. *)
Fixpoint fill_missing {A} (fs : list (field A)) (slots : list (option A)) : res (list A) :=
  match fs, slots with
  | f :: fs', s :: slots' =>
    let! a := match s with
              | Some a => Ok a
              | None => match fd_missing f with Some a => Ok a | None => Err EDynamic end
              end in
    let! r := fill_missing fs' slots' in Ok (a :: r)
  | _, _ => Ok []
  end.

(** [T::deserialize(header.into_deserializer())]: the field values in declaration order. *)
Definition de_struct {A} (deny : bool) (fs : list (field A)) (vs : vmap) : res (list A) :=
  let! slots := visit_entries deny fs vs (map (fun _ => None) fs) in fill_missing fs slots.

(** *** Field types of the structs one reads from a header *)

Inductive ftype :=
| TInt (lo hi : Z)
| TReal
| TBool
| TText
| TBitpix
| TOption (t : ftype).

Inductive fdata :=
| DInt (i : Z)
| DReal (f : fval)
| DBool (b : bool)
| DText (s : str)
| DBitpix (b : bitpix)
| DNone
| DSome (d : fdata).

Definition res_map {A B} (f : A -> B) (x : res A) : res B := let! a := x in Ok (f a).

(** The deserialisers of [Header.v], into one type. *)
Fixpoint de_ftype (t : ftype) (v : value) : res fdata :=
  match t with
  | TInt lo hi => res_map DInt (de_int lo hi v)
  | TReal => res_map DReal (de_f64 v)
  | TBool => res_map DBool (de_bool v)
  | TText => res_map DText (de_string v)
  | TBitpix => res_map DBitpix (de_bitpix v)
  | TOption t' =>
    res_map (fun o => match o with Some d => DSome d | None => DNone end) (de_option (de_ftype t') v)
  end.

(** serde's [missing_field]: only an [Option] can be missing. *)
Definition typed_field (nt : str * ftype) : field fdata :=
  mk_field (fst nt) (de_ftype (snd nt)) (match snd nt with TOption _ => Some DNone | _ => None end).

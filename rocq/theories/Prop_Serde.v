(** Properties of struct deserialisation from a header (C57) and of lookup by value (C58).
    [de_struct] is the model of [T::deserialize(header.into_deserializer())], [get_keyword] of
    [ValueMap::get_keyword], [card_eqb], [cards_eqb], [vmap_eqb] of [==]. *)

From Coq Require Import Floats.SpecFloat.
From Verif Require Import Base Utf8 Text Card Reader Header Float Serde SpecUtf8 SpecCard SpecHeader SpecSerde.
From Verif Require Import SerdeProofs.

(** The table of a header given as text records. *)
Definition table (recs : list (list Z)) : res (list card * vmap) :=
  match consume_cards (mk_reader (concat recs) 0) 0 with
  | (Ok cards, _, _) => let! vs := process_cards Checked cards in Ok (cards, vs)
  | (Err e, _, _) => Err e
  | (Panic, _, _) => Panic
  end.

Definition ex_recs : list (list Z) :=
  map (padded 80)
    [chars "SIMPLE  = T"; chars "CRPIX1  = 512"; chars "CTYPE1  = 'RA---TAN'"; chars "EQUINOX =";
     chars "CRVAL1  = 1.5"; chars "CRPIX1  = 513 / again"; chars "END"].
Definition ex_vs : vmap :=
  [(chars "SIMPLE", VLogical true None); (chars "CRPIX1", VInteger 513 (Some (chars " again")));
   (chars "CTYPE1", VString (chars "RA---TAN") None); (chars "EQUINOX", VUndefined);
   (chars "CRVAL1", VFloat (FDec false 15 (-1)) None)].

Definition ex_cards : list card :=
  match table ex_recs with Ok (cards, _) => cards | _ => [] end.
Example ex_table : table ex_recs = Ok (ex_cards, ex_vs) /\ length ex_cards = 7%nat /\ last ex_cards CEnd = CEnd.
Proof. repeat split; vm_compute; reflexivity. Qed.

(** ** C57: a struct from a header *)

(** Every field is what the typed lookup of its keyword gives; other keywords are ignored, or an
    error under [deny_unknown_fields]. *)
Theorem C57_struct : forall m cards vs deny nts l,
  process_cards m (cards ++ [CEnd]) = Ok vs -> NoDup (map fst nts) ->
  (de_struct deny (map typed_field nts) vs = Ok l <->
   (deny = true -> forall k, In k (keywords vs) -> In k (map fst nts)) /\
   Forall2 (fun nt a => get_parsed (de_ftype (snd nt)) vs (fst nt) = Ok a) nts l).
Proof. exact struct_of_header. Qed.
Print Assumptions C57_struct.

(** Said without the typed lookup: every field holds what the card of its keyword says, and only an optional field may
    be without a card. *)
Theorem C57_holds : forall m cards vs deny nts l,
  process_cards m (cards ++ [CEnd]) = Ok vs -> NoDup (map fst nts) ->
  (de_struct deny (map typed_field nts) vs = Ok l <->
   (deny = true -> forall k, In k (keywords vs) -> In k (map fst nts)) /\
   Forall2 (fun nt a => (exists v, get vs (fst nt) = Some v /\ holds (snd nt) v a) \/
                        (get vs (fst nt) = None /\ (exists t, snd nt = TOption t) /\ a = DNone)) nts l).
Proof. exact struct_holds. Qed.
Print Assumptions C57_holds.

(** The same for arbitrary field types and defaults. *)
Theorem C57_any_fields : forall A m cards vs deny (fs : list (field A)) l,
  process_cards m (cards ++ [CEnd]) = Ok vs -> NoDup (map fd_name fs) ->
  (de_struct deny fs vs = Ok l <->
   (deny = true -> forall k, In k (keywords vs) -> In k (map fd_name fs)) /\
   Forall2 (fun f a => field_reads vs (fd_name f) (fd_de f) (fd_missing f) a) fs l).
Proof. exact @fields_of_header. Qed.
Print Assumptions C57_any_fields.

(** It never panics, so in all other cases it is an error. *)
Theorem C57_total : forall deny nts vs, de_struct deny (map typed_field nts) vs <> Panic.
Proof. exact struct_total. Qed.
Print Assumptions C57_total.

(** The order of the keywords and the keywords that are not fields do not matter. *)
Theorem C57_local : forall m1 m2 cards1 cards2 vs1 vs2 nts l,
  process_cards m1 (cards1 ++ [CEnd]) = Ok vs1 -> process_cards m2 (cards2 ++ [CEnd]) = Ok vs2 ->
  NoDup (map fst nts) -> (forall k, In k (map fst nts) -> get vs1 k = get vs2 k) ->
  de_struct false (map typed_field nts) vs1 = Ok l -> de_struct false (map typed_field nts) vs2 = Ok l.
Proof. exact struct_local. Qed.
Print Assumptions C57_local.

(** A struct like [WCSParams]: an integer card read as a real, the last of two cards, an undefined
    and a missing optional field, and keywords that are not fields. *)
Definition ex_struct : list (str * ftype) :=
  [(chars "CTYPE1", TText); (chars "CRPIX1", TReal); (chars "CRVAL1", TOption TReal);
   (chars "EQUINOX", TOption TReal); (chars "CDELT1", TOption TReal)].
Example ex_struct_bool :
  de_struct false (map typed_field [(chars "SIMPLE", TBool); (chars "CRPIX1", TInt 0 1000)]) ex_vs = Ok [DBool true; DInt 513].
Proof. vm_compute. reflexivity. Qed.
Example ex_struct_value :
  de_struct false (map typed_field ex_struct) ex_vs
  = Ok [DText (chars "RA---TAN"); DReal (FDec false 513 0); DSome (DReal (FDec false 15 (-1))); DNone; DNone].
Proof. vm_compute. reflexivity. Qed.
Example ex_struct_deny : de_struct true (map typed_field ex_struct) ex_vs = Err EDynamic.
Proof. vm_compute. reflexivity. Qed.
Example ex_struct_wrong_type :
  de_struct false (map typed_field [(chars "CTYPE1", TOption TReal)]) ex_vs = Err EDynamic.
Proof. vm_compute. reflexivity. Qed.
Example ex_struct_undefined :
  de_struct false (map typed_field [(chars "EQUINOX", TReal)]) ex_vs = Err EDynamic.
Proof. vm_compute. reflexivity. Qed.
Example ex_struct_missing :
  de_struct false (map typed_field [(chars "CDELT1", TReal)]) ex_vs = Err EDynamic.
Proof. vm_compute. reflexivity. Qed.
Example ex_struct_default :
  de_struct false [mk_field (chars "CDELT1") de_i64 (Some 7); mk_field (chars "CRPIX1") de_i64 (Some 8)] ex_vs
  = Ok [7; 513].
Proof. vm_compute. reflexivity. Qed.

(** ** C58: lookup by value *)

(** The first keyword, in header order, whose value is the same (comment included). *)
Theorem C58_first : forall m cards vs v k,
  process_cards m (cards ++ [CEnd]) = Ok vs ->
  (get_keyword vs v = Some k <->
   exists p q, keywords vs = p ++ k :: q /\
     (exists w, get vs k = Some w /\ same_value w v) /\
     forall k' w, In k' p -> get vs k' = Some w -> ~ same_value w v).
Proof. exact keyword_some. Qed.
Print Assumptions C58_first.

Theorem C58_none : forall m cards vs v,
  process_cards m (cards ++ [CEnd]) = Ok vs ->
  (get_keyword vs v = None <-> forall k w, get vs k = Some w -> ~ same_value w v).
Proof. exact keyword_none. Qed.
Print Assumptions C58_none.

(** The value of a keyword is found again, at that keyword or an earlier one, unless it is NaN. *)
Theorem C58_value_found : forall m cards vs k v,
  process_cards m (cards ++ [CEnd]) = Ok vs -> get vs k = Some v -> ~ nan_value v ->
  exists p q k', keywords vs = p ++ k' :: q /\ ~ In k p /\ get_keyword vs v = Some k' /\
    exists w, get vs k' = Some w /\ same_value w v.
Proof. exact keyword_of_value. Qed.
Print Assumptions C58_value_found.

Example ex_keyword : get_keyword ex_vs (VInteger 513 (Some (chars " again"))) = Some (chars "CRPIX1").
Proof. vm_compute. reflexivity. Qed.
Example ex_keyword_comment : get_keyword ex_vs (VInteger 513 None) = None.
Proof. vm_compute. reflexivity. Qed.
Example ex_keyword_float : get_keyword ex_vs (VFloat (FDec false 150 (-2)) None) = Some (chars "CRVAL1").
Proof. vm_compute. reflexivity. Qed.
Example ex_keyword_zero :
  get_keyword [(chars "A", VFloat (FDec true 0 0) None)] (VFloat (FDec false 0 (-1)) None) = Some (chars "A").
Proof. vm_compute. reflexivity. Qed.

(** A header may hold a NaN (a signed [NAN] is accepted as a number): its value is not found, and
    the header is not equal to itself. *)
Definition nan_recs : list (list Z) := map (padded 80) [chars "BLANKV  = +NAN"; chars "END"].
Theorem C58_nan_refuted : exists cards vs v,
  table nan_recs = Ok (cards, vs) /\ get vs (chars "BLANKV") = Some v /\ get_keyword vs v = None /\
  cards_eqb cards cards = false /\ vmap_eqb vs vs = false.
Proof. 
  exists [CValue (chars "BLANKV") (VFloat FNan None); CEnd], [(chars "BLANKV", VFloat FNan None)], (VFloat FNan None).
  repeat split; vm_compute; reflexivity.
Qed.
Print Assumptions C58_nan_refuted.

(** [==] on values and cards is reflexive otherwise. *)
Theorem C58_values_reflexive : forall v, value_eqb v v = true <-> ~ nan_value v.
Proof. intros v. rewrite value_eqb_iff. apply same_value_refl. Qed.
Print Assumptions C58_values_reflexive.

Theorem C58_cards_reflexive : forall l, cards_eqb l l = true <-> Forall (fun c => ~ nan_card c) l.
Proof. exact cards_eqb_refl. Qed.
Print Assumptions C58_cards_reflexive.

(** Series of cards are equal when they are card for card of the same kind with the same content. *)
Theorem C58_cards : forall a b, cards_eqb a b = true <-> Forall2 same_card a b.
Proof. exact cards_eqb_iff. Qed.
Print Assumptions C58_cards.
Example ex_cards_differ :
  cards_eqb [CXtension XBinTable None; CEnd] [CXtension XAsciiTable None; CEnd] = false /\
  cards_eqb [CXtension XBinTable None; CValue (chars "A") (VFloat (FDec false 15 (-1)) None); CEnd]
            [CXtension XBinTable None; CValue (chars "A") (VFloat (FDec false 150 (-2)) None); CEnd] = true.
Proof. split; vm_compute; reflexivity. Qed.

(** Two tables are equal when they have the same keywords with the same values, in any order. *)
Theorem C58_tables : forall m1 m2 cards1 cards2 a b,
  process_cards m1 (cards1 ++ [CEnd]) = Ok a -> process_cards m2 (cards2 ++ [CEnd]) = Ok b ->
  (vmap_eqb a b = true <->
   (forall k, In k (keywords a) <-> In k (keywords b)) /\
   forall k v w, get a k = Some v -> get b k = Some w -> same_value v w).
Proof. exact header_maps_equal. Qed.
Print Assumptions C58_tables.

Example ex_tables : vmap_eqb ex_vs (rev ex_vs) = true.
Proof. vm_compute. reflexivity. Qed.

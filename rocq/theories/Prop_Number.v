(** Which records are read as numbers (C72).  [SpecNumber] says which texts are numbers. *)

From Coq Require Import String Lia.
From Verif Require Import Base Utf8 Text Card SpecCard SpecNumber NumberProofs.
Local Open Scope string_scope.
Local Open Scope list_scope.
Local Open Scope Z_scope.

(** Whatever the bytes of a record are: if it is read as an integer or a real, its field holds the
    text of that number, white space aside, and a comment after a slash if one is returned. *)
Theorem C72_read : forall b name v, parse_card b = Ok (CValue name v) ->
  match v with
  | VInteger n c => exists lit, value_text b lit c /\ int_text lit n
  | VFloat x c => exists lit, value_text b lit c /\ float_text lit x
  | _ => True
  end.
Proof. exact number_read. Qed.
Print Assumptions C72_read.

(** All those texts of reals are read, also with a small e and for the infinities and NaN. *)
Theorem C72_float : forall kw lead lit x trail comment,
  ordinary_keyword kw -> float_text lit x -> opt_printable comment ->
  parse_card (value_record kw (value_field lead lit trail comment)) = Ok (CValue kw (VFloat x (option_map rtrim comment))).
Proof. exact float_record. Qed.
Print Assumptions C72_float.

(** A text that begins like a number and is none is returned as invalid (with each D made E). *)
Theorem C72_invalid : forall kw lead c t trail comment,
  ordinary_keyword kw -> compact (c :: t) -> Forall plain (c :: t) -> opt_printable comment ->
  number_start c -> (forall n, ~ int_text (c :: t) n) -> (forall x, ~ float_text (c :: t) x) ->
  parse_card (value_record kw (value_field lead (c :: t) trail comment))
  = Ok (CValue kw (VInvalid (map (fun x => if x =? 68 then 69 else x) (c :: t)))).
Proof. exact invalid_record. Qed.
Print Assumptions C72_invalid.

Ltac digits := repeat (constructor; [first [unfold digit; lia|vm_compute; auto]|]); constructor.
Example C72_ex :
  float_text (chars "-1.5e+07") (FDec true 15 6) /\ float_text (chars ".5D0") (FDec false 5 (-1)) /\
  float_text (chars "-Infinity") (FInf true) /\ float_text (chars "+INF") (FInf false) /\ float_text (chars "-nAn") FNan /\
  float_text (chars "9223372036854775808") (FDec false (2 ^ 63) 0) /\
  int_text (chars "-9223372036854775808") (- 2 ^ 63) /\ int_text (chars "+007") 7 /\
  parse_card (padded 80 (chars "CRVAL1  = -Infinity / no")) = Ok (CValue (chars "CRVAL1") (VFloat (FInf true) (Some (chars " no")))) /\
  value_text (padded 80 (chars "CRVAL1  = -Infinity / no")) (chars "-Infinity") (Some (chars " no")).
Proof.
  split; [apply (float_decimal Minus [1] (Some [5]) (Exp 101 Plus [0; 7])); [digits|digits|discriminate|split; [auto|split; [digits|discriminate]]|discriminate]|].
  split; [apply (float_decimal NoSign [] (Some [5]) (Exp 68 NoSign [0])); [constructor|digits|discriminate|split; [auto|split; [digits|discriminate]]|discriminate]|].
  split; [apply (float_inf Minus (chars "Infinity")); [discriminate|right; digits]|].
  split; [apply (float_inf Plus (chars "INF")); [discriminate|left; digits]|].
  split; [apply (float_nan Minus (chars "nAn")); [discriminate|digits]|].
  split; [apply (float_decimal NoSign [9; 2; 2; 3; 3; 7; 2; 0; 3; 6; 8; 5; 4; 7; 7; 5; 8; 0; 8] None NoExp); [digits|constructor|discriminate|exact I|intros _ _ [_ H]; vm_compute in H; discriminate]|].
  split; [exists Minus, [9; 2; 2; 3; 3; 7; 2; 0; 3; 6; 8; 5; 4; 7; 7; 5; 8; 0; 8]; split; [reflexivity|split; [digits|split; [discriminate|vm_compute; repeat split; discriminate]]]|].
  split; [exists Plus, [0; 0; 7]; split; [reflexivity|split; [digits|split; [discriminate|vm_compute; repeat split; discriminate]]]|].
  split; [vm_compute; reflexivity|].
  exists [], [32], (47 :: skipn 21 (padded 80 (chars "CRVAL1  = -Infinity / no"))).
  split; [vm_compute; reflexivity|]. split; [constructor|]. split; [repeat constructor|reflexivity].
Qed.

(** Texts that begin like numbers: no digits in the exponent, an imaginary unit, two numbers. *)
Lemma not_int lit : parse_i64 lit = None -> forall n, ~ int_text lit n.
Proof. intros H n I. apply int_parsed in I. congruence. Qed.
Lemma not_float lit : (forall x, parse_number lit None <> Ok (VFloat x None)) -> forall x, ~ float_text lit x.
Proof. intros H x F. apply (H x). apply parse_number_float. exact F. Qed.
Example C72_invalid_ex : forall lit, In lit [chars "1.5D+"; chars "1.5i"; chars "1 2"; chars "-"; chars "1.2.3"; chars "+infinite"] ->
  compact lit /\ Forall plain lit /\ (forall c t, lit = c :: t -> number_start c) /\
  (forall n, ~ int_text lit n) /\ (forall x, ~ float_text lit x).
Proof.
  assert (P : forall lit, lit <> [] -> hd 0 lit <> 32 -> last lit 0 <> 32 -> forallb (fun c => (32 <=? c) && (c <=? 126) && negb (c =? 39) && negb (c =? 47)) lit = true ->
            (48 <=? hd 0 lit) && (hd 0 lit <=? 57) || (hd 0 lit =? 43) || (hd 0 lit =? 45) = true -> parse_i64 lit = None ->
            (forall x, parse_number lit None <> Ok (VFloat x None)) ->
            compact lit /\ Forall plain lit /\ (forall c t, lit = c :: t -> number_start c) /\
            (forall n, ~ int_text lit n) /\ (forall x, ~ float_text lit x)).
  { intros lit N H L F S I R. split; [split|split; [|split; [|split]]].
    - destruct lit as [|c t]; [contradiction|]. exists c, t. auto.
    - exists (removelast lit), (last lit 0). split; [apply app_removelast_last; exact N|exact L].
    - apply Forall_forall. intros c C. rewrite forallb_forall in F. specialize (F c C). unfold plain, printable. lia.
    - intros c t ->. cbn [hd] in S. unfold number_start. lia.
    - apply not_int, I.
    - apply not_float, R. }
  intros lit I. repeat (destruct I as [<-|I]; [apply P; try discriminate; reflexivity|]). contradiction.
Qed.

(** Cards spliced by hand (C96).  [splices] is a chain of [Card::splice] calls. *)

From Coq Require Import String List.
From Verif Require Import Base Utf8 Text Card Reader Header SpecUtf8 SpecCard SpecHeader SpecSplice.
From Verif Require Import HeaderProofs SpliceProofs.
Local Open Scope string_scope.
Local Open Scope list_scope.
Local Open Scope Z_scope.

(** Where the chain does not panic, its card stands for all of its cards: a header gives the same keywords and
    values with the one in place of the others. *)
Theorem C96_same_header : forall m pre c conts out post vs1 vs2,
  splices m c conts = Ok out ->
  process_cards m (pre ++ c :: conts ++ post ++ [CEnd]) = Ok vs1 ->
  process_cards m (pre ++ out :: post ++ [CEnd]) = Ok vs2 ->
  keywords vs1 = keywords vs2 /\ forall name, get vs1 name = get vs2 name.
Proof. exact spliced_header. Qed.
Print Assumptions C96_same_header.

(** The records of a long string written by the standard, parsed one by one and spliced: the whole string, and all
    comments. *)
Theorem C96_long_string : forall m kw first rest c conts,
  ordinary_keyword kw -> rest <> [] -> Forall piece_ok (first :: rest) ->
  Forall2 reads_as (long_string_records kw first rest) (c :: conts) ->
  splices m c conts
  = Ok (CValue kw (VString (rtrim (concat (map pc_text (first :: rest)))) (all_comments (first :: rest)))).
Proof. exact spliced_string. Qed.
Print Assumptions C96_long_string.

Example C96_case :
  let c := CHierarch (chars "A.B") (VString (chars "x &") None) in
  let conts := [CContinuation (Some (chars "y&")) (Some (chars " c")); CContinuation None (Some (chars " d"))] in
  let out := CHierarch (chars "A.B") (VString (chars "x y") (Some (chars " c" ++ [10] ++ chars " d"))) in
  splices Checked c conts = Ok out /\ splices Wrapping c conts = Ok out /\
  process_cards Checked ([CValue (chars "N") (VInteger 1 None)] ++ c :: conts ++ [] ++ [CEnd])
  = process_cards Checked ([CValue (chars "N") (VInteger 1 None)] ++ out :: [] ++ [CEnd]) /\
  (exists vs, process_cards Checked ([CValue (chars "N") (VInteger 1 None)] ++ out :: [] ++ [CEnd]) = Ok vs).
Proof. cbv zeta. split; [|split; [|split]]; [vm_compute; reflexivity..|]. eexists. vm_compute. reflexivity. Qed.

Example C96_case_records :
  let first := mk_piece (chars "it's ") 1 1 (Some (chars " c1")) in
  let rest := [mk_piece (chars "long & ") 2 0 None; mk_piece (chars "strong  ") 2 3 (Some (chars " c2 "))] in
  match map parse_card (long_string_records (chars "STR") first rest) with
  | Ok c :: conts =>
    splices Checked c (flat_map (fun x => match x with Ok y => [y] | _ => [] end) conts)
    = Ok (CValue (chars "STR") (VString (chars "it's long & strong") (Some (chars " c1" ++ [10] ++ chars " c2"))))
  | _ => False
  end.
Proof. vm_compute. reflexivity. Qed.

(** "Splicing accepts the cards that the header accepts" is false: the header passes over a continuation that follows
    a complete string, the chain panics. *)
Theorem C96_complete_refuted : forall m,
  let c := CValue (chars "A") (VString (chars "x") None) in
  let r := CContinuation (Some (chars "y")) None in
  process_cards m [c; r; CEnd] = Ok [(chars "A", VString (chars "x") None)] /\ splices m c [r] = Panic.
Proof. intros []; vm_compute; split; reflexivity. Qed.
Print Assumptions C96_complete_refuted.

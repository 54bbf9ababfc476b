(** Specification side for the numbers in header records: which texts are numbers. *)

From Verif Require Import Base Text SpecCard.

(** The field of a value record (from byte 11 on) holds the text [lit], white space around it, and
    behind a slash the comment, if there is one. *)
Definition value_text (b lit : list Z) (comment : option (list Z)) : Prop :=
  exists w1 w2 tail, skipn 10 b = w1 ++ lit ++ w2 ++ tail /\ Forall white w1 /\ Forall white w2 /\
    match tail, comment with
    | [], None => True
    | c :: _, Some _ => c = 47
    | _, _ => False
    end.

(** A text that is the number [n]. *)
Definition int_text (lit : list Z) (n : Z) : Prop :=
  exists s ds, lit = int_literal s ds /\ Forall digit ds /\ ds <> [] /\ n = apply_sign s (dec_value ds) /\
    - 2 ^ 63 <= n < 2 ^ 63.

(** A word in capital letters, small letters, or a mixture of them. *)
Definition spelt (w word : list Z) : Prop := Forall2 (fun c u => c = u \/ c = u + 32) w word.

(** A text that is a real number, infinite, or no number: digits with a point, an exponent (after
    one of the letters E, e and D) or too large for 64 bits; or one of the words of IEEE 754 after
    a sign. *)
Inductive float_text : list Z -> fval -> Prop :=
| float_decimal s ip f e :
    Forall digit ip -> Forall digit (frac_digits f) -> ip ++ frac_digits f <> [] ->
    match e with
    | NoExp => True
    | Exp l _ ds => (l = 69 \/ l = 68 \/ l = 101) /\ Forall digit ds /\ ds <> []
    end ->
    (f = None -> e = NoExp -> ~ (- 2 ^ 63 <= apply_sign s (dec_value ip) < 2 ^ 63)) ->
    float_text (real_literal s ip f e)
      (FDec (is_neg s) (dec_value (ip ++ frac_digits f)) (expo_value e - len (frac_digits f)))
| float_inf s w : s <> NoSign -> spelt w (chars "INF") \/ spelt w (chars "INFINITY") ->
    float_text (sign_chars s ++ w) (FInf (is_neg s))
| float_nan s w : s <> NoSign -> spelt w (chars "NAN") -> float_text (sign_chars s ++ w) FNan.

(** The characters a number may begin with. *)
Definition number_start (c : Z) : Prop := 48 <= c <= 57 \/ c = 43 \/ c = 45 \/ c = 46.

(** Specification side for header records, written from the FITS standard (sections 4.1-4.2)
    and not from the crate: blanks, records, quoted strings, number literals. *)

From Verif Require Import Base SpecUtf8.

Definition blanks (n : nat) : list Z := repeat 32 n.

(** Restricted set of ASCII text characters, hexadecimal 20 through 7E. *)
Definition printable (c : Z) : Prop := 32 <= c <= 126.

(** Non-blank text character. *)
Definition graphic (c : Z) : Prop := 33 <= c <= 126.

(** White space skipped by the reader around fields: blank, tab, LF, FF, CR. *)
Definition white (c : Z) : Prop := c = 32 \/ c = 9 \/ c = 10 \/ c = 12 \/ c = 13.

(** [t] is [l] without its trailing [P]-characters. *)
Definition stripped_right (P : Z -> Prop) (l t : list Z) : Prop :=
  exists w, l = t ++ w /\ Forall P w /\ (t = [] \/ exists t' c, t = t' ++ [c] /\ ~ P c).

(** [t] is [l] without its leading and trailing [P]-characters. *)
Definition stripped (P : Z -> Prop) (l t : list Z) : Prop :=
  exists w1 w2, l = w1 ++ t ++ w2 /\ Forall P w1 /\ Forall P w2 /\
    (t = [] \/ ((exists c t', t = c :: t' /\ ~ P c) /\ (exists t' c, t = t' ++ [c] /\ ~ P c))).

(** Removal of trailing blanks. *)
Fixpoint rtrim (l : list Z) : list Z :=
  match l with
  | [] => []
  | c :: r => match rtrim r with
              | [] => if c =? 32 then [] else [c]
              | t => c :: t
              end
  end.

(** Canonical content of a FITS string: trailing blanks are not significant, but a
    non-empty string of blanks is one blank (section 4.2.1.1). *)
Definition canonical_string (s : list Z) : list Z :=
  match s with
  | [] => []
  | _ => match rtrim s with [] => [32] | t => t end
  end.

(** Quote doubling and enclosing quotes. *)
Fixpoint escape_quotes (s : list Z) : list Z :=
  match s with
  | [] => []
  | c :: r => if c =? 39 then 39 :: 39 :: escape_quotes r else c :: escape_quotes r
  end.
Definition fits_string (s : list Z) : list Z := 39 :: escape_quotes s ++ [39].

(** A value field: blanks, the value, blanks, optional slash and comment. *)
Definition value_field (lead : nat) (body : list Z) (trail : nat) (comment : option (list Z))
  : list Z :=
  blanks lead ++ body ++ blanks trail ++ match comment with Some c => 47 :: c | None => [] end.

(** Left-justified in [n] characters. *)
Definition padded (n : nat) (l : list Z) : list Z := l ++ blanks (n - length l).

(** A value record: keyword in bytes 1-8, "= " in bytes 9-10, field in bytes 11-80. *)
Definition value_record (kw field : list Z) : list Z :=
  padded 8 kw ++ [61; 32] ++ padded 70 field.

(** Keywords that do not announce an ordinary value. *)
Definition special_keyword (kw : list Z) : Prop :=
  kw = chars "COMMENT" \/ kw = chars "HISTORY" \/ kw = chars "CONTINUE" \/
  kw = chars "XTENSION" \/ kw = chars "HIERARCH" \/ kw = chars "END".

Definition ordinary_keyword (kw : list Z) : Prop :=
  (1 <= length kw <= 8)%nat /\ Forall graphic kw /\ ~ special_keyword kw.

(** Number written with the decimal digits [ds] (digit values, most significant first). *)
Fixpoint dec_value (ds : list Z) : Z :=
  match ds with
  | [] => 0
  | d :: r => d * 10 ^ Z.of_nat (length r) + dec_value r
  end.
Definition digit (d : Z) : Prop := 0 <= d <= 9.
Definition digit_chars (ds : list Z) : list Z := map (fun d => 48 + d) ds.

Inductive sign := NoSign | Plus | Minus.
Definition sign_chars (s : sign) : list Z :=
  match s with NoSign => [] | Plus => [43] | Minus => [45] end.
Definition is_neg (s : sign) : bool := match s with Minus => true | _ => false end.
Definition apply_sign (s : sign) (n : Z) : Z := if is_neg s then - n else n.

(** The keyword field (bytes 1-8) of [buf] holds the keyword [kw], white space aside. *)
Definition has_keyword (buf kw : list Z) : Prop := stripped white (firstn 8 buf) kw.

(** The field holds a single quote and nothing else. *)
Definition lone_quote (f : list Z) : Prop := stripped white f [39].

(** Plain (unquoted) value text: no quote, no slash. *)
Definition plain (c : Z) : Prop := printable c /\ c <> 39 /\ c <> 47.

(** A text that starts and ends with a non-blank character. *)
Definition compact (l : list Z) : Prop :=
  (exists c t, l = c :: t /\ c <> 32) /\ (exists t c, l = t ++ [c] /\ c <> 32).

Definition opt_printable (c : option (list Z)) : Prop :=
  match c with Some c => Forall printable c | None => True end.

(** Integer literals (section 4.2.3). *)
Definition int_literal (s : sign) (ds : list Z) : list Z := sign_chars s ++ digit_chars ds.

(** Real literals: integer part, optional point and fraction, optional exponent. *)
Inductive expo := NoExp | Exp (letter : Z) (s : sign) (ds : list Z).
Definition expo_chars (e : expo) : list Z :=
  match e with NoExp => [] | Exp l s ds => l :: sign_chars s ++ digit_chars ds end.
Definition expo_value (e : expo) : Z :=
  match e with NoExp => 0 | Exp _ s ds => apply_sign s (dec_value ds) end.
Definition expo_ok (e : expo) : Prop :=
  match e with
  | NoExp => True
  | Exp l _ ds => (l = 69 \/ l = 68) /\ Forall digit ds /\ ds <> []
  end.
Definition point_chars (f : option (list Z)) : list Z :=
  match f with None => [] | Some fp => 46 :: digit_chars fp end.
Definition frac_digits (f : option (list Z)) : list Z := match f with None => [] | Some fp => fp end.

Definition real_body (ip : list Z) (f : option (list Z)) (e : expo) : list Z :=
  digit_chars ip ++ point_chars f ++ expo_chars e.
Definition real_literal (s : sign) (ip : list Z) (f : option (list Z)) (e : expo) : list Z :=
  sign_chars s ++ real_body ip f e.

(** HIERARCH records: "HIERARCH", one blank, tokens each followed by one or more blanks, "=",
    the value field, padded to 80. *)
Definition token (t : list Z) : Prop := t <> [] /\ Forall (fun c => graphic c /\ c <> 61) t.
Fixpoint spaced (toks : list (list Z * nat)) : list Z :=
  match toks with
  | [] => []
  | (t, n) :: r => t ++ blanks n ++ spaced r
  end.
(** Separators between tokens are non-empty; the last one may be empty. *)
Fixpoint separated (toks : list (list Z * nat)) : Prop :=
  match toks with
  | [] => True
  | [_] => True
  | (_, n) :: r => (1 <= n)%nat /\ separated r
  end.
Definition hierarch_record (lead : nat) (toks : list (list Z * nat)) (field : list Z) : list Z :=
  padded 80 (chars "HIERARCH" ++ [32] ++ blanks lead ++ spaced toks ++ [61] ++ field).
(** The keyword name: tokens joined with dots. *)
Fixpoint dotted (toks : list (list Z)) : list Z :=
  match toks with
  | [] => []
  | [t] => t
  | t :: r => t ++ [46] ++ dotted r
  end.

(** Text with every non-printable character replaced by U+FFFD. *)
Definition sanitized (l : list Z) : list Z :=
  map (fun c => if (32 <=? c) && (c <=? 126) then c else 65533) l.

(** The keyword field of [buf], white space aside, is the UTF-8 text [kw]. *)
Definition keyword_text (buf kw : list Z) : Prop :=
  has_keyword buf (utf8_encode kw) /\ Forall scalar kw.

(** Records with a value field made of a single quote and nothing else: CONTINUE, XTENSION,
    HIERARCH with a name, and ordinary value records. *)
Definition lone_quote_record (b : list Z) : Prop :=
  (has_keyword b (chars "CONTINUE") /\ lone_quote (skipn 8 b)) \/
  (has_keyword b (chars "XTENSION") /\ lone_quote (skipn 10 b)) \/
  (has_keyword b (chars "HIERARCH") /\
     exists name field, skipn 9 b = name ++ 61 :: field /\ ~ In 61 name /\ ~ Forall white name /\
                        lone_quote field) \/
  ((exists kw, keyword_text b kw /\ kw <> [] /\ ~ special_keyword kw) /\
     firstn 2 (skipn 8 b) = [61; 32] /\ lone_quote (skipn 10 b)).

(** Octets. *)
Definition octets (b : list Z) : Prop := Forall (fun x => 0 <= x <= 255) b.

(** Text primitives of the Rust standard library used by [src/card.rs]: trimming, integer
    and float literal syntax, decimal formatting.  (Library code, not part of /repo.) *)

From Verif Require Import Base.

Fixpoint drop_while (p : Z -> bool) (l : list Z) : list Z :=
  match l with
  | [] => []
  | x :: l' => if p x then drop_while p l' else l
  end.

Definition trim_start_by (p : Z -> bool) (l : list Z) : list Z := drop_while p l.
Definition trim_end_by (p : Z -> bool) (l : list Z) : list Z := rev (drop_while p (rev l)).
Definition trim_by (p : Z -> bool) (l : list Z) : list Z := trim_end_by p (trim_start_by p l).

(** [u8::is_ascii_whitespace]: space, tab, LF, FF, CR. *)
Definition is_ascii_ws (c : Z) : bool :=
  (c =? 32) || (c =? 9) || (c =? 10) || (c =? 12) || (c =? 13).

(** [char::is_whitespace] (Unicode White_Space). *)
Definition is_unicode_ws (c : Z) : bool :=
  ((9 <=? c) && (c <=? 13)) || (c =? 32) || (c =? 133) || (c =? 160) || (c =? 5760)
  || ((8192 <=? c) && (c <=? 8202)) || (c =? 8232) || (c =? 8233) || (c =? 8239)
  || (c =? 8287) || (c =? 12288).

(** [<[u8]>::trim_ascii] / [str::trim_ascii], [trim_ascii_end], [str::trim], [str::trim_end]. *)
Definition trim_ascii (l : list Z) : list Z := trim_by is_ascii_ws l.
Definition trim_ascii_end (l : list Z) : list Z := trim_end_by is_ascii_ws l.
Definition trim (l : str) : str := trim_by is_unicode_ws l.
Definition trim_end (l : str) : str := trim_end_by is_unicode_ws l.

Definition starts_with (c : Z) (l : list Z) : bool :=
  match l with x :: _ => x =? c | [] => false end.
Definition ends_with (c : Z) (l : list Z) : bool := starts_with c (rev l).

Definition is_digit (c : Z) : bool := (48 <=? c) && (c <=? 57).

(** Value of a digit string, most significant digit first; [None] on a non-digit. *)
Fixpoint digits_acc (acc : Z) (l : list Z) : option Z :=
  match l with
  | [] => Some acc
  | c :: l' => if is_digit c then digits_acc (10 * acc + (c - 48)) l' else None
  end.

(** [str::parse::<u64 / usize>] restricted to [0, max]: optional '+', at least one digit. *)
Definition parse_unsigned (max : Z) (s : str) : option Z :=
  let check l :=
    match l with
    | [] => None
    | _ => match digits_acc 0 l with
           | Some v => if v <=? max then Some v else None
           | None => None
           end
    end in
  match s with
  | c :: r => if c =? 43 then check r else check s
  | [] => None
  end.

(** [str::parse::<i64>]. *)
Definition parse_i64 (s : str) : option Z :=
  match s with
  | c :: r =>
    if c =? 45 then
      match r with
      | [] => None
      | _ => match digits_acc 0 r with
             | Some v => if v <=? 2 ^ 63 then Some (- v) else None
             | None => None
             end
      end
    else parse_unsigned (2 ^ 63 - 1) s
  | [] => None
  end.

(** Header reals.  [FDec neg m e] is the decimal number (-1)^neg * m * 10^e.  The crate stores
    its rounding to f64, which is not modelled. *)
Inductive fval : Type :=
| FDec (neg : bool) (m e : Z)
| FInf (neg : bool)
| FNan.

(** Longest digit prefix and the rest. *)
Fixpoint span_digits (l : list Z) : list Z * list Z :=
  match l with
  | c :: l' => if is_digit c then let (a, b) := span_digits l' in (c :: a, b) else ([], l)
  | [] => ([], [])
  end.

Definition digits_val (l : list Z) : Z := fold_left (fun acc c => 10 * acc + (c - 48)) l 0.

Definition lower (c : Z) : Z := if (65 <=? c) && (c <=? 90) then c + 32 else c.

(** [dec2flt::parse_scientific], on the text after 'e'/'E'; must consume everything. *)
Definition parse_exponent (s : str) : option Z :=
  let '(neg, r) := match s with
                   | c :: r => if c =? 45 then (true, r)
                               else if c =? 43 then (false, r) else (false, s)
                   | [] => (false, s)
                   end in
  match span_digits r with
  | (d :: ds, []) => Some (if neg : bool then - digits_val (d :: ds) else digits_val (d :: ds))
  | _ => None
  end.

(** [dec2flt::parse_number] on the text after the sign. *)
Definition parse_unsigned_real (neg : bool) (s : str) : option fval :=
  let (ip, r1) := span_digits s in
  let (fp, r2) := match r1 with
                  | c :: r => if c =? 46 then span_digits r else ([], r1)
                  | [] => ([], r1)
                  end in
  match ip ++ fp with
  | [] => None
  | _ =>
    let m := digits_val (ip ++ fp) in
    let e := - Z.of_nat (length fp) in
    match r2 with
    | [] => Some (FDec neg m e)
    | c :: r3 =>
      if (c =? 101) || (c =? 69) then
        match parse_exponent r3 with
        | Some x => Some (FDec neg m (x + e))
        | None => None
        end
      else None
    end
  end.

(** [dec2flt::parse_inf_nan] (ASCII case-insensitive). *)
Definition parse_inf_nan (neg : bool) (s : str) : option fval :=
  let l := map lower s in
  if str_eqb l (chars "nan") then Some FNan
  else if str_eqb l (chars "inf") || str_eqb l (chars "infinity") then Some (FInf neg)
  else None.

(** [str::parse::<f64>], up to rounding. *)
Definition parse_f64 (s : str) : option fval :=
  match s with
  | [] => None
  | c :: r =>
    let neg := c =? 45 in
    let body := if (c =? 45) || (c =? 43) then r else s in
    match body with
    | [] => None
    | _ => match parse_unsigned_real neg body with
           | Some v => Some v
           | None => parse_inf_nan neg body
           end
    end
  end.

(** [format!("{i}")] of a non-negative integer. *)
Fixpoint dec_digits_fuel (fuel : nat) (n : Z) (acc : list Z) : list Z :=
  match fuel with
  | O => acc
  | S f => let acc' := (48 + n mod 10) :: acc in
           if n <? 10 then acc' else dec_digits_fuel f (n / 10) acc'
  end.
Definition dec (n : Z) : str := dec_digits_fuel (S (Z.to_nat (Z.log2 n))) n [].

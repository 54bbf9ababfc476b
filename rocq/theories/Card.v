(** Model of [src/card.rs]: 80-byte header records. *)

From Verif Require Import Base Utf8 Text.

(** [src/hdu/header/extension/mod.rs] lines 13-17. *)
Inductive xtype := XImage | XBinTable | XAsciiTable.

(** [src/hdu/header/extension/mod.rs] lines 19-27 ([as_str], also [Display]). *)
Definition xtype_str (x : xtype) : str :=
  match x with
  | XImage => chars "IMAGE"
  | XBinTable => chars "BINTABLE"
  | XAsciiTable => chars "TABLE"
  end.

(** [src/hdu/header/extension/mod.rs] lines 36-46 ([FromStr]). *)
Definition xtype_from_str (s : str) : res xtype :=
  if str_eqb s (chars "IMAGE") || str_eqb s (chars "IUEIMAGE") then Ok XImage
  else if str_eqb s (chars "TABLE") then Ok XAsciiTable
  else if str_eqb s (chars "BINTABLE") then Ok XBinTable
  else Err (ENotSupportedXt s).

(** [src/card.rs] lines 421-448: the [Value] enum.  [Float] carries the exact decimal instead
    of the rounded f64. *)
Inductive value : Type :=
| VInteger (v : Z) (comment : option str)
| VFloat (v : fval) (comment : option str)
| VLogical (v : bool) (comment : option str)
| VString (v : str) (comment : option str)
| VUndefined
| VInvalid (s : str).

(** [src/card.rs] lines 13-39: the [Card] enum. *)
Inductive card : Type :=
| CValue (name : str) (v : value)
| CContinuation (string : option str) (comment : option str)
| CXtension (x : xtype) (comment : option str)
| CComment (s : str)
| CHistory (s : str)
| CHierarch (name : str) (v : value)
| CSpace
| CEnd
| CUndefined (s : str).

Definition QUOTE : Z := 39.
Definition SLASH : Z := 47.
Definition AMP : Z := 38.

(** FITS text characters, the pattern [' '..='~'] of [src/card.rs] lines 357, 379, 399. *)
Definition is_fits_char (c : Z) : bool := (32 <=? c) && (c <=? 126).

(** Replacement of non-FITS characters, [src/card.rs] lines 378-381 and 398-404. *)
Definition repl_char (c : Z) : Z := if is_fits_char c then c else REPL.

(** [src/card.rs] lines 325-368, the loop of [split_value_and_comment]: [tic]/[toc] are the
    Rust locals, [acc] is the value so far (reversed), the result is the raw value and the text
    after the separating slash.  Simplification: the slash position is represented by the
    remaining text instead of an index. *)
Fixpoint split_loop (tic toc : bool) (acc : str) (l : str) : res (str * option str) :=
  match l with
  | [] => Ok (rev acc, None)
  | c :: r =>
    if c =? QUOTE then
      match tic, toc with
      | true, true => split_loop true false acc r
      | true, false => split_loop true true (QUOTE :: acc) r
      | false, false => split_loop true false (QUOTE :: acc) r
      | false, true => Panic
      end
    else if c =? SLASH then
      match tic, toc with
      | true, false => split_loop true false (SLASH :: acc) r
      | true, true | false, false => Ok (rev acc, Some r)
      | false, true => Panic
      end
    else if is_fits_char c then
      (if toc then split_loop false false (c :: acc) r else split_loop tic toc (c :: acc) r)
    else
      (if tic then split_loop tic toc (REPL :: acc) r else Err EStatic)
  end.

(** [src/card.rs] lines 315-387: [split_value_and_comment]. *)
Definition split_value_and_comment (buf : list Z) : res (str * option str) :=
  let! (v, c) := split_loop false false [] (utf8_lossy (trim_ascii buf)) in
  match c with
  | None => Ok (trim v, None)
  | Some rest => Ok (trim v, Some (trim_end (map repl_char rest)))
  end.

(** The byte slice [&s[1..s.len() - 1]] of a string that starts and ends with a quote
    ([src/card.rs] lines 178-179 and 280): panics when the string is a single quote, since then
    the range is 1..0. *)
Definition strip_quotes (s : str) : res str :=
  match s with
  | [] => Panic
  | [_] => Panic
  | _ :: r => Ok (removelast r)
  end.

(** [src/card.rs] lines 276-296: [parse_string]. *)
Definition parse_string (s : str) : res str :=
  let! v := match starts_with QUOTE s, ends_with QUOTE s with
            | true, true => strip_quotes s
            | false, false => Ok s
            | true, false => Err EStatic
            | false, true => Err EStatic
            end in
  match v with
  | [] => Ok []
  | _ => match trim_end v with
         | [] => Ok [32]
         | t => Ok t
         end
  end.

Definition replace_D (s : str) : str := map (fun c => if c =? 68 then 69 else c) s.

(** [src/card.rs] lines 245-272: [parse_number]. *)
Definition parse_number (v : str) (c : option str) : res value :=
  match v with
  | [] => Ok VUndefined
  | _ =>
    match parse_i64 v with
    | Some z => Ok (VInteger z c)
    | None =>
      match parse_f64 v with
      | Some f => Ok (VFloat f c)
      | None =>
        match parse_f64 (replace_D v) with
        | Some f => Ok (VFloat f c)
        | None => Ok (VInvalid (replace_D v))
        end
      end
    end
  end.

(** [src/card.rs] lines 218-241: [parse_value]. *)
Definition parse_value (buf : list Z) : res value :=
  let! (v, c) := split_value_and_comment buf in
  match v with
  | [] => Ok VUndefined
  | ch :: _ =>
    if ch =? QUOTE then let! s := parse_string v in Ok (VString s c)
    else if ch =? 84 then Ok (VLogical true c)
    else if ch =? 70 then Ok (VLogical false c)
    else if ch =? 40 then Err EStatic
    else if is_digit ch || (ch =? 45) || (ch =? 43) || (ch =? 46) then parse_number v c
    else Ok (VInvalid (utf8_lossy buf))
  end.

(** [src/card.rs] lines 175-185: [parse_extension]. *)
Definition parse_extension (buf : list Z) : res card :=
  let! (v, c) := split_value_and_comment (skipn 10 buf) in
  if starts_with QUOTE v && ends_with QUOTE v then
    let! inner := strip_quotes v in
    let! x := xtype_from_str (trim_ascii inner) in
    Ok (CXtension x c)
  else Err EDynamic.

(** First position of '=' as a split: text before and after it. *)
Fixpoint split_eq (l : list Z) : option (list Z * list Z) :=
  match l with
  | [] => None
  | c :: r => if c =? 61 then Some ([], r)
              else match split_eq r with
                   | Some (a, b) => Some (c :: a, b)
                   | None => None
                   end
  end.

(** [slice.split(p).filter(non-empty)]: maximal runs of bytes that do not satisfy [p];
    [cur] is the current run, reversed. *)
Fixpoint tokens (p : Z -> bool) (cur : list Z) (l : list Z) : list (list Z) :=
  match l with
  | [] => match cur with [] => [] | _ => [rev cur] end
  | c :: r => if p c then match cur with
                          | [] => tokens p [] r
                          | _ => rev cur :: tokens p [] r
                          end
              else tokens p (c :: cur) r
  end.

(** The [reduce] of [src/card.rs] lines 193-197: join with dots. *)
Fixpoint join_dots (l : list str) : str :=
  match l with
  | [] => []
  | [a] => a
  | a :: r => a ++ 46 :: join_dots r
  end.

(** [src/card.rs] lines 187-215: [parse_hierarch].  [buf[9..]] is searched for '='. *)
Definition parse_hierarch (buf : list Z) : res card :=
  match split_eq (skipn 9 buf) with
  | Some (before, after) =>
    match map utf8_lossy (tokens is_ascii_ws [] before) with
    | [] => Err EDynamic
    | toks => let! v := parse_value after in Ok (CHierarch (join_dots toks) v)
    end
  | None => Err EDynamic
  end.

(** [src/card.rs] lines 389-393: [parse_continuation]. *)
Definition parse_continuation (buf : list Z) : res card :=
  let! (v, c) := split_value_and_comment (skipn 8 buf) in
  let! s := parse_string v in
  Ok (CContinuation (Some s) c).

(** [src/card.rs] lines 395-407: [parse_comment_text]. *)
Definition parse_comment_text (buf : list Z) : str := trim_ascii_end (map repl_char buf).

(** [src/card.rs] lines 412-419: [parse_empty_keyword_card]. *)
Definition parse_empty_keyword_card (buf : list Z) : card :=
  match parse_comment_text (skipn 8 buf) with
  | [] => CSpace
  | c => CComment c
  end.

(** [src/card.rs] lines 146-173: [Card::try_from(&[u8; 80])]. *)
Definition parse_card (buf : list Z) : res card :=
  match from_utf8 (trim_ascii (firstn 8 buf)) with
  | None => Err EUtf8
  | Some kw =>
    if str_eqb kw [] then Ok (parse_empty_keyword_card buf)
    else if str_eqb kw (chars "COMMENT") then Ok (CComment (parse_comment_text (skipn 8 buf)))
    else if str_eqb kw (chars "HISTORY") then Ok (CHistory (parse_comment_text (skipn 8 buf)))
    else if str_eqb kw (chars "CONTINUE") then parse_continuation buf
    else if str_eqb kw (chars "XTENSION") then parse_extension buf
    else if str_eqb kw (chars "HIERARCH") then parse_hierarch buf
    else if str_eqb kw (chars "END") then Ok CEnd
    else if str_eqb (firstn 2 (skipn 8 buf)) (chars "= ") then
      let! v := parse_value (skipn 10 buf) in Ok (CValue kw v)
    else Ok (CUndefined (utf8_lossy buf))
  end.

(** [src/card.rs] lines 461-468: [Value::continued]. *)
Definition value_continued (v : value) : bool :=
  match v with VString s _ => ends_with AMP s | _ => false end.

(** [src/card.rs] lines 46-61: [Card::continued]. *)
Definition card_continued (c : card) : bool :=
  match c with
  | CValue _ (VString s _) => ends_with AMP s
  | CHierarch _ (VString s _) => ends_with AMP s
  | CContinuation (Some s) _ => ends_with AMP s
  | _ => false
  end.

(** [value.truncate(value.len() - 1)], [src/card.rs] line 126, after the [debug_assert!] of
    lines 122-125: in a checked build any string not ending in '&' panics; in a release build
    the last byte is removed, which panics when it is inside a multi-byte character and is a
    no-op (wrapped index) on the empty string. *)
Definition truncate_last (m : mode) (s : str) : res str :=
  match m with
  | Checked => if ends_with AMP s then Ok (removelast s) else Panic
  | Wrapping =>
    match rev s with
    | [] => Ok []
    | c :: _ => if c <? 128 then Ok (removelast s) else Panic
    end
  end.

(** [src/card.rs] lines 121-137: [append_string]. *)
Definition append_string (m : mode) (s : str) (v : option str) : res str :=
  let! t := truncate_last m s in
  match v with
  | Some [] => Ok (trim_end t)
  | Some [32] => Ok (trim_end t)
  | Some v => Ok (t ++ v)
  | None => Ok (trim_end t)
  end.

(** [src/card.rs] lines 139-144 and 536-541: comments of a continued value. *)
Definition append_comment (comment c : option str) : option str :=
  match comment with
  | Some t => match c with Some c => Some (t ++ 10 :: c) | None => Some t end
  | None => c
  end.

(** [src/card.rs] lines 534-547: [Value::append]. *)
Definition value_append (m : mode) (v : value) (s c : option str) : res value :=
  match v with
  | VString t comment =>
    let! t' := append_string m t s in Ok (VString t' (append_comment comment c))
  | _ => Panic
  end.

(** [src/card.rs] lines 78-96: [Card::append] (and [splice], lines 115-118). *)
Definition card_append (m : mode) (self r : card) : res card :=
  if card_continued self then
    match r with
    | CContinuation s c =>
      match self with
      | CValue n v => let! v' := value_append m v s c in Ok (CValue n v')
      | CHierarch n v => let! v' := value_append m v s c in Ok (CHierarch n v')
      | _ => Panic
      end
    | _ => Panic
    end
  else Panic.

(** [str::find("]")]: text before the first ']'. *)
Fixpoint before_bracket (l : str) : option str :=
  match l with
  | [] => None
  | c :: r => if c =? 93 then Some [] else option_map (cons c) (before_bracket r)
  end.

(** [src/card.rs] lines 517-531: [parse_unit].  [&c[1..i]] is the text between. *)
Definition parse_unit (comment : option str) : option str :=
  match comment with
  | Some (c :: r) => if c =? 91 then before_bracket r else None
  | _ => None
  end.

(** [src/card.rs] lines 451-459: [Value::unit]. *)
Definition value_unit (v : value) : option str :=
  match v with
  | VInteger _ c | VFloat _ c | VString _ c | VLogical _ c => parse_unit c
  | _ => None
  end.

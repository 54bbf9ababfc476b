(** Specification side for whole headers: the record sequence, the keyword table, long strings. *)

From Verif Require Import Base Utf8 Text Card SpecUtf8 SpecCard.

(** ** Record sequences *)

(** A record stands for the card it parses to; an unparsable record is kept as text. *)
Definition reads_as (rec : list Z) (c : card) : Prop :=
  parse_card rec = Ok c \/ (exists e, parse_card rec = Err e) /\ c = CUndefined (utf8_lossy rec).

(** A record before the end of the header, and the END record. *)
Definition header_record (r : list Z) : Prop :=
  length r = 80%nat /\ ~ has_keyword r (chars "END") /\ ~ lone_quote_record r.
Definition end_record (r : list Z) : Prop := length r = 80%nat /\ has_keyword r (chars "END").

(** ** The keyword table *)

(** The keyword and value a card defines. *)
Definition defines (c : card) : option (str * value) :=
  match c with
  | CValue n v => Some (n, v)
  | CHierarch n v => Some (n, v)
  | CXtension XImage _ => Some (chars "XTENSION", VString (chars "IMAGE") None)
  | CXtension XBinTable _ => Some (chars "XTENSION", VString (chars "BINTABLE") None)
  | CXtension XAsciiTable _ => Some (chars "XTENSION", VString (chars "TABLE") None)
  | _ => None
  end.

(** Names defined by the cards, in order, with repetitions. *)
Definition names (cards : list card) : list str :=
  flat_map (fun c => match defines c with Some (n, _) => [n] | None => [] end) cards.

(** Distinct elements in the order of their first appearance. *)
Fixpoint distinct (l : list str) : list str :=
  match l with
  | [] => []
  | a :: r => a :: filter (fun b => negb (str_eqb a b)) (distinct r)
  end.

(** [s] without its final ampersand, if it has one. *)
Fixpoint without_amp (s : str) : option str :=
  match s with
  | [] => None
  | [c] => if c =? 38 then Some [] else None
  | c :: r => option_map (cons c) (without_amp r)
  end.

(** A text with its next piece; a missing or blank piece ends the string. *)
Definition joined (t : str) (piece : option str) : str :=
  match piece with
  | None => trim_end t
  | Some p => if str_eqb p [] || str_eqb p [32] then trim_end t else t ++ p
  end.

(** Comments joined by a newline. *)
Definition joined_comment (a b : option str) : option str :=
  match a, b with
  | Some x, Some y => Some (x ++ [10] ++ y)
  | Some x, None => Some x
  | None, y => y
  end.

(** The value [v] after the cards that follow its own card: while it is a string ending in an
    ampersand, continuation cards replace the ampersand; the next defining card ends this. *)
Fixpoint completed (v : value) (following : list card) : value :=
  match following with
  | [] => v
  | c :: r =>
    match defines c with
    | Some _ => v
    | None =>
      match c, v with
      | CContinuation piece cm, VString t tc =>
        match without_amp t with
        | Some t' => completed (VString (joined t' piece) (joined_comment tc cm)) r
        | None => v
        end
      | _, _ => completed v r
      end
    end
  end.

(** No string is left open at the end of [pre]: the last defined value, completed with what
    follows it, does not end in an ampersand. *)
Definition closed (pre : list card) : Prop :=
  forall a c b n v, pre = a ++ c :: b -> defines c = Some (n, v) -> names b = [] ->
    forall t cm, completed v b <> VString (t ++ [38]) cm.

(** ** Long strings (CONTINUE convention, section 4.2.1.2) *)

(** A CONTINUE record. *)
Definition continue_record (field : list Z) : list Z := padded 80 (chars "CONTINUE" ++ field).

(** One piece of a long string in its field: content, blanks before and after, comment. *)
Record piece := mk_piece {
  pc_text : list Z; pc_lead : nat; pc_trail : nat; pc_comment : option (list Z) }.

Definition piece_ok (p : piece) : Prop := Forall printable (pc_text p) /\ opt_printable (pc_comment p).

(** The field of a piece; all but the last carry an ampersand. *)
Definition piece_field (amp : bool) (p : piece) : list Z :=
  value_field (pc_lead p) (fits_string (pc_text p ++ if amp then [38] else [])) (pc_trail p)
    (pc_comment p).

Fixpoint continue_records (l : list piece) : list (list Z) :=
  match l with
  | [] => []
  | [p] => [continue_record (piece_field false p)]
  | p :: r => continue_record (piece_field true p) :: continue_records r
  end.

(** The records of the string made of [first] and the non-empty list of pieces [rest]. *)
Definition long_string_records (kw : list Z) (first : piece) (rest : list piece) : list (list Z) :=
  value_record kw (piece_field true first) :: continue_records rest.

Fixpoint all_comments (l : list piece) : option (list Z) :=
  match l with
  | [] => None
  | p :: r =>
    match option_map rtrim (pc_comment p), all_comments r with
    | Some a, Some b => Some (a ++ [10] ++ b)
    | Some a, None => Some a
    | None, b => b
    end
  end.

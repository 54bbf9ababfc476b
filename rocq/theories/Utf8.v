(** UTF-8 as used by [String::from_utf8_lossy] and [str::from_utf8] of the Rust standard
    library (library code, not part of /repo; it is called from [src/card.rs] lines 150, 168,
    192, 204, 209, 237, 322 and [src/hdu/mod.rs] lines 62, 96). *)

From Verif Require Import Base.

(** [char::REPLACEMENT_CHARACTER], U+FFFD. *)
Definition REPL : Z := 65533.

(** Continuation byte: [b & 0xC0 == 0x80]. *)
Definition is_cont (b : Z) : bool := (128 <=? b) && (b <=? 191).

(** Acceptable second byte of a 3-byte sequence (core::str::lossy). *)
Definition second3 (b0 b1 : Z) : bool :=
  ((b0 =? 224) && (160 <=? b1) && (b1 <=? 191))
  || ((225 <=? b0) && (b0 <=? 236) && is_cont b1)
  || ((b0 =? 237) && (128 <=? b1) && (b1 <=? 159))
  || ((238 <=? b0) && (b0 <=? 239) && is_cont b1).

(** Acceptable second byte of a 4-byte sequence (core::str::lossy). *)
Definition second4 (b0 b1 : Z) : bool :=
  ((b0 =? 240) && (144 <=? b1) && (b1 <=? 191))
  || ((241 <=? b0) && (b0 <=? 243) && is_cont b1)
  || ((b0 =? 244) && (128 <=? b1) && (b1 <=? 143)).

Definition dec2 (b0 b1 : Z) : Z := (b0 - 192) * 64 + (b1 - 128).
Definition dec3 (b0 b1 b2 : Z) : Z := (b0 - 224) * 4096 + (b1 - 128) * 64 + (b2 - 128).
Definition dec4 (b0 b1 b2 b3 : Z) : Z :=
  (b0 - 240) * 262144 + (b1 - 128) * 4096 + (b2 - 128) * 64 + (b3 - 128).

(** [String::from_utf8_lossy]: maximal invalid prefixes become one U+FFFD each. *)
Fixpoint utf8_lossy (l : list Z) : str :=
  match l with
  | [] => []
  | b0 :: r0 =>
    if b0 <? 128 then b0 :: utf8_lossy r0
    else if (194 <=? b0) && (b0 <=? 223) then
      match r0 with
      | b1 :: r1 => if is_cont b1 then dec2 b0 b1 :: utf8_lossy r1 else REPL :: utf8_lossy r0
      | [] => [REPL]
      end
    else if (224 <=? b0) && (b0 <=? 239) then
      match r0 with
      | b1 :: r1 =>
        if second3 b0 b1 then
          match r1 with
          | b2 :: r2 => if is_cont b2 then dec3 b0 b1 b2 :: utf8_lossy r2 else REPL :: utf8_lossy r1
          | [] => [REPL]
          end
        else REPL :: utf8_lossy r0
      | [] => [REPL]
      end
    else if (240 <=? b0) && (b0 <=? 244) then
      match r0 with
      | b1 :: r1 =>
        if second4 b0 b1 then
          match r1 with
          | b2 :: r2 =>
            if is_cont b2 then
              match r2 with
              | b3 :: r3 =>
                if is_cont b3 then dec4 b0 b1 b2 b3 :: utf8_lossy r3 else REPL :: utf8_lossy r2
              | [] => [REPL]
              end
            else REPL :: utf8_lossy r1
          | [] => [REPL]
          end
        else REPL :: utf8_lossy r0
      | [] => [REPL]
      end
    else REPL :: utf8_lossy r0
  end.

(** [str::from_utf8]: [None] on invalid input, otherwise the decoded text. *)
Fixpoint from_utf8 (l : list Z) : option str :=
  match l with
  | [] => Some []
  | b0 :: r0 =>
    if b0 <? 128 then option_map (cons b0) (from_utf8 r0)
    else if (194 <=? b0) && (b0 <=? 223) then
      match r0 with
      | b1 :: r1 => if is_cont b1 then option_map (cons (dec2 b0 b1)) (from_utf8 r1) else None
      | [] => None
      end
    else if (224 <=? b0) && (b0 <=? 239) then
      match r0 with
      | b1 :: b2 :: r2 =>
        if second3 b0 b1 && is_cont b2
        then option_map (cons (dec3 b0 b1 b2)) (from_utf8 r2) else None
      | _ => None
      end
    else if (240 <=? b0) && (b0 <=? 244) then
      match r0 with
      | b1 :: b2 :: b3 :: r3 =>
        if second4 b0 b1 && is_cont b2 && is_cont b3
        then option_map (cons (dec4 b0 b1 b2 b3)) (from_utf8 r3) else None
      | _ => None
      end
    else None
  end.

Definition is_ascii (b : Z) : Prop := 0 <= b < 128.

Lemma utf8_lossy_ascii l : Forall is_ascii l -> utf8_lossy l = l.
Proof.
  induction 1 as [|b l [H0 H1] Hl IH]; simpl; auto.
  rewrite (proj2 (Z.ltb_lt b 128) H1). now rewrite IH.
Qed.

Lemma from_utf8_ascii l : Forall is_ascii l -> from_utf8 l = Some l.
Proof.
  induction 1 as [|b l [H0 H1] Hl IH]; simpl; auto.
  rewrite (proj2 (Z.ltb_lt b 128) H1). now rewrite IH.
Qed.

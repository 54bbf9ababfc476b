(** Model of the synchronous HDU iterator: [src/fits.rs] and the constructors of
    [src/hdu/mod.rs]. *)

From Verif Require Import Base Utf8 Text Card Reader Header Xtension.

(** [src/hdu/mod.rs] lines 34-45: the four HDU variants. *)
Inductive hkind := HPrimary | HImage | HBinTable | HAsciiTable.

(** [src/fits.rs] lines 164-173 and [src/hdu/header/mod.rs] lines 185-200. *)
Record hdu := mk_hdu {
  h_kind : hkind; h_cards : list card; h_values : vmap; h_xt : xtension; h_offset : Z }.

(** [src/fits.rs] lines 221-224 and [src/hdu/mod.rs] lines 195-201. *)
Definition hdu_size (m : mode) (h : hdu) : res Z := xt_num_bytes m (h_xt h).

(** [src/fits.rs] lines 179-211: [HDU::new], with [Header::parse]
    ([src/hdu/header/mod.rs] lines 214-223).  Returns the HDU, the byte count and the reader. *)
Definition hdu_new (m : mode) (kind : hkind) (k : xtype) (r : reader) (nread : Z) (cards : list card)
  : res hdu * Z * reader :=
  match (let! vs := process_cards m cards in
         let! x := xt_parse m k vs in Ok (vs, x)) with
  | Ok (vs, x) =>
    if nread mod 2880 =? 0 then (Ok (mk_hdu kind cards vs x (rd_pos r)), nread, r)
    else
      let off := 2880 - nread mod 2880 in
      match read_exact r off with
      | (Ok _, r') => (Ok (mk_hdu kind cards vs x (rd_pos r')), nread + off, r')
      | (_, r') => (Err EStatic, nread, r')
      end
  | Err e => (Err e, nread, r)
  | Panic => (Panic, nread, r)
  end.

(** [src/hdu/mod.rs] lines 114-153: [HDU::new_xtension]. *)
Definition new_xtension (m : mode) (r : reader) : res hdu * Z * reader :=
  match consume_cards r 0 with
  | (Ok cards, n, r') =>
    match cards with
    | [] => (Panic, n, r')
    | CXtension XImage _ :: _ => hdu_new m HImage XImage r' n cards
    | CXtension XBinTable _ :: _ => hdu_new m HBinTable XBinTable r' n cards
    | CXtension XAsciiTable _ :: _ => hdu_new m HAsciiTable XAsciiTable r' n cards
    | _ :: _ => (Err EStatic, n, r')
    end
  | (Err e, n, r') => (Err e, n, r')
  | (Panic, n, r') => (Panic, n, r')
  end.

(** [src/hdu/mod.rs] lines 155-186: [HDU::new_primary]. *)
Definition new_primary (m : mode) (r : reader) : res hdu * Z * reader :=
  match consume_cards r 0 with
  | (Ok cards, n, r') =>
    match cards with
    | [] => (Panic, n, r')
    | CValue name (VLogical true _) :: _ =>
      if str_eqb name (chars "SIMPLE") then hdu_new m HPrimary XImage r' n cards
      else (Err EDynamic, n, r')
    | _ :: _ => (Err EStatic, n, r')
    end
  | (Err e, n, r') => (Err e, n, r')
  | (Panic, n, r') => (Panic, n, r')
  end.

(** [src/fits.rs] lines 11-24. *)
Record fits := mk_fits {
  f_start : bool; f_pos_du : Z; f_num_du : Z; f_error : bool; f_reader : reader }.

(** [src/fits.rs] lines 41-49. *)
Definition from_reader (r : reader) : fits := mk_fits true 0 0 false r.

(** [src/fits.rs] lines 61-78: [consume_until_next_hdu]. *)
Definition consume_until_next_hdu (m : mode) (f : fits) : res unit * reader :=
  let r := f_reader f in
  let n := f_num_du f in
  match (let! consumed := u64_result m (rd_pos r - f_pos_du f) in
         let! skip := u64_result m (n - consumed) in
         if n mod 2880 =? 0 then Ok skip else u64_result m (skip + (2880 - n mod 2880))) with
  | Ok skip => seek_relative r (as_i64 skip)
  | Err e => (Err e, r)
  | Panic => (Panic, r)
  end.

(** Result of one call of [Iterator::next]. *)
Inductive item := INone | IOk (h : hdu) | IErr (e : error) | IPanic.

(** [src/fits.rs] lines 114-161: [next]. *)
Definition next (m : mode) (f : fits) : item * fits :=
  if f_error f then (INone, f)
  else
    let '(n, r) :=
      if f_start f then
        match new_primary m (f_reader f) with
        | (Ok h, _, r) => (IOk h, r)
        | (Err e, _, r) => (IErr e, r)
        | (Panic, _, r) => (IPanic, r)
        end
      else
        match consume_until_next_hdu m f with
        | (Ok _, r) =>
          match new_xtension m r with
          | (Ok h, _, r') => (IOk h, r')
          | (Err EEof, nread, r') => (if nread =? 0 then INone else IErr EEof, r')
          | (Err e, _, r') => (IErr e, r')
          | (Panic, _, r') => (IPanic, r')
          end
        | (Err e, r) => (IErr e, r)
        | (Panic, r) => (IPanic, r)
        end in
    match n with
    | IOk h =>
      match hdu_size m h with
      | Ok size => (IOk h, mk_fits false (h_offset h) size false r)
      | _ => (IPanic, mk_fits false (f_pos_du f) (f_num_du f) false r)
      end
    | IErr e => (IErr e, mk_fits false (f_pos_du f) (f_num_du f) true r)
    | INone => (INone, mk_fits false (f_pos_du f) (f_num_du f) false r)
    | IPanic => (IPanic, mk_fits false (f_pos_du f) (f_num_du f) false r)
    end.

(** The items produced by [n] calls. *)
Fixpoint run (m : mode) (n : nat) (f : fits) : list item * fits :=
  match n with
  | O => ([], f)
  | S n' => let (i, f') := next m f in let (l, f'') := run m n' f' in (i :: l, f'')
  end.

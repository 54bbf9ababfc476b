(** Model of the command line tool [fits struct FILE]: [crates/cli/src/struct.rs].  The output is
    the list of printed lines.  [BufReader<File>] is the cursor over the bytes of the file
    ([Gz.v] relates the two). *)

From Verif Require Import Base Text Card Reader Header Xtension Fits.

(** How the process ends: exit code 0, an error returned from [main], a panic. *)
Inductive ending := Finished | Failed (e : error) | Panicked.

(** [{:?}] of [Bitpix]. *)
Definition bitpix_debug (b : bitpix) : str :=
  match b with
  | BU8 => chars "U8" | BI16 => chars "I16" | BI32 => chars "I32" | BI64 => chars "I64"
  | BF32 => chars "F32" | BF64 => chars "F64"
  end.

(** The texts of a list with a separator in between. *)
Fixpoint join (sep : str) (l : list str) : str :=
  match l with
  | [] => []
  | [x] => x
  | x :: r => x ++ sep ++ join sep r
  end.

(** [{:?}] of [&[u64]]. *)
Definition u64s_debug (l : list Z) : str := chars "[" ++ join (chars ", ") (map dec l) ++ chars "]".

(** Lines 88-104: [print_img_header]; the [reduce] over the axes. *)
Definition dimensions (l : list Z) : str :=
  match map dec l with
  | [] => chars "0"
  | s :: r => fold_left (fun s d => s ++ [120] ++ d) r s
  end.
Definition img_header (i : image) : str :=
  chars " * HEAD naxis: " ++ u64s_debug (im_naxisn i) ++ chars "; bitpix : " ++
  bitpix_debug (im_bitpix i) ++ chars "; dimensions: " ++ dimensions (im_naxisn i) ++ chars ".".

(** Lines 106-120: [print_bintable_header] and [print_asciitable_header]. *)
Definition table_header (cols rows : Z) : str :=
  chars " * HEAD n_cols: " ++ dec cols ++ chars "; n_rows: " ++ dec rows ++ chars ".".

(** Lines 37-70: the type and the header line of each kind. *)
Definition type_name (k : hkind) : str :=
  match k with
  | HPrimary => chars "PRIMARY" | HImage => chars "IMAGE" | HBinTable => chars "BINTABLE"
  | HAsciiTable => chars "ASCIITABLE"
  end.
Definition head_line (x : xtension) : str :=
  match x with
  | XtImage i => img_header i
  | XtBin t => table_header (bt_tfields t) (bt_naxis2 t)
  | XtAscii t => table_header (at_tfields t) (at_naxis2 t)
  end.

(** Lines 28-86: [print_hdu_struct] with [print_data_struct]; the size is computed last. *)
Definition print_hdu (m : mode) (i : Z) (h : hdu) : list str * bool :=
  let lines := [chars "HDU[" ++ dec i ++ chars "]:"; chars " * HDU type: " ++ type_name (h_kind h);
                head_line (h_xt h)] in
  match hdu_size m h with
  | Ok n => (lines ++ [chars " * DATA starting byte: " ++ dec (h_offset h) ++ chars "; byte size: " ++
                       dec n ++ chars "."], true)
  | _ => (lines, false)
  end.

(** Lines 20-26: the loop of [exec]; [None] when [fuel] calls of [next] do not end it. *)
Fixpoint struct_loop (m : mode) (fuel : nat) (i : Z) (f : fits) : option (list str * ending) :=
  match fuel with
  | O => None
  | S fuel' =>
    match next m f with
    | (INone, _) => Some ([], Finished)
    | (IErr e, _) => Some ([], Failed e)
    | (IPanic, _) => Some ([], Panicked)
    | (IOk h, f') =>
      let (lines, ok) := print_hdu m i h in
      if ok then
        match struct_loop m fuel' (i + 1) f' with
        | Some (rest, e) => Some (lines ++ rest, e)
        | None => None
        end
      else Some (lines, Panicked)
    end
  end.
Definition cli_struct (m : mode) (fuel : nat) (r : reader) : option (list str * ending) :=
  struct_loop m fuel 0 (from_reader r).

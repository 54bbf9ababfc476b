(** Tables and tile-compressed images asked again after a failure of the device (C91). *)

From Coq Require Import String List.
From Verif Require Import Base Utf8 Text Card Reader Header Xtension Bytes Fits ImageIt BinTable Rice Float Tile ImageInt Device DeviceTable DeviceTile DeviceImage.
From Verif Require Import SpecUtf8 SpecCard SpecHeader SpecXt SpecFits SpecImage SpecBin SpecRice SpecTile SpecImageInt SpecDevice SpecDeviceTable SpecDeviceTile SpecDeviceImage SpecAfter.
From Verif Require Import HeaderProofs FitsProofs4 BinProofs3 TileProofs6 DeviceTableProofs AfterProofs.
From Verif Require Import Prop_Fits Prop_Bin Prop_Device Prop_Rice Prop_Tile Prop_ImageInt Prop_DeviceTile Prop_DeviceImage.
Local Open Scope string_scope.
Local Open Scope list_scope.
Local Open Scope Z_scope.

(** The values of a table one by one.  A read that fails without having moved the device costs nothing: asked again
    (as often as it fails) the iterator gives the value that was due, and so on through the whole table. *)
Theorem C91_values : forall m d f fs h f' fs' t lim,
  octets d -> rd_data (f_reader f) = d -> 0 <= rd_pos (f_reader f) -> dev_next m f fs = (IOk h, f', fs') ->
  h_xt h = XtBin t -> table_inside d t (h_offset h) ->
  lim <= len d -> columns_readable d lim t (h_offset h) true (all_columns t) -> bt_tforms t <> [] ->
  exists s cells calls, get_table m f' t = Ok s /\
    Forall2 (slot_value d) (slots_from d t (h_offset h) true (all_columns t) 0) cells /\
    List.length calls = List.length cells /\ Forall (fun n => (1 <= n)%nat) calls /\
    forall pauses, List.length pauses = List.length cells ->
      dev_values m (list_sum pauses + List.length cells) s (paused pauses calls)
      = flat_map (fun x => repeat (Ok None) (fst x) ++ [Ok (Some (snd x))]) (combine pauses cells).
Proof.
  intros m d f fs h f' fs' t lim O D P Nx X I L R Ne.
  destruct (table_cells m d f h f' t O D P (dev_next_ok _ _ _ _ _ _ Nx) X I lim L R Ne) as (s & cells & G & V & E).
  destruct (values_paused m cells s (new_first _ _ _ _ G)) as (calls & A & B & C).
  - rewrite E, firstn_app, map_length, Nat.sub_diag, <- (map_length TValue cells), firstn_all. cbn. apply app_nil_r.
  - exists s, cells, calls. auto.
Qed.
Print Assumptions C91_values.

(** The rows of a table, from any state that is reached.  [calls] are the numbers of calls on the device that the
    values of the row take.  When the first read of value [i] fails, without having moved the device, the values
    before it are gone: asked again the iterator gives a row that begins with value [i], and goes on behind it.
    When the last call of the row fails, the seek to the next, the whole row is gone, and asked again the iterator
    gives a row without values and makes no call. *)
Theorem C91_rows : forall m f t s n fuel0 fuel x row x',
  get_table m f t = Ok s -> x = Nat.iter n (fun x => snd (row_next m fuel0 x)) (row_iter s) ->
  row_next m fuel x = (Some (Ok (Some row)), x') ->
  exists calls, List.length calls = List.length row /\ Forall (fun n => (1 <= n)%nat) calls /\
  (forall fs, working (list_sum calls) fs -> dev_row_next m fuel x fs = (Some (Ok (Some row)), x', skipn (list_sum calls) fs)) /\
  (forall i fs, (i < List.length row)%nat -> fails_at fs (calls_before calls i) 0 ->
     exists x1, dev_row_next m fuel x fs = (Some (Ok None), x1, skipn (S (calls_before calls i)) fs) /\
       let left := (list_sum calls - calls_before calls i)%nat in
       forall fs2, working left fs2 -> dev_row_next m fuel x1 fs2 = (Some (Ok (Some (skipn i row))), x', skipn left fs2)) /\
  (row <> [] -> forall fs k, fails_at fs (list_sum calls - 1) k ->
     exists x1, dev_row_next m fuel x fs = (Some (Ok None), x1, skipn (list_sum calls) fs) /\
       forall fs2, exists x2, dev_row_next m fuel x1 fs2 = (Some (Ok (Some [])), x2, fs2)).
Proof.
  intros m f t s n fuel0 fuel x row x' G -> E.
  destruct (rows_after m fuel _ row x' (reached_first m fuel0 (row_iter s) n (new_first _ _ _ _ G)) E) as (calls & A & B & _ & C & D & F).
  exists calls. auto.
Qed.
Print Assumptions C91_rows.

(** So the iterator over the pixels of a tile-compressed image, which takes the array of the tile out of the row by
    its number, panics when it is asked again, in every build: after a failed read of value [i] when there is no
    array [i] places behind that of the tile, and after a failed seek to the next row always. *)
Theorem C91_tiles : forall gd m f vs t s0 n fuel0 fuel s row x',
  get_tiles m f vs t = Some (Ok s0) -> s = snd (tiles_run (gd_plain gd) m fuel0 s0 n) ->
  tl_rem s = 0 -> row_next m fuel (tl_rows s) = (Some (Ok (Some row)), x') -> row <> [] ->
  exists calls, List.length calls = List.length row /\ Forall (fun n => (1 <= n)%nat) calls /\
  (forall i fs, (i < List.length row)%nat -> ~ is_array (nth_error row (i + Z.to_nat (tl_idx s))) -> fails_at fs (calls_before calls i) 0 ->
     exists s1, dev_tiles_next gd m fuel s fs = (Some (Ok None), s1, skipn (S (calls_before calls i)) fs) /\
       forall fs2, working (list_sum calls - calls_before calls i) fs2 -> fst (fst (dev_tiles_next gd m fuel s1 fs2)) = Some Panic) /\
  (forall fs k, fails_at fs (list_sum calls - 1) k ->
     exists s1, dev_tiles_next gd m fuel s fs = (Some (Ok None), s1, skipn (list_sum calls) fs) /\
       forall fs2, fst (fst (dev_tiles_next gd m fuel s1 fs2)) = Some Panic).
Proof.
  intros gd m f vs t s0 n fuel0 fuel s row x' G -> R E Ne.
  exact (tiles_after gd m fuel _ row x' R (tiles_begun _ m fuel0 n s0 (new_begun _ _ _ _ _ G)) E Ne).
Qed.
Print Assumptions C91_tiles.

(** *** Cases *)

(** The table of C79, whose rows take seven calls: the values one by one, with two failures before the second
    and one before the fourth. *)
Example C91_values_case : forall m,
  exists t o s, found m ex_fixed t o s /\ table_inside ex_fixed t o /\
    columns_readableb ex_fixed (len ex_fixed) t o true (all_columns t) = true /\
    dev_values m 7 s ([None; None; Some 0; Some 0] ++ [None; None; None; Some 0])
    = [Ok (Some (DVal TyL [1] 0 0)); Ok None; Ok None; Ok (Some (DVal TyI [1] 1 0)); Ok (Some (DVal TyI [-2] 1 1));
       Ok None; Ok (Some (DVal TyA [65] 2 0))].
Proof. ex_check. Qed.

(** By rows.  The first row has four values.  After one failed read the iterator gives a row of three, and after a
    failed seek a row of none; the second row is the same. *)
Fixpoint ex_row_calls (m : mode) (n : nat) (x : row_it) (fs : faults) : list (option (res (option (list dvalue)))) :=
  match n with
  | O => []
  | S n' => let '(y, x', fs') := dev_row_next m 9 x fs in y :: ex_row_calls m n' x' fs'
  end.
Theorem C91_short_rows_refuted : forall m,
  exists t o s, found m ex_fixed t o s /\ table_inside ex_fixed t o /\
    let row1 := [DVal TyL [1] 0 0; DVal TyI [1] 1 0; DVal TyI [-2] 1 1; DVal TyA [65] 2 0] in
    let row2 := [DVal TyL [0] 0 0; DVal TyI [256] 1 0; DVal TyI [7] 1 1; DVal TyA [66] 2 0] in
    ex_row_calls m 3 (row_iter s) [] = map (fun x => Some (Ok x)) [Some row1; Some row2; None] /\
    ex_row_calls m 3 (row_iter s) (repeat None 2 ++ [Some 0]) = map (fun x => Some (Ok x)) [None; Some (skipn 1 row1); Some row2] /\
    ex_row_calls m 3 (row_iter s) (repeat None 6 ++ [Some 0]) = map (fun x => Some (Ok x)) [None; Some []; Some row2].
Proof. ex_check. Qed.
Print Assumptions C91_short_rows_refuted.

(** The float image of C42, with rows of a scale, an array and a zero in seven calls: after a failed read of the array of the second
    tile (the tile before it took twelve calls) and after one of its zero the iterator panics. *)
Theorem C91_iterator_refuted : forall m, exists h f' t z,
  found_tiles m (ex_floats "NO_DITHER" ex_ints) h f' t z /\
  tiledb (ex_floats "NO_DITHER" ex_ints) t (h_offset h) z = true /\ z_data_idx z = 1 /\
  option_map (map (fun x => match x with Some (Ok None) => 0 | Some (Ok _) => 1 | Some Panic => 2 | _ => 3 end))
    (ex_turns m f' (h_values h) t 4 (repeat None 14 ++ [Some 0])) = Some [1; 1; 0; 2] /\
  option_map (map (fun x => match x with Some (Ok None) => 0 | Some (Ok _) => 1 | Some Panic => 2 | _ => 3 end))
    (ex_turns m f' (h_values h) t 4 (repeat None 17 ++ [Some 0])) = Some [1; 1; 0; 2].
Proof. ex_tiles_check. Qed.
Print Assumptions C91_iterator_refuted.

(** The decoder of the [image] crate goes on to the next plane of a colour picture after a failure: it panics. *)
Theorem C91_picture_refuted : forall m, exists dec fs,
  dev_decoder_new m 9 (mk_reader (ex_rgb_tiles 8) 0) [] = (Some (Ok dec), fs) /\
  dev_read_image ex_gd m 30 dec (repeat 9 6) [] = Some (Ok [1; 3; 5;   2; 4; 6]) /\
  dev_read_image ex_gd m 30 dec (repeat 9 6) (repeat None 10 ++ [Some 0]) = Some Panic.
Proof. intro m. apply ex_dev_decoder. destruct m; vm_compute; repeat split. Qed.
Print Assumptions C91_picture_refuted.

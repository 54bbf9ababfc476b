(** Tile-compressed images whose rows, tiles and heap may hold anything, or end early. *)

From Coq Require Import String.
From Verif Require Import Base Text Card Reader Header Xtension Bytes BinTable Rice Float Tile SpecCard SpecXt SpecBin SpecBinCut SpecRice SpecTile.

(** A column that has values. *)
Definition filled (f : tform) : Prop := match f with TElem e n => e <> TyX /\ 1 <= n | _ => True end.
(** A column of array descriptors, of floats, and of integers. *)
Definition array_column (t : bintable) (c : Z) : Prop := exists e, format t c = Some (TDesc32 e) \/ format t c = Some (TDesc64 e).
Definition real_column (t : bintable) (c : Z) : Prop := format t c = Some (TElem TyE 1) \/ format t c = Some (TElem TyD 1).
Definition int_column (t : bintable) (c : Z) : Prop :=
  format t c = Some (TElem TyB 1) \/ format t c = Some (TElem TyI 1) \/ format t c = Some (TElem TyJ 1) \/ format t c = Some (TElem TyK 1).

(** The columns and the tile size of an image that can be read, as the header has them: those of
    [SpecTile.tiled] and [SpecTile.quantised], and no condition on the data. *)
Definition tile_header (t : bintable) (z : zimage) : Prop :=
  Forall filled (bt_tforms t) /\ counted t (z_data_idx z) /\ array_column t (z_data_idx z) /\
  1 <= product (z_tilen z) < 2 ^ 60 /\ match z_cmp z with ZRice bs _ => product (z_tilen z) + bs < 2 ^ 31 | _ => True end /\
  (real_pixels (z_bitpix z) ->
     (exists c, SpecTile.column t (chars "ZSCALE") c /\ real_column t c) /\
     (exists c, SpecTile.column t (chars "ZZERO") c /\ real_column t c) /\
     forall c, first_named (bt_ttypes t) (chars "ZBLANK") c -> counted t c /\ int_column t c).

(** A gzip decoder that, when it has filled the buffer of [n] bytes, has put [n] bytes there. *)
Definition fills_buffer (gz : gunzip) : Prop := forall bytes n b w used, 0 <= n -> gz bytes n = (Some b, w, used) -> len b = n.

(** Tile iterators asked again after a tile that could not be loaded. *)

From Verif Require Import Base Text Card Reader Header Xtension Bytes BinTable Rice Float Tile SpecTile.

(** A gzip decoder that, filled or not, has put at most [n] bytes in a buffer of [n] bytes and has not moved its
    reader back. *)
Definition stays_in_buffer (gz : gunzip) : Prop :=
  forall bytes n b w used, 0 <= n -> gz bytes n = (b, w, used) -> len w <= n /\ 0 <= used.

Definition is_pixel (r : pixel_result) : bool := match r with PixelOf _ => true | _ => false end.

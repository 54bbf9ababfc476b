(** Specification side for tile-compressed images on a device that fails. *)

From Verif Require Import Base Text Card Reader Header Xtension Bytes Fits ImageIt BinTable Rice Float Tile.
From Verif Require Import SpecCard SpecXt SpecFits SpecImage SpecBin SpecRice SpecTile Device DeviceTable DeviceTile.

(** The pixels a loop over the image is given, in at most [n] turns: it ends at the first [None] (or panic). *)
Fixpoint dev_tile_pixels (gd : gz_device) (m : mode) (fuel : nat) (n : nat) (s : tiles) (fs : faults) : list pixel :=
  match n with
  | O => []
  | S n' => match dev_tiles_next gd m fuel s fs with
            | (Some (Ok (Some p)), s', fs') => p :: dev_tile_pixels gd m fuel n' s' fs'
            | _ => []
            end
  end.

(** What the same loop is given on a device that works: what comes before the first result that is not a pixel. *)
Fixpoint pixels_of (l : list pixel_result) : list pixel :=
  match l with PixelOf p :: r => p :: pixels_of r | _ => [] end.

(** Model of the decoder for the [image] crate over a device that can fail: the same code as [ImageInt.v] models
    over an in-memory source.  Opening a file reads headers and reading the picture reads pixels, so the calls on
    the device are those of [Device.v] and [DeviceTile.v]; the decoder makes none of its own. *)

From Verif Require Import Base Text Card Reader Header Xtension Bytes Fits ImageIt BinTable Float Tile ImageInt.
From Verif Require Import Device DeviceTable DeviceTile.

(** [src/image_integration.rs] lines 113-134, as [find_image]. *)
Fixpoint dev_find_image (m : mode) (fuel : nat) (f : fits) (fs : faults)
  : option (res (hdu * image_kind * fits)) * faults :=
  match fuel with
  | O => (None, fs)
  | S fuel' =>
    match dev_next m f fs with
    | (IErr e, _, fs') => (Some (Err e), fs')
    | (IPanic, _, fs') => (Some Panic, fs')
    | (INone, _, fs') => (Some (Err EDynamic), fs')
    | (IOk h, f', fs') =>
      match stops_at m h with
      | Ok (Some k) => (Some (Ok (h, k, f')), fs')
      | Ok None => dev_find_image m fuel' f' fs'
      | Err e => (Some (Err e), fs')
      | Panic => (Some Panic, fs')
      end
    end
  end.

(** Lines 110-155, as [decoder_new]. *)
Definition dev_decoder_new (m : mode) (fuel : nat) (r : reader) (fs : faults) : option (res decoder) * faults :=
  match dev_find_image m fuel (from_reader r) fs with
  | (Some (Ok (h, k, f)), fs') => (Some (describe h k f), fs')
  | (Some (Err e), fs') => (Some (Err e), fs')
  | (Some Panic, fs') => (Some Panic, fs')
  | (None, fs') => (None, fs')
  end.

(** Lines 346-387, as [read_image]: the iterators are those over the device.  The layout is written by the code of
    [write_pixels], which asks an iterator for more after a [None] when it begins the next channel. *)
Definition pull_dev_image (sc : scale) (x : it * faults) : out (option (list Z)) * (it * faults) :=
  let '(v, s', fs') := dev_it_next (fst x) (snd x) in
  (Some (Ok (option_map (image_sample (it_ty (fst x)) sc) v)), (s', fs')).
Definition pull_dev_tiles (gd : gz_device) (m : mode) (fuel : nat) (b : bitpix) (sc : scale) (x : tiles * faults)
  : out (option (list Z)) * (tiles * faults) :=
  match dev_tiles_next gd m fuel (fst x) (snd x) with
  | (Some (Ok v), s', fs') => (Some (Ok (option_map (tile_sample b sc) v)), (s', fs'))
  | (Some (Err e), s', fs') => (Some (Err e), (s', fs'))
  | (Some Panic, s', fs') => (Some Panic, (s', fs'))
  | (None, s', fs') => (None, (s', fs'))
  end.

Definition dev_read_image (gd : gz_device) (m : mode) (fuel : nat) (d : decoder) (buf : list Z) (fs : faults) : out (list Z) :=
  match scale_of (h_values (de_hdu d)) with
  | Ok sc =>
    match de_kind d with
    | KImage im =>
      match get_image m (de_fits d) im with
      | Ok id => write_pixels _ (pull_dev_image sc) (im_bitpix im) (de_rgb d) buf (id_pixels id, fs)
      | _ => Some Panic
      end
    | KTiles t z =>
      match get_tiles m (de_fits d) (h_values (de_hdu d)) t with
      | Some (Ok s) => write_pixels _ (pull_dev_tiles gd m fuel (z_bitpix z) sc) (z_bitpix z) (de_rgb d) buf (s, fs)
      | Some (Err e) => Some (Err e)
      | Some Panic => Some Panic
      | None => Some (Err EDynamic)
      end
    end
  | Err e => Some (Err e)
  | Panic => Some Panic
  end.

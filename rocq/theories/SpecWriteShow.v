(** Specification side for pictures shown by the [image] crate: the files a program following the
    standard writes, with the keywords of section 4.4.2.5 for scaled integers. *)

From Coq Require Import Permutation.
From Verif Require Import Base Text Card Reader Header Xtension Bytes Fits ImageIt BinTable Rice Float Tile.
From Verif Require Import SpecCard SpecHeader SpecXt SpecFits SpecImage SpecBin SpecRice SpecTile SpecWrite SpecImageInt SpecWriteTable SpecWriteTile.

(** BZERO and BSCALE, where written as integers; in any order. *)
Definition scale_entries (zero scale : option Z) : list (str * said) :=
  match zero with Some z => [(chars "BZERO", SaysInt z)] | None => [] end ++
  match scale with Some a => [(chars "BSCALE", SaysInt a)] | None => [] end.
(** The number a pixel stands for. *)
Definition physical (zero scale : option Z) (v : Z) : Z :=
  v * match scale with Some a => a | None => 1 end + match zero with Some z => z | None => 0 end.

(** An image HDU, as [image_written], where the header says this and nothing else about the scaling. *)
Definition scaled_written (k : hkind) (b : bitpix) (axes pixels : list Z) (zero scale : option Z) (s : source) : Prop :=
  (k = HPrimary \/ k = HImage) /\ len axes <= 999 /\ Forall (fun a => 0 <= a) axes /\
  (forall l r, axes = l ++ r -> product l < 2 ^ 64) /\
  len pixels = (if len axes =? 0 then 0 else product axes) /\ Forall (in_range b) pixels /\
  (exists es, Permutation (scale_entries zero scale) es /\
     unit_of k (image_entries k b axes ++ es) [chars "BZERO"; chars "BSCALE"] s) /\
  s_data s = concat (map (encode b) pixels).

(** HDUs without a picture: images without pixels, ASCII tables, and binary tables whose header does not
    speak of compression. *)
Definition no_picture (ks : hkind * source) : Prop :=
  match fst ks with
  | HPrimary | HImage => s_data (snd ks) = []
  | HAsciiTable => True
  | HBinTable => forall r, In r (s_records (snd ks)) -> octets r /\ ~ redefines r (chars "ZCMPTYPE")
  end.

(** [n] bytes of the buffer for the number [u], least significant first. *)
Definition sample_bytes (n : Z) (u : Z) : list Z := rev (be_bytes (Z.to_nat n) u).
(** A buffer, pixel after pixel and channel after channel, for the values plane after plane (three planes),
    or one value for all channels of a pixel; [none] where a value is missing. *)
Definition picture_buffer {A} (none : A) (ch : Z) (rgb : bool) (n : Z) (sample : A -> list Z) (values : list A) : list Z :=
  flat_map (fun i => flat_map (fun c => sample (nth (Z.to_nat (if rgb then c * n + i else i)) values none)) (upto ch)) (upto n).

(** A writer. *)
Definition write_scaled (k : hkind) (p : picture) (zero scale : option Z) : source :=
  let '(b, axes, pixels) := p in
  write_unit k (image_entries k b axes ++ scale_entries zero scale) (concat (map (encode b) pixels)).

(** Numbers a header can hold. *)
Definition number_ok (o : option Z) : Prop := match o with Some n => - 2 ^ 63 <= n < 2 ^ 63 | None => True end.
(** A file with such an image first, and others behind. *)
Definition shown_file (p : picture) (zero scale : option Z) (ps : list picture) : list (hkind * source) :=
  (HPrimary, write_scaled HPrimary p zero scale) :: map (fun p => (HImage, write_image HImage p)) ps.
(** A primary HDU without data. *)
Definition empty_primary : hkind * source := (HPrimary, write_image HPrimary (BU8, [], [])).

(** ** Tile-compressed images *)

Definition scaled_tiles (gz : gunzip) (m : mode) (p : zpicture) (zero scale : option Z) (s : source) : Prop :=
  exists cols rows c, whole_pixels (zp_bitpix p) /\ Forall (in_range (zp_bitpix p)) (zp_pixels p) /\
    tiled_table gz m p (scale_entries zero scale) [chars "BZERO"; chars "BSCALE"] cols rows c s.
(** Float images, as [fpicture_written], the header of which does not speak of BZERO and BSCALE. *)
Definition unscaled_floats (gz : gunzip) (m : mode) (p : fpicture) (s : source) : Prop :=
  exists told cols rows c kb,
    real_pixels (zp_bitpix (fp_ints p)) /\ Forall (in_range BI32) (zp_pixels (fp_ints p)) /\
    float_column cols rows (chars "ZSCALE") (fp_scale p) /\ float_column cols rows (chars "ZZERO") (fp_zero p) /\
    (blank_column cols rows (fp_blank p) \/
     ~ In (Some (chars "ZBLANK")) (map tc_name cols) /\ (forall k, fp_blank p k = kb) /\
     match kb with Some b => in_range BI32 b | None => True end) /\
    tiled_table gz m (fp_ints p) (float_entries kb told) [chars "ZBLANK"; chars "ZQUANTIZ"; chars "BZERO"; chars "BSCALE"] cols rows c s.

(** Writers. *)
Definition write_scaled_tiles (p : zpicture) (zero scale : option Z) (blocks : Z -> list (coding * list Z)) : source :=
  write_table_with (zp_entries p ++ scale_entries zero scale) ([tile_column], zp_rows p blocks (fun _ => [])).

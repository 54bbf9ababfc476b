(** Proofs about tile-compressed float images written by the standard. *)

From Coq Require Import Permutation ZifyBool.
From Verif Require Import Base Utf8 Text Card Reader Header Xtension Bytes Fits ImageIt BinTable Rice Float Tile.
From Verif Require Import SpecUtf8 SpecCard SpecHeader SpecXt SpecFits SpecImage SpecBin SpecRice SpecTile SpecWrite SpecWriteTable SpecWriteTile.
From Verif Require Import TextLemmas CardProofs CardProofs2 CardProps HeaderProofs HeaderProofs2 HeaderProps.
From Verif Require Import FitsProofs FitsProofs2 FitsProofs3 FitsProofs4 XtProofs XtProofs2 XtProofs3 BytesProofs ImageProofs.
From Verif Require Import BinProofs BinProofs2 BinProofs3 TileProofs6 WriteProofs WriteProofs2 WriteProofs4 WriteProofs6 WriteProofs7.

Section Cells.
Variables (d : list Z) (o : Z) (t : bintable) (cols : list tcolumn) (rows : list (list (list (list Z)))).
Variables (parts : list (list Z)) (gap heap : list Z) (pc : Z).
Hypothesis OK : Forall column_ok cols.
Hypothesis RW : Forall2 (row_written heap (forms cols)) rows parts.
Hypothesis DE : description t cols (len rows) (len (concat parts ++ gap)) pc.
Hypothesis O0 : 0 <= o.
Hypothesis LD : o + len (concat parts ++ gap ++ heap) <= len d.
Hypothesis SD : slice d o (len (concat parts ++ gap ++ heap)) = concat parts ++ gap ++ heap.

(** A cell of one element. *)
Lemma single_cell i c cells ty v : nth_error rows (Z.to_nat i) = Some cells -> 0 <= i -> 0 <= c ->
  nth_error (forms cols) (Z.to_nat c) = Some (TElem ty 1) -> nth_error cells (Z.to_nat c) = Some [v] ->
  format t c = Some (TElem ty 1) /\ elem_stored ty (slice d (cell_start t o i c) (elem_bytes ty)) v.
Proof.
  intros N I C F V. pose proof DE as (D1 & D2 & D3 & D4 & D5 & D6).
  assert (FM : format t c = Some (TElem ty 1)) by (unfold format; rewrite D5; replace (c <? 0) with false by lia; exact F).
  split; auto.
  destruct (cell_in_file d o t cols rows parts gap heap pc OK RW DE O0 LD SD i c cells _ N I C F) as (S & _).
  unfold cell in S. rewrite FM in S. cbn [cell_slots] in S. unfold elems, upto in S. cbn [Z.to_nat Pos.to_nat Pos.iter_op Nat.add seq map] in S.
  unfold cell_at in S. rewrite F, V in S. cbn in S. inversion S as [|? ? ? ? SV _]; subst.
  cbn [slot_value] in SV. destruct SV as (y & E & ST). injection E as ->.
  rewrite Z.add_0_r in ST. exact ST.
Qed.

Lemma float_cells name x : float_column cols rows name x -> exists c, SpecTile.column t name c /\
  forall row, 0 <= row < len rows -> float_cell d t o c row (x row).
Proof.
  intros (c & f & FN & NF & OV & H). pose proof DE as (D1 & D2 & D3 & D4 & D5 & D6). assert (C0 : 0 <= c) by apply FN.
  exists c. split; [split; [now rewrite D6|unfold counted; now rewrite D5]|].
  intros row R. destruct (nth_error rows (Z.to_nat row)) as [cells|] eqn:N.
  2:{ apply nth_error_None in N. unfold len in R. lia. }
  destruct (H _ _ N) as (b & NB & CA). rewrite Z2Nat.id in CA by lia. exists b.
  destruct CA as [(-> & E)|(-> & E)]; (destruct (single_cell row c cells _ _ N ltac:(lia) C0 NF NB) as (FM & ST)); [left|right];
    destruct ST as (y & NS & EY); injection EY as <-; auto.
Qed.

Lemma blank_cells blank : blank_column cols rows blank -> exists c, SpecTile.column t (chars "ZBLANK") c /\
  forall row, 0 <= row < len rows -> exists v, int_cell d t o c row v /\ blank row = Some v.
Proof.
  intros (c & f & FN & NF & FF & OV & H). pose proof DE as (D1 & D2 & D3 & D4 & D5 & D6). assert (C0 : 0 <= c) by apply FN.
  exists c. split; [split; [now rewrite D6|unfold counted; now rewrite D5]|].
  intros row R. destruct (nth_error rows (Z.to_nat row)) as [cells|] eqn:N.
  2:{ apply nth_error_None in N. unfold len in R. lia. }
  destruct (H _ _ N) as (b & NB & E). rewrite Z2Nat.id in E by lia. exists b. split; auto. exists b.
  destruct FF as [->|[->| ->]]; (destruct (single_cell row c cells _ _ N ltac:(lia) C0 NF NB) as (FM & ST));
    destruct ST as (y & NS & EY); injection EY as <-; [left|right; left|right; right; left]; auto.
Qed.

End Cells.

Lemma blank_said vs kb told absent : (forall kw v, In (kw, v) (float_entries kb told) -> says vs kw v) -> In (chars "ZBLANK") absent ->
  (forall n, In n absent -> ~ In n (map fst (float_entries kb told)) -> get vs n = None) ->
  match kb with Some b => in_range BI32 b | None => True end -> blank_keyword vs = kb.
Proof.
  intros S IA A R. unfold blank_keyword. destruct kb as [b|].
  - destruct (S (chars "ZBLANK") (SaysInt b)) as (cm & ->); [now left|]. cbn [value_said]. cbn in R.
    replace (- 2 ^ 31 <=? b) with true by lia. replace (b <? 2 ^ 31) with true by lia. reflexivity.
  - rewrite A; auto. destruct told as [[|n|n]|]; cbn [float_entries dither_entries map fst app In]; intro I;
      repeat (destruct I as [I|I]; [discriminate|]); contradiction.
Qed.

Lemma fpicture_read_back gz m d pre s post p l f :
  octets d -> file_kinds (pre ++ (HBinTable, s) :: post) -> Forall (accepted m) pre -> fpicture_written gz m p s ->
  d = file_bytes (pre ++ (HBinTable, s) :: post) -> len d < 2 ^ 63 ->
  yields m (opened d) l f -> length l = S (length pre) ->
  exists l' h t z st fuel0, l = l' ++ [IOk h] /\ h_kind h = HBinTable /\ h_xt h = XtBin t /\
    bt_zimage t = Some z /\ zimage_of (fp_ints p) z /\
    get_tiles m f (h_values h) t = Some (Ok st) /\
    forall fuel n, (fuel0 <= fuel)%nat -> fst (tiles_run gz m fuel st n)
      = firstn n (map PixelOf (map PFloat (floats_tilewise p)) ++ repeat PixEnd n).
Proof.
  intros O K A (told & cols & rows & c & kb & RP' & RX & FS & FZ & BL & W) D B Y L.
  destruct (tiled_found gz m d pre s post (fp_ints p) (float_entries kb told) [chars "ZBLANK"; chars "ZQUANTIZ"] cols rows c l f) as
    (l' & h & f1 & t & z & dither & parts & gap & heap & EL & HK & RD & RP & N & X & ZI & EZ & TD & TH & N2 & OK & RW & DE & O0 & HO & SL & LR & SM & AM);
    auto using float_side.
  assert (ZB : z_bitpix z = zp_bitpix (fp_ints p)) by (subst; reflexivity).
  assert (Q : quantised d t (h_offset h) (h_values h) (fp_scale p) (fp_zero p) (fp_blank p)).
  { destruct (float_cells d (h_offset h) t cols rows parts gap heap _ OK RW DE O0 HO SL _ _ FS) as (cs & CS & HS).
    destruct (float_cells d (h_offset h) t cols rows parts gap heap _ OK RW DE O0 HO SL _ _ FZ) as (cz & CZ & HZ).
    exists cs, cz. split; auto. split; auto. intros row R. rewrite N2, <- LR in R. split; auto. split; auto.
    destruct BL as [BC|(NC & E & RB)].
    - destruct (blank_cells d (h_offset h) t cols rows parts gap heap _ OK RW DE O0 HO SL _ BC) as (cb & CB & HB).
      destruct (HB row R) as (v & IC & EV). left. exists cb, v. auto.
    - right. pose proof DE as (_ & _ & _ & _ & _ & D6). rewrite D6. split; auto. rewrite E. symmetry. eapply blank_said; eauto. now left. }
  destruct (float_tiles_read gz m d f1 h f t z _ _ _ _ O RD RP N X ZI TD TH ltac:(now rewrite ZB) Q) as (st & fu & GT & RU).
  exists l', h, t, z, st, fu. split; [auto|]. split; [auto|]. split; [auto|]. split; [auto|]. split; [subst; repeat split|]. split; [auto|].
  intros fuel n FU. rewrite (RU fuel n FU). do 3 f_equal. rewrite N2. unfold floats_tilewise.
  induction (upto (product (grid (zp_dims (fp_ints p)) (zp_tiles (fp_ints p))))) as [|k ks IH]; [reflexivity|].
  cbn [flat_map]. rewrite map_app, IH. f_equal. rewrite map_map. apply map_ext. intro v.
  unfold float_pixel, float_value, is_blank. destruct (fp_blank p k) as [b|]; [rewrite (Z.eqb_sym v b)|]; reflexivity.
Qed.

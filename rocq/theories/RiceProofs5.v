(** The decoder on compressed tiles, and on tiles of more than 2^31 pixels. *)

From Verif Require Import Base TextLemmas Bytes Rice SpecImage SpecRice RiceProofs RiceProofs2 RiceProofs3.

Lemma compressed_decoded m t nblock x0 blocks bytes fuel :
  compressed t nblock x0 blocks bytes ->
  bytes_ok bytes -> Forall (pixel_ok t) (block_pixels blocks) -> len (block_pixels blocks) + nblock <= 2 ^ 31 ->
  (m = Wrapping \/ t = RI32 /\ gentle x0 (block_pixels blocks) /\ short_runs t x0 blocks) ->
  (2 * length (block_pixels blocks) + 1 <= fuel)%nat ->
  exists src, rice_read_exact m t nblock (len (block_pixels blocks)) (pixel_bits t / 8 * len (block_pixels blocks)) fuel bytes
    = (Some (Ok tt), src, flat_map (pixel_bytes t) (block_pixels blocks)).
Proof.
  intros (head & data & rest & H1 & H2 & H3 & H4 & H5 & H6) Hb Hp Hl Hm Hf.
  destruct (tile_decoded m t nblock (block_pixels blocks) bytes fuel x0 head data blocks rest) as (src & _ & E); eauto.
Qed.

(** A negative pixel count: the block loop never runs and never ends. *)
Lemma negative_stuck m nblock nx L fuel imax b lastpix nbits src :
  imax < 0 -> 0 < L ->
  fst (fst (fst (read_loop m RI32 nblock nx L fuel (RLow b 0 imax lastpix nbits) src []))) = None.
Proof.
  intros Hi HL. induction fuel as [|f IH]; [reflexivity|]. cbn [read_loop block_step block_imax].
  replace (Z.to_nat (imax - 0)) with O by lia. cbn [block q_src].
  replace (0 =? imax) with false by lia. change (len (@nil Z)) with 0. replace (0 =? L) with false by lia. exact IH.
Qed.

Lemma huge_stuck m n fuel : 2 ^ 31 <= n < 2 ^ 32 ->
  fst (fst (rice_read_exact m RI32 32 (as_i32 n) (4 * n) fuel (repeat 0 10))) = None.
Proof.
  intros Hn. assert (E : as_i32 n = n - 2 ^ 32).
  { unfold as_i32, to_signed. rewrite Z.mod_small by lia. change (2 ^ (8 * 4 - 1)) with (2 ^ 31). change (2 ^ (8 * 4)) with (2 ^ 32). destruct (Z.ltb_spec n (2 ^ 31)); lia. }
  rewrite E. unfold rice_read_exact. replace (4 * n =? 0) with false by lia.
  destruct fuel as [|fuel]; [reflexivity|].
  cbn [read_loop].
  change (let! (p, src1) := read_first RI32 (repeat 0 10) in let! (b, src2) := read_u8 src1 in Ok (p, b, src2))
    with (Ok (0, 0, [0; 0; 0; 0; 0])).
  destruct fuel as [|fuel]; [reflexivity|].
  cbn [read_loop].
  replace (fs_step m RI32 32 (n - 2 ^ 32) 0 0 0 8 [0; 0; 0; 0; 0]) with
    (Ok (RLow 0 0 (n - 2 ^ 32) 0 3, [0; 0; 0; 0; 0])).
  2:{ unfold fs_step. cbn [fsbits]. change (8 - 5) with 3. cbn [fill Z.ltb Z.compare bind].
      change (shr32 m 0 3) with (Ok 0). change (low_bits m 0 3) with (Ok 0). change (i32_result m (0 + 32)) with (Ok 32).
      cbn [bind]. rewrite Z.min_r by lia. reflexivity. }
  pose proof (negative_stuck m 32 (n - 2 ^ 32) (4 * n) fuel (n - 2 ^ 32) 0 0 3 [0; 0; 0; 0; 0] ltac:(lia) ltac:(lia)) as N.
  destruct (read_loop m RI32 32 (n - 2 ^ 32) (4 * n) fuel (RLow 0 0 (n - 2 ^ 32) 0 3) [0; 0; 0; 0; 0] []) as [[[o st] s] out].
  exact N.
Qed.

(** Every sequence of blocks has a compressed form. *)
Lemma byte_of_bits b7 b6 b5 b4 b3 b2 b1 b0 :
  exists v, is_byte v /\ bits_of 8 v = [b7; b6; b5; b4; b3; b2; b1; b0].
Proof.
  exists (128 * Z.b2z b7 + 64 * Z.b2z b6 + 32 * Z.b2z b5 + 16 * Z.b2z b4 + 8 * Z.b2z b3 + 4 * Z.b2z b2 + 2 * Z.b2z b1 + Z.b2z b0).
  split; [red|]; destruct b7, b6, b5, b4, b3, b2, b1, b0; cbn; try lia; reflexivity.
Qed.

Lemma bits_packed n : forall l, (length l <= n)%nat ->
  exists bytes rest, bytes_ok bytes /\ bit_stream bytes = l ++ rest.
Proof.
  induction n as [|n IH]; intros l Hl.
  { destruct l; [|cbn in Hl; lia]. exists [], []. split; [constructor|reflexivity]. }
  destruct l as [|b7 l]; [exists [], []; split; [constructor|reflexivity]|].
  set (l8 := l ++ repeat false 7).
  destruct l8 as [|b6 [|b5 [|b4 [|b3 [|b2 [|b1 [|b0 l']]]]]]] eqn:E8; subst l8;
    try (apply (f_equal (@length bool)) in E8; rewrite app_length, repeat_length in E8; cbn in E8; lia).
  assert (L' : length l = length l') by (apply (f_equal (@length bool)) in E8; rewrite app_length, repeat_length in E8; cbn in E8; lia).
  destruct (IH l' ltac:(cbn in Hl; lia)) as (bytes & rest & Hb & E).
  destruct (byte_of_bits b7 b6 b5 b4 b3 b2 b1 b0) as (v & Hv & Ev).
  exists (v :: bytes), (repeat false 7 ++ rest). split; [constructor; assumption|].
  rewrite bit_stream_cons, Ev, E. cbn [app]. f_equal. rewrite app_assoc, E8. reflexivity.
Qed.

Lemma code_exists t nblock x0 blocks :
  hd_error (block_pixels blocks) = Some x0 -> blocks_ok t nblock x0 blocks ->
  exists bytes, bytes_ok bytes /\ compressed t nblock x0 blocks bytes.
Proof.
  intros Hh Hok.
  destruct (bits_packed _ (blocks_code t x0 blocks) (le_n _)) as (data & rest & Hd & E).
  set (v := x0 mod 2 ^ pixel_bits t).
  assert (Hv : 0 <= v < 2 ^ pixel_bits t) by (apply Z.mod_pos_bound; destruct t; reflexivity).
  exists (match t with
     | RU8 => [v] | RI16 => [v / 256; v mod 256]
     | RI32 => [v / 256 / 256 / 256; v / 256 / 256 mod 256; v / 256 mod 256; v mod 256] end ++ data).
  split.
  - apply Forall_app. split; [|exact Hd].
    destruct t; cbn [pixel_bits] in Hv; repeat constructor;
      solve [clearbody v; Z.to_euclidean_division_equations; lia | apply Z.mod_pos_bound; lia | lia].
  - eexists _, data, rest. repeat apply conj; [exact Hh|reflexivity| | |exact Hok|exact E].
    + destruct t; reflexivity.
    + fold v. clearbody v. destruct t; cbn [be_value pixel_bits] in *; unfold len; cbn [length].
      * change (256 ^ Z.of_nat 0) with 1. lia.
      * change (256 ^ Z.of_nat 1) with 256. change (256 ^ Z.of_nat 0) with 1. Z.to_euclidean_division_equations; lia.
      * change (256 ^ Z.of_nat 3) with 16777216. change (256 ^ Z.of_nat 2) with 65536.
        change (256 ^ Z.of_nat 1) with 256. change (256 ^ Z.of_nat 0) with 1.
        Z.to_euclidean_division_equations; lia.
Qed.

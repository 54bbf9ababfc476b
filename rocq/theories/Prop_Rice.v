(** RICE decompression.  The Rust code is [rice_read_exact]; the compressed format is in SpecRice.v. *)

From Verif Require Import Base Bytes Rice SpecImage SpecRice RiceProofs3 RiceProofs4 RiceProofs5.

(** Three blocks of two pixels: split at level 1, all zero, raw. *)
Definition ex_blocks : list (coding * list Z) :=
  [(SplitAt 1, [100; 103]); (AllZero, [103; 103]); (Raw, [-5; 2 ^ 30])].
Definition ex_bytes : list Z := [0; 0; 0; 100; 20; 32; 104; 0; 0; 3; 94; 0; 0; 0; 40].

Lemma ex_compressed : compressed RI32 2 100 ex_blocks ex_bytes.
Proof.
  exists [0; 0; 0; 100], [20; 32; 104; 0; 0; 3; 94; 0; 0; 0; 40], [false; false].
  repeat apply conj; try reflexivity; try discriminate.
  repeat constructor.
Qed.

(** ** C38: decompression inverts compression *)

(** Release builds, all three pixel types: every tile of pixels of the type, cut in blocks of any
    size and with any choice of codings, comes back exactly. *)
Theorem C38_roundtrip : forall t nblock x0 blocks bytes fuel,
  compressed t nblock x0 blocks bytes -> bytes_ok bytes ->
  Forall (pixel_ok t) (block_pixels blocks) -> len (block_pixels blocks) + nblock <= 2 ^ 31 ->
  (2 * length (block_pixels blocks) + 1 <= fuel)%nat ->
  exists src,
    rice_read_exact Wrapping t nblock (len (block_pixels blocks)) (pixel_bits t / 8 * len (block_pixels blocks)) fuel bytes
    = (Some (Ok tt), src, flat_map (pixel_bytes t) (block_pixels blocks)).
Proof. intros. apply (compressed_decoded Wrapping t nblock x0); auto. Qed.
Print Assumptions C38_roundtrip.

(** Builds with overflow checks, 32-bit pixels (the only type the tile reader uses): the same when
    no two neighbours differ by more than the i32 range (and no unary part exceeds 2^31 - 16). *)
Theorem C38_roundtrip_checked : forall nblock x0 blocks bytes fuel,
  compressed RI32 nblock x0 blocks bytes -> bytes_ok bytes ->
  Forall (pixel_ok RI32) (block_pixels blocks) -> len (block_pixels blocks) + nblock <= 2 ^ 31 ->
  gentle x0 (block_pixels blocks) -> short_runs RI32 x0 blocks ->
  (2 * length (block_pixels blocks) + 1 <= fuel)%nat ->
  exists src,
    rice_read_exact Checked RI32 nblock (len (block_pixels blocks)) (4 * len (block_pixels blocks)) fuel bytes
    = (Some (Ok tt), src, flat_map (pixel_bytes RI32) (block_pixels blocks)).
Proof. intros. apply (compressed_decoded Checked RI32 nblock x0); auto. Qed.
Print Assumptions C38_roundtrip_checked.

Example C38_case_bytes : bytes_ok ex_bytes /\ Forall (pixel_ok RI32) (block_pixels ex_blocks) /\
  gentle 100 (block_pixels ex_blocks) /\ short_runs RI32 100 ex_blocks.
Proof.
  repeat apply conj; try exact I; try (repeat constructor; cbn; try lia; discriminate); vm_compute;
    try discriminate; repeat constructor; discriminate.
Qed.
Example C38_case_run m :
  rice_read_exact m RI32 2 6 24 20 ex_bytes =
  (Some (Ok tt), [], [100; 0; 0; 0; 103; 0; 0; 0; 103; 0; 0; 0; 103; 0; 0; 0; 251; 255; 255; 255; 0; 0; 0; 64]).
Proof. destruct m; vm_compute; reflexivity. Qed.

(** Every sequence of blocks has a compressed form, so the theorems above speak about every tile. *)
Theorem C38_every_tile : forall t nblock x0 blocks,
  hd_error (block_pixels blocks) = Some x0 -> blocks_ok t nblock x0 blocks ->
  exists bytes, bytes_ok bytes /\ compressed t nblock x0 blocks bytes.
Proof. exact code_exists. Qed.
Print Assumptions C38_every_tile.
Example C38_every_tile_case : hd_error (block_pixels ex_blocks) = Some 100 /\ blocks_ok RI32 2 100 ex_blocks.
Proof. repeat apply conj; try reflexivity; try discriminate. repeat constructor. Qed.

(** In a build with overflow checks the decoder panics on a correctly compressed tile whose two
    pixels are the extremes of the type. *)
Theorem C38_checked_refuted :
  exists blocks bytes,
    compressed RI32 2 (- 2 ^ 31) blocks bytes /\ bytes_ok bytes /\ Forall (pixel_ok RI32) (block_pixels blocks) /\
    block_pixels blocks = [- 2 ^ 31; 2 ^ 30] /\
    forall fuel, (5 <= fuel)%nat -> fst (fst (rice_read_exact Checked RI32 2 2 8 fuel bytes)) = Some Panic.
Proof.
  exists [(Raw, [- 2 ^ 31; 2 ^ 30])], [128; 0; 0; 0; 208; 0; 0; 0; 3; 255; 255; 255; 248].
  repeat apply conj.
  - exists [128; 0; 0; 0], [208; 0; 0; 0; 3; 255; 255; 255; 248], [false; false; false].
    repeat apply conj; try reflexivity; discriminate.
  - repeat (apply Forall_cons; [red; lia|]); apply Forall_nil.
  - repeat (apply Forall_cons; [cbn; lia|]); apply Forall_nil.
  - reflexivity.
  - intros fuel H. do 5 (destruct fuel as [|fuel]; [lia|]). reflexivity.
Qed.
Print Assumptions C38_checked_refuted.

(** The decoder is a [Read], but a buffer that ends inside a block loses the place: reading the
    eight bytes of the two pixels 100, 103 in two halves gives 100 twice. *)
Theorem C38_chunked_refuted : forall m fuel, (5 <= fuel)%nat ->
  compressed RI32 2 100 ex_blocks ex_bytes /\
  exists st src src',
    read_loop m RI32 2 6 4 fuel RStart ex_bytes [] = (Some (Ok tt), st, src, [100; 0; 0; 0]) /\
    fst (read_loop m RI32 2 6 4 fuel st src []) = (Some (Ok tt), st, src') /\
    snd (read_loop m RI32 2 6 4 fuel st src []) <> flat_map (pixel_bytes RI32) [103].
Proof.
  intros m fuel H. split; [exact ex_compressed|]. do 5 (destruct fuel as [|fuel]; [lia|]).
  exists (RRice 4 1 0 2 100 3), [32; 104; 0; 0; 3; 94; 0; 0; 0; 40], [32; 104; 0; 0; 3; 94; 0; 0; 0; 40].
  repeat apply conj; destruct m; vm_compute; try reflexivity; discriminate.
Qed.
Print Assumptions C38_chunked_refuted.

(** ** C39: arbitrary bytes *)

(** Release builds: on every input the decoder finishes, having filled the buffer exactly, or reports
    the end of the input without writing beyond the buffer.  A panic, an endless loop and any other
    error are excluded. *)
Theorem C39_safe : forall t nblock nx bytes fuel,
  0 <= nblock -> 0 <= nx -> nx + nblock < 2 ^ 31 -> bytes_ok bytes ->
  (16 * length bytes + 10 <= fuel)%nat ->
  let '(o, _, out) := rice_read_exact Wrapping t nblock nx (pixel_bits t / 8 * nx) fuel bytes in
  o = Some (Ok tt) /\ len out = pixel_bits t / 8 * nx \/
  o = Some (Err EEof) /\ len out <= pixel_bits t / 8 * nx.
Proof. intros t. pose proof (decode_safe t) as D. destruct t; exact D. Qed.
Print Assumptions C39_safe.

Example C39_case_full :
  rice_read_exact Wrapping RI32 2 3 12 300
    [1; 2; 3; 4; 255; 255; 255; 255; 255; 255; 255; 255; 255; 255; 255; 255; 255; 255; 255; 255] =
  (Some (Ok tt), [255; 255; 255], [4; 3; 2; 249; 4; 3; 2; 245; 4; 3; 2; 213]).
Proof. vm_compute. reflexivity. Qed.
Example C39_case_eof : fst (fst (rice_read_exact Wrapping RI32 2 3 12 300 [1; 2; 3; 4; 37])) = Some (Err EEof).
Proof. vm_compute. reflexivity. Qed.

(** Builds with overflow checks: the result is the same, unless they panic... *)
Theorem C39_checked : forall t nblock nx L fuel bytes,
  fst (fst (rice_read_exact Checked t nblock nx L fuel bytes)) = Some Panic \/
  rice_read_exact Checked t nblock nx L fuel bytes = rice_read_exact Wrapping t nblock nx L fuel bytes.
Proof. exact decode_checked. Qed.
Print Assumptions C39_checked.

(** ... which they do on some inputs (see [C38_checked_refuted] for a valid one). *)
Theorem C39_checked_refuted : exists bytes, bytes_ok bytes /\
  forall fuel, (5 <= fuel)%nat -> fst (fst (rice_read_exact Checked RI32 2 2 8 fuel bytes)) = Some Panic.
Proof.
  exists [127; 255; 255; 255; 9; 16]. split; [repeat (apply Forall_cons; [red; lia|]); apply Forall_nil|].
  intros fuel H. do 5 (destruct fuel as [|fuel]; [lia|]). vm_compute. reflexivity.
Qed.
Print Assumptions C39_checked_refuted.

(** The tile reader passes the number of pixels of a tile as an i32.  For tiles of 2^31 pixels or
    more the decoder loops for ever, in every build. *)
Theorem C39_huge_tile_refuted : forall m n fuel, 2 ^ 31 <= n < 2 ^ 32 ->
  fst (fst (rice_read_exact m RI32 32 (as_i32 n) (4 * n) fuel (repeat 0 10))) = None.
Proof. exact huge_stuck. Qed.
Print Assumptions C39_huge_tile_refuted.

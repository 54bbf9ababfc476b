(** Tiles: the pixel iterator as a walk over the rows. *)

From Coq Require Import String.
From Verif Require Import Base TextLemmas Text Card Reader Header Xtension Bytes Fits ImageIt BinTable Rice Float Tile.
From Verif Require Import SpecCard SpecXt SpecFits SpecImage SpecBin SpecRice SpecTile.
From Verif Require Import BytesProofs ImageProofs XtProofs2 BinProofs BinProofs2 BinProofs3 TileProofs TileProofs2.

(** ** Tile sizes *)

Lemma product_pos l : Forall (fun x => 0 <= x) l -> 1 <= product l -> Forall (fun x => 1 <= x) l.
Proof.
  induction 1 as [|x l Hx F IH]; intro H; [constructor|]. cbn [product] in H.
  assert (0 <= product l) by (clear - F; induction F; cbn [product]; nia).
  constructor; [nia|]. apply IH. nia.
Qed.
Lemma usize_product_ok m l : Forall (fun x => 1 <= x) l -> forall acc, 1 <= acc -> acc * product l < 2 ^ 64 ->
  usize_product m acc l = Ok (acc * product l).
Proof.
  induction 1 as [|x l Hx F IH]; intros acc Ha H; cbn [usize_product product] in *; [f_equal; lia|].
  assert (1 <= product l) by (clear - F; induction F; cbn [product]; nia).
  rewrite u64_result_small by nia. cbn [bind]. rewrite IH by nia. f_equal. lia.
Qed.

(** ** Pixels of a tile *)

Definition one_pixel (k : keywords) (v : Z) : option (pixel * keywords) :=
  match k with
  | KFloat f => match unquantize f v with Ok (x, f') => Some (PFloat x, KFloat f') | _ => None end
  | _ => Some (PInt (kept k v), k)
  end.
Fixpoint tile_pixels (k : keywords) (ints : list Z) : option (list pixel * keywords) :=
  match ints with
  | [] => Some ([], k)
  | v :: r => match one_pixel k v with
              | Some (p, k1) => match tile_pixels k1 r with Some (l, k2) => Some (p :: l, k2) | None => None end
              | None => None
              end
  end.

Lemma one_pixel_supported k v p k' cmp : one_pixel k v = Some (p, k') -> supported k cmp -> supported k' cmp.
Proof.
  destruct k as [| | |f]; cbn [one_pixel]; try (intro H; inversion H; auto; fail).
  destruct (unquantize f v) as [[x f']| |]; try discriminate. intro H. inversion H. intros _ [E _]. discriminate.
Qed.
Lemma tile_pixels_length : forall ints k l k', tile_pixels k ints = Some (l, k') -> length l = length ints.
Proof.
  induction ints as [|v r IH]; intros k l k' H; cbn [tile_pixels] in H; [inversion H; reflexivity|].
  destruct (one_pixel k v) as [[p k1]|]; [|discriminate]. destruct (tile_pixels k1 r) as [[l1 k2]|] eqn:E; [|discriminate].
  inversion H. cbn [length]. rewrite (IH _ _ _ E). reflexivity.
Qed.

Definition known (cmp : zcmp) : Prop := match cmp with ZGzip1 | ZGzip2 | ZRice _ _ => True | _ => False end.

Section Tiles.
Variables (gz : gunzip) (m : mode) (fuel : nat) (d : list Z) (t : bintable) (o : Z) (z : zimage).
Hypothesis Pr : table_present d t o.
Hypothesis Re : columns_readable d (len d) t o false (all_columns t).
Hypothesis Ne : bt_tforms t <> [].
Let N := product (z_tilen z).
Let n1 := bt_naxis1 t.
Let n2 := bt_naxis2 t.
Notation all := (all_columns t).
Notation inv := (inv d t o false (all_columns t)).
Notation row_of := (row_of d t o false (all_columns t)).
Notation row_slots := (row_slots d t o false (all_columns t)).
Hypothesis HN : 1 <= N < 2 ^ 60.
Hypothesis Ht : Forall (fun x => 0 <= x) (z_tilen z).
Hypothesis Co : counted t (z_data_idx z).
Hypothesis Fu : (2 * Z.to_nat N + 1 + length (row_slots 0) <= fuel)%nat.

(** The bytes unpack to these integers. *)
Definition decodes (bytes is : list Z) : Prop :=
  known (z_cmp z) /\ Forall (fun v => - 2 ^ 31 <= v < 2 ^ 31) is /\
  forall buf r, rd_rest r = bytes -> len buf = 4 * N ->
    exists r', decompress gz m fuel (z_cmp z) N buf r = (Some (Ok tt), layout (z_cmp z) is, r') /\ rd_data r' = rd_data r.
Lemma holds_decodes bytes is : octets bytes -> len is = N -> holds_tile gz m (z_cmp z) bytes is -> decodes bytes is.
Proof.
  intros Ob Hl Hh. split; [|split; [apply Hh|]].
  - destruct Hh as [_ H]. destruct (z_cmp z); try contradiction; exact Logic.I.
  - intros buf r Er Hb. rewrite <- Hl. apply decompress_ok; try rewrite Er; auto; try lia. unfold len in Hl. lia.
Qed.
Lemma tile_octets c row bytes : tile_at d t o c row bytes -> octets bytes.
Proof.
  intros (f & p & _ & _ & Eb & _). destruct Pr as (Oc & _). rewrite Eb. unfold octets in *. rewrite Forall_forall in *.
  intros y Hy. apply Oc. rewrite <- (firstn_skipn (Z.to_nat (o + bt_theap t + p)) d). apply in_or_app. auto.
Qed.

(** The integers of the tiles of the first [lim] rows, and the pixels they become. *)
Variable lim : Z.
Hypothesis Hlim : 0 <= lim <= n2.
Variables (ints : Z -> list Z) (pixels : Z -> list pixel).
Hypothesis Ti : forall row, 0 <= row < lim -> len (ints row) = N /\
  exists bytes, tile_at d t o (z_data_idx z) row bytes /\ decodes bytes (ints row).
(** Between tiles the keywords are like this. *)
Variable K : keywords -> Prop.
Hypothesis HK : forall k row cells, K k -> 0 <= row < lim -> Forall2 (slot_value d) (row_slots row) cells ->
  exists k1 k2, keys_row m k cells (row + 1) = Ok k1 /\ tile_pixels k1 (ints row) = Some (pixels row, k2) /\ K k2.
Hypothesis KS : forall k, K k -> supported k (z_cmp z).

Definition st (x : row_it) (buf : list Z) (n rem : Z) (k : keywords) : tiles :=
  mk_tiles x buf n rem k (z_tilen z) (z_cmp z) (z_data_idx z).

Definition rows_to (row : Z) : list Z := map (Z.add row) (upto (lim - row)).
Lemma rows_to_step i : i < lim -> rows_to i = i :: rows_to (i + 1).
Proof.
  intro H. unfold rows_to, upto. replace (Z.to_nat (lim - i)) with (S (Z.to_nat (lim - (i + 1)))) by lia.
  cbn [seq map]. change (Z.of_nat 0) with 0. rewrite Z.add_0_r. f_equal. rewrite <- seq_shift, !map_map. apply map_ext.
  intro k. lia.
Qed.
Lemma rows_to_end i : lim <= i -> rows_to i = [].
Proof. intro H. unfold rows_to, upto. replace (Z.to_nat (lim - i)) with O by lia. reflexivity. Qed.

Definition later (row : Z) : list pixel := flat_map pixels (rows_to row).

Definition tinv (s : tiles) (row : Z) (pend : list pixel) : Prop :=
  exists x buf n rem k, s = st (mk_row_it x row) buf n rem k /\ inv x row (row_of row) /\ row <= lim /\ len buf = 4 * N /\ 0 <= rem < N /\
    ((rem = 0 /\ K k /\ pend = later row) \/
     (0 < rem /\ n = N /\ supported k (z_cmp z) /\ known (z_cmp z) /\ exists l is k2,
        buf = layout (z_cmp z) is /\ len is = N /\ Forall (fun v => - 2 ^ 31 <= v < 2 ^ 31) is /\
        tile_pixels k (skipn (Z.to_nat (N - rem)) is) = Some (l, k2) /\ K k2 /\ pend = l ++ later row)).

(** A pixel of the tile at hand. *)
Lemma pixel_step x is rem k p k' v :
  supported k (z_cmp z) -> known (z_cmp z) -> len is = N -> 0 < rem <= N ->
  nth_error is (Z.to_nat (N - rem)) = Some v -> - 2 ^ 31 <= v < 2 ^ 31 -> one_pixel k v = Some (p, k') ->
  tile_pixel m (st x (layout (z_cmp z) is) N rem k) = (Ok (Some p), st x (layout (z_cmp z) is) N (rem - 1) k').
Proof.
  intros Su Kn Hl Hr E Hv Ho. unfold tile_pixel, st. cbn [tl_n tl_rem tl_keys tl_cmp tl_buf].
  rewrite u64_result_small by lia. cbn [bind]. rewrite (int_value_ok k (z_cmp z) is (N - rem) v Su Kn) by (auto; lia). cbn [bind].
  rewrite (u64_result_small m (rem - 1)) by lia.
  destruct k as [| | |f]; cbn [one_pixel] in Ho; try (inversion Ho; subst; reflexivity).
  destruct (unquantize f v) as [[y f']| |] eqn:U; try discriminate. inversion Ho; subst.
  cbn [kept]. rewrite U. reflexivity.
Qed.

Lemma skipn_step {A} (l : list A) k v : nth_error l k = Some v -> skipn k l = v :: skipn (S k) l.
Proof. revert l. induction k as [|k IH]; intros [|x l] H; cbn in *; try discriminate; [inversion H; reflexivity|]. apply IH, H. Qed.

Lemma step_rest x is rem k l k2 row :
  inv x row (row_of row) -> row <= lim -> supported k (z_cmp z) -> known (z_cmp z) -> len is = N ->
  Forall (fun v => - 2 ^ 31 <= v < 2 ^ 31) is -> 0 < rem <= N ->
  tile_pixels k (skipn (Z.to_nat (N - rem)) is) = Some (l, k2) -> K k2 ->
  exists p l' s', l = p :: l' /\
    tile_pixel m (st (mk_row_it x row) (layout (z_cmp z) is) N rem k) = (Ok (Some p), s') /\ tinv s' row (l' ++ later row).
Proof.
  intros I Rl Su Kn Hl Hv Hr E Hk.
  destruct (nth_error is (Z.to_nat (N - rem))) as [v|] eqn:Ev; [|apply nth_error_None in Ev; unfold len in Hl; lia].
  rewrite (skipn_step _ _ _ Ev) in E. cbn [tile_pixels] in E.
  destruct (one_pixel k v) as [[p k1]|] eqn:Ep; [|discriminate].
  destruct (tile_pixels k1 (skipn (S (Z.to_nat (N - rem))) is)) as [[l' k3]|] eqn:Er; [|discriminate]. inversion E; subst l k3.
  exists p, l', (st (mk_row_it x row) (layout (z_cmp z) is) N (rem - 1) k1). split; [reflexivity|]. split.
  - apply pixel_step with (v := v); auto. rewrite Forall_forall in Hv. apply Hv. eapply nth_error_In; eauto.
  - exists x, (layout (z_cmp z) is), N, (rem - 1), k1. split; [reflexivity|]. split; [exact I|]. split; [exact Rl|]. split; [rewrite layout_len; lia|].
    split; [lia|]. destruct (Z.eq_dec rem 1) as [->|Nr].
    + left. split; [lia|]. replace (S (Z.to_nat (N - 1))) with (length is) in Er by (unfold len in Hl; lia).
      rewrite skipn_all in Er. inversion Er; subst. auto.
    + right. split; [lia|]. split; [reflexivity|]. split; [eapply one_pixel_supported; eauto|]. split; auto.
      exists l', is, k2. split; [reflexivity|]. split; auto. split; auto. split; auto.
      replace (Z.to_nat (N - (rem - 1))) with (S (Z.to_nat (N - rem))) by lia. exact Er.
Qed.

Lemma keys_supported k cells i k1 : keys_row m k cells i = Ok k1 -> supported k (z_cmp z) -> supported k1 (z_cmp z).
Proof.
  destruct k as [| | |f]; cbn [keys_row]; try (intro H; inversion H; auto; fail).
  destruct (fkeys_row m f cells i); cbn [bind]; intro H; inversion H. intros _ [E _]. discriminate.
Qed.

Lemma set_reader_same s : set_reader s (tb_reader s) = s.
Proof. destruct s. reflexivity. Qed.

Lemma load_ok x buf n k row bytes is off :
  inv x (row + 1) (row_of (row + 1)) -> len buf = 4 * N -> n = N -> len is = N ->
  o + n1 * (row + 1) + off < 2 ^ 63 -> 0 <= o + n1 * (row + 1) + off ->
  bytes = skipn (Z.to_nat (o + n1 * (row + 1) + off)) d -> decodes bytes is ->
  load_tile gz m fuel (st (mk_row_it x (row + 1)) buf n n k) off
  = (Some (Ok tt), st (mk_row_it x (row + 1)) (layout (z_cmp z) is) n n k).
Proof.
  intros I Hb -> Hl B1 B2 Eb Hh. unfold load_tile.
  assert (R : tl_reader (st (mk_row_it x (row + 1)) buf N N k) = mk_reader d (o + n1 * (row + 1)))
    by (unfold tl_reader; cbn [st tl_rows ri_data]; apply (row_start d t o Pr Re); auto).
  rewrite R. rewrite seek_relative_ok by (cbn [rd_pos]; lia). cbn [rd_data rd_pos].
  destruct Pr as (Oc & _).
  assert (Rs : rd_rest (mk_reader d (o + n1 * (row + 1) + off)) = bytes) by (rewrite Eb; reflexivity).
  destruct Hh as (_ & _ & Hd). destruct (Hd buf _ Rs Hb) as (r' & E & Ed).
  cbn [st tl_cmp tl_n tl_buf]. rewrite E. unfold tl_set_reader, tl_set_buf, tl_set_rows, seek_start. cbn [tl_rows ri_data ri_row st].
    rewrite Ed. cbn [rd_data].
    replace (mk_reader d (o + n1 * (row + 1))) with (tb_reader x) by (apply (row_start d t o Pr Re); auto).
    rewrite set_reader_same. reflexivity.
Qed.

(** The next row. *)
Lemma next_tile_loads x row buf n k bytes :
  inv x row (row_of row) -> row < n2 -> len buf = 4 * N -> tile_at d t o (z_data_idx z) row bytes ->
  exists cells x' off, Forall2 (slot_value d) (row_slots row) cells /\ inv x' (row + 1) (row_of (row + 1)) /\
    0 <= o + n1 * (row + 1) + off < 2 ^ 63 /\ bytes = skipn (Z.to_nat (o + n1 * (row + 1) + off)) d /\
    forall k1, keys_row m k cells (row + 1) = Ok k1 ->
      next_tile gz m fuel (st (mk_row_it x row) buf n 0 k)
      = match load_tile gz m fuel (st (mk_row_it x' (row + 1)) buf N N k1) off with
        | (Some (Ok _), s2) => (Some (Ok true), s2)
        | (Some (Err _), s2) => (Some (Ok false), s2)
        | (Some Panic, s2) => (Some Panic, s2)
        | (None, s2) => (None, s2)
        end.
Proof.
  intros I Hr Hb Ha. destruct (inv_row d (len d) t o false all Pr Re x row _ I) as (R1 & R2 & R3).
  assert (Nn : row_of row <> []) by (intro X; specialize (R3 X); fold n2 in R3; lia).
  assert (Rw : row_of row = row_slots row) by (unfold BinProofs2.row_of; fold n2; destruct (row <? n2) eqn:X; [reflexivity|lia]).
  destruct (walk_row m d (len d) t o false all ltac:(lia) Pr Re (upto_sorted _) (columns_ne t Ne) fuel x row _ [] I Nn)
    as (cells & x' & E & F & I').
  { rewrite Rw, (row_length d t o row). lia. }
  rewrite Rw in F.
  destruct (offset_value d t o Pr Re row (z_data_idx z) cells bytes Co ltac:(lia) F Ha) as (p & Ep & Eb & P0 & P1).
  pose proof (size_small d t o Pr) as (S1 & S2 & S3 & S4 & S5 & S6 & S7). fold n1 in S1, S4, S5, S6, S7. fold n2 in S3, S4, S5, S6.
  assert (Th : 0 <= bt_theap t) by (destruct Pr as (_ & _ & _ & _ & T & _); exact T).
  assert (Mn : 0 <= (row + 1) * n1 <= n1 * n2) by nia.
  exists cells, x', (- ((row + 1) * n1) + bt_theap t + p). split; [exact F|]. split; [exact I'|]. split; [lia|].
  split; [rewrite Eb; f_equal; lia|]. intros k1 Hk1.
  unfold next_tile, row_next, st. cbn [tl_rows ri_data ri_row tl_idx tl_tile tl_keys tl_set_rows].
  rewrite E. cbn [rev app tl_rows ri_data ri_row]. rewrite Ep. cbn [bind].
  rewrite (usize_product_ok m (z_tilen z)) by (try apply product_pos; auto; unfold N in *; lia). rewrite Z.mul_1_l. cbn [bind].
  rewrite Hk1. cbn [bind]. fold N.
  rewrite (inv_ctx d t o false all x' _ _ I').
  assert (J : tile_jump m t (row + 1) p = Ok (- ((row + 1) * n1) + bt_theap t + p)).
  { unfold tile_jump. fold n1. rewrite u64_result_small by lia. cbn [bind]. rewrite !as_i64_small by lia.
    rewrite (i64_result_small m (- ((row + 1) * n1))) by lia. cbn [bind].
    rewrite (i64_result_small m (- ((row + 1) * n1) + bt_theap t)) by lia. cbn [bind].
    apply i64_result_small. lia. }
  rewrite J. reflexivity.
Qed.

(** The next tile. *)
Lemma next_tile_ok x row buf n k :
  inv x row (row_of row) -> row < lim -> len buf = 4 * N -> K k ->
  exists x' k1 k2, next_tile gz m fuel (st (mk_row_it x row) buf n 0 k)
    = (Some (Ok true), st (mk_row_it x' (row + 1)) (layout (z_cmp z) (ints row)) N N k1) /\
    inv x' (row + 1) (row_of (row + 1)) /\ tile_pixels k1 (ints row) = Some (pixels row, k2) /\ K k2 /\
    supported k1 (z_cmp z) /\ known (z_cmp z) /\ Forall (fun v => - 2 ^ 31 <= v < 2 ^ 31) (ints row).
Proof.
  intros I Hr Hb Hk. destruct (inv_row d (len d) t o false all Pr Re x row _ I) as (R1 & R2 & R3).
  destruct (Ti row ltac:(lia)) as (Hl & bytes & Ha & Hh).
  destruct (next_tile_loads x row buf n k bytes I ltac:(lia) Hb Ha) as (cells & x' & off & F & I' & B & Eb & E).
  destruct (HK k row cells Hk ltac:(lia) F) as (k1 & k2 & Hk1 & Hpx & Hk2).
  exists x', k1, k2. split; [|split; [exact I'|split; [exact Hpx|split; [exact Hk2|split; [eapply keys_supported; eauto|
    split; [apply Hh|apply Hh]]]]]].
  rewrite (E k1 Hk1), (load_ok x' buf N k1 row bytes (ints row)); auto; lia.
Qed.

(** At the end of the table. *)
Lemma tile_step_end s row : lim = n2 -> tinv s row [] -> exists s', tiles_do gz m fuel s = (PixEnd, s') /\ tinv s' row [].
Proof.
  intros El (x & buf & n & rem & k & -> & I & Rl & Hb & Hr & C).
  destruct (inv_row d (len d) t o false all Pr Re x row _ I) as (R1 & R2 & R3). fold n2 in R2, R3.
  unfold tiles_do, tiles_next. cbn [st tl_rem]. fold (st (mk_row_it x row) buf n rem k).
  destruct C as [(-> & Hk & Ep)|(R0 & -> & Su & Kn & l & is & k2 & -> & Hl & Hv & E & Hk & Ep)].
  - change (0 =? 0) with true. cbv iota. destruct (Z.eq_dec row lim) as [Er|Nr].
    + assert (Ro : row_of row = []) by (unfold BinProofs2.row_of; fold n2; replace (row <? n2) with false by lia; reflexivity).
      assert (I0 := I). rewrite Ro in I0.
      exists (st (mk_row_it x row) buf n 0 k). split.
      * unfold next_tile, row_next. cbn [st tl_rows ri_data ri_row].
        assert (X : row_loop m fuel x row [] = (Some (Ok None), x)).
        { destruct fuel as [|fu]; [lia|]. cbn [row_loop]. rewrite R1, Z.eqb_refl.
          pose proof (walk_step m d (len d) t o false all ltac:(lia) Pr Re (upto_sorted _) (columns_ne t Ne) x row [] I0) as W.
          cbv iota in W. rewrite W. reflexivity. }
        rewrite X. reflexivity.
      * exists x, buf, n, 0, k. split; [reflexivity|]. split; [exact I|]. split; [exact Rl|]. split; [exact Hb|]. split; [lia|].
        left. auto.
    + exfalso. unfold later in Ep. rewrite (rows_to_step row) in Ep by lia. cbn [flat_map] in Ep.
      destruct (next_tile_ok x row buf n k I ltac:(lia) Hb Hk) as (x' & k1 & k2 & En & I' & Hp & Hk2 & Su & Kn & Hv).
      apply tile_pixels_length in Hp. destruct (Ti row ltac:(lia)) as (Hl & _).
      destruct (pixels row); [|discriminate]. unfold len in Hl. cbn [length] in Hp. lia.
  - exfalso. apply tile_pixels_length in E. rewrite skipn_length in E. destruct l; [|discriminate]. unfold len in Hl. cbn [length] in E. lia.
Qed.

Lemma tile_step_more s row p pend : tinv s row (p :: pend) ->
  exists s' row', tiles_do gz m fuel s = (PixelOf p, s') /\ tinv s' row' pend.
Proof.
  intros (x & buf & n & rem & k & -> & I & Rl & Hb & Hr & C).
  destruct (inv_row d (len d) t o false all Pr Re x row _ I) as (R1 & R2 & R3). fold n2 in R2, R3.
  unfold tiles_do, tiles_next. cbn [st tl_rem]. fold (st (mk_row_it x row) buf n rem k).
  destruct C as [(-> & Hk & Ep)|(R0 & -> & Su & Kn & l & is & k2 & -> & Hl & Hv & E & Hk & Ep)].
  - change (0 =? 0) with true. cbv iota. destruct (Z.eq_dec row lim) as [Er|Nr].
    + unfold later in Ep. rewrite rows_to_end in Ep by lia. discriminate.
    + destruct (next_tile_ok x row buf n k I ltac:(lia) Hb Hk) as (x' & k1 & k2 & En & I' & Hp & Hk2 & Su & Kn & Hv).
      rewrite En. destruct (Ti row ltac:(lia)) as (Hl & _).
      destruct (step_rest x' (ints row) N k1 (pixels row) k2 (row + 1)) as (p' & l' & s' & Ep' & Et & Inv'); auto; try lia.
      { rewrite Z.sub_diag. exact Hp. }
      unfold later in Ep. rewrite (rows_to_step row) in Ep by lia. cbn [flat_map] in Ep. rewrite Ep' in Ep. cbn [app] in Ep.
      inversion Ep; subst p'. exists s', (row + 1). rewrite Et. split; [reflexivity|exact Inv'].
  - replace (rem =? 0) with false by lia.
    destruct (step_rest x is rem k l k2 row) as (p' & l' & s' & Ep' & Et & Inv'); auto; try lia.
    rewrite Ep' in Ep. cbn [app] in Ep. inversion Ep; subst p'. exists s', row. rewrite Et. split; [reflexivity|exact Inv'].
Qed.

(** A tile that cannot be unpacked. *)
Lemma tile_step_broken s row bytes e : lim < n2 -> tinv s row [] -> tile_at d t o (z_data_idx z) lim bytes ->
  (forall k cells, K k -> Forall2 (slot_value d) (row_slots lim) cells -> exists k1, keys_row m k cells (lim + 1) = Ok k1) ->
  (forall buf r, rd_rest r = bytes -> len buf = 4 * N -> fst (fst (decompress gz m fuel (z_cmp z) N buf r)) = Some (Err e)) ->
  exists s', tiles_do gz m fuel s = (PixEnd, s').
Proof.
  intros El (x & buf & n & rem & k & -> & I & Rl & Hb & Hr & C) Ha Hk' Hd.
  unfold tiles_do, tiles_next. cbn [st tl_rem]. fold (st (mk_row_it x row) buf n rem k).
  destruct C as [(-> & Hk & Ep)|(R0 & -> & Su & Kn & l & is & k2 & -> & Hl & Hv & E & Hk & Ep)].
  - change (0 =? 0) with true. cbv iota. destruct (Z.eq_dec row lim) as [Er|Nr].
    + subst row. destruct (next_tile_loads x lim buf n k bytes I ltac:(lia) Hb Ha) as (cells & x' & off & F & I' & B & Eb & E).
      destruct (Hk' k cells Hk F) as (k1 & Hk1). rewrite (E k1 Hk1).
      unfold load_tile. assert (R : tl_reader (st (mk_row_it x' (lim + 1)) buf N N k1) = mk_reader d (o + n1 * (lim + 1)))
        by (unfold tl_reader; cbn [st tl_rows ri_data]; apply (row_start d t o Pr Re); auto).
      rewrite R. rewrite seek_relative_ok by (cbn [rd_pos]; lia). cbn [rd_data rd_pos st tl_cmp tl_n tl_buf].
      assert (Rs : rd_rest (mk_reader d (o + n1 * (lim + 1) + off)) = bytes) by (rewrite Eb; reflexivity).
      specialize (Hd buf _ Rs Hb). destruct (decompress gz m fuel (z_cmp z) N buf (mk_reader d (o + n1 * (lim + 1) + off))) as [[oo b] r'].
      cbn [fst] in Hd. subst oo. eexists. reflexivity.
    + exfalso. destruct (inv_row d (len d) t o false all Pr Re x row _ I) as (R1 & R2 & R3).
      unfold later in Ep. rewrite (rows_to_step row) in Ep by lia. cbn [flat_map] in Ep.
      destruct (next_tile_ok x row buf n k I ltac:(lia) Hb Hk) as (x' & k1 & k2 & En & I' & Hp & Hk2 & Su & Kn & Hv).
      apply tile_pixels_length in Hp. destruct (Ti row ltac:(lia)) as (Hl & _).
      destruct (pixels row); [|discriminate]. unfold len in Hl. cbn [length] in Hp. lia.
  - exfalso. apply tile_pixels_length in E. rewrite skipn_length in E. destruct l; [|discriminate]. unfold len in Hl. cbn [length] in E. lia.
Qed.

(** Many steps. *)
Lemma tile_run_prefix : forall n s row pend, tinv s row pend -> (n <= length pend)%nat ->
  exists s' row', tiles_run gz m fuel s n = (map PixelOf (firstn n pend), s') /\ tinv s' row' (skipn n pend).
Proof.
  induction n as [|n IH]; intros s row pend I L; [exists s, row; auto|]. cbn [tiles_run].
  destruct pend as [|p pend]; [cbn [length] in L; lia|]. cbn [length] in L.
  destruct (tile_step_more s row p pend I) as (s1 & row1 & -> & I1).
  destruct (IH s1 row1 pend I1 ltac:(lia)) as (s' & row' & E & I'). exists s', row'. rewrite E. auto.
Qed.
Lemma tile_run : lim = n2 -> forall n s row pend, tinv s row pend ->
  exists s' row', tiles_run gz m fuel s n = (firstn n (map PixelOf pend ++ repeat PixEnd n), s') /\ tinv s' row' (skipn n pend).
Proof.
  intro El. induction n as [|n IH]; intros s row pend I; [exists s, row; auto|].
  cbn [tiles_run]. destruct pend as [|p pend].
  - destruct (tile_step_end s row El I) as (s1 & -> & I1). destruct (IH s1 row [] I1) as (s' & row' & E & I'). exists s', row'. rewrite E.
    rewrite skipn_nil in I'. split; [reflexivity|]. exact I'.
  - destruct (tile_step_more s row p pend I) as (s1 & row1 & -> & I1). destruct (IH s1 row1 pend I1) as (s' & row' & E & I'). exists s', row'. rewrite E.
    split; [|exact I']. cbn [map app firstn]. rewrite (firstn_more t). reflexivity.
Qed.

Hypothesis Px : forall row, 0 <= row < lim -> len (pixels row) = N.

Lemma later_len row : 0 <= row <= lim -> len (later row) = N * (lim - row).
Proof.
  intro H. replace row with (lim - (lim - row)) by lia. assert (R : 0 <= lim - row <= lim) by lia. revert R. generalize (lim - row) as k. clear H row.
  intros k Hk. assert (X : exists j, k = Z.of_nat j) by (exists (Z.to_nat k); lia). destruct X as (j & ->).
  replace (lim - (lim - Z.of_nat j)) with (Z.of_nat j) by lia.
  induction j as [|j IH].
  - unfold later. rewrite rows_to_end by lia. cbn [flat_map]. change (len (@nil pixel)) with 0. lia.
  - unfold later. rewrite rows_to_step by lia. cbn [flat_map]. unfold len. rewrite app_length, Nat2Z.inj_add.
    change (len (pixels (lim - Z.of_nat (S j))) + len (later (lim - Z.of_nat (S j) + 1)) = N * Z.of_nat (S j)).
    rewrite Px by lia. replace (lim - Z.of_nat (S j) + 1) with (lim - Z.of_nat j) by lia. rewrite IH by lia. lia.
Qed.

Lemma tinv_place s row pend : tinv s row pend ->
  tl_reader s = mk_reader d (o + n1 * row) /\ row = lim - len pend / N.
Proof.
  intros (x & buf & n & rem & k & -> & I & Rl & Hb & Hr & C).
  destruct (inv_row d (len d) t o false all Pr Re x row _ I) as (R1 & R2 & R3). fold n2 in R2, R3.
  split; [unfold tl_reader; cbn [st tl_rows ri_data]; apply (row_start d t o Pr Re); auto|].
  assert (L : len pend = rem + (lim - row) * N).
  { destruct C as [(-> & Hk & ->)|(R0 & -> & Su & Kn & l & is & k2 & -> & Hl & Hv & E & Hk & ->)].
    - rewrite later_len by lia. lia.
    - unfold len. rewrite app_length, Nat2Z.inj_add. fold (len (later row)). rewrite later_len by lia.
      rewrite (tile_pixels_length _ _ _ _ E), skipn_length. unfold len in Hl. lia. }
  rewrite L, Z.div_add by lia. rewrite (Z.div_small rem N) by lia. lia.
Qed.

Lemma later_all : later 0 = flat_map pixels (upto lim).
Proof.
  unfold later, rows_to. rewrite Z.sub_0_r. f_equal. rewrite <- (map_id (upto lim)) at 2. apply map_ext. intro. lia.
Qed.

Definition fresh_tiles (x : table) (k : keywords) : tiles := st (row_iter x) (repeat 0 (Z.to_nat (4 * N))) 0 0 k.
Lemma tinv_start x k : inv x 0 (row_of 0) -> K k -> tinv (fresh_tiles x k) 0 (later 0).
Proof.
  intros I Hk. exists x, (repeat 0 (Z.to_nat (4 * N))), 0, 0, k. split; [reflexivity|]. split; [exact I|]. split; [lia|].
  split; [unfold len; rewrite repeat_length; lia|]. split; [lia|]. left. auto.
Qed.

(** As far as the tiles are known. *)
Theorem tiles_prefix x k n : inv x 0 (row_of 0) -> K k -> Z.of_nat n <= N * lim ->
  exists s' row', tiles_run gz m fuel (fresh_tiles x k) n = (map PixelOf (firstn n (flat_map pixels (upto lim))), s') /\
    tinv s' row' (skipn n (flat_map pixels (upto lim))).
Proof.
  intros I Hk Hn. rewrite <- later_all. apply tile_run_prefix with (row := 0); [apply tinv_start; auto|].
  pose proof (later_len 0 ltac:(lia)) as L. unfold len in L. lia.
Qed.

Theorem tiles_from_start x k n : lim = n2 -> inv x 0 (row_of 0) -> K k ->
  let r := tiles_run gz m fuel (st (row_iter x) (repeat 0 (Z.to_nat (4 * N))) 0 0 k) n in
  fst r = firstn n (map PixelOf (flat_map pixels (upto n2)) ++ repeat PixEnd n) /\
  tl_reader (snd r) = mk_reader d (o + n1 * Z.min n2 ((Z.of_nat n + N - 1) / N)).
Proof.
  intros El I Hk. pose proof (size_small d t o Pr) as (S1 & S2 & S3 & S4 & S5 & S6 & S7). fold n2 in S3, S4.
  pose proof (tinv_start x k I Hk) as T. unfold fresh_tiles in T.
  destruct (tile_run El n _ _ _ T) as (s' & row' & E & I'). cbv zeta. rewrite E. cbn [fst snd]. split.
  - rewrite later_all, El. reflexivity.
  - destruct (tinv_place _ _ _ I') as (-> & Er). f_equal. f_equal. f_equal.
    pose proof (later_len 0 ltac:(lia)) as L. rewrite Z.sub_0_r in L. unfold len in Er. rewrite skipn_length in Er.
    unfold len in L. rewrite Nat2Z.inj_sub_max, L, El in Er. rewrite Er. clear - HN S3.
    destruct (Z.le_ge_cases (N * n2) (Z.of_nat n)) as [H|H].
    + rewrite Z.max_l by lia. rewrite Z.div_0_l by lia. rewrite Z.min_l; [lia|]. apply Z.div_le_lower_bound; lia.
    + rewrite Z.max_r by lia. set (a := Z.of_nat n) in *. assert (0 <= a) by lia.
      assert (E : (a + N - 1) / N = n2 - (N * n2 - a) / N).
      { symmetry. pose proof (Z.div_mod (N * n2 - a) N ltac:(lia)) as D. pose proof (Z.mod_pos_bound (N * n2 - a) N ltac:(lia)) as B.
        apply Z.div_unique with (r := N - 1 - (N * n2 - a) mod N); lia. }
      rewrite E. pose proof (Z.div_pos (N * n2 - a) N ltac:(lia) ltac:(lia)). lia.
Qed.
End Tiles.

(** Tiles: decompressed buffers and the pixels in them. *)

From Coq Require Import String.
From Verif Require Import Base TextLemmas Text Card Reader Header Xtension Bytes Fits ImageIt BinTable Rice Float Tile.
From Verif Require Import SpecCard SpecXt SpecFits SpecImage SpecBin SpecRice SpecTile.
From Verif Require Import BytesProofs BinProofs RiceProofs RiceProofs3 RiceProofs5.

(** ** Bytes of integers *)

Lemma byte_of_range v k : 0 <= byte_of v k < 256.
Proof. apply Z.mod_pos_bound. lia. Qed.

Lemma bytes_of_int v : be_unsigned (be4 v) = v mod 2 ^ 32.
Proof.
  unfold be4, be_unsigned, byte_of. cbn [map fold_left].
  change (256 ^ 3) with 16777216. change (256 ^ 2) with 65536. change (256 ^ 1) with 256. change (256 ^ 0) with 1.
  change (2 ^ 32) with 4294967296. Z.to_euclidean_division_equations; lia.
Qed.

Lemma signed_int v : - 2 ^ 31 <= v < 2 ^ 31 -> to_signed 4 (v mod 2 ^ 32) = v.
Proof. intro H. apply (to_signed_of 4); [lia|exact H]. Qed.

Lemma short_of_bytes v : to_signed 2 (Z.lor (byte_of v 0) (Z.shiftl (byte_of v 1) 8)) = low_signed 16 v.
Proof.
  assert (E : Z.lor (byte_of v 0) (Z.shiftl (byte_of v 1) 8) = v mod 65536).
  { pose proof (byte_of_range v 0) as B0. pose proof (byte_of_range v 1) as B1.
    rewrite Z.shiftl_mul_pow2 by lia. rewrite Z.lor_comm.
    rewrite lor_add by lia. change (2 ^ 8) with 256.
    unfold byte_of. change (256 ^ 1) with 256. change (256 ^ 0) with 1. Z.to_euclidean_division_equations; lia. }
  rewrite E. unfold to_signed, low_signed. change (2 ^ (8 * 2 - 1)) with 32768. change (2 ^ (8 * 2)) with 65536.
  change (2 ^ (16 - 1)) with 32768. change (2 ^ 16) with 65536.
  destruct (Z.ltb_spec (v mod 65536) 32768); Z.to_euclidean_division_equations; lia.
Qed.

(** ** The buffer of a tile *)

Definition layout (cmp : zcmp) (ints : list Z) : list Z :=
  match cmp with
  | ZGzip2 => planes ints
  | ZRice _ _ => flat_map (pixel_bytes RI32) ints
  | _ => flat_map be4 ints
  end.

Lemma flat4_length (g : Z -> list Z) l : (forall v, length (g v) = 4%nat) -> length (flat_map g l) = (4 * length l)%nat.
Proof. intro H. induction l as [|x l IH]; [reflexivity|]. cbn [flat_map length]. rewrite app_length, H, IH. lia. Qed.

Lemma layout_len cmp ints : len (layout cmp ints) = 4 * len ints.
Proof.
  unfold len. destruct cmp; cbn [layout]; try (rewrite flat4_length by reflexivity; lia).
  unfold planes. cbn [flat_map]. rewrite !app_length, !map_length. cbn [length]. lia.
Qed.

Lemma flat4_index (g : Z -> list Z) l : (forall v, length (g v) = 4%nat) -> forall i j x, 0 <= i -> 0 <= j < 4 ->
  nth_error l (Z.to_nat i) = Some x -> index (flat_map g l) (4 * i + j) = index (g x) j.
Proof.
  intro H. induction l as [|y l IH]; intros i j x Hi Hj E; [destruct (Z.to_nat i); discriminate|].
  cbn [flat_map]. unfold index. replace (4 * i + j <? 0) with false by lia. replace (j <? 0) with false by lia.
  destruct (Z.eq_dec i 0) as [->|N].
  - cbn in E. inversion E; subst y. rewrite nth_error_app1 by (rewrite H; lia). reflexivity.
  - rewrite nth_error_app2 by (rewrite H; lia). rewrite H.
    replace (Z.to_nat (4 * i + j) - 4)%nat with (Z.to_nat (4 * (i - 1) + j)) by lia.
    replace (Z.to_nat i) with (S (Z.to_nat (i - 1))) in E by lia. cbn [nth_error] in E.
    specialize (IH (i - 1) j x ltac:(lia) Hj E). unfold index in IH.
    replace (4 * (i - 1) + j <? 0) with false in IH by lia. replace (j <? 0) with false in IH by lia. exact IH.
Qed.

Lemma index_app_l {A} (a b : list A) i : 0 <= i < len a -> index (a ++ b) i = index a i.
Proof.
  intro H. unfold index. destruct (Z.ltb_spec i 0); [lia|]. unfold len in H. rewrite nth_error_app1 by lia. reflexivity.
Qed.
Lemma index_app_r {A} (a b : list A) i : 0 <= i -> index (a ++ b) (len a + i) = index b i.
Proof.
  intro H. unfold index. pose proof (len_nonneg a). replace (len a + i <? 0) with false by lia.
  replace (i <? 0) with false by lia. unfold len in *. rewrite nth_error_app2 by lia.
  replace (Z.to_nat (Z.of_nat (length a) + i) - length a)%nat with (Z.to_nat i) by lia. reflexivity.
Qed.
Lemma index_map {A B} (g : A -> B) l i x : 0 <= i -> nth_error l (Z.to_nat i) = Some x -> index (map g l) i = Ok (g x).
Proof. intros H E. unfold index. replace (i <? 0) with false by lia. rewrite (map_nth_error _ _ _ E). reflexivity. Qed.

Lemma planes_index ints i x k : 0 <= i -> nth_error ints (Z.to_nat i) = Some x -> 0 <= k < 4 ->
  index (planes ints) (i + k * len ints) = Ok (byte_of x (3 - k)).
Proof.
  intros Hi E Hk. unfold planes. cbn [flat_map]. rewrite app_nil_r.
  assert (L : i < len ints) by (assert (Z.to_nat i < length ints)%nat by (apply nth_error_Some; congruence); unfold len; lia).
  set (p := fun k => map (fun v => byte_of v k) ints).
  assert (P : forall k, len (p k) = len ints) by (intro; unfold p, len; rewrite map_length; reflexivity).
  assert (Q : forall k, index (p k) i = Ok (byte_of x k)) by (intro; apply (index_map (fun v => byte_of v k0)); auto).
  fold (p 3) (p 2) (p 1) (p 0).
  assert (C : k = 0 \/ k = 1 \/ k = 2 \/ k = 3) by lia. destruct C as [->|[->|[->| ->]]].
  - rewrite Z.mul_0_l, Z.add_0_r, index_app_l by (rewrite P; lia). apply Q.
  - replace (i + 1 * len ints) with (len (p 3) + i) by (rewrite P; lia). rewrite index_app_r by lia.
    rewrite index_app_l by (rewrite P; lia). apply Q.
  - replace (i + 2 * len ints) with (len (p 3) + (len (p 2) + i)) by (rewrite !P; lia).
    rewrite index_app_r by (rewrite P; lia). rewrite index_app_r by lia.
    rewrite index_app_l by (rewrite P; lia). apply Q.
  - replace (i + 3 * len ints) with (len (p 3) + (len (p 2) + (len (p 1) + i))) by (rewrite !P; lia).
    rewrite index_app_r by (rewrite !P; lia). rewrite index_app_r by (rewrite !P; lia). rewrite index_app_r by lia. apply Q.
Qed.

Lemma planes_step ints : len (planes ints) / 4 = len ints.
Proof. pose proof (layout_len ZGzip2 ints) as E. cbn [layout] in E. rewrite E, Z.mul_comm, Z.div_mul; lia. Qed.

(** The integer kept by each pixel type. *)
Definition kept (k : keywords) (v : Z) : Z :=
  match k with KU8 => v mod 256 | KI16 => low_signed 16 v | _ => v end.
Definition supported (k : keywords) (cmp : zcmp) : Prop := ~ (k = KU8 /\ cmp = ZGzip2).

Lemma be4_index v : index (be4 v) 0 = Ok (byte_of v 3) /\ index (be4 v) 1 = Ok (byte_of v 2) /\
  index (be4 v) 2 = Ok (byte_of v 1) /\ index (be4 v) 3 = Ok (byte_of v 0).
Proof. auto. Qed.
Lemma le4_index v : index (pixel_bytes RI32 v) 0 = Ok (byte_of v 0) /\ index (pixel_bytes RI32 v) 1 = Ok (byte_of v 1) /\
  index (pixel_bytes RI32 v) 2 = Ok (byte_of v 2) /\ index (pixel_bytes RI32 v) 3 = Ok (byte_of v 3).
Proof. auto. Qed.

Lemma int_value_ok k cmp ints i x : supported k cmp -> (match cmp with ZGzip1 | ZGzip2 | ZRice _ _ => True | _ => False end) ->
  0 <= i -> nth_error ints (Z.to_nat i) = Some x -> - 2 ^ 31 <= x < 2 ^ 31 ->
  int_value k cmp (layout cmp ints) i = Ok (kept k x).
Proof.
  intros Su Cm Hi E Hx.
  assert (B0 : byte_of x 0 = x mod 256) by (unfold byte_of; rewrite Z.div_1_r; reflexivity).
  pose proof (be4_index x) as (b1 & b2 & b3 & b4). pose proof (le4_index x) as (l1 & l2 & l3 & l4).
  assert (Big : forall j, 0 <= j < 4 -> index (flat_map be4 ints) (4 * i + j) = index (be4 x) j)
    by (intros; apply flat4_index; auto).
  assert (Lit : forall j, 0 <= j < 4 -> index (flat_map (pixel_bytes RI32) ints) (4 * i + j) = index (pixel_bytes RI32 x) j)
    by (intros; apply flat4_index; auto).
  pose proof (Big 0 ltac:(lia)) as Big0. rewrite Z.add_0_r in Big0.
  pose proof (Lit 0 ltac:(lia)) as Lit0. rewrite Z.add_0_r in Lit0.
  pose proof (fun k Hk => planes_index ints i x k Hi E Hk) as Pl.
  assert (Four : to_signed 4 (be_unsigned (be4 x)) = x) by (rewrite bytes_of_int; apply signed_int; exact Hx).
  assert (All : forall cmp', cmp' = cmp -> pixel_bytes_at cmp' (layout cmp' ints) i = Ok (be4 x)).
  { intros cmp' ->. unfold pixel_bytes_at. destruct cmp as [| |bs bp| |]; try contradiction; cbn [layout fold_right].
    - rewrite Big0, !Big by lia. reflexivity.
    - rewrite planes_step. replace i with (i + 0 * len ints) at 1 by lia.
      replace (i + len ints) with (i + 1 * len ints) by lia. rewrite !Pl by lia. reflexivity.
    - rewrite Lit0, !Lit by lia. reflexivity. }
  destruct k as [| | |fk]; cbn [int_value kept].
  - destruct cmp as [| |bs bp| |]; try contradiction; cbn [layout].
    + rewrite Big by lia. rewrite b4, B0. reflexivity.
    + exfalso. apply Su. auto.
    + rewrite Lit0, l1, B0. reflexivity.
  - rewrite <- short_of_bytes. destruct cmp as [| |bs bp| |]; try contradiction; cbn [layout].
    + rewrite !Big by lia. rewrite b3, b4. reflexivity.
    + rewrite planes_step. replace (3 * len ints + i) with (i + 3 * len ints) by lia.
      replace (2 * len ints + i) with (i + 2 * len ints) by lia. rewrite !Pl by lia. reflexivity.
    + rewrite Lit0, !Lit by lia. rewrite l1, l2. reflexivity.
  - rewrite (All cmp eq_refl). cbn [bind]. rewrite Four. reflexivity.
  - rewrite (All cmp eq_refl). cbn [bind]. rewrite Four. reflexivity.
Qed.

(** ** Decompression *)

Lemma overwrite_full buf w : len w = len buf -> overwrite buf w = w.
Proof. intro H. unfold overwrite. unfold len in H. rewrite skipn_all2 by lia. apply app_nil_r. Qed.

Lemma decompress_ok gz m fuel cmp ints buf r :
  holds_tile gz m cmp (rd_rest r) ints -> octets (rd_rest r) -> 1 <= len ints -> len ints < 2 ^ 60 -> len buf = 4 * len ints ->
  (2 * length ints + 1 <= fuel)%nat ->
  exists r', decompress gz m fuel cmp (len ints) buf r = (Some (Ok tt), layout cmp ints, r') /\ rd_data r' = rd_data r.
Proof.
  intros (Hx & H) Ho Hn Hn2 Hb Hf. unfold decompress.
  destruct cmp as [| |bs bp| |]; try contradiction; cbn [layout].
  - replace (len buf =? 0) with false by lia. rewrite Hb. destruct (gz (rd_rest r) (4 * len ints)) as [[b w] used].
    cbn [fst] in H. rewrite H. eexists. split; reflexivity.
  - replace (len buf =? 0) with false by lia. rewrite Hb. destruct (gz (rd_rest r) (4 * len ints)) as [[b w] used].
    cbn [fst] in H. rewrite H. eexists. split; reflexivity.
  - destruct H as (Hl & x0 & blocks & Ep & Hc & Hm).
    assert (Bl : 0 <= bs).
    { destruct Hc as (h & da & re & Hh & _ & _ & _ & Hok & _). destruct blocks as [|b l]; [discriminate|].
      pose proof (blocks_ok_nonempty _ _ _ _ _ Hok). lia. }
    assert (A : as_i32 (len ints) = len ints).
    { unfold as_i32. rewrite Z.mod_small by lia. unfold to_signed. change (2 ^ (8 * 4 - 1)) with (2 ^ 31).
      destruct (Z.ltb_spec (len ints) (2 ^ 31)); [reflexivity|].
      assert (Bp : 1 <= bs); [|lia].
      destruct Hc as (h & da & re & Hh & _ & _ & _ & Hok & _). destruct blocks as [|b l]; [discriminate|].
      apply (blocks_ok_nonempty _ _ _ _ _ Hok). }
    rewrite A, Hb. subst ints.
    destruct (compressed_decoded m RI32 bs x0 blocks (rd_rest r) fuel Hc) as (src & E); auto.
    { eapply Forall_impl; [|exact Ho]. intros b Hb0. unfold is_byte. cbv beta in Hb0. lia. }
    { destruct Hm as [->|[G S]]; [left; reflexivity|right; auto]. }
    change (pixel_bits RI32 / 8) with 4 in E. rewrite E.
    pose proof (layout_len (ZRice 0 0) (block_pixels blocks)) as L. cbn [layout] in L.
    rewrite overwrite_full by lia. eexists. split; reflexivity.
Qed.

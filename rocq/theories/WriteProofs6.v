(** Proofs about tile-compressed images written by the standard. *)

From Coq Require Import Permutation ZifyBool.
From Verif Require Import Base Utf8 Text Card Reader Header Xtension Bytes Fits ImageIt BinTable Rice Float Tile.
From Verif Require Import SpecUtf8 SpecCard SpecHeader SpecXt SpecFits SpecImage SpecBin SpecRice SpecTile SpecWrite SpecWriteTable SpecWriteTile.
From Verif Require Import TextLemmas CardProofs CardProofs2 CardProps HeaderProofs HeaderProofs2 HeaderProps.
From Verif Require Import FitsProofs FitsProofs2 FitsProofs3 FitsProofs4 XtProofs XtProofs2 XtProofs3 BytesProofs ImageProofs.
From Verif Require Import BinProofs BinProofs2 BinProofs3 WriteProofs WriteProofs2 WriteProofs3 WriteProofs4.

(** ** Order of the pixels *)

Lemma coords_ones {A} (l : list A) k : coords (map (fun _ => 1) l) k = map (fun _ => 0) l.
Proof. revert k. induction l as [|a l IH]; intro k; cbn [map coords]; [reflexivity|]. now rewrite Z.mod_1_r, IH. Qed.

Lemma grid_ones axes : grid axes (map (fun _ => 1) axes) = axes.
Proof. induction axes as [|a axes IH]; cbn [map grid]; [reflexivity|]. now rewrite Z.div_1_r, IH. Qed.

Lemma product_ones {A} (l : list A) : product (map (fun _ => 1) l) = 1.
Proof. induction l as [|a l IH]; cbn [map product]; [reflexivity|]. rewrite IH. reflexivity. Qed.

Lemma place_coords axes : Forall (fun a => 0 <= a) axes -> forall k, 0 <= k < product axes ->
  place axes (coords axes k) = k.
Proof.
  induction 1 as [|a axes P F IH]; intros k K; cbn [coords place product] in *; [lia|].
  assert (0 < a) by (destruct (Z.eq_dec a 0); [subst; lia|lia]).
  rewrite IH; [pose proof (Z.div_mod k a ltac:(lia)); lia|].
  split; [apply Z.div_pos; lia|]. apply Z.div_lt_upper_bound; lia.
Qed.

Lemma in_tile_ones (axes : list Z) : forall q, length q = length axes -> in_tile (map (fun _ => 1) axes) q (map (fun _ => 0) axes) = q.
Proof.
  induction axes as [|a axes IH]; intros [|x q] L; try discriminate; cbn [map in_tile]; [reflexivity|].
  rewrite IH by (cbn in L; lia). f_equal. lia.
Qed.

Lemma coords_length dims : forall k, length (coords dims k) = length dims.
Proof. induction dims as [|d dims IH]; intro k; cbn [coords length]; auto. Qed.

Lemma product_nonneg l : Forall (fun a => 0 <= a) l -> 0 <= product l.
Proof. induction 1; cbn [product]; [lia|]. nia. Qed.

Lemma slabs_place axes tiles : slabs axes tiles -> Forall (fun a => 0 <= a) axes ->
  forall k p, 0 <= k < product (grid axes tiles) -> 0 <= p < product tiles ->
  place axes (in_tile tiles (coords (grid axes tiles) k) (coords tiles p)) = k * product tiles + p.
Proof.
  induction 1 as [axes|a t axes A T M|a axes tiles A S IH]; intros N k p K P.
  - rewrite product_ones in *. rewrite grid_ones in *. rewrite coords_ones, in_tile_ones by apply coords_length.
    rewrite place_coords by auto. lia.
  - cbn [product grid] in *. rewrite product_ones in *. rewrite grid_ones in *. inversion N as [|? ? _ N']; subst.
    cbn [coords in_tile place]. rewrite coords_ones, in_tile_ones by apply coords_length.
    assert (E : a = t * (a / t)) by (apply Z.div_exact; lia). set (g := a / t) in *.
    pose proof (product_nonneg axes N').
    assert (0 < g) by (destruct (Z.le_gt_cases g 0); [nia|lia]).
    rewrite place_coords; auto.
    2:{ split; [apply Z.div_pos; lia|]. apply Z.div_lt_upper_bound; lia. }
    rewrite (Z.mod_small p t) by lia. pose proof (Z.div_mod k g ltac:(lia)). rewrite E. nia.
  - cbn [product grid] in *. inversion N as [|? ? _ N']; subst. rewrite Z.div_same in * by lia.
    cbn [coords in_tile place]. rewrite Z.mod_1_r, Z.div_1_r.
    rewrite IH; auto.
    + pose proof (Z.div_mod p a ltac:(lia)). nia.
    + lia.
    + split; [apply Z.div_pos; lia|]. apply Z.div_lt_upper_bound; lia.
Qed.

Lemma upto_app a b : 0 <= a -> 0 <= b -> upto (a + b) = upto a ++ map (fun i => a + i) (upto b).
Proof.
  intros A B. unfold upto. rewrite Z2Nat.inj_add, seq_app, map_app by lia. f_equal. cbn [plus].
  rewrite map_map. rewrite <- (Nat.add_0_r (Z.to_nat a)).
  generalize (Z.to_nat b) as n. intro n. generalize 0%nat as i. revert A. clear. intros A i.
  revert i. induction n as [|n IH]; intro i; cbn [seq map]; [reflexivity|].
  f_equal; [lia|]. rewrite <- IH. f_equal. f_equal. lia.
Qed.

Lemma chunks_concat {A} (f : Z -> A) n k : 0 <= n -> 0 <= k ->
  flat_map (fun q => map (fun p => f (q * n + p)) (upto n)) (upto k) = map f (upto (k * n)).
Proof.
  intros N K. rewrite <- (Z2Nat.id k) by auto. induction (Z.to_nat k) as [|j IH]; [reflexivity|].
  rewrite Nat2Z.inj_succ. unfold Z.succ. rewrite (upto_app (Z.of_nat j) 1) by lia.
  rewrite flat_map_app, IH. replace ((Z.of_nat j + 1) * n) with (Z.of_nat j * n + n) by lia.
  rewrite (upto_app (Z.of_nat j * n) n) by nia. rewrite map_app. f_equal.
  change (upto 1) with [0]. cbn [map flat_map]. rewrite app_nil_r, map_map. rewrite Z.add_0_r. reflexivity.
Qed.

Lemma nth_upto (l : list Z) : map (fun i => nth (Z.to_nat i) l 0) (upto (len l)) = l.
Proof.
  unfold upto, len. rewrite Nat2Z.id, map_map. induction l as [|x l IH] using rev_ind; [reflexivity|].
  rewrite app_length, Nat.add_comm, seq_S, map_app. cbn [plus map].
  rewrite Nat2Z.id, nth_middle. f_equal. rewrite <- IH at 2. apply map_ext_in. intros i I. apply in_seq in I.
  rewrite Nat2Z.id. apply app_nth1. lia.
Qed.

Lemma grid_product axes tiles : whole_tiles axes tiles -> product (grid axes tiles) * product tiles = product axes.
Proof.
  induction 1 as [|a t axes tiles (A & T & M) F IH]; cbn [grid product]; [reflexivity|].
  assert (E : a = t * (a / t)) by (apply Z.div_exact; lia). rewrite <- IH.
  transitivity (t * (a / t) * (product (grid axes tiles) * product tiles)); [ring|]. now rewrite <- E.
Qed.

Lemma whole_tiles_nonneg axes tiles : whole_tiles axes tiles ->
  Forall (fun a => 0 <= a) axes /\ Forall (fun t => 1 <= t) tiles /\ Forall (fun g => 0 <= g) (grid axes tiles).
Proof.
  induction 1 as [|a t axes tiles (A & T & M) F IH]; cbn [grid]; [repeat split; constructor|].
  destruct IH as (I1 & I2 & I3). repeat split; constructor; auto. apply Z.div_pos; lia.
Qed.

Lemma slabs_in_order axes tiles pixels : slabs axes tiles -> whole_tiles axes tiles -> len pixels = product axes ->
  flat_map (tile_pixels axes tiles pixels) (upto (product (grid axes tiles))) = pixels.
Proof.
  intros S W L. destruct (whole_tiles_nonneg _ _ W) as (A & T & G).
  assert (PT : 0 <= product tiles) by (apply product_nonneg; eapply Forall_impl; [|exact T]; simpl; lia).
  pose proof (product_nonneg _ G) as PG.
  transitivity (flat_map (fun q => map (fun p => nth (Z.to_nat (q * product tiles + p)) pixels 0) (upto (product tiles)))
                  (upto (product (grid axes tiles)))).
  - rewrite !flat_map_concat_map. f_equal. apply map_ext_in. intros q I. unfold tile_pixels. apply map_ext_in.
    intros p J. apply upto_In in I, J. now rewrite slabs_place.
  - rewrite (chunks_concat (fun i => nth (Z.to_nat i) pixels 0)) by auto. rewrite grid_product, <- L by auto. apply nth_upto.
Qed.

Lemma tile_pixels_len axes tiles pixels k : 0 <= product tiles -> len (tile_pixels axes tiles pixels k) = product tiles.
Proof. intro P. unfold tile_pixels, upto. rewrite !len_map. unfold len. rewrite seq_length. lia. Qed.

Lemma coords_in dims : Forall (fun d => 0 < d) dims -> forall k, Forall2 (fun d x => 0 <= x < d) dims (coords dims k).
Proof. induction 1; intro k; cbn [coords]; constructor; auto. apply Z.mod_pos_bound. lia. Qed.

Lemma place_bound axes xs : Forall2 (fun a x => 0 <= x < a) axes xs -> 0 <= place axes xs < product axes.
Proof. induction 1; cbn [place product]; [lia|]. nia. Qed.

Lemma tile_position axes tiles k p : whole_tiles axes tiles -> 0 <= k < product (grid axes tiles) -> 0 <= p < product tiles ->
  0 <= place axes (in_tile tiles (coords (grid axes tiles) k) (coords tiles p)) < product axes.
Proof.
  intros W K P. apply place_bound. revert k p K P. induction W as [|a t axes tiles (A & T & M) F IH]; intros k p K P; [constructor|].
  cbn [grid product coords in_tile] in *.
  destruct (whole_tiles_nonneg _ _ F) as (_ & T' & G').
  assert (E : a = t * (a / t)) by (apply Z.div_exact; lia). set (g := a / t) in *.
  pose proof (product_nonneg _ G') as PG.
  assert (PT : 0 <= product tiles) by (apply product_nonneg; eapply Forall_impl; [|exact T']; simpl; lia).
  assert (0 < g) by (destruct (Z.le_gt_cases g 0); [nia|lia]).
  pose proof (Z.mod_pos_bound k g ltac:(lia)). pose proof (Z.mod_pos_bound p t ltac:(lia)).
  constructor; [nia|]. apply IH; (split; [apply Z.div_pos; lia|apply Z.div_lt_upper_bound; lia]).
Qed.

Lemma tile_pixels_in (Q : Z -> Prop) axes tiles pixels k : whole_tiles axes tiles -> 0 <= k < product (grid axes tiles) ->
  len pixels = product axes -> Forall Q pixels -> Forall Q (tile_pixels axes tiles pixels k).
Proof.
  intros W K L F. apply Forall_map, Forall_forall. intros p I. apply upto_In in I.
  rewrite Forall_forall in F. apply F, nth_In.
  pose proof (tile_position axes tiles k p W K I). unfold len in L. lia.
Qed.

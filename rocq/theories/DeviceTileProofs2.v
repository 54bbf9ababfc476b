(** Tile-compressed images on a device that fails. *)

From Verif Require Import Base Text Card Reader Header Xtension Bytes Fits ImageIt BinTable Rice Float Tile.
From Verif Require Import Device DeviceTable DeviceTile.
From Verif Require Import SpecUtf8 SpecCard SpecHeader SpecXt SpecFits SpecImage SpecBin SpecRice SpecTile SpecTileBreak.
From Verif Require Import SpecDevice SpecDeviceTable SpecDeviceTile.
From Verif Require Import BinProofs3 TileProofs3 TileProofs6 TileProofs7 DeviceProofs DeviceProofs2 DeviceTableProofs DeviceTileProofs.

Lemma rice_tracks m t nblock nx L fuel r : 0 <= rd_pos r ->
  tracks (fun fs => dev_rice_read_exact m t nblock nx L fuel r fs)
    (let '(o, src, out) := rice_read_exact m t nblock nx L fuel (rd_rest r) in (o, out, left_with r src)) loop_lost.
Proof.
  intro P. unfold dev_rice_read_exact, rice_read_exact. destruct (L =? 0).
  - rewrite left_all. apply tracks_ret.
  - pose proof (read_loop_tracks m t nblock nx L fuel RStart [] r P) as T. unfold loop_lift in T.
    destruct (read_loop m t nblock nx L fuel RStart (rd_rest r) []) as (((o, st), src), out). exact T.
Qed.

Lemma calls_follow n : forall fs x fs', dev_calls_made n fs = (x, fs') ->
  follows n fs fs' x None (fun x => x <> None).
Proof.
  induction n as [|n IH]; intros fs x fs' E; cbn in E.
  - injection E as <- <-. apply follows_O.
  - destruct fs as [|[k|] fs].
    + injection E as <- <-. left. repeat split; auto. unfold working. rewrite firstn_nil. constructor.
    + injection E as <- <-. right. exists 0%nat. repeat split; [lia|constructor|eexists; reflexivity|discriminate].
    + destruct (dev_calls_made n fs) as (y, fs2) eqn:D. specialize (IH _ _ _ D).
      destruct IH as [(W & -> & ->)|(j & J & (W & k & K) & -> & X)].
      * injection E as <- <-. left. repeat split; auto. unfold working. cbn [firstn]. constructor; auto.
      * destruct y as [(j', k')|]; [|congruence]. injection E as <- <-.
        right. exists (S j). split; [lia|]. split; [split; [unfold working; cbn [firstn]; constructor; auto|exists k; exact K]|].
        split; [reflexivity|discriminate].
Qed.

Lemma decompress_tracks gd m fuel cmp n buf r : 0 <= rd_pos r ->
  tracks (fun fs => dev_decompress gd m fuel cmp n buf r fs) (decompress (gd_plain gd) m fuel cmp n buf r) loop_lost.
Proof.
  intro P.
  assert (G: tracks (fun fs => if len buf =? 0 then (Some (Ok tt), buf, r, fs)
    else
      match dev_calls_made (gd_calls gd (rd_rest r) (len buf)) fs with
      | (None, fs') => (decompress (gd_plain gd) m fuel cmp n buf r, fs')
      | (Some (j, k), fs') =>
        let (w, used) := gd_lost gd (rd_rest r) (len buf) j in
        (Some (Err EIoOther), overwrite buf w, mk_reader (rd_data r) (rd_pos r + used + k), fs')
      end) (if len buf =? 0 then (Some (Ok tt), buf, r) else decompress (gd_plain gd) m fuel cmp n buf r) loop_lost).
  { destruct (len buf =? 0); [apply tracks_ret|].
    pose (K := fun (y : option (nat * Z)) (fs' : faults) =>
      match y with
      | None => (decompress (gd_plain gd) m fuel cmp n buf r, fs')
      | Some (j, k) =>
        let (w, used) := gd_lost gd (rd_rest r) (len buf) j in
        (Some (Err EIoOther), overwrite buf w, mk_reader (rd_data r) (rd_pos r + used + k), fs')
      end).
    apply tracks_ext with (d := fun fs => let (y, fs1) := dev_calls_made (gd_calls gd (rd_rest r) (len buf)) fs in K y fs1).
    { intro fs. destruct (dev_calls_made (gd_calls gd (rd_rest r) (len buf)) fs) as ([(j, k)|], fs1); reflexivity. }
    eapply tracks_bind.
    - exists (gd_calls gd (rd_rest r) (len buf)). apply calls_follow.
    - intros [(j, k)|] fs H; [|congruence]. unfold K. destruct (gd_lost gd (rd_rest r) (len buf) j) as (w, used).
      eexists. split; [reflexivity|]. exists EIoOther. reflexivity.
    - unfold K. apply tracks_ret. }
  unfold dev_decompress. destruct cmp as [| |bs bp| |]; try apply tracks_ret.
  1,2: destruct (len buf =? 0) eqn:Z0; [unfold decompress; rewrite Z0; apply tracks_ret|exact G].
  unfold decompress. pose proof (rice_tracks m RI32 bs (as_i32 n) (len buf) fuel r P) as T.
  destruct (rice_read_exact m RI32 bs (as_i32 n) (len buf) fuel (rd_rest r)) as ((o, src), out).
  pose (K := fun (y : option (res unit) * list Z * reader) (fs' : faults) =>
    let '(o, out, r') := y in (o, overwrite buf out, r', fs')).
  apply tracks_ext with (d := fun fs => let (y, fs1) := dev_rice_read_exact m RI32 bs (as_i32 n) (len buf) fuel r fs in K y fs1).
  { intro fs. destruct (dev_rice_read_exact m RI32 bs (as_i32 n) (len buf) fuel r fs) as (((o', out'), r'), fs1). reflexivity. }
  eapply tracks_bind; [exact T| |].
  - intros ((o', out'), r') fs (e & E). cbn [fst] in E. subst o'. unfold K. eexists. split; [reflexivity|]. exists e. reflexivity.
  - unfold K. apply tracks_ret.
Qed.

(** ** Loading a tile *)

Definition load_lost {B} (y : option (res unit) * B) : Prop := exists e, fst y = Some (Err e).

Lemma load_tracks gd m fuel s off :
  tracks (fun fs => dev_load_tile gd m fuel s off fs) (load_tile (gd_plain gd) m fuel s off) load_lost.
Proof.
  unfold dev_load_tile, load_tile.
  bind_on (tracks_call (tl_reader s) (fun r => (Ok (rd_pos r), r))).
  { intros (x, r) fs E. cbn [fst] in E. subst x. eexists. split; [reflexivity|]. eexists. reflexivity. }
  cbv beta iota.
  bind_on (tracks_call (tl_reader s) (fun r => seek_relative r off)).
  { intros (x, r) fs E. cbn [fst] in E. subst x. eexists. split; [reflexivity|]. eexists. reflexivity. }
  destruct (seek_relative (tl_reader s) off) as (x, r) eqn:Sk. destruct x as [u|e|]; try apply tracks_ret.
  assert (P: 0 <= rd_pos r).
  { unfold seek_relative in Sk. destruct ((0 <=? rd_pos (tl_reader s) + off) && (rd_pos (tl_reader s) + off <? 2 ^ 64)) eqn:E;
      [|discriminate]. injection Sk as _ <-. cbn. lia. }
  cbv beta iota.
  pose (K := fun (y : option (res unit) * list Z * reader) (fs2 : faults) =>
    match y with
      | (Some (Ok _), b, r') =>
        match device_call fs2 r' (fun r => (Ok tt, seek_start r (rd_pos (tl_reader s)))) with
        | (Ok _, r2, fs3) => (Some (Ok tt), tl_set_reader (tl_set_buf s b) r2, fs3)
        | (x, r2, fs3) => (Some x, tl_set_reader (tl_set_buf s b) r2, fs3)
        end
      | (o, b, r') => (o, tl_set_reader (tl_set_buf s b) r', fs2)
      end).
  apply tracks_ext with (d := fun fs => let (y, fs1) := dev_decompress gd m fuel (tl_cmp s) (tl_n s) (tl_buf s) r fs in K y fs1).
  { intro fs. destruct (dev_decompress gd m fuel (tl_cmp s) (tl_n s) (tl_buf s) r fs) as (((o, b), r'), fs1).
    destruct o as [[v|e|]|]; reflexivity. }
  eapply tracks_bind; [apply decompress_tracks; exact P| |].
  - intros ((o, b), r') fs (e & E). cbn [fst] in E. subst o. unfold K. eexists. split; [reflexivity|]. exists e. reflexivity.
  - destruct (decompress (gd_plain gd) m fuel (tl_cmp s) (tl_n s) (tl_buf s) r) as ((o, b), r'). unfold K.
    destruct o as [[v|e|]|]; try apply tracks_ret.
    bind_on (tracks_call r' (fun r => (Ok tt, seek_start r (rd_pos (tl_reader s))))).
    + intros (x, r2) fs E. cbn [fst] in E. subst x. eexists. split; [reflexivity|]. eexists. reflexivity.
    + cbv beta iota. apply tracks_ret.
Qed.

Definition tile_gone {B} (y : option (res bool) * B) : Prop := fst y = Some (Ok false).

Lemma next_tile_tracks gd m fuel s :
  tracks (fun fs => dev_next_tile gd m fuel s fs) (next_tile (gd_plain gd) m fuel s) tile_gone.
Proof.
  unfold dev_next_tile, next_tile.
  bind_on (row_next_tracks m fuel (tl_rows s)).
  { intros (y, x) fs E. unfold row_gone in E. cbn in E. subst y. eexists. split; [reflexivity|]. reflexivity. }
  destruct (row_next m fuel (tl_rows s)) as (y, x). destruct y as [[[row|]|e|]|]; try apply tracks_ret. cbv zeta.
  match goal with |- context [bind (tile_offset row (tl_idx s)) ?k] =>
    destruct (bind (tile_offset row (tl_idx s)) k) as [((n, kk), off)|e|] end; try apply tracks_ret.
  bind_on (load_tracks gd m fuel (tl_set_keys (tl_set_count (tl_set_rows s x) n n) kk) off).
  { intros (o, s2) fs (e & E). cbn [fst] in E. subst o. eexists. split; [reflexivity|]. reflexivity. }
  destruct (load_tile (gd_plain gd) m fuel (tl_set_keys (tl_set_count (tl_set_rows s x) n n) kk) off) as (o, s2).
  destruct o as [[u|e|]|]; apply tracks_ret.
Qed.

Definition pixel_gone {B} (y : option (res (option pixel)) * B) : Prop := fst y = Some (Ok None).

Lemma tiles_next_tracks gd m fuel s :
  tracks (fun fs => dev_tiles_next gd m fuel s fs) (tiles_next (gd_plain gd) m fuel s) pixel_gone.
Proof.
  unfold dev_tiles_next, tiles_next. destruct (tl_rem s =? 0).
  - bind_on (next_tile_tracks gd m fuel s).
    { intros (y, x) fs E. unfold tile_gone in E. cbn in E. subst y. eexists. split; [reflexivity|]. reflexivity. }
    destruct (next_tile (gd_plain gd) m fuel s) as (y, s1). destruct y as [[[|]|e|]|]; try apply tracks_ret.
    destruct (tile_pixel m s1) as (x, s2). apply tracks_ret.
  - destruct (tile_pixel m s) as (x, s1). apply tracks_ret.
Qed.

(** A tile takes a call. *)
Lemma broken_tile_next gd m fuel s k fs : tl_rem s = 0 ->
  forall p s' fs', dev_tiles_next gd m fuel s (Some k :: fs) <> (Some (Ok (Some p)), s', fs').
Proof.
  intros R p s' fs'. unfold dev_tiles_next. rewrite R. cbn [Z.eqb].
  enough (G: forall s1 fs1, dev_next_tile gd m fuel s (Some k :: fs) <> (Some (Ok true), s1, fs1)).
  { destruct (dev_next_tile gd m fuel s (Some k :: fs)) as ((y, s1), fs1). destruct y as [[[|]|e|]|]; try discriminate.
    destruct (G s1 fs1 eq_refl). }
  intros s1 fs1. unfold dev_next_tile.
  destruct (row_next_tracks m fuel (tl_rows s)) as (N & T).
  destruct (dev_row_next m fuel (tl_rows s) (Some k :: fs)) as ((y, x), fs2) eqn:D.
  destruct (follows_iff _ _ _ _ _ _ (T _ _ _ D)) as (F1 & F2).
  destruct N as [|N].
  - destruct (F1 (working_O _)) as (_ & ->). cbn [skipn].
    destruct y as [[[row|]|e|]|]; try discriminate. cbv zeta.
    match goal with |- context [bind (tile_offset row (tl_idx s)) ?k] =>
      destruct (bind (tile_offset row (tl_idx s)) k) as [((n, kk), off)|e|] end; try discriminate.
  - destruct (F2 0%nat) as (G & _); [lia|split; [constructor|exists k; reflexivity]|].
    unfold row_gone in G. cbn in G. subst y. discriminate.
Qed.

Lemma tiles_next_device gd m fuel s : exists N,
  (tl_rem s <> 0 -> N = 0%nat) /\
  (forall p s', tl_rem s = 0 -> tiles_next (gd_plain gd) m fuel s = (Some (Ok (Some p)), s') -> (1 <= N)%nat) /\
  forall fs,
    (working N fs -> dev_tiles_next gd m fuel s fs = (tiles_next (gd_plain gd) m fuel s, skipn N fs)) /\
    (forall j, (j < N)%nat -> first_fault fs j ->
       exists s', dev_tiles_next gd m fuel s fs = (Some (Ok None), s', skipn (S j) fs)).
Proof.
  destruct (Z.eq_dec (tl_rem s) 0) as [R|R].
  - destruct (tiles_next_tracks gd m fuel s) as (N & T). exists N.
    assert (A: forall fs,
      (working N fs -> dev_tiles_next gd m fuel s fs = (tiles_next (gd_plain gd) m fuel s, skipn N fs)) /\
      (forall j, (j < N)%nat -> first_fault fs j ->
         exists s', dev_tiles_next gd m fuel s fs = (Some (Ok None), s', skipn (S j) fs))).
    { intro fs. destruct (dev_tiles_next gd m fuel s fs) as ((x, s1), fs1) eqn:D.
      destruct (follows_iff _ _ _ _ _ _ (T _ _ _ D)) as (F1 & F2). split.
      - intro W. destruct (F1 W) as (-> & ->). reflexivity.
      - intros j J F. destruct (F2 j J F) as (G & ->). unfold pixel_gone in G. cbn in G. subst x. eauto. }
    split; [congruence|]. split; [|exact A]. intros p s' _ E. destruct N as [|N]; [|lia].
    destruct (A [Some 0]) as (B & _). specialize (B (working_O _)). rewrite E in B.
    destruct (broken_tile_next _ _ _ _ _ _ R _ _ _ B).
  - exists 0%nat. split; [reflexivity|]. split; [congruence|]. intro fs. split; [|lia]. intros _.
    unfold dev_tiles_next, tiles_next. replace (tl_rem s =? 0) with false by lia.
    destruct (tile_pixel m s). reflexivity.
Qed.

(** ** Loops *)

(** The numbers of pixels that remain. *)
Lemma pixel_count m s p s' : 0 < tl_rem s < 2 ^ 64 -> tile_pixel m s = (Ok (Some p), s') ->
  tl_rem s' = tl_rem s - 1 /\ tl_tile s' = tl_tile s.
Proof.
  intros R E. unfold tile_pixel in E.
  match type of E with context [match ?t with Ok _ => _ | _ => _ end] => destruct t as [(q, k)|e|] end; try discriminate.
  assert (U: u64_result m (tl_rem s - 1) = Ok (tl_rem s - 1)).
  { unfold u64_result. replace ((0 <=? tl_rem s - 1) && (tl_rem s - 1 <? 2 ^ 64)) with true by lia. reflexivity. }
  cbv zeta in E. rewrite U in E. injection E as _ <-. split; reflexivity.
Qed.

Lemma load_count gz m fuel s off o s' : load_tile gz m fuel s off = (o, s') -> tl_rem s' = tl_rem s /\ tl_tile s' = tl_tile s.
Proof.
  unfold load_tile. destruct (seek_relative (tl_reader s) off) as (x, r). destruct x as [u|e|].
  - destruct (decompress gz m fuel (tl_cmp s) (tl_n s) (tl_buf s) r) as ((y, b), r').
    destruct y as [[v|e|]|]; intro E; injection E as _ <-; split; reflexivity.
  - intro E; injection E as _ <-; split; reflexivity.
  - intro E; injection E as _ <-; split; reflexivity.
Qed.

Lemma tile_count gz m fuel s s' P : usize_product m 1 (tl_tile s) = Ok P -> next_tile gz m fuel s = (Some (Ok true), s') ->
  tl_rem s' = P /\ tl_tile s' = tl_tile s.
Proof.
  intros U. unfold next_tile. destruct (row_next m fuel (tl_rows s)) as (y, x).
  destruct y as [[[row|]|e|]|]; try discriminate. cbv zeta. rewrite U. cbn [bind].
  destruct (tile_offset row (tl_idx s)) as [o|e|]; cbn [bind]; try discriminate.
  destruct (keys_row m (tl_keys s) row (ri_row x)) as [k|e|]; cbn [bind]; try discriminate.
  destruct (tile_jump m (tb_ctx (ri_data x)) (ri_row x) o) as [off|e|]; cbn [bind]; try discriminate.
  destruct (load_tile gz m fuel (tl_set_keys (tl_set_count (tl_set_rows s x) P P) k) off) as (z, s2) eqn:Ld.
  destruct z as [[u|e|]|]; try discriminate. intro E. injection E as <-. exact (load_count _ _ _ _ _ _ _ Ld).
Qed.

Lemma next_count gz m fuel s p s' P : usize_product m 1 (tl_tile s) = Ok P -> 0 <= tl_rem s < P -> P < 2 ^ 64 ->
  tiles_next gz m fuel s = (Some (Ok (Some p)), s') ->
  tl_rem s' = (if tl_rem s =? 0 then P else tl_rem s) - 1 /\ tl_tile s' = tl_tile s.
Proof.
  intros U R B. unfold tiles_next. destruct (tl_rem s =? 0) eqn:Z0.
  - destruct (next_tile gz m fuel s) as (y, s1) eqn:Nt. destruct y as [[[|]|e|]|]; try discriminate.
    destruct (tile_count _ _ _ _ _ _ U Nt) as (R1 & T1).
    destruct (tile_pixel m s1) as (x, s2) eqn:Px. intro E. injection E as -> <-.
    destruct (pixel_count m s1 p s2) as (R2 & T2); [lia|exact Px|]. split; [lia|congruence].
  - destruct (tile_pixel m s) as (x, s2) eqn:Px. intro E. injection E as -> <-.
    destruct (pixel_count m s p s2) as (R2 & T2); [lia|exact Px|]. split; [lia|congruence].
Qed.

Lemma pixels_device gd m fuel n : forall s, exists calls,
  let pixels := pixels_of (fst (tiles_run (gd_plain gd) m fuel s n)) in
  (forall P, usize_product m 1 (tl_tile s) = Ok P -> 0 <= tl_rem s < P -> P < 2 ^ 64 ->
     forall k, (k < length pixels)%nat -> ((1 <= nth k calls 0)%nat <-> Z.of_nat k mod P = tl_rem s)) /\
  forall fs,
    (working (list_sum calls) fs -> dev_tile_pixels gd m fuel n s fs = pixels) /\
    (forall j k, first_fault fs j -> in_turn calls k j -> dev_tile_pixels gd m fuel n s fs = firstn k pixels).
Proof.
  induction n as [|n IH]; intro s.
  - exists []. cbn. split; [intros; lia|]. intro fs. split; [reflexivity|]. intros j k _ T. destruct (turn_nil _ _ T).
  - destruct (tiles_next_device gd m fuel s) as (N & Nz & No & C). cbn [tiles_run]. unfold tiles_do.
    destruct (tiles_next (gd_plain gd) m fuel s) as (x, s1) eqn:TN.
    destruct x as [[[v|]|e|]|].
    1: {
      destruct (IH s1) as (calls & P2 & C2). cbn zeta in P2, C2. exists (N :: calls).
      destruct (tiles_run (gd_plain gd) m fuel s1 n) as (l, s2). cbn [fst pixels_of] in *. cbn zeta. split.
      { intros P U R B. destruct (next_count _ _ _ _ _ _ _ U R B TN) as (R1 & T1).
        intros [|k] K; cbn [nth].
        - change (Z.of_nat 0) with 0. rewrite Zmod_0_l. split.
          + intro L. destruct (Z.eq_dec (tl_rem s) 0); [lia|]. specialize (Nz n0). lia.
          + intro E. eapply No; eauto.
        - cbn [length] in K. rewrite P2 with (P := P); [|congruence|destruct (tl_rem s =? 0) eqn:?; lia|exact B|lia].
          rewrite R1. destruct (tl_rem s =? 0) eqn:Z0.
          + replace (Z.of_nat (S k)) with (Z.of_nat k + 1) by lia. split; intro E.
            * rewrite Z.add_mod by lia. rewrite E. destruct (Z.eq_dec P 1) as [->|]; [rewrite !Z.mod_1_r; lia|].
              rewrite (Z.mod_small 1) by lia. replace (P - 1 + 1) with P by lia. rewrite Z_mod_same_full. lia.
            * pose proof (Z.mod_pos_bound (Z.of_nat k) P ltac:(lia)).
              rewrite Z.add_mod in E by lia. destruct (Z.eq_dec P 1) as [->|]; [lia|]. rewrite (Z.mod_small 1) in E by lia.
              destruct (Z.eq_dec (Z.of_nat k mod P) (P - 1)); [assumption|]. rewrite Z.mod_small in E by lia. lia.
          + replace (Z.of_nat (S k)) with (Z.of_nat k + 1) by lia.
            pose proof (Z.mod_pos_bound (Z.of_nat k) P ltac:(lia)). rewrite Z.add_mod by lia. rewrite (Z.mod_small 1) by lia.
            destruct (Z.eq_dec (Z.of_nat k mod P) (P - 1)) as [E|E].
            * rewrite E. replace (P - 1 + 1) with P by lia. rewrite Z_mod_same_full. lia.
            * rewrite (Z.mod_small (_ + 1)) by lia. lia. }
      intro fs. destruct (C fs) as (D1 & D2). cbn [dev_tile_pixels list_sum]. split.
      - intro W. change (list_sum (N :: calls)) with (N + list_sum calls)%nat in W. apply working_add in W.
        destruct W as (W1 & W2). rewrite (D1 W1). f_equal. destruct (C2 (skipn N fs)) as (E & _). auto.
      - intros j [|k] F T.
        + destruct (D2 j (turn_O _ _ _ T) F) as (s' & ->). reflexivity.
        + destruct (turn_S _ _ _ _ T) as (L & T2). destruct (fault_skip N j fs L F) as (W1 & F2).
          rewrite (D1 W1). cbn [firstn]. f_equal. destruct (C2 (skipn N fs)) as (_ & E). eauto. }
    all: exists [N]; destruct (tiles_run (gd_plain gd) m fuel s1 n) as (l, s2); cbn [fst pixels_of]; cbn zeta;
      (split; [cbn; intros; lia|]); intro fs; destruct (C fs) as (D1 & D2); cbn [dev_tile_pixels];
      (split;
       [intro W; change (list_sum [N]) with (N + 0)%nat in W; rewrite Nat.add_0_r in W; rewrite (D1 W); reflexivity
       |intros j [|k] F T; [destruct (D2 j (turn_O _ _ _ T) F) as (s' & ->); reflexivity
                           |destruct (turn_nil _ _ (proj2 (turn_S _ _ _ _ T)))]]).
Qed.

(** ** Images in files *)

Lemma pixels_values pixels n : (length pixels <= n)%nat ->
  pixels_of (firstn n (map PixelOf pixels ++ repeat PixEnd n)) = pixels.
Proof.
  revert n. assert (G: forall n k, (length pixels <= n)%nat -> pixels_of (firstn n (map PixelOf pixels ++ repeat PixEnd k)) = pixels).
  { induction pixels as [|c pixels IH]; intros n k L; cbn [map app].
    - destruct n; [reflexivity|]. destruct k; reflexivity.
    - destruct n as [|n]; cbn [length] in L; [lia|]. cbn. f_equal. apply IH. lia. }
  intros n L. now apply G.
Qed.

Lemma new_count m f vs t z s : bt_zimage t = Some z -> get_tiles m f vs t = Some (Ok s) -> tl_rem s = 0 /\ tl_tile s = z_tilen z.
Proof.
  intros Z. unfold get_tiles. rewrite Z. intro E. injection E as E.
  destruct (get_table m f t) as [data|e|]; cbn [bind] in E; try discriminate. unfold pixels_new in E.
  destruct (usize_product m 1 (z_tilen z)) as [n|e|]; cbn [bind] in E; try discriminate.
  destruct (u64_result m (n * 4)) as [b|e|]; cbn [bind] in E; try discriminate.
  destruct (2 ^ 63 <=? b); try discriminate.
  match type of E with bind ?x _ = _ => destruct x as [k|e|] end; cbn [bind] in E; try discriminate.
  injection E as <-. split; reflexivity.
Qed.

Lemma image_device gd m d f fs h f' fs' t z pix ints :
  octets d -> rd_data (f_reader f) = d -> 0 <= rd_pos (f_reader f) -> dev_next m f fs = (IOk h, f', fs') ->
  h_xt h = XtBin t -> bt_zimage t = Some z -> tiled d t (h_offset h) z ->
  whole_image z pix \/ scaled_image d t (h_offset h) (h_values h) z pix ->
  tiles_hold (gd_plain gd) m d t (h_offset h) z ints ->
  exists s fuel0, get_tiles m f' (h_values h) t = Some (Ok s) /\
    let pixels := flat_map (fun row => pix row (ints row)) (upto (bt_naxis2 t)) in
    forall fuel n, (fuel0 <= fuel)%nat -> (length pixels <= n)%nat -> exists calls,
      (forall k, (k < length pixels)%nat -> ((1 <= nth k calls 0)%nat <-> Z.of_nat k mod product (z_tilen z) = 0)) /\
      forall fs2,
      (working (list_sum calls) fs2 -> dev_tile_pixels gd m fuel n s fs2 = pixels) /\
      (forall j k, first_fault fs2 j -> in_turn calls k j -> dev_tile_pixels gd m fuel n s fs2 = firstn k pixels).
Proof.
  intros Oc Da Po Nx Xt Zi Ti Im Ho. pose proof (dev_next_ok _ _ _ _ _ _ Nx) as N.
  assert (G: exists s fuel0, get_tiles m f' (h_values h) t = Some (Ok s) /\
    forall fuel n, (fuel0 <= fuel)%nat ->
    fst (tiles_run (gd_plain gd) m fuel s n)
    = firstn n (map PixelOf (flat_map (fun row => pix row (ints row)) (upto (bt_naxis2 t))) ++ repeat PixEnd n)).
  { destruct Im as [(W & Nb & E)|(Re & scale & zero & blank & Q & E)].
    - destruct (int_tiles_read (gd_plain gd) m d f h f' t z ints) as (s & fuel0 & G & H); auto.
      exists s, fuel0. split; auto. intros fuel n L. rewrite H by auto. do 3 f_equal. apply flat_map_ext. intro row. now rewrite E.
    - destruct (float_tiles_read (gd_plain gd) m d f h f' t z ints scale zero blank) as (s & fuel0 & G & H); auto.
      exists s, fuel0. split; auto. intros fuel n L. rewrite H by auto. do 3 f_equal. apply flat_map_ext. intro row. now rewrite E. }
  destruct G as (s & fuel0 & G & H). exists s, fuel0. split; auto. intros pixels fuel n L K.
  destruct (new_count _ _ _ _ _ _ Zi G) as (R & T).
  destruct (pixels_device gd m fuel n s) as (calls & A & B). cbn zeta in A, B.
  rewrite (H fuel n L) in A, B. fold pixels in A, B. rewrite pixels_values in A, B by exact K.
  exists calls. destruct Ti as (_ & _ & _ & _ & Pr & Nn). split; [|exact B].
  rewrite R in A. apply A; [|lia|lia]. rewrite T. rewrite usize_product_ok; [f_equal; lia|now apply product_pos|lia|lia].
Qed.

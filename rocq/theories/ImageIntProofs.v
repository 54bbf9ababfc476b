(** Proofs about the image decoder: layout of the samples in the buffer. *)

From Verif Require Import Base Text Card Reader Header Xtension Bytes Fits ImageIt BinTable Float Tile ImageInt.
From Verif Require Import SpecCard SpecXt SpecFits SpecImage SpecImageInt.

(** ** Chunks *)

Lemma chunks_nth {A} n : forall c (l : list A) i, (i < c)%nat ->
  nth_error (chunks c n l) i = Some (firstn n (skipn (n * i) l)).
Proof.
  induction c as [|c IH]; intros l i H; [lia|]. destruct i as [|i]; cbn [chunks nth_error].
  - rewrite Nat.mul_0_r. reflexivity.
  - rewrite IH by lia. rewrite skipn_skipn. f_equal. f_equal. f_equal. lia.
Qed.

Lemma chunks_length {A} n : forall c (l : list A), length (chunks c n l) = c.
Proof. induction c; intros; cbn [chunks length]; auto. Qed.

Lemma chunks_each {A} n : forall c (l : list A), (c * n <= length l)%nat ->
  Forall (fun x => length x = n) (chunks c n l).
Proof.
  induction c as [|c IH]; intros l H; cbn [chunks]; constructor.
  - rewrite firstn_length. lia.
  - apply IH. rewrite skipn_length. lia.
Qed.

Lemma chunks_concat {A} n : forall c (l : list A), concat (chunks c n l) ++ skipn (c * n) l = l.
Proof.
  induction c as [|c IH]; intros l; [reflexivity|]. cbn [chunks concat].
  rewrite <- (firstn_skipn n l) at 4. rewrite <- (IH (skipn n l)) at 2.
  rewrite skipn_skipn, <- app_assoc. replace (c * n + n)%nat with (S c * n)%nat by lia. reflexivity.
Qed.

Lemma concat_uniform {A} n : forall (l : list (list A)), Forall (fun x => length x = n) l -> length (concat l) = (n * length l)%nat.
Proof.
  induction l as [|x l IH]; intro H; [simpl; lia|]. inversion H; subst.
  cbn [concat length]. rewrite app_length, IH by auto. lia.
Qed.

Lemma concat_nth {A} n : forall (l : list (list A)) i x rest, Forall (fun x => length x = n) l ->
  nth_error l i = Some x -> firstn n (skipn (n * i) (concat l ++ rest)) = x.
Proof.
  induction l as [|y l IH]; intros i x rest H E; [destruct i; discriminate|].
  inversion H as [|? ? Hy Hl]; subst. destruct i as [|i]; cbn [nth_error] in E.
  - injection E as ->. rewrite Nat.mul_0_r. cbn [skipn concat]. rewrite <- app_assoc.
    rewrite firstn_app, Nat.sub_diag, firstn_all. cbn [firstn]. apply app_nil_r.
  - cbn [concat]. rewrite <- app_assoc.
    replace (length y * S i)%nat with (length y + length y * i)%nat by lia.
    rewrite skipn_app. rewrite skipn_all2 by lia. cbn [app].
    replace (length y + length y * i - length y)%nat with (length y * i)%nat by lia. apply IH; auto.
Qed.

Lemma concat_nth_error {A} n : forall (l : list (list A)) i c x, Forall (fun x => length x = n) l ->
  nth_error l i = Some x -> (c < n)%nat -> nth_error (concat l) (n * i + c) = nth_error x c.
Proof.
  induction l as [|y l IH]; intros i c x H E C; [destruct i; discriminate|].
  inversion H as [|? ? Hy Hl]; subst. destruct i as [|i]; cbn [nth_error] in E; cbn [concat].
  - injection E as ->. rewrite Nat.mul_0_r. apply nth_error_app1. lia.
  - rewrite nth_error_app2 by lia.
    replace (length y * S i + c - length y)%nat with (length y * i + c)%nat by lia. apply IH; auto.
Qed.

(** ** The loop over the samples *)

Fixpoint zipw {A} (put : A -> list Z -> A) (l : list A) (vs : list (list Z)) : list A :=
  match l, vs with
  | p :: l', v :: vs' => put p v :: zipw put l' vs'
  | _, _ => l
  end.

Lemma zipw_nil {A} put (l : list A) : zipw put l [] = l.
Proof. destruct l; reflexivity. Qed.

Lemma zipw_length {A} put : forall (l : list A) vs, length (zipw put l vs) = length l.
Proof. induction l as [|x l IH]; destruct vs; cbn [zipw length]; auto. Qed.

Lemma zipw_nth {A} put : forall (l : list A) vs i,
  nth_error (zipw put l vs) i
  = match nth_error l i, nth_error vs i with Some p, Some v => Some (put p v) | x, _ => x end.
Proof.
  induction l as [|x l IH]; destruct vs as [|v vs]; destruct i as [|i]; cbn [zipw nth_error]; auto.
  destruct (nth_error l i); reflexivity.
Qed.

Lemma zipw_all {A} (P : A -> Prop) (Q : list Z -> Prop) put : (forall p v, P p -> Q v -> P (put p v)) ->
  forall l vs, Forall P l -> Forall Q vs -> Forall P (zipw put l vs).
Proof.
  intro H. induction l as [|x l IH]; intros vs HP HQ; [destruct vs; auto|].
  destruct vs as [|v vs]; auto. cbn [zipw]. inversion HP; inversion HQ; subst. constructor; auto.
Qed.

Section Gives.
  Context {S : Type} (pull : S -> out (option (list Z)) * S) (p : Z).

  Lemma gives_cons s v vs : gives pull s p (v :: vs) ->
    exists s', pull s = (Some (Ok (Some v)), s') /\ gives pull s' p vs.
  Proof.
    intros (F & G). exists (snd (pull s)). split.
    - specialize (G 1%nat). cbn [pulls map app firstn] in G. destruct (pull s) as (x, s'). injection G as ->. reflexivity.
    - split; [inversion F; auto|]. intro n. specialize (G (Datatypes.S n)). cbn [pulls map app firstn] in G.
      injection G as _ G. rewrite G. rewrite repeat_cons, app_assoc, firstn_app.
      rewrite app_length, map_length, repeat_length.
      replace (n - (length vs + n))%nat with 0%nat by lia. cbn [firstn]. apply app_nil_r.
  Qed.

  Lemma gives_nil s : gives pull s p [] -> exists s', pull s = (Some (Ok None), s') /\ gives pull s' p [].
  Proof.
    intros (F & G). exists (snd (pull s)). split.
    - specialize (G 1%nat). cbn [pulls map app firstn repeat] in G. destruct (pull s) as (x, s'). injection G as ->. reflexivity.
    - split; [constructor|]. intro n. specialize (G (Datatypes.S n)). cbn [pulls map app firstn repeat] in G.
      injection G as _ G. rewrite G. cbn [map app]. reflexivity.
  Qed.

  Lemma zip_write_gives {A} (put : A -> list Z -> A) : forall l s vs, gives pull s p vs ->
    exists s', zip_write S pull put l s = (Some (Ok (zipw put l vs)), s') /\ gives pull s' p (skipn (length l) vs).
  Proof.
    induction l as [|x l IH]; intros s vs G.
    - exists s. split; [destruct vs; reflexivity|]. exact G.
    - destruct vs as [|v vs].
      + apply gives_nil in G as (s' & E & G). exists s'. cbn [zip_write zipw]. rewrite E.
        split; [reflexivity|]. rewrite skipn_nil. exact G.
      + apply gives_cons in G as (s1 & E & G). destruct (IH s1 vs G) as (s' & E2 & G2).
        exists s'. cbn [zip_write zipw length skipn]. rewrite E, E2. auto.
  Qed.
End Gives.

Lemma gives_widths {S} pull (s : S) p vs : gives pull s p vs -> Forall (fun v => length v = Z.to_nat p) vs.
Proof. intros (F & _). eapply Forall_impl; [|exact F]. cbn. unfold len. intros. lia. Qed.

(** ** The three layouts *)

Lemma chunk_slice {A} (l : list A) n i : firstn n (skipn (n * i) l) = slice l (Z.of_nat n * Z.of_nat i) (Z.of_nat n).
Proof. unfold slice. rewrite <- Nat2Z.inj_mul, !Nat2Z.id. reflexivity. Qed.

Lemma nat_div_div (a b : nat) : (0 < b)%nat -> Z.of_nat (a / b) = Z.of_nat a / Z.of_nat b.
Proof. intro H. apply Nat2Z.inj_div. Qed.

Lemma skipn_exact {A} (a b : list A) k : length a = k -> skipn k (a ++ b) = b.
Proof. intros <-. rewrite skipn_app, skipn_all, Nat.sub_diag. reflexivity. Qed.

Lemma luma_layout {S} pull (p : nat) buf (s : S) vs :
  (0 < p)%nat -> gives pull s (Z.of_nat p) vs ->
  exists after, write_luma S pull p buf s = Some (Ok after) /\ laid_out (Z.of_nat p) 1 one_plane vs buf after.
Proof.
  intros P G. pose proof (gives_widths _ _ _ _ G) as W. rewrite Nat2Z.id in W.
  unfold write_luma, as_chunks. set (k := (length buf / p)%nat).
  assert (K: (k * p <= length buf)%nat).
  { unfold k. pose proof (Nat.mul_div_le (length buf) p). lia. }
  destruct (zip_write_gives pull _ (fun _ v => v) (chunks k p buf) s vs G) as (s' & E & _).
  rewrite E. cbn [finish fst]. eexists. split; [reflexivity|].
  assert (F: Forall (fun x => length x = p) (zipw (fun _ v => v) (chunks k p buf) vs)).
  { apply (zipw_all _ (fun v => length v = p)); auto. apply chunks_each; auto. }
  assert (L: length (concat (zipw (fun _ v => v) (chunks k p buf) vs)) = (p * k)%nat).
  { rewrite (concat_uniform p) by auto. rewrite zipw_length, chunks_length. reflexivity. }
  unfold laid_out, one_plane. rewrite Z.mul_1_r.
  assert (EN: len buf / Z.of_nat p = Z.of_nat k) by (unfold len, k; rewrite nat_div_div; lia).
  rewrite EN. split; [|split].
  - unfold len. rewrite app_length, L, skipn_length. lia.
  - intros i c I C. assert (c = 0) as -> by lia.
    replace (1 * i + 0) with i by lia. rewrite <- (Z2Nat.id i) by lia. rewrite <- !chunk_slice.
    rewrite Z2Nat.id by lia.
    assert (CN := chunks_nth p k buf (Z.to_nat i) ltac:(lia)).
    apply concat_nth; auto. rewrite zipw_nth, CN. destruct (nth_error vs (Z.to_nat i)); reflexivity.
  - replace (Z.to_nat (Z.of_nat p * Z.of_nat k)) with (p * k)%nat by lia.
    rewrite skipn_exact by auto. f_equal. lia.
Qed.

(** Pixels of three channels. *)
Lemma pixels_nth (p : nat) (buf : list Z) k i : let cs := chunks (length buf / p) p buf in
  k = (length cs / 3)%nat -> (0 < p)%nat -> (i < k)%nat ->
  nth_error (chunks k 3 cs) i
  = Some (map (fun c => slice buf (Z.of_nat p * (3 * Z.of_nat i + c)) (Z.of_nat p)) [0; 1; 2]).
Proof.
  intros cs EK P I. rewrite chunks_nth by auto. f_equal.
  assert (LC: length cs = (length buf / p)%nat) by (unfold cs; apply chunks_length).
  assert (K3: (3 * k <= length cs)%nat) by (subst k; apply Nat.mul_div_le; lia).
  assert (N: forall c, (c < 3)%nat -> nth_error cs (3 * i + c)
             = Some (slice buf (Z.of_nat p * (3 * Z.of_nat i + Z.of_nat c)) (Z.of_nat p))).
  { intros c C. unfold cs. rewrite chunks_nth by lia. rewrite chunk_slice. do 2 f_equal. lia. }
  pose proof (N 0%nat ltac:(lia)) as N0. pose proof (N 1%nat ltac:(lia)) as N1. pose proof (N 2%nat ltac:(lia)) as N2.
  assert (SK: forall c, nth_error (skipn (3 * i) cs) c = nth_error cs (3 * i + c)).
  { intro c. rewrite <- (firstn_skipn (3 * i) cs) at 2. rewrite nth_error_app2; rewrite firstn_length; [f_equal|]; lia. }
  rewrite <- SK in N0, N1, N2. cbn [map].
  destruct (skipn (3 * i) cs) as [|a [|b [|c r]]]; try discriminate.
  cbn [nth_error] in N0, N1, N2. injection N0 as ->. injection N1 as ->. injection N2 as ->. reflexivity.
Qed.

Definition pixel_shape (p : nat) (x : list (list Z)) : Prop := length x = 3%nat /\ Forall (fun v => length v = p) x.

Lemma pixels_shape (p : nat) (buf : list Z) k : let cs := chunks (length buf / p) p buf in
  k = (length cs / 3)%nat -> (0 < p)%nat -> Forall (pixel_shape p) (chunks k 3 cs).
Proof.
  intros cs EK P. apply Forall_forall. intros x I. apply In_nth_error in I as (i & E).
  assert (I: (i < k)%nat).
  { assert (H: nth_error (chunks k 3 cs) i <> None) by congruence. apply nth_error_Some in H. rewrite chunks_length in H. auto. }
  unfold cs in E. rewrite pixels_nth in E by auto. injection E as <-. split; [reflexivity|].
  assert (LC: length cs = (length buf / p)%nat) by (unfold cs; apply chunks_length).
  assert (K3: (3 * k <= length cs)%nat) by (subst k; apply Nat.mul_div_le; lia).
  assert (LB: (p * (length buf / p) <= length buf)%nat) by (apply Nat.mul_div_le; lia).
  assert (forall c, 0 <= c < 3 -> length (slice buf (Z.of_nat p * (3 * Z.of_nat i + c)) (Z.of_nat p)) = p).
  { intros c C. assert (len (slice buf (Z.of_nat p * (3 * Z.of_nat i + c)) (Z.of_nat p)) = Z.of_nat p).
    { apply slice_length; [nia|lia|]. unfold len. nia. }
    unfold len in *. lia. }
  cbn [map]. repeat constructor; apply H; lia.
Qed.

Lemma set_nth_length {A} (v : A) : forall n l, length (set_nth n v l) = length l.
Proof. induction n; destruct l; cbn [set_nth length]; auto. Qed.

Lemma set_nth_shape p c x v : pixel_shape p x -> length v = p -> pixel_shape p (set_nth c v x).
Proof.
  intros (L & F) V. split; [rewrite set_nth_length; auto|].
  revert c. clear L. induction F; intros [|c]; cbn [set_nth]; auto.
Qed.

(** What the buffer holds once the pixels have been replaced. *)
Lemma pixels_written (p : nat) (buf : list Z) (ps : list (list (list Z))) src vs :
  let cs := chunks (length buf / p) p buf in
  let k := (length cs / 3)%nat in
  (0 < p)%nat -> length ps = k -> Forall (pixel_shape p) ps ->
  (forall i c, (i < k)%nat -> 0 <= c < 3 ->
     match nth_error ps i with
     | Some x => nth_error x (Z.to_nat c)
     | None => None
     end = Some match nth_error vs (Z.to_nat (src (Z.of_nat k) c (Z.of_nat i))) with
                | Some v => v
                | None => slice buf (Z.of_nat p * (3 * Z.of_nat i + c)) (Z.of_nat p)
                end) ->
  laid_out (Z.of_nat p) 3 src vs buf
    (concat (concat ps) ++ concat (skipn (k * 3) cs) ++ skipn (length buf / p * p) buf).
Proof.
  intros cs k P LP SH N.
  assert (LC: length cs = (length buf / p)%nat) by (unfold cs; apply chunks_length).
  assert (EK: len buf / (Z.of_nat p * 3) = Z.of_nat k).
  { rewrite <- Z.div_div by lia. unfold k. rewrite nat_div_div by lia. rewrite LC, nat_div_div by lia. reflexivity. }
  assert (F3: Forall (fun x => length x = 3%nat) ps) by (eapply Forall_impl; [|exact SH]; intros ? (? & _); auto).
  assert (FP: Forall (fun v => length v = p) (concat ps)).
  { clear -SH. induction SH as [|x l (L & F) H IH]; cbn [concat]; auto. apply Forall_app. auto. }
  assert (L3: length (concat ps) = (3 * k)%nat) by (rewrite (concat_uniform 3), LP; auto).
  assert (LL: length (concat (concat ps)) = (p * (3 * k))%nat) by (rewrite (concat_uniform p), L3; auto).
  assert (R: concat (chunks k 3 cs) ++ skipn (k * 3) cs = cs) by apply chunks_concat.
  assert (RB: concat cs ++ skipn (length buf / p * p) buf = buf) by apply chunks_concat.
  assert (KC: (3 * k <= length cs)%nat) by (unfold k; apply Nat.mul_div_le; lia).
  assert (LB: (p * (length buf / p) <= length buf)%nat) by (apply Nat.mul_div_le; lia).
  assert (E0: concat (skipn (k * 3) cs) ++ skipn (length buf / p * p) buf = skipn (p * (3 * k)) buf).
  { assert (HB: concat (concat (chunks k 3 cs)) ++ (concat (skipn (k * 3) cs) ++ skipn (length buf / p * p) buf) = buf).
    { rewrite app_assoc, <- concat_app, R. exact RB. }
    apply (f_equal (skipn (p * (3 * k)))) in HB. rewrite skipn_exact in HB; [exact HB|].
    rewrite (concat_uniform p).
    - rewrite (concat_uniform 3), chunks_length; auto. apply chunks_each. lia.
    - assert (FC: Forall (fun v => length v = p) cs) by (apply chunks_each; lia).
      rewrite <- R in FC. apply Forall_app in FC as (FC & _). exact FC. }
  rewrite E0. unfold laid_out. rewrite EK.
  assert (KB: (p * (3 * k) <= length buf)%nat) by nia.
  split; [|split].
  - unfold len. rewrite app_length, LL, skipn_length. lia.
  - intros i c I C. specialize (N (Z.to_nat i) c ltac:(lia) C).
    rewrite Z2Nat.id in N by lia.
    destruct (nth_error ps (Z.to_nat i)) as [x|] eqn:EX; [|discriminate].
    assert (NC := concat_nth_error 3 ps (Z.to_nat i) (Z.to_nat c) x F3 EX ltac:(lia)).
    rewrite N in NC.
    pose proof (concat_nth p (concat ps) _ _ (skipn (p * (3 * k)) buf) FP NC) as CN.
    rewrite chunk_slice in CN.
    replace (Z.of_nat (3 * Z.to_nat i + Z.to_nat c)) with (3 * i + c) in CN by lia. exact CN.
  - replace (Z.to_nat (Z.of_nat p * 3 * Z.of_nat k)) with (p * (3 * k))%nat by lia.
    rewrite skipn_exact by auto. reflexivity.
Qed.

Lemma splat_layout {S} pull (p : nat) buf (s : S) vs :
  (0 < p)%nat -> gives pull s (Z.of_nat p) vs ->
  exists after, write_splat S pull p buf s = Some (Ok after) /\ laid_out (Z.of_nat p) 3 one_plane vs buf after.
Proof.
  intros P G. pose proof (gives_widths _ _ _ _ G) as W. rewrite Nat2Z.id in W.
  unfold write_splat, as_chunks. set (cs := chunks (length buf / p) p buf). set (k := (length cs / 3)%nat).
  destruct (zip_write_gives pull _ (fun _ v => [v; v; v]) (chunks k 3 cs) s vs G) as (s' & E & _).
  rewrite E. cbn [finish fst]. eexists. split; [reflexivity|].
  apply pixels_written; auto.
  - rewrite zipw_length, chunks_length. reflexivity.
  - apply (zipw_all _ (fun v => length v = p)); auto.
    + intros x v _ V. split; [reflexivity|auto].
    + apply pixels_shape; auto.
  - fold cs. fold k. intros i c I C. rewrite zipw_nth.
    unfold cs at 1. rewrite (pixels_nth p buf k i) by auto. unfold one_plane. rewrite Nat2Z.id.
    assert (CC: c = 0 \/ c = 1 \/ c = 2) by lia.
    destruct (nth_error vs i); destruct CC as [ -> | [ -> | -> ]]; reflexivity.
Qed.

Lemma rgb_layout {S} pull (p : nat) buf (s : S) vs :
  (0 < p)%nat -> gives pull s (Z.of_nat p) vs ->
  exists after, write_rgb S pull p buf s = Some (Ok after) /\ laid_out (Z.of_nat p) 3 by_plane vs buf after.
Proof.
  intros P G. pose proof (gives_widths _ _ _ _ G) as W. rewrite Nat2Z.id in W.
  unfold write_rgb, as_chunks. set (cs := chunks (length buf / p) p buf). set (k := (length cs / 3)%nat).
  set (ps := chunks k 3 cs).
  assert (LP: length ps = k) by (unfold ps; apply chunks_length).
  assert (SH: Forall (pixel_shape p) ps) by (apply pixels_shape; auto).
  cbn [write_channels].
  destruct (zip_write_gives pull _ (fun x v => set_nth 0 v x) ps s vs G) as (s1 & E1 & G1). rewrite E1.
  set (ps1 := zipw (fun x v => set_nth 0 v x) ps vs) in *.
  assert (LP1: length ps1 = k) by (unfold ps1; rewrite zipw_length; auto).
  destruct (zip_write_gives pull _ (fun x v => set_nth 1 v x) ps1 s1 _ G1) as (s2 & E2 & G2). rewrite E2.
  set (ps2 := zipw (fun x v => set_nth 1 v x) ps1 (skipn (length ps) vs)) in *.
  assert (LP2: length ps2 = k) by (unfold ps2; rewrite zipw_length; auto).
  destruct (zip_write_gives pull _ (fun x v => set_nth 2 v x) ps2 s2 _ G2) as (s3 & E3 & G3). rewrite E3.
  set (ps3 := zipw (fun x v => set_nth 2 v x) ps2 (skipn (length ps1) (skipn (length ps) vs))).
  cbn [finish fst]. eexists. split; [reflexivity|].
  assert (WS: forall n, Forall (fun v => length v = p) (skipn n vs)).
  { intro n. clear -W. revert n. induction W; intros [|n]; cbn [skipn]; auto. }
  assert (ST: forall c x v, pixel_shape p x -> length v = p -> pixel_shape p (set_nth c v x)) by (intros; apply set_nth_shape; auto).
  assert (SH1: Forall (pixel_shape p) ps1) by (apply (zipw_all _ (fun v => length v = p)); auto).
  assert (SH2: Forall (pixel_shape p) ps2) by (apply (zipw_all _ (fun v => length v = p)); auto).
  apply pixels_written; auto.
  - unfold ps3. rewrite zipw_length. auto.
  - unfold ps3. apply (zipw_all _ (fun v => length v = p)); auto. rewrite skipn_skipn. auto.
  - fold cs. fold k. intros i c I C.
    assert (SN: forall n j, nth_error (skipn n vs) j = nth_error vs (n + j)).
    { intros n j. destruct (Nat.le_gt_cases n (length vs)) as [H|H].
      - rewrite <- (firstn_skipn n vs) at 2. rewrite nth_error_app2; rewrite firstn_length; [f_equal|]; lia.
      - rewrite skipn_all2 by lia. symmetry. destruct j; apply nth_error_None; lia. }
    unfold ps3. rewrite zipw_nth. unfold ps2. rewrite zipw_nth. unfold ps1. rewrite zipw_nth.
    unfold ps, cs. rewrite (pixels_nth p buf k i) by auto. fold cs. fold ps. fold ps1.
    rewrite skipn_skipn, !SN, LP, LP1. unfold by_plane.
    assert (CC: c = 0 \/ c = 1 \/ c = 2) by lia.
    replace (Z.to_nat (c * Z.of_nat k + Z.of_nat i)) with (Z.to_nat c * k + i)%nat by nia.
    destruct CC as [ -> | [ -> | -> ]].
    + change (Z.to_nat 0 * k + i)%nat with i.
      destruct (nth_error vs i), (nth_error vs (k + i)), (nth_error vs (k + k + i)); reflexivity.
    + replace (Z.to_nat 1 * k + i)%nat with (k + i)%nat by (change (Z.to_nat 1) with 1%nat; lia).
      destruct (nth_error vs i), (nth_error vs (k + i)), (nth_error vs (k + k + i)); reflexivity.
    + replace (Z.to_nat 2 * k + i)%nat with (k + k + i)%nat by (change (Z.to_nat 2) with 2%nat; lia).
      destruct (nth_error vs i), (nth_error vs (k + i)), (nth_error vs (k + k + i)); reflexivity.
Qed.

Lemma pixels_layout {S} pull b rgb buf (s : S) vs :
  gives pull s (depth b) vs ->
  exists after, write_pixels S pull b rgb buf s = Some (Ok after) /\
    laid_out (depth b) (channels b rgb) (place rgb) vs buf after.
Proof.
  intro G. unfold write_pixels, place, channels.
  assert (E: depth b = Z.of_nat (sample_width b)) by (destruct b; reflexivity).
  assert (0 < sample_width b)%nat by (destruct b; simpl; lia).
  rewrite E in *. destruct rgb; [apply rgb_layout; auto|].
  destruct b; first [apply luma_layout; auto | apply splat_layout; auto].
Qed.

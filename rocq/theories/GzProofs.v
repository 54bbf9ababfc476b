(** Proofs about files that may be compressed as a whole. *)

From Coq Require Import ZifyBool.
From Verif Require Import Base Reader Fits ImageIt Gz SpecGz.

Definition buffered (b : bufr) (c : list Z) (pos : Z) : Prop :=
  rd_data (br_file b) = c /\ 0 <= pos /\ rd_pos (br_file b) = pos + len (br_buf b) /\ br_buf b = slice c pos (len (br_buf b)).
Definition shows_at (g : gz_reader) (c : list Z) (pos : Z) : Prop :=
  match g with
  | InMemory r => r = mk_reader c pos /\ 0 <= pos
  | Plain b => buffered b c pos
  end.

Lemma len_ge0 {A} (l : list A) : 0 <= len l.
Proof. unfold len. lia. Qed.
Lemma slice_len (c : list Z) pos n : 0 <= pos -> 0 <= n -> len (slice c pos n) = Z.max 0 (Z.min n (len c - pos)).
Proof. intros P N. unfold slice, len. rewrite firstn_length, skipn_length. lia. Qed.
Lemma slice_self (c : list Z) pos n : 0 <= pos -> 0 <= n -> slice c pos n = slice c pos (len (slice c pos n)).
Proof.
  intros P N. rewrite slice_len by auto. unfold slice. set (r := skipn (Z.to_nat pos) c).
  destruct (Z.le_gt_cases n (len c - pos)) as [C|C].
  - do 2 f_equal. lia.
  - assert (L: (length r <= Z.to_nat (Z.max 0 (Z.min n (len c - pos))))%nat) by (unfold r, len in *; rewrite skipn_length; lia).
    rewrite (firstn_all2 r L). apply firstn_all2. lia.
Qed.
Lemma firstn_slice (c : list Z) pos n k : 0 <= n -> 0 <= k -> firstn (Z.to_nat k) (slice c pos n) = slice c pos (Z.min k n).
Proof. intros N K. unfold slice. rewrite firstn_firstn. f_equal. lia. Qed.
Lemma skipn_slice (c : list Z) pos n k : 0 <= pos -> 0 <= n -> 0 <= k -> skipn (Z.to_nat k) (slice c pos n) = slice c (pos + k) (n - k).
Proof.
  intros P N K. unfold slice. rewrite skipn_firstn_comm, skipn_skipn. f_equal; [lia|]. f_equal. lia.
Qed.

(** What a read gives. *)
Definition good_read (c : list Z) (pos n : Z) (bs : list Z) : Prop :=
  bs = slice c pos (len bs) /\ len bs <= n /\ (0 < n -> pos < len c -> bs <> []).

Lemma read_some_good c pos n : 0 <= pos -> 0 <= n ->
  good_read c pos n (fst (read_some (mk_reader c pos) n)) /\
  snd (read_some (mk_reader c pos) n) = mk_reader c (pos + len (fst (read_some (mk_reader c pos) n))).
Proof.
  intros P N. unfold read_some. cbn [fst snd rd_data rd_pos]. split; [|reflexivity]. split; [|split].
  - apply slice_self; auto.
  - rewrite slice_len by auto. lia.
  - intros H1 H2 E. pose proof (slice_len c pos n P N) as L. rewrite E in L. unfold len in *. cbn [length] in L. lia.
Qed.

(** Taking [n] bytes off those read ahead. *)
Lemma split_buffer c pos bs n f : 0 <= pos -> 0 <= n -> bs = slice c pos (len bs) -> (0 < n -> pos < len c -> bs <> []) ->
  rd_data f = c -> rd_pos f = pos + len bs ->
  good_read c pos n (firstn (Z.to_nat n) bs) /\
  buffered (mk_bufr (skipn (Z.to_nat n) bs) f) c (pos + len (firstn (Z.to_nat n) bs)).
Proof.
  intros P N B NE D F.
  assert (L1: len (firstn (Z.to_nat n) bs) = Z.min n (len bs)) by (unfold len; rewrite firstn_length; lia).
  assert (L2: len (skipn (Z.to_nat n) bs) = Z.max 0 (len bs - n)) by (unfold len; rewrite skipn_length; lia).
  pose proof (len_ge0 bs).
  split; [split; [|split]|].
  - rewrite L1. rewrite B at 1. apply firstn_slice; lia.
  - lia.
  - intros H1 H2 E. specialize (NE H1 H2). destruct bs as [|x bs]; [congruence|].
    replace (Z.to_nat n) with (S (Z.to_nat (n - 1))) in E by lia. discriminate.
  - unfold buffered. cbn [br_buf br_file]. repeat split; auto; try lia.
    rewrite L2. rewrite B at 1. rewrite skipn_slice by lia. rewrite L1.
    destruct (Z.le_gt_cases n (len bs)).
    + f_equal; lia.
    + unfold slice. replace (Z.to_nat (len bs - n)) with 0%nat by lia. replace (Z.to_nat (Z.max 0 (len bs - n))) with 0%nat by lia. reflexivity.
Qed.

Lemma bufr_read_good b c pos n : buffered b c pos -> 0 <= n ->
  good_read c pos n (fst (bufr_read b n)) /\ buffered (snd (bufr_read b n)) c (pos + len (fst (bufr_read b n))).
Proof.
  intros (D & P & F & B) N. unfold bufr_read. destruct (br_buf b) as [|x bs] eqn:E.
  - change (len (@nil Z)) with 0 in F. rewrite Z.add_0_r in F. assert (FR: br_file b = mk_reader c pos) by (destruct (br_file b); cbn in *; congruence).
    rewrite FR. destruct (Z.leb_spec buf_capacity n).
    + pose proof (read_some_good c pos n P N) as (G & R).
      destruct (read_some (mk_reader c pos) n) as (bs, f). cbn [fst snd] in *. split; auto. subst f.
      unfold buffered. cbn [br_buf br_file rd_data rd_pos]. pose proof (len_ge0 bs). change (len (@nil Z)) with 0.
      repeat split; try lia.
    + pose proof (read_some_good c pos buf_capacity P ltac:(unfold buf_capacity; lia)) as ((G1 & _ & G3) & R).
      destruct (read_some (mk_reader c pos) buf_capacity) as (bs, f). cbn [fst snd] in *. subst f.
      apply split_buffer; auto. intros _. apply G3. unfold buf_capacity. lia.
  - cbn [fst snd]. apply split_buffer; auto. intros _ _. discriminate.
Qed.

Lemma step_read g c pos n : shows_at g c pos -> 0 <= n ->
  exists bs, fst (gz_step g (Read n)) = Got bs /\ good_read c pos n bs /\ shows_at (snd (gz_step g (Read n))) c (pos + len bs).
Proof.
  intros S N. destruct g as [r|b]; cbn [gz_step cursor_step bufr_step].
  - destruct S as (-> & P). pose proof (read_some_good c pos n P N) as (G & R).
    destruct (read_some (mk_reader c pos) n) as (bs, r). cbn [fst snd] in *. exists bs. split; auto. split; auto.
    cbn [shows_at]. split; auto. pose proof (len_ge0 bs). lia.
  - pose proof (bufr_read_good b c pos n S N) as (G & B). destruct (bufr_read b n) as (bs, b'). cbn [fst snd] in *. eauto.
Qed.

Lemma step_seek g c pos s : shows_at g c pos ->
  let t := target c pos s in
  (fst (gz_step g (Seek s)) = At t /\ 0 <= t /\ shows_at (snd (gz_step g (Seek s))) c t) \/
  (fst (gz_step g (Seek s)) = Failed /\ ~ 0 <= t < 2 ^ 63 /\ shows_at (snd (gz_step g (Seek s))) c pos).
Proof.
  intros S t. destruct g as [r|b]; cbn [gz_step cursor_step bufr_step].
  - destruct S as (-> & P). cbn [rd_data rd_pos]. fold t.
    destruct (Z.leb_spec 0 t), (Z.ltb_spec t (2 ^ 64)); cbn [andb fst snd shows_at];
      try (left; split; [reflexivity|split; [lia|split; [reflexivity|lia]]]);
      (right; split; [reflexivity|split; [lia|split; [reflexivity|lia]]]).
  - pose proof S as (D & P & F & B). unfold buf_pos. replace (rd_pos (br_file b) - len (br_buf b)) with pos by lia. rewrite D. fold t.
    destruct (Z.leb_spec 0 t), (Z.ltb_spec t (2 ^ 63)); cbn [andb fst snd shows_at];
      try (right; split; [reflexivity|split; [lia|exact S]]).
    left. split; [reflexivity|split; [lia|]]. unfold buffered. cbn [br_buf br_file rd_data rd_pos]. change (len (@nil Z)) with 0. repeat split; auto; lia.
Qed.

Lemma run_follows c : forall ops g pos, shows_at g c pos -> Forall op_in_range ops -> follows c pos ops (gz_run g ops).
Proof.
  induction ops as [|o ops IH]; intros g pos S R; cbn [gz_run follows]; auto.
  inversion R as [|? ? R0 R1]; subst. destruct o as [n|s].
  - destruct (step_read g c pos n S R0) as (bs & E & (G1 & G2 & G3) & S').
    destruct (gz_step g (Read n)) as (x, g'). cbn [fst snd] in *. subst x. auto.
  - pose proof (step_seek g c pos s S) as H. destruct (gz_step g (Seek s)) as (x, g'). cbn [fst snd] in H. cbv zeta in H.
    destruct H as [(-> & H & S')|(-> & H & S')]; [left|right]; auto.
Qed.

Lemma probed_buffered sizes : forall b c pos, buffered b c pos -> Forall (fun n => 0 <= n) sizes ->
  exists pos', buffered (probed b sizes) c pos'.
Proof.
  induction sizes as [|n l IH]; intros b c pos B F; [exists pos; exact B|]. inversion F; subst. cbn [probed fold_left].
  destruct (bufr_read_good b c pos n B ltac:(auto)) as (_ & B'). exact (IH _ _ _ B' ltac:(auto)).
Qed.

Lemma open_shows lib d g : (forall l, Forall (fun n => 0 <= n) (gl_reads lib l)) -> open_file lib d = Ok g ->
  exists c, contents lib d = Some c /\ shows_at g c 0.
Proof.
  intros R E. unfold open_file, gz_new in E. cbn [br_buf br_file app] in E. change (rd_rest (mk_reader d 0)) with d in E.
  unfold contents. destruct (gl_header lib d).
  - destruct (gl_member lib d) as [c|]; [|discriminate]. injection E as <-. exists c. split; auto. cbn [shows_at]. split; [reflexivity|lia].
  - exists d. split; auto.
    assert (B0: buffered (mk_bufr [] (mk_reader d 0)) d 0) by (unfold buffered; cbn; repeat split; lia).
    destruct (probed_buffered (gl_reads lib d) _ _ _ B0 (R d)) as (pos & B).
    cbn [bufr_step target] in E. change ((0 <=? 0) && (0 <? 2 ^ 63)) with true in E. cbv iota in E. injection E as <-.
    destruct B as (D & _). cbn [shows_at]. unfold buffered. cbn [br_buf br_file rd_data rd_pos]. rewrite D. repeat split; auto; lia.
Qed.

Lemma open_ok lib d : forall c, contents lib d = Some c -> exists g, open_file lib d = Ok g.
Proof.
  intros c C. unfold open_file, gz_new, contents in *. cbn [br_buf br_file app]. change (rd_rest (mk_reader d 0)) with d.
  destruct (gl_header lib d).
  - rewrite C. eauto.
  - cbn [bufr_step target]. change ((0 <=? 0) && (0 <? 2 ^ 63)) with true. cbv iota. eauto.
Qed.

Lemma opened_reads lib d g ops : (forall l, Forall (fun n => 0 <= n) (gl_reads lib l)) -> open_file lib d = Ok g -> Forall op_in_range ops ->
  exists c, contents lib d = Some c /\ follows c 0 ops (gz_run g ops).
Proof. intros R E O. destruct (open_shows lib d g R E) as (c & C & S). exists c. split; auto. apply run_follows; auto. Qed.

(** ** [read_exact] *)

Lemma slice_app (c : list Z) pos a b : 0 <= pos -> 0 <= a -> 0 <= b -> pos + (a + b) <= len c -> slice c pos a ++ slice c (pos + a) b = slice c pos (a + b).
Proof.
  intros P A B L. rewrite (slice_split c pos (a + b) a) by lia. do 2 f_equal. lia.
Qed.

Lemma fill_spec c : forall fuel g n pos acc, shows_at g c pos -> 0 <= pos -> 0 <= n -> (Z.to_nat n <= fuel)%nat ->
  let (r, g') := fill fuel g n acc in
  if n =? 0 then r = Ok acc /\ g' = g
  else if pos + n <=? len c then r = Ok (acc ++ slice c pos n) /\ shows_at g' c (pos + n)
  else r = Err EEof /\ shows_at g' c (Z.max pos (len c)).
Proof.
  induction fuel as [|fuel IH]; intros g n pos acc S P N F; cbn [fill]; destruct (Z.eqb_spec n 0) as [->|NZ]; auto; try lia.
  destruct (step_read g c pos n S N) as (bs & E & (G1 & G2 & G3) & S').
  destruct (gz_step g (Read n)) as (x, g'). cbn [fst snd] in *. subst x.
  destruct bs as [|x bs].
  - assert (len c <= pos) by (destruct (Z.le_gt_cases (len c) pos); auto; exfalso; apply G3; auto; lia).
    replace (pos + n <=? len c) with false by lia. split; auto. change (len (@nil Z)) with 0 in S'.
    replace (Z.max pos (len c)) with (pos + 0) by lia. exact S'.
  - set (bs' := x :: bs) in *. assert (1 <= len bs') by (unfold bs', len; cbn [length]; lia). clearbody bs'.
    assert (PC: pos + len bs' <= len c).
    { pose proof (slice_len c pos (len bs') P ltac:(lia)) as L. rewrite <- G1 in L. lia. }
    specialize (IH g' (n - len bs') (pos + len bs') (acc ++ bs') S' ltac:(lia) ltac:(lia) ltac:(lia)).
    destruct (fill fuel g' (n - len bs') (acc ++ bs')) as (r, g2).
    replace (pos + len bs' + (n - len bs')) with (pos + n) in IH by lia.
    destruct (Z.eqb_spec (n - len bs') 0) as [Z0|Z0].
    + destruct IH as (-> & ->). replace (pos + n <=? len c) with true by lia. split.
      * rewrite G1. replace n with (len bs') by lia. reflexivity.
      * replace (pos + n) with (pos + len bs') by lia. exact S'.
    + destruct (Z.leb_spec (pos + n) (len c)).
      * destruct IH as (-> & S2). split; auto. rewrite <- app_assoc. do 2 f_equal. rewrite G1 at 1.
        rewrite slice_app by lia. f_equal. lia.
      * destruct IH as (-> & S2). split; auto. replace (Z.max pos (len c)) with (Z.max (pos + len bs') (len c)) by lia. exact S2.
Qed.

Lemma calls_agree c : len c < 2 ^ 63 -> forall cs g pos, shows_at g c pos -> 0 <= pos < 2 ^ 63 -> well_placed c pos cs ->
  gz_calls g cs = reader_calls (mk_reader c pos) cs.
Proof.
  intro LC. induction cs as [|k cs IH]; intros g pos S P W; cbn [gz_calls reader_calls]; auto.
  destruct k as [n|off|p|]; cbn [well_placed gz_call reader_call] in *.
  - destruct W as (N & W). pose proof (fill_spec c (Z.to_nat n) g n pos [] S ltac:(lia) N ltac:(lia)) as H.
    unfold gz_read_exact. destruct (fill (Z.to_nat n) g n []) as (r, g'). unfold read_exact. cbn [rd_pos rd_data].
    destruct (Z.eqb_spec n 0) as [->|NZ].
    + destruct H as (-> & ->). f_equal. apply IH; auto.
    + destruct (Z.leb_spec (pos + n) (len c)) as [L|L].
      * destruct H as (-> & S'). cbn [app]. f_equal. apply IH; auto; lia.
      * destruct H as (-> & S'). subst cs. reflexivity.
  - destruct W as (W0 & W). pose proof (step_seek g c pos (FromCurrent off) S) as H. cbv zeta in H. cbn [target] in H.
    destruct (gz_step g (Seek (FromCurrent off))) as (x, g'). cbn [fst snd] in H. unfold seek_relative. cbn [rd_pos rd_data].
    destruct (Z.leb_spec 0 (pos + off)).
    + replace (pos + off <? 2 ^ 64) with true by lia. cbn [andb].
      destruct H as [(-> & _ & S')|(-> & H & _)]; [|lia]. f_equal. apply IH; auto; lia.
    + cbn [andb]. destruct H as [(-> & H & S')|(-> & H & S')]; [lia|]. f_equal. apply IH; auto.
  - destruct W as (W0 & W). pose proof (step_seek g c pos (FromStart p) S) as H. cbv zeta in H. cbn [target] in H.
    destruct (gz_step g (Seek (FromStart p))) as (x, g'). cbn [fst snd] in H. unfold seek_start. cbn [rd_data].
    destruct H as [(-> & _ & S')|(-> & H & _)]; [|lia]. f_equal. apply IH; auto.
  - pose proof (step_seek g c pos (FromCurrent 0) S) as H. cbv zeta in H. cbn [target] in H. rewrite Z.add_0_r in H.
    destruct (gz_step g (Seek (FromCurrent 0))) as (x, g'). cbn [fst snd] in H. cbn [rd_pos].
    destruct H as [(-> & _ & S')|(-> & H & _)]; [|lia]. f_equal. apply IH; auto.
Qed.

Lemma opened_calls lib d g c cs : (forall l, Forall (fun n => 0 <= n) (gl_reads lib l)) ->
  open_file lib d = Ok g -> contents lib d = Some c -> len c < 2 ^ 63 -> well_placed c 0 cs ->
  gz_calls g cs = reader_calls (mk_reader c 0) cs.
Proof.
  intros R E C L W. destruct (open_shows lib d g R E) as (c' & C' & S). rewrite C in C'. injection C' as <-.
  apply calls_agree; auto. lia.
Qed.

(** Proofs about files that may be compressed as a whole, when the file can fail. *)

From Coq Require Import ZifyBool.
From Verif Require Import Base Utf8 Text Card Reader Header Xtension Bytes Fits ImageIt Gz SpecGz GzProofs Device DeviceGz SpecDeviceGz.
From Verif Require Import SpecUtf8 SpecCard SpecHeader SpecXt SpecFits TextLemmas CardProofs CardProofs2 HeaderProofs FitsProofs DeviceTableProofs.

(** The calls between [fs] and [fs'], [k] of which have failed. *)
Definition spent (fs fs' : fcalls) (k : nat) : Prop := exists used, fs = used ++ fs' /\ failures used = k.
Lemma spent_none fs : spent fs fs 0.
Proof. exists []. auto. Qed.
Lemma spent_trans fs fs1 fs2 a b : spent fs fs1 a -> spent fs1 fs2 b -> spent fs fs2 (a + b).
Proof.
  intros (u & -> & <-) (v & -> & <-). exists (u ++ v). split; [apply app_assoc|]. unfold failures. rewrite filter_app, app_length. reflexivity.
Qed.
Lemma spent_failures fs fs' k : spent fs fs' k -> failures fs = (k + failures fs')%nat.
Proof. intros (u & -> & <-). unfold failures. rewrite filter_app, app_length. reflexivity. Qed.
Lemma first_spent fs : let (x, fs') := first_call fs in spent fs fs' (if failure x then 1 else 0).
Proof. destruct fs as [|x l]; cbn [first_call]; [apply spent_none|]. exists [x]. split; auto. destruct x; reflexivity. Qed.

Lemma file_read_good c pos n x bs f : 0 <= pos -> 0 <= n -> file_read x (mk_reader c pos) n = Some (bs, f) ->
  good_read c pos n bs /\ f = mk_reader c (pos + len bs) /\ failure x = false.
Proof.
  intros P N E.
  assert (H: forall n', n' <= n -> 0 <= n' -> (0 < n -> 0 < n') -> read_some (mk_reader c pos) n' = (bs, f) ->
    good_read c pos n bs /\ f = mk_reader c (pos + len bs)).
  { intros n' L0 L1 L2 E'. pose proof (read_some_good c pos n' P L1) as ((G1 & G2 & G3) & R). rewrite E' in *. cbn [fst snd] in *.
    split; [split; [|split]|]; auto. lia. }
  destruct x as [|k|]; cbn [file_read] in E; [| |discriminate]; assert (Some_eq: forall A (a b : A), Some a = Some b -> a = b) by congruence; apply Some_eq in E.
  - destruct (H n ltac:(lia) N ltac:(auto) E). auto.
  - destruct (H (Z.min n (Z.max 1 k)) ltac:(lia) ltac:(lia) ltac:(lia) E). auto.
Qed.

Lemma bufr_read_fails b c pos n fs : buffered b c pos -> 0 <= n ->
  match dev_bufr_read b n fs with
  | (Some bs, b', fs') => good_read c pos n bs /\ buffered b' c (pos + len bs) /\ spent fs fs' 0
  | (None, b', fs') => b' = b /\ spent fs fs' 1
  end.
Proof.
  intros (D & P & F & B) N. unfold dev_bufr_read. destruct (br_buf b) as [|x bs] eqn:E.
  - change (len (@nil Z)) with 0 in F. rewrite Z.add_0_r in F. assert (FR: br_file b = mk_reader c pos) by (destruct (br_file b); cbn in *; congruence).
    rewrite FR. pose proof (first_spent fs) as Sp. destruct (first_call fs) as (x, fs').
    destruct (Z.leb_spec buf_capacity n).
    + destruct (file_read x (mk_reader c pos) n) as [(bs, f)|] eqn:R.
      * destruct (file_read_good _ _ _ _ _ _ P N R) as (G & -> & Nf). rewrite Nf in Sp. split; auto. split; auto.
        unfold buffered. cbn [br_buf br_file rd_data rd_pos]. pose proof (len_ge0 bs). change (len (@nil Z)) with 0.
        repeat split; try lia.
      * destruct x; try discriminate. auto.
    + destruct (file_read x (mk_reader c pos) buf_capacity) as [(bs, f)|] eqn:R.
      * destruct (file_read_good c pos buf_capacity _ _ _ P ltac:(unfold buf_capacity; lia) R) as ((G1 & _ & G3) & -> & Nf). rewrite Nf in Sp.
        assert (S: good_read c pos n (firstn (Z.to_nat n) bs) /\ buffered (mk_bufr (skipn (Z.to_nat n) bs) (mk_reader c (pos + len bs))) c (pos + len (firstn (Z.to_nat n) bs))).
        { apply split_buffer; auto. intros _. apply G3. unfold buf_capacity. lia. }
        destruct S. auto.
      * destruct x; try discriminate. auto.
  - destruct (split_buffer c pos (x :: bs) n (br_file b) P N B ltac:(intros; discriminate) D F) as (G & B'). split; auto. split; auto. apply spent_none.
Qed.

Lemma dev_step_read g c pos n fs : shows_at g c pos -> 0 <= n ->
  match dev_gz_step g (Read n) fs with
  | (Got bs, g', fs') => good_read c pos n bs /\ shows_at g' c (pos + len bs) /\ spent fs fs' 0
  | (Failed, g', fs') => g' = g /\ spent fs fs' 1
  | _ => False
  end.
Proof.
  intros S N. destruct g as [r|b]; cbn [dev_gz_step cursor_step dev_bufr_step].
  - destruct S as (-> & P). pose proof (read_some_good c pos n P N) as (G & R).
    destruct (read_some (mk_reader c pos) n) as (bs, r). cbn [fst snd] in *. split; auto. split; [|apply spent_none].
    cbn [shows_at]. split; auto. pose proof (len_ge0 bs). lia.
  - pose proof (bufr_read_fails b c pos n fs S N) as H. destruct (dev_bufr_read b n fs) as (([bs|], b'), fs').
    + exact H.
    + destruct H as (-> & H). auto.
Qed.

Lemma dev_step_seek g c pos s fs : shows_at g c pos ->
  let t := target c pos s in
  let '(x, g', fs') := dev_gz_step g (Seek s) fs in
  (x = At t /\ 0 <= t /\ shows_at g' c t /\ spent fs fs' 0) \/
  (x = Failed /\ ~ 0 <= t < 2 ^ 63 /\ shows_at g' c pos /\ spent fs fs' 0) \/
  (x = Failed /\ shows_at g' c pos /\ spent fs fs' 1).
Proof.
  intros S t. pose proof (step_seek g c pos s S) as H. fold t in H. cbv zeta in H.
  destruct g as [r|b]; cbn [dev_gz_step dev_bufr_step gz_step] in *.
  - destruct (cursor_step r (Seek s)) as (x, c'). cbn [fst snd] in H. destruct H as [(-> & H)|(-> & H)]; [left|right; left]; intuition auto using spent_none.
  - pose proof (first_spent fs) as Sp. destruct (first_call fs) as (x, fs').
    destruct x; cbn [failure] in Sp; destruct (bufr_step b (Seek s)) as (y, b'); cbn [fst snd] in H;
      [destruct H as [(-> & H)|(-> & H)]; [left|right; left]; intuition auto..|right; right; auto].
Qed.

Lemma run_follows_failing c : forall ops g pos fs, shows_at g c pos -> Forall op_in_range ops ->
  follows_failing (failures fs) c pos ops (dev_gz_run g ops fs).
Proof.
  induction ops as [|o ops IH]; intros g pos fs S R; cbn [dev_gz_run follows_failing]; auto.
  inversion R as [|? ? R0 R1]; subst. destruct o as [n|s].
  - pose proof (dev_step_read g c pos n fs S R0) as H. destruct (dev_gz_step g (Read n) fs) as ((x, g'), fs').
    destruct x as [bs|p|]; [|contradiction|].
    + destruct H as ((G1 & G2 & G3) & S' & Sp). right. exists bs. pose proof (spent_failures _ _ _ Sp) as ->. cbn [Nat.add]. repeat split; auto.
    + destruct H as (-> & Sp). left. exists (failures fs'). pose proof (spent_failures _ _ _ Sp) as ->. auto.
  - pose proof (dev_step_seek g c pos s fs S) as H. cbv zeta in H. destruct (dev_gz_step g (Seek s) fs) as ((x, g'), fs').
    destruct H as [(-> & H & S' & Sp)|[(-> & H & S' & Sp)|(-> & S' & Sp)]]; pose proof (spent_failures _ _ _ Sp) as ->; cbn [Nat.add].
    + right. left. auto.
    + right. right. auto.
    + left. exists (failures fs'). auto.
Qed.

Lemma reads_spent sizes : forall b c pos fs, buffered b c pos -> Forall (fun n => 0 <= n) sizes ->
  let '(ok, b', fs') := dev_reads b sizes fs in
  (exists pos', buffered b' c pos') /\ spent fs fs' (if ok then 0 else 1).
Proof.
  induction sizes as [|n l IH]; intros b c pos fs B F; cbn [dev_reads]; [split; [exists pos; exact B|apply spent_none]|].
  inversion F; subst. pose proof (bufr_read_fails b c pos n fs B ltac:(auto)) as H.
  destruct (dev_bufr_read b n fs) as (([bs|], b'), fs').
  - destruct H as (_ & B' & Sp). specialize (IH b' c _ fs' B' ltac:(auto)). destruct (dev_reads b' l fs') as ((ok, b2), fs2).
    destruct IH as (A & Sp2). split; auto. exact (spent_trans _ _ _ _ _ Sp Sp2).
  - destruct H as (-> & Sp). split; eauto.
Qed.

(** Opening, from a file that was not read yet. *)
Lemma opened lib probe body d fs r fs' : nonneg probe -> nonneg body -> dev_open_file lib probe body d fs = (r, fs') ->
  exists k, spent fs fs' k /\
  match r with
  | Ok g => (exists c, shows_at g c 0 /\ contents lib d = Some c /\ (gl_header lib d = true -> k = O /\ g = InMemory (mk_reader c 0))) \/
            (shows_at g d 0 /\ gl_header lib d = true /\ k = 1%nat)
  | Err _ => (1 <= k)%nat \/ contents lib d = None
  | Panic => False
  end.
Proof.
  intros F1 F2 E. unfold dev_open_file, dev_gz_new in E. cbn [br_buf br_file app] in E. change (rd_rest (mk_reader d 0)) with d in E.
  assert (B0: buffered (mk_bufr [] (mk_reader d 0)) d 0) by (unfold buffered; cbn; repeat split; lia).
  pose proof (reads_spent probe _ _ _ fs B0 F1) as H. destruct (dev_reads _ probe fs) as ((found, b1), fs1).
  destruct H as ((p1 & B1) & Sp1). unfold contents. destruct found; cbn [andb] in E.
  - destruct (gl_header lib d) eqn:Hd.
    + pose proof (reads_spent body _ _ _ fs1 B1 F2) as H. destruct (dev_reads b1 body fs1) as ((whole, b2), fs2).
      destruct H as (_ & Sp2). pose proof (spent_trans _ _ _ _ _ Sp1 Sp2) as Sp. destruct whole; injection E as <- <-.
      * exists (0 + 0)%nat. split; auto. destruct (gl_member lib d) as [c|]; auto. left. exists c. split; [cbn; split; [reflexivity|lia]|auto].
      * exists (0 + 1)%nat. split; auto.
    + pose proof (dev_step_seek (Plain b1) d p1 (FromStart 0) fs1 B1) as H. cbn [dev_gz_step target] in H.
      destruct (dev_bufr_step b1 (Seek (FromStart 0)) fs1) as ((x, b'), fs2). cbv zeta in H.
      destruct H as [(-> & _ & S' & Sp2)|[(-> & H & _)|(-> & _ & Sp2)]]; [|lia|]; injection E as <- <-; pose proof (spent_trans _ _ _ _ _ Sp1 Sp2) as Sp; eexists; (split; [exact Sp|]).
      * left. exists d. split; [exact S'|split; [reflexivity|discriminate]].
      * auto.
  - pose proof (dev_step_seek (Plain b1) d p1 (FromStart 0) fs1 B1) as H. cbn [dev_gz_step target] in H.
    destruct (dev_bufr_step b1 (Seek (FromStart 0)) fs1) as ((x, b'), fs2). cbv zeta in H.
    destruct H as [(-> & _ & S' & Sp2)|[(-> & H & _)|(-> & _ & Sp2)]]; [|lia|]; injection E as <- <-; pose proof (spent_trans _ _ _ _ _ Sp1 Sp2) as Sp; eexists; (split; [exact Sp|]).
    + destruct (gl_header lib d) eqn:Hd; [right; auto|]. left. exists d. split; [exact S'|split; [reflexivity|discriminate]].
    + left. lia.
Qed.

Lemma memory_keeps c : forall ops g fs fs2, g = InMemory c -> dev_gz_run g ops fs = dev_gz_run g ops fs2.
Proof.
  intros ops g fs fs2 ->. revert c. induction ops as [|o ops IH]; intro c; cbn [dev_gz_run dev_gz_step]; auto.
  destruct (cursor_step c o) as (x, c'). f_equal. apply IH.
Qed.

(** ** The calls of the crate *)

Lemma dev_fill_spec c : forall fuel g n pos acc fs, shows_at g c pos -> 0 <= pos -> 0 <= n -> (Z.to_nat n <= fuel)%nat ->
  let '(r, g', fs') := dev_fill fuel g n acc fs in
  if n =? 0 then r = Ok acc /\ g' = g /\ fs' = fs
  else (r = Err EIoOther /\ (exists k, 0 <= k < n /\ shows_at g' c (pos + k)) /\ spent fs fs' 1) \/
       (spent fs fs' 0 /\
        if pos + n <=? len c then r = Ok (acc ++ slice c pos n) /\ shows_at g' c (pos + n)
        else r = Err EEof).
Proof.
  induction fuel as [|fuel IH]; intros g n pos acc fs S P N F; cbn [dev_fill]; destruct (Z.eqb_spec n 0) as [->|NZ]; auto; try lia.
  pose proof (dev_step_read g c pos n fs S N) as H.
  destruct (dev_gz_step g (Read n) fs) as ((x, g'), fs'). destruct x as [bs|p|]; [|contradiction|].
  2: { destruct H as (-> & Sp). left. split; auto. split; auto. exists 0. rewrite Z.add_0_r. split; [lia|auto]. }
  destruct H as ((G1 & G2 & G3) & S' & Sp). destruct bs as [|x bs].
  - assert (len c <= pos) by (destruct (Z.le_gt_cases (len c) pos); auto; exfalso; apply G3; auto; lia).
    right. split; auto. replace (pos + n <=? len c) with false by lia. reflexivity.
  - set (bs' := x :: bs) in *. assert (1 <= len bs') by (unfold bs', len; cbn [length]; lia). clearbody bs'.
    assert (PC: pos + len bs' <= len c).
    { pose proof (slice_len c pos (len bs') P ltac:(lia)) as L. rewrite <- G1 in L. lia. }
    specialize (IH g' (n - len bs') (pos + len bs') (acc ++ bs') fs' S' ltac:(lia) ltac:(lia) ltac:(lia)).
    destruct (dev_fill fuel g' (n - len bs') (acc ++ bs') fs') as ((r, g2), fs2).
    replace (pos + len bs' + (n - len bs')) with (pos + n) in IH by lia.
    destruct (Z.eqb_spec (n - len bs') 0) as [Z0|Z0].
    + destruct IH as (-> & -> & ->). right. split; auto. replace (pos + n <=? len c) with true by lia. split.
      * rewrite G1. replace n with (len bs') by lia. reflexivity.
      * replace (pos + n) with (pos + len bs') by lia. exact S'.
    + destruct IH as [(-> & (k & K & S2) & Sp2)|(Sp2 & IH)].
      * left. split; auto. split; [|exact (spent_trans _ _ _ _ _ Sp Sp2)]. exists (len bs' + k). split; [lia|]. rewrite Z.add_assoc. exact S2.
      * right. split; [exact (spent_trans _ _ _ _ _ Sp Sp2)|]. destruct (Z.leb_spec (pos + n) (len c)); auto.
        destruct IH as (-> & S2). split; auto. rewrite <- app_assoc. do 2 f_equal. rewrite G1 at 1.
        rewrite slice_app by lia. f_equal. lia.
Qed.

Lemma below_mono : forall cs a b, a <= b -> below b cs -> below a cs.
Proof.
  induction cs as [|k cs IH]; intros a b L H; cbn [below] in *; [lia|].
  destruct k as [n|off|p|]; [destruct H; split; auto; eapply IH; [|eassumption]; lia| | |]; try (eapply IH; [|eassumption]; lia).
  destruct H; split; auto; eapply IH; [|eassumption]; lia.
Qed.
Lemma below_here : forall cs a, below a cs -> a < 2 ^ 63.
Proof.
  induction cs as [|k cs IH]; intros a H; cbn [below] in *; [lia|].
  destruct k as [n|off|p|]; [destruct H as (? & H)| |destruct H as (? & H)|]; apply IH in H; lia.
Qed.

Definition covers (fs : fcalls) (fs' : faults) (cs : list call) : Prop :=
  List.length fs' = List.length cs /\ (broken_calls fs' <= failures fs)%nat /\
  Forall2 (fun x c => match x with Some k => 0 <= k /\ match c with CExact n => k < n | _ => k = 0 end | None => True end) fs' cs.
Lemma covers_cons fs fs1 fs' k x c cs : spent fs fs1 k -> covers fs1 fs' cs ->
  match x with Some j => k = 1%nat /\ 0 <= j /\ match c with CExact n => j < n | _ => j = 0 end | None => True end ->
  covers fs (x :: fs') (c :: cs).
Proof.
  intros Sp (A & B & C) X. pose proof (spent_failures _ _ _ Sp) as F. unfold covers, broken_calls in *. cbn [filter length].
  split; [lia|]. split.
  - destruct x; cbn [length]; lia.
  - constructor; auto. destruct x; tauto.
Qed.

Lemma until_cons a l l' : until_eof l = until_eof l' -> until_eof (a :: l) = until_eof (a :: l').
Proof. intro H. cbn [until_eof]. destruct a as [| | |e|]; try (f_equal; exact H). destruct e; auto; f_equal; exact H. Qed.

Lemma covers_all (cs : list call) fs : covers fs (repeat None (length cs)) cs.
Proof.
  split; [apply repeat_length|]. split.
  - unfold broken_calls. induction cs; cbn; auto; lia.
  - induction cs; cbn; constructor; auto.
Qed.

Lemma calls_covered c : len c < 2 ^ 63 -> forall cs g pos fs, shows_at g c pos -> 0 <= pos -> below pos cs ->
  exists fs', covers fs fs' cs /\ until_eof (dev_gz_calls g cs fs) = until_eof (dev_reader_calls (mk_reader c pos) cs fs').
Proof.
  intro LC. induction cs as [|k cs IH]; intros g pos fs S P W; cbn [dev_gz_calls].
  { exists []. split; auto. repeat split; cbn; auto. lia. }
  pose proof (below_here _ _ W) as PB.
  destruct k as [n|off|p|]; cbn [below dev_gz_call] in *.
  - destruct W as (N & W). pose proof (dev_fill_spec c (Z.to_nat n) g n pos [] fs S P N ltac:(lia)) as H.
    destruct (dev_fill (Z.to_nat n) g n [] fs) as ((r, g'), fs1).
    destruct (Z.eqb_spec n 0) as [->|NZ].
    + destruct H as (-> & -> & ->). rewrite Z.add_0_r in W. destruct (IH g pos fs S P W) as (fs' & C & E).
      exists (None :: fs'). split; [exact (covers_cons _ _ _ _ None _ _ (spent_none fs) C I)|].
      cbn [dev_reader_calls dev_reader_call dev_read device_call]. unfold read_exact. cbn [Z.eqb]. apply until_cons. exact E.
    + destruct H as [(-> & (j & J & S') & Sp)|(Sp & H)].
      * destruct (IH g' (pos + j) fs1 S' ltac:(lia) ltac:(eapply below_mono; [|exact W]; lia)) as (fs' & C & E).
        exists (Some j :: fs'). split; [apply (covers_cons _ _ _ _ _ _ _ Sp C); lia|]. cbn [dev_reader_calls dev_reader_call dev_read device_call rd_data rd_pos].
        apply until_cons. exact E.
      * cbn [dev_reader_calls dev_reader_call dev_read]. destruct (Z.leb_spec (pos + n) (len c)) as [L|L].
        -- destruct H as (-> & S'). destruct (IH g' (pos + n) fs1 S' ltac:(lia) W) as (fs' & C & E).
           exists (None :: fs'). split; [exact (covers_cons _ _ _ _ None _ _ Sp C I)|].
           cbn [dev_read device_call]. unfold read_exact. cbn [rd_data rd_pos]. replace (n =? 0) with false by lia.
           replace (pos + n <=? len c) with true by lia. cbn [app]. apply until_cons. exact E.
        -- subst r. exists (None :: repeat None (length cs)). split; [exact (covers_all (CExact n :: cs) fs)|].
           cbn [dev_read device_call]. unfold read_exact. cbn [rd_data rd_pos]. replace (n =? 0) with false by lia.
           replace (pos + n <=? len c) with false by lia. reflexivity.
  - pose proof (dev_step_seek g c pos (FromCurrent off) fs S) as H. cbv zeta in H. cbn [target] in H.
    destruct (dev_gz_step g (Seek (FromCurrent off)) fs) as ((x, g'), fs1).
    pose proof (below_here _ _ W) as PW.
    assert (W0: below pos cs) by (eapply below_mono; [|exact W]; lia).
    destruct H as [(-> & H & S' & Sp)|[(-> & H & S' & Sp)|(-> & S' & Sp)]].
    + destruct (IH g' (pos + off) fs1 S' H ltac:(eapply below_mono; [|exact W]; lia)) as (fs' & C & E).
      exists (None :: fs'). split; [exact (covers_cons _ _ _ _ None _ _ Sp C I)|].
      cbn [dev_reader_calls dev_reader_call dev_seek device_call]. unfold seek_relative. cbn [rd_pos rd_data].
      replace ((0 <=? pos + off) && (pos + off <? 2 ^ 64)) with true by lia. apply until_cons. exact E.
    + destruct (IH g' pos fs1 S' P W0) as (fs' & C & E).
      exists (None :: fs'). split; [exact (covers_cons _ _ _ _ None _ _ Sp C I)|].
      cbn [dev_reader_calls dev_reader_call dev_seek device_call]. unfold seek_relative. cbn [rd_pos rd_data].
      replace ((0 <=? pos + off) && (pos + off <? 2 ^ 64)) with false by lia. apply until_cons. exact E.
    + destruct (IH g' pos fs1 S' P W0) as (fs' & C & E).
      exists (Some 0 :: fs'). split; [apply (covers_cons _ _ _ _ _ _ _ Sp C); lia|].
      cbn [dev_reader_calls dev_reader_call dev_seek device_call rd_pos rd_data]. rewrite Z.add_0_r. apply until_cons. exact E.
  - destruct W as (P0 & W). pose proof (dev_step_seek g c pos (FromStart p) fs S) as H. cbv zeta in H. cbn [target] in H.
    destruct (dev_gz_step g (Seek (FromStart p)) fs) as ((x, g'), fs1).
    pose proof (below_here _ _ W) as PW.
    destruct H as [(-> & H & S' & Sp)|[(-> & H & S' & Sp)|(-> & S' & Sp)]]; [|lia|].
    + destruct (IH g' p fs1 S' H ltac:(eapply below_mono; [|exact W]; lia)) as (fs' & C & E).
      exists (None :: fs'). split; [exact (covers_cons _ _ _ _ None _ _ Sp C I)|].
      cbn [dev_reader_calls dev_reader_call device_call seek_start rd_data]. apply until_cons. exact E.
    + destruct (IH g' pos fs1 S' P ltac:(eapply below_mono; [|exact W]; lia)) as (fs' & C & E).
      exists (Some 0 :: fs'). split; [apply (covers_cons _ _ _ _ _ _ _ Sp C); lia|].
      cbn [dev_reader_calls dev_reader_call device_call rd_pos rd_data]. rewrite Z.add_0_r. apply until_cons. exact E.
  - pose proof (dev_step_seek g c pos (FromCurrent 0) fs S) as H. cbv zeta in H. cbn [target] in H. rewrite Z.add_0_r in H.
    destruct (dev_gz_step g (Seek (FromCurrent 0)) fs) as ((x, g'), fs1).
    destruct H as [(-> & H & S' & Sp)|[(-> & H & S' & Sp)|(-> & S' & Sp)]]; [|lia|].
    + destruct (IH g' pos fs1 S' P W) as (fs' & C & E).
      exists (None :: fs'). split; [exact (covers_cons _ _ _ _ None _ _ Sp C I)|].
      cbn [dev_reader_calls dev_reader_call dev_position device_call rd_pos]. apply until_cons. exact E.
    + destruct (IH g' pos fs1 S' P W) as (fs' & C & E).
      exists (Some 0 :: fs'). split; [apply (covers_cons _ _ _ _ _ _ _ Sp C); lia|].
      cbn [dev_reader_calls dev_reader_call dev_position device_call rd_pos rd_data]. rewrite Z.add_0_r. apply until_cons. exact E.
Qed.

(** One call. *)
Lemma call_covered c k g pos fs : len c < 2 ^ 63 -> shows_at g c pos -> 0 <= pos -> below pos [k] ->
  exists x, match x with Some j => 0 <= j | None => True end /\
  let '(a, g', fs1) := dev_gz_call g k fs in
  fst (fst (dev_reader_call (mk_reader c pos) k [x])) = a /\
  (a = AFail EEof \/
   exists pos', snd (fst (dev_reader_call (mk_reader c pos) k [x])) = mk_reader c pos' /\ shows_at g' c pos' /\ 0 <= pos' /\
     pos' <= match k with CExact n => pos + n | CRelative off => Z.max pos (pos + off) | CStart p => Z.max pos p | CPosition => pos end) /\
  (broken_calls [x] + failures fs1 <= failures fs)%nat.
Proof.
  intros LC S P W. pose proof (below_here _ _ W) as PB.
  destruct k as [n|off|p|]; cbn [below dev_gz_call dev_reader_call] in *.
  - destruct W as (N & W). pose proof (dev_fill_spec c (Z.to_nat n) g n pos [] fs S P N ltac:(lia)) as H.
    destruct (dev_fill (Z.to_nat n) g n [] fs) as ((r, g'), fs1).
    destruct (Z.eqb_spec n 0) as [->|NZ].
    + destruct H as (-> & -> & ->). exists None. split; auto. cbn. split; auto. split; [|lia]. right. exists pos. repeat split; auto; lia.
    + destruct H as [(-> & (j & J & S') & Sp)|(Sp & H)]; pose proof (spent_failures _ _ _ Sp) as F.
      * exists (Some j). split; [lia|]. cbn [dev_read device_call fst snd]. split; auto. split; [|unfold broken_calls; cbn; lia].
        right. exists (pos + j). repeat split; auto; lia.
      * exists None. split; auto. cbn [dev_read device_call]. unfold read_exact. cbn [rd_data rd_pos]. replace (n =? 0) with false by lia.
        destruct (Z.leb_spec (pos + n) (len c)) as [L|L].
        -- destruct H as (-> & S'). cbn [app fst snd]. split; auto. split; [|unfold broken_calls; cbn; lia].
           right. exists (pos + n). repeat split; auto; lia.
        -- subst r. cbn [fst snd]. split; auto. split; [left; auto|unfold broken_calls; cbn; lia].
  - pose proof (dev_step_seek g c pos (FromCurrent off) fs S) as H. cbv zeta in H. cbn [target] in H.
    destruct (dev_gz_step g (Seek (FromCurrent off)) fs) as ((x, g'), fs1).
    destruct H as [(-> & H & S' & Sp)|[(-> & H & S' & Sp)|(-> & S' & Sp)]]; pose proof (spent_failures _ _ _ Sp) as F.
    + exists None. split; auto. cbn [dev_seek device_call]. unfold seek_relative. cbn [rd_pos rd_data].
      replace ((0 <=? pos + off) && (pos + off <? 2 ^ 64)) with true by lia. cbn [fst snd]. split; auto. split; [|unfold broken_calls; cbn; lia].
      right. exists (pos + off). repeat split; auto; lia.
    + exists None. split; auto. cbn [dev_seek device_call]. unfold seek_relative. cbn [rd_pos rd_data].
      replace ((0 <=? pos + off) && (pos + off <? 2 ^ 64)) with false by lia. cbn [fst snd]. split; auto. split; [|unfold broken_calls; cbn; lia].
      right. exists pos. repeat split; auto; lia.
    + exists (Some 0). split; [lia|]. cbn [dev_seek device_call rd_pos rd_data fst snd]. split; auto. split; [|unfold broken_calls; cbn; lia].
      right. exists pos. rewrite Z.add_0_r. repeat split; auto; lia.
  - destruct W as (P0 & W). pose proof (dev_step_seek g c pos (FromStart p) fs S) as H. cbv zeta in H. cbn [target] in H.
    destruct (dev_gz_step g (Seek (FromStart p)) fs) as ((x, g'), fs1).
    destruct H as [(-> & H & S' & Sp)|[(-> & H & S' & Sp)|(-> & S' & Sp)]]; [|lia|]; pose proof (spent_failures _ _ _ Sp) as F.
    + exists None. split; auto. cbn [device_call seek_start rd_data fst snd]. split; auto. split; [|unfold broken_calls; cbn; lia].
      right. exists p. repeat split; auto; lia.
    + exists (Some 0). split; [lia|]. cbn [device_call rd_pos rd_data fst snd]. split; auto. split; [|unfold broken_calls; cbn; lia].
      right. exists pos. rewrite Z.add_0_r. repeat split; auto; lia.
  - pose proof (dev_step_seek g c pos (FromCurrent 0) fs S) as H. cbv zeta in H. cbn [target] in H. rewrite Z.add_0_r in H.
    destruct (dev_gz_step g (Seek (FromCurrent 0)) fs) as ((x, g'), fs1).
    destruct H as [(-> & H & S' & Sp)|[(-> & H & S' & Sp)|(-> & S' & Sp)]]; [|lia|]; pose proof (spent_failures _ _ _ Sp) as F.
    + exists None. split; auto. cbn [dev_position device_call rd_pos fst snd]. split; auto. split; [|unfold broken_calls; cbn; lia].
      right. exists pos. repeat split; auto; lia.
    + exists (Some 0). split; [lia|]. cbn [dev_position device_call rd_pos rd_data fst snd]. split; auto. split; [|unfold broken_calls; cbn; lia].
      right. exists pos. rewrite Z.add_0_r. repeat split; auto; lia.
Qed.

Lemma reader_call_cons r k x fs : dev_reader_call r k (x :: fs)
  = (fst (fst (dev_reader_call r k [x])), snd (fst (dev_reader_call r k [x])), fs).
Proof.
  destruct k as [n|off|p|]; cbn [dev_reader_call]; unfold dev_read, dev_seek, dev_position, device_call;
    destruct x; cbn [fst snd]; try reflexivity.
  - destruct (read_exact r n) as ([| |], r'); reflexivity.
  - destruct (seek_relative r off) as ([| |], r'); reflexivity.
Qed.

Lemma client_covered p b c : moves_within b p -> 0 <= b -> len c < 2 ^ 63 -> forall n hist g pos fs,
  shows_at g c pos -> 0 <= pos -> pos + Z.of_nat n * b < 2 ^ 63 ->
  exists fs', (broken_calls fs' <= failures fs)%nat /\ Forall (fun x => match x with Some j => 0 <= j | None => True end) fs' /\
    until_eof (client_on_file p n hist g fs) = until_eof (client_on_device p n hist (mk_reader c pos) fs').
Proof.
  intros M B LC. induction n as [|n IH]; intros hist g pos fs S P L; cbn [client_on_file client_on_device].
  { exists []. cbn. repeat split; auto. lia. }
  destruct (p hist) as [k|] eqn:K; [|exists []; cbn; repeat split; auto; lia].
  pose proof (M hist k K) as Mk.
  assert (W: below pos [k]) by (destruct k; cbn [below]; lia).
  destruct (call_covered c k g pos fs LC S P W) as (x & X & H).
  destruct (dev_gz_call g k fs) as ((a, g'), fs1). destruct H as (Ea & H & F).
  destruct H as [->|(pos' & Er & S' & P' & Q)].
  - exists [x]. split; [lia|]. split; [auto|]. rewrite reader_call_cons, Ea. reflexivity.
  - destruct (IH (a :: hist) g' pos' fs1 S' P' ltac:(destruct k; lia)) as (fs' & C & Fa & E).
    exists (x :: fs'). split; [unfold broken_calls in *; cbn [filter length] in *; destruct x; cbn [length] in *; lia|].
    split; [auto|]. rewrite reader_call_cons, Ea, Er. apply until_cons. exact E.
Qed.

Lemma no_failures (fs : fcalls) : ~ In Fails fs <-> failures fs = 0%nat.
Proof.
  unfold failures. induction fs as [|x l IH]; [cbn; tauto|]. destruct x; cbn [filter failure length In].
  - rewrite <- IH. intuition discriminate.
  - rewrite <- IH. intuition discriminate.
  - split; [intro H; exfalso; auto|discriminate].
Qed.
Lemma some_failure (fs : fcalls) : (1 <= failures fs)%nat -> In Fails fs.
Proof.
  unfold failures. induction fs as [|x l IH]; cbn; [lia|]. destruct x; cbn; auto.
Qed.
Lemma follows_whole c : forall ops pos xs, follows_failing 0 c pos ops xs -> follows c pos ops xs.
Proof.
  induction ops as [|o ops IH]; intros pos [|x xs]; cbn [follows_failing follows]; auto; intro H.
  - destruct o; destruct H.
  - destruct H as [(n & H & _)|H]; [discriminate|]. destruct o as [k|s].
    + destruct H as (bs & -> & A & B & C & D). auto.
    + destruct H as [(-> & A & B)|(-> & A & B)]; auto.
Qed.

Lemma open_lost lib n probe body d fs : nth_error fs 0 <> Some Fails ->
  exists g fs', dev_open_file lib (n :: probe) body d (Fails :: fs) = (Ok g, fs') /\
    forall ops later, Forall op_in_range ops -> follows_failing (failures later) d 0 ops (dev_gz_run g ops later).
Proof.
  intro N. unfold dev_open_file, dev_gz_new. cbn [dev_reads dev_bufr_read br_buf first_call file_read andb dev_bufr_step].
  exists (Plain (mk_bufr [] (mk_reader d 0))), (snd (first_call fs)). split.
  - destruct fs as [|x fs]; cbn [first_call snd]; [reflexivity|]. destruct x; [reflexivity..|]. destruct (N eq_refl).
  - intros ops later R. apply run_follows_failing; auto. cbn. unfold buffered. cbn. repeat split; lia.
Qed.

(** ** Compressed bytes are no FITS file *)

Lemma compressed_card rec c cm : octets rec -> reads_as rec c -> c = CValue (chars "SIMPLE") (VLogical true cm) -> firstn 1 rec <> [31].
Proof.
  intros O [E|(_ & E)] ->; [|discriminate]. unfold parse_card in E.
  destruct (from_utf8 (trim_ascii (firstn 8 rec))) as [kw|] eqn:U; [|discriminate].
  destruct rec as [|x rec]; [intros ?; discriminate|]. cbn [firstn] in *. intro X. injection X as ->.
  assert (K: kw = chars "SIMPLE").
  { repeat match type of E with
    | (if ?b then _ else _) = _ => destruct b
    end; try discriminate; try (injection E as E; congruence).
    all: try (unfold parse_empty_keyword_card in E; destruct (parse_comment_text _); discriminate).
    all: try (unfold parse_continuation, parse_extension, parse_hierarch in E; repeat match type of E with bind ?a _ = _ => destruct a; cbn [bind] in E | context [match ?a with _ => _ end] => destruct a end; discriminate).
    all: try (destruct (parse_value _); cbn [bind] in E; congruence). }
  subst kw. apply from_utf8_ascii_inv in U; [|repeat constructor; unfold is_ascii; lia].
  apply trim_ascii_iff in U. destruct U as (w1 & w2 & L & W1 & _).
  destruct w1 as [|w w1]; cbn in L; injection L as L _; [lia|]. subst w. inversion W1 as [|? ? W _]; subst. unfold white in W. lia.
Qed.

Lemma compressed_no_hdu m d fs h f' fs' : octets d -> firstn 1 d = [31] -> dev_next m (from_reader (mk_reader d 0)) fs <> (IOk h, f', fs').
Proof.
  intros O F E. apply dev_next_ok in E. unfold next, from_reader in E. cbn [f_error f_start f_reader] in E.
  destruct (new_primary m (mk_reader d 0)) as (([h0|e|], n), r) eqn:N; try discriminate.
  destruct (new_hdu_inv m true d 0 h0 n r O ltac:(lia) N) as (c & cards & recs & last & rest & D & HR & _ & R & _ & Op & (Pk & _) & _).
  rewrite (Pk eq_refl) in Op. destruct Op as (cm & Ec). inversion R as [|rec ? recs' ? R1 R2]; subst recs.
  assert (L: (length rec = 80)%nat) by (inversion HR as [|? ? (L & _)]; auto).
  change (skipn (Z.to_nat 0) d) with d in D. apply (compressed_card rec c cm); auto.
  - unfold octets in *. rewrite D in O. cbn [concat] in O. rewrite <- app_assoc in O. apply Forall_app in O. tauto.
  - rewrite D in F. cbn [concat] in F. destruct rec; [discriminate|]. exact F.
Qed.

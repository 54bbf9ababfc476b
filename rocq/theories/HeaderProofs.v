(** Proofs about header assembly. *)

From Verif Require Import Base Utf8 Text Card Reader Header SpecUtf8 SpecCard SpecHeader.
From Verif Require Import TextLemmas Utf8Proofs CardProofs CardProofs2.
From Coq Require Import ZifyBool.

(** ** Reading records *)

Lemma read_exact_ok d p rec rest n :
  0 <= p -> skipn (Z.to_nat p) d = rec ++ rest -> len rec = n ->
  read_exact (mk_reader d p) n = (Ok rec, mk_reader d (p + n)) /\
  skipn (Z.to_nat (p + n)) d = rest.
Proof.
  intros Hp E Hn. assert (Hn0: 0 <= n) by (rewrite <- Hn; apply len_nonneg).
  assert (E2: skipn (Z.to_nat (p + n)) d = rest).
  { replace (Z.to_nat (p + n)) with (Z.to_nat p + Z.to_nat n)%nat by lia.
    rewrite <- skipn_skipn, E. apply skipn_app_exact. unfold len in Hn. lia. }
  split; auto. unfold read_exact. simpl.
  destruct (Z.eqb_spec n 0) as [->|N0].
  - destruct rec; [|unfold len in Hn; simpl in Hn; lia]. f_equal. f_equal. lia.
  - assert (L: len (skipn (Z.to_nat p) d) = n + len rest) by (rewrite E, len_app; lia).
    pose proof (len_nonneg rest) as Hr.
    unfold len in L, Hr. rewrite skipn_length in L.
    destruct (Z.leb_spec (p + n) (len d)) as [H|H]; [|unfold len in *; lia].
    unfold slice. rewrite E. f_equal. f_equal. apply firstn_app_exact. unfold len in Hn; lia.
Qed.

Lemma read_exact_short d p n :
  0 <= p -> 0 < n -> len (skipn (Z.to_nat p) d) < n ->
  read_exact (mk_reader d p) n = (Err EEof, mk_reader d (len d)).
Proof.
  intros Hp Hn L. unfold read_exact. simpl. destruct (Z.eqb_spec n 0); [lia|].
  destruct (Z.leb_spec (p + n) (len d)) as [H|H]; auto.
  unfold len in *. rewrite skipn_length in L. lia.
Qed.

Lemma octets_app a b : octets (a ++ b) <-> octets a /\ octets b.
Proof. apply Forall_app. Qed.

Lemma octets_skipn n l : octets l -> octets (skipn n l).
Proof. apply Forall_skipn. Qed.

Lemma header_record_reads r :
  octets r -> header_record r ->
  exists c, reads_as r c /\ c <> CEnd /\
    forall f rd rd' n acc, read_exact rd 80 = (Ok r, rd') ->
      consume_loop (S f) rd n acc = consume_loop f rd' (n + 80) (c :: acc).
Proof.
  intros O (L & NE & NP).
  destruct (parse_card r) as [c|e|] eqn:E.
  - assert (Hc: c <> CEnd) by (intros ->; apply NE, record_end; auto).
    exists c. split; [left; auto|]. split; auto.
    intros. cbn [consume_loop]. rewrite H, E. destruct c; congruence.
  - exists (CUndefined (utf8_lossy r)). split; [right; eauto|]. split; [congruence|].
    intros. cbn [consume_loop]. rewrite H, E. reflexivity.
  - exfalso. apply NP. apply parse_card_panic_iff; auto.
Qed.

(** Reading a run of ordinary records. *)
Lemma consume_run recs : forall fuel d p n acc rest,
  octets d -> 0 <= p -> skipn (Z.to_nat p) d = concat recs ++ rest ->
  Forall header_record recs ->
  exists cards, Forall2 reads_as recs cards /\ Forall (fun c => c <> CEnd) cards /\
    consume_loop (length recs + fuel) (mk_reader d p) n acc
    = consume_loop fuel (mk_reader d (p + 80 * len recs)) (n + 80 * len recs) (rev cards ++ acc) /\
    skipn (Z.to_nat (p + 80 * len recs)) d = rest.
Proof.
  induction recs as [|r recs IH]; intros fuel d p n acc rest O Hp E H.
  - exists []. change (len (@nil (list Z))) with 0. rewrite Z.mul_0_r, !Z.add_0_r. auto.
  - inversion H as [|? ? Hr Hrecs]; subst. simpl in E. rewrite <- app_assoc in E.
    assert (Or: octets r).
    { assert (octets (skipn (Z.to_nat p) d)) by (apply octets_skipn; auto).
      rewrite E in H0. apply octets_app in H0. tauto. }
    destruct (header_record_reads r Or Hr) as (c & Rc & Nc & Step).
    destruct (read_exact_ok d p r _ 80 Hp E) as (R1 & R2); [destruct Hr; unfold len; lia|].
    destruct (IH fuel d (p + 80) (n + 80) (c :: acc) rest O ltac:(lia) R2 Hrecs)
      as (cards & F & NE & C & S2).
    exists (c :: cards). split; [constructor; auto|]. split; [constructor; auto|].
    rewrite !len_cons.
    replace (p + 80 * (1 + len recs)) with (p + 80 + 80 * len recs) by lia.
    replace (n + 80 * (1 + len recs)) with (n + 80 + 80 * len recs) by lia.
    split; auto. simpl length. cbn [Nat.add].
    rewrite (Step _ _ _ _ _ R1). rewrite C. simpl rev. rewrite <- app_assoc. reflexivity.
Qed.

Lemma concat_80_len recs : Forall header_record recs -> (length recs <= length (concat recs))%nat.
Proof.
  induction 1 as [|r recs (L & _) H IH]; simpl; auto. rewrite app_length. lia.
Qed.

Lemma fuel_split recs d p rest :
  skipn p d = concat recs ++ rest -> Forall header_record recs ->
  exists k, S (length d) = (length recs + S k)%nat.
Proof.
  intros E H. exists (length d - length recs)%nat.
  assert (length (skipn p d) <= length d)%nat by (rewrite skipn_length; lia).
  rewrite E, app_length in H0. pose proof (concat_80_len recs H). lia.
Qed.

Lemma consume_cards_ok d p n recs last rest :
  octets d -> 0 <= p -> skipn (Z.to_nat p) d = concat recs ++ last ++ rest ->
  Forall header_record recs -> end_record last ->
  exists cards, Forall2 reads_as recs cards /\ Forall (fun c => c <> CEnd) cards /\
    consume_cards (mk_reader d p) n
    = (Ok (cards ++ [CEnd]), n + 80 * (len recs + 1), mk_reader d (p + 80 * (len recs + 1))).
Proof.
  intros O Hp E H (L & HE). unfold consume_cards. simpl rd_data.
  destruct (fuel_split _ _ _ _ E H) as (k & ->).
  destruct (consume_run recs (S k) d p n [] (last ++ rest) O Hp E H) as (cards & F & NE & C & S2).
  exists cards. split; auto. split; auto. rewrite C.
  assert (0 <= p + 80 * len recs) by (pose proof (len_nonneg recs); lia).
  destruct (read_exact_ok d _ last rest 80 H0 S2) as (R1 & R2); [unfold len; lia|].
  cbn [consume_loop]. rewrite R1. apply record_end in HE. rewrite HE.
  rewrite app_nil_r. simpl rev. rewrite rev_involutive.
  f_equal; [f_equal; lia|f_equal; lia].
Qed.

Lemma consume_cards_eof d p n recs tail :
  octets d -> 0 <= p -> skipn (Z.to_nat p) d = concat recs ++ tail ->
  Forall header_record recs -> (length tail < 80)%nat ->
  consume_cards (mk_reader d p) n = (Err EEof, n + 80 * len recs, mk_reader d (len d)).
Proof.
  intros O Hp E H L. unfold consume_cards. simpl rd_data.
  destruct (fuel_split _ _ _ _ E H) as (k & ->).
  destruct (consume_run recs (S k) d p n [] tail O Hp E H) as (cards & F & NE & C & S2).
  rewrite C. assert (0 <= p + 80 * len recs) by (pose proof (len_nonneg recs); lia).
  cbn [consume_loop].
  rewrite (read_exact_short d _ 80 H0); auto; [lia|]. rewrite S2. unfold len. lia.
Qed.

Lemma consume_cards_panic d p n recs bad rest :
  octets d -> 0 <= p -> skipn (Z.to_nat p) d = concat recs ++ bad ++ rest ->
  Forall header_record recs -> length bad = 80%nat -> lone_quote_record bad ->
  consume_cards (mk_reader d p) n
  = (Panic, n + 80 * (len recs + 1), mk_reader d (p + 80 * (len recs + 1))).
Proof.
  intros O Hp E H L HB. unfold consume_cards. simpl rd_data.
  destruct (fuel_split _ _ _ _ E H) as (k & ->).
  destruct (consume_run recs (S k) d p n [] (bad ++ rest) O Hp E H) as (cards & F & NE & C & S2).
  rewrite C.
  assert (0 <= p + 80 * len recs) by (pose proof (len_nonneg recs); lia).
  destruct (read_exact_ok d _ bad rest 80 H0 S2) as (R1 & R2); [unfold len; lia|].
  assert (octets bad).
  { apply (octets_skipn (Z.to_nat p)) in O. rewrite E in O. rewrite !octets_app in O. tauto. }
  cbn [consume_loop]. rewrite R1. apply parse_card_panic_iff in HB; auto. rewrite HB.
  f_equal; [f_equal; lia|f_equal; lia].
Qed.

Lemma record_cases r :
  octets r -> length r = 80%nat -> header_record r \/ end_record r \/ lone_quote_record r.
Proof.
  intros O L.
  destruct (parse_card r) as [c|e|] eqn:E.
  - assert (D: c = CEnd \/ c <> CEnd) by (destruct c; auto; right; congruence).
    destruct D as [->|D].
    + right; left. split; auto. apply record_end; auto.
    + left. split; auto. rewrite <- record_end, <- (parse_card_panic_iff r O), E. split; congruence.
  - left. split; auto. rewrite <- record_end, <- (parse_card_panic_iff r O), E. split; congruence.
  - right; right. apply parse_card_panic_iff; auto.
Qed.

(** Every byte stream is of exactly one of the three forms. *)
Lemma stream_cases s :
  octets s ->
  exists recs tail, s = concat recs ++ tail /\ Forall header_record recs /\
    ((length tail < 80)%nat \/
     exists r rest, tail = r ++ rest /\ (end_record r \/ length r = 80%nat /\ lone_quote_record r)).
Proof.
  induction s as [s IH] using list_len_ind. intros O.
  destruct (Nat.lt_ge_cases (length s) 80) as [H|H].
  - exists [], s. auto.
  - pose proof (firstn_skipn 80 s) as FS.
    assert (L: length (firstn 80 s) = 80%nat) by (rewrite firstn_length; lia).
    rewrite <- FS in O. apply octets_app in O as (O1 & O2).
    destruct (record_cases _ O1 L) as [R|[R|R]].
    + destruct (IH (skipn 80 s)) as (recs & tail & E & F & C); auto.
      { rewrite skipn_length. lia. }
      exists (firstn 80 s :: recs), tail. split; [|split]; auto.
      simpl. rewrite <- app_assoc, <- E. auto.
    + exists [], s. split; [|split]; auto. right. exists (firstn 80 s), (skipn 80 s). auto.
    + exists [], s. split; [|split]; auto. right. exists (firstn 80 s), (skipn 80 s). auto.
Qed.

Lemma Forall2_length {A B} (R : A -> B -> Prop) l l' : Forall2 R l l' -> length l = length l'.
Proof. induction 1; simpl; auto. Qed.

(** Success has only one cause. *)
Lemma consume_cards_inv d p n cards n' r' :
  octets d -> 0 <= p -> consume_cards (mk_reader d p) n = (Ok cards, n', r') ->
  exists recs last rest cs,
    skipn (Z.to_nat p) d = concat recs ++ last ++ rest /\ Forall header_record recs /\
    end_record last /\ Forall2 reads_as recs cs /\ Forall (fun c => c <> CEnd) cs /\
    cards = cs ++ [CEnd] /\ n' = n + 80 * (len recs + 1) /\
    r' = mk_reader d (p + 80 * (len recs + 1)).
Proof.
  intros O Hp C.
  destruct (stream_cases (skipn (Z.to_nat p) d)) as (recs & tail & E & F & [L|(r & rest & -> & [R|(L & R)])]).
  - apply octets_skipn; auto.
  - rewrite (consume_cards_eof d p n recs tail) in C; auto. congruence.
  - destruct (consume_cards_ok d p n recs r rest) as (cs & F2 & NE & C2); auto.
    rewrite C2 in C. inversion C; subst. exists recs, r, rest, cs. auto 10.
  - rewrite (consume_cards_panic d p n recs r rest) in C; auto. congruence.
Qed.

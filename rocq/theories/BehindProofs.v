(** Proofs for a FITS file that lies behind other bytes of its source. *)

From Coq Require Import List Lia ZifyBool.
From Verif Require Import Base Text Card Reader Header Xtension Fits Direct.
From Verif Require Import SpecUtf8 SpecCard SpecHeader SpecXt SpecFits SpecDirect SpecBehind.
From Verif Require Import HeaderProofs FitsProofs FitsProofs2 FitsProofs3 FitsProofs4 DirectProofs.
Local Open Scope list_scope.
Local Open Scope Z_scope.

Definition behind (junk : list Z) (r : reader) : reader := mk_reader (junk ++ rd_data r) (rd_pos r + len junk).

Lemma read_behind junk r n : 0 <= rd_pos r ->
  read_exact (behind junk r) n = (fst (read_exact r n), behind junk (snd (read_exact r n))).
Proof.
  intro P. pose proof (len_nonneg junk) as J. unfold read_exact, behind. cbn [rd_data rd_pos].
  destruct (n =? 0); [reflexivity|]. rewrite len_app.
  replace (rd_pos r + len junk + n <=? len junk + len (rd_data r)) with (rd_pos r + n <=? len (rd_data r)) by lia.
  destruct (rd_pos r + n <=? len (rd_data r)); cbn [fst snd rd_data rd_pos].
  - rewrite slice_app_r by lia. replace (rd_pos r + len junk - len junk) with (rd_pos r) by lia.
    replace (rd_pos r + len junk + n) with (rd_pos r + n + len junk) by lia. reflexivity.
  - rewrite Z.add_comm. reflexivity.
Qed.

Lemma read_stays r n : 0 <= rd_pos r -> 0 <= n -> 0 <= rd_pos (snd (read_exact r n)).
Proof.
  intros P N. pose proof (len_nonneg (rd_data r)). unfold read_exact. destruct (n =? 0); [exact P|].
  destruct (rd_pos r + n <=? len (rd_data r)); cbn [snd rd_pos]; lia.
Qed.

Definition map3 {A} (junk : list Z) (x : A * Z * reader) : A * Z * reader :=
  (fst (fst x), snd (fst x), behind junk (snd x)).

Lemma loop_behind junk : forall fuel fuel' r n acc,
  0 <= rd_pos r -> (0 < fuel)%nat -> len (rd_data r) - rd_pos r < 80 * Z.of_nat fuel -> (fuel <= fuel')%nat ->
  consume_loop fuel' (behind junk r) n acc = map3 junk (consume_loop fuel r n acc) /\
  0 <= rd_pos (snd (consume_loop fuel r n acc)).
Proof.
  induction fuel as [|fuel IH]; intros fuel' r n acc P F L F'; [lia|].
  destruct fuel' as [|fuel']; [lia|]. cbn [consume_loop]. rewrite read_behind by exact P.
  pose proof (read_stays r 80 P ltac:(lia)) as P'.
  assert (X : forall b r', read_exact r 80 = (Ok b, r') ->
    (0 < fuel)%nat /\ len (rd_data r') - rd_pos r' < 80 * Z.of_nat fuel).
  { intros b r'. unfold read_exact. cbn [Z.eqb].
    destruct (rd_pos r + 80 <=? len (rd_data r)) eqn:C; [|discriminate].
    intro X. injection X as <- <-. cbn [rd_data rd_pos]. lia. }
  destruct (read_exact r 80) as (b, r') eqn:R. cbn [fst snd] in *.
  destruct b as [b|e|]; try (split; [reflexivity|exact P']).
  destruct (X b r' eq_refl) as (F1 & L1).
  destruct (parse_card b) as [c|e|]; [destruct c|..];
    try (split; [reflexivity|exact P']); apply IH; try assumption; lia.
Qed.

Lemma cards_behind junk r : 0 <= rd_pos r ->
  consume_cards (behind junk r) 0 = map3 junk (consume_cards r 0) /\ 0 <= rd_pos (snd (consume_cards r 0)).
Proof.
  intro P. unfold consume_cards. apply loop_behind; [exact P|lia| |].
  - unfold len. lia.
  - unfold behind. cbn [rd_data]. rewrite app_length. lia.
Qed.

Definition res_further (j : Z) (x : res hdu) : res hdu :=
  match x with Ok h => Ok (further j h) | x => x end.
Definition moved3 (junk : list Z) (x : res hdu * Z * reader) : res hdu * Z * reader :=
  (res_further (len junk) (fst (fst x)), snd (fst x), behind junk (snd x)).

Lemma hdu_new_behind junk m k x r n cards : 0 <= rd_pos r ->
  hdu_new m k x (behind junk r) n cards = moved3 junk (hdu_new m k x r n cards).
Proof.
  intro P. unfold hdu_new.
  destruct (let! vs := process_cards m cards in let! y := xt_parse m x vs in Ok (vs, y)) as [(vs, y)|e|];
    [|reflexivity..].
  destruct (n mod 2880 =? 0); [reflexivity|]. rewrite read_behind by exact P.
  destruct (read_exact r (2880 - n mod 2880)) as (b, r'). cbn [fst snd]. destruct b; reflexivity.
Qed.

Lemma new_hdu_behind junk m p r : 0 <= rd_pos r ->
  new_hdu m p (behind junk r) = moved3 junk (new_hdu m p r).
Proof.
  intro P. destruct (cards_behind junk r P) as (C & P').
  unfold new_hdu. destruct p; [unfold new_primary|unfold new_xtension]; rewrite C;
    destruct (consume_cards r 0) as ((cs, n), r'); cbn [map3 fst snd] in *;
    destruct cs as [[|c cs]|e|]; try reflexivity; destruct c; try reflexivity.
  - destruct v; try reflexivity. destruct v; try reflexivity.
    destruct (str_eqb name (chars "SIMPLE")); [apply hdu_new_behind; exact P'|reflexivity].
  - destruct x; apply hdu_new_behind; exact P'.
Qed.

(** The two states that correspond. *)
Definition matched (junk d : list Z) (q : Z) (f g : fits) : Prop :=
  ready d f q /\ ready (junk ++ d) g (q + len junk) /\ f_start f = f_start g.

Lemma moved_same f : moved f (rd_pos (f_reader f)) = f.
Proof. destruct f as [s p n e [d q]]. reflexivity. Qed.

Lemma next_matched junk m d q f g : matched junk d q f g ->
  next m f = finish m f (new_hdu m (f_start f) (mk_reader d q)) /\
  next m g = finish m g (moved3 junk (new_hdu m (f_start f) (mk_reader d q))).
Proof.
  intros (R & R' & S). split.
  - rewrite <- (next_ready m d f q (rd_pos (f_reader f)) R) by (left; reflexivity). now rewrite moved_same.
  - rewrite <- (moved_same g) at 1. rewrite (next_ready m _ g _ _ R') by (left; reflexivity).
    rewrite <- S. f_equal. rewrite <- new_hdu_behind; [reflexivity|]. cbn. apply R.
Qed.

Lemma item_matched junk m d q f g : matched junk d q f g ->
  fst (next m g) = item_further (len junk) (fst (next m f)).
Proof.
  intro M. destruct (next_matched junk m d q f g M) as (-> & ->). destruct M as (_ & _ & S).
  destruct (new_hdu m (f_start f) (mk_reader d q)) as ((x, n), r).
  destruct x as [h|e|]; cbn [moved3 res_further fst snd finish]; [|rewrite <- S|reflexivity].
  - change (hdu_size m (further (len junk) h)) with (hdu_size m h). destruct (hdu_size m h); reflexivity.
  - destruct e; try reflexivity. destruct (negb (f_start f) && (n =? 0)); reflexivity.
Qed.

Lemma run_matched junk m d : octets d -> octets junk -> forall n q f g l f',
  matched junk d q f g -> 0 <= rd_pos (f_reader f) -> 0 <= rd_pos (f_reader g) ->
  run m n f = (l, f') -> Forall (ends_below m (len junk)) l ->
  fst (run m (Datatypes.S n) g) = map (item_further (len junk)) (fst (run m (Datatypes.S n) f)).
Proof.
  intros O OJ. pose proof (len_nonneg junk) as J.
  induction n as [|n IH]; intros q f g l f' M P P' R E.
  - cbn [run]. pose proof (item_matched junk m d q f g M) as I.
    destruct (next m f) as (i, f1), (next m g) as (i', g1). cbn in *. now rewrite I.
  - cbn [run] in R. pose proof (item_matched junk m d q f g M) as I.
    change (run m (Datatypes.S (Datatypes.S n)) g)
      with (let (i, f1) := next m g in let (l, f2) := run m (Datatypes.S n) f1 in (i :: l, f2)).
    change (run m (Datatypes.S (Datatypes.S n)) f)
      with (let (i, f1) := next m f in let (l, f2) := run m (Datatypes.S n) f1 in (i :: l, f2)).
    destruct (next m f) as (i, f1) eqn:N, (next m g) as (i', g1) eqn:N'. cbn [fst] in I. subst i'.
    destruct (run m n f1) as (l1, f2) eqn:R1. injection R as <- <-.
    inversion E as [|? ? (h & z & -> & HS & B) E1]; subst.
    pose proof (size_range m _ z HS) as Z0.
    assert (D : rd_data (f_reader f) = d) by (apply M).
    assert (D' : rd_data (f_reader g) = junk ++ d) by (apply M).
    destruct (found_state m d f h f1 O D P N) as (z1 & HS1 & HO & ->).
    cbn [item_further] in N'.
    destruct (found_state m (junk ++ d) g _ g1 ltac:(apply Forall_app; split; assumption) D' P' N')
      as (z2 & HS2 & HO2 & ->).
    change (hdu_size m (further (len junk) h)) with (hdu_size m h) in HS2.
    rewrite HS in HS1, HS2. injection HS1 as <-. injection HS2 as <-. cbn [further h_offset] in *.
    pose proof (in_blocks_range z) as IB.
    specialize (IH (h_offset h + in_blocks z)
      (mk_fits false (h_offset h) z false (mk_reader d (h_offset h)))
      (mk_fits false (h_offset h + len junk) z false (mk_reader (junk ++ d) (h_offset h + len junk))) l1 f2).
    assert (M1 : matched junk d (h_offset h + in_blocks z)
      (mk_fits false (h_offset h) z false (mk_reader d (h_offset h)))
      (mk_fits false (h_offset h + len junk) z false (mk_reader (junk ++ d) (h_offset h + len junk)))).
    { unfold matched, ready. cbn [f_error f_reader rd_data rd_pos f_start f_pos_du f_num_du].
      repeat split; try lia; right; repeat split; lia. }
    specialize (IH M1). cbn [f_reader rd_pos] in IH.
    specialize (IH ltac:(lia) ltac:(lia) R1 E1).
    destruct (run m (Datatypes.S n) (mk_fits false (h_offset h) z _ _)) as (la, fa).
    destruct (run m (Datatypes.S n) (mk_fits false (h_offset h + len junk) z _ _)) as (lb, fb).
    cbn [fst map item_further] in *. now rewrite IH.
Qed.

Lemma run_behind junk m d n l f' : octets d -> octets junk ->
  run m n (opened d) = (l, f') -> Forall (ends_below m (len junk)) l ->
  fst (run m (Datatypes.S n) (from_reader (mk_reader (junk ++ d) (len junk))))
  = map (item_further (len junk)) (fst (run m (Datatypes.S n) (opened d))).
Proof.
  intros O OJ R E. pose proof (len_nonneg junk) as J.
  apply (run_matched junk m d O OJ n 0 (opened d) _ l f'); auto; cbn; try lia.
  unfold matched, ready, opened, from_reader. cbn. repeat split; try lia; left; auto.
Qed.

Lemma reads_behind junk m d n l f' asks got f'' : octets d -> octets junk ->
  Forall ask_ok asks -> fits_reads (opened (junk ++ d)) asks = (got, f'') -> concat got = junk ->
  run m n (opened d) = (l, f') -> Forall (ends_below m (len junk)) l ->
  fst (run m (Datatypes.S n) f'') = map (item_further (len junk)) (fst (run m (Datatypes.S n) (opened d))).
Proof.
  intros O OJ A H G R E. pose proof (len_nonneg (junk ++ d)) as J.
  destruct (reads_follow (junk ++ d) asks (opened (junk ++ d)) got f'' A eq_refl ltac:(cbn; lia) H)
    as (_ & F & _ & _).
  rewrite G in F. cbn in F. rewrite F. apply (run_behind junk m d n l f' O OJ R E).
Qed.

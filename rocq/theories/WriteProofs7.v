(** Proofs about tile-compressed images written by the standard: the header, and reading back. *)

From Coq Require Import Permutation ZifyBool.
From Verif Require Import Base Utf8 Text Card Reader Header Xtension Bytes Fits ImageIt BinTable Rice Float Tile.
From Verif Require Import SpecUtf8 SpecCard SpecHeader SpecXt SpecFits SpecImage SpecBin SpecRice SpecTile SpecWrite SpecWriteTable SpecWriteTile.
From Verif Require Import TextLemmas CardProofs CardProofs2 CardProps HeaderProofs HeaderProofs2 HeaderProps.
From Verif Require Import FitsProofs FitsProofs2 FitsProofs3 FitsProofs4 XtProofs XtProofs2 XtProofs3 BytesProofs ImageProofs.
From Verif Require Import BinProofs BinProofs2 BinProofs3 TileProofs6 WriteProofs WriteProofs2 WriteProofs3 WriteProofs4 WriteProofs6.

(** ** Keywords *)

Lemma indexed_keyword' name i k : 1 <= k -> 1 <= i < 10 ^ k -> lettersb name = true -> 1 <= len name -> len name + k <= 8 ->
  ordinary_keyword (indexed name i) /\ simple_name (indexed name i).
Proof.
  intros K0 I L N K. pose proof (has_digit_not_special _ (indexed_digit name i ltac:(lia))) as S.
  destruct (indexed_parts name i ltac:(lia)) as (ds & E & F & NE & V & LZ). rewrite E in *.
  apply lettersb_ok in L as (G & D).
  assert (DL := digits_length ds k F LZ ltac:(lia) ltac:(lia)).
  assert (G' : Forall graphic (name ++ digit_chars ds)).
  { apply Forall_app. split; auto. apply Forall_map. eapply Forall_impl; [|exact F]. unfold digit, graphic. simpl. lia. }
  split.
  - split; [|split; auto]. rewrite app_length. unfold digit_chars. rewrite map_length. unfold len in *. lia.
  - split; auto. intro H. apply in_app_or in H as [H|H]; auto.
    apply in_map_iff in H as (d & H & ID). rewrite Forall_forall in F. apply F in ID. unfold digit in ID. lia.
Qed.

Lemma zaxis_names l : forall i e, In e (zaxis_entries i l) -> exists j a o, i <= j < i + len l /\ In (a, o) l /\
  (e = (indexed (chars "ZNAXIS") j, SaysInt a) \/ exists t, o = Some t /\ e = (indexed (chars "ZTILE") j, SaysInt t)).
Proof.
  induction l as [|(a, o) l IH]; intros i e I; [contradiction|]. cbn [zaxis_entries] in I. rewrite len_cons. pose proof (len_nonneg l).
  destruct I as [<-|I]; [exists i, a, o; split; [lia|]; split; [now left|]; now left|].
  apply in_app_or in I as [I|I].
  - destruct o as [t|]; [|contradiction]. destruct I as [<-|[]]. exists i, a, (Some t). split; [lia|]. split; [now left|]. right. eauto.
  - destruct (IH _ _ I) as (j & a' & o' & J & IL & E). exists j, a', o'. split; [lia|]. split; [now right|exact E].
Qed.

Lemma untiled_names l : forall i n, In n (untiled i l) -> exists j, i <= j < i + len l /\ n = indexed (chars "ZTILE") j.
Proof.
  induction l as [|(a, o) l IH]; intros i n I; [contradiction|]. cbn [untiled] in I. rewrite len_cons. pose proof (len_nonneg l).
  apply in_app_or in I as [I|I].
  - destruct o; [contradiction|]. destruct I as [<-|[]]. exists i. split; [lia|reflexivity].
  - destruct (IH _ _ I) as (j & J & E). exists j. split; [lia|exact E].
Qed.

Lemma param_names l : forall i e, In e (param_entries i l) -> exists j n v, i <= j < i + len l /\ In (n, v) l /\
  (e = (indexed (chars "ZNAME") j, SaysText n) \/ e = (indexed (chars "ZVAL") j, SaysInt v)).
Proof.
  induction l as [|(n, v) l IH]; intros i e I; [contradiction|]. cbn [param_entries] in I. rewrite len_cons. pose proof (len_nonneg l).
  destruct I as [<-|[<-|I]]; [exists i, n, v; split; [lia|]; split; [now left|]; now left|exists i, n, v; split; [lia|]; split; [now left|]; now right|].
  destruct (IH _ _ I) as (j & n' & v' & J & IL & E). exists j, n', v'. split; [lia|]. split; [now right|exact E].
Qed.

Lemma indexed_zn a b x y : indexed (90 :: 78 :: 65 :: 88 :: a) x <> indexed (90 :: 78 :: 65 :: 77 :: b) y.
Proof. discriminate. Qed.

Lemma zaxis_nodup l : forall i, 0 <= i -> NoDup (map fst (zaxis_entries i l)).
Proof.
  induction l as [|(a, o) l IH]; intros i I; [constructor|]. cbn [zaxis_entries map fst]. rewrite map_app.
  assert (L : forall n, In n (map fst (zaxis_entries (i + 1) l)) -> n <> indexed (chars "ZNAXIS") i /\ n <> indexed (chars "ZTILE") i).
  { intros n J. apply in_map_iff in J as (e & <- & J). apply zaxis_names in J as (j & a' & o' & J & _ & [->|(t & _ & ->)]);
      cbn [fst]; split; try discriminate; intro E; apply indexed_inj in E; lia. }
  constructor.
  - intro J. apply in_app_or in J as [J|J]; [destruct o; [destruct J as [J|[]]; discriminate|contradiction]|now apply L in J].
  - destruct o; cbn [map app]; [constructor|]; try (apply IH; lia). intro J. now apply L in J.
Qed.

Lemma untiled_absent l : forall i n, 0 <= i -> In n (untiled i l) -> ~ In n (map fst (zaxis_entries i l)).
Proof.
  induction l as [|(a, o) l IH]; intros i n I U; [contradiction|]. cbn [untiled] in U. cbn [zaxis_entries map fst]. rewrite map_app.
  intros [E|J]; [apply (untiled_names ((a, o) :: l)) in U as (j & _ & ->); discriminate|].
  apply in_app_or in U as [U|U].
  - destruct o; [contradiction|]. destruct U as [<-|[]]. cbn [map app] in J.
    apply in_map_iff in J as (e & E & J). apply zaxis_names in J as (j & a' & o' & J & _ & [->|(t & _ & ->)]); [discriminate|].
    cbn [fst] in E. apply indexed_inj in E; lia.
  - apply in_app_or in J as [J|J]; [|exact (IH (i + 1) n ltac:(lia) U J)].
    destruct o; [|contradiction]. destruct J as [<-|[]]. cbn [fst] in U.
    apply untiled_names in U as (j & J & E). apply indexed_inj in E; lia.
Qed.

Lemma param_nodup l : forall i, 0 <= i -> NoDup (map fst (param_entries i l)).
Proof.
  induction l as [|(n, v) l IH]; intros i I; [constructor|]. cbn [param_entries map fst].
  assert (L : forall n, In n (map fst (param_entries (i + 1) l)) -> n <> indexed (chars "ZNAME") i /\ n <> indexed (chars "ZVAL") i).
  { intros n' J. apply in_map_iff in J as (e & <- & J). apply param_names in J as (j & a' & o' & J & _ & [->| ->]);
      cbn [fst]; split; try discriminate; intro E; apply indexed_inj in E; lia. }
  constructor; [|constructor; [|apply IH; lia]].
  - intros [J|J]; [discriminate|]. now apply L in J.
  - intro J. now apply L in J.
Qed.

Lemma indexed_znaxis i : 0 <= i -> indexed (chars "ZNAXIS") i <> chars "ZNAXIS".
Proof.
  intros I E. destruct (indexed_parts (chars "ZNAXIS") i I) as (ds & E' & _ & NE & _). rewrite E' in E.
  apply (f_equal (@length Z)) in E. rewrite app_length in E. unfold digit_chars in E. rewrite map_length in E.
  destruct ds; [congruence|]. cbn [length] in E. lia.
Qed.

Definition fixed_entries (p : zpicture) : list (str * said) :=
  [(chars "ZIMAGE", SaysLogical true); (chars "ZCMPTYPE", SaysText (cmp_name (zp_cmp p)));
   (chars "ZBITPIX", SaysInt (bitpix_code (zp_bitpix p))); (chars "ZNAXIS", SaysInt (len (zp_axes p)))].

(** Further keywords. *)
Definition side_ok (more : list (str * said)) (absent : list str) : Prop :=
  incl (map fst more ++ absent) [chars "ZBLANK"; chars "ZQUANTIZ"; chars "ZDITHER0"; chars "BZERO"; chars "BSCALE"] /\ NoDup (map fst more) /\ Forall (fun e => whole (snd e)) more.

Lemma no_side : side_ok [] [].
Proof. split; [intros n []|]. split; constructor. Qed.
Lemma float_side kb told : side_ok (float_entries kb told) [chars "ZBLANK"; chars "ZQUANTIZ"].
Proof.
  assert (W : whole (SaysText (chars "NO_DITHER")) /\ whole (SaysText (chars "SUBTRACTIVE_DITHER_1")) /\ whole (SaysText (chars "SUBTRACTIVE_DITHER_2"))).
  { repeat split; intros t E; apply (f_equal (@rev Z)) in E; rewrite rev_app_distr in E; discriminate. }
  destruct W as (W0 & W1 & W2).
  destruct kb, told as [[|n|n]|]; (split; [|split]); unfold float_entries; cbn [dither_entries map fst app];
    try (intros x I; cbn [In] in *; tauto); repeat (apply NoDup_cons || apply NoDup_nil || apply Forall_cons || apply Forall_nil);
    cbn [In snd]; auto; try exact Logic.I; intros I; repeat (destruct I as [I|I]; [discriminate|]); contradiction.
Qed.

Lemma zp_names p n : In n (map fst (zp_entries p)) -> 
  n <> chars "ZBLANK" /\ n <> chars "ZQUANTIZ" /\ n <> chars "ZDITHER0" /\ n <> chars "BZERO" /\ n <> chars "BSCALE".
Proof.
  intro I. unfold zp_entries in I. rewrite !map_app in I. apply in_app_or in I as [I|I].
  { cbn [map fst In] in I. repeat (destruct I as [<-|I]; [repeat split; discriminate|]). contradiction. }
  apply in_app_or in I as [I|I]; apply in_map_iff in I as (e & <- & I).
  - apply zaxis_names in I as (j & a & o & _ & _ & [->|(t & _ & ->)]); repeat split; discriminate.
  - apply param_names in I as (j & n & v & _ & _ & [->| ->]); repeat split; discriminate.
Qed.

Lemma nodup_app {A} (l1 l2 : list A) : NoDup l1 -> NoDup l2 -> (forall x, In x l1 -> ~ In x l2) -> NoDup (l1 ++ l2).
Proof.
  induction l1 as [|x l1 IH]; intros N1 N2 D; auto. inversion N1; subst. cbn [app]. constructor.
  - intro I. apply in_app_or in I as [I|I]; [contradiction|]. apply (D x); [now left|auto].
  - apply IH; auto. intros y Y. apply D. now right.
Qed.

Lemma zp_extra p more absent : len (zp_axes p) <= 99 -> len (zp_params p) <= 999 -> Forall (fun n => whole (SaysText (fst n))) (zp_params p) ->
  side_ok more absent -> extra_ok (zp_entries p ++ more) (untiled 1 (zp_axes p) ++ absent).
Proof.
  intros LA LP WP (SI & SN & SW).
  assert (SK : forall n, In n (map fst more ++ absent) -> (ordinary_keyword n /\ simple_name n) /\ zname n).
  { intros n I. apply SI in I. destruct I as [<-|[<-|[<-|[<-|[<-|[]]]]]]; (split; [apply keywordb_ok; reflexivity|]); try (left; eexists; reflexivity); unfold zname; auto. }
  assert (A0 : forall e, In e (zp_entries p) -> (ordinary_keyword (fst e) /\ simple_name (fst e)) /\ zname (fst e) /\ whole (snd e)).
  { intros e I. apply in_app_or in I as [I|I].
    - destruct I as [<-|[<-|[<-|[<-|[]]]]]; (split; [apply keywordb_ok; reflexivity|]; split; [left; eexists; reflexivity|]); try exact Logic.I.
      cbn [snd whole]. intros t E. apply (f_equal (@rev Z)) in E. rewrite rev_app_distr in E. destruct (zp_cmp p); discriminate.
    - apply in_app_or in I as [I|I].
      + apply zaxis_names in I as (j & a & o & J & _ & [->|(t & _ & ->)]); cbn [fst snd];
          (split; [apply (indexed_keyword' _ _ 2); [lia|cbn; lia|reflexivity|vm_compute; discriminate|vm_compute; discriminate]|]);
          (split; [left; eexists; reflexivity|exact Logic.I]).
      + apply param_names in I as (j & n & v & J & IP & [->| ->]); cbn [fst snd];
          (split; [apply (indexed_keyword' _ _ 3); [lia|cbn; lia|reflexivity|vm_compute; discriminate|vm_compute; discriminate]|]);
          (split; [left; eexists; reflexivity|]); [|exact Logic.I].
        rewrite Forall_forall in WP. exact (WP _ IP). }
  assert (A : forall e, In e (zp_entries p ++ more) -> (ordinary_keyword (fst e) /\ simple_name (fst e)) /\ zname (fst e) /\ whole (snd e)).
  { intros e I. apply in_app_or in I as [I|I]; auto. rewrite Forall_forall in SW.
    destruct (SK (fst e)) as (K1 & K2); [apply in_or_app; left; now apply in_map|]. auto. }
  assert (U : forall n, In n (untiled 1 (zp_axes p) ++ absent) -> simple_name n /\ zname n).
  { intros n I. apply in_app_or in I as [I|I]; [|destruct (SK n) as ((_ & K1) & K2); [apply in_or_app; now right|auto]].
    apply untiled_names in I as (j & J & ->). split; [|left; eexists; reflexivity].
    apply (indexed_keyword' _ _ 2); [lia|cbn; lia|reflexivity|vm_compute; discriminate|vm_compute; discriminate]. }
  split; [|split].
  - split; [apply Forall_forall; intros e I; apply (A e I)|]. split.
    + apply Forall_app. split; [apply Forall_map, Forall_forall; intros e I; apply (A e I)|apply Forall_forall; intros n I; apply (U n I)].
    + split; [apply Forall_forall; intros e I; apply (A e I)|].
      rewrite map_app. apply nodup_app; auto.
      2:{ intros n I J. apply zp_names in I as (I1 & I2 & I3 & I4 & I5). destruct (SI n) as [E|[E|[E|[E|[E|[]]]]]]; [apply in_or_app; now left|congruence..]. }
      unfold zp_entries. rewrite !map_app. cbn [map fst app].
      assert (K : NoDup (map fst (zaxis_entries 1 (zp_axes p)) ++ map fst (param_entries 1 (zp_params p)))).
      { pose proof (zaxis_nodup (zp_axes p) 1 ltac:(lia)) as N1. pose proof (param_nodup (zp_params p) 1 ltac:(lia)) as N2.
        pose proof (zaxis_names (zp_axes p) 1) as Z. revert N1 Z.
        generalize (zaxis_entries 1 (zp_axes p)) as l. induction l as [|x l IH]; intros N1 Z; cbn [map app]; auto.
        inversion N1; subst. constructor; [|apply IH; auto; intros; apply Z; now right].
        intro I. apply in_app_or in I as [I|I]; [contradiction|]. apply in_map_iff in I as (e & E & I).
        apply param_names in I as (j & n & v & _ & _ & [->| ->]);
          destruct (Z x (or_introl eq_refl)) as (j' & a & o & _ & _ & [->|(t & _ & ->)]); discriminate. }
      assert (K2 : forall n, In n (map fst (zaxis_entries 1 (zp_axes p)) ++ map fst (param_entries 1 (zp_params p))) ->
                 n <> chars "ZIMAGE" /\ n <> chars "ZCMPTYPE" /\ n <> chars "ZBITPIX" /\ n <> chars "ZNAXIS").
      { intros n I. apply in_app_or in I as [I|I]; apply in_map_iff in I as (e & <- & I).
        - apply zaxis_names in I as (j & a & o & J & _ & [->|(t & _ & ->)]); cbn [fst]; repeat split; try discriminate.
          apply indexed_znaxis. lia.
        - apply param_names in I as (j & n & v & _ & _ & [->| ->]); repeat split; discriminate. }
      repeat (constructor; [cbn [In]; intro I; repeat (destruct I as [I|I]; [discriminate|]); apply K2 in I; tauto|]).
      exact K.
  - apply Forall_app. split; [apply Forall_map, Forall_forall; intros e I; apply (A e I)|apply Forall_forall; intros n I; apply (U n I)].
  - right. exists (len (zp_axes p)). split; [apply in_or_app; left; do 3 right; now left|lia].
Qed.

Lemma unit_records_octets k es ns s : proper_entries es ns -> unit_of k es ns s -> Forall octets (s_records s).
Proof.
  intros (P1 & P2 & P3 & P4) ((r & rs & E & Op & H) & _).
  destruct (opening_ok k r Op) as (_ & O & c & _ & _ & NE).
  destruct (header_says _ es rs c NE P2 P1 P3 P4 ltac:(apply incl_appl, incl_refl) H) as (cards & vs & _ & _ & Os & _).
  rewrite E. constructor; auto.
Qed.

Lemma lossy_prefix a : Forall (fun c => c < 128) a -> forall l j, utf8_lossy l = a ++ j -> exists l', l = a ++ l'.
Proof.
  induction 1 as [|y a Y F IH]; intros l j H; [exists l; reflexivity|].
  destruct l as [|x l]; [discriminate|]. apply lossy_head in H as (-> & H); auto.
  destruct (IH _ _ H) as (l' & ->). exists l'. reflexivity.
Qed.

Lemma tokens_first p l : forall cur t ts, tokens p cur l = t :: ts -> cur <> [] -> exists u w, t = rev cur ++ u /\ l = u ++ w.
Proof.
  induction l as [|c l IH]; intros cur t ts E N; cbn [tokens] in E.
  - destruct cur; [congruence|]. injection E as <- _. exists [], []. now rewrite app_nil_r.
  - destruct (p c) eqn:P.
    + destruct cur as [|x cur]; [congruence|]. injection E as <- _. exists [], (c :: l). now rewrite app_nil_r.
    + destruct (IH (c :: cur) t ts E ltac:(discriminate)) as (u & w & -> & ->).
      exists (c :: u), w. cbn [rev]. now rewrite <- app_assoc.
Qed.
Lemma tokens_head p l : forall t ts, tokens p [] l = t :: ts -> exists w1 w2, l = w1 ++ t ++ w2 /\ Forall (fun c => p c = true) w1.
Proof.
  induction l as [|c l IH]; intros t ts E; cbn [tokens] in E; [discriminate|].
  destruct (p c) eqn:P.
  - destruct (IH t ts E) as (w1 & w2 & -> & W1). exists (c :: w1), w2. auto.
  - destruct (tokens_first p l [c] t ts E ltac:(discriminate)) as (u & w & -> & ->). exists [], w. split; auto.
Qed.

Lemma parameter_defined r c j v : octets r -> reads_as r c -> defines c = Some (chars "ZNAME" ++ j, v) ->
  parameter_record r /\ (kw_of r = Some (chars "ZNAME" ++ j) \/ has_keyword r (chars "HIERARCH")).
Proof.
  intros O R E. destruct R as [R|(_ & ->)]; [|discriminate].
  destruct c as [n' v'| |x cm| | |n' v'| | |]; try discriminate; cbn [defines] in E.
  - injection E as -> ->. pose proof (record_value_kind _ _ _ R) as (_ & _ & _ & K). split; [|now left].
    left. apply record_value_spec in R as ((K' & _) & _); auto. exists (utf8_encode j).
    exact K'.
  - destruct x; injection E as E _; discriminate.
  - injection E as -> ->. pose proof (record_hierarch_kind _ _ _ R) as K. split; [|now right]. right. split; auto.
    pose proof K as K'. apply kw_of_iff in K'; [|reflexivity]. rewrite parse_card_kind, K' in R.
    cbn in R. unfold parse_hierarch in R.
    destruct (split_eq (skipn 9 r)) as [[before after]|] eqn:S; [|discriminate].
    apply split_eq_spec in S as (S & _).
    destruct (map utf8_lossy (tokens is_ascii_ws [] before)) as [|t0 toks] eqn:T; [discriminate|].
    destruct (parse_value after) as [pv| |]; try discriminate. cbn [bind] in R. injection R as J _.
    change (join_dots (t0 :: toks) = chars "ZNAME" ++ j) in J.
    destruct (tokens is_ascii_ws [] before) as [|b bs] eqn:TK; [discriminate|]. injection T as T0 T1.
    assert (P : exists j', t0 = chars "ZNAME" ++ j').
    { cbn [join_dots] in J. destruct toks as [|t1 toks]; [eauto|].
      destruct t0 as [|a0 [|a1 [|a2 [|a3 [|a4 t0]]]]]; cbn in J; try discriminate.
      exists t0. cbn. injection J as -> -> -> -> -> _. reflexivity. }
    destruct P as (j' & P). rewrite P in T0.
    apply lossy_prefix in T0 as (l' & ->); [|cbn; repeat constructor; lia].
    apply tokens_head in TK as (w1 & w2 & -> & W1).
    exists w1, (l' ++ w2 ++ 61 :: after). split.
    + rewrite S. rewrite <- !app_assoc. reflexivity.
    + eapply Forall_impl; [|exact W1]. intros. now apply is_ascii_ws_white.
Qed.

Lemma parameter_keywords p s m vs x j : len (zp_params p) <= 999 -> well_formed m HBinTable s vs x -> Forall octets (s_records s) -> only_parameters p s ->
  is_rice (zp_cmp p) -> In (chars "ZNAME" ++ j) (Header.keywords vs) -> In (chars "ZNAME" ++ j) (map fst (param_entries 1 (zp_params p))).
Proof.
  intros LP (_ & _ & _ & _ & c0 & cards & F & _ & PC & _) O OP IR0 I.
  apply (keywords_once m (c0 :: cards)) in PC as (_ & PC). apply PC in I as (c & v & I & D).
  assert (X : exists r, In r (s_records s) /\ reads_as r c).
  { clear -F I. induction F as [|r c' rs cs R F IH]; [contradiction|]. destruct I as [->|I]; [exists r; split; auto; now left|].
    destruct (IH I) as (r' & I' & R'). exists r'. split; auto. now right. }
  destruct X as (r & IR & RA). rewrite Forall_forall in O.
  destruct (parameter_defined r c j v (O r IR) RA D) as (PR & K).
  destruct (OP IR0 r IR PR) as (n & IN & HN).
  assert (A : ordinary_keyword n /\ exists y, n = 90 :: y).
  { apply in_map_iff in IN as (e & <- & IN). apply param_names in IN as (i & a & b & J & _ & [->| ->]); cbn [fst];
      (split; [apply (indexed_keyword' _ _ 3); [lia|cbn; lia|reflexivity|vm_compute; discriminate|vm_compute; discriminate]|eexists; reflexivity]). }
  destruct A as ((_ & G & _) & (y & ZN)).
  assert (KN : kw_of r = Some n).
  { apply keyword_iff; auto. eapply Forall_impl; [|exact G]. unfold graphic, is_ascii. simpl. lia. }
  destruct K as [K|K].
  - rewrite KN in K. assert (E : n = chars "ZNAME" ++ j) by congruence. now rewrite <- E.
  - apply kw_of_iff in K; [|reflexivity]. rewrite KN, ZN in K. discriminate.
Qed.

(** ** The description of the image *)

Lemma param_at l : forall i k n v, nth_error l k = Some (n, v) ->
  In (indexed (chars "ZNAME") (i + Z.of_nat k), SaysText n) (param_entries i l) /\
  In (indexed (chars "ZVAL") (i + Z.of_nat k), SaysInt v) (param_entries i l).
Proof.
  induction l as [|(n0, v0) l IH]; intros i [|k] n v E; try discriminate; cbn [param_entries].
  - injection E as -> ->. rewrite Z.add_0_r. split; [now left|right; now left].
  - destruct (IH (i + 1) k n v E) as (A & B). replace (i + Z.of_nat (S k)) with (i + 1 + Z.of_nat k) by lia.
    split; right; now right.
Qed.

Lemma param_find l : forall i x, In x (map fst (param_entries i l)) -> exists k n v, nth_error l k = Some (n, v) /\
  (x = indexed (chars "ZNAME") (i + Z.of_nat k) \/ x = indexed (chars "ZVAL") (i + Z.of_nat k)).
Proof.
  induction l as [|(n0, v0) l IH]; intros i x I; [contradiction|]. cbn [param_entries map fst] in I.
  destruct I as [<-|[<-|I]].
  - exists 0%nat, n0, v0. rewrite Z.add_0_r. split; auto.
  - exists 0%nat, n0, v0. rewrite Z.add_0_r. split; auto.
  - destruct (IH _ _ I) as (k & n & v & E & X). exists (S k), n, v.
    replace (i + Z.of_nat (S k)) with (i + 1 + Z.of_nat k) by lia. auto.
Qed.

Lemma has_int_fun vs k a b : has_int vs k a -> has_int vs k b -> a = b.
Proof. intros (x & X) (y & Y). rewrite X in Y. now injection Y. Qed.

Section Described.
Variables (vs : vmap) (p : zpicture).
Hypothesis S : forall kw v, In (kw, v) (zp_entries p) -> says vs kw v.
Hypothesis A : forall n, In n (untiled 1 (zp_axes p)) -> get vs n = None.
Hypothesis R : forall kw n, In (kw, SaysInt n) (zp_entries p) -> - 2 ^ 63 <= n < 2 ^ 63.
Hypothesis PK : is_rice (zp_cmp p) -> forall j, In (chars "ZNAME" ++ j) (Header.keywords vs) -> In (chars "ZNAME" ++ j) (map fst (param_entries 1 (zp_params p))).

Lemma says_param k n v : nth_error (zp_params p) k = Some (n, v) ->
  says vs (indexed (chars "ZNAME") (1 + Z.of_nat k)) (SaysText n) /\ has_int vs (indexed (chars "ZVAL") (1 + Z.of_nat k)) v.
Proof.
  intro E. destruct (param_at _ 1 k n v E) as (I1 & I2). split; [apply S|apply says_int, S];
    apply in_or_app; right; apply in_or_app; right; auto.
Qed.

Lemma blocksize_params n : is_rice (zp_cmp p) -> blocksize_given vs n <-> In (chars "BLOCKSIZE", n) (zp_params p) /\ 0 <= n < 256.
Proof.
  intro RC. split.
  - intros (j & c & G & H & B). split; auto.
    assert (I : In (chars "ZNAME" ++ j) (Header.keywords vs)).
    { apply get_in in G. apply (in_map fst) in G. exact G. }
    apply (PK RC), param_find in I as (k & n' & v & E & [X|X]); [|discriminate].
    destruct (says_param k n' v E) as ((c' & G') & V). rewrite <- X, G in G'. injection G' as <- _.
    assert (J : j = dec (1 + Z.of_nat k)) by (apply app_inv_head in X; exact X). subst j.
    assert (n = v) as -> by (eapply has_int_fun; [exact H|exact V]). eapply nth_error_In; eauto.
  - intros (I & B). apply In_nth_error in I as (k & E). destruct (says_param k _ _ E) as ((c & G) & V).
    exists (dec (1 + Z.of_nat k)), c. auto.
Qed.

Lemma tiles_described l : forall i, 0 <= i ->
  (forall kw v, In (kw, v) (zaxis_entries i l) -> says vs kw v) ->
  (forall kw n, In (kw, SaysInt n) (zaxis_entries i l) -> - 2 ^ 63 <= n < 2 ^ 63) ->
  (forall n, In n (untiled i l) -> get vs n = None) ->
  Forall (fun a => 0 <= a) (map fst l) -> Forall (fun t => 1 <= t) (tile_sizes i l) ->
  tiles_given vs i (map fst l) (tile_sizes i l).
Proof.
  induction l as [|(a, o) l IH]; intros i I Sa Ra Ab P T; cbn [map fst tile_sizes tiles_given]; [exact Logic.I|].
  cbn [zaxis_entries untiled map fst tile_sizes] in *. inversion P; inversion T; subst.
  assert (R1 := Ra (indexed (chars "ZNAXIS") i) a (or_introl eq_refl)).
  split; [apply says_int, Sa; now left|]. split; [unfold u64; lia|]. split.
  - destruct o as [t|].
    + left. assert (R2 := Ra (indexed (chars "ZTILE") i) t (or_intror (or_introl eq_refl))).
      split; [apply says_int, Sa; right; now left|unfold u64; lia].
    + right. split; auto. intros z (x & G). rewrite (Ab (indexed (chars "ZTILE") i)) in G by now left. discriminate.
  - apply IH; auto; try lia.
    + intros kw v H. apply Sa. right. apply in_or_app. now right.
    + intros kw n H. apply (Ra kw). right. apply in_or_app. now right.
    + intros n H. apply Ab. apply in_or_app. now right.
Qed.

Lemma described m t c cols : len (zp_axes p) <= 99 -> zp_compression p -> whole_tiles (zp_dims p) (zp_tiles p) ->
  NoDup (Header.keywords vs) -> len (zp_params p) <= 999 ->
  bintable_parse m vs = Ok t -> bt_ttypes t = map tc_name cols -> first_named (map tc_name cols) (chars "COMPRESSED_DATA") c ->
  exists dither, bt_zimage t = Some (mk_zimage (zp_cmp p) (zp_bitpix p) (zp_dims p) (zp_tiles p) None dither c).
Proof.
  intros LA C W ND LP B TT FN. destruct (whole_tiles_nonneg _ _ W) as (W1 & W2 & _).
  set (dz := ok (get_parsed de_i64 vs (chars "ZDITHER0"))). exists dz.
  destruct (bintable_zimage m vs t B) as (zn & PZ & ->).
  assert (E1 : parse_zcmp vs = Some (zp_cmp p)).
  { destruct (S (chars "ZCMPTYPE") (SaysText (cmp_name (zp_cmp p)))) as (cm & G); [right; now left|].
    cbn [value_said] in G. unfold parse_zcmp. rewrite G. unfold zp_compression in C. assert (BP := blocksize_params).
    destruct (zp_cmp p) as [| |bs n| |] eqn:EC; try contradiction; try reflexivity.
    destruct C as (-> & _ & _ & C). cbn - [find_blocksize].
    assert (FB := find_blocksize_spec vs ND).
    assert (LK : forall j, In (chars "ZNAME" ++ j) (Header.keywords vs) -> len j <= 3).
    { intros j I. apply (PK Logic.I) in I. apply param_find in I as (k & n & v & E & [X|X]); [|discriminate].
      assert (J : ordinary_keyword (chars "ZNAME" ++ j)).
      { rewrite X. assert (K : (k < length (zp_params p))%nat) by (apply nth_error_Some; congruence). unfold len in LP.
        apply (indexed_keyword' _ _ 3); [lia|cbn; lia|reflexivity|vm_compute; discriminate|vm_compute; discriminate]. }
      destruct J as (J & _). rewrite app_length in J. cbn in J. unfold len. lia. }
    specialize (FB LK). assert (BP' := fun n => BP n Logic.I).
    destruct (find_blocksize vs vs) as [x|].
    - apply BP' in FB as (I & _). destruct C as [(_ & _ & C)|(C & _)]; [now rewrite (C x I)|destruct (C x I)].
    - destruct C as [(I & Bn & _)|(_ & ->)]; [|reflexivity]. destruct (FB bs). now apply BP'. }
  assert (E2 : or_none (get_parsed (de_option de_bitpix) vs (chars "ZBITPIX")) = Some (zp_bitpix p)).
  { apply zbitpix_iff. apply says_int, S. right. right. now left. }
  assert (E3 : zn = Some (zp_dims p, zp_tiles p)).
  { apply (parse_znaxis_spec vs _ _ zn PZ). assert (LD : len (zp_dims p) = len (zp_axes p)) by apply len_map. rewrite LD. pose proof (len_nonneg (zp_axes p)).
    split; [apply says_int, S; right; right; right; now left|]. split; [unfold u64; lia|].
    apply tiles_described; auto; try lia.
    - intros kw v I. apply S, in_or_app. right. apply in_or_app. now left.
    - intros kw n I. apply (R kw), in_or_app. right. apply in_or_app. now left. }
  assert (E4 : data_idx (bt_ttypes t) = Some c).
  { apply data_idx_spec. left. now rewrite TT. }
  fold dz. rewrite E1, E2, E3, E4. unfold zp_compression, make_zimage in *.
  destruct (zp_cmp p) as [| |bs n| |]; try contradiction.
  - destruct C as [C|[C|C]]; now rewrite C.
  - destruct C as [C|[C|C]]; now rewrite C.
  - destruct C as (_ & [[C|[C|C]]|[C|C]] & _); now rewrite C.
Qed.

End Described.

(** ** Tiles *)

Lemma encode_byte x : in_range BU8 x -> encode BU8 x = [x].
Proof.
  intro R. cbn in R. unfold encode. change (Z.to_nat (width BU8)) with 1%nat. rewrite be_bytes_snoc.
  unfold be_bytes. cbn [seq map app]. f_equal. apply Z.mod_small. lia.
Qed.

Lemma bytes_elems bytes : forall es, Forall2 (elem_written TyB) es (map (fun b => [b]) bytes) -> concat es = bytes.
Proof.
  induction bytes as [|b bytes IH]; intros es F; inversion F as [|e ? es' ? W F']; subst; [reflexivity|].
  cbn [concat]. rewrite (IH es' F'). destruct W as (x & (R & E) & X). injection X as <-. rewrite E, encode_byte by auto. reflexivity.
Qed.

Lemma compressed_app t n x0 blocks bytes rest : compressed t n x0 blocks bytes -> compressed t n x0 blocks (bytes ++ rest).
Proof.
  intros (h & d & r & H1 & -> & H2 & H3 & H4 & H5). exists h, (d ++ rest), (r ++ bit_stream rest).
  split; auto. split; [now rewrite app_assoc|]. split; auto. split; auto. split; auto.
  unfold bit_stream in *. rewrite flat_map_app, H5. now rewrite app_assoc.
Qed.

Lemma coded_holds gz m cmp bytes rest ints : Forall (fun v => - 2 ^ 31 <= v < 2 ^ 31) ints -> coded_tile gz m cmp bytes ints ->
  holds_tile gz m cmp (bytes ++ rest) ints.
Proof.
  intros R C. split; auto. destruct cmp; cbn [coded_tile] in C; auto.
  destruct C as (L & x0 & blocks & E & C & M). split; auto. exists x0, blocks. split; auto. split; auto. now apply compressed_app.
Qed.

Section Found.
Variables (d : list Z) (o : Z) (t : bintable) (cols : list tcolumn) (rows : list (list (list (list Z)))).
Variables (parts : list (list Z)) (gap heap : list Z) (pc : Z).
Hypothesis OK : Forall column_ok cols.
Hypothesis RW : Forall2 (row_written heap (forms cols)) rows parts.
Hypothesis DE : description t cols (len rows) (len (concat parts ++ gap)) pc.
Hypothesis O0 : 0 <= o.
Hypothesis L63 : len d < 2 ^ 63.
Hypothesis LD : o + len (concat parts ++ gap ++ heap) <= len d.
Hypothesis SD : slice d o (len (concat parts ++ gap ++ heap)) = concat parts ++ gap ++ heap.

Lemma tile_found i c cells f bytes : nth_error rows (Z.to_nat i) = Some cells -> 0 <= i ->
  0 <= c -> nth_error (forms cols) (Z.to_nat c) = Some f -> f = TDesc32 TyB \/ f = TDesc64 TyB ->
  nth_error cells (Z.to_nat c) = Some (map (fun b => [b]) bytes) ->
  exists rest, tile_at d t o c i (bytes ++ rest).
Proof.
  intros N I C F FF NB. destruct DE as (D1 & D2 & D3 & D4 & D5 & D6).
  pose proof (forms_ok cols OK) as FO.
  destruct (row_at _ _ _ _ RW FO _ _ N) as (bs & W & B & S). rewrite Z2Nat.id in * by auto.
  destruct (row_cell_at _ _ _ _ W FO _ _ F) as (vs & cb & NV & CW & B0 & B1 & S1).
  rewrite NB in NV. injection NV as <-.
  pose proof (len_nonneg (concat parts)). pose proof (len_nonneg gap). pose proof (len_nonneg heap). pose proof (len_nonneg bs).
  pose proof (len_nonneg cb). rewrite !len_app in *.
  assert (T0 : 0 <= total (map field_bytes (forms cols))).
  { destruct (row_len _ _ _ _ W FO) as (<- & _). lia. }
  assert (IR : 0 <= i * total (map field_bytes (forms cols))) by nia.
  assert (SC : slice d (o + i * bt_naxis1 t + column_start (bt_tforms t) c) (len cb) = cb).
  { rewrite D1, D5. unfold column_start. rewrite <- Z.add_assoc.
    rewrite <- (slice_slice d o (len (concat parts) + (len gap + len heap)) (i * total (map field_bytes (forms cols)) + _) (len cb)) by lia.
    rewrite SD, slice_app_l by lia.
    rewrite <- (slice_slice (concat parts) (i * total (map field_bytes (forms cols))) (len bs) _ (len cb)) by lia. now rewrite S. }
  set (pos := o + i * bt_naxis1 t + column_start (bt_tforms t) c) in *.
  assert (P0 : 0 <= pos) by (subst pos; rewrite D1, D5; unfold column_start; lia).
  assert (G : forall w, 0 < w -> array_written heap TyB w (map (fun b => [b]) bytes) cb ->
     exists p rest, SpecBin.be_value (slice d (pos + w) w) = p /\
       bytes ++ rest = skipn (Z.to_nat (o + bt_theap t + p)) d /\ o + bt_theap t + p < 2 ^ 63).
  { intros w W0 (b1 & b2 & p & es & -> & (O1 & L1 & V1) & (O2 & L2 & V2) & NE & FE & BE & SE).
    rewrite len_app, L1, L2 in SC. apply bytes_elems in FE. rewrite FE in *.
    assert (S2 : slice d (pos + w) w = b2).
    { rewrite <- (slice_slice d pos (w + w) w w) by lia. rewrite SC.
      rewrite slice_app_r by lia. rewrite L1, Z.sub_diag. now apply slice_all. }
    pose proof (be_value_nonneg b2 O2) as PP. rewrite V2 in PP. pose proof (len_nonneg bytes).
    exists p, (skipn (Z.to_nat (o + bt_theap t + p + len bytes)) d). rewrite S2. split; auto.
    assert (SB : slice d (o + bt_theap t + p) (len bytes) = bytes).
    { rewrite D3. rewrite <- SE at 2. rewrite <- Z.add_assoc.
      rewrite <- (slice_slice d o (len (concat parts) + (len gap + len heap)) (len (concat parts) + len gap + p) (len bytes)) by lia.
      rewrite SD, app_assoc, slice_app_r by (rewrite len_app; lia). rewrite len_app. f_equal. lia. }
    split; [|rewrite D3; lia].
    rewrite <- SB at 1. unfold slice.
    replace (Z.to_nat (o + bt_theap t + p + len bytes)) with (Z.to_nat (o + bt_theap t + p) + Z.to_nat (len bytes))%nat.
    2:{ rewrite D3. lia. }
    rewrite <- skipn_skipn. apply firstn_skipn. }
  assert (FM : format t c = Some f) by (unfold format; rewrite D5; replace (c <? 0) with false by lia; exact F).
  destruct FF as [->| ->]; cbn [cell_written] in CW.
  - destruct (G 4 ltac:(lia) CW) as (p & rest & E & SK & LT). exists rest, (TDesc32 TyB), p.
    split; auto. split; [cbn [desc_place]; fold pos; now rewrite E|]. auto.
  - destruct (G 8 ltac:(lia) CW) as (p & rest & E & SK & LT). exists rest, (TDesc64 TyB), p.
    split; auto. split; [cbn [desc_place]; fold pos; now rewrite E|]. auto.
Qed.

End Found.

(** ** Reading back *)

Lemma zp_untiled_absent p n : In n (untiled 1 (zp_axes p)) -> ~ In n (map fst (zp_entries p)).
Proof.
  intros U I. unfold zp_entries in I. rewrite !map_app in I.
  pose proof (untiled_names _ _ _ U) as (j & J & E).
  apply in_app_or in I as [I|I]; [rewrite E in I; cbn [map fst In] in I; repeat (destruct I as [I|I]; [discriminate|]); contradiction|].
  apply in_app_or in I as [I|I]; [revert I; now apply untiled_absent|].
  apply in_map_iff in I as (e & E' & I). apply param_names in I as (k & a & v & _ & _ & [->| ->]); rewrite E in E'; discriminate.
Qed.

Lemma tiled_well_formed gz m p more absent cols rows c s : side_ok more absent -> tiled_table gz m p more absent cols rows c s ->
  exists f parts gap heap vs t dither,
    1 <= len cols /\ Forall column_ok cols /\ total (map field_bytes (forms cols)) < 2 ^ 60 /\
    first_named (map tc_name cols) (chars "COMPRESSED_DATA") c /\
    nth_error (forms cols) (Z.to_nat c) = Some f /\ (f = TDesc32 TyB \/ f = TDesc64 TyB) /\
    Forall one_value (firstn (Z.to_nat c) (forms cols)) /\
    len rows = product (grid (zp_dims p) (zp_tiles p)) /\
    (forall k cells, nth_error rows k = Some cells -> exists bytes,
       nth_error cells (Z.to_nat c) = Some (map (fun b => [b]) bytes) /\
       coded_tile gz m (zp_cmp p) bytes (tile_pixels (zp_dims p) (zp_tiles p) (zp_pixels p) (Z.of_nat k))) /\
    Forall2 (row_written heap (forms cols)) rows parts /\ s_data s = concat parts ++ gap ++ heap /\
    well_formed m HBinTable s vs (XtBin t) /\ description t cols (len rows) (len (concat parts ++ gap)) (len (gap ++ heap)) /\
    bt_zimage t = Some (mk_zimage (zp_cmp p) (zp_bitpix p) (zp_dims p) (zp_tiles p) None dither c) /\
    (forall kw v, In (kw, v) more -> says vs kw v) /\
    (forall n, In n absent -> ~ In n (map fst more) -> get vs n = None).
Proof.
  intros SO (f & LA & LP & WP & CP & WT & PB & LX & FN & NF & FF & OV & LR & CT & TW & OP).
  pose proof (zp_extra p more absent LA LP WP SO) as EX.
  destruct (table_with_well_formed m _ _ cols rows s EX TW) as (parts & gap & heap & vs & t & RW & DD & WF & DE & SX & AB).
  destruct TW as (es & parts0 & gap0 & heap0 & th & LC & OK & N1 & RW0 & DD0 & LD & TH & P & U).
  pose proof (table_with_proper _ _ (total (map field_bytes (forms cols))) (len rows)
    (len (gap0 ++ heap0)) th cols ltac:(lia) OK EX) as PR.
  apply (proper_perm _ es) in PR; auto.
  pose proof (unit_records_octets _ _ _ _ PR U) as OR.
  assert (IR : forall kw n, In (kw, SaysInt n) (zp_entries p) -> - 2 ^ 63 <= n < 2 ^ 63).
  { intros kw n I. destruct U as ((r & rs & _ & _ & H) & _). eapply header_of_int; [exact H|]. eapply Permutation_in; [exact P|].
    apply in_or_app. right. apply in_or_app. left. exact I. }
  assert (AB' : forall n, In n (untiled 1 (zp_axes p)) -> get vs n = None).
  { intros n I. apply AB; [apply in_or_app; now left|]. rewrite map_app. intro J. apply in_app_or in J as [J|J].
    - revert J. now apply zp_untiled_absent.
    - apply untiled_names in I as (j & _ & ->). destruct SO as (SI & _).
      destruct (SI (indexed (chars "ZTILE") j)) as [E|[E|[E|[E|[E|[]]]]]]; [apply in_or_app; now left|discriminate..]. }
  pose proof DE as (D1 & D2 & D3 & D4 & D5 & D6).
  assert (XP : bintable_parse m vs = Ok t).
  { destruct WF as (_ & _ & _ & _ & c0 & cards & _ & _ & _ & X & _). cbn [xtype_of xt_parse] in X.
    destruct (bintable_parse m vs); cbn [bind] in X; congruence. }
  assert (ND : NoDup (Header.keywords vs)).
  { destruct WF as (_ & _ & _ & _ & c0 & cards & _ & _ & PC & _). apply (keywords_once m (c0 :: cards)) in PC as (PC & _). exact PC. }
  assert (SX' : forall kw v, In (kw, v) (zp_entries p) -> says vs kw v) by (intros kw v I; apply SX, in_or_app; now left).
  destruct (described vs p SX' AB' IR) with (m := m) (t := t) (c := c) (cols := cols) as (dither & ZI); auto.
  { intros RC j. eapply parameter_keywords; eauto. }
  exists f, parts, gap, heap, vs, t, dither. repeat (split; [solve [auto|lia]|]).
  split; [intros kw v I; apply SX, in_or_app; now right|].
  intros n I NI. apply AB; [apply in_or_app; now right|]. rewrite map_app. intro J. apply in_app_or in J as [J|J]; [|contradiction].
  apply zp_names in J as (J1 & J2 & J3 & J4 & J5). destruct SO as (SI & _). destruct (SI n) as [E|[E|[E|[E|[E|[]]]]]]; [apply in_or_app; now right|congruence..].
Qed.

Lemma accepted_tiled gz m p more absent cols rows c s : side_ok more absent -> tiled_table gz m p more absent cols rows c s -> accepted m (HBinTable, s).
Proof.
  intros SO W. destruct (tiled_well_formed gz m p _ _ cols rows c s SO W) as (f & parts & gap & heap & vs & t & dither & H).
  exists vs, (XtBin t). tauto.
Qed.
Lemma accepted_zpicture gz m p s : zpicture_written gz m p s -> accepted m (HBinTable, s).
Proof. intros (cols & rows & c & _ & _ & W). eapply accepted_tiled; [apply no_side|exact W]. Qed.
Lemma accepted_fpicture gz m p s : fpicture_written gz m p s -> accepted m (HBinTable, s).
Proof. intros (told & cols & rows & c & kb & _ & _ & _ & _ & _ & W). eapply accepted_tiled; [apply float_side|exact W]. Qed.

Lemma int_pixel_in b v : whole_pixels b -> in_range b v -> int_pixel b v = PInt v.
Proof.
  intros [->|[->| ->]] R; cbn in R; unfold int_pixel; f_equal; [apply Z.mod_small; lia|].
  unfold low_signed. cbv zeta. Z.div_mod_to_equations. lia.
Qed.

Lemma in_range_i32 b v : whole_pixels b -> in_range b v -> - 2 ^ 31 <= v < 2 ^ 31.
Proof. intros [->|[->| ->]] R; cbn in R; lia. Qed.

Lemma zp_whole p : zp_compression p -> ~ (zp_bitpix p = BU8 /\ zp_cmp p = ZGzip2).
Proof.
  unfold zp_compression, real_pixels. destruct (zp_cmp p); try contradiction; intros H (E & E'); try discriminate.
  destruct H as [H|[H|H]]; congruence.
Qed.

(** The table in the file. *)
Lemma tiled_found gz m d pre s post p more absent cols rows c l f :
  octets d -> file_kinds (pre ++ (HBinTable, s) :: post) -> Forall (accepted m) pre ->
  side_ok more absent -> tiled_table gz m p more absent cols rows c s -> Forall (fun v => - 2 ^ 31 <= v < 2 ^ 31) (zp_pixels p) ->
  d = file_bytes (pre ++ (HBinTable, s) :: post) -> len d < 2 ^ 63 ->
  yields m (opened d) l f -> length l = S (length pre) ->
  exists l' h f1 t z dither parts gap heap,
    l = l' ++ [IOk h] /\ h_kind h = HBinTable /\ rd_data (f_reader f1) = d /\ 0 <= rd_pos (f_reader f1) /\ next m f1 = (IOk h, f) /\
    h_xt h = XtBin t /\ bt_zimage t = Some z /\ z = mk_zimage (zp_cmp p) (zp_bitpix p) (zp_dims p) (zp_tiles p) None dither c /\
    tiled d t (h_offset h) z /\ tiles_hold gz m d t (h_offset h) z (tile_pixels (zp_dims p) (zp_tiles p) (zp_pixels p)) /\
    bt_naxis2 t = product (grid (zp_dims p) (zp_tiles p)) /\
    Forall column_ok cols /\ Forall2 (row_written heap (forms cols)) rows parts /\
    description t cols (len rows) (len (concat parts ++ gap)) (len (gap ++ heap)) /\ 0 <= h_offset h /\
    h_offset h + len (concat parts ++ gap ++ heap) <= len d /\
    slice d (h_offset h) (len (concat parts ++ gap ++ heap)) = concat parts ++ gap ++ heap /\
    len rows = product (grid (zp_dims p) (zp_tiles p)) /\
    (forall kw v, In (kw, v) more -> says (h_values h) kw v) /\
    (forall n, In n absent -> ~ In n (map fst more) -> get (h_values h) n = None).
Proof.
  intros O K A SO W RX D B Y L.
  destruct (nth_hdu m d pre HBinTable s post l f) as (l' & h & f1 & EL & RD & RP & N & RF & HO & SL); auto.
  { apply Forall_app. split; auto. constructor; auto. eapply accepted_tiled; eauto. }
  destruct (tiled_well_formed gz m p _ _ cols rows c s SO W) as
    (fm & parts & gap & heap & vs & t & dither & LC & OK & N1 & FN & NF & FF & OV & LR & CT & RW & DD & WF & DE & ZI & SM & AM).
  destruct W as (_ & _ & _ & _ & CP & WT & PB & LX & _).
  destruct (read_from_xt m _ s vs _ _ h WF RF) as (X & HV).
  destruct RF as (HK & _ & _ & _ & HOE & HSZ).
  assert (O0 : 0 <= h_offset h).
  { rewrite HOE. pose proof (len_nonneg (file_bytes pre)). pose proof (len_nonneg (header_bytes s)). lia. }
  rewrite DD in HO, SL.
  pose proof DE as (D1 & D2 & D3 & D4 & D5 & D6).
  assert (NX : Forall (fun f => elem_type f <> TyX) (forms cols)).
  { apply Forall_map. eapply Forall_impl; [|exact OK]. intros c0 C. apply C. }
  pose proof (rows_len _ _ _ _ RW NX) as LRW.
  pose proof (len_nonneg gap). pose proof (len_nonneg heap).
  assert (TI : table_inside d t (h_offset h)).
  { split; auto. rewrite D5, D1, D2. split; [|split].
    - assert (E : total (map field_bits (forms cols)) = 8 * total (map field_bytes (forms cols))); [|lia].
      clear -NX. induction NX as [|x fs X F IH]; cbn [map total]; [reflexivity|].
      rewrite IH. pose proof (field_bits_mod x X). unfold field_bytes. Z.div_mod_to_equations. lia.
    - eapply Forall_impl; [|exact NX]. apply field_bits_mod.
    - rewrite !len_app in HO. lia. }
  assert (NE : bt_tforms t <> []).
  { rewrite D5. intro E. apply (f_equal (@length _)) in E. unfold forms in E. rewrite map_length in E. unfold len in LC. cbn in E. lia. }
  assert (AC : all_columns t = upto (len cols)).
  { unfold all_columns. rewrite D5. unfold forms. now rewrite len_map. }
  pose proof (written_readable d (h_offset h) t cols rows parts gap heap _ OK RW DE O0 HO SL (upto (len cols)) (upto_columns cols)) as RE.
  rewrite <- AC in RE.
  assert (RE' : columns_readable d (len d) t (h_offset h) false (all_columns t)).
  { intros c0 I. destruct (RE c0 I) as (f0 & F0 & R0). exists f0. split; auto. intros row R. specialize (R0 row R).
    destruct f0; cbn [cell_readable] in *; auto; discriminate. }
  destruct (whole_tiles_nonneg _ _ WT) as (A0 & T1 & G0).
  assert (PT : 1 <= product (zp_tiles p)).
  { clear -T1. induction T1; cbn [product]; [lia|]. nia. }
  pose proof (product_nonneg _ G0) as PG.
  set (z := mk_zimage (zp_cmp p) (zp_bitpix p) (zp_dims p) (zp_tiles p) None dither c) in *.
  assert (C0 : 0 <= c) by apply FN.
  assert (TD : tiled d t (h_offset h) z).
  { split; auto. split; auto. split; auto. split; [unfold counted; rewrite D5; exact OV|]. split; [change (z_tilen z) with (zp_tiles p); lia|].
    change (z_tilen z) with (zp_tiles p). eapply Forall_impl; [|exact T1]. intros; cbv beta in *; lia. }
  assert (TH : tiles_hold gz m d t (h_offset h) z (tile_pixels (zp_dims p) (zp_tiles p) (zp_pixels p))).
  { intros row R. rewrite D2, LR in R. split; [change (z_tilen z) with (zp_tiles p); apply tile_pixels_len; lia|].
    destruct (nth_error rows (Z.to_nat row)) as [cells|] eqn:NR.
    2:{ apply nth_error_None in NR. unfold len in LR. lia. }
    destruct (CT _ _ NR) as (bytes & NB & CD). rewrite Z2Nat.id in CD by lia.
    destruct (tile_found d (h_offset h) t cols rows parts gap heap _ OK RW DE O0 B HO SL row c cells fm bytes) as (rest & TA); auto; try lia.
    exists (bytes ++ rest). split; [exact TA|]. apply coded_holds; auto.
    apply tile_pixels_in; auto. }
  rewrite <- HV in *.
  exists l', h, f1, t, z, dither, parts, gap, heap. repeat (split; [solve [auto]|]). split; [congruence|]. repeat (split; [solve [auto]|]). auto.
Qed.

Lemma zpicture_read_back gz m d pre s post p l f :
  octets d -> file_kinds (pre ++ (HBinTable, s) :: post) -> Forall (accepted m) pre -> zpicture_written gz m p s ->
  d = file_bytes (pre ++ (HBinTable, s) :: post) -> len d < 2 ^ 63 ->
  yields m (opened d) l f -> length l = S (length pre) ->
  exists l' h t z st fuel0, l = l' ++ [IOk h] /\ h_kind h = HBinTable /\ h_xt h = XtBin t /\
    bt_zimage t = Some z /\ zimage_of p z /\
    get_tiles m f (h_values h) t = Some (Ok st) /\
    forall fuel n, (fuel0 <= fuel)%nat -> fst (tiles_run gz m fuel st n)
      = firstn n (map PixelOf (map PInt (tilewise p)) ++ repeat PixEnd n).
Proof.
  intros O K A (cols & rows & c & WP & RX & W) D B Y L.
  destruct (tiled_found gz m d pre s post p [] [] cols rows c l f) as
    (l' & h & f1 & t & z & dither & parts & gap & heap & EL & HK & RD & RP & N & X & ZI & EZ & TD & TH & N2 & _); auto using no_side.
  { eapply Forall_impl; [|exact RX]. intros v. now apply in_range_i32. }
  destruct W as (_ & _ & _ & _ & CP & WT & PB & LX & _). pose proof (zp_whole p CP) as NG.
  assert (ZB : z_bitpix z = zp_bitpix p) by (subst; reflexivity). assert (ZC : z_cmp z = zp_cmp p) by (subst; reflexivity).
  destruct (int_tiles_read gz m d f1 h f t z _ O RD RP N X ZI TD TH ltac:(now rewrite ZB) ltac:(now rewrite ZB, ZC)) as (st & fu & GT & RU).
  exists l', h, t, z, st, fu. split; [auto|]. split; [auto|]. split; [auto|]. split; [auto|]. split; [subst; repeat split|]. split; [auto|].
  intros fuel n FU. rewrite (RU fuel n FU). do 3 f_equal. rewrite N2.
  assert (E : forall ks, (forall k, In k ks -> 0 <= k < product (grid (zp_dims p) (zp_tiles p))) ->
    flat_map (fun row => map (int_pixel (z_bitpix z)) (tile_pixels (zp_dims p) (zp_tiles p) (zp_pixels p) row)) ks
    = map PInt (flat_map (tile_pixels (zp_dims p) (zp_tiles p) (zp_pixels p)) ks)).
  { induction ks as [|k ks IH]; intro I; [reflexivity|]. cbn [flat_map]. rewrite map_app, IH by (intros; apply I; now right). f_equal.
    apply map_ext_in. intros v V.
    assert (F : Forall (in_range (zp_bitpix p)) (tile_pixels (zp_dims p) (zp_tiles p) (zp_pixels p) k)).
    { apply tile_pixels_in; auto. apply I. now left. }
    rewrite Forall_forall in F. rewrite ZB. apply int_pixel_in; auto. }
  apply E. intros k I. now apply upto_In in I.
Qed.

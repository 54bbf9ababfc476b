(** Proofs for cards spliced by hand. *)

From Verif Require Import Base Utf8 Text Card Reader Header SpecUtf8 SpecCard SpecHeader SpecSplice.
From Verif Require Import TextLemmas Utf8Proofs CardProofs CardProofs2 CardProps HeaderProofs HeaderProofs2 HeaderProps.
From Coq Require Import ZifyBool.

Lemma splice_one m c r out : card_append m c r = Ok out ->
  exists n v v' p cm, r = CContinuation p cm /\ defines c = Some (n, v) /\ defines out = Some (n, v') /\
    forall post, completed v (r :: post) = completed v' post.
Proof.
  intro A. apply card_append_all in A as (n & t & tc & p & cm & -> & X).
  assert (W: without_amp (t ++ [38]) = Some t) by (apply without_amp_iff; reflexivity).
  destruct X as [(-> & ->)|(-> & ->)]; do 5 eexists; (split; [reflexivity|]); (split; [reflexivity|]); (split; [reflexivity|]);
    intro post; cbn [completed defines]; rewrite W; reflexivity.
Qed.

Lemma splices_all m : forall conts c out, splices m c conts = Ok out ->
  conts = [] /\ out = c \/
  exists n v v', defines c = Some (n, v) /\ defines out = Some (n, v') /\
    Forall (fun r => defines r = None) conts /\ forall post, completed v (conts ++ post) = completed v' post.
Proof.
  induction conts as [|r conts IH]; intros c out H.
  - inversion H; subst. auto.
  - right. cbn [splices] in H. destruct (card_append m c r) as [c'| |] eqn:A; try discriminate. cbn [bind] in H.
    apply splice_one in A as (n & v & v' & p & cm & -> & D & D' & C).
    destruct (IH c' out H) as [(-> & ->)|(n2 & w & w' & D2 & D3 & F & C2)].
    + exists n, v, v'. repeat split; auto.
    + rewrite D' in D2. injection D2 as <- <-. exists n, v, w'. repeat split; auto.
      intro post. cbn [app]. rewrite C. apply C2.
Qed.

Lemma names_none l : Forall (fun r => defines r = None) l -> names l = [].
Proof. induction 1 as [|c l D F IH]; auto. unfold names. cbn [flat_map]. rewrite D. exact IH. Qed.

Lemma lookup_none l post name : Forall (fun r => defines r = None) l -> lookup (l ++ post) name = lookup post name.
Proof. induction 1 as [|c l D F IH]; auto. cbn [app lookup]. rewrite IH, D. destruct (lookup post name); reflexivity. Qed.

Lemma completed_app w pre : forall x y, (forall w, completed w x = completed w y) -> completed w (pre ++ x) = completed w (pre ++ y).
Proof.
  revert w. induction pre as [|c pre IH]; intros w x y H; [apply H|]. cbn [app completed].
  destruct (defines c); auto. destruct c; auto. destruct w; auto. destruct (without_amp v); auto.
Qed.

Lemma lookup_swap x y name : (forall w, completed w x = completed w y) -> lookup x name = lookup y name ->
  forall pre, lookup (pre ++ x) name = lookup (pre ++ y) name.
Proof.
  intros C L. induction pre as [|c pre IH]; auto. cbn [app lookup]. rewrite IH.
  destruct (lookup (pre ++ y) name); auto. destruct (defines c) as [(n, v)|]; auto.
  now rewrite (completed_app v pre x y C).
Qed.

Lemma spliced_header m pre c conts out post vs1 vs2 :
  splices m c conts = Ok out ->
  process_cards m (pre ++ c :: conts ++ post ++ [CEnd]) = Ok vs1 ->
  process_cards m (pre ++ out :: post ++ [CEnd]) = Ok vs2 ->
  keywords vs1 = keywords vs2 /\ forall name, get vs1 name = get vs2 name.
Proof.
  intros S P1 P2.
  destruct (splices_all m conts c out S) as [(-> & ->)|(n & v & v' & D & D' & F & C)].
  { cbn [app] in P1. rewrite P1 in P2. injection P2 as ->. auto. }
  replace (pre ++ c :: conts ++ post ++ [CEnd]) with ((pre ++ c :: conts ++ post) ++ [CEnd]) in P1
    by (rewrite <- !app_assoc; cbn; rewrite <- !app_assoc; reflexivity).
  replace (pre ++ out :: post ++ [CEnd]) with ((pre ++ out :: post) ++ [CEnd]) in P2
    by (rewrite <- app_assoc; reflexivity).
  apply process_ok_spec in P1 as (K1 & G1). apply process_ok_spec in P2 as (K2 & G2).
  split.
  - rewrite K1, K2. f_equal. rewrite !names_app. f_equal. unfold names at 1 2. cbn [flat_map]. rewrite D, D'. f_equal.
    fold (names (conts ++ post)). fold (names post). now rewrite names_app, names_none.
  - intro name. rewrite G1, G2. apply lookup_swap.
    + intro w. cbn [completed]. now rewrite D, D'.
    + cbn [lookup]. rewrite D, D', lookup_none by auto. destruct (lookup post name); auto. now rewrite C.
Qed.

(** ** Long strings written by the standard *)

Lemma append_value m kw t tc p cm :
  card_append m (CValue kw (VString (t ++ [38]) tc)) (CContinuation p cm)
  = Ok (CValue kw (VString (joined t p) (joined_comment tc cm))).
Proof. apply (proj1 (card_append_all m _ _)). exists kw, t, tc, p, cm. auto. Qed.

Lemma splices_conts m kw l : forall t tc,
  l <> [] -> Forall piece_ok l -> Forall printable t ->
  splices m (CValue kw (VString (t ++ [38]) tc)) (cont_cards l)
  = Ok (CValue kw (VString (rtrim (t ++ concat (map pc_text l))) (joined_comment tc (all_comments l)))).
Proof.
  induction l as [|p [|q r] IH]; intros t tc Hn H Ht; [congruence| |].
  - inversion H as [|? ? (Hp & Hc) _]; subst.
    cbn [cont_cards splices]. unfold cont_card. rewrite append_value. cbn [bind splices].
    rewrite app_nil_r. cbn [map concat]. rewrite app_nil_r.
    rewrite joined_last by auto. cbn [all_comments].
    destruct (option_map rtrim (pc_comment p)); reflexivity.
  - inversion H as [|? ? (Hp & Hc) Hr]; subst.
    change (cont_cards (p :: q :: r)) with (cont_card true p :: cont_cards (q :: r)).
    cbn [splices]. unfold cont_card at 1. rewrite append_value. cbn [bind].
    rewrite joined_amp. rewrite IH; auto; [|congruence|apply Forall_app; auto].
    change (concat (map pc_text (p :: q :: r))) with (pc_text p ++ concat (map pc_text (q :: r))).
    rewrite app_assoc. do 3 f_equal.
    change (all_comments (p :: q :: r)) with
      (match option_map rtrim (pc_comment p), all_comments (q :: r) with
       | Some a, Some b => Some (a ++ [10] ++ b) | Some a, None => Some a | None, b => b end).
    destruct tc as [x|], (option_map rtrim (pc_comment p)) as [y|], (all_comments (q :: r)) as [z|];
      simpl; auto. f_equal. rewrite <- !app_assoc. reflexivity.
Qed.

Lemma spliced_string m kw first rest c conts :
  ordinary_keyword kw -> rest <> [] -> Forall piece_ok (first :: rest) ->
  Forall2 reads_as (long_string_records kw first rest) (c :: conts) ->
  splices m c conts
  = Ok (CValue kw (VString (rtrim (concat (map pc_text (first :: rest)))) (all_comments (first :: rest)))).
Proof.
  intros K Hn H F. apply long_string_cards in F; auto. injection F as -> ->.
  inversion H as [|? ? (H1 & H2) Hr]; subst. rewrite splices_conts by auto.
  cbn [map concat all_comments]. destruct (option_map rtrim (pc_comment first)), (all_comments rest); reflexivity.
Qed.

(** Proofs for the rows of binary tables of a FITS file that lies behind other bytes of its source. *)

From Coq Require Import List Lia ZifyBool.
From Verif Require Import Base Text Card Reader Header Xtension Bytes Fits BinTable.
From Verif Require Import SpecUtf8 SpecCard SpecHeader SpecXt SpecFits SpecImage SpecBin SpecBehind.
From Verif Require Import HeaderProofs FitsProofs FitsProofs4 BytesProofs BinProofs BinProofs3 BehindProofs BehindProofs2 BehindProofs3.
Local Open Scope list_scope.
Local Open Scope Z_scope.

Lemma cells_behind junk d : forall xs ys, Forall2 (same_slot (len junk)) xs ys -> forall cells cells',
  Forall2 (slot_value d) xs cells -> Forall2 (slot_value (junk ++ d)) ys cells' -> cells' = cells.
Proof.
  induction 1 as [|x y xs ys S _ IH]; intros cells cells' C C'; inversion C; inversion C'; subst; [reflexivity|].
  f_equal; [eapply same_value; eassumption|]. now apply IH.
Qed.

Lemma same_row junk d t o sel i : table_present d t o -> 0 <= i ->
  Forall2 (same_slot (len junk)) (row_slots d t o true sel i) (row_slots (junk ++ d) t (o + len junk) true sel i).
Proof. intros Pr I. apply same_flat. intros c _. now apply same_cell. Qed.

Lemma row_nonneg t i : In i (rows_from t 0) -> 0 <= i.
Proof. unfold rows_from. rewrite in_map_iff. intros (k & <- & K). apply in_upto in K. lia. Qed.

Lemma lists_behind junk d t o sel : table_present d t o -> forall is rows rows', (forall i, In i is -> 0 <= i) ->
  Forall2 (fun i cells => Forall2 (slot_value d) (row_slots d t o true sel i) cells) is rows ->
  Forall2 (fun i cells => Forall2 (slot_value (junk ++ d)) (row_slots (junk ++ d) t (o + len junk) true sel i) cells) is rows' ->
  rows' = rows.
Proof.
  intros Pr is rows rows' N H. revert rows' N.
  induction H as [|i cells is rows C _ IH]; intros rows' N H'; inversion H' as [|? cells' ? rows1 C' H1]; subst; [reflexivity|].
  f_equal.
  - eapply cells_behind; [|exact C|exact C']. apply same_row; [exact Pr|]. apply N. now left.
  - apply IH; [|exact H1]. intros k K. apply N. now right.
Qed.

Lemma rows_behind junk m d n l h f' l' g' t lim : octets d -> octets junk -> len (junk ++ d) < 2 ^ 63 ->
  run m (Datatypes.S n) (opened d) = (l ++ [IOk h], f') -> Forall (ends_below m (len junk)) l ->
  run m (Datatypes.S n) (from_reader (mk_reader (junk ++ d) (len junk))) = (l', g') ->
  h_xt h = XtBin t -> table_inside d t (h_offset h) -> lim <= len d ->
  columns_readable d lim t (h_offset h) true (all_columns t) -> bt_tforms t <> [] ->
  exists s s', get_table m f' t = Ok s /\ get_table m g' t = Ok s' /\
    forall fuel k, (1 <= fuel)%nat ->
      (forall i, In i (rows_from t 0) ->
         (length (row_slots d t (h_offset h) true (all_columns t) i) <= fuel)%nat) ->
      row_run m fuel (row_iter s') k = row_run m fuel (row_iter s) k.
Proof.
  intros O OJ DL R E R' X TI Li Re Ne. pose proof (len_nonneg junk) as J.
  destruct (last_found junk m d n l h f' l' g' O OJ R E R') as (f & g & N & N' & D & D' & P & P').
  pose proof (file_present m d f h f' t O D P N X TI) as Pr.
  assert (TI' : table_inside (junk ++ d) t (h_offset (further (len junk) h))).
  { destruct TI as (_ & T1 & T2 & T3). split; [exact DL|]. split; [exact T1|]. split; [exact T2|].
    cbn [further h_offset]. rewrite len_app. unfold len in *. lia. }
  destruct (table_rows m d f h f' t O D P N X TI lim Li Re Ne) as (s & rows & G & V & H).
  destruct (table_rows m (junk ++ d) g _ g' t ltac:(apply Forall_app; split; assumption) D' P' N' X TI'
    (lim + len junk) ltac:(rewrite len_app; lia) (readable_behind junk d t (h_offset h) Pr lim _ Re) Ne)
    as (s' & rows' & G' & V' & H').
  cbn [further h_offset] in V', H'.
  assert (rows' = rows).
  { eapply (lists_behind junk d t (h_offset h) (all_columns t) Pr (rows_from t 0)); [apply row_nonneg|exact V|exact V']. }
  subst rows'. exists s, s'. do 2 (split; [assumption|]). intros fuel k F L.
  rewrite (H fuel k F L). apply (H' fuel k F). intros i I.
  pose proof (same_row junk d t (h_offset h) (all_columns t) i Pr (row_nonneg t i I)) as S.
  apply Forall2_length in S. rewrite <- S. now apply L.
Qed.

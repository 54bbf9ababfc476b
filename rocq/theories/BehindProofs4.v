(** Proofs for the ASCII tables of a FITS file that lies behind other bytes of its source. *)

From Coq Require Import List Lia ZifyBool.
From Verif Require Import Base Text Card Reader Header Xtension Bytes Fits ImageIt.
From Verif Require Import SpecUtf8 SpecCard SpecHeader SpecXt SpecFits SpecImage SpecBehind.
From Verif Require Import HeaderProofs FitsProofs FitsProofs4 BytesProofs ImageProofs DirectProofs BehindProofs BehindProofs2.
Local Open Scope list_scope.
Local Open Scope Z_scope.

Definition taker_behind (junk : list Z) (t : taker) : taker :=
  mk_taker (tk_buf t) (tk_limit t) (behind junk (tk_reader t)).

Lemma take_behind junk t n : 0 <= rd_pos (tk_reader t) ->
  take_read (taker_behind junk t) n = (fst (take_read t n), taker_behind junk (snd (take_read t n))) /\
  0 <= rd_pos (tk_reader (snd (take_read t n))).
Proof.
  intro P. pose proof (len_nonneg junk) as J. unfold take_read, read_some, taker_behind, behind.
  cbn [tk_reader tk_limit tk_buf rd_data rd_pos fst snd]. rewrite slice_app_r by lia.
  replace (rd_pos (tk_reader t) + len junk - len junk) with (rd_pos (tk_reader t)) by lia.
  set (x := slice _ _ _). pose proof (len_nonneg x). split; [|cbn [snd tk_reader rd_pos]; lia].
  replace (rd_pos (tk_reader t) + len junk + len x) with (rd_pos (tk_reader t) + len x + len junk) by lia. reflexivity.
Qed.

Lemma buf_behind junk t n : 0 <= rd_pos (tk_reader t) ->
  buf_read (taker_behind junk t) n = (fst (buf_read t n), taker_behind junk (snd (buf_read t n))) /\
  0 <= rd_pos (tk_reader (snd (buf_read t n))).
Proof.
  intro P. unfold buf_read. change (tk_buf (taker_behind junk t)) with (tk_buf t).
  destruct (tk_buf t) as [|b bs]; [|split; [reflexivity|exact P]].
  destruct (buf_capacity <=? n); [now apply take_behind|].
  destruct (take_behind junk t buf_capacity P) as (E & P'). rewrite E.
  destruct (take_read t buf_capacity) as (x, t'). split; [reflexivity|exact P'].
Qed.

Lemma ascii_run_behind junk : forall sizes t, 0 <= rd_pos (tk_reader t) ->
  fst (ascii_run (taker_behind junk t) sizes) = fst (ascii_run t sizes).
Proof.
  induction sizes as [|n sizes IH]; intros t P; [reflexivity|]. cbn [ascii_run].
  destruct (buf_behind junk t n P) as (E & P'). rewrite E. destruct (buf_read t n) as (x, t1). cbn [fst snd] in *.
  specialize (IH t1 P'). destruct (ascii_run (taker_behind junk t1) sizes), (ascii_run t1 sizes).
  cbn [fst] in *. now rewrite IH.
Qed.

Lemma ascii_behind junk m d n l h f' l' g' t : octets d -> octets junk ->
  run m (Datatypes.S n) (opened d) = (l ++ [IOk h], f') -> Forall (ends_below m (len junk)) l ->
  run m (Datatypes.S n) (from_reader (mk_reader (junk ++ d) (len junk))) = (l', g') ->
  h_xt h = XtAscii t ->
  exists tk tk', get_ascii m f' t = Ok tk /\ get_ascii m g' t = Ok tk' /\
    forall sizes, fst (ascii_run tk' sizes) = fst (ascii_run tk sizes).
Proof.
  intros O OJ R E R' X.
  destruct (last_found junk m d n l h f' l' g' O OJ R E R') as (f & g & N & N' & D & D' & P & P').
  destruct (found_state m d f h f' O D P N) as (z & HS & HO & ->).
  destruct (found_state m (junk ++ d) g _ g' ltac:(apply Forall_app; split; assumption) D' P' N') as (z' & _ & _ & ->).
  unfold hdu_size in HS. rewrite X in HS. cbn [xt_num_bytes] in HS.
  unfold get_ascii, ascii_data_new. cbn [f_reader]. rewrite HS. cbn [bind].
  eexists. eexists. do 2 (split; [reflexivity|]). intro sizes.
  exact (ascii_run_behind junk sizes (mk_taker [] z (mk_reader d (h_offset h))) (proj1 HO)).
Qed.

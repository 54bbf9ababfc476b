(** Panics while the HDUs of any file are visited (C76).  [next] is the model of [Fits::next];
    [SpecPanic] holds the specification side. *)

From Coq Require Import String List.
From Verif Require Import Base Utf8 Text Card Reader Header Xtension Fits.
From Verif Require Import SpecUtf8 SpecCard SpecHeader SpecXt SpecFits SpecPanic.
From Verif Require Import FitsProofs4 PanicProofs PanicProofs2 Prop_Fits.
Local Open Scope string_scope.
Local Open Scope list_scope.
Local Open Scope Z_scope.

(** Exactly which headers make a call panic, in release and in checked builds. *)
Theorem C76_header : forall m d f q,
  octets d -> comes_to d f q ->
  (fst (next m f) = IPanic <-> panics_at d (f_start f) q \/ m = Checked /\ overflows_at d (f_start f) q).
Proof. exact panic_iff. Qed.
Print Assumptions C76_header.

(** Whatever a caller of a release build has done before: also behind declared sizes beyond any file. *)
Theorem C76_release : forall f f',
  octets (rd_data (f_reader f)) -> 0 <= rd_pos (f_reader f) -> next Wrapping f = (IPanic, f') ->
  exists q, 0 <= q /\ panics_at (rd_data (f_reader f)) (f_start f) q.
Proof. exact panic_release. Qed.
Print Assumptions C76_release.

(** Over whole files in release builds, wherever the reading of data leaves the reader: no call panics unless
    some header of the file does it. *)
Theorem C76_run : forall d l f,
  octets d -> (forall primary q, 0 <= q -> ~ panics_at d primary q) ->
  calls Wrapping (opened d) l f -> ~ In IPanic l.
Proof. intros d l f O N Y H. destruct (run_release d l f O Y H) as (p & q & Q & P). exact (N p q Q P). Qed.
Print Assumptions C76_run.

(** For example: a file without an apostrophe makes no release build panic. *)
Theorem C76_no_apostrophe : forall d l f,
  octets d -> ~ In 39 d -> calls Wrapping (opened d) l f -> ~ In IPanic l.
Proof. intros d l f O N. apply C76_run; [exact O|]. exact (no_apostrophe d O N). Qed.
Print Assumptions C76_no_apostrophe.

Example C76_no_apostrophe_case :
  let d := file_bytes [(HPrimary, ex_primary)] in
  octets d /\ ~ In 39 d /\ len d = 5760 /\ map summary (fst (run Wrapping 2 (opened d))) = [Some (HPrimary, 2880, Ok 5); None].
Proof.
  cbv zeta. assert (O: octetsb (file_bytes [(HPrimary, ex_primary)]) = true) by (vm_compute; reflexivity).
  split; [apply octetsb_ok; exact O|]. split.
  - assert (X: existsb (Z.eqb 39) (file_bytes [(HPrimary, ex_primary)]) = false) by (vm_compute; reflexivity).
    intro H. assert (existsb (Z.eqb 39) (file_bytes [(HPrimary, ex_primary)]) = true); [|congruence].
    apply existsb_exists. exists 39. auto.
  - split; vm_compute; reflexivity.
Qed.

(** Nine quintillion columns: a file of two blocks that no build can visit. *)
Definition ex_columns : list (hkind * source) :=
  [(HPrimary, ex_source ["SIMPLE  = T"; "BITPIX  = 8"; "NAXIS   = 0"] []);
   (HAsciiTable, ex_source ["XTENSION= 'TABLE   '"; "BITPIX  = 8"; "NAXIS   = 2"; "NAXIS1  = 3"; "NAXIS2  = 1";
                            "PCOUNT  = 0"; "GCOUNT  = 1"; "TFIELDS = 9000000000000000000"] [])].

Lemma ex_panics d f : octets d -> comes_to d f 2880 -> fst (next Wrapping f) = IPanic -> f_start f = false ->
  panics_at d false 2880.
Proof.
  intros O C P S. apply (C76_header Wrapping _ _ _ O C) in P as [P|(D & _)]; [|discriminate]. rewrite S in P. exact P.
Qed.

Example C76_case :
  let d := file_bytes ex_columns in
  let f := snd (next Wrapping (opened d)) in
  octets d /\ comes_to d f 2880 /\ fst (next Wrapping f) = IPanic /\ panics_at d false 2880.
Proof.
  assert (O: octetsb (file_bytes ex_columns) = true) by (vm_compute; reflexivity). apply octetsb_ok in O.
  assert (C: f_error (snd (next Wrapping (opened (file_bytes ex_columns)))) = false /\
     rd_data (f_reader (snd (next Wrapping (opened (file_bytes ex_columns))))) = file_bytes ex_columns /\
     f_start (snd (next Wrapping (opened (file_bytes ex_columns)))) = false /\
     f_pos_du (snd (next Wrapping (opened (file_bytes ex_columns)))) = 2880 /\
     f_num_du (snd (next Wrapping (opened (file_bytes ex_columns)))) = 0 /\
     rd_pos (f_reader (snd (next Wrapping (opened (file_bytes ex_columns))))) = 2880)
    by (vm_compute; repeat split; reflexivity).
  assert (P: fst (next Wrapping (snd (next Wrapping (opened (file_bytes ex_columns))))) = IPanic) by (vm_compute; reflexivity).
  cbv zeta. revert C P. generalize (snd (next Wrapping (opened (file_bytes ex_columns)))) as f.
  revert O. generalize (file_bytes ex_columns) as d. intros d O f (E & D & S & P1 & N1 & R1) P.
  assert (C: comes_to d f 2880).
  { unfold comes_to. rewrite P1, N1, R1. split; [exact E|]. split; [exact D|]. split; [discriminate|]. right. repeat split; auto; discriminate. }
  split; [exact O|]. split; [exact C|]. split; [exact P|]. apply (ex_panics d f); assumption.
Qed.

(** Sizes beyond 64 bits stop only a checked build. *)
Definition ex_large : list Z :=
  header_bytes (ex_source ["SIMPLE  = T"; "BITPIX  = 16"; "NAXIS   = 2"; "NAXIS1  = 9223372036854775807"; "NAXIS2  = 3"] []).

Lemma ex_overflows d : octets d -> fst (next Checked (opened d)) = IPanic ->
  match fst (next Wrapping (opened d)) with IPanic => false | _ => true end = true ->
  comes_to d (opened d) 0 /\ overflows_at d true 0 /\ ~ panics_at d true 0.
Proof.
  intros O P R.
  assert (C: comes_to d (opened d) 0).
  { split; [reflexivity|]. split; [reflexivity|]. split; [discriminate|]. left. split; reflexivity. }
  assert (N: ~ panics_at d true 0).
  { intro X. assert (E: fst (next Wrapping (opened d)) = IPanic) by (apply (C76_header Wrapping _ _ _ O C); left; exact X).
    rewrite E in R. discriminate. }
  split; [exact C|]. split; [|exact N].
  apply (C76_header Checked _ _ _ O C) in P as [P|(_ & P)]; [destruct (N P)|exact P].
Qed.

Example C76_case_checked :
  octets ex_large /\ fst (next Checked (opened ex_large)) = IPanic /\
  comes_to ex_large (opened ex_large) 0 /\ overflows_at ex_large true 0 /\ ~ panics_at ex_large true 0.
Proof.
  assert (O: octetsb ex_large = true) by (vm_compute; reflexivity). apply octetsb_ok in O.
  assert (P: fst (next Checked (opened ex_large)) = IPanic) by (vm_compute; reflexivity).
  split; [exact O|]. split; [exact P|]. apply ex_overflows; [exact O|exact P|]. vm_compute. reflexivity.
Qed.

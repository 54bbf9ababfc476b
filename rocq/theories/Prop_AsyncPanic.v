(** Panics of the asynchronous reader (C81).  [Async] holds the model, [SpecAsyncPanic] and [SpecPanic] the
    specification side. *)

From Coq Require Import String List Lia ZifyBool.
From Verif Require Import Base Utf8 Text Card Reader Header Xtension Bytes Fits Async.
From Verif Require Import SpecUtf8 SpecCard SpecHeader SpecXt SpecFits SpecPanic SpecAsync SpecAsyncLoss SpecAsyncPanic.
From Verif Require Import FitsProofs4 PanicProofs2 AsyncPanicProofs Prop_Fits Prop_Panic Prop_Async.
Local Open Scope string_scope.
Local Open Scope list_scope.
Local Open Scope Z_scope.

(** Exactly which bytes make a poll for an HDU panic, however the source cuts them into pieces: in release builds
    those at which the synchronous reader panics. *)
Theorem C81_header : forall m f i f', octets (content (af_reader f)) -> no_empty (af_reader f) -> 0 <= af_rem f ->
  poll_next m f = (i, f') -> i <> APending ->
  (i = APanic <->
   exists t, looks_at f t /\ (panics_at t (af_start f) 0 \/ m = Checked /\ aoverflows t (af_start f))).
Proof. exact any_panic. Qed.
Print Assumptions C81_header.

(** A poll for a value never panics in release builds, and in checked builds only when the data unit does not hold a
    whole number of values. *)
Theorem C81_item : forall m b f, 0 <= af_rem f < 2 ^ 64 -> fst (item_next m b f) = SPanic ->
  m = Checked /\ 0 < af_rem f < byte_size b.
Proof. intros m b f R P. apply item_panic in P. assert (1 <= byte_size b <= 8) by (destruct b; vm_compute; split; discriminate). destruct P as (-> & P1 & P2). split; [reflexivity|]. lia. Qed.
Print Assumptions C81_item.

(** Any series of polls in release builds, with whatever is lost at polls that are not ready (C80): no poll panics
    unless it meets one of these headers in the source. *)
Theorem C81_run : forall s ops, octets (content s) -> no_empty s ->
  (In (RNext APanic) (fst (arun Wrapping (afrom_reader s) ops)) ->
   exists l t primary, content s = l ++ t /\ panics_at t primary 0) /\
  ~ In (RItem SPanic) (fst (arun Wrapping (afrom_reader s) ops)).
Proof. intros s ops O F. split; [apply (run_panic ops (afrom_reader s)); auto; discriminate|apply item_never]. Qed.
Print Assumptions C81_run.

(** For example: without an apostrophe nothing panics. *)
Theorem C81_no_apostrophe : forall s ops, octets (content s) -> no_empty s -> ~ In 39 (content s) ->
  ~ In (RNext APanic) (fst (arun Wrapping (afrom_reader s) ops)).
Proof. intros s ops O F. apply (run_quiet (afrom_reader s)); auto. discriminate. Qed.
Print Assumptions C81_no_apostrophe.

(** The file with nine quintillion columns, in pieces; and sizes beyond 64 bits in a file whose first keyword is not
    SIMPLE, which the synchronous reader does not open. *)
Definition ex_anon : list Z :=
  header_bytes (ex_source ["ANYTHING= T"; "BITPIX  = 16"; "NAXIS   = 2"; "NAXIS1  = 9223372036854775807"; "NAXIS2  = 3"] []).
Definition outcome (i : aresult) : Z :=
  match i with RNext (AOk h) => len (a_cards h) | RNext APanic => -1 | RNext (AErr _) => -2 | _ => 0 end.

Lemma ex_panic_at m s f : octets (content s) -> no_empty s -> f = afrom_reader s -> fst (poll_next m f) = APanic ->
  exists t, looks_at f t /\ (panics_at t true 0 \/ m = Checked /\ aoverflows t true).
Proof.
  intros O F -> P. destruct (poll_next m (afrom_reader s)) as (i, f') eqn:E. cbn in P. subst i.
  apply (C81_header m (afrom_reader s) APanic f'); auto; discriminate.
Qed.

Example C81_case :
  map outcome (fst (arun Wrapping (afrom_reader (ex_source_of 1000 (file_bytes ex_columns))) [ONext; ONext])) = [4; -1] /\
  map outcome (fst (arun Checked (afrom_reader (ex_source_of 1000 ex_anon)) [ONext])) = [-1] /\
  map outcome (fst (arun Wrapping (afrom_reader (ex_source_of 1000 ex_anon)) [ONext])) = [6] /\
  aoverflows ex_anon true /\ fst (next Checked (opened ex_anon)) = IErr EDynamic.
Proof.
  split; [vm_compute; reflexivity|]. split; [vm_compute; reflexivity|]. split; [vm_compute; reflexivity|].
  split; [|vm_compute; reflexivity].
  assert (O: octetsb ex_anon = true) by (vm_compute; reflexivity). apply octetsb_ok in O.
  assert (P: fst (poll_next Checked (afrom_reader (mk_areader ex_anon []))) = APanic) by (vm_compute; reflexivity).
  assert (R: match fst (poll_next Wrapping (afrom_reader (mk_areader ex_anon []))) with APanic | APending => false | _ => true end = true)
    by (vm_compute; reflexivity).
  revert O P R. generalize ex_anon as d. intros d O P R.
  assert (C: content (mk_areader d []) = d) by apply app_nil_r.
  destruct (ex_panic_at Checked (mk_areader d []) _ ltac:(rewrite C; exact O) ltac:(constructor) eq_refl P) as (t & L & [H|(_ & H)]).
  - exfalso. destruct (poll_next Wrapping (afrom_reader (mk_areader d []))) as (i, f') eqn:E.
    assert (X: i <> APanic) by (intros ->; discriminate R). apply X.
    apply (proj2 (C81_header Wrapping (afrom_reader (mk_areader d [])) i f' ltac:(cbn [af_reader afrom_reader]; rewrite C; exact O) ltac:(constructor) ltac:(discriminate) E
      ltac:(intros ->; discriminate))).
    exists t. split; [exact L|]. left. exact H.
  - destruct L as (_ & L). cbn [afrom_reader af_start af_reader] in L. rewrite C in L. subst t. exact H.
Qed.

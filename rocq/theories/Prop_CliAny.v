(** [fits struct] on any file and on any device (C89).  [DeviceCli] holds the model with a device that may fail,
    [SpecCliAny] the specification side. *)

From Coq Require Import String List Lia.
From Verif Require Import Base Utf8 Text Card Reader Header Xtension Fits Cli Device DeviceCli.
From Verif Require Import SpecUtf8 SpecCard SpecHeader SpecXt SpecFits SpecPanic SpecCli SpecDevice SpecCliAny.
From Verif Require Import HeaderProofs FitsProofs4 CliProofs CliProofs2 Prop_Fits Prop_Panic Prop_Device.
Local Open Scope string_scope.
Local Open Scope list_scope.
Local Open Scope Z_scope.

(** Any bytes: the tool prints four lines for each HDU that the iterator gives, with what its keywords say, a start
    inside of the file and a size; it ends as the iterator does, and it panics nowhere else. *)
Theorem C89_any : forall m d fuel lines e,
  octets d -> cli_struct m fuel (mk_reader d 0) = Some (lines, e) ->
  exists hs last, fst (run m (S (List.length hs)) (opened d)) = map IOk hs ++ [last] /\
    listing m 0 hs lines /\ ended_by last e /\ Forall (fun h => 0 <= h_offset h <= len d) hs.
Proof. exact any_file. Qed.
Print Assumptions C89_any.

(** A release build panics only at a header that makes the iterator panic. *)
Theorem C89_release : forall d fuel lines,
  octets d -> cli_struct Wrapping fuel (mk_reader d 0) = Some (lines, Panicked) ->
  exists primary q, 0 <= q /\ panics_at d primary q.
Proof. exact panic_any. Qed.
Print Assumptions C89_release.

(** It ends, after one HDU for each block of the file at most, when the sizes fit into 63 bits. *)
Theorem C89_ends : forall m d fuel,
  octets d -> len d < 2 ^ 63 ->
  (forall n l f, run m n (opened d) = (map IOk l, f) -> sizes_fit m (map IOk l)) ->
  len d / 2880 < Z.of_nat fuel -> exists lines e, cli_struct m fuel (mk_reader d 0) = Some (lines, e).
Proof. exact ends. Qed.
Print Assumptions C89_ends.

(** A device that fails: the tool does what it does on one that works, or it ends with an error after the lines
    about some of the HDUs, each of them complete. *)
Theorem C89_device : forall m d fuel fs, octets d ->
  dev_cli_struct m fuel (mk_reader d 0) fs = cli_struct m fuel (mk_reader d 0) \/
  exists lines hs f' e, dev_cli_struct m fuel (mk_reader d 0) fs = Some (lines, Failed e) /\ (e = EIoOther \/ e = EStatic) /\
    (exists x, In (Some x) fs) /\ run m (List.length hs) (opened d) = (map IOk hs, f') /\ listing m 0 hs lines /\
    forall l e', cli_struct m fuel (mk_reader d 0) = Some (l, e') -> exists l', l = lines ++ l'.
Proof. exact device_any. Qed.
Print Assumptions C89_device.

(** So the exit code is 0 only when the report is that of the whole file. *)
Theorem C89_exit : forall m d fuel fs lines,
  octets d -> dev_cli_struct m fuel (mk_reader d 0) fs = Some (lines, Finished) ->
  cli_struct m fuel (mk_reader d 0) = Some (lines, Finished).
Proof. exact device_finished. Qed.
Print Assumptions C89_exit.

(** The example file of three HDUs on devices that fail at a given call; a header that no build can read after one
    that is fine; and a size that only a checked build refuses. *)
Definition ended (x : option (list str * ending)) : option (Z * ending) :=
  match x with Some (l, e) => Some (len l, e) | None => None end.
Definition struct_with (n : nat) := ended (dev_cli_struct Checked 4 (mk_reader (file_bytes ex_file) 0) (failing_at n)).
Example C89_case_device :
  struct_with 4 = Some (0, Failed EIoOther) /\ struct_with 8 = Some (4, Failed EIoOther) /\
  struct_with 29 = Some (12, Failed EIoOther) /\ struct_with 30 = Some (12, Finished).
Proof. vm_compute. repeat split; reflexivity. Qed.

Example C89_case_panic :
  octets (file_bytes ex_columns) /\
  ended (cli_struct Wrapping 3 (mk_reader (file_bytes ex_columns) 0)) = Some (4, Panicked).
Proof. split; [apply octetsb_ok; vm_compute; reflexivity|vm_compute; reflexivity]. Qed.

Example C89_case_checked :
  ended (cli_struct Checked 3 (mk_reader ex_large 0)) = Some (0, Panicked) /\
  ended (cli_struct Wrapping 3 (mk_reader ex_large 0)) = Some (4, Finished).
Proof. vm_compute. split; reflexivity. Qed.

(** The sizes of the example file fit, however far it is read. *)
Lemma ends_case m d k : fst (run m (S k) (opened d)) = fst (run m k (opened d)) ++ [INone] ->
  sizes_fit m (fst (run m k (opened d))) ->
  forall n l f, run m n (opened d) = (map IOk l, f) -> sizes_fit m (map IOk l).
Proof.
  assert (R: forall a b f, (a <= b)%nat -> exists r, fst (run m b f) = fst (run m a f) ++ r).
  { induction a as [|a IH]; intros b f L; [exists (fst (run m b f)); reflexivity|]. destruct b as [|b]; [lia|].
    cbn [run]. destruct (next m f) as (i, f1). destruct (IH b f1 ltac:(lia)) as (r & E).
    destruct (run m b f1), (run m a f1). cbn [fst] in *. exists r. now rewrite E. }
  intros E SF n l f Rn. assert (El: fst (run m n (opened d)) = map IOk l) by now rewrite Rn.
  destruct (Nat.le_gt_cases n k) as [L|L].
  - destruct (R n k (opened d) L) as (r & X). rewrite El in X. intros h z I S. apply (SF h z); auto.
    rewrite X. apply in_or_app. auto.
  - destruct (R (S k) n (opened d) L) as (r & X). rewrite El, E in X. exfalso.
    assert (I: In INone (map IOk l)) by (rewrite X; apply in_or_app; left; apply in_or_app; right; left; reflexivity).
    apply in_map_iff in I as (h & D & _). discriminate.
Qed.
Example C89_case_ends : forall n l f,
  run Checked n (opened (file_bytes ex_file)) = (map IOk l, f) -> sizes_fit Checked (map IOk l).
Proof.
  assert (E: (fun d => let last := nth 3 (fst (run Checked 4 (opened d))) IPanic in
     match last with INone => sizes_fitb Checked (firstn 3 (fst (run Checked 4 (opened d)))) | _ => false end) (file_bytes ex_file) = true)
    by (vm_compute; reflexivity).
  revert E. generalize (file_bytes ex_file) as d. intros d E. cbv beta zeta in E.
  assert (X: fst (run Checked 4 (opened d)) = fst (run Checked 3 (opened d)) ++ [nth 3 (fst (run Checked 4 (opened d))) IPanic] /\
     firstn 3 (fst (run Checked 4 (opened d))) = fst (run Checked 3 (opened d))).
  { cbn [run]. destruct (next Checked (opened d)) as (i, f). destruct (next Checked f) as (j, g).
    destruct (next Checked g) as (k, h). destruct (next Checked h) as (o, q). cbn. auto. }
  destruct X as (X1 & X2). destruct (nth 3 _ IPanic) eqn:N; try discriminate. rewrite X2 in E. apply sizes_fitb_ok in E.
  apply (ends_case Checked d 3); assumption.
Qed.

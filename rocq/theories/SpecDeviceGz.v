(** Specification side for files that may be compressed as a whole, when the file can fail. *)

From Verif Require Import Base Reader Fits ImageIt Gz SpecGz Device DeviceGz.

Definition failure (x : fcall) : bool := match x with Fails => true | _ => false end.
Definition failures (fs : fcalls) : nat := List.length (filter failure fs).

(** Sizes of reads. *)
Definition nonneg (l : list Z) : Prop := Forall (fun n => 0 <= n) l.

(** As [follows], where up to [n] operations may have failed otherwise; they leave the position as it was. *)
Fixpoint follows_failing (n : nat) (c : list Z) (pos : Z) (ops : list op) (xs : list outcome) : Prop :=
  match ops, xs with
  | [], [] => True
  | o :: ops', x :: xs' =>
    (exists n', n = S n' /\ x = Failed /\ follows_failing n' c pos ops' xs') \/
    match o with
    | Read k => exists bs, x = Got bs /\ bs = slice c pos (len bs) /\ len bs <= k /\ (0 < k -> pos < len c -> bs <> []) /\
        follows_failing n c (pos + len bs) ops' xs'
    | Seek s =>
      let t := match s with FromStart p => p | FromCurrent off => pos + off | FromEnd off => len c + off end in
      (x = At t /\ 0 <= t /\ follows_failing n c t ops' xs') \/ (x = Failed /\ ~ 0 <= t < 2 ^ 63 /\ follows_failing n c pos ops' xs')
    end
  | _, _ => False
  end.

(** The calls of a series stay below 2^63 wherever it begins below [pos]. *)
Fixpoint below (pos : Z) (cs : list call) : Prop :=
  match cs with
  | [] => pos < 2 ^ 63
  | CExact n :: l => 0 <= n /\ below (pos + n) l
  | CRelative off :: l => below (pos + Z.max 0 off) l
  | CStart p :: l => 0 <= p /\ below (Z.max pos p) l
  | CPosition :: l => below pos l
  end.

(** The answers up to the first end of file. *)
Fixpoint until_eof (l : list answer) : list answer :=
  match l with
  | [] => []
  | AFail EEof :: _ => [AFail EEof]
  | a :: r => a :: until_eof r
  end.

(** The failures of a device of [Device.v]. *)
Definition broken_calls (fs : faults) : nat := List.length (filter (fun x => match x with Some _ => true | None => false end) fs).

(** A program that makes calls one after the other, each chosen by the answers so far (the last one first): the
    answers it gets on an opened file, and on the device of [Device.v], in at most [n] calls. *)
Definition client := list answer -> option call.
Fixpoint client_on_file (p : client) (n : nat) (hist : list answer) (g : gz_reader) (fs : fcalls) : list answer :=
  match n, p hist with
  | S n', Some k => let '(a, g', fs') := dev_gz_call g k fs in a :: client_on_file p n' (a :: hist) g' fs'
  | _, _ => []
  end.
Fixpoint client_on_device (p : client) (n : nat) (hist : list answer) (r : reader) (fs : faults) : list answer :=
  match n, p hist with
  | S n', Some k => let '(a, r', fs') := dev_reader_call r k fs in a :: client_on_device p n' (a :: hist) r' fs'
  | _, _ => []
  end.
(** No call of it moves by more than [b]. *)
Definition moves_within (b : Z) (p : client) : Prop :=
  forall hist k, p hist = Some k ->
    match k with CExact n => 0 <= n <= b | CRelative off => off <= b | CStart q => 0 <= q <= b | CPosition => True end.

(** Outcomes, errors, machine integers and list helpers shared by the whole model. *)

From Coq Require Export ZArith List Bool Lia.
From Coq Require Import ZifyBool.
From Coq Require Ascii String.
Export ListNotations.
Export Coq.Strings.String.StringSyntax.
Open Scope Z_scope.

Arguments Z.add : simpl never.
Arguments Z.sub : simpl never.
Arguments Z.mul : simpl never.
Arguments Z.div : simpl never.
Arguments Z.modulo : simpl never.
Arguments Z.of_nat : simpl never.
Arguments Z.to_nat : simpl never.
Arguments Z.pow : simpl never.

(** [src/error.rs] lines 1-40: the error enum of the crate.  Message texts are dropped; the
    I/O error kind is reduced to "unexpected end of file" and "anything else".
    [WCS] is never produced by the modelled code. *)
Inductive error : Type :=
| EEof                        (* Error::Io(UnexpectedEof) *)
| EIoOther                    (* Error::Io(_), e.g. an invalid seek *)
| EFailReadingNextBytes       (* Error::FailReadingNextBytes (async readers only) *)
| EStatic                     (* Error::StaticError(_) *)
| EDynamic                    (* Error::DynamicError(_), also every serde error (line 43) *)
| EUtf8                       (* Error::Utf8 *)
| EFailKeyword (kw : list Z)  (* Error::FailFindingKeyword(kw) *)
| ENotSupportedXt (x : list Z). (* Error::NotSupportedXtensionType(x) *)

(** A Rust computation either returns [Ok], returns [Err] or panics. *)
Inductive res (A : Type) : Type :=
| Ok (a : A)
| Err (e : error)
| Panic.
Arguments Ok {A} a.
Arguments Err {A} e.
Arguments Panic {A}.

Definition bind {A B} (x : res A) (f : A -> res B) : res B :=
  match x with Ok a => f a | Err e => Err e | Panic => Panic end.

Notation "'let!' x ':=' a 'in' b" := (bind a (fun x => b))
  (at level 200, x pattern, a at level 100, b at level 200, right associativity).

(** Rust strings as code-point lists; string literals of the source are written with
    [chars "..."]. *)
Definition str := list Z.

Definition chars (s : String.string) : str :=
  map (fun a => Z.of_nat (Ascii.nat_of_ascii a)) (String.list_ascii_of_string s).
Arguments chars _%string_scope.

Fixpoint str_eqb (a b : list Z) : bool :=
  match a, b with
  | [], [] => true
  | x :: a', y :: b' => (x =? y) && str_eqb a' b'
  | _, _ => false
  end.

Lemma str_eqb_eq a b : str_eqb a b = true <-> a = b.
Proof.
  revert b; induction a as [|x a IH]; destruct b as [|y b]; simpl; split; intro H;
    try discriminate; try reflexivity.
  - apply andb_true_iff in H as [H1 H2]. apply Z.eqb_eq in H1. apply IH in H2. congruence.
  - inversion H; subst. rewrite Z.eqb_refl. simpl. apply IH. reflexivity.
Qed.

Lemma str_eqb_refl a : str_eqb a a = true.
Proof. apply str_eqb_eq. reflexivity. Qed.

Lemma str_eqb_neq a b : str_eqb a b = false <-> a <> b.
Proof.
  rewrite <- not_true_iff_false, str_eqb_eq. tauto.
Qed.

Lemma str_eqb_sym a b : str_eqb a b = str_eqb b a.
Proof.
  destruct (str_eqb a b) eqn:E; symmetry.
  - apply str_eqb_eq in E. subst. apply str_eqb_refl.
  - apply str_eqb_neq. apply str_eqb_neq in E. congruence.
Qed.

Definition str_eq_dec (a b : str) : {a = b} + {a <> b}.
Proof. apply list_eq_dec. apply Z.eq_dec. Defined.

(** A byte list. *)
Definition is_byte (b : Z) : Prop := 0 <= b < 256.
Definition bytes_ok (l : list Z) : Prop := Forall is_byte l.

(** Build mode: [Checked] is a build with overflow checks (dev and test profiles),
    [Wrapping] the default release profile ([Cargo.toml] has no release override). *)
Inductive mode := Checked | Wrapping.

Definition u64_max1 : Z := 2 ^ 64.

(** The value of an unsigned 64-bit operation whose mathematical result is [z]. *)
Definition u64_result (m : mode) (z : Z) : res Z :=
  if (0 <=? z) && (z <? 2 ^ 64) then Ok z
  else match m with Checked => Panic | Wrapping => Ok (z mod 2 ^ 64) end.

(** [x as i64] for an unsigned 64-bit [x]. *)
Definition as_i64 (z : Z) : Z := if z <? 2 ^ 63 then z else z - 2 ^ 64.

Definition len {A} (l : list A) : Z := Z.of_nat (length l).

Lemma len_nonneg {A} (l : list A) : 0 <= len l.
Proof. unfold len. lia. Qed.

Lemma len_app {A} (a b : list A) : len (a ++ b) = len a + len b.
Proof. unfold len. rewrite app_length. lia. Qed.

Lemma len_nil {A} : len (@nil A) = 0.
Proof. reflexivity. Qed.

Lemma len_cons {A} (x : A) l : len (x :: l) = 1 + len l.
Proof. unfold len. simpl length. lia. Qed.

Lemma len_repeat {A} (x : A) n : len (repeat x n) = Z.of_nat n.
Proof. unfold len. rewrite repeat_length. reflexivity. Qed.

Lemma len_map {A B} (f : A -> B) l : len (map f l) = len l.
Proof. unfold len. rewrite map_length. reflexivity. Qed.

(** List slices with integer bounds: [n] elements starting at [p]. *)
Definition slice {A} (l : list A) (p n : Z) : list A :=
  firstn (Z.to_nat n) (skipn (Z.to_nat p) l).

Lemma slice_app_l {A} (a b : list A) p n :
  0 <= p -> 0 <= n -> p + n <= len a -> slice (a ++ b) p n = slice a p n.
Proof.
  intros. unfold slice, len in *.
  rewrite skipn_app, firstn_app.
  replace (Z.to_nat n - length (skipn (Z.to_nat p) a))%nat with 0%nat
    by (rewrite skipn_length; lia).
  simpl. apply app_nil_r.
Qed.

Lemma slice_app_r {A} (a b : list A) p n :
  len a <= p -> slice (a ++ b) p n = slice b (p - len a) n.
Proof.
  intros. unfold slice, len in *. f_equal.
  rewrite skipn_app. rewrite skipn_all2 by lia. simpl. f_equal. lia.
Qed.

Lemma slice_all {A} (a : list A) n : n = len a -> slice a 0 n = a.
Proof.
  intros ->. unfold slice, len. rewrite Nat2Z.id. simpl. apply firstn_all.
Qed.

Lemma slice_length {A} (a : list A) p n :
  0 <= p -> 0 <= n -> p + n <= len a -> len (slice a p n) = n.
Proof.
  intros. unfold slice, len in *. rewrite firstn_length, skipn_length. lia.
Qed.

Lemma slice_app_exact {A} (a b c : list A) :
  slice (a ++ b ++ c) (len a) (len b) = b.
Proof.
  rewrite slice_app_r by lia. rewrite Z.sub_diag.
  rewrite slice_app_l by (pose proof (len_nonneg b); lia).
  apply slice_all; reflexivity.
Qed.

Lemma skipn_skipn {A} (l : list A) n m : skipn n (skipn m l) = skipn (m + n) l.
Proof.
  revert l; induction m; intros; simpl; auto.
  destruct l; simpl; auto. apply skipn_nil.
Qed.

Lemma slice_slice {A} (a : list A) p n q k :
  0 <= p -> 0 <= q -> 0 <= k -> q + k <= n -> slice (slice a p n) q k = slice a (p + q) k.
Proof.
  intros. unfold slice.
  rewrite skipn_firstn_comm, firstn_firstn, skipn_skipn.
  f_equal; [lia|]. f_equal. lia.
Qed.

Lemma slice_split {A} (a : list A) p n k :
  0 <= p -> 0 <= k <= n -> p + n <= len a -> slice a p n = slice a p k ++ slice a (p + k) (n - k).
Proof.
  intros. unfold slice, len in *.
  rewrite <- (firstn_skipn (Z.to_nat k) (firstn (Z.to_nat n) _)).
  rewrite firstn_firstn. f_equal.
  - f_equal. lia.
  - rewrite skipn_firstn_comm, skipn_skipn. f_equal; [lia|]. f_equal. lia.
Qed.

Lemma slice_0 {A} (a : list A) p : slice a p 0 = [].
Proof. reflexivity. Qed.

Lemma slice_beyond {A} (a : list A) p n : len a <= p -> slice a p n = [].
Proof.
  intros. unfold slice, len in *. rewrite skipn_all2 by lia. apply firstn_nil.
Qed.

Lemma nth_slice {A} (a : list A) p n i d :
  0 <= p -> 0 <= Z.of_nat i < n -> nth i (slice a p n) d = nth (Z.to_nat p + i) a d.
Proof.
  intros. unfold slice. rewrite <- (firstn_skipn (Z.to_nat n) (skipn (Z.to_nat p) a)) at 1.
  assert (E: nth i (firstn (Z.to_nat n) (skipn (Z.to_nat p) a)) d = nth i (skipn (Z.to_nat p) a) d).
  { generalize (skipn (Z.to_nat p) a). intro l.
    assert (H': (i < Z.to_nat n)%nat) by lia. clear -H'. revert l i H'.
    induction (Z.to_nat n); intros; [lia|]. destruct l; [destruct i; reflexivity|].
    destruct i; simpl; auto. apply IHn0. lia. }
  rewrite firstn_skipn. rewrite E. clear.
  revert a. induction (Z.to_nat p); intros; simpl; auto.
  destruct a; simpl; auto. destruct i; reflexivity.
Qed.

Lemma Forall_firstn {A} (P : A -> Prop) n l : Forall P l -> Forall P (firstn n l).
Proof.
  revert l; induction n; intros; simpl; auto.
  destruct l; auto. inversion H; subst. constructor; auto.
Qed.

Lemma Forall_skipn {A} (P : A -> Prop) n l : Forall P l -> Forall P (skipn n l).
Proof.
  revert l; induction n; intros; simpl; auto.
  destruct l; auto. inversion H; subst. auto.
Qed.

Lemma Forall_slice {A} (P : A -> Prop) p n l : Forall P l -> Forall P (slice l p n).
Proof. intros. apply Forall_firstn, Forall_skipn, H. Qed.

(** Strong induction on the length of a list. *)
Lemma list_len_ind {A} (P : list A -> Prop) :
  (forall l, (forall l', (length l' < length l)%nat -> P l') -> P l) -> forall l, P l.
Proof.
  intros H l. assert (G: forall n l, (length l < n)%nat -> P l).
  { induction n; intros l' Hl; [lia|]. apply H. intros l2 Hl2. apply IHn. lia. }
  apply (G (S (length l))). lia.
Qed.

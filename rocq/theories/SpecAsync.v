(** Specification side for asynchronous reading. *)

From Verif Require Import Base Text Card Reader Header Xtension Fits Bytes SpecFits SpecImage Async.

(** The source always has bytes ready, until the end. *)
Definition always_ready (s : areader) : Prop :=
  Forall (fun e => exists c, e = Chunk c /\ c <> []) (ar_events s).

(** The same state over the same bytes, perhaps cut otherwise. *)
Definition same_bytes (f g : afits) : Prop :=
  af_start f = af_start g /\ af_rem f = af_rem g /\ af_num f = af_num g /\ af_error f = af_error g /\
  content (af_reader f) = content (af_reader g).

(** What an asynchronous HDU shows of a synchronous one. *)
Definition without_offset (h : hdu) : ahdu := mk_ahdu (h_kind h) (h_cards h) (h_values h) (h_xt h).
Definition as_async (i : item) : aitem :=
  match i with IOk h => AOk (without_offset h) | INone => ANone | IErr e => AErr e | IPanic => APanic end.

(** Polls of the HDU stream only. *)
Fixpoint polls (m : mode) (n : nat) (f : afits) : list aitem * afits :=
  match n with
  | O => ([], f)
  | S k => let (i, f1) := poll_next m f in let (l, f2) := polls m k f1 in (i :: l, f2)
  end.

(** Polls of the HDU stream with any number of data items read in between; the items of an HDU have a
    type whose width divides what is left of the data unit. *)
Inductive ayields (m : mode) : afits -> list aitem -> afits -> Prop :=
| ayields_nil f : ayields m f [] f
| ayields_next f b k f1 i f2 l f3 :
    (width b | af_rem f) -> snd (arun m f (repeat (OItem b) k)) = f1 ->
    poll_next m f1 = (i, f2) -> ayields m f2 l f3 -> ayields m f (i :: l) f3.

(** The data units of these HDUs lie within the [n] bytes of the file. *)
Definition complete (m : mode) (n : Z) (hs : list hdu) : Prop :=
  Forall (fun h => forall size, hdu_size m h = Ok size -> h_offset h + size <= n) hs.

(** Every operation is polled until it is ready, and a poll that is not ready takes no byte. *)
Definition pending (x : aresult) : bool :=
  match x with RNext APending | RItem SPending => true | _ => false end.
Inductive completes (m : mode) : afits -> list aop -> list aresult -> afits -> Prop :=
| completes_nil f : completes m f [] [] f
| completes_again f op ops x f1 l f2 :
    astep m f op = (x, f1) -> pending x = true ->
    content (af_reader f1) = content (af_reader f) ->
    completes m f1 (op :: ops) l f2 -> completes m f (op :: ops) l f2
| completes_ready f op ops x f1 l f2 :
    astep m f op = (x, f1) -> pending x = false ->
    completes m f1 ops l f2 -> completes m f (op :: ops) (x :: l) f2.

(** What the asynchronous stream gives where the synchronous iterator gives [i] after the HDU [h], in a file of [n] bytes: the same,
    except that left-over bytes, fewer than a record, are an error. *)
Definition ends_alike (m : mode) (n : Z) (h : hdu) (i : item) (j : aitem) : Prop :=
  match i with
  | IOk h' => forall size, hdu_size m h' = Ok size -> j = AOk (without_offset h')
  | IErr _ => exists e, j = AErr e
  | INone => forall size, hdu_size m h = Ok size -> j = if n <=? h_offset h + in_blocks size then ANone else AErr EStatic
  | IPanic => j = APanic
  end.

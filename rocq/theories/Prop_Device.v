(** Devices that fail (C77).  [Device] holds the models, [SpecDevice] the specification side. *)

From Coq Require Import String List Lia ZifyBool.
From Verif Require Import Base Utf8 Text Card Reader Header Xtension Bytes Fits ImageIt Device.
From Verif Require Import SpecUtf8 SpecCard SpecHeader SpecXt SpecFits SpecImage SpecDevice.
From Verif Require Import HeaderProofs FitsProofs4 ImageProofs DeviceProofs DeviceProofs2 Prop_Fits Prop_Image.
Local Open Scope string_scope.
Local Open Scope list_scope.
Local Open Scope Z_scope.

(** One call of [next]: a failure of the device in one of the calls that it makes is returned as an error,
    after which the iteration is over; otherwise the call does what it does on a device that works.  Three
    calls find the end of the file. *)
Theorem C77_next : forall m f, exists N,
  (forall h f', next m f = (IOk h, f') -> N = header_calls (f_start f) h) /\
  (forall f', next m f = (INone, f') -> N = (if f_error f then 0 else 3)%nat) /\
  forall fs,
    (working N fs -> dev_next m f fs = (fst (next m f), snd (next m f), skipn N fs)) /\
    (forall j, (j < N)%nat -> first_fault fs j ->
       exists e f', dev_next m f fs = (IErr e, f', skipn (S j) fs) /\ (e = EIoOther \/ e = EStatic) /\ f_error f' = true).
Proof. exact next_device. Qed.
Print Assumptions C77_next.

(** All calls: what a device that works gives, all of it or up to an error.  So the iteration does not end
    without an error unless the file ends there. *)
Theorem C77_run : forall m n f fs,
  let items := fst (fst (dev_run m n f fs)) in
  items = fst (run m n f) \/
  exists k e, (k < n)%nat /\ (e = EIoOther \/ e = EStatic) /\ (exists x, In (Some x) fs) /\
    items = firstn k (fst (run m n f)) ++ IErr e :: repeat INone (n - k - 1).
Proof. exact dev_run_items. Qed.
Print Assumptions C77_run.

(** A loop over the pixels of an image: a failure of the device ends it as the end of the image would, and
    the error is lost. *)
Theorem C77_pixels : forall m d f fs h f' fs' im,
  octets d -> rd_data (f_reader f) = d -> 0 <= rd_pos (f_reader f) ->
  dev_next m f fs = (IOk h, f', fs') -> h_xt h = XtImage im -> size_fits im ->
  h_offset h + width (im_bitpix im) * pixel_count im <= len d ->
  exists id values, get_image m f' im = Ok id /\
    len values = pixel_count im /\ stored d (h_offset h) (im_bitpix im) values /\
    forall n, (length values <= n)%nat ->
      (working (length values) fs' -> dev_loop n (id_pixels id) fs' = values) /\
      (forall j, (j < length values)%nat -> first_fault fs' j -> dev_loop n (id_pixels id) fs' = firstn j values).
Proof. exact dev_pixels. Qed.
Print Assumptions C77_pixels.

(** [read_value] returns an error when the device fails. *)
Theorem C77_value : forall m s idx, exists N,
  (forall v s', read_value m s idx = (Ok v, s') -> N = 2%nat) /\
  forall fs,
    (working N fs -> dev_read_value m s fs idx = (fst (read_value m s idx), snd (read_value m s idx), skipn N fs)) /\
    (forall j, (j < N)%nat -> first_fault fs j ->
       exists e s', dev_read_value m s fs idx = (Err e, s', skipn (S j) fs) /\ (e = EIoOther \/ e = EStatic)).
Proof. exact value_device. Qed.
Print Assumptions C77_value.

(** The example file, of three HDUs: the device fails when the header of the second HDU, or the end of the
    file, is looked for; and in the middle of the pixels of the second HDU. *)
Definition kinds (l : list item) : list (option (res Z)) :=
  map (fun i => match i with INone => None | IOk h => Some (Ok (h_offset h)) | IErr e => Some (Err e) | IPanic => Some Panic end) l.

Definition failing_at (n : nat) : faults := repeat None n ++ [Some 1].
Definition items_with (n : nat) := kinds (fst (fst (dev_run Checked 4 (opened (file_bytes ex_file)) (failing_at n)))).

Example C77_case :
  kinds (fst (run Checked 4 (opened (file_bytes ex_file)))) = [Some (Ok 2880); Some (Ok 8640); Some (Ok 14400); None] /\
  items_with 4 = [Some (Err EIoOther); None; None; None] /\
  items_with 5 = [Some (Err EStatic); None; None; None] /\
  items_with 8 = [Some (Ok 2880); Some (Err EIoOther); None; None] /\
  items_with 29 = [Some (Ok 2880); Some (Ok 8640); Some (Ok 14400); Some (Err EIoOther)] /\
  items_with 30 = [Some (Ok 2880); Some (Ok 8640); Some (Ok 14400); None].
Proof. vm_compute. repeat split; reflexivity. Qed.

Example C77_case_fault : forall n, first_fault (failing_at n) n /\ working n (failing_at n).
Proof.
  intro n. assert (W: working n (failing_at n)).
  { unfold working, failing_at. rewrite firstn_app, repeat_length, Nat.sub_diag, firstn_all2 by (rewrite repeat_length; lia).
    cbn. rewrite app_nil_r. apply Forall_forall. intros x X. now apply repeat_spec in X. }
  split; [split; [exact W|]|exact W]. exists 1. unfold failing_at.
  rewrite nth_error_app2 by (rewrite repeat_length; lia). rewrite repeat_length, Nat.sub_diag. reflexivity.
Qed.

(** The pixels of the second HDU are 1 to 6. *)
Definition ex_it : it := ex_pixels ex_second (mk_image BI16 [2; 3]).
Example C77_case_pixels :
  dev_loop 10 ex_it [] = [1; 2; 3; 4; 5; 6] /\ dev_loop 10 ex_it (failing_at 4) = [1; 2; 3; 4] /\
  dev_loop 10 ex_it (failing_at 6) = [1; 2; 3; 4; 5; 6] /\
  fst (fst (dev_read_value Checked ex_it [] 4)) = Ok 5 /\
  fst (fst (dev_read_value Checked ex_it (failing_at 0) 4)) = Err EIoOther /\
  fst (fst (dev_read_value Checked ex_it (failing_at 1) 4)) = Err EStatic.
Proof. vm_compute. repeat split; reflexivity. Qed.

(** Written files read through [AsyncFits] (C65).  The source gives its bytes in pieces of any size; [ayields m (afrom_reader r) l g]:
    polling the HDU stream of [r] gave the items [l] and the state [g], with any number of data items polled in between. *)

From Coq Require Import String List.
From Verif Require Import Base Utf8 Text Card Reader Header Xtension Fits Bytes Async.
From Verif Require Import SpecUtf8 SpecCard SpecHeader SpecXt SpecFits SpecImage SpecAsync SpecWrite.
From Verif Require Import AsyncProofs6 Prop_Write Prop_Async.
Local Open Scope string_scope.
Local Open Scope list_scope.
Local Open Scope Z_scope.

(** ** C65 *)

(** The poll that reaches a written image gives its pixel type and axes, and the data stream gives
    the pixels written, in order, and then ends. *)
Theorem C65_image_read_back : forall m r pre k s post b axes pixels l g,
  octets (content r) -> always_ready r -> file_kinds (pre ++ (k, s) :: post) -> Forall (accepted m) pre ->
  image_written k b axes pixels s -> content r = file_bytes (pre ++ (k, s) :: post) -> len (content r) < 2 ^ 63 ->
  ayields m (afrom_reader r) l g -> List.length l = S (List.length pre) ->
  exists l' h, l = l' ++ [AOk h] /\ a_kind h = k /\ a_xt h = XtImage (mk_image b axes) /\
    forall n, fst (arun m g (repeat (OItem b) n)) =
              map (fun v => RItem (SItem v)) (firstn n pixels) ++ repeat (RItem SEnd) (n - List.length pixels).
Proof. exact async_image. Qed.
Print Assumptions C65_image_read_back.

(** The byte stream of any accepted HDU (this is what a table has) gives the bytes of its data
    unit, without the padding, and then ends. *)
Theorem C65_bytes_read_back : forall m r pre k s post l g,
  octets (content r) -> always_ready r -> file_kinds (pre ++ (k, s) :: post) -> Forall (accepted m) (pre ++ [(k, s)]) ->
  content r = file_bytes (pre ++ (k, s) :: post) -> len (content r) < 2 ^ 63 ->
  ayields m (afrom_reader r) l g -> List.length l = S (List.length pre) ->
  exists l' h, l = l' ++ [AOk h] /\ a_kind h = k /\
    forall n, fst (arun m g (repeat (OItem BU8) n)) =
              map (fun v => RItem (SItem v)) (firstn n (s_data s)) ++ repeat (RItem SEnd) (n - List.length (s_data s)).
Proof. exact async_bytes. Qed.
Print Assumptions C65_bytes_read_back.

(** Every list of pictures has a file, and each picture is read back from it. *)
Theorem C65_images_round_trip : forall m p ps r l g n q,
  picture_ok p -> Forall picture_ok ps -> always_ready r -> content r = file_bytes (write_images p ps) ->
  len (content r) < 2 ^ 63 ->
  ayields m (afrom_reader r) l g -> List.length l = S n -> nth_error (p :: ps) n = Some q ->
  exists l' h, l = l' ++ [AOk h] /\ a_xt h = XtImage (mk_image (fst (fst q)) (snd (fst q))) /\
    forall j, fst (arun m g (repeat (OItem (fst (fst q))) j)) =
              map (fun v => RItem (SItem v)) (firstn j (snd q)) ++ repeat (RItem SEnd) (j - List.length (snd q)).
Proof. exact async_round_trip. Qed.
Print Assumptions C65_images_round_trip.

(** [C60_ex_ok] gives the hypotheses on the pictures; here the bytes come in pieces of 1000, one
    pixel of the first image is left unread, and the second image is read to its end. *)
Example C65_ex :
  let d := file_bytes (write_images (BU8, [2], [7; 9]) ex_pictures) in
  content (ex_source_of 1000 d) = d /\
  map (fun x => match x with RItem i => Some i | _ => None end)
    (fst (arun Checked (afrom_reader (ex_source_of 1000 d)) ([ONext; OItem BU8; ONext] ++ repeat (OItem BI16) 7))) =
  [None; Some (SItem 7); None; Some (SItem 1); Some (SItem (-2)); Some (SItem 3); Some (SItem 4); Some (SItem (-32768));
   Some (SItem 32767); Some SEnd].
Proof. vm_compute. repeat split. Qed.

Example C65_ex_ready : always_ready (ex_source_of 1000 (file_bytes (write_images (BU8, [2], [7; 9]) ex_pictures))).
Proof.
  unfold always_ready. apply Forall_forall. intros e He.
  assert (F: forallb (fun e => match e with Chunk (_ :: _) => true | _ => false end)
    (ar_events (ex_source_of 1000 (file_bytes (write_images (BU8, [2], [7; 9]) ex_pictures)))) = true) by (vm_compute; reflexivity).
  rewrite forallb_forall in F. specialize (F e He). destruct e as [|[|x c]]; try discriminate.
  exists (x :: c). split; [reflexivity|discriminate].
Qed.

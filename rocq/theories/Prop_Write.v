(** Properties of whole files (C60, C61): what a program following the standard writes is what the
    crate gives back.  [SpecWrite] holds the writing side: [image_written] for every spelling the
    standard allows, [write_images] for one concrete writer. *)

From Coq Require Import String List.
From Verif Require Import Base Utf8 Text Card Reader Header Xtension Bytes Fits ImageIt.
From Verif Require Import SpecUtf8 SpecCard SpecHeader SpecXt SpecFits SpecImage SpecWrite.
From Verif Require Import WriteProofs WriteProofs2.
Local Open Scope string_scope.
Local Open Scope list_scope.
Local Open Scope Z_scope.

(** ** C60: images *)

(** An image HDU anywhere in a file, written in any spelling and among any other keywords: it is
    accepted, ... *)
Theorem C60_image_accepted : forall m k b axes pixels s,
  image_written k b axes pixels s -> accepted m (k, s).
Proof. exact accepted_image. Qed.
Print Assumptions C60_image_accepted.

(** ... and the call of [next] that reaches it gives its pixel type and axes; the pixels are those
    written, for every way of calling the pixel iterator, whatever was read from the HDUs before. *)
Theorem C60_image_read_back : forall m d pre k s post b axes pixels l f,
  octets d -> file_kinds (pre ++ (k, s) :: post) -> Forall (accepted m) pre -> image_written k b axes pixels s ->
  d = file_bytes (pre ++ (k, s) :: post) -> len d < 2 ^ 63 ->
  yields m (opened d) l f -> List.length l = S (List.length pre) ->
  exists l' h id, l = l' ++ [IOk h] /\ h_kind h = k /\ h_xt h = XtImage (mk_image b axes) /\
    get_image m f (mk_image b axes) = Ok id /\
    image_raw_bytes m id = Ok (s_data s) /\
    forall ops, Forall op_ok ops -> fst (pixel_run m (id_pixels id) ops) = pixel_spec pixels 0 ops.
Proof. exact image_read_back. Qed.
Print Assumptions C60_image_read_back.

(** Every list of pictures has such a file, and it is read back: the HDUs in order, then [None],
    and the pixels of each. *)
Theorem C60_images_round_trip : forall m p ps,
  picture_ok p -> Forall picture_ok ps -> let d := file_bytes (write_images p ps) in len d < 2 ^ 63 ->
  exists full,
    Forall2 (fun (p : picture) i => exists h, i = IOk h /\ h_xt h = XtImage (mk_image (fst (fst p)) (snd (fst p))))
            (p :: ps) full /\
    (exists f, yields m (opened d) (full ++ [INone]) f) /\
    (forall l f, yields m (opened d) l f -> (List.length l <= List.length full + 1)%nat ->
       l = firstn (List.length l) (full ++ [INone])) /\
    forall l f n q, yields m (opened d) l f -> List.length l = S n -> nth_error (p :: ps) n = Some q ->
      exists id, get_image m f (mk_image (fst (fst q)) (snd (fst q))) = Ok id /\
        image_raw_bytes m id = Ok (List.concat (map (encode (fst (fst q))) (snd q))) /\
        forall ops, Forall op_ok ops -> fst (pixel_run m (id_pixels id) ops) = pixel_spec (snd q) 0 ops.
Proof. exact images_round_trip. Qed.
Print Assumptions C60_images_round_trip.

Definition ex_pictures : list picture :=
  [(BI16, [2; 3], [1; -2; 3; 4; -32768; 32767]); (BU8, [], []); (BF32, [1], [1065353216])].

Example C60_ex_ok : Forall picture_ok ((BU8, [2], [7; 9]) :: ex_pictures).
Proof.
  assert (P : forall axes : list Z, (List.length axes <= 2)%nat -> Forall (fun a => 1 <= a <= 3) axes ->
                forall l r, axes = l ++ r -> product l < 2 ^ 64).
  { intros axes L F l r ->. apply Forall_app in F as (F & _). rewrite app_length in L.
    destruct l as [|a [|b [|c l]]]; cbn [List.length] in L; try lia.
    - cbn. lia.
    - inversion F; subst. cbn [product]. lia.
    - inversion F as [|? ? A F']; subst. inversion F' as [|? ? B _]; subst. cbn [product]. nia. }
  repeat (apply Forall_cons || apply Forall_nil); unfold picture_ok;
    (split; [vm_compute; discriminate|]; split; [repeat constructor; lia|];
     split; [apply P; [cbn; lia|repeat constructor; lia]|]; split; [reflexivity|]; repeat constructor; vm_compute; discriminate).
Qed.

Example C60_ex :
  let d := file_bytes (write_images (BU8, [2], [7; 9]) ex_pictures) in
  let f := snd (run Checked 2 (opened d)) in
  len d = 7 * 2880 /\
  firstn 160 d = chars "SIMPLE  =                    T" ++ blanks 50 ++ chars "BITPIX  =                    8" ++ blanks 50 /\
  slice d 5760 80 = chars "XTENSION= 'IMAGE   '" ++ blanks 60 /\
  match get_image Checked f (mk_image BI16 [2; 3]) with
  | Ok id => fst (pixel_run Checked (id_pixels id) [PNext; PRead 5; PNext; PRead 4])
             = [RValue 1; RValue 32767; REnd; RValue (-32768)]
  | _ => False
  end.
Proof. vm_compute. repeat split. Qed.

(** Specification side for images asked again after a failure of the device (C94): calls of [next] and
    [read_value] go on after calls that failed. *)

From Verif Require Import Base Text Card Reader Header Xtension Bytes Fits ImageIt Device.
From Verif Require Import SpecXt SpecImage.

(** A series of calls on the pixel iterator over a device, as [pixel_run]. *)
Definition dev_pixel_do (m : mode) (s : it) (o : pixel_op) (fs : faults) : pixel_result * it * faults :=
  match o with
  | PNext => match dev_it_next s fs with
             | (Some v, s', fs') => (RValue v, s', fs')
             | (None, s', fs') => (REnd, s', fs')
             end
  | PRead i => match dev_read_value m s fs i with
               | (Ok v, s', fs') => (RValue v, s', fs')
               | (Err _, s', fs') => (RError, s', fs')
               | (Panic, s', fs') => (RPanic, s', fs')
               end
  end.
Fixpoint dev_pixel_run (m : mode) (s : it) (ops : list pixel_op) (fs : faults) : list pixel_result * it * faults :=
  match ops with
  | [] => ([], s, fs)
  | o :: r =>
    let '(x, s1, fs1) := dev_pixel_do m s o fs in
    let '(l, s2, fs2) := dev_pixel_run m s1 r fs1 in (x :: l, s2, fs2)
  end.

(** The number of failures, and the bytes they move by together; each moves by at most one pixel. *)
Fixpoint failures (fs : faults) : Z :=
  match fs with [] => 0 | None :: r => failures r | Some _ :: r => 1 + failures r end.
Fixpoint moved_by (fs : faults) : Z :=
  match fs with [] => 0 | None :: r => moved_by r | Some k :: r => k + moved_by r end.
Definition within_pixel (b : bitpix) (fs : faults) : Prop :=
  Forall (fun x => match x with Some k => 0 <= k <= width b | None => True end) fs.

(** What the calls give, of [count] pixels: [c] is the number of the next pixel and [e] the number of bytes
    by which the device lags behind it.  [at_byte p] is the value whose bytes begin at [p].
    A pixel that could not be read is counted, but its bytes were not all taken. *)
Section Late.
Context (at_byte : Z -> Z) (o : Z) (w count : Z).
Fixpoint late_run (c e : Z) (ops : list pixel_op) (fs : faults) : list pixel_result * Z * Z * faults :=
  match ops with
  | [] => ([], c, e, fs)
  | PNext :: r =>
    let '(x, c1, e1, fs1) :=
      if c =? count then (REnd, c, e, fs)
      else match fs with
           | Some k :: fs' => (REnd, c + 1, e + (w - k), fs')
           | _ => (RValue (at_byte (o + w * c - e)), c + 1, e, tl fs)
           end in
    let '(l, c2, e2, fs2) := late_run c1 e1 r fs1 in (x :: l, c2, e2, fs2)
  | PRead i :: r =>
    let '(x, c1, e1, fs1) :=
      if count <=? i then (RError, c, e, fs)
      else match fs with
           | Some k :: fs' => (RError, c, e - k, fs')
           | _ => match tl fs with
                  | Some k :: fs' => (RError, i + 1, e + (w - k), fs')
                  | _ => (RValue (at_byte (o + w * i - e)), i + 1, e, tl (tl fs))
                  end
           end in
    let '(l, c2, e2, fs2) := late_run c1 e1 r fs1 in (x :: l, c2, e2, fs2)
  end.
End Late.

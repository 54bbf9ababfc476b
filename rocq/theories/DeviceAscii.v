(** [src/hdu/data/asciitable.rs] over a reader whose reads can be short, as those of a [BufReader] over another one
    are, or fail: the same code as [ImageIt.v] models over reads that give all they are asked for. *)

From Verif Require Import Base Reader Fits ImageIt Gz DeviceGz.

(** [Take::read], as [take_read] (library code): at the limit the source is not asked. *)
Definition dev_take_read (t : taker) (n : Z) (fs : fcalls) : option (list Z) * taker * fcalls :=
  if tk_limit t =? 0 then (Some [], t, fs)
  else
    let (x, fs') := first_call fs in
    match file_read x (tk_reader t) (Z.min n (tk_limit t)) with
    | Some (bs, r) => (Some bs, mk_taker (tk_buf t) (tk_limit t - len bs) r, fs')
    | None => (None, t, fs')
    end.

(** [BufReader::read], as [buf_read] (library code). *)
Definition dev_buf_read (t : taker) (n : Z) (fs : fcalls) : option (list Z) * taker * fcalls :=
  match tk_buf t with
  | [] =>
    if buf_capacity <=? n then dev_take_read t n fs
    else
      match dev_take_read t buf_capacity fs with
      | (Some bs, t', fs') => (Some (firstn (Z.to_nat n) bs), mk_taker (skipn (Z.to_nat n) bs) (tk_limit t') (tk_reader t'), fs')
      | (None, t', fs') => (None, t', fs')
      end
  | b => (Some (firstn (Z.to_nat n) b), mk_taker (skipn (Z.to_nat n) b) (tk_limit t) (tk_reader t), fs)
  end.

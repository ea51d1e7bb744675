(** Model of the information content estimate and of log_expm1
    (neuralcompression/functional/_information_content.py, _log_expm1.py).

    Simplifications: real arithmetic extended with the infinities and NaN ([ext]); tensors
    are contiguous, so that .view never fails on strides. *)
From Coq Require Import String Reals List Bool Arith Lia Lra.
From Verif Require Import Base Tensor Dist_Model.
Import ListNotations.
Open Scope R_scope.

(** Product of a finite non-zero number with an extended one. *)
Definition escale (c : R) (a : ext) : ext :=
  match a with
  | Fin x => Fin (c * x)
  | NaN => NaN
  | MInf => if Rlt_dec 0 c then MInf else if Rlt_dec c 0 then PInf else NaN
  | PInf => if Rlt_dec 0 c then PInf else if Rlt_dec c 0 then MInf else NaN
  end.
Definition esum (l : list ext) : ext := fold_right eadd (Fin 0) l.

(** Elements in row-major order. *)
Definition flat {A} (t : tensor A) : list A :=
  map (fun k => tat t (unravel (tshape t) k)) (seq 0 (prod (tshape t))).

(** torch.sum, and .view(shape[0], -1).sum(dim=-1): the size -1 stands for cannot be
    determined when shape[0] is 0. *)
Definition tsum (t : tensor ext) : tensor ext := mkT [] (fun _ => esum (flat t)).
Definition sum_per_batch (t : tensor ext) : res (tensor ext) :=
  match tshape t with
  | [] => Raise IndexError
  | b :: s => if (b =? 0)%nat then Raise RuntimeError
              else Ok (mkT [b] (fun i => match i with
                                         | [k] => esum (map (fun j => tat t (k :: unravel s j)) (seq 0 (prod s)))
                                         | _ => NaN
                                         end))
  end.
Definition tmap {A B} (f : A -> B) (t : tensor A) : tensor B := mkT (tshape t) (fun i => f (tat t i)).

(** -1 / math.log(base): math.log raises ValueError for base <= 0, the division
    ZeroDivisionError for base = 1. *)
Definition log_factor (base : R) : res R :=
  if Rlt_dec 0 base then
    if Req_EM_T base 1 then Raise ZeroDivisionError else Ok (-1 / ln base)
  else Raise ValueError.

(** _information_content.py L12-50. *)
Definition information_content (p : tensor R) (reduction : string) (base : R) : res (tensor ext) :=
  let lg := tmap (fun v => elog (Fin v)) p in
  do natural <- (if String.eqb reduction "sum" then Ok (tsum lg)
                 else if String.eqb reduction "batch_el" then sum_per_batch lg
                 else if String.eqb reduction "none" then Ok lg
                 else Raise ValueError);
  do c <- log_factor base;
  Ok (tmap (escale c) natural).

(** _log_expm1.py L10-33; torch.expm1 is exp(x) - 1. *)
Definition log_expm1 (x : R) : ext :=
  if Rlt_dec x 15 then elog (Fin (exp (Rmin x 15) - 1)) else Fin x.

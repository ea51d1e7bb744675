(** Model of the tail estimation of distributions
    (neuralcompression/functional/_estimate_tails.py, _lower_tail.py, _upper_tail.py).

    Simplifications: real arithmetic; the function whose target is sought acts on each
    element of the batch on its own, and autograd is given as its derivative; device and
    dtype handling are left out. *)
From Coq Require Import Reals List Bool Arith Lia Lra.
From Verif Require Import Base Gauss Dist_Model.
Import ListNotations.
Open Scope R_scope.

(** A function of one element with its derivative. *)
Record dfun := mkDF { fval : R -> R; fder : R -> R }.

(** Derivative of the absolute value as autograd computes it: sign, 0 at 0. *)
Definition sgn (x : R) : R :=
  if Rlt_dec 0 x then 1 else if Rlt_dec x 0 then -1 else 0.
(** _estimate_tails.py L60-63: the gradient of abs(func(tails) - target). *)
Definition tail_grad (f : dfun) (target x : R) : R := sgn (fval f x - target) * fder f x.

(** One element of the optimisation: counts, tails, mean, variance (L53-57). *)
Record elem := mkE { cnt : nat; tl : R; mn : R; vr : R }.
Definition elem0 : elem := mkE 0 0 0 1.
Definition eps32 : R := / 8388608.
Definition Rgtb (a b : R) : bool := if Rgt_dec a b then true else false.

(** L59-76: one iteration, for one element with gradient function [g]. *)
Definition tail_step (g : R -> R) (e : elem) : elem :=
  let gradient := g (tl e) in
  let mean := 9 / 10 * mn e + 1 / 10 * gradient in
  let variance := 99 / 100 * vr e + 1 / 100 * (gradient * gradient) in
  let tails := tl e - 1 / 100 * mean / (sqrt variance + eps32) in
  let condition := (0 <? cnt e)%nat || Rgtb (gradient * tails) 0 in
  mkE (if condition then S (cnt e) else cnt e) tails mean variance.

(** L59: the loop runs until every count has reached 100.  [Diverges] when the fuel is
    used up. *)
Fixpoint tail_loop (fuel : nat) (gs : list (R -> R)) (st : list elem) : res (list elem) :=
  match fuel with
  | O => Raise Diverges
  | S k => if forallb (fun e => 100 <=? cnt e)%nat st then Ok st
           else tail_loop k gs (map (fun p => tail_step (fst p) (snd p)) (combine gs st))
  end.
(** L11-78; torch.min of an empty tensor raises. *)
Definition estimate_tails (fuel : nat) (fs : list dfun) (target : R) : res (list R) :=
  match fs with
  | [] => Raise RuntimeError
  | _ => do st <- tail_loop fuel (map (fun f => tail_grad f target) fs) (map (fun _ => elem0) fs);
         Ok (map tl st)
  end.

(** _lower_tail.py L35-51.  [icdf] is the distribution's icdf method on a scalar mass,
    [log_cdfs] the logarithm of its cdf for each element, NotImplementedError when the
    distribution has none.  math.log of a non-positive number raises ValueError. *)
Definition math_log (x : R) : res R := if Rlt_dec 0 x then Ok (ln x) else Raise ValueError.
Definition quantile_or_estimate (fuel : nat) (q : res (list R)) (fs : res (list dfun)) (tail_mass : R)
  : res (list R) :=
  match q with
  | Raise AttributeError | Raise NotImplementedError =>
      do t <- math_log (tail_mass / 2);
      do f <- fs;
      estimate_tails fuel f t
  | r => r
  end.
Definition lower_tail (fuel : nat) (icdf : R -> res (list R)) (log_cdfs : res (list dfun)) (tail_mass : R)
  : res (list R) :=
  quantile_or_estimate fuel (icdf (tail_mass / 2)) log_cdfs tail_mass.
(** _upper_tail.py L35-51. *)
Definition upper_tail (fuel : nat) (icdf : R -> res (list R)) (log_sfs : res (list dfun)) (tail_mass : R)
  : res (list R) :=
  quantile_or_estimate fuel (icdf (1 - tail_mass / 2)) log_sfs tail_mass.

(** The functions handed to the estimation for one element with distribution function
    [F] and density [p]: functional/_log_cdf.py L36 and
    functional/_log_survival_function.py L33 (neither Normal nor Uniform). *)
Definition log_cdf_fun (F p : R -> R) : dfun := mkDF (fun x => ln (F x)) (fun x => p x / F x).
Definition log_sf_fun (F p : R -> R) : dfun :=
  mkDF (fun x => ln (1 + F (- x))) (fun x => - p (- x) / (1 + F (- x))).

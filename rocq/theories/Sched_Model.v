(** Model of the learning-rate schedules: neuralcompression/optim/_identity.py,
    _ramp_cosine.py, _ramp_const_cosine.py and projects/torch_vct/utils/schedulers.py.
    Steps are integers, rates are reals; math.pi is the real pi.  A division of Python
    numbers by zero is a ZeroDivisionError. *)
From Coq Require Import ZArith Reals List.
From Verif Require Import Base.
Import ListNotations.
Open Scope R_scope.

Definition pydiv (a : R) (n : Z) : res R :=
  if (n =? 0)%Z then Raise ZeroDivisionError else Ok (a / IZR n).

(** optim/_identity.py L18-19 *)
Definition identity_step (step : Z) : res R := Ok 1.

(** optim/_ramp_cosine.py L37-42 (step_fn) *)
Definition ramp_cosine (num_ramp_steps num_max_steps : Z) (min_val : R) (step : Z) : res R :=
  if (step <? num_ramp_steps)%Z then
    do q <- pydiv (IZR step) num_ramp_steps; Ok (Rmax (Rmin q 1) min_val)
  else
    do q <- pydiv (IZR (step - num_ramp_steps)) num_max_steps;
    let angle := q * PI / 2 in
    Ok (Rmax (cos angle) min_val).

(** optim/_ramp_const_cosine.py L40-48 (step_fn) *)
Definition ramp_const_cosine (num_max_steps num_ramp_steps num_cosine_steps : Z) (min_val : R) (step : Z) : res R :=
  let cosine_step := (step - (num_max_steps - num_cosine_steps))%Z in
  if (step <? num_ramp_steps)%Z then
    do q <- pydiv (IZR step) num_ramp_steps; Ok (Rmax (Rmin q 1) min_val)
  else if (cosine_step >? 0)%Z then
    do q <- pydiv (IZR cosine_step) num_cosine_steps;
    let angle := q * PI / 2 in
    Ok (Rmax (cos angle) min_val)
  else Ok 1.

(** torch_vct/utils/schedulers.py: one parameter group with [base_lr]. *)
Section Vct.
Variables (T_max ramp_len : Z) (eta_min base_lr : R).
(** L42-55 and L129-142: the cosine rate. *)
Definition cosine_lr (last_epoch : Z) : res R :=
  do q <- pydiv (PI * IZR (last_epoch - ramp_len)) (T_max - ramp_len - 1);
  Ok (eta_min + (base_lr - eta_min) * (1 + cos q) / 2).
(** L56-59 and L91-94: the linear rate. *)
Definition linear_lr (last_epoch : Z) : res R :=
  pydiv (base_lr * IZR (1 + last_epoch)) ramp_len.
(** L41-60 (LinearRampCosineLR) *)
Definition linear_ramp_cosine (last_epoch : Z) : res R :=
  do c <- cosine_lr last_epoch;
  do l <- linear_lr last_epoch;
  Ok (Rmin c l).
(** L90-95 (LinearRampLinearLR) *)
Definition linear_ramp_linear (last_epoch : Z) : res R :=
  do l <- linear_lr last_epoch;
  Ok (if (last_epoch <? ramp_len)%Z then l else base_lr).
(** L128-143 (LinearWarmUpCosineLR) *)
Definition linear_warmup_cosine (last_epoch : Z) : res R :=
  do c <- cosine_lr last_epoch;
  Ok (if (last_epoch <? ramp_len)%Z then base_lr else c).
End Vct.

(** Model of neuralcompression/functional/_soft_round.py, _soft_round_inverse.py,
    _soft_round_conditional_mean.py, _lower_bound.py and _hsv_to_rgb.py.  Floating-point
    numbers are reals. *)
From Coq Require Import String ZArith Arith List Bool Reals.
From Verif Require Import Base RBase Tensor.
Import ListNotations.
Open Scope R_scope.

(** _soft_round.py L8-38, for one element; torch.where(alpha < eps, x, y). *)
Definition soft_round (x alpha eps : R) : R :=
  let maximum := Rmax alpha eps in
  let m := IZR (Rfloor x) + 1/2 in
  let z := tanh (maximum / 2) * 2 in
  let y := m + tanh (maximum * (x - m)) / z in
  if Rlt_dec alpha eps then x else y.

(** torch.atanh inside (-1, 1); elsewhere torch gives an infinity or NaN. *)
Definition atanh (s : R) : R := ln ((1 + s) / (1 - s)) / 2.
(** torch.clamp *)
Definition clamp (lo hi r : R) : R := Rmin (Rmax r lo) hi.
(** _soft_round_inverse.py L9-41 *)
Definition soft_round_inverse (y alpha eps : R) : R :=
  let maximum := Rmax alpha eps in
  let m := IZR (Rfloor y) + 1/2 in
  let s := (y - m) * (tanh (maximum / 2) * 2) in
  let r := atanh s / maximum in
  let r := clamp (-(1/2)) (1/2) r in
  let x := m + r in
  if Rlt_dec alpha eps then y else x.

(** The default eps = 1e-3. *)
Definition default_eps : R := 1 / 1000.
(** _soft_round_conditional_mean.py L11-38 *)
Definition soft_round_conditional_mean (x alpha : R) : R :=
  soft_round_inverse (x - 1/2) alpha default_eps + 1/2.

(** _lower_bound.py L16-20 *)
Inductive gradient_mode := disconnected | identity | identity_if_towards.
(** The argument [bound: Union[float, Tensor]]; a tensor here has one element. *)
Inductive bound_arg := BFloat (b : R) | BTensor (b : R).
Definition mode_of (gradient : string) : res gradient_mode :=
  if String.eqb gradient "disconnected" then Ok disconnected
  else if String.eqb gradient "identity" then Ok identity
  else if String.eqb gradient "identity_if_towards" then Ok identity_if_towards
  else Raise ValueError.
(** L38-51 (forward): bound.to(x.dtype) exists for tensors only.  Returns the output, and
    what is saved for the backward pass. *)
Definition lower_bound_forward (x : tensor R) (bound : bound_arg) (mode : gradient_mode)
  : res (tensor R * (tensor R * R * gradient_mode)) :=
  match bound with
  | BFloat _ => Raise AttributeError
  | BTensor b => Ok (mkT (tshape x) (fun i => Rmax (tat x i) b), (x, b, mode))
  end.
(** L24-36 (backward): the gradient for [x]; [y] is the gradient of the output. *)
Definition lower_bound_backward (ctx : tensor R * R * gradient_mode) (y : tensor R) : tensor R :=
  let '(x, bound, gradient) := ctx in
  match gradient with
  | disconnected => x
  | identity => y
  | identity_if_towards =>
      mkT (tshape y) (fun i => if (if Rge_dec (tat x i) bound then true else false)
                                  || (if Rlt_dec (tat y i) 0 then true else false)
                               then tat y i else 0)
  end.
(** L53-100 (lower_bound): the output, and the gradient as a function of the output's. *)
Definition lower_bound (x : tensor R) (bound : bound_arg) (gradient : string)
  : res (tensor R * (tensor R -> tensor R)) :=
  do mode <- mode_of gradient;
  do out <- lower_bound_forward x bound mode;
  Ok (fst out, lower_bound_backward (snd out)).

(** _hsv_to_rgb.py L10-37.  torch.fmod for non-negative arguments. *)
Definition fmod6 (k : R) : R := k - 6 * IZR (Rfloor (k / 6)).
Definition convert_fn (h s v : R) (n : R) : R :=
  let k := fmod6 (n + h / 60) in
  v - v * s * Rmax 0 (Rmin (Rmin k (4 - k)) 1).
Definition Rltb (a b : R) : bool := if Rlt_dec a b then true else false.
(** Whether some pixel of channel [c] satisfies [p]. *)
Definition channel_any (p : R -> bool) (b h w : nat) (x : tensor R) (c : nat) : bool :=
  existsb (fun k => existsb (fun i => existsb (fun j => p (tat x [k; c; i; j]%nat)) (seq 0 w)) (seq 0 h)) (seq 0 b).
Definition hsv_to_rgb (hsv : tensor R) : res (tensor R) :=
  match tshape hsv with
  | [b; c; h; w] =>
      if negb (c =? 3)%nat then Raise ValueError
      else if (b * h * w =? 0)%nat then Raise RuntimeError
      else if channel_any (fun v => Rltb v 0 || Rltb 360 v) b h w hsv 0 then Raise ValueError
      else if channel_any (fun v => Rltb v 0 || Rltb 1 v) b h w hsv 1
           || channel_any (fun v => Rltb v 0 || Rltb 1 v) b h w hsv 2 then Raise ValueError
      else Ok (mkT [b; 3; h; w]%nat
                 (fun idx => match idx with
                             | [k; c; i; j] =>
                                 convert_fn (tat hsv [k; 0; i; j]%nat) (tat hsv [k; 1; i; j]%nat) (tat hsv [k; 2; i; j]%nat)
                                            (nth c [5; 3; 1] 0)
                             | _ => 0
                             end))
  | _ => Raise ValueError
  end.

(** Specification for C42-C44. *)
From Coq Require Import ZArith Arith List Bool Reals.
From Verif Require Import Base RBase Tensor.
Import ListNotations.
Open Scope R_scope.

(** The documented gradient of the lower bound, for input x, bound b and incoming gradient y:
    zero or unchanged. *)
Inductive documented := Disconnected | Identity | Towards.
Definition documented_gradient (mode : documented) (x b y : R) : R :=
  match mode with
  (* as torch.maximum: nothing for values below the bound *)
  | Disconnected => if Rlt_dec x b then 0 else y
  | Identity => y
  (* below the bound, only if a descent step x - rate * y increases x *)
  | Towards => if Rlt_dec x b then (if Rlt_dec y 0 then y else 0) else y
  end.

(** The hexcone model: hue in degrees, saturation and value to red, green, blue. *)
Definition hexcone (h s v : R) : R * R * R :=
  let sector := Rfloor (h / 60) in
  let f := h / 60 - IZR sector in
  let p := v * (1 - s) in
  let q := v * (1 - s * f) in
  let t := v * (1 - s * (1 - f)) in
  match (sector mod 6)%Z with
  | 0%Z => (v, t, p)
  | 1%Z => (q, v, p)
  | 2%Z => (p, v, t)
  | 3%Z => (p, q, v)
  | 4%Z => (t, p, v)
  | _ => (v, p, q)
  end.

(** What C37 says. *)
From Coq Require Import Arith List Reals.
From Verif Require Import Base Tensor Net_Model.
Import ListNotations.
Open Scope nat_scope.

(** The bottleneck returns a latent of the same shape. *)
Definition keeps_shape (op : option net) : Prop :=
  match op with
  | None => True
  | Some f => forall x, exists y, f x = Ok y /\ tshape y = tshape x
  end.
(** [y] is [x] with more rows below and columns to the right. *)
Definition extends (x y : tensor R) (b c h w H W : nat) : Prop :=
  tshape x = [b; c; h; w] /\ tshape y = [b; c; H; W] /\ h <= H /\ w <= W /\
  forall i j k l, k < h -> l < w -> tat y [i; j; k; l] = tat x [i; j; k; l].

(** Specification for 8-bit conversion and patch-based FID. *)
From Coq Require Import ZArith Arith List Bool Reals.
From Verif Require Import Base Tensor.
Import ListNotations.
Open Scope nat_scope.

(** [v] is the integer nearest to 255·x, the float32 product rounded half to even: within
    half a unit and 2^-16, for the rounding error of the product. *)
Definition nearest_255 (x : R) (v : Z) : Prop :=
  (0 <= v <= 255)%Z /\ (Rabs (IZR v - 255 * x) <= 1/2 + / 2 ^ 16)%R.

(** [P] is the set of patches of size p × p of the batch [x], on the grid that starts at
    (s, s): as many as fit, image by image, row by row, each with the 8-bit values of its
    pixels, computed by [q]. *)
Definition patches_of (q : R -> Z) (x : tensor R) (b h w p s : nat) (P : tensor Z) : Prop :=
  let ny := (h - s) / p in
  let nx := (w - s) / p in
  tshape P = [b * (ny * nx); 3; p; p] /\
  forall k i j, k < b -> i < ny -> j < nx -> forall c u v, c < 3 -> u < p -> v < p ->
    tat P [k * (ny * nx) + i * nx + j; c; u; v] = q (tat x [k; c; s + i * p + u; s + j * p + v]).

Definition in_unit (x : tensor R) : Prop := forall i, inb (tshape x) i -> (0 <= tat x i <= 1)%R.

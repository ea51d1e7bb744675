(** The nearest-codeword choice of the vector-quantisation bottleneck in float32
    (neuralcompression/layers/_q_bottleneck.py L112-165).

    [b32] is IEEE rounding to nearest, ties to even, to single precision with subnormals and
    without overflow (RFloat.v).  torch.sum adds in an order that depends on the device, the
    shape and the library: the order is a binary tree, arbitrary for every row. *)
From Coq Require Import Reals List Arith.
From Verif Require Import Base Tensor RBase RFloat Vqb_Model.
Import ListNotations.
Open Scope R_scope.

(** A summation order: the entry [j], or two partial sums. *)
Inductive order := One (j : nat) | Two (l r : order).
Fixpoint summed (t : order) : list nat :=
  match t with One j => [j] | Two l r => summed l ++ summed r end.
Fixpoint fsum (t : order) (f : nat -> R) : R :=
  match t with One j => f j | Two l r => b32 (fsum l f + fsum r f) end.

(** L127-129: (codebook - latent) ** 2, summed *)
Definition distance_fl (t : order) (row v : nat -> R) : R :=
  fsum t (fun j => let e := b32 (row j - v j) in b32 (e * e)).
(** L142-144: argmin of the distances *)
Definition pick_nearest_fl (n : nat) (orders : nat -> order) (rows : nat -> nat -> R) (v : nat -> R) : res nat :=
  argmin n (fun k => distance_fl (orders k) (rows k) v).
(** L159: preq_latents + (latents - preq_latents) *)
Definition straight_through (x q : R) : R := b32 (x + b32 (q - x)).

(** F.normalize(codebook, dim=1) (L123-124): norm(2, dim).clamp_min(1e-12), then a division. *)
Definition norm_fl (t : order) (c : nat -> R) : R := b32 (sqrt (fsum t (fun j => b32 (c j * c j)))).
Definition normalize_fl (t : order) (c : nat -> R) (j : nat) : R := b32 (c j / Rmax (norm_fl t c) (b32 (/ 10 ^ 12))).

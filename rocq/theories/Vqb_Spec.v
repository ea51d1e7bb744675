(** What "the nearest codeword" means, independently of the model. *)
From Coq Require Import Reals List ZArith.
From Verif Require Import Base Tensor.
Import ListNotations.
Open Scope R_scope.

(** Squared Euclidean distance of two vectors of length [d]. *)
Definition sqdist (d : nat) (u v : nat -> R) : R := rsum d (fun j => (u j - v j) * (u j - v j)).

(** [k] is the first of the [n] rows that are nearest to [v]. *)
Definition first_nearest (n d : nat) (row : nat -> nat -> R) (v : nat -> R) (k : nat) : Prop :=
  (k < n)%nat /\
  (forall i, (i < n)%nat -> sqdist d (row k) v <= sqdist d (row i) v) /\
  (forall i, (i < k)%nat -> sqdist d (row k) v < sqdist d (row i) v).

(** The vector of an image-shaped tensor at batch element [b] and position (y, x). *)
Definition vector_at (t : tensor R) (b y x : nat) : nat -> R := fun c => tat t [b; c; y; x]%nat.

(** A row of the codebook scaled to length 1 (rows shorter than 1e-12 are divided by 1e-12). *)
Definition unit_row (d : nat) (v : nat -> R) : nat -> R :=
  fun j => v j / Rmax (sqrt (sqdist d v (fun _ => 0))) (/ 10 ^ 12).

(** How often [k] occurs in a list of index lists. *)
Definition occurrences (k : nat) (l : list (list nat)) : Z := Z.of_nat (count_occ Nat.eq_dec (concat l) k).

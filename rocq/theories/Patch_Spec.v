(** Vocabulary for the patcher's properties. *)
From Coq Require Import Arith List Bool Reals.
From Verif Require Import Tensor.
Import ListNotations.
Open Scope nat_scope.

(** The least multiple of [s] that is at least [n], minus [n]. *)
Definition fill_of (s n f : nat) : Prop := f < s /\ exists k, n + f = k * s.

(** torch's padding by [before] and [after] accepts a dimension of size [n]. *)
Definition extendable (mode : pad_mode) (n before after : nat) : Prop :=
  match mode with
  | Constant => True
  | Replicate => 1 <= n
  | Reflect => before < n /\ after < n
  | Circular => 1 <= n /\ before <= n /\ after <= n
  end.

(** Both spatial dimensions of a [h] x [w] image accept a margin [m] plus the fill to
    the next multiple of [s]. *)
Definition paddable (mode : pad_mode) (s m h w : nat) : Prop :=
  exists fh fw, fill_of s h fh /\ fill_of s w fw /\
    extendable mode h m (fh + m) /\ extendable mode w m (fw + m).

(** Number of [s]-blocks needed to cover [n]. *)
Definition blocks (s n k : nat) : Prop := n <= k * s /\ k * s < n + s.

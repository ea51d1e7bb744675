(** Vocabulary for the conditional bottleneck. *)
From Coq Require Import ZArith List Reals.
From Verif Require Import Base RBase RFloat.
Import ListNotations.
Open Scope Z_scope.

(** A float32 number (overflow aside). *)
Definition is_b32 (x : R) : Prop := b32 x = x.

(** The entropy coder decodes what it coded, for rows below [n] and symbols in [ok]. *)
Definition lossless_coder {B} (ec_compress : list Z -> list Z -> res B)
  (ec_decompress : B -> list Z -> res (list Z)) (n : Z) (ok : Z -> Prop) : Prop :=
  forall syms idx, length syms = length idx -> Forall ok syms -> Forall (fun i => 0 <= i < n) idx ->
    exists b, ec_compress syms idx = Ok b /\ ec_decompress b idx = Ok syms.

Definition in_int32 (z : Z) : Prop := - 2 ^ 31 <= z < 2 ^ 31.

(** The value that a decoder reconstructs for [x] when the mean is [m]: the difference to
    the rounded mean is rounded in float32. *)
Definition quantised (x m : R) : R :=
  b32 (IZR (round_even (b32 (x - IZR (round_even m)))) + IZR (round_even m)).
Definition symbol (x m : R) : Z := round_even (b32 (x - IZR (round_even m))).

Definition half_integer (x : R) : Prop := exists n, x = (IZR n + / 2)%R.

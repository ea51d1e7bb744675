(** Ideal code length of a message, in bits, as a real number. *)
From Coq Require Import ZArith List Reals.
From Verif Require Import AC_Spec.
Import ListNotations.
Open Scope R_scope.

Definition log2 (x : R) : R := ln x / ln 2.

(** Sum over the symbols of log2 (65536 / frequency). *)
Definition ideal_bits {ST} (cdf : Z -> ST -> Z * Z * ST) (m : list Z) (cs : ST) : R :=
  fold_right (fun i acc => log2 (65536 / IZR (snd i - fst i)) + acc) 0 (intervals cdf m cs).

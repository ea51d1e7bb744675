(** Ideal code length of rANS pushes, in bits, as a real number. *)
From Coq Require Import ZArith List Reals.
From Verif Require Import AC_SpecR Rans_Spec.
Import ListNotations.
Open Scope R_scope.

(** Sum over the coded intervals of log2 (2^p / frequency). *)
Definition ideal_bits (p : Z) (ivs : list (Z * Z)) : R :=
  fold_right (fun i acc => log2 (IZR (2 ^ p) / IZR (snd i - fst i)) + acc) 0 ivs.

(** Overhead of one coded symbol: log2 (1 + 2^(p-24)). *)
Definition symbol_overhead (p : Z) : R := log2 (1 + / IZR (2 ^ (24 - p))).

(** Which videos a pass over the data set shows, when video [v] has [clips v] clips. *)
From Coq Require Import List Arith.
Import ListNotations.

(** What the documentation suggests: all clips of every video, in the order of the sampler. *)
Definition all_clips (clips : nat -> nat) (order : list nat) : list nat :=
  flat_map (fun v => repeat v (clips v)) order.

(** What happens: every clip after the first uses up, and discards, one video of the order. *)
Fixpoint shown (clips : nat -> nat) (fuel : nat) (order : list nat) : list nat :=
  match fuel, order with
  | S f, v :: rest => repeat v (min (clips v) (length order)) ++ shown clips f (skipn (clips v - 1) rest)
  | _, _ => []
  end.

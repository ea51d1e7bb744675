(** Specification of the tail estimation: the Adam iteration on its own, and what it means
    for an estimate to have passed the optimum. *)
From Coq Require Import Reals.
Open Scope R_scope.

(** The Adam iteration from 0 with learning rate 1/100 and moments 0.9, 0.99:
    (position, mean, variance) after n steps, for the gradient function g. *)
Fixpoint adam (g : R -> R) (n : nat) : R * R * R :=
  match n with
  | O => (0, 0, 1)
  | S k =>
      let '(x, m, v) := adam g k in
      let m' := 9 / 10 * m + 1 / 10 * g x in
      let v' := 99 / 100 * v + 1 / 100 * (g x * g x) in
      (x - 1 / 100 * m' / (sqrt v' + / 8388608), m', v')
  end.
Definition pos (g : R -> R) (n : nat) : R := fst (fst (adam g n)).

(** Step n has passed the optimum: the gradient points back towards the start. *)
Definition passed (g : R -> R) (n : nat) : Prop := g (pos g n) * pos g (S n) > 0.

(** The gradient of a distance to the point r: negative before r, positive after. *)
Definition valley (g : R -> R) (r : R) : Prop :=
  (forall x, x < r -> g x < 0) /\ g r = 0 /\ (forall x, r < x -> 0 < g x).

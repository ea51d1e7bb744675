(** Shared vocabulary of the model: Python exceptions as values, fixed-width
    integers, and a few list helpers. *)
From Coq Require Import ZArith List Bool Lia.
Import ListNotations.
Open Scope Z_scope.

(** Python exceptions that the modelled code can raise.  [Diverges] is not a
    Python exception: it stands for a [while] loop whose fuel ran out, and every
    theorem that says a function returns [Ok] excludes it. *)
Inductive exn :=
| ValueError | RuntimeError | IndexError | TypeError | KeyError
| AssertionError | AttributeError | FileExistsError | NotImplementedError
| ZeroDivisionError | FileNotFoundError | OSError | EOFError | Diverges.

Inductive res (A : Type) :=
| Ok (a : A)
| Raise (e : exn).
Arguments Ok {A} a.
Arguments Raise {A} e.

Definition bind {A B} (m : res A) (f : A -> res B) : res B :=
  match m with Ok a => f a | Raise e => Raise e end.

Notation "'do' x <- m ; f" := (bind m (fun x => f))
  (at level 200, x pattern, m at level 100, f at level 200, only parsing).

Definition is_ok {A} (m : res A) : bool :=
  match m with Ok _ => true | Raise _ => false end.

(** Map over a batch, stopping at the first error. *)
Fixpoint mapM {A B} (f : A -> res B) (l : list A) : res (list B) :=
  match l with
  | [] => Ok []
  | a :: l' => do b <- f a; do bs <- mapM f l'; Ok (b :: bs)
  end.

(** Unsigned fixed-width views of an integer (numpy / JAX / torch dtypes). *)
Definition u8 (x : Z) : Z := x mod 2 ^ 8.
Definition u16 (x : Z) : Z := x mod 2 ^ 16.
Definition u32 (x : Z) : Z := x mod 2 ^ 32.
Definition u64 (x : Z) : Z := x mod 2 ^ 64.

(** Array update: JAX drops a scatter update whose index is out of range. *)
Definition index_update {A} (a : list A) (i : nat) (v : A) : list A :=
  if Nat.ltb i (length a) then firstn i a ++ v :: skipn (S i) a else a.

(** Array read: JAX clamps a gather index to the last element. *)
Definition gather (a : list Z) (i : nat) : Z := nth (Nat.min i (length a - 1)) a 0.

(** [lia] with division and modulo by constants. *)
Ltac dlia := zify; Z.div_mod_to_equations; lia.

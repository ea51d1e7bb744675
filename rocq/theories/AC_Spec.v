(** Specification vocabulary for the arithmetic coder: what a correct pair of
    CDF callables is, and the ideal code length of a message.  Nothing here
    refers to the coder itself. *)
From Coq Require Import ZArith List.
Import ListNotations.
Open Scope Z_scope.

Section Spec.
  Context {ST ST' : Type}.
  (** [cdf symbol state = (cdf_low, cdf_high, state')] *)
  Variable cdf : Z -> ST -> Z * Z * ST.
  (** [inv value state = (cdf_low, cdf_high, symbol, state')] *)
  Variable inv : Z -> ST' -> Z * Z * Z * ST'.

  (** The intervals that the CDF callable assigns to the symbols of a message. *)
  Fixpoint intervals (m : list Z) (cs : ST) : list (Z * Z) :=
    match m with
    | [] => []
    | x :: m' => let '(l, h, cs1) := cdf x cs in (l, h) :: intervals m' cs1
    end.

  (** A non-empty interval on the scale 0 .. 2^16. *)
  Definition good_interval (i : Z * Z) : Prop := 0 <= fst i < snd i /\ snd i <= 65536.

  Definition good_message (m : list Z) (cs : ST) : Prop :=
    Forall good_interval (intervals m cs).

  (** The two callables agree along the message: wherever the encoder assigns
      the interval [l, h) to the next symbol, every value in it is mapped by the
      inverse to the same interval and to that symbol.  Both states may evolve
      (adaptive models); the decoder's next state may depend on the symbol. *)
  Fixpoint matching (m : list Z) (cs : ST) (cs' : ST') : Prop :=
    match m with
    | [] => True
    | x :: m' =>
        let '(l, h, cs1) := cdf x cs in
        good_interval (l, h) /\
        exists cs1', (forall v, l <= v < h -> inv v cs' = (l, h, x, cs1')) /\
                     matching m' cs1 cs1'
    end.

  (** The inverse always answers with an interval that contains the value asked
      for, in every state satisfying [Good] and stays in such states. *)
  Definition total_inverse (Good : ST' -> Prop) : Prop :=
    forall v cs', Good cs' -> 0 <= v < 65536 ->
      let '(l, h, _, cs1') := inv v cs' in
      0 <= l <= v /\ v < h <= 65536 /\ Good cs1'.

  (** Product of the frequencies (h - l) of the symbols; the ideal code length
      of the message is log2 (65536^n / freq_product). *)
  Definition freq_product (m : list Z) (cs : ST) : Z :=
    fold_right (fun i acc => (snd i - fst i) * acc) 1 (intervals m cs).
End Spec.

(** 8-bit symbols *)
Definition symbol8 (x : Z) : Prop := 0 <= x < 256.

(** The interval coder on unbounded integers: narrowing to a symbol's slot, and
    zooming into the lower half, upper half or middle half of the unit interval
    (scaled to 2^32) until the interval straddles the middle and is not inside
    the middle half.  [zoom k i r]: [r] is reached from [i] in exactly [k] zooms. *)
Definition spec_narrow (i slot : Z * Z) : Z * Z :=
  let '(l, h) := i in let '(cl, ch) := slot in
  (l + (h - l + 1) * cl / 65536, l + (h - l + 1) * ch / 65536 - 1).

Inductive zoom : nat -> Z * Z -> Z * Z -> Prop :=
| zoom_done l h :
    l < 2 ^ 31 <= h -> ~ (2 ^ 30 <= l /\ h < 3 * 2 ^ 30) -> zoom 0 (l, h) (l, h)
| zoom_lower k l h r :
    h < 2 ^ 31 -> zoom k (2 * l, 2 * h + 1) r -> zoom (S k) (l, h) r
| zoom_upper k l h r :
    2 ^ 31 <= l -> zoom k (2 * (l - 2 ^ 31), 2 * (h - 2 ^ 31) + 1) r -> zoom (S k) (l, h) r
| zoom_middle k l h r :
    l < 2 ^ 31 <= h -> 2 ^ 30 <= l -> h < 3 * 2 ^ 30 ->
    zoom k (2 * (l - 2 ^ 30), 2 * (h - 2 ^ 30) + 1) r -> zoom (S k) (l, h) r.

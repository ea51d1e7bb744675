(** What C38 and C39 say, independently of the model's helpers. *)
From Coq Require Import Arith List Bool Reals.
From Verif Require Import Base Tensor Net_Model.
Import ListNotations.
Open Scope nat_scope.

(** n divided by 2^m, rounded up: the size after m halvings that round up. *)
Definition ceil_pow2 (m n : nat) : nat := (n + 2 ^ m - 1) / 2 ^ m.

(** A bottleneck that returns the quantised tensor [q y] when asked for the size of [y]. *)
Definition bottleneck_lossless {B} (compress : tensor R -> res B) (decompress : B -> nat * nat -> res (tensor R))
    (q : tensor R -> tensor R) (channels : nat) : Prop :=
  forall y b h w, tshape y = [b; channels; h; w] -> 1 <= b -> 1 <= h -> 1 <= w ->
  exists s, compress y = Ok s /\ decompress s (h, w) = Ok (q y) /\ tshape (q y) = tshape y.
(** ... and that, asked for any other size, raises or returns a tensor of that size. *)
Definition bottleneck_sized {B} (decompress : B -> nat * nat -> res (tensor R)) : Prop :=
  forall s h w y, decompress s (h, w) = Ok y -> exists b c, tshape y = [b; c; h; w].

(** A motion estimator returns a flow (two channels) of the images' size. *)
Definition estimates (est : tensor R -> tensor R -> res (tensor R)) (b c h w : nat) : Prop :=
  forall x y, tshape x = [b; c; h; w] -> tshape y = [b; c; h; w] ->
  exists f, est x y = Ok f /\ tshape f = [b; 2; h; w].
(** Motion compensation returns an image of the images' size. *)
Definition compensates (comp : tensor R -> tensor R -> tensor R -> res (tensor R)) (b c h w : nat) : Prop :=
  forall x y f, tshape x = [b; c; h; w] -> tshape y = [b; c; h; w] -> tshape f = [b; 2; h; w] ->
  exists z, comp x y f = Ok z /\ tshape z = [b; c; h; w].

(** Clamped to [0, 1] *)
Definition clamp (x : R) : R := Rmax 0 (Rmin 1 x).
Definition within (s idx : list nat) : Prop := Forall2 lt idx s.

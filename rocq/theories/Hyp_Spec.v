(** What C35, C36, C56 and C57 say, independently of the model's helpers. *)
From Coq Require Import String ZArith Arith List Bool Reals.
From Verif Require Import Base RBase Tensor Net_Model Hyp_Model.
Import ListNotations.
Open Scope nat_scope.

(** * Sizes *)
(** [m] is the smallest multiple of [f] that is at least [n]. *)
Definition least_multiple (f n m : nat) : Prop :=
  Nat.divide f m /\ n <= m /\ forall m', Nat.divide f m' -> n <= m' -> m <= m'.
(** n/16 rounded up *)
Definition sixteenths (n : nat) : nat := (n + 15) / 16.

(** * Lossless bottlenecks *)
(** A hyper-latent bottleneck that returns the quantised tensor [q y] for the size of [y]. *)
Definition hyper_lossless {B} (compress : tensor R -> res B) (decompress : B -> nat * nat -> res (tensor R))
    (q : tensor R -> tensor R) (channels : nat) : Prop :=
  forall y b h w, tshape y = [b; channels; h; w] -> 1 <= b -> 1 <= h -> 1 <= w ->
  exists s, compress y = Ok s /\ decompress s (h, w) = Ok (q y) /\ tshape (q y) = tshape y.
(** y quantised around m *)
Definition quantised (y m : tensor R) : tensor R :=
  mkT (tshape y) (fun i => (IZR (round_even (tat y i - tat m i)) + tat m i)%R).
(** A latent bottleneck that returns the latent quantised around the means, if both sides
    use the same indexes and means. *)
Definition latent_lossless {B I} (build : tensor R -> I) (compress : tensor R -> I -> tensor R -> res B)
    (decompress : B -> I -> tensor R -> res (tensor R)) : Prop :=
  forall y sc m, tshape sc = tshape y -> tshape m = tshape y ->
  exists s, compress y (build sc) m = Ok s /\ decompress s (build sc) m = Ok (quantised y m).

(** * Calls *)
Inductive op := Train (mode : bool) | FreezeEncoder | FreezeBottleneck
              | Devices (target : string) | To (device : nat) | Step.
(** A call that raises leaves the state as it was. *)
Definition call (o : op) (s : hstate) : hstate :=
  match o with
  | Train m => train m s
  | FreezeEncoder => freeze_encoder s
  | FreezeBottleneck => freeze_bottleneck s
  | Devices t => match update_tensor_devices t s with Ok s' => s' | Raise _ => s end
  | To d => to_device (fun _ => true) d s
  | Step => optimiser_step s
  end.
Definition calls (l : list op) (s : hstate) : hstate := fold_left (fun s o => call o s) l s.

(** The child is in evaluation mode and none of its parameters wants a gradient. *)
Definition is_frozen (s : hstate) (c : child) : Prop :=
  ptrain s c = false /\ forall p, In p (params s) -> pchild p = c -> prequires p = false.
(** As constructed with freeze_encoder=False and freeze_bottleneck=False. *)
Definition fresh (s : hstate) : Prop := frozen_encoder s = false /\ frozen_bottleneck s = false.
(** The five children on the bottleneck's side. *)
Definition bottleneck_side (c : child) : Prop := c <> Encoder /\ c <> Decoder.
Definition same_device (s : hstate) : Prop :=
  exists d, forall p, In p (params s) -> pdevice p = d.
Definition ends_in_quantiles (n : string) : Prop := exists pre, n = append pre ".quantiles".
(** Where the parameters must be for compress and decompress. *)
Definition may_compress (force_cpu : bool) (s : hstate) : Prop :=
  (forall p, In p (params s) -> pdevice p = 0) \/
  (force_cpu = false /\ forall p, In p (params s) -> bottleneck_side (pchild p) -> pdevice p = 0).

(** What C40 says, independently of the model's helpers. *)
From Coq Require Import String ZArith Arith List Reals.
From Verif Require Import Base Tensor Net_Model Unet_Model.
Import ListNotations.
Open Scope nat_scope.

Definition power_of_two (n : Z) : Prop := exists d : nat, n = (2 ^ Z.of_nat d)%Z.
(** Instance normalisation needs more than one pixel at the coarsest level. *)
Definition norm_fits (norm : String.string) (levels h w : nat) : Prop :=
  norm = "instance"%string -> 1 < (h / 2 ^ levels) * (w / 2 ^ levels).
Definition known_norm (norm : String.string) : Prop :=
  In norm ["batch"; "spectral"; "instance"; "identity"]%string.
(** The discriminator [disc] turns images of [c] channels, height h and width w into maps of
    [oc] channels, height h' and width w'. *)
Definition produces (disc : net) (c h w oc h' w' : nat) : Prop :=
  forall b x, tshape x = [b; c; h; w] -> exists y, disc x = Ok y /\ tshape y = [b; oc; h'; w'].
Definition refuses (disc : net) (c h w : nat) : Prop :=
  forall b x, tshape x = [b; c; h; w] -> exists e, disc x = Raise e.

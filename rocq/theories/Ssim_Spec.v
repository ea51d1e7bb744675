(** Specification for MS-SSIM (Wang, Simoncelli, Bovik 2003), on single-channel images
    given as functions of row and column.  Local statistics are weighted means, central
    moments and so on; nothing here mentions the implementation. *)
From Coq Require Import String ZArith Arith List Bool Reals Lia.
From Verif Require Import Base Tensor.
Import ListNotations.
Open Scope R_scope.

Definition image := nat -> nat -> R.

(** A normalised Gaussian of [2r+1] taps with standard deviation [sd]. *)
Definition gauss (sd : R) (r i : nat) : R :=
  exp (- ((INR i - INR r) / sd) ^ 2 / 2).
Definition tap (sd : R) (r i : nat) : R := gauss sd r i / rsum (2 * r + 1) (gauss sd r).
(** Weighted mean of [f] over the window whose top left corner is (i, j). *)
Definition local (sd : R) (r : nat) (f : image) (i j : nat) : R :=
  rsum (2 * r + 1) (fun u => rsum (2 * r + 1) (fun v =>
    tap sd r u * tap sd r v * f (i + u)%nat (j + v)%nat)).
Definition covariance sd r (f g : image) i j : R :=
  local sd r (fun a b => (f a b - local sd r f i j) * (g a b - local sd r g i j)) i j.
Definition variance sd r f i j : R := covariance sd r f f i j.

Definition luminance sd r c1 (f g : image) i j : R :=
  let m := local sd r f i j in let n := local sd r g i j in
  (2 * m * n + c1) / (m ^ 2 + n ^ 2 + c1).
Definition contrast_structure sd r c2 (f g : image) i j : R :=
  (2 * covariance sd r f g i j + c2) / (variance sd r f i j + variance sd r g i j + c2).

(** Mean over all windows inside an image of size h × w. *)
Definition over_windows r h w (q : image) : R :=
  rsum (h - 2 * r) (fun i => rsum (w - 2 * r) (fun j => q i j)) / INR ((h - 2 * r) * (w - 2 * r)).
Definition ssim sd r c1 c2 h w f g : R :=
  over_windows r h w (fun i j => luminance sd r c1 f g i j * contrast_structure sd r c2 f g i j).
Definition cs sd r c2 h w f g : R := over_windows r h w (contrast_structure sd r c2 f g).

(** Halving an image: means of 2 × 2 blocks, the last row and column repeated if the size
    is odd. *)
Definition up_half (n : nat) : nat := ((n + 1) / 2)%nat.
Definition halve (h w : nat) (f : image) : image := fun i j =>
  let i1 := Nat.min (2 * i + 1) (h - 1) in let j1 := Nat.min (2 * j + 1) (w - 1) in
  (f (2 * i)%nat (2 * j)%nat + f (2 * i)%nat j1 + f i1 (2 * j)%nat + f i1 j1) / 4.

(** x^p for x not negative, with negative values of x treated as 0. *)
Definition power (x p : R) : R :=
  if Rle_dec x 0 then (if Req_EM_T p 0 then 1 else 0) else Rpower x p.

(** MS-SSIM of one channel: contrast and structure at all scales but the last, SSIM at the
    last, with exponents [factors]. *)
Fixpoint ms_ssim sd r c1 c2 (h w : nat) (f g : image) (factors : list R) : R :=
  match factors with
  | [] => 1
  | [p] => power (ssim sd r c1 c2 h w f g) p
  | p :: ps => power (cs sd r c2 h w f g) p
               * ms_ssim sd r c1 c2 (up_half h) (up_half w) (halve h w f) (halve h w g) ps
  end.

(** Size after [k] halvings. *)
Definition size_at (n k : nat) : nat := ((n + 2 ^ k - 1) / 2 ^ k)%nat.

(** Channel [c] of image [k] of a batch. *)
Definition plane (x : tensor R) (k c : nat) : image := fun i j => tat x [k; c; i; j].

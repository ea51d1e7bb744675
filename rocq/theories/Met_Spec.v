(** Specification for the accumulated metrics: an item is a pair of images with a common
    shape; the metric of a collection of items is the mean of the items' scores. *)
From Coq Require Import ZArith Arith List Bool Reals.
From Verif Require Import Base Tensor Ssim_Spec.
Import ListNotations.
Open Scope nat_scope.

(** Pixels by channel, row, column. *)
Definition pixels := nat -> nat -> nat -> R.
Record item := mkItem { ic : nat; ih : nat; iw : nat; ipred : pixels; itarget : pixels }.

(** A batch of items of shape (c, h, w) as a pair of 4-dimensional tensors. *)
Definition batch_tensor (c h w : nat) (l : list pixels) : tensor R :=
  mkT [length l; c; h; w]
      (fun idx => match idx with
                  | [k; ch; i; j] => nth k l (fun _ _ _ => 0%R) ch i j
                  | _ => 0%R
                  end).
Record group := mkGroup { gc : nat; gh : nat; gw : nat; gpairs : list (pixels * pixels) }.
Definition group_batch (g : group) : tensor R * tensor R :=
  (batch_tensor (gc g) (gh g) (gw g) (map fst (gpairs g)),
   batch_tensor (gc g) (gh g) (gw g) (map snd (gpairs g))).
Definition group_items (g : group) : list item :=
  map (fun p => mkItem (gc g) (gh g) (gw g) (fst p) (snd p)) (gpairs g).

(** The score of one item: channel mean of the paper's MS-SSIM. *)
Definition item_score sd r c1 c2 (factors : list R) (x : item) : R :=
  (rsum (ic x) (fun ch => ms_ssim sd r c1 c2 (ih x) (iw x) (ipred x ch) (itarget x ch) factors)
   / INR (ic x))%R.
(** An item large enough for every scale. *)
Definition large_enough r (factors : list R) (c h w : nat) : Prop :=
  1 <= c /\ 1 <= h /\ 1 <= w /\
  2 * r + 1 <= size_at h (length factors - 1) /\ 2 * r + 1 <= size_at w (length factors - 1).

Definition sum_of (l : list R) : R := fold_right Rplus 0%R l.
Definition mean_of (l : list R) : R := (sum_of l / INR (length l))%R.

(** Mean squared error of two images given as lists of pixel values; PSNR for a positive one. *)
Definition squared_error (x y : list R) : R := sum_of (map (fun p => ((fst p - snd p) ^ 2)%R) (combine x y)).
Definition decibel (peak m : R) : R := (10 * (ln (peak ^ 2 / m) / ln 10))%R.

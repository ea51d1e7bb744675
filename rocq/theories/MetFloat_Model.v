(** The accumulated metrics in float32 (neuralcompression/metrics/_dists.py L75-101,
    _msssim.py L66-85).

    [b32] is IEEE rounding to nearest, ties to even, to single precision with subnormals and
    without overflow (RFloat.v).  A batch is the scores of its images, as the network or the
    functional computes them, with the order in which torch.sum adds them: any binary tree. *)
From Coq Require Import Reals List Arith.
From Verif Require Import Base Tensor RBase RFloat VqbFloat_Model.
Import ListNotations.
Open Scope R_scope.

Record fbatch := mkFb { scores : list R; how : order }.
(** loss.sum() (_dists.py L93); reduction="sum" (_msssim.py L79); the sum of nothing is 0. *)
Definition batch_sum (b : fbatch) : R :=
  match scores b with
  | [] => 0
  | l => fsum (how b) (fun j => nth j l 0)
  end.

(** _dists.py L75-76: both states are float32 scalars. *)
Record dists_fl := mkDf { df_sum : R; df_total : R }.
Definition dists_fl_init : dists_fl := mkDf 0 0.
(** L93-94 (update): the batch size is a Python int, converted to float32 for the addition. *)
Definition dists_fl_update (s : dists_fl) (b : fbatch) : dists_fl :=
  mkDf (b32 (df_sum s + batch_sum b)) (b32 (df_total s + b32 (INR (length (scores b))))).
(** L96-101 (compute), for "mean" and "sum"; 0/0 is NaN in torch, 0 here. *)
Definition dists_fl_mean (s : dists_fl) : R := b32 (df_sum s / df_total s).
Definition dists_fl_sum (s : dists_fl) : R := df_sum s.

(** _msssim.py L66-67: the sum is a float32 scalar, the count an int64 scalar. *)
Record msssim_fl := mkMf { mf_sum : R; mf_total : nat }.
Definition msssim_fl_init : msssim_fl := mkMf 0 0.
(** L69-82 (update) *)
Definition msssim_fl_update (s : msssim_fl) (b : fbatch) : msssim_fl :=
  mkMf (b32 (mf_sum s + batch_sum b)) (mf_total s + length (scores b)).
(** L84-85 (compute): dividing by an integer tensor converts it to float32. *)
Definition msssim_fl_mean (s : msssim_fl) : R := b32 (mf_sum s / b32 (INR (mf_total s))).

Definition dists_fl_run (bs : list fbatch) : dists_fl := fold_left dists_fl_update bs dists_fl_init.
Definition msssim_fl_run (bs : list fbatch) : msssim_fl := fold_left msssim_fl_update bs msssim_fl_init.

(** torchmetrics: dist_reduce_fx="sum" stacks the states of the processes and sums them, in
    an order [t] of the processes. *)
Definition dists_fl_sync (t : order) (states : list dists_fl) : dists_fl :=
  mkDf (fsum t (fun i => df_sum (nth i states dists_fl_init))) (fsum t (fun i => df_total (nth i states dists_fl_init))).
Definition msssim_fl_sync (t : order) (states : list msssim_fl) : msssim_fl :=
  mkMf (fsum t (fun i => mf_sum (nth i states msssim_fl_init))) (list_sum (map mf_total states)).

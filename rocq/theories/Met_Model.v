(** Model of the accumulating metrics in neuralcompression/metrics: _msssim.py, _dists.py,
    _fid.py, _fid_swav.py, _kid.py, and of _calc_psnr.py.  Accumulators are reals.
    The networks (DISTS, Inception, SwAV) and the final statistics (torch-fidelity) are
    parameters; a network in evaluation mode treats the images of a batch one by one. *)
From Coq Require Import String ZArith Arith List Bool Reals.
From Verif Require Import Base Tensor Ssim_Model.
Import ListNotations.
Open Scope nat_scope.

(** _msssim.py L18-85: states score_sum and total, both summed over processes. *)
Record sum_state := mkSum { score_sum : R; total : nat }.
Definition sum_init : sum_state := mkSum 0 0.

Section Msssim.
Variable data_range : R.
Variable window_size : Z.
Variables k1 k2 gaussian_std : R.
Variable power_factors : list R.
(** L69-82 (update) *)
Definition msssim_update (s : sum_state) (batch : tensor R * tensor R) : res sum_state :=
  let '(preds, target) := batch in
  do v <- multiscale_structural_similarity data_range window_size k1 k2 gaussian_std
            preds target power_factors "sum";
  Ok (mkSum (score_sum s + tat v []) (total s + nth 0 (tshape preds) 0)).
Fixpoint msssim_run (s : sum_state) (batches : list (tensor R * tensor R)) : res sum_state :=
  match batches with
  | [] => Ok s
  | b :: bs => do s' <- msssim_update s b; msssim_run s' bs
  end.
End Msssim.
(** L84-85 (compute); 0/0 is NaN in torch, 0 here. *)
Definition sum_compute (s : sum_state) : R := (score_sum s / INR (total s))%R.

(** _dists.py *)
Section Dists.
(** An image, and the score the network gives a pair. *)
Variable image : Type.
Variable dists_net : image -> image -> R.
(** Whether all values are in [0, 1]; an image here has three channels. *)
Variable valid : image -> bool.
Inductive reduction := Mean | Sum.
(** L60-76: the constructor refuses other reductions. *)
Definition dists_new (red : string) : res (reduction * sum_state) :=
  if String.eqb red "mean" then Ok (Mean, sum_init)
  else if String.eqb red "sum" then Ok (Sum, sum_init)
  else Raise ValueError.
(** L78-95 (update) on a batch of pairs; an empty batch has no maximum. *)
Definition dists_update (s : sum_state) (batch : list (image * image)) : res sum_state :=
  match batch with
  | [] => Raise RuntimeError
  | _ =>
      if forallb (fun p => valid (fst p) && valid (snd p)) batch
      then Ok (mkSum (score_sum s + fold_right Rplus 0%R (map (fun p => dists_net (fst p) (snd p)) batch))
                     (total s + length batch))
      else Raise ValueError
  end.
Fixpoint dists_run (s : sum_state) (batches : list (list (image * image))) : res sum_state :=
  match batches with
  | [] => Ok s
  | b :: bs => do s' <- dists_update s b; dists_run s' bs
  end.
(** L96-101 (compute) *)
Definition dists_compute (red : reduction) (s : sum_state) : R :=
  match red with Mean => sum_compute s | Sum => score_sum s end.
End Dists.

(** torchmetrics: synchronising "sum" states over processes adds them. *)
Definition sum_sync (states : list sum_state) : sum_state :=
  mkSum (fold_right Rplus 0%R (map score_sum states)) (fold_right Nat.add 0 (map total states)).

(** _fid.py, _fid_swav.py, _kid.py: lists of feature batches.  After synchronisation
    torchmetrics stores the concatenated tensor itself if dist_reduce_fx is "cat", and the
    list of tensors if it is None. *)
Section Features.
Variable image feature : Type.
Variable backbone : image -> feature.
Inductive fstate := FList (l : list (list feature)) | FTensor (t : list feature).
Record feat_state := mkFeat { real_features : fstate; fake_features : fstate }.
Definition feat_init : feat_state := mkFeat (FList []) (FList []).
Definition fappend (f : fstate) (x : list feature) : res fstate :=
  match f with
  | FList l => Ok (FList (l ++ [x]))
  | FTensor _ => Raise AttributeError
  end.
(** torch.cat(self.real_features): RuntimeError for an empty list, TypeError for a tensor. *)
Definition fcat (f : fstate) : res (list feature) :=
  match f with
  | FList [] => Raise RuntimeError
  | FList l => Ok (concat l)
  | FTensor _ => Raise TypeError
  end.
(** _fid.py L80-89, _fid_swav.py L96-106, _kid.py L77-84 (update).
    Preprocessing (_fid.py and _kid.py (imgs * 255).byte() with normalize, the ImageNet
    normalisation of _fid_swav.py) works image by image and is part of [backbone]. *)
Definition feat_update (s : feat_state) (call : list image * bool) : res feat_state :=
  let '(imgs, real) := call in
  let features := map backbone imgs in
  if real then do r <- fappend (real_features s) features; Ok (mkFeat r (fake_features s))
  else do f <- fappend (fake_features s) features; Ok (mkFeat (real_features s) f).
Fixpoint feat_run (s : feat_state) (calls : list (list image * bool)) : res feat_state :=
  match calls with
  | [] => Ok s
  | c :: cs => do s' <- feat_update s c; feat_run s' cs
  end.
(** _fid.py L54-63: the constructor refuses other feature sizes. *)
Definition fid_new (feat : Z) : res feat_state :=
  if existsb (Z.eqb feat) [64; 192; 768; 2048]%Z then Ok feat_init else Raise ValueError.
Section Compute.
Variable result : Type.
(** torch-fidelity: fid_features_to_statistics and fid_statistics_to_metric. *)
Variable fid_metric : list feature -> list feature -> result.
(** _fid.py L91-95, _fid_swav.py L108-112 *)
Definition fid_compute (s : feat_state) : res result :=
  do r <- fcat (real_features s); do f <- fcat (fake_features s); Ok (fid_metric r f).
(** torch-fidelity: kid_features_to_metric, with its keyword arguments. *)
Record kid_params := mkKid { subsets : Z; subset_size : Z; degree : Z; gamma : option R; coef : R }.
Variable kid_metric : kid_params -> list feature -> list feature -> result.
(** torch-fidelity's defaults *)
Definition kid_defaults : kid_params := mkKid 100 1000 3 None 1.
(** _kid.py L86-94 (compute): the constructor's parameters [own] are not passed on. *)
Definition kid_compute (own : kid_params) (s : feat_state) : res result :=
  do r <- fcat (real_features s); do f <- fcat (fake_features s); Ok (kid_metric kid_defaults r f).
End Compute.
(** Synchronisation over processes. *)
Definition flists (f : fstate) : list (list feature) :=
  match f with FList l => l | FTensor t => [t] end.
Definition fsync_cat (fs : list fstate) : fstate :=
  match concat (map flists fs) with
  | [] => FList []
  | l => FTensor (concat l)
  end.
(** every process first concatenates its own list; the tensors are gathered in a list *)
Definition fsync_none (fs : list fstate) : fstate :=
  FList (map (fun f => concat (flists f)) (filter (fun f => match flists f with [] => false | _ => true end) fs)).
Definition feat_sync (reduce : list fstate -> fstate) (states : list feat_state) : feat_state :=
  mkFeat (reduce (map real_features states)) (reduce (map fake_features states)).
End Features.
Arguments FList {feature}.
Arguments FTensor {feature}.
Arguments mkFeat {feature}.
Arguments real_features {feature}.
Arguments fake_features {feature}.
Arguments feat_init {feature}.

(** _calc_psnr.py.  Infinite results are [PInf]. *)
Inductive xreal := Fin (r : R) | PInf.
Definition log10 (x : R) : R := (ln x / ln 10)%R.
(** torch.mean((image - reference) ** 2) over the pixel values *)
Definition mse (image reference : list R) : R :=
  (fold_right Rplus 0 (map (fun p => (fst p - snd p) ^ 2) (combine image reference)) / INR (length image))%R.
(** L13-27 (calc_psnr) on float tensors of one shape: math.log10 of a number that is not
    positive is a ValueError; log10 of a zero error is -inf. *)
Definition psnr_of_mse (m data_range : R) : res xreal :=
  if Rlt_dec 0 data_range then
    if Rlt_dec 0 m then Ok (Fin (20 * log10 data_range - 10 * log10 m)) else Ok PInf
  else Raise ValueError.
Definition calc_psnr (image reference : list R) (data_range : R) : res xreal :=
  psnr_of_mse (mse image reference) data_range.
(** L30-45 (calc_psnr_numpy) on uint8 arrays: differences and squares wrap modulo 256. *)
Definition mse_uint8 (image reference : list Z) : R :=
  (fold_right Rplus 0 (map (fun p => IZR (u8 (u8 (fst p - snd p) * u8 (fst p - snd p)))) (combine image reference))
   / INR (length image))%R.
Definition calc_psnr_numpy_uint8 (image reference : list Z) (data_range : R) : res xreal :=
  psnr_of_mse (mse_uint8 image reference) data_range.

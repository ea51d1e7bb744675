(** Model of the distortion losses: neuralcompression/loss_fn/_mse_loss.py, _mse_lpips_loss.py and
    _normfix_lpips.py, and of neuralcompression/functional/_lpips.py.

    Simplifications: real numbers; batches are lists of images of one size (PyTorch's broadcasting of other
    sizes is not modelled); spatial=True of the LPIPS model is not modelled. *)
From Coq Require Import String Arith List Bool Reals Lra Lia.
From Verif Require Import Base Tensor.
Import ListNotations.
Open Scope string_scope.
Open Scope list_scope.
Open Scope R_scope.

(** (channel, row, column) *)
Definition image := nat -> nat -> nat -> R.
Definition sum3 (C H W : nat) (f : nat -> nat -> nat -> R) : R := rsum C (fun c => rsum H (fun y => rsum W (fun x => f c y x))).
Definition sumL (l : list R) : R := fold_right Rplus 0 l.
Definition meanL (l : list R) : R := sumL l / INR (length l).

(** torch.nn.functional.mse_loss with the default reduction: the mean over all entries *)
Definition mse_loss (C H W : nat) (a b : list image) : R :=
  sumL (map (fun p : image * image => sum3 C H W (fun c y x => (fst p c y x - snd p c y x) ^ 2)) (combine a b)) / INR (length (combine a b) * (C * (H * W))).

(** _mse_loss.py L26-39 *)
Record MSELoss := mkMSE { scale_param : R }.
Definition MSELoss_new : MSELoss := mkMSE (255 ^ 2).
Definition MSELoss_call (l : MSELoss) (C H W : nat) (img reference : list image) : R := scale_param l * mse_loss C H W img reference.

(** _normfix_lpips.py L11-13, at one place of the picture *)
Definition eps_default : R := / 100000000.
Definition normalize_tensor (C : nat) (x : nat -> R) (c : nat) : R := x c / sqrt (rsum C (fun c => x c ^ 2 + eps_default)).

(** An LPIPS model: its number of layers; whether it is calibrated; whether its version is "0.1"; its
    scaling layer; its backbone, from an image to the features of each layer; the channels, rows and columns
    of the features; the weights of the calibrating 1x1 convolutions (without bias), before which there is a
    dropout layer; what that multiplies by in training mode; and the mode. *)
Record lpips_model := mkLP {
  L : nat; calibrated : bool; version01 : bool; scaling : image -> image; net : image -> nat -> image;
  FC : nat -> nat; FH : nat -> nat; FW : nat -> nat; weight : nat -> nat -> R; drop : nat -> image; training : bool }.
(** L33-35: train(mode) is eval() *)
Definition NormFix_train (m : lpips_model) (mode : bool) : lpips_model :=
  mkLP (L m) (calibrated m) (version01 m) (scaling m) (net m) (FC m) (FH m) (FW m) (weight m) (drop m) false.

(** L38-42 *)
Definition rescale (normalize : bool) (i : image) : image := if normalize then (fun c y x => 2 * i c y x - 1) else i.
(** L45-49 *)
Definition input (m : lpips_model) (i : image) : image := if version01 m then scaling m i else i.
(** L53-57: squared differences of normalised features of layer k *)
Definition diff (m : lpips_model) (o0 o1 : nat -> image) (k : nat) : image :=
  fun c y x => (normalize_tensor (FC m k) (fun c => o0 k c y x) c - normalize_tensor (FC m k) (fun c => o1 k c y x) c) ^ 2.
(** L66-68, L76-78: lins[k], or the sum over channels *)
Definition combined (m : lpips_model) (k : nat) (d : image) (y x : nat) : R :=
  if calibrated m then rsum (FC m k) (fun c => weight m k c * (if training m then drop m k c y x * d c y x else d c y x))
  else rsum (FC m k) (fun c => d c y x).
(** lpips.spatial_average *)
Definition spatial_average (H W : nat) (f : nat -> nat -> R) : R := rsum H (fun y => rsum W (fun x => f y x)) / INR (H * W).
(** L51-82, for one pair of images: the values of the layers *)
Definition per_layer (m : lpips_model) (normalize : bool) (in0 in1 : image) : list R :=
  let o0 := net m (input m (rescale normalize in0)) in
  let o1 := net m (input m (rescale normalize in1)) in
  map (fun k => spatial_average (FH m k) (FW m k) (combined m k (diff m o0 o1 k))) (seq 0 (L m)).
(** L80-87: the value, and the layers' with retPerLayer *)
Definition NormFix_forward (m : lpips_model) (normalize : bool) (in0 in1 : image) : R * list R :=
  let res := per_layer m normalize in0 in1 in (fold_left (fun val r => val + r) res 0, res).

(** _mse_lpips_loss.py L32-45 *)
Record MSELPIPSLoss := mkML { mse_param : R; lpips_param : R; normalize : bool; lpips_model_of : lpips_model; loss_training : bool }.
Definition MSELPIPSLoss_new (m : lpips_model) : MSELPIPSLoss := mkML (255 ^ 2) 1 true (NormFix_train m false) true.
(** nn.Module.train of the loss: its own mode and train(mode) of its children *)
Definition MSELPIPS_train (l : MSELPIPSLoss) (mode : bool) : MSELPIPSLoss := mkML (mse_param l) (lpips_param l) (normalize l) (NormFix_train (lpips_model_of l) mode) mode.
(** ... of the model alone *)
Definition MSELPIPS_train_model (l : MSELPIPSLoss) (mode : bool) : MSELPIPSLoss := mkML (mse_param l) (lpips_param l) (normalize l) (NormFix_train (lpips_model_of l) mode) (loss_training l).
(** L57-61 *)
Definition MSELPIPS_call (l : MSELPIPSLoss) (C H W : nat) (img reference : list image) : R :=
  mse_param l * mse_loss C H W img reference
  + lpips_param l * meanL (map (fun p : image * image => fst (NormFix_forward (lpips_model_of l) (normalize l) (fst p) (snd p))) (combine img reference)).
(** train or eval of the loss, or of its model *)
Inductive mode_op := TrainLoss (b : bool) | TrainModel (b : bool).
Definition mode_step (l : MSELPIPSLoss) (o : mode_op) : MSELPIPSLoss := match o with TrainLoss b => MSELPIPS_train l b | TrainModel b => MSELPIPS_train_model l b end.

(** ** functional/_lpips.py L29-94; score is the LPIPS package's model (base network, version, calibration) on
    one pair.  _get_reduction_op: _multiscale_structural_similarity.py L39-47 *)
Definition get_reduction_op (reduction : string) : res (list R -> list R) :=
  if (reduction =? "mean")%string then Ok (fun l => [meanL l])
  else if (reduction =? "sum")%string then Ok (fun l => [sumL l])
  else if (reduction =? "none")%string then Ok (fun l => l)
  else Raise ValueError.
Definition lpips (score : string -> string -> bool -> bool -> image -> image -> R) (preds target : list image)
    (base_network : string) (use_linear_calibration : bool) (linear_weights_version : string) (normalize : bool) (reduction : string) : res (list R) :=
  if negb (existsb (String.eqb base_network) ["alex"; "vgg"; "squeeze"]) then Raise ValueError
  else if negb (existsb (String.eqb linear_weights_version) ["0.0"; "0.1"]) then Raise ValueError
  else
    let outputs := map (fun p : image * image => score base_network linear_weights_version use_linear_calibration normalize (fst p) (snd p)) (combine preds target) in
    do op <- get_reduction_op reduction;
    Ok (op outputs).

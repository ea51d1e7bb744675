(** Model of neuralcompression/functional/_multiscale_structural_similarity.py.
    Floating-point numbers are reals; a batch is a tensor of shape [b; c; h; w]. *)
From Coq Require Import String ZArith Arith List Bool Reals Lia.
From Verif Require Import Base Tensor Net_Model.
Import ListNotations.
Open Scope nat_scope.

(** _multiscale_structural_similarity.py L15-36 (_gaussian_window): ValueError for a
    window that is not positive and odd. *)
Definition gaussian_window (window_size : Z) (std : R) : res (tensor R) :=
  if ((window_size <=? 0) || (window_size mod 2 =? 0))%Z then Raise ValueError
  else
    let n := Z.to_nat window_size in
    let p := fun i => exp (- (1/2) * (IZR (Z.of_nat i - window_size / 2) / std) ^ 2) in
    let normalized := fun i => (p i / rsum n p)%R in
    Ok (mkT [1; 1; n; n]
          (fun idx => match idx with
                      | [_; _; u; v] => (normalized u * normalized v)%R
                      | _ => 0%R
                      end)).

(** Elementwise operations of two tensors.  Simplification: torch would broadcast a
    dimension of size 1; the model refuses different shapes. *)
Definition zip_with (f : R -> R -> R) (x y : tensor R) : res (tensor R) :=
  if list_eq_dec Nat.eq_dec (tshape x) (tshape y)
  then Ok (mkT (tshape x) (fun i => f (tat x i) (tat y i)))
  else Raise RuntimeError.

(** x.view(batch_size, -1).mean(dim=1) of a tensor of shape [b; 1; h; w], L111-112. *)
Definition image_mean (x : tensor R) : tensor R :=
  match tshape x with
  | [b; _; h; w] =>
      mkT [b] (fun idx => match idx with
                          | [k] => (rsum h (fun i => rsum w (fun j => tat x [k; 0; i; j]%nat)) / INR (h * w))%R
                          | _ => 0%R
                          end)
  | s => mkT s (tat x)
  end.

(** torch.stack: RuntimeError for an empty list or different shapes. *)
Definition stack (l : list (tensor R)) : res (tensor R) :=
  match l with
  | [] => Raise RuntimeError
  | t :: _ =>
      if forallb (fun u => if list_eq_dec Nat.eq_dec (tshape u) (tshape t) then true else false) l
      then Ok (mkT (length l :: tshape t)
                 (fun idx => match idx with
                             | k :: i => tat (nth k l t) i
                             | [] => 0%R
                             end))
      else Raise RuntimeError
  end.

(** x[:, i:i+1] *)
Definition channel (x : tensor R) (i : nat) : res (tensor R) :=
  match tshape x with
  | [b; c; h; w] =>
      Ok (mkT [b; Nat.min 1 (c - i); h; w]
            (fun idx => match idx with
                        | [b; k; y; x'] => tat x [b; i + k; y; x']
                        | _ => 0%R
                        end))
  | _ => Raise IndexError
  end.

Section Params.
Variable data_range : R.
Variable window_size : Z.
Variables k1 k2 gaussian_std : R.

(** L50-114 (_ssim_single_channel).  A division by zero, which needs a zero [data_range],
    [k1] or [k2], is NaN in torch and 0 here. *)
Definition ssim_single_channel (x y : tensor R) : res (tensor R) :=
  do window <- gaussian_window window_size gaussian_std;
  let c1 := ((k1 * data_range) ^ 2)%R in
  let c2 := ((k2 * data_range) ^ 2)%R in
  do ux <- conv2d x window 1;
  do uy <- conv2d y window 1;
  do xx <- zip_with Rmult x x;
  do uxx <- conv2d xx window 1;
  do yy <- zip_with Rmult y y;
  do uyy <- conv2d yy window 1;
  do xy <- zip_with Rmult x y;
  do uxy <- conv2d xy window 1;
  do ux2 <- zip_with Rmult ux ux;
  do vx <- zip_with Rminus uxx ux2;
  do uy2 <- zip_with Rmult uy uy;
  do vy <- zip_with Rminus uyy uy2;
  do uxuy <- zip_with Rmult ux uy;
  do vxy <- zip_with Rminus uxy uxuy;
  do a1 <- zip_with (fun a b => 2 * a * b + c1)%R ux uy;
  let a2 := mkT (tshape vxy) (fun i => 2 * tat vxy i + c2)%R in
  do b1 <- zip_with (fun a b => a ^ 2 + b ^ 2 + c1)%R ux uy;
  do b2 <- zip_with (fun a b => a + b + c2)%R vx vy;
  do luminance <- zip_with Rdiv a1 b1;
  do contrast_structure <- zip_with Rdiv a2 b2;
  do lcs <- zip_with Rmult luminance contrast_structure;
  stack [image_mean lcs; image_mean contrast_structure].

(** L117-164 (_ssim_multichannel) *)
Definition ssim_multichannel (x y : tensor R) : res (tensor R) :=
  do l <- mapM (fun i => do xi <- channel x i;
                         do yi <- channel y i;
                         ssim_single_channel xi yi) (seq 0 (nth 1 (tshape x) 0));
  stack l.

(** L167-189 (_pad_and_downsample) *)
Definition pad_and_downsample (x : tensor R) : res (tensor R) :=
  match tshape x with
  | [b; c; h; w] =>
      do padded <- pad2 0%R Replicate x 0 (w mod 2) 0 (h mod 2);
      avg_pool2 padded
  | _ => Raise IndexError
  end.

(** F.relu(x).pow(p), L250-264.  A negative power of zero is infinite in torch, 0 here. *)
Definition relu_pow (p x : R) : R :=
  if Rlt_dec 0 x then Rpower x p
  else if Req_EM_T p 0 then 1%R else 0%R.

(** L237-264: the loop over the scales; [first] says scale == 0. *)
Fixpoint scale_loop (first : bool) (preds target : tensor R) (power_factors : list R)
  : res (list (tensor R)) :=
  match power_factors with
  | [] => Ok []
  | p :: ps =>
      do preds <- (if first then Ok preds else pad_and_downsample preds);
      do target <- (if first then Ok target else pad_and_downsample target);
      match tshape preds with
      | [_; _; h; w] =>
          if ((Z.of_nat h <? window_size) || (Z.of_nat w <? window_size))%Z
          then Raise RuntimeError
          else
            do s <- ssim_multichannel preds target;
            do rest <- scale_loop false preds target ps;
            Ok (mkT (tshape s) (fun i => relu_pow p (tat s i)) :: rest)
      | _ => Raise IndexError
      end
  end.

(** L39-47 (_get_reduction_op) applied to a vector of shape [b]; the mean of an empty
    vector is NaN in torch and 0 here. *)
Definition reduce (reduction : string) (v : tensor R) : res (tensor R) :=
  let b := nth 0 (tshape v) 0 in
  if String.eqb reduction "mean" then Ok (mkT [] (fun _ => rsum b (fun k => tat v [k]) / INR b)%R)
  else if String.eqb reduction "sum" then Ok (mkT [] (fun _ => rsum b (fun k => tat v [k])))
  else if String.eqb reduction "none" then Ok v
  else Raise ValueError.

(** L192-276 (multiscale_structural_similarity) *)
Definition multiscale_structural_similarity (preds target : tensor R) (power_factors : list R)
    (reduction : string) : res (tensor R) :=
  do scale_outputs <- scale_loop true preds target power_factors;
  do weighted <- stack scale_outputs;
  let n := length scale_outputs in
  let c := nth 1 (tshape weighted) 0 in
  let b := nth 3 (tshape weighted) 0 in
  let ms_ssim := fun ch k =>
    (tat weighted [n - 1; ch; 0; k]%nat
     * fold_right Rmult 1 (map (fun s => tat weighted [s; ch; 1; k]%nat) (seq 0%nat (n - 1)%nat)))%R in
  reduce reduction
    (mkT [b] (fun idx => match idx with
                         | [k] => (rsum c (fun ch => ms_ssim ch k) / INR c)%R
                         | _ => 0%R
                         end)).
End Params.

(** L12: the default factors. *)
Definition MS_SSIM_FACTORS : list R :=
  [448/10000; 2856/10000; 3001/10000; 2363/10000; 1333/10000]%R.

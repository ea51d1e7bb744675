(** Model of projects/illm/eval_folder_example.py: the rate and the quality of a compression model over
    the PNG files of a folder.

    Images are float32 tensors of finite values; the conversion to bytes and the rates are rounded as
    in float32 and float64, the other averages are taken in the reals.  The compression model and the
    LPIPS network are parameters (they may raise); the metric FID is the list of its updates (the
    statistics of torchmetrics are not modelled).  Calling a metric of torchmetrics on a pair of images
    (forward) accumulates as update does.  CUDA, the progress bar and the printing of the results
    are left out: the results are returned. *)
From Coq Require Import String ZArith Arith List Bool Reals.
From Verif Require Import Base RBase RFloat Tensor Ssim_Model Met_Model Fid_Model Gsn_Model Pickle_Model ClicImg_Model.
Import ListNotations.
Open Scope nat_scope.
Open Scope list_scope.

(** L27-34 (rescale_image) on float32 values with back_to_float=True: image * 255 + 0.5 in float32,
    truncated and reduced to 8 bits by .to(torch.uint8); .to(float32) is exact on bytes. *)
Definition rescale_value (x : R) : R := IZR (u8 (Rtrunc (b32 (b32 (x * 255) + 1 / 2)))).
Definition rescale_image (image : tensor R) : tensor R := mkT (tshape image) (fun i => rescale_value (tat image i)).

(** An entry of the folder: another folder, a file PIL cannot read, or a picture of height h and width w,
    given by its bytes by channel, row and column after convert("RGB"). *)
Inductive entry := Folder | Unreadable | Picture (h w : nat) (bytes : nat -> nat -> nat -> Z).

(** L62-64: open() of a folder is an IsADirectoryError, Image.open of another file an
    UnidentifiedImageError; both are OSErrors. *)
Definition read (e : entry) : res (nat * nat * (nat -> nat -> nat -> Z)) :=
  match e with Folder => Raise OSError | Unreadable => Raise OSError | Picture h w b => Ok (h, w, b) end.
(** L66: ToTensor divides the bytes by 255 in float32; unsqueeze(0) *)
Definition totensor (h w : nat) (b : nat -> nat -> nat -> Z) : tensor R :=
  mkT [1; 3; h; w] (fun idx => match idx with [_; c; y; x] => b32 (IZR (b c y x) / 255) | _ => 0%R end).
(** Tensor.clamp(0.0, 1.0) *)
Definition clamp01 (t : tensor R) : tensor R := mkT (tshape t) (fun i => Rmin (Rmax (tat t i) 0) 1).
Definition values (t : tensor R) : list R := map (fun q => tat t (unravel (tshape t) q)) (seq 0 (prod (tshape t))).

Section Eval.
Variable compress : tensor R -> res val.
Variable decompress : val -> res (tensor R).
Variable lpips : tensor R -> tensor R -> res R.

Record run := mkRun { psnr_vals : list xreal; bpp_vals : list R; msssim : sum_state; lpips_sum : sum_state; fid_metric : metrics }.
(** L54-59 *)
Definition start : run := mkRun [] [] sum_init sum_init (mkMetrics (Some []) None None).
(** L62-88, one file.  Python's division of integers rounds correctly to float64.  The difference
    of images of two shapes is an error (broadcasting over the batch or the channels is not modelled). *)
Definition process (s : run) (e : entry) : res run :=
  do p <- read e;
  let '(h, w, b) := p in
  let image := totensor h w b in
  do compressed <- compress image;
  do out <- decompress compressed;
  let decompressed := clamp01 out in
  let num_bytes := pickle_size_of compressed in
  do bpp <- (if Nat.eqb (1 * h * w) 0 then Raise ZeroDivisionError
             else Ok (b64 (IZR (num_bytes * 8) / IZR (Z.of_nat (1 * h * w)))));
  let '(fm, count) := update_patch_fid image decompressed (fid_metric s) 256 in
  do _ <- count;
  let orig_image := rescale_image image in
  let pred_image := rescale_image decompressed in
  do psnr <- (if list_eq_dec Nat.eq_dec (tshape pred_image) (tshape orig_image)
              then calc_psnr (values pred_image) (values orig_image) 255 else Raise RuntimeError);
  do ms <- msssim_update 255 11 0.01 0.03 1.5 MS_SSIM_FACTORS (msssim s) (pred_image, orig_image);
  do lp <- lpips decompressed image;
  Ok (mkRun (psnr_vals s ++ [psnr]) (bpp_vals s ++ [bpp]) ms
            (mkSum (score_sum (lpips_sum s) + lp) (total (lpips_sum s) + nth 0 (tshape decompressed) 0)) fm).
Fixpoint process_all (s : run) (es : list entry) : res run :=
  match es with [] => Ok s | e :: r => do s' <- process s e; process_all s' r end.

(** L61: Path.glob("*.png") lists the entries of the folder whose names end in .png, in the order of the
    operating system; upper and lower case differ, hidden files are not left out. *)
Definition glob_png (dir : list (string * entry)) : list entry :=
  map snd (filter (fun f => ends_with ".png" (fst f)) dir).

(** L90: sum() of a list of floats adds from left to right, starting at 0 (Python before 3.12). *)
Definition py_sum (l : list R) : R := fold_left (fun a x => b64 (a + x)) l 0%R.
(** L91: the same for numbers that may be infinite, without rounding *)
Definition xadd (a b : xreal) : xreal := match a, b with Fin x, Fin y => Fin (x + y) | _, _ => PInf end.
Definition xdiv (a : xreal) (n : nat) : xreal := match a with Fin x => Fin (x / INR n) | PInf => PInf end.

Record report := mkReport { rate : R; psnr_total : xreal; msssim_total : R; lpips_total : R; fid_updates : metrics }.
(** torchmetrics: compute() of the FID needs two images of each kind. *)
Definition seen (kind : bool) (m : metrics) : nat :=
  match fid m with
  | Some l => fold_right (fun u n => (if Bool.eqb (snd u) kind then nth 0 (tshape (fst u)) 0 else 0) + n) 0 l
  | None => 0
  end.
(** L90-94: division by len() of an empty list is a ZeroDivisionError *)
Definition totals (s : run) : res report :=
  if Nat.eqb (length (bpp_vals s)) 0 then Raise ZeroDivisionError
  else if Nat.ltb (seen true (fid_metric s)) 2 || Nat.ltb (seen false (fid_metric s)) 2 then Raise RuntimeError
  else Ok (mkReport (b64 (py_sum (bpp_vals s) / INR (length (bpp_vals s))))
                    (xdiv (fold_left xadd (psnr_vals s) (Fin 0)) (length (psnr_vals s)))
                    (sum_compute (msssim s)) (sum_compute (lpips_sum s)) (fid_metric s)).
Definition main (dir : list (string * entry)) : res report := do s <- process_all start (glob_png dir); totals s.
End Eval.

(** Model of the training and validation steps of projects/deep_video_compression/dvc_module.py and
    of the image logger of projects/deep_video_compression/train.py.

    Images, weights and quantiles are arbitrary; the losses of a pair of images are an arbitrary
    function of weights, quantiles and images. A gradient is the list of losses that were
    differentiated since the last zero_grad; both losses are taken to reach both sets of parameters.

    Simplifications: a batch of clips is a list of frames, each a batch of images; the learning rate
    schedule and clipping are part of the optimisers' step. *)
From Coq Require Import String Reals List Bool Arith Lia.
From Verif Require Import Base.
Import ListNotations.
Open Scope string_scope.
Open Scope list_scope.
Open Scope nat_scope.

(** _utils.py L20-23 (LossValues) *)
Record losses := mkL { distortion : R; flow_entropy : option R; resid_entropy : option R }.
(** dvc_module.py L34-39 (LoggingMetrics) *)
Record metrics := mkG { g_total : R; g_distortion : R; g_bpp : R; g_flow : option R; g_resid : option R }.

(** dvc_module.py L153-189 (compute_loss_and_metrics). A bpp of None can only be added to if the loss
    is there again; Python would raise TypeError. *)
Definition compute_loss_and_metrics (l : losses) (m : metrics) : res (R * metrics) :=
  let loss := distortion l in
  let gd := (g_distortion m + distortion l)%R in
  do r1 <- match flow_entropy l with
           | Some f => match g_flow m with
                       | Some gf => Ok ((loss + f)%R, (0 + f)%R, Some (gf + f)%R)
                       | None => Raise TypeError
                       end
           | None => Ok (loss, 0%R, None)
           end;
  let '(loss, combined, gf) := r1 in
  do r2 <- match resid_entropy l with
           | Some f => match g_resid m with
                       | Some gr => Ok ((loss + f)%R, (combined + f)%R, Some (gr + f)%R)
                       | None => Raise TypeError
                       end
           | None => Ok (loss, combined, None)
           end;
  let '(loss, combined, gr) := r2 in
  Ok (loss, mkG (g_total m + loss) gd (g_bpp m + combined) gf gr).

Definition logs := list (string * R).
(** dvc_module.py L191-210 (log_all_metrics); [psnr] is the value of the metric *)
Definition log_all_metrics (key : string) (reduction : R) (psnr : R) (m : metrics) : logs :=
  [((key ++ "gop_loss")%string, (g_total m / reduction)%R);
   ((key ++ "gop_distortion_loss")%string, (g_distortion m / reduction)%R);
   ((key ++ "gop_bpp")%string, (g_bpp m / reduction)%R)]
  ++ (match g_flow m with Some f => [((key ++ "gop_flow_bpp")%string, (f / reduction)%R)] | None => [] end)
  ++ (match g_resid m with Some f => [((key ++ "gop_residual_bpp")%string, (f / reduction)%R)] | None => [] end)
  ++ [((key ++ "psnr")%string, psnr)].

Section Steps.
Variables image weights quants : Type.
(** the I-frame model: reconstruction and bits per pixel (L137-151) *)
Variable iframe : image -> image * R.
(** compute_batch_loss of the stage: losses and estimate of the second image *)
Variable compute_batch_loss : weights -> quants -> image -> image -> losses * image.
(** quantile_loss of the stage *)
Variable quantile_loss : weights -> quants -> R.
Variable psnr : list image -> list image -> R.
(** A differentiated loss: with which parameters and images it was computed. *)
Inductive diff := Main (w : weights) (q : quants) (x y : image) | Aux (w : weights) (q : quants).
(** the optimisers' step *)
Variable step1 : weights -> list diff -> weights.
Variable step2 : quants -> list diff -> quants.
Record state := mkS { s_w : weights; s_q : quants; s_g1 : list diff; s_g2 : list diff }.
Definition zero_grad1 (s : state) : state := mkS (s_w s) (s_q s) [] (s_g2 s).
Definition zero_grad2 (s : state) : state := mkS (s_w s) (s_q s) (s_g1 s) [].
Definition backward (d : diff) (s : state) : state := mkS (s_w s) (s_q s) (s_g1 s ++ [d]) (s_g2 s ++ [d]).
Definition opt1_step (s : state) : state := mkS (step1 (s_w s) (s_g1 s)) (s_q s) (s_g1 s) (s_g2 s).
Definition opt2_step (s : state) : state := mkS (s_w s) (step2 (s_q s) (s_g2 s)) (s_g1 s) (s_g2 s).

(** batch[:, i] *)
Definition frame (batch : list image) (i : nat) : res image :=
  match nth_error batch i with Some x => Ok x | None => Raise IndexError end.
(** L137-151 (compress_iframe): the first frame of the batch is replaced in place *)
Definition compress_iframe (batch : list image) : res (list image * R) :=
  match batch with
  | [] => Raise IndexError
  | x :: r => let '(xh, bpp) := iframe x in Ok (xh :: r, bpp)
  end.

Record acc := mkA { a_state : state; a_image1 : image; a_metrics : metrics; a_loss : option R; a_im2 : list image; a_est : list image }.
(** L237-257: one P-frame of training *)
Definition train_pframe (batch : list image) (a : acc) (i : nat) : res acc :=
  let s := zero_grad1 (a_state a) in
  do image2 <- frame batch (i + 1);
  let '(lv, est) := compute_batch_loss (s_w s) (s_q s) (a_image1 a) image2 in
  do lm <- compute_loss_and_metrics lv (a_metrics a);
  let s := backward (Main (s_w s) (s_q s) (a_image1 a) image2) s in
  Ok (mkA (opt1_step s) est (snd lm) (Some (fst lm)) (a_im2 a ++ [image2]) (a_est a ++ [est])).
(** L293-306: one P-frame of validation *)
Definition val_pframe (batch : list image) (a : acc) (i : nat) : res acc :=
  let s := a_state a in
  do image2 <- frame batch (i + 1);
  let '(lv, est) := compute_batch_loss (s_w s) (s_q s) (a_image1 a) image2 in
  do lm <- compute_loss_and_metrics lv (a_metrics a);
  Ok (mkA s est (snd lm) (Some (fst lm)) (a_im2 a ++ [image2]) (a_est a ++ [est])).
Fixpoint loop (body : acc -> nat -> res acc) (a : acc) (is : list nat) : res acc :=
  match is with [] => Ok a | i :: r => do a' <- body a i; loop body a' r end.

(** L212-276 (training_step); [two] says whether there is an optimiser of the quantiles. Without
    P-frames torch.cat fails. *)
Definition training_step (stage : string) (two : bool) (num_pframes : nat) (batch : list image) (s : state) : res (state * logs) :=
  let key := (stage ++ "/train_")%string in
  do b <- compress_iframe batch;
  let '(batch, iframe_bpp) := b in
  do image1 <- frame batch 0;
  do a <- loop (train_pframe batch) (mkA s image1 (mkG 0 0 iframe_bpp (Some 0%R) (Some 0%R)) None [] []) (seq 0 num_pframes);
  if Nat.eqb num_pframes 0 then Raise RuntimeError
  else
    let lg := log_all_metrics key (INR (num_pframes + 1)) (psnr (a_im2 a) (a_est a)) (a_metrics a) in
    let s := a_state a in
    if two then
      let s := zero_grad2 s in
      let aux := quantile_loss (s_w s) (s_q s) in
      let s := backward (Aux (s_w s) (s_q s)) s in
      Ok (opt2_step s, (lg ++ [((key ++ "quantile_loss")%string, aux)])%list)
    else Ok (s, lg).
(** L278-312 (validation_step). Without P-frames the variable loss is unbound (UnboundLocalError, here
    RuntimeError). *)
Definition validation_step (stage : string) (num_pframes : nat) (batch : list image) (s : state) : res logs :=
  let key := (stage ++ "/val_")%string in
  do b <- compress_iframe batch;
  let '(batch, gop_bpp) := b in
  do image1 <- frame batch 0;
  do a <- loop (val_pframe batch) (mkA s image1 (mkG 0 0 0 (Some 0%R) (Some 0%R)) None [] []) (seq 0 num_pframes);
  match a_loss a with
  | None => Raise RuntimeError
  | Some loss =>
      Ok ([("val_loss", loss)] ++ log_all_metrics key (INR (num_pframes + 1)) (psnr (a_im2 a) (a_est a)) (a_metrics a))%list
  end.

(** train.py L65-82 (on_validation_end): the images logged (first, second and estimate of each pair),
    and the logger's batch afterwards. [same] says whether .to(device, dtype) returns the same tensor. *)
Fixpoint logged (w : weights) (q : quants) (image1 : image) (rest : list image) (n : nat) : res (list (image * image * image)) :=
  match n with
  | 0 => Ok []
  | S k => match rest with
           | [] => Raise IndexError
           | image2 :: r =>
               let est := snd (compute_batch_loss w q image1 image2) in
               do l <- logged w q est r k; Ok ((image1, image2, est) :: l)
           end
  end.
Definition on_validation_end (same : bool) (num_pframes : nat) (s : state) (own : list image) : res (list (image * image * image) * list image) :=
  do b <- compress_iframe own;
  let own' := if same then fst b else own in
  do image1 <- frame (fst b) 0;
  do l <- logged (s_w s) (s_q s) image1 (tl (fst b)) num_pframes;
  Ok (l, own').
End Steps.

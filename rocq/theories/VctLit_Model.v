(** Model of projects/torch_vct/model_lightning.py (VCTModule) and of the mode of the pipeline in
    projects/torch_vct/model_pipeline.py (forward, compute_rate, compress_video).

    A video is its shape and, per scene, what the networks give for it: likelihoods of the latent
    (in training or evaluation mode) and the number of bits of its strings; the distortion is that of
    arbitrary reconstructions.

    Simplifications: numbers are real; likelihoods are positive; the networks are functions of the
    video and the mode (their parameters do not change); PSNR is not computed (C58). *)
From Coq Require Import String Reals List Bool Arith Lia.
From Verif Require Import Base.
Import ListNotations.
Open Scope string_scope.
Open Scope list_scope.
Open Scope nat_scope.

Record video := mkV {
  vB : nat; vT : nat; vH : nat; vW : nat;
  (** likelihoods of scene t: of a model in training mode (true) or in evaluation mode *)
  lik : bool -> nat -> list R;
  (** bits of the strings of scene t *)
  strings : nat -> R;
  (** squared error of pixel p (of 3 H W) of frame t of clip b *)
  sqerr : bool -> nat -> nat -> nat -> R
}.

Fixpoint sumR (n : nat) (f : nat -> R) : R := match n with 0 => 0%R | S k => (sumR k f + f k)%R end.
Definition lsum (l : list R) : R := fold_right Rplus 0%R l.
(** Bottleneck.likelihood: a tensor of likelihoods, or the number of bits (model_pipeline.py L236-262) *)
Inductive bneck := Likelihood (ps : list R) | Bits (b : R).

(** The pipeline: training and _code_to_strings (None at first); and the Lightning module's training. *)
Record st := mkSt { m_training : bool; code : option bool; l_training : bool }.
Definition truthy (o : option bool) : bool := match o with Some true => true | _ => false end.
(** VCTModule() *)
Definition new : st := mkSt true None true.
Definition train (s : st) : st := mkSt true (code s) true.
Definition eval (s : st) : st := mkSt false (code s) false.

(** model_pipeline.py L197-284: scene t *)
Definition encode_scene (s : st) (v : video) (t : nat) : bneck :=
  if (0 <? t) && (negb (m_training s) && truthy (code s)) then Bits (strings v t)
  else Likelihood (lik v (m_training s) t).
Definition encode_and_decode (s : st) (v : video) : list bneck := map (encode_scene s v) (seq 0 (vT v)).
(** torch.stack(likelihoods): at least one tensor, all of one shape *)
Definition stack (l : list bneck) : res (list (list R)) :=
  match l with
  | [] => Raise RuntimeError
  | Bits _ :: _ => Raise RuntimeError   (* never the first *)
  | Likelihood p0 :: _ =>
      mapM (fun b => match b with Likelihood p => Ok p | Bits _ => Raise RuntimeError end) l
  end.
(** model_pipeline.py L397-443 (forward): the likelihoods of the scenes *)
Definition forward (s : st) (v : video) : res (list (list R)) := stack (encode_and_decode s v).
(** model_pipeline.py L453-461 (compute_rate) *)
Definition scene_bits (ps : list R) : R := (lsum (map ln ps) / - ln 2)%R.
Definition compute_rate_per_frame (l : list (list R)) : list R := map scene_bits l.
Definition compute_rate (l : list (list R)) : R := scene_bits (concat l).

(** model_pipeline.py L463-499 (_prepare_for_compression, compress_video): the bits per frame *)
Definition compress_video (s : st) (v : video) : res (list R) * st :=
  let s := mkSt false (Some true) (l_training s) in
  (if negb (vB v =? 1) then Raise AssertionError
   else if vT v =? 0 then Raise RuntimeError      (* torch.stack([]) *)
   else Ok (map (fun b => match b with Likelihood p => scene_bits p | Bits x => x end) (encode_and_decode s v)), s).

(** model_lightning.py L40-45 (rate_loss) *)
Definition rate_loss_frames (v : video) (l : list (list R)) : list R :=
  map (fun b => (b / INR (vB v * vH v * vW v))%R) (compute_rate_per_frame l).
Definition rate_loss_total (v : video) (l : list (list R)) : R := (compute_rate l / INR (vB v * vH v * vW v * vT v))%R.
Definition mean (l : list R) : R := (lsum l / INR (length l))%R.
(** L52-54: the mean over clips and pixels *)
Definition dist_loss_frames (s : st) (v : video) : list R :=
  map (fun t => (sumR (vB v) (fun b => sumR (3 * vH v * vW v) (fun p => sqerr v (m_training s) b t p)) / INR (vB v * (3 * vH v * vW v)))%R) (seq 0 (vT v)).
(** L56-57: 10 for every frame but the first *)
Definition set_first (x : R) (l : list R) : list R := match l with [] => [] | _ :: r => x :: r end.
Definition weights (n : nat) : list R := set_first 1%R (repeat 10%R n).
Definition zip_with {A B C} (f : A -> B -> C) (a : list A) (b : list B) : list C := map (fun p => f (fst p) (snd p)) (combine a b).

Record logged := mkLog { log_distortion : R; log_rate : R; log_combined : R; log_weighted : R }.
(** L31-35 and L47-84 (training_step), L86-117 (validation_step, the same numbers). [lambda] is
    training_loop.distortion_lambda; None times a tensor is a TypeError. *)
Definition step (lambda : option R) (s : st) (v : video) : res logged :=
  do l <- forward s v;
  let d := dist_loss_frames s v in
  let r := rate_loss_frames v l in
  match lambda with
  | None => Raise TypeError
  | Some lambda =>
      let scaling := (lambda * (255 ^ 2))%R in
      let combined := zip_with (fun d r => (scaling * d + r)%R) d r in
      let weighted := mean (zip_with Rmult combined (weights (length r))) in
      Ok (mkLog (mean d) (mean r) (mean combined) weighted)
  end.

Definition pydiv (a : R) (n : nat) : res R := if n =? 0 then Raise ZeroDivisionError else Ok (a / INR n)%R.
Record tested := mkTe { cts : option (R * R); bpp : R; bpp_xfirst : R }.
(** L119-185 (test_step) *)
Definition test_step (run_fwd : bool) (s : st) (v : video) : res tested * st :=
  if negb (vB v =? 1) then (Raise AssertionError, s)
  else if l_training s then (Raise AssertionError, s)
  else
    let pixels := vH v * vW v in
    let s1 := if run_fwd then mkSt (m_training s) (Some false) (l_training s) else s in
    let fwd := if run_fwd then
        do l <- forward s1 v;
        do rate <- pydiv (compute_rate l) (pixels * vT v);
        do rate1 <- pydiv (compute_rate (tl l)) (pixels * (vT v - 1));
        Ok (Some (rate, rate1))
      else Ok None in
    match fwd with
    | Raise e => (Raise e, s1)
    | Ok c =>
        let (bits, s2) := compress_video s1 v in
        (do bits <- bits;
         do a <- pydiv (lsum bits) (pixels * vT v);
         do b <- pydiv (lsum (tl bits)) (pixels * (vT v - 1));
         Ok (mkTe c a b), s2)
    end.

(** What can be done with a module. *)
Inductive op := Train | Eval | Forward (v : video) | Step (lambda : option R) (v : video) | Compress (v : video) | Test (run_fwd : bool) (v : video).
Definition run_op (o : op) (s : st) : st :=
  match o with
  | Train => train s
  | Eval => eval s
  | Forward _ | Step _ _ => s
  | Compress v => snd (compress_video s v)
  | Test b v => snd (test_step b s v)
  end.
Definition run (h : list op) (s : st) : st := fold_left (fun s o => run_op o s) h s.

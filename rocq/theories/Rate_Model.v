(** Model of HiFiC-style rate targeting: TargetRateConfig
    (neuralcompression/loss_fn/_target_rate_config.py), the rate loss of
    projects/illm/target_compression_module.py, and the step counting of the training loop
    (projects/illm/train.py).

    Simplifications: real arithmetic; likelihoods are positive, and given per image as the list
    of its values; gradients are left out; Lightning's trainer is reduced to its step counter. *)
From Coq Require Import Reals List Bool Arith ZArith Lia.
From Verif Require Import Base.
Import ListNotations.
Open Scope R_scope.

(** _target_rate_config.py L41-62. *)
Record rate_config := mkRC {
  rc_target : R; rc_target_factors : list R; rc_target_steps : list Z;
  rc_lam1 : R; rc_lam2 : R; rc_lam2_factors : list R; rc_lam2_steps : list Z }.
Definition make_config (target : R) (tf : list R) (ts : list Z) (l1 l2 : R) (lf : list R) (ls : list Z) : res rate_config :=
  if (negb (length ts + 1 =? length tf) || negb (length ls + 1 =? length lf))%nat
  then Raise ValueError
  else Ok (mkRC target tf ts l1 l2 lf ls).

(** target_compression_module.py L74-82 (_get_scheduled_rate_param). *)
Fixpoint sched_zip (g : Z) (base : R) (factors : list R) (steps : list Z) : option R :=
  match factors, steps with
  | f :: fs, s :: ss => let param := base * f in if (g <? s)%Z then Some param else sched_zip g base fs ss
  | _, _ => None
  end.
Definition scheduled (g : Z) (base : R) (factors : list R) (steps : list Z) : res R :=
  match sched_zip g base factors steps with
  | Some p => Ok p
  | None => match rev factors with f :: _ => Ok (base * f) | [] => Raise IndexError end
  end.

(** L84-87: bits of one image. *)
Definition bits_of (likelihoods : list R) : R :=
  fold_right Rplus 0 (map ln likelihoods) / - ln 2.
Definition mean (l : list R) : R := fold_right Rplus 0 l / INR (length l).

(** L89-137 (rate_loss), per image: (latent, quantized latent, hyper, quantized hyper)
    likelihoods.  Returns the loss, the target, lambda 2, and the two mean rates. *)
Record image_lik := mkIL { il_latent : list R; il_qlatent : list R; il_hyper : list R; il_qhyper : list R }.
Record rate_out := mkRO { ro_loss : R; ro_total : R; ro_qtotal : R; ro_target : R; ro_lam2 : R }.
Definition total_bpp (pixels : R) (i : image_lik) : R :=
  bits_of (il_latent i) / pixels + bits_of (il_hyper i) / pixels.
Definition qtotal_bpp (pixels : R) (i : image_lik) : R :=
  bits_of (il_qlatent i) / pixels + bits_of (il_qhyper i) / pixels.
Definition rate_loss (c : rate_config) (g : Z) (height width : nat) (batch : list image_lik) : res rate_out :=
  let pixels := INR (height * width) in
  do target <- scheduled g (rc_target c) (rc_target_factors c) (rc_target_steps c);
  do lam2 <- scheduled g (rc_lam2 c) (rc_lam2_factors c) (rc_lam2_steps c);
  let lams := map (fun i => if Rlt_dec target (qtotal_bpp pixels i) then lam2 else rc_lam1 c) batch in
  Ok (mkRO (mean (map (fun p => fst p * snd p) (combine lams (map (total_bpp pixels) batch))))
           (mean (map (total_bpp pixels) batch)) (mean (map (qtotal_bpp pixels) batch)) target lam2).

(** train.py L318-327 and Lightning's loop with manual optimisation: trainer.global_step counts
    every step of every optimiser, and training stops when it reaches max_steps * num_opts.
    Each batch (training_step, L139-177) evaluates the rate loss first and then steps every
    optimiser once.  [train] returns the value of global_step that each batch sees. *)
Definition trainer_max_steps (max_steps : nat) (num_opts : nat) : nat := (max_steps * num_opts)%nat.
Fixpoint train (fuel : nat) (limit num_opts : nat) (g : nat) : res (list nat) :=
  if (limit <=? g)%nat then Ok [] else
  match fuel with
  | O => Raise Diverges
  | S k => do r <- train k limit num_opts (g + num_opts)%nat; Ok (g :: r)
  end.

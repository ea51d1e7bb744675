(** Model of the training loops of projects/illm: the adversarial training step
    (gan_compression_module.py), the training step without a discriminator
    (target_compression_module.py), and the optimisers they set up.

    Networks and losses are symbolic: a loss is the weighted sum of terms that record which
    weights (by number of updates made so far) produced which tensors from which images.
    Parameters are numbers; a parameter carries a requires_grad flag and the losses accumulated
    in its gradient since the last zero_grad.

    Simplifications: the amounts of updates, gradient clipping, learning rate schedules and
    logging are left out; a batch is a list of images. *)
From Coq Require Import Reals List Bool Arith Lia.
From Verif Require Import Base.
Import ListNotations.
Open Scope nat_scope.

Section Gan.
Context {img : Type}.

(** output of the autoencoder: its version, the version of its quantiles, and the images *)
Inductive output := Out (version : nat) (images : list img).
Inductive picture :=
| Recon (o : output)            (* output.image *)
| ReconDetached (o : output)    (* output.image.detach() *)
| Real (images : list img).
(** logits of the discriminator: its version, the images, and the (detached) latents *)
Inductive logits := Logits (version : nat) (p : picture) (context : option output).
Inductive target := One | Projected (images : list img).
Inductive term :=
| Distortion (o : output) (images : list img)
| Rate (o : output) (images : list img)
| Generator (l : logits) (t : target)
| Discriminator (real fake : logits) (t : target)
| Quantile.
Definition loss := list (R * term).

(** Parameters: those of the autoencoder (with a mark for the quantiles) and of the discriminator. *)
Record module := mkM {
  m_params : list (nat * bool); m_disc : list nat; m_conditional : bool; m_projector : bool;
  m_lam : R; m_weight : R; m_mc : bool }.
Record st := mkS {
  s_req : nat -> bool; s_grad : nat -> list loss;
  s_model_version : nat; s_disc_version : nat;
  s_log : list (nat * list (nat * list loss)) }.     (* optimiser steps: optimiser, (parameter, gradient) *)

(** A computation that may raise and keeps the changes made before. *)
Definition act (A : Type) := st -> st * res A.
Definition ret {A} (a : A) : act A := fun s => (s, Ok a).
Definition raise {A} (e : exn) : act A := fun s => (s, Raise e).
Definition andthen {A B} (m : act A) (k : A -> act B) : act B :=
  fun s => match m s with (s', Ok a) => k a s' | (s', Raise e) => (s', Raise e) end.
Notation "'let*' x := m 'in' k" := (andthen m (fun x => k)) (at level 200, x name, m at level 100, k at level 200).
Definition get : act st := fun s => (s, Ok s).

(** An optimiser: a number (0: model, 1: discriminator, 2: quantiles) and its parameters. *)
Record optimizer := mkO { o_id : nat; o_params : list nat }.
Definition make_optimizer (i : nat) (ps : list nat) : res optimizer :=
  match ps with [] => Raise ValueError | _ => Ok (mkO i ps) end.

Definition memb (p : nat) (l : list nat) : bool := existsb (Nat.eqb p) l.
(** gan_compression_module.py L59-67 *)
Definition set_req (o : optimizer) (b : bool) : act unit :=
  fun s => (mkS (fun p => if memb p (o_params o) then b else s_req s p) (s_grad s)
                (s_model_version s) (s_disc_version s) (s_log s), Ok tt).
Definition disable_gradients (o : optimizer) := set_req o false.
Definition enable_gradients (o : optimizer) := set_req o true.
Definition zero_grad (o : optimizer) : act unit :=
  fun s => (mkS (s_req s) (fun p => if memb p (o_params o) then [] else s_grad s p)
                (s_model_version s) (s_disc_version s) (s_log s), Ok tt).
Definition step (o : optimizer) : act unit :=
  fun s => (mkS (s_req s) (s_grad s)
                (if o_id o =? 0 then S (s_model_version s) else s_model_version s)
                (if o_id o =? 1 then S (s_disc_version s) else s_disc_version s)
                (s_log s ++ [(o_id o, map (fun p => (p, s_grad s p)) (o_params o))]), Ok tt).

(** Which parameters a term is computed from, other than through a detached tensor.  (The
    quantile loss is counted as depending on the whole autoencoder.) *)
Section Deps.
Variable m : module.
Definition model_ids : list nat := map fst (m_params m).
Definition deps_picture (p : picture) : list nat := match p with Recon _ => model_ids | _ => [] end.
Definition deps_logits (l : logits) : list nat := match l with Logits _ p _ => m_disc m ++ deps_picture p end.
Definition deps_term (t : term) : list nat :=
  match t with
  | Distortion _ _ | Rate _ _ | Quantile => model_ids
  | Generator l _ => deps_logits l
  | Discriminator r f _ => deps_logits r ++ deps_logits f
  end.
Definition deps_loss (l : loss) : list nat := flat_map (fun ct => deps_term (snd ct)) l.
(** manual_backward: every parameter with requires_grad receives the gradient; RuntimeError if
    there is none. *)
Definition backward (l : loss) : act unit :=
  fun s => if existsb (s_req s) (deps_loss l)
           then (mkS (s_req s) (fun p => if memb p (deps_loss l) && s_req s p then s_grad s p ++ [l] else s_grad s p)
                     (s_model_version s) (s_disc_version s) (s_log s), Ok tt)
           else (s, Raise RuntimeError).

(** self.model(images) *)
Definition run_model (images : list img) : act output := let* s := get in ret (Out (s_model_version s) images).
(** self.discriminator(p, latent): the unconditional discriminator takes one argument only
    (neuralcompression/models/_unet_discriminator.py L246, L326) *)
Definition disc_2 (p : picture) (o : output) : act logits :=
  if m_conditional m then let* s := get in ret (Logits (s_disc_version s) p (Some o)) else raise TypeError.
(** gan_compression_module.py L69-73 *)
Definition run_discriminator (p : picture) (o : output) : act logits :=
  if m_conditional m then disc_2 p o else let* s := get in ret (Logits (s_disc_version s) p None).

(** L78-89 *)
Definition resample_batch (full : list img) (mc : bool) : list img * list img :=
  if mc then
    let split_ind := length full / 2 in
    (firstn split_ind full, firstn (split_ind * 2 - split_ind) (skipn split_ind full))
  else (full, full).
(** L107-114 *)
Definition target_of (images : list img) : target := if m_projector m then Projected images else One.

(** L91-197 *)
Definition training_step (opts : list optimizer) (batch : list img) : act unit :=
  match opts with
  | model_opt :: disc_opt :: rest =>
      let model_images := fst (resample_batch batch (m_mc m)) in
      let disc_images := snd (resample_batch batch (m_mc m)) in
      let fake_target := target_of model_images in
      let real_target := target_of disc_images in
      let* u := disable_gradients disc_opt in
      let* u := enable_gradients model_opt in
      let* out := run_model model_images in
      let* l := run_discriminator (Recon out) out in
      let model_loss := [(m_lam m, Distortion out model_images); (1%R, Rate out model_images);
                         (m_weight m, Generator l fake_target)] in
      let* u := zero_grad model_opt in
      let* u := backward model_loss in
      let* u := step model_opt in
      let* u := disable_gradients model_opt in
      let* u := enable_gradients disc_opt in
      let* disc_output := (if m_mc m then run_model disc_images else ret out) in
      let* fake_logits := disc_2 (ReconDetached out) out in
      let* real_logits := disc_2 (Real disc_images) disc_output in
      let disc_loss := [(1%R, Discriminator real_logits fake_logits real_target)] in
      let* u := zero_grad disc_opt in
      let* u := backward disc_loss in
      let* u := step disc_opt in
      match rest with
      | quantile_opt :: _ =>
          let* u := zero_grad quantile_opt in
          let* u := backward [(1%R, Quantile)] in
          step quantile_opt
      | [] => ret tt
      end
  | _ => raise ValueError
  end.
(** L220-253 (eval_step, under Lightning's no_grad): returns the loss *)
Definition eval_step (images : list img) : act loss :=
  let* out := run_model images in
  let* l := disc_2 (Recon out) out in
  ret [(m_lam m, Distortion out images); (1%R, Rate out images); (m_weight m, Generator l (target_of images))].

(** models/_hyperprior_autoencoder.py L44-86 (collect_parameters; that it never fails is
    hific_collect_parameters, C36) *)
Definition collect_parameters (s : st) : list nat * list nat :=
  (map fst (filter (fun p => negb (snd p) && s_req s (fst p)) (m_params m)),
   map fst (filter (fun p => snd p && s_req s (fst p)) (m_params m))).
(** gan_compression_module.py L277-314; torch's optimisers refuse an empty list of parameters *)
Definition configure_gan (s : st) : res (list optimizer) :=
  let (mp, qp) := collect_parameters s in
  do model_opt <- make_optimizer 0 mp;
  do disc_opt <- make_optimizer 1 (m_disc m);
  match qp with
  | [] => Ok [model_opt; disc_opt]
  | _ => do aux <- make_optimizer 2 qp; Ok [model_opt; disc_opt; aux]
  end.

(** target_compression_module.py L139-177 *)
Definition training_step_plain (opts : list optimizer) (images : list img) : act unit :=
  match opts with
  | [model_opt; quantile_opt] =>
      let* out := run_model images in
      let* u := zero_grad model_opt in
      let* u := backward [(m_lam m, Distortion out images); (1%R, Rate out images)] in
      let* u := step model_opt in
      let* u := zero_grad quantile_opt in
      let* u := backward [(1%R, Quantile)] in
      step quantile_opt
  | _ => raise ValueError
  end.
(** L276-293 *)
Definition configure_plain (s : st) : res (list optimizer) :=
  let (mp, qp) := collect_parameters s in
  do model_opt <- make_optimizer 0 mp;
  do aux <- make_optimizer 2 qp;
  Ok [model_opt; aux].

(** A history: training and validation batches in any order, until one raises. *)
Inductive event := Train (batch : list img) | Validate (batch : list img).
Definition run_event (opts : list optimizer) (e : event) : act unit :=
  match e with
  | Train b => training_step opts b
  | Validate b => let* l := eval_step b in ret tt
  end.
Fixpoint run_events (opts : list optimizer) (es : list event) : act unit :=
  match es with
  | [] => ret tt
  | e :: r => let* u := run_event opts e in run_events opts r
  end.
Fixpoint run_plain (opts : list optimizer) (bs : list (list img)) : act unit :=
  match bs with
  | [] => ret tt
  | b :: r => let* u := training_step_plain opts b in run_plain opts r
  end.
End Deps.
End Gan.

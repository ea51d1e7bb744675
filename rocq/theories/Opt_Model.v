(** Model of what an optimiser step of the trainings changes: the optimiser part of training_step in
    projects/illm/target_compression_module.py L139-177 and gan_compression_module.py L148-195, with
    LightningModule.clip_gradients (manual optimisation; PrecisionPlugin.clip_gradients), torch's
    clip_grad_norm_, clip_grad_value_, AdamW and LambdaLR after their sources.

    A parameter tensor is the list of its entries.  Simplified: real arithmetic; the gradients that
    backward computes are arbitrary inputs; no automatic mixed precision, amsgrad or fused kernels. *)
From Coq Require Import Reals List Bool Arith.
From Verif Require Import Base.
Import ListNotations.
Open Scope R_scope.

(** One entry of a parameter with AdamW's exp_avg and exp_avg_sq. *)
Record entry := mkE { e_w : R; e_m : R; e_v : R }.
(** A parameter: its entries, its gradient (None: no gradient) and AdamW's step count. *)
Record tparam := mkP { p_entries : list entry; p_grad : option (list R); p_steps : nat }.
Definition new_param (ws : list R) : tparam := mkP (map (fun w => mkE w 0 0) ws) None 0.

(** optimizer.zero_grad(): set_to_none is the default. *)
Definition zero_grad (ps : list tparam) : list tparam := map (fun p => mkP (p_entries p) None (p_steps p)) ps.

(** backward adds [g] to the gradient of a parameter that takes part in the loss. *)
Definition accumulate (p : tparam) (g : option (list R)) : tparam :=
  match g with
  | None => p
  | Some g => mkP (p_entries p)
                (Some match p_grad p with None => g | Some h => map (fun xy => fst xy + snd xy) (combine h g) end) (p_steps p)
  end.
Definition backward (gs : list (option (list R))) (ps : list tparam) : list tparam :=
  map (fun pg => accumulate (fst pg) (snd pg)) (combine ps gs).

(** The entries of all gradients there are. *)
Definition grad_of (p : tparam) : list R := match p_grad p with Some g => g | None => [] end.
Definition all_grads (ps : list tparam) : list R := flat_map grad_of ps.
Definition map_grads (f : R -> R) (ps : list tparam) : list tparam :=
  map (fun p => mkP (p_entries p) (option_map (map f) (p_grad p)) (p_steps p)) ps.

(** torch.nn.utils.clip_grad_norm_ with norm_type 2: the norm of the norms is the norm of all entries. *)
Definition total_norm (gs : list R) : R := sqrt (fold_right (fun g a => g * g + a) 0 gs).
Definition clip_grad_norm (max_norm : R) (ps : list tparam) : list tparam :=
  let clip_coef := max_norm / (total_norm (all_grads ps) + / 1000000) in
  map_grads (fun g => g * Rmin clip_coef 1) ps.
(** torch.nn.utils.clip_grad_value_ *)
Definition clip_grad_value (c : R) (ps : list tparam) : list tparam :=
  map_grads (fun g => Rmin (Rmax g (- c)) c) ps.

(** The algorithm's name after .lower() *)
Inductive algorithm := Norm | Value | Unsupported.
(** LightningModule.clip_gradients, the trainer having no clipping of its own.  Lightning raises its
    MisconfigurationException for an unsupported algorithm, here ValueError. *)
Definition clip_gradients (clip_val : R) (a : algorithm) (ps : list tparam) : res (list tparam) :=
  match a with
  | Unsupported => Raise ValueError
  | _ => if Rle_dec clip_val 0 then Ok ps
         else Ok (match a with Value => clip_grad_value clip_val ps | _ => clip_grad_norm clip_val ps end)
  end.

(** torch.optim.AdamW's arguments *)
Record adamw := mkA { a_lr : R; a_beta1 : R; a_beta2 : R; a_eps : R; a_decay : R }.
(** torch.optim.adamw._single_tensor_adamw, one entry; [t] is the step count after its increment. *)
Definition adamw_entry (o : adamw) (lr : R) (t : nat) (e : entry) (g : R) : entry :=
  let w := e_w e * (1 - lr * a_decay o) in
  let m := e_m e + (1 - a_beta1 o) * (g - e_m e) in
  let v := e_v e * a_beta2 o + (1 - a_beta2 o) * g * g in
  let bias_correction1 := 1 - a_beta1 o ^ t in
  let bias_correction2 := 1 - a_beta2 o ^ t in
  let step_size := lr / bias_correction1 in
  let denom := sqrt v / sqrt bias_correction2 + a_eps o in
  mkE (w + (- step_size) * (m / denom)) m v.
(** A parameter without a gradient is skipped. *)
Definition adamw_param (o : adamw) (lr : R) (p : tparam) : tparam :=
  match p_grad p with
  | None => p
  | Some g => mkP (map (fun eg => adamw_entry o lr (S (p_steps p)) (fst eg) (snd eg)) (combine (p_entries p) g))
                (p_grad p) (S (p_steps p))
  end.
Definition opt_step (o : adamw) (lr : R) (ps : list tparam) : list tparam := map (adamw_param o lr) ps.

(** An optimiser with its LambdaLR: the parameters and how often the schedule was stepped. *)
Record opt := mkO { o_params : list tparam; o_epoch : nat }.

(** zero_grad; manual_backward; clip_gradients if gradient_clip_val is not None; step; sched.step:
    target_compression_module.py L160-169, gan_compression_module.py L148-157 and L177-186.  The quantile
    optimisers (L174-177, L192-195) do the same without clipping.  LambdaLR sets the rate to
    lr * factor(epoch).  An exception leaves what was done before it. *)
Definition optimise (o : adamw) (factor : nat -> R) (clip : option (R * algorithm)) (gs : list (option (list R)))
    (s : opt) : opt * res unit :=
  let ps := backward gs (zero_grad (o_params s)) in
  match (match clip with None => Ok ps | Some (c, a) => clip_gradients c a ps end) with
  | Raise e => (mkO ps (o_epoch s), Raise e)
  | Ok ps => (mkO (opt_step o (a_lr o * factor (o_epoch s)) ps) (S (o_epoch s)), Ok tt)
  end.

(** target_compression_module.py L139-177: the model's optimiser, then that of the quantiles. *)
Record trainer := mkT { t_model : opt; t_quantile : opt }.
Definition training_step (om oq : adamw) (fm fq : nat -> R) (clip : option (R * algorithm))
    (gm gq : list (option (list R))) (s : trainer) : trainer * res unit :=
  match optimise om fm clip gm (t_model s) with
  | (m, Raise e) => (mkT m (t_quantile s), Raise e)
  | (m, Ok _) =>
      let '(q, r) := optimise oq fq None gq (t_quantile s) in
      (mkT m q, r)
  end.
(** A training: the gradients of each batch. *)
Definition train (om oq : adamw) (fm fq : nat -> R) (clip : option (R * algorithm))
    (batches : list (list (option (list R)) * list (option (list R)))) (s : trainer) : trainer :=
  fold_left (fun s b => fst (training_step om oq fm fq clip (fst b) (snd b) s)) batches s.

(** conf/optimizer/model_adamw.yaml (betas and eps are torch's defaults; aux_opt's decay too) and
    model_adamw_disc_const.yaml *)
Definition model_adamw : adamw := mkA 0.0003 0.9 0.999 (/ 100000000) 0.00005.
Definition aux_adamw : adamw := mkA 0.001 0.9 0.999 (/ 100000000) 0.01.
Definition gan_model_adamw : adamw := mkA 0.0001 0.5 0.9 (/ 100000000) 0.
Definition gan_disc_adamw : adamw := mkA 0.0004 0.5 0.9 (/ 100000000) 0.

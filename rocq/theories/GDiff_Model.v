(** The diffusion model as a hierarchical latent-variable model
    (projects/bits_back_diffusion/bits_back_diffusion/codec.py L93-192, DiffusionModel) and how
    it is built (script_util.py L337-379, create_gaussian_diffusion).

    The classes of improved_diffusion (gaussian_diffusion.py, respace.py) that both rely on are
    modelled after that library's source.  Arithmetic is exact: the library computes the
    schedules in float64 and the codec the parameters in float32. *)
From Coq Require Import ZArith Reals String List Bool Arith.
From Verif Require Import Base Tensor RFloat Steps_Model.
Import ListNotations.
Open Scope R_scope.

(** ** The process *)
Inductive mean_type := Epsilon | StartX.
Inductive var_type := FixedLarge | FixedSmall | LearnedRange.
Inductive loss_type := RescaledKl | RescaledMse | Mse.

(** gaussian_diffusion.py, get_named_beta_schedule: np.linspace(start, end, n) *)
Definition linear_betas (n : nat) : list R :=
  let scale := 1000 / INR n in
  let beta_start := scale * (1 / 10000) in
  let beta_end := scale * (2 / 100) in
  map (fun i => beta_start + INR i * ((beta_end - beta_start) / INR (n - 1))) (seq 0 n).
(** betas_for_alpha_bar with the squared cosine *)
Definition alpha_bar (t : R) : R := cos ((t + 8 / 1000) / (1008 / 1000) * PI / 2) ^ 2.
Definition cosine_betas (n : nat) : list R :=
  map (fun i => Rmin (1 - alpha_bar (INR (i + 1) / INR n) / alpha_bar (INR i / INR n)) (999 / 1000)) (seq 0 n).
Definition named_betas (name : string) (n : nat) : res (list R) :=
  if String.eqb name "linear" then if Nat.eqb n 0 then Raise ZeroDivisionError else Ok (linear_betas n)
  else if String.eqb name "cosine" then Ok (cosine_betas n)
  else Raise NotImplementedError.

(** np.cumprod(1 - betas) *)
Fixpoint cumprod (acc : R) (betas : list R) : list R :=
  match betas with
  | [] => []
  | b :: l => acc * (1 - b) :: cumprod (acc * (1 - b)) l
  end.
(** The arrays of GaussianDiffusion.__init__, by timestep. *)
Definition beta_at (betas : list R) (t : nat) : R := nth t betas 0.
Definition acp_at (betas : list R) (t : nat) : R := nth t (cumprod 1 betas) 0.
(** np.append(1.0, alphas_cumprod[:-1]) *)
Definition acp_prev_at (betas : list R) (t : nat) : R := nth t (1 :: cumprod 1 betas) 0.
Definition posterior_variance (betas : list R) (t : nat) : R :=
  beta_at betas t * (1 - acp_prev_at betas t) / (1 - acp_at betas t).
(** np.log(np.append(posterior_variance[1], posterior_variance[1:])) *)
Definition posterior_log_variance_clipped (betas : list R) (t : nat) : R :=
  ln (posterior_variance betas (if Nat.eqb t 0 then 1%nat else t)).
Definition posterior_mean_coef1 (betas : list R) (t : nat) : R :=
  beta_at betas t * sqrt (acp_prev_at betas t) / (1 - acp_at betas t).
Definition posterior_mean_coef2 (betas : list R) (t : nat) : R :=
  (1 - acp_prev_at betas t) * sqrt (1 - beta_at betas t) / (1 - acp_at betas t).

Definition good_beta (b : R) : bool := if Rlt_dec 0 b then if Rle_dec b 1 then true else false else false.
(** GaussianDiffusion.__init__: the assertion on the betas; posterior_variance[1] needs two
    timesteps. *)
Definition check_betas (betas : list R) : res unit :=
  if forallb good_beta betas then
    if (length betas <? 2)%nat then Raise IndexError else Ok tt
  else Raise AssertionError.

(** respace.py, SpacedDiffusion.__init__: the loop over enumerate(alphas_cumprod), giving the
    new betas and timestep_map.  (After a cumulative product of 0 numpy divides 0 by 0.) *)
Fixpoint respace (use : list Z) (i : nat) (last : R) (acps : list R) : list R * list nat :=
  match acps with
  | [] => ([], [])
  | a :: l =>
      if existsb (Z.eqb (Z.of_nat i)) use
      then let '(bs, ts) := respace use (S i) a l in (1 - a / last :: bs, i :: ts)
      else respace use (S i) last l
  end.

Record process := mkProc {
  betas : list R; timestep_map : list nat; original_steps : nat;
  mean_kind : mean_type; var_kind : var_type; loss_kind : loss_type; rescale : bool }.

Record options := mkOpt {
  o_steps : nat; learn_sigma : bool; sigma_small : bool; noise_schedule : string; use_kl : bool;
  predict_xstart : bool; rescale_timesteps : bool; rescale_learned_sigmas : bool;
  (** None for the empty string, None and the empty list *)
  timestep_respacing : option respacing }.

(** script_util.py L337-379 (create_gaussian_diffusion) *)
Definition create_gaussian_diffusion (o : options) : res process :=
  do bs <- named_betas (noise_schedule o) (o_steps o);
  let loss := if use_kl o then RescaledKl else if rescale_learned_sigmas o then RescaledMse else Mse in
  let r := match timestep_respacing o with None => Sections [Z.of_nat (o_steps o)] | Some r => r end in
  do use <- space_timesteps b64 (Z.of_nat (o_steps o)) r;
  do _ <- check_betas bs;
  let '(new_betas, tmap) := respace use 0 1 (cumprod 1 bs) in
  do _ <- check_betas new_betas;
  Ok (mkProc new_betas tmap (length bs)
        (if negb (predict_xstart o) then Epsilon else StartX)
        (if negb (learn_sigma o) then if negb (sigma_small o) then FixedLarge else FixedSmall else LearnedRange)
        loss (rescale_timesteps o)).

(** ** The latent-variable model *)
(** codec.py L93-122; the network maps a batch and its timesteps to a tensor. *)
Record diffusion_model := mkDm {
  network : tensor R -> list R -> tensor R; diffusion : process;
  use_log_variance : bool; clip_denoised : bool }.
(** L121: the number of steps of the base class *)
Definition dm_steps (m : diffusion_model) : nat := length (betas (diffusion m)).

(** L17-19: GaussianParams *)
Record gparams := mkGp { g_mean : tensor R; g_stdd : tensor R }.
(** L123-133 (_gaussian_params); the variance has one value per timestep, expanded. *)
Definition gaussian_params (m : diffusion_model) (shape : list nat)
    (mean variance log_variance : list nat -> R) : gparams :=
  mkGp (mkT shape mean)
       (mkT shape (fun idx => if use_log_variance m then exp (1 / 2 * log_variance idx) else sqrt (variance idx))).

(** Indexing an array of the process by the timestep. *)
Definition in_process (p : process) (t : nat) : res unit :=
  if (t <? length (betas p))%nat then Ok tt else Raise IndexError.

(** L135-153 (infer_fn): q_mean_variance at the last timestep *)
Definition infer_fn (m : diffusion_model) (data : tensor R) : res gparams :=
  let bs := betas (diffusion m) in
  let t := (dm_steps m - 1)%nat in
  do _ <- in_process (diffusion m) t;
  Ok (gaussian_params m (tshape data)
        (fun idx => sqrt (acp_at bs t) * tat data idx)
        (fun _ => 1 - acp_at bs t)
        (fun _ => ln (1 - acp_at bs t))).

(** q_posterior_mean_variance, for one entry *)
Definition q_posterior_mean (bs : list R) (t : nat) (x_start x_t : R) : R :=
  posterior_mean_coef1 bs t * x_start + posterior_mean_coef2 bs t * x_t.
(** _predict_xstart_from_eps, for one entry *)
Definition xstart_from_eps (bs : list R) (t : nat) (x_t eps : R) : R :=
  sqrt (1 / acp_at bs t) * x_t - sqrt (1 / acp_at bs t - 1) * eps.
(** respace.py, _WrappedModel: the timestep the network is given *)
Definition network_timestep (p : process) (t : nat) : R :=
  let new_t := INR (nth t (timestep_map p) 0%nat) in
  if rescale p then new_t * (1000 / INR (original_steps p)) else new_t.
Definition clamp1 (x : R) : R := Rmin 1 (Rmax (-1) x).

Definition same_shape (a b : list nat) : bool := if list_eq_dec Nat.eq_dec a b then true else false.
(** The channel [c] of the second half of a split along the channels. *)
Definition second_half (channels : nat) (idx : list nat) : list nat :=
  match idx with i :: c :: l => i :: (channels + c)%nat :: l | _ => idx end.

(** p_mean_variance.  A network output of another shape is refused by one of the assertions
    (or by a failing broadcast). *)
Definition p_mean_variance (m : diffusion_model) (x : tensor R) (t : nat) : res gparams :=
  let p := diffusion m in
  let bs := betas p in
  match tshape x with
  | b :: c :: rest =>
      do _ <- in_process p t;
      let out := network m x (repeat (network_timestep p t) b) in
      let wanted := match var_kind p with LearnedRange => (b :: 2 * c :: rest)%nat | _ => b :: c :: rest end in
      if same_shape (tshape out) wanted then
        let log_variance idx :=
          match var_kind p with
          | LearnedRange =>
              let frac := (tat out (second_half c idx) + 1) / 2 in
              frac * ln (beta_at bs t) + (1 - frac) * posterior_log_variance_clipped bs t
          | FixedLarge => ln (if Nat.eqb t 0 then posterior_variance bs 1 else beta_at bs t)
          | FixedSmall => posterior_log_variance_clipped bs t
          end in
        let variance idx :=
          match var_kind p with
          | LearnedRange => exp (log_variance idx)
          | FixedLarge => if Nat.eqb t 0 then posterior_variance bs 1 else beta_at bs t
          | FixedSmall => posterior_variance bs t
          end in
        let process_xstart v := if clip_denoised m then clamp1 v else v in
        let pred idx :=
          match mean_kind p with
          | StartX => process_xstart (tat out idx)
          | Epsilon => process_xstart (xstart_from_eps bs t (tat x idx) (tat out idx))
          end in
        Ok (gaussian_params m (tshape x) (fun idx => q_posterior_mean bs t (pred idx) (tat x idx)) variance log_variance)
      else Raise AssertionError
  | _ => Raise ValueError
  end.

(** L155-192 (generate_fn) *)
Definition generate_fn (m : diffusion_model) (latent : tensor R) (step : nat) (data : option (tensor R)) : res gparams :=
  match data with
  | None => p_mean_variance m latent step
  | Some d =>
      let bs := betas (diffusion m) in
      if same_shape (tshape d) (tshape latent) then
        do _ <- in_process (diffusion m) step;
        Ok (gaussian_params m (tshape latent)
              (fun idx => q_posterior_mean bs step (tat d idx) (tat latent idx))
              (fun _ => posterior_variance bs step)
              (fun _ => posterior_log_variance_clipped bs step))
      else Raise AssertionError
  end.

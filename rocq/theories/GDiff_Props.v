(** C98: the diffusion model behind the bits-back codec. *)
From Coq Require Import ZArith Reals String List Bool Arith Lia Lra Psatz Sorted Permutation.
From Verif Require Import Base Tensor RBase RFloat Steps_Model Steps_Spec Steps_Proofs Steps_Props GDiff_Model.
Import ListNotations.
Open Scope R_scope.

(** ** Specification *)
(** The density of the normal distribution with mean [m] and standard deviation [sd]. *)
Definition normal (m sd x : R) : R := exp (- (((x - m) / sd) ^ 2 / 2)) / (sd * sqrt (2 * PI)).
(** The part of the signal's variance that is left after the first [k] of the noising steps
    given by the [betas]. *)
Definition signal (betas : list R) (k : nat) : R := fold_right Rmult 1 (map (fun b => 1 - b) (firstn k betas)).
(** A schedule: every step adds some noise and leaves some signal. *)
Definition schedule (betas : list R) : Prop := Forall (fun b => 0 < b < 1) betas.

Lemma cumprod_nth acc l k : (k < length l)%nat -> nth k (cumprod acc l) 0 = acc * signal l (S k).
Proof.
  revert acc k. induction l as [|b l IH]; intros acc k H; [cbn in H; lia|].
  destruct k as [|k]; unfold signal in *; cbn [cumprod nth firstn map fold_right]; [ring|].
  cbn [length] in H. rewrite IH by lia. cbn [firstn map fold_right]. ring.
Qed.
Lemma cumprod_length acc l : length (cumprod acc l) = length l.
Proof. revert acc. induction l as [|b l IH]; intro acc; cbn; [reflexivity|]. rewrite IH. reflexivity. Qed.
Lemma acp_signal bs t : (t < length bs)%nat -> acp_at bs t = signal bs (S t).
Proof. intro H. unfold acp_at. rewrite cumprod_nth by exact H. ring. Qed.
Lemma prev_signal bs t : (t < length bs)%nat -> acp_prev_at bs t = signal bs t.
Proof. intro H. unfold acp_prev_at. destruct t as [|t]; [reflexivity|]. cbn [nth]. rewrite cumprod_nth by lia. ring. Qed.
Lemma signal_S bs t : (t < length bs)%nat -> signal bs (S t) = signal bs t * (1 - beta_at bs t).
Proof.
  revert t. induction bs as [|b bs IH]; intros t H; [cbn in H; lia|].
  destruct t as [|t]; unfold signal, beta_at in *; cbn [firstn map fold_right nth]; [ring|]. cbn [length] in H.
  specialize (IH t ltac:(lia)). cbn [firstn map fold_right] in IH. rewrite IH. ring.
Qed.
Lemma beta_range bs t : schedule bs -> (t < length bs)%nat -> 0 < beta_at bs t < 1.
Proof. intros Sc H. unfold schedule in Sc. rewrite Forall_forall in Sc. apply Sc. apply nth_In, H. Qed.
Lemma signal_pos bs k : schedule bs -> 0 < signal bs k <= 1.
Proof.
  intro Sc. revert k. induction Sc as [|b l B Sc IH]; intro k; destruct k as [|k]; unfold signal in *; cbn [firstn map fold_right]; try lra.
  specialize (IH k). nra.
Qed.
Lemma signal_lt bs k : schedule bs -> (1 <= k <= length bs)%nat -> 0 < signal bs k < 1.
Proof.
  intros Sc H. destruct k as [|k]; [lia|]. rewrite signal_S by lia. pose proof (signal_pos bs k Sc) as P. pose proof (beta_range bs k Sc ltac:(lia)). nra.
Qed.
Lemma post_var_pos bs t : schedule bs -> (1 <= t < length bs)%nat -> 0 < posterior_variance bs t.
Proof.
  intros Sc H. unfold posterior_variance. rewrite acp_signal, prev_signal by lia.
  pose proof (signal_lt bs t Sc ltac:(lia)). pose proof (signal_lt bs (S t) Sc ltac:(lia)). pose proof (beta_range bs t Sc ltac:(lia)).
  apply Rmult_lt_0_compat; [apply Rmult_lt_0_compat; lra|apply Rinv_0_lt_compat; lra].
Qed.
Lemma post_var_le bs t : schedule bs -> (t < length bs)%nat -> posterior_variance bs t <= beta_at bs t.
Proof.
  intros Sc H. unfold posterior_variance. rewrite acp_signal, prev_signal, signal_S by lia.
  pose proof (signal_pos bs t Sc). pose proof (beta_range bs t Sc H). set (a := signal bs t) in *. set (b := beta_at bs t) in *.
  apply Rmult_le_reg_r with (1 - a * (1 - b)); [nra|]. unfold Rdiv. rewrite Rmult_assoc, Rinv_l by nra. nra.
Qed.

(** ** Standard deviations *)
Lemma sqrt_exp_ln v : 0 < v -> exp (1 / 2 * ln v) = sqrt v.
Proof.
  intro H. assert (P : 0 < sqrt v) by (apply sqrt_lt_R0, H). rewrite <- (exp_ln (sqrt v) P). f_equal.
  rewrite <- (sqrt_sqrt v) at 1 by lra. rewrite ln_mult by exact P. lra.
Qed.
Lemma half_exp l : exp (1 / 2 * l) = sqrt (exp l).
Proof. rewrite <- (ln_exp l) at 1. apply sqrt_exp_ln, exp_pos. Qed.

(** ** Bayes' rule *)
Lemma normal_sq m v x : 0 < v -> normal m (sqrt v) x = exp (- ((x - m) ^ 2 / (2 * v))) / sqrt (v * (2 * PI)).
Proof.
  intro H. assert (P : 0 < sqrt v) by (apply sqrt_lt_R0, H). unfold normal. rewrite <- sqrt_mult by (pose proof PI_RGT_0; lra).
  f_equal. f_equal. f_equal. rewrite <- (sqrt_sqrt v) at 2 by lra. field. lra.
Qed.
Lemma bayes a b x y z : 0 < a < 1 -> 0 < b < 1 ->
  let A := a * (1 - b) in
  normal (b * sqrt a / (1 - A) * x + (1 - a) * sqrt (1 - b) / (1 - A) * z) (sqrt (b * (1 - a) / (1 - A))) y * normal (sqrt A * x) (sqrt (1 - A)) z =
  normal (sqrt (1 - b) * y) (sqrt b) z * normal (sqrt a * x) (sqrt (1 - a)) y.
Proof.
  intros Ha Hb A. assert (HA : 0 < 1 - A) by (unfold A; nra).
  assert (V : 0 < b * (1 - a) / (1 - A)) by (apply Rmult_lt_0_compat; [nra|apply Rinv_0_lt_compat, HA]).
  rewrite !normal_sq by lra. pose proof PI_RGT_0 as PP.
  assert (R : forall p q r s, exp p / q * (exp r / s) = exp (p + r) * / (q * s)).
  { intros. rewrite exp_plus. unfold Rdiv. rewrite Rinv_mult. ring. }
  rewrite !R. f_equal.
  - f_equal. unfold A in *. rewrite (sqrt_mult a (1 - b)) by lra.
    set (r := sqrt a). set (s := sqrt (1 - b)).
    assert (Er : a = r * r) by (unfold r; symmetry; apply sqrt_sqrt; lra).
    assert (Es : b = 1 - s * s) by (unfold s; rewrite sqrt_sqrt; lra).
    clearbody r s. subst a b. field. repeat split; nra.
  - f_equal. rewrite <- !sqrt_mult by nra. f_equal. field. lra.
Qed.

(** ** The encoder's latents *)
Definition product (l : list nat) (f : nat -> R) : R := fold_right Rmult 1 (map f l).
Lemma product_last n f : product (seq 1 (S n)) f = product (seq 1 n) f * f (S n).
Proof.
  unfold product. rewrite seq_S, map_app. cbn [map]. set (l := map f (seq 1 n)). replace (1 + n)%nat with (S n) by lia.
  induction l as [|x l IH]; cbn [app fold_right]; [ring|]. rewrite IH. ring.
Qed.
Lemma chain bs (x : R) (z : nat -> R) : schedule bs -> forall k, (1 <= k <= length bs)%nat ->
  normal (sqrt (signal bs k) * x) (sqrt (1 - signal bs k)) (z k) *
  product (seq 1 (k - 1)) (fun s => normal (q_posterior_mean bs s x (z (S s))) (sqrt (posterior_variance bs s)) (z s)) =
  normal (sqrt (1 - beta_at bs 0) * x) (sqrt (beta_at bs 0)) (z 1%nat) *
  product (seq 1 (k - 1)) (fun s => normal (sqrt (1 - beta_at bs s) * z s) (sqrt (beta_at bs s)) (z (S s))).
Proof.
  intros Sc. induction k as [|k IH]; intro H; [lia|]. destruct k as [|k].
  - replace (1 - 1)%nat with 0%nat by lia. rewrite (signal_S bs 0) by lia.
    replace (signal bs 0) with 1 by reflexivity. rewrite Rmult_1_l. replace (1 - (1 - beta_at bs 0)) with (beta_at bs 0) by ring. reflexivity.
  - specialize (IH ltac:(lia)). replace (S (S k) - 1)%nat with (S (S k - 1)) by lia. rewrite !product_last.
    replace (S (S k - 1)) with (S k) by lia. replace (S k - 1)%nat with k in * by lia.
    pose proof (bayes (signal bs (S k)) (beta_at bs (S k)) x (z (S k)) (z (S (S k))) (signal_lt bs (S k) Sc ltac:(lia)) (beta_range bs (S k) Sc ltac:(lia))) as B.
    cbn zeta in B. rewrite <- signal_S in B by lia.
    unfold q_posterior_mean, posterior_mean_coef1, posterior_mean_coef2, posterior_variance in *.
    rewrite (acp_signal bs (S k)), (prev_signal bs (S k)) by lia.
    match goal with |- ?n * (?P * ?q) = _ * (?F * ?f) => transitivity ((q * n) * P); [ring|]; rewrite B; transitivity (f * (normal (sqrt (signal bs (S k)) * x) (sqrt (1 - signal bs (S k))) (z (S k)) * P)); [ring|]; rewrite IH; ring end.
Qed.
Lemma stdd_log m shape mean v idx : 0 < v ->
  tat (g_stdd (gaussian_params m shape mean (fun _ => v) (fun _ => ln v))) idx = sqrt v.
Proof. intro H. cbn. destruct (use_log_variance m); [apply sqrt_exp_ln, H|reflexivity]. Qed.

(** infer_fn and generate_fn with the data, from the last latent to the first, are the
    conditionals of the noising process: whatever the latents z_1, ..., z_T, the density with
    which the encoder draws them is the density with which the process that adds noise step
    by step to the data produces them.  Both variances give the same. *)
Theorem C98_encoder_latents : forall m x (z : nat -> tensor R),
  let bs := betas (diffusion m) in let T := dm_steps m in
  schedule bs -> (1 <= T)%nat -> (forall s, tshape (z s) = tshape x) ->
  exists top post, infer_fn m x = Ok top /\
  (forall s, (1 <= s < T)%nat -> generate_fn m (z (S s)) s (Some x) = Ok (post s)) /\
  tshape (g_mean top) = tshape x /\ tshape (g_stdd top) = tshape x /\
  (forall s, tshape (g_mean (post s)) = tshape x /\ tshape (g_stdd (post s)) = tshape x) /\
  forall idx,
    normal (tat (g_mean top) idx) (tat (g_stdd top) idx) (tat (z T) idx) *
    product (seq 1 (T - 1)) (fun s => normal (tat (g_mean (post s)) idx) (tat (g_stdd (post s)) idx) (tat (z s) idx)) =
    normal (sqrt (1 - beta_at bs 0) * tat x idx) (sqrt (beta_at bs 0)) (tat (z 1%nat) idx) *
    product (seq 1 (T - 1)) (fun s => normal (sqrt (1 - beta_at bs s) * tat (z s) idx) (sqrt (beta_at bs s)) (tat (z (S s)) idx)).
Proof.
  intros m x z bs T Sc HT Hz.
  assert (IP : forall t, (t < T)%nat -> in_process (diffusion m) t = Ok tt).
  { intros t H. unfold in_process. apply Nat.ltb_lt in H. unfold T, dm_steps in H. rewrite H. reflexivity. }
  exists (gaussian_params m (tshape x) (fun idx => sqrt (acp_at bs (T - 1)) * tat x idx) (fun _ => 1 - acp_at bs (T - 1)) (fun _ => ln (1 - acp_at bs (T - 1)))).
  exists (fun s => gaussian_params m (tshape (z (S s))) (fun idx => q_posterior_mean bs s (tat x idx) (tat (z (S s)) idx)) (fun _ => posterior_variance bs s) (fun _ => posterior_log_variance_clipped bs s)).
  split; [unfold infer_fn; fold T; rewrite IP by lia; reflexivity|]. split.
  { intros s Hs. unfold generate_fn, same_shape. rewrite Hz. destruct (list_eq_dec Nat.eq_dec (tshape x) (tshape x)) as [_|N]; [|congruence].
    rewrite IP by lia. reflexivity. }
  split; [reflexivity|split; [reflexivity|split; [intro s; split; cbn; apply Hz|]]].
  intro idx. assert (HT' : T = length bs) by reflexivity.
  pose proof (signal_lt bs T Sc ltac:(lia)) as ST.
  assert (EA : acp_at bs (T - 1) = signal bs T) by (rewrite acp_signal by lia; f_equal; lia).
  rewrite stdd_log by (rewrite EA; lra). rewrite EA.
  cbn [gaussian_params g_mean tat].
  transitivity (normal (sqrt (signal bs T) * tat x idx) (sqrt (1 - signal bs T)) (tat (z T) idx) *
    product (seq 1 (T - 1)) (fun s => normal (q_posterior_mean bs s (tat x idx) (tat (z (S s)) idx)) (sqrt (posterior_variance bs s)) (tat (z s) idx))).
  - f_equal. unfold product. f_equal. apply map_ext_in. intros s I. apply in_seq in I. f_equal.
    unfold posterior_log_variance_clipped. destruct (Nat.eqb_spec s 0) as [E|E]; [lia|]. apply stdd_log, post_var_pos; [exact Sc|lia].
  - apply (chain bs (tat x idx) (fun s => tat (z s) idx) Sc T). lia.
Qed.
Print Assumptions C98_encoder_latents.

(** The posterior of step 0, which the codec never asks for, is the data itself. *)
Theorem C98_step_zero : forall m x z, schedule (betas (diffusion m)) -> (1 <= dm_steps m)%nat -> tshape z = tshape x ->
  exists p, generate_fn m z 0 (Some x) = Ok p /\ forall idx, tat (g_mean p) idx = tat x idx /\
  tat (g_stdd p) idx = if use_log_variance m then exp (1 / 2 * ln (posterior_variance (betas (diffusion m)) 1)) else 0.
Proof.
  intros m x z Sc HT Hz. unfold generate_fn, same_shape. rewrite Hz. destruct (list_eq_dec Nat.eq_dec (tshape x) (tshape x)) as [_|N]; [|congruence].
  unfold in_process. unfold dm_steps in HT. destruct (Nat.ltb_spec 0 (length (betas (diffusion m)))) as [L|L]; [|lia].
  eexists. split; [reflexivity|]. intro idx. cbn [gaussian_params g_mean g_stdd tat]. set (bs := betas (diffusion m)) in *.
  pose proof (beta_range bs 0 Sc L) as B.
  assert (E1 : acp_at bs 0 = 1 - beta_at bs 0) by (rewrite acp_signal, signal_S by lia; unfold signal; cbn; ring).
  assert (E2 : acp_prev_at bs 0 = 1) by reflexivity.
  split.
  - unfold q_posterior_mean, posterior_mean_coef1, posterior_mean_coef2. rewrite E1, E2, sqrt_1. field. lra.
  - destruct (use_log_variance m); [reflexivity|]. unfold posterior_variance. rewrite E2. replace (beta_at bs 0 * (1 - 1) / (1 - acp_at bs 0)) with 0 by (unfold Rdiv; ring). apply sqrt_0.
Qed.
Print Assumptions C98_step_zero.

(** ** The model's prior *)
(** The network's output has the wanted shape: twice the channels if it gives the variance. *)
Definition fits (m : diffusion_model) (b c : nat) (rest : list nat) (out : tensor R) : Prop :=
  tshape out = match var_kind (diffusion m) with LearnedRange => b :: (2 * c)%nat :: rest | _ => b :: c :: rest end.
(** The call of the network for a batch at a step. *)
Definition call (m : diffusion_model) (z : tensor R) (t : nat) : tensor R :=
  let p := diffusion m in
  network m z (repeat (if rescale p then INR (nth t (timestep_map p) 0%nat) * (1000 / INR (original_steps p))
                       else INR (nth t (timestep_map p) 0%nat)) (hd 0%nat (tshape z))).
(** generate_fn without data succeeds exactly for a step of the process and a fitting output
    of the network, which is called with the step's timestep in the process it was trained for. *)
Theorem C98_prior_accepts : forall m z t b c rest, tshape z = b :: c :: rest ->
  (is_ok (generate_fn m z t None) = true <-> (t < dm_steps m)%nat /\ fits m b c rest (call m z t)).
Proof.
  intros m z t b c rest Hz. cbn [generate_fn]. unfold p_mean_variance, call, fits, network_timestep. rewrite Hz. cbn [hd].
  unfold in_process, dm_steps. destruct (Nat.ltb_spec t (length (betas (diffusion m)))) as [L|L]; cbn [bind]; [|cbn; split; [discriminate|lia]].
  unfold same_shape. match goal with |- context [list_eq_dec ?d ?a ?b] => destruct (list_eq_dec d a b) as [E|E] end; cbn [is_ok]; split; intro H; try tauto; try discriminate; destruct H; try contradiction.
Qed.
Theorem C98_network_call : forall net net' p ul cl z t,
  call (mkDm net p ul cl) z t = call (mkDm net' p ul cl) z t ->
  generate_fn (mkDm net p ul cl) z t None = generate_fn (mkDm net' p ul cl) z t None.
Proof.
  intros net net' p ul cl z t H. cbn [generate_fn]. unfold p_mean_variance. destruct (tshape z) as [|b [|c rest]] eqn:Ez; [reflexivity|reflexivity|].
  unfold call in H. rewrite Ez in H. cbn [hd network diffusion clip_denoised] in *. unfold network_timestep. cbn zeta in *. rewrite H. reflexivity.
Qed.
Print Assumptions C98_prior_accepts. Print Assumptions C98_network_call.

(** Its mean is the posterior's mean for some image, which is within [-1, 1] if clipping is on. *)
Lemma clamp1_range v : -1 <= clamp1 v <= 1.
Proof. unfold clamp1. split; [apply Rmin_glb; [lra|apply Rmax_l]|apply Rmin_l]. Qed.
Lemma clamp1_id v : -1 <= v <= 1 -> clamp1 v = v.
Proof. intro H. unfold clamp1. rewrite Rmax_right, Rmin_right by lra. reflexivity. Qed.
Theorem C98_prior_mean : forall m z t p, generate_fn m z t None = Ok p ->
  tshape (g_mean p) = tshape z /\ tshape (g_stdd p) = tshape z /\
  exists x q, tshape x = tshape z /\ (clip_denoised m = true -> forall idx, -1 <= tat x idx <= 1) /\
  generate_fn m z t (Some x) = Ok q /\ forall idx, tat (g_mean p) idx = tat (g_mean q) idx.
Proof.
  intros m z t p H. cbn [generate_fn] in H. unfold p_mean_variance in H. destruct (tshape z) as [|b [|c rest]] eqn:Ez; [discriminate|discriminate|].
  destruct (in_process (diffusion m) t) as [[]|e] eqn:IP; cbn [bind] in H; [|discriminate].
  destruct (same_shape _ _) in H; [|discriminate]. injection H as <-. split; [reflexivity|]. split; [reflexivity|].
  set (out := network m z (repeat (network_timestep (diffusion m) t) b)) in *.
  exists (mkT (b :: c :: rest) (fun idx => match mean_kind (diffusion m) with
    | StartX => if clip_denoised m then clamp1 (tat out idx) else tat out idx
    | Epsilon => if clip_denoised m then clamp1 (xstart_from_eps (betas (diffusion m)) t (tat z idx) (tat out idx)) else xstart_from_eps (betas (diffusion m)) t (tat z idx) (tat out idx) end)).
  eexists. split; [reflexivity|]. split; [intros -> idx; cbn [tat]; destruct (mean_kind (diffusion m)); apply clamp1_range|].
  split; [unfold generate_fn, same_shape; cbn [tshape]; rewrite Ez; destruct (list_eq_dec Nat.eq_dec (b :: c :: rest) (b :: c :: rest)) as [_|N]; [|congruence]; rewrite IP; reflexivity|].
  intro idx. reflexivity.
Qed.
Print Assumptions C98_prior_mean.

(** A network that is right about the data (or about the noise in the latent) makes it the
    posterior's mean for the data; with the small fixed variance the whole prior is the
    posterior, so such a step costs no bits. *)
Definition right_about (m : diffusion_model) (x z : tensor R) (t : nat) (idx : list nat) : Prop :=
  let a := signal (betas (diffusion m)) (S t) in
  match mean_kind (diffusion m) with
  | StartX => tat (call m z t) idx = tat x idx
  | Epsilon => tat z idx = sqrt a * tat x idx + sqrt (1 - a) * tat (call m z t) idx
  end.
Theorem C98_right_network : forall m x z t p q idx, schedule (betas (diffusion m)) ->
  (clip_denoised m = true -> -1 <= tat x idx <= 1) -> right_about m x z t idx ->
  generate_fn m z t None = Ok p -> generate_fn m z t (Some x) = Ok q ->
  tat (g_mean p) idx = tat (g_mean q) idx /\
  (var_kind (diffusion m) = FixedSmall -> tat (g_stdd p) idx = tat (g_stdd q) idx).
Proof.
  intros m x z t p q idx Sc Cl Rt Hp Hq. cbn [generate_fn] in Hp, Hq. unfold p_mean_variance in Hp.
  destruct (tshape z) as [|b [|c rest]] eqn:Ez; [discriminate|discriminate|].
  unfold in_process in *. destruct (Nat.ltb_spec t (length (betas (diffusion m)))) as [L|L]; cbn [bind] in *; [|discriminate].
  destruct (same_shape _ _) in Hp; [|discriminate]. destruct (same_shape _ _) in Hq; [|discriminate].
  injection Hp as <-. cbn [bind] in Hq. injection Hq as <-.
  cbn [gaussian_params g_mean g_stdd tat]. split.
  - f_equal. unfold right_about, call in Rt. rewrite Ez in Rt. cbn [hd] in Rt. unfold network_timestep. cbn zeta in *.
    set (out := network m z _) in *. set (bs := betas (diffusion m)) in *.
    assert (E : match mean_kind (diffusion m) with Epsilon => xstart_from_eps bs t (tat z idx) (tat out idx) | StartX => tat out idx end = tat x idx).
    { destruct (mean_kind (diffusion m)); [|exact Rt]. unfold xstart_from_eps. rewrite (acp_signal bs t L), Rt.
      pose proof (signal_lt bs (S t) Sc ltac:(lia)) as Sg. set (a := signal bs (S t)) in *. clearbody a.
      assert (P : 0 < sqrt a) by (apply sqrt_lt_R0; lra).
      replace (1 / a - 1) with ((1 - a) / a) by (field; lra). rewrite !sqrt_div by lra. rewrite sqrt_1.
      field. lra. }
    destruct (mean_kind (diffusion m)); rewrite E; (destruct (clip_denoised m); [rewrite clamp1_id by (apply Cl; reflexivity)|]; reflexivity).
  - intros ->. reflexivity.
Qed.
Print Assumptions C98_right_network.

(** The standard deviations: always positive, but for the first step with the small fixed
    variance (unless the logarithm is used). *)
Theorem C98_prior_stdd : forall m z t p, schedule (betas (diffusion m)) -> (2 <= dm_steps m)%nat ->
  generate_fn m z t None = Ok p -> forall idx,
  ((var_kind (diffusion m) = FixedSmall /\ use_log_variance m = false /\ t = 0%nat) -> tat (g_stdd p) idx = 0) /\
  (~ (var_kind (diffusion m) = FixedSmall /\ use_log_variance m = false /\ t = 0%nat) -> 0 < tat (g_stdd p) idx).
Proof.
  intros m z t p Sc HT Hp idx. cbn [generate_fn] in Hp. unfold p_mean_variance in Hp.
  destruct (tshape z) as [|b [|c rest]] eqn:Ez; [discriminate|discriminate|].
  unfold in_process in *. unfold dm_steps in HT. destruct (Nat.ltb_spec t (length (betas (diffusion m)))) as [L|L]; cbn [bind] in *; [|discriminate].
  destruct (same_shape _ _) in Hp; [|discriminate]. injection Hp as <-. cbn [gaussian_params g_stdd tat]. set (bs := betas (diffusion m)) in *.
  pose proof (beta_range bs t Sc L) as B. pose proof (post_var_pos bs 1 Sc ltac:(lia)) as P1. split.
  - intros (-> & -> & ->). unfold posterior_variance. replace (acp_prev_at bs 0) with 1 by reflexivity.
    replace (beta_at bs 0 * (1 - 1) / (1 - acp_at bs 0)) with 0 by (unfold Rdiv; ring). apply sqrt_0.
  - intro N. destruct (use_log_variance m) eqn:U; [apply exp_pos|]. apply sqrt_lt_R0. destruct (var_kind (diffusion m)) eqn:K.
    + destruct (Nat.eqb t 0); lra.
    + destruct t as [|t]; [exfalso; apply N; tauto|]. apply post_var_pos; [exact Sc|lia].
    + apply exp_pos.
Qed.
Print Assumptions C98_prior_stdd.

(** After the first step it lies between the posterior's and the one of the noising step; for
    a learned variance if the network's answer is within [-1, 1], linearly in the logarithm. *)
Theorem C98_prior_variance : forall m z t p b c rest, schedule (betas (diffusion m)) -> tshape z = b :: c :: rest -> (1 <= t)%nat ->
  generate_fn m z t None = Ok p -> forall i k l,
  let sd := tat (g_stdd p) (i :: k :: l) in
  let v := tat (call m z t) (i :: (c + k)%nat :: l) in
  let lo := posterior_variance (betas (diffusion m)) t in let hi := beta_at (betas (diffusion m)) t in
  0 < lo <= hi /\
  match var_kind (diffusion m) with
  | FixedLarge => sd ^ 2 = hi
  | FixedSmall => sd ^ 2 = lo
  | LearnedRange => ln (sd ^ 2) = ln lo + (v + 1) / 2 * (ln hi - ln lo) /\ (-1 <= v <= 1 -> lo <= sd ^ 2 <= hi)
  end.
Proof.
  intros m z t p b c rest Sc Ez Ht Hp i k l. cbn [generate_fn] in Hp. unfold p_mean_variance in Hp. rewrite Ez in Hp.
  unfold in_process in *. destruct (Nat.ltb_spec t (length (betas (diffusion m)))) as [L|L]; cbn [bind] in *; [|discriminate].
  destruct (same_shape _ _) in Hp; [|discriminate]. injection Hp as <-. cbn [gaussian_params g_stdd tat]. set (bs := betas (diffusion m)) in *.
  unfold call. rewrite Ez. cbn [hd]. unfold network_timestep. cbn zeta. set (out := network m z _). cbn [second_half].
  pose proof (beta_range bs t Sc L) as B. pose proof (post_var_pos bs t Sc ltac:(lia)) as P. pose proof (post_var_le bs t Sc L) as PL.
  split; [lra|]. unfold posterior_log_variance_clipped. destruct (Nat.eqb_spec t 0) as [E|E]; [lia|].
  assert (SQ : forall v, 0 < v -> (if use_log_variance m then exp (1 / 2 * ln v) else sqrt v) ^ 2 = v).
  { intros v Hv. destruct (use_log_variance m); [rewrite sqrt_exp_ln by exact Hv|]; rewrite <- Rsqr_pow2; apply Rsqr_sqrt; lra. }
  destruct (var_kind (diffusion m)); [apply SQ; lra|apply SQ; lra|].
  set (v := tat out (i :: (c + k)%nat :: l)).
  set (lv := (v + 1) / 2 * ln (beta_at bs t) + (1 - (v + 1) / 2) * ln (posterior_variance bs t)).
  assert (S2 : (if use_log_variance m then exp (1 / 2 * lv) else sqrt (exp lv)) ^ 2 = exp lv).
  { rewrite half_exp. destruct (use_log_variance m); rewrite <- Rsqr_pow2; apply Rsqr_sqrt; left; apply exp_pos. }
  rewrite S2, ln_exp. split; [unfold lv; ring|]. intro V.
  assert (LL : ln (posterior_variance bs t) <= ln (beta_at bs t)).
  { destruct PL as [PL|PL]; [left; apply ln_increasing; lra|rewrite PL; lra]. }
  assert (IV : ln (posterior_variance bs t) <= lv <= ln (beta_at bs t)) by (unfold lv; split; nra).
  split.
  - rewrite <- (exp_ln (posterior_variance bs t)) by lra. destruct (proj1 IV) as [G|G]; [left; apply exp_increasing, G|rewrite G; lra].
  - rewrite <- (exp_ln (beta_at bs t)) at 1 by lra. destruct (proj2 IV) as [G|G]; [left; apply exp_increasing, G|rewrite G; lra].
Qed.
Print Assumptions C98_prior_variance.
(** At the first step the clipped variance of the second step stands in for the posterior's,
    which is 0; it too is at most that of the noising step. *)
Lemma post_var_first bs : schedule bs -> (2 <= length bs)%nat -> posterior_variance bs 1 <= beta_at bs 0.
Proof.
  intros Sc L. unfold posterior_variance. rewrite acp_signal, prev_signal, !signal_S by lia.
  pose proof (beta_range bs 0 Sc ltac:(lia)) as B0. pose proof (beta_range bs 1 Sc ltac:(lia)) as B1. replace (signal bs 0) with 1 by reflexivity.
  set (x := beta_at bs 0) in *. set (y := beta_at bs 1) in *.
  apply Rmult_le_reg_r with (1 - 1 * (1 - x) * (1 - y)); [nra|]. unfold Rdiv. rewrite Rmult_assoc, Rinv_l by nra. nra.
Qed.
Theorem C98_first_variance : forall m z p b c rest, schedule (betas (diffusion m)) -> (2 <= dm_steps m)%nat -> tshape z = b :: c :: rest ->
  generate_fn m z 0 None = Ok p -> forall i k l,
  let sd := tat (g_stdd p) (i :: k :: l) in
  let v := tat (call m z 0) (i :: (c + k)%nat :: l) in
  let lo := posterior_variance (betas (diffusion m)) 1 in let hi := beta_at (betas (diffusion m)) 0 in
  0 < lo <= hi /\
  match var_kind (diffusion m) with
  | FixedLarge => sd ^ 2 = lo
  | FixedSmall => sd ^ 2 = if use_log_variance m then lo else 0
  | LearnedRange => ln (sd ^ 2) = ln lo + (v + 1) / 2 * (ln hi - ln lo) /\ (-1 <= v <= 1 -> lo <= sd ^ 2 <= hi)
  end.
Proof.
  intros m z p b c rest Sc HT Ez Hp i k l. cbn [generate_fn] in Hp. unfold p_mean_variance in Hp. rewrite Ez in Hp.
  unfold in_process, dm_steps in *. destruct (Nat.ltb_spec 0 (length (betas (diffusion m)))) as [L|L]; cbn [bind] in *; [|discriminate].
  destruct (same_shape _ _) in Hp; [|discriminate]. injection Hp as <-. cbn [gaussian_params g_stdd tat]. set (bs := betas (diffusion m)) in *.
  unfold call. rewrite Ez. cbn [hd]. unfold network_timestep. cbn zeta. set (out := network m z _). cbn [second_half].
  pose proof (beta_range bs 0 Sc L) as B. pose proof (post_var_pos bs 1 Sc ltac:(lia)) as P. pose proof (post_var_first bs Sc HT) as PL.
  split; [lra|]. unfold posterior_log_variance_clipped. cbn [Nat.eqb].
  assert (SQ : forall v, 0 < v -> (if use_log_variance m then exp (1 / 2 * ln v) else sqrt v) ^ 2 = v).
  { intros v Hv. destruct (use_log_variance m); [rewrite sqrt_exp_ln by exact Hv|]; rewrite <- Rsqr_pow2; apply Rsqr_sqrt; lra. }
  destruct (var_kind (diffusion m)); [apply SQ; lra| |].
  { specialize (SQ _ P). destruct (use_log_variance m); [exact SQ|].
    unfold posterior_variance. replace (acp_prev_at bs 0) with 1 by reflexivity.
    replace (beta_at bs 0 * (1 - 1) / (1 - acp_at bs 0)) with 0 by (unfold Rdiv; ring). rewrite sqrt_0. ring. }
  set (v := tat out (i :: (c + k)%nat :: l)).
  set (lv := (v + 1) / 2 * ln (beta_at bs 0) + (1 - (v + 1) / 2) * ln (posterior_variance bs 1)).
  assert (S2 : (if use_log_variance m then exp (1 / 2 * lv) else sqrt (exp lv)) ^ 2 = exp lv).
  { rewrite half_exp. destruct (use_log_variance m); rewrite <- Rsqr_pow2; apply Rsqr_sqrt; left; apply exp_pos. }
  rewrite S2, ln_exp. split; [unfold lv; ring|]. intro V.
  assert (LL : ln (posterior_variance bs 1) <= ln (beta_at bs 0)).
  { destruct PL as [PL|PL]; [left; apply ln_increasing; lra|rewrite PL; lra]. }
  assert (IV : ln (posterior_variance bs 1) <= lv <= ln (beta_at bs 0)) by (unfold lv; split; nra).
  split.
  - rewrite <- (exp_ln (posterior_variance bs 1)) by lra. destruct (proj1 IV) as [G|G]; [left; apply exp_increasing, G|rewrite G; lra].
  - rewrite <- (exp_ln (beta_at bs 0)) at 1 by lra. destruct (proj2 IV) as [G|G]; [left; apply exp_increasing, G|rewrite G; lra].
Qed.
Print Assumptions C98_first_variance.

(** What is refused: a step that the process does not have, data of another shape. *)
Theorem C98_step_refused : forall m z t,
  (forall b c rest, tshape z = b :: c :: rest -> (dm_steps m <= t)%nat -> generate_fn m z t None = Raise IndexError) /\
  (forall x, tshape x = tshape z -> (dm_steps m <= t)%nat -> generate_fn m z t (Some x) = Raise IndexError) /\
  (forall x, tshape x <> tshape z -> generate_fn m z t (Some x) = Raise AssertionError).
Proof.
  intros m z t. assert (I : (dm_steps m <= t)%nat -> in_process (diffusion m) t = Raise IndexError).
  { intro H. unfold in_process, dm_steps in *. destruct (Nat.ltb_spec t (length (betas (diffusion m)))); [lia|reflexivity]. }
  split; [|split].
  - intros b c rest Ez H. cbn [generate_fn]. unfold p_mean_variance. rewrite Ez, I by exact H. reflexivity.
  - intros x Ex H. cbn [generate_fn]. unfold same_shape. destruct (list_eq_dec _ _ _) as [_|N]; [|contradiction]. rewrite I by exact H. reflexivity.
  - intros x Ex. cbn [generate_fn]. unfold same_shape. destruct (list_eq_dec _ _ _) as [N|_]; [contradiction|reflexivity].
Qed.
Print Assumptions C98_step_refused.

(** ** How the process is built *)
Lemma good_beta_iff b : good_beta b = true <-> 0 < b <= 1.
Proof. unfold good_beta. destruct (Rlt_dec 0 b); [destruct (Rle_dec b 1)|]; split; intro H; try reflexivity; try discriminate; lra. Qed.
Lemma check_ok bs : schedule bs -> check_betas bs = if (length bs <? 2)%nat then Raise IndexError else Ok tt.
Proof.
  intro Sc. unfold check_betas. assert (F : forallb good_beta bs = true); [|rewrite F; reflexivity].
  apply forallb_forall. intros b I. apply good_beta_iff. unfold schedule in Sc. rewrite Forall_forall in Sc. specialize (Sc b I). lra.
Qed.
Lemma check_bad bs : Exists (fun b => 1 < b) bs -> check_betas bs = Raise AssertionError.
Proof.
  intro E. unfold check_betas. assert (F : forallb good_beta bs = false); [|rewrite F; reflexivity].
  apply not_true_is_false. intro F. rewrite forallb_forall in F. apply Exists_exists in E. destruct E as (b & I & H).
  specialize (F b I). apply good_beta_iff in F. lra.
Qed.
Definition kept (use : list Z) (i n : nat) : list nat := filter (fun k => existsb (Z.eqb (Z.of_nat k)) use) (seq i n).
Lemma existsb_in k use : existsb (Z.eqb k) use = true <-> In k use.
Proof. rewrite existsb_exists. split; [intros (y & I & E); apply Z.eqb_eq in E; subst y; exact I|intro I; exists k; split; [exact I|apply Z.eqb_refl]]. Qed.
Lemma respace_spec use l : forall i last, 0 < last -> StronglySorted Rgt (last :: l) -> Forall (fun a => 0 < a) l ->
  let '(bs, ts) := respace use i last l in
  ts = kept use i (length l) /\ schedule bs /\ length bs = length ts /\ cumprod last bs = map (fun k => nth (k - i) l 0) ts.
Proof.
  induction l as [|a l IH]; intros i last Hl So Po; cbn [respace].
  - split; [reflexivity|]. split; [constructor|]. split; reflexivity.
  - inversion Po as [|? ? Ha Po']; subst. inversion So as [|? ? So' Fl]; subst. inversion Fl as [|? ? La Fl']; subst.
    unfold kept. cbn [length seq filter].
    assert (SH : forall ts, (forall k, In k ts -> (S i <= k)%nat) -> map (fun k => nth (k - S i) l 0) ts = map (fun k => nth (k - i) (a :: l) 0) ts).
    { intros ts H. apply map_ext_in. intros k I. specialize (H k I). replace (k - i)%nat with (S (k - S i)) by lia. reflexivity. }
    assert (KS : forall n k, In k (kept use (S i) n) -> (S i <= k)%nat) by (intros n k I; apply filter_In in I; destruct I as [I _]; apply in_seq in I; lia).
    destruct (existsb (Z.eqb (Z.of_nat i)) use) eqn:E.
    + specialize (IH (S i) a Ha So' Po'). destruct (respace use (S i) a l) as [bs ts]. destruct IH as (-> & Sb & Lb & Cb).
      split; [reflexivity|]. split.
      { constructor; [|exact Sb]. assert (0 < a / last) by (apply Rmult_lt_0_compat; [exact Ha|apply Rinv_0_lt_compat, Hl]).
        assert (a / last < 1) by (apply Rmult_lt_reg_r with last; [exact Hl|]; unfold Rdiv; rewrite Rmult_assoc, Rinv_l by lra; lra). lra. }
      split; [cbn [length]; f_equal; exact Lb|]. cbn [cumprod map]. replace (last * (1 - (1 - a / last))) with a by (field; lra).
      rewrite Nat.sub_diag. cbn [nth]. f_equal. rewrite Cb. apply SH, KS.
    + assert (So2 : StronglySorted Rgt (last :: l)).
      { constructor; [inversion So'; assumption|exact Fl']. }
      specialize (IH (S i) last Hl So2 Po'). destruct (respace use (S i) last l) as [bs ts]. destruct IH as (-> & Sb & Lb & Cb).
      split; [reflexivity|]. split; [exact Sb|]. split; [exact Lb|]. rewrite Cb. apply SH, KS.
Qed.
Lemma cumprod_sorted l : schedule l -> forall acc, 0 < acc -> StronglySorted Rgt (acc :: cumprod acc l) /\ Forall (fun a => 0 < a) (cumprod acc l).
Proof.
  induction 1 as [|b l B Sc IH]; intros acc H; cbn [cumprod]; [split; repeat constructor|].
  assert (P : 0 < acc * (1 - b)) by (apply Rmult_lt_0_compat; lra). destruct (IH _ P) as [So Po]. split; [|constructor; assumption].
  constructor; [exact So|]. assert (G : acc > acc * (1 - b)) by nra. constructor; [exact G|]. inversion So as [|? ? _ F]; subst.
  eapply Forall_impl; [|exact F]. cbn. intros a Ha. lra.
Qed.

(** The process built from a schedule and a respacing: exactly the asked timesteps are kept,
    in order, and the k-th noise level is the original one at the k-th kept timestep; the
    options choose what the network predicts.  Fewer than two kept timesteps are refused. *)
Theorem C98_create : forall o bs use,
  let n := o_steps o in
  named_betas (noise_schedule o) n = Ok bs -> schedule bs -> (2 <= length bs)%nat ->
  space_timesteps b64 (Z.of_nat n) (match timestep_respacing o with None => Sections [Z.of_nat n] | Some r => r end) = Ok use ->
  exists ts, StronglySorted lt ts /\ (forall k, In k ts <-> (k < length bs)%nat /\ In (Z.of_nat k) use) /\
  ((length ts < 2)%nat -> create_gaussian_diffusion o = Raise IndexError) /\
  ((2 <= length ts)%nat -> exists p, create_gaussian_diffusion o = Ok p /\
     timestep_map p = ts /\ schedule (betas p) /\ length (betas p) = length ts /\ original_steps p = length bs /\
     (forall k, (k < length ts)%nat -> signal (betas p) (S k) = signal bs (S (nth k ts 0%nat))) /\
     (mean_kind p = StartX <-> predict_xstart o = true) /\
     (var_kind p = LearnedRange <-> learn_sigma o = true) /\
     (var_kind p = FixedSmall <-> learn_sigma o = false /\ sigma_small o = true) /\
     (loss_kind p = RescaledKl <-> use_kl o = true) /\
     (loss_kind p = RescaledMse <-> use_kl o = false /\ rescale_learned_sigmas o = true) /\
     rescale p = rescale_timesteps o).
Proof.
  intros o bs use n Hb Sc L2 Hu. exists (kept use 0 (length bs)). split; [|split].
  - unfold kept. generalize (length bs) as m. intro m. generalize 0%nat as i. induction m as [|m IH]; intro i; cbn [seq filter]; [constructor|].
    destruct (existsb _ use); [|apply IH]. constructor; [apply IH|]. apply Forall_forall. intros k I. apply filter_In in I. destruct I as [I _]. apply in_seq in I. lia.
  - intro k. unfold kept. rewrite filter_In, in_seq, existsb_in. split; intros [H1 H2]; (split; [lia|exact H2]).
  - unfold create_gaussian_diffusion. fold n. rewrite Hb. cbn [bind]. cbn zeta. rewrite Hu. cbn [bind]. rewrite (check_ok bs Sc).
    destruct (Nat.ltb_spec (length bs) 2) as [X|_]; [lia|]. cbn [bind].
    destruct (cumprod_sorted bs Sc 1 Rlt_0_1) as [So Po].
    pose proof (respace_spec use (cumprod 1 bs) 0 1 Rlt_0_1 So Po) as RS. destruct (respace use 0 1 (cumprod 1 bs)) as [nb ts].
    rewrite cumprod_length in RS. destruct RS as (-> & Sb & Lb & Cb). rewrite (check_ok nb Sb), Lb. split.
    + intro H. apply Nat.ltb_lt in H. rewrite H. reflexivity.
    + intro H. destruct (Nat.ltb_spec (length (kept use 0 (length bs))) 2) as [X|_]; [lia|]. cbn [bind]. eexists. split; [reflexivity|].
      cbn [timestep_map betas original_steps mean_kind var_kind loss_kind rescale].
      split; [reflexivity|]. split; [exact Sb|]. split; [exact Lb|]. split; [reflexivity|]. split.
      { intros k Hk. set (ts := kept use 0 (length bs)) in *.
        assert (E : nth k (cumprod 1 nb) 0 = nth (nth k ts 0%nat) (cumprod 1 bs) 0).
        { rewrite Cb. rewrite (nth_indep _ 0 (nth (0 - 0) (cumprod 1 bs) 0)) by (rewrite map_length; exact Hk).
          rewrite (map_nth (fun k => nth (k - 0) (cumprod 1 bs) 0)). rewrite Nat.sub_0_r. reflexivity. }
        assert (K : forall q, In q ts -> (q < length bs)%nat) by (intros q I; apply filter_In in I; destruct I as [I _]; apply in_seq in I; lia).
        specialize (K _ (nth_In ts 0%nat Hk)).
        rewrite !cumprod_nth in E by lia. lra. }
      destruct (predict_xstart o), (learn_sigma o), (sigma_small o), (use_kl o), (rescale_learned_sigmas o); cbn; repeat split; intros; try discriminate; try tauto; intuition discriminate.
Qed.
Print Assumptions C98_create.

(** Without respacing every timestep is kept and the schedule is the named one. *)
Lemma cumprod_inj l : forall l' acc, 0 < acc -> schedule l -> schedule l' -> cumprod acc l = cumprod acc l' -> l = l'.
Proof.
  induction l as [|b l IH]; intros [|b' l'] acc Ha Sc Sc' E; cbn [cumprod] in E; try discriminate; [reflexivity|].
  injection E as E1 E2. assert (b = b') by (apply Rmult_eq_reg_l in E1; lra). subst b'. f_equal.
  inversion Sc; inversion Sc'; subst. apply (IH l' (acc * (1 - b))); try assumption. apply Rmult_lt_0_compat; lra.
Qed.
Lemma all_kept N l : (0 <= N)%Z -> NoDup l -> Forall (fun x => (0 <= x < N)%Z) l -> Z.of_nat (length l) = N -> forall x, (0 <= x < N)%Z -> In x l.
Proof.
  intros HN ND F L x Hx. assert (I : incl (range N) l); [|apply I, in_range, Hx].
  apply NoDup_length_incl; [exact ND| |].
  - pose proof (range_length N HN). lia.
  - intros y Iy. apply in_range. rewrite Forall_forall in F. apply F, Iy.
Qed.
Theorem C98_default : forall o bs, (Z.of_nat (o_steps o) <= 2 ^ 24)%Z -> timestep_respacing o = None ->
  named_betas (noise_schedule o) (o_steps o) = Ok bs -> schedule bs -> (2 <= o_steps o)%nat ->
  exists p, create_gaussian_diffusion o = Ok p /\ betas p = bs /\ timestep_map p = seq 0 (o_steps o).
Proof.
  intros o bs HN Hr Hb Sc L2. set (n := o_steps o) in *.
  assert (Lb : length bs = n).
  { unfold named_betas in Hb. destruct (String.eqb _ _); [destruct (Nat.eqb n 0); [discriminate|]|destruct (String.eqb _ _); [|discriminate]]; injection Hb as <-; unfold linear_betas, cosine_betas; rewrite map_length; apply seq_length. }
  destruct (C23_sections (Z.of_nat n) [Z.of_nat n]) as (use & Hu & So & F & Sz & _); [lia|discriminate| |].
  { intros [|j] Hj; [|cbn in Hj; lia]. cbn [nth length]. change (Z.of_nat 1) with 1%Z. rewrite section_size_1. lia. }
  assert (ND : NoDup use) by (apply incr_NoDup, So).
  assert (Lu : Z.of_nat (length use) = Z.of_nat n).
  { unfold set_size in Sz. rewrite nodup_fixed_point in Sz by exact ND. rewrite Sz. unfold total. cbn. lia. }
  unfold create_gaussian_diffusion. fold n. rewrite Hb. cbn [bind]. cbn zeta. rewrite Hr, Hu. cbn [bind]. rewrite (check_ok bs Sc).
  destruct (Nat.ltb_spec (length bs) 2) as [X|_]; [lia|]. cbn [bind].
  destruct (cumprod_sorted bs Sc 1 Rlt_0_1) as [So' Po].
  pose proof (respace_spec use (cumprod 1 bs) 0 1 Rlt_0_1 So' Po) as RS. destruct (respace use 0 1 (cumprod 1 bs)) as [nb ts'].
  rewrite cumprod_length, Lb in RS. destruct RS as (-> & Sb & Lnb & Cb).
  assert (K : kept use 0 n = seq 0 n).
  { unfold kept. apply filter_all, Forall_forall. intros k I. apply in_seq in I. apply existsb_in, (all_kept (Z.of_nat n)); [lia|exact ND|exact F|exact Lu|lia]. }
  rewrite K in *. rewrite (check_ok nb Sb), Lnb, seq_length. destruct (Nat.ltb_spec n 2) as [X|_]; [lia|]. cbn [bind].
  eexists. split; [reflexivity|]. cbn [betas timestep_map]. split; [|reflexivity].
  apply (cumprod_inj nb bs 1 Rlt_0_1 Sb Sc). rewrite Cb. apply nth_ext with (d := 0) (d' := 0); [rewrite map_length, seq_length, cumprod_length; lia|].
  intros k Hk. rewrite map_length, seq_length in Hk. rewrite (nth_indep _ 0 (nth (0 - 0) (cumprod 1 bs) 0)) by (rewrite map_length, seq_length; exact Hk).
  rewrite (map_nth (fun k => nth (k - 0) (cumprod 1 bs) 0)), seq_nth by exact Hk. rewrite Nat.sub_0_r. reflexivity.
Qed.
Print Assumptions C98_default.

(** The named schedules: the cosine one is a schedule for every number of steps, the linear
    one exactly for more than 20; with fewer it is refused, and other names always. *)
Lemma angle_range t : 0 <= t <= 1 -> 0 < (t + 8 / 1000) / (1008 / 1000) * PI / 2 <= PI / 2.
Proof. intro H. pose proof PI_RGT_0. split; [|]; [|assert ((t + 8 / 1000) / (1008 / 1000) <= 1) by lra; nra]. assert (0 < (t + 8 / 1000) / (1008 / 1000)) by lra. nra. Qed.
Lemma alpha_bar_decr s t : 0 <= s -> s < t -> t <= 1 -> 0 <= alpha_bar t < alpha_bar s.
Proof.
  intros H1 H2 H3. unfold alpha_bar. pose proof (angle_range s ltac:(lra)). pose proof (angle_range t ltac:(lra)). pose proof PI_RGT_0.
  set (x := (s + 8 / 1000) / (1008 / 1000) * PI / 2) in *. set (y := (t + 8 / 1000) / (1008 / 1000) * PI / 2) in *.
  assert (x < y) by (unfold x, y; nra).
  assert (0 <= cos y) by (apply cos_ge_0; lra). assert (cos y < cos x) by (apply cos_decreasing_1; lra). split; [|]; nra.
Qed.
Theorem C98_cosine_schedule : forall n, schedule (cosine_betas n).
Proof.
  intro n. unfold schedule, cosine_betas. apply Forall_forall. intros b I. apply in_map_iff in I. destruct I as (i & <- & I). apply in_seq in I.
  assert (N : 0 < INR n) by (apply lt_0_INR; lia).
  assert (T : 0 <= INR i / INR n /\ INR i / INR n < INR (i + 1) / INR n /\ INR (i + 1) / INR n <= 1).
  { split; [apply Rmult_le_pos; [apply pos_INR|left; apply Rinv_0_lt_compat, N]|]. split.
    - apply Rmult_lt_compat_r; [apply Rinv_0_lt_compat, N|]. apply lt_INR. lia.
    - apply Rmult_le_reg_r with (INR n); [exact N|]. unfold Rdiv. rewrite Rmult_assoc, Rinv_l by lra. rewrite Rmult_1_l, Rmult_1_r. apply le_INR. lia. }
  destruct T as (T1 & T2 & T3). destruct (alpha_bar_decr _ _ T1 T2 T3) as [A B]. set (a := alpha_bar (INR i / INR n)) in *. set (c := alpha_bar (INR (i + 1) / INR n)) in *.
  assert (Q : c / a < 1) by (apply Rmult_lt_reg_r with a; [lra|]; unfold Rdiv; rewrite Rmult_assoc, Rinv_l by lra; lra).
  split; [apply Rmin_glb_lt; lra|]. eapply Rle_lt_trans; [apply Rmin_r|lra].
Qed.
(** The noise level that the cosine schedule aims at, squared cosine over the part of the
    process that is done, is met as long as no step had to be limited to 0.999; the last step
    always is. *)
Definition aimed (t : R) : R := (cos ((t + 0.008) / 1.008 * (PI / 2))) ^ 2.
Theorem C98_cosine_signal : forall n, (1 <= n)%nat ->
  let bs := cosine_betas n in let share k := INR k / INR n in
  length bs = n /\
  (forall k, (k <= n)%nat -> (forall i, (i < k)%nat -> beta_at bs i < 0.999) -> signal bs k = aimed (share k) / aimed 0) /\
  (forall i, (i < n)%nat -> beta_at bs i <= 0.999 /\
     (beta_at bs i = 0.999 <-> aimed (share (S i)) <= 0.001 * aimed (share i))) /\
  beta_at bs (n - 1) = 0.999.
Proof.
  intros n Hn bs share. assert (N : 0 < INR n) by (apply lt_0_INR; lia).
  assert (AE : forall t, alpha_bar t = aimed t).
  { intro t. unfold alpha_bar, aimed. f_equal. f_equal. lra. }
  assert (Lb : length bs = n) by (unfold bs, cosine_betas; rewrite map_length; apply seq_length).
  assert (SR : forall k, (k <= n)%nat -> 0 <= share k <= 1).
  { intros k K. unfold share. split; [apply Rmult_le_pos; [apply pos_INR|left; apply Rinv_0_lt_compat, N]|].
    apply Rmult_le_reg_r with (INR n); [exact N|]. unfold Rdiv. rewrite Rmult_assoc, Rinv_l by lra. rewrite Rmult_1_l, Rmult_1_r. apply le_INR, K. }
  assert (SL : forall i, share i < share (S i)).
  { intro i. unfold share. apply Rmult_lt_compat_r; [apply Rinv_0_lt_compat, N|]. apply lt_INR. lia. }
  assert (PO : forall i, (i < n)%nat -> 0 <= aimed (share (S i)) < aimed (share i)).
  { intros i I. rewrite <- !AE. apply alpha_bar_decr; [apply SR; lia|apply SL|apply SR; lia]. }
  assert (BE : forall i, (i < n)%nat -> beta_at bs i = Rmin (1 - aimed (share (S i)) / aimed (share i)) 0.999).
  { intros i I. unfold beta_at, bs, cosine_betas. set (f := fun i => _). rewrite (nth_indep _ 0 (f 0%nat)) by (rewrite map_length, seq_length; exact I).
    rewrite map_nth, seq_nth by exact I. unfold f. rewrite !AE. cbn [Nat.add]. replace (i + 1)%nat with (S i) by lia. replace (999 / 1000) with 0.999 by lra. reflexivity. }
  split; [exact Lb|]. split; [|split].
  - induction k as [|k IH]; intros K NB.
    + replace (signal bs 0) with 1 by reflexivity. unfold share. replace (INR 0 / INR n) with 0 by (cbn; field; lra).
      unfold Rdiv. rewrite Rinv_r; [reflexivity|]. pose proof (PO 0%nat ltac:(lia)) as Q. unfold share at 3 in Q.
      replace (INR 0 / INR n) with 0 in Q by (cbn; field; lra). lra.
    + rewrite signal_S by lia. rewrite IH by (try lia; intros; apply NB; lia). specialize (NB k ltac:(lia)). rewrite BE in NB |- * by lia.
      pose proof (PO k ltac:(lia)) as Q. pose proof (PO 0%nat ltac:(lia)) as Q0.
      assert (Z0 : aimed 0 <> 0). { unfold share at 3 in Q0. replace (INR 0 / INR n) with 0 in Q0 by (cbn; field; lra). lra. }
      unfold Rmin in *. destruct (Rle_dec _ _); [|lra]. field. split; [exact Z0|lra].
  - intros i I. rewrite BE by exact I. pose proof (PO i I) as Q. split; [apply Rmin_r|].
    assert (D : aimed (share (S i)) / aimed (share i) * aimed (share i) = aimed (share (S i))) by (field; lra).
    set (r := aimed (share (S i)) / aimed (share i)) in *. unfold Rmin. destruct (Rle_dec _ _) as [H|H]; split; intro E; try lra; nra.
  - rewrite BE by lia. replace (S (n - 1)) with n by lia.
    assert (Z1 : aimed (share n) = 0).
    { unfold share, aimed. replace (INR n / INR n) with 1 by (field; lra). replace ((1 + 0.008) / 1.008 * (PI / 2)) with (PI / 2) by lra. rewrite cos_PI2. ring. }
    rewrite Z1. unfold Rdiv at 1. rewrite Rmult_0_l, Rmin_right by lra. reflexivity.
Qed.
Print Assumptions C98_cosine_signal.
Lemma linear_nth n i : (i < n)%nat -> nth i (linear_betas n) 0 = 1 / 10 * / INR n + INR i * ((199 / 10 * / INR n) / INR (n - 1)).
Proof.
  intro H. unfold linear_betas. set (f := fun i => _). rewrite (nth_indep _ 0 (f 0%nat)) by (rewrite map_length, seq_length; exact H).
  rewrite (map_nth f), seq_nth by exact H. unfold f. cbn [Nat.add]. unfold Rdiv. set (y := / INR n). set (w := / INR (n - 1)). lra.
Qed.
Lemma linear_range n i : (2 <= n)%nat -> (i < n)%nat -> 1 / 10 * / INR n <= nth i (linear_betas n) 0 <= 20 * / INR n.
Proof.
  intros H Hi. rewrite linear_nth by exact Hi. assert (Y : 0 < / INR n) by (apply Rinv_0_lt_compat, lt_0_INR; lia).
  assert (W : 0 < INR (n - 1)) by (apply lt_0_INR; lia). assert (F : 0 <= INR i / INR (n - 1) <= 1).
  { split; [apply Rmult_le_pos; [apply pos_INR|left; apply Rinv_0_lt_compat, W]|].
    apply Rmult_le_reg_r with (INR (n - 1)); [exact W|]. unfold Rdiv. rewrite Rmult_assoc, Rinv_l by lra. rewrite Rmult_1_r, Rmult_1_l. apply le_INR. lia. }
  replace (INR i * (199 / 10 * / INR n / INR (n - 1))) with (199 / 10 * / INR n * (INR i / INR (n - 1))) by (unfold Rdiv; ring).
  set (f := INR i / INR (n - 1)) in *. set (y := / INR n) in *. split; nra.
Qed.
Lemma linear_last n : (2 <= n)%nat -> nth (n - 1) (linear_betas n) 0 = 20 * / INR n.
Proof.
  intro H. rewrite linear_nth by lia. assert (W : 0 < INR (n - 1)) by (apply lt_0_INR; lia). assert (N : 0 < INR n) by (apply lt_0_INR; lia). field. lra.
Qed.
Theorem C98_linear_schedule : forall n, (2 <= n)%nat -> (schedule (linear_betas n) <-> (20 < n)%nat).
Proof.
  intros n H. assert (N : 0 < INR n) by (apply lt_0_INR; lia). assert (Ln : length (linear_betas n) = n) by (unfold linear_betas; rewrite map_length; apply seq_length).
  assert (E20 : INR 20 = 20) by (cbn; lra). split.
  - intro Sc. pose proof (beta_range (linear_betas n) (n - 1) Sc ltac:(lia)) as B. unfold beta_at in B. rewrite linear_last in B by exact H.
    apply INR_lt. rewrite E20. destruct B as [_ B]. apply Rmult_lt_compat_r with (r := INR n) in B; [|exact N]. rewrite Rmult_assoc, Rinv_l in B by lra. lra.
  - intro G. apply Forall_forall. intros b I. apply (In_nth _ _ 0) in I. destruct I as (i & Hi & <-). rewrite Ln in Hi. pose proof (linear_range n i H Hi) as [A B].
    assert (Y : 0 < / INR n) by (apply Rinv_0_lt_compat, N). assert (20 < INR n) by (rewrite <- E20; apply lt_INR, G).
    assert (20 * / INR n < 1) by (apply Rmult_lt_reg_r with (INR n); [exact N|]; rewrite Rmult_assoc, Rinv_l by lra; lra). lra.
Qed.
Print Assumptions C98_cosine_schedule. Print Assumptions C98_linear_schedule.
Theorem C98_create_refused : forall o use,
  let n := o_steps o in
  space_timesteps b64 (Z.of_nat n) (match timestep_respacing o with None => Sections [Z.of_nat n] | Some r => r end) = Ok use ->
  (noise_schedule o <> "linear"%string -> noise_schedule o <> "cosine"%string -> create_gaussian_diffusion o = Raise NotImplementedError) /\
  (noise_schedule o = "linear"%string ->
     (n = 0%nat -> create_gaussian_diffusion o = Raise ZeroDivisionError) /\
     (n = 1%nat -> create_gaussian_diffusion o = Raise IndexError) /\
     ((2 <= n < 20)%nat -> create_gaussian_diffusion o = Raise AssertionError)) /\
  (noise_schedule o = "cosine"%string -> (n < 2)%nat -> create_gaussian_diffusion o = Raise IndexError).
Proof.
  intros o use n Hu. unfold create_gaussian_diffusion. fold n. split; [|split].
  - intros H1 H2. unfold named_betas. apply String.eqb_neq in H1, H2. rewrite H1, H2. reflexivity.
  - intro E. unfold named_betas. rewrite E. cbn [String.eqb Ascii.eqb Bool.eqb]. change (String.eqb "linear" "linear") with true. cbn iota. split; [|split].
    + intros ->. reflexivity.
    + intros Hn. rewrite Hn in *. cbn [Nat.eqb bind]. cbn zeta. rewrite Hu. cbn [bind].
      assert (X : check_betas (linear_betas 1) = Raise IndexError); [|rewrite X; reflexivity].
      rewrite check_ok; [reflexivity|]. constructor; [|constructor]. cbn. lra.
    + intros Hn. destruct (Nat.eqb_spec n 0) as [Z0|_]; [lia|]. cbn [bind]. cbn zeta. rewrite Hu. cbn [bind].
      rewrite check_bad; [reflexivity|]. apply Exists_exists. exists (nth (n - 1) (linear_betas n) 0). split.
      * apply nth_In. unfold linear_betas. rewrite map_length, seq_length. lia.
      * rewrite linear_last by lia. assert (N : 0 < INR n) by (apply lt_0_INR; lia). assert (INR n < 20) by (replace 20 with (INR 20) by (cbn; lra); apply lt_INR; lia).
        apply Rmult_lt_reg_r with (INR n); [exact N|]. rewrite Rmult_assoc, Rinv_l by lra. lra.
  - intros E Hn. unfold named_betas. rewrite E. change (String.eqb "cosine" "linear") with false. change (String.eqb "cosine" "cosine") with true. cbn iota. cbn [bind]. cbn zeta. rewrite Hu. cbn [bind].
    rewrite check_ok by apply C98_cosine_schedule. unfold cosine_betas. rewrite map_length, seq_length. apply Nat.ltb_lt in Hn. rewrite Hn. reflexivity.
Qed.
Print Assumptions C98_create_refused.
(** Twenty linear steps are accepted although the last one leaves no signal: the latent says
    nothing about the data, and the network's noise prediction is divided by zero. *)
Theorem C98_linear_20_refuted : exists bs, named_betas "linear" 20 = Ok bs /\ check_betas bs = Ok tt /\ length bs = 20%nat /\ signal bs 20 = 0.
Proof.
  exists (linear_betas 20). split; [reflexivity|]. assert (Ln : length (linear_betas 20) = 20%nat) by reflexivity. assert (E20 : INR 20 = 20) by (cbn; lra). split; [|split; [exact Ln|]].
  - unfold check_betas. assert (F : forallb good_beta (linear_betas 20) = true); [|rewrite F; reflexivity].
    apply forallb_forall. intros b I. apply (In_nth _ _ 0) in I. destruct I as (i & Hi & <-). rewrite Ln in Hi. apply good_beta_iff.
    pose proof (linear_range 20 i ltac:(lia) Hi) as H. rewrite E20 in H. lra.
  - rewrite signal_S by (rewrite Ln; lia). unfold beta_at. pose proof (linear_last 20 ltac:(lia)) as H. change (20 - 1)%nat with 19%nat in H. rewrite H, E20. replace (1 - 20 * / 20) with 0 by field. ring.
Qed.
Print Assumptions C98_linear_20_refuted.

(** The respacing "vlbN" of a schedule: N steps, the first ones dense, the last one kept. *)
Theorem C98_vlb : forall o bs d, let n := o_steps o in (Z.of_nat n <= 2 ^ 24)%Z ->
  named_betas (noise_schedule o) n = Ok bs -> schedule bs -> timestep_respacing o = Some (Vlb (Z.of_nat d)) ->
  (2 <= d <= n)%nat -> (Z.of_nat n / Z.of_nat d < Z.of_nat d)%Z ->
  exists p, create_gaussian_diffusion o = Ok p /\ length (betas p) = d /\ In (n - 1)%nat (timestep_map p) /\
  (forall k, (Z.of_nat k < Z.of_nat n / Z.of_nat d)%Z -> In k (timestep_map p)) /\
  (forall k, (k < d)%nat -> signal (betas p) (S k) = signal bs (S (nth k (timestep_map p) 0%nat))).
Proof.
  intros o bs d n HN Hb Sc Hr Hd Hq.
  assert (Lb : length bs = n).
  { unfold named_betas in Hb. destruct (String.eqb _ _); [destruct (Nat.eqb n 0); [discriminate|]|destruct (String.eqb _ _); [|discriminate]]; injection Hb as <-; unfold linear_betas, cosine_betas; rewrite map_length; apply seq_length. }
  destruct (C23_vlb (Z.of_nat n) (Z.of_nat d)) as (use & Hu & Sz & F & De & La); [exact HN|lia|exact Hq|].
  pose proof (C98_create o bs use) as C. cbn zeta in C. fold n in C. rewrite Hr in C. destruct (C Hb Sc ltac:(lia) Hu) as (ts & St & It & _ & Hp).
  rewrite Forall_forall in F.
  assert (Lt : length ts = d).
  { unfold set_size in Sz. apply Nat2Z.inj. rewrite <- Sz. f_equal. rewrite <- (map_length Z.of_nat ts).
    apply NoDup_length_eq; [|apply NoDup_nodup|].
    - apply FinFun.Injective_map_NoDup; [intros a b; apply Nat2Z.inj|]. clear - St. induction St as [|x l St IH G]; constructor; [|exact IH].
      intro I. rewrite Forall_forall in G. specialize (G x I). lia.
    - intro x. rewrite nodup_In, in_map_iff. split; [intros (k & <- & I); apply It, I|]. intro I. specialize (F x I). exists (Z.to_nat x).
      rewrite Z2Nat.id by lia. split; [reflexivity|]. apply It. rewrite Z2Nat.id by lia. split; [lia|exact I]. }
  destruct (Hp ltac:(lia)) as (p & Ep & Em & _ & Ln & _ & Sg & _). exists p. split; [exact Ep|]. split; [lia|]. rewrite Em. split; [|split].
  - apply It. split; [lia|]. replace (Z.of_nat (n - 1)) with (Z.of_nat n - 1)%Z by lia. exact La.
  - intros k Hk. assert (I : In (Z.of_nat k) use) by (apply De; lia). apply It. split; [|exact I]. specialize (F _ I). lia.
  - intros k Hk. apply Sg. lia.
Qed.
Print Assumptions C98_vlb.

(** Non-vacuity: the options of config/diffusion/respaced.yaml. *)
Example respaced_yaml : exists p,
  create_gaussian_diffusion (mkOpt 4000 true false "cosine" true false true true (Some (Vlb 100))) = Ok p /\
  length (betas p) = 100%nat /\ In 3999%nat (timestep_map p) /\ In 39%nat (timestep_map p).
Proof.
  destruct (C98_vlb (mkOpt 4000 true false "cosine" true false true true (Some (Vlb 100))) (cosine_betas 4000) 100) as (p & E & L & I & D & _);
    cbn [o_steps noise_schedule timestep_respacing].
  - lia.
  - reflexivity.
  - apply C98_cosine_schedule.
  - reflexivity.
  - lia.
  - reflexivity.
  - exists p. split; [exact E|]. split; [exact L|]. split; [exact I|]. apply D. reflexivity.
Qed.
(** A network that always answers zero, for two-step processes of each kind. *)
Definition half_model (k : var_type) (mk : mean_type) (ul : bool) : diffusion_model :=
  mkDm (fun z _ => mkT (match tshape z with b :: c :: l => b :: (match k with LearnedRange => 2 * c | _ => c end)%nat :: l | l => l end) (fun _ => 0))
       (mkProc [/ 2; / 4] [0; 1]%nat 2 mk k Mse false) ul true.
Example half_model_ok k mk ul : schedule (betas (diffusion (half_model k mk ul))) /\ dm_steps (half_model k mk ul) = 2%nat /\
  is_ok (generate_fn (half_model k mk ul) (mkT [3; 1; 4]%nat (fun _ => 1)) 1 None) = true /\
  is_ok (generate_fn (half_model k mk ul) (mkT [3; 1; 4]%nat (fun _ => 1)) 2 None) = false.
Proof.
  split; [repeat constructor; cbn; lra|]. split; [reflexivity|]. split.
  - apply (C98_prior_accepts _ _ _ 3 1 [4]%nat); [reflexivity|]. split; [cbn; lia|]. destruct k; reflexivity.
  - reflexivity.
Qed.
(** It is right about data that is zero, if it predicts the data. *)
Example half_model_right ul : right_about (half_model FixedSmall StartX ul) (mkT [3; 1; 4]%nat (fun _ => 0)) (mkT [3; 1; 4]%nat (fun _ => 1)) 1 [0; 0; 0]%nat.
Proof. reflexivity. Qed.

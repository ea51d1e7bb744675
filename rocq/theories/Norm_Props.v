(** C78: channel normalisation and generalised divisive normalisation. *)
From Coq Require Import ZArith Reals List Bool Arith Lra Lia.
From Verif Require Import Base Tensor RBase RSum Norm_Model.
Import ListNotations.
Open Scope R_scope.

(** * ChannelNorm2D *)
Definition average (c : nat) (v : nat -> R) := rsum c v / INR c.
Definition sample_variance (c : nat) (v : nat -> R) := rsum c (fun k => (v k - average c v) ^ 2) / INR (c - 1).

Lemma INR_pred : forall c, (2 <= c)%nat -> INR (c - 1) = INR c - 1 /\ 2 <= INR c.
Proof. intros c C. rewrite minus_INR by lia. pose proof (le_INR 2 c C) as L. cbn in *. lra. Qed.
Lemma var_spec : forall c v, (2 <= c)%nat -> var c v = sample_variance c v /\ 0 <= var c v.
Proof.
  intros c v C. destruct (INR_pred c C) as [E L]. unfold var, sample_variance. rewrite E. split; [reflexivity|].
  apply Rmult_le_pos; [apply rsum_nonneg; intros; apply pow2_ge_0|left; apply Rinv_0_lt_compat; lra].
Qed.
Lemma rsum_ext : forall n f g, (forall i, (i < n)%nat -> f i = g i) -> rsum n f = rsum n g.
Proof. intros n f g E. apply Rle_antisym; apply rsum_le; intros i I; rewrite (E i I); lra. Qed.
Lemma centred : forall c v, (1 <= c)%nat -> rsum c (fun k => v k - mean c v) = 0.
Proof. intros c v C. pose proof (le_INR 1 c C) as L. cbn in L. rewrite rsum_minus, rsum_const. unfold mean. field. lra. Qed.

Theorem C78_channel_norm_init : forall c eps affine,
  ((c <= 1)%nat -> channel_norm_init c eps affine = Raise ValueError) /\ ((2 <= c)%nat -> exists l, channel_norm_init c eps affine = Ok l).
Proof.
  intros c eps affine. unfold channel_norm_init. split; intros H.
  - apply Nat.leb_le in H. rewrite H. reflexivity.
  - destruct (Nat.leb_spec c 1); [lia|]. eexists. reflexivity.
Qed.
(** A new layer, affine or not, gives at every place channels of mean 0 and of variance v / (v + eps), v the
    variance of the image's channels there: nothing else of the image matters, neither other places nor its
    size. *)
Definition column (x : tensor R) (b i j : nat) : nat -> R := fun k => tat x [b; k; i; j]%nat.
Theorem C78_channel_norm : forall c eps affine l x n h w, channel_norm_init c eps affine = Ok l -> 0 < eps -> tshape x = [n; c; h; w]%nat ->
  exists y, channel_norm_forward l x = Ok y /\ tshape y = [n; c; h; w]%nat /\
  forall b i j, (b < n)%nat -> (i < h)%nat -> (j < w)%nat ->
    let v := sample_variance c (column x b i j) in
    average c (column y b i j) = 0 /\ sample_variance c (column y b i j) = v / (v + eps) /\
    forall k, (k < c)%nat -> tat y [b; k; i; j]%nat = (tat x [b; k; i; j]%nat - average c (column x b i j)) / sqrt (v + eps).
Proof.
  intros c eps affine l x n h w I E S. unfold channel_norm_init in I. destruct (Nat.leb_spec c 1) as [|C]; [discriminate|]. injection I as <-.
  unfold channel_norm_forward. rewrite S. cbn [cn_affine cn_eps].
  assert (forall y, tshape y = [n; c; h; w]%nat -> (forall b k i j, tat y [b; k; i; j]%nat = normed eps c (fun k => tat x [b; k; i; j]%nat) k) ->
    forall b i j, let v := sample_variance c (column x b i j) in
    average c (column y b i j) = 0 /\ sample_variance c (column y b i j) = v / (v + eps) /\
    forall k, (k < c)%nat -> tat y [b; k; i; j]%nat = (tat x [b; k; i; j]%nat - average c (column x b i j)) / sqrt (v + eps)) as K.
  { intros y _ Y b i j v. destruct (INR_pred c ltac:(lia)) as [EP L]. destruct (var_spec c (column x b i j) ltac:(lia)) as [VE VP]. rewrite VE in VP. fold v in VP, VE.
    assert (0 < sqrt (v + eps)) as SQ by (apply sqrt_lt_R0; lra).
    assert (forall k, column y b i j k = (column x b i j k - mean c (column x b i j)) * / sqrt (v + eps)) as Z.
    { intros k. unfold column at 1. rewrite Y. unfold normed. fold (column x b i j). rewrite VE. reflexivity. }
    assert (average c (column y b i j) = 0) as A.
    { unfold average. rewrite (rsum_ext c _ (fun k => (column x b i j k - mean c (column x b i j)) * / sqrt (v + eps))) by (intros; apply Z).
      rewrite rsum_scal_r, centred by lia. unfold Rdiv. ring. }
    split; [exact A|]. split.
    - unfold sample_variance at 1. rewrite A. rewrite (rsum_ext c _ (fun k => (column x b i j k - mean c (column x b i j)) ^ 2 * / (v + eps))).
      + rewrite rsum_scal_r. change (mean c (column x b i j)) with (average c (column x b i j)).
        unfold v at 2, sample_variance at 1. field. lra.
      + intros k _. rewrite Z, Rminus_0_r, Rpow_mult_distr. f_equal. rewrite pow_inv. f_equal. apply pow2_sqrt. lra.
    - intros k _. apply (Z k). }
  destruct affine; [rewrite Nat.eqb_refl|].
  - eexists; split; [reflexivity|]; split; [reflexivity|]. intros b i j _ _ _. apply K; [reflexivity|]. intros. cbn [tat]. ring.
  - eexists; split; [reflexivity|]; split; [reflexivity|]. intros b i j _ _ _. apply K; reflexivity.
Qed.
(** With trained parameters channel k is scaled and shifted by its own two; another number of channels is
    refused. *)
Theorem C78_channel_norm_affine : forall eps C g be x n c h w, tshape x = [n; c; h; w]%nat ->
  (C = c -> exists y z, channel_norm_forward (mkCN eps (Some (C, g, be))) x = Ok y /\ channel_norm_forward (mkCN eps None) x = Ok z /\
    tshape y = [n; c; h; w]%nat /\ forall b k i j, tat y [b; k; i; j]%nat = g k * tat z [b; k; i; j]%nat + be k) /\
  (C <> c -> channel_norm_forward (mkCN eps (Some (C, g, be))) x = Raise RuntimeError).
Proof.
  intros eps C g be x n c h w S. unfold channel_norm_forward. rewrite S. cbn [cn_affine cn_eps]. split; intros E.
  - apply Nat.eqb_eq in E. rewrite E. eexists. eexists. split; [reflexivity|]. split; [reflexivity|]. split; reflexivity.
  - apply Nat.eqb_neq in E. rewrite E. reflexivity.
Qed.
(** Values are bounded whatever the image: y^2 <= (c-1)^2 / c. *)
Lemma cauchy_sum : forall n f, rsum n f ^ 2 <= INR n * rsum n (fun i => f i ^ 2).
Proof.
  intros n f. set (m := rsum n f).
  assert (0 <= rsum n (fun i => (INR n * f i - m) ^ 2)) as P by (apply rsum_nonneg; intros; apply pow2_ge_0).
  rewrite (rsum_ext n _ (fun i => INR n ^ 2 * f i ^ 2 + ((- 2 * INR n * m) * f i + m ^ 2))) in P by (intros; ring).
  rewrite rsum_plus, rsum_plus, !rsum_scal, rsum_const in P. fold m in P. set (q := rsum n (fun i => f i ^ 2)) in *.
  destruct n as [|n]; [unfold m; cbn; lra|]. assert (0 < INR (S n)) by (apply lt_0_INR; lia). nra.
Qed.
Lemma rsum_split : forall n f k, (k < n)%nat -> rsum n f = f k + rsum n (fun i => if (i =? k)%nat then 0 else f i).
Proof.
  induction n as [|n IH]; intros f k K; [lia|]. rewrite !rsum_last. destruct (Nat.eq_dec k n) as [->|N].
  - rewrite Nat.eqb_refl. rewrite (rsum_ext n (fun i => if (i =? n)%nat then 0 else f i) f); [ring|]. intros i I. destruct (Nat.eqb_spec i n); [lia|reflexivity].
  - rewrite (IH f k) by lia. destruct (Nat.eqb_spec n k); [lia|]. ring.
Qed.
Lemma cauchy_rest : forall n f k, (k < n)%nat -> rsum n (fun i => if (i =? k)%nat then 0 else f i) ^ 2 <= (INR n - 1) * rsum n (fun i => if (i =? k)%nat then 0 else f i ^ 2).
Proof.
  intros n f k K. set (m := rsum n (fun i => if (i =? k)%nat then 0 else f i)). set (q := rsum n (fun i => if (i =? k)%nat then 0 else f i ^ 2)).
  assert (0 <= rsum n (fun i => if (i =? k)%nat then 0 else ((INR n - 1) * f i - m) ^ 2)) as P.
  { apply rsum_nonneg. intros i _. destruct (i =? k)%nat; [lra|apply pow2_ge_0]. }
  rewrite (rsum_ext n _ (fun i => (INR n - 1) ^ 2 * (if (i =? k)%nat then 0 else f i ^ 2) + ((- 2 * (INR n - 1) * m) * (if (i =? k)%nat then 0 else f i) + m ^ 2 * (if (i =? k)%nat then 0 else 1)))) in P
    by (intros i _; destruct (i =? k)%nat; ring).
  rewrite rsum_plus, rsum_plus, !rsum_scal in P. fold m q in P.
  pose proof (rsum_split n (fun _ => 1) k K) as O. rewrite rsum_const, Rmult_1_r in O. replace (rsum n (fun i => if (i =? k)%nat then 0 else 1)) with (INR n - 1) in P by lra.
  destruct (Nat.eq_dec n 1) as [->|N].
  - assert (k = 0)%nat by lia. subst k. unfold m, q. cbn. lra.
  - pose proof (le_INR 2 n ltac:(lia)) as L. cbn in L. nra.
Qed.
Theorem C78_channel_norm_bound : forall eps x n c h w y, 0 < eps -> (2 <= c)%nat -> tshape x = [n; c; h; w]%nat -> channel_norm_forward (mkCN eps None) x = Ok y ->
  forall b k i j, (b < n)%nat -> (k < c)%nat -> (i < h)%nat -> (j < w)%nat -> tat y [b; k; i; j]%nat ^ 2 <= (INR c - 1) ^ 2 / INR c.
Proof.
  intros eps x n c h w y E C S. unfold channel_norm_forward. rewrite S. cbn [cn_affine cn_eps]. intros Y. injection Y as <-. intros b k i j _ K _ _. cbn [tat].
  unfold normed. set (v := fun k => tat x [b; k; i; j]%nat). destruct (var_spec c v C) as [_ VP]. destruct (INR_pred c C) as [EP L].
  set (d := fun k => v k - mean c v). change (tat x [b; k; i; j]%nat - mean c v) with (d k).
  assert (rsum c d = 0) as D0 by (apply centred; lia). rewrite (rsum_split c d k K) in D0.
  pose proof (cauchy_rest c d k K) as CR. pose proof (rsum_split c (fun i => d i ^ 2) k K) as SQ. cbv beta in SQ.
  set (rest := rsum c (fun i => if (i =? k)%nat then 0 else d i)) in *. set (q := rsum c (fun i => if (i =? k)%nat then 0 else d i ^ 2)) in *.
  assert (var c v = (d k ^ 2 + q) / (INR c - 1)) as VE by (unfold var; fold d; rewrite <- SQ; reflexivity).
  rewrite Rpow_mult_distr, pow_inv, pow2_sqrt by lra. set (s := var c v) in *.
  assert (d k ^ 2 = rest ^ 2) as DR by (replace (d k) with (- rest) by lra; ring).
  assert (d k ^ 2 * INR c <= (INR c - 1) ^ 2 * s).
  { rewrite VE. replace ((INR c - 1) ^ 2 * ((d k ^ 2 + q) / (INR c - 1))) with ((INR c - 1) * (d k ^ 2 + q)) by (field; lra). nra. }
  apply (Rmult_le_reg_r (INR c * (s + eps))); [apply Rmult_lt_0_compat; lra|].
  replace (d k ^ 2 * / (s + eps) * (INR c * (s + eps))) with (d k ^ 2 * INR c) by (field; lra).
  replace ((INR c - 1) ^ 2 / INR c * (INR c * (s + eps))) with ((INR c - 1) ^ 2 * (s + eps)) by (field; lra).
  assert (0 <= (INR c - 1) ^ 2) by apply pow2_ge_0.
  assert (0 <= (INR c - 1) ^ 2 * eps) by (apply Rmult_le_pos; lra). rewrite Rmult_plus_distr_l. lra.
Qed.

(** * SimplifiedGDN *)
(** The layer's formula with gamma at least 0 and beta at least beta_min. *)
Definition denominator (c : nat) (g : nat -> nat -> R) (be : nat -> R) (bmin : R) (v : nat -> R) (i : nat) : R :=
  Rmax (be i) bmin + rsum c (fun j => Rmax (g i j) 0 * Rabs (v j)).
Definition gdn_result (inverse : bool) (c : nat) (g : nat -> nat -> R) (be : nat -> R) (bmin : R) (x : tensor R) (y : res (tensor R)) : Prop :=
  match tshape x with
  | [n; c'; h; w] =>
      if (c' =? c)%nat then exists z, y = Ok z /\ tshape z = [n; c; h; w]%nat /\ forall b k i j, (b < n)%nat -> (k < c)%nat -> (i < h)%nat -> (j < w)%nat ->
        tat z [b; k; i; j]%nat = if inverse then tat x [b; k; i; j]%nat * denominator c g be bmin (column x b i j) k else tat x [b; k; i; j]%nat / denominator c g be bmin (column x b i j) k
      else y = Raise RuntimeError
  | _ => y = Raise RuntimeError
  end.
(** The parameters a history has set at each of its calls. *)
Fixpoint calls (g : nat -> nat -> R) (be : nat -> R) (ops : list gdn_op) : list ((nat -> nat -> R) * (nat -> R) * tensor R) :=
  match ops with
  | [] => []
  | SetParameters g' be' :: ops => calls g' be' ops
  | Call x :: ops => (g, be, x) :: calls g be ops
  end.
Lemma rmax_idem : forall a m, Rmax (Rmax a m) m = Rmax a m.
Proof. intros. apply Rmax_left. apply Rmax_r. Qed.
Lemma forward_spec : forall inverse l g be x, (forall i j, Rmax (gamma l i j) 0 = Rmax (g i j) 0) -> (forall i, Rmax (beta l i) (beta_min l) = Rmax (be i) (beta_min l)) ->
  gdn_result inverse (channels l) g be (beta_min l) x (snd (gdn_forward inverse l x)).
Proof.
  intros inverse l g be x G B. unfold gdn_result, gdn_forward. cbn [snd]. destruct (tshape x) as [|n [|c [|h [|w [|]]]]]; try reflexivity.
  cbn [clamp_parameters channels]. destruct (Nat.eqb_spec c (channels l)) as [->|]; [|reflexivity].
  eexists. split; [reflexivity|]. split; [reflexivity|]. intros b k i j _ _ _ _. cbn [tat].
  assert (conv_abs (clamp_parameters l) (fun k => tat x [b; k; i; j]%nat) k = denominator (channels l) g be (beta_min l) (column x b i j) k) as ->; [|reflexivity].
  unfold conv_abs, denominator, clamp_parameters, clamp_forward. cbn [channels gamma beta]. rewrite B. f_equal. apply rsum_ext. intros m _. rewrite G. reflexivity.
Qed.
(** Whatever the history of a layer, every call gives the formula with the parameters set last: the
    clamping of earlier calls never shows in a result. *)
Theorem C78_gdn_history : forall inverse ops l,
  Forall2 (fun '(g, be, x) y => gdn_result inverse (channels l) g be (beta_min l) x y) (calls (gamma l) (beta l) ops) (snd (gdn_run inverse l ops)).
Proof.
  intros inverse ops.
  assert (forall l g be, (forall i j, Rmax (gamma l i j) 0 = Rmax (g i j) 0) -> (forall i, Rmax (beta l i) (beta_min l) = Rmax (be i) (beta_min l)) ->
    Forall2 (fun '(g, be, x) y => gdn_result inverse (channels l) g be (beta_min l) x y) (calls g be ops) (snd (gdn_run inverse l ops))) as K; [|intros l; apply K; reflexivity].
  induction ops as [|[g' b'|x] ops IH]; intros l g be G B; cbn [gdn_run calls].
  - constructor.
  - apply (IH (mkGdn (channels l) g' b' (beta_min l)) g' b'); reflexivity.
  - destruct (gdn_forward inverse l x) as [l' y] eqn:F. destruct (gdn_run inverse l' ops) as [l'' ys] eqn:Rn. cbn [snd].
    pose proof (forward_spec inverse l g be x G B) as FS. rewrite F in FS. cbn [snd] in FS. constructor; [exact FS|].
    unfold gdn_forward in F. injection F as <- _. specialize (IH (clamp_parameters l) g be). rewrite Rn in IH. cbn [snd] in IH. apply IH.
    + intros i j. cbn. unfold clamp_forward. rewrite rmax_idem. apply G.
    + intros i. cbn. unfold clamp_forward. rewrite rmax_idem. apply B.
Qed.
(** After a call the stored parameters are in their bounds, *)
Theorem C78_gdn_clamped : forall inverse l x, let l' := fst (gdn_forward inverse l x) in
  (forall i j, 0 <= gamma l' i j) /\ (forall i, beta_min l <= beta l' i) /\
  (forall i j, 0 <= gamma l i j -> gamma l' i j = gamma l i j) /\ (forall i, beta_min l <= beta l i -> beta l' i = beta l i).
Proof.
  intros inverse l x l'. unfold l', gdn_forward. cbn. unfold clamp_forward.
  split; [intros; apply Rmax_r|]. split; [intros; apply Rmax_r|]. split; intros; apply Rmax_left; assumption.
Qed.
(** so that a call, in evaluation too, may change them. *)
Theorem C78_gdn_pure_refuted : forall inverse c bmin x, exists l, channels l = c /\ beta_min l = bmin /\ exists i j, gamma (fst (gdn_forward inverse l x)) i j <> gamma l i j.
Proof.
  intros inverse c bmin x. exists (mkGdn c (fun _ _ => -1) (fun _ => 1) bmin). split; [reflexivity|]. split; [reflexivity|]. exists 0%nat, 0%nat.
  unfold gdn_forward. cbn. unfold clamp_forward. rewrite Rmax_right by lra. lra.
Qed.

(** A new layer: each channel alone. *)
Lemma rsum_delta : forall n i f, (i < n)%nat -> rsum n (fun j => (if (i =? j)%nat then 1 else 0) * f j) = f i.
Proof.
  intros n i f I. rewrite (rsum_split n _ i I). cbv beta. rewrite Nat.eqb_refl. rewrite (rsum_ext n _ (fun _ => 0)); [rewrite rsum_const; ring|].
  intros j _. rewrite (Nat.eqb_sym i j). destruct (j =? i)%nat; ring.
Qed.
Theorem C78_gdn_new : forall c g0 bmin v i, (i < c)%nat -> 0 <= g0 -> bmin <= 1 ->
  let l := gdn_init c g0 bmin in denominator c (gamma l) (beta l) bmin v i = 1 + g0 * Rabs (v i).
Proof.
  intros c g0 bmin v i I G B l. unfold denominator, l, gdn_init. cbn [gamma beta]. rewrite Rmax_left by exact B. f_equal.
  rewrite (rsum_ext c _ (fun j => (if (i =? j)%nat then 1 else 0) * (g0 * Rabs (v j)))).
  - rewrite (rsum_delta c i (fun j => g0 * Rabs (v j)) I). reflexivity.
  - intros j _. destruct (i =? j)%nat; [rewrite Rmult_1_l, Rmax_left by exact G; ring|]. rewrite Rmult_0_l, Rmax_left by lra. ring.
Qed.

(** ** What the formula gives *)
Lemma denominator_pos : forall c g be bmin v i, bmin <= denominator c g be bmin v i.
Proof.
  intros. unfold denominator. assert (0 <= rsum c (fun j => Rmax (g i j) 0 * Rabs (v j))).
  { apply rsum_nonneg. intros. apply Rmult_le_pos; [apply Rmax_r|apply Rabs_pos]. }
  pose proof (Rmax_r (be i) bmin). lra.
Qed.
(** No denominator is below beta_min: values keep their signs and grow at most by 1 / beta_min; a channel
    with gamma_ii > 0 stays below 1 / gamma_ii. *)
Theorem C78_gdn_bounds : forall c g be bmin v i, 0 < bmin -> (i < c)%nat -> let d := denominator c g be bmin v i in
  bmin <= d /\ Rabs (v i / d) <= Rabs (v i) / bmin /\ (0 < v i <-> 0 < v i / d) /\ (v i < 0 <-> v i / d < 0) /\
  (0 < g i i -> Rabs (v i / d) < 1 / g i i) /\
  bmin * Rabs (v i) <= Rabs (v i * d) /\ (0 < v i <-> 0 < v i * d) /\ (v i < 0 <-> v i * d < 0).
Proof.
  intros c g be bmin v i B I d. pose proof (denominator_pos c g be bmin v i) as D. fold d in D. assert (0 < / d) by (apply Rinv_0_lt_compat; lra).
  assert (Rabs (v i / d) = Rabs (v i) * / d) as A by (unfold Rdiv; rewrite Rabs_mult, (Rabs_pos_eq (/ d)) by lra; reflexivity).
  pose proof (Rabs_pos (v i)) as P.
  split; [exact D|]. split; [rewrite A; apply Rmult_le_compat_l; [exact P|]; apply Rinv_le_contravar; lra|].
  assert (v i = v i / d * d) as VD by (field; lra). set (q := v i / d) in *.
  split; [rewrite VD; split; intros; nra|]. split; [rewrite VD; split; intros; nra|]. unfold q in *. clear VD q. split; [|split].
  - intros G. rewrite A. assert (g i i * Rabs (v i) < d) as DE.
    { unfold d, denominator. rewrite (rsum_split c _ i I). cbv beta. rewrite (Rmax_left (g i i)) by lra.
      assert (0 <= rsum c (fun j => if (j =? i)%nat then 0 else Rmax (g i j) 0 * Rabs (v j))).
      { apply rsum_nonneg. intros j _. destruct (j =? i)%nat; [lra|]. apply Rmult_le_pos; [apply Rmax_r|apply Rabs_pos]. }
      pose proof (Rmax_r (be i) bmin). lra. }
    apply (Rmult_lt_reg_r (d * g i i)); [apply Rmult_lt_0_compat; lra|].
    replace (Rabs (v i) * / d * (d * g i i)) with (g i i * Rabs (v i)) by (field; lra). replace (1 / g i i * (d * g i i)) with d by (field; lra). exact DE.
  - rewrite Rabs_mult, (Rabs_pos_eq d) by lra. nra.
  - split; split; intros; nra.
Qed.

(** No two inputs have the same result: the layer loses nothing, for all parameters. *)
Lemma arg_max : forall n (f : nat -> R), (1 <= n)%nat -> exists i, (i < n)%nat /\ forall j, (j < n)%nat -> f j <= f i.
Proof.
  induction n as [|n IH]; intros f N; [lia|]. destruct n as [|n].
  - exists 0%nat. split; [lia|]. intros j J. replace j with 0%nat by lia. lra.
  - destruct (IH f ltac:(lia)) as (i & I & M). destruct (Rle_dec (f (S n)) (f i)) as [C|C].
    + exists i. split; [lia|]. intros j J. destruct (Nat.eq_dec j (S n)) as [->|]; [exact C|apply M; lia].
    + exists (S n). split; [lia|]. intros j J. destruct (Nat.eq_dec j (S n)) as [->|]; [lra|]. pose proof (M j ltac:(lia)). lra.
Qed.
(** positive solutions of a = u (beta + gamma a) are unique *)
Lemma solve_le : forall c (g : nat -> nat -> R) (be u a a' : nat -> R), (forall i j, 0 <= g i j) -> (forall i, 0 < be i) -> (forall i, (i < c)%nat -> 0 <= u i) ->
  (forall i, (i < c)%nat -> 0 <= a i /\ a i = u i * (be i + rsum c (fun j => g i j * a j))) ->
  (forall i, (i < c)%nat -> 0 <= a' i /\ a' i = u i * (be i + rsum c (fun j => g i j * a' j))) -> forall i, (i < c)%nat -> a i <= a' i.
Proof.
  intros c g be u a a' G B U A A' i0 I0.
  (* a largest ratio *)
  destruct (arg_max c (fun i => if Rlt_dec 0 (a' i) then a i / a' i else 0) ltac:(lia)) as (i & I & M). cbv beta in M.
  set (t := if Rlt_dec 0 (a' i) then a i / a' i else 0) in *.
  assert (forall j, (j < c)%nat -> 0 < a' j \/ (a' j = 0 /\ a j = 0)) as Z.
  { intros j J. destruct (A' j J) as [P E]. destruct (Rle_lt_or_eq_dec _ _ P) as [L|L]; [left; exact L|right]. split; [symmetry; exact L|].
    assert (u j = 0) as U0. { rewrite <- L in E. symmetry in E. apply Rmult_integral in E as [E|E]; [exact E|]. exfalso.
      assert (0 <= rsum c (fun k => g j k * a' k)) by (apply rsum_nonneg; intros k K; apply Rmult_le_pos; [apply G|apply A'; exact K]). pose proof (B j). lra. }
    destruct (A j J) as [_ ->]. rewrite U0. ring. }
  assert (forall j, (j < c)%nat -> a j <= t * a' j) as AT.
  { intros j J. specialize (M j J). destruct (Z j J) as [P|[-> ->]]; [|lra]. destruct (Rlt_dec 0 (a' j)); [|lra].
    apply (Rmult_le_compat_r (a' j)) in M; [|lra]. replace (a j / a' j * a' j) with (a j) in M by (field; lra). exact M. }
  destruct (Rle_dec t 1) as [T|T].
  { pose proof (AT i0 I0). destruct (A' i0 I0) as [P _]. nra. }
  exfalso. unfold t in T. destruct (Rlt_dec 0 (a' i)) as [P|P]; [|lra]. fold (a i / a' i) in T.
  assert (t = a i / a' i) as ET by (unfold t; destruct (Rlt_dec 0 (a' i)); [reflexivity|lra]).
  assert (1 < t) as T1 by (rewrite ET; lra). clear T.
  destruct (A i I) as [_ E]. destruct (A' i I) as [_ E'].
  assert (rsum c (fun j => g i j * a j) <= t * rsum c (fun j => g i j * a' j)) as SL.
  { rewrite <- rsum_scal. apply rsum_le. intros j J. pose proof (AT j J). pose proof (G i j). nra. }
  assert (0 < u i) as UP. { destruct (Rle_lt_or_eq_dec _ _ (U i I)) as [L|L]; [exact L|]. rewrite <- L in E'. lra. }
  assert (a i = t * a' i) as EA by (rewrite ET; field; lra). pose proof (B i).
  set (s := rsum c (fun j => g i j * a j)) in *. set (s' := rsum c (fun j => g i j * a' j)) in *.
  assert (u i * (be i + s) < u i * (t * (be i + s'))) by (apply Rmult_lt_compat_l; [exact UP|nra]).
  rewrite EA, E' in E. lra.
Qed.
Theorem C78_gdn_injective : forall c g be bmin v v', 0 < bmin ->
  (forall i, (i < c)%nat -> v i / denominator c g be bmin v i = v' i / denominator c g be bmin v' i) -> forall i, (i < c)%nat -> v i = v' i.
Proof.
  intros c g be bmin v v' B E.
  assert (forall v i, 0 < denominator c g be bmin v i) as DP by (intros w i; pose proof (denominator_pos c g be bmin w i); lra).
  set (u := fun i => Rabs (v i / denominator c g be bmin v i)).
  assert (forall w i, Rabs (w i / denominator c g be bmin w i) * denominator c g be bmin w i = Rabs (w i)) as AB.
  { intros w i. pose proof (DP w i). unfold Rdiv. rewrite Rabs_mult, (Rabs_pos_eq (/ _)) by (left; apply Rinv_0_lt_compat; lra). field. lra. }
  assert (forall i, (i < c)%nat -> 0 <= Rabs (v i) /\ Rabs (v i) = u i * (Rmax (be i) bmin + rsum c (fun j => Rmax (g i j) 0 * Rabs (v j)))) as A.
  { intros i I. split; [apply Rabs_pos|]. symmetry. exact (AB v i). }
  assert (forall i, (i < c)%nat -> 0 <= Rabs (v' i) /\ Rabs (v' i) = u i * (Rmax (be i) bmin + rsum c (fun j => Rmax (g i j) 0 * Rabs (v' j)))) as A'.
  { intros i I. split; [apply Rabs_pos|]. symmetry. unfold u. rewrite (E i I). exact (AB v' i). }
  assert (forall i, 0 < Rmax (be i) bmin) as BP by (intros i; pose proof (Rmax_r (be i) bmin); lra).
  assert (forall i, (i < c)%nat -> 0 <= u i) as UP by (intros; apply Rabs_pos).
  intros i I.
  pose proof (solve_le c (fun i j => Rmax (g i j) 0) (fun i => Rmax (be i) bmin) u (fun j => Rabs (v j)) (fun j => Rabs (v' j)) (fun i j => Rmax_r _ _) BP UP A A' i I) as L1.
  pose proof (solve_le c (fun i j => Rmax (g i j) 0) (fun i => Rmax (be i) bmin) u (fun j => Rabs (v' j)) (fun j => Rabs (v j)) (fun i j => Rmax_r _ _) BP UP A' A i I) as L2.
  cbv beta in L1, L2. specialize (E i I). pose proof (DP v i) as P1. pose proof (DP v' i) as P2.
  assert (0 < / denominator c g be bmin v i) by (apply Rinv_0_lt_compat; lra). assert (0 < / denominator c g be bmin v' i) by (apply Rinv_0_lt_compat; lra).
  unfold Rdiv in E. destruct (Rcase_abs (v i)), (Rcase_abs (v' i)).
  - rewrite (Rabs_left (v i)), (Rabs_left (v' i)) in * by lra. lra.
  - exfalso. nra.
  - exfalso. nra.
  - rewrite (Rabs_right (v i)), (Rabs_right (v' i)) in * by lra. lra.
Qed.
(** SimplifiedInverseGDN with the same parameters is not its inverse. *)
Theorem C78_inverse_refuted : let l := gdn_init 1 (1/10) (1/1000000) in let v := fun _ : nat => 1 in
  let y := fun i => v i / denominator 1 (gamma l) (beta l) (beta_min l) v i in
  y 0%nat * denominator 1 (gamma l) (beta l) (beta_min l) y 0 <> v 0%nat.
Proof.
  intros l v y. cbn [beta_min l gdn_init]. unfold l. rewrite C78_gdn_new by (try lia; lra). unfold y. cbn [beta_min l gdn_init]. unfold l. rewrite C78_gdn_new by (try lia; lra). unfold v.
  rewrite !Rabs_pos_eq by (try lra; rewrite ?Rabs_pos_eq by lra; lra). lra.
Qed.

(** ** The gradient of the clamp *)
(** A step of gradient descent through the clamp moves a parameter within its bound as it would without
    the clamp, and one below its bound never further down. *)
Theorem C78_clamp_gradient : forall data min grad lr, 0 < lr ->
  (min <= data -> data - lr * clamp_backward data min grad = data - lr * grad) /\
  (data < min -> data <= data - lr * clamp_backward data min grad /\ (grad < 0 -> data - lr * clamp_backward data min grad = data - lr * grad)).
Proof.
  intros data min grad lr L. unfold clamp_backward. split; intros H.
  - destruct (Rle_dec min data); [ring|lra].
  - destruct (Rle_dec min data); [lra|]. destruct (Rlt_dec grad 0).
    + split; [nra|intros; ring].
    + split; [nra|intros; lra].
Qed.

(** A layer of two channels whose gamma was set below zero. *)
Example gdn_case : let l := gdn_init 2 (1/10) (1/1000000) in
  let x := mkT [1; 2; 1; 1]%nat (fun idx => match idx with [_; k; _; _] => 3 | _ => 0 end) in
  exists z z', snd (gdn_run false l [Call x; SetParameters (fun _ _ => -1) (fun _ => 2); Call x]) = [Ok z; Ok z'] /\
  tat z [0; 0; 0; 0]%nat = 3 / (1 + 1/10 * Rabs 3) /\ tat z' [0; 0; 0; 0]%nat = 3 / 2.
Proof.
  intros l x. pose proof (C78_gdn_history false [Call x; SetParameters (fun _ _ => -1) (fun _ => 2); Call x] l) as H. cbn [calls] in H.
  remember (snd (gdn_run _ _ _)) as ys eqn:EY. clear EY. destruct ys as [|y1 [|y2 [|]]]; try solve [inversion H as [|? ? ? ? ? H']; inversion H' as [|? ? ? ? ? H'']; inversion H''].
  inversion H as [|? ? ? ? H1 H2]. subst. inversion H2 as [|? ? ? ? H3 _]. subst.
  destruct H1 as (z & -> & _ & V1). destruct H3 as (z' & -> & _ & V2). exists z, z'. split; [reflexivity|].
  rewrite (V1 0%nat 0%nat 0%nat 0%nat), (V2 0%nat 0%nat 0%nat 0%nat) by (cbn; lia). split.
  - pose proof (C78_gdn_new 2 (1/10) (1/1000000) (column x 0 0 0) 0 ltac:(lia) ltac:(lra) ltac:(lra)) as N. cbv zeta in N.
    change (3 / denominator 2 (gamma l) (beta l) (1/1000000) (column x 0 0 0) 0 = 3 / (1 + 1 / 10 * Rabs 3)). unfold l. rewrite N. reflexivity.
  - unfold denominator. rewrite (rsum_ext _ _ (fun _ => 0)) by (intros; rewrite Rmax_right by lra; ring). rewrite rsum_const. cbn [beta_min l gdn_init]. rewrite Rmax_left by lra.
    rewrite Rmult_0_r, Rplus_0_r. reflexivity.
Qed.

Print Assumptions C78_channel_norm.
Print Assumptions C78_gdn_history.
Print Assumptions C78_gdn_injective.

(** The gradients of the video model's bottleneck and of its frames (Grad_Model.v). *)
From Coq Require Import Reals List Bool Arith ZArith Lia Lra.
From Coquelicot Require Import Coquelicot.
From Verif Require Import Base Tensor RBase RSum Gauss Grad_Model Grad_Props.
Import ListNotations.
Open Scope nat_scope.
Open Scope R_scope.

(** ** Specification: a normal variable plus uniform noise on [-1/2, 1/2], its density at [y] *)
Definition gauss_lik (y mu sigma : R) : R := Phi ((y - mu + / 2) / sigma) - Phi ((y - mu - / 2) / sigma).
Definition softplus (s : R) : R := if Rlt_dec 0 s then s + 1 else 1 / (1 - s).

(** The training output: a straight-through rounding around the rounded mean.  The input's
    gradient is the output's; the mean gets none. *)
Theorem C96_vct_output : forall env g,
  eval env gsn_output = IZR (round_even (env 0%nat - IZR (round_even (env 1%nat)))) + IZR (round_even (env 1%nat)) /\
  (forall i, back env gsn_output g i = if (i =? 0)%nat then g else 0).
Proof.
  intros env g. unfold gsn_output. split.
  - cbn. unfold upd; cbn.
    replace (IZR (round_even (env 1%nat)) - env 1%nat + env 1%nat) with (IZR (round_even (env 1%nat))) by ring. ring.
  - intros i. cbn. destruct i as [|[|[|[|[|i]]]]]; cbn; ring.
Qed.
Print Assumptions C96_vct_output.

Definition lik_dy (y mu sigma : R) : R := (phi ((y - mu + / 2) / sigma) - phi ((y - mu - / 2) / sigma)) / sigma.
Definition lik_ds (y mu sigma : R) : R :=
  ((y - mu - / 2) * phi ((y - mu - / 2) / sigma) - (y - mu + / 2) * phi ((y - mu + / 2) / sigma)) / (sigma * sigma).

Lemma Phi_comp f t d : is_derive f t d -> is_derive (fun t => Phi (f t)) t (d * phi (f t)).
Proof. intro H. apply (is_derive_comp Phi f t (phi (f t)) d (Phi_derive _) H). Qed.

Lemma derive_eq (f : R -> R) t d d' : is_derive f t d -> d = d' -> is_derive f t d'.
Proof. intros H <-. exact H. Qed.
Lemma lik_derive_y y mu sigma : sigma <> 0 -> is_derive (fun y => gauss_lik y mu sigma) y (lik_dy y mu sigma).
Proof.
  intro N. unfold gauss_lik, lik_dy.
  apply (derive_eq _ _ (minus (/ sigma * phi ((y - mu + / 2) / sigma)) (/ sigma * phi ((y - mu - / 2) / sigma)))); [|unfold minus, plus, opp; cbn; field; exact N].
  apply (is_derive_minus (fun y => Phi ((y - mu + / 2) / sigma)) (fun y => Phi ((y - mu - / 2) / sigma))).
  - apply (Phi_comp (fun y => (y - mu + / 2) / sigma)). auto_derive; [first [exact I | exact N]|field; exact N].
  - apply (Phi_comp (fun y => (y - mu - / 2) / sigma)). auto_derive; [first [exact I | exact N]|field; exact N].
Qed.
Lemma lik_derive_mu y mu sigma : sigma <> 0 -> is_derive (fun mu => gauss_lik y mu sigma) mu (- lik_dy y mu sigma).
Proof.
  intro N. unfold gauss_lik, lik_dy.
  apply (derive_eq _ _ (minus (- / sigma * phi ((y - mu + / 2) / sigma)) (- / sigma * phi ((y - mu - / 2) / sigma))));
    [|unfold minus, plus, opp; cbn; field; exact N].
  apply (is_derive_minus (fun mu => Phi ((y - mu + / 2) / sigma)) (fun mu => Phi ((y - mu - / 2) / sigma))).
  - apply (Phi_comp (fun mu => (y - mu + / 2) / sigma)). auto_derive; [first [exact I | exact N]|field; exact N].
  - apply (Phi_comp (fun mu => (y - mu - / 2) / sigma)). auto_derive; [first [exact I | exact N]|field; exact N].
Qed.
Lemma lik_derive_s y mu sigma : sigma <> 0 -> is_derive (fun sigma => gauss_lik y mu sigma) sigma (lik_ds y mu sigma).
Proof.
  intro N. unfold gauss_lik, lik_ds.
  apply (derive_eq _ _ (minus (- (y - mu + / 2) / (sigma * sigma) * phi ((y - mu + / 2) / sigma))
     (- (y - mu - / 2) / (sigma * sigma) * phi ((y - mu - / 2) / sigma))));
    [|unfold minus, plus, opp; cbn; field; exact N].
  apply (is_derive_minus (fun sigma => Phi ((y - mu + / 2) / sigma)) (fun sigma => Phi ((y - mu - / 2) / sigma))).
  - apply (Phi_comp (fun sigma => (y - mu + / 2) / sigma)). auto_derive; [first [exact I | exact N]|field; exact N].
  - apply (Phi_comp (fun sigma => (y - mu - / 2) / sigma)). auto_derive; [first [exact I | exact N]|field; exact N].
Qed.

Lemma isqrt2 : sqrt (1 / 2) = / sqrt 2.
Proof. unfold Rdiv. rewrite Rmult_1_l. apply sqrt_inv. Qed.
Lemma cumulative_eval env a : eval env (standardized_cumulative a) = Phi (eval env a).
Proof.
  cbn. rewrite Phi_erf, isqrt2. unfold erfc. replace (- / sqrt 2 * eval env a) with (- (eval env a * / sqrt 2)) by ring.
  rewrite erf_odd. lra.
Qed.
Lemma cumulative_back env a g i : back env (standardized_cumulative a) g i = back env a (g * phi (eval env a)) i.
Proof.
  unfold standardized_cumulative, Erfc. cbn [back eval]. rewrite !Rplus_0_l. f_equal.
  - unfold phi. set (t := eval env a).
    replace (- / sqrt 2 * t * (- / sqrt 2 * t)) with (t * t / 2).
    2:{ replace (- / sqrt 2 * t * (- / sqrt 2 * t)) with (/ sqrt 2 * / sqrt 2 * (t * t)) by ring.
        rewrite <- Rinv_mult, sqrt_sqrt by lra. lra. }
    replace (- (t * t / 2)) with (- (t * t) / 2) by lra. rewrite sqrt_mult by (pose proof PI_RGT_0; lra).
    assert (sqrt 2 <> 0) by (apply Rgt_not_eq, sqrt_lt_R0; lra). pose proof sqrt_pi_pos.
    field. split; [lra|assumption].
Qed.

Lemma sign_cases v : (0 < v /\ sign v = 1 /\ Rabs v = v) \/ (v < 0 /\ sign v = -1 /\ Rabs v = - v) \/ (v = 0 /\ sign v = 0 /\ Rabs v = 0).
Proof.
  unfold sign. destruct (Rlt_dec 0 v); [left; rewrite Rabs_pos_eq; lra|]. destruct (Rlt_dec v 0).
  - right; left. rewrite Rabs_left; lra.
  - right; right. assert (v = 0) by lra. subst. rewrite Rabs_R0. lra.
Qed.

Lemma likelihood_eval env : env 7%nat <> 0 -> eval env likelihood = gauss_lik (env 5%nat) (env 6%nat) (env 7%nat).
Proof.
  intro N. unfold likelihood, Abs. cbn [eval]. rewrite !cumulative_eval. cbn [eval]. unfold upd; cbn [Nat.eqb]. unfold gauss_lik.
  set (v := env 5%nat - env 6%nat). set (s := env 7%nat) in *.
  destruct (sign_cases v) as [(_ & _ & ->)|[(_ & _ & ->)|(Z & _ & ->)]].
  - replace ((/ 2 - v) / s) with (- ((v - / 2) / s)) by (field; exact N).
    replace ((- / 2 - v) / s) with (- ((v + / 2) / s)) by (field; exact N). rewrite !Phi_sym. lra.
  - replace ((/ 2 - - v) / s) with ((v + / 2) / s) by (field; exact N).
    replace ((- / 2 - - v) / s) with ((v - / 2) / s) by (field; exact N). reflexivity.
  - rewrite Z. replace ((/ 2 - 0) / s) with ((0 + / 2) / s) by (field; exact N).
    replace ((- / 2 - 0) / s) with ((0 - / 2) / s) by (field; exact N). reflexivity.
Qed.
Lemma likelihood_back env g i : env 7%nat <> 0 ->
  back env likelihood g i =
  if (i =? 5)%nat then g * lik_dy (env 5%nat) (env 6%nat) (env 7%nat)
  else if (i =? 6)%nat then - (g * lik_dy (env 5%nat) (env 6%nat) (env 7%nat))
  else if (i =? 7)%nat then g * lik_ds (env 5%nat) (env 6%nat) (env 7%nat) else 0.
Proof.
  intro N. unfold likelihood, Abs. cbn [back]. rewrite !cumulative_back. cbn [back eval]. unfold upd; cbn [Nat.eqb].
  unfold lik_dy, lik_ds. set (v := env 5%nat - env 6%nat). set (s := env 7%nat) in *.
  destruct (sign_cases v) as [(_ & -> & ->)|[(_ & -> & ->)|(Z & -> & ->)]].
  - replace ((/ 2 - v) / s) with (- ((v - / 2) / s)) by (field; exact N).
    replace ((- / 2 - v) / s) with (- ((v + / 2) / s)) by (field; exact N). rewrite !phi_even.
    destruct i as [|[|[|[|[|[|[|[|[|i]]]]]]]]]; cbn [Nat.eqb]; field; exact N.
  - replace ((/ 2 - - v) / s) with ((v + / 2) / s) by (field; exact N).
    replace ((- / 2 - - v) / s) with ((v - / 2) / s) by (field; exact N).
    destruct i as [|[|[|[|[|[|[|[|[|i]]]]]]]]]; cbn [Nat.eqb]; field; exact N.
  - rewrite Z. replace ((/ 2 - 0) / s) with ((0 + / 2) / s) by (field; exact N).
    replace ((- / 2 - 0) / s) with (- ((0 + / 2) / s)) by (field; exact N).
    replace ((0 - / 2) / s) with (- ((0 + / 2) / s)) by (field; exact N). rewrite phi_even.
    destruct i as [|[|[|[|[|[|[|[|[|i]]]]]]]]]; cbn [Nat.eqb]; field; exact N.
Qed.

Lemma bound_back env r a g i :
  back env (Bound r a) g i = back env a (if Rle_dec r (eval env a) then g else if Rlt_dec g 0 then g else 0) i.
Proof. cbn [back]. destruct (Rle_dec _ _); [reflexivity|]. destruct (Rlt_dec _ _); [reflexivity|]. symmetry. apply back_zero. Qed.

Lemma neg_back env a g i : back env (Neg a) g i = back env a (- g) i.
Proof. unfold Neg. cbn [back]. f_equal. lra. Qed.

(** The rounded mean is removed twice, so no gradient goes through the mean's index. *)
Lemma mean_index_back nm env g i : back env (mean_index nm) g i = 0.
Proof. unfold mean_index. cbn. destruct (i =? 1)%nat; ring. Qed.
Lemma prior_mean_back nm env g i : back env (prior_mean nm (clamp_index nm (mean_index nm))) g i = 0.
Proof.
  unfold prior_mean, clamp_index. cbn [back]. rewrite neg_back, bound_back, neg_back, bound_back, mean_index_back. lra.
Qed.

(** The mean that the likelihood uses: the predicted one, but at most [(n-1)/n - 1/2] above its
    rounding, on a grid of [n] means; its rounding if [n = 1]. *)
Definition coded_mean (nm : Z) (m : R) : R :=
  if (nm =? 1)%Z then IZR (round_even m)
  else Rmin m (IZR (round_even m) + (IZR (nm - 1) / IZR nm - / 2)).

Lemma prior_mean_eval nm env : (1 <= nm)%Z ->
  eval env (prior_mean nm (clamp_index nm (mean_index nm))) = coded_mean nm (env 1%nat) - IZR (round_even (env 1%nat)).
Proof.
  intro H. unfold prior_mean, clamp_index, mean_index, Neg, coded_mean. cbn [eval round_st].
  set (m := env 1%nat). set (k := IZR (round_even m)).
  pose proof (round_even_bounds m) as B. fold k in B.
  assert (N : 1 <= IZR nm) by (apply (IZR_le 1); exact H).
  replace (m - (k - m + m) + / 2) with (m - k + / 2) by ring.
  assert (P : 0 <= (m - k + / 2) * IZR nm) by (apply Rmult_le_pos; lra).
  rewrite (Rmax_left _ 0) by exact P.
  destruct (Z.eqb_spec nm 1) as [->|NE].
  - rewrite (Rmax_right (- ((m - k + / 2) * 1)) (- IZR (1 - 1))) by (cbn; lra). cbn. lra.
  - rewrite minus_IZR. set (n := IZR nm) in *. unfold Rmin. destruct (Rle_dec m _) as [L|L].
    + assert (E : m - k + / 2 <= (n - 1) / n) by lra.
      assert (E2 : (m - k + / 2) * n <= n - 1) by (apply (Rmult_le_compat_r n) in E; [|lra]; replace ((n - 1) / n * n) with (n - 1) in E by (field; lra); exact E).
      rewrite Rmax_left by lra. field. lra.
    + assert (E : (n - 1) / n < m - k + / 2) by lra.
      assert (E2 : n - 1 < (m - k + / 2) * n) by (apply (Rmult_lt_compat_r n) in E; [|lra]; replace ((n - 1) / n * n) with (n - 1) in E by (field; lra); exact E).
      rewrite Rmax_right by lra. field. lra.
Qed.

(** [coded_mean] is the predicted mean unless the last grid cell holds it; it is never above it and
    never more than one grid step (one half if [n = 1]) away. *)
Lemma coded_mean_spec nm m : (2 <= nm)%Z ->
  (m - IZR (round_even m) <= / 2 - / IZR nm -> coded_mean nm m = m) /\ m - / IZR nm <= coded_mean nm m <= m.
Proof.
  intro H. unfold coded_mean. destruct (Z.eqb_spec nm 1); [lia|]. rewrite minus_IZR.
  assert (N : 2 <= IZR nm) by (apply (IZR_le 2); exact H). pose proof (round_even_bounds m) as B.
  set (k := IZR (round_even m)) in *. set (n' := IZR nm) in *.
  replace ((n' - 1) / n' - / 2) with (/ 2 - / n') by (field; lra).
  assert (0 < / n') by (apply Rinv_0_lt_compat; lra).
  unfold Rmin. destruct (Rle_dec _ _); split; intros; lra.
Qed.
Lemma coded_mean_one m : coded_mean 1 m = IZR (round_even m). Proof. reflexivity. Qed.

Lemma softplus_eval env : eval env (verysoftplus (Var 2)) = softplus (env 2%nat).
Proof.
  cbn. unfold softplus. destruct (Rlt_dec 0 (env 2%nat)).
  - rewrite Rmax_left by lra. reflexivity.
  - rewrite Rmin_left by lra. reflexivity.
Qed.
Lemma softplus_pos s : 0 < softplus s.
Proof. unfold softplus. destruct (Rlt_dec 0 s); [lra|]. apply Rdiv_lt_0_compat; lra. Qed.
Definition dsoftplus (s : R) : R := if Rlt_dec 0 s then 1 else / ((1 - s) * (1 - s)).
(** ... also at 0, where the two pieces meet smoothly. *)
Lemma softplus_derive s : is_derive softplus s (dsoftplus s).
Proof.
  unfold dsoftplus. destruct (Rlt_dec 0 s) as [P|P].
  - apply (is_derive_ext_loc (fun s => s + 1)).
    + exists (mkposreal s P). intros t T. unfold ball in T; cbn in T; unfold AbsRing_ball, abs, minus, plus, opp in T; cbn in T.
      apply Rabs_def2 in T. unfold softplus. destruct (Rlt_dec 0 t); [reflexivity|lra].
    + auto_derive; [exact I|ring].
  - destruct (Req_dec s 0) as [->|NZ].
    + replace (/ ((1 - 0) * (1 - 0))) with 1 by field.
      apply is_derive_Reals. intros eps HE.
      assert (D : 0 < Rmin (/ 2) (eps / 4)) by (apply Rmin_pos; lra).
      exists (mkposreal _ D). intros h HN HH. cbn in HH.
      assert (H2 : Rabs h < / 2) by (eapply Rlt_le_trans; [exact HH|apply Rmin_l]).
      assert (H4 : Rabs h < eps / 4) by (eapply Rlt_le_trans; [exact HH|apply Rmin_r]).
      unfold softplus. rewrite Rplus_0_l. destruct (Rlt_dec 0 0); [lra|]. destruct (Rlt_dec 0 h) as [HP|HP].
      * replace ((h + 1 - 1 / (1 - 0)) / h - 1) with 0 by (field; lra). rewrite Rabs_R0. exact HE.
      * apply Rabs_def2 in H2. replace ((1 / (1 - h) - 1 / (1 - 0)) / h - 1) with (h * / (1 - h)) by (field; split; lra).
        rewrite Rabs_mult. rewrite (Rabs_pos_eq (/ (1 - h))) by (apply Rlt_le, Rinv_0_lt_compat; lra).
        assert (/ (1 - h) <= 1). { rewrite <- Rinv_1. apply Rinv_le_contravar; lra. }
        pose proof (Rabs_pos h). nra.
    + apply (is_derive_ext_loc (fun s => 1 / (1 - s))).
      * assert (Q : 0 < - s) by lra. exists (mkposreal (- s) Q). intros t T. unfold ball in T; cbn in T; unfold AbsRing_ball, abs, minus, plus, opp in T; cbn in T.
        apply Rabs_def2 in T. unfold softplus. destruct (Rlt_dec 0 t); [lra|reflexivity].
      * auto_derive; [lra|]. field. lra.
Qed.

Section Scale.
Variables (ns : Z) (ms : R).
Hypotheses (NS : (2 <= ns)%Z) (MS : 0 < ms).
Lemma normalizer_pos : 0 < ln (256 / ms + 1).
Proof. rewrite <- ln_1. apply ln_increasing; [lra|]. assert (0 < 256 / ms) by (apply Rdiv_lt_0_compat; lra). lra. Qed.
Lemma normalizer_ln : ln (256 / ms + 1) + ln ms = ln (256 + ms).
Proof.
  rewrite <- ln_mult; [f_equal; field; lra| |exact MS].
  assert (0 < 256 / ms) by (apply Rdiv_lt_0_compat; lra). lra.
Qed.
Let n1 : 0 < IZR (ns - 1). Proof. apply (IZR_lt 0). lia. Qed.

Definition position (v : R) : R := (ln (v + ms) - ln ms) / ln (256 / ms + 1) * IZR (ns - 1).
Lemma position_pos v : 0 < v -> 0 < position v.
Proof.
  intro V. pose proof normalizer_pos. assert (ln ms < ln (v + ms)) by (apply ln_increasing; lra).
  apply Rmult_lt_0_compat; [apply Rdiv_lt_0_compat; lra|exact n1].
Qed.
Lemma position_le v : 0 < v -> (v <= 256 <-> position v <= IZR (ns - 1)).
Proof.
  intro V. pose proof normalizer_pos as NP. pose proof normalizer_ln as NL. unfold position.
  assert (E : (ln (v + ms) - ln ms) / ln (256 / ms + 1) <= 1 <-> ln (v + ms) <= ln (256 + ms)).
  { split; intro H.
    - apply (Rmult_le_compat_r (ln (256 / ms + 1))) in H; [|lra].
      replace ((ln (v + ms) - ln ms) / ln (256 / ms + 1) * ln (256 / ms + 1)) with (ln (v + ms) - ln ms) in H by (field; lra). lra.
    - apply (Rmult_le_reg_r (ln (256 / ms + 1))); [lra|].
      replace ((ln (v + ms) - ln ms) / ln (256 / ms + 1) * ln (256 / ms + 1)) with (ln (v + ms) - ln ms) by (field; lra). lra. }
  split; intro H.
  - assert (ln (v + ms) <= ln (256 + ms)). { destruct (Req_dec v 256) as [->|NE]; [lra|]. apply Rlt_le, ln_increasing; lra. }
    rewrite <- (Rmult_1_l (IZR (ns - 1))) at 2. apply Rmult_le_compat_r; [lra|]. apply E. assumption.
  - assert (H1 : (ln (v + ms) - ln ms) / ln (256 / ms + 1) <= 1).
    { apply (Rmult_le_reg_r (IZR (ns - 1))); [exact n1|]. lra. }
    apply E in H1. apply Rnot_lt_le. intro L. assert (ln (256 + ms) < ln (v + ms)) by (apply ln_increasing; lra). lra.
Qed.

Notation scale_expr := (from_scale_idx ns ms (clamp_index ns (scale_index ns ms))).
Lemma scale_eval env : eval env scale_expr = Rmin (softplus (env 2%nat) + ms) (256 + ms).
Proof.
  unfold from_scale_idx, clamp_index, Neg, scale_index, to_scale_idx. cbn [eval]. rewrite softplus_eval.
  set (v := softplus (env 2%nat)). assert (V : 0 < v) by apply softplus_pos.
  change ((ln (v + ms) - ln ms) / ln (256 / ms + 1) * IZR (ns - 1)) with (position v).
  pose proof (position_pos v V) as PP. pose proof (position_le v V) as PL. pose proof normalizer_pos. pose proof normalizer_ln as NL.
  rewrite (Rmax_left (position v) 0) by lra. unfold Rmin. destruct (Rle_dec _ _) as [L|L].
  - rewrite Rmax_left by (apply Ropp_le_contravar, PL; lra). rewrite Ropp_involutive.
    replace (position v / IZR (ns - 1) * ln (256 / ms + 1) + ln ms) with (ln (v + ms)) by (unfold position; field; lra).
    apply exp_ln. lra.
  - assert (Q : ~ position v <= IZR (ns - 1)) by (intro Q; apply L; apply PL in Q; lra).
    rewrite Rmax_right by lra. rewrite Ropp_involutive.
    replace (IZR (ns - 1) / IZR (ns - 1) * ln (256 / ms + 1) + ln ms) with (ln (256 + ms)) by (rewrite <- NL; field; lra).
    apply exp_ln. lra.
Qed.

(** What backward() multiplies a gradient at the softplus with: its derivative, or one half of it
    at exactly 0. *)
Definition softplus_back (s : R) : R := if Req_EM_T s 0 then / 2 else dsoftplus s.
Lemma verysoftplus_back env g i :
  back env (verysoftplus (Var 2)) g i = if (i =? 2)%nat then g * softplus_back (env 2%nat) else 0.
Proof.
  unfold verysoftplus. cbn [back eval]. unfold softplus_back, dsoftplus, share. set (s := env 2%nat).
  destruct (Rlt_dec 0 s) as [P|P].
  - destruct (Req_EM_T s 0); [lra|]. destruct (i =? 2)%nat; ring.
  - destruct (Req_EM_T 0 s) as [E|E], (Req_EM_T s 0) as [E'|E']; try (exfalso; lra).
    + rewrite E', Rmin_left by lra. replace (1 - 0) with 1 by ring. destruct (i =? 2)%nat; field.
    + destruct (Rlt_dec s 0); [|lra]. rewrite Rmin_left by lra. destruct (i =? 2)%nat; field; lra.
Qed.

Lemma scale_back env g i : back env scale_expr g i =
  if (i =? 2)%nat
  then (let s := env 2%nat in
        if Rle_dec (softplus s) 256 then g * softplus_back s
        else Rmax g 0 * ((256 + ms) / (softplus s + ms)) * softplus_back s)
  else 0.
Proof.
  pose proof normalizer_pos as NP.
  assert (SE := scale_eval env). unfold from_scale_idx in SE |- *. cbn [back eval] in SE |- *. rewrite SE. clear SE.
  cbn zeta. rewrite !Rplus_0_r. unfold clamp_index. rewrite neg_back, bound_back, neg_back, bound_back. unfold Neg. cbn [eval].
  unfold scale_index, to_scale_idx. cbn [back eval]. rewrite softplus_eval.
  set (v := softplus (env 2%nat)). assert (V : 0 < v) by apply softplus_pos.
  change ((ln (v + ms) - ln ms) / ln (256 / ms + 1) * IZR (ns - 1)) with (position v).
  pose proof (position_pos v V) as PP. pose proof (position_le v V) as PL.
  destruct (Rle_dec 0 (position v)) as [_|Q]; [|lra]. rewrite (Rmax_left (position v) 0) by lra.
  rewrite !Rplus_0_r. rewrite verysoftplus_back. destruct (i =? 2)%nat; [|reflexivity].
  set (L := ln (256 / ms + 1)) in *. set (n := IZR (ns - 1)) in *.
  destruct (Rle_dec v 256) as [H|H].
  - apply PL in H. destruct (Rle_dec (- n) (- position v)) as [_|Q]; [|lra].
    apply PL in H. rewrite Rmin_left by lra. field. lra.
  - assert (Q : ~ position v <= n) by (intro Q; apply H, PL, Q).
    destruct (Rle_dec (- n) (- position v)) as [Q'|_]; [lra|]. rewrite Rmin_right by lra.
    assert (W : 0 < (256 + ms) * L / n) by (apply Rdiv_lt_0_compat; [apply Rmult_lt_0_compat; lra|exact n1]).
    destruct (Rlt_dec _ 0) as [A|A].
    + assert (G : 0 < g). { apply (Rmult_lt_reg_r ((256 + ms) * L / n)); [exact W|]. unfold Rdiv in *. lra. }
      rewrite Rmax_left by lra. field. lra.
    + assert (G : g <= 0). { apply Rnot_lt_le. intro G. apply A. assert (0 < g * ((256 + ms) * L / n)) by (apply Rmult_lt_0_compat; assumption). unfold Rdiv in *. lra. }
      rewrite Rmax_right by exact G. field. lra.
Qed.
End Scale.

Lemma lik_shift y mu sg k : gauss_lik (y - k) (mu - k) sg = gauss_lik y mu sg.
Proof. unfold gauss_lik. replace (y - k - (mu - k)) with (y - mu) by ring. reflexivity. Qed.
Lemma lik_dy_shift y mu sg k : lik_dy (y - k) (mu - k) sg = lik_dy y mu sg.
Proof. unfold lik_dy. replace (y - k - (mu - k)) with (y - mu) by ring. reflexivity. Qed.
Lemma lik_ds_shift y mu sg k : lik_ds (y - k) (mu - k) sg = lik_ds y mu sg.
Proof. unfold lik_ds. replace (y - k - (mu - k)) with (y - mu) by ring. reflexivity. Qed.

Section Rate.
Variables (nm ns : Z) (ms u : R) (env : nat -> R) (g : R).
Hypotheses (NM : (1 <= nm)%Z) (NS : (2 <= ns)%Z) (MS : 0 < ms).
Let y := env 0%nat + u.
Let mu := coded_mean nm (env 1%nat).
Let sg := Rmin (softplus (env 2%nat) + ms) (256 + ms).
Let gb := if Rle_dec (/ 10 ^ 9) (gauss_lik y mu sg) then g else if Rlt_dec g 0 then g else 0.
Lemma sg_pos : 0 < sg.
Proof. pose proof (softplus_pos (env 2%nat)). unfold sg. apply Rmin_pos; lra. Qed.

Lemma rate_all :
  eval env (gsn_likelihood nm ns ms u) = Rmax (gauss_lik y mu sg) (/ 10 ^ 9) /\
  back env (gsn_likelihood nm ns ms u) g 0 = gb * lik_dy y mu sg /\
  back env (gsn_likelihood nm ns ms u) g 1 = - (gb * lik_dy y mu sg) /\
  back env (gsn_likelihood nm ns ms u) g 2 =
    (if Rle_dec (softplus (env 2%nat)) 256 then gb * lik_ds y mu sg * softplus_back (env 2%nat)
     else Rmax (gb * lik_ds y mu sg) 0 * ((256 + ms) / (softplus (env 2%nat) + ms)) * softplus_back (env 2%nat)).
Proof.
  unfold gsn_likelihood, entropy_model_likelihood.
  set (k := IZR (round_even (env 1%nat))).
  set (e3 := upd env 3 (eval env (round_st (Var 1)))).
  set (e4 := upd e3 4 (eval e3 (Sub (Var 0) (Var 3)))).
  set (e5 := upd e4 5 (eval e4 (Add (Var 4) (Cst u)))).
  set (e6 := upd e5 6 (eval e5 (prior_mean nm (clamp_index nm (mean_index nm))))).
  set (e7 := upd e6 7 (eval e6 (from_scale_idx ns ms (clamp_index ns (scale_index ns ms))))).
  assert (A5 : e7 5%nat = y - k).
  { unfold e7, e6, e5, e4, e3, upd, y, k. cbn. ring. }
  assert (A6 : e7 6%nat = mu - k).
  { unfold e7, upd; cbn [Nat.eqb]. unfold e6, upd at 1; cbn [Nat.eqb]. rewrite prior_mean_eval by exact NM. reflexivity. }
  assert (A7 : e7 7%nat = sg).
  { unfold e7, upd; cbn [Nat.eqb]. rewrite scale_eval by assumption. reflexivity. }
  pose proof sg_pos as SP.
  assert (N7 : e7 7%nat <> 0) by lra.
  assert (EV : eval e7 likelihood = gauss_lik y mu sg) by (rewrite likelihood_eval by exact N7; rewrite A5, A6, A7; apply lik_shift).
  split; [cbn [eval]; fold e3; fold e4; fold e5; fold e6; fold e7; change (Rmax (eval e7 likelihood) (/ 10 ^ 9) = Rmax (gauss_lik y mu sg) (/ 10 ^ 9)); rewrite EV; reflexivity|].
  assert (BL : forall i, back e7 (Bound (/ 10 ^ 9) likelihood) g i =
     if (i =? 5)%nat then gb * lik_dy y mu sg else if (i =? 6)%nat then - (gb * lik_dy y mu sg)
     else if (i =? 7)%nat then gb * lik_ds y mu sg else 0).
  { intros i. rewrite bound_back, EV. fold gb. rewrite likelihood_back by exact N7. rewrite A5, A6, A7, lik_dy_shift, lik_ds_shift. reflexivity. }
  assert (S2 : e6 2%nat = env 2%nat) by reflexivity.
  assert (B7 : forall i, back e6 (Let 7 (from_scale_idx ns ms (clamp_index ns (scale_index ns ms))) (Bound (/ 10 ^ 9) likelihood)) g i =
     if (i =? 5)%nat then gb * lik_dy y mu sg else if (i =? 6)%nat then - (gb * lik_dy y mu sg)
     else if (i =? 2)%nat then
       (if Rle_dec (softplus (env 2%nat)) 256 then gb * lik_ds y mu sg * softplus_back (env 2%nat)
        else Rmax (gb * lik_ds y mu sg) 0 * ((256 + ms) / (softplus (env 2%nat) + ms)) * softplus_back (env 2%nat))
     else 0).
  { intros i. rewrite let_back. fold e7. rewrite !BL, scale_back by assumption. cbn [Nat.eqb]. cbn zeta. rewrite S2.
    destruct i as [|[|[|[|[|[|[|[|i]]]]]]]]; cbn [Nat.eqb]; ring. }
  assert (B6 : forall i, back e5 (Let 6 (prior_mean nm (clamp_index nm (mean_index nm))) (Let 7 (from_scale_idx ns ms (clamp_index ns (scale_index ns ms))) (Bound (/ 10 ^ 9) likelihood))) g i =
     if (i =? 5)%nat then gb * lik_dy y mu sg
     else if (i =? 2)%nat then
       (if Rle_dec (softplus (env 2%nat)) 256 then gb * lik_ds y mu sg * softplus_back (env 2%nat)
        else Rmax (gb * lik_ds y mu sg) 0 * ((256 + ms) / (softplus (env 2%nat) + ms)) * softplus_back (env 2%nat))
     else 0).
  { intros i. rewrite let_back. fold e6. rewrite !B7, prior_mean_back.
    destruct i as [|[|[|[|[|[|[|i]]]]]]]; cbn [Nat.eqb]; ring. }
  set (sc := if Rle_dec _ _ then _ else _) in B6 |- *. set (body := Let 6 _ _) in *.
  assert (B5 : forall i, back e4 (Let 5 (Add (Var 4) (Cst u)) body) g i =
     if (i =? 4)%nat then gb * lik_dy y mu sg else if (i =? 2)%nat then sc else 0).
  { intros i. rewrite let_back. fold e5. rewrite !B6. cbn [back].
    destruct i as [|[|[|[|[|[|i]]]]]]; cbn [Nat.eqb]; ring. }
  assert (B4 : forall i, back e3 (Let 4 (Sub (Var 0) (Var 3)) (Let 5 (Add (Var 4) (Cst u)) body)) g i =
     if (i =? 0)%nat then gb * lik_dy y mu sg else if (i =? 3)%nat then - (gb * lik_dy y mu sg) else if (i =? 2)%nat then sc else 0).
  { intros i. rewrite let_back. fold e4. rewrite !B5. cbn [back].
    destruct i as [|[|[|[|[|[|i]]]]]]; cbn [Nat.eqb]; ring. }
  split; [|split]; rewrite let_back; fold e3; rewrite !B4, back_round_st; cbn [Nat.eqb]; ring.
Qed.
End Rate.

(** Training's likelihood is that of a normal variable with the coded mean and the (bounded) scale
    plus uniform noise, at least 1e-9; and unless that floor stops it, its gradients are the exact
    derivatives, although the mean is rounded on the way: the mean's is the input's, negated. *)
Theorem C96_vct_rate : forall nm ns ms u env g, (1 <= nm)%Z -> (2 <= ns)%Z -> 0 < ms ->
  let y := env 0%nat + u in
  let mu := coded_mean nm (env 1%nat) in
  let sg := Rmin (softplus (env 2%nat) + ms) (256 + ms) in
  let L := gsn_likelihood nm ns ms u in
  eval env L = Rmax (gauss_lik y mu sg) (/ 10 ^ 9) /\
  (/ 10 ^ 9 <= gauss_lik y mu sg \/ g < 0 ->
     exists d, is_derive (fun y => gauss_lik y mu sg) y d /\ is_derive (fun mu => gauss_lik y mu sg) mu (- d) /\
               back env L g 0 = g * d /\ back env L g 1 = g * - d) /\
  (gauss_lik y mu sg < / 10 ^ 9 -> 0 <= g -> back env L g 0 = 0 /\ back env L g 1 = 0 /\ back env L g 2 = 0).
Proof.
  intros nm ns ms u env g NM NS MS. cbn zeta. destruct (rate_all nm ns ms u env g NM NS MS) as (E & B0 & B1 & B2).
  pose proof (sg_pos ms env MS) as SP. split; [exact E|].
  set (y := env 0%nat + u) in *. set (mu := coded_mean nm (env 1%nat)) in *. set (sg := Rmin _ _) in *. split.
  - intros H. exists (lik_dy y mu sg). split; [apply lik_derive_y; lra|]. split; [apply lik_derive_mu; lra|].
    rewrite B0, B1. destruct (Rle_dec _ _); [split; ring|]. destruct (Rlt_dec _ _); [split; ring|]. exfalso; lra.
  - intros H G. rewrite B0, B1, B2. destruct (Rle_dec (/ 10 ^ 9) _); [lra|]. destruct (Rlt_dec g 0); [lra|].
    rewrite !Rmult_0_l. rewrite (Rmax_left 0 0) by lra. destruct (Rle_dec _ _); repeat split; ring.
Qed.
Print Assumptions C96_vct_rate.

(** The scale: the exact derivative while the softplus is at most 256 (one half of it at exactly 0);
    above, only a gradient that makes the scale smaller passes. *)
Theorem C96_vct_rate_scale : forall nm ns ms u env g, (1 <= nm)%Z -> (2 <= ns)%Z -> 0 < ms ->
  let y := env 0%nat + u in
  let mu := coded_mean nm (env 1%nat) in
  let s := env 2%nat in
  let L := gsn_likelihood nm ns ms u in
  (/ 10 ^ 9 <= gauss_lik y mu (Rmin (softplus s + ms) (256 + ms)) \/ g < 0) ->
  (softplus s <= 256 ->
     exists d, is_derive (fun s => gauss_lik y mu (softplus s + ms)) s d /\
               back env L g 2 = (if Req_EM_T s 0 then g * d / 2 else g * d)) /\
  (256 < softplus s ->
     exists d, is_derive (fun sg => gauss_lik y mu sg) (256 + ms) d /\
               (g * d <= 0 -> back env L g 2 = 0) /\ (0 < g * d -> 0 < back env L g 2)).
Proof.
  intros nm ns ms u env g NM NS MS. cbn zeta. intros H. destruct (rate_all nm ns ms u env g NM NS MS) as (_ & _ & _ & B2).
  pose proof (softplus_pos (env 2%nat)) as VP. set (s := env 2%nat) in *.
  set (y := env 0%nat + u) in *. set (mu := coded_mean nm (env 1%nat)) in *.
  assert (G : (if Rle_dec (/ 10 ^ 9) (gauss_lik y mu (Rmin (softplus s + ms) (256 + ms))) then g else if Rlt_dec g 0 then g else 0) = g).
  { destruct (Rle_dec (/ 10 ^ 9) _); [reflexivity|]. destruct (Rlt_dec g 0); [reflexivity|]. exfalso; lra. }
  rewrite G in B2. split; intro V.
  - exists (lik_ds y mu (softplus s + ms) * dsoftplus s). split.
    + apply (derive_eq _ _ (scal (dsoftplus s) (lik_ds y mu (softplus s + ms)))); [|unfold scal; cbn; unfold mult; cbn; ring].
      apply (is_derive_comp (fun sg => gauss_lik y mu sg) (fun s => softplus s + ms)); [apply lik_derive_s; lra|].
      apply (derive_eq _ _ (plus (dsoftplus s) 0)); [|unfold plus; cbn; ring].
      apply (is_derive_plus softplus (fun _ => ms)); [apply softplus_derive|apply @is_derive_const].
    + rewrite B2. destruct (Rle_dec (softplus s) 256); [|lra]. rewrite Rmin_left by lra. unfold softplus_back.
      destruct (Req_EM_T s 0) as [->|NZ]; [|ring]. unfold dsoftplus. destruct (Rlt_dec 0 0); [lra|]. field.
  - exists (lik_ds y mu (256 + ms)). split; [apply lik_derive_s; lra|].
    rewrite B2. destruct (Rle_dec (softplus s) 256); [lra|]. rewrite Rmin_right by lra. split; intro D.
    + rewrite Rmax_right by exact D. ring.
    + rewrite Rmax_left by lra. apply Rmult_lt_0_compat.
      * apply Rmult_lt_0_compat; [exact D|]. apply Rdiv_lt_0_compat; lra.
      * unfold softplus_back. assert (S0 : 0 < s). { apply Rnot_le_lt. intro S0. unfold softplus in V. destruct (Rlt_dec 0 s); [lra|].
          assert (1 / (1 - s) <= 1). { unfold Rdiv. rewrite Rmult_1_l, <- Rinv_1. apply Rinv_le_contravar; lra. } lra. }
        destruct (Req_EM_T s 0); [lra|]. unfold dsoftplus. destruct (Rlt_dec 0 s); lra.
Qed.
Print Assumptions C96_vct_rate_scale.

(** The hypotheses hold, e.g. for an input at its mean. *)
Example vct_rate_example : let env := fun i => nth i [2.25; 2.25; 1] 0 in
  coded_mean 100 (env 1%nat) = 2.25 /\ softplus (env 2%nat) = 2 /\
  back env (gsn_likelihood 100 256 0.01 0) (-1) 0 = 0.
Proof.
  cbn zeta. assert (Q : round_even 2.25 = 2%Z) by (apply round_even_unique; rewrite Rabs_pos_eq; lra).
  assert (CM : coded_mean 100 2.25 = 2.25).
  { apply coded_mean_spec; [lia|]. rewrite Q. lra. }
  split; [exact CM|]. split; [cbn [nth]; unfold softplus; destruct (Rlt_dec 0 1); lra|].
  destruct (rate_all 100 256 0.01 0 (fun i => nth i [2.25; 2.25; 1] 0) (-1) ltac:(lia) ltac:(lia) ltac:(lra)) as (_ & -> & _).
  cbn [nth]. rewrite CM. unfold lik_dy. rewrite Rplus_0_r. set (sg := Rmin _ _).
  replace ((2.25 - 2.25 - / 2) / sg) with (- ((2.25 - 2.25 + / 2) / sg)) by (unfold Rdiv; ring). rewrite phi_even. unfold Rdiv. ring.
Qed.

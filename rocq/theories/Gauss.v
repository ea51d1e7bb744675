(** The standard normal distribution function over the reals, from first
    principles: the density, its integral, the Gaussian integral (the total mass
    is one), symmetry, monotonicity and the classical tail bounds.

    This is mathematics used by the specification of the probability helpers
    (Dist_Spec.v); it models no code.  The error function computed by the
    framework is defined in the same way as the textbook one. *)
From Coq Require Import Reals Lra Lia.
From Coquelicot Require Import Coquelicot.
Open Scope R_scope.

(** exp(-x^2), its integral from 0, and the textbook error function. *)
Definition gexp (x : R) : R := exp (- (x * x)).
Definition gint (t : R) : R := RInt gexp 0 t.
Definition erf (x : R) : R := 2 / sqrt PI * gint x.
Definition erfc (x : R) : R := 1 - erf x.

(** The density and the distribution function of the standard normal. *)
Definition phi (x : R) : R := exp (- (x * x) / 2) / sqrt (2 * PI).
Definition Phi (x : R) : R := 1 / 2 + RInt phi 0 x.

Lemma gexp_pos : forall x, 0 < gexp x.
Proof. intros; apply exp_pos. Qed.

Lemma gexp_continuous : forall x, continuous gexp x.
Proof.
  intros x. apply (ex_derive_continuous gexp). unfold gexp. auto_derive. exact I.
Qed.

Lemma gexp_int : forall a b, ex_RInt gexp a b.
Proof. intros a b. apply (ex_RInt_continuous gexp). intros; apply gexp_continuous. Qed.

Lemma gint_derive : forall t, is_derive gint t (gexp t).
Proof.
  intros t. unfold gint. apply (is_derive_RInt gexp (RInt gexp 0) 0).
  - exists posreal_one. intros y _. apply (RInt_correct gexp), gexp_int.
  - apply gexp_continuous.
Qed.

(** The auxiliary integral of the classical argument. *)
Definition jf (t x : R) : R := exp (- (t * t) * (1 + x * x)) / (1 + x * x).
Definition jint (t : R) : R := RInt (jf t) 0 1.

Lemma den_pos : forall x, 0 < 1 + x * x.
Proof. intros; nra. Qed.

Lemma jf_continuous : forall t x, continuous (jf t) x.
Proof.
  intros t x. apply (ex_derive_continuous (jf t)). unfold jf. auto_derive.
  pose proof (den_pos x); lra.
Qed.

Lemma jf_derive : forall t x,
  is_derive (fun u => jf u x) t (- 2 * t * exp (- (t * t) * (1 + x * x))).
Proof.
  intros t x. unfold jf. pose proof (den_pos x). auto_derive; [lra|]. field. lra.
Qed.

Lemma jint_derive : forall t,
  is_derive jint t (RInt (fun x => - 2 * t * exp (- (t * t) * (1 + x * x))) 0 1).
Proof.
  intros t.
  replace (RInt (fun x => - 2 * t * exp (- (t * t) * (1 + x * x))) 0 1)
    with (RInt (fun x => Derive (fun u => jf u x) t) 0 1).
  2:{ apply RInt_ext. intros x _. apply is_derive_unique, jf_derive. }
  apply (is_derive_RInt_param jf 0 1 t).
  - exists posreal_one. intros y _ x _. eexists; apply jf_derive.
  - intros x _.
    apply (continuity_2d_pt_ext
             (fun u v => - 2 * u * exp (- (u * u) * (1 + v * v)))).
    + intros u v. symmetry. apply is_derive_unique, jf_derive.
    + apply continuity_2d_pt_mult.
      * apply continuity_2d_pt_mult; [apply continuity_2d_pt_const|apply continuity_2d_pt_id1].
      * apply (continuity_1d_2d_pt_comp exp).
        { apply derivable_continuous_pt, derivable_pt_exp. }
        apply continuity_2d_pt_mult.
        { apply continuity_2d_pt_opp, continuity_2d_pt_mult; apply continuity_2d_pt_id1. }
        apply continuity_2d_pt_plus; [apply continuity_2d_pt_const|].
        apply continuity_2d_pt_mult; apply continuity_2d_pt_id2.
  - exists posreal_one. intros y _. apply (ex_RInt_continuous (jf y)).
    intros; apply jf_continuous.
Qed.

Lemma jint_derive_value : forall t,
  RInt (fun x => - 2 * t * exp (- (t * t) * (1 + x * x))) 0 1
  = - 2 * gexp t * gint t.
Proof.
  intros t.
  pose proof (RInt_comp_lin gexp t 0 0 1) as H.
  replace (t * 0 + 0) with 0 in H by ring. replace (t * 1 + 0) with t in H by ring.
  specialize (H (gexp_int _ _)). unfold gint. rewrite <- H.
  transitivity (RInt (fun x => scal (- 2 * gexp t) (scal t (gexp (t * x + 0)))) 0 1).
  - apply RInt_ext. intros x _. unfold scal; simpl; unfold mult; simpl; unfold gexp.
    replace (- (t * t) * (1 + x * x)) with (- (t * t) + - ((t * x + 0) * (t * x + 0))) by ring.
    rewrite exp_plus. ring.
  - rewrite (RInt_scal (fun x => scal t (gexp (t * x + 0)))); [reflexivity|].
    apply (ex_RInt_continuous (fun x => scal t (gexp (t * x + 0)))).
    intros z _. apply (continuous_scal_r t (fun x => gexp (t * x + 0))).
    apply (continuous_comp (fun x => t * x + 0) gexp).
    + apply (ex_derive_continuous (fun x => t * x + 0)). auto_derive. exact I.
    + apply gexp_continuous.
Qed.

Lemma gauss_const : forall t, gint t * gint t + jint t = PI / 4.
Proof.
  assert (D : forall t, is_derive (fun u => gint u * gint u + jint u) t 0).
  { intros t.
    pose proof (gint_derive t) as G. pose proof (jint_derive t) as J.
    rewrite jint_derive_value in J.
    evar_last.
    - apply (is_derive_plus (fun u => gint u * gint u) jint).
      + apply (is_derive_mult gint gint); [exact G|exact G|]. intros n m. apply Rmult_comm.
      + exact J.
    - unfold plus; simpl; unfold mult; simpl. ring. }
  assert (C : forall t, gint t * gint t + jint t = gint 0 * gint 0 + jint 0).
  { intros t.
    destruct (MVT_gen (fun u => gint u * gint u + jint u) 0 t (fun _ => 0)) as (c & _ & E).
    - intros; apply D.
    - intros x _. apply continuity_pt_filterlim.
      apply (ex_derive_continuous (fun u => gint u * gint u + jint u)). eexists; apply D.
    - lra. }
  intros t. rewrite C.
  assert (Z : gint 0 = 0) by (unfold gint; rewrite RInt_point; reflexivity).
  rewrite Z. unfold jint.
  rewrite (RInt_ext (jf 0) (fun x => / (1 + x * x))).
  2:{ intros x _. unfold jf. replace (- (0 * 0) * (1 + x * x)) with 0 by ring.
      rewrite exp_0. apply Rmult_1_l. }
  assert (A : is_RInt (fun x => / (1 + x * x)) 0 1 (minus (atan 1) (atan 0))).
  { apply (is_RInt_derive atan).
    - intros x _. pose proof (derivable_pt_lim_atan x) as L.
      apply is_derive_Reals. replace (/ (1 + x * x)) with (/ (1 + x ^ 2)) by (do 2 f_equal; ring). exact L.
    - intros x _. apply (ex_derive_continuous (fun x => / (1 + x * x))).
      auto_derive. pose proof (den_pos x); lra. }
  rewrite (is_RInt_unique _ _ _ _ A). unfold minus, plus, opp; simpl.
  rewrite atan_1, atan_0. lra.
Qed.

Lemma jint_bounds : forall t, 0 <= jint t <= gexp t.
Proof.
  intros t. split.
  - apply RInt_ge_0; [lra| |].
    + apply (ex_RInt_continuous (jf t)). intros; apply jf_continuous.
    + intros x _. unfold jf. apply Rlt_le, Rdiv_lt_0_compat; [apply exp_pos|apply den_pos].
  - replace (gexp t) with (RInt (fun _ => gexp t) 0 1).
    2:{ rewrite RInt_const. unfold scal; simpl; unfold mult; simpl. ring. }
    apply RInt_le; [lra| | |].
    + apply (ex_RInt_continuous (jf t)). intros; apply jf_continuous.
    + apply ex_RInt_const.
    + intros x [X0 X1]. unfold jf, gexp.
      apply Rle_trans with (exp (- (t * t) * (1 + x * x)) / 1).
      * unfold Rdiv. apply Rmult_le_compat_l; [apply Rlt_le, exp_pos|].
        apply Rinv_le_contravar; nra.
      * rewrite Rdiv_1. destruct (Req_dec (x * t) 0) as [E|E].
        { replace (- (t * t) * (1 + x * x)) with (- (t * t) - (x * t) * (x * t)) by ring.
          rewrite E. right. f_equal. ring. }
        apply Rlt_le, exp_increasing. nra.
Qed.

Lemma gint_sqr_bounds : forall t, PI / 4 - gexp t <= gint t * gint t <= PI / 4.
Proof. intros t. pose proof (gauss_const t). pose proof (jint_bounds t). lra. Qed.

Lemma gint_odd : forall t, gint (- t) = - gint t.
Proof.
  intros t. unfold gint.
  pose proof (RInt_comp_lin gexp (-1) 0 0 t) as H.
  replace (-1 * 0 + 0) with 0 in H by ring. replace (-1 * t + 0) with (- t) in H by ring.
  rewrite <- (H (gexp_int _ _)).
  change (- RInt gexp 0 t) with (opp (RInt gexp 0 t)).
  rewrite <- (RInt_opp gexp) by apply gexp_int.
  apply RInt_ext. intros x _. unfold opp, scal; simpl; unfold mult; simpl. unfold gexp.
  replace ((-1 * x + 0) * (-1 * x + 0)) with (x * x) by ring. ring.
Qed.

Lemma gint_0 : gint 0 = 0.
Proof. unfold gint. rewrite RInt_point. reflexivity. Qed.

Lemma gint_incr : forall a b, a < b -> gint a < gint b.
Proof.
  intros a b H. apply (incr_function gint m_infty p_infty gexp); simpl; auto.
  - intros; apply gint_derive.
  - intros; apply gexp_pos.
Qed.

(** ** The distribution function *)

Lemma sqrt_pi_pos : 0 < sqrt PI.
Proof. apply sqrt_lt_R0, PI_RGT_0. Qed.

Lemma sqrt_2pi_pos : 0 < sqrt (2 * PI).
Proof. apply sqrt_lt_R0. pose proof PI_RGT_0; lra. Qed.

Lemma phi_pos : forall x, 0 < phi x.
Proof. intros. apply Rdiv_lt_0_compat; [apply exp_pos|apply sqrt_2pi_pos]. Qed.

Lemma phi_even : forall x, phi (- x) = phi x.
Proof. intros. unfold phi. do 2 f_equal. lra. Qed.

Lemma phi_derive : forall x, is_derive phi x (- x * phi x).
Proof.
  intros x. unfold phi, Rdiv. pose proof sqrt_2pi_pos. auto_derive; [exact I|].
  set (s := sqrt (2 * PI)) in *. set (e := exp _). field. lra.
Qed.

Lemma phi_continuous : forall x, continuous phi x.
Proof. intros x. apply (ex_derive_continuous phi). eexists; apply phi_derive. Qed.

Lemma phi_int : forall a b, ex_RInt phi a b.
Proof. intros a b. apply (ex_RInt_continuous phi). intros; apply phi_continuous. Qed.

Lemma Phi_derive : forall x, is_derive Phi x (phi x).
Proof.
  intros x. unfold Phi.
  evar_last.
  - apply (is_derive_plus (fun _ => 1 / 2) (RInt phi 0)).
    + apply is_derive_const.
    + apply (is_derive_RInt phi (RInt phi 0) 0).
      * exists posreal_one. intros y _. apply (RInt_correct phi), phi_int.
      * apply phi_continuous.
  - unfold plus, zero; simpl. ring.
Qed.

Lemma Phi_incr : forall a b, a < b -> Phi a < Phi b.
Proof.
  intros a b H. apply (incr_function Phi m_infty p_infty phi); simpl; auto.
  - intros; apply Phi_derive.
  - intros; apply phi_pos.
Qed.

Lemma Phi_mono : forall a b, a <= b -> Phi a <= Phi b.
Proof. intros a b [H| ->]; [apply Rlt_le, Phi_incr, H|lra]. Qed.

Lemma Phi_0 : Phi 0 = 1 / 2.
Proof. unfold Phi. rewrite (RInt_point 0 phi). unfold zero; simpl. lra. Qed.

(** The distribution function through the error function: the identity every
    implementation uses. *)
Lemma Phi_erf : forall x, Phi x = 1 / 2 * (1 + erf (x * sqrt (1 / 2))).
Proof.
  intros x. unfold Phi, erf, gint.
  set (h := sqrt (1 / 2)).
  assert (Hh : h * h = 1 / 2) by (apply sqrt_sqrt; lra).
  pose proof (RInt_comp_lin gexp h 0 0 x) as H.
  replace (h * 0 + 0) with 0 in H by ring. replace (h * x + 0) with (x * h) in H by ring.
  specialize (H (gexp_int _ _)). rewrite <- H.
  pose proof sqrt_pi_pos as P. pose proof sqrt_2pi_pos as P2.
  assert (S : sqrt (2 * PI) * h = sqrt PI).
  { unfold h. rewrite <- sqrt_mult; [f_equal; lra| |lra]. pose proof PI_RGT_0; lra. }
  assert (E : RInt phi 0 x = RInt (fun y => scal (1 / sqrt PI) (scal h (gexp (h * y + 0)))) 0 x).
  { apply RInt_ext. intros y _. unfold scal; simpl; unfold mult; simpl. unfold phi, gexp.
    replace ((h * y + 0) * (h * y + 0)) with ((h * h) * (y * y)) by ring. rewrite Hh.
    replace (- (y * y) / 2) with (- (1 / 2 * (y * y))) by lra.
    rewrite <- S. assert (h <> 0) by nra. field. split; lra. }
  rewrite E, (RInt_scal (fun y => scal h (gexp (h * y + 0)))).
  - unfold scal; simpl; unfold mult; simpl. field. lra.
  - apply (ex_RInt_continuous (fun y => scal h (gexp (h * y + 0)))).
    intros z _. apply (continuous_scal_r h (fun y => gexp (h * y + 0))).
    apply (continuous_comp (fun y => h * y + 0) gexp).
    + apply (ex_derive_continuous (fun y => h * y + 0)). auto_derive. exact I.
    + apply gexp_continuous.
Qed.

Lemma erf_odd : forall x, erf (- x) = - erf x.
Proof. intros x. unfold erf. rewrite gint_odd. ring. Qed.

Lemma erf_0 : erf 0 = 0.
Proof. unfold erf. rewrite gint_0. ring. Qed.

Lemma erf_incr : forall a b, a < b -> erf a < erf b.
Proof.
  intros a b H. unfold erf. apply Rmult_lt_compat_l; [|apply gint_incr, H].
  apply Rdiv_lt_0_compat; [lra|apply sqrt_pi_pos].
Qed.

(** The Gaussian integral, as a two-sided bound on the error function. *)
Lemma erf_sqr_bounds : forall x, 1 - 4 / PI * gexp x <= erf x * erf x <= 1.
Proof.
  intros x. pose proof (gint_sqr_bounds x) as [A B]. pose proof PI_RGT_0 as P.
  replace (erf x * erf x) with (4 / PI * (gint x * gint x)).
  2:{ unfold erf. pose proof sqrt_pi_pos as S.
      replace (2 / sqrt PI * gint x * (2 / sqrt PI * gint x))
        with (4 / (sqrt PI * sqrt PI) * (gint x * gint x)) by (field; lra).
      rewrite sqrt_sqrt by lra. reflexivity. }
  assert (Q : 0 < 4 / PI) by (apply Rdiv_lt_0_compat; lra).
  split.
  - replace (1 - 4 / PI * gexp x) with (4 / PI * (PI / 4 - gexp x)) by (field; lra).
    apply Rmult_le_compat_l; lra.
  - replace 1 with (4 / PI * (PI / 4)) by (field; lra). apply Rmult_le_compat_l; lra.
Qed.

Lemma erf_bounds : forall x, -1 < erf x < 1.
Proof.
  intros x. pose proof (erf_sqr_bounds (x + 1)) as [_ A]. pose proof (erf_sqr_bounds (x - 1)) as [_ B].
  pose proof (erf_incr x (x + 1) ltac:(lra)). pose proof (erf_incr (x - 1) x ltac:(lra)). nra.
Qed.

Lemma Phi_sym : forall x, Phi (- x) = 1 - Phi x.
Proof.
  intros x. rewrite !Phi_erf. replace (- x * sqrt (1 / 2)) with (- (x * sqrt (1 / 2))) by ring.
  rewrite erf_odd. lra.
Qed.

Lemma Phi_bounds : forall x, 0 < Phi x < 1.
Proof. intros x. rewrite Phi_erf. pose proof (erf_bounds (x * sqrt (1 / 2))). lra. Qed.

(** Total mass one: the distribution function tends to 1. *)
Lemma Phi_upper : forall x, 0 <= x -> 1 - Phi x <= 2 / PI * exp (- (x * x) / 2).
Proof.
  intros x X. rewrite Phi_erf. set (y := x * sqrt (1 / 2)).
  assert (Y : y * y = x * x / 2).
  { unfold y. pose proof (sqrt_sqrt (1 / 2) ltac:(lra)). nra. }
  assert (Y0 : 0 <= y) by (unfold y; apply Rmult_le_pos; [lra|apply sqrt_pos]).
  assert (E0 : 0 <= erf y).
  { destruct Y0 as [Y0| <-]; [|rewrite erf_0; lra].
    pose proof (erf_incr 0 y Y0). rewrite erf_0 in *; lra. }
  pose proof (erf_bounds y) as [_ E1]. pose proof (erf_sqr_bounds y) as [L _].
  unfold gexp in L. rewrite Y in L.
  replace (- (x * x) / 2) with (- (x * x / 2)) by lra.
  replace (2 / PI * exp (- (x * x / 2))) with (1 / 2 * (4 / PI * exp (- (x * x / 2)))).
  2:{ pose proof PI_RGT_0. field. lra. }
  assert (erf y * erf y <= erf y) by nra. lra.
Qed.

Lemma exp_ge_lin : forall x, 1 + x <= exp x.
Proof. intros x. destruct (Req_dec x 0) as [->|N]; [rewrite exp_0; lra|apply Rlt_le, exp_ineq1; exact N]. Qed.

Lemma Phi_lim_p : is_lim Phi p_infty 1.
Proof.
  apply is_lim_spec. intros eps. simpl.
  pose proof PI_RGT_0 as P.
  exists (Rmax 1 (2 * (2 / PI) / eps)). intros x X.
  pose proof (Rmax_l 1 (2 * (2 / PI) / eps)). pose proof (Rmax_r 1 (2 * (2 / PI) / eps)).
  pose proof (Phi_bounds x) as [_ B]. pose proof (Phi_upper x ltac:(lra)) as U.
  pose proof (cond_pos eps) as Ep.
  assert (Q : 0 < 2 / PI) by (apply Rdiv_lt_0_compat; lra).
  rewrite Rabs_left by lra.
  assert (T : exp (- (x * x) / 2) < 2 / x).
  { replace (- (x * x) / 2) with (- (x * x / 2)) by lra. rewrite exp_Ropp.
    pose proof (exp_ge_lin (x * x / 2)).
    apply Rle_lt_trans with (/ (1 + x * x / 2)).
    - apply Rinv_le_contravar; nra.
    - replace (2 / x) with (/ (x / 2)) by (field; lra). apply Rinv_lt_contravar; nra. }
  assert (V : 2 / PI * (2 / x) < eps).
  { replace (2 / PI * (2 / x)) with ((2 * (2 / PI)) / x) by (field; lra).
    apply Rlt_div_l; [lra|].
    assert (W : 2 * (2 / PI) / eps < x) by lra.
    apply Rlt_div_l in W; [|exact Ep]. lra. }
  assert (2 / PI * exp (- (x * x) / 2) < 2 / PI * (2 / x)) by (apply Rmult_lt_compat_l; lra).
  lra.
Qed.

Lemma Phi_lim_m : is_lim Phi m_infty 0.
Proof.
  apply (is_lim_ext (fun x => 1 - Phi (- x))).
  - intros x. rewrite Phi_sym. lra.
  - evar_last.
    + apply (is_lim_minus (fun _ => 1) (fun x => Phi (- x)) m_infty 1 1).
      * apply is_lim_const.
      * apply (is_lim_comp Phi (fun x => - x) m_infty 1 p_infty).
        { apply Phi_lim_p. }
        { apply (is_lim_opp (fun x => x) m_infty m_infty), is_lim_id. }
        { exists 0. intros; discriminate. }
      * unfold is_Rbar_minus, is_Rbar_plus; simpl. reflexivity.
    + simpl. f_equal. lra.
Qed.

(** ** Tail bounds (Mills' ratio): the first terms of the asymptotic series *)

Definition p2 (z : R) : R := 1 / z - 1 / (z * z * z) + 3 / (z * z * z * z * z).
Definition p3 (z : R) : R := p2 z - 15 / (z * z * z * z * z * z * z).

(** A decreasing function with limit 0 is positive. *)
Lemma decr_lim_pos : forall (f : R -> R) (f' : R -> R),
  (forall z, 0 < z -> is_derive f z (f' z)) -> (forall z, 0 < z -> f' z < 0) ->
  is_lim f p_infty 0 -> forall z, 0 < z -> 0 < f z.
Proof.
  intros f f' D N L.
  assert (M : forall a b, 0 < a -> a < b -> f b < f a).
  { intros a b A B.
    destruct (MVT_gen f a b f') as (c & C & E).
    - intros x X. rewrite Rmin_left, Rmax_right in X by lra. apply D; lra.
    - intros x X. rewrite Rmin_left, Rmax_right in X by lra.
      apply continuity_pt_filterlim. apply (ex_derive_continuous f). eexists; apply D; lra.
    - rewrite Rmin_left, Rmax_right in C by lra. pose proof (N c ltac:(lra)). nra. }
  intros z Z. apply Rnot_le_lt. intros F.
  pose proof (M z (z + 1) Z ltac:(lra)) as F1.
  assert (P : 0 < - f (z + 1)) by lra.
  apply is_lim_spec in L. specialize (L (mkposreal _ P)). destruct L as [B L]. simpl in L.
  set (w := Rmax (B + 1) (z + 2)).
  pose proof (Rmax_l (B + 1) (z + 2)). pose proof (Rmax_r (B + 1) (z + 2)). fold w in H, H0.
  specialize (L w ltac:(lra)). pose proof (M (z + 1) w ltac:(lra) ltac:(lra)).
  rewrite Rminus_0_r in L. apply Rabs_def2 in L. lra.
Qed.

Lemma phi_decay : forall z, 1 <= z -> phi z <= / z.
Proof.
  intros z Z. unfold phi. pose proof sqrt_2pi_pos as S.
  assert (S2 : 2 <= sqrt (2 * PI)).
  { replace 2 with (sqrt (2 * 2)) at 1 by (apply sqrt_square; lra).
    apply sqrt_le_1; [lra|pose proof PI_RGT_0; lra|]. pose proof PI2_3_2. lra. }
  replace (- (z * z) / 2) with (- (z * z / 2)) by lra. rewrite exp_Ropp.
  pose proof (exp_ge_lin (z * z / 2)). pose proof (exp_pos (z * z / 2)).
  unfold Rdiv. rewrite <- Rinv_mult. apply Rinv_le_contravar; nra.
Qed.

Lemma tail_lim : is_lim (fun z => 1 - Phi z) p_infty 0.
Proof.
  evar_last.
  - apply (is_lim_minus (fun _ => 1) Phi p_infty 1 1).
    + apply is_lim_const.
    + apply Phi_lim_p.
    + unfold is_Rbar_minus, is_Rbar_plus; simpl. reflexivity.
  - simpl. f_equal. lra.
Qed.

(** A function dominated by phi at infinity tends to 0. *)
Lemma phi_dom_lim : forall (p : R -> R),
  (forall z, 10 <= z -> Rabs (p z) <= 1) -> is_lim (fun z => phi z * p z) p_infty 0.
Proof.
  intros p B. apply is_lim_spec. intros eps. pose proof (cond_pos eps) as E.
  exists (Rmax 10 (/ eps)). intros z Z.
  pose proof (Rmax_l 10 (/ eps)). pose proof (Rmax_r 10 (/ eps)).
  rewrite Rminus_0_r, Rabs_mult, (Rabs_right (phi z)) by (pose proof (phi_pos z); lra).
  pose proof (B z ltac:(lra)). pose proof (phi_decay z ltac:(lra)). pose proof (phi_pos z).
  pose proof (Rabs_pos (p z)).
  assert (/ z < eps).
  { rewrite <- (Rinv_inv eps). apply Rinv_lt_contravar; [|lra].
    apply Rmult_lt_0_compat; [apply Rinv_0_lt_compat, E|lra]. }
  nra.
Qed.

Lemma inv_small : forall z, 10 <= z -> 0 < / z <= 1 / 10.
Proof.
  intros z Z. split; [apply Rinv_0_lt_compat; lra|].
  replace (1 / 10) with (/ 10) by lra. apply Rinv_le_contravar; lra.
Qed.

Lemma p2_inv : forall z, 0 < z ->
  p2 z = / z - / z ^ 3 + 3 * / z ^ 5.
Proof. intros z Z. unfold p2. field. lra. Qed.

Lemma p2_small : forall z, 10 <= z -> Rabs (p2 z) <= 1.
Proof.
  intros z Z. rewrite p2_inv by lra. pose proof (inv_small z Z) as [A B].
  rewrite <- !pow_inv. set (i := / z) in *.
  assert (0 <= i ^ 3 <= 1 / 10) by (split; [apply pow_le; lra|]; replace (i ^ 3) with (i * (i * i)) by ring; nra).
  assert (0 <= i ^ 5 <= 1 / 10).
  { split; [apply pow_le; lra|]. replace (i ^ 5) with (i ^ 3 * (i * i)) by ring. nra. }
  apply Rabs_le. lra.
Qed.

Lemma p3_small : forall z, 10 <= z -> Rabs (p3 z) <= 1.
Proof.
  intros z Z.
  assert (E : p3 z = / z - / z ^ 3 + 3 * / z ^ 5 - 15 * / z ^ 7) by (unfold p3, p2; field; lra).
  rewrite E. pose proof (inv_small z Z) as [A B].
  rewrite <- !pow_inv. set (i := / z) in *.
  assert (0 <= i * i <= 1 / 100) by nra.
  assert (0 <= i ^ 3 <= 1 / 1000) by (split; [apply pow_le; lra|]; replace (i ^ 3) with (i * (i * i)) by ring; nra).
  assert (0 <= i ^ 5 <= 1 / 1000).
  { split; [apply pow_le; lra|]. replace (i ^ 5) with (i ^ 3 * (i * i)) by ring. nra. }
  assert (0 <= i ^ 7 <= 1 / 1000).
  { split; [apply pow_le; lra|]. replace (i ^ 7) with (i ^ 5 * (i * i)) by ring. nra. }
  apply Rabs_le. lra.
Qed.

Lemma p2_derive : forall z, 0 < z ->
  is_derive (fun z => phi z * p2 z) z (- phi z * (1 + 15 / z ^ 6)).
Proof.
  intros z Z. evar_last.
  - apply (is_derive_mult phi p2); [apply phi_derive| |intros; apply Rmult_comm].
    instantiate (1 := - 1 / z ^ 2 + 3 / z ^ 4 - 15 / z ^ 6).
    unfold p2. auto_derive.
    + repeat split; try nra; apply Rgt_not_eq, Rlt_gt; repeat apply Rmult_lt_0_compat; lra.
    + field. lra.
  - unfold plus; simpl; unfold mult; simpl. unfold p2. field. lra.
Qed.

Lemma p3_derive : forall z, 0 < z ->
  is_derive (fun z => phi z * p3 z) z (- phi z * (1 - 105 / z ^ 8)).
Proof.
  intros z Z. evar_last.
  - apply (is_derive_mult phi p3); [apply phi_derive| |intros; apply Rmult_comm].
    instantiate (1 := - 1 / z ^ 2 + 3 / z ^ 4 - 15 / z ^ 6 + 105 / z ^ 8).
    unfold p3, p2. auto_derive.
    + repeat split; try nra; apply Rgt_not_eq, Rlt_gt; repeat apply Rmult_lt_0_compat; lra.
    + field. lra.
  - unfold plus; simpl; unfold mult; simpl. unfold p3, p2. field. lra.
Qed.

Lemma tail_derive : forall z, is_derive (fun z => 1 - Phi z) z (- phi z).
Proof.
  intros z. evar_last.
  - apply (is_derive_minus (fun _ => 1) Phi); [apply is_derive_const|apply Phi_derive].
  - unfold minus, plus, opp, zero; simpl. ring.
Qed.

Theorem tail_upper : forall z, 0 < z -> 1 - Phi z < phi z * p2 z.
Proof.
  intros z Z.
  assert (H : 0 < phi z * p2 z - (1 - Phi z)); [|lra].
  apply (decr_lim_pos (fun z => phi z * p2 z - (1 - Phi z)) (fun z => - (phi z * (15 / z ^ 6)))); [| | |exact Z].
  - intros y Y. evar_last.
    + apply (is_derive_minus (fun z => phi z * p2 z) (fun z => 1 - Phi z));
        [apply p2_derive, Y|apply tail_derive].
    + unfold minus, plus, opp; simpl. ring.
  - intros y Y. pose proof (phi_pos y).
    assert (0 < 15 / y ^ 6) by (apply Rdiv_lt_0_compat; [lra|apply pow_lt, Y]). nra.
  - evar_last.
    + apply (is_lim_minus (fun z => phi z * p2 z) (fun z => 1 - Phi z) p_infty 0 0).
      * apply phi_dom_lim, p2_small.
      * apply tail_lim.
      * unfold is_Rbar_minus, is_Rbar_plus; simpl. reflexivity.
    + simpl. f_equal. lra.
Qed.

Theorem tail_lower : forall z, 0 < z -> phi z * p3 z < 1 - Phi z.
Proof.
  intros z Z.
  assert (H : 0 < (1 - Phi z) - phi z * p3 z); [|lra].
  apply (decr_lim_pos (fun z => (1 - Phi z) - phi z * p3 z) (fun z => - (phi z * (105 / z ^ 8)))); [| | |exact Z].
  - intros y Y. evar_last.
    + apply (is_derive_minus (fun z => 1 - Phi z) (fun z => phi z * p3 z));
        [apply tail_derive|apply p3_derive, Y].
    + unfold minus, plus, opp; simpl. ring.
  - intros y Y. pose proof (phi_pos y).
    assert (0 < 105 / y ^ 8) by (apply Rdiv_lt_0_compat; [lra|apply pow_lt, Y]). nra.
  - evar_last.
    + apply (is_lim_minus (fun z => 1 - Phi z) (fun z => phi z * p3 z) p_infty 0 0).
      * apply tail_lim.
      * apply phi_dom_lim, p3_small.
      * unfold is_Rbar_minus, is_Rbar_plus; simpl. reflexivity.
    + simpl. f_equal. lra.
Qed.

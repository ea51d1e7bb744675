(** C46 (uniform-noise densities) and C48 (log-probability helpers). *)
From Coq Require Import Reals List Bool Arith Lia Lra ZArith.
From Coquelicot Require Import Coquelicot.
From Verif Require Import Base Tensor RBase RFloat RSum Gauss Dist_Model Dist_Spec Dist_Proofs.
Import ListNotations.
Open Scope R_scope.

(** ** C48: the normal distribution function and its logarithm *)

(** ndtr is the standard normal distribution function ([Phi_is_normal_cdf]) at every point. *)
Theorem ndtr_value : forall x, ndtr x = Phi x.
Proof. exact ndtr_Phi. Qed.

Theorem log_ndtr_value : forall dt m x,
  (dt = Float32 /\ m = -10) \/ (dt = Float64 /\ m = -20) -> m <= x ->
  log_ndtr dt x = Ok (Fin (ln (Phi x))).
Proof.
  intros dt m x D M. rewrite log_ndtr_lnd by (destruct D as [[-> _]|[-> _]]; discriminate).
  unfold lnd. destruct (Rle_dec (thr dt) x) as [L|L]; [reflexivity|].
  destruct D as [[-> ->]|[-> ->]]; simpl in L; lra.
Qed.

(** Below the threshold: always below the true logarithm, by between 1/x^4 and 3/x^4. *)
Theorem log_ndtr_tail : forall dt m x,
  (dt = Float32 /\ m = -10) \/ (dt = Float64 /\ m = -20) -> x < m ->
  exists v, log_ndtr dt x = Ok (Fin v) /\ / x ^ 4 <= ln (Phi x) - v <= 3 * / x ^ 4.
Proof.
  intros dt m x D M. rewrite log_ndtr_lnd by (destruct D as [[-> _]|[-> _]]; discriminate).
  eexists; split; [reflexivity|].
  unfold lnd. destruct (Rle_dec (thr dt) x) as [L|L].
  { destruct D as [[-> ->]|[-> ->]]; simpl in L; lra. }
  pose proof (thr_range dt).
  pose proof (series_error (- x) ltac:(lra)) as E.
  rewrite <- Phi_sym, Ropp_involutive in E.
  replace ((- x) ^ 4) with (x ^ 4) in E by ring. exact E.
Qed.

(** Strictly increasing over the whole line, across the three branches. *)
Theorem log_ndtr_increasing : forall dt x y v w,
  log_ndtr dt x = Ok (Fin v) -> log_ndtr dt y = Ok (Fin w) -> x < y -> v < w.
Proof.
  intros dt x y v w X Y L.
  assert (N : dt <> OtherDtype) by (intros ->; discriminate X).
  rewrite log_ndtr_lnd in X, Y by exact N. injection X as <-. injection Y as <-.
  apply lnd_mono, L.
Qed.

Theorem log_ndtr_dtype : forall dt x, log_ndtr dt x = Raise TypeError <-> dt = OtherDtype.
Proof. intros dt x. destruct dt; simpl; split; intros; congruence. Qed.

(** The cast to float32 inside ndtr: a float64 argument between -20 and -16 gets -infinity,
    although this range is one where log_ndtr takes the logarithm of ndtr, and the true
    logarithm is finite. *)
Lemma exp_pow_nat : forall n x, exp x ^ n = exp (INR n * x).
Proof.
  induction n as [|n IH]; intros x; [simpl; rewrite Rmult_0_l, exp_0; reflexivity|].
  rewrite S_INR, Rmult_plus_distr_r, exp_plus, <- IH. simpl. rewrite Rmult_1_l. ring.
Qed.

Lemma erfc_tiny : forall u, 11 <= u -> 0 < erfc u < / 2 ^ 151.
Proof.
  intros u U. unfold erfc. pose proof (erf_bounds u) as [_ B]. split; [lra|].
  pose proof (erf_sqr_bounds u) as [L _].
  assert (P : 0 <= erf u) by (pose proof (erf_incr 0 u ltac:(lra)); rewrite erf_0 in *; lra).
  assert (A : 1 - erf u <= 4 / PI * gexp u) by nra.
  assert (G : gexp u <= / 2 ^ 153).
  { unfold gexp. rewrite exp_Ropp. apply Rinv_le_contravar; [apply pow_lt; lra|].
    apply Rle_trans with (exp 121).
    - replace 121 with (INR 1210 * (1 / 10)) by (rewrite INR_IZR_INZ; simpl; lra).
      rewrite <- exp_pow_nat. apply Rle_trans with ((1 + 1 / 10) ^ 1210).
      + replace (1 + 1 / 10) with (11 / 10) by lra. unfold Rdiv. rewrite Rpow_mult_distr, pow_inv.
        apply Rmult_le_reg_r with (10 ^ 1210); [apply pow_lt; lra|].
        rewrite Rmult_assoc, Rinv_l, Rmult_1_r by (apply pow_nonzero; lra).
        rewrite !pow_IZR, <- mult_IZR. apply IZR_le. vm_compute. discriminate.
      + apply pow_incr. split; [lra|]. apply exp_ge_lin.
    - destruct (Req_dec u 11) as [->|N]; [right; f_equal; lra|].
      apply Rlt_le, exp_increasing. nra. }
  assert (Q : 4 / PI < 2).
  { pose proof PI2_3_2. apply Rlt_div_l; pose proof PI_RGT_0; lra. }
  pose proof (gexp_pos u).
  assert (H2 : 0 < / 2 ^ 153) by (apply Rinv_0_lt_compat, pow_lt; lra).
  assert (E : / 2 ^ 151 = 4 * / 2 ^ 153).
  { replace (2 ^ 153) with (4 * 2 ^ 151) by (rewrite (pow_add 2 2 151 : 2 ^ 153 = _); simpl (2 ^ 2); ring).
    assert (2 ^ 151 <> 0) by (apply pow_nonzero; lra). field. }
  nra.
Qed.

Theorem log_ndtr_float64_refuted : forall x, -20 <= x <= -16 ->
  elog (Fin (ndtr32 x)) = MInf /\ log_ndtr Float64 x = Ok (Fin (ln (Phi x))).
Proof.
  intros x X. split.
  - assert (Z : ndtr32 x = 0).
    2:{ rewrite Z. unfold elog. destruct (Rlt_dec 0 0); [lra|]. destruct (Req_EM_T 0 0); [reflexivity|lra]. }
    set (h := b32 (sqrt (1 / 2))).
    assert (H : 11 / 16 <= h <= 3 / 4).
    { unfold h. pose proof (b32_sixteenth 11 ltac:(simpl; lia)) as E11.
      pose proof (b32_sixteenth 12 ltac:(simpl; lia)) as E12.
      replace (11 / 16) with (b32 (11 / 16)) by (rewrite E11; lra).
      replace (3 / 4) with (b32 (12 / 16)) by (rewrite E12; lra).
      split; apply b32_mono.
      - apply Rsqr_incr_0_var; [|apply sqrt_pos]. rewrite Rsqr_sqrt by lra. unfold Rsqr. lra.
      - apply Rsqr_incr_0_var; [|lra]. rewrite Rsqr_sqrt by lra. unfold Rsqr. lra. }
    assert (X1 : b32 x <= -16).
    { rewrite <- (b32_int (-16)) by (simpl; lia). apply b32_mono. lra. }
    assert (S : b32 (b32 x * h) <= -11).
    { rewrite <- (b32_int (-11)) by (simpl; lia). apply b32_mono. nra. }
    unfold ndtr32. cbv zeta. fold h. set (s := b32 (b32 x * h)) in *.
    rewrite Rabs_left by lra.
    destruct (Rlt_dec (- s) h); [lra|]. destruct (Rlt_dec 0 s); [lra|].
    pose proof (erfc_tiny (- s) ltac:(lra)).
    rewrite (b32_tiny (erfc (- s))) by lra. rewrite Rmult_0_r. apply b32_tiny.
    split; [lra|]. apply Rinv_0_lt_compat, pow_lt; lra.
  - apply (log_ndtr_value Float64 (-20)); [right; auto|lra].
Qed.

(** The float32 computation is accurate at every point: the error is at most 2^-17. *)
Lemma b32_err v : Rabs (b32 v - v) <= Rabs v / 16777216 + / 2 ^ 100.
Proof.
  destruct (Relative.error_N_FLT Zaux.radix2 (-149) 24 ltac:(reflexivity) (fun x => negb (Z.even x)) v) as (e & n & E & N & _ & Q).
  unfold b32. rewrite Q. replace (v * (1 + e) + n - v) with (v * e + n) by ring.
  apply Rle_trans with (Rabs (v * e) + Rabs n); [apply Rabs_triang|].
  assert (E1 : Rabs e <= / 16777216).
  { eapply Rle_trans; [exact E|]. change (Raux.bpow Zaux.radix2 (- (24) + 1)) with (/ IZR (Z.pow_pos 2 23)). cbn [Z.pow_pos Pos.iter Z.mul Pos.mul]. lra. }
  assert (N1 : Rabs n <= / 2 ^ 100).
  { eapply Rle_trans; [exact N|]. apply Rle_trans with (Raux.bpow Zaux.radix2 (-149)); [pose proof (Raux.bpow_ge_0 Zaux.radix2 (-149)); lra|].
    replace (/ 2 ^ 100) with (Raux.bpow Zaux.radix2 (-100)); [apply Raux.bpow_le; lia|].
    change (-100)%Z with (- (100))%Z. rewrite (Raux.bpow_opp Zaux.radix2 100). f_equal. rewrite pow_IZR. reflexivity. }
  rewrite Rabs_mult. pose proof (Rabs_pos v). unfold Rdiv. apply Rplus_le_compat; [|exact N1]. apply Rmult_le_compat_l; assumption.
Qed.
Lemma erf_lip a b : Rabs (erf a - erf b) <= 2 * Rabs (a - b).
Proof.
  assert (S : 1 <= sqrt PI).
  { rewrite <- sqrt_1. apply sqrt_le_1_alt. pose proof PI2_3_2. lra. }
  assert (G : Rabs (gint a - gint b) <= Rabs (a - b)).
  { destruct (MVT_gen gint b a gexp) as (c & _ & E).
    - intros x _. apply gint_derive.
    - intros x _. apply continuity_pt_filterlim. apply (ex_derive_continuous gint). eexists. apply gint_derive.
    - rewrite E, Rabs_mult. rewrite <- (Rmult_1_l (Rabs (a - b))) at 2. apply Rmult_le_compat_r; [apply Rabs_pos|].
      rewrite Rabs_pos_eq by (left; apply gexp_pos). unfold gexp. rewrite <- exp_0. 
      destruct (Req_dec (c * c) 0) as [->|Z]; [right; f_equal; ring|]. left. apply exp_increasing. nra. }
  unfold erf. rewrite <- Rmult_minus_distr_l, Rabs_mult.
  assert (D : 0 < 2 / sqrt PI <= 2).
  { split; [apply Rdiv_lt_0_compat; lra|]. apply Rle_div_l; [lra|]. lra. }
  rewrite (Rabs_pos_eq (2 / sqrt PI)) by lra. apply Rmult_le_compat; try lra; apply Rabs_pos.
Qed.
Lemma half_root : 11 / 16 <= sqrt (1 / 2) <= 3 / 4.
Proof.
  split; (apply Rsqr_incr_0_var; [|try apply sqrt_pos; lra]); rewrite Rsqr_sqrt by lra; unfold Rsqr; lra.
Qed.
Lemma half_root32 : 11 / 16 <= b32 (sqrt (1 / 2)) <= 3 / 4.
Proof.
  pose proof (b32_sixteenth 11 ltac:(simpl; lia)) as E11. pose proof (b32_sixteenth 12 ltac:(simpl; lia)) as E12. pose proof half_root.
  replace (11 / 16) with (b32 (11 / 16)) by (rewrite E11; lra). replace (3 / 4) with (b32 (12 / 16)) by (rewrite E12; lra).
  split; apply b32_mono; lra.
Qed.
Lemma p100 : 0 < / 2 ^ 100 <= / 16777216.
Proof.
  split; [apply Rinv_0_lt_compat, pow_lt; lra|]. apply Rinv_le_contravar; [lra|].
  replace 16777216 with (2 ^ 24) by (simpl; lra). apply Rle_pow; [lra|lia].
Qed.
Ltac rab := repeat match goal with H : Rabs _ <= _ |- _ => apply Raux.Rabs_le_inv in H end.
Theorem ndtr_float32_accuracy : forall x, Rabs (ndtr32 x - Phi x) <= / 2 ^ 17.
Proof.
  intro x. pose proof half_root as C. pose proof half_root32 as H. pose proof p100 as [P0 P1].
  replace (/ 2 ^ 17) with (128 / 16777216) by (simpl; lra).
  unfold ndtr32. cbv zeta. set (h := b32 (sqrt (1 / 2))) in *. set (s := b32 (b32 x * h)). rewrite Phi_erf. set (c := sqrt (1 / 2)) in *.
  destruct (Rle_dec (Rabs x) 20) as [L|L].
  - apply Raux.Rabs_le_inv in L.
    assert (A1 : Rabs (b32 x - x) <= 21 / 16777216) by (pose proof (b32_err x) as E; assert (Rabs x <= 20) by (apply Rabs_le; lra); lra).
    assert (A2 : Rabs (h - c) <= 2 / 16777216).
    { pose proof (b32_err c) as E. fold h in E. rewrite (Rabs_pos_eq c) in E by lra. lra. }
    assert (A3 : Rabs (b32 x * h - x * c) <= 57 / 16777216).
    { replace (b32 x * h - x * c) with ((b32 x - x) * h + x * (h - c)) by ring.
      apply Rle_trans with (Rabs ((b32 x - x) * h) + Rabs (x * (h - c))); [apply Rabs_triang|]. rewrite !Rabs_mult.
      assert (Rabs (b32 x - x) * Rabs h <= 21 / 16777216 * (3 / 4)) by (apply Rmult_le_compat; try apply Rabs_pos; [exact A1|rewrite Rabs_pos_eq; lra]).
      assert (Rabs x * Rabs (h - c) <= 20 * (2 / 16777216)) by (apply Rmult_le_compat; try apply Rabs_pos; [apply Rabs_le; lra|exact A2]). lra. }
    assert (A4 : Rabs (b32 x * h) <= 17).
    { rewrite Rabs_mult. assert (Rabs (b32 x) <= 21) by (rab; apply Rabs_le; lra).
      assert (Rabs (b32 x) * Rabs h <= 21 * (3 / 4)) by (apply Rmult_le_compat; try apply Rabs_pos; [assumption|rewrite Rabs_pos_eq; lra]). lra. }
    assert (A5 : Rabs (s - x * c) <= 75 / 16777216).
    { pose proof (b32_err (b32 x * h)) as E. fold s in E. assert (E1 : Rabs (s - b32 x * h) <= 18 / 16777216) by lra. clear E. rab. apply Rabs_le. split; lra. }
    pose proof (erf_lip s (x * c)) as EL. 
    assert (A6 : Rabs (erf s - erf (x * c)) <= 150 / 16777216) by lra. clear EL.
    pose proof (erf_bounds s) as BS.
    assert (K : forall v, -2 <= v <= 2 -> Rabs (b32 v - v) <= 3 / 16777216).
    { intros v V. pose proof (b32_err v) as E. assert (Rabs v <= 2) by (apply Rabs_le; lra). lra. }
    destruct (Rlt_dec (Rabs s) h) as [L1|L1].
    + pose proof (K (erf s) ltac:(lra)) as E1. set (e1 := b32 (erf s)) in *.
      assert (-1.5 <= e1 <= 1.5) by (rab; lra).
      pose proof (K (1 / 2 * e1) ltac:(lra)) as E2. set (e2 := b32 (1 / 2 * e1)) in *.
      assert (-1 <= e2 <= 1) by (rab; lra).
      pose proof (K (1 / 2 + e2) ltac:(lra)) as E3. rab. apply Rabs_le. lra.
    + assert (Y : Rabs (b32 (1 / 2 * b32 (erfc (Rabs s))) - 1 / 2 * erfc (Rabs s)) <= 5 / 16777216).
      { pose proof (erf_bounds (Rabs s)). unfold erfc. pose proof (K (1 - erf (Rabs s)) ltac:(lra)) as E1.
        set (e1 := b32 (1 - erf (Rabs s))) in *. assert (-1 <= e1 <= 3) by (rab; lra).
        pose proof (K (1 / 2 * e1) ltac:(lra)) as E2. rab. apply Rabs_le. lra. }
      set (y := b32 (1 / 2 * b32 (erfc (Rabs s)))) in *. unfold erfc in Y.
      destruct (Rlt_dec 0 s) as [S|S].
      * rewrite (Rabs_pos_eq s) in Y by lra. 
        assert (-1 <= y <= 2) by (rab; lra).
        pose proof (K (1 - y) ltac:(lra)) as E3. rab. apply Rabs_le. lra.
      * rewrite (Rabs_left1 s), erf_odd in Y by lra. rab. apply Rabs_le. lra.
  - assert (T : forall u, 11 <= u -> b32 (1 / 2 * b32 (erfc u)) = 0).
    { intros u U. pose proof (erfc_tiny u U) as [T0 T1]. rewrite (b32_tiny (erfc u)) by lra. rewrite Rmult_0_r. apply b32_tiny.
      split; [lra|]. apply Rinv_0_lt_compat, pow_lt; lra. }
    assert (V : forall u, 11 <= u -> 0 < erfc u <= 1 / 16777216).
    { intros u U. pose proof (erfc_tiny u U) as [T0 T1]. split; [exact T0|].
      assert (/ 2 ^ 151 <= / 2 ^ 100) by (apply Rinv_le_contravar; [apply pow_lt; lra|apply Rle_pow; [lra|lia]]). lra. }
    destruct (Rle_lt_dec 0 x) as [X|X].
    + rewrite Rabs_pos_eq in L by lra.
      assert (X1 : 16 <= b32 x) by (rewrite <- (b32_int 16) by (simpl; lia); apply b32_mono; lra).
      assert (S : 11 <= s) by (unfold s; rewrite <- (b32_int 11) by (simpl; lia); apply b32_mono; nra).
      rewrite (Rabs_pos_eq s) by lra. destruct (Rlt_dec s h); [lra|]. destruct (Rlt_dec 0 s); [|lra].
      rewrite (T s S), Rminus_0_r. rewrite (b32_int 1) by (simpl; lia).
      pose proof (V (x * c) ltac:(nra)) as W. unfold erfc in W. apply Rabs_le. lra.
    + rewrite Rabs_left in L by lra.
      assert (X1 : b32 x <= -16) by (rewrite <- (b32_int (-16)) by (simpl; lia); apply b32_mono; lra).
      assert (S : s <= -11) by (unfold s; rewrite <- (b32_int (-11)) by (simpl; lia); apply b32_mono; nra).
      rewrite (Rabs_left s) by lra. destruct (Rlt_dec (- s) h); [lra|]. destruct (Rlt_dec 0 s); [lra|].
      rewrite (T (- s)) by lra.
      pose proof (V (- (x * c)) ltac:(nra)) as W. unfold erfc in W. rewrite erf_odd in W. apply Rabs_le. lra.
Qed.

(** ** C48: log_cdf, survival_function and log_survival_function of any distribution *)

Theorem cdf_normal : forall loc scale x, cdf (DNormal loc scale) x = Ok (normal_cdf loc scale x).
Proof.
  intros. unfold cdf, normal_cdf. rewrite Phi_erf. reflexivity.
Qed.

(** Normal distributions: exact where the standardized point is at or above the threshold,
    and within 3/z^4 of the truth elsewhere; the survival function likewise. *)
Theorem log_cdf_normal : forall dt m loc scale x,
  (dt = Float32 /\ m = -10) \/ (dt = Float64 /\ m = -20) -> 0 < scale ->
  let z := (x - loc) / scale in
  (m <= z -> log_cdf dt x (DNormal loc scale) = Ok (Fin (ln (normal_cdf loc scale x)))) /\
  (z < m -> exists v, log_cdf dt x (DNormal loc scale) = Ok (Fin v)
                      /\ / z ^ 4 <= ln (normal_cdf loc scale x) - v <= 3 * / z ^ 4).
Proof.
  intros dt m loc scale x D S z. split; intros L; unfold log_cdf, normal_cdf; fold z.
  - apply (log_ndtr_value dt m); assumption.
  - apply (log_ndtr_tail dt m); assumption.
Qed.

Theorem log_survival_normal : forall dt m loc scale x,
  (dt = Float32 /\ m = -10) \/ (dt = Float64 /\ m = -20) -> 0 < scale ->
  let z := (x - loc) / scale in
  (z <= - m -> log_survival_function dt x (DNormal loc scale)
               = Ok (Fin (ln (1 - normal_cdf loc scale x)))) /\
  (- m < z -> exists v, log_survival_function dt x (DNormal loc scale) = Ok (Fin v)
                        /\ / z ^ 4 <= ln (1 - normal_cdf loc scale x) - v <= 3 * / z ^ 4).
Proof.
  intros dt m loc scale x D S z. split; intros L; unfold log_survival_function, normal_cdf; fold z;
    rewrite <- Phi_sym.
  - apply (log_ndtr_value dt m); [assumption|lra].
  - replace (z ^ 4) with ((- z) ^ 4) by ring. apply (log_ndtr_tail dt m); [assumption|lra].
Qed.

(** The survival function is the complement of the cdf for every distribution. *)
Theorem survival_complement : forall d x p,
  cdf d x = Ok p -> survival_function x d = Ok (1 - p).
Proof.
  intros d x p C. destruct d as [loc scale|low high v|c].
  - rewrite cdf_normal in C. injection C as <-. unfold survival_function, normal_cdf.
    rewrite ndtr_Phi, Phi_sym. reflexivity.
  - unfold survival_function. rewrite C. reflexivity.
  - unfold survival_function. rewrite C. reflexivity.
Qed.

(** Distributions other than Normal and Uniform: log_cdf is the logarithm of the cdf. *)
Theorem log_cdf_other : forall dt c x p,
  c x = Ok p -> 0 <= p -> exists e, log_cdf dt x (DOther c) = Ok e /\ is_log p e.
Proof.
  intros dt c x p C P. unfold log_cdf, cdf. rewrite C. cbn [bind].
  eexists; split; [reflexivity|apply elog_is_log, P].
Qed.

(** Uniform: log_cdf is log(x) whatever the bounds.  It is the logarithm of the cdf on the
    whole support only for Uniform(0, 1), so the claim that it is one in general is false. *)
Theorem log_cdf_uniform_refuted : forall dt low high v, low < high ->
  (forall x, low <= x <= high ->
     exists e, log_cdf dt x (DUniform low high v) = Ok e /\ is_log ((x - low) / (high - low)) e)
  <-> (low = 0 /\ high = 1).
Proof.
  intros dt low high v L. split.
  - intros H.
    destruct (H high ltac:(lra)) as (e & E & Q).
    replace ((high - low) / (high - low)) with 1 in Q by (field; lra).
    cbn [log_cdf] in E. injection E as <-. destruct Q as [[_ Q]|[Q _]]; [|lra].
    assert (H1 : high = 1).
    { unfold elog in Q. destruct (Rlt_dec 0 high) as [P|P].
      - injection Q as Q. rewrite ln_1 in Q. rewrite <- (exp_ln high P), Q, exp_0. reflexivity.
      - destruct (Req_EM_T high 0); discriminate. }
    destruct (H low ltac:(lra)) as (e & E & Q2).
    replace ((low - low) / (high - low)) with 0 in Q2 by (field; lra).
    cbn [log_cdf] in E. injection E as <-. destruct Q2 as [[Q2 _]|[_ Q2]]; [lra|].
    unfold elog in Q2. destruct (Rlt_dec 0 low) as [P|P]; [discriminate|].
    destruct (Req_EM_T low 0); [auto|discriminate].
  - intros [-> ->] x X. eexists; split; [reflexivity|].
    replace ((x - 0) / (1 - 0)) with x by (field; lra). apply elog_is_log. lra.
Qed.

(** log_survival_function of a distribution that is not Normal is log(1 + cdf(-x)), never
    negative: it is the logarithm of the survival function only where both cdf(x) and
    cdf(-x) are 0. *)
Theorem log_survival_other_refuted : forall dt d x p q e,
  (forall loc scale, d <> DNormal loc scale) ->
  cdf d x = Ok p -> cdf d (- x) = Ok q -> 0 <= p <= 1 -> 0 <= q <= 1 ->
  log_survival_function dt x d = Ok e ->
  e = Fin (ln (1 + q)) /\ (is_log (1 - p) e <-> p = 0 /\ q = 0).
Proof.
  intros dt d x p q e N C C' P Q E.
  assert (V : e = Fin (ln (1 + q))).
  { destruct d as [loc scale|low high v|c]; [exfalso; eapply N; reflexivity| |];
      unfold log_survival_function in E; rewrite C' in E; cbn [bind] in E; injection E as <-;
      unfold elog1p, eadd; apply elog_pos; lra. }
  split; [exact V|]. rewrite V. split.
  - intros [[A B]|[_ B]]; [|discriminate]. injection B as B.
    apply ln_inv in B; lra.
  - intros [-> ->]. left. split; [lra|]. f_equal. f_equal. lra.
Qed.

(** ** C46: the density of the uniform-noise distribution *)

Theorem noise_prob_value : forall d F x,
  cdf d (x + 1 / 2) = Ok (F (x + 1 / 2)) -> cdf d (x - 1 / 2) = Ok (F (x - 1 / 2)) ->
  noise_prob d x = Ok (F (x + 1 / 2) - F (x - 1 / 2)).
Proof.
  intros d F x P N. unfold noise_prob, noise_cdf.
  rewrite (survival_complement _ _ _ P), (survival_complement _ _ _ N), P, N. cbn [bind].
  f_equal. destruct (Rlt_dec _ _); lra.
Qed.

Theorem noise_prob_range : forall d F x p,
  is_cdf F -> (forall y, cdf d y = Ok (F y)) -> noise_prob d x = Ok p -> 0 <= p <= 1.
Proof.
  intros d F x p [B M] C P. rewrite (noise_prob_value d F x) in P by apply C. injection P as <-.
  pose proof (B (x + 1 / 2)). pose proof (B (x - 1 / 2)).
  pose proof (M (x - 1 / 2) (x + 1 / 2) ltac:(lra)). lra.
Qed.

(** Summed over n consecutive unit steps, the density telescopes to the base mass. *)
Theorem noise_prob_telescopes : forall d F x p n,
  (forall y, cdf d y = Ok (F y)) -> (forall k, noise_prob d (x + INR k) = Ok (p k)) ->
  rsum n p = F (x + INR n - 1 / 2) - F (x - 1 / 2).
Proof.
  intros d F x p n C P. induction n as [|n IH].
  - rewrite rsum_0. simpl. replace (x + 0 - 1 / 2) with (x - 1 / 2) by lra. lra.
  - rewrite rsum_last, IH. specialize (P n). rewrite (noise_prob_value d F) in P by apply C.
    injection P as <-. rewrite S_INR.
    replace (x + (INR n + 1) - 1 / 2) with (x + INR n + 1 / 2) by lra. lra.
Qed.

Lemma lim_affine : forall c d, 0 < c -> is_lim_seq (fun n => c * INR n + d) p_infty.
Proof.
  intros c d C. apply (is_lim_seq_plus _ _ p_infty d); [|apply is_lim_seq_const|reflexivity].
  evar_last; [apply (is_lim_seq_scal_l INR c p_infty), is_lim_seq_INR|].
  unfold Rbar_mult, Rbar_mult'. destruct (Rle_dec 0 c) as [H|H]; [|lra].
  destruct (Rle_lt_or_eq_dec 0 c H) as [G|G]; [reflexivity|lra].
Qed.

(** For a normal base the mass of the quantisation points x - n, ..., x + n tends to one. *)
Theorem noise_normal_total_mass : forall loc scale x p, 0 < scale ->
  (forall y, noise_prob (DNormal loc scale) y = Ok (p y)) ->
  is_lim_seq (fun n => rsum (2 * n + 1) (fun k => p (x - INR n + INR k))) 1.
Proof.
  intros loc scale x p S P.
  assert (E : forall n, rsum (2 * n + 1) (fun k => p (x - INR n + INR k))
              = Phi ((x + INR n + 1 / 2 - loc) / scale) - Phi ((x - INR n - 1 / 2 - loc) / scale)).
  { intros n.
    rewrite (noise_prob_telescopes (DNormal loc scale) (normal_cdf loc scale) (x - INR n) _ (2 * n + 1)).
    - unfold normal_cdf. do 3 f_equal.
      rewrite plus_INR, mult_INR. simpl. lra.
    - apply cdf_normal.
    - intros k. apply P. }
  apply (is_lim_seq_ext _ _ _ (fun n => eq_sym (E n))).
  assert (I : 0 < / scale) by (apply Rinv_0_lt_compat, S).
  assert (U : is_lim_seq (fun n => (x + INR n + 1 / 2 - loc) / scale) p_infty).
  { apply (is_lim_seq_ext (fun n => / scale * INR n + (x + 1 / 2 - loc) / scale)).
    - intros n. field. lra.
    - apply lim_affine, I. }
  assert (D : is_lim_seq (fun n => (x - INR n - 1 / 2 - loc) / scale) m_infty).
  { apply (is_lim_seq_ext (fun n => - (/ scale * INR n + - ((x - 1 / 2 - loc) / scale)))).
    - intros n. field. lra.
    - apply (is_lim_seq_opp (fun n => / scale * INR n + - ((x - 1 / 2 - loc) / scale)) p_infty), lim_affine, I. }
  evar_last.
  - apply (is_lim_seq_minus _ _ 1 0).
    + apply (is_lim_comp_seq Phi _ p_infty 1); [apply Phi_lim_p|exists 0%nat; intros; discriminate|exact U].
    + apply (is_lim_comp_seq Phi _ m_infty 0); [apply Phi_lim_m|exists 0%nat; intros; discriminate|exact D].
    + unfold is_Rbar_minus, is_Rbar_plus; simpl. reflexivity.
  - simpl. f_equal. lra.
Qed.

(** ** C46: the logarithm of the density *)

Lemma dt_thr : forall dt m, (dt = Float32 /\ m = -10) \/ (dt = Float64 /\ m = -20) ->
  dt <> OtherDtype /\ thr dt = m.
Proof. intros dt m [[-> ->]|[-> ->]]; split; simpl; congruence. Qed.

Lemma z_lt : forall loc scale x, 0 < scale -> (x - 1 / 2 - loc) / scale < (x + 1 / 2 - loc) / scale.
Proof.
  intros. unfold Rdiv. apply Rmult_lt_compat_r; [apply Rinv_0_lt_compat; assumption|lra].
Qed.

(** Which of the two forms the code picks, for a normal base. *)
Lemma noise_log_prob_normal_eq : forall dt loc scale x, dt <> OtherDtype -> 0 < scale ->
  let zp := (x + 1 / 2 - loc) / scale in
  let zn := (x - 1 / 2 - loc) / scale in
  noise_log_prob dt (DNormal loc scale) x
  = Ok (Fin (ln (if Rlt_dec 0 zp then exp (lnd dt (- zn)) - exp (lnd dt (- zp))
                 else exp (lnd dt zp) - exp (lnd dt zn)))).
Proof.
  intros dt loc scale x N S zp zn. pose proof (z_lt loc scale x S) as L. fold zn zp in L.
  unfold noise_log_prob, log_survival_function, log_cdf. fold zp zn.
  rewrite !(log_ndtr_lnd dt) by exact N. cbn [bind]. unfold eltb.
  destruct (Rlt_dec 0 zp) as [P|P]; destruct (Rlt_dec (lnd dt (- zp)) (lnd dt zp)) as [Q|Q].
  - cbv zeta iota. rewrite log_diff; [reflexivity|]. apply lnd_mono. lra.
  - exfalso. apply Q, lnd_mono. lra.
  - exfalso. destruct (Req_dec zp 0) as [Z|Z].
    + rewrite Z, Ropp_0 in Q. lra.
    + pose proof (lnd_mono dt zp (- zp) ltac:(lra)). lra.
  - cbv zeta iota. rewrite log_diff; [reflexivity|]. apply lnd_mono. lra.
Qed.

(** Normal base, both ends of the unit interval within the accurate range. *)
Theorem noise_log_prob_normal : forall dt m loc scale x,
  (dt = Float32 /\ m = -10) \/ (dt = Float64 /\ m = -20) -> 0 < scale ->
  m <= (x - 1 / 2 - loc) / scale -> (x + 1 / 2 - loc) / scale <= - m ->
  noise_log_prob dt (DNormal loc scale) x
  = Ok (Fin (ln (normal_cdf loc scale (x + 1 / 2) - normal_cdf loc scale (x - 1 / 2)))).
Proof.
  intros dt m loc scale x D S A B. destruct (dt_thr dt m D) as [N T].
  rewrite noise_log_prob_normal_eq by assumption. cbv zeta.
  unfold normal_cdf. pose proof (z_lt loc scale x S) as L.
  set (zp := (x + 1 / 2 - loc) / scale) in *. set (zn := (x - 1 / 2 - loc) / scale) in *.
  assert (V : forall z, m <= z -> exp (lnd dt z) = Phi z).
  { intros z Z. unfold lnd. rewrite T. destruct (Rle_dec m z); [|lra].
    apply exp_ln, Phi_bounds. }
  destruct (Rlt_dec 0 zp).
  - rewrite !V by lra. rewrite !Phi_sym. do 3 f_equal. lra.
  - rewrite !V by lra. reflexivity.
Qed.

(** Far tails: at or beyond the threshold on both ends the result is below the true
    logarithm by at most 4/z^4, z being the end nearer to the mean. *)
Lemma tail_ratio : forall a b, 10 <= a -> a < b ->
  - (4 * / a ^ 4) <= ln (phi a * cpoly a - phi b * cpoly b) - ln (Phi b - Phi a) <= 0.
Proof.
  intros a b A B.
  set (g := fun z => phi z * cpoly z). set (K := 1 - 3 * / a ^ 4).
  assert (I4 : 0 < / a ^ 4 <= 1 / 10000).
  { split; [apply Rinv_0_lt_compat, pow_lt; lra|].
    replace (1 / 10000) with (/ 10 ^ 4) by (field). apply Rinv_le_contravar; [apply pow_lt; lra|].
    apply pow_incr. lra. }
  assert (PB : 0 < Phi b - Phi a) by (pose proof (Phi_incr a b B); lra).
  assert (R : exists r, K <= r <= 1 /\ g a - g b = r * (Phi b - Phi a)).
  { (* Cauchy's mean value theorem *)
    set (G := fun z => (g a - g b) * Phi z + (Phi b - Phi a) * g z).
    destruct (MVT_gen G a b (fun z => (g a - g b) * phi z
                + (Phi b - Phi a) * (- phi z * (1 - 2 / z ^ 4 + 2 / z ^ 6 - 21 / z ^ 8)))) as (c & C & E).
    { intros z Z. rewrite Rmin_left, Rmax_right in Z by lra. unfold G. evar_last.
      - apply (is_derive_plus (fun z => (g a - g b) * Phi z) (fun z => (Phi b - Phi a) * g z)).
        + apply (is_derive_scal Phi z (g a - g b)), Phi_derive.
        + apply (is_derive_scal g z (Phi b - Phi a)), cpoly_derive. lra.
      - reflexivity. }
    { intros z Z. rewrite Rmin_left, Rmax_right in Z by lra.
      apply continuity_pt_filterlim. apply (ex_derive_continuous G). unfold G.
      eexists. apply (is_derive_plus (fun z => (g a - g b) * Phi z) (fun z => (Phi b - Phi a) * g z)).
      + apply (is_derive_scal Phi z (g a - g b)), Phi_derive.
      + apply (is_derive_scal g z (Phi b - Phi a)), cpoly_derive. lra. }
    rewrite Rmin_left, Rmax_right in C by lra.
    exists (1 - 2 / c ^ 4 + 2 / c ^ 6 - 21 / c ^ 8).
    assert (Z0 : G b - G a = 0) by (unfold G; ring). rewrite Z0 in E.
    pose proof (phi_pos c) as F.
    assert (E' : phi c * (g a - g b - (1 - 2 / c ^ 4 + 2 / c ^ 6 - 21 / c ^ 8) * (Phi b - Phi a)) * (b - a) = 0).
    { rewrite E at 1. ring. }
    split.
    2:{ apply Rmult_integral in E' as [E'|E']; [|lra]. apply Rmult_integral in E' as [E'|E']; lra. }
    pose proof (inv2_small c ltac:(lra)) as [I0 I1].
    assert (I2 : / c ^ 4 <= / a ^ 4).
    { apply Rinv_le_contravar; [apply pow_lt; lra|apply pow_incr; lra]. }
    replace (1 - 2 / c ^ 4 + 2 / c ^ 6 - 21 / c ^ 8)
        with (1 - 2 * / c ^ 4 + 2 * (/ c ^ 4 * / c ^ 2) - 21 * (/ c ^ 4 * (/ c ^ 2 * / c ^ 2))) by (field; lra).
    assert (I3 : 0 < / c ^ 4) by (apply Rinv_0_lt_compat, pow_lt; lra).
    unfold K. set (i := / c ^ 2) in *. set (j := / c ^ 4) in *.
    assert (0 < i * i <= 1 / 100 * i) by nra.
    assert (0 < j * (i * i)) by nra. assert (j * (i * i) <= j * (1 / 10000)) by (apply Rmult_le_compat_l; nra).
    assert (0 < j * i <= j * (1 / 100)) by nra. lra. }
  destruct R as (r & RB & E). fold (g a) (g b). rewrite E.
  assert (RP : 0 < r) by (unfold K in RB; lra).
  rewrite ln_mult by assumption.
  replace (ln r + ln (Phi b - Phi a) - ln (Phi b - Phi a)) with (ln r) by ring.
  split.
  - pose proof (ln_le_sub1 (/ r) (Rinv_0_lt_compat _ RP)) as M. rewrite ln_Rinv in M by exact RP.
    assert (/ r - 1 <= 4 * / a ^ 4); [|lra].
    assert (/ r <= / K) by (apply Rinv_le_contravar; unfold K in *; lra).
    assert (/ K <= 1 + 4 * / a ^ 4); [|lra].
    unfold K in *. set (j := / a ^ 4) in *.
    apply Rmult_le_reg_r with (1 - 3 * j); [lra|]. rewrite Rinv_l by lra. nra.
  - pose proof (ln_le_sub1 r RP). lra.
Qed.

Theorem noise_log_prob_normal_tail : forall dt m loc scale x,
  (dt = Float32 /\ m = -10) \/ (dt = Float64 /\ m = -20) -> 0 < scale ->
  let near := if Rlt_dec loc x then (x - 1 / 2 - loc) / scale else - ((x + 1 / 2 - loc) / scale) in
  - m < near ->
  exists v, noise_log_prob dt (DNormal loc scale) x = Ok (Fin v) /\
    - (4 * / near ^ 4)
    <= v - ln (normal_cdf loc scale (x + 1 / 2) - normal_cdf loc scale (x - 1 / 2)) <= 0.
Proof.
  intros dt m loc scale x D S near T. destruct (dt_thr dt m D) as [N TH].
  rewrite noise_log_prob_normal_eq by assumption. cbv zeta.
  eexists; split; [reflexivity|].
  unfold normal_cdf. pose proof (z_lt loc scale x S) as L. pose proof (thr_range dt).
  assert (V : forall z, m < z -> exp (lnd dt (- z)) = phi z * cpoly z \/ - m >= z).
  { intros z Z. destruct (Rle_dec z (- m)); [right; lra|left].
    unfold lnd. rewrite TH. destruct (Rle_dec m (- z)); [lra|].
    rewrite Ropp_involutive. apply exp_ln.
    apply Rmult_lt_0_compat; [apply phi_pos|apply cpoly_pos; lra]. }
  subst near. destruct (Rlt_dec loc x) as [X|X].
  - set (zp := (x + 1 / 2 - loc) / scale) in *. set (zn := (x - 1 / 2 - loc) / scale) in *.
    destruct (Rlt_dec 0 zp); [|lra].
    destruct (V zn ltac:(lra)) as [->|]; [|lra]. destruct (V zp ltac:(lra)) as [->|]; [|lra].
    apply tail_ratio; lra.
  - set (zp := (x + 1 / 2 - loc) / scale) in *. set (zn := (x - 1 / 2 - loc) / scale) in *.
    destruct (Rlt_dec 0 zp); [lra|].
    destruct (V (- zn) ltac:(lra)) as [E1|]; [|lra]. destruct (V (- zp) ltac:(lra)) as [E2|]; [|lra].
    rewrite Ropp_involutive in E1, E2. rewrite E1, E2.
    pose proof (tail_ratio (- zp) (- zn) ltac:(lra) ltac:(lra)) as R.
    rewrite !Phi_sym in R.
    replace (1 - Phi zn - (1 - Phi zp)) with (Phi zp - Phi zn) in R by lra. exact R.
Qed.

(** Never infinite or NaN for a normal base, whatever the point. *)
Theorem noise_log_prob_normal_finite : forall dt loc scale x, dt <> OtherDtype -> 0 < scale ->
  exists v, noise_log_prob dt (DNormal loc scale) x = Ok (Fin v).
Proof.
  intros dt loc scale x N S. rewrite noise_log_prob_normal_eq by assumption. cbv zeta. eauto.
Qed.

(** Other bases: the logarithm of the base mass of the unit interval, unless the base has
    no mass below x + 1/2, where the result is NaN instead of -infinity. *)
Theorem noise_log_prob_other : forall dt c x pp pn qp qn,
  c (x + 1 / 2) = Ok pp -> c (x - 1 / 2) = Ok pn ->
  c (- (x + 1 / 2)) = Ok qp -> c (- (x - 1 / 2)) = Ok qn ->
  0 <= pn <= pp -> pp <= 1 -> 0 <= qp -> 0 <= qn ->
  exists e, noise_log_prob dt (DOther c) x = Ok e /\
    (0 < pp -> is_log (pp - pn) e) /\ (pp = 0 -> e = NaN).
Proof.
  intros dt c x pp pn qp qn P N QP QN B U Q1 Q2.
  unfold noise_log_prob, log_survival_function, log_cdf, cdf. rewrite P, N, QP, QN. cbn [bind].
  eexists; split; [reflexivity|].
  assert (LP : elog1p (Fin qp) = Fin (ln (1 + qp))) by (unfold elog1p, eadd; apply elog_pos; lra).
  rewrite LP.
  assert (L0 : 0 <= ln (1 + qp)).
  { rewrite <- ln_1. destruct (Req_dec qp 0) as [->|]; [right; f_equal; lra|].
    apply Rlt_le, ln_increasing; lra. }
  assert (CF : eltb (Fin (ln (1 + qp))) (elog (Fin pp)) = false).
  { unfold elog. destruct (Rlt_dec 0 pp) as [G|G].
    - unfold eltb. destruct (Rlt_dec _ _) as [H|H]; [|reflexivity].
      pose proof (ln_le_sub1 pp G). lra.
    - destruct (Req_EM_T pp 0); reflexivity. }
  rewrite CF. cbv zeta iota. split.
  - intros G. rewrite (elog_pos pp G).
    destruct (Req_dec pn 0) as [->|Z].
    { replace (elog (Fin 0)) with MInf.
      2:{ unfold elog. destruct (Rlt_dec 0 0); [lra|]. destruct (Req_EM_T 0 0); [reflexivity|lra]. }
      unfold esub, eopp, eadd, eexp, elog1p, eadd. rewrite elog_pos by lra.
      left. split; [lra|]. f_equal. rewrite Ropp_0, Rplus_0_r, ln_1, Rminus_0_r. lra. }
    rewrite (elog_pos pn) by lra.
    destruct (Req_dec pn pp) as [->|Y].
    { right. split; [lra|]. unfold esub, eopp, eadd, eexp, elog1p, eadd.
      replace (ln pp + - ln pp) with 0 by ring. rewrite exp_0.
      unfold elog. destruct (Rlt_dec 0 (1 + - (1))); [lra|]. destruct (Req_EM_T (1 + - (1)) 0); [reflexivity|lra]. }
    left. split; [lra|]. rewrite log_diff by (apply ln_increasing; lra).
    rewrite !exp_ln by lra. reflexivity.
  - intros ->. assert (pn = 0) as -> by lra.
    unfold elog. destruct (Rlt_dec 0 0); [lra|]. destruct (Req_EM_T 0 0); [reflexivity|lra].
Qed.

(** A uniform base: the probability of x is the share of the base's interval that lies within 1/2 of x;
    with validation, a point of the two outside the interval raises. *)
Theorem noise_prob_uniform : forall low high x, low < high ->
  noise_prob (DUniform low high false) x =
    Ok (Rmax 0 (Rmin (x + 1 / 2) high - Rmax (x - 1 / 2) low) / (high - low)) /\
  (low <= x - 1 / 2 -> x + 1 / 2 <= high -> noise_prob (DUniform low high true) x = Ok (1 / (high - low))) /\
  (x - 1 / 2 < low \/ high < x + 1 / 2 -> noise_prob (DUniform low high true) x = Raise ValueError).
Proof.
  intros low high x LH.
  assert (C : forall y, clamp01 ((y - low) / (high - low)) = (Rmin (Rmax y low) high - low) / (high - low)).
  { intro y. assert (H : 0 < / (high - low)) by (apply Rinv_0_lt_compat; lra). unfold clamp01, Rdiv.
    assert (E1 : (high - low) * / (high - low) = 1) by (field; lra).
    unfold Rmax, Rmin. destruct (Rle_dec y low) as [A|A].
    - assert ((y - low) * / (high - low) <= 0) by nra. destruct (Rle_dec _ 0); [|lra]. destruct (Rle_dec 0 1); [|lra].
      destruct (Rle_dec low high); [|lra]. lra.
    - assert (0 < (y - low) * / (high - low)) by nra. destruct (Rle_dec _ 0); [lra|]. destruct (Rle_dec y high) as [B|B].
      + assert ((y - low) * / (high - low) <= 1) by nra. destruct (Rle_dec _ 1); [reflexivity|lra].
      + assert (1 < (y - low) * / (high - low)) by nra. destruct (Rle_dec _ 1); [lra|lra]. }
  split; [|split].
  - rewrite (noise_prob_value _ (fun y => clamp01 ((y - low) / (high - low)))) by reflexivity. f_equal. rewrite !C.
    unfold Rdiv. rewrite <- Rmult_minus_distr_r. f_equal. unfold Rmax, Rmin.
    repeat (destruct (Rle_dec _ _); try lra).
  - intros A B. rewrite (noise_prob_value _ (fun y => clamp01 ((y - low) / (high - low)))).
    + f_equal. rewrite !C. rewrite !(Rmax_left _ low) by lra. rewrite !(Rmin_left _ high) by lra. field. lra.
    + unfold cdf. destruct (Rle_dec low (x + 1 / 2)); [|lra]. destruct (Rle_dec (x + 1 / 2) high); [|lra]. reflexivity.
    + unfold cdf. destruct (Rle_dec low (x - 1 / 2)); [|lra]. destruct (Rle_dec (x - 1 / 2) high); [|lra]. reflexivity.
  - intro A. unfold noise_prob, survival_function, cdf. cbn [andb].
    destruct (Rle_dec low (x + 1 / 2)); [|reflexivity]. destruct (Rle_dec (x + 1 / 2) high); [|reflexivity]. cbn [negb bind].
    destruct (Rle_dec low (x - 1 / 2)); [|reflexivity]. destruct (Rle_dec (x - 1 / 2) high); [|reflexivity]. lra.
Qed.

(** Uniform bases are broken: with torch's argument validation every point right of -1/2
    raises; without it the result is NaN left of 1/2 and -infinity right of it, whatever the
    base mass, which is positive throughout the support. *)
Theorem noise_log_prob_uniform_refuted : forall dt low high x, 0 <= low < high -> - (1 / 2) < x ->
  noise_log_prob dt (DUniform low high true) x = Raise ValueError /\
  (x < 1 / 2 -> noise_log_prob dt (DUniform low high false) x = Ok NaN) /\
  (1 / 2 < x -> noise_log_prob dt (DUniform low high false) x = Ok MInf).
Proof.
  intros dt low high x LH X.
  assert (C0 : forall y, y <= low -> clamp01 ((y - low) / (high - low)) = 0).
  { intros y Y. unfold clamp01.
    assert ((y - low) / (high - low) <= 0).
    { apply Rmult_le_0_r; [lra|]. apply Rlt_le, Rinv_0_lt_compat. lra. }
    rewrite Rmax_right by lra. rewrite Rmin_left by lra. reflexivity. }
  assert (L0 : elog1p (Fin 0) = Fin 0).
  { unfold elog1p, eadd. rewrite elog_pos by lra. rewrite Rplus_0_r, ln_1. reflexivity. }
  repeat split.
  - unfold noise_log_prob, log_survival_function, cdf.
    destruct (Rle_dec low (- (x + 1 / 2))) as [A|A]; [lra|]. reflexivity.
  - intros X1. unfold noise_log_prob, log_survival_function, log_cdf, cdf. cbn [andb bind].
    rewrite (C0 (- (x + 1 / 2))) by lra. rewrite L0. rewrite (elog_pos (x + 1 / 2)) by lra.
    assert (E : eltb (Fin 0) (Fin (ln (x + 1 / 2))) = false).
    { unfold eltb. destruct (Rlt_dec 0 (ln (x + 1 / 2))) as [H|H]; [|reflexivity].
      pose proof (ln_le_sub1 (x + 1 / 2) ltac:(lra)). lra. }
    rewrite E. cbv zeta iota.
    replace (elog (Fin (x - 1 / 2))) with NaN; [reflexivity|].
    unfold elog. destruct (Rlt_dec 0 (x - 1 / 2)); [lra|]. destruct (Req_EM_T (x - 1 / 2) 0); [lra|reflexivity].
  - intros X1. unfold noise_log_prob, log_survival_function, log_cdf, cdf. cbn [andb bind].
    rewrite (C0 (- (x + 1 / 2))), (C0 (- (x - 1 / 2))) by lra. rewrite L0. rewrite (elog_pos (x + 1 / 2)) by lra.
    assert (E : eltb (Fin 0) (Fin (ln (x + 1 / 2))) = true).
    { unfold eltb. destruct (Rlt_dec 0 (ln (x + 1 / 2))) as [H|H]; [reflexivity|].
      exfalso; apply H. rewrite <- ln_1. apply ln_increasing; lra. }
    rewrite E. cbv zeta iota. unfold esub, eopp, eadd, eexp, elog1p, eadd.
    rewrite Ropp_0, Rplus_0_r, exp_0. unfold elog.
    destruct (Rlt_dec 0 (1 + - (1))); [lra|]. destruct (Req_EM_T (1 + - (1)) 0); [reflexivity|lra].
Qed.

(** ** Concrete cases *)

Example log_ndtr_example : log_ndtr Float32 0 = Ok (Fin (ln (1 / 2))).
Proof. rewrite (log_ndtr_value Float32 (-10) 0); [rewrite Phi_0; reflexivity|left; auto|lra]. Qed.

(** The series branch is not the logarithm of the distribution function at -12. *)
Example log_ndtr_tail_example : exists v, log_ndtr Float32 (-12) = Ok (Fin v) /\ v < ln (Phi (-12)).
Proof.
  destruct (log_ndtr_tail Float32 (-10) (-12) ltac:(left; auto) ltac:(lra)) as (v & E & B).
  exists v. split; [exact E|]. lra.
Qed.

Example noise_normal_example : exists p,
  noise_prob (DNormal 1 2) 3 = Ok p /\ p = Phi (5 / 4) - Phi (3 / 4) /\ 0 < p
  /\ noise_log_prob Float32 (DNormal 1 2) 3 = Ok (Fin (ln p)).
Proof.
  exists (Phi (5 / 4) - Phi (3 / 4)). repeat split.
  - rewrite (noise_prob_value (DNormal 1 2) (normal_cdf 1 2) 3) by apply cdf_normal.
    unfold normal_cdf. do 3 f_equal; lra.
  - pose proof (Phi_incr (3 / 4) (5 / 4) ltac:(lra)). lra.
  - rewrite (noise_log_prob_normal Float32 (-10) 1 2 3); [|left; auto|lra|lra|lra].
    unfold normal_cdf. do 4 f_equal; f_equal; lra.
Qed.

(** A base that is neither Normal nor Uniform: the exponential distribution. *)
Definition expo_cdf (x : R) : res R := Ok (if Rlt_dec 0 x then 1 - exp (- x) else 0).
Example noise_exponential : exists e, noise_log_prob Float32 (DOther expo_cdf) 0 = Ok e /\ is_log (1 - exp (- (1 / 2))) e.
Proof.
  pose proof (exp_pos (- (1 / 2))).
  pose proof (exp_increasing (- (1 / 2)) 0 ltac:(lra)) as H0. rewrite exp_0 in H0.
  destruct (noise_log_prob_other Float32 expo_cdf 0 (1 - exp (- (1 / 2))) 0 0 (1 - exp (- (1 / 2)))) as (e & E & L & _); unfold expo_cdf; try lra.
  - destruct (Rlt_dec 0 (0 + 1 / 2)); [|lra]. do 3 f_equal. lra.
  - destruct (Rlt_dec 0 (0 - 1 / 2)); [lra|reflexivity].
  - destruct (Rlt_dec 0 (- (0 + 1 / 2))); [lra|reflexivity].
  - destruct (Rlt_dec 0 (- (0 - 1 / 2))); [|lra]. do 3 f_equal. lra.
  - exists e. split; [exact E|]. rewrite Rminus_0_r in L. apply L. lra.
Qed.

(** The survival logarithm of the same base is 0 instead of -1 at the point 1. *)
Example log_survival_exponential : log_survival_function Float32 1 (DOther expo_cdf) = Ok (Fin 0).
Proof.
  unfold log_survival_function, cdf, expo_cdf. destruct (Rlt_dec 0 (- (1))); [lra|].
  cbn [bind]. unfold elog1p, eadd. rewrite elog_pos by lra. rewrite Rplus_0_r, ln_1. reflexivity.
Qed.

Print Assumptions Phi_is_normal_cdf.
Print Assumptions ndtr_value.
Print Assumptions log_ndtr_value.
Print Assumptions log_ndtr_tail.
Print Assumptions log_ndtr_increasing.
Print Assumptions log_ndtr_dtype.
Print Assumptions log_ndtr_float64_refuted.
Print Assumptions cdf_normal.
Print Assumptions log_cdf_normal.
Print Assumptions log_survival_normal.
Print Assumptions survival_complement.
Print Assumptions log_cdf_other.
Print Assumptions log_cdf_uniform_refuted.
Print Assumptions log_survival_other_refuted.
Print Assumptions noise_prob_value.
Print Assumptions noise_prob_range.
Print Assumptions noise_prob_telescopes.
Print Assumptions noise_normal_total_mass.
Print Assumptions noise_log_prob_normal.
Print Assumptions noise_log_prob_normal_tail.
Print Assumptions noise_log_prob_normal_finite.
Print Assumptions noise_log_prob_other.
Print Assumptions noise_log_prob_uniform_refuted.
Print Assumptions noise_prob_uniform.

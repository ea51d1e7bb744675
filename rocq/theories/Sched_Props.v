(** C45: learning-rate schedules. *)
From Coq Require Import ZArith Reals List Lra Lia Psatz.
From Verif Require Import Base Sched_Model.
Import ListNotations.
Open Scope R_scope.

(** The value of a schedule at a step, in the statements below. *)
Definition at_step (f : Z -> res R) (i : Z) (P : R -> Prop) : Prop := exists v, f i = Ok v /\ P v.
Definition rising (f : Z -> res R) (a b : Z) : Prop :=
  forall i j, (a <= i <= j)%Z -> (j <= b)%Z -> exists v w, f i = Ok v /\ f j = Ok w /\ v <= w.
Definition falling (f : Z -> res R) (a b : Z) : Prop :=
  forall i j, (a <= i <= j)%Z -> (j <= b)%Z -> exists v w, f i = Ok v /\ f j = Ok w /\ w <= v.

Lemma frac a n : (0 <= a <= n)%Z -> (0 < n)%Z -> 0 <= IZR a / IZR n <= 1.
Proof.
  intros A N. assert (0 < IZR n) by (now apply IZR_lt). assert (0 <= IZR a <= IZR n) by (split; apply IZR_le; lia).
  pose proof (Rinv_0_lt_compat _ H). split; [unfold Rdiv; apply Rmult_le_pos; lra|].
  apply Rmult_le_reg_r with (IZR n); [assumption|]. unfold Rdiv. rewrite Rmult_assoc, Rinv_l by lra. lra.
Qed.
Lemma frac_mono a b n : (a <= b)%Z -> (0 < n)%Z -> IZR a / IZR n <= IZR b / IZR n.
Proof.
  intros A N. assert (0 < IZR n) by (now apply IZR_lt). pose proof (Rinv_0_lt_compat _ H).
  unfold Rdiv. apply Rmult_le_compat_r; [lra|]. now apply IZR_le.
Qed.
Lemma cos_mono x y : 0 <= x -> x <= y -> y <= PI -> cos y <= cos x.
Proof.
  intros X [L| ->] Y; [|lra]. left. apply cos_decreasing_1; lra.
Qed.
Lemma quarter q : 0 <= q <= 1 -> 0 <= q * PI / 2 <= PI / 2.
Proof.
  intro Q. pose proof PI_RGT_0. assert (0 <= q * PI) by (apply Rmult_le_pos; lra).
  assert (q * PI <= 1 * PI) by (apply Rmult_le_compat_r; lra). lra.
Qed.
Lemma Rmax_mono a b m : a <= b -> Rmax a m <= Rmax b m.
Proof. intro. unfold Rmax. destruct (Rle_dec a m), (Rle_dec b m); lra. Qed.

(** ** RampCosineLRSchedule *)
Section RampCosine.
Variables (ramp max_steps : Z) (min_val : R).
Hypothesis RP : (0 <= ramp)%Z.
Hypothesis MX : (0 < max_steps)%Z.
Hypothesis MV : 0 <= min_val <= 1.
Local Notation f := (ramp_cosine ramp max_steps min_val).

Lemma rc_ramp i : (0 <= i < ramp)%Z -> f i = Ok (Rmax (IZR i / IZR ramp) min_val).
Proof.
  intro I. unfold ramp_cosine, pydiv. replace (i <? ramp)%Z with true by (symmetry; apply Z.ltb_lt; lia).
  replace (ramp =? 0)%Z with false by (symmetry; apply Z.eqb_neq; lia). cbn [bind].
  rewrite Rmin_left; [reflexivity|]. apply frac; lia.
Qed.
Lemma rc_cos i : (ramp <= i)%Z -> f i = Ok (Rmax (cos (IZR (i - ramp) / IZR max_steps * PI / 2)) min_val).
Proof.
  intro I. unfold ramp_cosine, pydiv. replace (i <? ramp)%Z with false by (symmetry; apply Z.ltb_ge; lia).
  replace (max_steps =? 0)%Z with false by (symmetry; apply Z.eqb_neq; lia). reflexivity.
Qed.
Theorem ramp_cosine_range i : (0 <= i)%Z -> at_step f i (fun v => min_val <= v <= 1).
Proof.
  intro I. destruct (Z_lt_ge_dec i ramp) as [L|L]; eexists; (split; [first [apply rc_ramp; lia|apply rc_cos; lia]|]).
  - split; [apply Rmax_r|]. apply Rmax_lub; [|lra]. apply frac; lia.
  - split; [apply Rmax_r|]. apply Rmax_lub; [|lra]. apply COS_bound.
Qed.
Theorem ramp_cosine_rises : rising f 0 ramp.
Proof.
  intros i j I J. destruct (Z_lt_ge_dec j ramp) as [L|L].
  - do 2 eexists. split; [apply rc_ramp; lia|split; [apply rc_ramp; lia|]]. apply Rmax_mono, frac_mono; lia.
  - assert (j = ramp) by lia. subst j. destruct (ramp_cosine_range i) as (v & E & V); [lia|].
    exists v. eexists. split; [exact E|split; [apply rc_cos; lia|]]. rewrite Z.sub_diag.
    replace (0 / IZR max_steps * PI / 2) with 0 by (unfold Rdiv; ring). rewrite cos_0, Rmax_left; lra.
Qed.
Theorem ramp_cosine_peak : at_step f ramp (fun v => v = 1).
Proof.
  eexists. split; [apply rc_cos; lia|]. rewrite Z.sub_diag. replace (0 / IZR max_steps * PI / 2) with 0 by (unfold Rdiv; ring).
  rewrite cos_0. apply Rmax_left. lra.
Qed.
Theorem ramp_cosine_falls : falling f ramp (ramp + max_steps).
Proof.
  intros i j I J. do 2 eexists. split; [apply rc_cos; lia|split; [apply rc_cos; lia|]]. apply Rmax_mono.
  pose proof (frac (i - ramp) max_steps ltac:(lia) MX) as A. pose proof (frac (j - ramp) max_steps ltac:(lia) MX) as B.
  pose proof (frac_mono (i - ramp) (j - ramp) max_steps ltac:(lia) MX) as C. pose proof PI_RGT_0.
  apply quarter in A. apply quarter in B. apply cos_mono; try lra.
  assert (IZR (i - ramp) / IZR max_steps * PI <= IZR (j - ramp) / IZR max_steps * PI) by (apply Rmult_le_compat_r; lra). lra.
Qed.
Lemma at_ramp_plus k : (0 <= k)%Z -> at_step f (ramp + k * max_steps) (fun v => v = Rmax (cos (IZR k * (PI / 2))) min_val).
Proof.
  intro K. eexists. split; [apply rc_cos; nia|]. f_equal. f_equal. replace (ramp + k * max_steps - ramp)%Z with (k * max_steps)%Z by ring.
  rewrite mult_IZR. assert (0 < IZR max_steps) by (now apply IZR_lt). field. lra.
Qed.
Theorem ramp_cosine_bottom : at_step f (ramp + max_steps) (fun v => v = min_val).
Proof.
  destruct (at_ramp_plus 1) as (v & E & V); [lia|]. rewrite Z.mul_1_l in E. exists v. split; [exact E|].
  rewrite V. rewrite Rmult_1_l, cos_PI2. apply Rmax_right. lra.
Qed.
(** The decay is stretched over max_steps steps after the ramp: at the last step max_steps
    the multiplier has not reached its minimum but is sin(ramp/max_steps * pi/2). *)
Theorem ramp_cosine_end_refuted : (ramp <= max_steps)%Z ->
  at_step f max_steps (fun v => v = Rmax (sin (IZR ramp / IZR max_steps * (PI / 2))) min_val).
Proof.
  intro L. eexists. split; [apply rc_cos; lia|]. f_equal. rewrite sin_cos, <- cos_neg.
  replace (cos (PI / 2 + IZR ramp / IZR max_steps * (PI / 2))) with (- cos (PI - (PI / 2 + IZR ramp / IZR max_steps * (PI / 2)))).
  2:{ rewrite Rtrigo_facts.cos_pi_minus. ring. }
  rewrite Ropp_involutive, <- (cos_neg (PI - _)). f_equal. rewrite minus_IZR.
  assert (0 < IZR max_steps) by (now apply IZR_lt). field. lra.
Qed.
(** Training past the end brings the full rate back. *)
Theorem ramp_cosine_restart_refuted : at_step f (ramp + 4 * max_steps) (fun v => v = 1).
Proof.
  destruct (at_ramp_plus 4) as (v & E & V); [lia|]. exists v. split; [exact E|]. rewrite V.
  replace (4 * (PI / 2)) with (2 * PI) by field. rewrite cos_2PI. apply Rmax_left. lra.
Qed.
End RampCosine.

(** ** RampConstCosineLRSchedule *)
Section RampConst.
Variables (max_steps ramp cosine : Z) (min_val : R).
Hypothesis RP : (0 <= ramp)%Z.
Hypothesis CS : (0 < cosine)%Z.
Hypothesis FIT : (ramp <= max_steps - cosine)%Z.
Hypothesis MV : 0 <= min_val <= 1.
Local Notation f := (ramp_const_cosine max_steps ramp cosine min_val).

Lemma rcc_ramp i : (0 <= i < ramp)%Z -> f i = Ok (Rmax (IZR i / IZR ramp) min_val).
Proof.
  intro I. unfold ramp_const_cosine, pydiv. cbv zeta. replace (i <? ramp)%Z with true by (symmetry; apply Z.ltb_lt; lia).
  replace (ramp =? 0)%Z with false by (symmetry; apply Z.eqb_neq; lia). cbn [bind].
  rewrite Rmin_left; [reflexivity|]. apply frac; lia.
Qed.
Lemma rcc_const i : (ramp <= i <= max_steps - cosine)%Z -> f i = Ok 1.
Proof.
  intro I. unfold ramp_const_cosine. cbv zeta. replace (i <? ramp)%Z with false by (symmetry; apply Z.ltb_ge; lia).
  rewrite Z.gtb_ltb. replace (0 <? _)%Z with false by (symmetry; apply Z.ltb_ge; lia). reflexivity.
Qed.
Lemma rcc_cos i : (max_steps - cosine < i)%Z ->
  f i = Ok (Rmax (cos (IZR (i - (max_steps - cosine)) / IZR cosine * PI / 2)) min_val).
Proof.
  intro I. unfold ramp_const_cosine, pydiv. cbv zeta. replace (i <? ramp)%Z with false by (symmetry; apply Z.ltb_ge; lia).
  rewrite Z.gtb_ltb. replace (0 <? _)%Z with true by (symmetry; apply Z.ltb_lt; lia).
  replace (cosine =? 0)%Z with false by (symmetry; apply Z.eqb_neq; lia). reflexivity.
Qed.
Theorem ramp_const_range i : (0 <= i)%Z -> at_step f i (fun v => min_val <= v <= 1).
Proof.
  intro I. destruct (Z_lt_ge_dec i ramp) as [L|L]; [|destruct (Z_le_gt_dec i (max_steps - cosine)) as [G|G]].
  - eexists. split; [apply rcc_ramp; lia|]. split; [apply Rmax_r|]. apply Rmax_lub; [|lra]. apply frac; lia.
  - eexists. split; [apply rcc_const; lia|]. lra.
  - eexists. split; [apply rcc_cos; lia|]. split; [apply Rmax_r|]. apply Rmax_lub; [|lra]. apply COS_bound.
Qed.
Theorem ramp_const_rises : rising f 0 ramp.
Proof.
  intros i j I J. destruct (Z_lt_ge_dec j ramp) as [L|L].
  - do 2 eexists. split; [apply rcc_ramp; lia|split; [apply rcc_ramp; lia|]]. apply Rmax_mono, frac_mono; lia.
  - assert (j = ramp) by lia. subst j. destruct (ramp_const_range i) as (v & E & V); [lia|].
    exists v, 1. split; [exact E|split; [apply rcc_const; lia|lra]].
Qed.
Theorem ramp_const_flat i : (ramp <= i <= max_steps - cosine)%Z -> f i = Ok 1.
Proof. apply rcc_const. Qed.
Theorem ramp_const_falls : falling f (max_steps - cosine) max_steps.
Proof.
  intros i j I J. destruct (Z.eq_dec i (max_steps - cosine)) as [->|N].
  - destruct (ramp_const_range j) as (w & E & V); [lia|]. exists 1, w. split; [apply rcc_const; lia|split; [exact E|lra]].
  - do 2 eexists. split; [apply rcc_cos; lia|split; [apply rcc_cos; lia|]]. apply Rmax_mono.
    set (o := (max_steps - cosine)%Z) in *.
    pose proof (frac (i - o) cosine ltac:(lia) CS) as A. pose proof (frac (j - o) cosine ltac:(lia) CS) as B.
    pose proof (frac_mono (i - o) (j - o) cosine ltac:(lia) CS) as C. pose proof PI_RGT_0.
    apply quarter in A. apply quarter in B. apply cos_mono; try lra.
    assert (IZR (i - o) / IZR cosine * PI <= IZR (j - o) / IZR cosine * PI) by (apply Rmult_le_compat_r; lra). lra.
Qed.
Lemma rcc_at k : (1 <= k)%Z -> at_step f (max_steps - cosine + k * cosine) (fun v => v = Rmax (cos (IZR k * (PI / 2))) min_val).
Proof.
  intro K. eexists. split; [apply rcc_cos; nia|]. f_equal. f_equal.
  replace (max_steps - cosine + k * cosine - (max_steps - cosine))%Z with (k * cosine)%Z by ring.
  rewrite mult_IZR. assert (0 < IZR cosine) by (now apply IZR_lt). field. lra.
Qed.
(** This schedule does end at its minimum. *)
Theorem ramp_const_end : at_step f max_steps (fun v => v = min_val).
Proof.
  destruct (rcc_at 1) as (v & E & V); [lia|]. replace (max_steps - cosine + 1 * cosine)%Z with max_steps in E by ring.
  exists v. split; [exact E|]. rewrite V, Rmult_1_l, cos_PI2. apply Rmax_right. lra.
Qed.
Theorem ramp_const_restart_refuted : at_step f (max_steps + 3 * cosine) (fun v => v = 1).
Proof.
  destruct (rcc_at 4) as (v & E & V); [lia|]. replace (max_steps - cosine + 4 * cosine)%Z with (max_steps + 3 * cosine)%Z in E by ring.
  exists v. split; [exact E|]. rewrite V. replace (4 * (PI / 2)) with (2 * PI) by field. rewrite cos_2PI. apply Rmax_left. lra.
Qed.
End RampConst.
(** The default of no cosine steps fails as soon as training goes past max_steps. *)
Theorem ramp_const_default_refuted max_steps ramp min_val step : (ramp <= max_steps < step)%Z ->
  ramp_const_cosine max_steps ramp 0 min_val step = Raise ZeroDivisionError.
Proof.
  intro H. unfold ramp_const_cosine. cbv zeta. replace (step <? ramp)%Z with false by (symmetry; apply Z.ltb_ge; lia).
  rewrite Z.gtb_ltb. replace (0 <? _)%Z with true by (symmetry; apply Z.ltb_lt; lia). reflexivity.
Qed.

(** ** The schedules of torch_vct *)
Section Vct.
Variables (T r : Z) (eta b : R).
Hypothesis ETA : 0 <= eta <= b.
Definition D : Z := (T - r - 1)%Z.
Definition cosine_value (i : Z) : R := eta + (b - eta) * (1 + cos (PI * IZR (i - r) / IZR D)) / 2.
Lemma cosine_ok i : D <> 0%Z -> cosine_lr T r eta b i = Ok (cosine_value i).
Proof.
  intro N. unfold cosine_lr, pydiv. fold D. replace (D =? 0)%Z with false by (symmetry; now apply Z.eqb_neq). reflexivity.
Qed.
Lemma cosine_range i : eta <= cosine_value i <= b.
Proof.
  unfold cosine_value. pose proof (COS_bound (PI * IZR (i - r) / IZR D)) as C. set (c := cos _) in *.
  assert (0 <= (b - eta) * (1 + c)) by (apply Rmult_le_pos; lra).
  assert (0 <= (b - eta) * (1 - c)) by (apply Rmult_le_pos; lra). lra.
Qed.
Lemma cosine_peak : cosine_value r = b.
Proof. unfold cosine_value. rewrite Z.sub_diag. unfold Rdiv. rewrite Rmult_0_r, Rmult_0_l, cos_0. field. Qed.
Lemma cosine_end : D <> 0%Z -> cosine_value (T - 1) = eta.
Proof.
  intro N. unfold cosine_value. replace (T - 1 - r)%Z with D by (unfold D; ring).
  replace (PI * IZR D / IZR D) with PI by (field; now apply not_0_IZR). rewrite cos_PI. field.
Qed.
Lemma cosine_restart : D <> 0%Z -> cosine_value (r + 2 * D) = b.
Proof.
  intro N. unfold cosine_value. replace (r + 2 * D - r)%Z with (2 * D)%Z by ring. rewrite mult_IZR.
  replace (PI * (2 * IZR D) / IZR D) with (2 * PI) by (field; now apply not_0_IZR). rewrite cos_2PI. field.
Qed.
Lemma cosine_value_mono x y : cos x <= cos y -> eta + (b - eta) * (1 + cos x) / 2 <= eta + (b - eta) * (1 + cos y) / 2.
Proof.
  intro H. assert (0 <= (b - eta) * (cos y - cos x)) by (apply Rmult_le_pos; lra). lra.
Qed.
Lemma arg i : (0 < D)%Z -> (0 <= i <= D)%Z -> 0 <= PI * IZR i / IZR D <= PI.
Proof.
  intros N I. pose proof (frac i D I N) as F. pose proof PI_RGT_0.
  replace (PI * IZR i / IZR D) with (PI * (IZR i / IZR D)) by (unfold Rdiv; ring). split; [apply Rmult_le_pos; lra|].
  rewrite <- (Rmult_1_r PI) at 2. apply Rmult_le_compat_l; lra.
Qed.
Lemma arg_mono i j : (0 < D)%Z -> (i <= j)%Z -> PI * IZR i / IZR D <= PI * IZR j / IZR D.
Proof.
  intros N I. pose proof (frac_mono i j D I N). pose proof PI_RGT_0. unfold Rdiv in *. rewrite !Rmult_assoc. apply Rmult_le_compat_l; lra.
Qed.
Lemma cosine_falls i j : (0 < D)%Z -> (r <= i <= j)%Z -> (j <= T - 1)%Z -> cosine_value j <= cosine_value i.
Proof.
  intros N I J. apply cosine_value_mono, cos_mono; [apply arg; unfold D in *; lia|apply arg_mono; lia|apply arg; unfold D in *; lia].
Qed.
Lemma cosine_rises i j : (0 < D)%Z -> (r - D <= i <= j)%Z -> (j <= r)%Z -> cosine_value i <= cosine_value j.
Proof.
  intros N I J. apply cosine_value_mono. rewrite <- (cos_neg (PI * IZR (i - r) / IZR D)), <- (cos_neg (PI * IZR (j - r) / IZR D)).
  assert (O : forall k, - (PI * IZR (k - r) / IZR D) = PI * IZR (r - k) / IZR D).
  { intro k. rewrite !minus_IZR. unfold Rdiv. ring. }
  rewrite !O. apply cos_mono; [apply arg; lia|apply arg_mono; lia|apply arg; lia].
Qed.
Lemma linear_ok i : r <> 0%Z -> linear_lr r b i = Ok (b * IZR (1 + i) / IZR r).
Proof. intro N. unfold linear_lr, pydiv. replace (r =? 0)%Z with false by (symmetry; now apply Z.eqb_neq). reflexivity. Qed.
Lemma linear_mono i j : (0 < r)%Z -> (i <= j)%Z -> b * IZR (1 + i) / IZR r <= b * IZR (1 + j) / IZR r.
Proof.
  intros R I. pose proof (frac_mono (1 + i) (1 + j) r ltac:(lia) R). unfold Rdiv in *. rewrite !Rmult_assoc. apply Rmult_le_compat_l; lra.
Qed.
Lemma linear_top : (0 < r)%Z -> b * IZR (1 + (r - 1)) / IZR r = b.
Proof. intro R. replace (1 + (r - 1))%Z with r by ring. field. apply not_0_IZR. lia. Qed.

(** LinearRampCosineLR *)
Local Notation lrc := (linear_ramp_cosine T r eta b).
Lemma lrc_ok i : D <> 0%Z -> r <> 0%Z -> lrc i = Ok (Rmin (cosine_value i) (b * IZR (1 + i) / IZR r)).
Proof. intros N R. unfold linear_ramp_cosine. rewrite cosine_ok by exact N. cbn [bind]. rewrite linear_ok by exact R. reflexivity. Qed.
Theorem vct_ramp_cosine_raises i : (exists e, lrc i = Raise e) <-> r = 0%Z \/ T = (r + 1)%Z.
Proof.
  destruct (Z.eq_dec D 0) as [E|N]; [|destruct (Z.eq_dec r 0) as [E|R]].
  - split; [unfold D in E; lia|]. intros _. exists ZeroDivisionError. unfold linear_ramp_cosine, cosine_lr, pydiv. fold D. now rewrite E.
  - split; [auto|]. intros _. exists ZeroDivisionError. unfold linear_ramp_cosine. rewrite cosine_ok by exact N. cbn [bind].
    unfold linear_lr, pydiv. now rewrite E.
  - rewrite lrc_ok by assumption. split; [intros [e H]; discriminate|]. unfold D in N. lia.
Qed.
Hypothesis R : (0 < r)%Z.
Hypothesis DP : (0 < D)%Z.
(** From the end of the ramp the rate is the cosine, falling from the base rate to eta_min. *)
Theorem vct_ramp_cosine_decay :
  at_step lrc r (fun v => v = b) /\ falling lrc r (T - 1) /\ at_step lrc (T - 1) (fun v => v = eta).
Proof.
  assert (V : forall i, (r <= i)%Z -> lrc i = Ok (cosine_value i)).
  { intros i I. rewrite lrc_ok by lia. rewrite Rmin_left; [reflexivity|].
    pose proof (linear_mono (r - 1) i R ltac:(lia)) as L. rewrite linear_top in L by exact R. pose proof (cosine_range i). lra. }
  split; [|split].
  - eexists. split; [apply V; lia|apply cosine_peak].
  - intros i j I J. do 2 eexists. split; [apply V; lia|split; [apply V; lia|]]. now apply cosine_falls.
  - eexists. split; [apply V; unfold D in *; lia|apply cosine_end; lia].
Qed.
Theorem vct_ramp_cosine_bound i : (0 <= i)%Z -> at_step lrc i (fun v => 0 <= v <= b).
Proof.
  intro I. eexists. split; [apply lrc_ok; lia|]. pose proof (cosine_range i). split.
  - apply Rmin_glb; [lra|]. assert (0 <= IZR (1 + i)) by (apply IZR_le; lia). assert (0 < IZR r) by now apply IZR_lt.
    unfold Rdiv. apply Rmult_le_pos; [apply Rmult_le_pos; lra|]. left. now apply Rinv_0_lt_compat.
  - eapply Rle_trans; [apply Rmin_l|lra].
Qed.
(** If the ramp takes at most half of the epochs, the rate rises during the ramp ... *)
Theorem vct_ramp_cosine_rises : (2 * r + 1 <= T)%Z -> rising lrc 0 r.
Proof.
  intros H i j I J. do 2 eexists. split; [apply lrc_ok; lia|split; [apply lrc_ok; lia|]].
  pose proof (cosine_rises i j DP ltac:(unfold D; lia) J). pose proof (linear_mono i j R ltac:(lia)).
  unfold Rmin. destruct (Rle_dec _ _), (Rle_dec _ _); lra.
Qed.
Theorem vct_ramp_cosine_restart_refuted : at_step lrc (r + 2 * D) (fun v => v = b).
Proof.
  eexists. split; [apply lrc_ok; lia|]. rewrite cosine_restart by lia. apply Rmin_left.
  pose proof (linear_mono (r - 1) (r + 2 * D) R ltac:(lia)) as L. rewrite linear_top in L by exact R. lra.
Qed.
End Vct.
(** ... but not for longer ramps, which the documentation allows: with T_max = ramp_len + 2 the
    rate drops to eta_min in the last epoch of the ramp. *)
Theorem vct_ramp_cosine_rises_refuted r eta b : (2 <= r)%Z -> 0 <= eta <= b ->
  at_step (linear_ramp_cosine (r + 2) r eta b) (r - 2) (fun v => v = b * IZR (r - 1) / IZR r) /\
  at_step (linear_ramp_cosine (r + 2) r eta b) (r - 1) (fun v => v = eta).
Proof.
  intros R E. assert (N : D (r + 2) r = 1%Z) by (unfold D; ring). assert (P : 0 < IZR r) by (apply IZR_lt; lia).
  assert (Q : 0 <= b * / IZR r) by (apply Rmult_le_pos; [lra|]; left; now apply Rinv_0_lt_compat). split.
  - eexists. split; [apply lrc_ok; lia|]. unfold cosine_value. rewrite N. replace (r - 2 - r)%Z with (-2)%Z by ring.
    replace (PI * -2 / 1) with (- (2 * PI)) by field. rewrite cos_neg, cos_2PI. replace (1 + (r - 2))%Z with (r - 1)%Z by ring.
    replace (eta + (b - eta) * (1 + 1) / 2) with b by field. apply Rmin_right. rewrite minus_IZR.
    replace (b * (IZR r - 1) / IZR r) with (b - b * / IZR r) by (field; lra). lra.
  - eexists. split; [apply lrc_ok; lia|]. unfold cosine_value. rewrite N. replace (r - 1 - r)%Z with (-1)%Z by ring.
    replace (PI * -1 / 1) with (- PI) by field. rewrite cos_neg, cos_PI.
    replace (eta + (b - eta) * (1 + -1) / 2) with eta by field. apply Rmin_left. rewrite linear_top by lia. lra.
Qed.

(** LinearRampLinearLR: a linear ramp that reaches the base rate in epoch ramp_len - 1. *)
Theorem vct_ramp_linear r b i : (0 < r)%Z -> 0 <= b -> (0 <= i)%Z ->
  at_step (linear_ramp_linear r b) i (fun v => v = Rmin b (b * IZR (i + 1) / IZR r)).
Proof.
  intros R B I. eexists. unfold linear_ramp_linear. rewrite linear_ok by lia. cbn [bind]. split; [reflexivity|].
  rewrite (Z.add_comm i 1).
  destruct (Z.ltb_spec i r) as [L|L]; symmetry.
  - apply Rmin_right. pose proof (linear_mono r 0 b ltac:(lra) i (r - 1) R ltac:(lia)) as Q. rewrite linear_top in Q by exact R. exact Q.
  - apply Rmin_left. pose proof (linear_mono r 0 b ltac:(lra) (r - 1) i R ltac:(lia)) as Q. rewrite linear_top in Q by exact R. exact Q.
Qed.
Theorem vct_ramp_linear_zero_refuted b i : linear_ramp_linear 0 b i = Raise ZeroDivisionError.
Proof. reflexivity. Qed.

(** LinearWarmUpCosineLR: the base rate, then the cosine down to eta_min. *)
Theorem vct_warmup_cosine T r eta b : (0 <= r)%Z -> (r + 1 < T)%Z -> 0 <= eta <= b ->
  let f := linear_warmup_cosine T r eta b in
  (forall i, (0 <= i <= r)%Z -> f i = Ok b) /\ falling f 0 (T - 1) /\ at_step f (T - 1) (fun v => v = eta) /\
  (forall i, at_step f i (fun v => eta <= v <= b)) /\
  at_step f (r + 2 * (T - r - 1)) (fun v => v = b).
Proof.
  intros R0 L E f. assert (DP : (0 < D T r)%Z) by (unfold D; lia).
  assert (V : forall i, f i = Ok (if (i <? r)%Z then b else cosine_value T r eta b i)).
  { intro i. unfold f, linear_warmup_cosine. rewrite cosine_ok by lia. reflexivity. }
  assert (RG : forall i, eta <= (if (i <? r)%Z then b else cosine_value T r eta b i) <= b).
  { intro i. destruct (i <? r)%Z; [lra|]. now apply cosine_range. }
  assert (W : forall i, (0 <= i <= r)%Z -> f i = Ok b).
  { intros i I. rewrite V. destruct (Z.ltb_spec i r); [reflexivity|]. assert (i = r) by lia. subst. now rewrite cosine_peak. }
  split; [exact W|]. split; [|split; [|split]].
  - intros i j I J. destruct (Z_le_gt_dec i r) as [Q|Q].
    + do 2 eexists. split; [apply W; lia|]. split; [apply V|]. apply RG.
    + do 2 eexists. split; [apply V|]. split; [apply V|]. destruct (Z.ltb_spec i r); [lia|]. destruct (Z.ltb_spec j r); [lia|].
      apply cosine_falls; try assumption; lia.
  - eexists. split; [apply V|]. destruct (Z.ltb_spec (T - 1) r); [lia|]. apply cosine_end. lia.
  - intro i. eexists. split; [apply V|]. apply RG.
  - eexists. split; [apply V|]. fold (D T r). destruct (Z.ltb_spec (r + 2 * D T r) r); [lia|]. apply cosine_restart. lia.
Qed.
(** A warm-up of T_max - 1 epochs fails from the start. *)
Theorem vct_warmup_long_refuted r eta b i : linear_warmup_cosine (r + 1) r eta b i = Raise ZeroDivisionError.
Proof. unfold linear_warmup_cosine, cosine_lr, pydiv. replace (r + 1 - r - 1)%Z with 0%Z by ring. reflexivity. Qed.

(** illm's configuration style: ramp of 10 steps in 100; half way up the ramp, and its end. *)
Example ramp_cosine_ex :
  ramp_cosine 10 100 (1/1000) 5 = Ok (Rmax (1/2) (1/1000)) /\
  at_step (ramp_cosine 10 100 (1/1000)) 100 (fun v => v = Rmax (sin (10 / 100 * (PI / 2))) (1/1000)).
Proof.
  split; [rewrite rc_ramp by lia; do 2 f_equal; field|apply ramp_cosine_end_refuted; lia].
Qed.

Print Assumptions ramp_cosine_range.
Print Assumptions ramp_cosine_rises.
Print Assumptions ramp_cosine_peak.
Print Assumptions ramp_cosine_falls.
Print Assumptions ramp_cosine_bottom.
Print Assumptions ramp_cosine_end_refuted.
Print Assumptions ramp_cosine_restart_refuted.
Print Assumptions ramp_const_range.
Print Assumptions ramp_const_rises.
Print Assumptions ramp_const_flat.
Print Assumptions ramp_const_falls.
Print Assumptions ramp_const_end.
Print Assumptions ramp_const_restart_refuted.
Print Assumptions ramp_const_default_refuted.
Print Assumptions vct_ramp_cosine_raises.
Print Assumptions vct_ramp_cosine_decay.
Print Assumptions vct_ramp_cosine_bound.
Print Assumptions vct_ramp_cosine_rises.
Print Assumptions vct_ramp_cosine_rises_refuted.
Print Assumptions vct_ramp_cosine_restart_refuted.
Print Assumptions vct_ramp_linear.
Print Assumptions vct_ramp_linear_zero_refuted.
Print Assumptions vct_warmup_cosine.
Print Assumptions vct_warmup_long_refuted.

(** The identity schedule never changes the rate, at any step. *)
Theorem identity_schedule : forall i, identity_step i = Ok 1.
Proof. reflexivity. Qed.
Print Assumptions identity_schedule.

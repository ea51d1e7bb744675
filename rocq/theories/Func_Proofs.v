(** Facts about the hyperbolic tangent, and lemmas for soft rounding. *)
From Coq Require Import ZArith Bool Reals Lra Lia Psatz.
From Verif Require Import Base RBase Func_Model.
Open Scope R_scope.

Lemma tanh_exp t : tanh t = (exp (2 * t) - 1) / (exp (2 * t) + 1).
Proof.
  unfold tanh, sinh, cosh. replace (2 * t) with (t + t) by ring. rewrite exp_plus, exp_Ropp.
  pose proof (exp_pos t). field. repeat split; nra.
Qed.
Lemma tanh_0 : tanh 0 = 0. Proof. rewrite tanh_exp, Rmult_0_r, exp_0. lra. Qed.
Lemma tanh_opp t : tanh (- t) = - tanh t.
Proof. unfold tanh, sinh, cosh. rewrite Ropp_involutive. pose proof (exp_pos t). pose proof (exp_pos (-t)). field. lra. Qed.
Lemma tanh_1 t : tanh t = 1 - 2 / (exp (2 * t) + 1).
Proof. rewrite tanh_exp. pose proof (exp_pos (2 * t)). field. lra. Qed.
Lemma tanh_incr s t : s < t -> tanh s < tanh t.
Proof.
  intro H. rewrite !tanh_1. pose proof (exp_pos (2 * s)). 
  assert (exp (2 * s) < exp (2 * t)) by (apply exp_increasing; lra).
  assert (/ (exp (2 * t) + 1) < / (exp (2 * s) + 1)) by (apply Rinv_lt_contravar; [apply Rmult_lt_0_compat|]; lra).
  unfold Rdiv. lra.
Qed.
Lemma tanh_lt_1 t : tanh t < 1.
Proof. rewrite tanh_1. pose proof (exp_pos (2 * t)). assert (0 < 2 / (exp (2 * t) + 1)) by (apply Rdiv_lt_0_compat; lra). lra. Qed.
Lemma tanh_gt_m1 t : -1 < tanh t.
Proof. pose proof (tanh_lt_1 (- t)). rewrite tanh_opp in H. lra. Qed.
Lemma tanh_pos t : 0 < t -> 0 < tanh t.
Proof. intro. rewrite <- tanh_0. now apply tanh_incr. Qed.
Lemma atanh_tanh t : atanh (tanh t) = t.
Proof.
  unfold atanh. rewrite tanh_exp. pose proof (exp_pos (2 * t)).
  replace ((1 + (exp (2 * t) - 1) / (exp (2 * t) + 1)) / (1 - (exp (2 * t) - 1) / (exp (2 * t) + 1)))
    with (exp (2 * t)) by (field; lra). rewrite ln_exp. field.
Qed.
Lemma tanh_atanh s : -1 < s < 1 -> tanh (atanh s) = s.
Proof.
  intros [A B]. unfold atanh. rewrite tanh_exp. replace (2 * (ln ((1 + s) / (1 - s)) / 2)) with (ln ((1 + s) / (1 - s))) by field.
  rewrite exp_ln by (apply Rdiv_lt_0_compat; lra). field. lra.
Qed.
Lemma tanh_derive t : derivable_pt_lim tanh t (1 - tanh t ^ 2).
Proof.
  pose proof (derivable_pt_lim_div sinh cosh t (cosh t) (sinh t) (derivable_pt_lim_sinh t) (derivable_pt_lim_cosh t)) as D.
  assert (C : cosh t <> 0) by (unfold cosh; pose proof (exp_pos t); pose proof (exp_pos (-t)); lra).
  specialize (D C). replace (1 - tanh t ^ 2) with ((cosh t * cosh t - sinh t * sinh t) / (Rsqr (cosh t))); [exact D|].
  unfold tanh, Rsqr. field. exact C.
Qed.

Lemma lin k v : derivable_pt_lim (fun v => k * v) v k.
Proof.
  pose proof (derivable_pt_lim_scal id k v 1 (derivable_pt_lim_id v)) as H. rewrite Rmult_1_r in H. exact H.
Qed.

Section Cell.
Variable a : R.
Hypothesis A : 0 < a.
(** The rounding curve in one cell, centred at 0: (-1/2, 1/2) to itself. *)
Definition curve (u : R) : R := tanh (a * u) / (tanh (a / 2) * 2).
Lemma half_pos : 0 < tanh (a / 2). Proof. apply tanh_pos. lra. Qed.
Lemma curve_0 : curve 0 = 0. Proof. unfold curve. rewrite Rmult_0_r, tanh_0. unfold Rdiv. ring. Qed.
Lemma curve_half : curve (1/2) = 1/2.
Proof. unfold curve. replace (a * (1/2)) with (a / 2) by field. pose proof half_pos. field. lra. Qed.
Lemma curve_opp u : curve (- u) = - curve u.
Proof. unfold curve. replace (a * - u) with (- (a * u)) by ring. rewrite tanh_opp. unfold Rdiv. ring. Qed.
Lemma curve_incr u v : u < v -> curve u < curve v.
Proof.
  intro H. unfold curve, Rdiv. pose proof half_pos. apply Rmult_lt_compat_r; [apply Rinv_0_lt_compat; lra|].
  apply tanh_incr. now apply Rmult_lt_compat_l.
Qed.
Lemma curve_range u : -(1/2) <= u < 1/2 -> -(1/2) <= curve u < 1/2.
Proof.
  intros [[L|L] H]; split.
  - pose proof (curve_incr _ _ L). rewrite curve_opp, curve_half in *. lra.
  - rewrite <- curve_half. now apply curve_incr.
  - rewrite <- L, curve_opp, curve_half. lra.
  - rewrite <- L, curve_opp, curve_half. lra.
Qed.
Definition curve_inv (w : R) : R := clamp (-(1/2)) (1/2) (atanh (w * (tanh (a / 2) * 2)) / a).
Lemma curve_inv_curve u : -(1/2) <= u < 1/2 -> curve_inv (curve u) = u.
Proof.
  intro H. unfold curve_inv, curve. pose proof half_pos.
  replace (tanh (a * u) / (tanh (a / 2) * 2) * (tanh (a / 2) * 2)) with (tanh (a * u)) by (field; lra).
  rewrite atanh_tanh. replace (a * u / a) with u by (field; lra).
  unfold clamp. rewrite Rmax_left, Rmin_left; lra.
Qed.
Lemma curve_inv_raw w : -(1/2) <= w < 1/2 -> let u := atanh (w * (tanh (a / 2) * 2)) / a in
  curve u = w /\ -(1/2) <= u < 1/2.
Proof.
  intros H u. pose proof half_pos. pose proof (tanh_lt_1 (a / 2)).
  assert (B : -1 < w * (tanh (a / 2) * 2) < 1) by (split; nra).
  assert (C : curve u = w).
  { unfold curve, u. replace (a * (atanh (w * (tanh (a / 2) * 2)) / a)) with (atanh (w * (tanh (a / 2) * 2))) by (field; lra).
    rewrite tanh_atanh by exact B. field. lra. }
  split; [exact C|]. split.
  - destruct (Rle_lt_dec (-(1/2)) u) as [|L]; [assumption|]. apply curve_incr in L. rewrite curve_opp, curve_half, C in L. lra.
  - destruct (Rlt_le_dec u (1/2)) as [|[L|L]]; [assumption| |].
    + apply curve_incr in L. rewrite curve_half, C in L. lra.
    + rewrite <- L, curve_half in C. lra.
Qed.
Lemma curve_inv_spec w : -(1/2) <= w < 1/2 -> curve (curve_inv w) = w /\ -(1/2) <= curve_inv w < 1/2.
Proof.
  intro H. destruct (curve_inv_raw w H) as [C R]. unfold curve_inv, clamp. rewrite Rmax_left by lra. rewrite Rmin_left by lra. auto.
Qed.

(** The curve lies above the diagonal on the right half of the cell. *)
Lemma curve_above u : 0 <= u <= 1/2 -> u <= curve u.
Proof.
  intros [[L| <-] [H| ->]]; [|rewrite curve_half; lra|rewrite curve_0; lra|rewrite curve_half; lra].
  pose proof half_pos as P. set (c := tanh (a / 2) * 2). assert (Cp : 0 < c) by (unfold c; lra).
  set (f := fun v => tanh (a * v) - c * v).
  assert (D : forall v, derivable_pt_lim f v ((1 - tanh (a * v) ^ 2) * a - c)).
  { intro v. unfold f. apply (derivable_pt_lim_minus (fun v => tanh (a * v)) (fun v => c * v)).
    - apply (derivable_pt_lim_comp (fun v => a * v) tanh v a (1 - tanh (a * v) ^ 2)); [|apply tanh_derive].
      apply lin.
    - apply lin. }
  assert (F0 : f 0 = 0) by (unfold f; rewrite Rmult_0_r, tanh_0; ring).
  assert (F1 : f (1/2) = 0) by (unfold f, c; replace (a * (1/2)) with (a / 2) by field; field).
  assert (FU : 0 <= f u).
  { destruct (Rle_lt_dec 0 (f u)) as [|N]; [assumption|]. exfalso.
    destruct (MVT_cor2 f (fun v => (1 - tanh (a * v) ^ 2) * a - c) 0 u L) as (v & E & V); [intros; apply D|].
    destruct (MVT_cor2 f (fun v => (1 - tanh (a * v) ^ 2) * a - c) u (1/2) H) as (w & E' & W); [intros; apply D|].
    rewrite F0 in E. rewrite F1 in E'. cbn beta in *.
    set (dv := (1 - tanh (a * v) ^ 2) * a - c) in *. set (dw := (1 - tanh (a * w) ^ 2) * a - c) in *.
    assert (DV : dv < 0).
    { destruct (Rlt_le_dec dv 0) as [|Q]; [assumption|]. pose proof (Rmult_le_pos _ _ Q (Rlt_le _ _ L)). lra. }
    assert (DW : 0 < dw).
    { destruct (Rlt_le_dec 0 dw) as [|Q]; [assumption|].
      assert (0 <= - dw * (1/2 - u)) by (apply Rmult_le_pos; lra). lra. }
    assert (TV : 0 < tanh (a * v)) by (apply tanh_pos, Rmult_lt_0_compat; lra).
    assert (TW : tanh (a * v) < tanh (a * w)) by (apply tanh_incr, Rmult_lt_compat_l; lra).
    assert (SQ : tanh (a * v) ^ 2 < tanh (a * w) ^ 2) by nra.
    assert (tanh (a * v) ^ 2 * a < tanh (a * w) ^ 2 * a) by (apply Rmult_lt_compat_r; lra).
    unfold dv, dw in *. lra. }
  unfold curve. fold c. apply Rmult_le_reg_r with c; [exact Cp|]. unfold Rdiv. rewrite Rmult_assoc, Rinv_l by lra.
  unfold f in FU. lra.
Qed.
(** Distance to the upper end of the cell. *)
Lemma curve_near u : 0 <= u < 1/2 -> 1/2 - exp (- (2 * a * u)) <= curve u.
Proof.
  intros [L H]. pose proof half_pos. pose proof (tanh_lt_1 (a / 2)).
  assert (T : 0 <= tanh (a * u)).
  { destruct L as [L| <-]; [left; apply tanh_pos, Rmult_lt_0_compat; lra|rewrite Rmult_0_r, tanh_0; lra]. }
  assert (Q : tanh (a * u) / 2 <= curve u).
  { unfold curve. apply Rmult_le_reg_r with (tanh (a / 2) * 2); [lra|]. unfold Rdiv. rewrite Rmult_assoc, (Rmult_assoc _ (/ (_ * 2))), Rinv_l by lra.
    nra. }
  assert (S : 1 - 2 * exp (- (2 * a * u)) <= tanh (a * u)).
  { rewrite tanh_1, exp_Ropp. replace (2 * a * u) with (2 * (a * u)) by ring. pose proof (exp_pos (2 * (a * u))) as E.
    assert (/ (exp (2 * (a * u)) + 1) <= / exp (2 * (a * u))) by (apply Rinv_le_contravar; lra). unfold Rdiv. lra. }
  lra.
Qed.
End Cell.

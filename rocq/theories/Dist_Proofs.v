(** Lemmas for Dist_Props.v. *)
From Coq Require Import Reals List Bool Arith Lia Lra ZArith.
From Coquelicot Require Import Coquelicot.
From Verif Require Import Base Tensor RBase RFloat Gauss Dist_Model Dist_Spec.
Import ListNotations.
Open Scope R_scope.

Lemma ndtr_Phi : forall x, ndtr x = Phi x.
Proof.
  intros x. unfold ndtr. cbv zeta. rewrite Phi_erf. set (s := x * sqrt (1 / 2)).
  destruct (Rlt_dec (Rabs s) (sqrt (1 / 2))) as [A|A]; [lra|].
  destruct (Rlt_dec 0 s) as [B|B]; unfold erfc.
  - rewrite Rabs_right by lra. lra.
  - rewrite Rabs_left1 by lra. rewrite erf_odd. lra.
Qed.

Lemma elog_pos : forall x, 0 < x -> elog (Fin x) = Fin (ln x).
Proof. intros x X. unfold elog. destruct (Rlt_dec 0 x); [reflexivity|lra]. Qed.

Lemma elog_is_log : forall p, 0 <= p -> is_log p (elog (Fin p)).
Proof.
  intros p P. unfold elog, is_log. destruct (Rlt_dec 0 p); [left; auto|].
  destruct (Req_EM_T p 0); [right; auto|lra].
Qed.

Lemma is_log_fun : forall p e e', is_log p e -> is_log p e' -> e = e'.
Proof. intros p e e' [[A ->]|[A ->]] [[B ->]|[B ->]]; auto; lra. Qed.

Lemma ln_le_sub1 : forall u, 0 < u -> ln u <= u - 1.
Proof. intros u U. pose proof (exp_ge_lin (ln u)). rewrite exp_ln in H by exact U. lra. Qed.

Lemma ln_quot : forall a b, 0 < a -> 0 < b -> ln a - ln b = ln (a / b).
Proof.
  intros a b A B. unfold Rdiv. rewrite ln_mult by (auto using Rinv_0_lt_compat).
  rewrite ln_Rinv by exact B. lra.
Qed.

(** The value of the series branch: the logarithm of the density times a polynomial. *)
Definition cpoly (z : R) : R := (1 - / z ^ 2 + / z ^ 4 - 3 * / z ^ 6) / z.

Lemma inv2_small : forall z, 10 <= z -> 0 < / z ^ 2 <= 1 / 100.
Proof.
  intros z Z. pose proof (inv_small z Z) as [A B]. rewrite <- pow_inv. set (i := / z) in *.
  split; [apply pow_lt, A|]. replace (i ^ 2) with (i * i) by ring. nra.
Qed.

Lemma poly_pos : forall z, 10 <= z -> 98 / 100 < 1 - / z ^ 2 + / z ^ 4 - 3 * / z ^ 6.
Proof.
  intros z Z. pose proof (inv2_small z Z) as [A B].
  replace (/ z ^ 4) with (/ z ^ 2 * / z ^ 2) by (field; lra).
  replace (/ z ^ 6) with (/ z ^ 2 * / z ^ 2 * / z ^ 2) by (field; lra).
  set (i := / z ^ 2) in *. assert (0 < i * i <= 1 / 100 * i) by nra. nra.
Qed.

Lemma cpoly_pos : forall z, 10 <= z -> 0 < cpoly z.
Proof. intros z Z. unfold cpoly. pose proof (poly_pos z Z). apply Rdiv_lt_0_compat; lra. Qed.

Lemma ln_phi : forall z, ln (phi z) = - (1 / 2) * (ln (2 * PI) + z * z).
Proof.
  intros z. unfold phi. pose proof sqrt_2pi_pos as S. unfold Rdiv.
  rewrite ln_mult; [|apply exp_pos|apply Rinv_0_lt_compat, S].
  rewrite ln_exp, ln_Rinv by exact S.
  assert (H : ln (sqrt (2 * PI)) = 1 / 2 * ln (2 * PI)).
  { pose proof PI_RGT_0 as P.
    replace (ln (2 * PI)) with (ln (sqrt (2 * PI) * sqrt (2 * PI))) by (rewrite sqrt_sqrt by lra; reflexivity).
    rewrite ln_mult by exact S. lra. }
  rewrite H. lra.
Qed.

Lemma series_value : forall x, x < -10 ->
  log_ndtr_asymptotic_series x 3 = Fin (ln (phi (- x) * cpoly (- x))).
Proof.
  intros x X. unfold log_ndtr_asymptotic_series. cbv zeta.
  rewrite elog_pos by lra.
  assert (E : 1 + series_t2 (x * x) 3 = 1 - / (- x) ^ 2 + / (- x) ^ 4 - 3 * / (- x) ^ 6).
  { unfold series_t2. cbn [seq fold_left series_step fst snd INR]. field. nra. }
  pose proof (poly_pos (- x) ltac:(lra)) as P.
  assert (L : elog1p (Fin (series_t2 (x * x) 3))
              = Fin (ln (1 - / (- x) ^ 2 + / (- x) ^ 4 - 3 * / (- x) ^ 6))).
  { unfold elog1p, eadd. rewrite E. apply elog_pos. lra. }
  rewrite L. unfold esub, eopp, eadd. f_equal.
  pose proof (phi_pos (- x)) as Q.
  rewrite (ln_mult (phi (- x)) (cpoly (- x)) Q (cpoly_pos (- x) ltac:(lra))).
  unfold cpoly, Rdiv. set (n := 1 - _ + _ - _) in *.
  rewrite (ln_mult n); [|lra|apply Rinv_0_lt_compat; lra].
  rewrite ln_Rinv by lra. rewrite ln_phi. fold Rdiv.
  replace (- x * - x) with (x * x) by ring. lra.
Qed.

Lemma p2_poly : forall z, 10 <= z -> p2 z = (1 - / z ^ 2 + 3 * / z ^ 4) / z.
Proof. intros z Z. unfold p2. field. lra. Qed.
Lemma p3_poly : forall z, 10 <= z -> p3 z = (1 - / z ^ 2 + 3 * / z ^ 4 - 15 * / z ^ 6) / z.
Proof. intros z Z. unfold p3, p2. field. lra. Qed.

Lemma series_error : forall z, 10 <= z ->
  / z ^ 4 <= ln (1 - Phi z) - ln (phi z * cpoly z) <= 3 * / z ^ 4.
Proof.
  intros z Z.
  pose proof (phi_pos z) as F. pose proof (cpoly_pos z Z) as C.
  pose proof (tail_upper z ltac:(lra)) as U. pose proof (tail_lower z ltac:(lra)) as L.
  pose proof (Phi_bounds z) as [_ Q].
  set (q := 1 - Phi z) in *. assert (Q0 : 0 < q) by (unfold q; lra).
  assert (G : 0 < phi z * cpoly z) by (apply Rmult_lt_0_compat; lra).
  pose proof (poly_pos z Z) as P.
  rewrite (p2_poly z Z) in U. rewrite (p3_poly z Z) in L.
  assert (E4 : / z ^ 4 = / z ^ 2 * / z ^ 2) by (field; lra).
  assert (E6 : / z ^ 6 = / z ^ 2 * / z ^ 2 * / z ^ 2) by (field; lra).
  pose proof (inv2_small z Z) as [I0 I1].
  unfold cpoly in *. rewrite E4, E6 in *. set (i := / z ^ 2) in *.
  set (c := 1 - i + i * i - 3 * (i * i * i)) in *.
  assert (J : 0 < i * i <= 1 / 100 * i) by nra.
  assert (K : 0 < i * i * i <= 1 / 100 * (i * i)) by nra.
  assert (V : ln q - ln (phi z * (c / z)) = ln (q / (phi z * (c / z)))).
  { apply ln_quot; lra. }
  rewrite V. split.
  - (* 1 - 1/u <= ln u *)
    assert (W : 1 - (phi z * (c / z)) / q <= ln (q / (phi z * (c / z)))).
    { assert (Y : 0 < (phi z * (c / z)) / q) by (apply Rdiv_lt_0_compat; lra).
      pose proof (ln_le_sub1 _ Y) as M.
      replace (q / (phi z * (c / z))) with (/ ((phi z * (c / z)) / q)) by (field; repeat split; lra).
      rewrite ln_Rinv by exact Y. lra. }
    apply Rle_trans with (1 - phi z * (c / z) / q); [|exact W].
    assert (T : phi z * (c / z) <= (1 - i * i) * q); [|].
    { assert (B : (1 - i * i) * (phi z * ((1 - i + 3 * (i * i) - 15 * (i * i * i)) / z)) <= (1 - i * i) * q).
      { apply Rmult_le_compat_l; nra. }
      apply Rle_trans with (2 := B).
      replace ((1 - i * i) * (phi z * ((1 - i + 3 * (i * i) - 15 * (i * i * i)) / z)))
        with (phi z / z * ((1 - i * i) * (1 - i + 3 * (i * i) - 15 * (i * i * i)))) by (field; lra).
      replace (phi z * (c / z)) with (phi z / z * c) by (field; lra).
      apply Rmult_le_compat_l; [apply Rlt_le, Rdiv_lt_0_compat; lra|].
      unfold c. nra. }
    assert (phi z * (c / z) / q <= 1 - i * i); [|lra].
    apply Rle_div_l; [exact Q0|lra].
  - assert (Y : 0 < q / (phi z * (c / z))) by (apply Rdiv_lt_0_compat; lra).
    apply Rle_trans with (1 := ln_le_sub1 _ Y).
    assert (T : q / (phi z * (c / z)) <= 1 + 3 * (i * i)); [|lra].
    apply Rle_div_l; [exact G|].
    apply Rle_trans with (phi z * ((1 - i + 3 * (i * i)) / z)); [lra|].
    replace ((1 + 3 * (i * i)) * (phi z * (c / z))) with (phi z / z * ((1 + 3 * (i * i)) * c)) by (field; lra).
    replace (phi z * ((1 - i + 3 * (i * i)) / z)) with (phi z / z * (1 - i + 3 * (i * i))) by (field; lra).
    apply Rmult_le_compat_l; [apply Rlt_le, Rdiv_lt_0_compat; lra|].
    unfold c. nra.
Qed.

Lemma cpoly_derive : forall z, 0 < z ->
  is_derive (fun z => phi z * cpoly z) z (- phi z * (1 - 2 / z ^ 4 + 2 / z ^ 6 - 21 / z ^ 8)).
Proof.
  intros z Z. evar_last.
  - apply (is_derive_mult phi cpoly); [apply phi_derive| |intros; apply Rmult_comm].
    instantiate (1 := - 1 / z ^ 2 + 3 / z ^ 4 - 5 / z ^ 6 + 21 / z ^ 8).
    unfold cpoly. auto_derive.
    + repeat split; try lra; apply Rgt_not_eq, Rlt_gt; repeat apply Rmult_lt_0_compat; lra.
    + field. lra.
  - unfold plus; simpl; unfold mult; simpl. unfold cpoly. field. lra.
Qed.

Lemma cpoly_decr : forall a b, 10 <= a -> a < b -> phi b * cpoly b < phi a * cpoly a.
Proof.
  intros a b A B.
  destruct (MVT_gen (fun z => phi z * cpoly z) a b
              (fun z => - phi z * (1 - 2 / z ^ 4 + 2 / z ^ 6 - 21 / z ^ 8))) as (c & C & E).
  - intros x X. rewrite Rmin_left, Rmax_right in X by lra. apply cpoly_derive; lra.
  - intros x X. rewrite Rmin_left, Rmax_right in X by lra.
    apply continuity_pt_filterlim. apply (ex_derive_continuous (fun z => phi z * cpoly z)).
    eexists; apply cpoly_derive; lra.
  - rewrite Rmin_left, Rmax_right in C by lra.
    pose proof (phi_pos c). pose proof (inv2_small c ltac:(lra)) as [I0 I1].
    assert (D : 1 / 2 < 1 - 2 / c ^ 4 + 2 / c ^ 6 - 21 / c ^ 8).
    { replace (1 - 2 / c ^ 4 + 2 / c ^ 6 - 21 / c ^ 8)
        with (1 - 2 * (/ c ^ 2 * / c ^ 2) + 2 * (/ c ^ 2 * / c ^ 2 * / c ^ 2)
              - 21 * (/ c ^ 2 * / c ^ 2 * (/ c ^ 2 * / c ^ 2))) by (field; lra).
      set (i := / c ^ 2) in *. assert (0 < i * i <= 1 / 100) by nra.
      assert (0 < i * i * i) by nra. nra. }
    assert (0 < phi c * (1 - 2 / c ^ 4 + 2 / c ^ 6 - 21 / c ^ 8)) by (apply Rmult_lt_0_compat; lra).
    nra.
Qed.

(** log_ndtr as a real-valued function. *)
Definition thr (dt : dtype) : R := match dt with Float32 => -10 | _ => -20 end.
Definition lnd (dt : dtype) (x : R) : R :=
  if Rle_dec (thr dt) x then ln (Phi x) else ln (phi (- x) * cpoly (- x)).

Lemma log_ndtr_lnd : forall dt x, dt <> OtherDtype -> log_ndtr dt x = Ok (Fin (lnd dt x)).
Proof.
  intros dt x N.
  assert (G : forall m n, (m = -10 \/ m = -20) -> 0 < n ->
    (if Rlt_dec n x then elog1p (Fin (- ndtr (- x)))
     else if Rle_dec m x then elog (Fin (ndtr x)) else log_ndtr_asymptotic_series x 3)
    = Fin (if Rle_dec m x then ln (Phi x) else ln (phi (- x) * cpoly (- x)))).
  { intros m n M N0. pose proof (Phi_bounds x).
    destruct (Rlt_dec n x) as [A|A].
    - destruct (Rle_dec m x); [|lra]. unfold elog1p, eadd. rewrite ndtr_Phi, Phi_sym.
      replace (1 + - (1 - Phi x)) with (Phi x) by lra. apply elog_pos; lra.
    - destruct (Rle_dec m x) as [B|B].
      + rewrite ndtr_Phi. apply elog_pos; lra.
      + apply series_value. lra. }
  destruct dt; [| |congruence]; unfold log_ndtr, lnd, thr; f_equal; apply G; lra.
Qed.

Lemma thr_range : forall dt, -20 <= thr dt <= -10.
Proof. destruct dt; simpl; lra. Qed.

Lemma lnd_below : forall dt x, x < thr dt -> lnd dt x < ln (Phi x).
Proof.
  intros dt x X. pose proof (thr_range dt). unfold lnd. destruct (Rle_dec (thr dt) x); [lra|].
  pose proof (series_error (- x) ltac:(lra)) as [E _].
  assert (0 < / (- x) ^ 4) by (apply Rinv_0_lt_compat, pow_lt; lra).
  rewrite <- Phi_sym, Ropp_involutive in E. lra.
Qed.

Lemma lnd_mono : forall dt x y, x < y -> lnd dt x < lnd dt y.
Proof.
  intros dt x y L. pose proof (thr_range dt) as T.
  assert (LP : ln (Phi x) < ln (Phi y)).
  { apply ln_increasing; [apply Phi_bounds|apply Phi_incr, L]. }
  destruct (Rle_dec (thr dt) x) as [A|A].
  - unfold lnd. destruct (Rle_dec (thr dt) x); [|lra]. destruct (Rle_dec (thr dt) y); [|lra]. exact LP.
  - pose proof (lnd_below dt x ltac:(lra)) as B.
    destruct (Rle_dec (thr dt) y) as [C|C].
    + unfold lnd at 2. destruct (Rle_dec (thr dt) y); [|lra]. lra.
    + unfold lnd. destruct (Rle_dec (thr dt) x); [lra|]. destruct (Rle_dec (thr dt) y); [lra|].
      apply ln_increasing.
      * apply Rmult_lt_0_compat; [apply phi_pos|apply cpoly_pos; lra].
      * apply cpoly_decr; lra.
Qed.

(** ln (e^a - e^b) as the code computes it. *)
Lemma log_diff : forall a b, b < a ->
  eadd (elog1p (eopp (eexp (esub (Fin b) (Fin a))))) (Fin a) = Fin (ln (exp a - exp b)).
Proof.
  intros a b L. unfold esub, eopp, eexp, eadd, elog1p.
  assert (E : exp (b + - a) < 1) by (rewrite <- exp_0; apply exp_increasing; lra).
  assert (P : 0 < 1 + - exp (b + - a)) by lra.
  unfold eadd. rewrite elog_pos by exact P. f_equal.
  replace (exp a - exp b) with ((1 + - exp (b + - a)) * exp a).
  2:{ rewrite exp_plus, exp_Ropp. pose proof (exp_pos a). field. lra. }
  rewrite ln_mult; [|exact P|apply exp_pos]. rewrite ln_exp. reflexivity.
Qed.

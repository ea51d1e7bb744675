(** Specification vocabulary for the probability helpers: what a distribution function and
    the logarithm of a probability are. *)
From Coq Require Import Reals List Lra Lia.
From Coquelicot Require Import Coquelicot.
From Verif Require Import Base Gauss Dist_Model.
Open Scope R_scope.

(** [e] is the logarithm of the probability [p], the logarithm of 0 being -infinity. *)
Definition is_log (p : R) (e : ext) : Prop :=
  (0 < p /\ e = Fin (ln p)) \/ (p = 0 /\ e = MInf).

(** [F] is a distribution function (right-continuity and limits are not needed). *)
Definition is_cdf (F : R -> R) : Prop :=
  (forall x, 0 <= F x <= 1) /\ (forall x y, x <= y -> F x <= F y).

(** The normal distribution function: the integral of the bell curve from -infinity.  The
    two lemmas tie the constant 1/2 in [Phi] to that integral and to total mass one. *)
Definition normal_cdf (loc scale x : R) : R := Phi ((x - loc) / scale).

Lemma Phi_integral : forall a b, RInt phi a b = Phi b - Phi a.
Proof.
  intros a b.
  assert (C : RInt phi a b = plus (RInt phi a 0) (RInt phi 0 b)).
  { rewrite (RInt_Chasles phi); [reflexivity| |]; apply phi_int. }
  rewrite C, <- (opp_RInt_swap phi) by apply phi_int.
  unfold Phi, plus, opp; simpl. lra.
Qed.
Theorem Phi_is_normal_cdf : forall x,
  is_lim (fun a => RInt (fun t => exp (- (t * t) / 2) / sqrt (2 * PI)) a x) m_infty (Phi x)
  /\ is_lim Phi p_infty 1.
Proof.
  intros x. split; [|apply Phi_lim_p].
  apply (is_lim_ext (fun a => Phi x - Phi a)).
  - intros a. rewrite <- Phi_integral. reflexivity.
  - evar_last.
    + apply (is_lim_minus (fun _ => Phi x) Phi m_infty (Phi x) 0).
      * apply is_lim_const.
      * apply Phi_lim_m.
      * unfold is_Rbar_minus, is_Rbar_plus; simpl. reflexivity.
    + simpl. f_equal. lra.
Qed.

Lemma normal_cdf_is_cdf : forall loc scale, 0 < scale -> is_cdf (normal_cdf loc scale).
Proof.
  intros loc scale S. split.
  - intros x. pose proof (Phi_bounds ((x - loc) / scale)). unfold normal_cdf. lra.
  - intros x y L. unfold normal_cdf. apply Phi_mono. unfold Rdiv.
    apply Rmult_le_compat_r; [apply Rlt_le, Rinv_0_lt_compat, S|lra].
Qed.

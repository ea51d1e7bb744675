(** Lemmas on finite sums of reals, Tensor.rsum. *)
From Coq Require Import Arith List Bool Reals Lra Lia.
From Verif Require Import Base Tensor.
Import ListNotations.
Open Scope R_scope.

Lemma rsum_0 f : rsum 0 f = 0. Proof. reflexivity. Qed.
Lemma rsum_plus n f g : rsum n (fun i => f i + g i) = rsum n f + rsum n g.
Proof. revert f g. induction n as [|n IH]; intros f g; [cbn; lra|]. rewrite !rsum_S, IH. lra. Qed.
Lemma rsum_scal n a f : rsum n (fun i => a * f i) = a * rsum n f.
Proof. revert f. induction n as [|n IH]; intro f; [cbn; lra|]. rewrite !rsum_S, IH. lra. Qed.
Lemma rsum_scal_r n a f : rsum n (fun i => f i * a) = rsum n f * a.
Proof. revert f. induction n as [|n IH]; intro f; [cbn; lra|]. rewrite !rsum_S, IH. lra. Qed.
Lemma rsum_minus n f g : rsum n (fun i => f i - g i) = rsum n f - rsum n g.
Proof. revert f g. induction n as [|n IH]; intros f g; [cbn; lra|]. rewrite !rsum_S, IH. lra. Qed.
Lemma rsum_const n a : rsum n (fun _ => a) = INR n * a.
Proof. induction n as [|n IH]; [cbn; lra|]. rewrite rsum_S, IH, S_INR. lra. Qed.
Lemma rsum_le n f g : (forall i, (i < n)%nat -> f i <= g i) -> rsum n f <= rsum n g.
Proof.
  revert f g. induction n as [|n IH]; intros f g H; [cbn; lra|]. rewrite !rsum_S.
  apply Rplus_le_compat; [apply H; lia|]. apply IH. intros. apply H. lia.
Qed.
Lemma rsum_nonneg n f : (forall i, (i < n)%nat -> 0 <= f i) -> 0 <= rsum n f.
Proof. intro H. rewrite <- (rsum_zero n (fun _ => 0)) by easy. now apply rsum_le. Qed.
Lemma rsum_pos n f : (0 < n)%nat -> (forall i, (i < n)%nat -> 0 < f i) -> 0 < rsum n f.
Proof.
  intros N H. destruct n; [lia|]. rewrite rsum_S.
  assert (0 <= rsum n (fun i => f (S i))) by (apply rsum_nonneg; intros; apply Rlt_le, H; lia).
  specialize (H 0%nat). assert (0 < f 0%nat) by (apply H; lia). lra.
Qed.
(** A sum of terms of one sign is zero only if all terms are. *)
Lemma rsum_zero_inv n f : (forall i, (i < n)%nat -> 0 <= f i) -> rsum n f = 0 ->
  forall i, (i < n)%nat -> f i = 0.
Proof.
  revert f. induction n as [|n IH]; intros f P H i I; [lia|]. rewrite rsum_S in H.
  assert (0 <= f 0%nat) by (apply P; lia).
  assert (0 <= rsum n (fun i => f (S i))) by (apply rsum_nonneg; intros; apply P; lia).
  destruct i; [lra|]. apply (IH (fun i => f (S i))); [intros; apply P; lia|lra|lia].
Qed.
(** Terms bounded by [m] that add up to n·m are all m. *)
Lemma rsum_max_inv n f m : (forall i, (i < n)%nat -> f i <= m) -> rsum n f = INR n * m ->
  forall i, (i < n)%nat -> f i = m.
Proof.
  intros P H i I. enough (m - f i = 0) by lra.
  apply (rsum_zero_inv n (fun i => m - f i)); [intros k K; specialize (P k K); lra| |exact I].
  rewrite rsum_minus, rsum_const, H. lra.
Qed.
Lemma rsum_last n f : rsum (S n) f = rsum n f + f n.
Proof.
  revert f. induction n as [|n IH]; intro f; [cbn; lra|].
  rewrite rsum_S, IH, (rsum_S n f). lra.
Qed.
Lemma rsum_app n m f : rsum (n + m) f = rsum n f + rsum m (fun i => f (n + i)%nat).
Proof.
  revert f. induction n as [|n IH]; intro f; [cbn [Nat.add]; rewrite rsum_0; now rewrite Rplus_0_l|].
  cbn [Nat.add]. rewrite !rsum_S, IH. lra.
Qed.
Lemma rsum_swap n m (f : nat -> nat -> R) :
  rsum n (fun i => rsum m (fun j => f i j)) = rsum m (fun j => rsum n (fun i => f i j)).
Proof.
  revert f. induction n as [|n IH]; intro f.
  - symmetry. apply rsum_zero. easy.
  - rewrite rsum_S, (IH (fun i j => f (S i) j)), <- rsum_plus. apply rsum_ext.
    intros i _. now rewrite rsum_S.
Qed.

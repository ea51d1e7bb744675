(** Floor, ceiling and rounding on the reals, shared by the models of
    floating-point code.  Floating-point numbers are modelled by reals unless a
    model says otherwise. *)
From Coq Require Import ZArith Reals Lra Lia Bool.
Open Scope R_scope.

(** math.floor, torch.floor *)
Definition Rfloor (x : R) : Z := (up x - 1)%Z.
(** math.ceil, torch.ceil *)
Definition Rceil (x : R) : Z := (- Rfloor (- x))%Z.
(** Python's round, numpy.round, torch.round: to nearest, ties to even *)
Definition round_even (x : R) : Z :=
  let f := Rfloor x in
  let d := x - IZR f in
  if Rlt_dec d (1/2) then f
  else if Rlt_dec (1/2) d then (f + 1)%Z
  else if Z.even f then f else (f + 1)%Z.

Lemma Rfloor_spec x : IZR (Rfloor x) <= x < IZR (Rfloor x) + 1.
Proof.
  unfold Rfloor. rewrite minus_IZR. destruct (archimed x) as [A B]. lra.
Qed.

Lemma IZR_lt_1 a b : IZR a < IZR b + 1 -> (a <= b)%Z.
Proof. intro H. apply Z.lt_succ_r. apply lt_IZR. rewrite succ_IZR. exact H. Qed.

Lemma Rfloor_unique x n : IZR n <= x < IZR n + 1 -> Rfloor x = n.
Proof.
  intros [A B]. destruct (Rfloor_spec x) as [C D]. apply Z.le_antisymm; apply IZR_lt_1; lra.
Qed.
Lemma Rfloor_IZR n : Rfloor (IZR n) = n.
Proof. apply Rfloor_unique. lra. Qed.
Lemma Rfloor_mono x y : x <= y -> (Rfloor x <= Rfloor y)%Z.
Proof. intro H. destruct (Rfloor_spec x), (Rfloor_spec y). apply IZR_lt_1. lra. Qed.
Lemma Rfloor_add x n : Rfloor (x + IZR n) = (Rfloor x + n)%Z.
Proof. apply Rfloor_unique. rewrite plus_IZR. destruct (Rfloor_spec x). lra. Qed.
Lemma Rfloor_ge x n : IZR n <= x -> (n <= Rfloor x)%Z.
Proof. intro H. destruct (Rfloor_spec x). apply IZR_lt_1. lra. Qed.
Lemma Rfloor_lt x n : x < IZR n -> (Rfloor x < n)%Z.
Proof. intro H. destruct (Rfloor_spec x). apply lt_IZR. lra. Qed.

Lemma Rceil_spec x : x <= IZR (Rceil x) < x + 1.
Proof. unfold Rceil. rewrite opp_IZR. destruct (Rfloor_spec (- x)). lra. Qed.
Lemma Rceil_unique x n : x <= IZR n < x + 1 -> Rceil x = n.
Proof. intro H. unfold Rceil. rewrite (Rfloor_unique (- x) (- n)); [lia|]. rewrite opp_IZR. lra. Qed.
Lemma Rceil_IZR n : Rceil (IZR n) = n.
Proof. apply Rceil_unique. lra. Qed.

Lemma round_even_cases x : let n := round_even x in
  Rabs (x - IZR n) < 1/2 \/ (Rabs (x - IZR n) = 1/2 /\ Z.even n = true).
Proof.
  unfold round_even. destruct (Rfloor_spec x) as [A B]. set (f := Rfloor x) in *.
  destruct (Rlt_dec (x - IZR f) (1/2)) as [C|C]; [left; apply Rabs_def1; lra|].
  destruct (Rlt_dec (1/2) (x - IZR f)) as [D|D].
  - left. rewrite plus_IZR. apply Rabs_def1; lra.
  - right. assert (E : x - IZR f = 1/2) by lra. destruct (Z.even f) eqn:F.
    + split; [|exact F]. rewrite E. apply Rabs_pos_eq. lra.
    + split.
      * rewrite plus_IZR. replace (x - (IZR f + 1)) with (- (1/2)) by lra.
        rewrite Rabs_Ropp. apply Rabs_pos_eq. lra.
      * rewrite Z.even_add, F. reflexivity.
Qed.
Lemma round_even_near x : Rabs (x - IZR (round_even x)) <= 1/2.
Proof. destruct (round_even_cases x) as [H|[H _]]; lra. Qed.
Ltac rabs := repeat match goal with
  | |- context [Rabs ?x] => let H := fresh in destruct (Rcase_abs x) as [H|H];
       [rewrite (Rabs_left x H) | rewrite (Rabs_right x H)]
  | H0 : context [Rabs ?x] |- _ => let H := fresh in destruct (Rcase_abs x) as [H|H];
       [rewrite (Rabs_left x H) in H0 | rewrite (Rabs_right x H) in H0]
  end.

Lemma round_even_bounds x : IZR (round_even x) - 1/2 <= x <= IZR (round_even x) + 1/2.
Proof. pose proof (round_even_near x) as H. rabs; lra. Qed.
Lemma round_even_unique x n : Rabs (x - IZR n) < 1/2 -> round_even x = n.
Proof.
  intro H. pose proof (round_even_bounds x) as B.
  apply Z.le_antisymm; apply IZR_lt_1; rabs; lra.
Qed.
Lemma round_even_tie x n : Rabs (x - IZR n) = 1/2 -> Z.even n = true -> round_even x = n.
Proof.
  intros H E. destruct (round_even_cases x) as [C|[C D]]; set (k := round_even x) in *.
  - assert (k = n \/ k = n + 1 \/ k = n - 1)%Z as [-> | [K|K]]; auto.
    + assert (n - 1 <= k <= n + 1)%Z as K; [|lia].
      split; apply IZR_lt_1; rewrite ?plus_IZR, ?minus_IZR; rabs; lra.
    + exfalso. assert (IZR k = IZR n + 1) by (rewrite K, plus_IZR; lra). rabs; lra.
    + exfalso. assert (IZR k = IZR n - 1) by (rewrite K, minus_IZR; lra). rabs; lra.
  - assert (n - 1 <= k <= n + 1)%Z as K.
    { split; apply IZR_lt_1; rewrite ?plus_IZR, ?minus_IZR; rabs; lra. }
    assert (k = n \/ k = n + 1 \/ k = n - 1)%Z as [-> | [K1|K1]] by lia; auto; exfalso;
      rewrite K1 in D; rewrite ?Z.even_add, ?Z.even_sub, E in D; discriminate.
Qed.
Lemma round_even_IZR n : round_even (IZR n) = n.
Proof. apply round_even_unique. rewrite Rminus_diag_eq by reflexivity. rewrite Rabs_R0. lra. Qed.
Lemma round_even_mono x y : x <= y -> (round_even x <= round_even y)%Z.
Proof.
  intro H. pose proof (round_even_bounds x) as A. pose proof (round_even_bounds y) as B.
  set (a := round_even x) in *. set (b := round_even y) in *.
  destruct (Z_le_gt_dec a b) as [L|L]; [exact L|]. exfalso.
  assert (E : (a = b + 1)%Z).
  { assert (a <= b + 1)%Z; [|lia]. apply IZR_lt_1. rewrite plus_IZR. lra. }
  assert (E' : IZR a = IZR b + 1) by (rewrite E, plus_IZR; reflexivity).
  assert (X : x = IZR b + 1/2) by lra. assert (Y : y = IZR b + 1/2) by lra.
  assert (a = b); [|lia]. unfold a, b. now rewrite X, Y.
Qed.
Lemma round_even_range x a b : IZR a <= x <= IZR b -> (a <= round_even x <= b)%Z.
Proof.
  intros [A B]. split; [rewrite <- (round_even_IZR a) | rewrite <- (round_even_IZR b)]; now apply round_even_mono.
Qed.
Lemma round_even_add_even x n : Z.even n = true -> round_even (x + IZR n) = (round_even x + n)%Z.
Proof.
  intro E. destruct (round_even_cases x) as [C|[C D]].
  - apply round_even_unique. rewrite plus_IZR.
    replace (x + IZR n - (IZR (round_even x) + IZR n)) with (x - IZR (round_even x)) by lra. exact C.
  - apply round_even_tie.
    + rewrite plus_IZR.
      replace (x + IZR n - (IZR (round_even x) + IZR n)) with (x - IZR (round_even x)) by lra. exact C.
    + now rewrite Z.even_add, D, E.
Qed.

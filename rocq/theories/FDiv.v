(** IEEE-754 binary64 division of integers followed by truncation, executable (Flocq's
    verified implementation), and when it is the exact integer quotient. *)
From Coq Require Import ZArith Reals Lia Lra.
From Flocq Require Import Core IEEE754.BinarySingleNaN.
From Verif Require Import Base RFloat.
Open Scope Z_scope.

Definition P53 : Prec_gt_0 53 := eq_refl.
Definition L53 : Prec_lt_emax 53 1024 := eq_refl.
Definition double := binary_float 53 1024.
(** An integer converted to double (round to nearest even). *)
Definition double_of_int (k : Z) : double := binary_normalize 53 1024 P53 L53 mode_NE k 0 false.
(** The operator [/] on two integer arrays of JAX with x64 enabled: both are converted
    to float64 and divided. *)
Definition true_divide (a b : Z) : double :=
  @Bdiv 53 1024 P53 L53 mode_NE (double_of_int a) (double_of_int b).
(** Conversion to an integer type truncates. *)
Definition int_of_double (x : double) : Z := Btrunc x.

Lemma b64_fexp x : round radix2 (SpecFloat.fexp 53 1024) (round_mode mode_NE) x = b64 x.
Proof. reflexivity. Qed.

Lemma big k : Z.abs k <= 2 ^ 53 -> Rlt_bool (Rabs (IZR k)) (bpow radix2 1024) = true.
Proof.
  intro H. apply Rlt_bool_true. rewrite <- abs_IZR.
  apply Rle_lt_trans with (bpow radix2 53); [|apply bpow_lt; lia].
  rewrite <- (IZR_Zpower radix2 53) by lia. apply IZR_le. exact H.
Qed.

Lemma double_of_int_exact k : Z.abs k <= 2 ^ 53 ->
  B2R (double_of_int k) = IZR k.
Proof.
  intro H. pose proof (binary_normalize_correct 53 1024 P53 L53 mode_NE k 0 false) as E.
  cbn zeta in E. rewrite b64_fexp in E.
  replace (F2R {| Fnum := k; Fexp := 0 |}) with (IZR k) in E by (unfold F2R; cbn; ring).
  rewrite (b64_int k H), (big k H) in E. apply E.
Qed.

(** A number with few bits before and after the point is exact. *)
Lemma b64_frac k e : 0 <= e <= 1000 -> Z.abs k <= 2 ^ 53 -> b64 (IZR k * bpow radix2 (- e)) = (IZR k * bpow radix2 (- e))%R.
Proof.
  intros He H. apply round_generic; [apply valid_rnd_N|].
  destruct (Z.eq_dec (Z.abs k) (2 ^ 53)) as [Q|Q].
  - assert (S : k = 2 ^ 53 \/ k = - 2 ^ 53) by lia.
    destruct S as [-> | ->].
    + replace (IZR (2 ^ 53)) with (bpow radix2 53) by (rewrite <- (IZR_Zpower radix2 53) by lia; reflexivity).
      rewrite <- bpow_plus. apply generic_format_FLT_bpow; [exact P53|lia].
    + rewrite opp_IZR. replace (IZR (2 ^ 53)) with (bpow radix2 53) by (rewrite <- (IZR_Zpower radix2 53) by lia; reflexivity).
      rewrite Ropp_mult_distr_l_reverse, <- bpow_plus. apply generic_format_opp.
      apply generic_format_FLT_bpow; [exact P53|lia].
  - apply generic_format_FLT. exists (Float radix2 k (- e)); [reflexivity| |cbn; lia].
    cbn [Fnum]. change (Z.pow radix2 53) with (2 ^ 53). lia.
Qed.

(** The truncated float64 quotient is the integer quotient as long as quotient and
    divisor together need no more than 53 bits. *)
Theorem true_divide_floor a b q n m :
  0 <= a <= 2 ^ 53 -> 1 <= b <= 2 ^ n -> 0 <= n -> 0 <= m -> n + m <= 53 -> a < 2 ^ m * b -> q = a / b ->
  int_of_double (true_divide a b) = q.
Proof.
  intros Ha Hb Hn Hm Hnm Hq ->.
  assert (B53 : b <= 2 ^ 53).
  { apply Z.le_trans with (2 ^ n); [lia|]. apply Z.pow_le_mono_r; lia. }
  set (q := a / b).
  assert (Q : 0 <= q < 2 ^ m).
  { unfold q; split; [apply Z.div_pos; lia|]. apply Z.div_lt_upper_bound; lia. }
  assert (Q1 : b * q <= a) by (apply Z.mul_div_le; lia).
  assert (Q2 : a + 1 <= b * (q + 1)).
  { pose proof (Z.mul_succ_div_gt a b). unfold q. lia. }
  pose proof (Bdiv_correct 53 1024 P53 L53 mode_NE (double_of_int a) (double_of_int b)) as E.
  rewrite (double_of_int_exact a), (double_of_int_exact b) in E by lia.
  assert (Bz : (0 < IZR b)%R) by (apply IZR_lt; lia).
  assert (Nz : IZR b <> 0%R) by lra.
  specialize (E Nz). rewrite b64_fexp in E.
  (* the quotient lies between two exact doubles *)
  assert (Pm : 2 ^ m <= 2 ^ 53) by (apply Z.pow_le_mono_r; lia).
  assert (Lo : (IZR q <= b64 (IZR a / IZR b))%R).
  { rewrite <- (b64_int q) by lia. apply b64_mono.
    apply Rmult_le_reg_r with (IZR b); [exact Bz|].
    unfold Rdiv. rewrite Rmult_assoc, Rinv_l, Rmult_1_r by exact Nz.
    rewrite <- mult_IZR. apply IZR_le. lia. }
  set (k := (q + 1) * 2 ^ n - 1).
  assert (Kb : Z.abs k <= 2 ^ 53).
  { assert ((q + 1) * 2 ^ n <= 2 ^ m * 2 ^ n) by (apply Z.mul_le_mono_nonneg_r; [apply Z.pow_nonneg; lia|lia]).
    rewrite <- Z.pow_add_r in H by lia.
    assert (2 ^ (m + n) <= 2 ^ 53) by (apply Z.pow_le_mono_r; lia).
    assert (1 <= (q + 1) * 2 ^ n) by (pose proof (Z.pow_pos_nonneg 2 n); nia).
    unfold k. lia. }
  assert (Pn : (0 < bpow radix2 (- n))%R) by apply bpow_gt_0.
  assert (Kv : (IZR k * bpow radix2 (- n) = IZR q + 1 - bpow radix2 (- n))%R).
  { unfold k. rewrite minus_IZR, mult_IZR, plus_IZR.
    replace (IZR (2 ^ n)) with (bpow radix2 n) by (rewrite <- (IZR_Zpower radix2 n) by lia; reflexivity).
    assert (bpow radix2 n * bpow radix2 (- n) = 1)%R by (rewrite <- bpow_plus; replace (n + - n) with 0 by lia; reflexivity).
    replace (((IZR q + 1) * bpow radix2 n - 1) * bpow radix2 (- n))%R
      with ((IZR q + 1) * (bpow radix2 n * bpow radix2 (- n)) - bpow radix2 (- n))%R by ring.
    rewrite H. ring. }
  assert (Hi : (b64 (IZR a / IZR b) <= IZR q + 1 - bpow radix2 (- n))%R).
  { rewrite <- Kv, <- (b64_frac k n) by (try exact Kb; lia). apply b64_mono. rewrite Kv.
    assert (I : (bpow radix2 (- n) <= / IZR b)%R).
    { rewrite bpow_opp. apply Rinv_le; [exact Bz|].
      rewrite <- (IZR_Zpower radix2 n) by lia. apply IZR_le. apply Hb. }
    assert (D : (IZR a / IZR b <= IZR q + 1 - / IZR b)%R).
    { apply Rmult_le_reg_r with (IZR b); [exact Bz|].
      unfold Rdiv. rewrite Rmult_assoc, Rinv_l, Rmult_1_r by exact Nz.
      replace ((IZR q + 1 - / IZR b) * IZR b)%R with (IZR b * (IZR q + 1) - 1)%R by (field; exact Nz).
      apply IZR_le in Q2. rewrite plus_IZR, mult_IZR, plus_IZR in Q2. lra. }
    lra. }
  assert (Fin : Rlt_bool (Rabs (b64 (IZR a / IZR b))) (bpow radix2 1024) = true).
  { apply Rlt_bool_true. assert (0 <= IZR q)%R by (apply IZR_le; lia).
    rewrite Rabs_right by lra.
    apply Rle_lt_trans with (bpow radix2 54); [|apply bpow_lt; lia].
    apply Rle_trans with (IZR (q + 1)); [rewrite plus_IZR; lra|].
    rewrite <- (IZR_Zpower radix2 54) by lia. apply IZR_le. change (radix2 ^ 54) with (2 * 2 ^ 53). lia. }
  rewrite Fin in E. destruct E as [E _].
  unfold int_of_double, true_divide. apply eq_IZR.
  rewrite (Btrunc_correct 53 1024 L53). rewrite E.
  rewrite round_FIX_IZR. f_equal.
  assert (0 <= IZR q)%R by (apply IZR_le; lia).
  rewrite Ztrunc_floor by lra. apply Zfloor_imp. rewrite plus_IZR. lra.
Qed.

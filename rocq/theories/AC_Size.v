(** Code length of the arithmetic coder over the reals. *)
From Coq Require Import ZArith List Bool Lia Arith Reals Lra.
From Verif Require Import Base AC_Model AC_Spec AC_SpecR AC_Proofs AC_Buffer AC_Loop AC_Main AC_Batch.
Import ListNotations.
Open Scope R_scope.

Lemma ln2_pos : 0 < ln 2.
Proof. rewrite <- ln_1. apply ln_increasing; lra. Qed.

Lemma ln_pow_nat x n : 0 < x -> ln (x ^ n) = INR n * ln x.
Proof.
  intros Hx. induction n as [|n IH]; [cbn [pow]; rewrite ln_1; cbn; lra|].
  rewrite S_INR. cbn [pow]. rewrite ln_mult, IH by (try apply pow_lt; assumption). lra.
Qed.

Lemma IZR_pow_nat x n : IZR (x ^ Z.of_nat n) = IZR x ^ n.
Proof. symmetry. apply pow_IZR. Qed.

Lemma ln_pow2 k : ln (2 ^ k) = INR k * ln 2.
Proof. apply ln_pow_nat; lra. Qed.

Section Size.
  Context {ST : Type}.
  Variable cdf : Z -> ST -> Z * Z * ST.

  Lemma ideal_freq m cs :
    good_message cdf m cs ->
    (0 < freq_product cdf m cs)%Z /\
    ideal_bits cdf m cs = 16 * INR (length m) - ln (IZR (freq_product cdf m cs)) / ln 2.
  Proof.
    pose proof ln2_pos as Hl2.
    unfold good_message, ideal_bits, freq_product.
    assert (Hlen : forall m cs, length (intervals cdf m cs) = length m).
    { induction m0 as [|x m0 IH]; intros cs0; [reflexivity|]. cbn [intervals].
      destruct (cdf x cs0) as [[l h] cs1]. cbn [length]. rewrite IH. reflexivity. }
    rewrite <- (Hlen m cs). generalize (intervals cdf m cs). clear.
    pose proof ln2_pos as Hl2.
    intros l Hl. induction Hl as [|[a b] l [[H0 H1] H2] _ [IHp IH]].
    { cbn. split; [lia|]. rewrite ln_1. lra. }
    cbn [fold_right fst snd] in *. split; [nia|].
    rewrite IH. cbn [length]. rewrite S_INR, mult_IZR.
    assert (0 < IZR (b - a)) by (apply IZR_lt; lia).
    assert (0 < IZR (fold_right (fun (i : Z * Z) acc => ((snd i - fst i) * acc)%Z) 1%Z l))
      by (apply IZR_lt; lia).
    rewrite ln_mult by assumption. unfold log2.
    change (65536 / IZR (b - a)) with (65536 * / IZR (b - a)).
    rewrite ln_mult by (try lra; apply Rinv_0_lt_compat; assumption).
    rewrite ln_Rinv by assumption.
    replace 65536 with (2 ^ 16) by (cbn; lra). rewrite ln_pow2.
    replace (INR 16) with 16 by (cbn; lra). field. lra.
  Qed.

  Lemma size_real m cs N :
    good_message cdf m cs -> (2 <= N)%nat ->
    (2 ^ (Z.of_nat N - 2) * freq_product cdf m cs * (2 ^ 14 - 1) ^ Z.of_nat (length m)
        <= (2 ^ 30) ^ Z.of_nat (length m))%Z ->
    ((2 ^ 30) ^ Z.of_nat (length m) <
        2 ^ (Z.of_nat N) * freq_product cdf m cs * (2 ^ 14 + 1) ^ Z.of_nat (length m))%Z ->
    ideal_bits cdf m cs - INR (length m) * log2 (1 + / 2 ^ 14) < INR N /\
    INR N <= ideal_bits cdf m cs + 2 + INR (length m) * log2 (/ (1 - / 2 ^ 14)).
  Proof.
    pose proof ln2_pos as Hl2.
    intros Hg HN Hup Hlo. destruct (ideal_freq m cs Hg) as [HF HI].
    set (F := freq_product cdf m cs) in *.
    replace (Z.of_nat N - 2)%Z with (Z.of_nat (N - 2)) in Hup by lia.
    apply IZR_le in Hup. apply IZR_lt in Hlo.
    rewrite !mult_IZR, !IZR_pow_nat in Hup, Hlo.
    set (n := length m) in *.
    change (IZR (2 ^ 14 - 1)) with 16383 in *. change (IZR (2 ^ 14 + 1)) with 16385 in *.
    replace (IZR (2 ^ 30)) with (2 ^ 30) in * by (cbn; lra).
    assert (HFr : 0 < IZR F) by (apply IZR_lt; exact HF).
    assert (P1 : 0 < 2 ^ (N - 2)) by (apply pow_lt; lra).
    assert (P2 : 0 < 2 ^ N) by (apply pow_lt; lra).
    assert (P3 : 0 < 16383 ^ n) by (apply pow_lt; lra).
    assert (P4 : 0 < 16385 ^ n) by (apply pow_lt; lra).
    assert (P5 : 0 < (2 ^ 30) ^ n) by (apply pow_lt, pow_lt; lra).
    assert (Q1 : 0 < 2 ^ (N - 2) * IZR F) by (apply Rmult_lt_0_compat; assumption).
    assert (Q2 : 0 < 2 ^ N * IZR F) by (apply Rmult_lt_0_compat; assumption).
    assert (Hup' : ln (2 ^ (N - 2) * IZR F * 16383 ^ n) <= ln ((2 ^ 30) ^ n)).
    { destruct (Rle_lt_or_eq_dec _ _ Hup) as [H|H].
      - left. apply ln_increasing; [apply Rmult_lt_0_compat; assumption|exact H].
      - right. rewrite <- H. reflexivity. }
    apply ln_increasing in Hlo; [|exact P5].
    rewrite !ln_mult in Hup' by assumption. rewrite !ln_mult in Hlo by assumption.
    rewrite !ln_pow_nat in Hup' by (try apply pow_lt; lra).
    rewrite !ln_pow_nat in Hlo by (try apply pow_lt; lra).
    rewrite minus_INR in Hup' by lia.
    replace (INR 30) with 30 in * by (cbn; lra).
    replace (INR 2) with 2 in * by (cbn; lra).
    assert (E1 : log2 (1 + / 2 ^ 14) = ln 16385 / ln 2 - 14).
    { unfold log2. replace (1 + / 2 ^ 14) with (16385 * / 2 ^ 14) by (cbn; lra).
      rewrite ln_mult by (try apply Rinv_0_lt_compat; try apply pow_lt; lra).
      rewrite ln_Rinv by (apply pow_lt; lra). rewrite ln_pow2.
      replace (INR 14) with 14 by (cbn; lra). field. lra. }
    assert (E2 : log2 (/ (1 - / 2 ^ 14)) = 14 - ln 16383 / ln 2).
    { unfold log2. replace (1 - / 2 ^ 14) with (16383 * / 2 ^ 14) by (cbn; lra).
      rewrite ln_Rinv by (apply Rmult_lt_0_compat; [lra|apply Rinv_0_lt_compat, pow_lt; lra]).
      rewrite ln_mult by (try apply Rinv_0_lt_compat; try apply pow_lt; lra).
      rewrite ln_Rinv by (apply pow_lt; lra). rewrite ln_pow2.
      replace (INR 14) with 14 by (cbn; lra). field. lra. }
    rewrite E1, E2, HI. split.
    - apply Rmult_lt_reg_r with (ln 2); [exact Hl2|].
      replace ((16 * INR n - ln (IZR F) / ln 2 - INR n * (ln 16385 / ln 2 - 14)) * ln 2)
        with (30 * (INR n * ln 2) - ln (IZR F) - INR n * ln 16385) by (field; lra).
      lra.
    - apply Rmult_le_reg_r with (ln 2); [exact Hl2|].
      replace ((16 * INR n - ln (IZR F) / ln 2 + 2 + INR n * (14 - ln 16383 / ln 2)) * ln 2)
        with (30 * (INR n * ln 2) - ln (IZR F) + 2 * ln 2 - INR n * ln 16383) by (field; lra).
      lra.
  Qed.
End Size.

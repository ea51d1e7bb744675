(** C97: the accumulated metrics in single precision.

    [u] = 2^-24 and [tiny] = 2^-150 (VqbFloat_Props.v); [float32 x]: x is a float32 number. *)
From Coq Require Import Reals List Arith ZArith Lia Lra Psatz Permutation.
From Flocq Require Import Core Relative Plus_error.
From Verif Require Import Base Tensor RBase RSum RFloat VqbFloat_Model VqbFloat_Props Met_Spec MetFloat_Model.
Import ListNotations.
Open Scope R_scope.

#[local] Existing Instance prec24.
(** ** Specification *)
(** A batch as a caller can pass it: the scores are float32 numbers and the summation order
    takes each of them once, in a tree of depth at most [D]. *)
Definition proper (D : nat) (b : fbatch) : Prop :=
  Forall float32 (scores b) /\
  (scores b <> [] -> Permutation (summed (how b)) (seq 0 (length (scores b))) /\ (depth (how b) <= D)%nat).
(** All the scores seen. *)
Definition seen (bs : list fbatch) : list R := concat (map scores bs).
Definition mean_size (l : list R) : R := mean_of (map Rabs l).

(** ** Sums of any sign, in any order *)
Lemma lsum_abs_nonneg f l : 0 <= lsum (fun j => Rabs (f j)) l.
Proof. apply lsum_nonneg. intros. apply Rabs_pos. Qed.
(** One rounded addition of two approximate terms. *)
Lemma plus_step x y X Y AX AY a m : float32 x -> float32 y -> 0 <= m -> a = (1 + u) * (1 + m) - 1 ->
  Rabs (x - X) <= m * AX -> Rabs (y - Y) <= m * AY -> Rabs X <= AX -> Rabs Y <= AY ->
  Rabs (b32 (x + y) - (X + Y)) <= a * (AX + AY).
Proof.
  intros Fx Fy M -> Hx Hy BX BY. pose proof u_pos as U. destruct (b32_plus x y Fx Fy) as (e & E & ->).
  replace ((x + y) * (1 + e) - (X + Y)) with ((x + y - (X + Y)) * (1 + e) + (X + Y) * e) by ring.
  eapply Rle_trans; [apply Rabs_triang|]. rewrite !Rabs_mult.
  assert (S1 : Rabs (x + y - (X + Y)) <= m * (AX + AY)).
  { replace (x + y - (X + Y)) with ((x - X) + (y - Y)) by ring. eapply Rle_trans; [apply Rabs_triang|]. lra. }
  assert (S2 : Rabs (X + Y) <= AX + AY) by (eapply Rle_trans; [apply Rabs_triang|]; lra).
  assert (S3 : Rabs (1 + e) <= 1 + u).
  { eapply Rle_trans; [apply Rabs_triang|]. rewrite Rabs_R1. lra. }
  pose proof (Rabs_pos (x + y - (X + Y))). pose proof (Rabs_pos (X + Y)). pose proof (Rabs_pos (1 + e)). pose proof (Rabs_pos e).
  assert (T1 : Rabs (x + y - (X + Y)) * Rabs (1 + e) <= m * (AX + AY) * (1 + u)) by (apply Rmult_le_compat; lra).
  assert (T2 : Rabs (X + Y) * Rabs e <= (AX + AY) * u) by (apply Rmult_le_compat; lra). lra.
Qed.
Lemma pow_step n : (1 + u) ^ S n - 1 = (1 + u) * (1 + ((1 + u) ^ n - 1)) - 1.
Proof. cbn [pow]. ring. Qed.
Lemma pow_mono n m : (n <= m)%nat -> (1 + u) ^ n - 1 <= (1 + u) ^ m - 1.
Proof. intro H. pose proof u_pos. assert ((1 + u) ^ n <= (1 + u) ^ m) by (apply Rle_pow; [lra|exact H]). lra. Qed.
Lemma lsum_abs f l : Rabs (lsum f l) <= lsum (fun j => Rabs (f j)) l.
Proof.
  unfold lsum. induction l as [|x l IH]; cbn [map fold_right]; [rewrite Rabs_R0; lra|].
  eapply Rle_trans; [apply Rabs_triang|]. lra.
Qed.
Lemma fsum_error t (f g : nat -> R) (A : nat -> R) n D :
  (forall j, In j (summed t) -> float32 (f j) /\ Rabs (f j - g j) <= ((1 + u) ^ n - 1) * A j /\ Rabs (g j) <= A j) ->
  (depth t <= D)%nat ->
  float32 (fsum t f) /\ Rabs (fsum t f - lsum g (summed t)) <= ((1 + u) ^ (D + n) - 1) * lsum A (summed t) /\
  Rabs (lsum g (summed t)) <= lsum A (summed t).
Proof.
  revert D. induction t as [j|l IHl r IHr]; intros D H HD.
  - cbn [summed fsum]. destruct (H j (or_introl eq_refl)) as (F & E & B). unfold lsum. cbn [map fold_right]. rewrite !Rplus_0_r.
    split; [exact F|split; [|exact B]]. eapply Rle_trans; [exact E|]. apply Rmult_le_compat_r; [pose proof (Rabs_pos (g j)); lra|]. apply pow_mono. lia.
  - cbn [summed depth fsum] in *. destruct D as [|D]; [lia|].
    destruct (IHl D) as (F1 & E1 & B1); [intros j I; apply H, in_or_app; left; exact I|lia|].
    destruct (IHr D) as (F2 & E2 & B2); [intros j I; apply H, in_or_app; right; exact I|lia|].
    rewrite !lsum_app. split; [apply b32_float|split].
    + apply plus_step with (m := (1 + u) ^ (D + n) - 1); [exact F1|exact F2|pose proof (pow1u_ge (D + n)); lra|apply pow_step|exact E1|exact E2|exact B1|exact B2].
    + eapply Rle_trans; [apply Rabs_triang|]. lra.
Qed.

(** ** One batch *)
Lemma lsum_nth l : lsum (fun j => nth j l 0) (seq 0 (length l)) = sum_of l.
Proof. unfold lsum, sum_of. f_equal. induction l as [|x l IH]; cbn [length seq map nth]; [reflexivity|]. f_equal. rewrite <- seq_shift, map_map. exact IH. Qed.
Lemma lsum_nth_abs l : lsum (fun j => Rabs (nth j l 0)) (seq 0 (length l)) = sum_of (map Rabs l).
Proof.
  rewrite <- lsum_nth, map_length. unfold lsum. f_equal. apply map_ext_in. intros j I. apply in_seq in I.
  rewrite (nth_indep (map Rabs l) 0 (Rabs 0)) by (rewrite map_length; lia). symmetry. apply map_nth.
Qed.
Lemma sum_of_abs l : Rabs (sum_of l) <= sum_of (map Rabs l).
Proof. unfold sum_of. induction l as [|x l IH]; cbn [map fold_right]; [rewrite Rabs_R0; lra|]. eapply Rle_trans; [apply Rabs_triang|]. lra. Qed.
Lemma sum_of_abs_pos l : 0 <= sum_of (map Rabs l).
Proof. pose proof (sum_of_abs l). pose proof (Rabs_pos (sum_of l)). lra. Qed.
Lemma sum_of_app a b : sum_of (a ++ b) = sum_of a + sum_of b.
Proof. unfold sum_of. induction a as [|x a IH]; cbn [app fold_right]; [lra|]. rewrite IH. lra. Qed.
Lemma batch_error D b : proper D b ->
  float32 (batch_sum b) /\ Rabs (batch_sum b - sum_of (scores b)) <= ((1 + u) ^ D - 1) * sum_of (map Rabs (scores b)).
Proof.
  intros [F P]. unfold batch_sum. destruct (scores b) as [|x l] eqn:E.
  - split; [apply (format_int (-149) 24 0); [exact prec24|lia|cbn; lia]|]. cbn. rewrite Rminus_0_r, Rabs_R0. lra.
  - rewrite <- E in *. destruct (P ltac:(rewrite E; discriminate)) as [Q Dd].
    destruct (fsum_error (how b) (fun j => nth j (scores b) 0) (fun j => nth j (scores b) 0) (fun j => Rabs (nth j (scores b) 0)) 0 D) as (F1 & E1 & _).
    { intros j I. apply (Permutation_in _ Q), in_seq in I. split; [|split].
      - rewrite Forall_forall in F. apply F, nth_In. lia.
      - cbn [pow]. match goal with |- Rabs ?x <= _ => replace x with 0 by ring end. rewrite Rabs_R0. pose proof (Rabs_pos (nth j (scores b) 0)). lra.
      - lra. }
    { exact Dd. }
    rewrite Nat.add_0_r in E1. rewrite !(lsum_perm _ _ _ Q), lsum_nth, lsum_nth_abs in E1. split; [exact F1|exact E1].
Qed.

(** ** The running sum *)
Lemma run_sum_error D bs : Forall (proper D) bs -> forall (s0 : R) (l0 : list R) k, float32 s0 ->
  (D <= k)%nat -> Rabs (s0 - sum_of l0) <= ((1 + u) ^ k - 1) * sum_of (map Rabs l0) ->
  let s := fold_left (fun a b => b32 (a + batch_sum b)) bs s0 in
  float32 s /\ Rabs (s - sum_of (l0 ++ seen bs)) <= ((1 + u) ^ (length bs + k) - 1) * sum_of (map Rabs (l0 ++ seen bs)).
Proof.
  induction 1 as [|b bs P F IH]; intros s0 l0 k F0 K E0.
  - unfold seen. cbn. rewrite app_nil_r. split; assumption.
  - cbn [fold_left]. destruct (batch_error D b P) as [Fb Eb].
    specialize (IH (b32 (s0 + batch_sum b)) (l0 ++ scores b) (S k) (b32_float _) ltac:(lia)).
    destruct IH as [F1 E1].
    + rewrite map_app, !sum_of_app. apply plus_step with (m := (1 + u) ^ k - 1);
        [exact F0|exact Fb|pose proof (pow1u_ge k); lra|apply pow_step|exact E0| |apply sum_of_abs|apply sum_of_abs].
      eapply Rle_trans; [exact Eb|]. apply Rmult_le_compat_r; [apply sum_of_abs_pos|]. apply pow_mono, K.
    + split; [exact F1|]. unfold seen in *. cbn [map concat length]. rewrite app_assoc. replace (S (length bs) + k)%nat with (length bs + S k)%nat by lia. exact E1.
Qed.
Lemma fold_df_sum bs s : df_sum (fold_left dists_fl_update bs s) = fold_left (fun a b => b32 (a + batch_sum b)) bs (df_sum s).
Proof. revert s. induction bs as [|b bs IH]; intro s; cbn [fold_left]; [reflexivity|]. rewrite IH. reflexivity. Qed.
Lemma fold_mf_sum bs s : mf_sum (fold_left msssim_fl_update bs s) = fold_left (fun a b => b32 (a + batch_sum b)) bs (mf_sum s).
Proof. revert s. induction bs as [|b bs IH]; intro s; cbn [fold_left]; [reflexivity|]. rewrite IH. reflexivity. Qed.
Lemma fold_mf_total bs s : mf_total (fold_left msssim_fl_update bs s) = (mf_total s + length (seen bs))%nat.
Proof.
  revert s. induction bs as [|b bs IH]; intro s; cbn [fold_left]; [cbn; lia|]. rewrite IH. unfold seen. cbn [msssim_fl_update mf_total map concat]. rewrite app_length. lia.
Qed.
Lemma zero_float : float32 0.
Proof. apply (format_int (-149) 24 0); [exact prec24|lia|cbn; lia]. Qed.

(** The sum that either metric holds after any updates, against the exact sum. *)
Theorem metric_sum_float : forall D bs, Forall (proper D) bs ->
  Rabs (dists_fl_sum (dists_fl_run bs) - sum_of (seen bs)) <= ((1 + u) ^ (length bs + D) - 1) * sum_of (map Rabs (seen bs)) /\
  mf_sum (msssim_fl_run bs) = df_sum (dists_fl_run bs).
Proof.
  intros D bs P. unfold dists_fl_sum, dists_fl_run, msssim_fl_run. rewrite fold_df_sum, fold_mf_sum. cbn [df_sum mf_sum dists_fl_init msssim_fl_init].
  destruct (run_sum_error D bs P 0 [] D zero_float (le_n D)) as [_ E]; [cbn; rewrite Rminus_0_r, Rabs_R0; lra|].
  split; [exact E|reflexivity].
Qed.
Print Assumptions metric_sum_float.

(** ** The count *)
Lemma count_step a n : (Z.of_nat (a + n) <= 2 ^ 24)%Z -> b32 (INR a + b32 (INR n)) = INR (a + n).
Proof.
  intro H. rewrite (INR_IZR_INZ n), b32_int by lia. rewrite <- INR_IZR_INZ, <- plus_INR, INR_IZR_INZ. apply b32_int. lia.
Qed.
Lemma fold_df_total bs : forall s a, df_total s = INR a -> (Z.of_nat (a + length (seen bs)) <= 2 ^ 24)%Z ->
  df_total (fold_left dists_fl_update bs s) = INR (a + length (seen bs)).
Proof.
  induction bs as [|b bs IH]; intros s a E H; cbn [fold_left].
  - unfold seen in *. cbn. rewrite E. f_equal. lia.
  - unfold seen in *. cbn [map concat] in *. rewrite app_length in *.
    rewrite (IH _ (a + length (scores b))%nat); [f_equal; lia| |lia].
    cbn [dists_fl_update df_total]. rewrite E. apply count_step. lia.
Qed.
(** Both counts are exact up to 2^24 images; the count of MS-SSIM always is. *)
Theorem metric_count_float : forall bs,
  mf_total (msssim_fl_run bs) = length (seen bs) /\
  ((Z.of_nat (length (seen bs)) <= 2 ^ 24)%Z -> df_total (dists_fl_run bs) = INR (length (seen bs))).
Proof.
  intro bs. split; [unfold msssim_fl_run; rewrite fold_mf_total; reflexivity|]. intro H.
  unfold dists_fl_run. rewrite (fold_df_total bs dists_fl_init 0); [reflexivity|reflexivity|exact H].
Qed.
Print Assumptions metric_count_float.

(** ** The mean *)
Lemma mean_step s (l : list R) n : (0 < length l)%nat ->
  Rabs (s - sum_of l) <= ((1 + u) ^ n - 1) * sum_of (map Rabs l) ->
  Rabs (b32 (s / INR (length l)) - mean_of l) <= ((1 + u) ^ S n - 1) * mean_size l + tiny.
Proof.
  intros L H. assert (N : 0 < INR (length l)) by (apply lt_0_INR, L). pose proof u_pos as U.
  destruct (b32_any (s / INR (length l))) as (e & t & E & T & ->).
  unfold mean_size, mean_of. rewrite map_length. set (c := INR (length l)) in *. set (S := sum_of l) in *. set (A := sum_of (map Rabs l)) in *.
  assert (BA : Rabs S <= A) by apply sum_of_abs. assert (PA : 0 <= A) by apply sum_of_abs_pos.
  assert (I : 0 < / c) by (apply Rinv_0_lt_compat, N).
  replace (s / c * (1 + e) + t - S / c) with (((s - S) * (1 + e) + S * e) * / c + t) by (unfold Rdiv; ring).
  eapply Rle_trans; [apply Rabs_triang|]. apply Rplus_le_compat; [|exact T].
  rewrite Rabs_mult, (Rabs_pos_eq (/ c)) by lra. unfold Rdiv. rewrite <- Rmult_assoc. apply Rmult_le_compat_r; [lra|].
  eapply Rle_trans; [apply Rabs_triang|]. rewrite !Rabs_mult, pow_step.
  assert (S3 : Rabs (1 + e) <= 1 + u) by (eapply Rle_trans; [apply Rabs_triang|]; rewrite Rabs_R1; lra).
  set (m := (1 + u) ^ n - 1) in *. assert (M : 0 <= m) by (unfold m; pose proof (pow1u_ge n); lra). clearbody m.
  pose proof (Rabs_pos (s - S)). pose proof (Rabs_pos S). pose proof (Rabs_pos (1 + e)). pose proof (Rabs_pos e).
  assert (T1 : Rabs (s - S) * Rabs (1 + e) <= m * A * (1 + u)) by (apply Rmult_le_compat; lra).
  assert (T2 : Rabs S * Rabs e <= A * u) by (apply Rmult_le_compat; lra). lra.
Qed.
(** For up to 2^24 images, in any batches, both metrics give the mean of the scores up to a
    relative error of about (updates + depth + 1) * 2^-24. *)
Theorem metric_mean_float : forall D bs, Forall (proper D) bs ->
  (0 < length (seen bs))%nat -> (Z.of_nat (length (seen bs)) <= 2 ^ 24)%Z ->
  let bound := ((1 + u) ^ S (length bs + D) - 1) * mean_size (seen bs) + tiny in
  Rabs (dists_fl_mean (dists_fl_run bs) - mean_of (seen bs)) <= bound /\
  Rabs (msssim_fl_mean (msssim_fl_run bs) - mean_of (seen bs)) <= bound.
Proof.
  intros D bs P L M. destruct (metric_sum_float D bs P) as [E X]. destruct (metric_count_float bs) as [C1 C2].
  cbn zeta. unfold dists_fl_mean, msssim_fl_mean. rewrite X, C1, (C2 M).
  assert (I : b32 (INR (length (seen bs))) = INR (length (seen bs))) by (rewrite INR_IZR_INZ; apply b32_int; lia).
  rewrite I. split; apply mean_step; assumption.
Qed.
Print Assumptions metric_mean_float.

(** A readable form: scores in [0, 1] and at most a million updates. *)
Theorem metric_mean_float_unit : forall D bs, Forall (proper D) bs -> Forall (fun x => 0 <= x <= 1) (seen bs) ->
  (0 < length (seen bs))%nat -> (Z.of_nat (length (seen bs)) <= 2 ^ 24)%Z -> INR (S (length bs + D)) <= 2 ^ 20 ->
  let bound := 2 * INR (S (length bs + D)) / 2 ^ 24 + / 2 ^ 150 in
  Rabs (dists_fl_mean (dists_fl_run bs) - mean_of (seen bs)) <= bound /\
  Rabs (msssim_fl_mean (msssim_fl_run bs) - mean_of (seen bs)) <= bound.
Proof.
  intros D bs P B L M K. cbn zeta. assert (N : 0 < INR (length (seen bs))) by (apply lt_0_INR, L). pose proof u_pos as U.
  assert (MS : 0 <= mean_size (seen bs) <= 1).
  { unfold mean_size, mean_of. rewrite map_length. assert (Q : 0 <= sum_of (map Rabs (seen bs)) <= INR (length (seen bs))).
    { clear - B. induction B as [|x l Hx B IH]; [cbn; lra|]. change (length (x :: l)) with (S (length l)). rewrite S_INR. unfold sum_of in *. cbn [map fold_right]. rewrite Rabs_pos_eq by lra. lra. }
    split; [apply Rmult_le_pos; [lra|left; apply Rinv_0_lt_compat, N]|]. apply Rmult_le_reg_r with (INR (length (seen bs))); [exact N|]. unfold Rdiv.
    rewrite Rmult_assoc, Rinv_l by lra. lra. }
  assert (W : ((1 + u) ^ S (length bs + D) - 1) * mean_size (seen bs) + tiny <= 2 * INR (S (length bs + D)) / 2 ^ 24 + / 2 ^ 150).
  { apply Rplus_le_compat; [|apply Rle_refl].
    pose proof (bern_up (INR (S (length bs + D)) * u) (S (length bs + D)) (Rle_refl _)) as G.
    assert (K2 : INR (S (length bs + D)) * u <= 1 / 2) by (unfold u in *; lra). specialize (G K2).
    pose proof (pow1u_ge (S (length bs + D))) as P1. set (q := (1 + u) ^ S (length bs + D)) in *. clearbody q.
    apply Rle_trans with (q - 1); [|unfold u in *; lra]. rewrite <- (Rmult_1_r (q - 1)) at 2. apply Rmult_le_compat_l; lra. }
  destruct (metric_mean_float D bs P L M) as [H1 H2]. split; eapply Rle_trans; [exact H1|exact W|exact H2|exact W].
Qed.
Print Assumptions metric_mean_float_unit.

Lemma sum_of_perm a b : Permutation a b -> sum_of a = sum_of b.
Proof.
  unfold sum_of. induction 1 as [|x a b P IH|x y a|a b c P IH P' IH']; cbn [fold_right]; [reflexivity|rewrite IH; reflexivity|ring|].
  rewrite IH. exact IH'.
Qed.
Lemma mean_of_perm a b : Permutation a b -> mean_of a = mean_of b.
Proof. intro P. unfold mean_of. rewrite (sum_of_perm _ _ P), (Permutation_length P). reflexivity. Qed.
(** Two ways of batching the same images give values this close. *)
Theorem metric_batching_float : forall D bs bs', Forall (proper D) bs -> Forall (proper D) bs' ->
  Permutation (seen bs) (seen bs') -> (0 < length (seen bs))%nat -> (Z.of_nat (length (seen bs)) <= 2 ^ 24)%Z ->
  let bound := ((1 + u) ^ S (length bs + D) + (1 + u) ^ S (length bs' + D) - 2) * mean_size (seen bs) + 2 * tiny in
  Rabs (dists_fl_mean (dists_fl_run bs) - dists_fl_mean (dists_fl_run bs')) <= bound /\
  Rabs (msssim_fl_mean (msssim_fl_run bs) - msssim_fl_mean (msssim_fl_run bs')) <= bound.
Proof.
  intros D bs bs' P P' Q L M. cbn zeta.
  destruct (metric_mean_float D bs P L M) as [H1 H2].
  rewrite (Permutation_length Q) in L, M. destruct (metric_mean_float D bs' P' L M) as [H1' H2'].
  rewrite <- (mean_of_perm _ _ Q) in H1', H2'.
  assert (E : mean_size (seen bs') = mean_size (seen bs)) by (unfold mean_size; apply mean_of_perm, Permutation_map, Permutation_sym, Q).
  rewrite E in H1', H2'. apply Rabs_le_inv in H1, H2, H1', H2'. split; apply Rabs_le; lra.
Qed.
Print Assumptions metric_batching_float.

(** ** Several processes *)
Lemma sync_total t bss : (forall i, In i (summed t) -> (i < length bss)%nat) ->
  (Z.of_nat (list_sum (map (fun i => length (seen (nth i bss []))) (summed t))) <= 2 ^ 24)%Z ->
  fsum t (fun i => df_total (nth i (map dists_fl_run bss) dists_fl_init)) = INR (list_sum (map (fun i => length (seen (nth i bss []))) (summed t))).
Proof.
  induction t as [j|l IHl r IHr]; intros B H; cbn [summed fsum map] in *.
  - change dists_fl_init with (dists_fl_run []). rewrite map_nth. cbn [list_sum fold_right] in *. rewrite Nat.add_0_r in *.
    apply metric_count_float. exact H.
  - rewrite map_app, list_sum_app in *. rewrite IHl, IHr; [|intros; apply B, in_or_app; right; assumption|lia|intros; apply B, in_or_app; left; assumption|lia].
    rewrite <- plus_INR, INR_IZR_INZ. apply b32_int. lia.
Qed.
Lemma list_sum_perm a b : Permutation a b -> list_sum a = list_sum b.
Proof. unfold list_sum. induction 1 as [|x a b P IH|x y a|a b c P IH P' IH']; cbn [fold_right]; lia. Qed.
Lemma map_nth_seq {A B} (f : A -> B) (l : list A) d : map (fun i => f (nth i l d)) (seq 0 (length l)) = map f l.
Proof. induction l as [|x l IH]; cbn [length seq map nth]; [reflexivity|]. f_equal. rewrite <- seq_shift, map_map. exact IH. Qed.
Lemma length_seen_concat bss : list_sum (map (fun bs => length (seen bs)) bss) = length (seen (concat bss)).
Proof.
  unfold list_sum. induction bss as [|bs bss IH]; cbn [map concat fold_right]; [reflexivity|]. rewrite IH. unfold seen. rewrite map_app, concat_app, app_length. reflexivity.
Qed.
Lemma sum_seen_concat g bss : fold_right Rplus 0 (map (fun bs => sum_of (map g (seen bs))) bss) = sum_of (map g (seen (concat bss))).
Proof.
  induction bss as [|bs bss IH]; cbn [map concat fold_right]; [reflexivity|]. rewrite IH. unfold seen. rewrite map_app, concat_app, map_app, sum_of_app. reflexivity.
Qed.
(** Processes that see parts of the images, each in at most [k] updates, agree after the
    synchronisation on the mean of all the scores, up to this error. *)
Theorem metric_distributed_float : forall D k t bss, Forall (Forall (proper D)) bss -> Forall (fun bs => (length bs <= k)%nat) bss ->
  Permutation (summed t) (seq 0 (length bss)) ->
  let all := seen (concat bss) in (0 < length all)%nat -> (Z.of_nat (length all) <= 2 ^ 24)%Z ->
  let bound := ((1 + u) ^ S (depth t + (k + D)) - 1) * mean_size all + tiny in
  Rabs (dists_fl_mean (dists_fl_sync t (map dists_fl_run bss)) - mean_of all) <= bound /\
  Rabs (msssim_fl_mean (msssim_fl_sync t (map msssim_fl_run bss)) - mean_of all) <= bound.
Proof.
  intros D k t bss P K Q all L M. cbn zeta.
  assert (SM : fsum t (fun i => mf_sum (nth i (map msssim_fl_run bss) msssim_fl_init)) = fsum t (fun i => df_sum (nth i (map dists_fl_run bss) dists_fl_init))).
  { assert (X : forall i, mf_sum (nth i (map msssim_fl_run bss) msssim_fl_init) = df_sum (nth i (map dists_fl_run bss) dists_fl_init)).
    { intro i. change dists_fl_init with (dists_fl_run []). change msssim_fl_init with (msssim_fl_run []). rewrite !map_nth.
      unfold dists_fl_run, msssim_fl_run. rewrite fold_mf_sum, fold_df_sum. reflexivity. }
    clear - X. induction t as [j|l IHl r IHr]; cbn [fsum]; [apply X|]. rewrite IHl, IHr. reflexivity. }
  assert (E : Rabs (fsum t (fun i => df_sum (nth i (map dists_fl_run bss) dists_fl_init)) - sum_of all) <= ((1 + u) ^ (depth t + (k + D)) - 1) * sum_of (map Rabs all)).
  { destruct (fsum_error t (fun i => df_sum (nth i (map dists_fl_run bss) dists_fl_init)) (fun i => sum_of (map (fun x => x) (seen (nth i bss []))))
      (fun i => sum_of (map Rabs (seen (nth i bss [])))) (k + D) (depth t)) as (_ & E & _); [|lia|].
    - intros i I. apply (Permutation_in _ Q), in_seq in I. change dists_fl_init with (dists_fl_run []). rewrite map_nth, map_id.
      rewrite Forall_forall in P, K. pose proof (P _ (nth_In bss [] (proj2 I))) as Pi. pose proof (K _ (nth_In bss [] (proj2 I))) as Ki. cbn beta in Ki.
      destruct (metric_sum_float D _ Pi) as [Ei _]. split; [|split].
      + unfold dists_fl_run. rewrite fold_df_sum.
        destruct (run_sum_error D _ Pi 0 [] D zero_float (le_n D)) as [F _]; [cbn; rewrite Rminus_0_r, Rabs_R0; lra|]. exact F.
      + eapply Rle_trans; [exact Ei|]. apply Rmult_le_compat_r; [apply sum_of_abs_pos|]. apply pow_mono. lia.
      + apply sum_of_abs.
    - rewrite !(lsum_perm _ _ _ Q) in E. unfold lsum in E.
      rewrite (map_nth_seq (fun bs => sum_of (map (fun x => x) (seen bs)))), (map_nth_seq (fun bs => sum_of (map Rabs (seen bs)))) in E.
      rewrite !sum_seen_concat, map_id in E. exact E. }
  assert (CT : list_sum (map (fun i => length (seen (nth i bss []))) (summed t)) = length all).
  { rewrite (list_sum_perm _ _ (Permutation_map _ Q)), (map_nth_seq (fun bs => length (seen bs))). apply length_seen_concat. }
  assert (I : b32 (INR (length all)) = INR (length all)) by (rewrite INR_IZR_INZ; apply b32_int; lia).
  split.
  - unfold dists_fl_mean, dists_fl_sync. cbn [df_sum df_total].
    rewrite sync_total; [|intros i J; apply (Permutation_in _ Q), in_seq in J; lia|rewrite CT; exact M]. rewrite CT. apply mean_step; assumption.
  - unfold msssim_fl_mean, msssim_fl_sync. cbn [mf_sum mf_total]. rewrite map_map, SM.
    rewrite (map_ext _ (fun bs => length (seen bs))) by (intro bs; apply metric_count_float). rewrite length_seen_concat. fold all. rewrite I.
    apply mean_step; assumption.
Qed.
Print Assumptions metric_distributed_float.

(** ** Beyond 2^24 images *)
Lemma b32_stuck : b32 (16777216 + 1) = 16777216.
Proof.
  unfold b32, round. replace (16777216 + 1) with 16777217 by lra.
  assert (M : mag radix2 16777217 = 25%Z :> Z).
  { apply mag_unique. rewrite Rabs_pos_eq by lra.
    assert (E1 : bpow radix2 (25 - 1) = 16777216) by reflexivity. assert (E2 : bpow radix2 25 = 33554432) by reflexivity. rewrite E1, E2. lra. }
  unfold scaled_mantissa, cexp. rewrite M. change (FLT_exp (-149) 24 25) with 1%Z.
  change (bpow radix2 (- (1))) with (/ 2). unfold Znearest.
  assert (Fl : Zfloor (16777217 * / 2) = 8388608%Z) by (apply Zfloor_imp; cbn; lra). rewrite Fl.
  replace (16777217 * / 2 - 8388608) with (/ 2) by lra. rewrite Rcompare_Eq by reflexivity.
  cbn. unfold F2R. cbn. lra.
Qed.
(** Rounding to nearest at most doubles. *)
Lemma b32_double x : 0 <= x -> b32 x <= 2 * x.
Proof.
  intro H. destruct (round_N_pt radix2 (FLT_exp (-149) 24) (fun x => negb (Z.even x)) x) as [_ N]. specialize (N 0 zero_float).
  change (round radix2 (FLT_exp (-149) 24) (Znearest (fun x => negb (Z.even x))) x) with (b32 x) in N.
  rewrite (Rabs_left1 (0 - x)) in N by lra. apply Rabs_le_inv in N. lra.
Qed.
(** A batch of one image with score 1, what MS-SSIM gives two equal images. *)
Definition perfect : fbatch := mkFb [1] (One 0).
Lemma fold_repeat {A B} (f : A -> B -> A) b n a : fold_left f (repeat b (S n)) a = f (fold_left f (repeat b n) a) b.
Proof.
  replace (repeat b (S n)) with (repeat b n ++ [b]) by (symmetry; apply repeat_cons). rewrite fold_left_app. reflexivity.
Qed.
Lemma run_perfect n : df_sum (dists_fl_run (repeat perfect n)) = IZR (Z.min (Z.of_nat n) 16777216) /\
  df_total (dists_fl_run (repeat perfect n)) = IZR (Z.min (Z.of_nat n) 16777216).
Proof.
  induction n as [|n [IHs IHt]]; [cbn; split; reflexivity|]. unfold dists_fl_run in *. rewrite fold_repeat. unfold dists_fl_update at 1 3. cbn [df_sum df_total].
  rewrite IHs, IHt. cbn [perfect scores length batch_sum how fsum nth INR].
  assert (I1 : b32 1 = 1) by (apply (b32_int 1); cbn; lia). rewrite I1.
  assert (G : b32 (IZR (Z.min (Z.of_nat n) 16777216) + 1) = IZR (Z.min (Z.of_nat (S n)) 16777216)); [|split; exact G].
  destruct (Z.le_gt_cases 16777216 (Z.of_nat n)) as [C|C].
  - rewrite !Z.min_r by lia. apply b32_stuck.
  - rewrite !Z.min_l by lia. rewrite <- plus_IZR, b32_int; [f_equal; lia|cbn; lia].
Qed.
(** From there on nothing moves in batches of one: DISTS keeps counting 2^24 images, its
    "sum" stays at 2^24, and MS-SSIM, whose count goes on, reports a mean below any bound for
    a collection of images that are all perfect. *)
Theorem metric_float_refuted :
  (forall n, (2 ^ 24 <= Z.of_nat n)%Z ->
     df_total (dists_fl_run (repeat perfect n)) = 2 ^ 24 /\ dists_fl_sum (dists_fl_run (repeat perfect n)) = 2 ^ 24 /\
     mf_total (msssim_fl_run (repeat perfect n)) = n) /\
  (forall eps, 0 < eps -> exists n, mean_of (seen (repeat perfect n)) = 1 /\ msssim_fl_mean (msssim_fl_run (repeat perfect n)) < eps).
Proof.
  assert (SN : forall n, seen (repeat perfect n) = repeat 1 n).
  { induction n as [|n IH]; [reflexivity|]. unfold seen in *. cbn [repeat map concat perfect scores app]. rewrite IH. reflexivity. }
  split.
  - intros n H. destruct (run_perfect n) as [Es Et]. unfold dists_fl_sum. rewrite Es, Et. rewrite Z.min_r by (cbn in H; lia).
    split; [lra|split; [lra|]]. destruct (metric_count_float (repeat perfect n)) as [-> _]. rewrite SN. apply repeat_length.
  - intros eps He.
    (* n so large that 2^24 / n is far below eps *)
    destruct (archimed (2 ^ 30 / eps)) as [A _]. set (z := up (2 ^ 30 / eps)) in *.
    assert (P0 : 0 < 2 ^ 30 / eps) by (apply Rmult_lt_0_compat; [lra|apply Rinv_0_lt_compat, He]).
    assert (Z0 : (0 < z)%Z) by (apply lt_IZR; lra).
    set (n := Z.to_nat (Z.max z 16777216)).
    assert (Zn : Z.of_nat n = Z.max z 16777216) by (unfold n; rewrite Z2Nat.id; lia).
    exists n. rewrite SN. split.
    { unfold mean_of. rewrite repeat_length. assert (SR : sum_of (repeat 1 n) = INR n).
      { clear. induction n as [|n IH]; [reflexivity|]. rewrite S_INR. cbn [repeat]. unfold sum_of in *. cbn [fold_right]. rewrite IH. lra. }
      rewrite SR. apply Rinv_r. apply not_0_INR. lia. }
    unfold msssim_fl_mean. assert (ES : mf_sum (msssim_fl_run (repeat perfect n)) = 16777216).
    { unfold msssim_fl_run. rewrite fold_mf_sum. pose proof (proj1 (run_perfect n)) as E. unfold dists_fl_run in E. rewrite fold_df_sum in E.
      cbn [df_sum mf_sum dists_fl_init msssim_fl_init] in *. rewrite E. f_equal. lia. }
    rewrite ES. destruct (metric_count_float (repeat perfect n)) as [-> _]. rewrite SN, repeat_length.
    assert (N1 : 2 ^ 30 / eps < INR n /\ 16777216 <= INR n).
    { rewrite INR_IZR_INZ, Zn. split; [eapply Rlt_le_trans; [exact A|]; apply IZR_le; lia|apply IZR_le; lia]. }
    set (c := INR n) in *. clearbody c. clear - N1 He. destruct N1 as [N1 N2].
    assert (B : c / 2 <= b32 c).
    { pose proof (b32_rel c) as H. rewrite Rabs_pos_eq in H by lra. specialize (H ltac:(lra)). rewrite bpow_m24 in H. apply Rabs_le_inv in H. lra. }
    set (d := b32 c) in *. clearbody d. assert (D0 : 0 < d) by lra.
    assert (Q : 16777216 / d <= eps / 32).
    { apply Rmult_le_reg_r with d; [exact D0|]. unfold Rdiv at 1. rewrite Rmult_assoc, Rinv_l by lra.
      assert (2 ^ 30 < eps * c) by (apply Rmult_lt_reg_r with (/ eps); [apply Rinv_0_lt_compat, He|]; replace (eps * c * / eps) with c by (field; lra); exact N1).
      assert (eps * (c / 2) <= eps * d) by (apply Rmult_le_compat_l; lra). lra. }
    assert (Q0 : 0 < 16777216 / d) by (apply Rmult_lt_0_compat; [lra|apply Rinv_0_lt_compat, D0]).
    pose proof (b32_double (16777216 / d) (Rlt_le _ _ Q0)). lra.
Qed.
Print Assumptions metric_float_refuted.

(** Two batches, of three images and of one, that meet the hypotheses. *)
Definition two_batches : list fbatch := [mkFb [/ 2; / 4; 1] (Two (Two (One 2) (One 0)) (One 1)); perfect].
Example two_batches_proper : Forall (proper 2) two_batches /\ Forall (fun x => 0 <= x <= 1) (seen two_batches) /\
  length (seen two_batches) = 4%nat /\ mean_of (seen two_batches) = 11 / 16.
Proof.
  assert (F1 : float32 1) by (apply (format_int (-149) 24 1); [exact prec24|lia|cbn; lia]).
  assert (F2 : float32 (/ 2)) by (apply generic_format_FLT; exists (Float radix2 1 (-1)); [unfold F2R; cbn; lra|cbn; lia|cbn; lia]).
  assert (F4 : float32 (/ 4)) by (apply generic_format_FLT; exists (Float radix2 1 (-2)); [unfold F2R; cbn; lra|cbn; lia|cbn; lia]).
  split; [|split; [|split]].
  - constructor; [|constructor; [|constructor]]; (split; [cbn [scores perfect]; repeat constructor; assumption|intros _; cbn [scores how perfect summed app length seq depth Nat.max]]).
    + split; [|lia]. apply Permutation_sym. apply perm_trans with [0; 2; 1]%nat; [apply perm_skip, perm_swap|apply perm_swap].
    + split; [reflexivity|lia].
  - unfold seen. cbn. repeat constructor; lra.
  - reflexivity.
  - unfold mean_of, sum_of, seen. cbn. lra.
Qed.

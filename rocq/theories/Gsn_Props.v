(** C32, C33, C34: the conditional Gaussian bottleneck of VCT. *)
From Coq Require Import ZArith List Bool Lia Lra Reals.
From Flocq Require Import Core.
From Verif Require Import Base RBase RFloat Gsn_Model Gsn_Spec Gsn_Proofs.
Import ListNotations.
Open Scope Z_scope.

(** ** C32 *)
(** Whatever real indexes are computed, clamping and truncation give a row of the table;
    different cells give different rows. *)
Theorem gsn_row_valid : forall nm ns i0 i1, 1 <= nm -> 1 <= ns ->
  let '(j0, j1) := normalize_indexes nm ns i0 i1 in 0 <= cdf_index ns j0 j1 < nm * ns.
Proof. exact row_range_any. Qed.
Print Assumptions gsn_row_valid.

Theorem gsn_rows_distinct : forall nm ns i j i' j', 0 <= i < nm -> 0 <= j < ns -> 0 <= i' < nm -> 0 <= j' < ns ->
  cdf_index ns (IZR i) (IZR j) = cdf_index ns (IZR i') (IZR j') -> i = i' /\ j = j'.
Proof.
  intros nm ns i j i' j' A C A' C'. unfold cdf_index.
  rewrite !Rtrunc_floor by (apply IZR_le; lia). rewrite !Rfloor_IZR. intro E.
  assert (i = i') by nia. subst i'. lia.
Qed.
Print Assumptions gsn_rows_distinct.

(** Every mean and scale get a row; its mean is within 1/num_means of the fractional
    mean, and the (shifted) scale lies in its cell unless it is above the table. *)
Theorem gsn_row_parameters : forall nm ns ms mean scale, 1 <= nm -> 2 <= ns -> (0 < ms)%R ->
  exists i j, 0 <= i < nm /\ 0 <= j < ns /\ row nm ns ms mean scale = Ok (i * ns + j) /\
    (Rabs (prior_mean nm i - (mean - IZR (round_even mean))) <= / IZR nm)%R /\
    (prior_scale ns ms j <= verysoftplus scale + ms)%R /\
    (j < ns - 1 -> (verysoftplus scale + ms < prior_scale ns ms (j + 1))%R).
Proof.
  intros nm ns ms mean scale Hm Hs Hms. rewrite row_ok.
  set (f := (mean - IZR (round_even mean))%R). set (p := ((f + 0.5) * IZR nm)%R).
  set (v := verysoftplus scale). set (q := scale_pos ns ms v).
  assert (Hv : (0 < v)%R) by apply verysoftplus_pos.
  assert (NM : (1 <= IZR nm)%R) by (apply IZR_le; exact Hm).
  assert (NS : (1 <= IZR (ns - 1))%R) by (apply IZR_le; lia).
  exists (Rtrunc (clampR (IZR (nm - 1)) p)), (Rtrunc (clampR (IZR (ns - 1)) q)).
  split; [apply clampR_trunc; lia|]. split; [apply clampR_trunc; lia|]. split; [reflexivity|]. split.
  - pose proof (round_even_bounds mean) as RB. assert (F : (-1/2 <= f <= 1/2)%R) by (subst f; lra).
    assert (P0 : (0 <= p)%R) by (subst p; apply Rmult_le_pos; lra).
    assert (P1 : (p <= IZR nm)%R). { subst p. rewrite <- (Rmult_1_l (IZR nm)) at 2. apply Rmult_le_compat_r; lra. }
    unfold prior_mean. destruct (Z.eqb_spec nm 1) as [N1|N1].
    { replace (Rtrunc (clampR (IZR (nm - 1)) p)) with 0 by (pose proof (clampR_trunc nm p ltac:(lia)); lia).
      rewrite N1. unfold Rdiv. rewrite Rmult_0_l, Rinv_1. rabs; lra. }
    set (i := Rtrunc (clampR (IZR (nm - 1)) p)).
    assert (I : (IZR i <= p <= IZR i + 1)%R).
    { subst i. rewrite Rtrunc_floor by (apply (clampR_range nm); lia). pose proof (Rfloor_spec (clampR (IZR (nm - 1)) p)) as FS.
      unfold clampR in *. rewrite Rmax_left in * by exact P0. rewrite minus_IZR in *.
      destruct (Rle_dec p (IZR nm - 1)).
      - rewrite Rmin_right in * by lra. lra.
      - rewrite Rmin_left in * by lra. rewrite <- minus_IZR in FS |- *. rewrite Rfloor_IZR in *. rewrite minus_IZR in *. lra. }
    assert (E : (IZR i / IZR nm - 0.5 - f = (IZR i - p) * / IZR nm)%R) by (subst p; field; lra).
    rewrite E, Rabs_mult, (Rabs_pos_eq (/ IZR nm)) by (left; apply Rinv_0_lt_compat; lra).
    rewrite <- (Rmult_1_l (/ IZR nm)) at 2. apply Rmult_le_compat_r; [left; apply Rinv_0_lt_compat; lra|]. rabs; lra.
  - set (d := ln (256 / ms + 1)).
    assert (D : (0 < d)%R).
    { subst d. rewrite <- ln_1. apply ln_increasing; [lra|]. assert (0 < 256 / ms)%R by (apply Rdiv_lt_0_compat; lra). lra. }
    assert (Q : q = ((ln (v + ms) - ln ms) / d * IZR (ns - 1))%R) by reflexivity.
    assert (L0 : (0 < ln (v + ms) - ln ms)%R).
    { assert (ln ms < ln (v + ms))%R by (apply ln_increasing; lra). lra. }
    assert (Q0 : (0 <= q)%R). { rewrite Q. left. apply Rmult_lt_0_compat; [apply Rdiv_lt_0_compat; assumption|lra]. }
    assert (LV : (ln (v + ms) = q / IZR (ns - 1) * d + ln ms)%R). { rewrite Q. field. lra. }
    set (j := Rtrunc (clampR (IZR (ns - 1)) q)).
    assert (J : (IZR j <= q)%R /\ (j < ns - 1 -> (q < IZR (j + 1))%R)).
    { subst j. rewrite Rtrunc_floor by (apply (clampR_range ns); lia). pose proof (Rfloor_spec (clampR (IZR (ns - 1)) q)) as FS.
      unfold clampR in *. rewrite Rmax_left in * by exact Q0.
      destruct (Rle_dec q (IZR (ns - 1))) as [L|L].
      - rewrite Rmin_right in * by lra. split; [lra|]. intros _. rewrite plus_IZR. lra.
      - rewrite Rmin_left in * by lra. rewrite Rfloor_IZR in *. split; [lra|]. intro. lia. }
    unfold prior_scale, from_scale_idx. fold d.
    assert (X : exp (ln (v + ms)) = (v + ms)%R) by (apply exp_ln; lra).
    assert (MONO : forall a b, (a <= b)%R -> (a / IZR (ns - 1) * d + ln ms <= b / IZR (ns - 1) * d + ln ms)%R).
    { intros a b H. apply Rplus_le_compat_r. apply Rmult_le_compat_r; [lra|].
      apply Rmult_le_compat_r; [left; apply Rinv_0_lt_compat; lra|exact H]. }
    split.
    + rewrite <- X, LV. destruct (Req_dec (IZR j) q) as [->|NE]; [apply Rle_refl|].
      pose proof (MONO (IZR j) q (proj1 J)) as [LT|EQ]; [left; apply exp_increasing; exact LT|rewrite EQ; apply Rle_refl].
    + intro HJ. rewrite <- X, LV. apply exp_increasing. apply Rplus_lt_compat_r. apply Rmult_lt_compat_r; [exact D|].
      apply Rmult_lt_compat_r; [apply Rinv_0_lt_compat; lra|]. apply J. exact HJ.
Qed.
Print Assumptions gsn_row_parameters.

(** Coding with these rows is lossless: given an entropy coder that is lossless on
    in-range rows and on the symbols at hand, decompress returns the very float32 values
    that compress returned, for all lengths, means and scales; every symbol is coded with the
    row of its own mean and scale. *)
Theorem gsn_lossless : forall nm ns ms {B} (ec_compress : list Z -> list Z -> res B) ec_decompress ok,
  1 <= nm -> 1 <= ns -> lossless_coder ec_compress ec_decompress (nm * ns) ok -> (forall z, ok z -> in_int32 z) ->
  forall xs scales means, length xs = length means -> length scales = length means ->
  Forall ok (map2 symbol xs means) ->
  exists b idx, Forall2 (fun p i => row nm ns ms (fst p) (snd p) = Ok i) (combine means scales) idx /\
    ec_compress (map2 symbol xs means) idx = Ok b /\
    gsn_compress nm ns ms ec_compress xs scales means = Ok (map2 quantised xs means, b) /\
    gsn_decompress nm ns ms ec_decompress b scales means = Ok (map2 quantised xs means).
Proof. intros nm ns ms B c d ok. intros. eapply gsn_round_trip; eassumption. Qed.
Print Assumptions gsn_lossless.

(** The rate-estimating forward pass, in evaluation and in training, returns the values
    that the coder will reproduce. *)
Theorem gsn_forward_agrees : forall xs means, length xs = length means -> Forall is_b32 means ->
  gsn_forward_eval xs means = map2 quantised xs means /\ gsn_forward_train xs means = map2 quantised xs means.
Proof. exact forward_eval_quantised. Qed.
Print Assumptions gsn_forward_agrees.

(** A coder meeting the contract, and symbols in range. *)
Example gsn_coder_ex : lossless_coder (fun s _ => Ok s) (fun b _ => Ok b) (100 * 256) in_int32 /\
  Forall in_int32 (map2 symbol [0.75; -3]%R [0; 2]%R).
Proof.
  split.
  - intros syms idx _ _ _. exists syms. split; reflexivity.
  - assert (B : forall x m a, is_b32 (x - IZR m) -> (IZR (- a) <= x - IZR m <= IZR a)%R -> in_int32 a -> in_int32 (- a) ->
        in_int32 (symbol x (IZR m))).
    { intros x m a H R I1 I2. unfold symbol. rewrite round_even_IZR, H. apply round_even_range in R. unfold in_int32 in *. lia. }
    constructor; [|constructor; [|constructor]].
    + apply (B 0.75%R 0 1); [|cbn; lra|unfold in_int32; lia|unfold in_int32; lia].
      apply format_b32. apply generic_format_FLT. exists (Float radix2 3 (-2)); [unfold F2R; cbn; lra|cbn; lia|cbn; lia].
    + apply (B (-3)%R 2 5); [|cbn; lra|unfold in_int32; lia|unfold in_int32; lia].
      replace (-3 - 2)%R with (IZR (-5)) by lra. apply b32_int. lia.
Qed.

(** [build_indexes] finds, for a mean and a scale within the grids, the first grid point
    that is not below each. *)
Lemma first_geq_spec v : forall grid k j, first_geq v grid k = Some j ->
  exists n, j = k + Z.of_nat n /\ (n < length grid)%nat /\ (v <= nth n grid 0)%R /\ forall m, (m < n)%nat -> (nth m grid 0 < v)%R.
Proof.
  induction grid as [|g grid IH]; intros k j H; [discriminate|]. cbn [first_geq] in H. destruct (Rle_dec v g) as [L|L].
  - injection H as <-. exists 0%nat. cbn. repeat split; [lia|lia|exact L|]. intros; lia.
  - destruct (IH _ _ H) as (n & -> & N & V & M). exists (S n). cbn [length nth]. repeat split; [lia|lia|exact V|].
    intros [|m] I; cbn [nth]; [lra|]. apply M. lia.
Qed.
Lemma first_geq_found v : forall grid k n, (n < length grid)%nat -> (v <= nth n grid 0)%R -> exists j, first_geq v grid k = Some j.
Proof.
  induction grid as [|g grid IH]; intros k n N V; [cbn in N; lia|]. cbn [first_geq]. destruct (Rle_dec v g) as [L|L]; [eauto|].
  destruct n as [|n]; cbn [nth length] in *; [contradiction|]. apply (IH _ n); [lia|exact V].
Qed.
Lemma nth_grid (f : Z -> R) n i : (i < Z.to_nat n)%nat -> nth i (map f (zrange n)) 0%R = f (Z.of_nat i).
Proof.
  intro H. unfold zrange. rewrite map_map. rewrite (nth_indep _ 0%R (f (Z.of_nat 0))) by (rewrite map_length, seq_length; exact H).
  rewrite (map_nth (fun x => f (Z.of_nat x))). now rewrite seq_nth.
Qed.
Lemma found_on_grid (f : Z -> R) n v : 1 <= n -> (v <= f (n - 1)%Z)%R ->
  exists i, find_idx_of_first_smallest v (map f (zrange n)) = i /\ 0 <= i < n /\ (v <= f i)%R /\ forall k, 0 <= k < i -> (f k < v)%R.
Proof.
  intros N V. assert (LG : length (map f (zrange n)) = Z.to_nat n) by (unfold zrange; now rewrite !map_length, seq_length).
  destruct (first_geq_found v (map f (zrange n)) 0 (Z.to_nat (n - 1))) as (j & E); [rewrite LG; lia|rewrite nth_grid by lia; now rewrite Z2Nat.id by lia|].
  unfold find_idx_of_first_smallest. rewrite E. exists j. split; [reflexivity|].
  destruct (first_geq_spec _ _ _ _ E) as (i & -> & I & A & M). rewrite LG in I. rewrite nth_grid in A by exact I.
  split; [lia|]. split; [now rewrite Z.add_0_l|]. intros k K. specialize (M (Z.to_nat k) ltac:(lia)).
  rewrite nth_grid in M by lia. now rewrite Z2Nat.id in M by lia.
Qed.
Theorem gsn_build_indexes : forall nm ns ms mean scale, 1 <= nm -> 1 <= ns ->
  (mean <= prior_mean nm (nm - 1))%R -> (scale <= prior_scale ns ms (ns - 1))%R ->
  exists i j, build_indexes nm ns ms mean scale = i * ns + j /\ 0 <= i < nm /\ 0 <= j < ns /\
    (mean <= prior_mean nm i)%R /\ (forall k, 0 <= k < i -> (prior_mean nm k < mean)%R) /\
    (scale <= prior_scale ns ms j)%R /\ (forall k, 0 <= k < j -> (prior_scale ns ms k < scale)%R).
Proof.
  intros nm ns ms mean scale N1 N2 M1 M2. destruct (found_on_grid _ _ _ N1 M1) as (i & Ei & I & A & B).
  destruct (found_on_grid _ _ _ N2 M2) as (j & Ej & J & C & D). exists i, j. unfold build_indexes. rewrite Ei, Ej. repeat split; auto; lia.
Qed.
Print Assumptions gsn_build_indexes.

(** The alternative lookup [build_indexes] sends a mean above the grid to the first row of
    the grid instead of the last (0.45 with 4 means, whose grid ends at 0.25). *)
Theorem gsn_build_indexes_refuted : exists nm ns ms mean scale,
  build_indexes nm ns ms mean scale = 0 /\ (prior_mean nm (nm - 1) < mean)%R /\
  (Rabs (prior_mean nm 0 - mean) > 0.9)%R.
Proof.
  exists 4, 1, 1%R, 0.45%R, 0%R. split; [|split].
  - unfold build_indexes, find_idx_of_first_smallest. change (zrange 4) with [0; 1; 2; 3]. change (zrange 1) with [0].
    unfold prior_mean. cbn [Z.eqb Pos.eqb map first_geq].
    destruct (Rle_dec 0.45 (0 / 4 - 0.5)) as [L|_]; [exfalso; lra|].
    destruct (Rle_dec 0.45 (1 / 4 - 0.5)) as [L|_]; [exfalso; lra|].
    destruct (Rle_dec 0.45 (2 / 4 - 0.5)) as [L|_]; [exfalso; lra|].
    destruct (Rle_dec 0.45 (3 / 4 - 0.5)) as [L|_]; [exfalso; lra|].
    destruct (Rle_dec 0 (prior_scale 1 1 0)); reflexivity.
  - unfold prior_mean. cbn. lra.
  - unfold prior_mean. cbn. rabs; lra.
Qed.
Print Assumptions gsn_build_indexes_refuted.

(** ** C33 *)
Section ScalerProps.
Variables (smin smax : R) (n : Z).
Hypothesis Hmin : (0 < smin)%R.
Hypothesis Hmax : (0 < smax)%R.
Hypothesis Hn : 2 <= n.

Lemma norm_pos : (0 < ln (smax / smin + 1))%R.
Proof.
  rewrite <- ln_1. apply ln_increasing; [lra|]. assert (0 < smax / smin)%R by (apply Rdiv_lt_0_compat; lra). lra.
Qed.
Definition pos_of (v : R) : R := ((ln (v + smin) - ln smin) / ln (smax / smin + 1) * IZR (n - 1))%R.
Lemma to_idx v t : (0 < v)%R -> to_scale_idx smin smax n true v t = Ok (if t then pos_of v else IZR (round_even (pos_of v))).
Proof. intro H. unfold to_scale_idx. destruct (Rlt_dec 0 v); [reflexivity|contradiction]. Qed.
Lemma pos_mono a b : (0 <= a < b)%R -> (pos_of a < pos_of b)%R.
Proof.
  intro H. unfold pos_of. assert (1 <= IZR (n - 1))%R by (apply IZR_le; lia).
  apply Rmult_lt_compat_r; [lra|]. apply Rmult_lt_compat_r; [apply Rinv_0_lt_compat, norm_pos|].
  assert (ln (a + smin) < ln (b + smin))%R by (apply ln_increasing; lra). lra.
Qed.
Lemma pos_max : pos_of smax = IZR (n - 1).
Proof.
  unfold pos_of. pose proof norm_pos as P.
  assert (E : (ln (smax + smin) - ln smin = ln (smax / smin + 1))%R).
  { assert (0 < smax / smin)%R by (apply Rdiv_lt_0_compat; lra).
    replace (smax + smin)%R with ((smax / smin + 1) * smin)%R by (field; lra). rewrite ln_mult by lra. ring. }
  rewrite E. field. lra.
Qed.
Lemma pos_zero : pos_of 0 = 0%R.
Proof. unfold pos_of. rewrite Rplus_0_l. replace (ln smin - ln smin)%R with 0%R by ring. unfold Rdiv. ring. Qed.
Lemma from_to v : (0 < v)%R -> from_scale_idx smin smax n (pos_of v) = (v + smin)%R.
Proof.
  intro H. unfold from_scale_idx, pos_of. pose proof norm_pos as P. assert (1 <= IZR (n - 1))%R by (apply IZR_le; lia).
  replace ((ln (v + smin) - ln smin) / ln (smax / smin + 1) * IZR (n - 1) / IZR (n - 1) * ln (smax / smin + 1) + ln smin)%R
    with (ln (v + smin)) by (field; lra).
  apply exp_ln. lra.
Qed.
End ScalerProps.

(** Indexes increase with the scale, scales up to scales_max get indexes in
    (0, num_bins - 1] with scales_max at the end, and scales of 0 or less are refused. *)
Theorem scaler_to_idx_range : forall smin smax n, (0 < smin)%R -> (0 < smax)%R -> 2 <= n ->
  (forall v, (v <= 0)%R -> to_scale_idx smin smax n true v true = Raise AssertionError) /\
  (forall v, (0 < v <= smax)%R -> exists i, to_scale_idx smin smax n true v true = Ok i /\ (0 < i <= IZR (n - 1))%R) /\
  to_scale_idx smin smax n true smax true = Ok (IZR (n - 1)) /\
  (forall v w i j, (0 < v < w)%R -> to_scale_idx smin smax n true v true = Ok i ->
     to_scale_idx smin smax n true w true = Ok j -> (i < j)%R) /\
  (forall i, (0 < i)%R -> exists v, (0 < v)%R /\ to_scale_idx smin smax n true v true = Ok i).
Proof.
  intros smin smax n Hmin Hmax Hn. split; [|split; [|split; [|split]]].
  - intros v H. unfold to_scale_idx. destruct (Rlt_dec 0 v); [lra|reflexivity].
  - intros v H. rewrite to_idx by lra. eexists. split; [reflexivity|]. split.
    + rewrite <- (pos_zero smin smax n). apply pos_mono; try assumption. lra.
    + rewrite <- (pos_max smin smax n Hmin Hmax). destruct (Req_dec v smax) as [->|NE]; [apply Rle_refl|].
      left. apply pos_mono; try assumption. lra.
  - rewrite to_idx by exact Hmax. now rewrite pos_max.
  - intros v w i j H. rewrite !to_idx by lra. intros E1 E2. injection E1 as <-. injection E2 as <-.
    apply pos_mono; try assumption. lra.
  - intros i Hi. pose proof (norm_pos smin smax Hmin Hmax) as P. assert (N1 : (1 <= IZR (n - 1))%R) by (apply IZR_le; lia).
    set (e := (i / IZR (n - 1) * ln (smax / smin + 1) + ln smin)%R).
    assert (E0 : (ln smin < e)%R).
    { subst e. assert (0 < i / IZR (n - 1))%R by (apply Rdiv_lt_0_compat; lra).
      assert (0 < i / IZR (n - 1) * ln (smax / smin + 1))%R by (apply Rmult_lt_0_compat; assumption). lra. }
    assert (X : (smin < exp e)%R). { rewrite <- (exp_ln smin Hmin) at 1. apply exp_increasing. exact E0. }
    exists (exp e - smin)%R. split; [lra|]. rewrite to_idx by lra. f_equal. unfold pos_of.
    replace (exp e - smin + smin)%R with (exp e) by ring. rewrite ln_exp. subst e. field. lra.
Qed.
Print Assumptions scaler_to_idx_range.

(** from_scale_idx undoes to_scale_idx up to the shift scales_min, exactly. *)
Theorem scaler_inverse : forall smin smax n v, (0 < smin)%R -> (0 < smax)%R -> 2 <= n -> (0 < v)%R ->
  exists i, to_scale_idx smin smax n true v true = Ok i /\ from_scale_idx smin smax n i = (v + smin)%R.
Proof.
  intros smin smax n v Hmin Hmax Hn Hv. rewrite to_idx by exact Hv. eexists. split; [reflexivity|]. now apply from_to.
Qed.
Print Assumptions scaler_inverse.

(** So the round trip is not the identity: with the defaults, the scale 0.01 comes back as
    0.02. *)
Theorem scaler_inverse_refuted : exists i,
  to_scale_idx 0.01 256 256 true 0.01 true = Ok i /\ from_scale_idx 0.01 256 256 i = 0.02%R.
Proof.
  destruct (scaler_inverse 0.01 256 256 0.01 ltac:(lra) ltac:(lra) ltac:(lia) ltac:(lra)) as (i & E & F).
  exists i. split; [exact E|]. rewrite F. lra.
Qed.
Print Assumptions scaler_inverse_refuted.

(** ** C34 *)
Lemma b32_abs y : (Rabs (b32 y - y) <= / 16777216 * Rmax 1 (Rabs y))%R.
Proof.
  destruct (Rle_dec 1 (Rabs y)) as [L|L].
  - rewrite Rmax_right by exact L. pose proof (b32_rel y L) as E. rewrite bpow_m24 in E. exact E.
  - rewrite Rmax_left by lra.
    pose proof (@error_le_half_ulp radix2 (FLT_exp (-149) 24) (@FLT_exp_valid (-149) 24 prec24) (fun x => negb (Z.even x)) y) as E.
    fold (b32 y) in E. change (b32 y) with (round radix2 (FLT_exp (-149) 24) ZnearestE y).
    eapply Rle_trans; [apply E|].
    assert (U : (ulp radix2 (FLT_exp (-149) 24) y <= ulp radix2 (FLT_exp (-149) 24) 1)%R).
    { apply ulp_le; [apply FLT_exp_valid, prec24|apply FLT_exp_monotone|]. rewrite Rabs_R1. lra. }
    assert (O : ulp radix2 (FLT_exp (-149) 24) 1 = (/ 8388608)%R).
    { change 1%R with (bpow radix2 0). rewrite ulp_bpow. reflexivity. }
    rewrite O in U. lra.
Qed.

(** What compress returns without decoding (round(x)) is what the decoder will
    reconstruct, if [x] is further from every half-integer than float32 rounding of
    x - round(mean) can move it.  Missing: the other values, see the refutation. *)
Theorem vct_skip_decode_away : forall x m,
  (forall n : Z, / 16777216 * Rmax 1 (Rabs (x - IZR (round_even m))) < Rabs (x - (IZR n + / 2)))%R ->
  Z.abs (round_even x) <= 2 ^ 24 ->
  skip_decode x = quantised x m.
Proof.
  intros x m G R. unfold skip_decode, quantised. set (k := round_even m) in *.
  pose proof (b32_abs (x - IZR k)) as E. set (y := b32 (x - IZR k)) in *. set (err := (/ 16777216 * Rmax 1 (Rabs (x - IZR k)))%R) in *.
  set (n := round_even x) in *. pose proof (round_even_bounds x) as N. fold n in N.
  pose proof (G n) as G1. pose proof (G (n - 1)) as G2. rewrite minus_IZR in G2.
  assert (Q : round_even y = n - k).
  { apply round_even_unique. rewrite minus_IZR. revert E G1 G2. clearbody y err. clear - N. intros E G1 G2.
    rabs; lra. }
  rewrite Q, <- plus_IZR. replace (n - k + k) with n by lia. symmetry. apply b32_int. exact R.
Qed.
Print Assumptions vct_skip_decode_away.

(** When float32 computes x - round(mean) exactly, the two differ precisely for half-integers
    with an odd rounded mean, and then by 1. *)
Theorem vct_skip_decode_exact : forall x m, is_b32 (x - IZR (round_even m)) -> Z.abs (round_even x) < 2 ^ 24 ->
  (skip_decode x = quantised x m <-> ~ (half_integer x /\ Z.odd (round_even m) = true)) /\
  (Rabs (skip_decode x - quantised x m) <= 1)%R.
Proof.
  intros x m B R. unfold skip_decode, quantised. set (k := round_even m) in *. unfold is_b32 in B. rewrite B.
  set (n := round_even x) in *.
  assert (I : forall z, Z.abs z <= 2 ^ 24 -> b32 (IZR z) = IZR z) by (intros; now apply b32_int).
  destruct (round_even_cases x) as [C|[C D]]; fold n in C.
  - assert (Q : round_even (x - IZR k) = n - k).
    { apply round_even_unique. rewrite minus_IZR. replace (x - IZR k - (IZR n - IZR k))%R with (x - IZR n)%R by lra. exact C. }
    rewrite Q, <- plus_IZR. replace (n - k + k) with n by lia. rewrite I by lia. split.
    + split; [|reflexivity]. intros _ [[j E] _]. subst x. assert (A : (-1 < IZR j - IZR n < 0)%R) by (rabs; lra).
      rewrite <- minus_IZR in A. destruct A as [A1 A2]. apply (lt_IZR (-1)) in A1. apply (lt_IZR _ 0) in A2. lia.
    + rewrite Rminus_diag_eq by reflexivity. rewrite Rabs_R0. lra.
  - fold n in D. assert (HX : half_integer x).
    { destruct (Rcase_abs (x - IZR n)) as [G|G].
      - exists (n - 1). rewrite minus_IZR. rewrite Rabs_left in C by exact G. lra.
      - exists n. rewrite Rabs_right in C by exact G. lra. }
    destruct (Z.odd k) eqn:O.
    + assert (EX : exists e, (e = 1 \/ e = -1) /\ round_even (x - IZR k) = n - k + e).
      { assert (EV : Z.even (n - k) = false) by (rewrite Z.even_sub, D, <- Z.negb_odd, O; reflexivity).
        destruct (Rcase_abs (x - IZR n)) as [G|G].
        - exists (-1). split; [now right|]. rewrite Rabs_left in C by exact G. apply round_even_tie.
          + rewrite plus_IZR, minus_IZR. replace (x - IZR k - (IZR n - IZR k + -1))%R with (/ 2)%R by lra. rewrite Rabs_pos_eq; lra.
          + rewrite Z.even_add, EV. reflexivity.
        - exists 1. split; [now left|]. rewrite Rabs_right in C by exact G. apply round_even_tie.
          + rewrite plus_IZR, minus_IZR. replace (x - IZR k - (IZR n - IZR k + 1))%R with (- / 2)%R by lra. rewrite Rabs_left; lra.
          + rewrite Z.even_add, EV. reflexivity. }
      destruct EX as [e [EE Q]]. rewrite Q, <- plus_IZR. replace (n - k + e + k) with (n + e) by lia. rewrite I by lia. split.
      * split; [|intro N; exfalso; apply N; split; [exact HX|reflexivity]]. intro E. apply eq_IZR in E. lia.
      * rewrite <- minus_IZR. replace (n - (n + e)) with (- e) by lia. rewrite <- abs_IZR. apply IZR_le. lia.
    + assert (Q : round_even (x - IZR k) = n - k).
      { apply round_even_tie.
        - rewrite minus_IZR. replace (x - IZR k - (IZR n - IZR k))%R with (x - IZR n)%R by lra. exact C.
        - rewrite Z.even_sub, D, <- Z.negb_odd, O. reflexivity. }
      rewrite Q, <- plus_IZR. replace (n - k + k) with n by lia. rewrite I by lia. split.
      * split; [|reflexivity]. intros _ [_ N]. discriminate.
      * rewrite Rminus_diag_eq by reflexivity. rewrite Rabs_R0. lra.
Qed.
Print Assumptions vct_skip_decode_exact.

(** A value and a mean that meet the hypotheses. *)
Example vct_skip_decode_ex : (forall n : Z, / 16777216 * Rmax 1 (Rabs (3.25 - IZR (round_even 1))) < Rabs (3.25 - (IZR n + / 2)))%R /\
  Z.abs (round_even 3.25) <= 2 ^ 24.
Proof.
  change 1%R with (IZR 1) at 2. rewrite round_even_IZR. split.
  - intro n. replace (3.25 - 1)%R with 2.25%R by lra. rewrite (Rabs_pos_eq 2.25), Rmax_right by lra.
    destruct (Z_le_gt_dec n 2) as [L|L].
    + apply IZR_le in L. rabs; lra.
    + assert (3 <= n) as L' by lia. apply IZR_le in L'. rabs; lra.
  - rewrite (round_even_unique 3.25 3) by (rabs; lra). lia.
Qed.

Example vct_skip_decode_exact_ex : is_b32 (/ 2 - IZR (round_even 1)) /\ Z.abs (round_even (/ 2)) < 2 ^ 24.
Proof.
  change 1%R with (IZR 1). rewrite round_even_IZR. split.
  - replace (/ 2 - 1)%R with (- / 2)%R by lra. apply format_b32. apply generic_format_FLT.
    exists (Float radix2 (-1) (-1)); [unfold F2R; cbn; lra|cbn; lia|cbn; lia].
  - rewrite (round_even_tie (/ 2) 0) by (try reflexivity; rabs; lra). lia.
Qed.

(** Without decoding, compress returns 0 for an entry 0.5 that the decoder reconstructs as
    1 (mean 1).  In float32 the same happens to 0.5 - 2^-25, which is no half-integer. *)
Theorem vct_skip_decode_refuted :
  (skip_decode (/ 2) = 0%R /\ quantised (/ 2) 1 = 1%R) /\
  (let x := (/ 2 - / 33554432)%R in
   is_b32 x /\ ~ half_integer x /\ skip_decode x = 0%R /\ quantised x 1 = 1%R).
Proof.
  assert (R1 : round_even 1 = 1) by (exact (round_even_IZR 1)).
  assert (H0 : round_even (- / 2) = 0) by (apply round_even_tie; [rabs; lra|reflexivity]).
  assert (FH : is_b32 (- / 2)%R).
  { apply format_b32. apply generic_format_FLT. exists (Float radix2 (-1) (-1)); [unfold F2R; cbn; lra|cbn; lia|cbn; lia]. }
  assert (B1 : b32 (IZR 0 + IZR 1) = 1%R) by (rewrite <- plus_IZR; apply b32_int; lia).
  split; [split|].
  - unfold skip_decode. now rewrite (round_even_tie (/ 2) 0) by (try reflexivity; rabs; lra).
  - unfold quantised. rewrite R1. replace (/ 2 - 1)%R with (- / 2)%R by lra. rewrite FH, H0. exact B1.
  - intro x. split; [|split; [|split]].
    + apply format_b32. apply generic_format_FLT. exists (Float radix2 16777215 (-25)); [unfold x, F2R; cbn; lra|cbn; lia|cbn; lia].
    + intros [n E]. unfold x in E. assert (A : (-1 < IZR n < 0)%R) by lra.
      destruct A as [A1 A2]. apply (lt_IZR (-1) n) in A1. apply (lt_IZR n 0) in A2. lia.
    + unfold skip_decode. now rewrite (round_even_unique x 0) by (unfold x; rabs; lra).
    + unfold quantised. rewrite R1. unfold x. replace (/ 2 - / 33554432 - 1)%R with (- (16777217 / 33554432))%R by lra.
      assert (T : b32 (- (16777217 / 33554432)) = (- / 2)%R).
      { unfold b32, round. set (y := (- (16777217 / 33554432))%R).
        assert (C : cexp radix2 (FLT_exp (-149) 24) y = -24).
        { unfold cexp. rewrite (mag_unique radix2 y 0); [reflexivity|]. change (bpow radix2 (0 - 1)) with (/ 2)%R. change (bpow radix2 0) with 1%R.
          unfold y. rewrite Rabs_Ropp, Rabs_pos_eq by lra. lra. }
        unfold scaled_mantissa. rewrite C. change (bpow radix2 (- -24)) with 16777216%R.
        assert (Z : ZnearestE (y * 16777216) = -8388608).
        { unfold Znearest. assert (FL : Zfloor (y * 16777216) = -8388609) by (apply Zfloor_imp; unfold y; split; cbn; lra).
          rewrite FL. rewrite Rcompare_Eq by (unfold y; lra). cbn.
          assert (CL : Zceil (y * 16777216) = -8388608) by (apply Zceil_imp; unfold y; split; cbn; lra). exact CL. }
        rewrite Z. unfold F2R. cbn [Fnum Fexp]. change (bpow radix2 (-24)) with (/ 16777216)%R. lra. }
      rewrite T, H0. exact B1.
Qed.
Print Assumptions vct_skip_decode_refuted.

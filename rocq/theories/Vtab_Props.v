(** C93: the coding tables of the video model's Gaussian bottleneck. *)
From Coq Require Import Reals List Bool Arith ZArith Lia Lra.
From Coquelicot Require Coquelicot.
From Verif Require Import Base RBase Gsn_Model Gauss Vtab_Model Quant_Props.
From Verif Require Gsn_Props.
Import ListNotations.
Open Scope Z_scope.

(** ** Specification *)

(** The quantile function of the standard normal distribution. *)
Definition quantile (ppf : R -> R) : Prop := forall q, (0 < q < 1)%R -> Phi (ppf q) = q.
(** The probability that a normal variable of mean mu and deviation sigma rounds to x. *)
Definition mass (mu sigma : R) (x : Z) : R :=
  (Phi ((IZR x + 1 / 2 - mu) / sigma) - Phi ((IZR x - 1 / 2 - mu) / sigma))%R.
(** The parameters of the tables: means from -1/2 on in steps of 1/n (only 0 if there is one mean);
    deviations in a geometric sequence from smin to smin + smax. *)
Definition the_mean (n i : Z) : R := if n =? 1 then 0%R else (IZR i / IZR n - 1 / 2)%R.
Definition the_scale (smin smax : R) (m j : Z) : R := (smin * Rpower (smax / smin + 1) (IZR j / IZR (m - 1)))%R.
(** The integers lo, ..., hi. *)
Definition integers (lo hi : Z) : list Z := map (fun k => lo + Z.of_nat k) (seq 0 (Z.to_nat (hi - lo + 1))).
(** At most half of the tail mass lies below lo, and likewise above hi; lo + 1 and hi - 1 would cut off more. *)
Definition cuts (tail mu sigma : R) (lo hi : Z) : Prop :=
  (Phi ((IZR lo - mu) / sigma) <= tail / 2 < Phi ((IZR lo + 1 - mu) / sigma))%R /\
  (1 - Phi ((IZR hi - mu) / sigma) <= tail / 2 < 1 - Phi ((IZR hi - 1 - mu) / sigma))%R.
(** Reasonable arguments. *)
Definition sensible (g : gmodel) : Prop :=
  1 <= num_means g /\ 2 <= num_scales g /\ (0 < scales_min g)%R /\ (0 <= scales_max g)%R /\ (0 < tail_mass g < 1)%R.
Definition mean_of (g : gmodel) (i : Z) : R := the_mean (num_means g) i.
Definition scale_of (g : gmodel) (j : Z) : R := the_scale (scales_min g) (scales_max g) (num_scales g) j.
(** The number of the table of mean i and scale j. *)
Definition number (g : gmodel) (i j : Z) : nat := Z.to_nat (i * num_scales g + j).
(** The arguments of the constructor. *)
Definition same_arguments (g g' : gmodel) : Prop :=
  num_means g' = num_means g /\ num_scales g' = num_scales g /\ scales_min g' = scales_min g /\
  scales_max g' = scales_max g /\ tail_mass g' = tail_mass g /\ coder_precision g' = coder_precision g.

(** ** Lemmas *)

Lemma std_Phi x : standardized_cumulative x = Phi x.
Proof.
  unfold standardized_cumulative, erfc. rewrite Phi_erf.
  replace (- / sqrt 2 * x)%R with (- (x * / sqrt 2))%R by ring. rewrite erf_odd.
  replace (1 / 2)%R with (/ 2)%R by lra. rewrite sqrt_inv. ring.
Qed.
Lemma mass_abs mu sigma x : (0 < sigma)%R -> (upper_at (IZR x) mu sigma - lower_at (IZR x) mu sigma = mass mu sigma x)%R.
Proof.
  intro H. unfold upper_at, lower_at, mass. rewrite !std_Phi.
  replace 0.5%R with (1 / 2)%R by lra. replace (-0.5)%R with (- (1 / 2))%R by lra. unfold Rabs. destruct (Rcase_abs (IZR x - mu)) as [C|C].
  - replace ((1 / 2 - - (IZR x - mu)) / sigma)%R with ((IZR x + 1 / 2 - mu) / sigma)%R by (field; lra).
    replace ((- (1 / 2) - - (IZR x - mu)) / sigma)%R with ((IZR x - 1 / 2 - mu) / sigma)%R by (field; lra). reflexivity.
  - replace ((1 / 2 - (IZR x - mu)) / sigma)%R with (- ((IZR x - 1 / 2 - mu) / sigma))%R by (field; lra).
    replace ((- (1 / 2) - (IZR x - mu)) / sigma)%R with (- ((IZR x + 1 / 2 - mu) / sigma))%R by (field; lra).
    rewrite !Phi_sym. ring.
Qed.
Lemma mass_pos mu sigma x : (0 < sigma)%R -> (0 < mass mu sigma x)%R.
Proof.
  intro H. unfold mass. assert (Phi ((IZR x - 1 / 2 - mu) / sigma) < Phi ((IZR x + 1 / 2 - mu) / sigma))%R; [|lra].
  apply Phi_incr. apply Rmult_lt_compat_r; [now apply Rinv_0_lt_compat|lra].
Qed.
Lemma likelihood_upper g x i j : likelihood g x i j = (upper_at x (mean_at g i) (scale_at g j) - lower_at x (mean_at g i) (scale_at g j))%R.
Proof.
  unfold likelihood, upper_at, lower_at. replace 0.5%R with (1 / 2)%R by lra.
  replace (-0.5)%R with (- (1 / 2))%R by lra. reflexivity.
Qed.
Lemma total_mass mu sigma : (0 < sigma)%R -> forall n lo,
  total (map (mass mu sigma) (map (fun k => lo + Z.of_nat k) (seq 0 n))) =
  (Phi ((IZR lo + INR n - 1 / 2 - mu) / sigma) - Phi ((IZR lo - 1 / 2 - mu) / sigma))%R.
Proof.
  intros H n. induction n as [|n IH]; intro lo.
  - cbn [seq map total fold_right INR]. rewrite Rplus_0_r. ring.
  - cbn [seq map total fold_right]. 
    replace (map (fun k => lo + Z.of_nat k) (seq 1 n)) with (map (fun k => (lo + 1) + Z.of_nat k) (seq 0 n))
      by (rewrite <- seq_shift, map_map; apply map_ext; intro; lia).
    specialize (IH (lo + 1)). unfold total in IH. rewrite IH. unfold mass. cbn [Z.of_nat].
    rewrite Z.add_0_r, plus_IZR, S_INR.
    replace (IZR lo + 1 + INR n - 1 / 2 - mu)%R with (IZR lo + (INR n + 1) - 1 / 2 - mu)%R by ring.
    replace (IZR lo + 1 - 1 / 2 - mu)%R with (IZR lo + 1 / 2 - mu)%R by field. ring.
Qed.
Lemma mean_at_eq g i : 1 <= num_means g -> 0 <= i < num_means g -> mean_at g (IZR i) = mean_of g i.
Proof.
  intros H I. unfold mean_at, mean_of, the_mean. destruct (Z.eqb_spec (num_means g) 1) as [E|E]; [|lra].
  rewrite E. replace i with 0 by lia. lra.
Qed.
Lemma scale_at_eq g j : (0 < scales_min g)%R -> scale_at g (IZR j) = scale_of g j.
Proof.
  intro H. unfold scale_at, scale_of, the_scale, from_scale_idx, Rpower. rewrite exp_plus, exp_ln by assumption. ring.
Qed.
Lemma scale_pos g j : (0 < scales_min g)%R -> (0 < scale_of g j)%R.
Proof. intro H. unfold scale_of, the_scale, Rpower. apply Rmult_lt_0_compat; [assumption|apply exp_pos]. Qed.

Lemma ppf_neg ppf t : quantile ppf -> (0 < t < 1)%R -> (ppf (t / 2)%R < 0)%R /\ ppf (1 - t / 2)%R = (- ppf (t / 2)%R)%R.
Proof.
  intros Q T. assert (A : Phi (ppf (t / 2)%R) = (t / 2)%R) by (apply Q; lra).
  assert (B : Phi (ppf (1 - t / 2)%R) = (1 - t / 2)%R) by (apply Q; lra). split.
  - destruct (Rle_lt_dec 0 (ppf (t / 2)%R)) as [L|L]; [|exact L]. apply Phi_mono in L. rewrite Phi_0 in L. lra.
  - assert (C : Phi (- ppf (t / 2)%R) = Phi (ppf (1 - t / 2)%R)) by (rewrite Phi_sym, A, B; reflexivity).
    destruct (Rtotal_order (ppf (1 - t / 2)%R) (- ppf (t / 2)%R)) as [L|[L|L]]; [|exact L|];
      apply Phi_incr in L; rewrite C in L; exfalso; lra.
Qed.
Lemma Phi_below x y : (Phi x < Phi y)%R -> (x < y)%R.
Proof. intro H. destruct (Rlt_le_dec x y) as [L|L]; [exact L|]. apply Phi_mono in L. lra. Qed.
Lemma Phi_le x y : (Phi x <= Phi y)%R -> (x <= y)%R.
Proof. intro H. destruct (Rle_lt_dec x y) as [L|L]; [exact L|]. apply Phi_incr in L. lra. Qed.

Lemma cuts_ok ppf t mu sigma : quantile ppf -> (0 < t < 1)%R -> (0 < sigma)%R ->
  cuts t mu sigma (minimum ppf t mu sigma) (maximum ppf t mu sigma).
Proof.
  intros Q T S. unfold cuts, minimum, maximum. destruct (ppf_neg ppf t Q T) as [_ E].
  assert (A : Phi (ppf (t / 2)%R) = (t / 2)%R) by (apply Q; lra).
  assert (B : Phi (ppf (1 - t / 2)%R) = (1 - t / 2)%R) by (apply Q; lra).
  pose proof (Rfloor_spec (mu + sigma * ppf (t / 2)%R)) as F. pose proof (Rceil_spec (mu + sigma * ppf (1 - t / 2)%R)) as C.
  set (lo := Rfloor _) in *. set (hi := Rceil _) in *. set (p := ppf (t / 2)%R) in *. set (r := ppf (1 - t / 2)%R) in *.
  assert (D : forall x y, (x <= mu + sigma * y -> (x - mu) / sigma <= y)%R).
  { intros x y H. apply Rmult_le_reg_r with sigma; [assumption|]. replace ((x - mu) / sigma * sigma)%R with (x - mu)%R by (field; lra). lra. }
  assert (D1 : forall x y, (mu + sigma * y < x -> y < (x - mu) / sigma)%R).
  { intros x y H. apply Rmult_lt_reg_r with sigma; [assumption|]. replace ((x - mu) / sigma * sigma)%R with (x - mu)%R by (field; lra). lra. }
  assert (D2 : forall x y, (mu + sigma * y <= x -> y <= (x - mu) / sigma)%R).
  { intros x y H. apply Rmult_le_reg_r with sigma; [assumption|]. replace ((x - mu) / sigma * sigma)%R with (x - mu)%R by (field; lra). lra. }
  assert (D3 : forall x y, (x < mu + sigma * y -> (x - mu) / sigma < y)%R).
  { intros x y H. apply Rmult_lt_reg_r with sigma; [assumption|]. replace ((x - mu) / sigma * sigma)%R with (x - mu)%R by (field; lra). lra. }
  split; split.
  - rewrite <- A. apply Phi_mono, D. lra.
  - rewrite <- A. apply Phi_incr, D1. lra.
  - assert (Phi r <= Phi ((IZR hi - mu) / sigma))%R by (apply Phi_mono, D2; lra). lra.
  - assert (Phi ((IZR hi - 1 - mu) / sigma) < Phi r)%R by (apply Phi_incr, D3; lra). lra.
Qed.
Lemma cuts_mean t mu sigma lo hi : (0 < t < 1)%R -> (0 < sigma)%R -> cuts t mu sigma lo hi -> lo <= Rfloor mu /\ Rceil mu <= hi.
Proof.
  intros T S [[A _] [B _]].
  assert (L : ((IZR lo - mu) / sigma < 0)%R) by (apply Phi_below; rewrite Phi_0; lra).
  assert (H : (0 < (IZR hi - mu) / sigma)%R) by (apply Phi_below; rewrite Phi_0; lra).
  assert (L' : (IZR lo < mu)%R).
  { apply Rmult_lt_compat_r with (r := sigma) in L; [|assumption]. replace ((IZR lo - mu) / sigma * sigma)%R with (IZR lo - mu)%R in L by (field; lra). lra. }
  assert (H' : (mu < IZR hi)%R).
  { apply Rmult_lt_compat_r with (r := sigma) in H; [|assumption]. replace ((IZR hi - mu) / sigma * sigma)%R with (IZR hi - mu)%R in H by (field; lra). lra. }
  split; [apply Rfloor_ge; lra|]. pose proof (Rceil_spec mu). apply IZR_lt_1. lra.
Qed.
Lemma cuts_unique t mu sigma lo hi lo' hi' : (0 < sigma)%R -> cuts t mu sigma lo hi -> cuts t mu sigma lo' hi' -> lo = lo' /\ hi = hi'.
Proof.
  intros S [[A B] [C D]] [[A' B'] [C' D']].
  assert (M : forall x y, (Phi ((x - mu) / sigma) < Phi ((y - mu) / sigma) -> x < y)%R).
  { intros x y H. apply Phi_below in H. apply Rmult_lt_compat_r with (r := sigma) in H; [|assumption].
    replace ((x - mu) / sigma * sigma)%R with (x - mu)%R in H by (field; lra).
    replace ((y - mu) / sigma * sigma)%R with (y - mu)%R in H by (field; lra). lra. }
  assert (L1 : (IZR lo < IZR lo' + 1)%R) by (apply M; lra). assert (L2 : (IZR lo' < IZR lo + 1)%R) by (apply M; lra).
  assert (L3 : (IZR hi - 1 < IZR hi')%R) by (apply M; lra). assert (L4 : (IZR hi' - 1 < IZR hi)%R) by (apply M; lra).
  split; apply Z.le_antisymm; apply IZR_lt_1; lra.
Qed.
Lemma nth_grid2 means scales : forall i j, (i < length means)%nat -> (j < length scales)%nat ->
  nth (i * length scales + j) (grid means scales) (0, 0)%R = (nth i means 0%R, nth j scales 0%R).
Proof.
  induction means as [|m means IH]; intros i j I J; [cbn in I; lia|]. unfold grid. cbn [flat_map].
  destruct i as [|i].
  - cbn [Nat.mul Nat.add]. rewrite app_nth1 by (rewrite map_length; lia).
    change (0, 0)%R with ((fun s => (m, s)) 0%R) at 1 || idtac.
    rewrite nth_indep with (d' := (m, 0%R)) by (rewrite map_length; lia). rewrite (map_nth (fun s => (m, s))). reflexivity.
  - rewrite app_nth2 by (rewrite map_length; nia). rewrite map_length.
    replace (S i * length scales + j - length scales)%nat with (i * length scales + j)%nat by nia.
    cbn [length] in I. apply IH; lia.
Qed.
Lemma grid_length means scales : length (grid means scales) = (length means * length scales)%nat.
Proof. induction means as [|m l IH]; [reflexivity|]. unfold grid in *. cbn [flat_map length]. rewrite app_length, map_length, IH. lia. Qed.
Lemma zrange_length n : length (zrange n) = Z.to_nat n.
Proof. unfold zrange. now rewrite map_length, seq_length. Qed.
Lemma nth_zr (f : Z -> R) n i : 0 <= i < n -> nth (Z.to_nat i) (map f (zrange n)) 0%R = f i.
Proof.
  intro I. unfold zrange. rewrite map_map. rewrite nth_indep with (d' := f (Z.of_nat 0)) by (rewrite map_length, seq_length; lia).
  rewrite (map_nth (fun k => f (Z.of_nat k))). rewrite seq_nth by lia. f_equal. lia.
Qed.
Lemma increasing_map (f : Z -> R) n : (forall i, 0 <= i -> i + 1 < n -> (f i <= f (i + 1)%Z)%R) -> increasing (map f (zrange n)) = true.
Proof.
  intro H. unfold zrange. rewrite map_map.
  assert (G : forall k s, Z.of_nat (s + k) <= Z.max 0 n -> increasing (map (fun k => f (Z.of_nat k)) (seq s k)) = true).
  { induction k as [|k IH]; intros s L; [reflexivity|]. cbn [seq map increasing]. destruct k as [|k]; [reflexivity|].
    specialize (IH (S s) ltac:(lia)). cbn [seq map] in IH |- *. destruct (Rle_dec _ _) as [_|N]; [exact IH|].
    exfalso. apply N. replace (Z.of_nat (S s)) with (Z.of_nat s + 1) by lia. apply H; lia. }
  apply G. lia.
Qed.
Lemma fold_max_ge l : forall d x, In x l -> x <= fold_right Z.max d l.
Proof. induction l as [|a l IH]; intros d x I; [destruct I|]. cbn [fold_right]. destruct I as [->|I]; [lia|]. specialize (IH d x I). lia. Qed.
Lemma fold_max_d l : forall d, d <= fold_right Z.max d l.
Proof. induction l as [|a l IH]; intro d; cbn [fold_right]; [lia|]. specialize (IH d). lia. Qed.
Lemma scale_step g j : (0 < scales_min g)%R -> (0 <= scales_max g)%R -> 2 <= num_scales g -> (scale_of g j <= scale_of g (j + 1))%R.
Proof.
  intros H M N. unfold scale_of, the_scale. apply Rmult_le_compat_l; [lra|]. unfold Rpower.
  set (a := (scales_max g / scales_min g)%R).
  assert (A : (0 <= a)%R) by (unfold a, Rdiv; apply Rmult_le_pos; [lra|left; now apply Rinv_0_lt_compat]).
  assert (L : (0 <= ln (a + 1))%R). { destruct A as [A|<-]; [left; rewrite <- ln_1; apply ln_increasing; lra|rewrite Rplus_0_l, ln_1; lra]. }
  assert (D : (0 < / IZR (num_scales g - 1))%R) by (apply Rinv_0_lt_compat, (IZR_lt 0); lia).
  assert (P : (IZR j / IZR (num_scales g - 1) * ln (a + 1) <= IZR (j + 1) / IZR (num_scales g - 1) * ln (a + 1))%R).
  { apply Rmult_le_compat_r; [exact L|]. apply Rmult_le_compat_r; [lra|]. apply IZR_le. lia. }
  destruct P as [P|P]; [left; now apply exp_increasing|rewrite P; lra].
Qed.
Lemma mean_step g i : 1 <= num_means g -> (mean_at g (IZR i) <= mean_at g (IZR (i + 1)))%R.
Proof.
  intro H. unfold mean_at. apply Rplus_le_compat_r. apply Rmult_le_compat_r; [left; apply Rinv_0_lt_compat, (IZR_lt 0); lia|apply IZR_le; lia].
Qed.
Lemma scaler_fine smin smax : (0 < smin)%R -> (0 <= smax)%R -> scaler_check smin smax = Ok tt.
Proof.
  intros H M. unfold scaler_check. destruct (Req_EM_T smin 0); [lra|].
  assert (0 <= smax / smin)%R by (unfold Rdiv; apply Rmult_le_pos; [lra|left; now apply Rinv_0_lt_compat]).
  destruct (Rle_dec _ _); [lra|]. destruct (Rle_dec _ _); [lra|]. reflexivity.
Qed.
(** What a rebuilding update computes, as one value. *)
Definition means_list (g : gmodel) := map (fun i => mean_at g (IZR i)) (zrange (num_means g)).
Definition scales_list (g : gmodel) := map (fun j => scale_at g (IZR j)) (zrange (num_scales g)).
Definition with_grid (g : gmodel) : gmodel :=
  mkG (num_means g) (num_scales g) (scales_min g) (scales_max g) (tail_mass g) (precision g) (coder_precision g)
      (means_list g) (scales_list g) (offset g) (cdf_length g) (quantized_cdf g).
Lemma update_eq ppf q g force : sensible g -> (force = true \/ offset g = []) ->
  exists g', build_tables ppf q (with_grid g) = Ok g' /\ update_tables ppf q g force = (g', Ok true).
Proof.
  intros (A & B & C & D & E) F. unfold update_tables.
  replace (negb (Nat.eqb (length (offset g)) 0) && negb force) with false
    by (destruct F as [-> | ->]; [symmetry; apply andb_false_r|reflexivity]).
  replace (num_means g <? 0) with false by (symmetry; apply Z.ltb_ge; lia).
  replace (num_scales g <? 0) with false by (symmetry; apply Z.ltb_ge; lia). cbn [orb].
  rewrite scaler_fine by assumption.
  replace (num_means g =? 0) with false by (symmetry; apply Z.eqb_neq; lia).
  replace (num_scales g =? 0) with false by (symmetry; apply Z.eqb_neq; lia). cbn [orb].
  replace (num_scales g =? 1) with false by (symmetry; apply Z.eqb_neq; lia). cbn zeta.
  rewrite (increasing_map (fun i => mean_at g (IZR i))) by (intros; now apply mean_step).
  rewrite (increasing_map (fun j => scale_at g (IZR j))) by (intros; rewrite !scale_at_eq by assumption; now apply scale_step).
  cbn [negb]. fold (means_list g) (scales_list g). fold (with_grid g).
  unfold build_tables. cbn [prior_mean_grid prior_scale_grid with_grid tail_mass].
  destruct (map _ (grid (means_list g) (scales_list g))) as [|l ls] eqn:G.
  - exfalso. apply (f_equal (@length Z)) in G. rewrite map_length, grid_length in G. unfold means_list, scales_list in G.
    rewrite !map_length, !zrange_length in G. cbn in G. nia.
  - eexists. split; reflexivity.
Qed.
Lemma lists_length g : sensible g -> length (means_list g) = Z.to_nat (num_means g) /\ length (scales_list g) = Z.to_nat (num_scales g).
Proof. intros _. unfold means_list, scales_list. rewrite !map_length, !zrange_length. easy. Qed.
Lemma number_split g i j : sensible g -> 0 <= i -> 0 <= j -> number g i j = (Z.to_nat i * length (scales_list g) + Z.to_nat j)%nat.
Proof. intros S I J. destruct (lists_length g S) as [_ ->]. unfold number. destruct S as (_ & S & _). nia. Qed.
Lemma number_grid g i j : sensible g -> 0 <= i < num_means g -> 0 <= j < num_scales g ->
  nth (number g i j) (grid (means_list g) (scales_list g)) (0, 0)%R = (mean_of g i, scale_of g j) /\
  (number g i j < length (grid (means_list g) (scales_list g)))%nat.
Proof.
  intros S I J. destruct (lists_length g S) as [LM LS]. rewrite number_split by (assumption || lia). split.
  - rewrite nth_grid2 by lia. unfold means_list, scales_list. rewrite !nth_zr by assumption.
    destruct S as (S1 & S2 & S3 & _). rewrite mean_at_eq, scale_at_eq by assumption. reflexivity.
  - rewrite grid_length, LM, LS. nia.
Qed.
Lemma nth_map_d {A B} (f : A -> B) l : forall k d d', (k < length l)%nat -> nth k (map f l) d' = f (nth k l d).
Proof. intros k d d' H. rewrite nth_indep with (d' := f d) by (rewrite map_length; lia). apply map_nth. Qed.
Lemma firstn_seq n m : (n <= m)%nat -> firstn n (seq 0 m) = seq 0 n.
Proof. intro H. replace m with (n + (m - n))%nat by lia. rewrite seq_app, firstn_app, seq_length, Nat.sub_diag, firstn_all2 by (rewrite seq_length; lia). cbn [firstn]. apply app_nil_r. Qed.
Lemma lower_tail t mu sigma lo hi : (0 < t < 1)%R -> (0 < sigma)%R -> cuts t mu sigma lo hi ->
  lower_at (INR 0 + IZR lo) mu sigma = Phi ((IZR lo - 1 / 2 - mu) / sigma).
Proof.
  intros T S C. destruct (cuts_mean _ _ _ _ _ T S C) as [L _]. assert (IZR lo <= mu)%R as L'.
  { pose proof (Rfloor_spec mu). apply IZR_le in L. lra. }
  unfold lower_at. rewrite std_Phi. cbn [INR]. rewrite Rplus_0_l. replace (-0.5)%R with (- (1 / 2))%R by lra.
  rewrite Rabs_left1 by lra. f_equal. f_equal. lra.
Qed.
Lemma built ppf q g g' : quantile ppf -> sensible g -> build_tables ppf q (with_grid g) = Ok g' ->
  same_arguments g g' /\ precision g' = precision g /\ prior_mean_grid g' = means_list g /\ prior_scale_grid g' = scales_list g /\
  length (offset g') = Z.to_nat (num_means g * num_scales g) /\ length (cdf_length g') = Z.to_nat (num_means g * num_scales g) /\
  length (quantized_cdf g') = Z.to_nat (num_means g * num_scales g) /\
  exists width, forall i j, 0 <= i < num_means g -> 0 <= j < num_scales g ->
    exists lo hi, cuts (tail_mass g) (mean_of g i) (scale_of g j) lo hi /\
      nth (number g i j) (offset g') 0 = lo /\ nth (number g i j) (cdf_length g') 0 = hi - lo + 3 /\ hi - lo + 3 <= Z.of_nat width /\
      let c := q (map (mass (mean_of g i) (scale_of g j)) (integers lo hi) ++ [(2 * Phi ((IZR lo - 1 / 2 - mean_of g i) / scale_of g j))%R]) (coder_precision g) in
      nth (number g i j) (quantized_cdf g') [] = c ++ repeat 0 (width - length c).
Proof.
  intros Q S B. unfold build_tables in B. cbn [prior_mean_grid prior_scale_grid with_grid tail_mass num_means num_scales scales_min scales_max precision coder_precision] in B.
  set (ps := grid (means_list g) (scales_list g)) in B. set (lens := map _ ps) in B.
  destruct lens as [|l ls] eqn:EL; [discriminate|]. apply (f_equal (fun r => match r with Ok a => a | Raise _ => g' end)) in B. subst g'.
  cbn [num_means num_scales scales_min scales_max tail_mass precision coder_precision prior_mean_grid prior_scale_grid offset cdf_length quantized_cdf].
  set (mx := fold_right Z.max l ls). rewrite <- EL.
  destruct (lists_length g S) as [LM LS].
  assert (LP : length ps = Z.to_nat (num_means g * num_scales g)).
  { unfold ps. rewrite grid_length, LM, LS. destruct S as (S1 & S2 & _). nia. }
  assert (LL : length lens = length ps) by (unfold lens; apply map_length).
  split; [repeat split|]. do 3 (split; [reflexivity|]).
  split; [now rewrite map_length|]. split; [now rewrite map_length, LL|]. split; [now rewrite map_length|].
  exists (Z.to_nat (mx + 2)). intros i j I J. destruct (number_grid g i j S I J) as [NG NL]. fold ps in NG, NL.
  pose proof S as (S1 & S2 & S3 & S4 & S5). pose proof (scale_pos g j S3) as SP.
  set (mu := mean_of g i) in *. set (sg := scale_of g j) in *.
  pose proof (cuts_ok ppf _ mu sg Q S5 SP) as C.
  set (lo := minimum ppf (tail_mass g) mu sg) in *. set (hi := maximum ppf (tail_mass g) mu sg) in *.
  exists lo, hi. split; [exact C|].
  split; [rewrite (nth_map_d _ _ _ (0, 0)%R) by exact NL; rewrite NG; reflexivity|].
  assert (LE : nth (number g i j) lens 0 = hi - lo + 1).
  { unfold lens. rewrite (nth_map_d _ _ _ (0, 0)%R) by exact NL. rewrite NG. reflexivity. }
  assert (MX : hi - lo + 1 <= mx).
  { assert (In (hi - lo + 1) lens) as IN by (rewrite <- LE; apply nth_In; lia). rewrite EL in IN. unfold mx. destruct IN as [<-|IN]; [apply fold_max_d|now apply fold_max_ge]. }
  assert (PL : lo <= hi). { destruct (cuts_mean _ _ _ _ _ S5 SP C) as [M1 M2]. pose proof (Rfloor_spec mu). pose proof (Rceil_spec mu).
    apply IZR_lt_1. apply IZR_le in M1, M2. lra. }
  split; [rewrite (nth_map_d _ _ _ 0) by (rewrite LL; exact NL); fold lens; rewrite LE; lia|].
  split; [lia|]. cbn zeta.
  rewrite (nth_map_d _ _ _ (0, 0)%R) by exact NL. rewrite NG. unfold table_row. fold lo. cbn zeta.
  replace (length_of ppf (tail_mass g) mu sg) with (hi - lo + 1) by reflexivity.
  rewrite firstn_map, firstn_seq by lia. rewrite (lower_tail _ _ _ _ _ S5 SP C).
  unfold integers. rewrite !map_map.
  rewrite (map_ext (fun k => upper_at (INR k + IZR lo) mu sg - lower_at (INR k + IZR lo) mu sg)%R (fun k => mass mu sg (lo + Z.of_nat k))).
  2:{ intro k. rewrite INR_IZR_INZ, <- plus_IZR, (Z.add_comm _ lo). now apply mass_abs. }
  reflexivity.
Qed.

(** ** Theorems *)

(** An update with sensible arguments succeeds.  There is one table for every pair of a mean and a scale, at place
    i * num_scales + j.  It starts at the largest integer below which at most half of the tail mass lies and ends at the smallest
    one above which at most half lies; the integers between are given their exact probabilities, quantised with the precision of the
    entropy coder, together with twice the mass below the table for the escape symbol; zeros fill up the rows. *)
Theorem C93_tables : forall ppf q g force, quantile ppf -> sensible g -> force = true \/ offset g = [] ->
  exists g', update_tables ppf q g force = (g', Ok true) /\ same_arguments g g' /\
    (forall i, 0 <= i < num_means g -> nth (Z.to_nat i) (prior_mean_grid g') 0%R = mean_of g i) /\
    (forall j, 0 <= j < num_scales g -> nth (Z.to_nat j) (prior_scale_grid g') 0%R = scale_of g j) /\
    length (offset g') = Z.to_nat (num_means g * num_scales g) /\ length (cdf_length g') = Z.to_nat (num_means g * num_scales g) /\
    length (quantized_cdf g') = Z.to_nat (num_means g * num_scales g) /\
    exists width, forall i j, 0 <= i < num_means g -> 0 <= j < num_scales g ->
      exists lo hi, cuts (tail_mass g) (mean_of g i) (scale_of g j) lo hi /\
        nth (number g i j) (offset g') 0 = lo /\ nth (number g i j) (cdf_length g') 0 = hi - lo + 3 /\ hi - lo + 3 <= Z.of_nat width /\
        let c := q (map (mass (mean_of g i) (scale_of g j)) (integers lo hi) ++ [(2 * Phi ((IZR lo - 1 / 2 - mean_of g i) / scale_of g j))%R]) (coder_precision g) in
        nth (number g i j) (quantized_cdf g') [] = c ++ repeat 0 (width - length c).
Proof.
  intros ppf q g force Q S F. destruct (update_eq ppf q g force S F) as (g' & B & U). exists g'. split; [exact U|].
  destruct (built ppf q g g' Q S B) as (A & _ & M & N & R). split; [exact A|].
  pose proof S as (S1 & S2 & S3 & _).
  split; [intros i I; rewrite M; unfold means_list; rewrite nth_zr by exact I; now apply mean_at_eq|].
  split; [intros j J; rewrite N; unfold scales_list; rewrite nth_zr by exact J; now apply scale_at_eq|]. exact R.
Qed.

(** The probabilities of a table are positive, they are those that the evaluation uses for the same mean, scale and integer, and they
    leave less than the tail mass; so does the escape symbol.  All together differ from 1 by less than half of the tail mass, and not
    at all for mean 0.  The integers next to the mean are always in the table. *)
Theorem C93_probabilities : forall ppf q g force g', quantile ppf -> sensible g -> force = true \/ offset g = [] ->
  update_tables ppf q g force = (g', Ok true) ->
  forall i j, 0 <= i < num_means g -> 0 <= j < num_scales g ->
  exists probs escape zeros, nth (number g i j) (quantized_cdf g') [] = q (probs ++ [escape]) (coder_precision g) ++ repeat 0 zeros /\
    let lo := nth (number g i j) (offset g') 0 in let hi := lo + Z.of_nat (length probs) - 1 in
    nth (number g i j) (cdf_length g') 0 = Z.of_nat (length probs) + 2 /\
    (forall x, lo <= x <= hi -> nth (Z.to_nat (x - lo)) probs 0%R = likelihood g' (IZR x) (IZR i) (IZR j)) /\
    Forall (fun p => 0 < p)%R probs /\ (1 - tail_mass g < total probs < 1)%R /\ (0 < escape < tail_mass g)%R /\
    (Rabs (total probs + escape - 1) < tail_mass g / 2)%R /\ (mean_of g i = 0 -> total probs + escape = 1)%R /\
    lo <= Rfloor (mean_of g i) /\ Rceil (mean_of g i) <= hi.
Proof.
  intros ppf q g force g' Q S F U i j I J. destruct (update_eq ppf q g force S F) as (g1 & B & U1).
  rewrite U1 in U. injection U as ->. destruct (built ppf q g g' Q S B) as (A & _ & _ & _ & _ & _ & _ & width & R).
  destruct (R i j I J) as (lo & hi & C & O & L & W & T). cbn zeta in T.
  pose proof S as (S1 & S2 & S3 & S4 & S5). pose proof (scale_pos g j S3) as SP.
  destruct (cuts_mean _ _ _ _ _ S5 SP C) as [M1 M2].
  assert (PL : lo <= hi). { pose proof (Rfloor_spec (mean_of g i)). pose proof (Rceil_spec (mean_of g i)). apply IZR_lt_1. apply IZR_le in M1, M2. lra. }
  eexists _, _, _. split; [exact T|]. cbn zeta. rewrite O, L. unfold integers. rewrite !map_length, seq_length.
  replace (lo + Z.of_nat (Z.to_nat (hi - lo + 1)) - 1) with hi by lia.
  split; [lia|]. split; [|split].
  - intros x X. rewrite map_map. rewrite (nth_map_d _ _ _ 0%nat) by (rewrite seq_length; lia). rewrite seq_nth by lia.
    replace (lo + Z.of_nat (0 + Z.to_nat (x - lo))) with x by lia. rewrite likelihood_upper.
    destruct A as (A1 & A2 & A3 & A4 & A5 & A6).
    replace (mean_at g' (IZR i)) with (mean_of g i) by (rewrite <- mean_at_eq by assumption; unfold mean_at; now rewrite A1).
    replace (scale_at g' (IZR j)) with (scale_of g j) by (rewrite <- scale_at_eq by assumption; unfold scale_at; now rewrite A2, A3, A4).
    symmetry. now apply mass_abs.
  - apply Forall_forall. intros p P. apply in_map_iff in P. destruct P as (x & <- & _). now apply mass_pos.
  - rewrite total_mass by assumption. rewrite INR_IZR_INZ, Z2Nat.id by lia. rewrite <- plus_IZR.
    replace (lo + (hi - lo + 1)) with (hi + 1) by lia. rewrite plus_IZR.
    set (mu := mean_of g i) in *. set (sg := scale_of g j) in *. set (t := tail_mass g) in *.
    replace (IZR hi + 1 - 1 / 2 - mu)%R with (IZR hi + 1 / 2 - mu)%R by lra.
    pose proof C as [[C1 _] [C2 _]].
    assert (INC : forall x y, (x < y -> Phi (x / sg) < Phi (y / sg))%R).
    { intros x y H. apply Phi_incr. apply Rmult_lt_compat_r; [now apply Rinv_0_lt_compat|exact H]. }
    assert (E1 : (Phi ((IZR lo - 1 / 2 - mu) / sg) < Phi ((IZR lo - mu) / sg))%R) by (apply INC; lra).
    assert (E2 : (Phi ((IZR hi - mu) / sg) < Phi ((IZR hi + 1 / 2 - mu) / sg))%R) by (apply INC; lra).
    pose proof (Phi_bounds ((IZR lo - 1 / 2 - mu) / sg)). pose proof (Phi_bounds ((IZR hi + 1 / 2 - mu) / sg)).
    split; [lra|]. split; [lra|]. split; [apply Rabs_def1; lra|]. split; [|split; assumption].
    intro Z0. assert (HL : hi = - lo).
    { assert (Y : cuts t mu sg (- hi) (- lo)).
      { rewrite Z0 in *. destruct C as [[Q1 Q2] [Q3 Q4]]. unfold cuts. rewrite !opp_IZR.
        assert (N : forall x, (1 - Phi ((x - 0) / sg) = Phi ((- x - 0) / sg))%R).
        { intro x. rewrite <- Phi_sym. f_equal. field. lra. }
        split; split.
        - rewrite <- N. exact Q3.
        - replace (- IZR hi + 1)%R with (- (IZR hi - 1))%R by ring. rewrite <- N. exact Q4.
        - rewrite N, Ropp_involutive. exact Q1.
        - rewrite N. replace (- (- IZR lo - 1))%R with (IZR lo + 1)%R by ring. exact Q2. }
      destruct (cuts_unique t mu sg _ _ _ _ SP C Y) as [_ Y2]. exact Y2. }
    rewrite Z0, HL, opp_IZR. replace ((- IZR lo + 1 / 2 - 0) / sg)%R with (- ((IZR lo - 1 / 2 - 0) / sg))%R by (field; lra).
    rewrite Phi_sym. lra.
Qed.

(** The bottleneck asks for a table that exists, of a mean within 1/num_means of the fractional part of the mean and of the scale just
    below the (shifted) scale. *)
Theorem C93_row_exists : forall ppf q g force g' mean scale, quantile ppf -> sensible g -> force = true \/ offset g = [] ->
  scales_max g = 256%R -> update_tables ppf q g force = (g', Ok true) ->
  exists i j, 0 <= i < num_means g /\ 0 <= j < num_scales g /\
    row (num_means g) (num_scales g) (scales_min g) mean scale = Ok (Z.of_nat (number g i j)) /\ (number g i j < length (quantized_cdf g'))%nat /\
    (Rabs (mean_of g i - (mean - IZR (round_even mean))) <= / IZR (num_means g))%R /\
    (scale_of g j <= verysoftplus scale + scales_min g)%R /\
    (j < num_scales g - 1 -> (verysoftplus scale + scales_min g < scale_of g (j + 1)%Z)%R).
Proof.
  intros ppf q g force g' mean scale Q S F MX U. destruct (update_eq ppf q g force S F) as (g1 & B & U1).
  rewrite U1 in U. injection U as ->. destruct (built ppf q g g' Q S B) as (_ & _ & _ & _ & _ & _ & LQ & _).
  pose proof S as (S1 & S2 & S3 & _).
  destruct (Gsn_Props.gsn_row_parameters (num_means g) (num_scales g) (scales_min g) mean scale S1 S2 S3) as (i & j & I & J & R & P1 & P2 & P3).
  assert (PM : prior_mean (num_means g) i = mean_of g i).
  { rewrite <- mean_at_eq by assumption. unfold prior_mean, mean_at. destruct (num_means g =? 1); lra. }
  assert (PS : forall k, prior_scale (num_scales g) (scales_min g) k = scale_of g k).
  { intro k. rewrite <- scale_at_eq by assumption. unfold prior_scale, scale_at. now rewrite MX. }
  rewrite PM in P1. rewrite !PS in P2. rewrite PS in P3. exists i, j. split; [exact I|]. split; [exact J|].
  split; [rewrite R; f_equal; unfold number; rewrite Z2Nat.id by nia; reflexivity|].
  split; [rewrite LQ; unfold number; nia|]. easy.
Qed.

(** The tables are built once: after a first update, no history of updates, forced or not, changes anything, and only forced ones say
    that they updated. *)
Lemma rebuilt ppf q g g' : sensible g -> build_tables ppf q (with_grid g) = Ok g' ->
  sensible g' /\ length (offset g') <> 0%nat /\ with_grid g' = mkG (num_means g) (num_scales g) (scales_min g) (scales_max g) (tail_mass g) (precision g) (coder_precision g)
      (means_list g) (scales_list g) (offset g') (cdf_length g') (quantized_cdf g') /\
  build_tables ppf q (with_grid g') = Ok g'.
Proof.
  intros S B. unfold build_tables in *. cbn [prior_mean_grid prior_scale_grid with_grid tail_mass num_means num_scales scales_min scales_max precision coder_precision] in *.
  assert (LG : length (grid (means_list g) (scales_list g)) <> 0%nat).
  { rewrite grid_length. destruct (lists_length g S) as [-> ->]. destruct S as (S1 & S2 & _). nia. }
  set (ps := grid (means_list g) (scales_list g)) in *. set (lens := map _ ps) in B.
  destruct lens as [|l ls] eqn:EL; [discriminate|]. apply (f_equal (fun r => match r with Ok a => a | Raise _ => g' end)) in B. subst g'.
  assert (SS : sensible (mkG (num_means g) (num_scales g) (scales_min g) (scales_max g) (tail_mass g) (precision g) (coder_precision g)
      (means_list g) (scales_list g) (map (fun p => minimum ppf (tail_mass g) (fst p) (snd p)) ps) (map (fun l => l + 2) (l :: ls))
      (map (table_row ppf q (tail_mass g) (coder_precision g) (fold_right Z.max l ls)) ps))) by exact S.
  split; [exact SS|]. cbn [offset]. split; [now rewrite map_length|]. split; [reflexivity|].
  cbn [num_means num_scales scales_min scales_max tail_mass precision coder_precision offset cdf_length quantized_cdf].
  match goal with |- match map ?f (grid (means_list ?a) (scales_list ?a)) with _ => _ end = _ =>
    change (map f (grid (means_list a) (scales_list a))) with lens; change (grid (means_list a) (scales_list a)) with ps end.
  rewrite EL. reflexivity.
Qed.
Lemma update_built ppf q g g' : sensible g -> build_tables ppf q (with_grid g) = Ok g' ->
  forall force, update_tables ppf q g' force = (g', Ok force).
Proof.
  intros S B force. destruct (rebuilt ppf q g g' S B) as (S' & N & _ & B'). destruct force.
  - destruct (update_eq ppf q g' true S' (or_introl eq_refl)) as (g2 & B2 & U). rewrite B' in B2. injection B2 as <-. exact U.
  - unfold update_tables. destruct (Nat.eqb_spec (length (offset g')) 0) as [E|_]; [contradiction|]. reflexivity.
Qed.
Theorem C93_built_once : forall ppf q g first calls, sensible g -> first = true \/ offset g = [] ->
  let g' := fst (update_tables ppf q g first) in
  updates ppf q g (first :: calls) = g' /\ forall force, update_tables ppf q g' force = (g', Ok force).
Proof.
  intros ppf q g first calls S F. destruct (update_eq ppf q g first S F) as (g1 & B & U). rewrite U. cbn [fst].
  pose proof (update_built ppf q g g1 S B) as K. split; [|exact K].
  unfold updates. cbn [fold_left]. rewrite U. cbn [fst]. induction calls as [|f calls IH]; [reflexivity|]. cbn [fold_left]. rewrite K. exact IH.
Qed.
(** Without force, existing tables are kept, whatever the arguments. *)
Theorem C93_kept : forall ppf q g, offset g <> [] -> update_tables ppf q g false = (g, Ok false).
Proof. intros ppf q g H. unfold update_tables. destruct (offset g); [contradiction|]. reflexivity. Qed.

(** Exactly these arguments are refused; nothing is changed then. *)
Theorem C93_refused : forall ppf q g force, force = true \/ offset g = [] ->
  (num_means g < 0 \/ num_scales g < 0 -> update_tables ppf q g force = (g, Raise RuntimeError)) /\
  (0 <= num_means g -> 0 <= num_scales g -> scales_min g = 0%R -> update_tables ppf q g force = (g, Raise ZeroDivisionError)) /\
  (0 <= num_means g -> 0 <= num_scales g -> (scales_min g < 0)%R -> update_tables ppf q g force = (g, Raise ValueError)) /\
  (0 <= num_means g -> 0 <= num_scales g -> (0 < scales_min g)%R -> (scales_max g <= - scales_min g)%R -> update_tables ppf q g force = (g, Raise ValueError)) /\
  (0 <= num_means g -> 0 <= num_scales g -> (0 < scales_min g)%R -> (- scales_min g < scales_max g)%R ->
     (num_means g = 0 \/ num_scales g = 0 -> update_tables ppf q g force = (g, Raise IndexError)) /\
     (1 <= num_means g -> num_scales g = 1 -> update_tables ppf q g force = (g, Raise AssertionError)) /\
     (1 <= num_means g -> 2 <= num_scales g -> (scales_max g < 0)%R -> update_tables ppf q g force = (g, Raise AssertionError)) /\
     (1 <= num_means g -> 2 <= num_scales g -> (0 <= scales_max g)%R -> snd (update_tables ppf q g force) = Ok true)).
Proof.
  intros ppf q g force F.
  assert (G : (negb (Nat.eqb (length (offset g)) 0) && negb force)%bool = false) by (destruct F as [-> | ->]; [apply andb_false_r|reflexivity]).
  unfold update_tables. rewrite G. clear G.
  assert (NEG : (num_means g < 0 \/ num_scales g < 0) -> ((num_means g <? 0) || (num_scales g <? 0))%bool = true).
  { intros [L|L]; apply Z.ltb_lt in L; rewrite L; [reflexivity|apply orb_true_r]. }
  assert (POS : 0 <= num_means g -> 0 <= num_scales g -> ((num_means g <? 0) || (num_scales g <? 0))%bool = false).
  { intros A B. apply Z.ltb_ge in A, B. now rewrite A, B. }
  split; [intro H; now rewrite NEG|].
  split; [intros A B C; rewrite POS by assumption; unfold scaler_check; destruct (Req_EM_T (scales_min g) 0); [reflexivity|contradiction]|].
  split; [intros A B C; rewrite POS by assumption; unfold scaler_check; destruct (Req_EM_T (scales_min g) 0); [lra|];
    destruct (Rle_dec _ _); [reflexivity|]; destruct (Rle_dec _ _); [reflexivity|lra]|].
  assert (DIV : (0 < scales_min g -> scales_max g / scales_min g * scales_min g = scales_max g)%R) by (intro; field; lra).
  split; [intros A B C D; rewrite POS by assumption; unfold scaler_check; destruct (Req_EM_T (scales_min g) 0); [lra|]; destruct (Rle_dec _ _) as [_|N]; [reflexivity|]|].
  { exfalso. apply N. specialize (DIV C). apply Rmult_le_reg_r with (scales_min g); [exact C|]. rewrite Rmult_plus_distr_r, DIV. lra. }
  intros A B C D. rewrite POS by assumption.
  assert (SC : scaler_check (scales_min g) (scales_max g) = Ok tt).
  { unfold scaler_check. destruct (Req_EM_T (scales_min g) 0); [lra|]. destruct (Rle_dec _ _) as [L|_]; [|destruct (Rle_dec _ _); [lra|reflexivity]].
    exfalso. apply (Rmult_le_compat_r (scales_min g)) in L; [|lra]. rewrite Rmult_plus_distr_r, DIV in L by exact C. lra. }
  rewrite SC. split; [|split; [|split]].
  - intros [H|H]; rewrite H; [reflexivity|]. rewrite orb_true_r. reflexivity.
  - intros H K. rewrite K. replace (num_means g =? 0) with false by (symmetry; apply Z.eqb_neq; lia). reflexivity.
  - intros H K L. replace (num_means g =? 0) with false by (symmetry; apply Z.eqb_neq; lia).
    replace (num_scales g =? 0) with false by (symmetry; apply Z.eqb_neq; lia). replace (num_scales g =? 1) with false by (symmetry; apply Z.eqb_neq; lia).
    cbn [orb]. cbn zeta. rewrite (increasing_map (fun i => mean_at g (IZR i))) by (intros; now apply mean_step). cbn [negb].
    replace (increasing _) with false; [reflexivity|]. symmetry.
    unfold zrange. destruct (Z.to_nat (num_scales g)) as [|[|n]] eqn:E; [lia|lia|]. cbn [seq map increasing].
    destruct (Rle_dec _ _) as [X|_]; [|reflexivity]. exfalso. change (Z.of_nat 0) with 0 in X. change (Z.of_nat 1) with 1 in X.
    rewrite !scale_at_eq in X by exact C. unfold scale_of, the_scale in X. apply Rmult_le_reg_l in X; [|exact C].
    unfold Rpower in X. assert (Y : (0 < scales_max g / scales_min g + 1 < 1)%R).
    { split; apply Rmult_lt_reg_r with (scales_min g); try exact C; rewrite Rmult_plus_distr_r, DIV by exact C; lra. }
    assert (W : (ln (scales_max g / scales_min g + 1) < 0)%R) by (rewrite <- ln_1; apply ln_increasing; lra).
    assert (V : (exp (1 / IZR (num_scales g - 1) * ln (scales_max g / scales_min g + 1)) < exp (0 / IZR (num_scales g - 1) * ln (scales_max g / scales_min g + 1)))%R); [|lra].
    apply exp_increasing. unfold Rdiv at 3. rewrite !Rmult_0_l. assert (0 < 1 / IZR (num_scales g - 1))%R by (apply Rdiv_lt_0_compat; [lra|apply (IZR_lt 0); lia]). nra.
  - intros H K L. replace (num_means g =? 0) with false by (symmetry; apply Z.eqb_neq; lia).
    replace (num_scales g =? 0) with false by (symmetry; apply Z.eqb_neq; lia). replace (num_scales g =? 1) with false by (symmetry; apply Z.eqb_neq; lia).
    cbn [orb]. cbn zeta. rewrite (increasing_map (fun i => mean_at g (IZR i))) by (intros; now apply mean_step).
    rewrite (increasing_map (fun j => scale_at g (IZR j))) by (intros; rewrite !scale_at_eq by assumption; now apply scale_step). cbn [negb].
    unfold build_tables. cbn [prior_mean_grid prior_scale_grid tail_mass].
    destruct (map _ (grid _ _)) as [|l ls] eqn:G; [|reflexivity]. exfalso. apply (f_equal (@length Z)) in G.
    rewrite map_length, grid_length, !map_length, !zrange_length in G. cbn in G. nia.
Qed.

(** The constructor refuses a scaler with another number of scales and bounds that are not positive; a new model has no tables.  The
    argument precision has no effect on any table: the tables have the precision of compressai's entropy coder. *)
Theorem C93_create : forall means scales bins smin smax bound tail prec coder,
  (bins <> scales \/ (bound <= 0)%R -> create means scales bins smin smax bound tail prec coder = Raise ValueError) /\
  (bins = scales -> (0 < bound)%R -> exists g, create means scales bins smin smax bound tail prec coder = Ok g /\ offset g = [] /\
     num_means g = means /\ num_scales g = scales /\ scales_min g = smin /\ scales_max g = smax /\ tail_mass g = tail /\ coder_precision g = coder).
Proof.
  intros. unfold create. split.
  - intros H. destruct (Z.eqb_spec bins scales) as [E|E]; [|reflexivity]. cbn [negb]. destruct (Rle_dec bound 0); [reflexivity|]. destruct H; [contradiction|lra].
  - intros -> H. rewrite Z.eqb_refl. cbn [negb]. destruct (Rle_dec bound 0); [lra|]. eexists. split; [reflexivity|]. easy.
Qed.
Theorem C93_precision_unused : forall ppf q means scales bins smin smax bound bound' tail prec prec' coder g g' calls,
  create means scales bins smin smax bound tail prec coder = Ok g -> create means scales bins smin smax bound' tail prec' coder = Ok g' ->
  let h := updates ppf q g calls in let h' := updates ppf q g' calls in
  offset h = offset h' /\ cdf_length h = cdf_length h' /\ quantized_cdf h = quantized_cdf h'.
Proof.
  intros ppf q means scales bins smin smax bound bound' tail prec prec' coder g g' calls E E'.
  unfold create in *. destruct (negb (bins =? scales)); [discriminate|]. destruct (Rle_dec bound 0); [discriminate|]. destruct (Rle_dec bound' 0); [discriminate|].
  injection E as <-. injection E' as <-. cbn zeta.
  pose (R := fun a b : gmodel => b = mkG (num_means a) (num_scales a) (scales_min a) (scales_max a) (tail_mass a) prec' (coder_precision a)
      (prior_mean_grid a) (prior_scale_grid a) (offset a) (cdf_length a) (quantized_cdf a)).
  assert (ST : forall a b f, R a b -> R (fst (update_tables ppf q a f)) (fst (update_tables ppf q b f))).
  { intros a b f H. unfold R in H. subst b. unfold update_tables.
    cbn [num_means num_scales scales_min scales_max tail_mass precision coder_precision prior_mean_grid prior_scale_grid offset cdf_length quantized_cdf].
    destruct (negb _ && negb f)%bool; [reflexivity|]. destruct (_ || _)%bool; [reflexivity|]. destruct (scaler_check _ _); [|reflexivity].
    destruct (_ || _)%bool; [reflexivity|]. destruct (num_scales a =? 1); [reflexivity|]. cbn zeta.
    match goal with |- R (fst (if negb (increasing ?x) then _ else _)) (fst (if negb (increasing ?y) then _ else _)) => change y with x; destruct (negb (increasing x)); [reflexivity|] end.
    match goal with |- R (fst (if negb (increasing ?x) then _ else _)) (fst (if negb (increasing ?y) then _ else _)) => change y with x; destruct (negb (increasing x)); [reflexivity|] end.
    unfold build_tables. cbn [num_means num_scales scales_min scales_max tail_mass precision coder_precision prior_mean_grid prior_scale_grid].
    match goal with |- R (fst match match ?x with _ => _ end with _ => _ end) (fst match match ?y with _ => _ end with _ => _ end) => change y with x; destruct x; reflexivity end. }
  assert (K : forall calls a b, R a b -> R (updates ppf q a calls) (updates ppf q b calls)).
  { induction calls0 as [|f l IH]; intros a b H; [exact H|]. unfold updates in *. cbn [fold_left]. apply IH, ST, H. }
  assert (R0 : R (mkG means scales smin smax tail prec coder [] [] [] [] []) (mkG means scales smin smax tail prec' coder [] [] [] [] [])) by reflexivity.
  apply (K calls) in R0. unfold R in R0. rewrite R0. easy.
Qed.

(** With the default arguments, no table has more than 3000 entries, so that 16 bits of precision are enough for them. *)
Theorem C93_default_fits : forall ppf q g force g', quantile ppf -> num_means g = 100 -> num_scales g = 256 -> scales_min g = (1 / 100)%R -> scales_max g = 256%R ->
  tail_mass g = (/ 2 ^ 8)%R -> force = true \/ offset g = [] -> update_tables ppf q g force = (g', Ok true) ->
  forall k, (k < length (cdf_length g'))%nat -> 4 <= nth k (cdf_length g') 0 <= 3000.
Proof.
  intros ppf q g force g' Q N1 N2 N3 N4 N5 F U k K.
  assert (S : sensible g). { unfold sensible. rewrite N1, N2, N3, N4, N5. repeat split; try lia; try lra. all: cbn [pow]; lra. }
  destruct (update_eq ppf q g force S F) as (g1 & B & U1). rewrite U1 in U. injection U as ->.
  destruct (built ppf q g g' Q S B) as (_ & _ & _ & _ & _ & LC & _ & width & R). rewrite LC, N1, N2 in K.
  destruct (R (Z.of_nat k / 256) (Z.of_nat k mod 256)) as (lo & hi & C & _ & L & _ & _).
  { rewrite N1. split; [apply Z.div_pos; lia|apply Z.div_lt_upper_bound; lia]. }
  { rewrite N2. apply Z.mod_pos_bound. lia. }
  replace (number g (Z.of_nat k / 256) (Z.of_nat k mod 256)) with k in L.
  2:{ unfold number. rewrite N2. pose proof (Z.div_mod (Z.of_nat k) 256). lia. }
  rewrite L. set (mu := mean_of g _) in *.
  assert (J : (IZR (Z.of_nat k mod 256) <= 255)%R) by (apply IZR_le; pose proof (Z.mod_pos_bound (Z.of_nat k) 256); lia).
  set (j := Z.of_nat k mod 256) in *. pose proof (scale_pos g j ltac:(rewrite N3; lra)) as SP.
  assert (UP : (scale_of g j <= 257)%R).
  { unfold scale_of, the_scale. rewrite N2, N3, N4. replace (256 / (1 / 100) + 1)%R with 25601%R by field.
    assert (P : (Rpower 25601 (IZR j / IZR (256 - 1)) <= Rpower 25601 1)%R) by (apply Rle_Rpower; [lra|]; change (256 - 1) with 255; lra).
    rewrite Rpower_1 in P by lra. lra. }
  set (sg := scale_of g j) in *. assert (P4 : (1 - Phi 4 < tail_mass g / 2)%R).
  { eapply Rle_lt_trans; [apply Phi_upper; lra|]. rewrite N5. cbn [pow].
    replace (- (4 * 4) / 2)%R with (Ropp 8) by field. rewrite exp_Ropp.
    assert (E8 : (600 < exp 8)%R).
    { assert (E0 : (3 / 2 <= exp (1 / 2))%R) by (pose proof (exp_ge_lin (1 / 2)); lra).
      assert (E1 : (9 / 4 <= exp 1)%R) by (replace 1%R with (1 / 2 + 1 / 2)%R at 1 by lra; rewrite exp_plus; nra).
      assert (E2 : (5 <= exp 2)%R) by (replace 2%R with (1 + 1)%R by lra; rewrite exp_plus; nra).
      assert (E4 : (25 <= exp 4)%R) by (replace 4%R with (2 + 2)%R by lra; rewrite exp_plus; nra).
      replace 8%R with (4 + 4)%R by lra. rewrite exp_plus. nra. }
    assert (P3 : (3 < PI)%R) by (pose proof PI2_3_2; lra).
    assert (I8 : (/ exp 8 < / 600)%R) by (apply Rinv_lt_contravar; lra).
    assert (I3 : (/ PI < / 3)%R) by (apply Rinv_lt_contravar; lra).
    assert (0 < / exp 8)%R by (apply Rinv_0_lt_compat; lra). assert (0 < / PI)%R by (apply Rinv_0_lt_compat; lra).
    unfold Rdiv. assert (X : (/ PI * / exp 8 < / 3 * / 600)%R) by (apply Rmult_le_0_lt_compat; lra). lra. }
  assert (S5 : (0 < tail_mass g < 1)%R) by apply S.
  destruct C as [[C1 C2] [C3 C4]].
  assert (M : forall x, (- sg * x < sg * x -> True)%R) by easy. clear M.
  assert (UN : forall x, ((x - mu) / sg * sg = x - mu)%R) by (intro; field; lra).
  assert (A : ((IZR hi - 1 - mu) / sg < 4)%R) by (apply Phi_below; lra).
  assert (D : (- (4) < (IZR lo + 1 - mu) / sg)%R) by (apply Phi_below; rewrite Phi_sym; lra).
  apply (Rmult_lt_compat_r sg) in A; [|exact SP]. rewrite UN in A. apply (Rmult_lt_compat_r sg) in D; [|exact SP]. rewrite UN in D.
  assert (G : ((IZR lo - mu) / sg < 0)%R) by (apply Phi_below; rewrite Phi_0; lra).
  assert (H : (0 < (IZR hi - mu) / sg)%R) by (apply Phi_below; rewrite Phi_0; lra).
  apply (Rmult_lt_compat_r sg) in G; [|exact SP]. rewrite UN in G. apply (Rmult_lt_compat_r sg) in H; [|exact SP]. rewrite UN in H.
  assert (W1 : (IZR lo < IZR hi)%R) by lra. apply lt_IZR in W1.
  assert (W2 : (IZR (hi - lo) < 2900)%R) by (rewrite minus_IZR; lra). apply lt_IZR in W2. lia.
Qed.

(** If the quantiser keeps its contract (as compressai's does), every table is usable by a range coder as far as its length says: it
    rises strictly from 0 to 2^precision. *)
Theorem C93_usable : forall ppf q g force g', quantile ppf -> quantiser q -> sensible g -> force = true \/ offset g = [] -> 0 <= coder_precision g ->
  update_tables ppf q g force = (g', Ok true) ->
  forall i j, 0 <= i < num_means g -> 0 <= j < num_scales g ->
  let size := nth (number g i j) (cdf_length g') 0 in let c := nth (number g i j) (quantized_cdf g') [] in
  2 * size <= 2 ^ coder_precision g ->
  nth 0 c 0 = 0 /\ (forall k, Z.of_nat k + 1 < size -> nth k c 0 < nth (S k) c 0) /\ nth (Z.to_nat (size - 1)) c 0 = 2 ^ coder_precision g /\
  (forall k, size <= Z.of_nat k -> nth k c 0 = 0).
Proof.
  intros ppf q g force g' Q QC SE F P U i j I J size c H.
  destruct (C93_probabilities ppf q g force g' Q SE F U i j I J) as (probs & escape & zeros & T & L & _ & POS & TM & E & TE & _). fold size in L. fold c in T.
  assert (LL : length (probs ++ [escape]) = S (length probs)) by (rewrite app_length; cbn; lia).
  assert (TT : total (probs ++ [escape]) = (total probs + escape)%R).
  { unfold total. rewrite fold_right_app. cbn [fold_right]. rewrite Rplus_0_r. clear. induction probs as [|y w IH]; cbn [fold_right]; [lra|rewrite IH; lra]. }
  assert (T1 : (0 < tail_mass g < 1)%R) by apply SE.
  destruct (QC (probs ++ [escape]) (coder_precision g)) as (Q1 & Q2 & Q3 & Q4).
  { apply quantisable_mass; [exact P| | |rewrite LL; lia].
    - apply Forall_app. split; [eapply Forall_impl; [|exact POS]; cbn; intros; lra|]. constructor; [lra|constructor].
    - rewrite TT. apply Rabs_def2 in TE. lra. }
  rewrite T. set (d := q (probs ++ [escape]) (coder_precision g)) in *. rewrite LL in Q1, Q3, Q4.
  split; [rewrite app_nth1 by lia; exact Q2|].
  split; [intros k K; rewrite !app_nth1 by lia; apply Q3; lia|].
  split; [rewrite app_nth1 by lia; rewrite <- Q4; f_equal; lia|].
  intros k K. rewrite app_nth2 by lia. clear. generalize (k - length d)%nat. induction zeros as [|z IH]; intros [|n]; try reflexivity. cbn. apply IH.
Qed.

(** ** The hypotheses can be met *)

(** The quantile function exists: the least upper bound of the x with Phi(x) <= p. *)
Section Exists.
Import Coquelicot.Coquelicot.
Lemma ppf_exists p : (0 < p < 1)%R -> exists x, Phi x = p.
Proof.
  intros P.
  destruct (proj2 (is_lim_spec Phi m_infty 0%R) Phi_lim_m (mkposreal p (proj1 P))) as [a A].
  assert (P1 : (0 < 1 - p)%R) by lra.
  destruct (proj2 (is_lim_spec Phi p_infty 1%R) Phi_lim_p (mkposreal (1 - p) P1)) as [b B].
  specialize (A (Rmin (a - 1) (b - 1))). specialize (B (Rmax (b + 1) (a + 1))). cbn [pos] in *.
  specialize (A ltac:(pose proof (Rmin_l (a - 1) (b - 1)); lra)). specialize (B ltac:(pose proof (Rmax_l (b + 1) (a + 1)); lra)).
  set (x := Rmin (a - 1) (b - 1)) in *. set (y := Rmax (b + 1) (a + 1)) in *.
  apply Rabs_def2 in A, B.
  destruct (IVT_gen (fun t => Phi t) x y p) as (z & _ & Z).
  - intro t. apply continuity_pt_filterlim. apply (ex_derive_continuous Phi). exists (phi t). apply Phi_derive.
  - rewrite Rmin_left, Rmax_right by lra. lra.
  - now exists z.
Qed.
End Exists.
Lemma ppf_bound p : (0 < p < 1)%R -> bound (fun x => Phi x <= p)%R /\ exists x, (Phi x <= p)%R.
Proof.
  intro P. destruct (ppf_exists p P) as [x X]. split; [|exists x; lra]. exists x. intros y Y. apply Phi_le. lra.
Qed.
Definition the_ppf (p : R) : R :=
  match Rlt_dec 0 p, Rlt_dec p 1 with
  | left a, left b => proj1_sig (completeness _ (proj1 (ppf_bound p (conj a b))) (proj2 (ppf_bound p (conj a b))))
  | _, _ => 0%R
  end.
Example quantile_ex : quantile the_ppf.
Proof.
  intros p P. unfold the_ppf. destruct (Rlt_dec 0 p) as [a|]; [|lra]. destruct (Rlt_dec p 1) as [b|]; [|lra].
  destruct (completeness _ _ _) as [s [U L]]. cbn [proj1_sig]. destruct (ppf_exists p P) as [x X]. replace s with x; [exact X|].
  apply Rle_antisym; [apply U; lra|]. apply L. intros y Y. apply Phi_le. lra.
Qed.
(** A new model with the default arguments has sensible arguments and no tables: all theorems apply to it. *)
Example C93_ex : exists g, create 100 256 256 (1 / 100) 256 (1 / 100) (/ 2 ^ 8) 12 16 = Ok g /\ sensible g /\ offset g = [] /\
  exists g', update_tables the_ppf compressai g false = (g', Ok true) /\ length (quantized_cdf g') = Z.to_nat 25600.
Proof.
  destruct (C93_create 100 256 256 (1 / 100) 256 (1 / 100) (/ 2 ^ 8) 12 16) as [_ H]. destruct H as (g & G & O & A & B & C & D & E & _); [reflexivity|lra|].
  assert (S : sensible g). { unfold sensible. rewrite A, B, C, D, E. repeat split; try lia; try lra. all: cbn [pow]; lra. }
  exists g. split; [exact G|]. split; [exact S|]. split; [exact O|].
  destruct (C93_tables the_ppf compressai g false quantile_ex S (or_intror O)) as (g' & U & _ & _ & _ & _ & _ & L & _).
  exists g'. split; [exact U|]. rewrite L, A, B. reflexivity.
Qed.
(** Row 50 * 256 has mean 0 and scale 1/100. *)
Example C93_ex_row : the_mean 100 50 = 0%R /\ the_scale (1 / 100) 256 256 0 = (1 / 100)%R /\ the_scale (1 / 100) 256 256 255 = (256 + 1 / 100)%R.
Proof.
  unfold the_mean, the_scale. cbn [Z.eqb Pos.eqb]. change (256 - 1) with 255. split; [lra|]. split.
  - replace (0 / 255)%R with 0%R by lra. rewrite Rpower_O by lra. lra.
  - replace (255 / 255)%R with 1%R by lra. rewrite Rpower_1 by lra. lra.
Qed.
Print Assumptions C93_tables.
Print Assumptions C93_probabilities.
Print Assumptions C93_row_exists.
Print Assumptions C93_built_once.
Print Assumptions C93_kept.
Print Assumptions C93_refused.
Print Assumptions C93_create.
Print Assumptions C93_precision_unused.
Print Assumptions C93_default_fits.
Print Assumptions C93_usable.

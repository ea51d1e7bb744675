(** Facts about the MS-SSIM specification: bounds, symmetry, identity. *)
From Coq Require Import ZArith Arith List Bool Reals Lra Lia Psatz ZifyNat.
From Verif Require Import Base Tensor RSum Ssim_Spec.
Import ListNotations.
Open Scope R_scope.

Lemma Rdiv_le_1 a b : 0 < b -> a <= b -> a / b <= 1.
Proof.
  intros B H. apply Rmult_le_reg_r with b; [exact B|].
  unfold Rdiv. rewrite Rmult_assoc, Rinv_l by lra. lra.
Qed.

Section Local.
Variable sd : R.
Variable r : nat.
Local Notation L := (local sd r).

Lemma gauss_pos i : 0 < gauss sd r i.
Proof. apply exp_pos. Qed.
Lemma gauss_sum : 0 < rsum (2 * r + 1) (gauss sd r).
Proof. apply rsum_pos; [lia|]. intros. apply gauss_pos. Qed.
Lemma tap_pos i : 0 < tap sd r i.
Proof. apply Rdiv_lt_0_compat; [apply gauss_pos|apply gauss_sum]. Qed.
Lemma tap_sum : rsum (2 * r + 1) (tap sd r) = 1.
Proof.
  unfold tap, Rdiv. rewrite rsum_scal_r. apply Rinv_r. pose proof gauss_sum. lra.
Qed.

Lemma local_ext f g i j :
  (forall u v, (u < 2 * r + 1)%nat -> (v < 2 * r + 1)%nat -> f (i + u)%nat (j + v)%nat = g (i + u)%nat (j + v)%nat) ->
  L f i j = L g i j.
Proof. intro H. apply rsum_ext. intros u U. apply rsum_ext. intros v V. now rewrite H. Qed.
Lemma local_plus f g i j : L (fun a b => f a b + g a b) i j = L f i j + L g i j.
Proof.
  unfold local. rewrite <- rsum_plus. apply rsum_ext. intros. rewrite <- rsum_plus.
  apply rsum_ext. intros. lra.
Qed.
Lemma local_scal k f i j : L (fun a b => k * f a b) i j = k * L f i j.
Proof.
  unfold local. rewrite <- rsum_scal. apply rsum_ext. intros. rewrite <- rsum_scal.
  apply rsum_ext. intros. lra.
Qed.
Lemma local_const k i j : L (fun _ _ => k) i j = k.
Proof.
  unfold local. rewrite (rsum_ext _ _ (fun u => tap sd r u * k)).
  - rewrite rsum_scal_r, tap_sum. lra.
  - intros u _. rewrite (rsum_ext _ _ (fun v => tap sd r v * (tap sd r u * k))) by (intros; lra).
    rewrite rsum_scal_r, tap_sum. lra.
Qed.
Lemma local_minus f g i j : L (fun a b => f a b - g a b) i j = L f i j - L g i j.
Proof.
  rewrite (local_ext _ (fun a b => f a b + -1 * g a b)) by (intros; lra).
  rewrite local_plus, local_scal. lra.
Qed.
Lemma local_nonneg f i j : (forall a b, 0 <= f a b) -> 0 <= L f i j.
Proof.
  intro H. apply rsum_nonneg. intros u _. apply rsum_nonneg. intros v _.
  pose proof (tap_pos u). pose proof (tap_pos v). apply Rmult_le_pos; [nra|apply H].
Qed.
Lemma local_zero_inv f i j : (forall a b, 0 <= f a b) -> L f i j = 0 ->
  forall u v, (u < 2 * r + 1)%nat -> (v < 2 * r + 1)%nat -> f (i + u)%nat (j + v)%nat = 0.
Proof.
  intros P H u v U V. unfold local in H.
  assert (A : rsum (2 * r + 1) (fun v => tap sd r u * tap sd r v * f (i + u)%nat (j + v)%nat) = 0).
  { apply (rsum_zero_inv (2 * r + 1)%nat (fun u => rsum (2 * r + 1) (fun v => tap sd r u * tap sd r v * f (i + u)%nat (j + v)%nat)));
      [|exact H|exact U].
    intros a _. apply rsum_nonneg. intros b _. pose proof (tap_pos a). pose proof (tap_pos b).
    apply Rmult_le_pos; [nra|apply P]. }
  assert (B : tap sd r u * tap sd r v * f (i + u)%nat (j + v)%nat = 0).
  { apply (rsum_zero_inv (2 * r + 1)%nat (fun v => tap sd r u * tap sd r v * f (i + u)%nat (j + v)%nat)); [|exact A|exact V].
    intros b _. pose proof (tap_pos u). pose proof (tap_pos b). apply Rmult_le_pos; [nra|apply P]. }
  pose proof (tap_pos u). pose proof (tap_pos v).
  apply Rmult_integral in B. destruct B as [B|B]; [nra|exact B].
Qed.

(** The code computes central moments as E[fg] - E[f]E[g]. *)
Lemma covariance_raw f g i j :
  covariance sd r f g i j = L (fun a b => f a b * g a b) i j - L f i j * L g i j.
Proof.
  unfold covariance. set (m := L f i j). set (n := L g i j).
  rewrite (local_ext _ (fun a b => (f a b * g a b + (-n) * f a b) + ((-m) * g a b + m * n))) by (intros; ring).
  rewrite !local_plus, !local_scal, local_const. fold m n. ring.
Qed.
Lemma covariance_sym f g i j : covariance sd r f g i j = covariance sd r g f i j.
Proof. unfold covariance. apply local_ext. intros. ring. Qed.
Lemma variance_nonneg f i j : 0 <= variance sd r f i j.
Proof. apply local_nonneg. intros a b. apply Rle_0_sqr. Qed.
(** Variance of the sum and the difference. *)
Lemma variance_diff f g i j :
  variance sd r (fun a b => f a b - g a b) i j
  = variance sd r f i j + variance sd r g i j - 2 * covariance sd r f g i j.
Proof.
  unfold variance. rewrite !covariance_raw, local_minus.
  rewrite (local_ext (fun a b => (f a b - g a b) * (f a b - g a b))
             (fun a b => (f a b * f a b + g a b * g a b) + -2 * (f a b * g a b))) by (intros; ring).
  rewrite !local_plus, local_scal. ring.
Qed.
Lemma variance_sum f g i j :
  variance sd r (fun a b => f a b + g a b) i j
  = variance sd r f i j + variance sd r g i j + 2 * covariance sd r f g i j.
Proof.
  unfold variance. rewrite !covariance_raw, local_plus.
  rewrite (local_ext (fun a b => (f a b + g a b) * (f a b + g a b))
             (fun a b => (f a b * f a b + g a b * g a b) + 2 * (f a b * g a b))) by (intros; ring).
  rewrite !local_plus, local_scal. ring.
Qed.

Variables c1 c2 : R.
Hypothesis C1 : 0 < c1.
Hypothesis C2 : 0 < c2.

Lemma luminance_den f g i j : 0 < L f i j ^ 2 + L g i j ^ 2 + c1.
Proof. nra. Qed.
Lemma luminance_le f g i j : luminance sd r c1 f g i j <= 1.
Proof.
  unfold luminance. cbv zeta. pose proof (luminance_den f g i j) as D. set (m := L f i j) in *. set (n := L g i j) in *.
  apply Rdiv_le_1; [exact D|]. pose proof (pow2_ge_0 (m - n)). lra.
Qed.
Lemma luminance_gt f g i j : -1 < luminance sd r c1 f g i j.
Proof.
  unfold luminance. cbv zeta. pose proof (luminance_den f g i j) as D. set (m := L f i j) in *. set (n := L g i j) in *.
  apply Rmult_lt_reg_r with (m ^ 2 + n ^ 2 + c1); [exact D|].
  replace ((2 * m * n + c1) / (m ^ 2 + n ^ 2 + c1) * (m ^ 2 + n ^ 2 + c1)) with (2 * m * n + c1) by (field; lra).
  pose proof (pow2_ge_0 (m + n)). lra.
Qed.
Lemma luminance_one f g i j : luminance sd r c1 f g i j = 1 -> L f i j = L g i j.
Proof.
  unfold luminance. cbv zeta. pose proof (luminance_den f g i j) as D. set (m := L f i j) in *. set (n := L g i j) in *.
  intro H. assert (A : 2 * m * n + c1 = m ^ 2 + n ^ 2 + c1).
  { transitivity ((2 * m * n + c1) / (m ^ 2 + n ^ 2 + c1) * (m ^ 2 + n ^ 2 + c1)); [field; lra|]. rewrite H. lra. }
  assert (Q : (m - n) * (m - n) = 0) by nra. apply Rmult_integral in Q. lra.
Qed.
Lemma cs_den f g i j : 0 < variance sd r f i j + variance sd r g i j + c2.
Proof. pose proof (variance_nonneg f i j). pose proof (variance_nonneg g i j). lra. Qed.
Lemma cs_le f g i j : contrast_structure sd r c2 f g i j <= 1.
Proof.
  unfold contrast_structure. apply Rdiv_le_1; [apply cs_den|].
  pose proof (variance_nonneg (fun a b => f a b - g a b) i j) as H. rewrite variance_diff in H. lra.
Qed.
Lemma cs_ge f g i j : -1 <= contrast_structure sd r c2 f g i j.
Proof.
  unfold contrast_structure. pose proof (cs_den f g i j) as D.
  pose proof (variance_nonneg (fun a b => f a b + g a b) i j) as H. rewrite variance_sum in H.
  set (d := variance sd r f i j + variance sd r g i j + c2) in *. set (e := covariance sd r f g i j) in *.
  apply Rmult_le_reg_r with d; [exact D|].
  replace ((2 * e + c2) / d * d) with (2 * e + c2) by (field; lra). unfold d. lra.
Qed.
Lemma cs_one f g i j : contrast_structure sd r c2 f g i j = 1 ->
  variance sd r (fun a b => f a b - g a b) i j = 0.
Proof.
  unfold contrast_structure. pose proof (cs_den f g i j) as D. rewrite variance_diff.
  set (d := variance sd r f i j + variance sd r g i j + c2) in *. set (e := covariance sd r f g i j) in *.
  intro H. assert (A : 2 * e + c2 = d).
  { transitivity ((2 * e + c2) / d * d); [field; lra|]. rewrite H. lra. } unfold d in A. lra.
Qed.
Lemma lcs_le f g i j : luminance sd r c1 f g i j * contrast_structure sd r c2 f g i j <= 1.
Proof.
  pose proof (luminance_le f g i j). pose proof (luminance_gt f g i j).
  pose proof (cs_le f g i j). pose proof (cs_ge f g i j). nra.
Qed.
Lemma lcs_one f g i j : luminance sd r c1 f g i j * contrast_structure sd r c2 f g i j = 1 ->
  luminance sd r c1 f g i j = 1 /\ contrast_structure sd r c2 f g i j = 1.
Proof.
  pose proof (luminance_le f g i j). pose proof (luminance_gt f g i j).
  pose proof (cs_le f g i j). pose proof (cs_ge f g i j).
  set (a := luminance _ _ _ _ _ _ _) in *. set (b := contrast_structure _ _ _ _ _ _ _) in *. intro E.
  destruct (Rlt_le_dec a 1) as [A|A].
  - exfalso. destruct (Rlt_le_dec 0 b); [assert (a * b < 1 * b) by (apply Rmult_lt_compat_r; assumption); lra|].
    assert (0 <= (a + 1) * (- b)) by (apply Rmult_le_pos; lra). assert (b <> 0) by (intro Z; rewrite Z in E; lra).
    assert (0 < (a + 1) * (- b)) by (apply Rmult_lt_0_compat; lra). lra.
  - assert (a = 1) by lra. split; [assumption|]. nra.
Qed.
Lemma luminance_self f i j : luminance sd r c1 f f i j = 1.
Proof. unfold luminance. pose proof (luminance_den f f i j). cbv zeta. apply Rmult_eq_reg_r with (L f i j ^ 2 + L f i j ^ 2 + c1); [|lra].
  unfold Rdiv. rewrite Rmult_assoc, Rinv_l by lra. ring. Qed.
Lemma cs_self f i j : contrast_structure sd r c2 f f i j = 1.
Proof. unfold contrast_structure. pose proof (cs_den f f i j). unfold variance in *.
  replace (2 * covariance sd r f f i j + c2) with (covariance sd r f f i j + covariance sd r f f i j + c2) by ring.
  apply Rinv_r. lra. Qed.
Lemma luminance_sym f g i j : luminance sd r c1 f g i j = luminance sd r c1 g f i j.
Proof. unfold luminance. cbv zeta. f_equal; ring. Qed.
Lemma cs_sym f g i j : contrast_structure sd r c2 f g i j = contrast_structure sd r c2 g f i j.
Proof. unfold contrast_structure. rewrite (covariance_sym f g). f_equal. ring. Qed.

(** Means over the windows. *)
Lemma over_ext h w p q : (forall i j, (i < h - 2 * r)%nat -> (j < w - 2 * r)%nat -> p i j = q i j) ->
  over_windows r h w p = over_windows r h w q.
Proof. intro H. unfold over_windows. f_equal. apply rsum_ext. intros i I. apply rsum_ext. intros j J. now apply H. Qed.
Lemma over_const h w k : (2 * r < h)%nat -> (2 * r < w)%nat -> over_windows r h w (fun _ _ => k) = k.
Proof.
  intros H W. unfold over_windows.
  rewrite (rsum_ext _ _ (fun _ => INR (w - 2 * r) * k)) by (intros; apply rsum_const).
  rewrite rsum_const, mult_INR. assert (INR (h - 2 * r) <> 0) by (apply not_0_INR; lia).
  assert (INR (w - 2 * r) <> 0) by (apply not_0_INR; lia). field. auto.
Qed.
Lemma over_le h w q : (2 * r < h)%nat -> (2 * r < w)%nat -> (forall i j, q i j <= 1) -> over_windows r h w q <= 1.
Proof.
  intros H W Q. rewrite <- (over_const h w 1 H W). unfold over_windows, Rdiv.
  apply Rmult_le_compat_r.
  - apply Rlt_le, Rinv_0_lt_compat, lt_0_INR. nia.
  - apply rsum_le. intros. apply rsum_le. intros. apply Q.
Qed.
Lemma over_one h w q : (2 * r < h)%nat -> (2 * r < w)%nat -> (forall i j, q i j <= 1) ->
  over_windows r h w q = 1 -> forall i j, (i < h - 2 * r)%nat -> (j < w - 2 * r)%nat -> q i j = 1.
Proof.
  intros H W Q E i j I J.
  set (a := (h - 2 * r)%nat) in *. set (b := (w - 2 * r)%nat) in *.
  assert (A : INR a <> 0) by (apply not_0_INR; unfold a; lia).
  assert (B : INR b <> 0) by (apply not_0_INR; unfold b; lia).
  assert (S : rsum a (fun i => rsum b (fun j => q i j)) = INR a * (INR b * 1)).
  { unfold over_windows in E. fold a b in E. rewrite mult_INR in E.
    apply (f_equal (fun x => x * (INR a * INR b))) in E.
    unfold Rdiv in E. rewrite Rmult_assoc, Rinv_l in E by (apply Rmult_integral_contrapositive; auto). lra. }
  assert (R1 : rsum b (fun j => q i j) = INR b * 1).
  { apply (rsum_max_inv a (fun i => rsum b (fun j => q i j))); [|exact S|exact I].
    intros k _. rewrite <- rsum_const. apply rsum_le. intros. apply Q. }
  apply (rsum_max_inv b (fun j => q i j)); [intros; apply Q|exact R1|exact J].
Qed.

(** A difference whose variance vanishes in every window is constant. *)
Lemma constant_difference h w (d : image) : (1 <= r)%nat -> (2 * r < h)%nat -> (2 * r < w)%nat ->
  (forall i j, (i < h - 2 * r)%nat -> (j < w - 2 * r)%nat -> variance sd r d i j = 0) ->
  forall i j, (i < h)%nat -> (j < w)%nat -> d i j = d 0%nat 0%nat.
Proof.
  intros R1 H W V.
  assert (K : forall i j u v u' v', (i < h - 2 * r)%nat -> (j < w - 2 * r)%nat ->
    (u < 2 * r + 1)%nat -> (v < 2 * r + 1)%nat -> (u' < 2 * r + 1)%nat -> (v' < 2 * r + 1)%nat ->
    d (i + u)%nat (j + v)%nat = d (i + u')%nat (j + v')%nat).
  { intros i j u v u' v' I J U V1 U' V1'.
    assert (Z : forall u v, (u < 2 * r + 1)%nat -> (v < 2 * r + 1)%nat -> d (i + u)%nat (j + v)%nat = L d i j).
    { intros a b A B. pose proof (local_zero_inv (fun a b => (d a b - L d i j) * (d a b - L d i j)) i j) as Z.
      specialize (Z ltac:(intros; apply Rle_0_sqr) (V i j I J) a b A B). cbn beta in Z. apply Rmult_integral in Z. lra. }
    rewrite (Z u v), (Z u' v'); auto. }
  assert (SI : forall i j, (S i < h)%nat -> (j < w)%nat -> d (S i) j = d i j).
  { intros i j I J. set (i0 := Nat.min i (h - 2 * r - 1)). set (j0 := Nat.min j (w - 2 * r - 1)).
    pose proof (K i0 j0 (S i - i0) (j - j0) (i - i0) (j - j0))%nat as Q.
    unfold i0, j0 in *. replace (Nat.min i (h - 2 * r - 1) + (S i - Nat.min i (h - 2 * r - 1)))%nat with (S i) in Q by lia.
    replace (Nat.min i (h - 2 * r - 1) + (i - Nat.min i (h - 2 * r - 1)))%nat with i in Q by lia.
    replace (Nat.min j (w - 2 * r - 1) + (j - Nat.min j (w - 2 * r - 1)))%nat with j in Q by lia.
    apply Q; lia. }
  assert (SJ : forall i j, (i < h)%nat -> (S j < w)%nat -> d i (S j) = d i j).
  { intros i j I J. set (i0 := Nat.min i (h - 2 * r - 1)). set (j0 := Nat.min j (w - 2 * r - 1)).
    pose proof (K i0 j0 (i - i0) (S j - j0) (i - i0) (j - j0))%nat as Q.
    unfold i0, j0 in *. replace (Nat.min i (h - 2 * r - 1) + (i - Nat.min i (h - 2 * r - 1)))%nat with i in Q by lia.
    replace (Nat.min j (w - 2 * r - 1) + (S j - Nat.min j (w - 2 * r - 1)))%nat with (S j) in Q by lia.
    replace (Nat.min j (w - 2 * r - 1) + (j - Nat.min j (w - 2 * r - 1)))%nat with j in Q by lia.
    apply Q; lia. }
  induction i as [|i IHi]; intros j I J.
  - induction j as [|j IHj]; [reflexivity|]. rewrite SJ by lia. apply IHj. lia.
  - rewrite SI by lia. apply IHi; lia.
Qed.

Lemma ssim_le h w f g : (2 * r < h)%nat -> (2 * r < w)%nat -> ssim sd r c1 c2 h w f g <= 1.
Proof. intros. apply over_le; auto. intros. apply lcs_le. Qed.
Lemma csm_le h w f g : (2 * r < h)%nat -> (2 * r < w)%nat -> cs sd r c2 h w f g <= 1.
Proof. intros. apply over_le; auto. intros. apply cs_le. Qed.
Lemma ssim_self h w f : (2 * r < h)%nat -> (2 * r < w)%nat -> ssim sd r c1 c2 h w f f = 1.
Proof.
  intros H W. unfold ssim. rewrite (over_ext _ _ _ (fun _ _ => 1)); [now apply over_const|].
  intros. rewrite luminance_self, cs_self. lra.
Qed.
Lemma csm_self h w f : (2 * r < h)%nat -> (2 * r < w)%nat -> cs sd r c2 h w f f = 1.
Proof.
  intros H W. unfold cs. rewrite (over_ext _ _ _ (fun _ _ => 1)); [now apply over_const|].
  intros. apply cs_self.
Qed.
Lemma ssim_sym h w f g : ssim sd r c1 c2 h w f g = ssim sd r c1 c2 h w g f.
Proof. apply over_ext. intros. now rewrite luminance_sym, cs_sym. Qed.
Lemma csm_sym h w f g : cs sd r c2 h w f g = cs sd r c2 h w g f.
Proof. apply over_ext. intros. now rewrite cs_sym. Qed.

Lemma power_one p : power 1 p = 1.
Proof. unfold power. destruct (Rle_dec 1 0); [lra|]. unfold Rpower. rewrite ln_1, Rmult_0_r. apply exp_0. Qed.
Lemma power_range x p : 0 <= p -> x <= 1 -> 0 <= power x p <= 1.
Proof.
  intros P X. unfold power. destruct (Rle_dec x 0); [destruct (Req_EM_T p 0); lra|].
  split; [apply Rlt_le, exp_pos|]. unfold Rpower. rewrite <- exp_0.
  assert (N : ln x <= 0).
  { destruct X as [X| ->]; [rewrite <- ln_1; apply Rlt_le, ln_increasing; lra|rewrite ln_1; lra]. }
  destruct (Rle_lt_or_eq_dec (p * ln x) 0) as [A|A]; [nra|apply Rlt_le, exp_increasing; exact A|rewrite A; lra].
Qed.
Lemma power_one_inv x p : 0 < p -> power x p = 1 -> x = 1.
Proof.
  intros P. unfold power. destruct (Rle_dec x 0).
  - destruct (Req_EM_T p 0); [lra|]. intro; lra.
  - intro H. unfold Rpower in H. rewrite <- exp_0 in H. apply exp_inv in H.
    assert (ln x = 0) by (apply Rmult_integral in H; lra).
    rewrite <- ln_1 in H0. apply ln_inv in H0; lra.
Qed.

End Local.

Lemma size_at_0 n : size_at n 0 = n.
Proof. unfold size_at. change (2 ^ 0)%nat with 1%nat. rewrite Nat.div_1_r. lia. Qed.
Lemma size_at_S n k : size_at (up_half n) k = size_at n (S k).
Proof.
  unfold size_at, up_half. rewrite Nat.pow_succ_r'. pose proof (Nat.pow_nonzero 2 k ltac:(lia)).
  rewrite <- Nat.div_div by lia. f_equal.
  replace (n + 2 * 2 ^ k - 1)%nat with (n + 1 + (2 ^ k - 1) * 2)%nat by lia.
  rewrite Nat.div_add by lia. lia.
Qed.
Lemma size_at_le n k : (size_at n k <= n)%nat.
Proof.
  unfold size_at. pose proof (Nat.pow_nonzero 2 k ltac:(lia)).
  apply Nat.lt_succ_r, Nat.div_lt_upper_bound; [lia|]. nia.
Qed.

(** Multi-scale facts. *)
Section Multi.
Variable sd : R.
Variable r : nat.
Variables c1 c2 : R.
Hypothesis C1 : 0 < c1.
Hypothesis C2 : 0 < c2.

Lemma ms_cons h w f g p q ps :
  ms_ssim sd r c1 c2 h w f g (p :: q :: ps)
  = power (cs sd r c2 h w f g) p
    * ms_ssim sd r c1 c2 (up_half h) (up_half w) (halve h w f) (halve h w g) (q :: ps).
Proof. reflexivity. Qed.

Lemma ms_range : forall ps h w f g, ps <> [] -> Forall (fun p => 0 <= p) ps ->
  (2 * r < size_at h (length ps - 1))%nat -> (2 * r < size_at w (length ps - 1))%nat ->
  0 <= ms_ssim sd r c1 c2 h w f g ps <= 1.
Proof.
  induction ps as [|p ps IH]; intros h w f g N F H W; [easy|]. inversion F as [|? ? P F']; subst.
  destruct ps as [|q ps].
  - cbn [length Nat.sub] in *. rewrite size_at_0 in *. cbn [ms_ssim]. apply power_range; [exact P|].
    now apply ssim_le.
  - rewrite ms_cons. replace (length (p :: q :: ps) - 1)%nat with (S (length (q :: ps) - 1)) in * by (cbn; lia).
    pose proof (size_at_le h (S (length (q :: ps) - 1))). pose proof (size_at_le w (S (length (q :: ps) - 1))).
    rewrite <- !size_at_S in *.
    specialize (IH (up_half h) (up_half w) (halve h w f) (halve h w g) ltac:(easy) F' H W).
    assert (0 <= power (cs sd r c2 h w f g) p <= 1) by (apply power_range; [exact P|apply csm_le; lia || assumption]).
    set (a := power _ _) in *. set (b := ms_ssim _ _ _ _ _ _ _ _ _) in *. split; nra.
Qed.

Lemma halve_ext h w f g : (forall i j, (i < h)%nat -> (j < w)%nat -> f i j = g i j) ->
  forall i j, (i < up_half h)%nat -> (j < up_half w)%nat -> halve h w f i j = halve h w g i j.
Proof.
  intros E i j I J. unfold up_half in *. assert (2 * i < h)%nat by dlia. assert (2 * j < w)%nat by dlia.
  unfold halve. cbv zeta. rewrite !E by lia. reflexivity.
Qed.

Lemma local_ext_image h w f g i j : (forall i j, (i < h)%nat -> (j < w)%nat -> f i j = g i j) ->
  (i < h - 2 * r)%nat -> (j < w - 2 * r)%nat -> local sd r f i j = local sd r g i j.
Proof. intros E I J. apply local_ext. intros. apply E; lia. Qed.
Lemma covariance_ext h w f g f' g' i j :
  (forall i j, (i < h)%nat -> (j < w)%nat -> f i j = f' i j) ->
  (forall i j, (i < h)%nat -> (j < w)%nat -> g i j = g' i j) ->
  (i < h - 2 * r)%nat -> (j < w - 2 * r)%nat -> covariance sd r f g i j = covariance sd r f' g' i j.
Proof.
  intros E E' I J. unfold covariance. rewrite (local_ext_image h w f f'), (local_ext_image h w g g') by assumption.
  apply (local_ext_image h w); auto. intros a b A B. now rewrite E, E'.
Qed.
Lemma cs_ext h w f g f' g' : 
  (forall i j, (i < h)%nat -> (j < w)%nat -> f i j = f' i j) ->
  (forall i j, (i < h)%nat -> (j < w)%nat -> g i j = g' i j) ->
  cs sd r c2 h w f g = cs sd r c2 h w f' g'.
Proof.
  intros E E'. apply over_ext. intros i j I J. unfold contrast_structure, variance.
  now rewrite (covariance_ext h w f g f' g'), (covariance_ext h w f f f' f'), (covariance_ext h w g g g' g').
Qed.
Lemma ssim_ext h w f g f' g' : 
  (forall i j, (i < h)%nat -> (j < w)%nat -> f i j = f' i j) ->
  (forall i j, (i < h)%nat -> (j < w)%nat -> g i j = g' i j) ->
  ssim sd r c1 c2 h w f g = ssim sd r c1 c2 h w f' g'.
Proof.
  intros E E'. apply over_ext. intros i j I J. unfold luminance, contrast_structure, variance.
  now rewrite (covariance_ext h w f g f' g'), (covariance_ext h w f f f' f'), (covariance_ext h w g g g' g'),
    (local_ext_image h w f f'), (local_ext_image h w g g').
Qed.
Lemma ms_ext : forall ps h w f g f' g',
  (forall i j, (i < h)%nat -> (j < w)%nat -> f i j = f' i j) ->
  (forall i j, (i < h)%nat -> (j < w)%nat -> g i j = g' i j) ->
  ms_ssim sd r c1 c2 h w f g ps = ms_ssim sd r c1 c2 h w f' g' ps.
Proof.
  induction ps as [|p ps IH]; intros h w f g f' g' E E'; [reflexivity|]. destruct ps as [|q ps].
  - cbn [ms_ssim]. now rewrite (ssim_ext h w f g f' g').
  - rewrite !ms_cons. rewrite (cs_ext h w f g f' g') by assumption. f_equal.
    apply IH; now apply halve_ext.
Qed.

Lemma ms_self : forall ps h w f, ps <> [] ->
  (2 * r < size_at h (length ps - 1))%nat -> (2 * r < size_at w (length ps - 1))%nat ->
  ms_ssim sd r c1 c2 h w f f ps = 1.
Proof.
  induction ps as [|p ps IH]; intros h w f N H W; [easy|]. destruct ps as [|q ps].
  - cbn [length Nat.sub] in *. rewrite size_at_0 in *. cbn [ms_ssim]. rewrite ssim_self by assumption.
    apply power_one.
  - rewrite ms_cons. replace (length (p :: q :: ps) - 1)%nat with (S (length (q :: ps) - 1)) in * by (cbn; lia).
    pose proof (size_at_le h (S (length (q :: ps) - 1))). pose proof (size_at_le w (S (length (q :: ps) - 1))).
    rewrite <- !size_at_S in *. rewrite IH by (easy || assumption).
    rewrite csm_self by (assumption || lia). rewrite power_one. lra.
Qed.
Lemma ms_sym : forall ps h w f g,
  ms_ssim sd r c1 c2 h w f g ps = ms_ssim sd r c1 c2 h w g f ps.
Proof.
  induction ps as [|p ps IH]; intros h w f g; [reflexivity|]. destruct ps as [|q ps].
  - cbn [ms_ssim]. now rewrite ssim_sym.
  - rewrite !ms_cons, csm_sym, IH. reflexivity.
Qed.

(** A constant difference stays the same constant, and is 0 if the score is 1. *)
Lemma halve_const h w f g k : (forall i j, (i < h)%nat -> (j < w)%nat -> f i j - g i j = k) ->
  forall i j, (i < up_half h)%nat -> (j < up_half w)%nat -> halve h w f i j - halve h w g i j = k.
Proof.
  intros E i j I J. unfold up_half in *. assert (2 * i < h)%nat by dlia. assert (2 * j < w)%nat by dlia.
  unfold halve. cbv zeta. set (i1 := Nat.min (2 * i + 1) (h - 1)). set (j1 := Nat.min (2 * j + 1) (w - 1)).
  assert (I1 : (i1 < h)%nat) by (unfold i1; lia). assert (J1 : (j1 < w)%nat) by (unfold j1; lia).
  pose proof (E (2 * i) (2 * j))%nat as A. pose proof (E (2 * i)%nat j1) as B.
  pose proof (E i1 (2 * j)%nat) as C. pose proof (E i1 j1) as D.
  specialize (A ltac:(lia) ltac:(lia)). specialize (B ltac:(lia) J1). specialize (C I1 ltac:(lia)).
  specialize (D I1 J1). lra.
Qed.
Lemma unit_prod a b : 0 <= a <= 1 -> 0 <= b <= 1 -> a * b = 1 -> a = 1 /\ b = 1.
Proof. intros. split; nra. Qed.

Lemma ms_shift : forall ps h w f g k, ps <> [] -> Forall (fun p => 0 < p) ps ->
  (2 * r < size_at h (length ps - 1))%nat -> (2 * r < size_at w (length ps - 1))%nat ->
  (forall i j, (i < h)%nat -> (j < w)%nat -> f i j - g i j = k) ->
  ms_ssim sd r c1 c2 h w f g ps = 1 -> k = 0.
Proof.
  induction ps as [|p ps IH]; intros h w f g k N F H W E M; [easy|]. inversion F as [|? ? P F']; subst.
  assert (FN : Forall (fun p => 0 <= p) ps) by (eapply Forall_impl; [|exact F']; intros; cbn beta in *; lra).
  destruct ps as [|q ps].
  - cbn [length Nat.sub] in *. rewrite size_at_0 in *. cbn [ms_ssim] in M.
    apply power_one_inv in M; [|exact P]. unfold ssim in M.
    pose proof (over_one r h w (fun i j => luminance sd r c1 f g i j * contrast_structure sd r c2 f g i j)
                  H W ltac:(intros; now apply lcs_le) M 0%nat 0%nat ltac:(lia) ltac:(lia)) as Q. cbn beta in Q.
    apply lcs_one in Q; auto. destruct Q as [Q _]. apply luminance_one in Q; auto.
    assert (Z : local sd r (fun a b => f a b - g a b) 0 0 = k).
    { rewrite (local_ext_image h w _ (fun _ _ => k)) by (assumption || lia). apply local_const. }
    rewrite local_minus in Z. lra.
  - rewrite ms_cons in M. replace (length (p :: q :: ps) - 1)%nat with (S (length (q :: ps) - 1)) in * by (cbn; lia).
    pose proof (size_at_le h (S (length (q :: ps) - 1))). pose proof (size_at_le w (S (length (q :: ps) - 1))).
    rewrite <- !size_at_S in *.
    apply unit_prod in M; [|apply power_range; [lra|apply csm_le; lia || assumption]|apply ms_range; easy || assumption].
    destruct M as [_ M]. eapply IH; [easy|exact F'|exact H|exact W|apply halve_const; exact E|exact M].
Qed.

Lemma ms_identity ps h w f g : (1 <= r)%nat -> ps <> [] -> Forall (fun p => 0 < p) ps ->
  (2 * r < size_at h (length ps - 1))%nat -> (2 * r < size_at w (length ps - 1))%nat ->
  ms_ssim sd r c1 c2 h w f g ps = 1 ->
  forall i j, (i < h)%nat -> (j < w)%nat -> f i j = g i j.
Proof.
  intros R1 N F H W M i j I J.
  pose proof (size_at_le h (length ps - 1)) as LH. pose proof (size_at_le w (length ps - 1)) as LW.
  assert (V : forall i j, (i < h - 2 * r)%nat -> (j < w - 2 * r)%nat ->
              contrast_structure sd r c2 f g i j = 1).
  { intros a b A B. destruct ps as [|p [|q ps]]; [easy| |]; inversion F as [|? ? P F']; subst.
    - cbn [ms_ssim] in M. apply power_one_inv in M; [|exact P]. unfold ssim in M.
      pose proof (over_one r h w (fun i j => luminance sd r c1 f g i j * contrast_structure sd r c2 f g i j)
                    ltac:(lia) ltac:(lia) ltac:(intros; now apply lcs_le) M a b A B) as Q. cbn beta in Q.
      apply lcs_one in Q; tauto.
    - assert (FN : Forall (fun p => 0 <= p) (q :: ps)) by (eapply Forall_impl; [|exact F']; intros; cbn beta in *; lra).
      rewrite ms_cons in M. replace (length (p :: q :: ps) - 1)%nat with (S (length (q :: ps) - 1)) in * by (cbn; lia).
      rewrite <- !size_at_S in *.
      apply unit_prod in M; [|apply power_range; [lra|apply csm_le; lia || assumption]|apply ms_range; easy || assumption].
      destruct M as [M _]. apply power_one_inv in M; [|exact P]. unfold cs in M.
      apply (over_one r h w (contrast_structure sd r c2 f g)
                    ltac:(lia) ltac:(lia) ltac:(intros; now apply cs_le) M a b A B). }
  assert (K : forall i j, (i < h)%nat -> (j < w)%nat -> f i j - g i j = f 0%nat 0%nat - g 0%nat 0%nat).
  { intros a b A B. apply (constant_difference sd r h w (fun a b => f a b - g a b)); try lia.
    intros. apply (cs_one sd r c2 C2). now apply V. }
  assert (Z : f 0%nat 0%nat - g 0%nat 0%nat = 0) by (apply (ms_shift ps h w f g); assumption).
  specialize (K i j I J). lra.
Qed.
End Multi.

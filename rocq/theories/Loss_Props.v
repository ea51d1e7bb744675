(** C82: the distortion losses. *)
From Coq Require Import String Arith List Bool Reals Lra Lia.
From Verif Require Import Base Tensor RSum Norm_Props Loss_Model.
Import ListNotations.
Open Scope string_scope.
Open Scope list_scope.
Open Scope R_scope.

Lemma sum3_ext : forall C H W f g, (forall c y x, (c < C)%nat -> (y < H)%nat -> (x < W)%nat -> f c y x = g c y x) -> sum3 C H W f = sum3 C H W g.
Proof. intros C H W f g E. unfold sum3. apply rsum_ext. intros c Hc. apply rsum_ext. intros y Hy. apply rsum_ext. intros x Hx. apply E; assumption. Qed.
Lemma sum3_scal : forall C H W a f, sum3 C H W (fun c y x => a * f c y x) = a * sum3 C H W f.
Proof.
  intros. unfold sum3. rewrite <- rsum_scal. apply rsum_ext. intros c _. rewrite <- rsum_scal. apply rsum_ext. intros y _. rewrite <- rsum_scal. reflexivity.
Qed.
Lemma sum3_nonneg : forall C H W f, (forall c y x, (c < C)%nat -> (y < H)%nat -> (x < W)%nat -> 0 <= f c y x) -> 0 <= sum3 C H W f.
Proof. intros C H W f P. apply rsum_nonneg. intros c Hc. apply rsum_nonneg. intros y Hy. apply rsum_nonneg. intros x Hx. apply P; assumption. Qed.
Lemma sum3_le : forall C H W f a, (forall c y x, (c < C)%nat -> (y < H)%nat -> (x < W)%nat -> f c y x <= a) -> sum3 C H W f <= INR (C * (H * W)) * a.
Proof.
  intros C H W f a P. unfold sum3. apply Rle_trans with (rsum C (fun _ => rsum H (fun _ => rsum W (fun _ => a)))).
  - apply rsum_le. intros c Hc. apply rsum_le. intros y Hy. apply rsum_le. intros x Hx. apply P; assumption.
  - rewrite !rsum_const, !mult_INR. right. ring.
Qed.
Lemma sum3_zero : forall C H W f, (forall c y x, (c < C)%nat -> (y < H)%nat -> (x < W)%nat -> 0 <= f c y x) -> sum3 C H W f = 0 ->
  forall c y x, (c < C)%nat -> (y < H)%nat -> (x < W)%nat -> f c y x = 0.
Proof.
  intros C H W f P Z c y x Hc Hy Hx. unfold sum3 in Z.
  assert (rsum H (fun y => rsum W (fun x => f c y x)) = 0) as Z1.
  { apply (rsum_zero_inv C (fun c => rsum H (fun y => rsum W (fun x => f c y x)))); auto. intros i Hi. apply rsum_nonneg. intros j Hj. apply rsum_nonneg. intros k Hk. apply P; assumption. }
  assert (rsum W (fun x => f c y x) = 0) as Z2.
  { apply (rsum_zero_inv H (fun y => rsum W (fun x => f c y x))); auto. intros j Hj. apply rsum_nonneg. intros k Hk. apply P; assumption. }
  apply (rsum_zero_inv W (fun x => f c y x)); auto.
Qed.
Lemma sumL_ext : forall A (f g : A -> R) l, (forall a, In a l -> f a = g a) -> sumL (map f l) = sumL (map g l).
Proof. intros A f g l E. f_equal. apply map_ext_in, E. Qed.
Lemma sumL_scal : forall A a (f : A -> R) l, sumL (map (fun x => a * f x) l) = a * sumL (map f l).
Proof. intros A a f. induction l as [|x l IH]; [cbn; lra|]. unfold sumL in *. cbn. rewrite IH. lra. Qed.
Lemma sumL_plus : forall A (f g : A -> R) l, sumL (map (fun x => f x + g x) l) = sumL (map f l) + sumL (map g l).
Proof. intros A f g. induction l as [|x l IH]; [cbn; lra|]. unfold sumL in *. cbn. rewrite IH. lra. Qed.
Lemma sumL_nonneg : forall A (f : A -> R) l, (forall a, In a l -> 0 <= f a) -> 0 <= sumL (map f l).
Proof. intros A f. induction l as [|x l IH]; intros P; [cbn; lra|]. unfold sumL in *. cbn. pose proof (P x (or_introl eq_refl)). assert (0 <= fold_right Rplus 0 (map f l)) by (apply IH; intros; apply P; right; assumption). lra. Qed.
Lemma sumL_zero : forall A (f : A -> R) l, (forall a, In a l -> 0 <= f a) -> sumL (map f l) = 0 -> forall a, In a l -> f a = 0.
Proof.
  intros A f. induction l as [|x l IH]; intros P Z a I; [destruct I|]. unfold sumL in *. cbn in Z. pose proof (P x (or_introl eq_refl)).
  assert (0 <= fold_right Rplus 0 (map f l)) by (apply (sumL_nonneg A f l); intros; apply P; right; assumption).
  destruct I as [<-|I]; [lra|]. apply IH; [intros; apply P; right; assumption|lra|exact I].
Qed.
Lemma sumL_le : forall A (f : A -> R) b l, (forall a, In a l -> f a <= b) -> sumL (map f l) <= INR (length l) * b.
Proof. intros A f b. induction l as [|x l IH]; intros P; [cbn; lra|]. unfold sumL in *. cbn [map fold_right]. change (length (x :: l)) with (S (length l)). rewrite S_INR. pose proof (P x (or_introl eq_refl)). assert (fold_right Rplus 0 (map f l) <= INR (length l) * b) by (apply IH; intros; apply P; right; assumption). lra. Qed.

Lemma sqr_sym : forall u v : R, (u - v) ^ 2 = (v - u) ^ 2.
Proof. intros. ring. Qed.
Lemma sqr_scal : forall u v : R, 255 ^ 2 * (u - v) ^ 2 = (255 * u - 255 * v) ^ 2.
Proof. intros. ring. Qed.
Lemma sqr_zero : forall u : R, u ^ 2 = 0 -> u = 0.
Proof. intros. nra. Qed.
(** ** Mean squared errors *)
(** Two batches agree on the visible pixels. *)
Definition same (C H W : nat) (a b : list image) : Prop := forall p, In p (combine a b) -> forall c y x, (c < C)%nat -> (y < H)%nat -> (x < W)%nat -> fst p c y x = snd p c y x.
Definition unit_range (C H W : nat) (i : image) : Prop := forall c y x, (c < C)%nat -> (y < H)%nat -> (x < W)%nat -> 0 <= i c y x <= 1.
Definition to255 (i : image) : image := fun c y x => 255 * i c y x.
Lemma combine_swap : forall A B (a : list A) (b : list B), combine b a = map (fun p => (snd p, fst p)) (combine a b).
Proof. induction a as [|x a IH]; intros [|y b]; try reflexivity. cbn. rewrite IH. reflexivity. Qed.
Lemma combine_map2 : forall A (f : A -> A) (a b : list A), combine (map f a) (map f b) = map (fun p => (f (fst p), f (snd p))) (combine a b).
Proof. induction a as [|x a IH]; intros [|y b]; try reflexivity. cbn. rewrite IH. reflexivity. Qed.
(** The loss is the mean squared difference of the pixels times the parameter: with the default parameter
    that of the images on the scale of 255.  It is symmetric, within [0, parameter] on images in [0, 1],
    and zero exactly for equal images; the loss of a batch is the mean of the losses of its images. *)
Theorem C82_mse : forall l C H W a b, (1 <= C * (H * W))%nat -> length a = length b -> (1 <= length a)%nat -> 0 < scale_param l ->
  MSELoss_call l C H W a b = MSELoss_call l C H W b a /\
  MSELoss_call MSELoss_new C H W a b = mse_loss C H W (map to255 a) (map to255 b) /\
  0 <= MSELoss_call l C H W a b /\
  (MSELoss_call l C H W a b = 0 <-> same C H W a b) /\
  (Forall (unit_range C H W) a -> Forall (unit_range C H W) b -> MSELoss_call l C H W a b <= scale_param l) /\
  MSELoss_call l C H W a b = meanL (map (fun p : image * image => MSELoss_call l C H W [fst p] [snd p]) (combine a b)).
Proof.
  intros l C H W a b V LE LN SP. unfold MSELoss_call, mse_loss.
  set (cnt := length (combine a b)). assert (cnt = length a) as EN by (unfold cnt; rewrite combine_length, LE, Nat.min_id; reflexivity).
  assert (0 < INR (cnt * (C * (H * W)))) as PD by (apply lt_0_INR; nia).
  assert (forall p, 0 <= sum3 C H W (fun c y x => (fst p c y x - snd p c y x) ^ 2)) as NN by (intros p; apply sum3_nonneg; intros; apply pow2_ge_0).
  set (Tot := sumL (map (fun p : image * image => sum3 C H W (fun c y x => (fst p c y x - snd p c y x) ^ 2)) (combine a b))).
  assert (0 <= Tot) as NS by (apply sumL_nonneg; intros; apply NN).
  assert (0 <= Tot / INR (cnt * (C * (H * W)))) as ND by (apply Rmult_le_pos; [exact NS|left; apply Rinv_0_lt_compat, PD]).
  split; [|split; [|split; [|split; [|split]]]].
  - rewrite (combine_swap _ _ a b), map_map, map_length. fold cnt. unfold Tot. f_equal. f_equal. apply sumL_ext. intros p _. apply sum3_ext. intros. apply sqr_sym.
  - cbn [scale_param MSELoss_new]. rewrite combine_map2, map_map, map_length. fold cnt. unfold Tot. unfold Rdiv. rewrite <- Rmult_assoc. f_equal. rewrite <- sumL_scal. apply sumL_ext. intros p _. rewrite <- sum3_scal.
    apply sum3_ext. intros. apply sqr_scal.
  - apply Rmult_le_pos; [lra|exact ND].
  - split.
    + intros Z p P c y x Hc Hy Hx. assert (Tot = 0) as Z0.
      { apply Rmult_integral in Z as [Z|Z]; [lra|]. unfold Rdiv in Z. apply Rmult_integral in Z as [Z|Z]; [exact Z|]. pose proof (Rinv_0_lt_compat _ PD). lra. }
      pose proof (sumL_zero _ _ _ (fun q _ => NN q) Z0 p P) as Z1. cbn beta in Z1.
      pose proof (sum3_zero C H W _ (fun _ _ _ _ _ _ => pow2_ge_0 _) Z1 c y x Hc Hy Hx) as Z2. cbn beta in Z2. apply Rminus_diag_uniq. apply sqr_zero, Z2.
    + intros E. assert (Tot = 0) as ->; [|lra]. unfold Tot. rewrite (sumL_ext _ _ (fun _ => 0 * 0)); [rewrite sumL_scal; lra|]. intros p P. rewrite (sum3_ext _ _ _ _ (fun _ _ _ => 0 * 0)); [rewrite sum3_scal; lra|].
      intros c y x Hc Hy Hx. rewrite (E p P c y x Hc Hy Hx). ring.
  - intros A B. rewrite <- (Rmult_1_r (scale_param l)) at 2. apply Rmult_le_compat_l; [lra|]. apply (Rmult_le_reg_r (INR (cnt * (C * (H * W))))); [exact PD|]. unfold Rdiv. rewrite Rmult_assoc, Rinv_l by lra.
    rewrite Rmult_1_r, Rmult_1_l. unfold Tot. rewrite mult_INR. eapply Rle_trans; [apply (sumL_le _ _ (INR (C * (H * W)) * 1))|fold cnt; lra]. intros [i j] P. apply sum3_le. intros c y x Hc Hy Hx. cbn [fst snd].
    rewrite Forall_forall in A, B. pose proof (A i (in_combine_l _ _ _ _ P) c y x Hc Hy Hx). pose proof (B j (in_combine_r _ _ _ _ P) c y x Hc Hy Hx). nra.
  - unfold meanL. rewrite map_length. fold cnt. cbn [combine map length]. rewrite Nat.mul_1_l.
    rewrite (sumL_ext _ _ (fun p : image * image => scale_param l * / INR (C * (H * W)) * sum3 C H W (fun c y x => (fst p c y x - snd p c y x) ^ 2))).
    + rewrite sumL_scal. fold Tot. rewrite mult_INR. assert (0 < INR cnt) by (apply lt_0_INR; lia). assert (0 < INR (C * (H * W))) by (apply lt_0_INR; lia). field. lra.
    + intros p _. unfold sumL. cbn [fold_right fst snd]. unfold Rdiv. ring.
Qed.

(** ** Normalised features *)
Lemma eps_pos : 0 < eps_default.
Proof. unfold eps_default. lra. Qed.
(** the squared length plus the protection *)
Lemma norm_sum : forall C x, rsum C (fun c => x c ^ 2 + eps_default) = rsum C (fun c => x c ^ 2) + INR C * eps_default.
Proof. intros. rewrite rsum_plus, rsum_const. reflexivity. Qed.
(** Normalised features point in the direction of the features and are shorter than 1, also where the
    features vanish; close features have close normalised features: the map has the Lipschitz constant
    1 / sqrt(C * 1e-8) everywhere, so its gradients are bounded. *)
Theorem C82_normalised : forall C x, (1 <= C)%nat ->
  (exists a, 0 < a /\ forall c, normalize_tensor C x c = a * x c) /\ rsum C (fun c => normalize_tensor C x c ^ 2) < 1 /\
  ((forall c, (c < C)%nat -> x c = 0) -> forall c, (c < C)%nat -> normalize_tensor C x c = 0).
Proof.
  intros C x HC. pose proof eps_pos as EP. assert (0 < INR C) by (apply lt_0_INR; lia). assert (0 <= rsum C (fun c => x c ^ 2)) as NN by (apply rsum_nonneg; intros; apply pow2_ge_0).
  assert (0 < rsum C (fun c => x c ^ 2 + eps_default)) as P by (rewrite norm_sum; nra). set (s := rsum C (fun c => x c ^ 2 + eps_default)) in *.
  assert (0 < sqrt s) as PS by (apply sqrt_lt_R0, P).
  split; [|split].
  - exists (/ sqrt s). split; [apply Rinv_0_lt_compat, PS|]. intros c. unfold normalize_tensor. fold s. unfold Rdiv. ring.
  - rewrite (rsum_ext _ _ (fun c => / s * x c ^ 2)).
    + rewrite rsum_scal. apply (Rmult_lt_reg_l s); [exact P|]. rewrite <- Rmult_assoc, Rinv_r by lra. unfold s. rewrite norm_sum. nra.
    + intros c _. unfold normalize_tensor. fold s. unfold Rdiv. rewrite Rpow_mult_distr. rewrite Rmult_comm. f_equal. rewrite pow_inv. f_equal. rewrite <- Rsqr_pow2. apply Rsqr_sqrt. lra.
  - intros Z c Hc. unfold normalize_tensor. rewrite Z by exact Hc. unfold Rdiv. ring.
Qed.
Theorem C82_stable : forall C x y, (1 <= C)%nat ->
  rsum C (fun c => (normalize_tensor C x c - normalize_tensor C y c) ^ 2) <= rsum C (fun c => (x c - y c) ^ 2) / (INR C * eps_default).
Proof.
  intros C x y HC. pose proof eps_pos as EP. assert (0 < INR C) as PC by (apply lt_0_INR; lia). set (a := INR C * eps_default). assert (0 < a) as PA by (unfold a; nra).
  set (X := rsum C (fun c => x c ^ 2)). set (Y := rsum C (fun c => y c ^ 2)). set (D := rsum C (fun c => x c * y c)).
  assert (0 <= X) as NX by (apply rsum_nonneg; intros; apply pow2_ge_0). assert (0 <= Y) as NY by (apply rsum_nonneg; intros; apply pow2_ge_0).
  set (p := sqrt (X + a)). set (q := sqrt (Y + a)).
  assert (p * p = X + a) as PP by (apply sqrt_sqrt; lra). assert (q * q = Y + a) as QQ by (apply sqrt_sqrt; lra).
  assert (0 < p) as P0 by (apply sqrt_lt_R0; lra). assert (0 < q) as Q0 by (apply sqrt_lt_R0; lra).
  assert (forall c, normalize_tensor C x c = / p * x c) as EX by (intros; unfold normalize_tensor; rewrite norm_sum; fold X a p; unfold Rdiv; ring).
  assert (forall c, normalize_tensor C y c = / q * y c) as EY by (intros; unfold normalize_tensor; rewrite norm_sum; fold Y a q; unfold Rdiv; ring).
  assert (rsum C (fun c => (x c - y c) ^ 2) = X + Y - 2 * D) as ED.
  { unfold X, Y, D. rewrite <- rsum_scal, <- rsum_plus, <- rsum_minus. apply rsum_ext. intros. ring. }
  rewrite (rsum_ext _ _ (fun c => / p * / p * x c ^ 2 + / q * / q * y c ^ 2 - 2 * / p * / q * (x c * y c))) by (intros; rewrite EX, EY; ring).
  rewrite rsum_minus, rsum_plus, !rsum_scal, ED. fold X Y D.
  assert (0 <= X + Y - 2 * D) as NE by (rewrite <- ED; apply rsum_nonneg; intros; apply pow2_ge_0).
  (* the two points lifted by sqrt a to the unit sphere *)
  assert (/ p * / p * X + / q * / q * Y - 2 * / p * / q * D <= 2 - 2 * / p * / q * (D + a)) as S1.
  { assert (/ p * / p * X = 1 - a * (/ p * / p)) as -> by (replace X with (p * p - a) by lra; field; lra).
    assert (/ q * / q * Y = 1 - a * (/ q * / q)) as -> by (replace Y with (q * q - a) by lra; field; lra).
    assert (0 <= a * (/ p - / q) ^ 2) by (apply Rmult_le_pos; [lra|apply pow2_ge_0]). nra. }
  assert (a <= p * q) as APQ.
  { assert (sqrt a * sqrt a = a) as SA by (apply sqrt_sqrt; lra). assert (sqrt a <= p) by (apply sqrt_le_1; lra). assert (sqrt a <= q) by (apply sqrt_le_1; lra). pose proof (sqrt_pos a). rewrite <- SA. apply Rmult_le_compat; lra. }
  assert (2 - 2 * / p * / q * (D + a) <= (X + Y - 2 * D) * / (p * q)) as S2.
  { apply (Rmult_le_reg_r (p * q)); [nra|]. replace ((2 - 2 * / p * / q * (D + a)) * (p * q)) with (2 * (p * q) - 2 * (D + a)) by (field; lra).
    rewrite Rmult_assoc, Rinv_l, Rmult_1_r by nra. pose proof (pow2_ge_0 (p - q)). nra. }
  assert ((X + Y - 2 * D) * / (p * q) <= (X + Y - 2 * D) / a) as S3.
  { unfold Rdiv. apply Rmult_le_compat_l; [exact NE|]. apply Rinv_le_contravar; lra. }
  lra.
Qed.

(** ** The perceptual distance *)
Lemma fold_sum : forall l a, fold_left (fun val r => val + r) l a = a + sumL l.
Proof. induction l as [|x l IH]; intros a; [cbn; lra|]. cbn [fold_left]. rewrite IH. unfold sumL. cbn. lra. Qed.
(** Features of layer k at (y, x), normalised, of one image. *)
Definition feature (m : lpips_model) (n : bool) (i : image) (k y x c : nat) : R :=
  normalize_tensor (FC m k) (fun c => net m (if version01 m then scaling m (if n then (fun c y x => 2 * i c y x - 1) else i) else (if n then (fun c y x => 2 * i c y x - 1) else i)) k c y x) c.
(** In evaluation mode: the sum over the layers of the mean over the places of the (weighted) squared
    distances of normalised features.  It is zero for an image with itself and symmetric; with weights
    between 0 and M it is at most 4 M per layer (2 M if the features are not negative). *)
Definition weight_of (m : lpips_model) (k c : nat) : R := if calibrated m then weight m k c else 1.
Theorem C82_lpips : forall m n a b, training m = false ->
  let d := fst (NormFix_forward m n a b) in
  d = sumL (map (fun k => rsum (FH m k) (fun y => rsum (FW m k) (fun x => rsum (FC m k) (fun c => weight_of m k c * (feature m n a k y x c - feature m n b k y x c) ^ 2))) / INR (FH m k * FW m k)) (seq 0 (L m))) /\
  d = sumL (snd (NormFix_forward m n a b)) /\
  d = fst (NormFix_forward m n b a) /\
  fst (NormFix_forward m n a a) = 0.
Proof.
  intros m n a b T d.
  assert (forall a b, fst (NormFix_forward m n a b) = sumL (map (fun k => rsum (FH m k) (fun y => rsum (FW m k) (fun x => rsum (FC m k) (fun c => weight_of m k c * (feature m n a k y x c - feature m n b k y x c) ^ 2))) / INR (FH m k * FW m k)) (seq 0 (L m)))) as E.
  { intros a' b'. unfold NormFix_forward. cbn [fst]. rewrite fold_sum, Rplus_0_l. unfold per_layer. apply sumL_ext. intros k _. unfold spatial_average. f_equal.
    apply rsum_ext. intros y _. apply rsum_ext. intros x _. unfold combined, weight_of, diff, feature, input, rescale. rewrite T. destruct (calibrated m); apply rsum_ext; intros c _; destruct (version01 m), n; ring. }
  split; [apply E|split; [|split]].
  - unfold d, NormFix_forward. cbn [fst snd]. rewrite fold_sum. lra.
  - unfold d. rewrite !E. apply sumL_ext. intros k _. f_equal. apply rsum_ext. intros y _. apply rsum_ext. intros x _. apply rsum_ext. intros c _. ring.
  - rewrite E. rewrite (sumL_ext _ _ (fun _ => 0 * 0)); [rewrite sumL_scal; lra|]. intros k _. unfold Rdiv. rewrite Rmult_0_l.
    rewrite (rsum_ext _ _ (fun _ => 0)); [rewrite rsum_const; ring|]. intros y _. rewrite (rsum_ext _ _ (fun _ => 0)); [rewrite rsum_const; ring|]. intros x _.
    rewrite (rsum_ext _ _ (fun _ => 0)); [rewrite rsum_const; ring|]. intros c _. ring.
Qed.
Lemma unit_diff : forall C f g, rsum C (fun c => f c ^ 2) <= 1 -> rsum C (fun c => g c ^ 2) <= 1 ->
  rsum C (fun c => (f c - g c) ^ 2) <= 4 /\ ((forall c, (c < C)%nat -> 0 <= f c /\ 0 <= g c) -> rsum C (fun c => (f c - g c) ^ 2) <= 2).
Proof.
  intros C f g F G. split.
  - apply Rle_trans with (rsum C (fun c => 2 * f c ^ 2 + 2 * g c ^ 2)); [apply rsum_le; intros c _; pose proof (pow2_ge_0 (f c + g c)); nra|]. rewrite rsum_plus, !rsum_scal. lra.
  - intros P. apply Rle_trans with (rsum C (fun c => f c ^ 2 + g c ^ 2)); [apply rsum_le; intros c Hc; destruct (P c Hc); nra|]. rewrite rsum_plus. lra.
Qed.
Theorem C82_lpips_bounds : forall m n a b M, training m = false -> (forall k, (k < L m)%nat -> (1 <= FC m k)%nat /\ (1 <= FH m k * FW m k)%nat) ->
  (forall k c, (k < L m)%nat -> (c < FC m k)%nat -> 0 <= weight_of m k c <= M) ->
  0 <= fst (NormFix_forward m n a b) <= INR (L m) * (4 * M) /\
  ((forall i k c y x, 0 <= net m i k c y x) -> fst (NormFix_forward m n a b) <= INR (L m) * (2 * M)).
Proof.
  intros m n a b M T SZ WB. destruct (C82_lpips m n a b T) as [E _]. cbv zeta in E. rewrite E.
  assert (forall B, (forall k y x, (k < L m)%nat -> rsum (FC m k) (fun c => (feature m n a k y x c - feature m n b k y x c) ^ 2) <= B) -> 
    sumL (map (fun k => rsum (FH m k) (fun y => rsum (FW m k) (fun x => rsum (FC m k) (fun c => weight_of m k c * (feature m n a k y x c - feature m n b k y x c) ^ 2))) / INR (FH m k * FW m k)) (seq 0 (L m))) <= INR (L m) * (B * M)) as K.
  { intros B HB. eapply Rle_trans; [apply (sumL_le _ _ (B * M))|rewrite seq_length; lra]. intros k Hk. apply in_seq in Hk. destruct (SZ k ltac:(lia)) as [C1 S1]. assert (0 < INR (FH m k * FW m k)) as PS by (apply lt_0_INR; lia).
    apply (Rmult_le_reg_r (INR (FH m k * FW m k))); [exact PS|]. unfold Rdiv. rewrite Rmult_assoc, Rinv_l, Rmult_1_r by lra.
    apply Rle_trans with (rsum (FH m k) (fun _ => rsum (FW m k) (fun _ => B * M))).
    - apply rsum_le. intros y _. apply rsum_le. intros x _. apply Rle_trans with (rsum (FC m k) (fun c => M * (feature m n a k y x c - feature m n b k y x c) ^ 2)).
      + apply rsum_le. intros c Hc. destruct (WB k c ltac:(lia) Hc). apply Rmult_le_compat_r; [apply pow2_ge_0|assumption].
      + rewrite rsum_scal, Rmult_comm. destruct (WB k 0%nat ltac:(lia) ltac:(lia)). apply Rmult_le_compat_r; [lra|]. apply HB. lia.
    - rewrite !rsum_const, mult_INR. right. ring. }
  assert (forall i k y x, (k < L m)%nat -> rsum (FC m k) (fun c => feature m n i k y x c ^ 2) <= 1) as U.
  { intros i k y x Hk. destruct (SZ k Hk) as [C1 _]. left. apply C82_normalised. exact C1. }
  split; [split|].
  - apply sumL_nonneg. intros k Hk. apply in_seq in Hk. destruct (SZ k ltac:(lia)) as [C1 S1]. apply Rmult_le_pos; [|left; apply Rinv_0_lt_compat, lt_0_INR; lia].
    apply rsum_nonneg. intros y _. apply rsum_nonneg. intros x _. apply rsum_nonneg. intros c Hc. destruct (WB k c ltac:(lia) Hc). apply Rmult_le_pos; [assumption|apply pow2_ge_0].
  - apply K. intros k y x Hk. apply unit_diff; apply U; exact Hk.
  - intros NN. apply K. intros k y x Hk. apply unit_diff; [apply U; exact Hk|apply U; exact Hk|]. intros c Hc. destruct (SZ k Hk) as [C1 _].
    assert (forall i, 0 <= feature m n i k y x c) as FP.
    { intros i. unfold feature. match goal with |- 0 <= normalize_tensor _ ?v c => destruct (C82_normalised (FC m k) v C1) as [(s & S0 & SE) _]; rewrite SE end. apply Rmult_le_pos; [lra|apply NN]. }
    split; apply FP.
Qed.

(** ** The combined loss *)
(** Whatever train and eval calls were made on the loss or on its model, the loss is the same function (the
    dropout of the calibration never acts): mse_param times the mean squared error plus lpips_param times the
    mean distance, for a batch the mean of the losses of its images. *)
Theorem C82_combined : forall m ops C H W a b, (1 <= C * (H * W))%nat -> length a = length b -> (1 <= length a)%nat ->
  let l := fold_left mode_step ops (MSELPIPSLoss_new m) in let m' := NormFix_train m false in
  training m' = false /\
  MSELPIPS_call l C H W a b = 255 ^ 2 * mse_loss C H W a b + meanL (map (fun p : image * image => fst (NormFix_forward m' true (fst p) (snd p))) (combine a b)) /\
  MSELPIPS_call l C H W a b = meanL (map (fun p : image * image => MSELPIPS_call l C H W [fst p] [snd p]) (combine a b)) /\
  MSELPIPS_call l C H W a b = MSELPIPS_call l C H W b a /\ MSELPIPS_call l C H W a a = 0.
Proof.
  intros m ops C H W a b V LE LN l m'.
  assert (exists t, l = mkML (255 ^ 2) 1 true m' t) as [t ->].
  { unfold l. assert (exists t, MSELPIPSLoss_new m = mkML (255 ^ 2) 1 true m' t) as [t0 ->] by (eexists; reflexivity). revert t0. induction ops as [|o ops IH]; intros t0; [exists t0; reflexivity|]. cbn [fold_left].
    destruct o; cbn [mode_step MSELPIPS_train MSELPIPS_train_model mse_param lpips_param normalize lpips_model_of loss_training]; apply IH. }
  split; [reflexivity|].
  assert (forall C H W a b, MSELPIPS_call (mkML (255 ^ 2) 1 true m' t) C H W a b = 255 ^ 2 * mse_loss C H W a b + meanL (map (fun p : image * image => fst (NormFix_forward m' true (fst p) (snd p))) (combine a b))) as E.
  { intros. unfold MSELPIPS_call. cbn [mse_param lpips_param normalize lpips_model_of]. ring. }
  split; [apply E|]. destruct (C82_mse (mkMSE (255 ^ 2)) C H W a b V LE LN ltac:(cbn [scale_param]; lra)) as (SYM & _ & _ & _ & _ & MEAN). unfold MSELoss_call in SYM, MEAN. cbn [scale_param] in SYM, MEAN.
  split; [|split].
  - rewrite E, MEAN. unfold meanL. rewrite !map_length, <- Rdiv_plus_distr. f_equal. rewrite <- sumL_plus. apply sumL_ext. intros p _. rewrite E. cbn [combine map]. unfold meanL, sumL. cbn [fold_right length fst snd]. cbn [INR]. lra.
  - rewrite !E, SYM. f_equal. rewrite (combine_swap _ _ a b), map_map. unfold meanL. rewrite !map_length. f_equal. apply sumL_ext. intros p _. cbn [fst snd].
    destruct (C82_lpips m' true (fst p) (snd p) eq_refl) as (_ & _ & S & _). exact S.
  - rewrite E. assert (forall p, In p (combine a a) -> fst p = snd p) as EQ by (clear; induction a; intros p; [intros []|intros [<-|I]; auto]).
    destruct (C82_mse (mkMSE (255 ^ 2)) C H W a a V eq_refl LN ltac:(cbn [scale_param]; lra)) as (_ & _ & _ & Z & _). unfold MSELoss_call in Z. cbn [scale_param] in Z.
    rewrite (proj2 Z) by (intros p P c y x _ _ _; rewrite (EQ p P); reflexivity). unfold meanL. rewrite (sumL_ext _ _ (fun _ => 0 * 0)).
    + rewrite sumL_scal. unfold Rdiv. ring.
    + intros p P. rewrite (EQ p P). destruct (C82_lpips m' true (snd p) (snd p) eq_refl) as (_ & _ & _ & Z0). rewrite Z0. ring.
Qed.

(** ** The functional form *)
Theorem C82_functional : forall score preds target net_ cal ver n red, 
  let scores := map (fun p : image * image => score net_ ver cal n (fst p) (snd p)) (combine preds target) in
  let r := lpips score preds target net_ cal ver n red in
  (~ In net_ ["alex"; "vgg"; "squeeze"] -> r = Raise ValueError) /\ (~ In ver ["0.0"; "0.1"] -> r = Raise ValueError) /\ (~ In red ["mean"; "sum"; "none"] -> r = Raise ValueError) /\
  (In net_ ["alex"; "vgg"; "squeeze"] -> In ver ["0.0"; "0.1"] ->
    (red = "none" -> r = Ok scores) /\ (red = "sum" -> r = Ok [sumL scores]) /\ (red = "mean" -> r = Ok [meanL scores])).
Proof.
  intros score preds target nt cal ver n red scores r. unfold r, lpips. fold scores. clear r.
  assert (forall s l, existsb (String.eqb s) l = true <-> In s l) as EX.
  { intros s l. rewrite existsb_exists. split; [intros (x & X & Q); apply String.eqb_eq in Q; subst; exact X|intros I; exists s; split; [exact I|apply String.eqb_refl]]. }
  assert (forall s l, ~ In s l -> existsb (String.eqb s) l = false) as NX by (intros s l N; apply not_true_is_false; rewrite EX; exact N).
  split; [|split; [|split]].
  - intros N. rewrite (NX _ _ N). reflexivity.
  - intros N. rewrite (NX _ _ N). destruct (existsb (String.eqb nt) _); reflexivity.
  - intros N. destruct (existsb (String.eqb nt) _); [|reflexivity]. cbn [negb]. destruct (existsb (String.eqb ver) _); [|reflexivity]. cbn [negb]. unfold get_reduction_op.
    assert (forall t, In t ["mean"; "sum"; "none"] -> (red =? t)%string = false) as NE by (intros t It; apply String.eqb_neq; intros ->; contradiction).
    rewrite !NE by (cbn; auto). reflexivity.
  - intros I1 I2. apply EX in I1, I2. rewrite I1, I2. cbn [negb]. split; [|split]; intros ->; reflexivity.
Qed.

(** A model with one layer of one feature (the image itself, from the red channel). *)
Definition tiny : lpips_model := mkLP 1 true false (fun i => i) (fun i _ => i) (fun _ => 1%nat) (fun _ => 1%nat) (fun _ => 1%nat) (fun _ _ => 1) (fun _ _ _ _ => 0) true.
Example tiny_far : let a : image := fun _ _ _ => 1 in let b : image := fun _ _ _ => 0 in
  3 < fst (NormFix_forward (NormFix_train tiny false) true a b) <= 4 /\ fst (NormFix_forward tiny true a b) = 0.
Proof.
  intros a b. unfold NormFix_forward, per_layer, tiny, NormFix_train, combined, diff, spatial_average, normalize_tensor, input, rescale, a, b, eps_default. cbn [fst map seq L calibrated version01 scaling net FC FH FW weight drop training fold_left rsum]. 
  rewrite !rsum_const. change (INR (1 * 1)) with 1. change (INR 1) with 1.
  replace (1 * ((2 * 1 - 1) ^ 2 + / 100000000)) with (100000001 / 100000000) by lra. replace (1 * ((2 * 0 - 1) ^ 2 + / 100000000)) with (100000001 / 100000000) by lra.
  set (s := sqrt (100000001 / 100000000)). assert (s * s = 100000001 / 100000000) as SS by (apply sqrt_sqrt; lra). assert (0 < s) as SP by (apply sqrt_lt_R0; lra).
  split; [|field; lra].
  match goal with |- 3 < ?e <= 4 => replace e with (4 / (s * s)) by (field; lra) end. rewrite SS. lra.
Qed.

Print Assumptions C82_mse.
Print Assumptions C82_stable.
Print Assumptions C82_lpips_bounds.
Print Assumptions C82_combined.
Print Assumptions C82_functional.

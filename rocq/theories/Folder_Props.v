(** C92: what the evaluation of a folder of images reports. *)
From Coq Require Import String ZArith Arith List Bool Reals Lra Lia Psatz ZifyNat Permutation.
From Flocq Require Import Core Relative.
From Verif Require Import Base RBase RFloat Tensor RSum Ssim_Model Ssim_Spec Ssim_Proofs Met_Model Met_Spec Fid_Model Fid_Spec Fid_Proofs
  Gsn_Model Gsn_Proofs Pickle_Model Psnr_Props Folder_Model.
From Verif Require Ssim_Props Fid_Props ClicImg_Props GanLoss_Props Met_Props.
Import ListNotations.
Open Scope nat_scope.
Open Scope list_scope.

(** ** Bytes *)
(** The nearest byte of a value between 0 and 1, up to the rounding of float32. *)
Definition nearest_byte (x : R) (v : Z) : Prop := (0 <= v <= 255)%Z /\ (Rabs (IZR v - 255 * x) <= 1/2 + / 2 ^ 15)%R.
Lemma p15 : (/ 2 ^ 15 = / 32768)%R. Proof. f_equal. cbn [pow]. ring. Qed.
Lemma b32_half_255 : b32 (255 + 1 / 2) = (255 + 1 / 2)%R.
Proof. replace (255 + 1 / 2)%R with (IZR 4088 / 16)%R by lra. apply b32_sixteenth. cbn. lia. Qed.
Lemma rescale_raw x : (0 <= x <= 1)%R -> exists z, rescale_value x = IZR z /\ z = Rfloor (b32 (b32 (x * 255) + 1 / 2)) /\ (0 <= z <= 255)%Z.
Proof.
  intros U. unfold rescale_value. destruct (b32_255 x U) as [A B]. set (v := b32 (x * 255)) in *.
  assert (0 <= b32 (v + 1 / 2))%R as P. { replace 0%R with (b32 (IZR 0)) by (apply b32_int; cbn; lia). apply b32_mono. lra. }
  assert (b32 (v + 1 / 2) <= 255 + 1 / 2)%R as Q. { rewrite <- b32_half_255. apply b32_mono. lra. }
  rewrite Rtrunc_floor by exact P. set (t := b32 (v + 1 / 2)) in *. exists (Rfloor t).
  assert (0 <= Rfloor t)%Z by (apply Rfloor_ge; exact P). assert (Rfloor t < 256)%Z by (apply Rfloor_lt; lra).
  split; [|split; [reflexivity|lia]]. f_equal. unfold u8. apply Z.mod_small. lia.
Qed.
Lemma rescale_near x : (0 <= x <= 1)%R -> exists z, rescale_value x = IZR z /\ nearest_byte x z.
Proof.
  intros U. destruct (rescale_raw x U) as (z & E & Z1 & Z2). exists z. split; [exact E|]. split; [exact Z2|].
  destruct (b32_255 x U) as [A B]. pose proof (b32_error (x * 255)) as E1. pose proof (b32_error (b32 (x * 255) + 1 / 2)) as E2.
  pose proof small_150 as S. rewrite p24 in *. generalize dependent (/ 2 ^ 150)%R. intros tiny E1 E2 S. set (v := b32 (x * 255)) in *.
  destruct (Rfloor_spec (b32 (v + 1 / 2))) as [F1 F2]. rewrite <- Z1 in F1, F2. set (t := b32 (v + 1 / 2)) in *.
  rewrite (Rabs_pos_eq (x * 255)) in E1 by lra. rewrite (Rabs_pos_eq (v + 1 / 2)) in E2 by lra. rewrite p15.
  apply Rabs_le. unfold Rabs in E1, E2. destruct (Rcase_abs _) in E1; destruct (Rcase_abs _) in E2; lra.
Qed.
(** The bytes of a picture come back unchanged. *)
Theorem C92_bytes_recovered : forall k, (0 <= k <= 255)%Z -> rescale_value (b32 (IZR k / 255)) = IZR k.
Proof.
  intros k K. assert (0 <= IZR k / 255 <= 1)%R as KR.
  { destruct K as [K1 K2]. apply IZR_le in K1, K2. split; [apply Rmult_le_pos; lra|].
    apply Rmult_le_reg_r with 255%R; [lra|]. unfold Rdiv. rewrite Rmult_assoc, Rinv_l by lra. lra. }
  assert (0 <= b32 (IZR k / 255) <= 1)%R as U.
  { split; [replace 0%R with (b32 (IZR 0)) by (apply b32_int; cbn; lia)|replace 1%R with (b32 (IZR 1)) by (apply b32_int; cbn; lia)]; apply b32_mono; lra. }
  destruct (rescale_near _ U) as (z & E & _ & N). rewrite E. f_equal.
  pose proof (b32_error (IZR k / 255)) as E1. pose proof small_150 as S. rewrite p24 in *. rewrite p15 in N.
  generalize dependent (/ 2 ^ 150)%R. intros tiny E1 S. set (v := b32 (IZR k / 255)) in *. rewrite (Rabs_pos_eq (IZR k / 255)) in E1 by lra.
  assert (Rabs (IZR z - IZR k) < 1)%R as D.
  { replace (IZR z - IZR k)%R with ((IZR z - 255 * v) + 255 * (v - IZR k / 255))%R by field.
    eapply Rle_lt_trans; [apply Rabs_triang|]. rewrite Rabs_mult, (Rabs_pos_eq 255) by lra. lra. }
  rewrite <- minus_IZR, <- abs_IZR in D. apply lt_IZR in D. lia.
Qed.
(** Every value between 0 and 1 becomes its nearest byte; larger values never become smaller bytes. *)
Theorem C92_nearest_byte : forall x, (0 <= x <= 1)%R -> exists z, rescale_value x = IZR z /\ nearest_byte x z.
Proof. exact rescale_near. Qed.
Theorem C92_bytes_monotone : forall x y, (0 <= x <= y)%R -> (y <= 1)%R -> (rescale_value x <= rescale_value y)%R.
Proof.
  intros x y X Y. destruct (rescale_raw x ltac:(lra)) as (a & -> & -> & _). destruct (rescale_raw y ltac:(lra)) as (b & -> & -> & _).
  apply IZR_le, Rfloor_mono, b32_mono. apply Rplus_le_compat_r. apply b32_mono. lra.
Qed.

(** ** Sums in float64 *)
Definition u64 : R := (/ 2 ^ 53)%R.
Lemma u64_small : (0 < u64 <= / 1000)%R.
Proof. unfold u64. split; [apply Rinv_0_lt_compat, pow_lt; lra|]. apply Rinv_le; [lra|]. cbn [pow]. lra. Qed.
Lemma b64_relative x : (/ 2 ^ 1000 <= x)%R -> ((1 - u64) * x <= b64 x <= (1 + u64) * x)%R.
Proof.
  intro H. assert (0 < / 2 ^ 1000)%R as P by (apply Rinv_0_lt_compat, pow_lt; lra).
  pose proof (relative_error_N_FLT radix2 (-1074) 53 prec53 (fun x => negb (Z.even x)) x) as E.
  replace (/ 2 * bpow radix2 (- (53) + 1))%R with u64 in E.
  2: { unfold u64. change (bpow radix2 (- (53) + 1)) with (/ IZR (Zpower_pos 2 52))%R. rewrite <- Rinv_mult.
       f_equal. rewrite pow_IZR. rewrite <- mult_IZR. apply f_equal. reflexivity. }
  fold (b64 x) in E. assert (Rabs (b64 x - x) <= u64 * Rabs x)%R as A.
  { apply E. rewrite Rabs_pos_eq by lra. eapply Rle_trans; [|exact H]. replace (/ 2 ^ 1000)%R with (bpow radix2 (-1000)).
    - apply bpow_le. lia.
    - change (-1000)%Z with (Z.opp 1000). rewrite bpow_opp. f_equal. rewrite pow_IZR. reflexivity. }
  rewrite (Rabs_pos_eq x) in A by lra. unfold Rabs in A. destruct (Rcase_abs _) in A; lra.
Qed.
Definition within (n : nat) (a A : R) : Prop := ((1 - u64) ^ n * A <= a <= (1 + u64) ^ n * A)%R.
Lemma within_le n m a A : n <= m -> (0 <= A)%R -> within n a A -> within m a A.
Proof.
  intros L P [H1 H2]. pose proof u64_small. split.
  - eapply Rle_trans; [|exact H1]. apply Rmult_le_compat_r; [exact P|]. replace m with (n + (m - n)) by lia. rewrite Rdef_pow_add.
    rewrite <- (Rmult_1_r ((1 - u64) ^ n)) at 2. apply Rmult_le_compat_l; [apply pow_le; lra|].
    apply Rle_trans with (1 ^ (m - n))%R; [apply pow_incr; lra|rewrite pow1; lra].
  - eapply Rle_trans; [exact H2|]. apply Rmult_le_compat_r; [exact P|]. apply Rle_pow; [lra|exact L].
Qed.
Lemma within_b64 n a A : (0 <= A)%R -> (/ 2 ^ 1000 <= a)%R -> within n a A -> within (S n) (b64 a) A.
Proof.
  intros P Q [H1 H2]. pose proof u64_small. destruct (b64_relative a Q) as [B1 B2]. unfold within. cbn [pow]. split.
  - eapply Rle_trans; [|exact B1]. rewrite Rmult_assoc. apply Rmult_le_compat_l; lra.
  - eapply Rle_trans; [exact B2|]. rewrite Rmult_assoc. apply Rmult_le_compat_l; lra.
Qed.
Lemma within_plus n a A b B : within n a A -> within n b B -> within n (a + b) (A + B).
Proof. intros [H1 H2] [H3 H4]. split; rewrite Rmult_plus_distr_l; lra. Qed.
Lemma bernoulli n : (1 - INR n * u64 <= (1 - u64) ^ n)%R /\ (1 + INR n * u64 <= (1 + u64) ^ n)%R.
Proof.
  pose proof u64_small as S. induction n as [|n [I1 I2]]; [cbn; lra|]. cbn [pow]. rewrite S_INR. pose proof (pos_INR n). split.
  - eapply Rle_trans; [|apply Rmult_le_compat_l; [lra|exact I1]]. nra.
  - eapply Rle_trans; [|apply Rmult_le_compat_l; [lra|exact I2]]. nra.
Qed.
Lemma within_error n a A : (0 <= A)%R -> within n a A -> (Rabs (a - A) <= ((1 + u64) ^ n - 1) * A)%R.
Proof.
  intros P [H1 H2]. destruct (bernoulli n) as [B1 B2]. apply Rabs_le.
  assert ((1 - INR n * u64) * A <= (1 - u64) ^ n * A)%R by (apply Rmult_le_compat_r; assumption).
  assert ((1 + INR n * u64) * A <= (1 + u64) ^ n * A)%R by (apply Rmult_le_compat_r; assumption). lra.
Qed.
Definition normal (x : R) : Prop := (/ 2 ^ 60 <= x)%R.
Lemma pow60 : (/ 2 ^ 1000 <= (1 - u64) * / 2 ^ 60)%R.
Proof.
  pose proof u64_small as S. assert (0 < / 2 ^ 60)%R as P by (apply Rinv_0_lt_compat, pow_lt; lra).
  apply Rle_trans with (/ 2 ^ 61)%R.
  - apply Rinv_le; [apply pow_lt; lra|apply Rle_pow; [lra|]]. apply Nat.leb_le. reflexivity.
  - change (2 ^ 61)%R with (2 * 2 ^ 60)%R. rewrite Rinv_mult. apply Rmult_le_compat_r; lra.
Qed.
Lemma sum_within : forall xs k a A, Forall normal xs -> (0 <= A)%R -> (0 <= a)%R -> within (S k) a A ->
  within (S (k + length xs)) (fold_left (fun a x => b64 (a + x)) (map b64 xs) a) (A + sum_of xs).
Proof.
  induction xs as [|x xs IH]; intros k a A F PA Pa W; cbn [length map fold_left sum_of fold_right].
  - rewrite Nat.add_0_r. replace (A + 0)%R with A by ring. exact W.
  - inversion F as [|y l N F' E]; subst. pose proof u64_small as US. pose proof pow60 as P60. unfold normal in N.
    assert (0 < / 2 ^ 60)%R as P by (apply Rinv_0_lt_compat, pow_lt; lra). assert (0 < / 2 ^ 1000)%R as P' by (apply Rinv_0_lt_compat, pow_lt; lra).
    assert (/ 2 ^ 1000 <= x)%R as N1. { eapply Rle_trans; [exact P60|]. eapply Rle_trans; [|exact N]. rewrite <- (Rmult_1_l (/ 2 ^ 60)) at 2. apply Rmult_le_compat_r; lra. }
    pose proof (b64_relative x N1) as [B1 B2].
    assert (/ 2 ^ 1000 <= b64 x)%R as N2. { eapply Rle_trans; [exact P60|]. eapply Rle_trans; [|exact B1]. apply Rmult_le_compat_l; lra. }
    assert (within (S (S k)) (b64 (a + b64 x)) (A + x)) as W2.
    { apply within_b64; [lra|lra|]. apply within_plus; [exact W|]. apply (within_le 1); [lia|lra|]. split; rewrite pow_1; assumption. }
    replace (S (k + S (length xs))) with (S (S k + length xs)) by lia. replace (A + (x + fold_right Rplus 0 xs))%R with ((A + x) + sum_of xs)%R by (unfold sum_of; ring).
    apply IH; [exact F'|lra| |exact W2]. destruct W2 as [W2 _]. eapply Rle_trans; [|exact W2]. apply Rmult_le_pos; [apply pow_le; lra|lra].
Qed.
(** The mean of n correctly rounded numbers: within n + 2 roundings of the exact mean. *)
Lemma mean_within xs : xs <> [] -> Forall normal xs -> (Z.of_nat (length xs) <= 2 ^ 52)%Z ->
  let r := b64 (py_sum (map b64 xs) / INR (length xs)) in
  (Rabs (r - mean_of xs) <= ((1 + u64) ^ (length xs + 2) - 1) * mean_of xs)%R.
Proof.
  intros NE F BIG r. pose proof u64_small as US. assert (1 <= INR (length xs))%R as LP by (change 1%R with (INR 1); apply le_INR; destruct xs; [easy|cbn; lia]).
  pose proof (sum_within xs 0 0 0 F ltac:(lra) ltac:(lra)) as W. rewrite Rplus_0_l in W.
  assert (within 1 0 0) as W0 by (split; rewrite Rmult_0_r; lra). specialize (W W0). fold (py_sum (map b64 xs)) in W. cbn [Nat.add] in W.
  assert (0 < / 2 ^ 60)%R as P by (apply Rinv_0_lt_compat, pow_lt; lra).
  assert (INR (length xs) * / 2 ^ 60 <= sum_of xs)%R as SP.
  { clear -F P. induction F as [|z l N F IH]; [cbn; lra|]. cbn [length sum_of fold_right]. rewrite S_INR. unfold normal, sum_of in *. lra. }
  assert (/ 2 ^ 60 <= mean_of xs)%R as MP.
  { unfold mean_of. apply (Rmult_le_reg_r (INR (length xs))); [lra|]. unfold Rdiv. rewrite Rmult_assoc, Rinv_l, Rmult_1_r by lra. lra. }
  assert (within (S (length xs)) (py_sum (map b64 xs) / INR (length xs)) (mean_of xs)) as WM.
  { destruct W as [W1 W2]. unfold mean_of, Rdiv. split; rewrite <- Rmult_assoc; apply Rmult_le_compat_r; try (left; apply Rinv_0_lt_compat; lra); assumption. }
  apply within_error; [lra|]. replace (length xs + 2) with (S (S (length xs))) by lia. apply within_b64; [lra| |exact WM].
  assert (INR (S (length xs)) * u64 <= / 2 + / 1000)%R as K.
  { rewrite S_INR. assert (INR (length xs) <= 2 ^ 52)%R as B. { rewrite INR_IZR_INZ. rewrite pow_IZR. apply IZR_le. exact BIG. }
    assert (2 ^ 52 * u64 = / 2)%R as HH. { unfold u64. change (2 ^ 53)%R with (2 * 2 ^ 52)%R. rewrite Rinv_mult. field. }
    assert (INR (length xs) * u64 <= 2 ^ 52 * u64)%R by (apply Rmult_le_compat_r; lra). lra. }
  destruct WM as [WM _]. eapply Rle_trans; [|exact WM]. destruct (bernoulli (S (length xs))) as [BN _].
  apply Rle_trans with ((1 - INR (S (length xs)) * u64) * / 2 ^ 60)%R; [|apply Rmult_le_compat; lra].
  apply Rle_trans with (/ 2 ^ 62)%R.
  - apply Rinv_le; [apply pow_lt; lra|apply Rle_pow; [lra|]]. apply Nat.leb_le. reflexivity.
  - change (2 ^ 62)%R with (2 * (2 * 2 ^ 60))%R. rewrite !Rinv_mult. rewrite <- Rmult_assoc. apply Rmult_le_compat_r; lra.
Qed.

(** ** One picture *)
Section Eval.
Variable compress : tensor R -> res val.
Variable decompress : val -> res (tensor R).
Variable lpips : tensor R -> tensor R -> res R.

Record outcome := mkO { o_h : nat; o_w : nat; o_bytes : nat -> nat -> nat -> Z; o_size : Z; o_out : tensor R; o_lpips : R }.
(** The picture as the model gets it: float32 values between 0 and 1. *)
Definition picture (k : outcome) : tensor R :=
  mkT [1; 3; o_h k; o_w k] (fun idx => match idx with [_; c; y; x] => b32 (IZR (o_bytes k c y x) / 255) | _ => 0%R end).
Definition limited (t : tensor R) : tensor R := mkT (tshape t) (fun i => Rmin (Rmax (tat t i) 0) 1).
(** A file that can be evaluated: a picture of at least 256 by 256 pixels (and not of astronomical size), which the model
    compresses to an object of so many bytes and reconstructs with its size, and which LPIPS scores. *)
Definition evaluated (e : entry) (k : outcome) : Prop :=
  e = Picture (o_h k) (o_w k) (o_bytes k) /\ (256 <= o_h k /\ 256 <= o_w k) /\ (Z.of_nat (o_h k * o_w k) <= 2 ^ 60)%Z /\
  (forall c y x, (0 <= o_bytes k c y x <= 255)%Z) /\
  (exists z, compress (picture k) = Ok z /\ o_size k = Z.of_nat (length (dumps z)) /\ decompress z = Ok (o_out k)) /\
  tshape (o_out k) = [1; 3; o_h k; o_w k] /\
  lpips (limited (o_out k)) (picture k) = Ok (o_lpips k).
Definition bits_per_pixel (k : outcome) : R := (8 * IZR (o_size k) / (INR (o_h k) * INR (o_w k)))%R.
(** Bytes of the reconstruction, by channel, row and column. *)
Definition reconstruction (k : outcome) (c y x : nat) : R := Rmin (Rmax (tat (o_out k) [0; c; y; x]) 0) 1.
Definition decoded (near : R -> Z -> Prop) (k : outcome) (d : nat -> nat -> nat -> Z) : Prop :=
  forall c y x, near (reconstruction k c y x) (d c y x).
(** The quality of a reconstruction with bytes d. *)
Definition squared (k : outcome) (d : nat -> nat -> nat -> Z) : R :=
  rsum 3 (fun c => rsum (o_h k) (fun y => rsum (o_w k) (fun x => (IZR (d c y x) - IZR (o_bytes k c y x)) ^ 2)))%R.
Definition psnr_is (k : outcome) (d : nat -> nat -> nat -> Z) (p : xreal) : Prop :=
  (squared k d = 0%R -> p = PInf) /\ (squared k d <> 0%R -> p = Fin (decibel 255 (squared k d / (3 * INR (o_h k) * INR (o_w k)))%R)).
Definition ms_ssim_of (k : outcome) (d : nat -> nat -> nat -> Z) : R :=
  (rsum 3 (fun c => ms_ssim 1.5 5 ((0.01 * 255) ^ 2) ((0.03 * 255) ^ 2) (o_h k) (o_w k) (fun y x => IZR (d c y x)) (fun y x => IZR (o_bytes k c y x))
                    [448/10000; 2856/10000; 3001/10000; 2363/10000; 1333/10000]) / 3)%R.
(** The patches of 256 by 256 pixels of a picture, on the grid that starts at (s, s). *)
Definition byte_patches (k : outcome) (b : nat -> nat -> nat -> Z) (s : nat) (P : tensor Z) : Prop :=
  let ny := (o_h k - s) / 256 in let nx := (o_w k - s) / 256 in
  tshape P = [ny * nx; 3; 256; 256] /\
  forall i j c u v, i < ny -> j < nx -> c < 3 -> u < 256 -> v < 256 -> tat P [i * nx + j; c; u; v] = b c (s + i * 256 + u) (s + j * 256 + v).
Definition fid_calls (k : outcome) (f : nat -> nat -> nat -> Z) (cs : list (tensor Z * bool)) : Prop :=
  exists R F, byte_patches k (o_bytes k) 0 R /\ byte_patches k f 0 F /\
  ((o_h k < 384 \/ o_w k < 384) /\ cs = [(R, true); (F, false)] \/
   (384 <= o_h k /\ 384 <= o_w k) /\ exists R' F', byte_patches k (o_bytes k) 128 R' /\ byte_patches k f 128 F' /\
     cs = [(R, true); (F, false); (R', true); (F', false)]).

Definition dec (k : outcome) (c y x : nat) : Z := Rfloor (b32 (b32 (reconstruction k c y x * 255) + 1 / 2)).
Definition fdec (k : outcome) (c y x : nat) : Z := to_255 (reconstruction k c y x).
Lemma unit_clamp v : (0 <= Rmin (Rmax v 0) 1 <= 1)%R.
Proof. split; [apply Rmin_glb; [apply Rmax_r|lra]|apply Rmin_r]. Qed.
Lemma rescale_dec x : (0 <= x <= 1)%R -> rescale_value x = IZR (Rfloor (b32 (b32 (x * 255) + 1 / 2))).
Proof. intros U. destruct (rescale_raw x U) as (z & -> & -> & _). reflexivity. Qed.
Lemma dec_near k : decoded nearest_byte k (dec k).
Proof.
  intros c y x. pose proof (unit_clamp (tat (o_out k) [0; c; y; x])) as U. fold (reconstruction k c y x) in U.
  destruct (rescale_near _ U) as (z & E & N). rewrite (rescale_dec _ U) in E. apply eq_IZR in E. unfold dec. rewrite E. exact N.
Qed.
Lemma fdec_near k : decoded nearest_255 k (fdec k).
Proof.
  intros c y x. pose proof (unit_clamp (tat (o_out k) [0; c; y; x])) as U. fold (reconstruction k c y x) in U. set (v := reconstruction k c y x) in *.
  unfold fdec. fold v. destruct (to_255_ok v U) as [E R]. split; [exact R|]. rewrite E.
  pose proof (round_even_near (b32 (v * 255))) as A. pose proof (b32_error (v * 255)) as B.
  pose proof small_150 as S. rewrite p24 in *. generalize dependent (/ 2 ^ 150)%R. intros tiny B S. set (q := b32 (v * 255)) in *. set (z := IZR (round_even q)) in *.
  rewrite p16. rewrite (Rabs_pos_eq (v * 255)) in B by lra.
  replace (z - 255 * v)%R with (- (q - z) + (q - v * 255))%R by ring.
  eapply Rle_trans; [apply Rabs_triang|]. rewrite Rabs_Ropp. lra.
Qed.
Lemma byte_unit k : (0 <= k <= 255)%Z -> (0 <= b32 (IZR k / 255) <= 1)%R.
Proof.
  intros K. assert (0 <= IZR k / 255 <= 1)%R as KR.
  { destruct K as [K1 K2]. apply IZR_le in K1, K2. split; [apply Rmult_le_pos; lra|].
    apply Rmult_le_reg_r with 255%R; [lra|]. unfold Rdiv. rewrite Rmult_assoc, Rinv_l by lra. lra. }
  split; [replace 0%R with (b32 (IZR 0)) by (apply b32_int; cbn; lia)|replace 1%R with (b32 (IZR 1)) by (apply b32_int; cbn; lia)]; apply b32_mono; lra.
Qed.
Lemma to_255_byte k : (0 <= k <= 255)%Z -> to_255 (b32 (IZR k / 255)) = k.
Proof.
  intros K. pose proof (byte_unit k K) as Q. destruct (to_255_ok _ Q) as [-> _].
  apply round_even_unique. pose proof (b32_error (IZR k / 255)) as A. pose proof (b32_error (b32 (IZR k / 255) * 255)) as B.
  pose proof small_150 as S. rewrite p24 in *. generalize dependent (/ 2 ^ 150)%R. intros tiny A B S. set (v := b32 (IZR k / 255)) in *. set (z := b32 (v * 255)) in *.
  assert (KR : (0 <= IZR k / 255 <= 1)%R).
  { destruct K as [U1 U2]. apply IZR_le in U1, U2. split; [apply Rmult_le_pos; lra|].
    apply Rmult_le_reg_r with 255%R; [lra|]. unfold Rdiv. rewrite Rmult_assoc, Rinv_l by lra. lra. }
  rewrite (Rabs_pos_eq (IZR k / 255)) in A by lra. rewrite (Rabs_pos_eq (v * 255)) in B by lra.
  replace (z - IZR k)%R with ((z - v * 255) + 255 * (v - IZR k / 255))%R by field.
  eapply Rle_lt_trans; [apply Rabs_triang|]. rewrite Rabs_mult, (Rabs_pos_eq 255) by lra. lra.
Qed.

(** Sums over the values of a tensor. *)
Lemma values_sum h w (f g : tensor R) : tshape f = [1; 3; h; w] -> tshape g = [1; 3; h; w] ->
  squared_error (values f) (values g) = rsum 3 (fun c => rsum h (fun y => rsum w (fun x => (tat f [0; c; y; x]%nat - tat g [0; c; y; x]%nat) ^ 2)))%R.
Proof.
  intros F G. unfold squared_error, values. rewrite F, G. set (n := prod [1; 3; h; w]).
  assert (forall l (a b : nat -> R), combine (map a l) (map b l) = map (fun q => (a q, b q)) l) as C.
  { induction l as [|q l IH]; intros a b; [reflexivity|]. cbn [map combine]. now rewrite IH. }
  rewrite C, map_map. cbn [fst snd]. unfold sum_of. match goal with |- _ = ?r => change (rsum n (fun q => (tat f (unravel [1; 3; h; w]%nat q) - tat g (unravel [1; 3; h; w]%nat q)) ^ 2)%R = r) end.
  assert (n = 3 * (h * w)) as -> by (unfold n, prod; cbn [fold_right]; lia).
  rewrite GanLoss_Props.rsum_blocks. apply rsum_ext. intros c Hc. rewrite GanLoss_Props.rsum_blocks. apply rsum_ext. intros y Hy. apply rsum_ext. intros x Hx.
  assert (unravel [1; 3; h; w] (c * (h * w) + (y * w + x)) = [0; c; y; x]) as ->; [|reflexivity].
  rewrite <- (unravel_ravel [1; 3; h; w] [0; c; y; x]); [|cbn; lia]. f_equal. cbn [ravel prod fold_right]. lia.
Qed.
Lemma psnr_ok k : 1 <= o_h k -> 1 <= o_w k -> (forall c y x, (0 <= o_bytes k c y x <= 255)%Z) -> tshape (o_out k) = [1; 3; o_h k; o_w k] ->
  exists p, calc_psnr (values (rescale_image (clamp01 (o_out k)))) (values (rescale_image (picture k))) 255 = Ok p /\ psnr_is k (dec k) p.
Proof.
  intros H W B T. set (f := rescale_image (clamp01 (o_out k))). set (g := rescale_image (picture k)).
  assert (TF : tshape f = [1; 3; o_h k; o_w k]) by exact T. assert (TG : tshape g = [1; 3; o_h k; o_w k]) by reflexivity.
  assert (squared_error (values f) (values g) = squared k (dec k)) as E.
  { rewrite (values_sum _ _ _ _ TF TG). apply rsum_ext. intros c _. apply rsum_ext. intros y _. apply rsum_ext. intros x _. f_equal. f_equal.
    - unfold f. cbn [rescale_image tat clamp01]. fold (reconstruction k c y x). rewrite rescale_dec by apply unit_clamp. reflexivity.
    - unfold g. cbn [rescale_image tat picture]. apply C92_bytes_recovered, B. }
  assert (length (values f) = length (values g)) as L by (unfold values; rewrite !map_length, TF, TG; reflexivity).
  assert (length (values f) = 3 * o_h k * o_w k) as N by (unfold values; rewrite map_length, seq_length, TF; cbn [prod fold_right]; lia).
  assert (values f <> []) as NE by (intros Q; rewrite Q in N; cbn [length] in N; nia).
  rewrite (psnr_value _ _ 255 NE L ltac:(lra)). pose proof (sq_zero_iff _ _ L) as Z. rewrite E, N in *.
  destruct (list_eq_dec Req_EM_T (values f) (values g)) as [Q|Q]; eexists; (split; [reflexivity|]); split; intros X; try reflexivity; try (exfalso; tauto).
  rewrite !mult_INR. do 3 f_equal. cbn [INR]. ring.
Qed.
Lemma patches_bytes k b x s P : patches_of to_255 x 1 (o_h k) (o_w k) 256 s P -> (forall c y z, to_255 (tat x [0; c; y; z]) = b c y z) -> byte_patches k b s P.
Proof.
  intros [T V] E. unfold byte_patches. cbv zeta. rewrite Nat.mul_1_l in T. split; [exact T|]. intros i j c u v I J C U W.
  rewrite <- E. rewrite <- (V 0 i j ltac:(lia) I J c u v C U W). f_equal.
Qed.
Lemma unit_limited t : in_unit (clamp01 t).
Proof. intros i _. cbn [clamp01 tat]. apply unit_clamp. Qed.
Lemma unit_picture k : (forall c y x, (0 <= o_bytes k c y x <= 255)%Z) -> in_unit (picture k).
Proof.
  intros B i I. cbn [picture tshape tat] in *. destruct i as [|a [|c [|y [|x [|]]]]]; cbn in I; try tauto; try (destruct I as (? & ? & ? & ?); tauto).
  apply byte_unit, B.
Qed.
Lemma fid_ok k l : (256 <= o_h k /\ 256 <= o_w k) -> (forall c y x, (0 <= o_bytes k c y x <= 255)%Z) -> tshape (o_out k) = [1; 3; o_h k; o_w k] ->
  exists cs n, update_patch_fid (picture k) (clamp01 (o_out k)) (mkMetrics (Some l) None None) 256 = (mkMetrics (Some (l ++ cs)) None None, Ok n) /\ fid_calls k (fdec k) cs.
Proof.
  intros [H W] B T. set (m := mkMetrics (Some l) None None).
  assert (Fid_Props.has_metric m) as HM by (left; discriminate).
  destruct (Fid_Props.patch_fid_updates (picture k) (clamp01 (o_out k)) m 1 (o_h k) (o_w k) 256 HM eq_refl T (unit_picture k B) (unit_limited _)
    ltac:(lia) ltac:(lia) H W) as (R & F & PR & PF & S1 & S2).
  assert (ER : forall c y z, to_255 (tat (picture k) [0; c; y; z]) = o_bytes k c y z) by (intros; apply to_255_byte, B).
  assert (EF : forall c y z, to_255 (tat (clamp01 (o_out k)) [0; c; y; z]) = fdec k c y z) by reflexivity.
  destruct (update_patch_fid (picture k) (clamp01 (o_out k)) m 256) as [m' r] eqn:U. cbn [fst snd] in S1, S2.
  assert (forall cs n, r = Ok n -> Fid_Props.received m m' cs -> (m', r) = (mkMetrics (Some (l ++ cs)) None None, Ok n)) as K.
  { intros cs n E (A1 & A2 & A3). destruct m' as [a b c]. cbn [fid fid_swav kid m] in A1, A2, A3. subst. reflexivity. }
  destruct (le_lt_dec 384 (o_h k)) as [LH|LH]; [destruct (le_lt_dec 384 (o_w k)) as [LW|LW]|].
  - destruct (S2 ltac:(lia) ltac:(lia)) as (R' & F' & PR' & PF' & E & RC). change (256 / 2) with 128 in *.
    do 2 eexists. split; [apply (K _ _ E RC)|]. exists R, F. split; [apply (patches_bytes _ _ _ _ _ PR ER)|]. split; [apply (patches_bytes _ _ _ _ _ PF EF)|].
    right. split; [lia|]. exists R', F'. split; [apply (patches_bytes _ _ _ _ _ PR' ER)|]. split; [apply (patches_bytes _ _ _ _ _ PF' EF)|reflexivity].
  - destruct (S1 ltac:(lia)) as (E & RC). do 2 eexists. split; [apply (K _ _ E RC)|]. exists R, F.
    split; [apply (patches_bytes _ _ _ _ _ PR ER)|]. split; [apply (patches_bytes _ _ _ _ _ PF EF)|]. left. split; [lia|reflexivity].
  - destruct (S1 ltac:(lia)) as (E & RC). do 2 eexists. split; [apply (K _ _ E RC)|]. exists R, F.
    split; [apply (patches_bytes _ _ _ _ _ PR ER)|]. split; [apply (patches_bytes _ _ _ _ _ PF EF)|]. left. split; [lia|reflexivity].
Qed.
Lemma ms_ok k s : (256 <= o_h k /\ 256 <= o_w k) -> (forall c y x, (0 <= o_bytes k c y x <= 255)%Z) -> tshape (o_out k) = [1; 3; o_h k; o_w k] ->
  msssim_update 255 11 0.01 0.03 1.5 MS_SSIM_FACTORS s (rescale_image (clamp01 (o_out k)), rescale_image (picture k))
  = Ok (mkSum (score_sum s + ms_ssim_of k (dec k)) (total s + 1)).
Proof.
  intros [H W] B T. unfold msssim_update. set (f := rescale_image (clamp01 (o_out k))). set (g := rescale_image (picture k)).
  assert (TF : tshape f = [1; 3; o_h k; o_w k]) by exact T. assert (TG : tshape g = [1; 3; o_h k; o_w k]) by reflexivity.
  destruct (Ssim_Props.msssim_default_size) as (_ & _ & _ & D).
  destruct (Ssim_Props.run_ok 255 0.01 0.03 1.5 5 1 3 3 (o_h k) (o_w k) f g MS_SSIM_FACTORS "sum" ltac:(discriminate) TF TG ltac:(lia) ltac:(lia) ltac:(lia)
    ltac:(apply D; lia) ltac:(apply D; lia)) as (v & TV & V & E).
  unfold Ssim_Props.msssim in E. change (Z.of_nat (2 * 5 + 1)) with 11%Z in E. rewrite E. unfold reduce. cbn [String.eqb Ascii.eqb Bool.eqb bind].
  rewrite TF. cbn [nth tat]. f_equal. f_equal. f_equal. rewrite TV. cbn [nth]. unfold rsum at 1. cbn [seq map fold_right]. rewrite Rplus_0_r, V.
  unfold Ssim_Props.paper_score, ms_ssim_of. f_equal; [|cbn [INR]; lra]. apply rsum_ext. intros c C. apply ms_ext; intros y x Y X; unfold plane.
  - unfold f. cbn [rescale_image tat clamp01]. fold (reconstruction k c y x). rewrite rescale_dec by apply unit_clamp. reflexivity.
  - unfold g. cbn [rescale_image tat picture]. apply C92_bytes_recovered, B.
Qed.
Lemma process_ok e k s l : evaluated e k -> fid_metric s = mkMetrics (Some l) None None ->
  exists p cs, psnr_is k (dec k) p /\ fid_calls k (fdec k) cs /\
  process compress decompress lpips s e = Ok (mkRun (psnr_vals s ++ [p]) (bpp_vals s ++ [b64 (bits_per_pixel k)])
    (mkSum (score_sum (msssim s) + ms_ssim_of k (dec k)) (total (msssim s) + 1))
    (mkSum (score_sum (lpips_sum s) + o_lpips k) (total (lpips_sum s) + 1)) (mkMetrics (Some (l ++ cs)) None None)).
Proof.
  intros (-> & HW & BIG & B & (z & C & SZ & D) & T & L) FM. unfold process. cbn [read bind].
  change (totensor (o_h k) (o_w k) (o_bytes k)) with (picture k). rewrite C. cbn [bind]. rewrite D. cbn [bind].
  destruct (Nat.eqb_spec (1 * o_h k * o_w k) 0) as [Q|_]; [exfalso; nia|]. cbn [bind]. rewrite FM.
  destruct (fid_ok k l HW B T) as (cs & n & -> & FC). cbn [bind].
  destruct (list_eq_dec Nat.eq_dec (tshape (rescale_image (clamp01 (o_out k)))) (tshape (rescale_image (picture k)))) as [_|NE]; [|exfalso; apply NE; exact T].
  destruct (psnr_ok k ltac:(lia) ltac:(lia) B T) as (p & -> & PP). cbn [bind]. rewrite (ms_ok k _ HW B T). cbn [bind].
  change (clamp01 (o_out k)) with (limited (o_out k)). rewrite L. cbn [bind]. exists p, cs. split; [exact PP|]. split; [exact FC|].
  assert (tshape (limited (o_out k)) = [1; 3; o_h k; o_w k]) as -> by exact T. cbn [nth].
  assert (IZR (pickle_size_of z * 8) / IZR (Z.of_nat (1 * o_h k * o_w k)) = bits_per_pixel k)%R as ->; [|reflexivity].
  unfold bits_per_pixel, pickle_size_of, len. rewrite SZ. rewrite <- INR_IZR_INZ, !mult_INR, mult_IZR. cbn [INR]. unfold Rdiv. rewrite Rmult_1_l. rewrite (Rmult_comm 8). reflexivity.
Qed.

(** ** The folder *)
(** The entries whose names end in .png, in the order of the folder. *)
Inductive png_entries : list (string * entry) -> list entry -> Prop :=
| No_entries : png_entries [] []
| A_png stem e d es : png_entries d es -> png_entries ((stem ++ ".png", e)%string :: d) (e :: es)
| Another n e d es : (forall stem, n <> (stem ++ ".png")%string) -> png_entries d es -> png_entries ((n, e) :: d) es.
Lemma glob_spec d es : png_entries d es -> glob_png d = es.
Proof.
  induction 1 as [|stem e d es P IH|n e d es N P IH]; unfold glob_png in *; cbn [filter fst]; [reflexivity| |].
  - replace (ClicImg_Model.ends_with ".png" (stem ++ ".png")) with true; [cbn [map snd]; now rewrite IH|]. symmetry. apply ClicImg_Props.ends_with_png. exists stem. reflexivity.
  - destruct (ClicImg_Model.ends_with ".png" n) eqn:E; [|exact IH]. apply ClicImg_Props.ends_with_png in E. destruct E as [stem E]. exfalso. apply (N stem E).
Qed.
Theorem C92_entries : forall d, exists es, png_entries d es.
Proof.
  induction d as [|[n e] d [es IH]]; [exists []; constructor|].
  destruct (ClicImg_Model.ends_with ".png" n) eqn:E.
  - apply ClicImg_Props.ends_with_png in E. destruct E as [stem ->]. exists (e :: es). constructor. exact IH.
  - exists es. constructor; [|exact IH]. intros stem ->. assert (ClicImg_Model.ends_with ".png" (stem ++ ".png") = true) as K by (apply ClicImg_Props.ends_with_png; exists stem; reflexivity).
    rewrite K in E. discriminate.
Qed.
(** The mean of numbers of decibels, infinite if one of them is. *)
Definition psnr_mean (ps : list xreal) (r : xreal) : Prop :=
  (In PInf ps -> r = PInf) /\ (forall vs, ps = map Fin vs -> r = Fin (mean_of vs)).
Definition patch_count (k : outcome) : nat :=
  (o_h k / 256) * (o_w k / 256) + (if (384 <=? o_h k) && (384 <=? o_w k) then ((o_h k - 128) / 256) * ((o_w k - 128) / 256) else 0).

Lemma sum_of_app a b : sum_of (a ++ b) = (sum_of a + sum_of b)%R.
Proof. unfold sum_of. induction a as [|x a IH]; cbn [app fold_right]; [lra|rewrite IH; ring]. Qed.
Lemma process_all_ok es ks : Forall2 evaluated es ks -> forall s l, fid_metric s = mkMetrics (Some l) None None ->
  exists ps css, Forall2 (fun k p => psnr_is k (dec k) p) ks ps /\ Forall2 (fun k cs => fid_calls k (fdec k) cs) ks css /\
  exists s', process_all compress decompress lpips s es = Ok s' /\
    psnr_vals s' = psnr_vals s ++ ps /\ bpp_vals s' = bpp_vals s ++ map b64 (map bits_per_pixel ks) /\
    score_sum (msssim s') = (score_sum (msssim s) + sum_of (map (fun k => ms_ssim_of k (dec k)) ks))%R /\ total (msssim s') = total (msssim s) + length ks /\
    score_sum (lpips_sum s') = (score_sum (lpips_sum s) + sum_of (map o_lpips ks))%R /\ total (lpips_sum s') = total (lpips_sum s) + length ks /\
    fid_metric s' = mkMetrics (Some (l ++ concat css)) None None.
Proof.
  induction 1 as [|e k es ks E F IH]; intros s l FM.
  - exists [], []. split; [constructor|]. split; [constructor|]. exists s. cbn [process_all map concat length sum_of fold_right]. rewrite !app_nil_r, FM.
    repeat split; try lra; lia.
  - destruct (process_ok e k s l E FM) as (p & cs & PP & FC & PR). cbn [process_all]. rewrite PR. cbn [bind].
    match goal with |- context [process_all _ _ _ ?x es] => destruct (IH x (l ++ cs) eq_refl) as (ps & css & FP & FC' & s' & R & A1 & A2 & A3 & A4 & A5 & A6 & A7) end.
    exists (p :: ps), (cs :: css). split; [constructor; assumption|]. split; [constructor; assumption|]. exists s'. rewrite R.
    cbn [psnr_vals bpp_vals msssim lpips_sum score_sum total] in *. cbn [map length concat sum_of fold_right]. rewrite A1, A2, A3, A4, A5, A6, A7. unfold sum_of. rewrite <- !app_assoc.
    repeat split; try (cbn [app]; reflexivity); try ring; lia.
Qed.
Lemma fold_xadd : forall ps vs a, ps = map Fin vs -> fold_left xadd ps (Fin a) = Fin (a + sum_of vs).
Proof.
  induction ps as [|p ps IH]; intros [|v vs] a E; try discriminate; [cbn; f_equal; lra|]. injection E as -> E. cbn [fold_left xadd sum_of fold_right].
  rewrite (IH vs (a + v)%R E). f_equal. unfold sum_of. ring.
Qed.
Lemma fold_pinf : forall ps, fold_left xadd ps PInf = PInf.
Proof. induction ps as [|p ps IH]; [reflexivity|]. cbn. exact IH. Qed.
Lemma fold_xadd_inf : forall ps a, In PInf ps -> fold_left xadd ps a = PInf.
Proof.
  induction ps as [|p ps IH]; intros a I; [destruct I|]. destruct I as [-> | I]; cbn [fold_left].
  - destruct a; apply fold_pinf.
  - apply IH, I.
Qed.
Lemma psnr_mean_ok ps : psnr_mean ps (xdiv (fold_left xadd ps (Fin 0)) (length ps)).
Proof.
  split.
  - intros I. rewrite (fold_xadd_inf _ _ I). reflexivity.
  - intros vs E. rewrite (fold_xadd _ _ _ E), E, map_length. cbn [xdiv]. unfold mean_of. f_equal. f_equal. lra.
Qed.
Lemma seen_app kind a b : seen kind (mkMetrics (Some (a ++ b)) None None) = seen kind (mkMetrics (Some a) None None) + seen kind (mkMetrics (Some b) None None).
Proof. unfold seen. cbn [fid]. induction a as [|x a IH]; cbn [app fold_right]; [reflexivity|]. rewrite IH. lia. Qed.
Lemma seen_calls kind k f cs : fid_calls k f cs -> seen kind (mkMetrics (Some cs) None None) = patch_count k.
Proof.
  intros (R & F & [TR _] & [TF _] & H). unfold patch_count. cbn zeta in TR, TF. rewrite !Nat.sub_0_r in TR, TF. destruct H as [[S ->]|[[S1 S2] (R' & F' & [TR' _] & [TF' _] & ->)]]; cbn zeta in *; unfold seen; cbn [fid fold_right fst snd].
  - rewrite TR, TF. cbn [nth]. replace ((384 <=? o_h k) && (384 <=? o_w k)) with false by (symmetry; apply andb_false_iff; destruct S; [left|right]; apply Nat.leb_gt; lia).
    destruct kind; cbn [Bool.eqb]; lia.
  - rewrite TR, TF, TR', TF'. cbn [nth]. rewrite (proj2 (Nat.leb_le _ _) S1), (proj2 (Nat.leb_le _ _) S2). cbn [andb]. destruct kind; cbn [Bool.eqb]; lia.
Qed.
Lemma seen_all kind ks css : Forall2 (fun k cs => fid_calls k (fdec k) cs) ks css -> seen kind (mkMetrics (Some (concat css)) None None) = list_sum (map patch_count ks).
Proof.
  induction 1 as [|k cs ks css C F IH]; [reflexivity|]. cbn [concat map]. rewrite seen_app, (seen_calls _ _ _ _ C), IH. reflexivity.
Qed.
Lemma close_len out cur : length out <= length (close_frame out cur).
Proof. destruct cur; cbn [close_frame]; [rewrite app_length|]; lia. Qed.
Lemma frames_len : forall evs out cur, length out <= length (frames evs out cur).
Proof.
  induction evs as [|[| b|b] evs IH]; intros out cur; cbn [frames].
  - apply close_len.
  - destruct cur as [c|]; [destruct (_ <=? _)%Z|]; [etransitivity; [|apply IH]; apply (close_len out (Some c))| |]; apply IH.
  - apply IH.
  - etransitivity; [|apply IH]. rewrite app_length. pose proof (close_len out cur). lia.
Qed.
Lemma bits_normal e k : evaluated e k -> normal (bits_per_pixel k).
Proof.
  intros (-> & HW & BIG & B & (z & C & SZ & D) & T & L). unfold normal, bits_per_pixel.
  assert (1 <= o_size k)%Z as S1. { rewrite SZ. unfold dumps. match goal with |- context [frames ?a ?b ?c] => pose proof (frames_len a b c) as Q end. cbn [length] in Q. lia. }
  assert (INR (o_h k) * INR (o_w k) <= 2 ^ 60)%R as P. { rewrite <- mult_INR, INR_IZR_INZ, pow_IZR. apply IZR_le. exact BIG. }
  assert (0 < INR (o_h k) * INR (o_w k))%R as Q by (apply Rmult_lt_0_compat; apply lt_0_INR; lia). apply IZR_le in S1.
  apply Rle_trans with (/ (INR (o_h k) * INR (o_w k)))%R; [apply Rinv_le; [exact Q|exact P]|]. unfold Rdiv. rewrite <- (Rmult_1_l (/ _)) at 1.
  apply Rmult_le_compat_r; [left; apply Rinv_0_lt_compat, Q|lra].
Qed.

(** The report of a folder whose pictures can all be evaluated. *)
Theorem C92_report : forall dir es ks, png_entries dir es -> Forall2 evaluated es ks -> (Z.of_nat (length ks) <= 2 ^ 52)%Z -> 2 <= list_sum (map patch_count ks) ->
  exists rep d f, main compress decompress lpips dir = Ok rep /\
    (forall k, In k ks -> decoded nearest_byte k (d k) /\ decoded nearest_255 k (f k)) /\
    (let exact := mean_of (map bits_per_pixel ks) in Rabs (rate rep - exact) <= ((1 + / 2 ^ 53) ^ (length ks + 2) - 1) * exact)%R /\
    (exists ps, Forall2 (fun k p => psnr_is k (d k) p) ks ps /\ psnr_mean ps (psnr_total rep)) /\
    msssim_total rep = mean_of (map (fun k => ms_ssim_of k (d k)) ks) /\
    lpips_total rep = mean_of (map o_lpips ks) /\
    (exists css, Forall2 (fun k cs => fid_calls k (f k) cs) ks css /\ fid_updates rep = mkMetrics (Some (concat css)) None None).
Proof.
  intros dir es ks G F BIG TWO. unfold main. rewrite (glob_spec _ _ G).
  destruct (process_all_ok es ks F start [] eq_refl) as (ps & css & FP & FC & s' & R & A1 & A2 & A3 & A4 & A5 & A6 & A7).
  rewrite R. cbn [bind]. unfold totals. cbn [start psnr_vals bpp_vals msssim lpips_sum score_sum total sum_init app] in *.
  rewrite A2, A1, A7. rewrite !map_length. assert (ks <> []) as NE by (intros ->; cbn in TWO; lia).
  destruct (Nat.eqb_spec (length ks) 0) as [Q|_]; [destruct ks; [easy|discriminate]|]. rewrite !(seen_all _ _ _ FC).
  destruct (Nat.ltb_spec (list_sum (map patch_count ks)) 2) as [Q|_]; [lia|]. cbn [orb]. eexists. exists dec, fdec. split; [reflexivity|].
  split; [intros k _; split; [apply dec_near|apply fdec_near]|]. cbn [rate psnr_total msssim_total lpips_total fid_updates].
  split; [|split; [|split; [|split]]].
  - pose proof (mean_within (map bits_per_pixel ks)) as M. rewrite map_length in M. apply M; [intros Q; apply map_eq_nil in Q; contradiction| |exact BIG].
    clear -F. induction F as [|e k es ks E F IH]; cbn [map]; constructor; [apply (bits_normal e), E|exact IH].
  - exists ps. split; [exact FP|]. apply psnr_mean_ok.
  - unfold sum_compute, mean_of. rewrite A3, A4, map_length, Rplus_0_l. reflexivity.
  - unfold sum_compute, mean_of. rewrite A5, A6, map_length, Rplus_0_l. reflexivity.
  - exists css. split; [exact FC|reflexivity].
Qed.
(** A folder without such files, or with a single patch in all, has no report. *)
Theorem C92_nothing_to_report : forall dir, png_entries dir [] -> main compress decompress lpips dir = Raise ZeroDivisionError.
Proof. intros dir G. unfold main. rewrite (glob_spec _ _ G). reflexivity. Qed.
Theorem C92_single_patch_refused : forall dir e k, png_entries dir [e] -> evaluated e k -> o_h k < 512 -> o_w k < 512 -> o_h k < 384 \/ o_w k < 384 ->
  main compress decompress lpips dir = Raise RuntimeError.
Proof.
  intros dir e k G E H W S. unfold main. rewrite (glob_spec _ _ G).
  destruct (process_all_ok [e] [k] (Forall2_cons _ _ E (Forall2_nil _)) start [] eq_refl) as (ps & css & FP & FC & s' & R & A1 & A2 & A3 & A4 & A5 & A6 & A7).
  rewrite R. cbn [bind]. unfold totals. cbn [start psnr_vals bpp_vals app] in *. rewrite A2, A7. cbn [map length Nat.eqb]. rewrite (seen_all _ _ _ FC).
  assert (list_sum (map patch_count [k]) <= 1) as C.
  { cbn [map list_sum fold_right]. unfold patch_count. replace ((384 <=? o_h k) && (384 <=? o_w k)) with false by (symmetry; apply andb_false_iff; destruct S; [left|right]; apply Nat.leb_gt; lia).
    assert (o_h k / 256 <= 1) by (apply Nat.lt_succ_r, Nat.div_lt_upper_bound; lia). assert (o_w k / 256 <= 1) by (apply Nat.lt_succ_r, Nat.div_lt_upper_bound; lia). nia. }
  destruct (Nat.ltb_spec (list_sum (map patch_count [k])) 2) as [_|Q]; [reflexivity|lia].
Qed.
Lemma process_all_app a b s : process_all compress decompress lpips s (a ++ b) =
  match process_all compress decompress lpips s a with Ok s' => process_all compress decompress lpips s' b | Raise e => Raise e end.
Proof.
  revert s. induction a as [|e a IH]; intros s; [reflexivity|]. cbn [app process_all]. destruct (process compress decompress lpips s e); cbn [bind]; [apply IH|reflexivity].
Qed.
(** One file that is too small, or no picture, and nothing is reported however many others there are. *)
Theorem C92_small_picture : forall dir good ks h w b rest z out, png_entries dir (good ++ Picture h w b :: rest) -> Forall2 evaluated good ks ->
  compress (mkT [1; 3; h; w] (fun idx => match idx with [_; c; y; x] => b32 (IZR (b c y x) / 255) | _ => 0%R end)) = Ok z -> decompress z = Ok out ->
  1 <= h -> 1 <= w -> h < 256 \/ w < 256 -> main compress decompress lpips dir = Raise RuntimeError.
Proof.
  intros dir good ks h w b rest z out G F C D H W S. unfold main. rewrite (glob_spec _ _ G), process_all_app.
  destruct (process_all_ok good ks F start [] eq_refl) as (ps & css & FP & FC & s' & R & A1 & A2 & A3 & A4 & A5 & A6 & A7). rewrite R.
  cbn [process_all]. unfold process. cbn [read bind]. change (totensor h w b) with (mkT [1; 3; h; w] (fun idx => match idx with [_; c; y; x] => b32 (IZR (b c y x) / 255) | _ => 0%R end)).
  rewrite C. cbn [bind]. rewrite D. cbn [bind]. destruct (Nat.eqb_spec (1 * h * w) 0) as [Q|_]; [exfalso; nia|]. cbn [bind]. rewrite A7.
  match goal with |- context [update_patch_fid ?x ?y ?m ?p] => pose proof (Fid_Props.patch_fid_refusals x y m 1 3 h w p eq_refl) as (_ & Q & _); rewrite Q; [reflexivity|left; discriminate|lia] end.
Qed.
Theorem C92_unreadable : forall dir good ks bad rest, png_entries dir (good ++ bad :: rest) -> Forall2 evaluated good ks -> bad = Folder \/ bad = Unreadable ->
  main compress decompress lpips dir = Raise OSError.
Proof.
  intros dir good ks bad rest G F B. unfold main. rewrite (glob_spec _ _ G), process_all_app.
  destruct (process_all_ok good ks F start [] eq_refl) as (ps & css & FP & FC & s' & R & _). rewrite R.
  destruct B as [-> | ->]; reflexivity.
Qed.
(** The order in which the folder lists its files does not change the averages of the qualities. *)
Definition psnr_value_of (k : outcome) : xreal :=
  if Req_EM_T (squared k (dec k)) 0 then PInf else Fin (decibel 255 (squared k (dec k) / (3 * INR (o_h k) * INR (o_w k)))%R).
Lemma psnr_values ks ps : Forall2 (fun k p => psnr_is k (dec k) p) ks ps -> ps = map psnr_value_of ks.
Proof.
  induction 1 as [|k p ks ps [P1 P2] F IH]; [reflexivity|]. cbn [map]. rewrite <- IH. f_equal. unfold psnr_value_of.
  destruct (Req_EM_T (squared k (dec k)) 0) as [E|E]; auto.
Qed.
Lemma xadd_perm ps ps' a : Permutation ps ps' -> fold_left xadd ps a = fold_left xadd ps' a.
Proof.
  intros P. revert a. induction P as [|x l l' P IH|x y l|l l' l'' P IH P' IH']; intros a; cbn [fold_left]; [reflexivity|apply IH| |rewrite IH; apply IH'].
  f_equal. destruct a, x, y; cbn [xadd]; try reflexivity. f_equal. ring.
Qed.
Lemma list_sum_perm (l l' : list nat) : Permutation l l' -> list_sum l = list_sum l'.
Proof. induction 1; cbn [list_sum fold_right] in *; unfold list_sum in *; lia. Qed.
Theorem C92_order : forall dir dir' es es' ks ks', png_entries dir es -> png_entries dir' es' -> Forall2 evaluated es ks -> Forall2 evaluated es' ks' -> Permutation ks ks' ->
  2 <= list_sum (map patch_count ks) ->
  exists rep rep', main compress decompress lpips dir = Ok rep /\ main compress decompress lpips dir' = Ok rep' /\
    psnr_total rep = psnr_total rep' /\ msssim_total rep = msssim_total rep' /\ lpips_total rep = lpips_total rep'.
Proof.
  intros dir dir' es es' ks ks' G G' F F' P TWO. unfold main. rewrite (glob_spec _ _ G), (glob_spec _ _ G').
  destruct (process_all_ok es ks F start [] eq_refl) as (ps & css & FP & FC & s & R & A1 & A2 & A3 & A4 & A5 & A6 & A7).
  destruct (process_all_ok es' ks' F' start [] eq_refl) as (ps' & css' & FP' & FC' & s' & R' & B1 & B2 & B3 & B4 & B5 & B6 & B7).
  rewrite R, R'. cbn [bind]. unfold totals. cbn [start psnr_vals bpp_vals msssim lpips_sum score_sum total sum_init app] in *.
  rewrite A2, A7, B2, B7, !map_length. assert (length ks = length ks') as L by apply (Permutation_length P). rewrite <- L.
  assert (ks <> []) as NE by (intros ->; cbn in TWO; lia). destruct (Nat.eqb_spec (length ks) 0) as [Q|_]; [destruct ks; [easy|discriminate]|].
  rewrite !(seen_all _ _ _ FC), !(seen_all _ _ _ FC'), <- (list_sum_perm _ _ (Permutation_map patch_count P)).
  destruct (Nat.ltb_spec (list_sum (map patch_count ks)) 2) as [Q|_]; [lia|]. cbn [orb]. do 2 eexists. split; [reflexivity|]. split; [reflexivity|].
  cbn [psnr_total msssim_total lpips_total]. unfold sum_compute. rewrite A1, B1, A3, A4, A5, A6, B3, B4, B5, B6, <- L, (psnr_values _ _ FP), (psnr_values _ _ FP').
  rewrite (xadd_perm _ _ _ (Permutation_map psnr_value_of P)), !map_length, <- L. split; [reflexivity|].
  assert (forall g, sum_of (map g ks) = sum_of (map g ks')) as SP by (intros g; apply Met_Props.sum_perm, Permutation_map, P). rewrite !SP. split; reflexivity.
Qed.
End Eval.

(** A folder with a black picture of 512 by 512 pixels (five patches), a text and an upper-case name,
    under a model that returns grey. *)
Example C92_ex : let black := fun _ _ _ : nat => 0%Z in
  let compress := fun _ : tensor R => Ok (VInt 7) in
  let decompress := fun _ : val => Ok (mkT [1; 3; 512; 512] (fun _ => 2%R)) in
  let lpips := fun _ _ : tensor R => Ok (1 / 3)%R in
  let dir := [("notes.txt", Unreadable); (".a.png", Picture 512 512 black); ("B.PNG", Folder)]%string in
  let k := mkO 512 512 black (Z.of_nat (length (dumps (VInt 7)))) (mkT [1; 3; 512; 512] (fun _ => 2%R)) (1 / 3) in
  png_entries dir [Picture 512 512 black] /\ Forall2 (evaluated compress decompress lpips) [Picture 512 512 black] [k] /\ patch_count k = 5.
Proof.
  cbv zeta. split; [|split].
  - apply Another; [|apply (A_png ".a"), Another; [|constructor]].
    + intros stem E. assert (ClicImg_Model.ends_with ".png" "notes.txt" = true) as K by (apply ClicImg_Props.ends_with_png; exists stem; exact E). discriminate.
    + intros stem E. assert (ClicImg_Model.ends_with ".png" "B.PNG" = true) as K by (apply ClicImg_Props.ends_with_png; exists stem; exact E). discriminate.
  - constructor; [|constructor]. split; [reflexivity|]. cbn [o_h o_w o_bytes o_size o_out o_lpips].
    split; [split; apply Nat.leb_le; reflexivity|]. split; [apply Z.leb_le; rewrite Nat2Z.inj_mul; reflexivity|]. split; [intros; lia|].
    split; [exists (VInt 7); repeat split|]. split; reflexivity.
  - reflexivity.
Qed.
Print Assumptions C92_report.
Print Assumptions C92_order.
Print Assumptions C92_bytes_recovered.

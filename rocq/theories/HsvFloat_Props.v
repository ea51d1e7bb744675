(** HSV to RGB in single precision (C44). *)
From Coq Require Import Reals ZArith Lia Lra.
From Flocq Require Import Core.Raux.
From Verif Require Import RBase RFloat Func_Model Func_Spec Func_Props HsvFloat_Model VqbFloat_Props Gsn_Props Dist_Props.
Open Scope R_scope.

(** The clipped triangle of the conversion, as a function of the rotated hue in [1, 11]. *)
Definition wedge (k : R) : R := Rmax 0 (Rmin (Rmin k (4 - k)) 1).
Lemma fmod_low t : 0 <= t < 6 -> fmod6 t = t.
Proof. intro H. unfold fmod6. rewrite (Rfloor_unique (t / 6) 0) by lra. lra. Qed.
Lemma fmod_high t : 6 <= t < 12 -> fmod6 t = t - 6.
Proof. intro H. unfold fmod6. rewrite (Rfloor_unique (t / 6) 1) by lra. lra. Qed.
Lemma fmod_12 : fmod6 12 = 0.
Proof. unfold fmod6. rewrite (Rfloor_unique (12 / 6) 2) by lra. lra. Qed.
Lemma b32_I (z : Z) : (Z.abs z <= 100)%Z -> b32 (IZR z) = IZR z.
Proof. intro H. apply b32_int. lia. Qed.

Section Pixel.
Variables (q s v : R).
Hypothesis Q : 0 <= q <= 13 / 2.
Hypothesis S1 : 0 <= s <= 1.
Hypothesis V : 0 <= v.
Hypothesis VF : float32 v.
Let c (n : R) : R := let k := fmod6 (b32 (n + q)) in Rmax 0 (Rmin (Rmin k (b32 (4 - k))) 1).
Lemma c_range n : 0 <= c n <= 1.
Proof. unfold c. split; [apply Rmax_l|]. apply Rmax_lub; [lra|apply Rmin_r]. Qed.
Lemma vs_range : 0 <= b32 (v * s) <= v.
Proof. split; [rewrite <- b32_0; apply b32_mono; nra|rewrite <- (b32_exact v VF) at 2; apply b32_mono; nra]. Qed.
Lemma convert_range n : b32 (v - b32 (v * s)) <= convert_fl q s v n <= v.
Proof.
  unfold convert_fl. fold (c n). change (let k := fmod6 (b32 (n + q)) in _) with (b32 (v - b32 (b32 (v * s) * c n))).
  pose proof (c_range n) as C. pose proof vs_range as W. set (w := b32 (v * s)) in *.
  assert (P : 0 <= b32 (w * c n) <= w).
  { split; [rewrite <- b32_0; apply b32_mono; nra|]. rewrite <- (b32_exact w) at 2 by apply b32_float. apply b32_mono; nra. }
  split; [apply b32_mono; lra|]. rewrite <- (b32_exact v VF) at 2. apply b32_mono. lra.
Qed.
Lemma convert_top n : c n = 0 -> convert_fl q s v n = v.
Proof.
  intro C. unfold convert_fl. fold (c n). change (let k := fmod6 (b32 (n + q)) in _) with (b32 (v - b32 (b32 (v * s) * c n))). rewrite C, Rmult_0_r, b32_0, Rminus_0_r. apply b32_exact, VF.
Qed.
Lemma convert_bottom n : c n = 1 -> convert_fl q s v n = b32 (v - b32 (v * s)).
Proof.
  intro C. unfold convert_fl. fold (c n). change (let k := fmod6 (b32 (n + q)) in _) with (b32 (v - b32 (b32 (v * s) * c n))). rewrite C, Rmult_1_r, (b32_exact (b32 _)) by apply b32_float. reflexivity.
Qed.
Lemma rot (n : Z) a b : (0 <= n <= 10)%Z -> (Z.abs a <= 50)%Z -> (Z.abs b <= 50)%Z -> IZR a <= IZR n + q <= IZR b -> IZR a <= b32 (IZR n + q) <= IZR b.
Proof. intros N A B H. rewrite <- (b32_I a), <- (b32_I b) by lia. split; apply b32_mono; lra. Qed.
Lemma c_zero n : 4 <= fmod6 (b32 (n + q)) \/ fmod6 (b32 (n + q)) = 0 -> c n = 0.
Proof.
  intro H. unfold c. set (k := fmod6 _) in *. cbn zeta. apply Rmax_left. destruct H as [H| ->].
  - eapply Rle_trans; [apply Rmin_l|]. eapply Rle_trans; [apply Rmin_r|]. rewrite <- b32_0. apply b32_mono. lra.
  - eapply Rle_trans; [apply Rmin_l|]. apply Rmin_l.
Qed.
Lemma c_one n : 1 <= fmod6 (b32 (n + q)) <= 3 -> c n = 1.
Proof.
  intro H. unfold c. set (k := fmod6 _) in *. cbn zeta.
  assert (G : 1 <= b32 (4 - k)) by (rewrite <- (b32_I 1) by lia; apply b32_mono; lra).
  rewrite Rmin_right; [apply Rmax_right; lra|]. apply Rmin_glb; lra.
Qed.
(** Some component is exactly the value, and some has the full saturation removed. *)
Lemma top_exists : c 5 = 0 \/ c 3 = 0 \/ c 1 = 0.
Proof.
  destruct (Rle_dec q 1) as [A|A]; [|destruct (Rle_dec q 3) as [B|B]; [|destruct (Rle_dec q 5) as [C|C]]].
  - left. apply c_zero. pose proof (rot 5 5 6 ltac:(lia) ltac:(lia) ltac:(lia) ltac:(lra)) as T.
    destruct (Rlt_dec (b32 (5 + q)) 6); [left; rewrite fmod_low; lra|right; rewrite fmod_high; lra].
  - right; left. apply c_zero. pose proof (rot 3 4 6 ltac:(lia) ltac:(lia) ltac:(lia) ltac:(lra)) as T.
    destruct (Rlt_dec (b32 (3 + q)) 6); [left; rewrite fmod_low; lra|right; rewrite fmod_high; lra].
  - right; right. apply c_zero. pose proof (rot 1 4 6 ltac:(lia) ltac:(lia) ltac:(lia) ltac:(lra)) as T.
    destruct (Rlt_dec (b32 (1 + q)) 6); [left; rewrite fmod_low; lra|right; rewrite fmod_high; lra].
  - left. apply c_zero. pose proof (rot 5 10 12 ltac:(lia) ltac:(lia) ltac:(lia) ltac:(lra)) as T.
    destruct (Rlt_dec (b32 (5 + q)) 12); [left; rewrite fmod_high; lra|right]. replace (b32 (5 + q)) with 12 by lra. apply fmod_12.
Qed.
Lemma bottom_exists : c 5 = 1 \/ c 3 = 1 \/ c 1 = 1.
Proof.
  destruct (Rle_dec q 2) as [A|A]; [|destruct (Rle_dec q 4) as [B|B]; [|destruct (Rle_dec q 6) as [D|D]]].
  - right; right. apply c_one. pose proof (rot 1 1 3 ltac:(lia) ltac:(lia) ltac:(lia) ltac:(lra)) as T. rewrite fmod_low; lra.
  - left. apply c_one. pose proof (rot 5 7 9 ltac:(lia) ltac:(lia) ltac:(lia) ltac:(lra)) as T. rewrite fmod_high; lra.
  - right; left. apply c_one. pose proof (rot 3 7 9 ltac:(lia) ltac:(lia) ltac:(lia) ltac:(lra)) as T. rewrite fmod_high; lra.
  - right; right. apply c_one. pose proof (rot 1 7 9 ltac:(lia) ltac:(lia) ltac:(lia) ltac:(lra)) as T. rewrite fmod_high; lra.
Qed.
Lemma pixel_extremes : max3 (hsv_to_rgb_fl q s v) = v /\ min3 (hsv_to_rgb_fl q s v) = b32 (v - b32 (v * s)).
Proof.
  pose proof (convert_range 5) as R5. pose proof (convert_range 3) as R3. pose proof (convert_range 1) as R1.
  unfold hsv_to_rgb_fl, max3, min3. split.
  - destruct top_exists as [T|[T|T]]; apply convert_top in T; rewrite T in *.
    + unfold Rmax; repeat destruct (Rle_dec _ _); lra.
    + unfold Rmax; repeat destruct (Rle_dec _ _); lra.
    + unfold Rmax; repeat destruct (Rle_dec _ _); lra.
  - destruct bottom_exists as [T|[T|T]]; apply convert_bottom in T; rewrite T in *.
    + unfold Rmin; repeat destruct (Rle_dec _ _); lra.
    + unfold Rmin; repeat destruct (Rle_dec _ _); lra.
    + unfold Rmin; repeat destruct (Rle_dec _ _); lra.
Qed.
End Pixel.

Lemma hue60_cpu_close h : 0 <= h <= 360 -> 0 <= hue60_cpu h <= 13 / 2 /\ Rabs (hue60_cpu h - h / 60) <= 13 * / 16777216.
Proof.
  intro H. unfold hue60_cpu. split.
  - split; [rewrite <- b32_0; apply b32_mono; lra|]. apply Rle_trans with 6; [|lra]. rewrite <- (b32_I 6) by lia. apply b32_mono. lra.
  - eapply Rle_trans; [apply b32_abs|]. assert (Rmax 1 (Rabs (h / 60)) <= 6) by (apply Rmax_lub; [lra|rewrite Rabs_pos_eq; lra]). lra.
Qed.
Lemma hue60_cuda_close h : 0 <= h <= 360 -> 0 <= hue60_cuda h <= 13 / 2 /\ Rabs (hue60_cuda h - h / 60) <= 13 * / 16777216.
Proof.
  intro H. unfold hue60_cuda. set (r := b32 (1 / 60)).
  assert (E : Rabs (r - 1 / 60) <= 1 / 60 / 16777216 + / 2 ^ 100) by (unfold r; pose proof (b32_err (1 / 60)) as E; rewrite (Rabs_pos_eq (1 / 60)) in E by lra; exact E).
  assert (T : / 2 ^ 100 <= / 16777216 / 100000) by lra.
  apply Raux.Rabs_le_inv in E. assert (RP : 0 <= r <= 1 / 60 + / 16777216 / 50) by lra.
  assert (P1 : 0 <= h * r) by nra. assert (P2 : h * r <= 6 + / 10000) by nra.
  pose proof (b32_abs (h * r)) as B.
  assert (M : Rmax 1 (Rabs (h * r)) <= 6 + / 10000) by (apply Rmax_lub; [lra|rewrite Rabs_pos_eq; lra]).
  assert (B' : Rabs (b32 (h * r) - h * r) <= / 16777216 * (6 + / 10000)) by lra. apply Raux.Rabs_le_inv in B'.
  split; [split; [rewrite <- b32_0; apply b32_mono; lra|lra]|]. apply Rabs_le.
  assert (D : Rabs (h * r - h / 60) <= 360 * (1 / 60 / 16777216 + / 16777216 / 100000)).
  { replace (h * r - h / 60) with (h * (r - 1 / 60)) by lra. rewrite Rabs_mult, (Rabs_pos_eq h) by lra.
    apply Rmult_le_compat; [lra|apply Rabs_pos|lra|]. apply Rabs_le. lra. }
  apply Raux.Rabs_le_inv in D. lra.
Qed.
(** How the quotient by 60 may be computed. *)
Definition hue60 (q h : R) : Prop := q = hue60_cpu h \/ q = hue60_cuda h.
Lemma hue60_close q h : 0 <= h <= 360 -> hue60 q h -> 0 <= q <= 13 / 2 /\ Rabs (q - h / 60) <= 13 * / 16777216.
Proof. intros H [-> | ->]; [apply hue60_cpu_close, H|apply hue60_cuda_close, H]. Qed.

(** In single precision, too, the largest component of the colour is exactly the value and the smallest is
    v - v s with each operation rounded; so nothing leaves [0, v]. *)
Theorem hsv_gamut_float : forall h s v q, 0 <= h <= 360 -> 0 <= s <= 1 -> 0 <= v <= 1 -> float32 v -> hue60 q h ->
  max3 (hsv_to_rgb_fl q s v) = v /\ min3 (hsv_to_rgb_fl q s v) = b32 (v - b32 (v * s)) /\ 0 <= b32 (v - b32 (v * s)).
Proof.
  intros h s v q H S1 V VF E. destruct (hue60_close q h H E) as [Q _].
  destruct (pixel_extremes q s v Q S1 (proj1 V) VF) as [A B]. split; [exact A|]. split; [exact B|].
  rewrite <- b32_0. apply b32_mono. pose proof (vs_range s v S1 (proj1 V) VF). lra.
Qed.
Print Assumptions hsv_gamut_float.
(** A colour without saturation is exactly grey. *)
Theorem hsv_grey_float : forall v q, float32 v -> hsv_to_rgb_fl q 0 v = (v, v, v).
Proof.
  intros v q VF. unfold hsv_to_rgb_fl, convert_fl. rewrite Rmult_0_r, b32_0. cbn zeta.
  rewrite !Rmult_0_l, b32_0, Rminus_0_r, (b32_exact v VF). reflexivity.
Qed.
Print Assumptions hsv_grey_float.

(** Distance from the exact colour. *)
Lemma lip_min a b a' b' d : Rabs (a - a') <= d -> Rabs (b - b') <= d -> Rabs (Rmin a b - Rmin a' b') <= d.
Proof. intros A B. apply Raux.Rabs_le_inv in A, B. apply Rabs_le. unfold Rmin. destruct (Rle_dec a b), (Rle_dec a' b'); lra. Qed.
Lemma lip_max a b a' b' d : Rabs (a - a') <= d -> Rabs (b - b') <= d -> Rabs (Rmax a b - Rmax a' b') <= d.
Proof. intros A B. apply Raux.Rabs_le_inv in A, B. apply Rabs_le. unfold Rmax. destruct (Rle_dec a b), (Rle_dec a' b'); lra. Qed.
Lemma lip_const a d : 0 <= d -> Rabs (a - a) <= d.
Proof. intro D. replace (a - a) with 0 by ring. rewrite Rabs_R0. exact D. Qed.
Lemma wedge_lip a b d : 0 <= d -> Rabs (a - b) <= d -> Rabs (wedge a - wedge b) <= d.
Proof.
  intros D A. unfold wedge. apply lip_max; [apply lip_const, D|]. apply lip_min; [|apply lip_const, D]. apply lip_min; [exact A|].
  replace (4 - a - (4 - b)) with (- (a - b)) by ring. rewrite Rabs_Ropp. exact A.
Qed.
Lemma wedge_zero k : k <= 0 \/ 4 <= k -> wedge k = 0.
Proof.
  intro H. apply Rmax_left. eapply Rle_trans; [apply Rmin_l|]. destruct H; [eapply Rle_trans; [apply Rmin_l|lra]|eapply Rle_trans; [apply Rmin_r|lra]].
Qed.
Lemma wedge_fmod t : 0 <= t <= 12 -> wedge (fmod6 t) = Rmax (wedge t) (wedge (t - 6)).
Proof.
  intro H. assert (P : forall k, 0 <= wedge k) by (intro; apply Rmax_l).
  destruct (Rlt_dec t 6) as [A|A]; [|destruct (Rlt_dec t 12) as [B|B]].
  - rewrite fmod_low, (wedge_zero (t - 6)) by lra. symmetry. apply Rmax_left, P.
  - rewrite fmod_high, (wedge_zero t) by lra. symmetry. apply Rmax_right, P.
  - replace t with 12 by lra. rewrite fmod_12, !wedge_zero by lra. symmetry. apply Rmax_left. lra.
Qed.
Lemma rotated_lip t t' d : 0 <= t <= 12 -> 0 <= t' <= 12 -> 0 <= d -> Rabs (t - t') <= d -> Rabs (wedge (fmod6 t) - wedge (fmod6 t')) <= d.
Proof.
  intros T T' D A. rewrite !wedge_fmod by assumption. apply lip_max; apply wedge_lip; try assumption.
  replace (t - 6 - (t' - 6)) with (t - t') by ring. exact A.
Qed.
Lemma fmod_range t : 0 <= fmod6 t < 6.
Proof. unfold fmod6. pose proof (Rfloor_spec (t / 6)). lra. Qed.

Lemma convert_close h s v q (n : Z) : 0 <= h <= 360 -> 0 <= s <= 1 -> 0 <= v <= 1 -> hue60 q h -> (1 <= n <= 5)%Z ->
  Rabs (convert_fl q s v (IZR n) - convert_fn h s v (IZR n)) <= / 524288.
Proof.
  intros H S1 V E N. destruct (hue60_close q h H E) as [Q C]. assert (NR : 1 <= IZR n <= 5) by (split; [apply (IZR_le 1)|apply (IZR_le n 5)]; lia).
  unfold convert_fl, convert_fn. cbn zeta. set (u := / 16777216) in *. set (t := b32 (IZR n + q)). set (t' := IZR n + h / 60).
  assert (UP : 0 < u) by (unfold u; lra).
  assert (T : 0 <= t <= 12).
  { unfold t. rewrite <- (b32_I 12) by lia. split; [rewrite <- b32_0|]; apply b32_mono; lra. }
  assert (TT : Rabs (t - t') <= 25 * u).
  { pose proof (b32_abs (IZR n + q)) as B. fold u in B. assert (M : Rmax 1 (Rabs (IZR n + q)) <= 12) by (apply Rmax_lub; [lra|rewrite Rabs_pos_eq; lra]).
    assert (B' : Rabs (t - (IZR n + q)) <= u * 12) by (unfold t; nra). apply Raux.Rabs_le_inv in B', C. apply Rabs_le. unfold t'. lra. }
  pose proof (rotated_lip t t' (25 * u) T ltac:(unfold t'; lra) ltac:(lra) TT) as L.
  pose proof (fmod_range t) as K. set (k := fmod6 t) in *. set (k' := fmod6 t') in *.
  set (c := Rmax 0 (Rmin (Rmin k (b32 (4 - k))) 1)). change (Rmax 0 (Rmin (Rmin k' (4 - k')) 1)) with (wedge k').
  assert (CL : Rabs (c - wedge k) <= 4 * u).
  { unfold c, wedge. apply lip_max; [apply lip_const; lra|]. apply lip_min; [|apply lip_const; lra]. apply lip_min; [apply lip_const; lra|].
    pose proof (b32_abs (4 - k)) as B. fold u in B. assert (M : Rmax 1 (Rabs (4 - k)) <= 4) by (apply Rmax_lub; [lra|apply Rabs_le; lra]). nra. }
  assert (CR : 0 <= c <= 1) by (unfold c; split; [apply Rmax_l|apply Rmax_lub; [lra|apply Rmin_r]]).
  assert (WR : 0 <= wedge k' <= 1) by (unfold wedge; split; [apply Rmax_l|apply Rmax_lub; [lra|apply Rmin_r]]).
  apply Raux.Rabs_le_inv in L, CL.
  assert (VS : 0 <= v * s <= 1) by nra.
  assert (W : Rabs (b32 (v * s) - v * s) <= u).
  { pose proof (b32_abs (v * s)) as B. fold u in B. rewrite (Rmax_left 1) in B by (rewrite Rabs_pos_eq; lra). lra. }
  set (w := b32 (v * s)) in *.
  assert (W01 : 0 <= w <= 1) by (unfold w; rewrite <- b32_0 at 1; rewrite <- (b32_I 1) by lia; split; apply b32_mono; lra).
  assert (P : Rabs (b32 (w * c) - w * c) <= u).
  { pose proof (b32_abs (w * c)) as B. fold u in B. rewrite (Rmax_left 1) in B by (rewrite Rabs_pos_eq; nra). lra. }
  set (p := b32 (w * c)) in *.
  assert (P01 : 0 <= p <= 1) by (unfold p; rewrite <- b32_0 at 1; rewrite <- (b32_I 1) by lia; split; apply b32_mono; nra).
  assert (F : Rabs (b32 (v - p) - (v - p)) <= u).
  { pose proof (b32_abs (v - p)) as B. fold u in B. rewrite (Rmax_left 1) in B by (apply Rabs_le; lra). lra. }
  apply Raux.Rabs_le_inv in W, P, F.
  assert (D : Rabs (w * c - v * s * wedge k') <= 30 * u).
  { replace (w * c - v * s * wedge k') with ((w - v * s) * c + v * s * (c - wedge k')) by ring. apply Rabs_le.
    assert (A1 : - u <= (w - v * s) * c <= u) by nra.
    assert (A2 : - (29 * u) <= v * s * (c - wedge k') <= 29 * u) by nra. lra. }
  apply Raux.Rabs_le_inv in D. apply Rabs_le. replace (/ 524288) with (32 * u) by (unfold u; lra). lra.
Qed.
(** Every component is within 2^-19 of the exact colour, on either kind of device. *)
Theorem hsv_close_float : forall h s v q, 0 <= h <= 360 -> 0 <= s <= 1 -> 0 <= v <= 1 -> hue60 q h ->
  let '(r, g, b) := hsv_to_rgb_fl q s v in
  let '(r', g', b') := hexcone h s v in
  Rabs (r - r') <= / 2 ^ 19 /\ Rabs (g - g') <= / 2 ^ 19 /\ Rabs (b - b') <= / 2 ^ 19.
Proof.
  intros h s v q H S1 V E. rewrite <- hsv_pixel by exact H. unfold hsv_to_rgb_fl. replace (/ 2 ^ 19) with (/ 524288) by lra.
  repeat split; [apply (convert_close h s v q 5)|apply (convert_close h s v q 3)|apply (convert_close h s v q 1)]; try assumption; lia.
Qed.
Print Assumptions hsv_close_float.
Example hsv_float_example : hue60 (hue60_cpu 359) 359 /\ float32 (1 / 2) /\ 0 <= 1 / 2 <= 1.
Proof. split; [left; reflexivity|]. split; [|lra]. replace (1 / 2) with (b32 (IZR 8 / 16)) by (rewrite b32_sixteenth by lia; lra). apply b32_float. Qed.

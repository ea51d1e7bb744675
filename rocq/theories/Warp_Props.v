(** C77: warping of images by flows, and the colours of flows. *)
From Coq Require Import ZArith Reals List Bool Arith Lra Lia.
From Verif Require Import Base Tensor RBase Func_Model Func_Spec Func_Props Warp_Model.
Import ListNotations.
Open Scope R_scope.

Ltac dec_le := repeat match goal with |- context[Rle_dec ?a ?b] => lazymatch b with context[Rle_dec] => fail | _ => destruct (Rle_dec a b) end end.
Lemma INR_ge1 : forall n, (1 <= n)%nat -> 1 <= INR n.
Proof. intros n H. apply (le_INR 1 n H). Qed.
Lemma clip_range : forall n x, (1 <= n)%nat -> 0 <= clip n x <= INR n - 1.
Proof. intros n x H. pose proof (INR_ge1 n H). unfold clip, Rmin, Rmax. dec_le; lra. Qed.
Lemma source_range : forall p a n c, p <> Zeros -> (1 <= n)%nat -> 0 <= source p a n c <= INR n - 1.
Proof. intros [| |] a n c P H; [contradiction| |]; apply clip_range; exact H. Qed.
Lemma pixel_in : forall H W f y x, (0 <= y < Z.of_nat H)%Z -> (0 <= x < Z.of_nat W)%Z -> pixel H W f y x = f (Z.to_nat y) (Z.to_nat x).
Proof. intros. unfold pixel. replace (_ && _)%Z with true; [reflexivity|]. symmetry. rewrite !andb_true_iff, !Z.leb_le, !Z.ltb_lt. lia. Qed.
Lemma pixel_nat : forall H W f y x, (y < H)%nat -> (x < W)%nat -> pixel H W f (Z.of_nat y) (Z.of_nat x) = f y x.
Proof. intros. rewrite pixel_in by lia. rewrite !Nat2Z.id. reflexivity. Qed.

(** ** Outputs stay in the range of the image *)
(** a place in [0, n-1] is between two pixels, or on the last *)
Lemma floor_place : forall n x, (1 <= n)%nat -> 0 <= x <= INR n - 1 ->
  let k := Rfloor x in (0 <= k < Z.of_nat n)%Z /\ 0 <= x - IZR k < 1 /\ ((k + 1 < Z.of_nat n)%Z \/ x - IZR k = 0).
Proof.
  intros n x H X k. destruct (Rfloor_spec x) as [A B]. fold k in A, B. rewrite INR_IZR_INZ in X.
  assert (0 <= k)%Z by (apply Rfloor_ge; lra). assert (k < Z.of_nat n)%Z as K by (apply Rfloor_lt; lra).
  split; [lia|]. split; [lra|]. destruct (Z.eq_dec k (Z.of_nat n - 1)) as [E|E]; [right|left; lia].
  rewrite E, minus_IZR in A, B |- *. lra.
Qed.
Lemma mix2 : forall lo hi a b t, 0 <= t <= 1 -> lo <= a <= hi -> (t = 0 \/ lo <= b <= hi) -> lo <= a * (1 - t) + b * t <= hi.
Proof.
  intros lo hi a b t T A [->|B]; [lra|].
  assert (lo * (1 - t) <= a * (1 - t)) by (apply Rmult_le_compat_r; lra). assert (lo * t <= b * t) by (apply Rmult_le_compat_r; lra).
  assert (a * (1 - t) <= hi * (1 - t)) by (apply Rmult_le_compat_r; lra). assert (b * t <= hi * t) by (apply Rmult_le_compat_r; lra). lra.
Qed.
Lemma round_place : forall n x, (1 <= n)%nat -> 0 <= x <= INR n - 1 -> (0 <= round_even x < Z.of_nat n)%Z.
Proof.
  intros n x H X. rewrite INR_IZR_INZ in X. pose proof (round_even_cases x) as C. cbv zeta in C. set (r := round_even x) in *.
  assert (Rabs (x - IZR r) <= 1/2) as A by (destruct C as [C|[C _]]; lra).
  pose proof (Rle_abs (x - IZR r)). pose proof (Rle_abs (- (x - IZR r))) as N. rewrite Rabs_Ropp in N.
  assert (-1 < r)%Z by (apply lt_IZR; lra). assert (r < Z.of_nat n)%Z by (apply lt_IZR; lra). lia.
Qed.

Definition between (lo hi : R) (H W : nat) (f : nat -> nat -> R) := forall y x, (y < H)%nat -> (x < W)%nat -> lo <= f y x <= hi.
Lemma sample_range : forall m H W f iy ix lo hi, (1 <= H)%nat -> (1 <= W)%nat -> 0 <= iy <= INR H - 1 -> 0 <= ix <= INR W - 1 ->
  between lo hi H W f -> lo <= sample m H W f iy ix <= hi.
Proof.
  intros m H W f iy ix lo hi HH HW Y X B.
  assert (forall y x, (0 <= y < Z.of_nat H)%Z -> (0 <= x < Z.of_nat W)%Z -> lo <= pixel H W f y x <= hi) as PB.
  { intros y x Hy Hx. rewrite pixel_in by assumption. apply B; lia. }
  destruct m; cbn [sample].
  - destruct (floor_place H iy HH Y) as (KY & TY & EY). destruct (floor_place W ix HW X) as (KX & TX & EX).
    set (y0 := Rfloor iy) in *. set (x0 := Rfloor ix) in *. rewrite !plus_IZR. set (t := ix - IZR x0) in *. set (u := iy - IZR y0) in *.
    assert (forall y, (0 <= y < Z.of_nat H)%Z -> lo <= pixel H W f y x0 * (1 - t) + pixel H W f y (x0 + 1) * t <= hi) as ROW.
    { intros y Hy. apply mix2; [lra|apply PB; assumption|]. destruct EX as [EX|EX]; [right; apply PB; lia|left; exact EX]. }
    replace (_ + _) with ((pixel H W f y0 x0 * (1 - t) + pixel H W f y0 (x0 + 1) * t) * (1 - u) + (pixel H W f (y0 + 1) x0 * (1 - t) + pixel H W f (y0 + 1) (x0 + 1) * t) * u)
      by (unfold t, u; ring).
    apply mix2; [lra|apply ROW; assumption|]. destruct EY as [EY|EY]; [right; apply ROW; lia|left; exact EY].
  - apply PB; apply round_place; assumption.
Qed.
(** With border or reflection padding every output is within the range of the image's values, for
    every flow. *)
Theorem C77_range : forall m p a H W f h w flow i j lo hi, p <> Zeros -> (1 <= H)%nat -> (1 <= W)%nat -> between lo hi H W f ->
  lo <= warp m p a H W f h w flow i j <= hi.
Proof. intros. unfold warp. apply sample_range; try assumption; apply source_range; assumption. Qed.
(** With zero padding, within the range extended to zero. *)
Theorem C77_range_zeros : forall m a H W f h w flow i j lo hi, lo <= 0 <= hi -> between lo hi H W f ->
  lo <= warp m Zeros a H W f h w flow i j <= hi.
Proof.
  intros m a H W f h w flow i j lo hi Z B. unfold warp. set (iy := source _ _ H _). set (ix := source _ _ W _).
  assert (forall y x, lo <= pixel H W f y x <= hi) as PB.
  { intros y x. unfold pixel. destruct (_ && _)%Z eqn:E; [|lra]. rewrite !andb_true_iff, !Z.leb_le, !Z.ltb_lt in E. apply B; lia. }
  destruct m; cbn [sample]; [|apply PB].
  destruct (Rfloor_spec iy) as [A1 A2]. destruct (Rfloor_spec ix) as [A3 A4]. set (y0 := Rfloor iy) in *. set (x0 := Rfloor ix) in *.
  rewrite !plus_IZR. set (t := ix - IZR x0) in *. set (u := iy - IZR y0) in *.
  replace (_ + _) with ((pixel H W f y0 x0 * (1 - t) + pixel H W f y0 (x0 + 1) * t) * (1 - u) + (pixel H W f (y0 + 1) x0 * (1 - t) + pixel H W f (y0 + 1) (x0 + 1) * t) * u)
    by (unfold t, u; ring).
  assert (0 <= t <= 1) by (unfold t; lra). assert (0 <= u <= 1) by (unfold u; lra).
  apply mix2; [lra| |right]; apply mix2; auto; right; apply PB.
Qed.
(** The nearest mode gives values of the image itself. *)
Theorem C77_nearest : forall p a H W f h w flow i j, p <> Zeros -> (1 <= H)%nat -> (1 <= W)%nat ->
  exists y x, (y < H)%nat /\ (x < W)%nat /\ warp Nearest p a H W f h w flow i j = f y x.
Proof.
  intros p a H W f h w flow i j P HH HW. unfold warp. cbn [sample]. set (iy := source _ _ H _). set (ix := source _ _ W _).
  pose proof (round_place H iy HH (source_range p a H _ P HH)). pose proof (round_place W ix HW (source_range p a W _ P HW)).
  exists (Z.to_nat (round_even iy)), (Z.to_nat (round_even ix)). split; [lia|]. split; [lia|]. apply pixel_in; assumption.
Qed.

(** ** Warping is linear in the image *)
Theorem C77_linear : forall m p al H W f g a b h w flow i j,
  warp m p al H W (fun y x => a * f y x + b * g y x) h w flow i j = a * warp m p al H W f h w flow i j + b * warp m p al H W g h w flow i j.
Proof.
  intros. unfold warp. assert (forall y x, pixel H W (fun y x => a * f y x + b * g y x) y x = a * pixel H W f y x + b * pixel H W g y x) as E.
  { intros. unfold pixel. destruct (_ && _)%Z; ring. }
  destruct m; cbn [sample]; rewrite !E; ring.
Qed.

(** ** Displacements *)
(** a sample at a pixel is that pixel *)
Lemma sample_at : forall m H W f y x, (y < H)%nat -> (x < W)%nat -> sample m H W f (INR y) (INR x) = f y x.
Proof.
  intros m H W f y x Hy Hx. rewrite !INR_IZR_INZ. destruct m; cbn [sample].
  - rewrite !Rfloor_IZR, !plus_IZR. rewrite pixel_nat by assumption. ring.
  - assert (forall k, round_even (IZR k) = k) as E. { intros k. unfold round_even. rewrite Rfloor_IZR. destruct (Rlt_dec _ _); [reflexivity|lra]. }
    rewrite !E. apply pixel_nat; assumption.
Qed.
Lemma lin_align : forall n k d, (k < n)%nat -> (2 <= n)%nat -> unnormalize true n (linspace n k + 2 * d / (INR n - 1)) = INR k + d.
Proof.
  intros n k d K N. unfold unnormalize, linspace. destruct (Nat.eqb_spec n 1); [lia|]. pose proof (le_INR 2 n N). cbn in H. field. lra.
Qed.
Lemma lin_align0 : forall n k, (k < n)%nat -> unnormalize true n (linspace n k + 0) = INR k.
Proof.
  intros n k K. destruct (Nat.eq_dec n 1) as [->|N].
  - assert (k = 0)%nat by lia. subst. unfold unnormalize, linspace. cbn. field.
  - replace 0 with (2 * 0 / (INR n - 1)) by (unfold Rdiv; ring). rewrite lin_align by lia. ring.
Qed.
Lemma clip_at : forall n k, (k < n)%nat -> clip n (INR k) = INR k.
Proof.
  intros n k K. pose proof (le_INR (k + 1) n ltac:(lia)). rewrite plus_INR in H. cbn in H. pose proof (pos_INR k).
  unfold clip, Rmin, Rmax. dec_le; lra.
Qed.
Lemma source_at : forall p n k, (k < n)%nat -> source p true n (linspace n k + 0) = INR k.
Proof.
  intros p n k K. unfold source. rewrite lin_align0 by exact K. destruct p; [reflexivity|apply clip_at; exact K|].
  assert (reflect (INR k) 0 (2 * (INR n - 1)) = INR k) as ->; [|apply clip_at; exact K].
  unfold reflect. destruct (Req_EM_T 0 (2 * (INR n - 1))) as [E|E].
  - assert (INR n = INR 1) by (cbn; lra). apply INR_eq in H. assert (k = 0)%nat by lia. subst. reflexivity.
  - assert (n <> 1)%nat by (intros ->; cbn in E; lra). pose proof (le_INR 2 n ltac:(lia)). cbn in H0. pose proof (pos_INR k). pose proof (le_INR (k + 1) n ltac:(lia)). rewrite plus_INR in H2. cbn in H2.
    replace (INR k - 0 / 2) with (INR k) by field. rewrite Rabs_pos_eq by lra.
    replace ((2 * (INR n - 1) - 0) / 2) with (INR n - 1) by field.
    destruct (Nat.eq_dec (k + 1) n) as [L|L].
    + assert (INR k = INR n - 1) as EK by (rewrite <- L, plus_INR; cbn; ring). rewrite EK. assert (Rfloor ((INR n - 1) / (INR n - 1)) = 1%Z) as -> by (replace ((INR n - 1) / (INR n - 1)) with (IZR 1) by (field; lra); apply Rfloor_IZR). cbn [Z.even]. lra.
    + assert (Rfloor (INR k / (INR n - 1)) = 0%Z) as ->.
      { apply Rfloor_unique. pose proof (le_INR (k + 2) n ltac:(lia)). rewrite plus_INR in H3. cbn in H3. assert (0 < INR n - 1) by lra.
        split; [apply Rmult_le_pos; [lra|left; apply Rinv_0_lt_compat; lra]|]. rewrite Rplus_0_l. apply (Rmult_lt_reg_r (INR n - 1)); [lra|]. unfold Rdiv. rewrite Rmult_assoc, Rinv_l by lra. lra. }
      cbn [Z.even]. lra.
Qed.
(** Without a flow, align_corners=True gives back the image, in every mode and with every padding. *)
Theorem C77_zero_flow_aligned : forall m p H W f i j, (i < H)%nat -> (j < W)%nat -> warp m p true H W f H W (fun _ _ => (0, 0)) i j = f i j.
Proof. intros. unfold warp. cbn [fst snd]. rewrite !source_at by assumption. apply sample_at; assumption. Qed.

(** With align_corners=True a flow of dx, dy whole pixels (2 dx / (W-1) in the units of the flow) moves the
    image by them, repeating the border. *)
Definition clamp_index (n : nat) (k : Z) : nat := Z.to_nat (Z.max 0 (Z.min (Z.of_nat n - 1) k)).
Lemma clip_Z : forall n k, (1 <= n)%nat -> clip n (IZR k) = INR (clamp_index n k).
Proof.
  intros n k N. unfold clamp_index. rewrite (INR_IZR_INZ (Z.to_nat _)), Z2Nat.id by lia. unfold clip. rewrite INR_IZR_INZ, <- minus_IZR.
  unfold Rmin, Rmax. dec_le;
  repeat match goal with H : _ <= _ |- _ => apply le_IZR in H | H : ~ _ <= _ |- _ => apply Rnot_le_lt, lt_IZR in H end; f_equal; lia.
Qed.
Theorem C77_integer_flow : forall m H W f dx dy i j, (i < H)%nat -> (j < W)%nat -> (2 <= H)%nat -> (2 <= W)%nat ->
  warp m Border true H W f H W (fun _ _ => (2 * IZR dx / (INR W - 1), 2 * IZR dy / (INR H - 1))) i j
  = f (clamp_index H (Z.of_nat i + dy)) (clamp_index W (Z.of_nat j + dx)).
Proof.
  intros m H W f dx dy i j Hi Hj HH HW. unfold warp, source. cbn [fst snd]. rewrite !lin_align by assumption.
  rewrite !INR_IZR_INZ, <- !plus_IZR, !clip_Z by lia. apply sample_at; unfold clamp_index; lia.
Qed.

(** The default align_corners=False: without a flow, pixel k of n is taken from k n/(n-1) - 1/2, cut off at
    the border: within half a pixel, *)
Lemma lin_default : forall n k, (k < n)%nat -> (2 <= n)%nat -> unnormalize false n (linspace n k + 0) = INR k * INR n / (INR n - 1) - 1 / 2.
Proof. intros n k K N. unfold unnormalize, linspace. destruct (Nat.eqb_spec n 1); [lia|]. pose proof (le_INR 2 n N). cbn in H. field. lra. Qed.
Theorem C77_default_half_pixel : forall n k, (k < n)%nat -> Rabs (source Border false n (linspace n k + 0) - INR k) <= 1 / 2.
Proof.
  intros n k K. destruct (Nat.eq_dec n 1) as [->|N].
  - assert (k = 0)%nat by lia. subst. unfold source, unnormalize, linspace, clip. cbn. apply Rabs_le. unfold Rmin, Rmax.
    dec_le; lra.
  - unfold source. rewrite lin_default by lia. pose proof (le_INR 2 n ltac:(lia)). cbn in H. pose proof (pos_INR k).
    pose proof (le_INR (k + 1) n ltac:(lia)). rewrite plus_INR in H1. cbn in H1.
    assert (INR k * INR n / (INR n - 1) = INR k + INR k / (INR n - 1)) as -> by (field; lra).
    assert (0 <= INR k / (INR n - 1) <= 1).
    { split; [apply Rmult_le_pos; [lra|left; apply Rinv_0_lt_compat; lra]|]. apply (Rmult_le_reg_r (INR n - 1)); [lra|]. unfold Rdiv. rewrite Rmult_assoc, Rinv_l by lra. lra. }
    apply Rabs_le. unfold clip, Rmin, Rmax. dec_le; lra.
Qed.
(** which is the image itself if it has at most three rows and columns, *)
Lemma default_small : forall n k, (k < n)%nat -> (n <= 3)%nat -> source Border false n (linspace n k + 0) = INR k.
Proof.
  intros n k K N. destruct n as [|[|[|[|]]]]; try lia; destruct k as [|[|[|]]]; try lia; unfold source, unnormalize, linspace, clip; cbn [Nat.eqb INR];
  unfold Rmin, Rmax; dec_le; lra.
Qed.
Theorem C77_zero_flow_default_small : forall m H W f i j, (i < H)%nat -> (j < W)%nat -> (H <= 3)%nat -> (W <= 3)%nat ->
  warp m Border false H W f H W (fun _ _ => (0, 0)) i j = f i j.
Proof. intros. unfold warp. cbn [fst snd]. rewrite !default_small by assumption. apply sample_at; assumption. Qed.
(** and not otherwise. *)
Theorem C77_zero_flow_default_refuted : forall H W, (1 <= H)%nat -> (4 <= W)%nat ->
  let f := fun _ x => INR x in
  warp Bilinear Border false H W f H W (fun _ _ => (0, 0)) 0 1 = INR W / (INR W - 1) - 1 / 2 /\
  warp Bilinear Border false H W f H W (fun _ _ => (0, 0)) 0 1 <> f 0%nat 1%nat.
Proof.
  intros H W HH HW f. pose proof (le_INR 4 W HW) as L. cbn in L.
  assert (INR W / (INR W - 1) = 1 + / (INR W - 1)) as EW by (field; lra).
  assert (0 < / (INR W - 1) <= / 3). { split; [apply Rinv_0_lt_compat; lra|apply Rinv_le_contravar; lra]. }
  assert (warp Bilinear Border false H W f H W (fun _ _ => (0, 0)) 0 1 = INR W / (INR W - 1) - 1 / 2) as E; [|split; [exact E|rewrite E, EW; unfold f; cbn; lra]].
  unfold warp. cbn [fst snd]. set (iy := source Border false H (linspace H 0 + 0)).
  assert (source Border false W (linspace W 1 + 0) = INR W / (INR W - 1) - 1 / 2) as ->.
  { unfold source. rewrite lin_default by lia. cbn [INR]. rewrite Rmult_1_l. unfold clip, Rmin, Rmax.
    dec_le; lra. }
  rewrite EW. set (e := / (INR W - 1)) in *. cbn [sample].
  assert (Rfloor (1 + e - 1 / 2) = 0%Z) as -> by (apply Rfloor_unique; lra).
  destruct (floor_place H iy HH (source_range Border false H _ ltac:(discriminate) HH)) as (KY & TY & EY). set (y0 := Rfloor iy) in *. cbn [Z.add].
  rewrite !plus_IZR.
  assert (forall y, (0 <= y < Z.of_nat H)%Z -> pixel H W f y 0 = 0 /\ pixel H W f y 1 = 1) as P.
  { intros y Hy. rewrite !pixel_in by lia. unfold f. cbn. split; reflexivity. }
  destruct (P y0 KY) as [-> ->]. destruct EY as [EY|EY].
  - destruct (P (y0 + 1)%Z ltac:(lia)) as [-> ->]. lra.
  - replace iy with (IZR y0) by lra. lra.
Qed.

(** ** The function itself *)
Theorem C77_dense_image_warp : forall image flow m p a b c H W b' h w, tshape (dt image) = [b; c; H; W]%nat -> tshape (dt flow) = [b'; h; w; 2]%nat ->
  (dtype image <> dtype flow \/ device image <> device flow -> dense_image_warp image flow m p a = Raise ValueError) /\
  (dtype image = dtype flow -> device image = device flow -> b = b' -> (1 <= H)%nat -> (1 <= W)%nat ->
   exists y, dense_image_warp image flow m p a = Ok y /\ tshape y = [b; c; h; w]%nat /\
   forall n k i j, (n < b)%nat -> (k < c)%nat -> (i < h)%nat -> (j < w)%nat ->
   tat y [n; k; i; j]%nat = warp m p a H W (fun y x => tat (dt image) [n; k; y; x]%nat) h w (fun i j => (tat (dt flow) [n; i; j; 0]%nat, tat (dt flow) [n; i; j; 1]%nat)) i j).
Proof.
  intros image flow m p a b c H W b' h w SI SF. unfold dense_image_warp. rewrite SI, SF. cbn [last Nat.eqb negb]. split.
  - intros D. replace (_ || _) with true; [reflexivity|]. symmetry. apply orb_true_iff. rewrite !negb_true_iff, !Nat.eqb_neq. exact D.
  - intros D1 D2 <- H1 W1. rewrite D1, D2, !Nat.eqb_refl. cbn [negb orb].
    replace (H * W =? 0)%nat with false by (symmetry; apply Nat.eqb_neq; nia).
    eexists. split; [reflexivity|]. split; [reflexivity|]. reflexivity.
Qed.
Theorem C77_bad_flow : forall image flow m p a, last (tshape (dt flow)) 0%nat <> 2%nat -> dense_image_warp image flow m p a = Raise ValueError.
Proof. intros. unfold dense_image_warp. destruct (_ || _); [reflexivity|]. apply Nat.eqb_neq in H. rewrite H. reflexivity. Qed.

(** * Colours of a flow *)
Lemma atan2_polar : forall y x, let r := sqrt (y ^ 2 + x ^ 2) in r * sin (atan2 y x) = y /\ r * cos (atan2 y x) = x.
Proof.
  intros y x r. unfold atan2.
  assert (0 <= y ^ 2 + x ^ 2) as P by (cbn; nra).
  assert (forall x, x <> 0 -> sqrt (1 + (y / x)²) = sqrt (y ^ 2 + x ^ 2) / Rabs x) as RT.
  { intros z Z. rewrite <- (sqrt_Rsqr_abs z), <- sqrt_div_alt; [|unfold Rsqr; nra]. f_equal. unfold Rsqr. field. exact Z. }
  assert (forall z, z <> 0 -> 0 < sqrt (y ^ 2 + z ^ 2)) as SP. { intros z Z. apply sqrt_lt_R0. cbn. nra. }
  destruct (Rlt_dec 0 x) as [X|X].
  - rewrite sin_atan, cos_atan, RT by lra. rewrite Rabs_pos_eq by lra. fold r. pose proof (SP x ltac:(lra)). fold r in H. split; field; lra.
  - destruct (Rlt_dec x 0) as [X'|X'].
    + pose proof (SP x ltac:(lra)) as RP. fold r in RP.
      assert (r * sin (atan (y / x)) = - y /\ r * cos (atan (y / x)) = - x) as [A1 A2].
      { rewrite sin_atan, cos_atan, RT by lra. rewrite Rabs_left by lra. fold r. split; field; lra. }
      destruct (Rlt_dec y 0).
      * rewrite sin_minus, cos_minus, sin_PI, cos_PI. split; lra.
      * rewrite sin_plus, cos_plus, sin_PI, cos_PI. split; lra.
    + assert (x = 0) by lra. subst x. unfold r. replace (y ^ 2 + 0 ^ 2) with (Rsqr y) by (unfold Rsqr; ring). rewrite sqrt_Rsqr_abs.
      destruct (Rlt_dec 0 y); [rewrite sin_PI2, cos_PI2, Rabs_pos_eq by lra; lra|].
      destruct (Rlt_dec y 0); [rewrite sin_neg, cos_neg, sin_PI2, cos_PI2, Rabs_left by lra; lra|].
      assert (y = 0) by lra. subst y. rewrite Rabs_R0, sin_0, cos_0. lra.
Qed.
Lemma atan2_range : forall y x, - PI < atan2 y x <= PI.
Proof.
  intros y x. pose proof PI_RGT_0. unfold atan2. pose proof (atan_bound (y / x)).
  assert (x < 0 -> y < 0 -> 0 < atan (y / x)) as A1. { intros X Y. rewrite <- atan_0. apply atan_increasing. replace (y / x) with ((- y) / (- x)) by (field; lra). apply Rdiv_lt_0_compat; lra. }
  assert (x < 0 -> 0 <= y -> atan (y / x) <= 0) as A2.
  { intros X Y. rewrite <- atan_0. destruct (Req_dec y 0) as [->|Y0]; [replace (0 / x) with 0 by (field; lra); lra|]. left. apply atan_increasing.
    pose proof (Rinv_lt_0_compat x X). unfold Rdiv. nra. }
  repeat match goal with |- context[Rlt_dec ?a ?b] => destruct (Rlt_dec a b) end; try lra.
Qed.
(** angle is the polar angle in degrees, counted from the second component *)
Lemma angle_polar : forall y x, let r := sqrt (y ^ 2 + x ^ 2) in
  0 <= angle y x < 360 /\ r * sin (angle y x * PI / 180) = y /\ r * cos (angle y x * PI / 180) = x.
Proof.
  intros y x r. pose proof PI_RGT_0. destruct (atan2_range y x) as [A B]. destruct (atan2_polar y x) as [C D]. fold r in C, D. unfold angle.
  assert (forall a, 180 / PI * a * PI / 180 = a) as E by (intros; field; lra). rewrite E.
  assert (forall a, 0 <= a < 2 * PI -> 0 <= 180 / PI * a < 360) as F.
  { intros a Ha. assert (0 < 180 / PI) by (apply Rdiv_lt_0_compat; lra). split; [apply Rmult_le_pos; lra|].
    apply Rlt_le_trans with (180 / PI * (2 * PI)); [apply Rmult_lt_compat_l; lra|]. right. field. lra. }
  destruct (Rlt_dec (atan2 y x) 0).
  - split; [apply F; lra|]. rewrite Rplus_comm, sin_plus, cos_plus, sin_2PI, cos_2PI. split; lra.
  - split; [apply F; lra|]. split; assumption.
Qed.

Lemma rmin_spec : forall ms d, In (rmin_list d ms) (d :: ms) /\ forall m, In m (d :: ms) -> rmin_list d ms <= m.
Proof.
  induction ms as [|x ms IH]; intros d; cbn [rmin_list fold_right].
  - split; [left; reflexivity|]. intros m [->|[]]. lra.
  - fold (rmin_list d ms). destruct (IH d) as [I L]. unfold Rmin. destruct (Rle_dec x (rmin_list d ms)) as [C|C].
    + split; [right; left; reflexivity|]. intros m [->|[->|J]]; [|lra|].
      * pose proof (L m (or_introl eq_refl)). lra.
      * pose proof (L m (or_intror J)). lra.
    + split; [destruct I as [I|I]; [left; exact I|right; right; exact I]|]. intros m [->|[->|J]]; [apply L; left; reflexivity|lra|apply L; right; exact J].
Qed.
Lemma rmax_spec : forall ms d, In (rmax_list d ms) (d :: ms) /\ forall m, In m (d :: ms) -> m <= rmax_list d ms.
Proof.
  induction ms as [|x ms IH]; intros d; cbn [rmax_list fold_right].
  - split; [left; reflexivity|]. intros m [->|[]]. lra.
  - fold (rmax_list d ms). destruct (IH d) as [I L]. unfold Rmax. destruct (Rle_dec x (rmax_list d ms)) as [C|C].
    + split; [destruct I as [I|I]; [left; exact I|right; right; exact I]|]. intros m [->|[->|J]]; [apply L; left; reflexivity|lra|apply L; right; exact J].
    + split; [right; left; reflexivity|]. intros m [->|[->|J]]; [|lra|].
      * pose proof (L m (or_introl eq_refl)). lra.
      * pose proof (L m (or_intror J)). lra.
Qed.
Lemma in_indices : forall b h w n i j, In (n, i, j) (indices b h w) <-> (n < b /\ i < h /\ j < w)%nat.
Proof.
  intros. unfold indices. rewrite in_flat_map. split.
  - intros (n' & Hn & I). apply in_flat_map in I as (i' & Hi & I). apply in_map_iff in I as (j' & E & Hj). injection E as <- <- <-. apply in_seq in Hn, Hi, Hj. lia.
  - intros (Hn & Hi & Hj). exists n. split; [apply in_seq; lia|]. apply in_flat_map. exists i. split; [apply in_seq; lia|]. apply in_map_iff. exists j. split; [reflexivity|apply in_seq; lia].
Qed.

(** The length of a flow vector, and the shortest and longest of the batch. *)
Definition speed (flow : tensor R) (n i j : nat) : R := sqrt (tat flow [n; 0; i; j]%nat ^ 2 + tat flow [n; 1; i; j]%nat ^ 2).
Definition extreme (P : R -> R -> Prop) (flow : tensor R) (b h w : nat) (v : R) :=
  (exists n i j, (n < b /\ i < h /\ j < w)%nat /\ v = speed flow n i j) /\ (forall n i j, (n < b /\ i < h /\ j < w)%nat -> P v (speed flow n i j)).
Definition slowest := extreme Rle.
Definition fastest := extreme Rge.

(** Every flow gets colours: hue the polar angle of the vector, saturation 1 and brightness its length
    between the slowest (black) and the fastest of the batch; every component is in [0, 1]. *)
Theorem C77_colors : forall flow eps b c h w, 0 < eps -> tshape flow = [b; c; h; w]%nat -> (2 <= c)%nat -> (1 <= b * h * w)%nat ->
  exists y lo hi, optical_flow_to_color flow eps = Ok y /\ tshape y = [b; 3; h; w]%nat /\ slowest flow b h w lo /\ fastest flow b h w hi /\
  forall n i j, (n < b)%nat -> (i < h)%nat -> (j < w)%nat ->
    (exists theta, 0 <= theta < 360 /\
      speed flow n i j * sin (theta * PI / 180) = tat flow [n; 0; i; j]%nat /\
      speed flow n i j * cos (theta * PI / 180) = tat flow [n; 1; i; j]%nat /\
      (tat y [n; 0; i; j]%nat, tat y [n; 1; i; j]%nat, tat y [n; 2; i; j]%nat) = hexcone theta 1 ((speed flow n i j - lo) / (hi - lo + eps))) /\
    forall k, (k < 3)%nat -> 0 <= tat y [n; k; i; j]%nat <= 1.
Proof.
  intros flow eps b c h w EP S C N. unfold optical_flow_to_color. rewrite S. destruct (Nat.ltb_spec c 2); [lia|].
  match goal with |- context[map ?g (indices b h w)] => set (ms := map g (indices b h w)) end.
  assert (forall v, In v ms <-> exists n i j, (n < b /\ i < h /\ j < w)%nat /\ v = speed flow n i j) as IM.
  { intros v. unfold ms. rewrite in_map_iff. split.
    - intros ([[n i] j] & E & I). apply in_indices in I. exists n, i, j. split; [exact I|symmetry; exact E].
    - intros (n & i & j & I & ->). exists (n, i, j). split; [reflexivity|apply in_indices; exact I]. }
  destruct ms as [|m0 ms'] eqn:EM.
  { exfalso. assert (In (speed flow 0 0 0) []) as I; [|destruct I]. apply IM. exists 0%nat, 0%nat, 0%nat. split; [|reflexivity]. destruct b, h, w; cbn in N; lia. }
  set (lo := rmin_list m0 ms'). set (hi := rmax_list (m0 - lo) (map (fun m => m - lo) ms')).
  destruct (rmin_spec ms' m0) as [LI LL]. fold lo in LI, LL. destruct (rmax_spec (map (fun m => m - lo) ms') (m0 - lo)) as [HI HL]. fold hi in HI, HL.
  change (m0 - lo :: map (fun m => m - lo) ms') with (map (fun m => m - lo) (m0 :: ms')) in HI, HL.
  apply in_map_iff in HI as (mx & EX & IX). rewrite IM in LI.
  assert (forall n i j, (n < b /\ i < h /\ j < w)%nat -> lo <= speed flow n i j <= mx) as SB.
  { intros n i j I. assert (In (speed flow n i j) (m0 :: ms')) as J by (apply IM; exists n, i, j; auto). split; [apply LL; exact J|].
    assert (speed flow n i j - lo <= hi) by (apply HL; apply in_map_iff; exists (speed flow n i j); auto). lra. }
  assert (lo <= mx) as LM by (apply LL; exact IX).
  match goal with |- context[hsv_to_rgb ?t] => set (hsv := t) end.
  assert (forall n i j, (n < b /\ i < h /\ j < w)%nat -> 0 <= (speed flow n i j - lo) / (hi + eps) <= 1) as V01.
  { intros n i j I. pose proof (SB n i j I). assert (0 < hi + eps) by lra. split; [apply Rmult_le_pos; [lra|left; apply Rinv_0_lt_compat; lra]|].
    apply (Rmult_le_reg_r (hi + eps)); [lra|]. unfold Rdiv. rewrite Rmult_assoc, Rinv_l by lra. lra. }
  assert (valid_hsv b h w hsv) as V.
  { intros n i j Hn Hi Hj. unfold hsv. cbn [tat]. unfold in_range. destruct (angle_polar (tat flow [n; 0; i; j]%nat) (tat flow [n; 1; i; j]%nat)) as [A _].
    split; [lra|]. split; [lra|]. apply (V01 n i j). lia. }
  destruct (hsv_value b h w hsv eq_refl N V) as (y & EY & SY & PY). exists y, lo, mx.
  split; [exact EY|]. split; [exact SY|]. split; [split; [exact LI|intros n i j I; apply (SB n i j I)]|].
  split; [split; [apply IM; exact IX|intros n i j I; apply Rle_ge; apply (SB n i j I)]|].
  intros n i j Hn Hi Hj. split.
  - exists (angle (tat flow [n; 0; i; j]%nat) (tat flow [n; 1; i; j]%nat)).
    destruct (angle_polar (tat flow [n; 0; i; j]%nat) (tat flow [n; 1; i; j]%nat)) as (A & B & D). split; [exact A|]. split; [exact B|]. split; [exact D|].
    rewrite (PY n i j Hn Hi Hj). unfold hsv. cbn [tat]. fold (speed flow n i j). rewrite EX. reflexivity.
  - intros k Hk. apply (hsv_gamut b h w hsv y eq_refl EY n i j Hn Hi Hj); exact Hk.
Qed.
Theorem C77_colors_raise : forall flow eps,
  (length (tshape flow) <> 4%nat -> optical_flow_to_color flow eps = Raise ValueError) /\
  (forall b c h w, tshape flow = [b; c; h; w]%nat -> (c < 2)%nat -> optical_flow_to_color flow eps = Raise IndexError) /\
  (forall b c h w, tshape flow = [b; c; h; w]%nat -> (2 <= c)%nat -> (b * h * w = 0)%nat -> optical_flow_to_color flow eps = Raise RuntimeError).
Proof.
  intros flow eps. unfold optical_flow_to_color. split; [|split].
  - intros L. destruct (tshape flow) as [|? [|? [|? [|? [|]]]]]; try reflexivity. contradiction L. reflexivity.
  - intros b c h w -> C. apply Nat.ltb_lt in C. rewrite C. reflexivity.
  - intros b c h w -> C N. destruct (Nat.ltb_spec c 2); [lia|].
    assert (indices b h w = []) as ->; [|reflexivity]. destruct (indices b h w) as [|[[n i] j] l] eqn:E; [reflexivity|]. exfalso.
    assert (In (n, i, j) (indices b h w)) as I by (rewrite E; left; reflexivity). apply in_indices in I.
    destruct b, h, w; try lia; rewrite ?Nat.mul_0_r in N; cbn in N; discriminate.
Qed.

(** An image's colours depend on the other images of the batch: a flow of one pixel is black alone and
    bright beside a resting one. *)
Definition lone : tensor R := mkT [1; 2; 1; 1]%nat (fun idx => match idx with [_; 1; _; _]%nat => 1 | _ => 0 end).
Definition pair_ : tensor R := mkT [2; 2; 1; 1]%nat (fun idx => match idx with [0; 1; _; _]%nat => 1 | _ => 0 end).
Theorem C77_batch_refuted : forall eps, 0 < eps -> exists y y', optical_flow_to_color lone eps = Ok y /\ optical_flow_to_color pair_ eps = Ok y' /\
  (forall c, tat lone [0; c; 0; 0]%nat = tat pair_ [0; c; 0; 0]%nat) /\ tat y [0; 0; 0; 0]%nat = 0 /\ 0 < tat y' [0; 0; 0; 0]%nat.
Proof.
  intros eps EP.
  destruct (C77_colors lone eps 1 2 1 1 EP eq_refl ltac:(lia) ltac:(cbn; lia)) as (y & lo & hi & E & _ & [(n & i & j & I & L) _] & _ & P).
  destruct (C77_colors pair_ eps 2 2 1 1 EP eq_refl ltac:(lia) ltac:(cbn; lia)) as (y' & lo' & hi' & E' & _ & SL & FA & P').
  exists y, y'. split; [exact E|]. split; [exact E'|]. split; [intros [|[|c]]; reflexivity|].
  assert (n = 0 /\ i = 0 /\ j = 0)%nat as (-> & -> & ->) by lia.
  assert (speed pair_ 0 0 0 = 1 /\ speed pair_ 1 0 0 = 0) as [S0 S1].
  { unfold speed, pair_. cbn [tat]. split; [replace (0 ^ 2 + 1 ^ 2) with 1 by ring; apply sqrt_1|replace (0 ^ 2 + 0 ^ 2) with 0 by ring; apply sqrt_0]. }
  assert (lo' = 0) as ->.
  { destruct SL as [(n & i & j & Hn & ->) B]. assert (i = 0 /\ j = 0)%nat as [-> ->] by lia. destruct n as [|[|n]]; [|exact S1|lia].
    pose proof (B 1%nat 0%nat 0%nat ltac:(lia)). rewrite S0, S1 in H. lra. }
  assert (hi' = 1) as ->.
  { destruct FA as [(n & i & j & Hn & ->) B]. assert (i = 0 /\ j = 0)%nat as [-> ->] by lia. destruct n as [|[|n]]; [exact S0| |lia].
    pose proof (B 0%nat 0%nat 0%nat ltac:(lia)). rewrite S0, S1 in H. lra. }
  split.
  - destruct (P 0%nat 0%nat 0%nat ltac:(lia) ltac:(lia) ltac:(lia)) as [(th & _ & _ & _ & Q) _]. rewrite <- L, Rminus_diag_eq in Q by reflexivity.
    replace (0 / (hi - lo + eps)) with 0 in Q by (unfold Rdiv; ring). unfold hexcone in Q. cbv zeta in Q.
    repeat match type of Q with context[match ?x with _ => _ end] => destruct x end; injection Q as Q _ _; rewrite Q; ring.
  - destruct (P' 0%nat 0%nat 0%nat ltac:(lia) ltac:(lia) ltac:(lia)) as [(th & T & Q1 & Q2 & Q) _]. rewrite S0 in Q1, Q2, Q. cbn [pair_ tat] in Q1, Q2.
    (* the angle is zero: red *)
    assert (0 < 1 / (1 + eps)) as V by (apply Rdiv_lt_0_compat; lra). replace ((1 - 0) / (1 - 0 + eps)) with (1 / (1 + eps)) in Q by (f_equal; lra).
    set (v := 1 / (1 + eps)) in *. pose proof PI_RGT_0.
    assert (th = 0).
    { set (a := th * PI / 180) in *. assert (0 <= a < 2 * PI) as A.
      { unfold a. split; [apply Rmult_le_pos; [apply Rmult_le_pos; lra|lra]|]. replace (2 * PI) with (360 * PI / 180) by field.
        unfold Rdiv. rewrite !Rmult_assoc. apply Rmult_lt_compat_r; [apply Rmult_lt_0_compat; lra|lra]. }
      assert (sin a = 0) as SA by lra. destruct (sin_eq_O_2PI_0 a) as [Z|[Z|Z]]; [lra|lra|exact SA| | |lra].
      - unfold a in Z. assert (th * PI = 0) by lra. apply Rmult_integral in H0 as [?|?]; lra.
      - rewrite Z, cos_PI in Q2. lra. }
    subst th. unfold hexcone in Q. cbv zeta in Q. replace (0 / 60) with (IZR 0) in Q by (cbn; field). rewrite Rfloor_IZR in Q. cbn in Q. injection Q as Q _ _. lra.
Qed.

(** A 2x2 image moved by one pixel to the left. *)
Example moved : warp Bilinear Border true 2 2 (fun y x => INR (2 * y + x)) 2 2 (fun _ _ => (2 * IZR 1 / (INR 2 - 1), 2 * IZR 0 / (INR 2 - 1))) 1 0 = 3.
Proof. rewrite C77_integer_flow by lia. replace (clamp_index 2 _) with 1%nat by reflexivity. replace (clamp_index 2 _) with 1%nat by reflexivity. cbn. lra. Qed.

Print Assumptions C77_range.
Print Assumptions C77_zero_flow_default_refuted.
Print Assumptions C77_colors.

(** Reflection: a place outside the image is mirrored at the image's borders (the centres of its
    border pixels if aligned, their outer edges else) until it is inside. *)
Definition mirror_image (lo hi x r : R) : Prop :=
  exists k : Z, r = x + 2 * IZR k * (hi - lo) \/ r = 2 * lo - x + 2 * IZR k * (hi - lo).
Theorem C77_reflection : forall align n c, (1 <= n)%nat -> align = false \/ (2 <= n)%nat ->
  let lo := if align then 0 else - (1 / 2) in let hi := if align then INR n - 1 else INR n - 1 / 2 in
  exists r, lo <= r <= hi /\ mirror_image lo hi (unnormalize align n c) r /\ source Reflection align n c = Rmin (INR n - 1) (Rmax r 0).
Proof.
  intros align n c N A lo hi. pose proof (INR_ge1 n N) as N1.
  assert (LH : lo < hi). { unfold lo, hi. destruct align; [|lra]. destruct A as [|A]; [discriminate|]. apply le_INR in A. cbn in A. lra. }
  set (x := unnormalize align n c).
  assert (S : source Reflection align n c = clip n (reflect x (2 * lo) (2 * hi))).
  { unfold source. fold x. f_equal. unfold lo, hi. destruct align; f_equal; lra. }
  exists (reflect x (2 * lo) (2 * hi)). rewrite S. split; [|split; [|reflexivity]].
  - unfold reflect. destruct (Req_EM_T _ _); [lra|]. set (span := (2 * hi - 2 * lo) / 2). set (y := Rabs (x - 2 * lo / 2)).
    assert (SP : 0 < span) by (unfold span; lra). destruct (Rfloor_spec (y / span)) as [F1 F2]. set (k := Rfloor (y / span)) in *.
    assert (E : y = y / span * span) by (field; lra).
    assert (0 <= y - span * IZR k < span).
    { assert (y - span * IZR k = y / span * span - span * IZR k) as -> by (rewrite <- E; reflexivity). set (q := y / span) in *. clearbody q. split; [assert (IZR k * span <= q * span) by (apply Rmult_le_compat_r; lra); lra|].
      assert (q * span < (IZR k + 1) * span) by (apply Rmult_lt_compat_r; lra). lra. }
    destruct (Z.even k); unfold span in *; lra.
  - unfold reflect. destruct (Req_EM_T _ _); [lra|]. set (k := Rfloor _).
    destruct (Z.even k) eqn:EV.
    + apply Z.even_spec in EV. destruct EV as [m M]. destruct (Rle_dec 0 (x - 2 * lo / 2)) as [P|P].
      * exists (- m)%Z. left. rewrite M, mult_IZR, opp_IZR, Rabs_pos_eq by lra. lra.
      * exists (- m)%Z. right. rewrite M, mult_IZR, opp_IZR, Rabs_left by lra. lra.
    + assert (O : Z.odd k = true) by (rewrite <- Z.negb_even, EV; reflexivity). apply Z.odd_spec in O. destruct O as [m M].
      destruct (Rle_dec 0 (x - 2 * lo / 2)) as [P|P].
      * exists (m + 1)%Z. right. rewrite M, plus_IZR, mult_IZR, plus_IZR, Rabs_pos_eq by lra. lra.
      * exists (m + 1)%Z. left. rewrite M, plus_IZR, mult_IZR, plus_IZR, Rabs_left by lra. lra.
Qed.
Example C77_reflection_ex : exists r, - (1 / 2) <= r <= 3 / 2 /\ mirror_image (- (1 / 2)) (3 / 2) (5 / 2) r /\ r = 1 / 2.
Proof. exists (1 / 2). split; [lra|]. split; [exists 1%Z; right; lra|reflexivity]. Qed.
Print Assumptions C77_reflection.

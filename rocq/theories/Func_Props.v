(** C42: soft rounding.  C43: lower bound.  C44: HSV to RGB. *)
From Coq Require Import String ZArith Arith List Bool Reals Lra Lia Psatz.
From Verif Require Import Base RBase Tensor Func_Model Func_Spec Func_Proofs.
Import ListNotations.
Open Scope R_scope.

(** ** C42 *)
Section Soft.
Variables alpha eps : R.
Hypothesis EPS : 0 < eps.
Local Notation s x := (soft_round x alpha eps) (only parsing).
Local Notation t y := (soft_round_inverse y alpha eps) (only parsing).

Theorem soft_round_small x : alpha < eps -> s x = x /\ t x = x.
Proof. intro H. unfold soft_round, soft_round_inverse. destruct (Rlt_dec alpha eps); [auto|contradiction]. Qed.

Hypothesis AL : eps <= alpha.
Lemma alpha_pos : 0 < alpha. Proof. lra. Qed.
Lemma soft_unfold x : s x = IZR (Rfloor x) + 1/2 + curve alpha (x - (IZR (Rfloor x) + 1/2)).
Proof.
  unfold soft_round. destruct (Rlt_dec alpha eps); [lra|]. rewrite Rmax_left by exact AL. reflexivity.
Qed.
Lemma inverse_unfold y : t y = IZR (Rfloor y) + 1/2 + curve_inv alpha (y - (IZR (Rfloor y) + 1/2)).
Proof.
  unfold soft_round_inverse. destruct (Rlt_dec alpha eps); [lra|]. rewrite Rmax_left by exact AL. reflexivity.
Qed.
Lemma cell x : -(1/2) <= x - (IZR (Rfloor x) + 1/2) < 1/2.
Proof. pose proof (Rfloor_spec x). lra. Qed.

(** Values stay in their unit cell [n, n+1). *)
Theorem soft_round_cell x : Rfloor (s x) = Rfloor x.
Proof.
  apply Rfloor_unique. rewrite soft_unfold. pose proof (curve_range alpha alpha_pos _ (cell x)). lra.
Qed.
(** Integers and half-integers are fixed. *)
Theorem soft_round_integer n : s (IZR n) = IZR n.
Proof.
  rewrite soft_unfold, Rfloor_IZR. replace (IZR n - (IZR n + 1/2)) with (-(1/2)) by ring.
  rewrite curve_opp, curve_half by exact alpha_pos. ring.
Qed.
Theorem soft_round_half n : s (IZR n + 1/2) = IZR n + 1/2.
Proof.
  rewrite soft_unfold. rewrite (Rfloor_unique (IZR n + 1/2) n) by lra.
  replace (_ - _) with 0 by ring. rewrite curve_0. ring.
Qed.
Theorem soft_round_increasing x y : x < y -> s x < s y.
Proof.
  intro H. destruct (Z.lt_trichotomy (Rfloor x) (Rfloor y)) as [L|[E|L]].
  - pose proof (Rfloor_spec (s x)) as A. pose proof (Rfloor_spec (s y)) as B.
    rewrite soft_round_cell in A, B. assert (IZR (Rfloor x + 1) <= IZR (Rfloor y)) by (apply IZR_le; lia).
    rewrite plus_IZR in *. lra.
  - rewrite !soft_unfold, E. apply Rplus_lt_compat_l. apply curve_incr; [exact alpha_pos|lra].
  - pose proof (Rfloor_mono x y ltac:(lra)). lia.
Qed.
(** The inverse is a two-sided inverse. *)
Theorem soft_round_inverse_left x : t (s x) = x.
Proof.
  rewrite inverse_unfold, soft_round_cell, soft_unfold.
  replace (_ - _) with (curve alpha (x - (IZR (Rfloor x) + 1/2))) by ring.
  rewrite curve_inv_curve by (exact alpha_pos || apply cell). ring.
Qed.
Lemma inverse_cell y : Rfloor (t y) = Rfloor y.
Proof.
  apply Rfloor_unique. rewrite inverse_unfold. pose proof (curve_inv_spec alpha alpha_pos _ (cell y)) as [_ R]. lra.
Qed.
Theorem soft_round_inverse_right y : s (t y) = y.
Proof.
  rewrite soft_unfold, inverse_cell, inverse_unfold.
  replace (IZR (Rfloor y) + 1/2 + curve_inv alpha (y - (IZR (Rfloor y) + 1/2)) - (IZR (Rfloor y) + 1/2))
    with (curve_inv alpha (y - (IZR (Rfloor y) + 1/2))) by ring.
  destruct (curve_inv_spec alpha alpha_pos _ (cell y)) as [-> _]. ring.
Qed.
(** Shifting by an integer. *)
Theorem soft_round_shift x n : s (x + IZR n) = s x + IZR n.
Proof.
  rewrite !soft_unfold, Rfloor_add, plus_IZR.
  replace (x + IZR n - (IZR (Rfloor x) + IZR n + 1/2)) with (x - (IZR (Rfloor x) + 1/2)) by ring. ring.
Qed.
Lemma inverse_shift y n : t (y + IZR n) = t y + IZR n.
Proof.
  rewrite <- (soft_round_inverse_left (t y + IZR n)). cbn beta. rewrite soft_round_shift. now rewrite soft_round_inverse_right.
Qed.
(** Between the identity and rounding: never farther from the nearest integer than x ... *)
Theorem soft_round_towards x :
  let n := IZR (Rfloor x) in
  (x <= n + 1/2 -> n <= s x <= x) /\ (n + 1/2 <= x -> x <= s x < n + 1).
Proof.
  intro n. pose proof (cell x) as C. fold n in C. pose proof (soft_unfold x) as U. fold n in U.
  pose proof (curve_range alpha alpha_pos _ C) as R. split; intro H; rewrite U.
  - split; [lra|]. pose proof (curve_above alpha alpha_pos (- (x - (n + 1/2))) ltac:(lra)) as Q.
    rewrite curve_opp in Q by exact alpha_pos. lra.
  - split; [|lra]. pose proof (curve_above alpha alpha_pos (x - (n + 1/2)) ltac:(lra)). lra.
Qed.
(** ... and exponentially close to it as alpha grows. *)
Theorem soft_round_limit x :
  let n := IZR (Rfloor x) in let d := x - (n + 1/2) in
  (d < 0 -> s x - n <= exp (2 * alpha * d)) /\ (0 < d -> n + 1 - s x <= exp (- (2 * alpha * d))).
Proof.
  intros n d. pose proof (cell x) as C. fold n d in C. pose proof (soft_unfold x) as U. fold n in U. fold d in U.
  split; intro H; rewrite U.
  - destruct C as [[C|C] _].
    + pose proof (curve_near alpha alpha_pos (- d) ltac:(lra)) as Q. rewrite curve_opp in Q by exact alpha_pos.
      replace (- (2 * alpha * - d)) with (2 * alpha * d) in Q by ring. lra.
    + rewrite <- C, curve_opp, curve_half by exact alpha_pos. pose proof (exp_pos (2 * alpha * -(1/2))). lra.
  - pose proof (curve_near alpha alpha_pos d ltac:(lra)). lra.
Qed.
End Soft.

(** The conditional mean is the midpoint of the values that soft-round to within a half of z:
    the mean of a uniform variable Y given s(Y) + U = z with U uniform on [-1/2, 1/2]. *)
Theorem soft_round_mean_is_midpoint alpha z x : (1 / 1000) <= alpha ->
  let g := soft_round_conditional_mean z alpha in
  z - 1/2 <= soft_round x alpha (1 / 1000) <= z + 1/2 <-> g - 1/2 <= x <= g + 1/2.
Proof.
  change (1 / 1000) with default_eps.
  intros A g. assert (E : 0 < default_eps) by (unfold default_eps; lra).
  assert (G1 : soft_round (g - 1/2) alpha default_eps = z - 1/2).
  { unfold g, soft_round_conditional_mean. replace (_ + 1/2 - 1/2) with (soft_round_inverse (z - 1/2) alpha default_eps) by ring.
    now apply soft_round_inverse_right. }
  assert (G2 : soft_round (g + 1/2) alpha default_eps = z + 1/2).
  { replace (g + 1/2) with (g - 1/2 + 1) by lra. rewrite (soft_round_shift alpha default_eps A (g - 1/2) 1), G1. lra. }
  assert (M : forall a b, soft_round a alpha default_eps <= soft_round b alpha default_eps <-> a <= b).
  { intros a b. split; intro H.
    - destruct (Rle_lt_dec a b) as [|L]; [assumption|]. apply (soft_round_increasing alpha default_eps E A) in L. lra.
    - destruct H as [H| ->]; [|lra]. apply (soft_round_increasing alpha default_eps E A) in H. lra. }
  rewrite <- G1, <- G2, !M. tauto.
Qed.
(** Below alpha = 1/1000 nothing is rounded, and the conditional mean is the value itself. *)
Theorem soft_round_mean_small_alpha alpha z : alpha < 1 / 1000 ->
  soft_round_conditional_mean z alpha = z /\ soft_round z alpha (1 / 1000) = z.
Proof.
  intro H. unfold soft_round_conditional_mean, soft_round_inverse, soft_round. fold default_eps in H. change (1 / 1000) with default_eps.
  destruct (Rlt_dec alpha default_eps); [|contradiction]. split; [ring|reflexivity].
Qed.
Print Assumptions soft_round_mean_small_alpha.

(** A non-trivial value: alpha = 2 at x = 3/4 is strictly between x and 1. *)
Example soft_round_ex : 3/4 <= soft_round (3/4) 2 default_eps < 1.
Proof.
  assert (F : Rfloor (3/4) = 0%Z) by (apply Rfloor_unique; lra).
  destruct (soft_round_towards 2 default_eps) with (x := 3/4) as [_ H]; [unfold default_eps; lra..|].
  rewrite F in H. specialize (H ltac:(lra)). lra.
Qed.

(** ** C43 *)
Definition doc_name (m : documented) : string :=
  match m with Disconnected => "disconnected" | Identity => "identity" | Towards => "identity_if_towards" end%string.
(** A tensor bound: the maximum, elementwise; and in the last two modes the documented gradient. *)
Theorem lower_bound_value x b m : exists out grad,
  lower_bound x (BTensor b) (doc_name m) = Ok (out, grad) /\
  tshape out = tshape x /\ forall i, tat out i = Rmax (tat x i) b.
Proof. destruct m; do 2 eexists; (split; [reflexivity|]); split; reflexivity. Qed.
Theorem lower_bound_gradient x b m out grad y :
  lower_bound x (BTensor b) (doc_name m) = Ok (out, grad) -> m <> Disconnected ->
  tshape (grad y) = tshape y /\
  forall i, tat (grad y) i = documented_gradient m (tat x i) b (tat y i).
Proof.
  intros H N. destruct m; [congruence| |]; injection H as <- <-; cbn; (split; [reflexivity|]); intro i; [reflexivity|].
  destruct (Rge_dec (tat x i) b), (Rlt_dec (tat x i) b), (Rlt_dec (tat y i) 0); cbn; try reflexivity; lra.
Qed.
(** "disconnected" returns the input itself instead of a gradient: wrong unless they agree. *)
Theorem lower_bound_disconnected_refuted x b out grad y :
  lower_bound x (BTensor b) "disconnected" = Ok (out, grad) ->
  grad y = x /\
  forall i, tat (grad y) i = documented_gradient Disconnected (tat x i) b (tat y i) <->
            (if Rlt_dec (tat x i) b then tat x i = 0 else tat x i = tat y i).
Proof.
  intro H. injection H as <- <-. cbn. split; [reflexivity|]. intro i. destruct (Rlt_dec (tat x i) b); reflexivity.
Qed.
(** A Python number as bound, which the signature allows, always fails. *)
Theorem lower_bound_float_refuted x b m : lower_bound x (BFloat b) (doc_name m) = Raise AttributeError.
Proof. destruct m; reflexivity. Qed.
Theorem lower_bound_modes x b gradient :
  (forall m, gradient <> doc_name m) -> lower_bound x b gradient = Raise ValueError.
Proof.
  intro H. unfold lower_bound, mode_of.
  destruct (String.eqb_spec gradient "disconnected") as [E|_]; [destruct (H Disconnected E)|].
  destruct (String.eqb_spec gradient "identity") as [E|_]; [destruct (H Identity E)|].
  destruct (String.eqb_spec gradient "identity_if_towards") as [E|_]; [destruct (H Towards E)|]. reflexivity.
Qed.
Example lower_bound_ex :
  let x := mkT [2%nat] (fun i => match i with [O] => -1 | _ => 2 end) in
  match lower_bound x (BTensor 0) "identity_if_towards" with
  | Ok (out, grad) => tat out [0%nat] = 0 /\ tat out [1%nat] = 2 /\
      tat (grad (mkT [2%nat] (fun _ => 5))) [0%nat] = 0 /\ tat (grad (mkT [2%nat] (fun _ => -5))) [0%nat] = -5
  | Raise _ => False
  end.
Proof.
  cbn. destruct (Rge_dec (-1) 0); [lra|]. destruct (Rlt_dec 5 0); [lra|]. destruct (Rlt_dec (-5) 0); [|lra].
  cbn. repeat split; [apply Rmax_right|apply Rmax_left]; lra.
Qed.

(** ** C44 *)
Lemma fmod6_spec j f : 0 <= f < 1 -> fmod6 (IZR j + f) = IZR (j mod 6) + f.
Proof.
  intro F. unfold fmod6. assert (E : Rfloor ((IZR j + f) / 6) = (j / 6)%Z).
  { apply Rfloor_unique. pose proof (Z.mod_pos_bound j 6 ltac:(lia)) as M. pose proof (Z.div_mod j 6 ltac:(lia)) as D.
    assert (IZR j = 6 * IZR (j / 6) + IZR (j mod 6)) by (rewrite <- mult_IZR, <- plus_IZR; f_equal; lia).
    assert (0 <= IZR (j mod 6) <= 5) by (split; apply IZR_le; lia). lra. }
  rewrite E. pose proof (Z.div_mod j 6 ltac:(lia)) as D.
  assert (IZR j = 6 * IZR (j / 6) + IZR (j mod 6)) by (rewrite <- mult_IZR, <- plus_IZR; f_equal; lia). lra.
Qed.
Ltac minmax := unfold Rmax, Rmin; repeat match goal with |- context [Rle_dec ?a ?b] =>
  lazymatch a with context [Rle_dec] => fail | _ => lazymatch b with context [Rle_dec] => fail | _ => destruct (Rle_dec a b) end end end.
Lemma triple (a b c a' b' c' : R) : a = a' -> b = b' -> c = c' -> (a, b, c) = (a', b', c').
Proof. congruence. Qed.
(** One pixel: the code computes the hexcone model. *)
Theorem hsv_pixel h s v : 0 <= h <= 360 ->
  (convert_fn h s v 5, convert_fn h s v 3, convert_fn h s v 1) = hexcone h s v.
Proof.
  intro H. unfold hexcone, convert_fn. cbv zeta. set (i := Rfloor (h / 60)). set (f := h / 60 - IZR i).
  assert (F : 0 <= f < 1) by (pose proof (Rfloor_spec (h / 60)); unfold f, i; lra).
  assert (I0 : (0 <= i)%Z) by (apply Rfloor_ge; lra).
  assert (I6 : (i <= 6)%Z) by (assert (i < 7)%Z; [apply Rfloor_lt; lra|lia]).
  assert (K : forall n, fmod6 (IZR n + h / 60) = IZR ((n + i) mod 6) + f).
  { intro n. replace (IZR n + h / 60) with (IZR (n + i) + f) by (rewrite plus_IZR; unfold f; ring). now apply fmod6_spec. }
  rewrite (K 5%Z), (K 3%Z), (K 1%Z). clear K. clearbody f.
  assert (C : i = 0%Z \/ i = 1%Z \/ i = 2%Z \/ i = 3%Z \/ i = 4%Z \/ i = 5%Z \/ i = 6%Z) by lia.
  assert (M : forall n q, n = q -> Rmax 0 (Rmin (Rmin n (4 - n)) 1) = Rmax 0 (Rmin (Rmin q (4 - q)) 1)) by (intros; now subst).
  assert (V0 : Rmax 0 (Rmin (Rmin (0 + f) (4 - (0 + f))) 1) = f) by (minmax; lra).
  assert (V1 : Rmax 0 (Rmin (Rmin (1 + f) (4 - (1 + f))) 1) = 1) by (minmax; lra).
  assert (V2 : Rmax 0 (Rmin (Rmin (2 + f) (4 - (2 + f))) 1) = 1) by (minmax; lra).
  assert (V3 : Rmax 0 (Rmin (Rmin (3 + f) (4 - (3 + f))) 1) = 1 - f) by (minmax; lra).
  assert (V4 : Rmax 0 (Rmin (Rmin (4 + f) (4 - (4 + f))) 1) = 0) by (minmax; lra).
  assert (V5 : Rmax 0 (Rmin (Rmin (5 + f) (4 - (5 + f))) 1) = 0) by (minmax; lra).
  clear M. clearbody i.
  repeat destruct C as [->|C]; [..|subst i];
    match goal with |- context [IZR ((5 + ?a) mod 6)] =>
      let x := eval compute in ((5 + a) mod 6)%Z in change ((5 + a) mod 6)%Z with x;
      let x := eval compute in ((3 + a) mod 6)%Z in change ((3 + a) mod 6)%Z with x;
      let x := eval compute in ((1 + a) mod 6)%Z in change ((1 + a) mod 6)%Z with x;
      let x := eval compute in (a mod 6)%Z in change (a mod 6)%Z with x end;
    rewrite ?V0, ?V1, ?V2, ?V3, ?V4, ?V5; cbv iota beta; apply triple; ring.
Qed.
Definition max3 (c : R * R * R) : R := let '(r, g, b) := c in Rmax r (Rmax g b).
Definition min3 (c : R * R * R) : R := let '(r, g, b) := c in Rmin r (Rmin g b).
(** The value is the largest component and v(1-s) the smallest. *)
Lemma hexcone_extremes h s v : 0 <= s <= 1 -> 0 <= v <= 1 ->
  max3 (hexcone h s v) = v /\ min3 (hexcone h s v) = v * (1 - s).
Proof.
  intros S V. unfold hexcone. cbv zeta. set (f := h / 60 - IZR (Rfloor (h / 60))).
  assert (F : 0 <= f < 1) by (pose proof (Rfloor_spec (h / 60)); unfold f; lra). clearbody f.
  assert (P : 0 <= v * s) by (apply Rmult_le_pos; lra).
  assert (P1 : 0 <= v * s * f) by (apply Rmult_le_pos; lra).
  assert (P2 : 0 <= v * s * (1 - f)) by (apply Rmult_le_pos; lra).
  set (p := v * (1 - s)). set (q := v * (1 - s * f)). set (t := v * (1 - s * (1 - f))).
  assert (p <= q <= v) by (unfold p, q; lra). assert (p <= t <= v) by (unfold p, t; lra). clearbody p q t. clear P P1 P2.
  destruct (Rfloor (h / 60) mod 6)%Z as [|[[|[]|]|[|[]|]|]|]; unfold max3, min3; split; minmax; lra.
Qed.
Lemma any_false p b h w x c : channel_any p b h w x c = false <->
  forall k i j, (k < b)%nat -> (i < h)%nat -> (j < w)%nat -> p (tat x [k; c; i; j]%nat) = false.
Proof.
  unfold channel_any. split.
  - intros H k i j K I J. destruct (p (tat x [k; c; i; j]%nat)) eqn:E; [|reflexivity]. rewrite <- H. symmetry.
    apply existsb_exists. exists k. split; [apply in_seq; lia|]. apply existsb_exists. exists i. split; [apply in_seq; lia|].
    apply existsb_exists. exists j. split; [apply in_seq; lia|exact E].
  - intro H. destruct (existsb _ _) eqn:E; [|reflexivity]. apply existsb_exists in E. destruct E as (k & K & E).
    apply existsb_exists in E. destruct E as (i & I & E). apply existsb_exists in E. destruct E as (j & J & E).
    apply in_seq in K, I, J. rewrite H in E by lia. discriminate.
Qed.
Definition in_range (lo hi v : R) : Prop := lo <= v <= hi.
Lemma range_false hi v : Rltb v 0 || Rltb hi v = false <-> in_range 0 hi v.
Proof. unfold Rltb, in_range. destruct (Rlt_dec v 0), (Rlt_dec hi v); cbn; split; intro; try discriminate; try lra; auto. Qed.
Definition valid_hsv (b h w : nat) (x : tensor R) : Prop := forall k i j, (k < b)%nat -> (i < h)%nat -> (j < w)%nat ->
  in_range 0 360 (tat x [k; 0; i; j]%nat) /\ in_range 0 1 (tat x [k; 1; i; j]%nat) /\ in_range 0 1 (tat x [k; 2; i; j]%nat).
(** Every valid image is converted pixel by pixel; everything else is refused. *)
Theorem hsv_value b h w x : tshape x = [b; 3; h; w]%nat -> (1 <= b * h * w)%nat -> valid_hsv b h w x ->
  exists y, hsv_to_rgb x = Ok y /\ tshape y = [b; 3; h; w]%nat /\
  forall k i j, (k < b)%nat -> (i < h)%nat -> (j < w)%nat ->
  (tat y [k; 0; i; j]%nat, tat y [k; 1; i; j]%nat, tat y [k; 2; i; j]%nat)
  = hexcone (tat x [k; 0; i; j]%nat) (tat x [k; 1; i; j]%nat) (tat x [k; 2; i; j]%nat).
Proof.
  intros S N V. unfold hsv_to_rgb. rewrite S. cbn [Nat.eqb negb].
  replace (b * h * w =? 0)%nat with false by (symmetry; apply Nat.eqb_neq; lia).
  assert (Q : forall c hi, (forall k i j, (k < b)%nat -> (i < h)%nat -> (j < w)%nat -> in_range 0 hi (tat x [k; c; i; j]%nat)) ->
    channel_any (fun v => Rltb v 0 || Rltb hi v) b h w x c = false).
  { intros c hi H. apply any_false. intros. apply range_false. auto. }
  rewrite !Q by (intros; now apply V). cbn [orb]. eexists. split; [reflexivity|]. split; [reflexivity|].
  intros k i j K I J. cbn [tat nth]. apply hsv_pixel. now apply V.
Qed.
Theorem hsv_rejects b h w x : tshape x = [b; 3; h; w]%nat -> (1 <= b * h * w)%nat -> ~ valid_hsv b h w x ->
  hsv_to_rgb x = Raise ValueError.
Proof.
  intros S N V. unfold hsv_to_rgb. rewrite S. cbn [Nat.eqb negb].
  replace (b * h * w =? 0)%nat with false by (symmetry; apply Nat.eqb_neq; lia).
  destruct (channel_any _ b h w x 0) eqn:A; [reflexivity|].
  destruct (channel_any _ b h w x 1) eqn:B; [reflexivity|].
  destruct (channel_any _ b h w x 2) eqn:C; [reflexivity|]. exfalso. apply V. intros k i j K I J.
  rewrite any_false in A, B, C. rewrite <- !range_false. auto.
Qed.
Theorem hsv_bad_shape x : (forall b h w, tshape x <> [b; 3; h; w]%nat) -> hsv_to_rgb x = Raise ValueError.
Proof.
  intro H. unfold hsv_to_rgb. destruct (tshape x) as [|b [|c [|h [|w [|]]]]]; try reflexivity.
  destruct (Nat.eqb_spec c 3) as [->|]; [|reflexivity]. exfalso. now apply (H b h w).
Qed.
(** The result is in [0, 1], its largest component is the value, its smallest v(1-s). *)
Theorem hsv_gamut b h w x y : tshape x = [b; 3; h; w]%nat -> hsv_to_rgb x = Ok y ->
  forall k i j, (k < b)%nat -> (i < h)%nat -> (j < w)%nat ->
  let s := tat x [k; 1; i; j]%nat in let v := tat x [k; 2; i; j]%nat in
  let rgb := (tat y [k; 0; i; j]%nat, tat y [k; 1; i; j]%nat, tat y [k; 2; i; j]%nat) in
  max3 rgb = v /\ min3 rgb = v * (1 - s) /\
  forall c, (c < 3)%nat -> in_range 0 1 (tat y [k; c; i; j]%nat).
Proof.
  intros S E k i j K I J s v rgb.
  assert (N : (1 <= b * h * w)%nat) by (assert (1 * 1 * 1 <= b * h * w)%nat; [apply Nat.mul_le_mono; [apply Nat.mul_le_mono|]; lia|lia]).
  assert (V : valid_hsv b h w x).
  { assert (D : hsv_to_rgb x <> Raise ValueError) by congruence. intros k' i' j' K' I' J'.
    assert (Dec : forall lo hi u, in_range lo hi u \/ ~ in_range lo hi u).
    { intros lo hi u. unfold in_range. destruct (Rle_dec lo u), (Rle_dec u hi); lra. }
    repeat match goal with |- _ /\ _ => split | |- in_range ?a ?b ?c => destruct (Dec a b c) as [|X]; [assumption|] end;
      exfalso; apply D, (hsv_rejects b h w); auto; intro VV; apply X; now apply VV. }
  destruct (hsv_value b h w x S N V) as (y' & E' & _ & P). assert (y' = y) by congruence. subst y'.
  specialize (P k i j K I J). destruct (V k i j K I J) as (_ & HS & HV).
  destruct (hexcone_extremes (tat x [k; 0; i; j]%nat) _ _ HS HV) as [A B]. rewrite <- P in A, B. fold s v in A, B.
  split; [exact A|]. split; [exact B|]. cbn [max3 min3] in A, B.
  fold s in HS. fold v in HV. unfold in_range in *.
  assert (Z : 0 <= v * (1 - s)) by (apply Rmult_le_pos; lra). rewrite <- B in Z. rewrite <- A in HV.
  pose proof (Rmax_l (tat y [k; 0; i; j]%nat) (Rmax (tat y [k; 1; i; j]%nat) (tat y [k; 2; i; j]%nat))).
  pose proof (Rmax_r (tat y [k; 0; i; j]%nat) (Rmax (tat y [k; 1; i; j]%nat) (tat y [k; 2; i; j]%nat))).
  pose proof (Rmax_l (tat y [k; 1; i; j]%nat) (tat y [k; 2; i; j]%nat)). pose proof (Rmax_r (tat y [k; 1; i; j]%nat) (tat y [k; 2; i; j]%nat)).
  pose proof (Rmin_l (tat y [k; 0; i; j]%nat) (Rmin (tat y [k; 1; i; j]%nat) (tat y [k; 2; i; j]%nat))).
  pose proof (Rmin_r (tat y [k; 0; i; j]%nat) (Rmin (tat y [k; 1; i; j]%nat) (tat y [k; 2; i; j]%nat))).
  pose proof (Rmin_l (tat y [k; 1; i; j]%nat) (tat y [k; 2; i; j]%nat)). pose proof (Rmin_r (tat y [k; 1; i; j]%nat) (tat y [k; 2; i; j]%nat)).
  intros c C. assert (CC : c = 0%nat \/ c = 1%nat \/ c = 2%nat) by lia. destruct CC as [->|[->| ->]]; lra.
Qed.
(** Orange: hue 30, full saturation and value. *)
Example hsv_ex : hexcone 30 1 1 = (1, 1/2, 0).
Proof.
  unfold hexcone. assert (F : Rfloor (30 / 60) = 0%Z) by (apply Rfloor_unique; lra). rewrite F. cbn. apply triple; lra.
Qed.

Print Assumptions soft_round_small.
Print Assumptions soft_round_cell.
Print Assumptions soft_round_integer.
Print Assumptions soft_round_half.
Print Assumptions soft_round_increasing.
Print Assumptions soft_round_inverse_left.
Print Assumptions soft_round_inverse_right.
Print Assumptions soft_round_shift.
Print Assumptions soft_round_towards.
Print Assumptions soft_round_limit.
Print Assumptions soft_round_mean_is_midpoint.
Print Assumptions lower_bound_value.
Print Assumptions lower_bound_gradient.
Print Assumptions lower_bound_disconnected_refuted.
Print Assumptions lower_bound_float_refuted.
Print Assumptions lower_bound_modes.
Print Assumptions hsv_value.
Print Assumptions hsv_rejects.
Print Assumptions hsv_bad_shape.
Print Assumptions hsv_gamut.

(** C20 in floating point: quantisation over the default range [-1, 1]. *)
From Coq Require Import ZArith Reals Lia Lra Psatz.
From Flocq Require Import Core Relative.
From Verif Require Import RBase RFloat Diff_QModel Diff_Quant.
Open Scope R_scope.

(** Half a unit in the last place of 1. *)
Definition half_ulp (k : precision) : R := match k with Single => / 2 ^ 24 | Double => / 2 ^ 53 end.
Definition bits (k : precision) : Z := match k with Single => 24 | Double => 53 end.

Lemma fl_err k x : Rabs (fl k x - x) <= half_ulp k * Rabs x + / 2 ^ 149.
Proof.
  assert (G : forall emin prec u, (0 < prec)%Z -> / 2 * bpow radix2 (- prec + 1) = u -> bpow radix2 emin <= / 2 ^ 149 ->
          Rabs (round radix2 (FLT_exp emin prec) ZnearestE x - x) <= u * Rabs x + / 2 ^ 149).
  { intros emin prec u P U E. destruct (error_N_FLT radix2 emin prec P (fun x => negb (Z.even x)) x) as (eps & eta & A & B & _ & ->).
    rewrite U in A. replace (x * (1 + eps) + eta - x) with (eps * x + eta) by ring.
    eapply Rle_trans; [apply Rabs_triang|]. rewrite Rabs_mult. pose proof (Rabs_pos x). pose proof (Rabs_pos eta).
    assert (Rabs eps * Rabs x <= u * Rabs x) by (apply Rmult_le_compat_r; assumption).
    assert (0 < bpow radix2 emin) by apply bpow_gt_0. lra. }
  destruct k; unfold fl, half_ulp.
  - apply G; [lia| |].
    + change (- (24) + 1)%Z with (-23)%Z. cbn [bpow]. change (Z.pow_pos radix2 23) with 8388608%Z. lra.
    + cbn [bpow]. rewrite <- (Rinv_inv (2 ^ 149)) at 1. rewrite Rinv_inv. apply Req_le. f_equal.
      rewrite (pow_IZR 2 149). f_equal.
  - apply G; [lia| |].
    + change (- (53) + 1)%Z with (-52)%Z. cbn [bpow]. change (Z.pow_pos radix2 52) with 4503599627370496%Z. lra.
    + replace (/ 2 ^ 149) with (bpow radix2 (-149)); [apply bpow_le; lia|]. cbn [bpow]. f_equal. rewrite (pow_IZR 2 149). f_equal.
Qed.
Lemma fl_int k n : (Z.abs n <= 2 ^ bits k)%Z -> fl k (IZR n) = IZR n.
Proof. destruct k; [apply b32_int|apply b64_int]. Qed.
Lemma half_ulp_pos k : 0 < half_ulp k <= / 2 ^ 24.
Proof. destruct k; unfold half_ulp; lra. Qed.
Lemma tiny_eq : 0 < / 2 ^ 149 <= / 2 ^ 100 * / 2 ^ 30.
Proof. lra. Qed.

(** Numbers within two units in the last place of a symbol's value are given that symbol. *)
Theorem diff_quantize_float : forall k p d x, (1 <= p <= bits k - 4)%Z -> (0 <= d < 2 ^ p)%Z ->
  Rabs (x - dequantize (-1) 1 p d) <= 4 * half_ulp k -> quantize_fl k (-1) 1 p x = d.
Proof.
  intros k p d x P D X. apply round_even_unique.
  assert (B2 : (2 ^ p <= 2 ^ (bits k - 4))%Z) by (apply Z.pow_le_mono_r; lia).
  assert (B24 : (4 * 2 ^ (bits k - 4) <= 2 ^ bits k)%Z) by (destruct k; cbn; lia).
  assert (P2 : (2 ^ 1 <= 2 ^ p)%Z) by (apply Z.pow_le_mono_r; lia).
  rewrite (fl_int k (-1)) by (destruct k; cbn; lia).
  rewrite (fl_int k (2 ^ p - 1)) by lia.
  replace (1 - -1) with (IZR 2) by (simpl; lra). rewrite (b64_int 2) by (cbn; lia). rewrite (fl_int k 2) by (destruct k; cbn; lia).
  set (N := IZR (2 ^ p - 1)).
  assert (N1 : 1 <= N) by (unfold N; apply IZR_le; lia).
  assert (NU : N * half_ulp k <= / 16).
  { assert (E : IZR (2 ^ (bits k - 4)) * half_ulp k = / 16) by (destruct k; unfold half_ulp; cbn [bits]; [change (2 ^ (24 - 4))%Z with 1048576%Z|change (2 ^ (53 - 4))%Z with 562949953421312%Z]; lra).
    rewrite <- E. apply Rmult_le_compat_r; [destruct (half_ulp_pos k); lra|]. unfold N. apply IZR_le. lia. }
  pose proof (fl_err k) as FE. pose proof (half_ulp_pos k) as [U0 U1]. set (u := half_ulp k) in *. set (t := / 2 ^ 149) in *.
  assert (T : 0 < t <= / 2 ^ 100) by (unfold t; lra). clearbody t u.
  assert (E : dequantize (-1) 1 p d = -1 + 2 * IZR d / N).
  { unfold dequantize. fold N. field. lra. }
  rewrite E in X. set (D0 := IZR d) in *. assert (DR : 0 <= D0 <= N) by (unfold D0, N; split; apply IZR_le; lia).
  (* first difference *)
  set (v := x - -1). assert (V : Rabs (v - 2 * D0 / N) <= 4 * u) by (unfold v; replace (x - -1 - 2 * D0 / N) with (x - (-1 + 2 * D0 / N)) by ring; exact X).
  assert (Q : 0 <= D0 / N <= 1).
  { split; [apply Rmult_le_pos; [lra|left; apply Rinv_0_lt_compat; lra]|]. apply Rmult_le_reg_r with N; [lra|]. unfold Rdiv. rewrite Rmult_assoc, Rinv_l by lra. lra. }
  assert (V2 : Rabs v <= 2 + 4 * u).
  { replace v with ((v - 2 * D0 / N) + 2 * (D0 / N)) by (unfold Rdiv; ring). eapply Rle_trans; [apply Rabs_triang|]. rewrite (Rabs_pos_eq (2 * (D0 / N))) by lra. lra. }
  set (a := fl k v). assert (A : Rabs (a - v) <= u * (2 + 4 * u) + t).
  { eapply Rle_trans; [apply FE|]. apply Rplus_le_compat_r, Rmult_le_compat_l; [lra|exact V2]. }
  assert (A1 : Rabs (a * N - 2 * D0) <= N * (6 * u + 4 * (u * u) + t)).
  { replace (a * N - 2 * D0) with (N * ((a - v) + (v - 2 * D0 / N))) by (field; lra). rewrite Rabs_mult, (Rabs_pos_eq N) by lra.
    apply Rmult_le_compat_l; [lra|]. eapply Rle_trans; [apply Rabs_triang|]. lra. }
  assert (UU : u * u <= u * / 2 ^ 24) by (apply Rmult_le_compat_l; lra).
  set (e1 := N * (6 * u + 4 * (u * u) + t)) in *.
  assert (E1 : e1 <= / 16 * (6 + / 10) + N * t).
  { unfold e1. replace (N * (6 * u + 4 * (u * u) + t)) with (6 * (N * u) + 4 * (N * (u * u)) + N * t) by ring.
    assert (N * (u * u) <= N * (u * / 2 ^ 24)) by (apply Rmult_le_compat_l; lra). nra. }
  assert (N24 : N <= 2 ^ 53).
  { unfold N. apply Rle_trans with (IZR (2 ^ 53)); [apply IZR_le|rewrite (pow_IZR 2 53); apply IZR_le; cbn; lia].
    apply Z.le_trans with (2 ^ bits k)%Z; [lia|]. apply Z.pow_le_mono_r; [lia|destruct k; cbn; lia]. }
  assert (NT : 0 <= N * t <= / 2 ^ 40).
  { split; [apply Rmult_le_pos; lra|]. apply Rle_trans with (2 ^ 53 * / 2 ^ 100); [apply Rmult_le_compat; lra|]. lra. }
  set (b := fl k (a * N)).
  assert (AN : Rabs (a * N) <= 2 * N + e1).
  { replace (a * N) with ((a * N - 2 * D0) + 2 * D0) by ring. eapply Rle_trans; [apply Rabs_triang|]. rewrite (Rabs_pos_eq (2 * D0)) by lra. lra. }
  assert (B : Rabs (b - 2 * D0) <= e1 + u * (2 * N + e1) + t).
  { replace (b - 2 * D0) with ((b - a * N) + (a * N - 2 * D0)) by ring. eapply Rle_trans; [apply Rabs_triang|].
    pose proof (FE (a * N)) as F. fold b in F. assert (u * Rabs (a * N) <= u * (2 * N + e1)) by (apply Rmult_le_compat_l; lra). lra. }
  set (e2 := e1 + u * (2 * N + e1) + t) in *.
  assert (E1P : 0 <= e1) by (eapply Rle_trans; [apply Rabs_pos|exact A1]).
  assert (E2 : e2 <= / 16 * (8 + / 5)).
  { unfold e2. assert (u * e1 <= / 2 ^ 24 * 1) by (apply Rmult_le_compat; lra). nra. }
  set (c := fl k (b / IZR 2)).
  pose proof (FE (b / IZR 2)) as F. fold c in F.
  assert (B2' : Rabs (b / IZR 2) <= N + e2).
  { replace (b / IZR 2) with ((b - 2 * D0) / 2 + D0) by (simpl; field). eapply Rle_trans; [apply Rabs_triang|]. rewrite (Rabs_pos_eq D0) by lra.
    unfold Rdiv. rewrite Rabs_mult, (Rabs_pos_eq (/ 2)) by lra. pose proof (Rabs_pos (b - 2 * D0)). lra. }
  change (Rabs (c - D0) < 1 / 2).
  replace (c - D0) with ((c - b / IZR 2) + (b - 2 * D0) / 2) by (simpl; field). eapply Rle_lt_trans; [apply Rabs_triang|].
  unfold Rdiv at 2. rewrite Rabs_mult, (Rabs_pos_eq (/ 2)) by lra.
  assert (u * Rabs (b / IZR 2) <= u * (N + e2)) by (apply Rmult_le_compat_l; lra).
  assert (E2P : 0 <= e2) by (eapply Rle_trans; [apply Rabs_pos|exact B]).
  assert (u * e2 <= / 2 ^ 24 * 1) by (apply Rmult_le_compat; lra).
  nra.
Qed.

(** The value that the model sees for a symbol is within two units of the real one, as a double
    and after the conversion to single precision. *)
Theorem diff_dequantize_float : forall p d, (1 <= p <= 49)%Z -> (0 <= d < 2 ^ p)%Z ->
  Rabs (dequantize_fl (-1) 1 p d - dequantize (-1) 1 p d) <= 4 * / 2 ^ 53 /\
  Rabs (to_float (dequantize_fl (-1) 1 p d) - dequantize (-1) 1 p d) <= 4 * / 2 ^ 24.
Proof.
  intros p d P D.
  assert (B2 : (2 ^ p <= 2 ^ 49)%Z) by (apply Z.pow_le_mono_r; lia). assert (P2 : (2 ^ 1 <= 2 ^ p)%Z) by (apply Z.pow_le_mono_r; lia).
  assert (C53 : (2 ^ 53 = 16 * 2 ^ 49)%Z) by reflexivity.
  set (N := IZR (2 ^ p - 1)). set (D0 := IZR d).
  assert (N1 : 1 <= N) by (unfold N; apply IZR_le; lia). assert (DR : 0 <= D0 <= N) by (unfold D0, N; split; apply IZR_le; lia).
  assert (E : dequantize (-1) 1 p d = -1 + 2 * (D0 / N)) by (unfold dequantize; fold N D0; field; lra).
  assert (Q : 0 <= D0 / N <= 1).
  { split; [apply Rmult_le_pos; [lra|left; apply Rinv_0_lt_compat; lra]|]. apply Rmult_le_reg_r with N; [lra|]. unfold Rdiv. rewrite Rmult_assoc, Rinv_l by lra. lra. }
  unfold dequantize_fl. replace (1 - -1) with (IZR 2) by (simpl; lra). rewrite (b64_int 2) by (cbn; lia). rewrite (b64_int d), (b64_int (2 ^ p - 1)) by lia.
  rewrite <- (mult_IZR d 2), (b64_int (d * 2)) by lia. rewrite mult_IZR. fold N D0.
  pose proof (fl_err Double) as FD. pose proof (fl_err Single) as FS. cbn [fl half_ulp] in FD, FS. set (t := / 2 ^ 149) in *.
  assert (T : 0 < t <= / 2 ^ 100) by (unfold t; lra).
  replace (D0 * IZR 2 / N) with (2 * (D0 / N)) by (simpl; field; lra). set (q := D0 / N) in *.
  pose proof (FD (2 * q)) as F1. rewrite (Rabs_pos_eq (2 * q)) in F1 by lra. set (r := b64 (2 * q)) in *.
  assert (R1 : Rabs (-1 + r) <= 1 + / 2 ^ 50).
  { replace (-1 + r) with ((-1 + 2 * q) + (r - 2 * q)) by ring. eapply Rle_trans; [apply Rabs_triang|].
    assert (Rabs (-1 + 2 * q) <= 1) by (apply Rabs_le; lra). lra. }
  pose proof (FD (-1 + r)) as F2. set (s := b64 (-1 + r)) in *.
  assert (F2' : Rabs (s - (-1 + r)) <= / 2 ^ 53 * (1 + / 2 ^ 50) + t) by (eapply Rle_trans; [exact F2|]; apply Rplus_le_compat_r, Rmult_le_compat_l; lra).
  rewrite E.
  assert (S1 : Rabs (s - (-1 + 2 * q)) <= 4 * / 2 ^ 53).
  { replace (s - (-1 + 2 * q)) with ((s - (-1 + r)) + (r - 2 * q)) by ring. eapply Rle_trans; [apply Rabs_triang|]. lra. }
  split; [exact S1|]. unfold to_float. pose proof (FS s) as F3.
  assert (S2 : Rabs s <= 1 + / 2 ^ 40).
  { replace s with ((s - (-1 + 2 * q)) + (-1 + 2 * q)) by ring. eapply Rle_trans; [apply Rabs_triang|]. assert (Rabs (-1 + 2 * q) <= 1) by (apply Rabs_le; lra). lra. }
  replace (b32 s - (-1 + 2 * q)) with ((b32 s - s) + (s - (-1 + 2 * q))) by ring. eapply Rle_trans; [apply Rabs_triang|].
  assert (/ 2 ^ 24 * Rabs s <= / 2 ^ 24 * (1 + / 2 ^ 40)) by (apply Rmult_le_compat_l; lra). lra.
Qed.

(** So symbols survive the round trip in floating point, in doubles and, up to 20 bits, in singles. *)
Theorem diff_symbols_float : forall p d, (1 <= p)%Z -> (0 <= d < 2 ^ p)%Z ->
  ((p <= 49)%Z -> quantize_fl Double (-1) 1 p (dequantize_fl (-1) 1 p d) = d) /\
  ((p <= 20)%Z -> quantize_fl Single (-1) 1 p (to_float (dequantize_fl (-1) 1 p d)) = d).
Proof.
  intros p d P D. split; intro L; apply diff_quantize_float; cbn [bits half_ulp]; try lia; try exact D; apply diff_dequantize_float; lia.
Qed.

(** Pixels that a loader has mapped to [-1, 1] in single precision, v / 127.5 - 1, are recovered. *)
Theorem diff_pixels_float : forall v, (0 <= v <= 255)%Z ->
  quantize_fl Single (-1) 1 8 (b32 (b32 (IZR v / (255 / 2)) - 1)) = v.
Proof.
  intros v V. apply diff_quantize_float; [cbn; lia|cbn; lia|]. cbn [half_ulp].
  unfold dequantize. change (IZR (2 ^ 8 - 1)) with 255.
  assert (R : 0 <= IZR v <= 255) by (split; apply IZR_le; lia).
  pose proof (fl_err Single) as FS. cbn [fl half_ulp] in FS. set (t := / 2 ^ 149) in *. assert (T : 0 < t <= / 2 ^ 100) by (unfold t; lra).
  set (q := IZR v / (255 / 2)). assert (Q : 0 <= q <= 2) by (unfold q; lra).
  replace (-1 + IZR v * (1 - -1) / 255) with (q - 1) by (unfold q; field).
  pose proof (FS q) as F1. rewrite (Rabs_pos_eq q) in F1 by lra. set (r := b32 q) in *.
  pose proof (FS (r - 1)) as F2.
  assert (R1 : Rabs (r - 1) <= 1 + / 2 ^ 22).
  { replace (r - 1) with ((q - 1) + (r - q)) by ring. eapply Rle_trans; [apply Rabs_triang|]. assert (Rabs (q - 1) <= 1) by (apply Rabs_le; lra). lra. }
  replace (b32 (r - 1) - (q - 1)) with ((b32 (r - 1) - (r - 1)) + (r - q)) by ring. eapply Rle_trans; [apply Rabs_triang|].
  assert (/ 2 ^ 24 * Rabs (r - 1) <= / 2 ^ 24 * (1 + / 2 ^ 22)) by (apply Rmult_le_compat_l; lra). lra.
Qed.
Print Assumptions diff_quantize_float.
Print Assumptions diff_symbols_float.
Print Assumptions diff_pixels_float.

(** Proofs about quantisation in the diffusion codec. *)
From Coq Require Import ZArith Reals Lra Lia.
From Verif Require Import RBase Diff_QModel.
Open Scope R_scope.

Lemma pow2_m1 p : (1 <= p)%Z -> (1 <= 2 ^ p - 1)%Z.
Proof. intro H. pose proof (Z.pow_le_mono_r 2 1 p ltac:(lia) H) as A. change (2 ^ 1)%Z with 2%Z in A. lia. Qed.

Lemma quantize_close lo hi p d x : lo < hi -> (1 <= p)%Z ->
  Rabs (x - dequantize lo hi p d) < (hi - lo) / (2 * IZR (2 ^ p - 1)) ->
  quantize lo hi p x = d.
Proof.
  intros HR Hp H. pose proof (pow2_m1 p Hp) as HN. apply IZR_le in HN.
  unfold quantize, dequantize in *. set (N := IZR (2 ^ p - 1)) in *. apply round_even_unique.
  set (w := (hi - lo) / N).
  assert (Hw : 0 < w) by (unfold w; apply Rdiv_lt_0_compat; lra).
  replace ((x - lo) * N / (hi - lo) - IZR d) with ((x - (lo + IZR d * (hi - lo) / N)) / w)
    by (unfold w; field; lra).
  unfold Rdiv at 1. rewrite Rabs_mult, (Rabs_pos_eq (/ w)) by (left; now apply Rinv_0_lt_compat).
  apply Rmult_lt_reg_r with w; [exact Hw|]. rewrite Rmult_assoc, Rinv_l, Rmult_1_r by lra.
  replace (1 / 2 * w) with ((hi - lo) / (2 * N)) by (unfold w; field; lra). exact H.
Qed.

Lemma quantize_dequantize lo hi p d : lo < hi -> (1 <= p)%Z ->
  quantize lo hi p (dequantize lo hi p d) = d.
Proof.
  intros HR Hp. apply quantize_close; [exact HR | exact Hp |].
  rewrite Rminus_diag_eq by reflexivity. rewrite Rabs_R0.
  pose proof (pow2_m1 p Hp) as HN. apply IZR_le in HN. apply Rdiv_lt_0_compat; lra.
Qed.

Lemma quantize_error lo hi p x : lo < hi -> (1 <= p)%Z ->
  Rabs (x - dequantize lo hi p (quantize lo hi p x)) <= (hi - lo) / (2 * IZR (2 ^ p - 1)).
Proof.
  intros HR Hp. pose proof (pow2_m1 p Hp) as HN. apply IZR_le in HN.
  unfold quantize, dequantize. set (N := IZR (2 ^ p - 1)) in *.
  set (q := (x - lo) * N / (hi - lo)). pose proof (round_even_near q) as A.
  set (w := (hi - lo) / N).
  assert (Hw : 0 < w) by (unfold w; apply Rdiv_lt_0_compat; lra).
  replace (x - (lo + IZR (round_even q) * (hi - lo) / N)) with ((q - IZR (round_even q)) * w)
    by (unfold w, q; field; lra).
  rewrite Rabs_mult, (Rabs_pos_eq w) by lra.
  replace ((hi - lo) / (2 * N)) with (1 / 2 * w) by (unfold w; field; lra).
  apply Rmult_le_compat_r; lra.
Qed.

Lemma quantize_range lo hi p x : lo < hi -> (1 <= p)%Z -> lo <= x <= hi ->
  (0 <= quantize lo hi p x < 2 ^ p)%Z.
Proof.
  intros HR Hp Hx. pose proof (pow2_m1 p Hp) as HN. apply IZR_le in HN.
  assert (0 <= quantize lo hi p x <= 2 ^ p - 1)%Z; [|lia].
  unfold quantize. set (N := IZR (2 ^ p - 1)) in *. apply round_even_range. split.
  - apply Rmult_le_pos; [apply Rmult_le_pos; lra | left; apply Rinv_0_lt_compat; lra].
  - fold N. apply Rmult_le_reg_r with (hi - lo); [lra|]. unfold Rdiv.
    rewrite Rmult_assoc, Rinv_l, Rmult_1_r by lra. rewrite (Rmult_comm N). apply Rmult_le_compat_r; lra.
Qed.

Lemma edge_gap lo hi p i : lo < hi -> (1 <= p)%Z ->
  dequantize lo hi p i - bin_edge lo hi p i
  = (IZR (2 ^ p) - IZR i * (2 - (hi - lo))) / (IZR (2 ^ p) * IZR (2 ^ p - 1)).
Proof.
  intros HR Hp. pose proof (pow2_m1 p Hp) as HN. unfold dequantize, bin_edge. cbv zeta.
  assert (HN' := HN). apply IZR_le in HN'. rewrite minus_IZR in *. set (n := IZR (2 ^ p)) in *. field. lra.
Qed.
Lemma edge_gap_hi lo hi p i : lo < hi -> (1 <= p)%Z ->
  bin_edge lo hi p (i + 1) - dequantize lo hi p i
  = ((hi - lo) * (IZR (2 ^ p) - 1 - IZR i) - IZR (2 ^ p) + 2 * (IZR i + 1))
    / (IZR (2 ^ p) * IZR (2 ^ p - 1)).
Proof.
  intros HR Hp. pose proof (pow2_m1 p Hp) as HN. unfold dequantize, bin_edge. cbv zeta.
  rewrite plus_IZR. assert (HN' := HN). apply IZR_le in HN'. rewrite minus_IZR in *.
  set (n := IZR (2 ^ p)) in *. field. lra.
Qed.

Lemma bins_centred lo hi p i : hi - lo = 2 -> (1 <= p)%Z ->
  dequantize lo hi p i = (bin_edge lo hi p i + bin_edge lo hi p (i + 1)) / 2.
Proof.
  intros HR Hp. pose proof (edge_gap lo hi p i ltac:(lra) Hp) as A.
  pose proof (edge_gap_hi lo hi p i ltac:(lra) Hp) as B. rewrite HR in A, B.
  pose proof (pow2_m1 p Hp) as HN. apply IZR_le in HN. rewrite minus_IZR in *.
  set (n := IZR (2 ^ p)) in *.
  assert (E : (n - IZR i * (2 - 2)) / (n * (n - 1)) = (2 * (n - 1 - IZR i) - n + 2 * (IZR i + 1)) / (n * (n - 1)))
    by (field; lra).
  lra.
Qed.

Lemma bins_contain lo hi p i : 1 <= hi - lo -> (1 <= p)%Z -> (0 <= i < 2 ^ p)%Z ->
  bin_edge lo hi p i <= dequantize lo hi p i <= bin_edge lo hi p (i + 1).
Proof.
  intros HR Hp [Hi1 Hi2]. pose proof (edge_gap lo hi p i ltac:(lra) Hp) as A.
  pose proof (edge_gap_hi lo hi p i ltac:(lra) Hp) as B.
  pose proof (pow2_m1 p Hp) as HN. apply IZR_le in HN. rewrite minus_IZR in *.
  assert (Hi3 : (i + 1 <= 2 ^ p)%Z) by lia. apply IZR_le in Hi1, Hi3. rewrite plus_IZR in Hi3.
  set (n := IZR (2 ^ p)) in *. set (k := IZR i) in *. set (r := hi - lo) in *.
  assert (Hd : 0 < n * (n - 1)) by (apply Rmult_lt_0_compat; lra).
  assert (A' : 0 <= n - k * (2 - r)) by nra.
  assert (B' : 0 <= r * (n - 1 - k) - n + 2 * (k + 1)) by nra.
  assert (0 <= (n - k * (2 - r)) / (n * (n - 1)))
    by (apply Rmult_le_pos; [exact A' | left; now apply Rinv_0_lt_compat]).
  assert (0 <= (r * (n - 1 - k) - n + 2 * (k + 1)) / (n * (n - 1)))
    by (apply Rmult_le_pos; [exact B' | left; now apply Rinv_0_lt_compat]).
  lra.
Qed.

(** For a narrow data range symbols fall outside their own bin. *)
Lemma bins_narrow : dequantize 0 (1/2) 8 0 > bin_edge 0 (1/2) 8 1.
Proof.
  unfold dequantize, bin_edge. cbv zeta. change (2 ^ 8)%Z with 256%Z. change (256 - 1)%Z with 255%Z. lra.
Qed.

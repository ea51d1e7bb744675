(** C79: cross-covariance attention. *)
From Coq Require Import ZArith Reals List Bool Arith Lra Lia Permutation.
From Verif Require Import Base Tensor RBase RSum Vqb_Model Norm_Model Norm_Props Xca_Model.
Import ListNotations.
Open Scope R_scope.

(** ** Which inputs are accepted *)
Theorem C79_shape : forall l x B N C, tshape x = [B; N; C]%nat -> (1 <= B * N)%nat ->
  (C = dim l -> (1 <= heads l)%nat -> (C mod heads l = 0)%nat -> exists y, xca_forward l x = Ok y /\ tshape y = [B; N; C]%nat) /\
  (C = dim l -> heads l = 0%nat -> xca_forward l x = Raise ZeroDivisionError) /\
  (C <> dim l \/ (1 <= heads l /\ C mod heads l <> 0)%nat -> xca_forward l x = Raise RuntimeError).
Proof.
  intros l x B N C S P. unfold xca_forward. rewrite S. split; [|split; [intros -> ->; rewrite Nat.eqb_refl; reflexivity|]].
  - intros -> H M. rewrite Nat.eqb_refl. cbn [negb]. destruct (Nat.eqb_spec (heads l) 0); [lia|].
    pose proof (Nat.div_mod (dim l) (heads l) ltac:(lia)) as E. rewrite M, Nat.add_0_r in E.
    replace (_ =? _)%nat with true by (symmetry; apply Nat.eqb_eq; rewrite <- (Nat.mul_assoc _ (heads l)), <- E; reflexivity). eexists. split; reflexivity.
  - intros [H|[H M]].
    + apply Nat.eqb_neq in H. rewrite H. reflexivity.
    + destruct (C =? dim l)%nat; [|reflexivity]. cbn [negb]. destruct (Nat.eqb_spec (heads l) 0); [lia|].
      destruct (Nat.eqb_spec (B * N * 3 * C) (B * N * 3 * heads l * (C / heads l))) as [E|]; [exfalso|reflexivity].
      pose proof (Nat.div_mod C (heads l) ltac:(lia)) as D. rewrite <- (Nat.mul_assoc _ (heads l)) in E.
      apply Nat.mul_cancel_l in E; [|nia]. lia.
Qed.

(** ** Weighted sums *)
Lemma norm_le1 : forall n v, rsum n (fun t => normalize_row n v t ^ 2) <= 1.
Proof.
  intros n v. unfold normalize_row. set (m := Rmax (row_norm n v) (/ 10 ^ 12)).
  assert (0 < / 10 ^ 12) as E by (apply Rinv_0_lt_compat; lra). assert (0 < m) as M by (pose proof (Rmax_r (row_norm n v) (/ 10 ^ 12)); unfold m; lra).
  rewrite (rsum_ext n _ (fun t => (v t * v t) * / m ^ 2)) by (intros; field; lra). rewrite rsum_scal_r.
  assert (0 <= rsum n (fun t => v t * v t)) as P by (apply rsum_nonneg; intros; nra).
  assert (rsum n (fun t => v t * v t) <= m ^ 2).
  { replace (rsum n (fun t => v t * v t)) with (row_norm n v ^ 2) by (unfold row_norm; apply pow2_sqrt; exact P).
    apply pow_incr. split; [apply sqrt_pos|apply Rmax_l]. }
  apply (Rmult_le_reg_r (m ^ 2)); [apply pow_lt; exact M|]. rewrite Rmult_assoc, Rinv_l, Rmult_1_r, Rmult_1_l by (apply pow_nonzero; lra). exact H.
Qed.
Lemma dot_le1 : forall n p q, rsum n (fun t => p t ^ 2) <= 1 -> rsum n (fun t => q t ^ 2) <= 1 -> -1 <= rsum n (fun t => p t * q t) <= 1.
Proof.
  intros n p q P Q. split.
  - assert (0 <= rsum n (fun t => (p t + q t) ^ 2)) as H by (apply rsum_nonneg; intros; apply pow2_ge_0).
    rewrite (rsum_ext n _ (fun t => p t ^ 2 + (q t ^ 2 + 2 * (p t * q t)))) in H by (intros; ring). rewrite !rsum_plus, rsum_scal in H. lra.
  - assert (0 <= rsum n (fun t => (p t - q t) ^ 2)) as H by (apply rsum_nonneg; intros; apply pow2_ge_0).
    rewrite (rsum_ext n _ (fun t => p t ^ 2 + (q t ^ 2 + -2 * (p t * q t)))) in H by (intros; ring). rewrite !rsum_plus, rsum_scal in H. lra.
Qed.
Lemma softmax_spec : forall n a r, (1 <= n)%nat -> (forall e, (e < n)%nat -> - r <= a e <= r) ->
  rsum n (softmax n a) = 1 /\ forall e, (e < n)%nat -> 0 < softmax n a e /\ exp (- (2 * r)) <= INR n * softmax n a e <= exp (2 * r).
Proof.
  intros n a r N A. unfold softmax. set (s := rsum n (fun i => exp (a i))).
  assert (forall x y, x <= y -> exp x <= exp y) as EX. { intros x y [H|H]; [left; apply exp_increasing; exact H|subst; lra]. }
  assert (0 < INR n) as NP by (apply lt_0_INR; lia).
  assert (INR n * exp (- r) <= s <= INR n * exp r) as SB.
  { unfold s. rewrite <- !rsum_const. split; apply rsum_le; intros i I; apply EX; apply A; exact I. }
  pose proof (exp_pos r) as E1. pose proof (exp_pos (- r)) as E2. assert (0 < s) as SP by (pose proof (Rmult_lt_0_compat _ _ NP E2); lra).
  assert (exp r * exp (- r) = 1) as EE by (rewrite <- exp_plus, Rplus_opp_r; apply exp_0).
  assert (exp (- (2 * r)) = exp (- r) * exp (- r)) as D1 by (rewrite <- exp_plus; f_equal; ring).
  assert (exp (2 * r) = exp r * exp r) as D2 by (rewrite <- exp_plus; f_equal; ring).
  split.
  - unfold Rdiv. rewrite rsum_scal_r. fold s. field. lra.
  - intros e I. pose proof (exp_pos (a e)) as EP. assert (0 < / s) by (apply Rinv_0_lt_compat; exact SP).
    split; [unfold Rdiv; nra|]. destruct (A e I) as [A1 A2]. apply EX in A1, A2. rewrite D1, D2.
    split; apply (Rmult_le_reg_r s); try lra; replace (INR n * (exp (a e) / s) * s) with (INR n * exp (a e)) by (field; lra).
    + apply Rle_trans with (exp (- r) * exp (- r) * (INR n * exp r)); [apply Rmult_le_compat_l; [nra|lra]|].
      replace (exp (- r) * exp (- r) * (INR n * exp r)) with (INR n * exp (- r) * (exp r * exp (- r))) by ring. rewrite EE. nra.
    + apply Rle_trans with (exp r * exp r * (INR n * exp (- r))); [|apply Rmult_le_compat_l; [nra|lra]].
      replace (exp r * exp r * (INR n * exp (- r))) with (INR n * exp r * (exp r * exp (- r))) by ring. rewrite EE. nra.
Qed.
Lemma linear_ext : forall n w b v v' o, (forall i, (i < n)%nat -> v i = v' i) -> linear n w b v o = linear n w b v' o.
Proof. intros n w b v v' o E. unfold linear. f_equal. apply rsum_ext. intros i I. rewrite (E i I). reflexivity. Qed.
(** An affine map: weights times values, plus the bias. *)
Definition affine (n : nat) (w : nat -> nat -> R) (b : nat -> R) (v : nat -> R) (o : nat) : R := rsum n (fun i => w o i * v i) + b o.
Lemma linear_affine : forall n w b v o, linear n w b v o = affine n w b v o.
Proof. reflexivity. Qed.
(** The projections of token t of batch entry b: C queries, then C keys, then C values. *)
Definition projected (l : xca) (x : tensor R) (C b kind c t : nat) : R :=
  affine C (w_qkv l) (b_qkv l) (fun c => tat x [b; t; c]%nat) (kind * C + c).
(** The cosine of two rows over the tokens. *)
Definition row_length (N : nat) (u : nat -> R) : R := Rmax (sqrt (rsum N (fun t => u t ^ 2))) (1 / 10 ^ 12).
Definition cosine (N : nat) (u v : nat -> R) : R := rsum N (fun t => u t * v t) / (row_length N u * row_length N v).
(** The weight of channel e of its head in channel c, D channels per head. *)
Definition weight_of (l : xca) (x : tensor R) (C D N b c e : nat) : R :=
  let similarity := fun e => temperature l (c / D) * cosine N (projected l x C b 0 c) (projected l x C b 1 (c / D * D + e)) in
  exp (similarity e) / rsum D (fun e => exp (similarity e)).
Lemma attention_spec : forall l x N b c e D, let C := dim l in (1 <= D)%nat ->
  attention l D N (fun t c => tat x [b; t; c]%nat) (c / D) (c mod D) e = weight_of l x C D N b c e.
Proof.
  intros l x N b c e D C DP. unfold attention, weight_of, softmax.
  assert (forall e, rsum N (fun t => normalize_row N (fun t => part l D (fun t c => tat x [b; t; c]%nat) 0 (c / D) (c mod D) t) t
      * normalize_row N (fun t => part l D (fun t c => tat x [b; t; c]%nat) 1 (c / D) e t) t) * temperature l (c / D)
    = temperature l (c / D) * cosine N (projected l x C b 0 c) (projected l x C b 1 (c / D * D + e))) as K.
  { intros i. rewrite Rmult_comm. f_equal. unfold cosine.
    assert (forall u, row_norm N u = sqrt (rsum N (fun t => u t ^ 2))) as RN by (intros u; unfold row_norm; f_equal; apply rsum_ext; intros; ring).
    assert (forall u, 0 < row_length N u) as RP. { intros u. unfold row_length. pose proof (Rmax_r (sqrt (rsum N (fun t => u t ^ 2))) (1 / 10 ^ 12)). assert (0 < 1 / 10 ^ 12) by lra. lra. }
    assert (forall u t, normalize_row N u t = u t / row_length N u) as NR by (intros u t; unfold normalize_row, row_length; rewrite RN; f_equal; f_equal; lra).
    assert (forall t, part l D (fun t c => tat x [b; t; c]%nat) 0 (c / D) (c mod D) t = projected l x C b 0 c t) as PQ.
    { intros t. unfold part, projected. fold C. rewrite linear_affine. f_equal. rewrite (Nat.div_mod c D) at 3 by lia. lia. }
    assert (forall t, part l D (fun t c => tat x [b; t; c]%nat) 1 (c / D) i t = projected l x C b 1 (c / D * D + i) t) as PK.
    { intros t. unfold part, projected. fold C. rewrite linear_affine. f_equal. lia. }
    assert (forall u u', (forall t, u t = u' t) -> row_length N u = row_length N u') as RE.
    { intros u u' E. unfold row_length. f_equal. f_equal. apply rsum_ext. intros t _. rewrite E. reflexivity. }
    set (q := projected l x C b 0 c) in *. set (k := projected l x C b 1 (c / D * D + i)) in *. pose proof (RP q). pose proof (RP k).
    unfold Rdiv at 1. rewrite <- rsum_scal_r. apply rsum_ext. intros t _. rewrite !NR,
      (RE (fun t => part l D (fun t c => tat x [b; t; c]%nat) 0 (c / D) (c mod D) t) q PQ), (RE (fun t => part l D (fun t c => tat x [b; t; c]%nat) 1 (c / D) i t) k PK), PQ, PK. field. lra. }
  f_equal; [rewrite K; reflexivity|]. apply rsum_ext. intros i _. rewrite K. reflexivity.
Qed.
(** Every output is the projection of channels each of which is a weighted mean of the value channels of its
    head, at the same token, with weights that are the same for all tokens; a weight is 1/D up to a factor
    exp (2 |temperature|). *)
Theorem C79_mixture : forall l x y B N C, tshape x = [B; N; C]%nat -> xca_forward l x = Ok y -> (1 <= C)%nat -> (1 <= B * N)%nat -> let D := (C / heads l)%nat in
  (D * heads l)%nat = C /\
  forall b, (b < B)%nat -> let A := weight_of l x C D N b in
    (forall c, (c < C)%nat -> rsum D (A c) = 1 /\
       forall e, (e < D)%nat -> 0 < A c e /\ exp (- (2 * Rabs (temperature l (c / D)))) <= INR D * A c e <= exp (2 * Rabs (temperature l (c / D)))) /\
    forall t o, (t < N)%nat -> (o < C)%nat ->
      tat y [b; t; o]%nat = affine C (w_proj l) (b_proj l) (fun c => rsum D (fun e => A c e * projected l x C b 2 (c / D * D + e) t)) o.
Proof.
  intros l x y B N C S Y CP BN D. unfold xca_forward in Y. rewrite S in Y. destruct (Nat.eqb_spec C (dim l)) as [E|]; [|discriminate].
  cbn [negb] in Y. destruct (Nat.eqb_spec (heads l) 0) as [|HH]; [discriminate|]. fold D in Y.
  destruct (Nat.eqb_spec (B * N * 3 * C) (B * N * 3 * heads l * D)) as [EC|]; [|discriminate]. cbn [negb] in Y.
  rewrite <- (Nat.mul_assoc _ (heads l)) in EC. apply Nat.mul_cancel_l in EC; [|nia]. injection Y as <-.
  assert (1 <= D)%nat as DP by (destruct D; nia). split; [lia|]. intros b Bb A.
  set (xb := fun t c => tat x [b; t; c]%nat). assert (forall c e, attention l D N xb (c / D) (c mod D) e = A c e) as AE by (intros; unfold A; rewrite E; apply attention_spec; exact DP). split.
  - intros c Hc.
    assert (rsum D (attention l D N xb (c / D) (c mod D)) = 1 /\ forall e, (e < D)%nat -> 0 < attention l D N xb (c / D) (c mod D) e /\
      exp (- (2 * Rabs (temperature l (c / D)))) <= INR D * attention l D N xb (c / D) (c mod D) e <= exp (2 * Rabs (temperature l (c / D)))) as [K1 K2].
    { unfold attention. apply softmax_spec; [exact DP|]. intros e _.
      pose proof (dot_le1 N _ _ (norm_le1 N (fun t => part l D xb 0 (c / D) (c mod D) t)) (norm_le1 N (fun t => part l D xb 1 (c / D) e t))) as DL.
      set (dot := rsum N _) in *. set (ta := temperature l (c / D)). assert (Rabs (dot * ta) <= Rabs ta).
      { rewrite Rabs_mult. assert (Rabs dot <= 1) by (apply Rabs_le; lra). pose proof (Rabs_pos ta). nra. }
      pose proof (Rle_abs (dot * ta)). pose proof (Rle_abs (- (dot * ta))) as O. rewrite Rabs_Ropp in O. lra. }
    split; [rewrite <- K1; apply rsum_ext; intros; symmetry; apply AE|]. intros e He. rewrite <- AE. apply K2, He.
  - intros t o Ht Ho. cbn [tat]. unfold xca_entry. fold xb. rewrite <- E. rewrite linear_affine. unfold affine. f_equal. apply rsum_ext. intros c Hc. f_equal.
    apply rsum_ext. intros e He. rewrite AE. f_equal. unfold projected, part. rewrite <- E, linear_affine. f_equal. lia.
Qed.

(** ** Tokens in another order *)
Lemma rsum_seq : forall n f, rsum n f = fold_right Rplus 0 (map f (seq 0 n)).
Proof.
  induction n as [|n IH]; intros f; [reflexivity|]. rewrite rsum_last, seq_S, map_app, fold_right_app. cbn [map fold_right Nat.add]. rewrite IH.
  generalize (map f (seq 0 n)) as l. induction l as [|a l IHl]; cbn; [ring|rewrite <- IHl; ring].
Qed.
Lemma rsum_permuted : forall n s f, Permutation (map s (seq 0 n)) (seq 0 n) -> rsum n (fun i => f (s i)) = rsum n f.
Proof.
  intros n s f P. rewrite !rsum_seq, <- (map_map s f).
  assert (forall l l', Permutation l l' -> fold_right Rplus 0 l = fold_right Rplus 0 l') as K. { intros l l' Q. induction Q; cbn; lra. }
  apply K, Permutation_map, P.
Qed.
Definition token_order (N : nat) (s : nat -> nat) := Permutation (map s (seq 0 N)) (seq 0 N).
Lemma order_lt : forall N s t, token_order N s -> (t < N)%nat -> (s t < N)%nat.
Proof.
  intros N s t P T. assert (In (s t) (seq 0 N)) as I; [|apply in_seq in I; lia].
  apply (Permutation_in _ P). apply in_map, in_seq. lia.
Qed.
Lemma normalize_permuted : forall N s v w t, token_order N s -> (forall t, (t < N)%nat -> w t = v (s t)) -> (t < N)%nat -> normalize_row N w t = normalize_row N v (s t).
Proof.
  intros N s v w t P E T. unfold normalize_row, row_norm. rewrite (E t T).
  rewrite (rsum_ext N (fun j => w j * w j) (fun j => v (s j) * v (s j))) by (intros j J; rewrite (E j J); reflexivity).
  rewrite (rsum_permuted N s (fun j => v j * v j) P). reflexivity.
Qed.
Lemma softmax_ext : forall n a a' e, (forall i, (i < n)%nat -> a i = a' i) -> (e < n)%nat -> softmax n a e = softmax n a' e.
Proof. intros n a a' e E I. unfold softmax. rewrite (E e I). f_equal. apply rsum_ext. intros i J. rewrite (E i J). reflexivity. Qed.
Lemma entry_permuted : forall l D N x x' s t c, (1 <= D)%nat -> token_order N s -> (forall t c, (t < N)%nat -> (c < dim l)%nat -> x' t c = x (s t) c) -> (t < N)%nat ->
  xca_entry l D N x' t c = xca_entry l D N x (s t) c.
Proof.
  intros l D N x x' s t c DP P E T. unfold xca_entry. apply linear_ext. intros o _. apply rsum_ext. intros e He.
  assert (forall p h d t, (t < N)%nat -> part l D x' p h d t = part l D x p h d (s t)) as PE.
  { intros p h d u U. unfold part. apply linear_ext. intros i I. apply E; assumption. }
  f_equal; [|apply PE; exact T]. unfold attention. apply softmax_ext; [|exact He]. intros i _. f_equal.
  rewrite (rsum_ext N _ (fun u => normalize_row N (fun t => part l D x 0 (o / D) (o mod D) t) (s u) * normalize_row N (fun t => part l D x 1 (o / D) i t) (s u))).
  - apply (rsum_permuted N s (fun u => normalize_row N (fun t => part l D x 0 (o / D) (o mod D) t) u * normalize_row N (fun t => part l D x 1 (o / D) i t) u) P).
  - intros u U. f_equal; apply normalize_permuted; try assumption; intros; apply PE; assumption.
Qed.
(** Tokens in another order give the same results in that order; entries of a batch do not see each other. *)
Theorem C79_equivariant : forall l x x' y B B' N C s b b', tshape x = [B; N; C]%nat -> tshape x' = [B'; N; C]%nat -> token_order N s -> (1 <= C)%nat -> (b < B)%nat -> (b' < B')%nat ->
  (forall t c, (t < N)%nat -> (c < C)%nat -> tat x' [b'; t; c]%nat = tat x [b; s t; c]%nat) -> xca_forward l x = Ok y ->
  exists y', xca_forward l x' = Ok y' /\ forall t c, (t < N)%nat -> (c < C)%nat -> tat y' [b'; t; c]%nat = tat y [b; s t; c]%nat.
Proof.
  intros l x x' y B B' N C s b b' S S' P CP Bb Bb' E Y. unfold xca_forward in *. rewrite S in Y. rewrite S'.
  destruct (Nat.eqb_spec C (dim l)) as [ED|]; [|discriminate]. cbn [negb] in *. destruct (Nat.eqb_spec (heads l) 0) as [|HH]; [discriminate|].
  destruct (Nat.eqb_spec (B * N * 3 * C) (B * N * 3 * heads l * (C / heads l))) as [EC|]; [|discriminate]. cbn [negb] in Y. injection Y as <-.
  set (D := (C / heads l)%nat) in *. destruct (Nat.eq_dec N 0) as [->|NP].
  { rewrite !Nat.mul_0_r. cbn. eexists. split; [reflexivity|]. intros; lia. }
  assert (C = heads l * D)%nat as EC'. { rewrite <- (Nat.mul_assoc _ (heads l)) in EC. apply Nat.mul_cancel_l in EC; [exact EC|nia]. }
  replace (_ =? _)%nat with true by (symmetry; apply Nat.eqb_eq; rewrite <- (Nat.mul_assoc _ (heads l)); f_equal; exact EC'). cbn [negb].
  eexists. split; [reflexivity|]. intros t c T Cc. cbn [tat].
  apply (entry_permuted l D N (fun t c => tat x [b; t; c]%nat) (fun t c => tat x' [b'; t; c]%nat) s); [destruct D; nia|exact P| |exact T].
  intros u d U Dd. apply E; [exact U|lia].
Qed.

(** ** The attention block *)
(** Its output has the shape of the image and sees the pixels as a set: shuffled pixels give the shuffled
    output. *)
Definition place (W : nat) (t : nat) : nat * nat := (t / W, t mod W)%nat.
Definition shuffled (W : nat) (s : nat -> nat) (x : tensor R) (b c i j : nat) : R :=
  let '(i', j') := place W (s (i * W + j)%nat) in tat x [b; c; i'; j']%nat.
Theorem C79_attn_block : forall eps C ax n l x x' y B H W s, channel_norm_init C eps ax = Ok n -> tshape x = [B; C; H; W]%nat -> tshape x' = [B; C; H; W]%nat ->
  token_order (H * W) s -> (1 <= B)%nat ->
  (forall b c i j, (b < B)%nat -> (c < C)%nat -> (i < H)%nat -> (j < W)%nat -> tat x' [b; c; i; j]%nat = shuffled W s x b c i j) ->
  attn_block n l x = Ok y ->
  tshape y = [B; C; H; W]%nat /\
  exists y', attn_block n l x' = Ok y' /\ forall b c i j, (b < B)%nat -> (c < C)%nat -> (i < H)%nat -> (j < W)%nat -> tat y' [b; c; i; j]%nat = shuffled W s y b c i j.
Proof.
  intros eps C ax n l x x' y B H W s I S S' P BP E Y. unfold attn_block in *. rewrite S in Y. rewrite S'.
  unfold channel_norm_init in I. destruct (Nat.leb_spec C 1) as [|C2]; [discriminate|].
  assert (exists z z', channel_norm_forward n x = Ok z /\ channel_norm_forward n x' = Ok z' /\
    forall b c i j, (b < B)%nat -> (c < C)%nat -> (i < H)%nat -> (j < W)%nat -> tat z' [b; c; i; j]%nat = shuffled W s z b c i j) as (z & z' & Z & Z' & EZ).
  { assert (forall b k i j, (b < B)%nat -> (k < C)%nat -> (i < H)%nat -> (j < W)%nat ->
      normed eps C (fun k => tat x' [b; k; i; j]%nat) k = normed eps C (fun k => tat x [b; k; fst (place W (s (i * W + j))); snd (place W (s (i * W + j)))]%nat) k) as NE.
    { intros b k i j Hb Hk Hi Hj. pose proof (fun k Hk => E b k i j Hb Hk Hi Hj) as EE. unfold shuffled, place in EE. cbn [fst snd place].
      assert (mean C (fun k => tat x' [b; k; i; j]%nat) = mean C (fun k => tat x [b; k; s (i * W + j) / W; s (i * W + j) mod W]%nat)) as ME.
      { unfold mean. f_equal. apply rsum_ext. intros m M. apply EE, M. }
      assert (var C (fun k => tat x' [b; k; i; j]%nat) = var C (fun k => tat x [b; k; s (i * W + j) / W; s (i * W + j) mod W]%nat)) as VE.
      { unfold var. rewrite ME. f_equal. apply rsum_ext. intros m M. rewrite (EE m M). reflexivity. }
      unfold normed. rewrite ME, VE, (EE k Hk). reflexivity. }
    unfold channel_norm_forward. rewrite S, S'. injection I as <-. cbn [cn_affine cn_eps]. destruct ax; [rewrite Nat.eqb_refl|].
    all: eexists; eexists; split; [reflexivity|]; split; [reflexivity|]; intros b c i j Hb Hc Hi Hj; unfold shuffled; cbn [tat];
      destruct (place W (s (i * W + j)%nat)) as [i' j'] eqn:EP; rewrite (NE b c i j Hb Hc Hi Hj), EP; reflexivity. }
  rewrite Z in Y. rewrite Z'. cbn [bind] in *.
  match type of Y with context[xca_forward l ?t] => set (tx := t) in *; destruct (xca_forward l tx) as [u|] eqn:U; cbn [bind] in Y; [|discriminate] end.
  injection Y as <-. split; [reflexivity|].
  match goal with |- context[xca_forward l ?t] => set (tx' := t) in * end.
  assert (forall t, (t < H * W)%nat -> (t / W < H)%nat /\ (t mod W < W)%nat /\ (t / W * W + t mod W = t)%nat) as PL.
  { intros t T. assert (W <> 0)%nat by (intros ->; lia). split; [apply Nat.div_lt_upper_bound; lia|]. split; [apply Nat.mod_upper_bound; assumption|].
    pose proof (Nat.div_mod t W ltac:(assumption)). lia. }
  assert (forall b, (b < B)%nat -> forall t c, (t < H * W)%nat -> (c < C)%nat -> tat tx' [b; t; c]%nat = tat tx [b; s t; c]%nat) as ET.
  { intros b Hb t c T Hc. unfold tx, tx'. cbn [tat]. destruct (PL t T) as (P1 & P2 & P3). rewrite (EZ b c _ _ Hb Hc P1 P2). unfold shuffled, place. rewrite P3. reflexivity. }
  destruct (C79_equivariant l tx tx' u B B (H * W) C s 0 0 eq_refl eq_refl P ltac:(lia) ltac:(lia) ltac:(lia) (ET 0%nat ltac:(lia)) U) as (u' & U' & _).
  rewrite U'. cbn [bind]. eexists. split; [reflexivity|]. intros b c i j Hb Hc Hi Hj. unfold shuffled. cbn [tat].
  assert (i * W + j < H * W)%nat as T by nia. pose proof (order_lt _ _ _ P T) as T'. destruct (PL _ T') as (P1 & P2 & P3). unfold place. cbn [tat]. rewrite P3.
  rewrite (E b c i j Hb Hc Hi Hj). unfold shuffled, place. f_equal.
  destruct (C79_equivariant l tx tx' u B B (H * W) C s b b eq_refl eq_refl P ltac:(lia) Hb Hb (ET b Hb) U) as (u'' & U'' & EU).
  rewrite U' in U''. injection U'' as <-. apply EU; assumption.
Qed.

(** It is residual: a projection without weights adds its bias to the image; without bias it is the
    identity. *)
Theorem C79_attn_residual : forall n l x y B C H W, tshape x = [B; C; H; W]%nat -> (forall o i, w_proj l o i = 0) -> attn_block n l x = Ok y ->
  forall b c i j, (b < B)%nat -> (c < C)%nat -> (i < H)%nat -> (j < W)%nat -> tat y [b; c; i; j]%nat = tat x [b; c; i; j]%nat + b_proj l c.
Proof.
  intros n l x y B C H W S Z1 Y b c i j _ _ _ _. unfold attn_block in Y. rewrite S in Y. destruct (channel_norm_forward n x) as [z|]; [|discriminate]. cbn [bind] in Y.
  match type of Y with context[xca_forward l ?t] => destruct (xca_forward l t) as [u|] eqn:U; cbn [bind] in Y; [|discriminate] end.
  injection Y as <-. cbn [tat]. unfold xca_forward in U. cbn [tshape] in U. destruct (negb _); [discriminate|]. destruct (_ =? 0)%nat; [discriminate|]. destruct (negb _); [discriminate|].
  injection U as <-. cbn [tat]. unfold xca_entry, linear. rewrite (rsum_ext _ _ (fun _ => 0)) by (intros; rewrite Z1; ring). rewrite rsum_const. ring.
Qed.

(** Two channels, one head, two tokens: swapped tokens. *)
Example swap_case : let l := mkXca 2 1 (fun _ => 1) (fun o i => INR (o + i)) (fun _ => 0) (fun o i => if (o =? i)%nat then 1 else 0) (fun _ => 0) in
  let x := mkT [1; 2; 2]%nat (fun idx => match idx with [_; t; c] => INR (t + 2 * c) | _ => 0 end) in
  let s := fun t => (1 - t)%nat in
  token_order 2 s /\ exists y, xca_forward l x = Ok y /\ tshape y = [1; 2; 2]%nat.
Proof. intros l x s. split; [cbn; apply perm_swap|]. apply (C79_shape l x 1 2 2 eq_refl); cbn; lia. Qed.

Print Assumptions C79_mixture.
Print Assumptions C79_equivariant.
Print Assumptions C79_attn_block.

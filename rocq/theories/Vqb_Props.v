(** C41: the vector-quantisation bottleneck. *)
From Coq Require Import Reals List Bool Arith Lia Lra ZArith.
From Flocq Require Import Core.Raux.
From Verif Require Import Base Tensor RBase RSum Vqb_Model Vqb_Spec.
Import ListNotations.
Open Scope R_scope.

(** * Smallest element *)
Lemma argmin_from_spec : forall f n, let k := argmin_from f n in
  (k <= n)%nat /\ (forall i, (i <= n)%nat -> f k <= f i) /\ (forall i, (i < k)%nat -> f k < f i).
Proof.
  intros f n. induction n as [|n IH]; cbn [argmin_from].
  - cbv zeta. split; [lia|]. split; intros i I; [|lia]. replace i with 0%nat by lia. lra.
  - destruct IH as [A [B C]]. cbv zeta. destruct (Rlt_dec (f (S n)) (f (argmin_from f n))) as [L|L].
    + split; [lia|]. split.
      * intros i I. destruct (Nat.eq_dec i (S n)) as [-> |N]; [lra|]. specialize (B i ltac:(lia)). lra.
      * intros i I. specialize (B i ltac:(lia)). lra.
    + split; [lia|]. split.
      * intros i I. destruct (Nat.eq_dec i (S n)) as [-> |N]; [lra|]. apply B. lia.
      * exact C.
Qed.
Lemma argmin_spec : forall n f k, argmin n f = Ok k ->
  (k < n)%nat /\ (forall i, (i < n)%nat -> f k <= f i) /\ (forall i, (i < k)%nat -> f k < f i).
Proof.
  intros [|n] f k H; [discriminate|]. cbn in H. injection H as <-.
  destruct (argmin_from_spec f n) as [A [B C]]. split; [lia|]. split; [intros; apply B; lia|exact C].
Qed.
Lemma argmin_unique : forall n f k, (k < n)%nat -> (forall i, (i < n)%nat -> f k <= f i) ->
  (forall i, (i < k)%nat -> f k < f i) -> argmin n f = Ok k.
Proof.
  intros n f k K A B. destruct n as [|n]; [lia|]. cbn. f_equal.
  destruct (argmin_from_spec f n) as [P [Q S]]. set (j := argmin_from f n) in *.
  destruct (lt_eq_lt_dec j k) as [[L|E]|L]; [|exact E|].
  - specialize (B j L). specialize (Q k ltac:(lia)). lra.
  - specialize (S k L). specialize (A j ltac:(lia)). lra.
Qed.
Lemma mapM_ok : forall (A B : Type) (f : A -> res B) l r, mapM f l = Ok r ->
  length r = length l /\ forall n a b, (n < length l)%nat -> f (nth n l a) = Ok (nth n r b).
Proof.
  intros A B f l. induction l as [|x l IH]; intros r H; cbn in H.
  - injection H as <-. split; [reflexivity|]. cbn. lia.
  - destruct (f x) as [y|] eqn:E; cbn in H; [|discriminate].
    destruct (mapM f l) as [ys|] eqn:F; cbn in H; [|discriminate]. injection H as <-.
    destruct (IH ys eq_refl) as [L N]. split; [cbn; lia|]. intros [|n] a b I; cbn in *; [exact E|].
    apply N. lia.
Qed.
Lemma mapM_total : forall (A B : Type) (f : A -> res B) l, (forall a, exists b, f a = Ok b) -> exists r, mapM f l = Ok r.
Proof.
  intros A B f l H. induction l as [|x l [r IH]]; [eexists; reflexivity|]. destruct (H x) as [b Hb].
  cbn. rewrite Hb, IH. eexists. reflexivity.
Qed.

(** The rows that are compared and returned. *)
Definition used_row (normalize : bool) (cb : codebook) (k : nat) : nat -> R :=
  if normalize then unit_row (cb_dim cb) (cb_at cb k) else cb_at cb k.
Lemma used_row_eq : forall nz cb k j, cb_at (effective nz cb) k j = used_row nz cb k j.
Proof.
  intros [|] cb k j; [|reflexivity]. cbn. unfold normalize_row, unit_row, row_norm, sqdist. do 3 f_equal.
  apply rsum_ext. intros i _. ring.
Qed.
Lemma distance_eq : forall nz cb v k, distance (effective nz cb) v k = sqdist (cb_dim cb) (used_row nz cb k) v.
Proof.
  intros nz cb v k. unfold distance, sqdist. replace (cb_dim (effective nz cb)) with (cb_dim cb) by now destruct nz.
  apply rsum_ext. intros j _. rewrite used_row_eq. ring.
Qed.
Lemma size_eff : forall nz cb, cb_size (effective nz cb) = cb_size cb. Proof. now intros [|]. Qed.
Lemma dim_eff : forall nz cb, cb_dim (effective nz cb) = cb_dim cb. Proof. now intros [|]. Qed.
Lemma pick_nearest_iff : forall nz cb v k,
  pick_nearest (effective nz cb) v = Ok k <-> first_nearest (cb_size cb) (cb_dim cb) (used_row nz cb) v k.
Proof.
  intros nz cb v k. unfold pick_nearest, first_nearest. rewrite size_eff. split.
  - intro H. apply argmin_spec in H. destruct H as [A [B C]]. split; [exact A|].
    split; intros i I; rewrite <- !distance_eq; auto.
  - intros [A [B C]]. apply argmin_unique; [exact A| |]; intros i I; rewrite !distance_eq; auto.
Qed.

Lemma sqdist_nonneg : forall d u v, 0 <= sqdist d u v.
Proof. intros. apply rsum_nonneg. intros. apply Rle_0_sqr. Qed.
Lemma sqdist_zero : forall d u v, sqdist d u v = 0 <-> forall j, (j < d)%nat -> u j = v j.
Proof.
  intros d u v. split.
  - intros H j J. apply rsum_zero_inv with (i := j) in H; [|intros; apply Rle_0_sqr|exact J].
    apply Rsqr_0_uniq in H. lra.
  - intro H. apply rsum_zero. intros i I. rewrite H by exact I. ring.
Qed.
Lemma sqdist_ext : forall d u u' v v', (forall j, (j < d)%nat -> u j = u' j) -> (forall j, (j < d)%nat -> v j = v' j) ->
  sqdist d u v = sqdist d u' v'.
Proof. intros. apply rsum_ext. intros i I. rewrite H, H0 by exact I. reflexivity. Qed.

(** * Shape of a run *)
Lemma vectors_nth : forall x b h w k y z, (k < b)%nat -> (y < h)%nat -> (z < w)%nat ->
  forall c, nth (ravel [b; h; w]%nat [k; y; z]%nat) (vectors x b h w) (fun _ => 0) c = vector_at x k y z c.
Proof.
  intros x b h w k y z K Y Z c. unfold vectors.
  assert (I : inb [b; h; w]%nat [k; y; z]%nat) by (cbn; auto).
  pose proof (ravel_lt _ _ I) as L. assert (P : prod [b; h; w]%nat = (b * h * w)%nat) by (cbn; lia).
  rewrite P in L.
  match goal with |- nth ?n (map ?f _) _ _ = _ => set (F := f); set (N := n) in * end.
  rewrite (nth_indep _ _ (F 0%nat)) by (rewrite map_length, seq_length; exact L).
  rewrite map_nth, seq_nth by exact L. unfold F. cbv zeta. rewrite Nat.add_0_l. unfold N.
  rewrite unravel_ravel by exact I. reflexivity.
Qed.
Lemma vectors_length : forall x b h w, length (vectors x b h w) = (b * h * w)%nat.
Proof. intros. unfold vectors. now rewrite map_length, seq_length. Qed.

Lemma quantize_inv : forall nz pick x cb q, quantize_vectors nz pick x cb = Ok q ->
  exists b h w, tshape x = [b; cb_dim cb; h; w]%nat /\
    mapM (pick (effective nz cb)) (vectors x b h w) = Ok (vq_indices q) /\
    tshape (vq_latent q) = [b; cb_dim cb; h; w]%nat /\
    (forall k c y z, tat (vq_latent q) [k; c; y; z]%nat =
       used_row nz cb (nth (ravel [b; h; w]%nat [k; y; z]%nat) (vq_indices q) 0%nat) c) /\
    vq_preq q = x /\ vq_embed q = vq_commit q /\
    vq_commit q = rsum (b * (cb_dim cb * (h * w)))
       (fun n => let i := unravel [b; cb_dim cb; h; w]%nat n in (tat (vq_latent q) i - tat x i) ^ 2)
       / INR (b * (cb_dim cb * (h * w))).
Proof.
  intros nz pick x cb q H. unfold quantize_vectors in H.
  destruct (tshape x) as [|b [|d [|h [|w [|]]]]] eqn:E; try discriminate.
  destruct (negb (d =? cb_dim (effective nz cb))%nat) eqn:D; [discriminate|].
  apply negb_false_iff, Nat.eqb_eq in D. rewrite dim_eff in D. subst d.
  destruct (mapM (pick (effective nz cb)) (vectors x b h w)) as [idx|] eqn:M; cbn in H; [|discriminate].
  injection H as <-. exists b, h, w. cbn [vq_indices vq_latent vq_preq vq_commit vq_embed tshape tat].
  split; [reflexivity|]. split; [exact M|]. split; [reflexivity|]. split; [|split; [reflexivity|split; [reflexivity|]]].
  - intros k c y z. cbn [tat]. rewrite used_row_eq. unfold ravel, prod. cbn [fold_right]. ring.
  - unfold mse. cbn [tat]. f_equal. apply rsum_ext. intros n _. cbv zeta. f_equal. ring.
Qed.

(** The bottleneck accepts exactly the four-dimensional tensors whose number of channels is the
    length of the (at least one) codewords. *)
Theorem vq_accepts : forall nz x cb,
  (exists q, quantize_vectors nz pick_nearest x cb = Ok q) <->
  (exists b h w, tshape x = [b; cb_dim cb; h; w]%nat /\ (cb_size cb <> 0%nat \/ b * h * w = 0)%nat).
Proof.
  intros nz x cb. split.
  - intros [q H]. destruct (quantize_inv _ _ _ _ _ H) as [b [h [w [S [M _]]]]]. exists b, h, w. split; [exact S|].
    destruct (cb_size cb) eqn:E; [right|left; lia].
    destruct (mapM_ok _ _ _ _ _ M) as [L N]. destruct (b * h * w)%nat eqn:Z; [reflexivity|].
    exfalso. specialize (N 0%nat (fun _ => 0) 0%nat). rewrite vectors_length, Z in N. specialize (N ltac:(lia)).
    unfold pick_nearest in N. rewrite size_eff, E in N. discriminate.
  - intros [b [h [w [S C]]]]. unfold quantize_vectors. rewrite S, dim_eff, Nat.eqb_refl. cbn [negb].
    assert (T : exists r, mapM (pick_nearest (effective nz cb)) (vectors x b h w) = Ok r).
    { destruct C as [C|C].
      - apply mapM_total. intro a. unfold pick_nearest. rewrite size_eff. destruct (cb_size cb); [lia|]. eexists. reflexivity.
      - pose proof (vectors_length x b h w) as V. rewrite C in V. destruct (vectors x b h w); [|discriminate].
        eexists. reflexivity. }
    destruct T as [r T]. rewrite T. eexists. reflexivity.
Qed.

(** Every vector is replaced by the first nearest codeword; the index says which. *)
Theorem vq_nearest : forall nz x cb q b d h w, quantize_vectors nz pick_nearest x cb = Ok q -> tshape x = [b; d; h; w]%nat ->
  tshape (vq_latent q) = [b; d; h; w]%nat /\ length (vq_indices q) = (b * h * w)%nat /\
  forall k y z, (k < b)%nat -> (y < h)%nat -> (z < w)%nat ->
    let i := nth ((k * h + y) * w + z) (vq_indices q) 0%nat in
    first_nearest (cb_size cb) d (used_row nz cb) (vector_at x k y z) i /\
    forall c, (c < d)%nat -> tat (vq_latent q) [k; c; y; z]%nat = used_row nz cb i c.
Proof.
  intros nz x cb q b d h w H S. destruct (quantize_inv _ _ _ _ _ H) as [b' [h' [w' [S' [M [SL [V _]]]]]]].
  rewrite S in S'. injection S' as <- -> <- <-. destruct (mapM_ok _ _ _ _ _ M) as [L N].
  rewrite vectors_length in L, N. split; [exact SL|]. split; [exact L|]. intros k y z K Y Z.
  assert (R : ((k * h + y) * w + z)%nat = ravel [b; h; w]%nat [k; y; z]%nat) by (cbn; lia).
  rewrite R. cbv zeta. split; [|intros; apply V].
  assert (I : inb [b; h; w]%nat [k; y; z]%nat) by (cbn; auto).
  pose proof (ravel_lt _ _ I) as LT. replace (prod [b; h; w]%nat) with (b * h * w)%nat in LT by (cbn; lia).
  specialize (N _ (fun _ => 0) 0%nat LT). apply pick_nearest_iff in N.
  destruct N as [P [Q T]]. pose proof (vectors_nth x b h w k y z K Y Z) as VN.
  assert (E : forall r, sqdist (cb_dim cb) r (nth (ravel [b; h; w]%nat [k; y; z]%nat) (vectors x b h w) (fun _ => 0))
              = sqdist (cb_dim cb) r (vector_at x k y z)).
  { intro r. apply sqdist_ext; [reflexivity|]. intros. apply VN. }
  split; [exact P|]. split; intros i Hi; rewrite <- !E; auto.
Qed.

(** Unit rows are unit vectors, unless they are shorter than 1e-12. *)
Theorem vq_unit_rows : forall d v, / 10 ^ 12 <= sqrt (sqdist d v (fun _ => 0)) ->
  sqdist d (unit_row d v) (fun _ => 0) = 1.
Proof.
  intros d v H. unfold unit_row. rewrite Rmax_left by exact H. set (n := sqrt _) in *.
  assert (n > 0). { eapply Rlt_le_trans; [|exact H]. apply Rinv_0_lt_compat, pow_lt. lra. }
  unfold sqdist at 1.
  rewrite (rsum_ext _ _ (fun j => (/ (n * n)) * ((v j - 0) * (v j - 0)))) by (intros; field; lra).
  rewrite rsum_scal. change (rsum d (fun i => (v i - 0) * (v i - 0))) with (sqdist d v (fun _ => 0)).
  replace (n * n) with (sqdist d v (fun _ => 0)).
  - apply Rinv_l. intro E. unfold n in H0. rewrite E, sqrt_0 in H0. lra.
  - unfold n. symmetry. apply sqrt_sqrt, sqdist_nonneg.
Qed.

Lemma nearest_stable : forall n d row v k, first_nearest n d row v k ->
  forall v', (forall c, (c < d)%nat -> v' c = row k c) -> first_nearest n d row v' k.
Proof.
  intros n d row v k [K [A B]] v' E.
  assert (Z : sqdist d (row k) v' = 0) by (apply sqdist_zero; intros; symmetry; auto).
  split; [exact K|]. split; intros i I; rewrite Z; [apply sqdist_nonneg|].
  destruct (Req_dec (sqdist d (row i) v') 0) as [F|F]; [|pose proof (sqdist_nonneg d (row i) v'); lra].
  exfalso. specialize (B i I). rewrite (sqdist_ext d (row i) (row k) v v) in B; [lra| |reflexivity].
  intros j J. rewrite <- E by exact J. apply (proj1 (sqdist_zero _ _ _) F j J).
Qed.
Lemma nearest_unique : forall n d row v k k', first_nearest n d row v k -> first_nearest n d row v k' -> k = k'.
Proof.
  intros n d row v k k' [K [A B]] [K' [A' B']]. destruct (lt_eq_lt_dec k k') as [[L|E]|L]; [|exact E|].
  - specialize (B' k L). specialize (A k' K'). lra.
  - specialize (B k' L). specialize (A' k K). lra.
Qed.

(** Quantising a quantised tensor changes neither the tensor nor the indices, and costs
    nothing. *)
Theorem vq_idempotent : forall nz x cb q, quantize_vectors nz pick_nearest x cb = Ok q ->
  exists q', quantize_vectors nz pick_nearest (vq_latent q) cb = Ok q' /\
    teq (vq_latent q') (vq_latent q) /\ vq_indices q' = vq_indices q /\
    vq_commit q' = 0 /\ vq_embed q' = 0.
Proof.
  intros nz x cb q H.
  assert (A : exists b h w, tshape x = [b; cb_dim cb; h; w]%nat /\ (cb_size cb <> 0%nat \/ b * h * w = 0)%nat)
    by (apply (proj1 (vq_accepts nz x cb)); eauto).
  destruct A as [b [h [w [S C]]]]. destruct (vq_nearest _ _ _ _ _ _ _ _ H S) as [SL [L N]].
  destruct (proj2 (vq_accepts nz (vq_latent q) cb)) as [q' H']; [exists b, h, w; split; assumption|].
  destruct (vq_nearest _ _ _ _ _ _ _ _ H' SL) as [SL' [L' N']]. exists q'. split; [exact H'|].
  assert (IE : vq_indices q' = vq_indices q).
  { apply (nth_ext _ _ 0%nat 0%nat); [congruence|]. intros n Hn. rewrite L' in Hn.
    assert (PR : (n < prod [b; h; w])%nat) by (cbn; lia).
    pose proof (unravel_inb [b; h; w]%nat n PR) as I. pose proof (ravel_unravel [b; h; w]%nat n PR) as RU.
    destruct (unravel [b; h; w]%nat n) as [|k [|y [|z [|]]]]; try (cbn in I; tauto).
    destruct I as [K [Y [Z _]]].
    specialize (N k y z K Y Z). specialize (N' k y z K Y Z). cbv zeta in N, N'.
    assert (R : ((k * h + y) * w + z)%nat = n) by (rewrite <- RU; cbn; lia). rewrite R in N, N'.
    destruct N as [N1 N2]. destruct N' as [N1' _]. eapply nearest_unique; [exact N1'|].
    eapply nearest_stable; [exact N1|]. intros c Hc. unfold vector_at. apply N2, Hc. }
  assert (TE : forall i, inb [b; cb_dim cb; h; w]%nat i -> tat (vq_latent q') i = tat (vq_latent q) i).
  { intros i I. destruct i as [|k [|c [|y [|z [|]]]]]; try (cbn in I; tauto). destruct I as [K [Cc [Y [Z _]]]].
    specialize (N k y z K Y Z). specialize (N' k y z K Y Z). cbv zeta in N, N'.
    rewrite (proj2 N), (proj2 N') by exact Cc. now rewrite IE. }
  split; [split; [congruence|rewrite SL'; exact TE]|]. split; [exact IE|].
  destruct (quantize_inv _ _ _ _ _ H') as [b' [h' [w' [S' [_ [_ [_ [_ [EQ CM]]]]]]]]].
  rewrite SL in S'. injection S' as <- <- <-.
  assert (Z : vq_commit q' = 0).
  { rewrite CM. rewrite rsum_zero; [unfold Rdiv; ring|]. intros n Hn. cbv zeta. rewrite TE; [ring|].
    apply unravel_inb. cbn. lia. }
  split; [exact Z|congruence].
Qed.

Lemma BL : forall n m (f : nat -> R), rsum (n * m) f = rsum n (fun k => rsum m (fun j => f (k * m + j)%nat)).
Proof.
  intros n m f. induction n as [|n IH]; [reflexivity|].
  rewrite rsum_last, <- IH. replace (S n * m)%nat with (n * m + m)%nat by lia. rewrite rsum_app. reflexivity.
Qed.

(** Both losses are the mean squared error of the quantised tensor, the smallest that any tensor
    made of codewords can have. *)
Theorem vq_loss_minimal : forall nz x cb q b d h w, quantize_vectors nz pick_nearest x cb = Ok q ->
  tshape x = [b; d; h; w]%nat ->
  vq_commit q = vq_embed q /\
  vq_commit q = rsum b (fun k => rsum h (fun y => rsum w (fun z =>
      sqdist d (vector_at (vq_latent q) k y z) (vector_at x k y z)))) / INR (b * d * h * w) /\
  forall t, (forall k y z, (k < b)%nat -> (y < h)%nat -> (z < w)%nat ->
       exists i, (i < cb_size cb)%nat /\ forall c, (c < d)%nat -> tat t [k; c; y; z]%nat = used_row nz cb i c) ->
    vq_commit q <= rsum b (fun k => rsum h (fun y => rsum w (fun z =>
      sqdist d (vector_at t k y z) (vector_at x k y z)))) / INR (b * d * h * w).
Proof.
  intros nz x cb q b d h w H S. destruct (vq_nearest _ _ _ _ _ _ _ _ H S) as [SL [L N]].
  destruct (quantize_inv _ _ _ _ _ H) as [b' [h' [w' [S' [_ [_ [_ [_ [EQ CM]]]]]]]]].
  rewrite S in S'. injection S' as <- -> <- <-. set (d := cb_dim cb) in *.
  assert (E : vq_commit q = rsum b (fun k => rsum h (fun y => rsum w (fun z =>
      sqdist d (vector_at (vq_latent q) k y z) (vector_at x k y z)))) / INR (b * d * h * w)).
  { rewrite CM. replace (b * (d * (h * w)))%nat with (b * d * h * w)%nat at 2 by lia. f_equal.
    rewrite BL. apply rsum_ext. intros k K. rewrite BL.
    rewrite (rsum_ext h _ (fun y => rsum d (fun c => rsum w (fun z =>
        (vector_at (vq_latent q) k y z c - vector_at x k y z c) * (vector_at (vq_latent q) k y z c - vector_at x k y z c))))).
    2:{ intros y Y. unfold sqdist. apply rsum_swap. }
    etransitivity; [|symmetry; apply (rsum_swap h d (fun y c => rsum w (fun z =>
        (vector_at (vq_latent q) k y z c - vector_at x k y z c) * (vector_at (vq_latent q) k y z c - vector_at x k y z c))))].
    apply rsum_ext. intros c Cc. rewrite BL. apply rsum_ext. intros y Y. apply rsum_ext. intros z Z.
    cbv zeta.
    assert (I : inb [b; d; h; w]%nat [k; c; y; z]%nat) by (cbn; auto).
    replace (k * (d * (h * w)) + (c * (h * w) + (y * w + z)))%nat with (ravel [b; d; h; w]%nat [k; c; y; z]%nat)
      by (cbn; lia).
    rewrite unravel_ravel by exact I. unfold vector_at. ring. }
  split; [congruence|]. split; [exact E|]. intros t T. rewrite E.
  destruct (b * d * h * w)%nat as [|m] eqn:M.
  { cbn [INR]. unfold Rdiv. rewrite Rinv_0. lra. }
  apply Rmult_le_compat_r; [left; apply Rinv_0_lt_compat, lt_0_INR; lia|].
  apply rsum_le. intros k K. apply rsum_le. intros y Y. apply rsum_le. intros z Z.
  destruct (T k y z K Y Z) as [i [I F]]. destruct (N k y z K Y Z) as [[_ [A _]] B]. cbv zeta in A.
  rewrite (sqdist_ext d (vector_at (vq_latent q) k y z) _ _ (vector_at x k y z) B) by reflexivity.
  rewrite (sqdist_ext d (vector_at t k y z) (used_row nz cb i) _ (vector_at x k y z) F) by reflexivity.
  apply A, I.
Qed.

(** * The probabilistic choice *)
Lemma weight_pos : forall cb v k, 0 < weight cb v k.
Proof.
  intros. unfold weight. apply Rdiv_lt_0_compat; [lra|]. apply Rplus_le_lt_0_compat.
  - unfold distance. apply rsum_nonneg. intros. apply pow2_ge_0.
  - apply Rinv_0_lt_compat, pow_lt. lra.
Qed.
Lemma weight_sum_pos : forall cb v, cb_size cb <> 0%nat -> 0 < rsum (cb_size cb) (weight cb v).
Proof. intros. apply rsum_pos; [lia|]. intros. apply weight_pos. Qed.
Lemma cumulative_S : forall cb v k, cumulative cb v (S k) = cumulative cb v k + weight cb v (S k) / rsum (cb_size cb) (weight cb v).
Proof. intros. unfold cumulative at 1. rewrite rsum_last. reflexivity. Qed.
Lemma cumulative_lt : forall cb v i j, cb_size cb <> 0%nat -> (i < j)%nat -> cumulative cb v i < cumulative cb v j.
Proof.
  intros cb v i j H L. induction L as [|j L IH]; rewrite cumulative_S;
    pose proof (Rdiv_lt_0_compat _ _ (weight_pos cb v (S i)) (weight_sum_pos cb v H));
    try pose proof (Rdiv_lt_0_compat _ _ (weight_pos cb v (S j)) (weight_sum_pos cb v H)); lra.
Qed.
Lemma cumulative_last : forall cb v, cb_size cb <> 0%nat -> cumulative cb v (cb_size cb - 1) = 1.
Proof.
  intros cb v H. unfold cumulative. replace (S (cb_size cb - 1)) with (cb_size cb) by lia.
  rewrite (rsum_ext _ _ (fun i => / rsum (cb_size cb) (weight cb v) * weight cb v i)) by (intros; unfold Rdiv; ring).
  rewrite rsum_scal. apply Rinv_l. pose proof (weight_sum_pos cb v H). lra.
Qed.

(** With a uniform number u in [0,1), codeword k is chosen exactly when u lies above the share
    of the codewords before k and not above the share of those up to k, where the shares are
    proportional to 1/(distance + 1e-7): inverse-transform sampling. *)
Theorem vq_random_choice : forall nz cb v u, cb_size cb <> 0%nat -> 0 <= u < 1 ->
  let share k := rsum k (fun i => / (sqdist (cb_dim cb) (used_row nz cb i) v + / 10 ^ 7))
                 / rsum (cb_size cb) (fun i => / (sqdist (cb_dim cb) (used_row nz cb i) v + / 10 ^ 7)) in
  exists k, pick_random (effective nz cb) v u = Ok k /\ (k < cb_size cb)%nat /\
    (k = 0%nat \/ share k < u) /\ u <= share (S k) /\
    forall k', (k' < cb_size cb)%nat -> (k' = 0%nat \/ share k' < u) -> u <= share (S k') -> k' = k.
Proof.
  intros nz cb v u H U share. set (e := effective nz cb).
  assert (SZ : cb_size e = cb_size cb) by apply size_eff.
  assert (HE : cb_size e <> 0%nat) by congruence.
  assert (SH : forall k, share (S k) = cumulative e v k).
  { intro k. unfold share, cumulative. rewrite SZ. unfold Rdiv at 1. rewrite Rmult_comm, <- rsum_scal. apply rsum_ext.
    intros i _. unfold weight. unfold e. rewrite distance_eq. unfold Rdiv at 2 3. rewrite Rmult_1_l, Rmult_comm. unfold Rdiv.
    f_equal. f_equal. apply rsum_ext. intros j _. rewrite distance_eq. unfold Rdiv. now rewrite Rmult_1_l. }
  assert (MONO : forall i j, (i < j)%nat -> share (S i) < share (S j)).
  { intros i j L. rewrite !SH. apply cumulative_lt; assumption. }
  assert (LAST : share (S (cb_size cb - 1)) = 1) by (rewrite SH, <- SZ; apply cumulative_last, HE).
  assert (EX : exists k, (k < cb_size cb)%nat /\ u <= share (S k) /\ (k = 0%nat \/ share k < u)).
  { assert (G : forall n, u <= share (S n) -> exists k, (k <= n)%nat /\ u <= share (S k) /\ (k = 0%nat \/ share k < u)).
    { induction n as [|n IH]; intro L; [exists 0%nat; auto|].
      destruct (Rle_dec u (share (S n))) as [G|G]; [destruct (IH G) as [k [A B]]; exists k; split; [lia|exact B]|].
      exists (S n). split; [lia|]. split; [exact L|right; lra]. }
    destruct (G (cb_size cb - 1)%nat) as [k [A B]]; [rewrite LAST; lra|]. exists k. split; [lia|exact B]. }
  destruct EX as [k [K [A B]]]. exists k.
  assert (UQ : forall k', (k' < cb_size cb)%nat -> (k' = 0%nat \/ share k' < u) -> u <= share (S k') -> k' = k).
  { intros k' K' B' A'. destruct (lt_eq_lt_dec k' k) as [[L|E]|L]; [|exact E|].
    - destruct B as [->|B]; [lia|]. destruct k as [|k]; [lia|].
      destruct (Nat.eq_dec k' k) as [-> |NE]; [lra|]. pose proof (MONO k' k ltac:(lia)). lra.
    - destruct B' as [->|B']; [lia|]. destruct k' as [|k']; [lia|].
      destruct (Nat.eq_dec k k') as [-> |NE]; [lra|]. pose proof (MONO k k' ltac:(lia)). lra. }
  split; [|split; [exact K|split; [exact B|split; [exact A|exact UQ]]]].
  unfold pick_random. rewrite SZ. cbv zeta.
  assert (CK : share (S k) - u <= 1 /\ (share (S k) - u < 1 \/ k = 0%nat)).
  { assert (share (S k) <= 1).
    { destruct (Nat.eq_dec k (cb_size cb - 1)) as [-> |NE]; [lra|]. pose proof (MONO k (cb_size cb - 1)%nat ltac:(lia)). lra. }
    split; [lra|]. destruct B as [->|B]; [now right|]. left. destruct k as [|k]; [|].
    - unfold share in B. rewrite rsum_0 in B. unfold Rdiv in B. lra.
    - assert (0 < share (S k)); [|lra]. rewrite SH. unfold cumulative. apply rsum_pos; [lia|].
      intros i _. apply Rdiv_lt_0_compat; [apply weight_pos|apply weight_sum_pos, HE]. }
  apply argmin_unique; [exact K| |].
  - intros i I. rewrite <- !SH. destruct (Rlt_dec (share (S k) - u) 0); [lra|].
    destruct (Rlt_dec (share (S i) - u) 0) as [L|L]; [lra|].
    destruct (lt_eq_lt_dec k i) as [[Q|Q]|Q]; [|subst; lra|].
    + pose proof (MONO k i Q). lra.
    + exfalso. destruct B as [->|B]; [lia|]. destruct k as [|k]; [lia|].
      destruct (Nat.eq_dec i k) as [-> |NE]; [lra|]. pose proof (MONO i k ltac:(lia)). lra.
  - intros i I. rewrite <- !SH. destruct (Rlt_dec (share (S k) - u) 0); [lra|].
    destruct B as [->|B]; [lia|]. destruct k as [|k]; [lia|].
    assert (share (S i) < u). { destruct (Nat.eq_dec i k) as [-> |NE]; [lra|]. pose proof (MONO i k ltac:(lia)). lra. }
    destruct (Rlt_dec (share (S i) - u) 0); [|lra]. destruct CK as [_ [CK|CK]]; [lra|lia].
Qed.

(** * Hit counts *)
Inductive vq_op := OpForward (latent : option (tensor R)) | OpReset.
(** The module after a call, and the indices of the call's output; a call that raises leaves the
    module as it was. *)
Definition vq_step (m : vqb) (o : vq_op) : vqb * list nat :=
  match o with
  | OpForward l => match vqb_forward m l with Ok (m', q, _) => (m', vq_indices q) | Raise _ => (m, []) end
  | OpReset => (reset_hits m, [])
  end.
Fixpoint vq_run (m : vqb) (ops : list vq_op) : vqb * list (list nat) :=
  match ops with
  | [] => (m, [])
  | o :: r => let '(m1, i) := vq_step m o in let '(m2, l) := vq_run m1 r in (m2, i :: l)
  end.

Lemma add_hit_length : forall h k, length (add_hit h k) = length h.
Proof. intros. unfold add_hit. rewrite map_length, combine_length, seq_length. lia. Qed.
Lemma add_hit_nth : forall h k i, (i < length h)%nat -> nth i (add_hit h k) 0%Z = (nth i h 0 + if Nat.eq_dec k i then 1 else 0)%Z.
Proof.
  intros h k i I. unfold add_hit.
  set (F := fun p : nat * Z => if (fst p =? k)%nat then (snd p + 1)%Z else snd p).
  rewrite (nth_indep _ 0%Z (F (0%nat, 0%Z))) by (rewrite map_length, combine_length, seq_length; lia).
  rewrite map_nth, combine_nth by apply seq_length. rewrite seq_nth by exact I. unfold F. cbn [fst snd Nat.add].
  destruct (Nat.eq_dec k i) as [-> |N]; [rewrite Nat.eqb_refl; lia|].
  rewrite (proj2 (Nat.eqb_neq _ _)) by congruence. lia.
Qed.
Lemma add_hits : forall idx h, length (fold_left add_hit idx h) = length h /\
  forall i, (i < length h)%nat -> nth i (fold_left add_hit idx h) 0%Z = (nth i h 0 + Z.of_nat (count_occ Nat.eq_dec idx i))%Z.
Proof.
  induction idx as [|k idx IH]; intro h; cbn [fold_left count_occ].
  - split; [reflexivity|]. intros. cbn. lia.
  - destruct (IH (add_hit h k)) as [L N]. rewrite add_hit_length in L, N. split; [exact L|]. intros i I.
    rewrite N, add_hit_nth by exact I. destruct (Nat.eq_dec k i); lia.
Qed.
Lemma vqb_forward_inv : forall m l m' q n, vqb_forward m l = Ok (m', q, n) ->
  exists x b h w, l = Some x /\ tshape x = [b; cb_dim (vb_codebook m); h; w]%nat /\
    quantize_vectors true pick_nearest x (vb_codebook m) = Ok q /\
    n = num_bytes b h w (cb_size (vb_codebook m)) /\
    vb_codebook m' = vb_codebook m /\ vb_hits m' = fold_left add_hit (vq_indices q) (vb_hits m) /\ cb_size (vb_codebook m) <> 0%nat.
Proof.
  intros m [x|] m' q n H; unfold vqb_forward in H; [|discriminate].
  destruct (length (tshape x) <? 2)%nat; [discriminate|].
  destruct (cb_size (vb_codebook m) =? 0)%nat eqn:Z; [discriminate|].
  destruct (quantize_vectors true pick_nearest x (vb_codebook m)) as [q'|] eqn:Q; cbn in H; [|discriminate].
  destruct (quantize_inv _ _ _ _ _ Q) as [b [h [w [S _]]]]. rewrite S in H. injection H as <- <- <-.
  exists x, b, h, w. repeat (split; [assumption || reflexivity|]). apply Nat.eqb_neq, Z.
Qed.

(** After every sequence of calls to a new module, also in evaluation mode and whether or not
    reset_hits was called, the count of each codeword is the number of times it was chosen since
    the module was made; the codebook is unchanged. *)
Theorem vq_hits_history : forall cb ops m l, vq_run (vqb_init cb) ops = (m, l) ->
  vb_codebook m = cb /\ length (vb_hits m) = cb_size cb /\
  forall k, (k < cb_size cb)%nat -> nth k (vb_hits m) 0%Z = occurrences k l.
Proof.
  intros cb ops.
  assert (G : forall m0 m l, vq_run m0 ops = (m, l) -> vb_codebook m = vb_codebook m0 /\
            length (vb_hits m) = length (vb_hits m0) /\
            forall k, (k < length (vb_hits m0))%nat -> nth k (vb_hits m) 0%Z = (nth k (vb_hits m0) 0 + occurrences k l)%Z).
  { induction ops as [|o ops IH]; intros m0 m l H; cbn [vq_run] in H.
    - injection H as <- <-. repeat split; try reflexivity. intros. unfold occurrences. cbn. lia.
    - destruct (vq_step m0 o) as [m1 i] eqn:E. destruct (vq_run m1 ops) as [m2 l2] eqn:F. injection H as <- <-.
      destruct (IH _ _ _ F) as [A [B C]].
      assert (ST : vb_codebook m1 = vb_codebook m0 /\ vb_hits m1 = fold_left add_hit i (vb_hits m0)).
      { destruct o as [x|]; cbn [vq_step] in E.
        - destruct (vqb_forward m0 x) as [[[m' q] n]|] eqn:V; injection E as <- <-; [|split; reflexivity].
          destruct (vqb_forward_inv _ _ _ _ _ V) as [_ [_ [_ [_ [_ [_ [_ [_ [X [Y _]]]]]]]]]]. split; assumption.
        - injection E as <- <-. split; reflexivity. }
      destruct ST as [S1 S2]. destruct (add_hits i (vb_hits m0)) as [L N]. rewrite S2 in B, C. rewrite L in B, C.
      split; [congruence|]. split; [congruence|]. intros k K. rewrite C, N by exact K.
      unfold occurrences. cbn [concat]. rewrite count_occ_app. lia. }
  intros m l H. destruct (G _ _ _ H) as [A [B C]]. cbn in A, B, C. rewrite repeat_length in B, C.
  split; [exact A|]. split; [exact B|]. intros k K. rewrite C by exact K. rewrite nth_repeat. lia.
Qed.

Definition vq_cb2 : codebook := mkCB 2 1 (fun k _ => match k with O => -3 | _ => 5 end).
Definition vq_x1 : tensor R := mkT [1; 1; 1; 2]%nat (fun i => if (nth 3 i 0 =? 0)%nat then 1 / 2 else -7).
(** Resetting the counts does not reset them. *)
Theorem vq_reset_refuted : exists cb x m l, vq_run (vqb_init cb) [OpForward (Some x); OpReset] = (m, l) /\
  (0 < nth 0 (vb_hits m) 0)%Z.
Proof.
  exists vq_cb2, vq_x1. destruct (vq_run (vqb_init vq_cb2) [OpForward (Some vq_x1); OpReset]) as [m l] eqn:E.
  exists m, l. split; [reflexivity|].
  destruct (proj2 (vq_accepts true vq_x1 vq_cb2)) as [q Q].
  { exists 1%nat, 1%nat, 2%nat. split; [reflexivity|left; discriminate]. }
  destruct (vq_nearest _ _ _ _ _ _ _ _ Q eq_refl) as [_ [L N]].
  destruct (vq_hits_history _ _ _ _ E) as [_ [_ C]]. rewrite C by (cbn; lia).
  cbn [vq_run vq_step] in E. unfold vqb_forward in E. cbn [length tshape vq_x1 vqb_init vb_codebook] in E.
  change (length [1; 1; 1; 2]%nat <? 2)%nat with false in E. change (cb_size vq_cb2 =? 0)%nat with false in E.
  cbv iota in E. rewrite Q in E. cbn [bind] in E. injection E as _ <-. unfold occurrences. cbn [concat].
  rewrite app_nil_r. destruct (N 0%nat 0%nat 1%nat) as [[K [A _]] _]; [lia|lia|lia|]. cbn [Nat.mul Nat.add] in *.
  apply (proj1 (Nat2Z.inj_lt 0 _)). apply count_occ_In.
  destruct (vq_indices q) as [|i0 [|i1 [|]]]; try discriminate L. right. left. cbn [nth] in *.
  destruct i1 as [|[|i1]]; [reflexivity| |cbn in K; lia]. exfalso.
  specialize (A 0%nat ltac:(cbn; lia)). unfold sqdist, used_row, unit_row, vector_at in A.
  cbn [cb_dim vq_cb2 tat vq_x1 nth Nat.eqb cb_at] in A.
  unfold sqdist, rsum in A. cbn [seq map fold_right] in A. rewrite !Rplus_0_r in A.
  replace ((5 - 0) * (5 - 0)) with (5 * 5) in A by ring. replace ((-3 - 0) * (-3 - 0)) with (3 * 3) in A by ring.
  rewrite !sqrt_square in A by lra.
  assert (P : / 10 ^ 12 <= 1). { rewrite <- Rinv_1. apply Rinv_le_contravar; [lra|]. apply pow_R1_Rle. lra. }
  rewrite !Rmax_left in A by lra. lra.
Qed.

(** * Byte count *)
(** The byte count is the largest n for which there are at most as many strings of n bytes as
    possible index arrays: it is the true size only when the two numbers are equal, and otherwise
    falls short of what storing the indices takes. *)
Lemma pow_Rpower : forall a n, 0 < a -> a ^ n = exp (INR n * ln a).
Proof. intros a n H. rewrite <- (Rpower_pow n a H). reflexivity. Qed.
Theorem vq_num_bytes : forall m x m' q n b d h w, vqb_forward m (Some x) = Ok (m', q, n) -> tshape x = [b; d; h; w]%nat ->
  (0 <= n)%Z /\ (256 ^ n <= Z.of_nat (cb_size (vb_codebook m)) ^ Z.of_nat (b * h * w) < 256 ^ (n + 1))%Z.
Proof.
  intros m x m' q n b d h w H S. destruct (vqb_forward_inv _ _ _ _ _ H) as [x' [b' [h' [w' [E [S' [_ [N [_ [_ Z]]]]]]]]]].
  injection E as <-. rewrite S in S'. injection S' as <- -> <- <-. set (K := cb_size (vb_codebook m)) in *.
  unfold num_bytes in N. set (V := (b * h * w)%nat) in *.
  assert (KR : 1 <= INR K). { change 1 with (INR 1). apply le_INR. lia. }
  assert (L2 : 0 < ln 2). { rewrite <- ln_1. apply ln_increasing; lra. }
  assert (LK : 0 <= ln (INR K)). { rewrite <- ln_1. destruct KR as [KR|KR]; [left; apply ln_increasing; lra|rewrite <- KR; lra]. }
  destruct (Rfloor_spec (INR V * (ln (INR K) / ln 2) / 8)) as [F1 F2]. rewrite <- N in F1, F2.
  assert (L256 : ln 256 = 8 * ln 2).
  { replace 256 with (2 ^ 8) by (simpl; ring). rewrite ln_pow by lra. simpl INR. ring. }
  assert (Q : INR V * (ln (INR K) / ln 2) / 8 * ln 256 = INR V * ln (INR K)) by (rewrite L256; field; lra).
  assert (NN : (0 <= n)%Z).
  { assert (-1 < n)%Z; [|lia]. apply lt_IZR.
    assert (0 <= INR V * (ln (INR K) / ln 2) / 8); [|lra]. apply Rmult_le_pos; [|lra].
    apply Rmult_le_pos; [apply pos_INR|]. apply Rmult_le_pos; [exact LK|left; apply Rinv_0_lt_compat, L2]. }
  split; [exact NN|].
  assert (P : forall z, (0 <= z)%Z -> IZR (256 ^ z) = exp (IZR z * ln 256)).
  { intros z Hz. rewrite <- (Z2Nat.id z Hz) at 1. rewrite <- pow_IZR, pow_Rpower by lra.
    rewrite INR_IZR_INZ, Z2Nat.id by exact Hz. reflexivity. }
  assert (PK : IZR (Z.of_nat K ^ Z.of_nat V) = exp (INR V * ln (INR K))).
  { rewrite <- pow_IZR, <- INR_IZR_INZ, pow_Rpower by lra. reflexivity. }
  assert (L6 : 0 < ln 256) by lra.
  split.
  - apply le_IZR. rewrite P, PK by exact NN. apply Raux.exp_le. rewrite <- Q. apply Rmult_le_compat_r; lra.
  - apply lt_IZR. rewrite P, PK by lia. apply exp_increasing. rewrite <- Q, plus_IZR. apply Rmult_lt_compat_r; lra.
Qed.

(** * Usage metrics *)
(** Number of codewords chosen at least once. *)
Definition used_codes (hits : list Z) : nat := length (filter (fun c => negb (c =? 0)%Z) hits).
Lemma used_codes_sum : forall hits, sumZ (map (fun c => if (c =? 0)%Z then 0%Z else 1%Z) hits) = Z.of_nat (used_codes hits).
Proof.
  induction hits as [|c hits IH]; [reflexivity|]. unfold used_codes in *. cbn [map sumZ fold_right filter].
  fold (sumZ (map (fun c => if (c =? 0)%Z then 0%Z else 1%Z) hits)). rewrite IH.
  destruct (c =? 0)%Z; cbn [negb length]; lia.
Qed.
Lemma filter_length_le' : forall (A : Type) (f : A -> bool) l, (length (filter f l) <= length l)%nat.
Proof. intros A f l. induction l as [|a l IH]; cbn; [lia|]. destruct (f a); cbn; lia. Qed.

(** percentage_hits is the fraction of the codewords in use, and max_hits the largest count. *)
Theorem vq_usage : forall hits, hits <> [] -> (forall c, In c hits -> (0 <= c)%Z) ->
  percentage_hits hits = INR (used_codes hits) / INR (length hits) /\ 0 <= percentage_hits hits <= 1 /\
  In (max_hits hits) hits /\ forall c, In c hits -> (c <= max_hits hits)%Z.
Proof.
  intros hits NE P.
  assert (LP : 0 < INR (length hits)). { apply lt_0_INR. destruct hits; [contradiction|cbn; lia]. }
  assert (E : percentage_hits hits = INR (used_codes hits) / INR (length hits)).
  { unfold percentage_hits. now rewrite used_codes_sum, <- INR_IZR_INZ. }
  split; [exact E|]. split.
  - rewrite E. pose proof (pos_INR (used_codes hits)) as Z.
    pose proof (le_INR _ _ (filter_length_le' _ (fun c => negb (c =? 0)%Z) hits)) as U. fold (used_codes hits) in U.
    split; [apply Rmult_le_pos; [exact Z|left; apply Rinv_0_lt_compat, LP]|].
    apply Rmult_le_reg_r with (INR (length hits)); [exact LP|]. unfold Rdiv. rewrite Rmult_assoc, Rinv_l; lra.
  - split.
    + clear E LP. induction hits as [|c hits IH]; [contradiction|]. destruct hits as [|c' hits].
      * left. cbn. specialize (P c (or_introl eq_refl)). lia.
      * cbn [max_hits fold_right]. fold (max_hits (c' :: hits)).
        specialize (IH ltac:(discriminate) ltac:(intros; apply P; now right)).
        change (In (Z.max c (max_hits (c' :: hits))) (c :: c' :: hits)).
        destruct (Z.max_spec c (max_hits (c' :: hits))) as [[_ ->]|[_ ->]]; [right; exact IH|now left].
    + clear. intros c I. induction hits as [|a hits IH]; [contradiction|].
      cbn [max_hits fold_right]. fold (max_hits hits). destruct I as [->|I]; [lia|]. specialize (IH I). lia.
Qed.

Lemma log2_exp : forall x, Rpower 2 x = exp (x * ln 2). Proof. reflexivity. Qed.
Lemma ln2_pos : 0 < ln 2. Proof. rewrite <- ln_1. apply ln_increasing; lra. Qed.
Lemma eps_pos : 0 < / 10 ^ 7. Proof. apply Rinv_0_lt_compat, pow_lt. lra. Qed.
Lemma sumZ_nonneg : forall l, (forall c, In c l -> (0 <= c)%Z) -> (0 <= sumZ l)%Z.
Proof.
  induction l as [|c l IH]; intro H; cbn; [lia|]. specialize (H c (or_introl eq_refl)) as H0.
  specialize (IH ltac:(intros; apply H; now right)). unfold sumZ in *. lia.
Qed.
Lemma sumZ_ge : forall l c, (forall c, In c l -> (0 <= c)%Z) -> In c l -> (c <= sumZ l)%Z.
Proof.
  induction l as [|a l IH]; intros c H I; [contradiction|]. cbn.
  pose proof (sumZ_nonneg l ltac:(intros; apply H; now right)) as Q. unfold sumZ in *.
  destruct I as [->|I]; [lia|]. specialize (IH c ltac:(intros; apply H; now right) I).
  specialize (H a (or_introl eq_refl)). lia.
Qed.
Lemma ln_le_sub1 : forall x, 0 < x -> ln x <= x - 1.
Proof.
  intros x H. destruct (Req_dec x 1) as [->|N]; [rewrite ln_1; lra|].
  pose proof (exp_ineq1 (x - 1) ltac:(lra)) as E. apply Rlt_le. rewrite <- (ln_exp (x - 1)). apply ln_increasing; lra.
Qed.

(** The sum of the entropy terms, for counts [l] of total [t], compared with [m] codes. *)
Lemma entropy_bounds : forall t m l, (0 < t)%Z -> 0 < m -> (forall c, In c l -> (0 <= c <= t)%Z) ->
  let s := sumR (map (fun c => IZR c / IZR t * ln (IZR c / IZR t + / 10 ^ 7)) l) in
  - s <= IZR (sumZ l) / IZR t * (ln m - 1) + INR (used_codes l) / m /\
  ((0 < sumZ l)%Z -> - s < IZR (sumZ l) / IZR t * (ln m - 1) + INR (used_codes l) / m) /\
  s <= IZR (sumZ l) / IZR t * ln (1 + / 10 ^ 7).
Proof.
  intros t m l T M. pose proof eps_pos as EP. set (e := / 10 ^ 7) in *. pose proof (IZR_lt _ _ T) as TR.
  induction l as [|c l IH]; intros H; cbv zeta.
  - cbn. unfold Rdiv. split; [lra|]. split; [lia|lra].
  - destruct (IH ltac:(intros; apply H; now right)) as [A [A' B]]. cbv zeta in A, A', B.
    specialize (H c (or_introl eq_refl)).
    cbn [map sumR fold_right sumZ]. fold (sumR (map (fun c => IZR c / IZR t * ln (IZR c / IZR t + e)) l)).
    fold (sumZ l). set (s := sumR _) in *. rewrite plus_IZR.
    set (p := IZR c / IZR t) in *.
    assert (P0 : 0 <= p). { apply Rmult_le_pos; [apply IZR_le; lia|left; apply Rinv_0_lt_compat, TR]. }
    assert (P1 : p <= 1). { unfold p. apply Rmult_le_reg_r with (IZR t); [exact TR|]. unfold Rdiv. rewrite Rmult_assoc, Rinv_l by lra.
      rewrite Rmult_1_l, Rmult_1_r. apply IZR_le. lia. }
    assert (D : (IZR c + IZR (sumZ l)) / IZR t = p + IZR (sumZ l) / IZR t) by (unfold p; field; lra).
    rewrite D.
    assert (LB : p * ln (p + e) <= p * ln (1 + e)).
    { apply Rmult_le_compat_l; [exact P0|]. destruct P1 as [P1| ->]; [left; apply ln_increasing; lra|lra]. }
    unfold used_codes. cbn [filter]. destruct (c =? 0)%Z eqn:Z; cbn [negb length].
    + apply Z.eqb_eq in Z. subst c. fold (used_codes l). assert (E : p = 0) by (unfold p, Rdiv; ring). rewrite E in *.
      cbn [Z.add]. split; [lra|]. split; [intro Q; specialize (A' Q); lra|lra].
    + fold (used_codes l). rewrite S_INR. apply Z.eqb_neq in Z.
      assert (PP : 0 < p). { apply Rdiv_lt_0_compat; [apply IZR_lt; lia|exact TR]. }
      assert (K : - (p * ln (p + e)) < p * (ln m - 1) + 1 / m).
      { pose proof (ln_le_sub1 (/ (m * (p + e)))) as Q. assert (0 < m * (p + e)) by (apply Rmult_lt_0_compat; lra).
        specialize (Q ltac:(apply Rinv_0_lt_compat; lra)).
        rewrite ln_Rinv, ln_mult in Q by lra.
        assert (p * / (m * (p + e)) < 1 / m).
        { apply Rmult_lt_reg_r with (m * (p + e)); [lra|]. rewrite Rmult_assoc, Rinv_l by lra.
          replace (1 / m * (m * (p + e))) with (p + e) by (field; lra). lra. }
        assert (p * (- (ln m + ln (p + e))) <= p * (/ (m * (p + e)) - 1)) by (apply Rmult_le_compat_l; lra). lra. }
      replace ((INR (used_codes l) + 1) / m) with (INR (used_codes l) / m + 1 / m) by (field; lra).
      split; [lra|]. split; [intros _; lra|lra].
Qed.

(** Perplexity is NaN exactly when nothing was counted; otherwise it lies between 1/(1+1e-7) and
    the number of codewords in use, which it does not reach. *)
Theorem vq_perplexity : forall hits, (forall c, In c hits -> (0 <= c)%Z) ->
  (perplexity hits = None <-> forall c, In c hits -> c = 0%Z) /\
  forall p, perplexity hits = Some p -> / (1 + / 10 ^ 7) <= p < INR (used_codes hits).
Proof.
  intros hits P. unfold perplexity. pose proof (sumZ_nonneg hits P) as NN. split.
  - destruct (sumZ hits =? 0)%Z eqn:E.
    + split; [|reflexivity]. intros _ c I. apply Z.eqb_eq in E. pose proof (sumZ_ge hits c P I). specialize (P c I). lia.
    + split; [discriminate|]. intro Z. exfalso. apply Z.eqb_neq in E. apply E. clear -Z.
      induction hits as [|c l IH]; [reflexivity|]. cbn. rewrite (Z c (or_introl eq_refl)).
      unfold sumZ in IH. rewrite IH; [reflexivity|]. intros; apply Z; now right.
  - intros p H. destruct (sumZ hits =? 0)%Z eqn:E; [discriminate|]. apply Z.eqb_neq in E. apply (f_equal (fun o => match o with Some r => r | None => 0 end)) in H.
    cbv beta iota zeta in H. subst p.
    assert (U : (0 < used_codes hits)%nat).
    { destruct (used_codes hits) eqn:Q; [|lia]. exfalso. apply E.
      unfold used_codes in Q. clear -Q. induction hits as [|c l IH]; [reflexivity|].
      cbn [filter] in Q. destruct (c =? 0)%Z eqn:Z; cbn [negb length] in Q; [|discriminate].
      apply Z.eqb_eq in Z. subst c. cbn. unfold sumZ in IH. rewrite IH; [reflexivity|exact Q]. }
    pose proof (lt_0_INR _ U) as UR.
    destruct (entropy_bounds (sumZ hits) (INR (used_codes hits)) hits ltac:(lia) UR) as [_ [A B]].
    { intros c I. split; [apply P, I|apply sumZ_ge; assumption]. }
    specialize (A ltac:(lia)). cbv zeta in A, B. set (s := sumR _) in *.
    assert (TR : IZR (sumZ hits) <> 0) by (apply not_0_IZR; exact E).
    replace (IZR (sumZ hits) / IZR (sumZ hits)) with 1 in A, B by (field; exact TR).
    replace (INR (used_codes hits) / INR (used_codes hits)) with 1 in A by (field; lra).
    rewrite map_map, log2_exp. pose proof ln2_pos as L2.
    assert (SE : forall l, sumR (map (fun c => IZR c / IZR (sumZ hits) * log2 (IZR c / IZR (sumZ hits) + / 10 ^ 7)) l) * ln 2
             = sumR (map (fun c => IZR c / IZR (sumZ hits) * ln (IZR c / IZR (sumZ hits) + / 10 ^ 7)) l)).
    { induction l as [|c l IH]; cbn [map sumR fold_right]; [ring|]. unfold sumR in IH. rewrite Rmult_plus_distr_r, IH.
      f_equal. unfold log2. field. lra. }
    replace (- sumR (map (fun x => IZR x / IZR (sumZ hits) * log2 (IZR x / IZR (sumZ hits) + / 10 ^ 7)) hits) * ln 2)
      with (- s) by (unfold s; rewrite <- SE; ring).
    pose proof eps_pos. split.
    + rewrite <- (exp_ln (/ (1 + / 10 ^ 7))) by (apply Rinv_0_lt_compat; lra). apply Raux.exp_le.
      rewrite ln_Rinv by lra. lra.
    + rewrite <- (exp_ln (INR (used_codes hits)) UR). apply exp_increasing. lra.
Qed.

(** Counts that are all equal give the highest perplexity: the number of codewords K, up to the
    1e-7 added inside the logarithm. *)
Theorem vq_perplexity_even : forall K c, K <> 0%nat -> (0 < c)%Z ->
  perplexity (repeat c K) = Some (/ (/ INR K + / 10 ^ 7)).
Proof.
  intros K c HK C. pose proof (lt_0_INR K ltac:(lia)) as KR. pose proof eps_pos as EP.
  assert (S : forall n, sumZ (repeat c n) = (Z.of_nat n * c)%Z).
  { induction n as [|n IH]; [reflexivity|]. cbn [repeat sumZ fold_right]. unfold sumZ in IH. rewrite IH. lia. }
  unfold perplexity. rewrite S. rewrite (proj2 (Z.eqb_neq _ _)) by nia. f_equal. rewrite map_map.
  assert (Q : IZR c / IZR (Z.of_nat K * c) = / INR K).
  { rewrite mult_IZR, <- INR_IZR_INZ. field. split; [lra|]. apply not_0_IZR. lia. }
  assert (M : forall n, sumR (map (fun x => IZR x / IZR (Z.of_nat K * c) * log2 (IZR x / IZR (Z.of_nat K * c) + / 10 ^ 7)) (repeat c n))
       = INR n * (/ INR K * log2 (/ INR K + / 10 ^ 7))).
  { induction n as [|n IH]; [cbn; ring|]. cbn [repeat map sumR fold_right]. unfold sumR in IH. rewrite IH, Q, S_INR. ring. }
  rewrite M. rewrite <- Rmult_assoc, Rinv_r, Rmult_1_l by lra. rewrite log2_exp. unfold log2.
  pose proof (Rinv_0_lt_compat _ KR).
  replace (- (ln (/ INR K + / 10 ^ 7) / ln 2) * ln 2) with (- ln (/ INR K + / 10 ^ 7)) by (field; pose proof ln2_pos; lra).
  rewrite <- ln_Rinv by lra. apply exp_ln, Rinv_0_lt_compat. lra.
Qed.

(** * Cases that meet the hypotheses *)
Example vq_example : exists q, quantize_vectors true pick_nearest vq_x1 vq_cb2 = Ok q /\ tshape vq_x1 = [1; 1; 1; 2]%nat.
Proof.
  destruct (proj2 (vq_accepts true vq_x1 vq_cb2)) as [q Q]; [|exists q; split; [exact Q|reflexivity]].
  exists 1%nat, 1%nat, 2%nat. split; [reflexivity|left; discriminate].
Qed.
Example vq_forward_example : exists m q n, vqb_forward (vqb_init vq_cb2) (Some vq_x1) = Ok (m, q, n).
Proof.
  destruct vq_example as [q [Q _]]. unfold vqb_forward. cbn [vqb_init vb_codebook]. rewrite Q.
  change (length (tshape vq_x1) <? 2)%nat with false. change (cb_size vq_cb2 =? 0)%nat with false. cbn [bind].
  do 3 eexists. reflexivity.
Qed.
Example vq_usage_example : [3; 0; 4]%Z <> [] /\ (forall c, In c [3; 0; 4]%Z -> (0 <= c)%Z) /\ used_codes [3; 0; 4]%Z = 2%nat.
Proof. split; [discriminate|]. split; [|reflexivity]. intros c [<-|[<-|[<-|[]]]]; lia. Qed.
Example vq_unit_example : / 10 ^ 12 <= sqrt (sqdist 2 (fun j => match j with O => 3 | _ => 4 end) (fun _ => 0)).
Proof.
  unfold sqdist, rsum. cbn [seq map fold_right]. replace ((3 - 0) * (3 - 0) + ((4 - 0) * (4 - 0) + 0)) with (5 * 5) by ring.
  rewrite sqrt_square by lra. assert (/ 10 ^ 12 <= 1); [|lra].
  rewrite <- Rinv_1. apply Rinv_le_contravar; [lra|]. apply pow_R1_Rle. lra.
Qed.

Print Assumptions vq_accepts.
Print Assumptions vq_nearest.
Print Assumptions vq_unit_rows.
Print Assumptions vq_idempotent.
Print Assumptions vq_loss_minimal.
Print Assumptions vq_random_choice.
Print Assumptions vq_hits_history.
Print Assumptions vq_reset_refuted.
Print Assumptions vq_num_bytes.
Print Assumptions vq_usage.
Print Assumptions vq_perplexity.
Print Assumptions vq_perplexity_even.

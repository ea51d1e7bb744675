(** C75: the losses and rates the VCT Lightning module reports, and the modes of its pipeline.

    The specification: an event of probability p takes -log2 p bits; a rate is bits per pixel. *)
From Coq Require Import String Reals List Bool Arith Lia Lra.
From Verif Require Import Base VctLit_Model.
Import ListNotations.
Open Scope string_scope.
Open Scope list_scope.
Open Scope nat_scope.

(** Bits of scene t by its likelihoods. *)
Definition ideal_bits (ps : list R) : R := lsum (map (fun p => - (ln p / ln 2))%R ps).
(** Squared error of frame t, over all clips and pixels. *)
Definition frame_sq (v : video) (m : bool) (t : nat) : R :=
  sumR (vB v) (fun b => sumR (3 * vH v * vW v) (fun p => sqerr v m b t p)).
Definition weight (t : nat) : R := if t =? 0 then 1%R else 10%R.
(** The videos in question: at least one clip, frame, row and column. *)
Definition valid (v : video) := 1 <= vB v /\ 1 <= vT v /\ 1 <= vH v /\ 1 <= vW v.
(** The pipeline would code the scenes after the first to strings. *)
Definition to_strings (s : st) : bool := negb (m_training s) && truthy (code s).

Lemma sumR_S0 : forall n f, sumR (S n) f = (f 0%nat + sumR n (fun k => f (S k)))%R.
Proof. induction n; intros f; [cbn; ring|]. change (sumR (S (S n)) f) with (sumR (S n) f + f (S n))%R.
  rewrite IHn. cbn. ring. Qed.
Lemma sumR_ext : forall n f g, (forall k, k < n -> f k = g k) -> sumR n f = sumR n g.
Proof. induction n; intros f g E; [reflexivity|]. cbn. rewrite (IHn f g) by (intros; apply E; lia). rewrite E by lia. reflexivity. Qed.
Lemma sumR_plus : forall n f g, sumR n (fun k => f k + g k)%R = (sumR n f + sumR n g)%R.
Proof. induction n; intros; cbn; [ring|]. rewrite IHn. ring. Qed.
Lemma sumR_scal : forall n c f, sumR n (fun k => c * f k)%R = (c * sumR n f)%R.
Proof. induction n; intros; cbn; [ring|]. rewrite IHn. ring. Qed.
Lemma sumR_le : forall n f g, (forall k, k < n -> (f k <= g k)%R) -> (sumR n f <= sumR n g)%R.
Proof. induction n; intros f g L; cbn; [lra|]. pose proof (L n). pose proof (IHn f g (fun k H => L k (Nat.lt_lt_succ_r _ _ H))).
  assert (f n <= g n)%R by (apply L; lia). lra. Qed.
Lemma sumR_nonneg : forall n f, (forall k, k < n -> (0 <= f k)%R) -> (0 <= sumR n f)%R.
Proof. induction n; intros f L; cbn; [lra|]. assert (0 <= sumR n f)%R by (apply IHn; intros; apply L; lia).
  assert (0 <= f n)%R by (apply L; lia). lra. Qed.
Lemma lsum_seq : forall n f a, lsum (map f (seq a n)) = sumR n (fun k => f (a + k)).
Proof. induction n; intros f a; [reflexivity|]. rewrite sumR_S0. cbn [seq map lsum fold_right].
  change (fold_right Rplus 0%R (map f (seq (S a) n))) with (lsum (map f (seq (S a) n))). rewrite IHn.
  rewrite Nat.add_0_r. f_equal. apply sumR_ext. intros. f_equal. lia. Qed.
Lemma lsum_app : forall a b, lsum (a ++ b) = (lsum a + lsum b)%R.
Proof. induction a; intros; unfold lsum in *; cbn; [ring|]. rewrite IHa. ring. Qed.
Lemma ln2 : (0 < ln 2)%R. Proof. pose proof (ln_increasing 1 2). rewrite ln_1 in H. lra. Qed.
Lemma scene_bits_ideal : forall ps, scene_bits ps = ideal_bits ps.
Proof. unfold scene_bits, ideal_bits. pose proof ln2. induction ps as [|p ps IH].
  - cbn. unfold Rdiv. ring.
  - cbn [map lsum fold_right]. change (fold_right Rplus 0%R) with lsum. rewrite <- IH. field. lra. Qed.
Lemma scene_bits_app : forall a b, scene_bits (a ++ b) = (scene_bits a + scene_bits b)%R.
Proof. intros. unfold scene_bits. rewrite map_app, lsum_app. unfold Rdiv. ring. Qed.
Lemma scene_bits_concat : forall l, scene_bits (concat l) = lsum (map scene_bits l).
Proof. induction l; [unfold scene_bits; cbn; unfold Rdiv; ring|]. cbn [concat map lsum fold_right]. rewrite scene_bits_app, IHl. reflexivity. Qed.

(** * What forward gives *)
Definition all_lik (v : video) (m : bool) := map (lik v m) (seq 0 (vT v)).
Lemma mapM_lik : forall (l : list (list R)),
  mapM (fun b => match b with Likelihood p => Ok p | Bits _ => Raise RuntimeError end) (map Likelihood l) = Ok l.
Proof. induction l; [reflexivity|]. cbn [map mapM bind]. rewrite IHl. reflexivity. Qed.
Lemma forward_ok : forall s v, 1 <= vT v -> to_strings s = false \/ vT v = 1 -> forward s v = Ok (all_lik v (m_training s)).
Proof.
  intros s v T H. unfold forward, all_lik.
  assert (encode_and_decode s v = map Likelihood (map (lik v (m_training s)) (seq 0 (vT v)))) as ->.
  { unfold encode_and_decode. rewrite map_map. apply map_ext_in. intros t I. apply in_seq in I. unfold encode_scene.
    destruct H as [H|H]; [unfold to_strings in H; rewrite H, andb_false_r; reflexivity|].
    assert (t = 0) by lia. subst. reflexivity. }
  destruct (seq 0 (vT v)) as [|t r] eqn:E; [destruct (vT v); [lia|discriminate]|].
  cbn [map stack]. apply (mapM_lik (lik v (m_training s) t :: map (lik v (m_training s)) r)).
Qed.
Lemma forward_bad : forall s v, to_strings s = true -> 2 <= vT v -> forward s v = Raise RuntimeError.
Proof.
  intros s v H T. unfold forward, encode_and_decode. destruct (vT v) as [|[|n]]; [lia|lia|].
  unfold to_strings in H. cbn [seq map]. unfold encode_scene at 1 2. cbn [Nat.ltb Nat.leb]. rewrite H. cbn [andb].
  reflexivity.
Qed.

Theorem C75_forward_iff : forall s v, 1 <= vT v ->
  (is_ok (forward s v) = true <-> (to_strings s = false \/ vT v = 1)).
Proof.
  intros s v T. split; intros H.
  - destruct (to_strings s) eqn:E; [|auto]. destruct (Nat.eq_dec (vT v) 1); [auto|].
    rewrite (forward_bad s v E) in H by lia. discriminate.
  - rewrite (forward_ok s v T H). reflexivity.
Qed.

(** * The losses *)
Lemma zip_seq : forall {A B C} (f : A -> B -> C) g h n a, zip_with f (map g (seq a n)) (map h (seq a n)) = map (fun t => f (g t) (h t)) (seq a n).
Proof. intros A B C f g h. unfold zip_with. induction n; intros a; [reflexivity|]. cbn [seq map combine fst snd]. rewrite IHn. reflexivity. Qed.
Lemma weights_seq : forall n, weights n = map weight (seq 0 n).
Proof. intros [|n]; [reflexivity|]. unfold weights. cbn [repeat set_first seq map]. f_equal.
  assert (forall n a, 1 <= a -> repeat 10%R n = map weight (seq a n)) as E; [|apply E; lia].
  induction n0; intros a La; [reflexivity|]. cbn [repeat seq map]. rewrite (IHn0 (S a)) by lia. unfold weight at 2.
  destruct (a =? 0) eqn:E; [apply Nat.eqb_eq in E; lia|]. reflexivity. Qed.
Lemma mean_seq : forall n f, mean (map f (seq 0 n)) = (sumR n f / INR n)%R.
Proof. intros. unfold mean. rewrite lsum_seq, map_length, seq_length. reflexivity. Qed.
Lemma INR_pos : forall n, 1 <= n -> (0 < INR n)%R. Proof. intros. apply lt_0_INR. lia. Qed.

Theorem C75_losses : forall lambda s v, valid v -> to_strings s = false ->
  exists l, step (Some lambda) s v = Ok l /\
    let m := m_training s in
    let T := INR (vT v) in
    let D := fun t => (frame_sq v m t / (INR (vB v) * INR 3 * INR (vH v) * INR (vW v)))%R in
    let Rt := fun t => (ideal_bits (lik v m t) / (INR (vB v) * INR (vH v) * INR (vW v)))%R in
    (* the logged rate is all bits over all pixels, the distortion the mean squared error of all values *)
    log_rate l = (sumR (vT v) (fun t => ideal_bits (lik v m t)) / (INR (vB v) * INR (vH v) * INR (vW v) * T))%R /\
    log_rate l = rate_loss_total v (all_lik v m) /\
    log_distortion l = (sumR (vT v) (frame_sq v m) / (INR (vB v) * INR 3 * INR (vH v) * INR (vW v) * T))%R /\
    (* and the losses are made of them *)
    log_combined l = (lambda * 255 * 255 * log_distortion l + log_rate l)%R /\
    log_weighted l = (sumR (vT v) (fun t => weight t * (lambda * 255 * 255 * D t + Rt t)) / T)%R.
Proof.
  intros lambda s v (HB & HT & HH & HW) HS.
  pose proof (INR_pos _ HB). pose proof (INR_pos _ HT). pose proof (INR_pos _ HH). pose proof (INR_pos _ HW).
  unfold step. rewrite (forward_ok s v HT (or_introl HS)). cbn [bind].
  eexists. split; [reflexivity|]. cbv zeta. cbn [log_rate log_distortion log_combined log_weighted].
  unfold rate_loss_frames, compute_rate_per_frame, all_lik, dist_loss_frames. rewrite !map_map, map_length, seq_length.
  rewrite weights_seq, !zip_seq, !mean_seq.
  assert (forall t, (scene_bits (lik v (m_training s) t) / INR (vB v * vH v * vW v))%R =
     (/ (INR (vB v) * INR (vH v) * INR (vW v)) * ideal_bits (lik v (m_training s) t))%R) as E1.
  { intros. rewrite scene_bits_ideal, !mult_INR. unfold Rdiv. ring. }
  assert (forall t, (sumR (vB v) (fun b => sumR (3 * vH v * vW v) (fun p => sqerr v (m_training s) b t p)) / INR (vB v * (3 * vH v * vW v)))%R =
     (/ (INR (vB v) * INR 3 * INR (vH v) * INR (vW v)) * frame_sq v (m_training s) t)%R) as E2.
  { intros. unfold frame_sq. rewrite !mult_INR. unfold Rdiv. rewrite Rmult_comm. f_equal. f_equal. ring. }
  assert (sumR (vT v) (fun x => (scene_bits (lik v (m_training s) x) / INR (vB v * vH v * vW v))%R) =
     (/ (INR (vB v) * INR (vH v) * INR (vW v)) * sumR (vT v) (fun t => ideal_bits (lik v (m_training s) t)))%R) as F1.
  { rewrite <- sumR_scal. apply sumR_ext. intros. apply E1. }
  split; [rewrite F1; field; repeat split; lra|].
  split.
  { rewrite F1. unfold rate_loss_total, compute_rate. rewrite scene_bits_concat, map_map, lsum_seq, !mult_INR. cbn [Nat.add].
    rewrite (sumR_ext _ (fun k => scene_bits (lik v (m_training s) k)) (fun t => ideal_bits (lik v (m_training s) t))) by (intros; apply scene_bits_ideal).
    field. repeat split; lra. }
  assert (sumR (vT v) (fun x => (sumR (vB v) (fun b => sumR (3 * vH v * vW v) (fun p => sqerr v (m_training s) b x p)) / INR (vB v * (3 * vH v * vW v)))%R) =
     (/ (INR (vB v) * INR 3 * INR (vH v) * INR (vW v)) * sumR (vT v) (frame_sq v (m_training s)))%R) as F2.
  { rewrite <- sumR_scal. apply sumR_ext. intros. apply E2. }
  assert (INR 3 <> 0%R) by (cbn; lra).
  split; [rewrite F2; field; repeat split; lra|].
  split.
  - rewrite (sumR_plus _ (fun t => _ * _)%R). rewrite sumR_scal. field. lra.
  - f_equal. apply sumR_ext. intros. rewrite E1, E2. unfold Rdiv. cbn [pow]. ring.
Qed.

(** With probabilities, the weighted loss is between the plain one and ten times that. *)
Lemma ideal_nonneg : forall ps, Forall (fun p => (0 < p <= 1)%R) ps -> (0 <= ideal_bits ps)%R.
Proof. unfold ideal_bits. pose proof ln2. induction 1 as [|p ps Hp _ IH]; [cbn; lra|]. cbn [map lsum fold_right]. change (fold_right Rplus 0%R) with lsum.
  assert (ln p <= 0)%R. { destruct (Req_dec p 1); [subst; rewrite ln_1; lra|]. rewrite <- ln_1. left. apply ln_increasing; lra. }
  assert (0 <= - (ln p / ln 2))%R. { unfold Rdiv. pose proof (Rinv_0_lt_compat _ H). assert (0 <= - ln p * / ln 2)%R by (apply Rmult_le_pos; lra). lra. }
  lra. Qed.
Theorem C75_weighted_bounds : forall lambda s v l, valid v -> to_strings s = false -> (0 <= lambda)%R ->
  (forall t, t < vT v -> Forall (fun p => (0 < p <= 1)%R) (lik v (m_training s) t)) ->
  (forall b t p, (0 <= sqerr v (m_training s) b t p)%R) ->
  step (Some lambda) s v = Ok l -> (log_combined l <= log_weighted l <= 10 * log_combined l)%R.
Proof.
  intros lambda s v l V HS L0 HL HD HE.
  destruct (C75_losses lambda s v V HS) as (l' & E & LR & _ & LD & LC & LW). rewrite HE in E. injection E as <-.
  destruct V as (HB & HT & HH & HW).
  pose proof (INR_pos _ HB). pose proof (INR_pos _ HT). pose proof (INR_pos _ HH). pose proof (INR_pos _ HW).
  set (P := (INR (vB v) * INR (vH v) * INR (vW v))%R) in *.
  assert (0 < P)%R by (unfold P; repeat apply Rmult_lt_0_compat; assumption).
  assert (0 < INR 3)%R as P3 by (cbn; lra).
  set (Q := (INR (vB v) * INR 3 * INR (vH v) * INR (vW v))%R) in *.
  assert (0 < Q)%R by (unfold Q; repeat apply Rmult_lt_0_compat; assumption).
  set (G := fun t => (lambda * 255 * 255 * (frame_sq v (m_training s) t / Q) + ideal_bits (lik v (m_training s) t) / P)%R) in *.
  assert (log_combined l = sumR (vT v) G / INR (vT v))%R as EC.
  { rewrite LC, LR, LD. unfold G. rewrite sumR_plus.
    rewrite (sumR_ext _ (fun k => (lambda * 255 * 255 * (frame_sq v (m_training s) k / Q))%R) (fun k => (lambda * 255 * 255 * / Q * frame_sq v (m_training s) k)%R)) by (intros; unfold Rdiv; ring).
    rewrite (sumR_ext _ (fun k => (ideal_bits (lik v (m_training s) k) / P)%R) (fun k => (/ P * ideal_bits (lik v (m_training s) k))%R)) by (intros; unfold Rdiv; ring).
    rewrite !sumR_scal. change (frame_sq v (m_training s)) with (fun t => frame_sq v (m_training s) t). field. repeat split; lra. }
  assert (forall t, t < vT v -> (0 <= G t)%R) as GP.
  { intros t Ht. unfold G. pose proof (ideal_nonneg _ (HL t Ht)).
    assert (0 <= frame_sq v (m_training s) t)%R by (unfold frame_sq; apply sumR_nonneg; intros; apply sumR_nonneg; intros; apply HD).
    assert (0 <= frame_sq v (m_training s) t / Q)%R by (apply Rmult_le_pos; [assumption|left; apply Rinv_0_lt_compat; assumption]).
    assert (0 <= ideal_bits (lik v (m_training s) t) / P)%R by (apply Rmult_le_pos; [assumption|left; apply Rinv_0_lt_compat; assumption]).
    assert (0 <= lambda * 255 * 255 * (frame_sq v (m_training s) t / Q))%R by (apply Rmult_le_pos; lra). lra. }
  rewrite EC, LW. change (fun t => (weight t * (lambda * 255 * 255 * (frame_sq v (m_training s) t / Q) + ideal_bits (lik v (m_training s) t) / P))%R) with (fun t => (weight t * G t)%R).
  pose proof (Rinv_0_lt_compat _ H0).
  assert (sumR (vT v) G <= sumR (vT v) (fun t => weight t * G t))%R as A1.
  { apply sumR_le. intros t Ht. pose proof (GP t Ht). unfold weight. destruct (t =? 0); lra. }
  assert (sumR (vT v) (fun t => weight t * G t) <= 10 * sumR (vT v) G)%R as A2.
  { rewrite <- sumR_scal. apply sumR_le. intros t Ht. pose proof (GP t Ht). unfold weight. destruct (t =? 0); lra. }
  unfold Rdiv. split; [apply Rmult_le_compat_r; lra|]. rewrite <- Rmult_assoc. apply Rmult_le_compat_r; lra.
Qed.

(** Without distortion_lambda there is no loss. *)
Theorem C75_no_lambda : forall s v, is_ok (step None s v) = false.
Proof. intros. unfold step. destruct (forward s v); reflexivity. Qed.

(** * test_step *)
Definition string_bits (v : video) (t : nat) : R := if t =? 0 then ideal_bits (lik v false 0) else strings v t.

Lemma bits_of_compress : forall s v, vB v = 1 -> 1 <= vT v ->
  compress_video s v = (Ok (map (string_bits v) (seq 0 (vT v))), mkSt false (Some true) (l_training s)).
Proof.
  intros s v B T. unfold compress_video. rewrite B. cbn [Nat.eqb negb]. destruct (vT v =? 0) eqn:E; [apply Nat.eqb_eq in E; lia|].
  unfold encode_and_decode. rewrite map_map. f_equal. f_equal. apply map_ext_in. intros t I. apply in_seq in I.
  unfold encode_scene, string_bits. cbn [m_training code truthy negb andb]. rewrite andb_true_r.
  destruct t; cbn [Nat.ltb Nat.leb Nat.eqb]; [apply scene_bits_ideal|reflexivity].
Qed.

(** States the module can be in: the pipeline trains only if the module does. *)
Definition reachable (s : st) := exists h, s = run h new.
Lemma run_snoc : forall h o s, run (h ++ [o]) s = run_op o (run h s).
Proof. intros. unfold run. rewrite fold_left_app. reflexivity. Qed.
Lemma test_state : forall b s v, snd (test_step b s v) = s \/ snd (test_step b s v) = mkSt (m_training s) (Some false) (l_training s)
  \/ snd (test_step b s v) = mkSt false (Some true) (l_training s).
Proof. intros b s v. unfold test_step. destruct (negb (vB v =? 1)); [auto|]. destruct (l_training s) eqn:E; [auto|].
  cbv zeta. destruct b.
  - match goal with |- context[match ?x with Ok _ => _ | Raise _ => _ end] => destruct x end; [|right; left; cbn; rewrite ?E; reflexivity].
    right; right. reflexivity.
  - right; right. cbn. rewrite ?E. reflexivity. Qed.
Lemma reach_inv : forall s, reachable s -> l_training s = false -> m_training s = false.
Proof.
  intros s [h ->]. induction h as [|o h IH] using rev_ind; [discriminate|]. rewrite run_snoc. destruct o; cbn [run_op]; intros L; try reflexivity; try (exact (IH L)); try discriminate.
  destruct (test_state run_fwd (run h new) v) as [E|[E|E]]; rewrite E in L |- *; cbn [m_training l_training] in *; auto.
Qed.

Lemma pydiv_ok : forall a n, 1 <= n -> pydiv a n = Ok (a / INR n)%R.
Proof. intros. unfold pydiv. destruct (n =? 0) eqn:E; [apply Nat.eqb_eq in E; lia|]. reflexivity. Qed.
Lemma tl_seq : forall {A} (f : nat -> A) n, tl (map f (seq 0 n)) = map f (seq 1 (n - 1)).
Proof. intros A f [|n]; [reflexivity|]. cbn [seq map tl Nat.sub]. rewrite Nat.sub_0_r. reflexivity. Qed.

(** Whatever was done before, in evaluation mode test_step reports the bits per pixel, and those of the
    frames after the first; and the first frame makes up the difference. *)
Theorem C75_test : forall run_fwd s v, reachable s -> l_training s = false -> valid v -> vB v = 1 -> 2 <= vT v ->
  exists r, fst (test_step run_fwd s v) = Ok r /\
    let HW := (INR (vH v) * INR (vW v))%R in
    let T := INR (vT v) in
    bpp r = (sumR (vT v) (string_bits v) / (HW * T))%R /\
    bpp_xfirst r = (sumR (vT v - 1) (fun t => strings v (S t)) / (HW * (T - 1)))%R /\
    (T * bpp r = string_bits v 0 / HW + (T - 1) * bpp_xfirst r)%R /\
    (cts r = if run_fwd then Some (sumR (vT v) (fun t => ideal_bits (lik v false t)) / (HW * T),
                                   sumR (vT v - 1) (fun t => ideal_bits (lik v false (S t))) / (HW * (T - 1)))%R
             else None).
Proof.
  intros run_fwd s v RS L (HB & HT & HH & HW) B T. pose proof (reach_inv s RS L) as M.
  pose proof (INR_pos _ HT). pose proof (INR_pos _ HH). pose proof (INR_pos _ HW).
  assert (1 <= vH v * vW v * vT v) as P1 by (destruct (vH v), (vW v), (vT v); lia).
  assert (1 <= vH v * vW v * (vT v - 1)) as P2. { destruct (vH v); [lia|]. destruct (vW v); [lia|]. destruct (vT v) as [|[|k]]; lia. }
  assert (INR (vT v - 1) = INR (vT v) - 1)%R as EI by (rewrite minus_INR by lia; reflexivity).
  assert (0 < INR (vT v) - 1)%R as PT by (rewrite <- EI; apply INR_pos; lia).
  assert (forall f, lsum (map f (seq 1 (vT v - 1))) = sumR (vT v - 1) (fun t => f (S t))) as S1 by (intros; rewrite lsum_seq; reflexivity).
  assert (forall f : nat -> R, lsum (map f (seq 0 (vT v))) = sumR (vT v) f) as S0 by (intros; rewrite lsum_seq; reflexivity).
  assert (forall c s1, (do bits <- fst (compress_video s1 v);
         do a <- pydiv (lsum bits) (vH v * vW v * vT v);
         do b <- pydiv (lsum (tl bits)) (vH v * vW v * (vT v - 1));
         Ok (mkTe c a b)) = Ok (mkTe c (sumR (vT v) (string_bits v) / (INR (vH v) * INR (vW v) * INR (vT v)))%R
            (sumR (vT v - 1) (fun t => strings v (S t)) / (INR (vH v) * INR (vW v) * (INR (vT v) - 1)))%R)) as EC.
  { intros c s1. rewrite (bits_of_compress s1 v B HT). cbn [fst bind]. rewrite !pydiv_ok by assumption. cbn [bind].
    rewrite tl_seq, S0, S1, !mult_INR, EI. reflexivity. }
  unfold test_step. rewrite B. cbn [Nat.eqb negb]. rewrite L, M.
  assert (let HW := (INR (vH v) * INR (vW v))%R in (INR (vT v) * (sumR (vT v) (string_bits v) / (HW * INR (vT v))) =
     string_bits v 0 / HW + (INR (vT v) - 1) * (sumR (vT v - 1) (fun t => strings v (S t)) / (HW * (INR (vT v) - 1))))%R) as ED.
  { cbv zeta. destruct (vT v) as [|n] eqn:ET; [lia|]. rewrite sumR_S0. replace (S n - 1) with n by lia.
    rewrite (sumR_ext n (fun k => string_bits v (S k)) (fun k => strings v (S k))) by reflexivity. field. repeat split; lra. }
  destruct run_fwd.
  - cbv zeta. rewrite (forward_ok (mkSt false (Some false) false) v HT (or_introl eq_refl)). cbn [m_training bind].
    rewrite !pydiv_ok by assumption. cbn [bind].
    destruct (compress_video (mkSt false (Some false) false) v) as [bits s2] eqn:E. specialize (EC (Some (compute_rate (all_lik v false) / INR (vH v * vW v * vT v), compute_rate (tl (all_lik v false)) / INR (vH v * vW v * (vT v - 1)))%R) (mkSt false (Some false) false)). rewrite E in EC. cbn [fst] in EC |- *.
    rewrite EC. eexists. split; [reflexivity|]. cbn [bpp bpp_xfirst cts]. split; [reflexivity|]. split; [reflexivity|]. split; [exact ED|].
    unfold all_lik. rewrite tl_seq. unfold compute_rate. rewrite !scene_bits_concat, !map_map, S0, S1, !mult_INR, EI.
    rewrite (sumR_ext (vT v) (fun x => scene_bits (lik v false x)) (fun t => ideal_bits (lik v false t))) by (intros; apply scene_bits_ideal).
    rewrite (sumR_ext (vT v - 1) (fun x => scene_bits (lik v false (S x))) (fun t => ideal_bits (lik v false (S t)))) by (intros; apply scene_bits_ideal).
    reflexivity.
  - cbv zeta. destruct (compress_video s v) as [bits s2] eqn:E. specialize (EC None s). rewrite E in EC. cbn [fst] in EC |- *.
    rewrite EC. eexists. split; [reflexivity|]. cbn [bpp bpp_xfirst cts]. split; [reflexivity|]. split; [reflexivity|]. split; [exact ED|reflexivity].
Qed.

(** It refuses other batches and a training module, and cannot report on one frame. *)
Theorem C75_test_raises : forall run_fwd s v, reachable s -> valid v ->
  (vB v <> 1 -> test_step run_fwd s v = (Raise AssertionError, s)) /\
  (vB v = 1 -> l_training s = true -> test_step run_fwd s v = (Raise AssertionError, s)) /\
  (vB v = 1 -> l_training s = false -> vT v = 1 -> fst (test_step run_fwd s v) = Raise ZeroDivisionError).
Proof.
  intros run_fwd s v RS (HB & HT & HH & HW). split; [|split].
  - intros N. unfold test_step. destruct (vB v =? 1) eqn:E; [apply Nat.eqb_eq in E; lia|]. reflexivity.
  - intros B L. unfold test_step. rewrite B, L. reflexivity.
  - intros B L T. pose proof (reach_inv s RS L) as M. assert (1 <= vH v * vW v * 1) as P1 by (destruct (vH v), (vW v); lia).
    unfold test_step. rewrite B, L, M, T. cbn [Nat.eqb negb]. cbv zeta. destruct run_fwd.
    + rewrite (forward_ok (mkSt false (Some false) false) v) by (rewrite ?T; auto). cbn [bind]. rewrite pydiv_ok by exact P1. cbn [bind].
      rewrite Nat.mul_0_r. reflexivity.
    + rewrite (bits_of_compress s v B HT). cbn [bind fst]. rewrite pydiv_ok by exact P1. cbn [bind]. rewrite Nat.mul_0_r. reflexivity.
Qed.

(** test_step gives the same in every state of evaluation. *)
Theorem C75_test_stateless : forall run_fwd s s' v, reachable s -> reachable s' -> l_training s = false -> l_training s' = false ->
  fst (test_step run_fwd s v) = fst (test_step run_fwd s' v).
Proof.
  intros run_fwd s s' v R1 R2 L1 L2. pose proof (reach_inv s R1 L1) as M1. pose proof (reach_inv s' R2 L2) as M2.
  unfold test_step. rewrite L1, L2, M1, M2. destruct (negb (vB v =? 1)); [reflexivity|]. cbv zeta. destruct run_fwd.
  - reflexivity.
  - unfold compress_video. rewrite L1, L2. reflexivity.
Qed.

(** * The mode *)
(** Until something is compressed, forward works in every mode. *)
Definition compresses (o : op) : bool := match o with Compress _ | Test _ _ => true | _ => false end.
Theorem C75_forward_before : forall h v, Forall (fun o => compresses o = false) h -> 1 <= vT v -> is_ok (forward (run h new) v) = true.
Proof.
  intros h v F T. assert (code (run h new) = None) as E.
  { induction h as [|o h IH] using rev_ind; [reflexivity|]. apply Forall_app in F as [F1 F2]. inversion F2; subst.
    rewrite run_snoc. destruct o; try discriminate; cbn [run_op]; exact (IH F1). }
  apply C75_forward_iff; [assumption|]. left. unfold to_strings. rewrite E, andb_false_r. reflexivity.
Qed.

(** compress_video leaves the pipeline coding to strings: validation of a clip then raises, until train()
    is called; and again after the next eval(). *)
Definition quiet (o : op) : bool := match o with Eval | Forward _ | Step _ _ | Compress _ => true | _ => false end.
Definition quiet_t (o : op) : bool := match o with Eval | Train | Forward _ | Step _ _ | Compress _ => true | _ => false end.
Lemma code_kept : forall h s, Forall (fun o => quiet_t o = true) h -> code s = Some true -> code (run h s) = Some true.
Proof. induction h as [|o h IH]; intros s F C; [exact C|]. inversion F; subst. cbn. apply (IH _ H2). destruct o; try discriminate; cbn; auto. Qed.
Theorem C75_compress_then_forward_refuted : forall h h' w v lambda, Forall (fun o => quiet o = true) h' -> 2 <= vT v ->
  forward (run (h ++ [Compress w] ++ h') new) v = Raise RuntimeError /\
  step lambda (run (h ++ [Compress w] ++ h') new) v = Raise RuntimeError.
Proof.
  intros h h' w v lambda F T. assert (forward (run (h ++ [Compress w] ++ h') new) v = Raise RuntimeError) as E.
  { apply forward_bad; [|exact T]. unfold run. rewrite !fold_left_app. fold (run h new). cbn [fold_left run_op].
    assert (forall s, m_training s = false -> code s = Some true -> to_strings (fold_left (fun s o => run_op o s) h' s) = true) as G.
    { clear h. induction h' as [|o h' IH]; intros s M C; [cbn; unfold to_strings; rewrite M, C; reflexivity|].
      inversion F; subst. cbn [fold_left]. apply (IH H2); destruct o; try discriminate; cbn; auto. }
    apply G; reflexivity. }
  split; [exact E|]. unfold step. rewrite E. reflexivity.
Qed.
Theorem C75_train_after_compress : forall h h' w v, Forall (fun o => quiet_t o = true) h' -> 2 <= vT v ->
  is_ok (forward (run (h ++ [Compress w] ++ h' ++ [Train]) new) v) = true /\
  forward (run (h ++ [Compress w] ++ h' ++ [Train; Eval]) new) v = Raise RuntimeError.
Proof.
  intros h h' w v F T.
  assert (code (run (h ++ [Compress w] ++ h') new) = Some true) as C.
  { unfold run. rewrite !fold_left_app. cbn [fold_left]. apply code_kept; [exact F|]. reflexivity. }
  split.
  - apply C75_forward_iff; [lia|]. left. replace (h ++ [Compress w] ++ h' ++ [Train]) with ((h ++ [Compress w] ++ h') ++ [Train]) by (rewrite <- !app_assoc; reflexivity).
    rewrite run_snoc. reflexivity.
  - apply forward_bad; [|exact T]. replace (h ++ [Compress w] ++ h' ++ [Train; Eval]) with (((h ++ [Compress w] ++ h') ++ [Train]) ++ [Eval]) by (rewrite <- !app_assoc; reflexivity).
    rewrite !run_snoc. cbn [run_op]. unfold to_strings, eval, train. cbn [m_training code negb andb]. rewrite C. reflexivity.
Qed.

(** A two-frame video meets the hypotheses. *)
Definition clip : video := mkV 1 2 1 1 (fun _ _ => [(1/2)%R; (1/4)%R]) (fun _ => 8%R) (fun _ _ t _ => INR t).
Example clip_tests : exists r, fst (test_step true (run [Eval; Compress clip; Eval] new) clip) = Ok r /\ bpp r = (11 / 2)%R.
Proof.
  assert (valid clip) as V by (repeat split; cbn; lia).
  destruct (C75_test true (run [Eval; Compress clip; Eval] new) clip) as (r & E & B & _); try reflexivity; try exact V; try (cbn; lia); [exists [Eval; Compress clip; Eval]; reflexivity|].
  exists r. split; [exact E|]. rewrite B. cbn. unfold ideal_bits. cbn. pose proof ln2.
  replace (ln (1/2)) with (- ln 2)%R by (unfold Rdiv; rewrite Rmult_1_l, ln_Rinv by lra; reflexivity).
  replace (ln (1/4)) with (- (ln 2 + ln 2))%R by (rewrite <- ln_mult by lra; unfold Rdiv; rewrite Rmult_1_l, ln_Rinv by lra; f_equal; f_equal; ring).
  field. lra.
Qed.
Example clip_trains : exists l, step (Some 1%R) new clip = Ok l.
Proof. destruct (C75_losses 1 new clip) as (l & E & _); [repeat split; cbn; lia|reflexivity|exists l; exact E]. Qed.

Print Assumptions C75_losses.
Print Assumptions C75_test.
Print Assumptions C75_compress_then_forward_refuted.

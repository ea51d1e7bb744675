(** C54: rate targeting. *)
From Coq Require Import Reals List Bool Arith ZArith Lia Lra Sorted.
From Verif Require Import Base Rate_Model.
Import ListNotations.
Open Scope R_scope.

(** The configuration demands one factor more than steps. *)
Theorem rate_config_checked : forall t tf ts l1 l2 lf ls c,
  make_config t tf ts l1 l2 lf ls = Ok c <->
  (length tf = length ts + 1 /\ length lf = length ls + 1)%nat /\ c = mkRC t tf ts l1 l2 lf ls.
Proof.
  intros. unfold make_config.
  destruct (Nat.eqb_spec (length ts + 1) (length tf)) as [A|A]; cbn [negb orb].
  - destruct (Nat.eqb_spec (length ls + 1) (length lf)) as [B|B]; cbn [negb].
    + split; [intro H; injection H as <-; split; [split; lia|reflexivity]|intros [_ ->]; reflexivity].
    + split; [discriminate|intros [[_ C] _]; lia].
  - split; [discriminate|intros [[C _] _]; lia].
Qed.

(** Any list of steps: factor k applies when step k is the first step after the current one, and
    the last factor when there is none. *)
Theorem rate_schedule_first : forall g base factors steps, (length factors = length steps + 1)%nat ->
  exists k, (k <= length steps)%nat /\ scheduled g base factors steps = Ok (base * nth k factors 0) /\
    (forall i, (i < k)%nat -> (nth i steps 0 <= g)%Z) /\ ((k < length steps)%nat -> (g < nth k steps 0)%Z).
Proof.
  intros g base factors steps L.
  assert (Z : forall ss fs, (length fs = length ss + 1)%nat ->
     match sched_zip g base fs ss with
     | Some p => exists k, (k < length ss)%nat /\ p = base * nth k fs 0 /\
                   (forall i, (i < k)%nat -> (nth i ss 0 <= g)%Z) /\ (g < nth k ss 0)%Z
     | None => forall i, (i < length ss)%nat -> (nth i ss 0 <= g)%Z
     end).
  { induction ss as [|s ss IH]; intros [|f fs] H; cbn [length] in H; try lia.
    - cbn. intros; lia.
    - cbn [sched_zip]. destruct (Z.ltb_spec g s) as [B|B].
      + exists 0%nat. cbn. split; [lia|]. split; [reflexivity|]. split; [intros; lia|exact B].
      + specialize (IH fs ltac:(lia)). destruct (sched_zip g base fs ss) as [p|].
        * destruct IH as [k [K [E [A C]]]]. exists (S k). cbn [length nth]. split; [lia|]. split; [exact E|].
          split; [|exact C]. intros [|i] I; [exact B|apply A; lia].
        * intros [|i] I; cbn [nth length] in *; [exact B|apply IH; lia]. }
  specialize (Z steps factors L). unfold scheduled. destruct (sched_zip g base factors steps) as [p|].
  - destruct Z as [k [K [E [A B]]]]. exists k. split; [lia|]. split; [now rewrite E|]. split; [exact A|]. intros _. exact B.
  - exists (length steps). split; [lia|]. split; [|split; [exact Z|lia]].
    destruct (rev factors) as [|f r] eqn:RV.
    { apply (f_equal (@length _)) in RV. rewrite rev_length in RV. cbn in RV. lia. }
    assert (F : factors = rev r ++ [f]) by (rewrite <- (rev_involutive factors), RV; reflexivity).
    rewrite F in *. rewrite app_length in L. cbn [length] in L. rewrite app_nth2 by lia.
    replace (length steps - length (rev r))%nat with 0%nat by lia. reflexivity.
Qed.
(** Steps in order: the factor is that of the number of steps already reached. *)
Theorem rate_schedule_piecewise : forall g base factors steps, (length factors = length steps + 1)%nat ->
  (forall i j, (i <= j < length steps)%nat -> (nth i steps 0 <= nth j steps 0)%Z) ->
  scheduled g base factors steps
  = Ok (base * nth (length (filter (fun s => (s <=? g)%Z) steps)) factors 0).
Proof.
  intros g base factors steps L S. destruct (rate_schedule_first g base factors steps L) as [k [K [E [A B]]]].
  rewrite E. do 3 f_equal. clear E L.
  assert (F : forall ss k, (k <= length ss)%nat -> (forall i, (i < k)%nat -> (nth i ss 0 <= g)%Z) ->
     (forall i, (k <= i < length ss)%nat -> (g < nth i ss 0)%Z) -> k = length (filter (fun s => (s <=? g)%Z) ss)).
  { clear. induction ss as [|s ss IH]; intros k K A B; cbn [length] in K; [cbn; lia|]. cbn [filter].
    destruct k as [|k].
    - specialize (B 0%nat ltac:(cbn; lia)) as B0. cbn in B0. rewrite (proj2 (Z.leb_gt s g)) by lia.
      apply (IH 0%nat); [lia|intros; lia|]. intros i I. apply (B (S i)). cbn. lia.
    - specialize (A 0%nat ltac:(lia)) as A0. cbn in A0. rewrite (proj2 (Z.leb_le s g)) by lia. cbn [length]. f_equal.
      apply IH; [lia| |]; intros i I; [apply (A (S i)); lia|apply (B (S i)); cbn; lia]. }
  apply F; [exact K|exact A|]. intros i I.
  assert (K' : (k < length steps)%nat) by lia. specialize (B K'). specialize (S k i ltac:(lia)). lia.
Qed.

(** * The loss *)
(** Bits per pixel of one image as information content. *)
Definition bpp (pixels : R) (a b : list R) : R :=
  fold_right Rplus 0 (map (fun p => - (ln p / ln 2)) (a ++ b)) / pixels.
Lemma ln2 : 0 < ln 2. Proof. rewrite <- ln_1. apply ln_increasing; lra. Qed.
Lemma bits_app : forall a b pixels, bits_of a / pixels + bits_of b / pixels = bpp pixels a b.
Proof.
  intros a b pixels. unfold bpp, bits_of. pose proof ln2.
  assert (E : forall l, fold_right Rplus 0 (map ln l) / - ln 2 = fold_right Rplus 0 (map (fun p => - (ln p / ln 2)) l)).
  { induction l as [|x l IH]; cbn [map fold_right]; [unfold Rdiv; ring|]. rewrite <- IH. field. lra. }
  rewrite map_app, fold_right_app, !E.
  assert (G : forall l z, fold_right Rplus z l = fold_right Rplus 0 l + z).
  { induction l as [|x l IH]; intro z; cbn; [ring|]. rewrite IH. ring. }
  rewrite (G _ (fold_right Rplus 0 (map _ b))). unfold Rdiv. ring.
Qed.

(** Every image is weighted by itself: the high weight exactly if its quantised rate is above
    the target, whatever the other images of the batch are; the loss is the mean of weight times
    noisy rate. *)
Theorem rate_loss_spec : forall c g h w batch out, rate_loss c g h w batch = Ok out ->
  let pixels := INR (h * w) in
  scheduled g (rc_target c) (rc_target_factors c) (rc_target_steps c) = Ok (ro_target out) /\
  scheduled g (rc_lam2 c) (rc_lam2_factors c) (rc_lam2_steps c) = Ok (ro_lam2 out) /\
  exists weight : image_lik -> R,
    (forall i, ro_target out < bpp pixels (il_qlatent i) (il_qhyper i) -> weight i = ro_lam2 out) /\
    (forall i, bpp pixels (il_qlatent i) (il_qhyper i) <= ro_target out -> weight i = rc_lam1 c) /\
    ro_loss out * INR (length batch)
    = (if (length batch =? 0)%nat then 0 else fold_right Rplus 0 (map (fun i => weight i * bpp pixels (il_latent i) (il_hyper i)) batch)) /\
    (batch <> [] -> ro_total out * INR (length batch) = fold_right Rplus 0 (map (fun i => bpp pixels (il_latent i) (il_hyper i)) batch)) /\
    (batch <> [] -> ro_qtotal out * INR (length batch) = fold_right Rplus 0 (map (fun i => bpp pixels (il_qlatent i) (il_qhyper i)) batch)).
Proof.
  intros c g h w batch out H pixels. unfold rate_loss in H. fold pixels in H.
  destruct (scheduled g (rc_target c) (rc_target_factors c) (rc_target_steps c)) as [t|] eqn:T; cbn [bind] in H; [|discriminate].
  destruct (scheduled g (rc_lam2 c) (rc_lam2_factors c) (rc_lam2_steps c)) as [l2|] eqn:L; cbn [bind] in H; [|discriminate].
  injection H as <-. cbn [ro_target ro_lam2 ro_loss ro_total ro_qtotal]. split; [reflexivity|]. split; [reflexivity|].
  exists (fun i => if Rlt_dec t (qtotal_bpp pixels i) then l2 else rc_lam1 c).
  assert (Q : forall i, qtotal_bpp pixels i = bpp pixels (il_qlatent i) (il_qhyper i)) by (intro; apply bits_app).
  split; [|split; [|split; [|split]]].
  - intros i I. rewrite Q. destruct (Rlt_dec t (bpp pixels (il_qlatent i) (il_qhyper i))); [reflexivity|contradiction].
  - intros i I. rewrite Q. destruct (Rlt_dec t (bpp pixels (il_qlatent i) (il_qhyper i))); [lra|reflexivity].
  - set (W := fun i => if Rlt_dec t (qtotal_bpp pixels i) then l2 else rc_lam1 c).
    assert (E : map (fun p => fst p * snd p) (combine (map W batch) (map (total_bpp pixels) batch))
              = map (fun i => W i * bpp pixels (il_latent i) (il_hyper i)) batch).
    { induction batch as [|i b IH]; [reflexivity|]. cbn [map combine fst snd]. rewrite IH. f_equal. f_equal. apply bits_app. }
    rewrite E. unfold mean. rewrite map_length. destruct batch as [|i b]; [cbn; ring|].
    cbn [length Nat.eqb]. unfold Rdiv. rewrite Rmult_assoc, Rinv_l, Rmult_1_r; [reflexivity|]. apply not_0_INR. discriminate.
  - intro NE. unfold mean. rewrite map_length.
    assert (E : map (total_bpp pixels) batch = map (fun i => bpp pixels (il_latent i) (il_hyper i)) batch).
    { apply map_ext. intro i. apply bits_app. }
    rewrite E. unfold Rdiv. rewrite Rmult_assoc, Rinv_l, Rmult_1_r; [reflexivity|]. apply not_0_INR. destruct batch; [contradiction|discriminate].
  - intro NE. unfold mean. rewrite map_length.
    assert (E : map (qtotal_bpp pixels) batch = map (fun i => bpp pixels (il_qlatent i) (il_qhyper i)) batch).
    { apply map_ext. intro i. apply bits_app. }
    rewrite E. unfold Rdiv. rewrite Rmult_assoc, Rinv_l, Rmult_1_r; [reflexivity|]. apply not_0_INR. destruct batch; [contradiction|discriminate].
Qed.
Theorem rate_loss_total : forall t tf ts l1 l2 lf ls c g h w batch, make_config t tf ts l1 l2 lf ls = Ok c ->
  exists out, rate_loss c g h w batch = Ok out.
Proof.
  intros t tf ts l1 l2 lf ls c g h w batch H. apply rate_config_checked in H. destruct H as [[A B] ->].
  unfold rate_loss. cbn [rc_target rc_target_factors rc_target_steps rc_lam2 rc_lam2_factors rc_lam2_steps].
  destruct (rate_schedule_first g t tf ts A) as [k [_ [E _]]]. destruct (rate_schedule_first g l2 lf ls B) as [k' [_ [E' _]]].
  rewrite E, E'. cbn [bind]. eexists. reflexivity.
Qed.

(** With probabilities as likelihoods and 0 <= lambda 1 <= lambda 2, the loss lies between the
    two weights times the mean noisy rate. *)
Theorem rate_loss_bounds : forall c g h w batch out, rate_loss c g h w batch = Ok out -> batch <> [] ->
  (forall i p, In i batch -> In p (il_latent i ++ il_hyper i) -> 0 < p <= 1) -> (0 < h * w)%nat ->
  rc_lam1 c <= ro_lam2 out ->
  rc_lam1 c * ro_total out <= ro_loss out <= ro_lam2 out * ro_total out.
Proof.
  intros c g h w batch out H NE P HW LL. destruct (rate_loss_spec _ _ _ _ _ _ H) as [_ [_ [W [W1 [W2 [E1 [E2 _]]]]]]].
  cbv zeta in *. set (pixels := INR (h * w)) in *. specialize (E2 NE).
  assert (N : 0 < INR (length batch)). { apply lt_0_INR. destruct batch; [contradiction|cbn; lia]. }
  destruct (Nat.eqb_spec (length batch) 0) as [Z|_]; [destruct batch; [contradiction|discriminate]|].
  assert (PX : 0 < pixels) by (apply lt_0_INR; lia).
  assert (BP : forall i, In i batch -> 0 <= bpp pixels (il_latent i) (il_hyper i)).
  { intros i I. specialize (P i) as Pi. unfold bpp. apply Rmult_le_pos; [|left; apply Rinv_0_lt_compat, PX].
    specialize (fun p => Pi p I) as Pi'. induction (il_latent i ++ il_hyper i) as [|x l IH]; cbn [map fold_right]; [lra|].
    assert (0 < x <= 1) by (apply Pi'; now left).
    assert (0 <= - (ln x / ln 2)).
    { assert (ln x <= 0). { rewrite <- ln_1. destruct (proj2 H0) as [Q|Q]; [left; apply ln_increasing; lra|rewrite Q; lra]. }
      pose proof ln2. assert (0 <= - ln x * / ln 2); [|unfold Rdiv; lra].
      apply Rmult_le_pos; [lra|left; apply Rinv_0_lt_compat; lra]. }
    assert (0 <= fold_right Rplus 0 (map (fun p => - (ln p / ln 2)) l)); [|lra].
    apply IH; [|intros; apply Pi'; now right]. intros p _ Ip. apply Pi'. now right. }
  assert (WB : forall i, rc_lam1 c <= W i <= ro_lam2 out).
  { intro i. destruct (Rlt_dec (ro_target out) (bpp pixels (il_qlatent i) (il_qhyper i))); [rewrite W1|rewrite W2]; lra. }
  assert (S : rc_lam1 c * fold_right Rplus 0 (map (fun i => bpp pixels (il_latent i) (il_hyper i)) batch)
     <= fold_right Rplus 0 (map (fun i => W i * bpp pixels (il_latent i) (il_hyper i)) batch)
     <= ro_lam2 out * fold_right Rplus 0 (map (fun i => bpp pixels (il_latent i) (il_hyper i)) batch)).
  { clear -BP WB. induction batch as [|i b IH]; cbn [map fold_right]; [lra|].
    destruct IH as [A B]; [intros; apply BP; now right|]. specialize (BP i (or_introl eq_refl)). specialize (WB i).
    assert (rc_lam1 c * bpp pixels (il_latent i) (il_hyper i) <= W i * bpp pixels (il_latent i) (il_hyper i)
            <= ro_lam2 out * bpp pixels (il_latent i) (il_hyper i)) by (split; apply Rmult_le_compat_r; lra). lra. }
  rewrite <- E1, <- E2 in S. destruct S as [A B].
  split; apply Rmult_le_reg_r with (INR (length batch)); try exact N; lra.
Qed.

(** * Steps and batches *)
(** Training processes exactly max_steps batches; batch t sees the step count num_opts * t. *)
Theorem rate_training_batches : forall max_steps num_opts, num_opts <> 0%nat ->
  train (max_steps * num_opts) (trainer_max_steps max_steps num_opts) num_opts 0
  = Ok (map (fun t => num_opts * t)%nat (seq 0 max_steps)).
Proof.
  intros m n N. unfold trainer_max_steps.
  assert (G : forall k t fuel, (t + k = m)%nat -> (k <= fuel)%nat ->
     train fuel (m * n) n (n * t) = Ok (map (fun t => n * t)%nat (seq t k))).
  { induction k as [|k IH]; intros t fuel T F.
    - destruct fuel; cbn [train seq map]; rewrite (proj2 (Nat.leb_le _ _)) by nia; reflexivity.
    - destruct fuel as [|fuel]; [lia|]. cbn [train seq map]. rewrite (proj2 (Nat.leb_gt _ _)) by nia.
      replace (n * t + n)%nat with (n * S t)%nat by lia. rewrite IH by lia. reflexivity. }
  specialize (G m 0%nat (m * n)%nat ltac:(lia) ltac:(nia)). rewrite Nat.mul_0_r in G. exact G.
Qed.

(** So a factor that should apply for the first s training batches applies for s/num_opts of
    them: with the repository's setting (steps [50000], two optimisers) the raised target
    already ends after 25000 of the batches. *)
Theorem rate_warmup_refuted : forall base f1 f2 s num_opts t, num_opts <> 0%nat ->
  scheduled (Z.of_nat (num_opts * t)) base [f1; f2] [Z.of_nat s]
  = Ok (base * (if (t <? (s + num_opts - 1) / num_opts)%nat then f1 else f2)).
Proof.
  intros base f1 f2 s n t N. unfold scheduled. cbn [sched_zip rev app].
  pose proof (Nat.div_mod (s + n - 1) n N) as D. pose proof (Nat.mod_upper_bound (s + n - 1) n N) as M.
  destruct (Nat.ltb_spec t ((s + n - 1) / n)) as [L|L].
  - rewrite (proj2 (Z.ltb_lt _ _)); [reflexivity|]. nia.
  - rewrite (proj2 (Z.ltb_ge _ _)); [reflexivity|]. nia.
Qed.

(** * Cases that meet the hypotheses *)
Definition ex_config : rate_config := mkRC (14 / 100) [1429 / 1000; 1] [50000%Z] (1 / 16) 2 [1 / 2; 1] [50000%Z].
Example rate_example_config : make_config (14 / 100) [1429 / 1000; 1] [50000%Z] (1 / 16) 2 [1 / 2; 1] [50000%Z] = Ok ex_config.
Proof. reflexivity. Qed.
Example rate_example_sched : scheduled 49999 (14 / 100) [1429 / 1000; 1] [50000%Z] = Ok (14 / 100 * (1429 / 1000)) /\
  scheduled 50000 (14 / 100) [1429 / 1000; 1] [50000%Z] = Ok (14 / 100 * 1).
Proof. split; reflexivity. Qed.
Example rate_example_loss : exists out, rate_loss ex_config 60000 2 2 [mkIL [1/2; 1/4] [1/2] [1/8] [1/2]; mkIL [1] [1] [1/2] [1]] = Ok out
  /\ rc_lam1 ex_config <= ro_lam2 out.
Proof.
  destruct (rate_loss_total _ _ _ _ _ _ _ _ 60000 2 2 [mkIL [1/2; 1/4] [1/2] [1/8] [1/2]; mkIL [1] [1] [1/2] [1]] rate_example_config) as [out E].
  exists out. split; [exact E|]. destruct (rate_loss_spec _ _ _ _ _ _ E) as [_ [L _]]. cbn in L. injection L as <-. cbn. lra.
Qed.

Print Assumptions rate_config_checked.
Print Assumptions rate_schedule_first.
Print Assumptions rate_schedule_piecewise.
Print Assumptions rate_loss_spec.
Print Assumptions rate_loss_total.
Print Assumptions rate_loss_bounds.
Print Assumptions rate_training_batches.
Print Assumptions rate_warmup_refuted.

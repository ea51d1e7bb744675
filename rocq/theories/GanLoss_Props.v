(** C64: the adversarial losses. *)
From Coq Require Import Reals List Bool Arith ZArith Lia Lra.
From Verif Require Import Base Tensor RSum GanLoss_Model.
Import ListNotations.
Open Scope R_scope.

(** * Specification *)
Definition sigmoid (x : R) : R := 1 / (1 + exp (- x)).
(** Cross-entropy of probability [p] against the probability [t] of 'real'. *)
Definition xent (p t : R) : R := - (t * ln p + (1 - t) * ln (1 - p)).
(** The mean over all elements of a tensor of the given shape. *)
Definition mean_over (shp : list nat) (f : list nat -> R) : R :=
  rsum (prod shp) (fun q => f (unravel shp q)) / INR (prod shp).
(** The probability of class [c] among [k] classes with the given logits. *)
Definition softmax (k : nat) (x : nat -> R) (c : nat) : R := exp (x c) / rsum k (fun j => exp (x j)).

(** * Lemmas *)
Lemma exp1 x : 0 < 1 + exp x. Proof. pose proof (exp_pos x). lra. Qed.
Lemma one_minus_sigmoid x : 1 - sigmoid x = 1 / (1 + exp x).
Proof.
  unfold sigmoid. pose proof (exp1 x). pose proof (exp1 (- x)). pose proof (exp_pos x).
  assert (E : exp (- x) * exp x = 1) by (rewrite <- exp_plus; replace (- x + x) with 0 by ring; apply exp_0).
  field_simplify; [|lra|lra]. apply (Rmult_eq_reg_r ((exp (- x) + 1) * (exp x + 1))); [|nra].
  field_simplify; try lra.
Qed.
Lemma ln_sigmoid x : ln (sigmoid x) = - ln (1 + exp (- x)).
Proof. unfold sigmoid, Rdiv. rewrite Rmult_1_l. apply ln_Rinv. apply exp1. Qed.
Lemma ln_1_sigmoid x : ln (1 - sigmoid x) = - ln (1 + exp x).
Proof. rewrite one_minus_sigmoid. unfold Rdiv. rewrite Rmult_1_l. apply ln_Rinv. apply exp1. Qed.
Lemma softplus_flip x : ln (1 + exp x) = x + ln (1 + exp (- x)).
Proof.
  rewrite <- (ln_exp x) at 2. rewrite <- ln_mult by (try apply exp_pos; apply exp1). f_equal.
  assert (E : exp x * exp (- x) = 1) by (rewrite <- exp_plus; replace (x + - x) with 0 by ring; apply exp_0). nra.
Qed.
Lemma softplus_pos x : 0 < ln (1 + exp x).
Proof. rewrite <- ln_1. apply ln_increasing; pose proof (exp_pos x); lra. Qed.
Lemma bce_term_xent x t : bce_term x t = xent (sigmoid x) t.
Proof.
  unfold bce_term, xent. rewrite ln_sigmoid, ln_1_sigmoid. destruct (Rle_dec 0 x) as [P|N].
  - rewrite Rmax_left, Rabs_right by lra. rewrite (softplus_flip x). ring.
  - rewrite Rmax_right, Rabs_left by lra. rewrite Ropp_involutive. rewrite (softplus_flip x). ring.
Qed.
Lemma bce_ok logits target : tshape target = tshape logits ->
  bce_with_logits logits target = Ok (mean_over (tshape logits) (fun i => xent (sigmoid (tat logits i)) (tat target i))).
Proof.
  intro H. unfold bce_with_logits. destruct (list_eq_dec _ _ _) as [_|N]; [|easy]. unfold mean_over. do 2 f_equal.
  apply rsum_ext. intros. apply bce_term_xent.
Qed.
Lemma bce_bad logits target : tshape target <> tshape logits -> bce_with_logits logits target = Raise ValueError.
Proof. intro H. unfold bce_with_logits. now destruct (list_eq_dec _ _ _). Qed.
Lemma mean_ext shp f g : (forall i, inb shp i -> f i = g i) -> mean_over shp f = mean_over shp g.
Proof. intro H. unfold mean_over. f_equal. apply rsum_ext. intros q Q. apply H. now apply unravel_inb. Qed.
Lemma mean_pos shp f : (0 < prod shp)%nat -> (forall i, inb shp i -> 0 < f i) -> 0 < mean_over shp f.
Proof.
  intros P H. unfold mean_over. apply Rdiv_lt_0_compat; [|apply lt_0_INR; lia].
  apply rsum_pos; [exact P|]. intros q Q. apply H. now apply unravel_inb.
Qed.
Lemma mean_const shp a : (0 < prod shp)%nat -> mean_over shp (fun _ => a) = a.
Proof. intro P. unfold mean_over. rewrite rsum_const. field. apply not_0_INR. lia. Qed.

(** * Binary cross-entropy *)
(** The value, for a target per logit and for a single target. *)
Theorem gan_bce_generator_value : forall logits target,
  (tshape target = tshape logits ->
   bce_generator logits target
   = Ok (mean_over (tshape logits) (fun i => xent (sigmoid (tat logits i)) (tat target i)))) /\
  (tshape target = [] ->
   bce_generator logits target
   = Ok (mean_over (tshape logits) (fun i => xent (sigmoid (tat logits i)) (tat target [])))).
Proof.
  intros l t. split; intro H; unfold bce_generator, expand_target; rewrite H.
  - destruct (Nat.eqb_spec (length (tshape l)) 0) as [E|E]; cbn [bind].
    + apply length_zero_iff_nil in E. rewrite bce_ok by reflexivity. f_equal. apply mean_ext.
      intros i I. cbn [tat]. rewrite E in I. destruct i; [|easy]. now rewrite Rmult_1_r.
    + rewrite Nat.eqb_refl. cbn [negb bind]. now apply bce_ok.
  - cbn [length Nat.eqb bind]. rewrite bce_ok by reflexivity. f_equal. apply mean_ext. intros i I. cbn [tat].
    now rewrite Rmult_1_r.
Qed.
Theorem gan_bce_discriminator_value : forall real fake target, tshape fake = tshape real ->
  (tshape target = tshape real ->
   bce_discriminator real fake target
   = Ok (1/2 * (mean_over (tshape real) (fun i => xent (sigmoid (tat real i)) (tat target i))
                + mean_over (tshape real) (fun i => xent (sigmoid (tat fake i)) 0)))) /\
  (tshape target = [] ->
   bce_discriminator real fake target
   = Ok (1/2 * (mean_over (tshape real) (fun i => xent (sigmoid (tat real i)) (tat target []))
                + mean_over (tshape real) (fun i => xent (sigmoid (tat fake i)) 0)))).
Proof.
  intros r f t F. split; intro H; unfold bce_discriminator, expand_target; rewrite H.
  - destruct (Nat.eqb_spec (length (tshape r)) 0) as [E|E]; cbn [bind].
    + apply length_zero_iff_nil in E. rewrite !bce_ok by (cbn; congruence). cbn [bind tat tshape]. rewrite F.
      apply f_equal, f_equal, f_equal2; [|reflexivity]. apply mean_ext. intros i I. rewrite E in I. destruct i; [|easy].
      now rewrite Rmult_1_r.
    + rewrite Nat.eqb_refl. cbn [negb bind]. rewrite !bce_ok by (cbn; congruence). cbn [bind tat]. now rewrite F.
  - cbn [length Nat.eqb bind]. rewrite !bce_ok by (cbn; congruence). cbn [bind tat tshape]. rewrite F.
    apply f_equal, f_equal, f_equal2; [|reflexivity]. apply mean_ext. intros i I. now rewrite Rmult_1_r.
Qed.
(** Everything else is refused. *)
Theorem gan_bce_refused : forall real fake target,
  (bce_generator real target = Raise ValueError <-> ~ (tshape target = [] \/ tshape target = tshape real)) /\
  (bce_discriminator real fake target = Raise ValueError
   <-> ~ ((tshape target = [] \/ tshape target = tshape real) /\ tshape fake = tshape real)).
Proof.
  intros r f t.
  assert (X : forall l, ~ (tshape t = [] \/ tshape t = tshape l) ->
    match expand_target t l with Ok t' => tshape t' = tshape t | Raise e => e = ValueError end).
  { intros l N. unfold expand_target. destruct (Nat.eqb_spec (length (tshape t)) 0) as [E|E].
    - exfalso. apply N. left. now apply length_zero_iff_nil.
    - destruct (negb _); [reflexivity|reflexivity]. }
  split.
  - split.
    + intros H [E|E]; [rewrite (proj2 (gan_bce_generator_value r t) E) in H|rewrite (proj1 (gan_bce_generator_value r t) E) in H]; discriminate.
    + intro N. specialize (X r N). unfold bce_generator. destruct (expand_target t r) as [t'|e]; cbn [bind]; [|now rewrite X].
      apply bce_bad. rewrite X. intro E. apply N. now right.
  - split.
    + intros H [[E|E] F]; [rewrite (proj2 (gan_bce_discriminator_value r f t F) E) in H|rewrite (proj1 (gan_bce_discriminator_value r f t F) E) in H]; discriminate.
    + intro N. unfold bce_discriminator.
      destruct (list_eq_dec Nat.eq_dec (tshape t) []) as [E|E];
        [|destruct (list_eq_dec Nat.eq_dec (tshape t) (tshape r)) as [E2|E2]].
      * unfold expand_target. rewrite E. cbn [length Nat.eqb bind]. rewrite bce_ok by reflexivity. cbn [bind].
        rewrite bce_bad; [reflexivity|]. cbn [tshape]. intro F. apply N. auto.
      * unfold expand_target. rewrite E2. destruct (length (tshape r) =? 0)%nat eqn:Z0.
        { exfalso. apply E. rewrite E2. apply Nat.eqb_eq in Z0. now apply length_zero_iff_nil. }
        rewrite Nat.eqb_refl. cbn [negb bind]. rewrite bce_ok by exact E2. cbn [bind].
        rewrite bce_bad; [reflexivity|]. cbn [tshape]. rewrite E2. intro F. apply N. auto.
      * assert (M : ~ (tshape t = [] \/ tshape t = tshape r)) by tauto.
        specialize (X r M). destruct (expand_target t r) as [t'|e]; cbn [bind]; [|now rewrite X].
        rewrite bce_bad; [reflexivity|congruence].
Qed.

Lemma xent_pos x t : 0 <= t <= 1 -> 0 < xent (sigmoid x) t.
Proof.
  intro T. unfold xent. rewrite ln_sigmoid, ln_1_sigmoid. pose proof (softplus_pos x). pose proof (softplus_pos (- x)).
  destruct (Req_dec t 0) as [->|N]; nra.
Qed.
(** The losses are positive, whatever the logits. *)
Theorem gan_bce_positive : forall real fake target, (0 < prod (tshape real))%nat ->
  (forall i, inb (tshape target) i -> 0 <= tat target i <= 1) ->
  (forall v, bce_generator real target = Ok v -> 0 < v) /\
  (forall v, bce_discriminator real fake target = Ok v -> 0 < v).
Proof.
  intros r f t P T. split; intros v H.
  - assert (S : tshape t = [] \/ tshape t = tshape r).
    { destruct (list_eq_dec Nat.eq_dec (tshape t) []); [now left|]. destruct (list_eq_dec Nat.eq_dec (tshape t) (tshape r)); [now right|].
      rewrite (proj2 (proj1 (gan_bce_refused r f t))) in H by tauto. discriminate. }
    destruct S as [S|S]; [rewrite (proj2 (gan_bce_generator_value r t) S) in H|rewrite (proj1 (gan_bce_generator_value r t) S) in H];
      injection H as <-; apply mean_pos; trivial; intros i I; apply xent_pos; apply T; rewrite S; easy.
  - assert (S : (tshape t = [] \/ tshape t = tshape r) /\ tshape f = tshape r).
    { destruct (list_eq_dec Nat.eq_dec (tshape f) (tshape r)) as [F|F].
      - split; [|exact F]. destruct (list_eq_dec Nat.eq_dec (tshape t) []); [now left|].
        destruct (list_eq_dec Nat.eq_dec (tshape t) (tshape r)); [now right|].
        rewrite (proj2 (proj2 (gan_bce_refused r f t))) in H by tauto. discriminate.
      - rewrite (proj2 (proj2 (gan_bce_refused r f t))) in H by tauto. discriminate. }
    destruct S as [S F].
    assert (B : 0 < mean_over (tshape r) (fun i => xent (sigmoid (tat f i)) 0)).
    { apply mean_pos; trivial. intros. apply xent_pos. lra. }
    destruct S as [S|S]; [rewrite (proj2 (gan_bce_discriminator_value r f t F) S) in H|rewrite (proj1 (gan_bce_discriminator_value r f t F) S) in H];
      injection H as <-.
    + assert (A : 0 < mean_over (tshape r) (fun i => xent (sigmoid (tat r i)) (tat t []))); [|lra].
      apply mean_pos; trivial. intros i I; apply xent_pos; apply T; rewrite S; easy.
    + assert (A : 0 < mean_over (tshape r) (fun i => xent (sigmoid (tat r i)) (tat t i))); [|lra].
      apply mean_pos; trivial. intros i I; apply xent_pos; apply T; rewrite S; easy.
Qed.
Lemma sigmoid_0 : sigmoid 0 = 1/2.
Proof. unfold sigmoid. rewrite Ropp_0, exp_0. lra. Qed.
(** A discriminator that can not tell costs ln 2. *)
Theorem gan_bce_undecided : forall shp, (0 < prod shp)%nat ->
  bce_discriminator (mkT shp (fun _ => 0)) (mkT shp (fun _ => 0)) (mkT [] (fun _ => 1)) = Ok (ln 2) /\
  bce_generator (mkT shp (fun _ => 0)) (mkT [] (fun _ => 1)) = Ok (ln 2).
Proof.
  intros shp P. assert (L : ln (1/2) = - ln 2) by (unfold Rdiv; rewrite Rmult_1_l; apply ln_Rinv; lra).
  split.
  - rewrite (proj2 (gan_bce_discriminator_value (mkT shp (fun _ => 0)) (mkT shp (fun _ => 0)) (mkT [] (fun _ => 1)) eq_refl) eq_refl).
    cbn [tat tshape]. rewrite !mean_const by exact P. unfold xent. rewrite sigmoid_0.
    replace (1 - 1/2) with (1/2) by lra. rewrite L. f_equal. lra.
  - rewrite (proj2 (gan_bce_generator_value (mkT shp (fun _ => 0)) (mkT [] (fun _ => 1))) eq_refl).
    cbn [tat tshape]. rewrite !mean_const by exact P. unfold xent. rewrite sigmoid_0.
    replace (1 - 1/2) with (1/2) by lra. rewrite L. f_equal. lra.
Qed.

(** * Gradients *)
Lemma d_softplus x : derivable_pt_lim (fun x => ln (1 + exp x)) x (sigmoid x).
Proof.
  replace (sigmoid x) with (/ (1 + exp x) * (0 + exp x)).
  - apply (derivable_pt_lim_comp (fun x => 1 + exp x) ln).
    + apply (derivable_pt_lim_plus (fun _ => 1) exp); [apply derivable_pt_lim_const|apply derivable_pt_lim_exp].
    + apply derivable_pt_lim_ln. apply exp1.
  - unfold sigmoid. rewrite exp_Ropp. pose proof (exp_pos x). pose proof (exp1 x). field. lra.
Qed.
Lemma xent_softplus x t : xent (sigmoid x) t = ln (1 + exp x) - t * x.
Proof. unfold xent. rewrite ln_sigmoid, ln_1_sigmoid. rewrite (softplus_flip x). ring. Qed.
Lemma d_ext f g x l : (forall x, f x = g x) -> derivable_pt_lim f x l -> derivable_pt_lim g x l.
Proof. intros E D e H. destruct (D e H) as [d Hd]. exists d. intros h H1 H2. rewrite <- !E. now apply Hd. Qed.
Lemma d_xent x t : derivable_pt_lim (fun x => xent (sigmoid x) t) x (sigmoid x - t).
Proof.
  apply (d_ext (fun x => ln (1 + exp x) - t * x)); [intro; symmetry; apply xent_softplus|].
  apply (derivable_pt_lim_minus (fun x => ln (1 + exp x)) (fun x => t * x)); [apply d_softplus|].
  pose proof (derivable_pt_lim_scal (fun x => x) t x 1 (derivable_pt_lim_id x)) as D. rewrite Rmult_1_r in D. exact D.
Qed.
Lemma d_rsum n (f : nat -> R -> R) (d : nat -> R) x : (forall q, (q < n)%nat -> derivable_pt_lim (f q) x (d q)) ->
  derivable_pt_lim (fun x => rsum n (fun q => f q x)) x (rsum n d).
Proof.
  revert f d. induction n as [|n IH]; intros f d H.
  - apply (d_ext (fun _ => 0)); [reflexivity|]. apply derivable_pt_lim_const.
  - rewrite rsum_S. apply (d_ext (fun x => f 0%nat x + rsum n (fun q => f (S q) x))).
    + intro y. now rewrite rsum_S.
    + apply (derivable_pt_lim_plus (f 0%nat) (fun x => rsum n (fun q => f (S q) x))); [apply H; lia|].
      apply (IH (fun q => f (S q)) (fun q => d (S q))). intros q Q. apply H. lia.
Qed.
(** The logits with one of them replaced. *)
Definition with_logit (t : tensor R) (k : list nat) (x : R) : tensor R :=
  mkT (tshape t) (fun i => if list_eq_dec Nat.eq_dec i k then x else tat t i).
Lemma d_mean t k x (c : list nat -> R) : inb (tshape t) k ->
  derivable_pt_lim (fun y => mean_over (tshape t) (fun i => xent (sigmoid (tat (with_logit t k y) i)) (c i))) x
    ((sigmoid x - c k) / INR (prod (tshape t))).
Proof.
  intro K. set (shp := tshape t). unfold mean_over.
  assert (D : derivable_pt_lim
     (fun y => rsum (prod shp) (fun q => xent (sigmoid (tat (with_logit t k y) (unravel shp q))) (c (unravel shp q)))) x
     (rsum (prod shp) (fun q => if (q =? ravel shp k)%nat then sigmoid x - c k else 0))).
  { apply (d_rsum (prod shp) (fun q y => xent (sigmoid (tat (with_logit t k y) (unravel shp q))) (c (unravel shp q)))).
    intros q Q. unfold with_logit. cbn [tat]. destruct (Nat.eqb_spec q (ravel shp k)) as [->|N].
    - rewrite unravel_ravel by exact K. destruct (list_eq_dec _ k k); [|easy]. apply d_xent.
    - destruct (list_eq_dec _ (unravel shp q) k) as [E|E].
      + exfalso. apply N. rewrite <- E. symmetry. now apply ravel_unravel.
      + apply derivable_pt_lim_const. }
  rewrite (rsum_single _ _ (ravel shp k)) in D; [|now apply ravel_lt|].
  - rewrite Nat.eqb_refl in D. unfold Rdiv. apply (d_ext (fun y => / INR (prod shp) *
       rsum (prod shp) (fun q => xent (sigmoid (tat (with_logit t k y) (unravel shp q))) (c (unravel shp q))))); [intro; ring|].
    rewrite Rmult_comm.
    apply (derivable_pt_lim_scal (fun y => rsum (prod shp) (fun q => xent (sigmoid (tat (with_logit t k y) (unravel shp q))) (c (unravel shp q))))).
    exact D.
  - intros i I N. apply Nat.eqb_neq in N. now rewrite N.
Qed.
(** The generator loss and both parts of the discriminator loss have the gradient of the
    logistic loss: (sigmoid(logit) - target) / number of logits. *)
Theorem gan_bce_generator_gradient : forall logits target k x, inb (tshape logits) k -> tshape target = [] ->
  exists loss, (forall y, bce_generator (with_logit logits k y) target = Ok (loss y)) /\
    derivable_pt_lim loss x ((sigmoid x - tat target []) / INR (prod (tshape logits))).
Proof.
  intros l t k x K T.
  exists (fun y => mean_over (tshape l) (fun i => xent (sigmoid (tat (with_logit l k y) i)) (tat t []))).
  split; [intro y; exact (proj2 (gan_bce_generator_value (with_logit l k y) t) T)|].
  now apply (d_mean l k x (fun _ => tat t [])).
Qed.
Theorem gan_bce_discriminator_gradient : forall real fake target k x, inb (tshape real) k -> tshape fake = tshape real ->
  tshape target = [] ->
  (exists loss, (forall y, bce_discriminator (with_logit real k y) fake target = Ok (loss y)) /\
    derivable_pt_lim loss x ((sigmoid x - tat target []) / (2 * INR (prod (tshape real))))) /\
  (exists loss, (forall y, bce_discriminator real (with_logit fake k y) target = Ok (loss y)) /\
    derivable_pt_lim loss x (sigmoid x / (2 * INR (prod (tshape real))))).
Proof.
  intros r f t k x K F T.
  assert (NZ : INR (prod (tshape r)) <> 0) by (apply not_0_INR; pose proof (ravel_lt _ _ K); lia).
  split.
  - exists (fun y => 1/2 * (mean_over (tshape r) (fun i => xent (sigmoid (tat (with_logit r k y) i)) (tat t []))
                + mean_over (tshape r) (fun i => xent (sigmoid (tat f i)) 0))).
    split; [intro y; exact (proj2 (gan_bce_discriminator_value (with_logit r k y) f t F) T)|].
    replace ((sigmoid x - tat t []) / (2 * INR (prod (tshape r)))) with (1/2 * ((sigmoid x - tat t []) / INR (prod (tshape r)) + 0))
      by (field; exact NZ).
    apply (derivable_pt_lim_scal (fun y => mean_over (tshape r) (fun i => xent (sigmoid (tat (with_logit r k y) i)) (tat t []))
                + mean_over (tshape r) (fun i => xent (sigmoid (tat f i)) 0))).
    apply (derivable_pt_lim_plus (fun y => mean_over (tshape r) (fun i => xent (sigmoid (tat (with_logit r k y) i)) (tat t [])))
      (fun _ => mean_over (tshape r) (fun i => xent (sigmoid (tat f i)) 0))); [|apply derivable_pt_lim_const].
    now apply (d_mean r k x (fun _ => tat t [])).
  - exists (fun y => 1/2 * (mean_over (tshape r) (fun i => xent (sigmoid (tat r i)) (tat t []))
                + mean_over (tshape r) (fun i => xent (sigmoid (tat (with_logit f k y) i)) 0))).
    split; [intro y; exact (proj2 (gan_bce_discriminator_value r (with_logit f k y) t F) T)|].
    replace (sigmoid x / (2 * INR (prod (tshape r)))) with (1/2 * (0 + (sigmoid x - 0) / INR (prod (tshape r))))
      by (field; exact NZ).
    apply (derivable_pt_lim_scal (fun y => mean_over (tshape r) (fun i => xent (sigmoid (tat r i)) (tat t []))
                + mean_over (tshape r) (fun i => xent (sigmoid (tat (with_logit f k y) i)) 0))).
    apply (derivable_pt_lim_plus (fun y => mean_over (tshape r) (fun i => xent (sigmoid (tat r i)) (tat t [])))
      (fun y => mean_over (tshape r) (fun i => xent (sigmoid (tat (with_logit f k y) i)) 0))); [apply derivable_pt_lim_const|].
    rewrite <- F. rewrite <- F in K. now apply (d_mean f k x (fun _ => 0)).
Qed.

(** * OASIS *)
Lemma rsum_blocks : forall n m (f : nat -> R), rsum (n * m) f = rsum n (fun k => rsum m (fun j => f (k * m + j)%nat)).
Proof.
  intros n m f. induction n as [|n IH]; [reflexivity|].
  rewrite rsum_last, <- IH. replace (S n * m)%nat with (n * m + m)%nat by lia. rewrite rsum_app. reflexivity.
Qed.
Lemma view_ok {A} (t : tensor A) s m : (0 < prod s)%nat -> prod (tshape t) = (prod s * m)%nat ->
  view_infer t s = Ok (mkT (s ++ [m]) (fun idx => tat t (unravel (tshape t) (ravel (s ++ [m]) idx)))).
Proof.
  intros P E. unfold view_infer. rewrite (proj2 (Nat.eqb_neq _ _)) by lia. cbn [orb].
  rewrite E, Nat.mul_comm, Nat.mod_mul, Nat.div_mul by lia. cbn [Nat.eqb negb]. unfold reshape.
  rewrite E. replace (prod s * m =? prod (s ++ [m]))%nat with true; [reflexivity|].
  symmetry. apply Nat.eqb_eq. clear. induction s as [|d s IH]; cbn; [lia|]. fold (prod s). fold (prod (s ++ [m])). rewrite <- IH. lia.
Qed.
Lemma view_logits b k h w (l : tensor R) : tshape l = [b; k; h; w]%nat -> (0 < b)%nat -> (0 < k)%nat ->
  exists v, view_infer l [b; k] = Ok v /\ tshape v = [b; k; h * w]%nat /\
    forall i c y x, (i < b)%nat -> (c < k)%nat -> (y < h)%nat -> (x < w)%nat -> tat v [i; c; y * w + x]%nat = tat l [i; c; y; x].
Proof.
  intros S B K. eexists. split; [apply (view_ok l [b; k] (h * w)); [cbn; nia|rewrite S; cbn; lia]|].
  split; [reflexivity|]. intros i c y x I C Y X. cbn [tat]. f_equal. rewrite S.
  rewrite <- (unravel_ravel [b; k; h; w]%nat [i; c; y; x]) by (cbn; auto). f_equal. cbn. nia.
Qed.
Lemma view_target b h w (t : tensor Z) : tshape t = [b; h; w]%nat -> (0 < b)%nat ->
  exists v, view_infer t [b] = Ok v /\ tshape v = [b; h * w]%nat /\
    forall i y x, (i < b)%nat -> (y < h)%nat -> (x < w)%nat -> tat v [i; y * w + x]%nat = tat t [i; y; x].
Proof.
  intros S B. eexists. split; [apply (view_ok t [b] (h * w)); [cbn; lia|rewrite S; cbn; lia]|].
  split; [reflexivity|]. intros i y x I Y X. cbn [tat]. f_equal. rewrite S.
  rewrite <- (unravel_ravel [b; h; w]%nat [i; y; x]) by (cbn; auto). f_equal. cbn. nia.
Qed.
Lemma split_pos h w n : (n < h * w)%nat -> exists y x, (y < h)%nat /\ (x < w)%nat /\ n = (y * w + x)%nat.
Proof.
  intro N. assert (w <> 0)%nat by nia. exists (n / w)%nat, (n mod w)%nat.
  split; [apply Nat.div_lt_upper_bound; lia|]. split; [now apply Nat.mod_upper_bound|].
  pose proof (Nat.div_mod n w). lia.
Qed.
Lemma softmax_ln k x c : (c < k)%nat -> - log_softmax k x c = - ln (softmax k x c).
Proof.
  intro C. unfold log_softmax, softmax, Rdiv.
  assert (P : 0 < rsum k (fun j => exp (x j))) by (apply rsum_pos; [lia|intros; apply exp_pos]).
  rewrite ln_mult, ln_exp, ln_Rinv; trivial; try apply exp_pos; try (now apply Rinv_0_lt_compat).
Qed.
(** The classes are all in range. *)
Definition in_range (k : nat) (c : Z) : Prop := (0 <= c < Z.of_nat k)%Z.
Lemma ce_value b k h w (l : tensor R) (t : tensor Z) : tshape l = [b; k; h * w]%nat -> tshape t = [b; h * w]%nat ->
  (forall i y x, (i < b)%nat -> (y < h)%nat -> (x < w)%nat -> in_range k (tat t [i; y * w + x]%nat)) ->
  cross_entropy l t = Ok (rsum b (fun i => rsum h (fun y => rsum w (fun x =>
     - ln (softmax k (fun c => tat l [i; c; y * w + x]%nat) (Z.to_nat (tat t [i; y * w + x]%nat)))))) / INR (b * h * w)).
Proof.
  intros L T H. unfold cross_entropy. rewrite L, T, !Nat.eqb_refl. cbn [andb negb].
  match goal with |- (if ?c then _ else _) = _ => assert (C : c = true) end.
  { apply forallb_forall. intros i I. apply in_seq in I. apply forallb_forall. intros n N. apply in_seq in N.
    destruct (split_pos h w n) as [y [x [Y [X ->]]]]; [lia|]. specialize (H i y x ltac:(lia) Y X). unfold in_range in H.
    apply orb_true_iff. right. apply andb_true_iff. split; [apply Z.leb_le|apply Z.ltb_lt]; lia. }
  rewrite C. apply f_equal.
  assert (G : forall i y x, (i < b)%nat -> (y < h)%nat -> (x < w)%nat -> ce_ignored (tat t [i; y * w + x]%nat) = false).
  { intros i y x I Y X. specialize (H i y x I Y X). unfold in_range in H. unfold ce_ignored. apply Z.eqb_neq. lia. }
  unfold Rdiv. apply f_equal2.
  - apply rsum_ext. intros i I. rewrite rsum_blocks. apply rsum_ext. intros y Y. apply rsum_ext. intros x X.
    rewrite G by assumption. rewrite softmax_ln; [reflexivity|]. specialize (H i y x I Y X). unfold in_range in H. lia.
  - apply f_equal. rewrite !mult_INR. rewrite Rmult_assoc, <- mult_INR.
    rewrite (rsum_ext b _ (fun _ => INR (h * w))); [apply rsum_const|]. intros i I.
    rewrite (rsum_ext (h * w) _ (fun _ => 1)); [rewrite rsum_const; ring|]. intros n N.
    destruct (split_pos h w n N) as [y [x [Y [X ->]]]]. now rewrite G.
Qed.

(** The value: the mean over all pixels of -log of the probability of the class [label + 1];
    class 0 stands for 'fake'. *)
Theorem oasis_generator_value : forall b k h w logits labels, (0 < b)%nat -> (0 < k)%nat ->
  tshape logits = [b; k; h; w]%nat -> tshape labels = [b; h; w]%nat ->
  (forall i y x, (i < b)%nat -> (y < h)%nat -> (x < w)%nat -> (-1 <= tat labels [i; y; x] <= Z.of_nat k - 2)%Z) ->
  oasis_generator logits (mkLM true labels)
  = Ok (rsum b (fun i => rsum h (fun y => rsum w (fun x =>
          - ln (softmax k (fun c => tat logits [i; c; y; x]) (Z.to_nat (tat labels [i; y; x] + 1))))))
        / INR (b * h * w)).
Proof.
  intros b k h w l t B K L T H. unfold oasis_generator, verify_shape, batch_and_classes. rewrite L. cbn [lm_tensor lm_long negb].
  rewrite T. replace (b * h * w =? prod [b; h; w])%nat with true by (symmetry; apply Nat.eqb_eq; cbn; lia).
  cbn [bind fst snd]. destruct (view_target b h w t T B) as [tv [-> [TS TV]]]. cbn [bind].
  destruct (view_logits b k h w l L B K) as [lv [-> [LS LV]]]. cbn [bind].
  rewrite (ce_value b k h w); [|exact LS|exact TS|].
  - apply f_equal. unfold Rdiv. apply f_equal2; [|reflexivity].
    apply rsum_ext. intros i I. apply rsum_ext. intros y Y. apply rsum_ext. intros x X. cbn [add1 tat].
    rewrite TV by assumption. specialize (H i y x I Y X). do 2 f_equal. unfold softmax. apply f_equal2.
    + f_equal. apply LV; trivial. lia.
    + apply rsum_ext. intros c C. f_equal. now apply LV.
  - intros i y x I Y X. unfold in_range. cbn [add1 tat]. rewrite TV by assumption. specialize (H i y x I Y X). lia.
Qed.
Theorem oasis_discriminator_value : forall b k h w real fake labels, (0 < b)%nat -> (0 < k)%nat ->
  tshape real = [b; k; h; w]%nat -> tshape fake = [b; k; h; w]%nat -> tshape labels = [b; h; w]%nat ->
  (forall i y x, (i < b)%nat -> (y < h)%nat -> (x < w)%nat -> (-1 <= tat labels [i; y; x] <= Z.of_nat k - 2)%Z) ->
  oasis_discriminator real fake (mkLM true labels)
  = Ok (1/2 * (rsum b (fun i => rsum h (fun y => rsum w (fun x =>
                 - ln (softmax k (fun c => tat real [i; c; y; x]) (Z.to_nat (tat labels [i; y; x] + 1))))))
               / INR (b * h * w)
             + rsum b (fun i => rsum h (fun y => rsum w (fun x =>
                 - ln (softmax k (fun c => tat fake [i; c; y; x]) 0))))
               / INR (b * h * w))).
Proof.
  intros b k h w l f t B K L F T H. unfold oasis_discriminator, verify_shape, batch_and_classes. rewrite L, F. cbn [lm_tensor lm_long negb].
  rewrite T. replace (b * h * w =? prod [b; h; w])%nat with true by (symmetry; apply Nat.eqb_eq; cbn; lia).
  cbn [bind fst snd]. destruct (view_target b h w t T B) as [tv [-> [TS TV]]]. cbn [bind].
  destruct (view_logits b k h w l L B K) as [lv [-> [LS LV]]]. cbn [bind].
  rewrite (ce_value b k h w); [|exact LS|exact TS|].
  2:{ intros i y x I Y X. unfold in_range. cbn [add1 tat]. rewrite TV by assumption. specialize (H i y x I Y X). lia. }
  cbn [bind]. destruct (view_logits b k h w f F B K) as [fv [-> [FS FV]]]. cbn [bind].
  rewrite (ce_value b k h w); [|exact FS|exact TS|].
  2:{ intros i y x I Y X. unfold in_range. cbn [zeros_like tat]. lia. }
  cbn [bind]. apply f_equal, f_equal. apply f_equal2; unfold Rdiv; (apply f_equal2; [|reflexivity]);
    apply rsum_ext; intros i I; apply rsum_ext; intros y Y; apply rsum_ext; intros x X; cbn [add1 zeros_like tat].
  - rewrite TV by assumption. specialize (H i y x I Y X). do 2 f_equal. unfold softmax. apply f_equal2.
    + f_equal. apply LV; trivial. lia.
    + apply rsum_ext. intros c C. f_equal. now apply LV.
  - do 2 f_equal. unfold softmax. change (Z.to_nat 0) with 0%nat. apply f_equal2.
    + f_equal. now apply FV.
    + apply rsum_ext. intros c C. f_equal. now apply FV.
Qed.

(** Which arguments the generator loss accepts: 4-D logits, integer labels, as many as there are
    pixels, all of them naming a class, or 'fake' (-1), or left out (-101). *)
Theorem oasis_generator_checked : forall logits target,
  match oasis_generator logits target with
  | Raise ValueError =>
      ~ (exists b k h w, tshape logits = [b; k; h; w]%nat /\ prod (tshape (lm_tensor target)) = (b * h * w)%nat
                         /\ lm_long target = true)
  | Raise RuntimeError => exists b k h w, tshape logits = [b; k; h; w]%nat /\ (b = 0 \/ k = 0)%nat
  | Raise IndexError => exists b k h w q, tshape logits = [b; k; h; w]%nat /\
      (q < prod (tshape (lm_tensor target)))%nat /\
      let label := tat (lm_tensor target) (unravel (tshape (lm_tensor target)) q) in
      ~ (-1 <= label <= Z.of_nat k - 2)%Z /\ label <> (-101)%Z
  | Raise _ => False
  | Ok _ => exists b k h w, tshape logits = [b; k; h; w]%nat /\ prod (tshape (lm_tensor target)) = (b * h * w)%nat /\
      lm_long target = true /\
      forall q, (q < prod (tshape (lm_tensor target)))%nat ->
        let label := tat (lm_tensor target) (unravel (tshape (lm_tensor target)) q) in
        (-1 <= label <= Z.of_nat k - 2)%Z \/ label = (-101)%Z
  end.
Proof.
  intros l [lg t]. unfold oasis_generator, verify_shape, batch_and_classes. cbn [lm_tensor lm_long].
  destruct (tshape l) as [|b [|k [|h [|w [|? ?]]]]] eqn:L; cbn [bind]; try (intros [? [? [? [? [? _]]]]]; congruence).
  destruct (Nat.eqb_spec (b * h * w) (prod (tshape t))) as [E|E]; cbn [bind];
    [|intros [? [? [? [? [X [Y _]]]]]]; congruence].
  destruct lg; cbn [negb]; [|intros [? [? [? [? [_ [_ X]]]]]]; congruence].
  cbn [fst snd]. destruct (Nat.eq_dec b 0) as [->|B].
  { unfold view_infer. cbn [prod fold_right Nat.mul Nat.eqb orb bind]. exists 0%nat, k, h, w. auto. }
  rewrite (view_ok t [b] (h * w)) by (cbn; lia). cbn [bind].
  destruct (Nat.eq_dec k 0) as [->|K].
  { unfold view_infer at 1. replace (prod [b; 0%nat]) with 0%nat by (cbn; lia). cbn [Nat.eqb orb bind].
    exists b, 0%nat, h, w. auto. }
  rewrite (view_ok l [b; k] (h * w)) by (rewrite ?L; cbn; nia). cbn [bind].
  unfold cross_entropy. cbn [tshape app add1]. rewrite !Nat.eqb_refl. cbn [andb negb].
  match goal with |- match (if ?c then _ else _) with _ => _ end => destruct c eqn:C end.
  - exists b, k, h, w. split; [reflexivity|]. split; [now symmetry|]. split; [reflexivity|]. intros q Q. cbv zeta.
    rewrite forallb_forall in C.
    assert (HW : (h * w <> 0)%nat) by (rewrite <- E in Q; nia).
    specialize (C (q / (h * w))%nat). rewrite forallb_forall in C.
    specialize (C ltac:(apply in_seq; split; [lia|]; cbn; apply Nat.div_lt_upper_bound; lia) (q mod (h * w))%nat
      ltac:(apply in_seq; pose proof (Nat.mod_upper_bound q (h * w)); lia)).
    cbn [add1 tat ravel prod fold_right Nat.mul tshape] in C.
    replace ((q / (h * w)) * (h * w * 1) + (q mod (h * w) * 1 + 0))%nat with q in C
      by (pose proof (Nat.div_mod q (h * w)); lia).
    unfold ce_ignored in C. apply orb_true_iff in C. destruct C as [C|C].
    + apply Z.eqb_eq in C. right. lia.
    + apply andb_true_iff in C. destruct C as [C1 C2]. apply Z.leb_le in C1. apply Z.ltb_lt in C2. left. lia.
  - assert (X : exists i n, (i < b)%nat /\ (n < h * w)%nat /\
       (let c := (tat t (unravel (tshape t) (ravel [b; h * w]%nat [i; n])) + 1)%Z in ce_ignored c || ((0 <=? c) && (c <? Z.of_nat k))%Z) = false).
    { clear - C. match type of C with forallb ?f ?s = _ => assert (Y : existsb (fun i => negb (f i)) s = true) end.
      { revert C. generalize (seq 0 b). intro l0. induction l0 as [|a l0 IH]; cbn; [discriminate|].
        destruct (forallb _ (seq 0 (h * w))); cbn; auto. }
      apply existsb_exists in Y. destruct Y as [i [I Y]]. apply in_seq in I. apply negb_true_iff in Y.
      match type of Y with forallb ?f ?s = _ => assert (W : existsb (fun i => negb (f i)) s = true) end.
      { revert Y. generalize (seq 0 (h * w)). intro l0. induction l0 as [|a l0 IH]; cbn [forallb existsb]; [discriminate|].
        intro Y. apply andb_false_iff in Y. apply orb_true_iff. destruct Y as [Y|Y]; [left; now rewrite Y|right; auto]. }
      apply existsb_exists in W. destruct W as [n [N W]]. apply in_seq in N. apply negb_true_iff in W.
      exists i, n. split; [lia|]. split; [lia|]. exact W. }
    destruct X as [i [n [I [N X]]]].
    exists b, k, h, w, (ravel [b; h * w]%nat [i; n]). split; [reflexivity|]. split.
    + rewrite <- E. rewrite <- Nat.mul_assoc. replace (b * (h * w))%nat with (prod [b; h * w]%nat) by (cbn; lia). apply ravel_lt. cbn. auto.
    + cbv zeta in *. apply orb_false_iff in X. destruct X as [X1 X2]. unfold ce_ignored in X1. apply Z.eqb_neq in X1.
      apply andb_false_iff in X2. split; [|lia].
      destruct X2 as [X2|X2]; [apply Z.leb_gt in X2|apply Z.ltb_ge in X2]; lia.
Qed.

(** The discriminator loss refuses arguments of the wrong shapes or type with ValueError. *)
Lemma ce_no_value l t : cross_entropy l t <> Raise ValueError.
Proof.
  unfold cross_entropy. destruct (tshape l) as [|? [|? [|? [|? ?]]]]; try discriminate.
  destruct (tshape t) as [|? [|? [|? ?]]]; try discriminate. destruct (negb _); [discriminate|]. destruct (forallb _ _); discriminate.
Qed.
Lemma view_no_value {A} (t : tensor A) s : view_infer t s <> Raise ValueError.
Proof. unfold view_infer, reshape. destruct (_ || _); [discriminate|]. destruct (_ =? _)%nat; discriminate. Qed.
Theorem oasis_discriminator_checked : forall real fake target,
  oasis_discriminator real fake target = Raise ValueError <->
  ~ ((exists b k h w, tshape real = [b; k; h; w]%nat /\ prod (tshape (lm_tensor target)) = (b * h * w)%nat) /\
     (exists b k h w, tshape fake = [b; k; h; w]%nat /\ prod (tshape (lm_tensor target)) = (b * h * w)%nat) /\
     lm_long target = true).
Proof.
  intros r f t.
  assert (V : forall l, match verify_shape l t with
     | Ok _ => exists b k h w, tshape l = [b; k; h; w]%nat /\ prod (tshape (lm_tensor t)) = (b * h * w)%nat
     | Raise e => e = ValueError /\ ~ exists b k h w, tshape l = [b; k; h; w]%nat /\ prod (tshape (lm_tensor t)) = (b * h * w)%nat end).
  { intro l. unfold verify_shape. destruct (tshape l) as [|b [|k [|h [|w [|? ?]]]]];
      try (split; [reflexivity|intros [? [? [? [? [X _]]]]]; discriminate]).
    destruct (Nat.eqb_spec (b * h * w) (prod (tshape (lm_tensor t)))) as [E|E]; [exists b, k, h, w; now split|].
    split; [reflexivity|]. intros [b' [k' [h' [w' [X Y]]]]]. injection X as <- <- <- <-. congruence. }
  pose proof (V r) as VR. pose proof (V f) as VF. unfold oasis_discriminator.
  destruct (verify_shape r t) as [u|e]; cbn [bind]; [|destruct VR as [-> VR]; split; [intros _ X; apply VR; apply X|reflexivity]].
  destruct (verify_shape f t) as [u'|e]; cbn [bind]; [|destruct VF as [-> VF]; split; [intros _ X; apply VF; apply X|reflexivity]].
  destruct (lm_long t); cbn [negb]; [|split; [intros _ [_ [_ X]]; discriminate|reflexivity]].
  split; [|intro X; exfalso; apply X; auto]. intro X. exfalso. revert X.
  destruct VR as [b [k [h [w [R _]]]]]. unfold batch_and_classes. rewrite R. cbn [bind fst snd].
  pose proof (view_no_value (lm_tensor t) [b]) as N1. destruct (view_infer (lm_tensor t) [b]) as [tv|e]; cbn [bind]; [|congruence].
  pose proof (view_no_value r [b; k]) as N2. destruct (view_infer r [b; k]) as [rv|e]; cbn [bind]; [|congruence].
  pose proof (ce_no_value rv (add1 tv)) as N3. destruct (cross_entropy rv (add1 tv)); cbn [bind]; [|congruence].
  pose proof (view_no_value f [b; k]) as N4. destruct (view_infer f [b; k]) as [fv|e]; cbn [bind]; [|congruence].
  pose proof (ce_no_value fv (zeros_like tv)) as N5. destruct (cross_entropy fv (zeros_like tv)); cbn [bind]; congruence.
Qed.

(** Positive as soon as there are two classes; ln k for equal logits; and independent of a shift
    of all logits of a pixel. *)
Lemma softmax_lt_1 k x c : (2 <= k)%nat -> (c < k)%nat -> 0 < softmax k x c < 1.
Proof.
  intros K C. unfold softmax.
  assert (P : 0 < rsum k (fun j => exp (x j))) by (apply rsum_pos; [lia|intros; apply exp_pos]).
  pose proof (exp_pos (x c)) as E. split; [now apply Rdiv_lt_0_compat|].
  apply (Rmult_lt_reg_r (rsum k (fun j => exp (x j)))); [exact P|]. unfold Rdiv. rewrite Rmult_assoc, Rinv_l, Rmult_1_r, Rmult_1_l by lra.
  rewrite (rsum_ext k (fun j => exp (x j)) (fun j => (if (j =? c)%nat then exp (x c) else 0) + (if (j =? c)%nat then 0 else exp (x j)))).
  2:{ intros j J. destruct (Nat.eqb_spec j c) as [->|]; ring. }
  rewrite rsum_plus, (rsum_single k (fun j => if (j =? c)%nat then exp (x c) else 0) c), Nat.eqb_refl; trivial.
  2:{ intros i I N. apply Nat.eqb_neq in N. now rewrite N. }
  assert (exists d, (d < k)%nat /\ d <> c) as [d [D N]].
  { destruct (Nat.eq_dec c 0) as [->|]; [exists 1%nat|exists 0%nat]; lia. }
  assert (Q : exp (x d) <= rsum k (fun j => if (j =? c)%nat then 0 else exp (x j))).
  { assert (V : rsum k (fun j => if (j =? d)%nat then exp (x d) else 0) = exp (x d)).
    { rewrite (rsum_single k _ d), Nat.eqb_refl; trivial. intros i I M. apply Nat.eqb_neq in M. now rewrite M. }
    rewrite <- V. apply rsum_le. intros j J. destruct (Nat.eqb_spec j d) as [->|].
      + apply Nat.eqb_neq in N. rewrite N. lra.
      + destruct (j =? c)%nat; [lra|]. pose proof (exp_pos (x j)). lra. }
  pose proof (exp_pos (x d)). lra.
Qed.
Lemma neg_ln_pos p : 0 < p < 1 -> 0 < - ln p.
Proof. intros [A B]. assert (ln p < ln 1) by now apply ln_increasing. rewrite ln_1 in *. lra. Qed.
Theorem oasis_positive : forall b k h w real fake labels, (0 < b)%nat -> (2 <= k)%nat -> (0 < h)%nat -> (0 < w)%nat ->
  tshape real = [b; k; h; w]%nat -> tshape fake = [b; k; h; w]%nat -> tshape labels = [b; h; w]%nat ->
  (forall i y x, (i < b)%nat -> (y < h)%nat -> (x < w)%nat -> (-1 <= tat labels [i; y; x] <= Z.of_nat k - 2)%Z) ->
  (exists v, oasis_generator real (mkLM true labels) = Ok v /\ 0 < v) /\
  (exists v, oasis_discriminator real fake (mkLM true labels) = Ok v /\ 0 < v).
Proof.
  intros b k h w r f t B K H W R F T L.
  rewrite (oasis_generator_value b k h w r t), (oasis_discriminator_value b k h w r f t) by (trivial; lia).
  assert (P : 0 < INR (b * h * w)) by (apply lt_0_INR; nia).
  assert (A : 0 < rsum b (fun i => rsum h (fun y => rsum w (fun x =>
                 - ln (softmax k (fun c => tat r [i; c; y; x]) (Z.to_nat (tat t [i; y; x] + 1))))))).
  { apply rsum_pos; [exact B|]. intros i I. apply rsum_pos; [exact H|]. intros y Y. apply rsum_pos; [exact W|]. intros x X.
    apply neg_ln_pos, softmax_lt_1; [exact K|]. specialize (L i y x I Y X). lia. }
  assert (C : 0 < rsum b (fun i => rsum h (fun y => rsum w (fun x => - ln (softmax k (fun c => tat f [i; c; y; x]) 0))))).
  { apply rsum_pos; [exact B|]. intros i I. apply rsum_pos; [exact H|]. intros y Y. apply rsum_pos; [exact W|]. intros x X.
    apply neg_ln_pos, softmax_lt_1; [exact K|]. lia. }
  apply (Rdiv_lt_0_compat _ _ A) in P as P1. apply (Rdiv_lt_0_compat _ _ C) in P as P2.
  split; eexists; (split; [reflexivity|lra]).
Qed.
Lemma softmax_shift k x s c : softmax k (fun j => x j + s) c = softmax k x c.
Proof.
  unfold softmax. rewrite (rsum_ext k _ (fun j => exp (x j) * exp s)) by (intros; apply exp_plus).
  rewrite rsum_scal_r, exp_plus. pose proof (exp_pos s).
  destruct k as [|k]; [unfold rsum; cbn; unfold Rdiv; rewrite Rmult_0_l, Rinv_0; ring|].
  assert (P : 0 < rsum (S k) (fun j => exp (x j))) by (apply rsum_pos; [lia|intros; apply exp_pos]). field. lra.
Qed.
Theorem oasis_shift_invariant : forall b k h w logits labels (s : nat -> nat -> nat -> R), (0 < b)%nat -> (0 < k)%nat ->
  tshape logits = [b; k; h; w]%nat -> tshape labels = [b; h; w]%nat ->
  (forall i y x, (i < b)%nat -> (y < h)%nat -> (x < w)%nat -> (-1 <= tat labels [i; y; x] <= Z.of_nat k - 2)%Z) ->
  oasis_generator (mkT [b; k; h; w]%nat (fun idx =>
       match idx with [i; c; y; x] => tat logits [i; c; y; x] + s i y x | _ => 0 end)) (mkLM true labels)
  = oasis_generator logits (mkLM true labels).
Proof.
  intros b k h w l t s B K L T H. rewrite !(oasis_generator_value b k h w) by trivial. apply f_equal. unfold Rdiv.
  apply f_equal2; [|reflexivity]. apply rsum_ext. intros i I. apply rsum_ext. intros y Y. apply rsum_ext. intros x X.
  cbn [tat]. do 2 f_equal. apply (softmax_shift k (fun c => tat l [i; c; y; x])).
Qed.
Theorem oasis_undecided : forall b k h w labels, (0 < b)%nat -> (0 < k)%nat -> (0 < h)%nat -> (0 < w)%nat ->
  tshape labels = [b; h; w]%nat ->
  (forall i y x, (i < b)%nat -> (y < h)%nat -> (x < w)%nat -> (-1 <= tat labels [i; y; x] <= Z.of_nat k - 2)%Z) ->
  oasis_discriminator (mkT [b; k; h; w]%nat (fun _ => 0)) (mkT [b; k; h; w]%nat (fun _ => 0)) (mkLM true labels)
  = Ok (ln (INR k)).
Proof.
  intros b k h w t B K H W T L. rewrite (oasis_discriminator_value b k h w) by trivial. cbn [tat].
  assert (S : forall c, - ln (softmax k (fun _ => 0) c) = ln (INR k)).
  { intro c. unfold softmax. rewrite exp_0, rsum_const, Rmult_1_r. unfold Rdiv. rewrite Rmult_1_l, ln_Rinv by (apply lt_0_INR; lia). ring. }
  assert (X : forall g : nat -> nat -> nat -> nat, rsum b (fun i => rsum h (fun y => rsum w (fun x => - ln (softmax k (fun _ => 0) (g i y x)))))
              = INR (b * h * w) * ln (INR k)).
  { intro g. rewrite (rsum_ext b _ (fun _ => INR h * (INR w * ln (INR k)))); [rewrite rsum_const, !mult_INR; ring|]. intros i _.
    rewrite <- rsum_const. apply rsum_ext. intros y _. rewrite <- rsum_const. apply rsum_ext. intros x _. apply S. }
  rewrite (X (fun i y x => Z.to_nat (tat t [i; y; x] + 1))), (X (fun _ _ _ => 0%nat)). f_equal. field. apply not_0_INR. nia.
Qed.

(** Known deviations.  The layout of the labels is not checked: labels of any shape with the
    right number of elements are taken in row-major order. *)
Lemma forallb_ext_in {A} (f g : A -> bool) l : (forall x, In x l -> f x = g x) -> forallb f l = forallb g l.
Proof.
  induction l as [|a l IH]; intro H; [reflexivity|]. cbn. rewrite H by now left. f_equal. apply IH. intros. apply H. now right.
Qed.
Lemma ce_ext b k n l (t u : tensor Z) : tshape l = [b; k; n] -> tshape t = [b; n] -> tshape u = [b; n] ->
  (forall i j, (i < b)%nat -> (j < n)%nat -> tat t [i; j] = tat u [i; j]) -> cross_entropy l t = cross_entropy l u.
Proof.
  intros L T U H. unfold cross_entropy. rewrite L, T, U. destruct (negb _); [reflexivity|].
  rewrite (forallb_ext_in _ (fun i => forallb (fun j =>
                let c := tat u [i; j] in ce_ignored c || ((0 <=? c)%Z && (c <? Z.of_nat k)%Z)) (seq 0 n)) (seq 0 b)).
  - destruct (forallb _ (seq 0 b)); [|reflexivity]. apply f_equal. unfold Rdiv. apply f_equal2.
    + apply rsum_ext. intros i I. apply rsum_ext. intros j J. rewrite H by assumption. reflexivity.
    + apply f_equal. apply rsum_ext. intros i I. apply rsum_ext. intros j J. rewrite H by assumption. reflexivity.
  - intros i I. apply in_seq in I. apply forallb_ext_in. intros j J. apply in_seq in J. rewrite H by lia. reflexivity.
Qed.
Theorem oasis_label_layout_refuted : forall b k h w logits labels, tshape logits = [b; k; h; w]%nat ->
  prod (tshape labels) = (b * h * w)%nat ->
  oasis_generator logits (mkLM true labels)
  = oasis_generator logits (mkLM true (mkT [b; h; w] (fun i => tat labels (unravel (tshape labels) (ravel [b; h; w] i))))).
Proof.
  intros b k h w l t L T. unfold oasis_generator, verify_shape, batch_and_classes. cbn [lm_tensor lm_long tshape]. rewrite L, T.
  replace (prod [b; h; w]) with (b * h * w)%nat by (cbn; lia). rewrite Nat.eqb_refl. cbn [bind negb fst snd].
  destruct (Nat.eq_dec b 0) as [->|B]; [reflexivity|].
  rewrite (view_ok t [b] (h * w)), (view_ok _ [b] (h * w)) by (cbn; lia). cbn [bind tshape tat].
  destruct (Nat.eq_dec k 0) as [->|K].
  { unfold view_infer. replace (prod [b; 0%nat]) with 0%nat by (cbn; lia). reflexivity. }
  rewrite (view_ok l [b; k] (h * w)) by (rewrite ?L; cbn; nia). cbn [bind].
  apply (ce_ext b k (h * w)); [reflexivity|reflexivity|reflexivity|]. intros i j I J. cbn [add1 tat app].
  rewrite ravel_unravel; [reflexivity|]. replace (prod [b; h; w]) with (prod [b; h * w]%nat) by (cbn; lia).
  apply ravel_lt. cbn. auto.
Qed.
(** Fake logits of another batch size are accepted, and the classes of different pixels mixed up:
    not the mean over the pixels of the fake. *)
Theorem oasis_fake_shape_refuted : exists real fake labels v,
  tshape real = [2; 2; 1; 1]%nat /\ tshape fake = [1; 2; 2; 1]%nat /\
  oasis_discriminator real fake (mkLM true labels) = Ok v /\
  oasis_generator real (mkLM true labels) = Ok (ln 2) /\
  v <> 1/2 * (ln 2 + rsum 2 (fun y => - ln (softmax 2 (fun c => tat fake [0; c; y; 0]%nat) 0)) / 2).
Proof.
  exists (mkT [2; 2; 1; 1]%nat (fun _ => 0)),
    (mkT [1; 2; 2; 1]%nat (fun i => match i with [_; c; y; _] => if (c * 2 + y =? 1)%nat then ln 3 else 0 | _ => 0 end)),
    (mkT [2; 1; 1]%nat (fun _ => 0%Z)).
  eexists. split; [reflexivity|]. split; [reflexivity|]. split; [reflexivity|]. split.
  - rewrite (oasis_generator_value 2 2 1 1); [|lia|lia|reflexivity|reflexivity|intros; cbn; lia]. cbn [tat].
    unfold rsum, softmax, rsum. cbn -[IZR]. rewrite exp_0. unfold INR. f_equal.
    replace (1 / (1 + (1 + 0))) with (/ 2) by lra. rewrite ln_Rinv by lra. lra.
  - unfold log_softmax, softmax, rsum. cbn -[IZR]. rewrite !exp_ln, exp_0 by lra. intro E.
    replace (1 + (3 + 0)) with 4 in E by lra. replace (3 + (1 + 0)) with 4 in E by lra. replace (1 + (1 + 0)) with 2 in E by lra.
    replace (1 / 2) with (/ 2) in E by lra.
    assert (L1 : ln (/ 2) = - ln 2) by (apply ln_Rinv; lra).
    assert (L2 : ln (3 / 4) = ln 3 - ln 4) by (unfold Rdiv; rewrite ln_mult, ln_Rinv by lra; ring).
    rewrite L1, L2 in E. assert (0 < ln 3) by (rewrite <- ln_1; apply ln_increasing; lra). lra.
Qed.

(** Concrete cases. *)
Example bce_instance : exists v, bce_discriminator (mkT [2; 1]%nat (fun _ => 3)) (mkT [2; 1]%nat (fun _ => -3)) (mkT [] (fun _ => 1)) = Ok v /\ 0 < v.
Proof.
  eexists. split; [now apply gan_bce_discriminator_value|].
  match goal with |- 0 < ?v => apply (proj2 (gan_bce_positive (mkT [2; 1]%nat (fun _ => 3)) (mkT [2; 1]%nat (fun _ => -3)) (mkT [] (fun _ => 1)) ltac:(cbn; lia) ltac:(intros; cbn; lra)) v) end.
  now apply gan_bce_discriminator_value.
Qed.
Example oasis_instance : exists v, oasis_generator (mkT [1; 3; 1; 2]%nat (fun _ => 0)) (mkLM true (mkT [1; 1; 2]%nat (fun i => Z.of_nat (nth 2 i 0%nat)))) = Ok v /\ 0 < v.
Proof.
  apply (oasis_positive 1 3 1 2 (mkT [1; 3; 1; 2]%nat (fun _ => 0)) (mkT [1; 3; 1; 2]%nat (fun _ => 0))); try lia; try reflexivity.
  intros i y x I Y X. cbn. lia.
Qed.

Print Assumptions gan_bce_generator_value.
Print Assumptions gan_bce_discriminator_gradient.
Print Assumptions oasis_discriminator_value.
Print Assumptions oasis_generator_checked.
Print Assumptions oasis_fake_shape_refuted.

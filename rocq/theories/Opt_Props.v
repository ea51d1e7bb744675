(** What an optimiser step changes (C101). *)
From Coq Require Import Reals List Bool Arith ZArith Lia Lra.
From Verif Require Import Base Opt_Model Sched_Model Sched_Props.
Import ListNotations.
Open Scope R_scope.

(** * Specification *)

(** Entry [j] of parameter [i]. *)
Definition weight (s : opt) (i j : nat) : option R :=
  match nth_error (o_params s) i with Some p => option_map e_w (nth_error (p_entries p) j) | None => None end.
(** The gradient that a batch gives this entry. *)
Definition grad_at (gs : list (option (list R))) (i j : nat) : option R :=
  match nth_error gs i with Some (Some g) => nth_error g j | _ => None end.
(** Parameters at the start of a training, and a history of steps. *)
Definition start (ws : list (list R)) : opt := mkO (map new_param ws) 0.
Definition run (o : adamw) (f : nat -> R) (clip : option (R * algorithm)) (history : list (list (option (list R)))) (s : opt) : opt :=
  fold_left (fun s gs => fst (optimise o f clip gs s)) history s.

(** The published AdamW: gradients with the latest first; [mean beta] is the average with weights
    1, beta, beta^2, ... *)
Fixpoint wsum (beta : R) (l : list R) : R := match l with [] => 0 | g :: l => g + beta * wsum beta l end.
Definition mean (beta : R) (l : list R) : R := wsum beta l / wsum beta (map (fun _ => 1) l).
Fixpoint textbook (o : adamw) (f : nat -> R) (w0 : R) (l : list R) : R :=
  match l with
  | [] => w0
  | _ :: past =>
      let lr := a_lr o * f (length past) in
      let w := textbook o f w0 past in
      w - lr * a_decay o * w - lr * (mean (a_beta1 o) l / (sqrt (mean (a_beta2 o) (map (fun g => g * g) l)) + a_eps o))
  end.

(** Hyperparameters for which the bound below holds. *)
Definition good (o : adamw) : Prop :=
  0 <= a_lr o /\ 0 <= a_beta1 o < 1 /\ 0 < a_beta2 o < 1 /\ a_beta1 o * a_beta1 o < a_beta2 o /\ 0 < a_eps o /\ 0 <= a_decay o.
(** The largest ratio of the averages. *)
Definition reach (o : adamw) : R :=
  (1 - a_beta1 o) / sqrt ((1 - a_beta2 o) * (1 - a_beta1 o * a_beta1 o / a_beta2 o)).

(** * Lists *)
Lemma nth_combine {A B} (l : list A) (m : list B) i :
  nth_error (combine l m) i = match nth_error l i, nth_error m i with Some a, Some b => Some (a, b) | _, _ => None end.
Proof.
  revert m i. induction l as [|a l IH]; intros m i; [destruct i; reflexivity|]. destruct m as [|b m].
  - destruct i; cbn; [reflexivity|]. now destruct (nth_error l i).
  - destruct i; cbn; [reflexivity|apply IH].
Qed.

(** * One entry of AdamW *)
Section Entry.
Variable o : adamw.
Hypothesis G : good o.
Let b1 := a_beta1 o.
Let b2 := a_beta2 o.
Let r := b1 * b1 / b2.
Let A := (1 - b1) * (1 - b1) / (1 - b2).
Let C (t : nat) := A / (1 - r) * (1 - r ^ t).
Lemma r_range : 0 <= r < 1.
Proof.
  destruct G as (_ & B1 & B2 & B & _). fold b1 in B1, B. fold b2 in B2, B. unfold r. split.
  - apply Rmult_le_pos; [nra|]. left. apply Rinv_0_lt_compat. lra.
  - apply Rmult_lt_reg_r with b2; [lra|]. unfold Rdiv. rewrite Rmult_assoc, Rinv_l by lra. lra.
Qed.
Lemma pow_unit x t : 0 <= x < 1 -> 0 <= x ^ t <= 1.
Proof. intro H. split; [apply pow_le; lra|]. rewrite <- (pow1 t). apply pow_incr. lra. Qed.
Lemma pow_below x t : 0 <= x < 1 -> x ^ S t < 1.
Proof. intro H. cbn [pow]. pose proof (pow_unit x t H). nra. Qed.
Lemma A_pos : 0 < A.
Proof.
  destruct G as (_ & B1 & B2 & _). fold b1 in B1. fold b2 in B2. unfold A. apply Rmult_lt_0_compat; [nra|]. apply Rinv_0_lt_compat. lra.
Qed.
Lemma C_step t : C (S t) = r * C t + A.
Proof. unfold C. cbn [pow]. pose proof r_range. field. lra. Qed.
Lemma C_nonneg t : 0 <= C t.
Proof.
  unfold C. pose proof r_range as R. pose proof A_pos as P. pose proof (pow_unit r t R). apply Rmult_le_pos; [|lra].
  apply Rmult_le_pos; [lra|]. left. apply Rinv_0_lt_compat. lra.
Qed.
Definition inv (t : nat) (e : entry) : Prop := 0 <= e_v e /\ e_m e * e_m e <= C t * e_v e.
Lemma inv_new w : inv 0 (mkE w 0 0).
Proof. split; cbn; lra. Qed.
Lemma inv_step lr t e g : inv t e -> inv (S t) (adamw_entry o lr (S t) e g).
Proof.
  destruct G as (_ & B1 & B2 & B & _). fold b1 in B1, B. fold b2 in B2, B. intros [V M]. destruct e as [w m v]. cbn [e_m e_v] in *.
  unfold adamw_entry. cbn zeta. cbn [e_w e_m e_v]. fold b1 b2. split; cbn [e_m e_v]; [pose proof (Rle_0_sqr g); unfold Rsqr in *; nra|].
  rewrite C_step. pose proof (C_nonneg t) as CN. pose proof A_pos as AP. pose proof r_range as RR. set (c := C t) in *. clearbody c.
  replace (m + (1 - b1) * (g - m)) with (b1 * m + (1 - b1) * g) by ring.
  assert (AE : A * (1 - b2) = (1 - b1) * (1 - b1)) by (unfold A; field; lra).
  assert (RE : r * b2 = b1 * b1) by (unfold r; field; lra).
  assert (G2 : 0 <= g * g) by (pose proof (Rle_0_sqr g); unfold Rsqr in *; lra).
  destruct (Req_dec c 0) as [Z|NZ].
  - subst c. rewrite Rmult_0_l in M. assert (m = 0) by nra. subst m.
    replace ((r * 0 + A) * (v * b2 + (1 - b2) * g * g)) with (A * (v * b2) + A * (1 - b2) * (g * g)) by ring.
    rewrite AE. assert (0 <= A * (v * b2)) by (apply Rmult_le_pos; nra). nra.
  - assert (CP : 0 < c) by lra.
    assert (V' : m * m / c <= v) by (apply Rmult_le_reg_r with c; [exact CP|]; unfold Rdiv; rewrite Rmult_assoc, Rinv_l by lra; nra).
    apply Rle_trans with ((r * c + A) * (m * m / c * b2 + (1 - b2) * g * g)).
    + set (y := c * (1 - b2) / b2). assert (YP : 0 < y) by (unfold y; apply Rmult_lt_0_compat; [nra|apply Rinv_0_lt_compat; lra]).
      assert (E : (r * c + A) * (m * m / c * b2 + (1 - b2) * g * g) - (b1 * m + (1 - b1) * g) * (b1 * m + (1 - b1) * g)
                  = (b1 * y * g - (1 - b1) * m) * (b1 * y * g - (1 - b1) * m) / y).
      { unfold y, r, A. field. repeat split; lra. }
      assert (0 <= (b1 * y * g - (1 - b1) * m) * (b1 * y * g - (1 - b1) * m) / y).
      { apply Rmult_le_pos; [|left; apply Rinv_0_lt_compat; exact YP]. pose proof (Rle_0_sqr (b1 * y * g - (1 - b1) * m)). unfold Rsqr in *. lra. }
      lra.
    + apply Rmult_le_compat_l; [nra|]. nra.
Qed.
Lemma reach_pos : 0 < reach o.
Proof.
  pose proof r_range as R. destruct G as (_ & B1 & B2 & _). unfold reach. fold b1 in B1 |- *. fold b2 in B2 |- *. fold r.
  apply Rmult_lt_0_compat; [lra|]. apply Rinv_0_lt_compat, sqrt_lt_R0. nra.
Qed.
Lemma reach_sq : reach o * reach o = A / (1 - r).
Proof.
  pose proof r_range as R. destruct G as (_ & B1 & B2 & _). unfold reach. fold b1 in B1 |- *. fold b2 in B2 |- *. fold r.
  assert (P : 0 < (1 - b2) * (1 - r)) by nra. pose proof (sqrt_lt_R0 _ P) as SP.
  replace ((1 - b1) / sqrt ((1 - b2) * (1 - r)) * ((1 - b1) / sqrt ((1 - b2) * (1 - r))))
    with ((1 - b1) * (1 - b1) / (sqrt ((1 - b2) * (1 - r)) * sqrt ((1 - b2) * (1 - r)))) by (field; lra).
  rewrite sqrt_sqrt by lra. unfold A. field. lra.
Qed.
(** Averages with bias correction: their ratio is at most [reach]. *)
Lemma ratio_bound t m v : inv (S t) (mkE 0 m v) ->
  Rabs (m / (sqrt v / sqrt (1 - b2 ^ S t) + a_eps o)) <= (1 - b1 ^ S t) * reach o.
Proof.
  pose proof r_range as R. destruct G as (_ & B1 & B2 & B & E & _). fold b1 in B1, B. fold b2 in B2, B. intros [V M]. cbn [e_m e_v] in *.
  set (T := S t) in *. assert (P1 : 0 < 1 - b1 ^ T) by (pose proof (pow_below b1 t B1); unfold T; lra).
  assert (P2 : 0 < 1 - b2 ^ T) by (pose proof (pow_below b2 t ltac:(lra)); unfold T; lra).
  assert (P3 : 0 <= 1 - r ^ T) by (pose proof (pow_unit r T R); lra).
  assert (X : b2 ^ T * r ^ T = b1 ^ T * b1 ^ T) by (rewrite <- !Rpow_mult_distr; f_equal; unfold r; field; lra).
  assert (Y : (1 - r ^ T) * (1 - b2 ^ T) <= (1 - b1 ^ T) * (1 - b1 ^ T)).
  { pose proof (pow_unit b2 T ltac:(lra)). pose proof (pow_unit r T R). pose proof (pow_unit b1 T B1).
    assert (2 * b1 ^ T <= b2 ^ T + r ^ T); [|nra].
    apply Rsqr_incr_0_var; [|lra]. unfold Rsqr. assert (0 <= (b2 ^ T - r ^ T) * (b2 ^ T - r ^ T)) by (pose proof (Rle_0_sqr (b2 ^ T - r ^ T)); unfold Rsqr in *; lra). nra. }
  pose proof (sqrt_pos v) as SV. pose proof (sqrt_lt_R0 _ P2) as S2. pose proof (sqrt_sqrt v V) as QV. pose proof (sqrt_sqrt (1 - b2 ^ T) ltac:(lra)) as Q2.
  pose proof reach_pos as KP. pose proof reach_sq as KS.
  assert (D : 0 < sqrt v / sqrt (1 - b2 ^ T) + a_eps o).
  { assert (0 <= sqrt v / sqrt (1 - b2 ^ T)) by (apply Rmult_le_pos; [exact SV|left; apply Rinv_0_lt_compat; exact S2]). lra. }
  unfold Rdiv at 1. rewrite Rabs_mult, (Rabs_pos_eq (/ _)) by (left; apply Rinv_0_lt_compat; exact D).
  apply Rmult_le_reg_r with (sqrt v / sqrt (1 - b2 ^ T) + a_eps o); [exact D|]. rewrite Rmult_assoc, Rinv_l, Rmult_1_r by lra.
  apply Rle_trans with ((1 - b1 ^ T) * reach o * (sqrt v / sqrt (1 - b2 ^ T))).
  2:{ apply Rmult_le_compat_l; [apply Rmult_le_pos; lra|lra]. }
  assert (H : Rabs m * sqrt (1 - b2 ^ T) <= (1 - b1 ^ T) * reach o * sqrt v).
  { apply Rsqr_incr_0_var; [|apply Rmult_le_pos; [apply Rmult_le_pos; lra|exact SV]]. unfold Rsqr.
    replace (Rabs m * sqrt (1 - b2 ^ T) * (Rabs m * sqrt (1 - b2 ^ T))) with (Rabs m * Rabs m * (sqrt (1 - b2 ^ T) * sqrt (1 - b2 ^ T))) by ring.
    replace ((1 - b1 ^ T) * reach o * sqrt v * ((1 - b1 ^ T) * reach o * sqrt v))
      with ((1 - b1 ^ T) * (1 - b1 ^ T) * (reach o * reach o) * (sqrt v * sqrt v)) by ring.
    rewrite Q2, QV, KS, <- Rabs_mult, (Rabs_pos_eq (m * m)) by (pose proof (Rle_0_sqr m); unfold Rsqr in *; lra).
    apply Rle_trans with (C T * v * (1 - b2 ^ T)); [apply Rmult_le_compat_r; lra|]. unfold C.
    assert (K0 : 0 <= A / (1 - r)) by (rewrite <- KS; nra).
    replace (A / (1 - r) * (1 - r ^ T) * v * (1 - b2 ^ T)) with ((1 - r ^ T) * (1 - b2 ^ T) * (A / (1 - r)) * v) by ring.
    apply Rmult_le_compat_r; [exact V|]. apply Rmult_le_compat_r; [exact K0|exact Y]. }
  apply Rmult_le_reg_r with (sqrt (1 - b2 ^ T)); [exact S2|].
  replace ((1 - b1 ^ T) * reach o * (sqrt v / sqrt (1 - b2 ^ T)) * sqrt (1 - b2 ^ T)) with ((1 - b1 ^ T) * reach o * sqrt v) by (field; lra).
  exact H.
Qed.
Lemma entry_move lr t e g : 0 <= lr -> inv t e ->
  Rabs (e_w (adamw_entry o lr (S t) e g) - (e_w e - lr * a_decay o * e_w e)) <= lr * reach o.
Proof.
  intros L I. pose proof (inv_step lr t e g I) as I'. destruct G as (_ & B1 & _). fold b1 in B1.
  assert (P1 : 0 < 1 - b1 ^ S t) by (pose proof (pow_below b1 t B1); lra).
  unfold adamw_entry in *. cbn zeta in *. cbn [e_w e_m e_v] in I' |- *. fold b1 b2 in I' |- *.
  set (m := e_m e + (1 - b1) * (g - e_m e)) in *. set (v := e_v e * b2 + (1 - b2) * g * g) in *.
  assert (J : inv (S t) (mkE 0 m v)) by exact I'. pose proof (ratio_bound t m v J) as B.
  set (q := m / (sqrt v / sqrt (1 - b2 ^ S t) + a_eps o)) in *. clearbody q.
  replace (e_w e * (1 - lr * a_decay o) + - (lr / (1 - b1 ^ S t)) * q - (e_w e - lr * a_decay o * e_w e)) with (- (lr / (1 - b1 ^ S t) * q)) by ring.
  rewrite Rabs_Ropp, Rabs_mult, (Rabs_pos_eq (lr / _)) by (apply Rmult_le_pos; [exact L|left; apply Rinv_0_lt_compat; exact P1]).
  apply Rle_trans with (lr / (1 - b1 ^ S t) * ((1 - b1 ^ S t) * reach o)).
  - apply Rmult_le_compat_l; [apply Rmult_le_pos; [exact L|left; apply Rinv_0_lt_compat; exact P1]|exact B].
  - right. field. lra.
Qed.
End Entry.

(** * Steps *)
Definition same (p p' : tparam) : Prop := p_entries p' = p_entries p /\ p_steps p' = p_steps p.
(** zero_grad, backward and clipping change gradients only. *)
Lemma prepared gs ps i p' : nth_error (backward gs (zero_grad ps)) i = Some p' ->
  exists p, nth_error ps i = Some p /\ same p p' /\ nth_error gs i = Some (p_grad p').
Proof.
  unfold backward, zero_grad. rewrite nth_error_map, nth_combine, nth_error_map.
  destruct (nth_error ps i) as [p|] eqn:E; cbn [option_map]; [|discriminate].
  destruct (nth_error gs i) as [g|]; cbn [option_map]; [|discriminate]. intro H. injection H as <-. exists p. split; [reflexivity|].
  cbn [fst snd]. unfold accumulate, same. destruct g; cbn [p_entries p_steps p_grad]; auto.
Qed.
Lemma mapped f ps i p' : nth_error (map_grads f ps) i = Some p' ->
  exists p, nth_error ps i = Some p /\ same p p' /\ p_grad p' = option_map (map f) (p_grad p).
Proof.
  unfold map_grads. rewrite nth_error_map. destruct (nth_error ps i) as [p|]; cbn [option_map]; [|discriminate].
  intro H. injection H as <-. exists p. unfold same. auto.
Qed.
Lemma clipped c a ps ps' i p' : clip_gradients c a ps = Ok ps' -> nth_error ps' i = Some p' ->
  exists p, nth_error ps i = Some p /\ same p p' /\ (p_grad p = None <-> p_grad p' = None).
Proof.
  assert (M : forall f qs q', nth_error (map_grads f qs) i = Some q' ->
    exists p, nth_error qs i = Some p /\ same p q' /\ (p_grad p = None <-> p_grad q' = None)).
  { intros f qs q' H. apply mapped in H. destruct H as (p & H1 & H2 & H3). exists p. split; [exact H1|]. split; [exact H2|].
    rewrite H3. destruct (p_grad p); cbn; split; congruence. }
  unfold clip_gradients. destruct a; [| |discriminate]; destruct (Rle_dec c 0); intro E; injection E as <-; intro H.
  1, 3: exists p'; unfold same; tauto.
  - apply (M _ _ _ H).
  - apply (M _ _ _ H).
Qed.
(** What a call of [optimise] does to one parameter. *)
Lemma optimise_param o f clip gs s i p' : nth_error (o_params (fst (optimise o f clip gs s))) i = Some p' ->
  exists p, nth_error (o_params s) i = Some p /\
    (same p p' \/ exists g, nth_error gs i = Some (Some g) /\ exists h, p_steps p' = S (p_steps p) /\
       p_entries p' = map (fun eg => adamw_entry o (a_lr o * f (o_epoch s)) (S (p_steps p)) (fst eg) (snd eg)) (combine (p_entries p) h)).
Proof.
  unfold optimise. set (ps := backward gs (zero_grad (o_params s))).
  assert (P : forall qs q', (forall j q, nth_error qs j = Some q -> exists p, nth_error ps j = Some p /\ same p q /\ (p_grad p = None <-> p_grad q = None)) ->
    nth_error (opt_step o (a_lr o * f (o_epoch s)) qs) i = Some q' ->
    exists p, nth_error (o_params s) i = Some p /\
    (same p q' \/ exists g, nth_error gs i = Some (Some g) /\ exists h, p_steps q' = S (p_steps p) /\
       p_entries q' = map (fun eg => adamw_entry o (a_lr o * f (o_epoch s)) (S (p_steps p)) (fst eg) (snd eg)) (combine (p_entries p) h))).
  { intros qs q' Q H. unfold opt_step in H. rewrite nth_error_map in H. destruct (nth_error qs i) as [q|] eqn:E; cbn [option_map] in H; [|discriminate].
    injection H as <-. destruct (Q i q E) as (p1 & E1 & [S1 S1'] & N1). destruct (prepared _ _ _ _ E1) as (p & E2 & [S2 S2'] & N2).
    exists p. split; [exact E2|]. unfold adamw_param. destruct (p_grad q) as [h|] eqn:GQ; [right|left; unfold same; rewrite S1, S1', S2, S2'; auto].
    destruct (p_grad p1) as [g1|] eqn:G1; [|exfalso; assert (X : Some h = None) by (apply N1; reflexivity); discriminate X].
    exists g1. split; [exact N2|]. exists h. cbn [p_steps p_entries]. rewrite S1, S1', S2, S2'. auto. }
  destruct clip as [[c a]|].
  - destruct (clip_gradients c a ps) as [qs|e] eqn:E; cbn [fst o_params]; intro H.
    + apply (P qs p'); [|exact H]. intros j q J. apply (clipped _ _ _ _ _ _ E J).
    + destruct (prepared _ _ _ _ H) as (p & H1 & H2 & _). exists p. auto.
  - cbn [fst o_params]. intro H. apply (P ps p'); [|exact H]. intros j q J. exists q. unfold same. tauto.
Qed.

Section History.
Variables (o : adamw) (f : nat -> R) (clip : option (R * algorithm)).
Hypothesis G : good o.
Definition sound (s : opt) : Prop := forall i p, nth_error (o_params s) i = Some p -> Forall (inv o (p_steps p)) (p_entries p).
Lemma sound_start ws : sound (start ws).
Proof.
  intros i p. unfold start. cbn [o_params]. rewrite nth_error_map. destruct (nth_error ws i); cbn [option_map]; [|discriminate].
  intro H. injection H as <-. unfold new_param. cbn [p_entries p_steps]. apply Forall_forall. intros e I. apply in_map_iff in I.
  destruct I as (w & <- & _). apply inv_new.
Qed.
Lemma sound_step gs s : sound s -> sound (fst (optimise o f clip gs s)).
Proof.
  intros S i p' H. apply optimise_param in H. destruct H as (p & E & [[A B]|(g & _ & h & A & B)]); specialize (S i p E).
  - rewrite A, B. exact S.
  - rewrite A, B. apply Forall_forall. intros e I. apply in_map_iff in I. destruct I as ([e0 g0] & <- & I). apply in_combine_l in I.
    cbn [fst snd]. rewrite Forall_forall in S. apply inv_step; [exact G|]. apply S, I.
Qed.
Lemma sound_run history s : sound s -> sound (run o f clip history s).
Proof. revert s. induction history as [|gs h IH]; intros s S; [exact S|]. apply IH, sound_step, S. Qed.
Lemma step_weight gs s i j w' : 0 <= f (o_epoch s) -> sound s -> weight (fst (optimise o f clip gs s)) i j = Some w' ->
  exists w, weight s i j = Some w /\ (w' = w \/ Rabs (w' - (w - a_lr o * f (o_epoch s) * a_decay o * w)) <= a_lr o * f (o_epoch s) * reach o).
Proof.
  intros F S. unfold weight at 1. destruct (nth_error _ i) as [p'|] eqn:E; [|discriminate].
  apply optimise_param in E. destruct E as (p & E & D). specialize (S i p E). unfold weight. rewrite E.
  destruct D as [[A B]|(g & _ & h & A & B)].
  - rewrite A. intro H. exists w'. auto.
  - rewrite B, nth_error_map, nth_combine. destruct (nth_error (p_entries p) j) as [e|] eqn:J; cbn [option_map]; [|discriminate].
    destruct (nth_error h j) as [x|]; cbn [option_map fst snd]; [|discriminate]. intro H. injection H as <-. exists (e_w e). split; [reflexivity|]. right.
    rewrite Forall_forall in S. apply entry_move; [exact G| |apply S; eapply nth_error_In; exact J]. destruct G as (L & _). apply Rmult_le_pos; assumption.
Qed.
End History.

(** However large the gradients are, and whatever was clipped: after every history, a step moves each
    entry of each weight by at most lr * factor * (decay * |w| + reach). *)
Theorem C101_step_bound : forall o f clip ws history gs i j w w', good o -> (forall k, 0 <= f k) ->
  let s := run o f clip history (start ws) in
  weight s i j = Some w -> weight (fst (optimise o f clip gs s)) i j = Some w' ->
  Rabs (w' - w) <= a_lr o * f (o_epoch s) * (a_decay o * Rabs w + reach o).
Proof.
  intros o f clip ws history gs i j w w' G F s W W'. pose proof (sound_run o f clip G history _ (sound_start o ws)) as S. fold s in S.
  destruct (step_weight o f clip G gs s i j w' (F _) S W') as (w1 & W1 & D). rewrite W in W1. injection W1 as <-.
  pose proof (reach_pos o G) as K. pose proof (F (o_epoch s)) as FP. pose proof (Rabs_pos w) as WP.
  destruct G as (L & _ & _ & _ & _ & DC). assert (LP : 0 <= a_lr o * f (o_epoch s)) by (apply Rmult_le_pos; assumption).
  assert (0 <= a_decay o * Rabs w) by (apply Rmult_le_pos; assumption).
  destruct D as [->|D].
  - replace (w - w) with 0 by ring. rewrite Rabs_R0. apply Rmult_le_pos; lra.
  - set (l := a_lr o * f (o_epoch s)) in *. replace (w' - w) with ((w' - (w - l * a_decay o * w)) + - (l * a_decay o * w)) by ring.
    eapply Rle_trans; [apply Rabs_triang|]. rewrite Rabs_Ropp, !Rabs_mult, (Rabs_pos_eq l), (Rabs_pos_eq (a_decay o)) by assumption. lra.
Qed.
Print Assumptions C101_step_bound.

(** With weight decay the weights stay bounded for ever. *)
Theorem C101_weights_bounded : forall o f clip ws history i j w, good o -> 0 < a_decay o -> (forall k, 0 <= f k <= 1) -> a_lr o * a_decay o <= 1 ->
  weight (run o f clip history (start ws)) i j = Some w ->
  exists w0, weight (start ws) i j = Some w0 /\ Rabs w <= Rmax (Rabs w0) (reach o / a_decay o).
Proof.
  intros o f clip ws history i j w G DP F LD. revert w. induction history as [|gs h IH] using rev_ind; intro w.
  - intro H. exists w. split; [exact H|]. apply Rmax_l.
  - unfold run. rewrite fold_left_app. cbn [fold_left]. fold (run o f clip h (start ws)). set (s := run o f clip h (start ws)) in *. intro H.
    pose proof (sound_run o f clip G h _ (sound_start o ws)) as S. fold s in S.
    destruct (step_weight o f clip G gs s i j w (proj1 (F _)) S H) as (w1 & W1 & D). destruct (IH w1 W1) as (w0 & W0 & B). exists w0. split; [exact W0|].
    destruct D as [->|D]; [exact B|]. pose proof (reach_pos o G) as K. destruct G as (L & _). pose proof (F (o_epoch s)) as FP.
    set (l := a_lr o * f (o_epoch s)) in *. set (M := Rmax (Rabs w0) (reach o / a_decay o)) in *.
    assert (LP : 0 <= l) by (apply Rmult_le_pos; lra).
    assert (L1 : l * a_decay o <= 1) by (unfold l; apply Rle_trans with (a_lr o * a_decay o); [|exact LD]; apply Rmult_le_compat_r; [lra|]; rewrite <- (Rmult_1_r (a_lr o)) at 2; apply Rmult_le_compat_l; lra).
    assert (MK : reach o <= M * a_decay o).
    { apply Rle_trans with (reach o / a_decay o * a_decay o); [right; field; lra|]. apply Rmult_le_compat_r; [lra|apply Rmax_r]. }
    replace w with ((w - (w1 - l * a_decay o * w1)) + (1 - l * a_decay o) * w1) by ring. eapply Rle_trans; [apply Rabs_triang|].
    rewrite (Rabs_mult (1 - _)), (Rabs_pos_eq (1 - _)) by lra. pose proof (Rabs_pos w1).
    apply Rle_trans with (l * reach o + (1 - l * a_decay o) * M); [apply Rplus_le_compat; [exact D|apply Rmult_le_compat_l; lra]|]. nra.
Qed.
Print Assumptions C101_weights_bounded.

(** Without weight decay k steps move a weight by at most k * lr * reach. *)
Theorem C101_travel : forall o f clip ws history i j w, good o -> a_decay o = 0 -> (forall k, 0 <= f k <= 1) ->
  weight (run o f clip history (start ws)) i j = Some w ->
  exists w0, weight (start ws) i j = Some w0 /\ Rabs (w - w0) <= INR (length history) * (a_lr o * reach o).
Proof.
  intros o f clip ws history i j w G DZ F. revert w. induction history as [|gs h IH] using rev_ind; intro w.
  - intro H. exists w. split; [exact H|]. cbn [length INR]. replace (w - w) with 0 by ring. rewrite Rabs_R0. lra.
  - unfold run. rewrite fold_left_app. cbn [fold_left]. fold (run o f clip h (start ws)). set (s := run o f clip h (start ws)) in *. intro H.
    pose proof (sound_run o f clip G h _ (sound_start o ws)) as S. fold s in S.
    destruct (step_weight o f clip G gs s i j w (proj1 (F _)) S H) as (w1 & W1 & D). destruct (IH w1 W1) as (w0 & W0 & B). exists w0. split; [exact W0|].
    rewrite app_length, plus_INR. cbn [length]. replace (INR 1) with 1 by reflexivity. pose proof (reach_pos o G) as K. destruct G as (L & _). pose proof (F (o_epoch s)) as FP.
    assert (LK : 0 <= a_lr o * reach o) by (apply Rmult_le_pos; lra).
    destruct D as [->|D]; [lra|]. rewrite DZ, Rmult_0_r, Rmult_0_l, Rminus_0_r in D.
    replace (w - w0) with ((w - w1) + (w1 - w0)) by ring. eapply Rle_trans; [apply Rabs_triang|].
    assert (a_lr o * f (o_epoch s) * reach o <= a_lr o * reach o); [|lra]. apply Rmult_le_compat_r; [lra|].
    rewrite <- (Rmult_1_r (a_lr o)) at 2. apply Rmult_le_compat_l; lra.
Qed.
Print Assumptions C101_travel.

(** * Clipping *)
Lemma sum_sq_nonneg gs : 0 <= fold_right (fun g a => g * g + a) 0 gs.
Proof. induction gs as [|g gs IH]; cbn [fold_right]; [lra|]. pose proof (Rle_0_sqr g). unfold Rsqr in *. lra. Qed.
Lemma norm_scaled k gs : 0 <= k -> total_norm (map (Rmult k) gs) = k * total_norm gs.
Proof.
  intro K. unfold total_norm.
  replace (fold_right (fun g a => g * g + a) 0 (map (Rmult k) gs)) with (k * k * fold_right (fun g a => g * g + a) 0 gs).
  - rewrite sqrt_mult; [|nra|apply sum_sq_nonneg]. rewrite sqrt_square by exact K. reflexivity.
  - induction gs as [|g gs IH]; cbn [fold_right map]; [ring|]. rewrite <- IH. ring.
Qed.
Lemma all_grads_map f ps : all_grads (map_grads f ps) = map f (all_grads ps).
Proof.
  unfold all_grads, map_grads. induction ps as [|p ps IH]; cbn [map flat_map]; [reflexivity|]. rewrite IH, map_app. f_equal.
  unfold grad_of. cbn [p_grad]. destruct (p_grad p); reflexivity.
Qed.
(** Same weights, and gradients for the same parameters. *)
Definition only_grads (ps ps' : list tparam) : Prop :=
  Forall2 (fun p p' => p_entries p' = p_entries p /\ p_steps p' = p_steps p /\
                       option_map (@length R) (p_grad p') = option_map (@length R) (p_grad p)) ps ps'.
Lemma only_map f ps : only_grads ps (map_grads f ps).
Proof.
  unfold only_grads, map_grads. induction ps as [|p ps IH]; cbn [map]; constructor; [|exact IH]. cbn [p_entries p_steps p_grad].
  destruct (p_grad p); cbn [option_map]; rewrite ?map_length; auto.
Qed.
(** Clipping by norm scales the gradients of all parameters of the optimiser by one factor in (0, 1], so
    that their joint norm is at most the limit; 1 if it is below the limit by 1e-6, and otherwise no
    smaller than necessary up to 1e-6. *)
Theorem C101_clip_norm : forall c ps ps', 0 < c -> clip_gradients c Norm ps = Ok ps' ->
  let n := total_norm (all_grads ps) in let n' := total_norm (all_grads ps') in
  only_grads ps ps' /\
  (exists k, 0 < k <= 1 /\ all_grads ps' = map (Rmult k) (all_grads ps) /\ (n + / 1000000 <= c -> k = 1)) /\
  n' <= c /\ (c <= n -> c - c / n * / 1000000 <= n').
Proof.
  intros c ps ps' C E n n'. unfold clip_gradients in E. destruct (Rle_dec c 0) as [X|_]; [lra|]. injection E as <-.
  unfold clip_grad_norm in n' |- *. fold n in n' |- *. set (k := Rmin (c / (n + / 1000000)) 1) in *.
  assert (N0 : 0 <= n) by apply sqrt_pos. assert (D : 0 < n + / 1000000) by lra.
  assert (Q : 0 < c / (n + / 1000000)) by (apply Rmult_lt_0_compat; [lra|apply Rinv_0_lt_compat; exact D]).
  assert (K : 0 < k <= 1) by (split; [apply Rmin_glb_lt; lra|apply Rmin_r]).
  assert (AG : all_grads (map_grads (fun g => g * k) ps) = map (Rmult k) (all_grads ps)).
  { rewrite all_grads_map. apply map_ext. intro. ring. }
  assert (NE : n' = k * n) by (unfold n'; rewrite AG; apply norm_scaled; lra).
  assert (QE : c / (n + / 1000000) * (n + / 1000000) = c) by (field; lra).
  split; [apply only_map|]. split; [|split].
  - exists k. split; [exact K|]. split; [exact AG|]. intro L. apply Rmin_right.
    apply Rmult_le_reg_r with (n + / 1000000); [exact D|]. rewrite QE. lra.
  - rewrite NE. apply Rle_trans with (c / (n + / 1000000) * n); [apply Rmult_le_compat_r; [exact N0|apply Rmin_l]|]. nra.
  - intro L. rewrite NE. assert (NP : 0 < n) by lra. unfold k. rewrite Rmin_left.
    2:{ apply Rmult_le_reg_r with (n + / 1000000); [exact D|]. rewrite QE. lra. }
    apply Rmult_le_reg_r with (n * (n + / 1000000)); [apply Rmult_lt_0_compat; lra|].
    replace ((c - c / n * / 1000000) * (n * (n + / 1000000))) with (c * (n - / 1000000) * (n + / 1000000)) by (field; lra).
    replace (c / (n + / 1000000) * n * (n * (n + / 1000000))) with (c * n * n) by (field; lra).
    replace (c * (n - / 1000000) * (n + / 1000000)) with (c * n * n - c * (/ 1000000 * / 1000000)) by ring. assert (0 < c * (/ 1000000 * / 1000000)) by (apply Rmult_lt_0_compat; lra). lra.
Qed.
Print Assumptions C101_clip_norm.
(** Clipping by value limits each entry. *)
Theorem C101_clip_value : forall c ps ps', 0 < c -> clip_gradients c Value ps = Ok ps' ->
  only_grads ps ps' /\
  Forall2 (fun g g' => Rabs g' <= c /\ (Rabs g <= c -> g' = g) /\ (c < g -> g' = c) /\ (g < - c -> g' = - c)) (all_grads ps) (all_grads ps').
Proof.
  intros c ps ps' C E. unfold clip_gradients in E. destruct (Rle_dec c 0) as [X|_]; [lra|]. injection E as <-.
  unfold clip_grad_value. split; [apply only_map|]. rewrite all_grads_map. induction (all_grads ps) as [|g l IH]; cbn [map]; constructor; [|exact IH].
  destruct (Rlt_dec g (- c)) as [A|A]; [|destruct (Rlt_dec c g) as [B|B]].
  - rewrite Rmax_right, Rmin_left by lra. rewrite Rabs_Ropp, Rabs_pos_eq by lra. repeat split; intros; try lra. unfold Rabs in *. destruct (Rcase_abs g); lra.
  - rewrite Rmax_left, Rmin_right by lra. rewrite Rabs_pos_eq by lra. repeat split; intros; try lra. unfold Rabs in *. destruct (Rcase_abs g); lra.
  - rewrite Rmax_left, Rmin_left by lra. repeat split; intros; try lra. apply Rabs_le. lra.
Qed.
Print Assumptions C101_clip_value.
(** No clipping without a limit or with a limit that is not positive; an unknown algorithm is refused
    before anything but gradients has changed. *)
Theorem C101_no_clipping : forall o f c a gs s, c <= 0 -> a <> Unsupported ->
  optimise o f (Some (c, a)) gs s = optimise o f None gs s.
Proof.
  intros o f c a gs s C A. unfold optimise, clip_gradients. destruct a; [| |congruence]; (destruct (Rle_dec c 0) as [_|X]; [reflexivity|lra]).
Qed.
Theorem C101_unsupported : forall o f c gs s, length gs = length (o_params s) ->
  let r := optimise o f (Some (c, Unsupported)) gs s in
  snd r = Raise ValueError /\ o_epoch (fst r) = o_epoch s /\ forall i j, weight (fst r) i j = weight s i j.
Proof.
  intros o f c gs s L r. unfold r, optimise. cbn [clip_gradients fst snd o_epoch]. split; [reflexivity|]. split; [reflexivity|].
  intros i j. unfold weight. cbn [o_params]. unfold backward, zero_grad. rewrite nth_error_map, nth_combine, nth_error_map.
  destruct (nth_error (o_params s) i) as [p|] eqn:E; cbn [option_map]; [|reflexivity].
  destruct (nth_error gs i) as [g|] eqn:EG.
  - cbn [option_map fst snd]. unfold accumulate. destruct g; reflexivity.
  - apply nth_error_None in EG. assert (i < length (o_params s))%nat by (apply nth_error_Some; congruence). lia.
Qed.
Print Assumptions C101_unsupported.

(** * What a step computes *)
Lemma wsum_ones b (l : list R) : b <> 1 -> (1 - b) * wsum b (map (fun _ => 1) l) = 1 - b ^ length l.
Proof. intro B. induction l as [|g l IH]; cbn [map wsum length pow]; [ring|]. rewrite Rmult_plus_distr_l. replace ((1 - b) * (b * wsum b (map (fun _ => 1) l))) with (b * ((1 - b) * wsum b (map (fun _ => 1) l))) by ring. rewrite IH. ring. Qed.
Lemma mean_corrected b l : 0 <= b < 1 -> l <> [] -> mean b l = (1 - b) * wsum b l / (1 - b ^ length l).
Proof.
  intros B L. unfold mean. rewrite <- wsum_ones by lra.
  assert (P : 0 < wsum b (map (fun _ => 1) l)).
  { destruct l as [|g l]; [congruence|]. cbn [map wsum]. assert (0 <= wsum b (map (fun _ : R => 1) l)); [|nra].
    clear - B. induction l as [|x l IH]; cbn [map wsum]; [lra|]. nra. }
  field. lra.
Qed.
(** One entry that gets a gradient in every batch, without clipping: the published method. *)
Section Textbook.
Variables (o : adamw) (f : nat -> R).
Hypothesis G : good o.
Lemma textbook_entry lr t e g past w : e_w e = w -> e_m e = (1 - a_beta1 o) * wsum (a_beta1 o) past ->
  e_v e = (1 - a_beta2 o) * wsum (a_beta2 o) (map (fun x => x * x) past) -> t = length past ->
  let e' := adamw_entry o lr (S t) e g in
  e_w e' = w - lr * a_decay o * w - lr * (mean (a_beta1 o) (g :: past) / (sqrt (mean (a_beta2 o) (map (fun x => x * x) (g :: past))) + a_eps o)) /\
  e_m e' = (1 - a_beta1 o) * wsum (a_beta1 o) (g :: past) /\
  e_v e' = (1 - a_beta2 o) * wsum (a_beta2 o) (map (fun x => x * x) (g :: past)).
Proof.
  destruct G as (_ & B1 & B2 & _ & E & _). intros W M V T. subst t. destruct e as [w0 m v]. cbn [e_w e_m e_v] in *. subst w0 m v.
  unfold adamw_entry. cbn zeta. cbn [e_w e_m e_v]. set (b1 := a_beta1 o) in *. set (b2 := a_beta2 o) in *.
  set (s1 := wsum b1 past). set (s2 := wsum b2 (map (fun x => x * x) past)).
  assert (M' : (1 - b1) * s1 + (1 - b1) * (g - (1 - b1) * s1) = (1 - b1) * wsum b1 (g :: past)) by (cbn [wsum]; fold s1; ring).
  assert (V' : (1 - b2) * s2 * b2 + (1 - b2) * g * g = (1 - b2) * wsum b2 (map (fun x => x * x) (g :: past))) by (cbn [wsum map]; fold s2; ring).
  split; [|split; assumption]. rewrite M', V'.
  assert (P1 : 0 < 1 - b1 ^ S (length past)) by (pose proof (pow_below b1 (length past) B1); lra).
  assert (P2 : 0 < 1 - b2 ^ S (length past)) by (pose proof (pow_below b2 (length past) ltac:(lra)); lra).
  rewrite !mean_corrected by (try discriminate; lra). rewrite map_length. change (length (g :: past)) with (S (length past)).
  set (x1 := (1 - b1) * wsum b1 (g :: past)). set (x2 := (1 - b2) * wsum b2 (map (fun x => x * x) (g :: past))).
  assert (X2 : 0 <= x2).
  { unfold x2. apply Rmult_le_pos; [lra|]. clear - B2. induction (g :: past) as [|y l IH]; cbn [map wsum]; [lra|]. pose proof (Rle_0_sqr y). unfold Rsqr in *. nra. }
  rewrite (sqrt_div_alt x2 _ P2). pose proof (sqrt_lt_R0 _ P2) as S2. pose proof (sqrt_pos x2).
  set (d := sqrt x2 / sqrt (1 - b2 ^ S (length past)) + a_eps o). assert (D : 0 < d).
  { assert (0 <= sqrt x2 / sqrt (1 - b2 ^ S (length past))) by (apply Rmult_le_pos; [assumption|left; apply Rinv_0_lt_compat; exact S2]). unfold d. lra. }
  clearbody d x1. field. lra.
Qed.
(** Latest gradient first. *)
Definition tracked (s : opt) (i j : nat) (w0 : R) (past : list R) : Prop :=
  exists p e, nth_error (o_params s) i = Some p /\ nth_error (p_entries p) j = Some e /\ p_steps p = length past /\ o_epoch s = length past /\
    e_w e = textbook o f w0 past /\ e_m e = (1 - a_beta1 o) * wsum (a_beta1 o) past /\
    e_v e = (1 - a_beta2 o) * wsum (a_beta2 o) (map (fun x => x * x) past).
Lemma tracked_step s i j w0 past gs g : tracked s i j w0 past -> grad_at gs i j = Some g ->
  tracked (fst (optimise o f None gs s)) i j w0 (g :: past).
Proof.
  intros (p & e & P & E & ST & EP & W & M & V) H. unfold grad_at in H. destruct (nth_error gs i) as [[gl|]|] eqn:GI; try discriminate.
  pose proof (textbook_entry (a_lr o * f (o_epoch s)) (p_steps p) e g past _ W M V ST) as (W' & M' & V').
  set (e' := adamw_entry o (a_lr o * f (o_epoch s)) (S (p_steps p)) e g) in *.
  unfold tracked, optimise. cbn [fst o_params o_epoch]. eexists _, e'. split.
  - unfold opt_step, backward, zero_grad. rewrite !nth_error_map, nth_combine, nth_error_map, P, GI. reflexivity.
  - cbn [fst snd accumulate p_entries p_grad p_steps]. unfold adamw_param. cbn [p_grad p_entries p_steps].
    rewrite nth_error_map, nth_combine, E, H. cbn [option_map fst snd length]. split; [reflexivity|]. rewrite ST, EP. split; [reflexivity|]. split; [reflexivity|].
    split; [|split; assumption]. rewrite W', EP. reflexivity.
Qed.
End Textbook.
Theorem C101_adamw : forall o f ws history i j w0 gs, good o -> weight (start ws) i j = Some w0 ->
  Forall2 (fun batch g => grad_at batch i j = Some g) history gs ->
  weight (run o f None history (start ws)) i j = Some (textbook o f w0 (rev gs)).
Proof.
  intros o f ws history i j w0 gs G W H.
  assert (T : tracked o f (run o f None history (start ws)) i j w0 (rev gs)).
  { assert (T0 : tracked o f (start ws) i j w0 []).
    { unfold weight in W. destruct (nth_error (o_params (start ws)) i) as [p|] eqn:P; [|discriminate].
      destruct (nth_error (p_entries p) j) as [e|] eqn:E; [|discriminate]. injection W as <-.
      exists p, e. split; [exact P|]. split; [exact E|]. unfold start in P. cbn [o_params] in P. rewrite nth_error_map in P.
      destruct (nth_error ws i); [|discriminate]. injection P as <-. cbn [new_param p_entries p_steps length o_epoch start] in *.
      rewrite nth_error_map in E. destruct (nth_error l j); [|discriminate]. injection E as <-. cbn. repeat split; try reflexivity; ring. }
    rewrite <- (app_nil_r (rev gs)). revert T0. generalize (start ws), (@nil R).
    induction H as [|b g h gs B H IH]; intros s past T; [exact T|]. cbn [rev]. rewrite <- app_assoc. cbn [app].
    unfold run. cbn [fold_left]. apply IH. apply tracked_step; assumption. }
  destruct T as (p & e & P & E & _ & _ & TW & _). unfold weight. rewrite P, E. cbn [option_map]. now rewrite TW.
Qed.
Print Assumptions C101_adamw.

(** A parameter without a gradient is left alone, not even decayed; the rate of the k-th step is
    lr * factor(k). *)
Theorem C101_skipped : forall o f clip gs s i, nth_error gs i = Some None -> forall p', nth_error (o_params (fst (optimise o f clip gs s))) i = Some p' ->
  exists p, nth_error (o_params s) i = Some p /\ p_entries p' = p_entries p /\ p_steps p' = p_steps p.
Proof.
  intros o f clip gs s i GI p' H. apply optimise_param in H. destruct H as (p & E & [[A B]|(g & X & _)]); [exists p; auto|]. congruence.
Qed.
Print Assumptions C101_skipped.

(** * The two optimisers *)
(** The quantiles are never clipped, and neither optimiser sees the other's gradients: a training is the
    two trainings side by side. *)
Theorem C101_two_optimisers : forall om oq fm fq clip batches s, (forall c, clip <> Some (c, Unsupported)) ->
  let s' := train om oq fm fq clip batches s in
  t_model s' = run om fm clip (map fst batches) (t_model s) /\ t_quantile s' = run oq fq None (map snd batches) (t_quantile s).
Proof.
  intros om oq fm fq clip batches s C. revert s. induction batches as [|[gm gq] b IH]; intro s; [split; reflexivity|].
  cbn [map fst snd]. unfold train, run in *. cbn [fold_left]. cbn [fst snd].
  assert (S : exists m, optimise om fm clip gm (t_model s) = (m, Ok tt)).
  { unfold optimise. destruct clip as [[c []]|]; try (unfold clip_gradients; destruct (Rle_dec c 0); eexists; reflexivity); [exfalso; apply (C c); reflexivity|eexists; reflexivity]. }
  destruct S as [m S]. destruct (optimise oq fq None gq (t_quantile s)) as [q r] eqn:Q.
  assert (TS : fst (training_step om oq fm fq clip gm gq s) = mkT m q) by (unfold training_step; rewrite S, Q; reflexivity).
  rewrite TS, S. cbn [fst]. apply (IH (mkT m q)).
Qed.
Print Assumptions C101_two_optimisers.

(** * The shipped configurations *)
Lemma reach_below o k : good o -> 0 < k -> (1 - a_beta1 o) * (1 - a_beta1 o) <= k * k * ((1 - a_beta2 o) * (1 - a_beta1 o * a_beta1 o / a_beta2 o)) -> reach o <= k.
Proof.
  intros G K H. pose proof (reach_pos o G) as P. pose proof (reach_sq o G) as S. pose proof (r_range o G) as R. cbn zeta in *.
  apply Rsqr_incr_0_var; [|lra]. unfold Rsqr. rewrite S. destruct G as (_ & B1 & B2 & B & _).
  apply Rmult_le_reg_r with ((1 - a_beta2 o) * (1 - a_beta1 o * a_beta1 o / a_beta2 o)); [apply Rmult_lt_0_compat; lra|].
  eapply Rle_trans; [|exact H]. right. field. repeat split; lra.
Qed.
Theorem C101_shipped : good model_adamw /\ good aux_adamw /\ good gan_model_adamw /\ good gan_disc_adamw /\
  reach model_adamw <= 7.28 /\ reach aux_adamw <= 7.28 /\ reach gan_model_adamw <= 1.87 /\ reach gan_disc_adamw <= 1.87.
Proof.
  assert (good model_adamw /\ good aux_adamw /\ good gan_model_adamw /\ good gan_disc_adamw) as (G1 & G2 & G3 & G4).
  { unfold good. cbn. lra. }
  repeat split; try assumption; (try (apply G1)); (try apply G2); (try apply G3); (try apply G4); apply reach_below; try assumption; cbn; lra.
Qed.
(** The training of conf/optimizer/model_adamw.yaml with its schedule: each step moves a weight by at most
    0.0003 * (7.28 + 0.00005 |w|), and no weight ever exceeds 145600 or its first value, in absolute value. *)
Definition ramp_cosine_factor (k : nat) : R :=
  match ramp_cosine 10000 1000000 (/ 1000000000000) (Z.of_nat k) with Ok v => v | Raise _ => 0 end.
Lemma ramp_factor k : 0 <= ramp_cosine_factor k <= 1.
Proof.
  unfold ramp_cosine_factor. destruct (ramp_cosine_range 10000 1000000 (/ 1000000000000) ltac:(lia) ltac:(lra) (Z.of_nat k) ltac:(lia)) as (v & E & V). rewrite E. lra.
Qed.
Theorem C101_shipped_training : forall clip ws history gs i j w w',
  let s := run model_adamw ramp_cosine_factor clip history (start ws) in
  weight s i j = Some w -> weight (fst (optimise model_adamw ramp_cosine_factor clip gs s)) i j = Some w' ->
  Rabs (w' - w) <= 0.0003 * (7.28 + 0.00005 * Rabs w) /\
  exists w0, weight (start ws) i j = Some w0 /\ Rabs w <= Rmax (Rabs w0) 145600.
Proof.
  intros clip ws history gs i j w w' s W W'. destruct C101_shipped as (G & _ & _ & _ & K & _).
  pose proof (reach_pos _ G) as KP. pose proof (Rabs_pos w) as AP. split.
  - eapply Rle_trans; [exact (C101_step_bound model_adamw ramp_cosine_factor clip ws history gs i j w w' G (fun k => proj1 (ramp_factor k)) W W')|].
    fold s. pose proof (ramp_factor (o_epoch s)) as F. change (a_lr model_adamw) with 0.0003. change (a_decay model_adamw) with 0.00005.
    apply Rle_trans with (0.0003 * 1 * (0.00005 * Rabs w + 7.28)); [|lra]. apply Rmult_le_compat; try lra; apply Rmult_le_pos; lra.
  - destruct (C101_weights_bounded model_adamw ramp_cosine_factor clip ws history i j w G) as (w0 & W0 & B); [cbn; lra|apply ramp_factor|cbn; lra|exact W|].
    exists w0. split; [exact W0|]. eapply Rle_trans; [exact B|]. apply Rmax_lub; [apply Rmax_l|]. eapply Rle_trans; [|apply Rmax_r].
    change (a_decay model_adamw) with 0.00005. apply Rmult_le_reg_r with 0.00005; [lra|]. unfold Rdiv. rewrite Rmult_assoc, Rinv_l by lra. lra.
Qed.
Print Assumptions C101_shipped_training.

(** The hypotheses are met: a training of two tensors, the second without gradients. *)
Example C101_example : forall clip, weight (run model_adamw ramp_cosine_factor clip [] (start [[1; 2]; [3]])) 1 0 = Some 3 /\
  grad_at [Some [5; 6]; None] 0 1 = Some 6 /\ nth_error [Some [5; 6]; @None (list R)] 1 = Some None.
Proof. intro. repeat split. Qed.
Example C101_example_step : forall o, exists w', weight (fst (optimise o ramp_cosine_factor (Some (1, Norm)) [Some [5; 6]; None] (start [[1; 2]; [3]]))) 0 1 = Some w'.
Proof. intro o. unfold optimise, clip_gradients. destruct (Rle_dec 1 0); eexists; reflexivity. Qed.
Print Assumptions C101_no_clipping.
Print Assumptions C101_shipped.

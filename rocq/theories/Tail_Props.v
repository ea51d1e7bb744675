(** C61: tail estimation. *)
From Coq Require Import Reals List Bool Arith Lia Lra.
From Verif Require Import Base Gauss Dist_Model Tail_Model Tail_Spec.
Import ListNotations.
Open Scope R_scope.

Definition traj (g : R -> R) (n : nat) : elem := Nat.iter n (tail_step g) elem0.

Lemma traj_S : forall g n, traj g (S n) = tail_step g (traj g n).
Proof. reflexivity. Qed.

Lemma traj_adam : forall g n, (tl (traj g n), mn (traj g n), vr (traj g n)) = adam g n.
Proof.
  intros g n. induction n as [|n IH]; [reflexivity|].
  rewrite traj_S. cbn [adam]. rewrite <- IH. reflexivity.
Qed.

Lemma traj_pos : forall g n, tl (traj g n) = pos g n.
Proof. intros. unfold pos. rewrite <- traj_adam. reflexivity. Qed.

Lemma cnt_S : forall g n,
  cnt (traj g (S n)) = if (0 <? cnt (traj g n))%nat || Rgtb (g (pos g n) * pos g (S n)) 0
                       then S (cnt (traj g n)) else cnt (traj g n).
Proof. intros g n. rewrite <- !traj_pos, traj_S. reflexivity. Qed.

Lemma Rgtb_true : forall a b, Rgtb a b = true <-> a > b.
Proof. intros. unfold Rgtb. destruct (Rgt_dec a b); split; intros; auto; discriminate. Qed.

Lemma cnt_spec : forall g n c, (0 < c)%nat ->
  ((c <= cnt (traj g n))%nat <-> exists j, (j + c <= n)%nat /\ passed g j).
Proof.
  intros g n. induction n as [|n IH]; intros c C.
  - split; [cbn; lia|]. intros (j & J & _). lia.
  - rewrite cnt_S. split.
    + intros L. destruct ((0 <? cnt (traj g n))%nat || Rgtb (g (pos g n) * pos g (S n)) 0) eqn:E.
      * destruct (Nat.ltb_spec 0 (cnt (traj g n))) as [P|P].
        { destruct (Nat.eq_dec c 1) as [->|N].
          - destruct (proj1 (IH 1%nat ltac:(lia)) ltac:(lia)) as (j & J & Q). exists j; split; [lia|exact Q].
          - destruct (proj1 (IH (c - 1)%nat ltac:(lia)) ltac:(lia)) as (j & J & Q). exists j; split; [lia|exact Q]. }
        cbn [orb] in E. apply Rgtb_true in E. exists n. split; [lia|exact E].
      * apply orb_false_iff in E as [E _]. apply Nat.ltb_ge in E. lia.
    + intros (j & J & Q).
      destruct (Nat.eq_dec j n) as [->|N].
      * replace (Rgtb (g (pos g n) * pos g (S n)) 0) with true by (symmetry; apply Rgtb_true, Q).
        rewrite orb_true_r. lia.
      * assert (P : (1 <= cnt (traj g n))%nat) by (apply (IH 1%nat); [lia|]; exists j; split; [lia|exact Q]).
        replace (0 <? cnt (traj g n))%nat with true by (symmetry; apply Nat.ltb_lt; lia). cbn [orb].
        destruct (Nat.eq_dec c 1); [lia|].
        assert ((c - 1 <= cnt (traj g n))%nat); [|lia].
        apply IH; [lia|]. exists j; split; [lia|exact Q].
Qed.

Lemma combine_step : forall gs j,
  map (fun p => tail_step (fst p) (snd p)) (combine gs (map (fun g => traj g j) gs))
  = map (fun g => traj g (S j)) gs.
Proof. induction gs as [|g gs IH]; intros j; [reflexivity|]. cbn [map combine fst snd]. rewrite IH. reflexivity. Qed.

Definition done (gs : list (R -> R)) (n : nat) : Prop :=
  forall g, In g gs -> exists j, (j + 100 <= n)%nat /\ passed g j.

Lemma done_iff : forall gs n,
  forallb (fun e => 100 <=? cnt e)%nat (map (fun g => traj g n) gs) = true <-> done gs n.
Proof.
  intros gs n. rewrite forallb_forall. unfold done. split.
  - intros H g I. apply (cnt_spec g n 100); [lia|]. apply Nat.leb_le, (H (traj g n)).
    apply in_map_iff. eauto.
  - intros H e I. apply in_map_iff in I as (g & <- & I). apply Nat.leb_le, cnt_spec; [lia|]. apply H, I.
Qed.

Lemma loop_iff : forall fuel gs j st,
  tail_loop fuel gs (map (fun g => traj g j) gs) = Ok st <->
  exists n, (j <= n < j + fuel)%nat /\ st = map (fun g => traj g n) gs /\ done gs n /\
            forall i, (j <= i < n)%nat -> ~ done gs i.
Proof.
  induction fuel as [|fuel IH]; intros gs j st.
  - cbn. split; [discriminate|]. intros (n & N & _). lia.
  - cbn [tail_loop].
    destruct (forallb (fun e => 100 <=? cnt e)%nat (map (fun g => traj g j) gs)) eqn:E.
    + apply done_iff in E. split.
      * intros H. injection H as <-. exists j. split; [lia|]. split; [reflexivity|]. split; [exact E|]. intros; lia.
      * intros (n & N & -> & D & M).
        destruct (Nat.eq_dec n j) as [->|X]; [reflexivity|]. exfalso. apply (M j); [lia|exact E].
    + assert (ND : ~ done gs j).
      { intros D. apply done_iff in D. congruence. }
      rewrite combine_step, IH. split.
      * intros (n & N & -> & D & M). exists n. split; [lia|]. split; [reflexivity|]. split; [exact D|].
        intros i I. destruct (Nat.eq_dec i j) as [->|]; [exact ND|]. apply M. lia.
      * intros (n & N & -> & D & M). assert (n <> j) by (intros ->; auto).
        exists n. split; [lia|]. split; [reflexivity|]. split; [exact D|]. intros i I. apply M. lia.
Qed.

Lemma loop_res : forall fuel gs st,
  (exists st', tail_loop fuel gs st = Ok st') \/ tail_loop fuel gs st = Raise Diverges.
Proof.
  induction fuel as [|fuel IH]; intros gs st; [right; reflexivity|].
  cbn [tail_loop]. destruct (forallb _ _); [eauto|]. apply IH.
Qed.

Definition grads (fs : list dfun) (target : R) := map (fun f => tail_grad f target) fs.

Lemma estimate_loop : forall fuel fs target, fs <> [] ->
  estimate_tails fuel fs target
  = do st <- tail_loop fuel (grads fs target) (map (fun g => traj g 0) (grads fs target)); Ok (map tl st).
Proof.
  intros fuel fs target N. destruct fs as [|f fs]; [congruence|]. unfold estimate_tails.
  unfold grads at 2. rewrite map_map. reflexivity.
Qed.

(** When the call returns: each estimate had passed its optimum at least 100 iterations
    before the end, and this held at no earlier iteration; the result is the Adam iterate. *)
Theorem tails_return : forall fuel fs target xs, fs <> [] ->
  (estimate_tails fuel fs target = Ok xs <->
   exists n, (n < fuel)%nat /\ xs = map (fun f => pos (tail_grad f target) n) fs /\
     (forall f, In f fs -> exists j, (j + 100 <= n)%nat /\ passed (tail_grad f target) j) /\
     (forall i, (i < n)%nat -> exists f, In f fs /\ forall j, (j + 100 <= i)%nat -> ~ passed (tail_grad f target) j)).
Proof.
  intros fuel fs target xs N. rewrite estimate_loop by exact N.
  assert (DD : forall n, done (grads fs target) n <->
            forall f, In f fs -> exists j, (j + 100 <= n)%nat /\ passed (tail_grad f target) j).
  { intros n. unfold done, grads. split.
    - intros H f I. apply H, in_map_iff. eauto.
    - intros H g I. apply in_map_iff in I as (f & <- & I). apply H, I. }
  assert (ND : forall n, ~ done (grads fs target) n <->
            exists f, In f fs /\ forall j, (j + 100 <= n)%nat -> ~ passed (tail_grad f target) j).
  { intros n. split.
    - intros H.
      assert (B : forallb (fun e => 100 <=? cnt e)%nat (map (fun g => traj g n) (grads fs target)) <> true).
      { intros E. apply H, done_iff, E. }
      apply not_true_iff_false in B.
      assert (EX : exists e, In e (map (fun g => traj g n) (grads fs target)) /\ (100 <=? cnt e)%nat = false).
      { clear - B. induction (map (fun g => traj g n) (grads fs target)) as [|e l IH]; [discriminate|].
        cbn in B. apply andb_false_iff in B as [B|B]; [exists e; cbn; auto|].
        destruct (IH B) as (e' & I & E). exists e'; cbn; auto. }
      destruct EX as (e & I & E). unfold grads in I. rewrite map_map in I.
      apply in_map_iff in I as (f & <- & I). exists f. split; [exact I|].
      intros j J P. apply Nat.leb_gt in E.
      assert ((100 <= cnt (traj (tail_grad f target) n))%nat) by (apply cnt_spec; [lia|]; eauto). lia.
    - intros (f & I & P) D. destruct (proj1 (DD n) D f I) as (j & J & Q). exact (P j J Q). }
  split.
  - intros H.
    destruct (tail_loop fuel (grads fs target) (map (fun g => traj g 0) (grads fs target))) as [st|e] eqn:E; [|discriminate].
    cbn [bind] in H. injection H as <-. apply loop_iff in E as (n & L & -> & D & M).
    exists n. split; [lia|]. split.
    { unfold grads. rewrite !map_map. apply map_ext. intros f. apply traj_pos. }
    split; [apply (proj1 (DD n) D)|]. intros i I. apply (proj1 (ND i)), M. lia.
  - intros (n & L & -> & D & M).
    assert (E : tail_loop fuel (grads fs target) (map (fun g => traj g 0) (grads fs target))
                = Ok (map (fun g => traj g n) (grads fs target))).
    { apply loop_iff. exists n. split; [lia|]. split; [reflexivity|]. split; [apply (proj2 (DD n) D)|].
      intros i I. apply (proj2 (ND i)), M. lia. }
    rewrite E. cbn [bind]. f_equal. unfold grads. rewrite !map_map. apply map_ext.
    intros f. apply traj_pos.
Qed.

(** It never returns when some element never passes; in particular when the gradient of
    some element is 0 at the starting point 0: a function that is flat there, or one that
    already has the target value there. *)
Theorem tails_never_return : forall fs target, fs <> [] ->
  (exists f, In f fs /\ forall j, ~ passed (tail_grad f target) j) ->
  forall fuel, estimate_tails fuel fs target = Raise Diverges.
Proof.
  intros fs target N (f & I & P) fuel.
  destruct (estimate_tails fuel fs target) as [xs|e] eqn:E.
  - apply tails_return in E as (n & _ & _ & D & _); [|exact N].
    destruct (D f I) as (j & _ & Q). destruct (P j Q).
  - rewrite estimate_loop in E by exact N.
    destruct (loop_res fuel (grads fs target) (map (fun g => traj g 0) (grads fs target))) as [[st S]|S];
      rewrite S in E; [discriminate|]. cbn in E. congruence.
Qed.

Lemma stuck_at_zero : forall g, g 0 = 0 -> forall n, exists v, adam g n = (0, 0, v).
Proof.
  intros g Z n. induction n as [|n (v & IH)]; [exists 1; reflexivity|].
  cbn [adam]. rewrite IH, Z. exists (99 / 100 * v + 1 / 100 * (0 * 0)).
  replace (9 / 10 * 0 + 1 / 10 * 0) with 0 by ring.
  replace (0 - 1 / 100 * 0 / (sqrt (99 / 100 * v + 1 / 100 * (0 * 0)) + / 8388608)) with 0; [reflexivity|].
  unfold Rdiv. ring.
Qed.

Theorem tails_flat_refuted : forall fs target f, In f fs ->
  fval f 0 = target \/ fder f 0 = 0 ->
  forall fuel, estimate_tails fuel fs target = Raise Diverges.
Proof.
  intros fs target f I H. apply tails_never_return; [intros ->; destruct I|].
  exists f. split; [exact I|]. intros j P.
  assert (Z : tail_grad f target 0 = 0).
  { unfold tail_grad, sgn. destruct H as [->|H]; [|rewrite H; ring].
    destruct (Rlt_dec 0 (target - target)); [lra|]. destruct (Rlt_dec (target - target) 0); [lra|]. ring. }
  unfold passed, pos in P.
  destruct (stuck_at_zero _ Z (S j)) as (v & E). rewrite E in P. cbn in P. lra.
Qed.

(** ** Step size *)

Lemma adam_inv : forall g n, let '(x, m, v) := adam g n in
  0 < v /\ m * m <= 55 / 10 * v.
Proof.
  intros g n. induction n as [|n IH]; cbn [adam]; [lra|].
  destruct (adam g n) as [[x m] v]. destruct IH as [V M].
  set (y := g x). split; [nra|].
  assert (0 <= (m - y / 2) * (m - y / 2)) by apply Rle_0_sqr. nra.
Qed.

(** Every iteration moves an estimate by less than 0.0235, whatever the function. *)
Theorem tails_step_bound : forall g n, Rabs (pos g (S n) - pos g n) < 235 / 10000.
Proof.
  intros g n. pose proof (adam_inv g (S n)) as I. unfold pos. cbn [adam] in *.
  destruct (adam g n) as [[x m] v]. cbn [fst snd] in *.
  set (m' := 9 / 10 * m + 1 / 10 * g x) in *. set (v' := 99 / 100 * v + 1 / 100 * (g x * g x)) in *.
  destruct I as [V M].
  assert (S0 : 0 < sqrt v') by (apply sqrt_lt_R0, V).
  assert (SS : sqrt v' * sqrt v' = v') by (apply sqrt_sqrt; lra).
  assert (D : 0 < sqrt v' + / 8388608) by lra.
  replace (x - 1 / 100 * m' / (sqrt v' + / 8388608) - x)
    with (- (1 / 100 * (m' / (sqrt v' + / 8388608)))) by (field; lra).
  rewrite Rabs_Ropp, Rabs_mult, (Rabs_right (1 / 100)) by lra.
  assert (Q : Rabs (m' / (sqrt v' + / 8388608)) < 235 / 100); [|lra].
  unfold Rdiv. rewrite Rabs_mult, (Rabs_right (/ _)) by (apply Rle_ge, Rlt_le, Rinv_0_lt_compat, D).
  apply Rmult_lt_reg_r with (sqrt v' + / 8388608); [exact D|].
  rewrite Rmult_assoc, Rinv_l, Rmult_1_r by lra.
  assert (AM : Rabs m' <= 235 / 100 * sqrt v').
  { apply Rsqr_incr_0_var; [|lra]. rewrite <- Rsqr_abs. unfold Rsqr. nra. }
  lra.
Qed.

Lemma pos_dist : forall g n k, Rabs (pos g (n + k) - pos g n) <= INR k * (235 / 10000).
Proof.
  intros g n k. induction k as [|k IH].
  - rewrite Nat.add_0_r, Rminus_diag_eq, Rabs_R0 by reflexivity. simpl. lra.
  - rewrite Nat.add_succ_r, S_INR. pose proof (tails_step_bound g (n + k)) as B.
    replace (pos g (S (n + k)) - pos g n) with ((pos g (S (n + k)) - pos g (n + k)) + (pos g (n + k) - pos g n)) by ring.
    pose proof (Rabs_triang (pos g (S (n + k)) - pos g (n + k)) (pos g (n + k) - pos g n)). lra.
Qed.

(** ** Convergence *)

(** While the optimum r > 0 has not been passed the mean is non-positive and the iterate
    does not decrease. *)
Lemma climb : forall g r n, valley g r -> 0 < r ->
  (forall i, (i <= n)%nat -> pos g i <= r) ->
  forall i, (i <= S n)%nat -> let '(x, m, _) := adam g i in 0 <= x /\ m <= 0.
Proof.
  intros g r n (VL & V0 & _) R H i. induction i as [|i IH]; intros L; [cbn; lra|].
  specialize (IH ltac:(lia)). pose proof (adam_inv g (S i)) as I.
  specialize (H i ltac:(lia)). unfold pos in H. cbn [adam] in *.
  destruct (adam g i) as [[x m] v]. cbn [fst snd] in *. destruct I as [V _]. destruct IH as [X M].
  assert (G : g x <= 0).
  { destruct (Rle_lt_or_eq_dec x r H) as [L'| ->]; [apply Rlt_le, VL, L'|lra]. }
  set (m' := 9 / 10 * m + 1 / 10 * g x) in *. set (v' := 99 / 100 * v + 1 / 100 * (g x * g x)) in *.
  assert (M' : m' <= 0) by (unfold m'; lra). split; [|exact M'].
  assert (D : 0 < sqrt v' + / 8388608) by (pose proof (sqrt_pos v'); lra).
  assert (0 <= - m' / (sqrt v' + / 8388608)).
  { apply Rmult_le_pos; [lra|]. apply Rlt_le, Rinv_0_lt_compat, D. }
  replace (1 / 100 * m' / (sqrt v' + / 8388608)) with (- (1 / 100 * (- m' / (sqrt v' + / 8388608)))) by (field; lra).
  lra.
Qed.

Lemma least_above : forall (g : R -> R) r n, r < pos g n ->
  exists i, (i <= n)%nat /\ r < pos g i /\ forall k, (k < i)%nat -> pos g k <= r.
Proof.
  intros g r n. induction n as [n IH] using lt_wf_ind. intros H.
  assert (D : (exists k, (k < n)%nat /\ r < pos g k) \/ (forall k, (k < n)%nat -> pos g k <= r)).
  { clear IH H. induction n as [|n IH]; [right; intros; lia|].
    destruct IH as [(k & K & P)|A]; [left; exists k; split; [lia|exact P]|].
    destruct (Rlt_le_dec r (pos g n)) as [L|L]; [left; exists n; split; [lia|exact L]|].
    right. intros k K. destruct (Nat.eq_dec k n) as [->|]; [exact L|apply A; lia]. }
  destruct D as [(k & K & P)|A].
  - destruct (IH k K P) as (i & I & Q & M). exists i. split; [lia|]. auto.
  - exists n. auto.
Qed.

Lemma not_passed_before : forall g r n, valley g r -> 0 < r ->
  (forall i, (i <= n)%nat -> pos g i <= r) -> ~ passed g n.
Proof.
  intros g r n V R H P. pose proof (climb g r n V R H (S n) ltac:(lia)) as C.
  unfold passed in P. unfold pos at 2 in P. destruct (adam g (S n)) as [[x m] v]. cbn [fst] in P.
  destruct C as [X _]. destruct V as (VL & V0 & _). pose proof (H n ltac:(lia)) as L.
  assert (G : g (pos g n) <= 0).
  { destruct (Rle_lt_or_eq_dec _ _ L) as [L'|E]; [apply Rlt_le, VL, L'|rewrite E; lra]. }
  nra.
Qed.

Lemma passed_at : forall g r i, valley g r -> 235 / 10000 <= r -> r < pos g i -> passed g i.
Proof.
  intros g r i (_ & _ & VR) R L. unfold passed. pose proof (tails_step_bound g i) as B.
  apply Rabs_def2 in B. apply Rmult_lt_0_compat; [apply VR, L|lra].
Qed.

(** The first pass is the first time the iterate exceeds the optimum. *)
Lemma first_pass : forall g r j, valley g r -> 235 / 10000 <= r -> passed g j ->
  (forall i, (i < j)%nat -> ~ passed g i) -> r < pos g j /\ pos g j - r < 235 / 10000.
Proof.
  intros g r j V R P M.
  assert (A : exists k, (k <= j)%nat /\ r < pos g k).
  { destruct (Rlt_le_dec r (pos g j)) as [L|L]; [eauto|].
    assert (D : (exists k, (k < j)%nat /\ r < pos g k) \/ (forall k, (k < j)%nat -> pos g k <= r)).
    { clear - j. induction j as [|n IH]; [right; intros; lia|].
      destruct IH as [(k & K & Q)|A]; [left; exists k; split; [lia|exact Q]|].
      destruct (Rlt_le_dec r (pos g n)) as [L|L]; [left; exists n; split; [lia|exact L]|].
      right. intros k K. destruct (Nat.eq_dec k n) as [->|]; [exact L|apply A; lia]. }
    destruct D as [(k & K & Q)|A]; [exists k; split; [lia|exact Q]|].
    exfalso. apply (not_passed_before g r j V ltac:(lra)); [|exact P].
    intros i I. destruct (Nat.eq_dec i j) as [->|]; [exact L|apply A; lia]. }
  destruct A as (k & K & L). destruct (least_above g r k L) as (i & I & Q & B).
  assert (i = j) as ->.
  { destruct (Nat.eq_dec i j) as [|N]; [assumption|]. exfalso. apply (M i); [lia|].
    apply (passed_at g r); assumption. }
  split; [exact Q|].
  destruct j as [|j]; [unfold pos in Q; cbn in Q; lra|].
  pose proof (tails_step_bound g j) as S. apply Rabs_def2 in S. specialize (B j ltac:(lia)). lra.
Qed.

Lemma stop_near : forall g r n, valley g r -> 235 / 10000 <= r ->
  done [g] n -> (forall i, (i < n)%nat -> ~ done [g] i) -> Rabs (pos g n - r) < 24 / 10.
Proof.
  intros g r n V R D M.
  destruct (D g (or_introl eq_refl)) as (j & J & P).
  assert (n = j + 100)%nat as ->.
  { destruct (Nat.eq_dec n (j + 100)) as [|N]; [assumption|]. exfalso. apply (M (j + 100)%nat); [lia|].
    intros h [<-|[]]. exists j; split; [lia|exact P]. }
  assert (F : forall i, (i < j)%nat -> ~ passed g i).
  { intros i I Q. apply (M (i + 100)%nat); [lia|]. intros h [<-|[]]. exists i; split; [lia|exact Q]. }
  destruct (first_pass g r j V R P F) as [A B].
  pose proof (pos_dist g j 100) as C. rewrite (INR_IZR_INZ 100) in C. simpl IZR in C.
  replace (pos g (j + 100) - r) with ((pos g (j + 100) - pos g j) + (pos g j - r)) by ring.
  pose proof (Rabs_triang (pos g (j + 100) - pos g j) (pos g j - r)).
  rewrite (Rabs_right (pos g j - r)) in H by lra. lra.
Qed.

(** Mirror image, for optima left of the start. *)
Definition mirror (g : R -> R) (x : R) : R := - g (- x).
Lemma adam_mirror : forall g n, let '(x, m, v) := adam g n in adam (mirror g) n = (- x, - m, v).
Proof.
  intros g n. induction n as [|n IH]; cbn [adam].
  - rewrite Ropp_0. reflexivity.
  - destruct (adam g n) as [[x m] v]. rewrite IH. unfold mirror. rewrite Ropp_involutive.
    replace (- g x * - g x) with (g x * g x) by ring.
    replace (9 / 10 * - m + 1 / 10 * - g x) with (- (9 / 10 * m + 1 / 10 * g x)) by ring.
    f_equal. f_equal. unfold Rdiv. ring.
Qed.
Lemma pos_mirror : forall g n, pos (mirror g) n = - pos g n.
Proof. intros. unfold pos. pose proof (adam_mirror g n). destruct (adam g n) as [[x m] v]. rewrite H. reflexivity. Qed.
Lemma passed_mirror : forall g n, passed (mirror g) n <-> passed g n.
Proof.
  intros. unfold passed. rewrite !pos_mirror. unfold mirror. rewrite Ropp_involutive.
  replace (- g (pos g n) * - pos g (S n)) with (g (pos g n) * pos g (S n)) by ring. tauto.
Qed.
Lemma valley_mirror : forall g r, valley g r -> valley (mirror g) (- r).
Proof.
  intros g r (A & B & C). unfold mirror. repeat split.
  - intros x X. pose proof (C (- x) ltac:(lra)). lra.
  - rewrite Ropp_involutive. lra.
  - intros x X. pose proof (A (- x) ltac:(lra)). lra.
Qed.
Lemma done_mirror : forall g n, done [mirror g] n <-> done [g] n.
Proof.
  intros. unfold done. split; intros H h [<-|[]].
  - destruct (H (mirror g) (or_introl eq_refl)) as (j & J & P). exists j; split; [exact J|apply passed_mirror, P].
  - destruct (H g (or_introl eq_refl)) as (j & J & P). exists j; split; [exact J|apply passed_mirror, P].
Qed.

(** A strictly monotone function with value [target] at r gives a valley at r. *)
Lemma monotone_valley : forall f target r, fval f r = target ->
  ((forall x, 0 < fder f x) /\ (forall x y, x < y -> fval f x < fval f y)) \/
  ((forall x, fder f x < 0) /\ (forall x y, x < y -> fval f y < fval f x)) ->
  valley (tail_grad f target) r.
Proof.
  intros f target r <- H. unfold valley, tail_grad, sgn. repeat split.
  - intros x X. destruct H as [[D M]|[D M]]; specialize (M x r X); specialize (D x);
      destruct (Rlt_dec 0 (fval f x - fval f r)); try lra; destruct (Rlt_dec (fval f x - fval f r) 0); lra.
  - destruct (Rlt_dec 0 (fval f r - fval f r)); [lra|]. destruct (Rlt_dec (fval f r - fval f r) 0); [lra|]. ring.
  - intros x X. destruct H as [[D M]|[D M]]; specialize (M r x X); specialize (D x);
      destruct (Rlt_dec 0 (fval f x - fval f r)); try lra; destruct (Rlt_dec (fval f x - fval f r) 0); lra.
Qed.

Definition monotone (f : dfun) : Prop :=
  ((forall x, 0 < fder f x) /\ (forall x y, x < y -> fval f x < fval f y)) \/
  ((forall x, fder f x < 0) /\ (forall x y, x < y -> fval f y < fval f x)).

(** One strictly monotone function whose target is at least one step away from 0: if the call
    returns, the result is within 2.4 of the true quantile. *)
Theorem tails_accuracy : forall fuel f target r x, monotone f -> fval f r = target ->
  235 / 10000 <= Rabs r ->
  estimate_tails fuel [f] target = Ok [x] -> Rabs (x - r) < 24 / 10.
Proof.
  intros fuel f target r x M T R E. pose proof (monotone_valley f target r T M) as V.
  rewrite estimate_loop in E by discriminate.
  destruct (tail_loop fuel (grads [f] target) (map (fun g => traj g 0) (grads [f] target))) as [st|] eqn:L; [|discriminate].
  cbn [bind] in E. apply loop_iff in L as (n & _ & -> & D & B). cbn in E. rewrite traj_pos in E.
  injection E as <-. cbn [grads map] in D, B.
  set (g := tail_grad f target) in *.
  destruct (Rle_lt_dec 0 r) as [P|P].
  - rewrite Rabs_right in R by lra. apply (stop_near g r n V R D). intros i I. apply B. lia.
  - rewrite Rabs_left in R by lra.
    pose proof (stop_near (mirror g) (- r) n (valley_mirror g r V) R) as S.
    rewrite pos_mirror in S. replace (- pos g n - - r) with (- (pos g n - r)) in S by ring.
    rewrite Rabs_Ropp in S. apply S; [apply done_mirror, D|].
    intros i I Q. apply (B i); [lia|]. apply (proj1 (done_mirror g i) Q).
Qed.

(** Termination: gradients bounded away from 0 and from infinity on the way. *)
Lemma reaches : forall g r d M, valley g r -> 0 < r -> 0 < d ->
  (forall x, 0 <= x < r -> g x <= - d) -> (forall x, 0 <= x <= r -> Rabs (g x) <= M) -> 1 <= M ->
  exists n, r < pos g n.
Proof.
  intros g r d M V R D GD GM M1.
  set (s := 1 / 100 * (1 / 10 * d) / (M + 1)).
  assert (S0 : 0 < s) by (unfold s; apply Rdiv_lt_0_compat; lra).
  (* as long as the optimum is not exceeded, strictly, each step moves by at least s *)
  assert (K : forall n, (forall i, (i <= n)%nat -> pos g i < r) ->
              INR (S n) * s <= pos g (S n)).
  { intros n H.
    assert (J : forall i, (i <= S n)%nat -> let '(x, m, v) := adam g i in
              INR i * s <= x /\ m <= 0 /\ 0 < v <= M * M /\ ((0 < i)%nat -> m <= - (1 / 10 * d))).
    { intros i. induction i as [|i IH]; intros L.
      - cbn. repeat split; try lra; try nra. intros; lia.
      - specialize (IH ltac:(lia)). pose proof (H i ltac:(lia)) as P. unfold pos in P.
        rewrite S_INR. cbn [adam]. destruct (adam g i) as [[x m] v]. cbn [fst snd] in P.
        destruct IH as (X & Mm & (V0 & V1) & _).
        assert (X0 : 0 <= x) by (pose proof (pos_INR i); nra).
        pose proof (GD x ltac:(lra)) as G1. pose proof (GM x ltac:(lra)) as G2.
        assert (G3 : g x * g x <= M * M).
        { rewrite Rabs_left in G2 by lra. nra. }
        set (m' := 9 / 10 * m + 1 / 10 * g x). set (v' := 99 / 100 * v + 1 / 100 * (g x * g x)).
        assert (M' : m' <= - (1 / 10 * d)) by (unfold m'; lra).
        assert (V' : 0 < v' <= M * M) by (unfold v'; nra).
        assert (SQ : sqrt v' <= M).
        { rewrite <- (sqrt_square M) by lra. apply sqrt_le_1; lra. }
        pose proof (sqrt_pos v').
        assert (ST : s <= - (1 / 100 * m' / (sqrt v' + / 8388608))).
        { unfold s. replace (- (1 / 100 * m' / (sqrt v' + / 8388608))) with (1 / 100 * (- m') / (sqrt v' + / 8388608)) by (field; lra).
          unfold Rdiv. apply Rmult_le_compat; try lra.
          - apply Rlt_le, Rinv_0_lt_compat. lra.
          - apply Rinv_le_contravar; lra. }
        repeat split; try lra; intros; lra. }
    specialize (J (S n) ltac:(lia)). unfold pos. destruct (adam g (S n)) as [[x m] v]. cbn [fst]. lra. }
  destruct (archimed_cor1 (s / (r + 1))) as (N & N1 & N2); [apply Rdiv_lt_0_compat; lra|].
  assert (NS : r + 1 < INR N * s).
  { assert (0 < INR N) by (apply lt_0_INR; lia).
    apply Rmult_lt_compat_r with (r := INR N * (r + 1)) in N1; [|apply Rmult_lt_0_compat; lra].
    replace (/ INR N * (INR N * (r + 1))) with (r + 1) in N1 by (field; lra).
    replace (s / (r + 1) * (INR N * (r + 1))) with (INR N * s) in N1 by (field; lra). exact N1. }
  (* some iterate reaches r; exactly r counts as well, then the next one exceeds it *)
  assert (E : exists i, (i <= N)%nat /\ r <= pos g i /\ forall k, (k < i)%nat -> pos g k < r).
  { assert (D' : (exists i, (i <= N)%nat /\ r <= pos g i /\ forall k, (k < i)%nat -> pos g k < r)
               \/ (forall k, (k <= N)%nat -> pos g k < r)).
    { clear - N. induction N as [|n IH].
      - destruct (Rlt_le_dec (pos g 0) r) as [L|L]; [right; intros k K; replace k with 0%nat by lia; exact L|].
        left. exists 0%nat. split; [lia|]. split; [exact L|]. intros; lia.
      - destruct IH as [(i & I & P & Q)|A]; [left; exists i; split; [lia|]; auto|].
        destruct (Rlt_le_dec (pos g (S n)) r) as [L|L].
        + right. intros k K. destruct (Nat.eq_dec k (S n)) as [->|]; [exact L|apply A; lia].
        + left. exists (S n). split; [lia|]. split; [exact L|]. intros k K. apply A. lia. }
    destruct D' as [D'|A]; [exact D'|]. exfalso.
    pose proof (K N A) as B. rewrite S_INR in B.
    destruct N as [|N]; [lia|].
    pose proof (K N (fun i I => A i ltac:(lia))) as B'. pose proof (A (S N) ltac:(lia)). lra. }
  destruct E as (i & I & [P|P] & Q); [exists i; exact P|].
  (* landed exactly on r: the gradient is 0 there but the mean still pushes on *)
  exists (S i). destruct i as [|i]; [unfold pos in P; cbn in P; lra|].
  pose proof (climb g r (S i) V R) as C.
  assert (Q' : forall k, (k <= S i)%nat -> pos g k <= r).
  { intros k L. destruct (Nat.eq_dec k (S i)) as [->|]; [lra|]. apply Rlt_le, Q. lia. }
  pose proof (C Q' i ltac:(lia)) as C1.
  unfold pos in *. pose proof (adam_inv g (S (S i))) as IV.
  assert (XI : let '(x, _, _) := adam g i in x < r).
  { specialize (Q i ltac:(lia)). destruct (adam g i) as [[x m] v]. exact Q. }
  cbn [adam] in *. destruct (adam g i) as [[x m] v] eqn:E. cbn [fst snd] in *.
  destruct C1 as [X0 M0].
  set (m1 := 9 / 10 * m + 1 / 10 * g x) in *. set (v1 := 99 / 100 * v + 1 / 100 * (g x * g x)) in *.
  set (x1 := x - 1 / 100 * m1 / (sqrt v1 + / 8388608)) in *.
  destruct V as (VL & V0 & _). rewrite <- P, V0.
  assert (G : g x < 0) by (apply VL, XI).
  assert (m1 < 0) by (unfold m1; lra).
  set (v2 := 99 / 100 * v1 + 1 / 100 * (0 * 0)).
  assert (D2 : 0 < sqrt v2 + / 8388608) by (pose proof (sqrt_pos v2); lra).
  replace (1 / 100 * (9 / 10 * m1 + 1 / 10 * 0) / (sqrt v2 + / 8388608))
    with (- (9 / 1000 * (- m1 / (sqrt v2 + / 8388608)))) by (field; lra).
  assert (0 < - m1 / (sqrt v2 + / 8388608)) by (apply Rdiv_lt_0_compat; lra). lra.
Qed.

Lemma tail_grad_abs : forall f t x, Rabs (tail_grad f t x) <= Rabs (fder f x).
Proof.
  intros. unfold tail_grad, sgn. destruct (Rlt_dec 0 (fval f x - t)); [rewrite Rmult_1_l; lra|].
  destruct (Rlt_dec (fval f x - t) 0).
  - replace (-1 * fder f x) with (- fder f x) by ring. rewrite Rabs_Ropp. lra.
  - rewrite Rmult_0_l, Rabs_R0. apply Rabs_pos.
Qed.

(** It does return: enough iterations exist, for a strictly monotone function whose
    derivative is bounded away from 0 and infinity between 0 and the quantile. *)
Theorem tails_terminate : forall f target r d M, monotone f -> fval f r = target ->
  235 / 10000 <= Rabs r -> 0 < d ->
  (forall x, Rmin 0 r <= x <= Rmax 0 r -> d <= Rabs (fder f x) <= M) ->
  exists fuel x, estimate_tails fuel [f] target = Ok [x].
Proof.
  intros f target r d M MO T R D B. pose proof (monotone_valley f target r T MO) as V.
  set (g := tail_grad f target) in *.
  assert (GA : forall x, x <> r -> Rabs (g x) = Rabs (fder f x)).
  { intros x X. unfold g, tail_grad, sgn. rewrite <- T.
    assert (fval f x <> fval f r).
    { destruct (Rtotal_order x r) as [L|[L|L]]; [|lra|];
        destruct MO as [[_ MM]|[_ MM]]; specialize (MM _ _ L); lra. }
    destruct (Rlt_dec 0 (fval f x - fval f r)); [rewrite Rmult_1_l; reflexivity|].
    destruct (Rlt_dec (fval f x - fval f r) 0); [|lra].
    replace (-1 * fder f x) with (- fder f x) by ring. apply Rabs_Ropp. }
  assert (DONE : exists n, done [g] n).
  { assert (P : exists i, passed g i).
    { destruct (Rle_lt_dec 0 r) as [P|P].
      - rewrite Rabs_right in R by lra. rewrite Rmin_left, Rmax_right in B by lra.
        destruct (reaches g r d (Rmax M 1) V ltac:(lra) D) as (n & N).
        + intros x X. destruct (B x ltac:(lra)) as [B1 _]. rewrite <- GA in B1 by lra.
          destruct V as (VL & _). pose proof (VL x ltac:(lra)) as VX. rewrite Rabs_left in B1 by lra. lra.
        + intros x X. pose proof (tail_grad_abs f target x). fold g in H.
          destruct (B x X). pose proof (Rmax_l M 1). lra.
        + apply Rmax_r.
        + exists n. apply (passed_at g r); assumption.
      - rewrite Rabs_left in R by lra. rewrite Rmin_right, Rmax_left in B by lra.
        destruct (reaches (mirror g) (- r) d (Rmax M 1) (valley_mirror g r V) ltac:(lra) D) as (n & N).
        + intros x X. unfold mirror. destruct (B (- x) ltac:(lra)) as [B1 _]. rewrite <- GA in B1 by lra.
          destruct V as (_ & _ & VR). pose proof (VR (- x) ltac:(lra)) as VX. rewrite Rabs_right in B1 by lra. lra.
        + intros x X. unfold mirror. rewrite Rabs_Ropp. pose proof (tail_grad_abs f target (- x)). fold g in H.
          destruct (B (- x) ltac:(lra)). pose proof (Rmax_l M 1). lra.
        + apply Rmax_r.
        + exists n. apply passed_mirror. apply (passed_at (mirror g) (- r)); [apply valley_mirror, V|lra|exact N]. }
    destruct P as (i & P). exists (i + 100)%nat. intros h [<-|[]]. exists i. split; [lia|exact P]. }
  destruct DONE as (n & DN).
  (* the first such n is where the loop stops *)
  assert (F : exists k, (k <= n)%nat /\ done [g] k /\ forall i, (i < k)%nat -> ~ done [g] i).
  { revert DN. induction n as [n IH] using lt_wf_ind. intros DN.
    destruct (forallb (fun k => negb (forallb (fun e => 100 <=? cnt e)%nat (map (fun g => traj g k) [g]))) (seq 0 n)) eqn:E.
    - exists n. split; [lia|]. split; [exact DN|]. intros i I Q.
      rewrite forallb_forall in E. specialize (E i ltac:(apply in_seq; lia)).
      apply done_iff in Q. rewrite Q in E. discriminate.
    - assert (X : exists k, In k (seq 0 n) /\ forallb (fun e => 100 <=? cnt e)%nat (map (fun g => traj g k) [g]) = true).
      { clear - E. induction (seq 0 n) as [|a l IHl]; [discriminate|].
        cbn [forallb] in E. apply andb_false_iff in E as [E|E].
        - exists a. split; [left; reflexivity|]. apply negb_false_iff, E.
        - destruct (IHl E) as (k & K & Q). exists k. split; [right; exact K|exact Q]. }
      destruct X as (k & K & Q). apply in_seq in K. apply done_iff in Q.
      destruct (IH k ltac:(lia) Q) as (k' & A & B' & C). exists k'. split; [lia|]. auto. }
  destruct F as (k & _ & DK & MK). exists (S k), (pos g k).
  rewrite estimate_loop by discriminate. cbn [grads map]. fold g.
  assert (L : tail_loop (S k) [g] (map (fun g => traj g 0) [g]) = Ok (map (fun g => traj g k) [g])).
  { apply loop_iff. exists k. split; [lia|]. split; [reflexivity|]. split; [exact DK|].
    intros i I. apply MK. lia. }
  cbn [map] in L. rewrite L. cbn [bind map]. rewrite traj_pos. reflexivity.
Qed.

(** ** lower_tail and upper_tail *)

(** With an inverse of the distribution function, the two cut-offs leave exactly the
    requested mass outside. *)
Theorem tails_icdf : forall fuel F icdf ls us tail_mass,
  (forall q, 0 < q < 1 -> exists x, icdf q = Ok [x] /\ F x = q) -> 0 < tail_mass < 2 ->
  exists lo hi, lower_tail fuel icdf ls tail_mass = Ok [lo] /\
                upper_tail fuel icdf us tail_mass = Ok [hi] /\ F lo + (1 - F hi) = tail_mass.
Proof.
  intros fuel F icdf ls us tm I T.
  destruct (I (tm / 2) ltac:(lra)) as (lo & L & FL).
  destruct (I (1 - tm / 2) ltac:(lra)) as (hi & H & FH).
  exists lo, hi. unfold lower_tail, upper_tail, quantile_or_estimate. rewrite L, H.
  repeat split. lra.
Qed.

(** Without an inverse: a distribution that is neither Normal nor Uniform.  lower_tail searches
    the logarithm of the distribution function, and what it returns is within 2.4 of the
    quantile. *)
Theorem lower_tail_estimate : forall fuel F p icdf us tail_mass r x e,
  e = AttributeError \/ e = NotImplementedError ->
  (forall q, icdf q = Raise e) -> us = Ok [log_cdf_fun F p] ->
  (forall x, 0 < F x /\ 0 < p x) -> (forall x y, x < y -> F x < F y) ->
  0 < tail_mass -> F r = tail_mass / 2 -> 235 / 10000 <= Rabs r ->
  lower_tail fuel icdf us tail_mass = Ok [x] -> Rabs (x - r) < 24 / 10.
Proof.
  intros fuel F p icdf us tm r x e E I -> P M T FR R L.
  unfold lower_tail, quantile_or_estimate in L. rewrite I in L.
  assert (L' : estimate_tails fuel [log_cdf_fun F p] (ln (tm / 2)) = Ok [x]).
  { unfold math_log in L. destruct (Rlt_dec 0 (tm / 2)); [|lra].
    destruct E as [-> | ->]; exact L. }
  apply (tails_accuracy fuel (log_cdf_fun F p) (ln (tm / 2)) r x); [|cbn; rewrite FR; reflexivity|exact R|exact L'].
  left. cbn. split.
  - intros y. destruct (P y). apply Rdiv_lt_0_compat; assumption.
  - intros a b AB. apply ln_increasing; [apply P|apply M, AB].
Qed.

(** upper_tail of such a distribution never returns: it searches log(1 + cdf(-x)), which is
    never below 0, for a negative target. *)
Theorem upper_tail_diverges_refuted : forall fuel F p icdf tail_mass e,
  e = AttributeError \/ e = NotImplementedError ->
  (forall q, icdf q = Raise e) ->
  (forall x, 0 <= F x <= 1 /\ 0 <= p x) -> 0 < tail_mass < 1 ->
  upper_tail fuel icdf (Ok [log_sf_fun F p]) tail_mass = Raise Diverges.
Proof.
  intros fuel F p icdf tm e E I P T.
  unfold upper_tail, quantile_or_estimate. rewrite I.
  assert (H : estimate_tails fuel [log_sf_fun F p] (ln (tm / 2)) = Raise Diverges).
  2:{ unfold math_log. destruct (Rlt_dec 0 (tm / 2)); [|lra]. destruct E as [-> | ->]; exact H. }
  apply tails_never_return; [discriminate|].
  exists (log_sf_fun F p). split; [left; reflexivity|].
  set (g := tail_grad (log_sf_fun F p) (ln (tm / 2))).
  assert (G : forall x, g x <= 0).
  { intros x. unfold g, tail_grad, log_sf_fun, sgn. cbn [fval fder].
    destruct (P (- x)) as [PF PP].
    assert (L0 : 0 <= ln (1 + F (- x))).
    { rewrite <- ln_1. destruct (Req_dec (F (- x)) 0) as [->|N]; [right; f_equal; lra|].
      apply Rlt_le, ln_increasing; lra. }
    assert (L1 : ln (tm / 2) < 0) by (rewrite <- ln_1; apply ln_increasing; lra).
    destruct (Rlt_dec 0 (ln (1 + F (- x)) - ln (tm / 2))); [|lra].
    assert (0 <= p (- x) / (1 + F (- x))).
    { apply Rmult_le_pos; [exact PP|]. apply Rlt_le, Rinv_0_lt_compat. lra. }
    unfold Rdiv in *. lra. }
  assert (C : forall n, let '(x, m, _) := adam g n in 0 <= x /\ m <= 0).
  { intros n. induction n as [|n IH]; [cbn; lra|]. cbn [adam].
    destruct (adam g n) as [[x m] v]. destruct IH as [X M]. pose proof (G x) as GX.
    set (v' := 99 / 100 * v + 1 / 100 * (g x * g x)).
    assert (D : 0 < sqrt v' + / 8388608) by (pose proof (sqrt_pos v'); lra).
    split; [|lra].
    assert (0 <= - (9 / 10 * m + 1 / 10 * g x) / (sqrt v' + / 8388608)).
    { apply Rmult_le_pos; [lra|]. apply Rlt_le, Rinv_0_lt_compat, D. }
    replace (1 / 100 * (9 / 10 * m + 1 / 10 * g x) / (sqrt v' + / 8388608))
      with (- (1 / 100 * (- (9 / 10 * m + 1 / 10 * g x) / (sqrt v' + / 8388608)))) by (field; lra). lra. }
  intros j Q. unfold passed in Q. pose proof (C (S j)) as CJ. unfold pos at 2 in Q.
  destruct (adam g (S j)) as [[x m] v]. cbn [fst] in Q. pose proof (G (pos g j)). nra.
Qed.

(** ** Concrete cases *)

Definition idf : dfun := mkDF (fun x => x) (fun _ => 1).
Lemma idf_monotone : monotone idf.
Proof. left. cbn. split; intros; lra. Qed.

(** The hypotheses of [tails_terminate] and [tails_accuracy] are met together. *)
Example tails_identity : exists fuel x, estimate_tails fuel [idf] 3 = Ok [x] /\ Rabs (x - 3) < 24 / 10.
Proof.
  destruct (tails_terminate idf 3 3 1 1) as (fuel & x & E);
    try (cbn; rewrite ?Rabs_R1; intros; lra).
  - apply idf_monotone.
  - rewrite Rabs_right; lra.
  - exists fuel, x. split; [exact E|].
    apply (tails_accuracy fuel idf 3 3 x); [apply idf_monotone|reflexivity|rewrite Rabs_right; lra|exact E].
Qed.

(** The logistic distribution: neither Normal nor Uniform, with no icdf of its own. *)
Definition logistic (x : R) : R := / (1 + exp (- x)).
Definition logistic_pdf (x : R) : R := logistic x * (1 - logistic x).
Lemma logistic_range : forall x, 0 < logistic x < 1.
Proof.
  intros x. unfold logistic. pose proof (exp_pos (- x)). split; [apply Rinv_0_lt_compat; lra|].
  rewrite <- Rinv_1. apply Rinv_lt_contravar; lra.
Qed.
Lemma logistic_incr : forall x y, x < y -> logistic x < logistic y.
Proof.
  intros x y L. unfold logistic. pose proof (exp_pos (- x)). pose proof (exp_pos (- y)).
  apply Rinv_lt_contravar; [apply Rmult_lt_0_compat; lra|].
  pose proof (exp_increasing (- y) (- x) ltac:(lra)). lra.
Qed.
Example upper_tail_logistic : forall fuel,
  upper_tail fuel (fun _ => Raise NotImplementedError) (Ok [log_sf_fun logistic logistic_pdf]) (1 / 100)
  = Raise Diverges.
Proof.
  intros fuel. apply (upper_tail_diverges_refuted fuel logistic logistic_pdf _ (1 / 100) NotImplementedError); auto; [|lra].
  intros x. pose proof (logistic_range x). unfold logistic_pdf. split; [lra|]. nra.
Qed.
Example lower_tail_logistic : exists fuel x,
  lower_tail fuel (fun _ => Raise NotImplementedError) (Ok [log_cdf_fun logistic logistic_pdf]) (2 / (1 + exp 5)) = Ok [x]
  /\ Rabs (x - -5) < 24 / 10.
Proof.
  assert (FR : logistic (-5) = 2 / (1 + exp 5) / 2).
  { unfold logistic. replace (- -5) with 5 by lra. pose proof (exp_pos 5). field. lra. }
  assert (TP : 0 < 2 / (1 + exp 5)) by (apply Rdiv_lt_0_compat; [lra|pose proof (exp_pos 5); lra]).
  destruct (tails_terminate (log_cdf_fun logistic logistic_pdf) (ln (2 / (1 + exp 5) / 2)) (-5) (1 - logistic 0) 1)
    as (fuel & x & E).
  - left. cbn. split.
    + intros y. pose proof (logistic_range y). unfold logistic_pdf. apply Rdiv_lt_0_compat; nra.
    + intros a b L. apply ln_increasing; [apply logistic_range|apply logistic_incr, L].
  - cbn. rewrite FR. reflexivity.
  - rewrite Rabs_left; lra.
  - pose proof (logistic_range 0). lra.
  - intros y Y. rewrite Rmin_right, Rmax_left in Y by lra. cbn. pose proof (logistic_range y) as B.
    replace (logistic_pdf y / logistic y) with (1 - logistic y) by (unfold logistic_pdf; field; lra).
    rewrite Rabs_right by lra. split; [|lra].
    destruct (Req_dec y 0) as [->|N]; [lra|]. pose proof (logistic_incr y 0 ltac:(lra)). lra.
  - exists fuel, x. assert (L : lower_tail fuel (fun _ => Raise NotImplementedError) (Ok [log_cdf_fun logistic logistic_pdf]) (2 / (1 + exp 5)) = Ok [x]).
    { unfold lower_tail, quantile_or_estimate, math_log. destruct (Rlt_dec 0 (2 / (1 + exp 5) / 2)); [exact E|lra]. }
    split; [exact L|].
    apply (lower_tail_estimate fuel logistic logistic_pdf (fun _ => Raise NotImplementedError) (Ok [log_cdf_fun logistic logistic_pdf]) (2 / (1 + exp 5)) (-5) x NotImplementedError); auto.
    + intros y. pose proof (logistic_range y). unfold logistic_pdf. split; nra.
    + apply logistic_incr.
    + rewrite Rabs_left; lra.
Qed.

Print Assumptions tails_return.
Print Assumptions tails_never_return.
Print Assumptions tails_flat_refuted.
Print Assumptions tails_step_bound.
Print Assumptions tails_accuracy.
Print Assumptions tails_terminate.
Print Assumptions tails_icdf.
Print Assumptions lower_tail_estimate.
Print Assumptions upper_tail_diverges_refuted.

(** What is refused when the tails have to be estimated: a mass that is not positive, and a
    distribution without elements. *)
Theorem tails_refused : forall fuel icdf fs tail_mass e,
  e = AttributeError \/ e = NotImplementedError -> (forall q, icdf q = Raise e) ->
  (tail_mass <= 0 -> lower_tail fuel icdf fs tail_mass = Raise ValueError /\ upper_tail fuel icdf fs tail_mass = Raise ValueError) /\
  (0 < tail_mass -> lower_tail fuel icdf (Ok []) tail_mass = Raise RuntimeError /\ upper_tail fuel icdf (Ok []) tail_mass = Raise RuntimeError).
Proof.
  intros fuel icdf fs tm e E I. unfold lower_tail, upper_tail. rewrite !I. unfold quantile_or_estimate, math_log.
  split; intro H; (destruct (Rlt_dec 0 (tm / 2)); [|]); try lra; destruct E as [-> | ->]; split; reflexivity.
Qed.
Print Assumptions tails_refused.

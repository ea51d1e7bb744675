(** The gradients at the quantisers (Grad_Model.v). *)
From Coq Require Import Reals List Bool Arith ZArith Lia Lra FunctionalExtensionality.
From Coquelicot Require Import Coquelicot.
From Verif Require Import Base Tensor RBase RSum Gauss Vqb_Model Grad_Model.
Import ListNotations.
Open Scope nat_scope.
Open Scope R_scope.

(** ** What [back] is: the derivative, with every detached or rounded part held at its value *)

(** The value of [e] at [env], with the parts under a detach or a round held at their values at
    [env0]. *)
Fixpoint held (env0 env : nat -> R) (e : expr) : R :=
  match e with
  | Var n => env n
  | Cst r => r
  | Add a b => held env0 env a + held env0 env b
  | Sub a b => held env0 env a - held env0 env b
  | Mul a b => held env0 env a * held env0 env b
  | Div a b => held env0 env a / held env0 env b
  | Fn f _ a => f (held env0 env a)
  | Max a b => Rmax (held env0 env a) (held env0 env b)
  | Min a b => Rmin (held env0 env a) (held env0 env b)
  | IfPos c a b => if Rlt_dec 0 (held env0 env c) then held env0 env a else held env0 env b
  | Detach a => eval env0 a
  | Round a => eval env0 (Round a)
  | Bound r a => Rmax (held env0 env a) r
  | Let x a b => held (upd env0 x (eval env0 a)) (upd env x (held env0 env a)) b
  end.

(** No operation is used where it has no derivative (nothing is required under a detach or a
    round). *)
Fixpoint smooth (env : nat -> R) (e : expr) : Prop :=
  match e with
  | Var _ | Cst _ | Detach _ | Round _ => True
  | Add a b | Sub a b | Mul a b => smooth env a /\ smooth env b
  | Div a b => smooth env a /\ smooth env b /\ eval env b <> 0
  | Fn f f' a => smooth env a /\ is_derive f (eval env a) (f' (eval env a))
  | Max a b | Min a b => smooth env a /\ smooth env b /\ eval env a <> eval env b
  | IfPos c a b => smooth env c /\ eval env c <> 0 /\ (if Rlt_dec 0 (eval env c) then smooth env a else smooth env b)
  | Bound r a => smooth env a /\ r < eval env a
  | Let x a b => smooth env a /\ smooth (upd env x (eval env a)) b
  end.

Lemma held_refl : forall e env, held env env e = eval env e.
Proof.
  induction e; intros env; cbn [held eval]; rewrite ?IHe, ?IHe1, ?IHe2, ?IHe3; try reflexivity.
Qed.

(** The derivative of the value along a direction. *)
Fixpoint tang (env D : nat -> R) (e : expr) : R :=
  match e with
  | Var n => D n
  | Cst _ | Detach _ | Round _ => 0
  | Add a b => tang env D a + tang env D b
  | Sub a b => tang env D a - tang env D b
  | Mul a b => tang env D a * eval env b + eval env a * tang env D b
  | Div a b => (tang env D a * eval env b - eval env a * tang env D b) / (eval env b * eval env b)
  | Fn _ f' a => f' (eval env a) * tang env D a
  | Max a b => if Rlt_dec (eval env b) (eval env a) then tang env D a else tang env D b
  | Min a b => if Rlt_dec (eval env a) (eval env b) then tang env D a else tang env D b
  | IfPos c a b => if Rlt_dec 0 (eval env c) then tang env D a else tang env D b
  | Bound _ a => tang env D a
  | Let x a b => tang (upd env x (eval env a)) (upd D x (tang env D a)) b
  end.

Lemma locally_pos (f : R -> R) t0 d : is_derive f t0 d -> 0 < f t0 -> locally t0 (fun t => 0 < f t).
Proof.
  intros H P. assert (C : continuous f t0) by (apply (ex_derive_continuous f); exists d; exact H).
  apply (C (fun y => 0 < y)). exists (mkposreal (f t0) P). intros y Y.
  unfold ball in Y; cbn in Y; unfold AbsRing_ball, abs, minus, plus, opp in Y; cbn in Y.
  apply Rabs_def2 in Y. lra.
Qed.
Lemma locally_lt (f g : R -> R) t0 d d' : is_derive f t0 d -> is_derive g t0 d' -> f t0 < g t0 ->
  locally t0 (fun t => f t < g t).
Proof.
  intros F G L. eapply filter_imp; [|apply (locally_pos (fun t => g t - f t) t0 (d' - d))].
  - intros t T. cbn in T. lra.
  - apply (is_derive_minus g f); assumption.
  - lra.
Qed.

Lemma tang_correct : forall e (E : R -> nat -> R) D t0, (forall n, is_derive (fun t => E t n) t0 (D n)) ->
  smooth (E t0) e -> is_derive (fun t => held (E t0) (E t) e) t0 (tang (E t0) D e).
Proof.
  induction e; intros E D t0 HE HS; cbn [held tang smooth] in *.
  - apply HE.
  - apply @is_derive_const.
  - destruct HS as [A B]. apply (is_derive_plus _ _ _ _ _ (IHe1 _ _ _ HE A) (IHe2 _ _ _ HE B)).
  - destruct HS as [A B]. apply (is_derive_minus _ _ _ _ _ (IHe1 _ _ _ HE A) (IHe2 _ _ _ HE B)).
  - destruct HS as [A B]. pose proof (is_derive_mult _ _ _ _ _ (IHe1 _ _ _ HE A) (IHe2 _ _ _ HE B) Rmult_comm) as M.
    unfold plus, mult in M; cbn in M. rewrite !held_refl in M. exact M.
  - destruct HS as (A & B & NZ). rewrite <- (held_refl e2) in NZ.
    pose proof (is_derive_div _ _ _ _ _ (IHe1 _ _ _ HE A) (IHe2 _ _ _ HE B) NZ) as M. cbv beta in M.
    rewrite !held_refl in M. replace (eval (E t0) e2 * eval (E t0) e2) with (eval (E t0) e2 ^ 2) by ring. exact M.
  - destruct HS as [A B]. rewrite <- (held_refl e) in B.
    pose proof (is_derive_comp f _ _ _ _ B (IHe _ _ _ HE A)) as M. unfold scal in M; cbn in M; unfold mult in M; cbn in M.
    rewrite (held_refl e), (Rmult_comm (tang _ _ _)) in M. exact M.
  - destruct HS as (A & B & NE). pose proof (IHe1 _ _ _ HE A) as I1. pose proof (IHe2 _ _ _ HE B) as I2.
    rewrite <- (held_refl e1), <- (held_refl e2) in NE |- *. destruct (Rlt_dec _ _) as [L|L].
    + apply (is_derive_ext_loc (fun t => held (E t0) (E t) e1)); [|rewrite !held_refl in *; exact I1].
      eapply filter_imp; [|apply (locally_lt _ _ _ _ _ I2 I1 L)]. intros t T. cbn in T. rewrite Rmax_left; lra.
    + assert (L' : held (E t0) (E t0) e1 < held (E t0) (E t0) e2) by lra.
      apply (is_derive_ext_loc (fun t => held (E t0) (E t) e2)); [|exact I2].
      eapply filter_imp; [|apply (locally_lt _ _ _ _ _ I1 I2 L')]. intros t T. cbn in T. rewrite Rmax_right; lra.
  - destruct HS as (A & B & NE). pose proof (IHe1 _ _ _ HE A) as I1. pose proof (IHe2 _ _ _ HE B) as I2.
    rewrite <- (held_refl e1), <- (held_refl e2) in NE |- *. destruct (Rlt_dec _ _) as [L|L].
    + apply (is_derive_ext_loc (fun t => held (E t0) (E t) e1)); [|exact I1].
      eapply filter_imp; [|apply (locally_lt _ _ _ _ _ I1 I2 L)]. intros t T. cbn in T. rewrite Rmin_left; lra.
    + assert (L' : held (E t0) (E t0) e2 < held (E t0) (E t0) e1) by lra.
      apply (is_derive_ext_loc (fun t => held (E t0) (E t) e2)); [|exact I2].
      eapply filter_imp; [|apply (locally_lt _ _ _ _ _ I2 I1 L')]. intros t T. cbn in T. rewrite Rmin_right; lra.
  - destruct HS as (C & NE & B). pose proof (IHe1 _ _ _ HE C) as I1. destruct (Rlt_dec 0 (eval (E t0) e1)) as [L|L].
    + apply (is_derive_ext_loc (fun t => held (E t0) (E t) e2)); [|apply IHe2; assumption].
      rewrite <- held_refl in L. eapply filter_imp; [|apply (locally_pos _ _ _ I1 L)].
      intros t T. cbn in T. destruct (Rlt_dec 0 _); [reflexivity|lra].
    + apply (is_derive_ext_loc (fun t => held (E t0) (E t) e3)); [|apply IHe3; assumption].
      assert (L' : 0 < - held (E t0) (E t0) e1) by (rewrite held_refl; lra).
      eapply filter_imp; [|apply (locally_pos (fun t => - held (E t0) (E t) e1) _ _ (is_derive_opp _ _ _ I1) L')].
      intros t T. cbn in T. destruct (Rlt_dec 0 _); [lra|reflexivity].
  - apply @is_derive_const.
  - apply @is_derive_const.
  - destruct HS as [A B]. pose proof (IHe _ _ _ HE A) as I1.
    apply (is_derive_ext_loc (fun t => held (E t0) (E t) e)); [|exact I1].
    rewrite <- held_refl in B.
    eapply filter_imp; [|apply (locally_lt (fun _ => r) _ _ _ _ (is_derive_const r t0) I1 B)].
    intros t T. cbn in T. rewrite Rmax_left; lra.
  - destruct HS as [A B]. pose proof (IHe1 _ _ _ HE A) as I1.
    set (E' := fun t => upd (E t) x (held (E t0) (E t) e1)).
    assert (Q : E' t0 = upd (E t0) x (eval (E t0) e1)) by (unfold E'; rewrite held_refl; reflexivity).
    pose proof (IHe2 E' (upd D x (tang (E t0) D e1)) t0) as I2. rewrite Q in I2. apply I2; [|exact B].
    intros n. unfold E', upd. destruct (n =? x)%nat; [exact I1|apply HE].
Qed.

(** All variables of an expression are below [N]. *)
Fixpoint below (N : nat) (e : expr) : Prop :=
  match e with
  | Var n => (n < N)%nat
  | Cst _ => True
  | Add a b | Sub a b | Mul a b | Div a b | Max a b | Min a b => below N a /\ below N b
  | IfPos c a b => below N c /\ below N a /\ below N b
  | Fn _ _ a | Detach a | Round a | Bound _ a => below N a
  | Let x a b => (x < N)%nat /\ below N a /\ below N b
  end.
Lemma below_mono : forall e N M, (N <= M)%nat -> below N e -> below M e.
Proof. induction e; intros N M H B; cbn [below] in *; intuition (eauto; lia). Qed.
Lemma below_some : forall e, exists N, below N e.
Proof.
  assert (two : forall a b, (exists N, below N a) -> (exists N, below N b) -> exists N, below N a /\ below N b).
  { intros a b [N A] [M B]. exists (N + M)%nat. split; eapply below_mono; try eassumption; lia. }
  induction e; cbn [below]; try (destruct IHe as [N H]; exists N; exact H);
    try (apply two; assumption).
  - exists (S n). lia.
  - exists O. exact I.
  - destruct (two _ _ IHe2 IHe3) as (N & A & B), IHe1 as [M C]. exists (N + M)%nat.
    repeat split; eapply below_mono; try eassumption; lia.
  - destruct (two _ _ IHe1 IHe2) as (N & A & B). exists (N + S x)%nat.
    repeat split; [lia| |]; eapply below_mono; try eassumption; lia.
Qed.

Lemma rsum_ind N i f : (i < N)%nat -> rsum N (fun n => (if (n =? i)%nat then f else 0)) = f.
Proof.
  intros L. rewrite (rsum_single N _ i L); [rewrite Nat.eqb_refl; reflexivity|].
  intros n _ NE. apply Nat.eqb_neq in NE. rewrite NE. reflexivity.
Qed.

Lemma duality : forall e env D g N, below N e -> smooth env e ->
  rsum N (fun n => back env e g n * D n) = g * tang env D e.
Proof.
  induction e; intros env D g N B HS; cbn [below smooth back tang] in *.
  - rewrite (rsum_ext N _ (fun i => if (i =? n)%nat then g * D n else 0)).
    + apply rsum_ind, B.
    + intros i _. destruct (Nat.eqb_spec i n); subst; ring.
  - rewrite rsum_zero; [ring|intros; ring].
  - destruct B, HS. rewrite (rsum_ext N _ (fun n => back env e1 g n * D n + back env e2 g n * D n)) by (intros; ring).
    rewrite rsum_plus, IHe1, IHe2 by assumption. ring.
  - destruct B, HS. rewrite (rsum_ext N _ (fun n => back env e1 g n * D n + back env e2 (- g) n * D n)) by (intros; ring).
    rewrite rsum_plus, IHe1, IHe2 by assumption. ring.
  - destruct B, HS. rewrite (rsum_ext N _ (fun n => back env e1 (g * eval env e2) n * D n + back env e2 (g * eval env e1) n * D n)) by (intros; ring).
    rewrite rsum_plus, IHe1, IHe2 by assumption. ring.
  - destruct B, HS as (? & ? & NZ).
    rewrite (rsum_ext N _ (fun n => back env e1 (g / eval env e2) n * D n + back env e2 (- (g * eval env e1 / (eval env e2 * eval env e2))) n * D n)) by (intros; ring).
    rewrite rsum_plus, IHe1, IHe2 by assumption. field. exact NZ.
  - destruct HS. rewrite IHe by assumption. ring.
  - destruct B, HS as (? & ? & NE).
    rewrite (rsum_ext N _ (fun n => back env e1 (share (eval env e1) (eval env e2) g) n * D n + back env e2 (share (eval env e2) (eval env e1) g) n * D n)) by (intros; ring).
    rewrite rsum_plus, IHe1, IHe2 by assumption. unfold share.
    repeat (destruct (Req_EM_T _ _); [congruence|]). repeat destruct (Rlt_dec _ _); try lra; ring.
  - destruct B, HS as (? & ? & NE).
    rewrite (rsum_ext N _ (fun n => back env e1 (share (eval env e2) (eval env e1) g) n * D n + back env e2 (share (eval env e1) (eval env e2) g) n * D n)) by (intros; ring).
    rewrite rsum_plus, IHe1, IHe2 by assumption. unfold share.
    repeat (destruct (Req_EM_T _ _); [congruence|]). repeat destruct (Rlt_dec _ _); try lra; ring.
  - destruct B as (? & ? & ?), HS as (? & ? & HS). destruct (Rlt_dec _ _); auto.
  - rewrite rsum_zero; [ring|intros; ring].
  - rewrite rsum_zero; [ring|intros; ring].
  - destruct HS as [HS L]. destruct (Rle_dec _ _); [|lra]. auto.
  - destruct B as (X & ? & ?), HS as [? S2]. set (env' := upd env x (eval env e1)) in *.
    rewrite (rsum_ext N _ (fun n => (if (n =? x)%nat then 0 else back env' e2 g n) * D n + back env e1 (back env' e2 g x) n * D n)) by (intros; ring).
    rewrite rsum_plus, IHe1 by assumption. rewrite <- (IHe2 env' (upd D x (tang env D e1)) g N) by assumption.
    rewrite (rsum_ext N (fun n => back env' e2 g n * upd D x (tang env D e1) n)
               (fun n => (if (n =? x)%nat then 0 else back env' e2 g n) * D n
                         + (if (n =? x)%nat then back env' e2 g x * tang env D e1 else 0))).
    + rewrite rsum_plus. f_equal. symmetry. apply rsum_ind, X.
    + intros n _. unfold upd. destruct (Nat.eqb_spec n x); subst; ring.
Qed.

Lemma upd_id (env : nat -> R) i : upd env i (env i) = env.
Proof. apply functional_extensionality. intros n. unfold upd. destruct (Nat.eqb_spec n i); subst; reflexivity. Qed.

(** backward() of [e] gives every variable [g] times the derivative of [e]'s value with every
    detached or rounded part held fixed. *)
Theorem C96_autograd : forall e env i g, smooth env e ->
  exists d, is_derive (fun t => held env (upd env i t) e) (env i) d /\ held env (upd env i (env i)) e = eval env e /\
            back env e g i = g * d.
Proof.
  intros e env i g HS. exists (tang env (fun n => if (n =? i)%nat then 1 else 0) e).
  assert (T : is_derive (fun t => held env (upd env i t) e) (env i) (tang env (fun n => if (n =? i)%nat then 1 else 0) e)).
  { pose proof (tang_correct e (fun t => upd env i t) (fun n => if (n =? i)%nat then 1 else 0) (env i)) as T.
    cbv beta in T. rewrite upd_id in T. apply T; [|exact HS].
    intros n. unfold upd. destruct (n =? i)%nat; [apply @is_derive_id|apply @is_derive_const]. }
  split; [exact T|]. split; [rewrite upd_id; apply held_refl|].
  destruct (below_some e) as [N B]. set (M := (N + S i)%nat).
  rewrite <- (duality e env _ g M) by first [exact HS | apply (below_mono e N M); [unfold M; lia|exact B]].
  rewrite (rsum_ext M _ (fun n => if (n =? i)%nat then back env e g i else 0)).
  - symmetry. apply rsum_ind. unfold M; lia.
  - intros n _. destruct (Nat.eqb_spec n i); subst; ring.
Qed.
Print Assumptions C96_autograd.

Example autograd_example : let e := Let 1 (Mul (Var 0) (Detach (Round (Var 0)))) (Bound 0 (Square (Var 1))) in
  smooth (fun _ => 2.25) e /\ back (fun _ => 2.25) e 1 0 = 18.
Proof.
  assert (Q : round_even 2.25 = 2%Z) by (apply round_even_unique; rewrite Rabs_pos_eq; lra).
  cbn -[round_even]. unfold upd; cbn -[round_even]. rewrite Q. split.
  - split; [tauto|]. split; [|lra]. split; [exact I|]. auto_derive; [exact I|]. lra.
  - destruct (Rle_dec _ _); [cbn|]; lra.
Qed.

(** ** Straight-through rounding *)

Lemma back_zero : forall e env i, back env e 0 i = 0.
Proof.
  assert (sh : forall a b, share a b 0 = 0) by (intros; unfold share; destruct (Req_EM_T a b); [lra|]; destruct (Rlt_dec b a); reflexivity).
  induction e; intros env i; cbn [back]; rewrite ?Rmult_0_l, ?Ropp_0, ?sh, ?IHe1, ?IHe2, ?IHe; try lra.
  - destruct (i =? n)%nat; reflexivity.
  - unfold Rdiv. rewrite !Rmult_0_l, Ropp_0, IHe1, IHe2. lra.
  - destruct (Rlt_dec _ _); auto.
  - destruct (Rle_dec _ _); [auto|]. destruct (Rlt_dec _ _); [lra|reflexivity].
  - rewrite IHe1. destruct (i =? x)%nat; lra.
Qed.

Lemma let_back env x a b g i : back env (Let x a b) g i =
  (if (i =? x)%nat then 0 else back (upd env x (eval env a)) b g i) + back env a (back (upd env x (eval env a)) b g x) i.
Proof. reflexivity. Qed.
Lemma back_round_st : forall env n g i, back env (round_st (Var n)) g i = if (i =? n)%nat then g else 0.
Proof. intros. cbn. lra. Qed.

(** The variable [x] is used (outside any detach) by [e]. *)
Fixpoint uses (x : nat) (e : expr) : Prop :=
  match e with
  | Var n => n = x
  | Cst _ | Detach _ | Round _ => False
  | Add a b | Sub a b | Mul a b | Div a b | Max a b | Min a b => uses x a \/ uses x b
  | IfPos _ a b => uses x a \/ uses x b
  | Fn _ _ a | Bound _ a => uses x a
  | Let y a b => uses x a \/ (y <> x /\ uses x b)
  end.
Lemma back_unused : forall e x env g, ~ uses x e -> back env e g x = 0.
Proof.
  induction e; intros y env g U; cbn [uses back] in *; try lra;
    try (rewrite IHe1, IHe2 by tauto; lra); try (apply IHe; assumption).
  - destruct (Nat.eqb_spec y n); [congruence|reflexivity].
  - destruct (Rlt_dec _ _); [apply IHe2|apply IHe3]; tauto.
  - destruct (Rle_dec _ _); [auto|]. destruct (Rlt_dec _ _); [auto|reflexivity].
  - rewrite IHe1 by tauto. destruct (Nat.eqb_spec y x); [lra|]. rewrite IHe2 by (intro; apply U; right; split; congruence). lra.
Qed.

(** _ste_quantize: the value is rounded (around the mean if there is one); the gradient goes to
    the latent as it is, and none goes to the mean. *)
Theorem C96_ste : forall env l m g i, l <> m ->
  eval env (ste_quantize (Var l) None) = IZR (round_even (env l)) /\
  back env (ste_quantize (Var l) None) g i = (if (i =? l)%nat then g else 0) /\
  eval env (ste_quantize (Var l) (Some (Var m))) = IZR (round_even (env l - env m)) + env m /\
  back env (ste_quantize (Var l) (Some (Var m))) g i = (if (i =? l)%nat then g else 0).
Proof.
  intros env l m g i NE. cbn. repeat split; try lra. destruct (Nat.eqb_spec i l), (Nat.eqb_spec i m); subst; try lra; congruence.
Qed.
Print Assumptions C96_ste.

(** Training HiFiC: whatever the networks are, a parameter's gradient is what the decoder (and
    the loss after it) gives it directly, plus what the encoder passes on of the gradient at the
    rounded latent; nothing goes through the predicted mean. *)
Theorem C96_hific : forall env latent means quantized loss vl vm z g i,
  vl <> vm -> ~ uses vl loss -> ~ uses vm loss -> i <> z -> i <> vl -> i <> vm -> z <> vl -> z <> vm ->
  let l := eval env latent in
  let env1 := upd env vl l in
  let m := eval env1 means in
  let env2 := upd (upd env1 vm m) z (IZR (round_even (l - m)) + m) in
  let whole := Let vl latent (Let vm means (Let z (hific_latent true vl vm quantized) loss)) in
  eval env whole = eval env2 loss /\
  back env whole g i = back env2 loss g i + back env latent (back env2 loss g z) i.
Proof.
  intros env latent means quantized loss vl vm z g i NE UL UM IZ IL IM ZL ZM. cbn zeta.
  set (l := eval env latent). set (env1 := upd env vl l). set (m := eval env1 means). set (env1m := upd env1 vm m).
  assert (Q : eval env1m (hific_latent true vl vm quantized) = IZR (round_even (l - m)) + m).
  { cbn. unfold env1m, env1, upd. rewrite !Nat.eqb_refl. apply Nat.eqb_neq in NE. rewrite NE. lra. }
  cbn [eval]. fold l env1 m env1m. rewrite Q. split; [reflexivity|].
  cbn [back]. fold l env1 m env1m. rewrite Q. set (env2 := upd env1m z _).
  assert (B : forall gg k, back env1m (hific_latent true vl vm quantized) gg k = if (k =? vl)%nat then gg else 0).
  { intros gg k. apply (C96_ste env1m vl vm gg k NE). }
  rewrite !B. apply Nat.eqb_neq in IZ, IL, IM. rewrite IZ, IL, IM.
  assert (M0 : (if (vm =? z)%nat then 0 else back env2 loss g vm) + (if (vm =? vl)%nat then back env2 loss g z else 0) = 0).
  { rewrite (back_unused loss vm) by exact UM. destruct (Nat.eqb_spec vm vl); [congruence|]. destruct (vm =? z)%nat; lra. }
  rewrite M0, !back_zero. rewrite (back_unused loss vl) by exact UL.
  apply Nat.eqb_neq in NE. rewrite NE, Nat.eqb_refl. destruct (Nat.eqb_spec vl z); [congruence|].
  replace (0 + back env2 loss g z + 0) with (back env2 loss g z) by lra. lra.
Qed.
Print Assumptions C96_hific.

(** The likelihoods of the rounded latents, which the caller may report or put in a loss, never
    carry a gradient. *)
Theorem C96_quantized_likelihoods : forall env e g i,
  eval env (quantized_likelihoods e) = eval env e /\ back env (quantized_likelihoods e) g i = 0.
Proof. split; reflexivity. Qed.
Print Assumptions C96_quantized_likelihoods.

(** The gradients between the frames of a video (Grad_Model.v, section Pipeline). *)
From Coq Require Import Reals List Bool Arith ZArith Lia Lra FinFun.
From Verif Require Import Base Tensor RBase Grad_Model Grad_Props.
Import ListNotations.
Open Scope nat_scope.
Open Scope R_scope.

(** An entry through which gradients go straight to the variable [v], or (with [None]) nowhere. *)
Definition straight (e : expr) (v : option nat) : Prop :=
  forall env g i, back env e g i = match v with Some n => if (i =? n)%nat then g else 0 | None => 0 end.

Section Chain.

(** A list of bindings, each of them straight: the gradient of [i] is the body's own plus that of
    every name bound to [i]. *)
Fixpoint through (l : list (nat * option nat)) (gb : nat -> R) (i : nat) : R :=
  match l with
  | [] => 0
  | (x, v) :: l => (match v with Some n => if (n =? i)%nat then gb x else 0 | None => 0 end) + through l gb i
  end.
Lemma chain : forall (l : list (nat * expr)) (ts : list (option nat)) e env g,
  Forall2 (fun p v => straight (snd p) v) l ts -> NoDup (map fst l) ->
  (forall x v, In (Some v) ts -> In x (map fst l) -> x <> v) ->
  exists env', (forall n, ~ In n (map fst l) -> env' n = env n) /\
    (forall p, In p l -> exists env'', env' (fst p) = eval env'' (snd p)) /\
    forall i, ~ In i (map fst l) ->
    back env (fold_right (fun p e => Let (fst p) (snd p) e) e l) g i =
    back env' e g i + through (combine (map fst l) ts) (back env' e g) i.
Proof.
  assert (main : forall (l : list (nat * expr)) (ts : list (option nat)) e env g,
    Forall2 (fun p v => straight (snd p) v) l ts -> NoDup (map fst l) ->
    (forall x v, In (Some v) ts -> In x (map fst l) -> x <> v) ->
    exists env', (forall n, ~ In n (map fst l) -> env' n = env n) /\
    (forall p, In p l -> exists env'', env' (fst p) = eval env'' (snd p)) /\
    forall i, back env (fold_right (fun p e => Let (fst p) (snd p) e) e l) g i =
      (if existsb (Nat.eqb i) (map fst l) then 0 else back env' e g i + through (combine (map fst l) ts) (back env' e g) i)).
  { induction l as [|[x a] l IH]; intros ts e env g F ND NT; inversion F as [|? v ? ts' S F']; subst.
    - exists env. split; [reflexivity|]. split; [intros p []|]. intros i. cbn. lra.
    - cbn [map fst] in *. inversion ND as [|? ? NI ND']; subst.
      destruct (IH ts' e (upd env x (eval env a)) g F' ND') as (env' & AG & VA & B).
      { intros y w W Y. apply NT; [right; exact W|right; exact Y]. }
      exists env'. split.
      { intros n NN. rewrite AG by (intro; apply NN; right; assumption). unfold upd.
        destruct (Nat.eqb_spec n x); [subst; exfalso; apply NN; left; reflexivity|reflexivity]. }
      split.
      { intros p [<-|P]; [|apply VA, P]. exists env. cbn [fst snd]. rewrite AG by exact NI. unfold upd. rewrite Nat.eqb_refl. reflexivity. }
      intros i. cbn [fold_right fst snd back]. rewrite !B. rewrite S. clear B.
      assert (EX : existsb (Nat.eqb x) (map fst l) = false).
      { apply not_true_iff_false. intro T. apply existsb_exists in T. destruct T as (y & Y & E). apply Nat.eqb_eq in E. subst. contradiction. }
      rewrite EX. cbn [existsb combine map fst through snd].
      assert (TX : through (combine (map fst l) ts') (back env' e g) x = 0).
      { assert (NV : forall w, In (Some w) ts' -> x <> w) by (intros w W; apply NT; [right; exact W|left; reflexivity]).
        clear - NV. generalize (map fst l) as ns. clear l. induction ts' as [|t ts' IH]; intros [|n ns]; try reflexivity.
        cbn. rewrite IH by (intros; apply NV; right; assumption). destruct t as [w|]; [|lra].
        destruct (Nat.eqb_spec w x); [|lra]. exfalso. apply (NV w); [left; reflexivity|congruence]. }
      rewrite TX, Rplus_0_r.
      destruct (Nat.eqb_spec i x) as [->|NE]; cbn [orb].
      + destruct v as [n|]; [|lra]. destruct (Nat.eqb_spec x n); [|lra]. exfalso. apply (NT x n); [left; reflexivity|left; reflexivity|assumption].
      + destruct (existsb (Nat.eqb i) (map fst l)) eqn:EI.
        * destruct v as [n|]; [|lra]. destruct (Nat.eqb_spec i n); [|lra]. exfalso. subst n.
          apply existsb_exists in EI. destruct EI as (y & Y & E). apply Nat.eqb_eq in E. subst y.
          apply (NT i i); [left; reflexivity|right; exact Y|reflexivity].
        * destruct v as [n|]; [|lra]. rewrite (Nat.eqb_sym n i). destruct (i =? n)%nat; lra. }
  intros l ts e env g F ND NT. destruct (main l ts e env g F ND NT) as (env' & AG & VA & B).
  exists env'. split; [exact AG|]. split; [exact VA|]. intros i NI. rewrite B.
  replace (existsb (Nat.eqb i) (map fst l)) with false; [reflexivity|]. symmetry. apply not_true_iff_false. intro T.
  apply existsb_exists in T. destruct T as (y & Y & E). apply Nat.eqb_eq in E. subst. contradiction.
Qed.
End Chain.

Section Pipeline.
Variables (size base mvar context_len : nat) (mean : nat -> nat -> expr) (fake : nat -> expr).
Notation latent_var := (latent_var size).
Notation context_var := (context_var size base).
Notation context := (context size base mvar mean context_len fake).
Notation perturbed := (perturbed size base mvar mean).
Notation of_frame := (of_frame size base mvar mean context_len fake).

Lemma perturbed_straight ctx t j : (latent_var t j < mvar)%nat -> straight (perturbed ctx t j) (Some (latent_var t j)).
Proof.
  intros L env g i. unfold Grad_Model.perturbed. rewrite let_back. set (m := in_context _ _ _ _).
  set (rest := Let (S mvar) _ _). set (env1 := upd env mvar (eval env m)).
  assert (B : forall k, back env1 rest g k = if (k =? latent_var t j)%nat then g else 0).
  { intros k. unfold rest. rewrite !let_back. cbn [back round_st].
    set (v := latent_var t j) in *. clear - L.
    repeat match goal with |- context [(?a =? ?b)%nat] => destruct (Nat.eqb_spec a b) end; subst; try lia; lra. }
  rewrite !B. replace (mvar =? latent_var t j)%nat with false by (symmetry; apply Nat.eqb_neq; lia).
  rewrite back_zero. destruct (Nat.eqb_spec i mvar) as [->|_]; [|lra].
  replace (mvar =? latent_var t j)%nat with false by (symmetry; apply Nat.eqb_neq; lia). lra.
Qed.

(** What the context holds for frame [s]: the first frame's latent is detached. *)
Definition stage (s : nat) : nat -> expr :=
  match s with O => fun j => Detach (perturbed (context O) O j) | S _ => perturbed (context s) s end.
Definition stage_target (s j : nat) : option nat := match s with O => None | S _ => Some (latent_var s j) end.

Lemma context_shape : (1 <= context_len)%nat -> forall t, (1 <= t)%nat ->
  context t = map stage (seq (t - context_len) (t - (t - context_len))).
Proof.
  intros CL. induction t as [|t IH]; intros T; [lia|]. destruct t as [|t].
  - replace (1 - context_len)%nat with O by lia. reflexivity.
  - change (context (S (S t))) with (decode_Pscene context_len (perturbed (context (S t)) (S t)) (context (S t))).
    unfold decode_Pscene. replace (context_len =? 0)%nat with false by (symmetry; apply Nat.eqb_neq; lia).
    change (perturbed (context (S t)) (S t)) with (stage (S t)).
    rewrite IH by lia. set (t' := S t) in *. set (a := (t' - context_len)%nat). set (n := (t' - a)%nat).
    replace (map stage (seq a n) ++ [stage t']) with (map stage (seq a (n + 1))).
    2:{ rewrite seq_app, map_app. cbn [seq map]. replace (a + n)%nat with t' by lia. reflexivity. }
    rewrite map_length, seq_length. rewrite skipn_map. f_equal.
    destruct (le_lt_dec context_len t').
    + replace (n + 1 - context_len)%nat with 1%nat by lia. replace (n + 1)%nat with (S n) by lia. cbn [seq skipn]. f_equal; lia.
    + replace (n + 1 - context_len)%nat with O by lia. cbn [skipn]. f_equal; lia.
Qed.

Definition entries_from (c0 : nat) (ctx : list (nat -> expr)) : list (nat * expr) :=
  concat (map (fun p => map (fun j => (context_var (fst p) j, snd p j)) (seq 0 size)) (combine (seq c0 (length ctx)) ctx)).
Lemma entries_cons c0 f ctx : entries_from c0 (f :: ctx) =
  map (fun j => (context_var c0 j, f j)) (seq 0 size) ++ entries_from (S c0) ctx.
Proof. reflexivity. Qed.
Lemma names_range : forall ctx c0 x, In x (map fst (entries_from c0 ctx)) ->
  (base + c0 * size <= x)%nat.
Proof.
  induction ctx as [|f ctx IH]; intros c0 x H; [destruct H|]. rewrite entries_cons, map_app in H. apply in_app_or in H.
  destruct H as [H|H].
  - rewrite map_map in H. cbn in H. apply in_map_iff in H. destruct H as (j & <- & J). apply in_seq in J. unfold Grad_Model.context_var. lia.
  - apply IH in H. lia.
Qed.
Lemma names_distinct : forall ctx c0, NoDup (map fst (entries_from c0 ctx)).
Proof.
  induction ctx as [|f ctx IH]; intros c0; [constructor|]. rewrite entries_cons, map_app, map_map. cbn [fst].
  assert (D : NoDup (map (fun j => context_var c0 j) (seq 0 size))).
  { apply FinFun.Injective_map_NoDup; [|apply seq_NoDup]. intros i j. unfold Grad_Model.context_var. lia. }
  assert (F : forall x, In x (map (fun j => context_var c0 j) (seq 0 size)) -> ~ In x (map fst (entries_from (S c0) ctx))).
  { intros x X Y. apply names_range in Y. apply in_map_iff in X. destruct X as (j & <- & J). apply in_seq in J.
    unfold Grad_Model.context_var in Y. lia. }
  revert D F. generalize (map (fun j => context_var c0 j) (seq 0 size)) as l. induction l as [|x l IHl]; intros D F; [apply IH|].
  inversion D; subst. cbn. constructor.
  - rewrite in_app_iff. intros [I|I]; [contradiction|]. apply (F x); [left; reflexivity|exact I].
  - apply IHl; [assumption|]. intros y Y. apply F. right. exact Y.
Qed.
Lemma names_exist : forall ctx c0 c j, (c < length ctx)%nat -> (j < size)%nat -> In (context_var (c0 + c) j, nth c ctx (fun _ => Cst 0) j) (entries_from c0 ctx).
Proof.
  induction ctx as [|f ctx IH]; intros c0 c j C J; [cbn in C; lia|]. rewrite entries_cons. apply in_or_app. destruct c as [|c].
  - left. rewrite Nat.add_0_r. cbn [nth]. apply in_map_iff. exists j. split; [reflexivity|apply in_seq; lia].
  - right. replace (c0 + S c)%nat with (S c0 + c)%nat by lia. apply (IH (S c0) c j); [cbn in C; lia|exact J].
Qed.

Definition targets (fs : list nat) : list (option nat) := concat (map (fun s => map (stage_target s) (seq 0 size)) fs).
Lemma stage_straight s j : (j < size)%nat -> ((s + 1) * size <= base)%nat -> (base <= mvar)%nat -> straight (stage s j) (stage_target s j).
Proof.
  intros J B M. destruct s as [|s]; [intros env g i; reflexivity|]. apply perturbed_straight. unfold Grad_Model.latent_var. nia.
Qed.
Lemma stages_straight : (base <= mvar)%nat -> forall fs c0, (forall s, In s fs -> ((s + 1) * size <= base)%nat) ->
  Forall2 (fun p v => straight (snd p) v) (entries_from c0 (map stage fs)) (targets fs).
Proof.
  intros M. induction fs as [|s fs IH]; intros c0 H; [constructor|]. cbn [map]. rewrite entries_cons. unfold targets. cbn [map concat].
  apply Forall2_app; [|apply IH; intros; apply H; right; assumption].
  assert (B : ((s + 1) * size <= base)%nat) by (apply H; left; reflexivity).
  assert (G : forall l, (forall j, In j l -> (j < size)%nat) ->
    Forall2 (fun p v => straight (snd p) v) (map (fun j => (context_var c0 j, stage s j)) l) (map (stage_target s) l)).
  { induction l as [|j l IHl]; intros L; constructor.
    - cbn [snd]. apply stage_straight; [apply L; left; reflexivity|exact B|exact M].
    - apply IHl. intros; apply L; right; assumption. }
  apply G. intros j J. apply in_seq in J. lia.
Qed.
Lemma targets_range fs v : In (Some v) (targets fs) -> (forall s, In s fs -> ((s + 1) * size <= base)%nat) -> (v < base)%nat.
Proof.
  unfold targets. rewrite in_concat. intros (l & L & V) H. apply in_map_iff in L. destruct L as (s & <- & S).
  apply in_map_iff in V. destruct V as (j & E & J). apply in_seq in J. destruct s as [|s]; [discriminate|]. injection E as <-.
  specialize (H _ S). unfold Grad_Model.latent_var. nia.
Qed.

Lemma combine_app {A B} (l l' : list A) (m m' : list B) : length l = length m -> combine (l ++ l') (m ++ m') = combine l m ++ combine l' m'.
Proof. revert m. induction l as [|a l IH]; intros [|b m] H; try discriminate; [reflexivity|]. cbn. f_equal. apply IH. injection H as H. exact H. Qed.
Lemma through_app l l' gb i : through (l ++ l') gb i = through l gb i + through l' gb i.
Proof. induction l as [|[x v] l IH]; cbn; [lra|]. rewrite IH. lra. Qed.
Lemma through_map {A} (x : A -> nat) (v : A -> option nat) gb i l :
  through (map (fun a => (x a, v a)) l) gb i =
  fold_right Rplus 0 (map (fun a => match v a with Some n => if (n =? i)%nat then gb (x a) else 0 | None => 0 end) l).
Proof. induction l as [|a l IH]; cbn; [reflexivity|]. rewrite IH. reflexivity. Qed.
Lemma combine_map2 {A B C} (f : A -> B) (g : A -> C) l : combine (map f l) (map g l) = map (fun a => (f a, g a)) l.
Proof. induction l as [|a l IH]; cbn; [reflexivity|]. rewrite IH. reflexivity. Qed.

Lemma block_through c0 f s k gb : (k < size)%nat ->
  through (combine (map fst (map (fun j => (context_var c0 j, stage f j)) (seq 0 size))) (map (stage_target f) (seq 0 size))) gb (latent_var s k) =
  if (1 <=? s)%nat && (f =? s)%nat then gb (context_var c0 k) else 0.
Proof.
  intros K. rewrite map_map. cbn [fst]. rewrite combine_map2, through_map. fold (rsum size (fun a => match stage_target f a with Some n => if (n =? latent_var s k)%nat then gb (context_var c0 a) else 0 | None => 0 end)).
  assert (INJ : forall a b j, (j < size)%nat -> latent_var a j = latent_var b k -> a = b /\ j = k).
  { intros a b j J E. unfold Grad_Model.latent_var in E.
    assert (a = b) by (destruct (lt_eq_lt_dec a b) as [[?|?]|?]; [exfalso; nia|assumption|exfalso; nia]). subst. split; [reflexivity|lia]. }
  destruct f as [|f].
  - cbn [stage_target]. rewrite rsum_zero by reflexivity. destruct s; reflexivity.
  - cbn [stage_target]. destruct (Nat.eqb_spec (S f) s) as [<-|NE].
    + rewrite (rsum_single size _ k K); [rewrite Nat.eqb_refl; reflexivity|]. intros j J NJ.
      destruct (Nat.eqb_spec (latent_var (S f) j) (latent_var (S f) k)) as [E|]; [|reflexivity].
      apply INJ in E; [|exact J]. destruct E; congruence.
    + rewrite andb_false_r. apply rsum_zero. intros j J. destruct (Nat.eqb_spec (latent_var (S f) j) (latent_var s k)) as [E|]; [|reflexivity].
      apply INJ in E; [|exact J]. destruct E; congruence.
Qed.
Lemma blocks_through s k gb : (k < size)%nat -> forall n a c0,
  through (combine (map fst (entries_from c0 (map stage (seq a n)))) (targets (seq a n))) gb (latent_var s k) =
  if (1 <=? s)%nat && (a <=? s)%nat && (s <? a + n)%nat then gb (context_var (c0 + (s - a)) k) else 0.
Proof.
  intros K. induction n as [|n IH]; intros a c0.
  - cbn [seq map targets concat combine entries_from length through].
    destruct (Nat.leb_spec a s), (Nat.ltb_spec s (a + 0)); try lia; rewrite ?andb_false_r; reflexivity.
  - cbn [seq map]. rewrite entries_cons. unfold targets. cbn [map concat]. fold (targets (seq (S a) n)).
    rewrite map_app, combine_app by (rewrite !map_length; reflexivity). rewrite through_app, block_through by exact K.
    rewrite IH. destruct (Nat.leb_spec 1 s); [|cbn; lra]. cbn [andb].
    destruct (Nat.eqb_spec a s) as [->|NE].
    + replace (S s <=? s)%nat with false by (symmetry; apply Nat.leb_gt; lia). rewrite Nat.leb_refl.
      replace (s <? s + S n)%nat with true by (symmetry; apply Nat.ltb_lt; lia). cbn [andb].
      replace (c0 + (s - s))%nat with c0 by lia. lra.
    + destruct (Nat.leb_spec (S a) s), (Nat.leb_spec a s), (Nat.ltb_spec s (S a + n)), (Nat.ltb_spec s (a + S n)); try lia; cbn [andb]; try lra.
      replace (S c0 + (s - S a))%nat with (c0 + (s - a))%nat by lia. lra.
Qed.

Lemma stage_integer s j env : exists z, eval env (stage s j) = IZR z.
Proof.
  assert (P : forall ctx t env, exists z, eval env (perturbed ctx t j) = IZR z).
  { clear. intros ctx t env. unfold Grad_Model.perturbed. cbn [eval round_st].
    set (m := eval env _). unfold upd.
    repeat match goal with |- context [(?a =? ?b)%nat] => destruct (Nat.eqb_spec a b); try lia end;
      match goal with |- exists z, IZR ?a - ?p + ?p + (IZR ?b - ?q + ?q) = IZR z => exists (a + b)%Z; rewrite plus_IZR; ring end. }
  destruct s; cbn [stage eval]; apply P.
Qed.

(** Any quantity of frame [t] (its bits, its reconstruction, a loss) sends gradients back to the
    frame's own latent, and to the latents of the frames of its context other than the very first
    frame; never to older frames, and never to the first frame's latent.  The gradient that a frame
    of the context gets is that of its rounded latent, unchanged: none goes through the means
    predicted for it, so it never reaches the frames before. *)
Theorem C96_frames : forall t e env g, (1 <= context_len)%nat -> (1 <= t)%nat ->
  ((t + 1) * size <= base)%nat -> (base <= mvar)%nat ->
  exists env', (forall n, (n < base)%nat -> env' n = env n) /\
    (forall c k, (c < t - (t - context_len))%nat -> (k < size)%nat -> exists z, env' (context_var c k) = IZR z) /\
    forall s k, (k < size)%nat -> (latent_var s k < base)%nat ->
    back env (of_frame t e) g (latent_var s k) =
    back env' e g (latent_var s k) +
    (if (1 <=? s)%nat && (s <? t)%nat && (t <=? s + context_len)%nat
     then back env' e g (context_var (s - (t - context_len)) k) else 0).
Proof.
  intros t e env g CL T B M. unfold Grad_Model.of_frame, in_context.
  change (entries size base (context t)) with (entries_from 0 (context t)). rewrite context_shape by assumption.
  set (a := (t - context_len)%nat). set (n := (t - a)%nat).
  assert (R : forall s, In s (seq a n) -> ((s + 1) * size <= base)%nat).
  { intros s S. apply in_seq in S. assert (s < t)%nat by lia. nia. }
  destruct (chain (entries_from 0 (map stage (seq a n))) (targets (seq a n)) e env g) as (env' & AG & VA & BK).
  - apply stages_straight; assumption.
  - apply names_distinct.
  - intros x v V X E. subst. apply names_range in X. apply targets_range in V; [lia|exact R].
  - exists env'. split; [|split].
    + intros m L. apply AG. intro I. apply names_range in I. lia.
    + intros c k C K. destruct (VA (context_var (0 + c) k, nth c (map stage (seq a n)) (fun _ => Cst 0) k)) as [env'' E].
      { apply names_exist; [rewrite map_length, seq_length; exact C|exact K]. }
      cbn [fst snd Nat.add] in E. rewrite E. rewrite nth_indep with (d' := stage O) by (rewrite map_length, seq_length; exact C).
      rewrite map_nth. apply stage_integer.
    + intros s k K L. rewrite BK by (intro I; apply names_range in I; lia). f_equal. rewrite blocks_through by exact K.
      destruct (Nat.leb_spec 1 s); [|reflexivity]. cbn [andb Nat.add].
      destruct (Nat.leb_spec a s), (Nat.ltb_spec s (a + n)), (Nat.ltb_spec s t), (Nat.leb_spec t (s + context_len)); try lia; reflexivity.
Qed.

(** In particular nothing of a later frame reaches the first frame's latent, nor any frame further
    back than the context. *)
Theorem C96_frames_cut : forall t e env g s k, (1 <= context_len)%nat -> (1 <= t)%nat ->
  ((t + 1) * size <= base)%nat -> (base <= mvar)%nat -> (k < size)%nat -> (s < t)%nat ->
  ~ uses (latent_var s k) e -> (s = 0 \/ s + context_len < t)%nat ->
  back env (of_frame t e) g (latent_var s k) = 0.
Proof.
  intros t e env g s k CL T B M K ST U H. destruct (C96_frames t e env g CL T B M) as (env' & _ & _ & F).
  rewrite F; [|exact K|unfold Grad_Model.latent_var; nia].
  rewrite back_unused by exact U.
  replace ((1 <=? s)%nat && (s <? t)%nat && (t <=? s + context_len)%nat) with false; [lra|]. symmetry.
  destruct (Nat.leb_spec 1 s), (Nat.ltb_spec s t), (Nat.leb_spec t (s + context_len)); try reflexivity; lia.
Qed.
End Pipeline.
Print Assumptions C96_frames.
Print Assumptions C96_frames_cut.

(** The first frame's own context is the learnt one, and reaches no latent at all. *)
Theorem C96_first_frame : forall size base mvar context_len mean fake e env g s k, (k < size)%nat -> (latent_var size s k < base)%nat ->
  (forall j, ~ uses (latent_var size s k) (fake j)) ->
  exists env', (forall n, (n < base)%nat -> env' n = env n) /\
    back env (of_frame size base mvar mean context_len fake 0 e) g (latent_var size s k) = back env' e g (latent_var size s k).
Proof.
  intros size base mvar cl mean fake e env g s k K L F. unfold of_frame, in_context. cbn [context entries length seq combine map concat fst snd].
  rewrite app_nil_r.
  assert (G : forall l env, exists env', (forall n, (n < base)%nat -> env' n = env n) /\
    back env (fold_right (fun p e => Let (fst p) (snd p) e) e (map (fun j => (context_var size base 0 j, fake j)) l)) g (latent_var size s k) =
    back env' e g (latent_var size s k)).
  { induction l as [|j l IH]; intros env0; [exists env0; split; reflexivity|].
    cbn [map fold_right fst snd]. destruct (IH (upd env0 (context_var size base 0 j) (eval env0 (fake j)))) as (env' & AG & B).
    exists env'. split.
    - intros n N. rewrite AG by exact N. unfold upd, context_var. destruct (Nat.eqb_spec n (base + (0 * size + j))); [lia|reflexivity].
    - rewrite let_back, B, (back_unused (fake j)) by apply F. unfold context_var at 1.
      destruct (Nat.eqb_spec (latent_var size s k) (base + (0 * size + j))); [lia|]. lra. }
  apply G.
Qed.
Print Assumptions C96_first_frame.

(** What later frames see of a frame: its latent, rounded around the rounded mean that the
    frame's own context predicts. *)
Theorem C96_frame_value : forall size base mvar mean ctx t j env, (latent_var size t j < mvar)%nat ->
  let m := eval env (in_context size base ctx (mean t j)) in
  eval env (perturbed size base mvar mean ctx t j) =
  IZR (round_even (env (latent_var size t j) - IZR (round_even m))) + IZR (round_even m).
Proof.
  intros size base mvar mean ctx t j env L. unfold perturbed. cbn [eval round_st]. set (m := eval env (in_context size base ctx (mean t j))).
  cbn zeta. unfold upd. rewrite ?Nat.eqb_refl.
  repeat match goal with |- context [Nat.eqb ?a ?b] => destruct (Nat.eqb_spec a b); try lia end; ring_simplify.
  replace (IZR (round_even m) - m + m) with (IZR (round_even m)) by ring. try ring.
Qed.
Print Assumptions C96_frame_value.

(** Frame 3 with a context of two: the second frame's latent gets the gradient of its rounded copy,
    the first frame's latent none. *)
Example frames_example : forall mean fake env,
  let of_frame := of_frame 1 10 100 mean 2 fake in
  back env (of_frame 3%nat (Mul (Var (context_var 1 10 0 0)) (Cst 5))) 1 (latent_var 1 1 0) = 5 /\
  back env (of_frame 2%nat (Mul (Var (context_var 1 10 0 0)) (Cst 5))) 1 (latent_var 1 0 0) = 0.
Proof.
  intros mean fake env. cbn zeta. split.
  - destruct (C96_frames 1 10 100 2 mean fake 3 (Mul (Var (context_var 1 10 0 0)) (Cst 5)) env 1) as (env' & _ & _ & F); try lia.
    rewrite F by (unfold latent_var; lia). cbn. lra.
  - apply C96_frames_cut; try lia. cbn. lia.
Qed.

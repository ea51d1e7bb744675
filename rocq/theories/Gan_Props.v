(** C65: the training steps of the image compression project. *)
From Coq Require Import Reals List Bool Arith Lia.
From Verif Require Import Base Gan_Model.
Import ListNotations.
Open Scope nat_scope.

(** * Specification *)
Section Spec.
Context {img : Type}.
Implicit Types (b : list img) (m : @module) (s : @st img).

(** The half of the batch the autoencoder is trained on, and the half shown as real. *)
Definition fake_half m b : list img := if m_mc m then firstn (length b / 2) b else b.
Definition real_half m b : list img := if m_mc m then firstn (length b / 2) (skipn (length b / 2) b) else b.
Definition labels m b : @target img := if m_projector m then Projected b else One.
(** What batch [b] must do when the autoencoder has been updated [v] times and the discriminator
    [d] times before: every trainable parameter is updated once, with the gradient of its own
    loss and of nothing else. *)
Definition model_loss m (v d : nat) b : @loss img :=
  let o := Out v (fake_half m b) in
  [(m_lam m, Distortion o (fake_half m b)); (1%R, Rate o (fake_half m b));
   (m_weight m, Generator (Logits d (Recon o) (if m_conditional m then Some o else None)) (labels m (fake_half m b)))].
Definition disc_loss m (v d : nat) b : @loss img :=
  let o := Out v (fake_half m b) in
  let r := if m_mc m then Out (S v) (real_half m b) else o in
  [(1%R, Discriminator (Logits d (Real (real_half m b)) (Some r)) (Logits d (ReconDetached o) (Some o)) (labels m (real_half m b)))].
(** The trainable parameters of the autoencoder at the beginning. *)
Definition trainable m s : list nat := map fst (filter (fun p => negb (snd p) && s_req s (fst p)) (m_params m)).
Definition trainable_quantiles m s : list nat := map fst (filter (fun p => snd p && s_req s (fst p)) (m_params m)).
Definition batch_steps m (s0 : @st img) (v d : nat) b : list (nat * list (nat * list (@loss img))) :=
  [(0, map (fun p => (p, [model_loss m v d b])) (trainable m s0));
   (1, map (fun p => (p, [disc_loss m v d b])) (m_disc m))] ++
  match trainable_quantiles m s0 with
  | [] => []
  | q => [(2, map (fun p => (p, [[(1%R, Quantile)]])) q)]
  end.
Fixpoint history_steps m (s0 : @st img) (v d : nat) (es : list (@event img)) :=
  match es with
  | [] => []
  | Train b :: r => batch_steps m s0 v d b ++ history_steps m s0 (S v) (S d) r
  | Validate _ :: r => history_steps m s0 v d r
  end.
(** No parameter is shared. *)
Definition separate m : Prop := NoDup (map fst (m_params m) ++ m_disc m).
End Spec.

(** * Lemmas *)
Lemma memb_in p l : memb p l = true <-> In p l.
Proof.
  unfold memb. rewrite existsb_exists. split; [intros [x [I E]]; apply Nat.eqb_eq in E; now subst|].
  intro I. exists p. split; [exact I|apply Nat.eqb_refl].
Qed.
Lemma memb_out p l : memb p l = false <-> ~ In p l.
Proof. rewrite <- memb_in. destruct (memb p l); split; congruence. Qed.
Lemma nodup_app {A} (l k : list A) : NoDup (l ++ k) -> NoDup l /\ NoDup k /\ forall x, In x l -> ~ In x k.
Proof.
  induction l as [|a l IH]; cbn; intro H; [split; [constructor|]; split; [exact H|easy]|].
  inversion_clear H as [|? ? N D]. destruct (IH D) as [A1 [A2 A3]]. split; [|split; [exact A2|]].
  - constructor; [|exact A1]. intro I. apply N. apply in_or_app. now left.
  - intros x [->|I]; [intro K; apply N; apply in_or_app; now right|now apply A3].
Qed.

Section Proofs.
Context {img : Type}.
Implicit Types (b : list img) (m : @module) (s : @st img).

Lemma trainable_ids m s p : In p (trainable m s) -> In p (map fst (m_params m)) /\ s_req s p = true.
Proof.
  unfold trainable. rewrite in_map_iff. intros [[q b] [<- I]]. apply filter_In in I. destruct I as [I E].
  apply andb_true_iff in E. split; [now apply in_map|apply E].
Qed.
Lemma quantile_ids m s p : In p (trainable_quantiles m s) -> In p (map fst (m_params m)) /\ s_req s p = true.
Proof.
  unfold trainable_quantiles. rewrite in_map_iff. intros [[q b] [<- I]]. apply filter_In in I. destruct I as [I E].
  apply andb_true_iff in E. split; [now apply in_map|apply E].
Qed.
Lemma nodup_fst_eq (l : list (nat * bool)) : NoDup (map fst l) -> forall p a c, In (p, a) l -> In (p, c) l -> a = c.
Proof.
  induction l as [|[q e] l IH]; cbn; intros N p a c I J; [easy|]. inversion_clear N as [|? ? N1 N2].
  destruct I as [I|I], J as [J|J].
  - congruence.
  - injection I as -> ->. exfalso. apply N1. change p with (fst (p, c)). now apply in_map.
  - injection J as -> ->. exfalso. apply N1. change p with (fst (p, a)). now apply in_map.
  - eauto.
Qed.
Lemma trainable_not_quantile m s p : separate m -> In p (trainable m s) -> ~ In p (trainable_quantiles m s).
Proof.
  intros N I J. destruct (nodup_app _ _ N) as [N1 _]. unfold trainable, trainable_quantiles in *. rewrite in_map_iff in *.
  destruct I as [[q a] [<- I]], J as [[r c] [E J]]. cbn in E. subst r. apply filter_In in I, J.
  destruct I as [I A], J as [J C]. pose proof (nodup_fst_eq _ N1 _ _ _ I J) as <-. cbn in *. destruct a; cbn in *; easy.
Qed.
Lemma trainable_not_disc m s p : separate m -> In p (trainable m s) -> ~ In p (m_disc m).
Proof. intros N I. destruct (nodup_app _ _ N) as [_ [_ X]]. apply X. now apply trainable_ids in I. Qed.
Lemma quantile_not_disc m s p : separate m -> In p (trainable_quantiles m s) -> ~ In p (m_disc m).
Proof. intros N I. destruct (nodup_app _ _ N) as [_ [_ X]]. apply X. now apply quantile_ids in I. Qed.

Lemma halves m b : resample_batch b (m_mc m) = (fake_half m b, real_half m b).
Proof.
  unfold resample_batch, fake_half, real_half. destruct (m_mc m); [|reflexivity].
  replace (length b / 2 * 2 - length b / 2) with (length b / 2) by lia. reflexivity.
Qed.
(** The optimisers made from state s0. *)
Definition gan_opts m (s0 : @st img) : list optimizer :=
  [mkO 0 (trainable m s0); mkO 1 (m_disc m)] ++
  match trainable_quantiles m s0 with [] => [] | q => [mkO 2 q] end.
Lemma configure_gan_ok m s0 : trainable m s0 <> [] -> m_disc m <> [] -> configure_gan m s0 = Ok (gan_opts m s0).
Proof.
  intros T D. unfold configure_gan, collect_parameters. fold (trainable m s0). fold (trainable_quantiles m s0).
  unfold make_optimizer, gan_opts. destruct (trainable m s0); [easy|]. destruct (m_disc m); [easy|]. cbn [bind app].
  destruct (trainable_quantiles m s0); reflexivity.
Qed.

Lemma existsb_in (f : nat -> bool) l p : In p l -> f p = true -> existsb f l = true.
Proof. intros I E. apply existsb_exists. eauto. Qed.

Definition flags_after m (s0 s : @st img) : nat -> bool :=
  fun p => if memb p (m_disc m) then true else if memb p (trainable m s0) then false else s_req s p.

Lemma step_ok m s0 s b : separate m -> m_conditional m = true -> trainable m s0 <> [] -> m_disc m <> [] ->
  (forall p, In p (trainable_quantiles m s0) -> s_req s p = true) ->
  exists s', training_step m (gan_opts m s0) b s = (s', Ok tt) /\
    s_log s' = s_log s ++ batch_steps m s0 (s_model_version s) (s_disc_version s) b /\
    s_model_version s' = S (s_model_version s) /\ s_disc_version s' = S (s_disc_version s) /\
    (forall p, s_req s' p = flags_after m s0 s p).
Proof.
  intros N C T D Q. set (M := trainable m s0) in *. set (Dd := m_disc m) in *.
  assert (MD : forall p, In p M -> memb p Dd = false) by (intros p I; apply memb_out; now apply (trainable_not_disc m s0)).
  assert (DM : forall p, In p Dd -> memb p M = false).
  { intros p I. apply memb_out. intro J. apply (trainable_not_disc m s0 p N) in J. now apply J. }
  assert (MM : forall p, In p M -> In p (model_ids m)) by (intros p I; now apply (trainable_ids m s0) in I).
  destruct M as [|p0 M'] eqn:EM; [easy|]. rewrite <- EM in *. clear T.
  destruct Dd as [|d0 D'] eqn:ED; [easy|]. rewrite <- ED in *. clear D.
  assert (P0 : In p0 M) by (rewrite EM; now left). assert (D0 : In d0 Dd) by (rewrite ED; now left).
  unfold training_step, gan_opts. fold M Dd. cbn [app]. rewrite halves. cbn [fst snd].
  unfold andthen at 1. unfold disable_gradients at 1, set_req. cbn [o_params].
  unfold andthen at 1. unfold enable_gradients at 1, set_req. cbn [o_params s_req s_grad s_model_version s_disc_version s_log].
  unfold run_model at 1, andthen at 1, get, ret. unfold andthen at 1. cbn [s_model_version].
  unfold run_discriminator, disc_2 at 1. rewrite C. unfold andthen at 1, get, ret. unfold andthen at 1. cbn [s_disc_version].
  unfold andthen at 1, zero_grad at 1. cbn [o_params s_req s_grad s_model_version s_disc_version s_log].
  fold (labels m (fake_half m b)).
  set (ml := [(m_lam m, Distortion _ _); _; _]).
  assert (ML : ml = model_loss m (s_model_version s) (s_disc_version s) b) by (unfold ml, model_loss, target_of, labels; now rewrite C).
  assert (DL : forall p, In p M -> In p (deps_loss m ml)).
  { intros p I. unfold ml, deps_loss. cbn [flat_map snd deps_term app]. apply in_or_app. left. now apply MM. }
  unfold andthen at 1, backward at 1. cbn [s_req s_grad s_model_version s_disc_version s_log].
  rewrite (existsb_in _ _ p0) by (try (now apply DL); rewrite (proj2 (memb_in _ _)) by exact P0; reflexivity).
  unfold andthen at 1, step at 1. cbn [o_id o_params s_req s_grad s_model_version s_disc_version s_log Nat.eqb].
  unfold andthen at 1. unfold disable_gradients at 1, set_req. cbn [o_params s_req s_grad s_model_version s_disc_version s_log].
  unfold andthen at 1. unfold enable_gradients at 1, set_req. cbn [o_params s_req s_grad s_model_version s_disc_version s_log].
  set (r := if m_mc m then Out (S (s_model_version s)) (real_half m b) else Out (s_model_version s) (fake_half m b)).
  match goal with |- context [andthen (if m_mc m then _ else ?x) ?k ?s1] =>
    replace (andthen (if m_mc m then run_model (real_half m b) else x) k s1) with (k r s1)
      by (unfold r; destruct (m_mc m); reflexivity) end.
  cbv beta.
  unfold disc_2 at 1. rewrite C. unfold andthen at 1, get, ret. unfold andthen at 1. cbn [s_disc_version].
  unfold disc_2 at 1. rewrite C. unfold andthen at 1, get, ret. unfold andthen at 1. cbn [s_disc_version].
  unfold andthen at 1, zero_grad at 1. cbn [o_params s_req s_grad s_model_version s_disc_version s_log].
  set (dl := [(1%R, Discriminator _ _ _)]).
  assert (DLE : dl = disc_loss m (s_model_version s) (s_disc_version s) b) by reflexivity.
  assert (DDL : forall p, In p Dd -> In p (deps_loss m dl)).
  { intros p I. unfold dl, deps_loss. cbn [flat_map snd deps_term app deps_logits deps_picture]. fold Dd. apply in_or_app. left. apply in_or_app. left. apply in_or_app. now left. }
  unfold andthen at 1, backward at 1. cbn [s_req s_grad s_model_version s_disc_version s_log].
  rewrite (existsb_in _ _ d0) by (try (now apply DDL); rewrite (proj2 (memb_in _ _)) by exact D0; reflexivity).
  unfold andthen at 1, step at 1. cbn [o_id o_params s_req s_grad s_model_version s_disc_version s_log Nat.eqb].
  match goal with |- context [map ?f M] =>
    replace (map f M) with (map (fun p => (p, [model_loss m (s_model_version s) (s_disc_version s) b])) M) end.
  2:{ apply map_ext_in. intros p I. rewrite (proj2 (memb_in p M) I), (proj2 (memb_in p _) (DL p I)). cbn [andb app]. now rewrite ML. }
  match goal with |- context [map ?f Dd] =>
    replace (map f Dd) with (map (fun p => (p, [disc_loss m (s_model_version s) (s_disc_version s) b])) Dd) end.
  2:{ apply map_ext_in. intros p I. rewrite (proj2 (memb_in p Dd) I), (proj2 (memb_in p _) (DDL p I)). cbn [andb app]. now rewrite DLE. }
  unfold batch_steps. fold M Dd.
  destruct (trainable_quantiles m s0) as [|q0 q] eqn:EQ.
  - eexists. split; [reflexivity|]. cbn [s_log s_model_version s_disc_version s_req app]. rewrite <- !app_assoc. cbn [app].
    split; [reflexivity|]. split; [reflexivity|]. split; [reflexivity|]. intro p. unfold flags_after. fold M Dd.
    destruct (memb p Dd) eqn:X; [reflexivity|]. destruct (memb p M) eqn:Y; reflexivity.
  - rewrite <- EQ in *. set (QQ := trainable_quantiles m s0) in *.
    assert (QR : forall p, In p QQ -> memb p Dd = false /\ memb p M = false /\ s_req s p = true /\ In p (model_ids m)).
    { intros p I. split; [apply memb_out; now apply (quantile_not_disc m s0)|]. split.
      - apply memb_out. intro J. now apply (trainable_not_quantile m s0 p N) in J.
      - split; [now apply Q|]. now apply (quantile_ids m s0) in I. }
    assert (Q0 : In q0 QQ) by (rewrite EQ; now left).
    assert (DQ : forall p, In p QQ -> In p (deps_loss m [(1%R, @Quantile img)])).
    { intros p I. unfold deps_loss. cbn [flat_map snd deps_term]. rewrite app_nil_r. now apply QR. }
    cbn [app].
    unfold andthen at 1, zero_grad at 1. cbn [o_params s_req s_grad s_model_version s_disc_version s_log].
    unfold andthen at 1, backward at 1. cbn [s_req s_grad s_model_version s_disc_version s_log].
    rewrite (existsb_in _ _ q0); [|now apply DQ|].
    2:{ destruct (QR q0 Q0) as [A [B [E _]]]. rewrite A, B. exact E. }
    unfold step. cbn [o_id o_params s_req s_grad s_model_version s_disc_version s_log Nat.eqb].
    eexists. split; [reflexivity|]. cbn [s_log s_model_version s_disc_version s_req app]. rewrite <- !app_assoc. cbn [app].
    split.
    { do 3 f_equal. apply f_equal2; [|reflexivity]. f_equal. apply map_ext_in. intros p I. destruct (QR p I) as [A [B [E F]]].
      rewrite A, B, E, (proj2 (memb_in p QQ) I), (proj2 (memb_in p _) (DQ p I)). reflexivity. }
    split; [reflexivity|]. split; [reflexivity|]. intro p. unfold flags_after. fold M Dd.
    destruct (memb p Dd) eqn:X; [reflexivity|]. destruct (memb p M) eqn:Y; reflexivity.
Qed.

Lemma validate_ok m s0 s b : m_conditional m = true -> run_event m (gan_opts m s0) (Validate b) s = (s, Ok tt).
Proof. intro C. unfold run_event, eval_step, run_model, disc_2. rewrite C. reflexivity. Qed.
Lemma flags_quantiles m s0 s p : separate m -> In p (trainable_quantiles m s0) -> flags_after m s0 s p = s_req s p.
Proof.
  intros N I. unfold flags_after. rewrite (proj2 (memb_out p (m_disc m))) by now apply (quantile_not_disc m s0).
  rewrite (proj2 (memb_out p (trainable m s0))); [reflexivity|]. intro J. now apply (trainable_not_quantile m s0 p N) in J.
Qed.

(** Every history of training and validation batches succeeds and updates every trainable
    parameter once per training batch, with the gradient of its own loss alone. *)
Theorem gan_updates : forall m s0 es, separate m -> m_conditional m = true -> trainable m s0 <> [] -> m_disc m <> [] ->
  exists opts s', configure_gan m s0 = Ok opts /\ run_events m opts es s0 = (s', Ok tt) /\
    s_log s' = s_log s0 ++ history_steps m s0 (s_model_version s0) (s_disc_version s0) es.
Proof.
  intros m s0 es N C T D. exists (gan_opts m s0).
  assert (H : forall es s, (forall p, In p (trainable_quantiles m s0) -> s_req s p = true) ->
     exists s', run_events m (gan_opts m s0) es s = (s', Ok tt) /\
       s_log s' = s_log s ++ history_steps m s0 (s_model_version s) (s_disc_version s) es).
  { clear es. induction es as [|[b|b] es IH]; intros s Q.
    - exists s. split; [reflexivity|]. cbn. now rewrite app_nil_r.
    - destruct (step_ok m s0 s b N C T D Q) as [s1 [E [L [V1 [V2 R]]]]].
      destruct (IH s1) as [s' [E' L']].
      { intros p I. rewrite R, (flags_quantiles m s0 s p N I). now apply Q. }
      exists s'. cbn [run_events]. unfold andthen. unfold run_event at 1. rewrite E. split; [exact E'|].
      rewrite L', L, V1, V2. cbn [history_steps]. now rewrite app_assoc.
    - destruct (IH s Q) as [s' [E' L']]. exists s'. cbn [run_events]. unfold andthen. rewrite (validate_ok m s0 s b C). now split. }
  destruct (H es s0) as [s' [E L]]; [intros p I; now apply (quantile_ids m s0) in I|].
  exists s'. split; [now apply configure_gan_ok|]. now split.
Qed.

(** The flags left behind: after a training batch the trainable autoencoder parameters are
    frozen and those of the discriminator are not; all others are as before. *)
Theorem gan_flags : forall m s0 es b, separate m -> m_conditional m = true -> trainable m s0 <> [] -> m_disc m <> [] ->
  exists opts s', configure_gan m s0 = Ok opts /\ run_events m opts (es ++ [Train b]) s0 = (s', Ok tt) /\
    forall p, s_req s' p = if in_dec Nat.eq_dec p (m_disc m) then true
                           else if in_dec Nat.eq_dec p (trainable m s0) then false else s_req s0 p.
Proof.
  intros m s0 es b N C T D. exists (gan_opts m s0).
  assert (K : forall s p, flags_after m s0 s p = if in_dec Nat.eq_dec p (m_disc m) then true
                           else if in_dec Nat.eq_dec p (trainable m s0) then false else s_req s p).
  { intros s p. unfold flags_after. destruct (in_dec _ p (m_disc m)) as [I|I].
    - now rewrite (proj2 (memb_in _ _) I).
    - rewrite (proj2 (memb_out _ _) I). destruct (in_dec _ p (trainable m s0)) as [J|J];
        [now rewrite (proj2 (memb_in _ _) J)|now rewrite (proj2 (memb_out _ _) J)]. }
  assert (H : forall es s, (forall p, In p (trainable_quantiles m s0) -> s_req s p = true) ->
     (forall p, ~ In p (m_disc m) -> ~ In p (trainable m s0) -> s_req s p = s_req s0 p) ->
     exists s', run_events m (gan_opts m s0) (es ++ [Train b]) s = (s', Ok tt) /\
       forall p, s_req s' p = flags_after m s0 s0 p).
  { clear es. induction es as [|e es IH]; intros s Q R.
    - destruct (step_ok m s0 s b N C T D Q) as [s1 [E [_ [_ [_ X]]]]]. exists s1. split.
      + cbn [app run_events]. unfold andthen, run_event, ret. now rewrite E.
      + intro p. rewrite X, !K. destruct (in_dec _ p (m_disc m)); [reflexivity|].
        destruct (in_dec _ p (trainable m s0)); [reflexivity|now apply R].
    - destruct e as [c|c].
      + destruct (step_ok m s0 s c N C T D Q) as [s1 [E [_ [_ [_ X]]]]]. destruct (IH s1) as [s' [E' X']].
        * intros p I. rewrite X, (flags_quantiles m s0 s p N I). now apply Q.
        * intros p I J. rewrite X, K. destruct (in_dec _ p (m_disc m)); [easy|].
          destruct (in_dec _ p (trainable m s0)); [easy|now apply R].
        * exists s'. cbn [app run_events]. unfold andthen. unfold run_event at 1. rewrite E. now split.
      + destruct (IH s Q R) as [s' [E' X']]. exists s'. cbn [app run_events]. unfold andthen. rewrite (validate_ok m s0 s c C). now split. }
  destruct (H es s0) as [s' [E X]]; [intros p I; now apply (quantile_ids m s0) in I|reflexivity|].
  exists s'. split; [now apply configure_gan_ok|]. split; [exact E|]. intro p. now rewrite X, K.
Qed.
(** So the module can not be set up for training again: its parameters seem to be frozen. *)
Theorem gan_refit_refuted : forall m s0 es b, separate m -> m_conditional m = true -> trainable m s0 <> [] -> m_disc m <> [] ->
  exists opts s', configure_gan m s0 = Ok opts /\ run_events m opts (es ++ [Train b]) s0 = (s', Ok tt) /\
    configure_gan m s' = Raise ValueError.
Proof.
  intros m s0 es b N C T D. destruct (gan_flags m s0 es b N C T D) as [opts [s' [E [R F]]]].
  exists opts, s'. split; [exact E|]. split; [exact R|]. unfold configure_gan, collect_parameters.
  replace (map fst (filter (fun p => negb (snd p) && s_req s' (fst p)) (m_params m))) with (@nil nat); [reflexivity|].
  destruct (map fst (filter (fun p => negb (snd p) && s_req s' (fst p)) (m_params m))) as [|p l] eqn:X; [reflexivity|exfalso].
  assert (I : In p (map fst (filter (fun p => negb (snd p) && s_req s' (fst p)) (m_params m)))) by (rewrite X; now left).
  apply in_map_iff in I. destruct I as [[q c] [<- I]]. apply filter_In in I. destruct I as [I G].
  apply andb_true_iff in G. cbn [fst snd] in G. destruct G as [G1 G2]. rewrite F in G2.
  assert (IM : In q (map fst (m_params m))) by now apply (in_map fst) in I.
  destruct (in_dec _ q (m_disc m)) as [J|J]; [destruct (nodup_app _ _ N) as [_ [_ Z]]; now apply (Z q)|].
  destruct (in_dec _ q (trainable m s0)) as [J2|J2]; [discriminate|]. apply J2. unfold trainable. apply in_map_iff. exists (q, c).
  split; [reflexivity|]. apply filter_In. split; [exact I|]. cbn [fst snd]. now rewrite G1, G2.
Qed.

(** A parameter that is frozen at the beginning is never updated and stays frozen, whatever
    happens (also if a batch raises). *)
Lemma act_frozen m p (opts : list optimizer) :
  (forall o, In o opts -> ~ In p (o_params o)) -> forall es s s' r,
  s_req s p = false -> (forall e, In e (s_log s) -> ~ In p (map fst (snd e))) ->
  run_events m opts es s = (s', r) ->
  s_req s' p = false /\ (forall e, In e (s_log s') -> ~ In p (map fst (snd e))).
Proof.
  intros O.
  set (inv := fun s : @st img => s_req s p = false /\ (forall e, In e (s_log s) -> ~ In p (map fst (snd e)))).
  assert (A1 : forall o v s, In o opts -> inv s -> inv (fst (set_req o v s))).
  { intros o v s I [H1 H2]. split; cbn; [|exact H2]. rewrite (proj2 (memb_out p _) (O o I)). exact H1. }
  assert (A2 : forall o s, In o opts -> inv s -> inv (fst (zero_grad o s))) by (intros o s I [H1 H2]; now split).
  assert (A3 : forall o s, In o opts -> inv s -> inv (fst (step o s))).
  { intros o s I [H1 H2]. split; cbn; [exact H1|]. intros e J. apply in_app_or in J. destruct J as [J|[<-|[]]]; [now apply H2|].
    cbn. rewrite map_map. cbn. rewrite map_id. now apply O. }
  assert (A4 : forall l s, inv s -> inv (fst (backward m l s))).
  { intros l s [H1 H2]. unfold backward. destruct (existsb _ _); now split. }
  assert (A5 : forall {A B} (a : act A) (k : A -> act B) s, (inv s -> inv (fst (a s))) -> (forall x s, inv s -> inv (fst (k x s))) ->
     inv s -> inv (fst (andthen a k s))).
  { intros A B a k s HA HK I. unfold andthen. specialize (HA I). destruct (a s) as [s1 [x|e]]; cbn [fst] in *; [now apply HK|exact HA]. }
  assert (A6 : forall i s, inv s -> inv (fst (run_model i s))) by (intros i s I; exact I).
  assert (A7 : forall q o s, inv s -> inv (fst (disc_2 m q o s))) by (intros q o s I; unfold disc_2; destruct (m_conditional m); exact I).
  assert (A8 : forall q o s, inv s -> inv (fst (run_discriminator m q o s))).
  { intros q o s I. unfold run_discriminator. destruct (m_conditional m) eqn:E; [now apply A7|exact I]. }
  assert (TS : forall b s, inv s -> inv (fst (training_step m opts b s))).
  { intros b s. unfold training_step. destruct opts as [|mo [|dop rest]] eqn:EO; [intro I; exact I|intro I; exact I|].
    apply A5; [apply A1; cbn; auto|]. intros _ s1. apply A5; [apply A1; cbn; auto|]. intros _ s2.
    apply A5; [apply A6|]. intros out s3. apply A5; [apply A8|]. intros l s4.
    apply A5; [apply A2; cbn; auto|]. intros _ s5. apply A5; [apply A4|]. intros _ s6. apply A5; [apply A3; cbn; auto|]. intros _ s7.
    apply A5; [apply A1; cbn; auto|]. intros _ s8. apply A5; [apply A1; cbn; auto|]. intros _ s9.
    apply A5; [destruct (m_mc m); [apply A6|intro I; exact I]|]. intros dout s10.
    apply A5; [apply A7|]. intros fl s11. apply A5; [apply A7|]. intros rl s12.
    apply A5; [apply A2; cbn; auto|]. intros _ s13. apply A5; [apply A4|]. intros _ s14. apply A5; [apply A3; cbn; auto|]. intros _ s15.
    destruct rest as [|qo rest']; [intro I; exact I|].
    apply A5; [apply A2; cbn; auto|]. intros _ s16. apply A5; [apply A4|]. intros _ s17. apply A3; cbn; auto. }
  induction es as [|e es IH]; intros s s' r H1 H2 E.
  - injection E as <- <-. now split.
  - cbn [run_events] in E. unfold andthen in E. destruct (run_event m opts e s) as [s1 [[]|x]] eqn:E1.
    + assert (I1 : inv s1).
      { change s1 with (fst (s1, @Ok unit tt)). rewrite <- E1. destruct e as [b|b]; cbn [run_event]; [now apply TS|].
        apply A5; [|intros x s2 I; exact I|now split]. intro I. unfold eval_step. apply A5; [apply A6| |exact I]. intros x s2 J.
        apply A5; [apply A7|intros y s3 J3; exact J3|exact J]. }
      destruct I1. now apply (IH s1 s' r).
    + injection E as <- <-. change s1 with (fst (s1, @Raise unit x)). rewrite <- E1. destruct e as [b|b]; cbn [run_event]; [now apply TS|].
      apply A5; [|intros y s2 I; exact I|now split]. intro I. unfold eval_step. apply A5; [apply A6| |exact I]. intros y s2 J.
      apply A5; [apply A7|intros z s3 J3; exact J3|exact J].
Qed.
Theorem gan_frozen_untouched : forall m s0 es opts s' r p, separate m -> configure_gan m s0 = Ok opts ->
  In p (map fst (m_params m)) -> s_req s0 p = false -> s_log s0 = [] ->
  run_events m opts es s0 = (s', r) ->
  s_req s' p = false /\ forall e, In e (s_log s') -> ~ In p (map fst (snd e)).
Proof.
  intros m s0 es opts s' r p N E I F L R. apply (act_frozen m p opts) with (es := es) (s := s0) (r := r); trivial.
  - intros o O J. unfold configure_gan, collect_parameters in E. fold (trainable m s0) in E. fold (trainable_quantiles m s0) in E.
    unfold make_optimizer in E.
    assert (X : opts = gan_opts m s0).
    { unfold gan_opts. destruct (trainable m s0); [discriminate|]. cbn [bind] in E. destruct (m_disc m); [discriminate|]. cbn [bind] in E.
      destruct (trainable_quantiles m s0); cbn [bind] in E; injection E as <-; reflexivity. }
    subst opts. unfold gan_opts in O. cbn [app] in O. destruct O as [<-|[<-|O]]; cbn [o_params] in J.
    + apply trainable_ids in J. destruct J. congruence.
    + destruct (nodup_app _ _ N) as [_ [_ Z]]. now apply (Z p).
    + destruct (trainable_quantiles m s0) as [|q qs] eqn:EQ; [destruct O|]. destruct O as [<-|[]]. cbn [o_params] in J.
      rewrite <- EQ in J. apply quantile_ids in J. destruct J. congruence.
  - rewrite L. easy.
Qed.

(** Known deviation: with an unconditional discriminator every training batch updates the
    autoencoder and then raises TypeError, and every validation batch raises. *)
Theorem gan_unconditional_refuted : forall m s0 b, m_conditional m = false -> trainable m s0 <> [] -> m_disc m <> [] ->
  exists opts s', configure_gan m s0 = Ok opts /\
    training_step m opts b s0 = (s', Raise TypeError) /\
    s_log s' = s_log s0 ++ [(0, map (fun p => (p, [model_loss m (s_model_version s0) (s_disc_version s0) b])) (trainable m s0))] /\
    forall s c, eval_step m c s = (s, Raise TypeError).
Proof.
  intros m s0 b C T D. exists (gan_opts m s0). set (M := trainable m s0) in *. set (Dd := m_disc m) in *.
  assert (MM : forall p, In p M -> In p (model_ids m)) by (intros p I; now apply (trainable_ids m s0) in I).
  destruct M as [|p0 M'] eqn:EM; [easy|]. rewrite <- EM in *.
  assert (P0 : In p0 M) by (rewrite EM; now left).
  unfold training_step, gan_opts. fold M Dd. cbn [app]. rewrite halves. cbn [fst snd].
  unfold andthen at 1. unfold disable_gradients at 1, set_req. cbn [o_params].
  unfold andthen at 1. unfold enable_gradients at 1, set_req. cbn [o_params s_req s_grad s_model_version s_disc_version s_log].
  unfold run_model at 1, andthen at 1, get, ret. unfold andthen at 1. cbn [s_model_version].
  unfold run_discriminator. rewrite C. unfold andthen at 1, get, ret. unfold andthen at 1. cbn [s_disc_version].
  unfold andthen at 1, zero_grad at 1. cbn [o_params s_req s_grad s_model_version s_disc_version s_log].
  fold (labels m (fake_half m b)).
  set (ml := [(m_lam m, Distortion _ _); _; _]).
  assert (ML : ml = model_loss m (s_model_version s0) (s_disc_version s0) b) by (unfold ml, model_loss, target_of, labels; now rewrite C).
  assert (DL : forall p, In p M -> In p (deps_loss m ml)).
  { intros p I. unfold ml, deps_loss. cbn [flat_map snd deps_term app]. apply in_or_app. left. now apply MM. }
  unfold andthen at 1, backward at 1. cbn [s_req s_grad s_model_version s_disc_version s_log].
  rewrite (existsb_in _ _ p0) by (try (now apply DL); rewrite (proj2 (memb_in _ _)) by exact P0; reflexivity).
  unfold andthen at 1, step at 1. cbn [o_id o_params s_req s_grad s_model_version s_disc_version s_log Nat.eqb].
  unfold andthen at 1. unfold disable_gradients at 1, set_req. cbn [o_params s_req s_grad s_model_version s_disc_version s_log].
  unfold andthen at 1. unfold enable_gradients at 1, set_req. cbn [o_params s_req s_grad s_model_version s_disc_version s_log].
  match goal with |- context [map ?f M] =>
    replace (map f M) with (map (fun p => (p, [model_loss m (s_model_version s0) (s_disc_version s0) b])) M) end.
  2:{ apply map_ext_in. intros p I. rewrite (proj2 (memb_in p M) I), (proj2 (memb_in p _) (DL p I)). cbn [andb app]. now rewrite ML. }
  eexists. split; [apply configure_gan_ok; fold M Dd; [rewrite EM; easy|exact D]|]. split.
  - unfold disc_2. rewrite C. destruct (m_mc m); reflexivity.
  - split; [reflexivity|]. intros s c. unfold eval_step, disc_2. rewrite C. reflexivity.
Qed.

(** Batches of n images: halves of n/2 images each, in order, without a common image; one image
    of an odd batch is left out. *)
Theorem gan_batch_halves : forall m b, 
  (m_mc m = false -> resample_batch b (m_mc m) = (b, b)) /\
  (m_mc m = true -> exists x y rest, resample_batch b (m_mc m) = (x, y) /\ b = x ++ y ++ rest /\
     length x = length b / 2 /\ length y = length b / 2 /\ length rest = length b mod 2).
Proof.
  intros m b. split; intro E; rewrite E; [reflexivity|]. unfold resample_batch.
  replace (length b / 2 * 2 - length b / 2) with (length b / 2) by lia.
  pose proof (Nat.div_mod (length b) 2 ltac:(lia)) as DM. pose proof (Nat.mod_upper_bound (length b) 2 ltac:(lia)).
  exists (firstn (length b / 2) b), (firstn (length b / 2) (skipn (length b / 2) b)), (skipn (length b / 2) (skipn (length b / 2) b)).
  split; [reflexivity|]. split; [now rewrite !firstn_skipn|].
  rewrite !firstn_length, !skipn_length. lia.
Qed.
(** In particular a batch of one image trains on no image. *)
Theorem gan_single_image_refuted : forall m i, m_mc m = true -> resample_batch [i] (m_mc m) = (@nil img, @nil img).
Proof. intros m i E. now rewrite E. Qed.

(** Validation changes nothing and reports the autoencoder's loss over the whole batch, with the
    current weights of both networks, also if training uses halves. *)
Theorem gan_validation : forall m s b, m_conditional m = true ->
  let whole := mkM (m_params m) (m_disc m) true (m_projector m) (m_lam m) (m_weight m) false in
  eval_step m b s = (s, Ok (model_loss whole (s_model_version s) (s_disc_version s) b)).
Proof.
  intros m s b C whole. unfold eval_step, run_model, disc_2, andthen, get, ret, target_of. rewrite C. reflexivity.
Qed.

(** Training without a discriminator. *)
Definition plain_steps m (s0 : @st img) (v : nat) b : list (nat * list (nat * list (@loss img))) :=
  [(0, map (fun p => (p, [[(m_lam m, Distortion (Out v b) b); (1%R, Rate (Out v b) b)]])) (trainable m s0));
   (2, map (fun p => (p, [[(1%R, Quantile)]])) (trainable_quantiles m s0))].
Fixpoint plain_history m (s0 : @st img) (v : nat) (bs : list (list img)) :=
  match bs with
  | [] => []
  | b :: r => plain_steps m s0 v b ++ plain_history m s0 (S v) r
  end.
Theorem plain_updates : forall m s0 bs, NoDup (map fst (m_params m)) -> trainable m s0 <> [] -> trainable_quantiles m s0 <> [] ->
  exists opts s', configure_plain m s0 = Ok opts /\ run_plain m opts bs s0 = (s', Ok tt) /\
    s_log s' = s_log s0 ++ plain_history m s0 (s_model_version s0) bs /\ s_req s' = s_req s0.
Proof.
  intros m s0 bs N T Q. exists [mkO 0 (trainable m s0); mkO 2 (trainable_quantiles m s0)].
  assert (H : forall bs s, s_req s = s_req s0 ->
     exists s', run_plain m [mkO 0 (trainable m s0); mkO 2 (trainable_quantiles m s0)] bs s = (s', Ok tt) /\
       s_log s' = s_log s ++ plain_history m s0 (s_model_version s) bs /\ s_req s' = s_req s0).
  { clear bs. induction bs as [|b bs IH]; intros s RQ.
    - exists s. split; [reflexivity|]. cbn. now rewrite app_nil_r.
    - set (M := trainable m s0) in *. set (QQ := trainable_quantiles m s0) in *.
      assert (MM : forall p, In p M -> In p (model_ids m) /\ s_req s0 p = true) by (intros p I; now apply (trainable_ids m s0) in I).
      assert (QM : forall p, In p QQ -> In p (model_ids m) /\ s_req s0 p = true) by (intros p I; now apply (quantile_ids m s0) in I).
      destruct M as [|p0 M'] eqn:EM; [easy|]. rewrite <- EM in *. destruct QQ as [|q0 Q'] eqn:EQ; [easy|]. rewrite <- EQ in *.
      assert (P0 : In p0 M) by (rewrite EM; now left). assert (Q0 : In q0 QQ) by (rewrite EQ; now left).
      cbn [run_plain]. unfold andthen at 1. unfold training_step_plain.
      unfold run_model at 1, andthen at 1, get, ret. unfold andthen at 1.
      unfold andthen at 1, zero_grad at 1. cbn [o_params s_req s_grad s_model_version s_disc_version s_log].
      set (ml := [(m_lam m, Distortion _ _); _]).
      assert (DL : forall p, In p (model_ids m) -> memb p (deps_loss m ml) = true).
      { intros p I. apply memb_in. unfold ml, deps_loss. cbn [flat_map snd deps_term app]. apply in_or_app. now left. }
      assert (DQ : forall p, In p (model_ids m) -> memb p (deps_loss m [(1%R, @Quantile img)]) = true).
      { intros p I. apply memb_in. unfold deps_loss. cbn [flat_map snd deps_term app]. rewrite app_nil_r. exact I. }
      unfold andthen at 1, backward at 1. cbn [s_req s_grad s_model_version s_disc_version s_log].
      rewrite (existsb_in _ _ p0) by (rewrite ?RQ; try (apply memb_in, DL); now apply MM).
      unfold andthen at 1, step at 1. cbn [o_id o_params s_req s_grad s_model_version s_disc_version s_log Nat.eqb].
      unfold andthen at 1, zero_grad at 1. cbn [o_params s_req s_grad s_model_version s_disc_version s_log].
      unfold andthen at 1, backward at 1. cbn [s_req s_grad s_model_version s_disc_version s_log].
      rewrite (existsb_in _ _ q0) by (rewrite ?RQ; try (apply memb_in, DQ); now apply QM).
      unfold step. cbn [o_id o_params s_req s_grad s_model_version s_disc_version s_log Nat.eqb].
      match goal with |- context [run_plain m _ bs ?s1] => destruct (IH s1 RQ) as [s' [E' [L' R']]] end.
      exists s'. split; [exact E'|]. split; [|exact R']. rewrite L'. cbn [s_log s_model_version plain_history]. unfold plain_steps.
      fold M QQ. rewrite <- !app_assoc. cbn [app]. do 2 f_equal; [|f_equal]; f_equal; apply map_ext_in; intros p I.
      + destruct (MM p I) as [A B]. rewrite RQ, B, (DL p A), (proj2 (memb_in _ _) I). reflexivity.
      + destruct (QM p I) as [A B]. rewrite RQ, B, (DQ p A), (proj2 (memb_in _ _) I). reflexivity. }
  destruct (H bs s0 eq_refl) as [s' [E [L R]]]. exists s'. split; [|now split].
  unfold configure_plain, collect_parameters. fold (trainable m s0). fold (trainable_quantiles m s0). unfold make_optimizer.
  destruct (trainable m s0); [easy|]. destruct (trainable_quantiles m s0); [easy|]. reflexivity.
Qed.
(** Known deviation: with frozen quantiles it can not be set up at all (the adversarial module can). *)
Theorem plain_frozen_quantiles_refuted : forall m s0, trainable m s0 <> [] -> m_disc m <> [] -> trainable_quantiles m s0 = [] ->
  configure_plain m s0 = Raise ValueError /\ exists opts, configure_gan m s0 = Ok opts.
Proof.
  intros m s0 T D Q. split.
  - unfold configure_plain, collect_parameters. fold (trainable m s0). fold (trainable_quantiles m s0). rewrite Q.
    unfold make_optimizer. destruct (trainable m s0); reflexivity.
  - exists (gan_opts m s0). now apply configure_gan_ok.
Qed.
End Proofs.

(** A module with two network parameters (one frozen), a quantile and a discriminator parameter. *)
Definition ex_module : module := mkM [(0, false); (1, false); (2, true)] [3] true true 1%R 1%R true.
Definition ex_state : @st nat := mkS (fun p => negb (p =? 1)) (fun _ => []) 0 0 [].
Example gan_instance : separate ex_module /\ trainable ex_module ex_state = [0] /\ trainable_quantiles ex_module ex_state = [2] /\
  map (fun e => (fst e, map fst (snd e))) (s_log (fst (run_events ex_module (gan_opts ex_module ex_state) [Train [7; 8; 9]; Validate [1]; Train [4; 5]] ex_state)))
  = [(0, [0]); (1, [3]); (2, [2]); (0, [0]); (1, [3]); (2, [2])].
Proof.
  split; [|now split]. unfold separate. cbn. repeat constructor; cbn; intuition lia.
Qed.
Print Assumptions gan_updates.
Print Assumptions gan_frozen_untouched.
Print Assumptions plain_updates.
Print Assumptions gan_validation.

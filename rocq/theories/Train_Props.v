(** C67: launching, resuming and testing with checkpoints. *)
From Coq Require Import Ascii String ZArith List Bool Arith Lia.
From Verif Require Import Base Train_Model.
Import ListNotations.
Open Scope string_scope.
Open Scope nat_scope.

(** * Specification *)
Section Spec.
Context {V : Type}.
(** The file of this name. *)
Definition file (d : ckdir V) (name : string) : option (ckpt V) :=
  match d with None => None | Some l => option_map snd (find (fun p => String.eqb (fst p) name) l) end.
(** Some file is a checkpoint: its name ends in ".ckpt". *)
Definition has_checkpoint (d : ckdir V) : Prop :=
  exists l stem k, d = Some l /\ In (stem ++ ".ckpt", k) l.
(** The flags as documented. *)
Definition keep (c : cfg) : Prop := overwrite c = Some false.
Definition resumes (c : cfg) : Prop := resume_training c = Some true.
(** What is asked of the Trainer: it only goes forward from where it starts, and never deletes the
    last checkpoint. *)
Definition start_step (s : option (ckpt V)) : nat := match s with Some k => k_step k | None => 0 end.
Definition well_behaved (saves : option (ckpt V) -> list (event V)) : Prop :=
  forall s e, In e (saves s) -> match e with
                                | Save _ k => start_step s <= k_step k
                                | Delete n => n <> "last.ckpt"
                                end.
End Spec.

(** * Lemmas *)
Section Lemmas.
Context {V : Type}.
Implicit Types (d : ckdir V).
Lemma file_lookup (l : list (string * ckpt V)) name : lookup l name = file (Some l) name.
Proof.
  cbn [file]. induction l as [|[n k] r IH]; [reflexivity|]. cbn [lookup find fst].
  rewrite String.eqb_sym. destruct (String.eqb n name); [reflexivity|exact IH].
Qed.
Lemma lookup_remove {A} (l : list (string * A)) n m :
  lookup (remove n l) m = if String.eqb m n then None else lookup l m.
Proof.
  unfold remove. induction l as [|[k v] r IH]; cbn [filter lookup fst]; [now destruct (String.eqb m n)|].
  destruct (String.eqb_spec n k) as [->|N]; cbn [negb].
  - rewrite IH. destruct (String.eqb m k); reflexivity.
  - cbn [lookup]. rewrite IH. destruct (String.eqb_spec m k) as [->|M]; [|reflexivity].
    apply String.eqb_neq in N. rewrite String.eqb_sym in N. now rewrite N.
Qed.
Lemma str_app_length a b : String.length (a ++ b) = String.length a + String.length b.
Proof. induction a as [|x a IH]; cbn; [reflexivity|now rewrite IH]. Qed.
Lemma substring_app_r a b : substring (String.length a) (String.length b) (a ++ b) = b.
Proof.
  induction a as [|x a IH]; cbn; [|exact IH]. induction b as [|y b IH]; cbn; [reflexivity|now rewrite IH].
Qed.
Lemma substring_full b : substring 0 (String.length b) b = b.
Proof. induction b as [|y b IH]; cbn; [reflexivity|now rewrite IH]. Qed.
Lemma substring_suffix : forall n s, n <= String.length s -> s = substring 0 n s ++ substring n (String.length s - n) s.
Proof.
  induction n as [|n IH]; intros s L.
  - rewrite Nat.sub_0_r, substring_full. now destruct s.
  - destruct s as [|c s]; cbn in L; [lia|]. cbn [substring String.length Nat.sub append]. f_equal. apply IH. lia.
Qed.
Lemma ends_with_spec suf s : ends_with suf s = true <-> exists stem, s = stem ++ suf.
Proof.
  unfold ends_with. rewrite andb_true_iff, Nat.leb_le, String.eqb_eq. split.
  - intros [L E]. exists (substring 0 (String.length s - String.length suf) s).
    pose proof (substring_suffix (String.length s - String.length suf) s ltac:(lia)) as H.
    replace (String.length s - (String.length s - String.length suf)) with (String.length suf) in H by lia.
    rewrite E in H. exact H.
  - intros [stem ->]. rewrite str_app_length. split; [lia|].
    replace (String.length stem + String.length suf - String.length suf) with (String.length stem) by lia. apply substring_app_r.
Qed.
Lemma glob_spec d : (0 <? length (glob_ckpt d)) = true <-> has_checkpoint d.
Proof.
  rewrite Nat.ltb_lt. unfold glob_ckpt, has_checkpoint. destruct d as [l|].
  - split.
    + intro L. destruct (filter (ends_with ".ckpt") (map fst l)) as [|n r] eqn:F; [cbn in L; lia|].
      assert (I : In n (filter (ends_with ".ckpt") (map fst l))) by (rewrite F; now left).
      apply filter_In in I. destruct I as [I E]. apply ends_with_spec in E. destruct E as [stem ->].
      apply in_map_iff in I. destruct I as [[m k] [M I]]. cbn in M. subst m. now exists l, stem, k.
    + intros [l' [stem [k [E I]]]]. injection E as <-.
      assert (J : In (stem ++ ".ckpt") (filter (ends_with ".ckpt") (map fst l))).
      { apply filter_In. split; [apply in_map_iff; now exists (stem ++ ".ckpt", k)|]. apply ends_with_spec. now exists stem. }
      destruct (filter _ _); [destruct J|cbn; lia].
  - cbn. split; [lia|]. now intros [l [? [? [? ?]]]].
Qed.
Lemma glob_false d : (0 <? length (glob_ckpt d)) = false <-> ~ has_checkpoint d.
Proof. rewrite <- glob_spec. destruct (0 <? _); split; congruence. Qed.
Definition made d : ckdir V := match d with None => Some [] | Some _ => d end.
Lemma file_made d n : file (made d) n = file d n.
Proof. now destruct d. Qed.
Lemma fetch_ok c d d' last : fetch_checkpoint c d = Ok (d', last) -> d' = made d /\
  last = (match overwrite c with Some false => file d "last.ckpt" | _ => None end).
Proof.
  unfold fetch_checkpoint. destruct (negb _ && negb _ && _); [discriminate|]. intro H. injection H as <- <-.
  split; [reflexivity|]. destruct d as [l|]; cbn [lookup].
  - rewrite file_lookup. destruct (file (Some l) "last.ckpt"), (overwrite c) as [[]|]; reflexivity.
  - now destruct (overwrite c) as [[]|].
Qed.
Lemma file_apply d e n : d <> None -> file (apply_event d e) n =
  match e with
  | Save m k => if String.eqb n m then Some k else file d n
  | Delete m => if String.eqb n m then None else file d n
  end.
Proof.
  destruct d as [l|]; [|easy]. intros _. destruct e as [m k|m]; cbn [apply_event]; rewrite <- !file_lookup; cbn [lookup].
  - rewrite lookup_remove. destruct (String.eqb n m); reflexivity.
  - apply lookup_remove.
Qed.
Lemma apply_some d e : d <> None -> apply_event d e <> None.
Proof. destruct d; [|easy]. intros _. destruct e; discriminate. Qed.
Lemma events_last base : forall evs d, d <> None ->
  (forall e, In e evs -> match e with Save _ k => base <= k_step k | Delete n => n <> "last.ckpt" end) ->
  (exists k, file d "last.ckpt" = Some k /\ base <= k_step k) ->
  exists k, file (fold_left apply_event evs d) "last.ckpt" = Some k /\ base <= k_step k.
Proof.
  induction evs as [|e evs IH]; intros d D W H; [exact H|]. cbn [fold_left]. apply IH.
  - now apply apply_some.
  - intros e' I. apply W. now right.
  - specialize (W e (or_introl eq_refl)). destruct H as [k [F L]]. rewrite (file_apply d e "last.ckpt" D). destruct e as [m k'|m].
    + destruct (String.eqb "last.ckpt" m); [exists k'; auto|exists k; auto].
    + destruct (String.eqb_spec "last.ckpt" m) as [E|E]; [now subst m|exists k; auto].
Qed.
End Lemmas.

(** * Theorems *)
(** With neither flag set, a directory with checkpoints is refused and left alone; and this is the
    only training run that is refused. *)
Theorem train_guard : forall V (c : cfg) (d : ckdir V) saves, mode_train c = true ->
  overwrite c = Some false \/ overwrite c = Some true ->
  resume_training c = Some false \/ resume_training c = Some true ->
  (keep c /\ ~ resumes c /\ has_checkpoint d <-> main c d saves = (Raise RuntimeError, d)) /\
  (~ (keep c /\ ~ resumes c /\ has_checkpoint d) ->
     exists start d', main c d saves = (Ok (Trained start), d')).
Proof.
  intros V c d saves M O R. unfold main, fetch_checkpoint, keep, resumes.
  destruct (0 <? length (glob_ckpt d)) eqn:G.
  - pose proof (proj1 (glob_spec d) G) as HC. destruct O as [O|O], R as [R|R]; rewrite O, R, ?M; cbn [truthy negb andb]; (split; [split|]).
    all: try (intros [? [? ?]]; congruence).
    all: try (intro X; exfalso; apply X; repeat split; trivial; discriminate).
    all: try (intros _; eauto; fail).
    all: try (intro X; discriminate).
    intros _; repeat split; trivial; discriminate.
  - pose proof (proj1 (glob_false d) G) as HC. rewrite andb_false_r, M. split; [split|].
    + intros [_ [_ X]]; contradiction.
    + discriminate.
    + intros _. eauto.
Qed.
(** Where a training run starts: from the last checkpoint exactly if overwriting is off. *)
Theorem train_start : forall V (c : cfg) (d : ckdir V) saves start d', 
  main c d saves = (Ok (Trained start), d') ->
  start = (if match overwrite c with Some false => true | _ => false end then file d "last.ckpt" else None).
Proof.
  intros V c d saves start d' H. unfold main in H. destruct (fetch_checkpoint c d) as [[d1 last]|e] eqn:F; [|discriminate].
  destruct (fetch_ok _ _ _ _ F) as [-> ->]. destruct (mode_train c).
  - injection H as <- <-. now destruct (overwrite c) as [[]|].
  - destruct (match overwrite c with Some false => _ | _ => None end); [|discriminate]. destruct (1 <? ngpu c); discriminate.
Qed.
(** In every history without overwriting, of launches that train, test, are refused or are killed at
    any point, the last checkpoint never disappears and never goes back. *)
Theorem train_progress : forall V (ls : list (launch V)) (d : ckdir V) k,
  (forall l, In l ls -> keep (l_cfg l) /\ well_behaved (l_saves l)) ->
  file d "last.ckpt" = Some k ->
  exists k', file (run_launches d ls) "last.ckpt" = Some k' /\ k_step k <= k_step k'.
Proof.
  intros V. induction ls as [|l ls IH]; intros d k A F; [exists k; auto|].
  assert (S : exists k1, file (run_launch d l) "last.ckpt" = Some k1 /\ k_step k <= k_step k1).
  { destruct (A l (or_introl eq_refl)) as [K W]. unfold run_launch, main.
    destruct (fetch_checkpoint (l_cfg l) d) as [[d1 last]|e] eqn:FC; [|exists k; auto].
    destruct (fetch_ok _ _ _ _ FC) as [-> E]. unfold keep in K. rewrite K, F in E. subst last.
    assert (B : exists k1, file (made d) "last.ckpt" = Some k1 /\ k_step k <= k_step k1) by (exists k; rewrite file_made; auto).
    destruct (mode_train (l_cfg l)); cbn [snd].
    - apply events_last; [now destruct d| |exact B]. intros e I. exact (W (Some k) e I).
    - destruct (1 <? ngpu (l_cfg l)); cbn [snd]; exact B. }
  destruct S as [k1 [F1 L1]]. destruct (IH (run_launch d l) k1 (fun l' I => A l' (or_intror I)) F1) as [k2 [F2 L2]].
  exists k2. split; [exact F2|lia].
Qed.
(** A test run happens exactly if the last checkpoint is there, overwriting is off, resuming on and
    there is at most one GPU; it uses the weights of the last checkpoint, and changes no file. *)
Theorem test_run_iff : forall V (c : cfg) (d : ckdir V) saves w, mode_train c = false ->
  fst (main c d saves) = Ok (Tested w) <->
  keep c /\ resumes c /\ ngpu c <= 1 /\ exists k, file d "last.ckpt" = Some k /\ w = pretrained_state_dict (k_state k) "model.".
Proof.
  intros V c d saves w M. unfold main, keep, resumes. split.
  - destruct (fetch_checkpoint c d) as [[d1 last]|e] eqn:FC; [|discriminate]. destruct (fetch_ok _ _ _ _ FC) as [-> E]. rewrite M.
    destruct last as [k|]; [|discriminate]. destruct (overwrite c) as [[]|] eqn:O; try discriminate.
    destruct (Nat.ltb_spec 1 (ngpu c)); [discriminate|]. intro H'. injection H' as <-.
    split; [reflexivity|]. split; [|split; [assumption|exists k; auto]].
    unfold fetch_checkpoint in FC. rewrite O in FC. cbn [truthy negb andb] in FC.
    destruct (resume_training c) as [[]|]; [reflexivity| |];
      (cbn [truthy negb andb] in FC; destruct (0 <? length (glob_ckpt d)) eqn:G; [discriminate|];
       exfalso; apply (proj1 (glob_false d) G); destruct d as [l|]; [|discriminate]; exists l, "last", k;
       split; [reflexivity|]; cbn [file] in E; destruct (find _ l) as [[n k']|] eqn:FI; [|discriminate];
       cbn in E; injection E as ->; apply find_some in FI; destruct FI as [I N]; cbn in N; apply String.eqb_eq in N; now subst n).
  - intros [O [R [N [k [F ->]]]]]. destruct (fetch_checkpoint c d) as [[d1 last]|e] eqn:FC.
    + destruct (fetch_ok _ _ _ _ FC) as [-> ->]. rewrite O, F, M. apply Nat.ltb_ge in N. now rewrite N.
    + exfalso. unfold fetch_checkpoint in FC. rewrite O, R in FC. cbn [truthy negb andb] in FC. discriminate.
Qed.
(** A test without a last checkpoint, or on several GPUs, is refused. *)
Theorem test_refused : forall V (c : cfg) (d : ckdir V) saves, mode_train c = false -> keep c -> resumes c ->
  (file d "last.ckpt" = None -> fst (main c d saves) = Raise AssertionError) /\
  (forall k, file d "last.ckpt" = Some k -> 1 < ngpu c -> fst (main c d saves) = Raise ValueError).
Proof.
  intros V c d saves M K R. unfold main. destruct (fetch_checkpoint c d) as [[d1 last]|e] eqn:FC.
  - destruct (fetch_ok _ _ _ _ FC) as [-> ->]. rewrite M, K. split; [intros ->; reflexivity|].
    intros k -> G. apply Nat.ltb_lt in G. now rewrite G.
  - exfalso. unfold fetch_checkpoint in FC. rewrite K, R in FC. cbn [truthy negb andb] in FC. discriminate.
Qed.
Theorem test_changes_nothing : forall V (c : cfg) (d : ckdir V) saves n, mode_train c = false ->
  file (snd (main c d saves)) n = file d n.
Proof.
  intros V c d saves n M. unfold main. destruct (fetch_checkpoint c d) as [[d1 last]|e] eqn:FC; [|reflexivity].
  destruct (fetch_ok _ _ _ _ FC) as [-> _]. rewrite M. destruct last as [k|]; cbn [snd]; [|apply file_made].
  destruct (1 <? ngpu c); cbn [snd]; apply file_made.
Qed.
(** The weights: from the checkpoint of a module, exactly the state dict of the submodule "model",
    whatever other submodules it has. *)
Lemma strip_prefix V p (k : string) (v : V) : strip p (p ++ k, v) = [(k, v)].
Proof.
  unfold strip. cbn [fst snd].
  assert (A : substring 0 (String.length p) (p ++ k) = p) by (induction p as [|c p IH]; cbn; [now destruct k|now rewrite IH]).
  rewrite A, String.eqb_refl, str_app_length. replace (String.length p + String.length k - String.length p) with (String.length k) by lia.
  now rewrite substring_app_r.
Qed.
Lemma substring_prefix : forall p s, substring 0 (String.length p) s = p -> exists k, s = p ++ k.
Proof.
  induction p as [|c p IH]; intros s H; [now exists s|]. cbn in H. destruct s as [|x s]; [discriminate|].
  injection H as -> H. destruct (IH s H) as [k ->]. now exists k.
Qed.
Lemma strip_other V p s (v : V) : (forall k, s <> p ++ k) -> strip p (s, v) = [].
Proof.
  intro N. unfold strip. cbn [fst snd]. destruct (String.eqb_spec (substring 0 (String.length p) s) p) as [E|E]; [|reflexivity].
  destruct (substring_prefix p s E) as [k ->]. now destruct (N k).
Qed.
Fixpoint no_dot (s : string) : Prop :=
  match s with EmptyString => True | String c r => c <> "."%char /\ no_dot r end.
Lemma dot_split : forall a b x y, no_dot a -> no_dot b -> a ++ "." ++ x = b ++ "." ++ y -> a = b /\ x = y.
Proof.
  induction a as [|c a IH]; intros [|e b] x y A B H; cbn in H.
  - now injection H as ->.
  - injection H as H _. destruct B as [B _]. now destruct B.
  - injection H as H _. destruct A as [A _]. now destruct A.
  - injection H as -> H. destruct A as [_ A], B as [_ B]. destruct (IH b x y A B H) as [-> ->]. auto.
Qed.
Theorem pretrained_roundtrip : forall V (before after : list (string * state_dict V)) sd,
  (forall s, In s (before ++ after)%list -> no_dot (fst s) /\ fst s <> "model") ->
  pretrained_state_dict (module_state (before ++ ("model", sd) :: after)%list) "model." = sd.
Proof.
  intros V before after sd A. unfold pretrained_state_dict, module_state. rewrite flat_map_app. cbn [flat_map fst snd].
  rewrite !flat_map_app.
  assert (O : forall l : list (string * state_dict V), (forall s, In s l -> no_dot (fst s) /\ fst s <> "model") ->
    flat_map (strip "model.") (flat_map (fun s => map (fun kv => (fst s ++ "." ++ fst kv, snd kv)) (snd s)) l) = []).
  { induction l as [|s l IH]; intro B; [reflexivity|]. cbn [flat_map]. rewrite flat_map_app, IH by (intros s' I; apply B; now right).
    rewrite app_nil_r. destruct (B s (or_introl eq_refl)) as [N E]. clear B. destruct s as [nm sd0]. cbn [fst snd] in *.
    induction sd0 as [|[k v] r IHr]; [reflexivity|].
    cbn [map flat_map fst snd]. rewrite IHr, app_nil_r. apply strip_other. intros k' H.
    change ("model." ++ k') with ("model" ++ "." ++ k') in H. apply dot_split in H; [now apply E|exact N|].
    cbn. repeat split; discriminate. }
  rewrite !O by (intros s I; apply A; apply in_or_app; auto). rewrite app_nil_r. cbn [app].
  induction sd as [|[k v] r IH]; [reflexivity|]. cbn [map flat_map fst snd].
  change ("model" ++ "." ++ k) with ("model." ++ k). rewrite strip_prefix. cbn [app]. now rewrite IH.
Qed.
(** A checkpoint without the prefix gives nothing. *)
Theorem pretrained_bare_refuted : forall V (sd : state_dict V), (forall k v, In (k, v) sd -> forall r, k <> "model." ++ r) ->
  pretrained_state_dict sd "model." = [].
Proof.
  intros V sd. unfold pretrained_state_dict. induction sd as [|[k v] r IH]; intro A; [reflexivity|]. cbn [flat_map].
  rewrite strip_other by (intro k'; apply (A k v); now left). apply IH. intros k' v' I. apply (A k' v'). now right.
Qed.
(** Known deviations.  Resuming with checkpoints but no last.ckpt starts from nothing. *)
Theorem train_resume_without_last_refuted : forall V (c : cfg) (d : ckdir V) saves,
  mode_train c = true -> resumes c -> file d "last.ckpt" = None ->
  exists d', main c d saves = (Ok (Trained None), d').
Proof.
  intros V c d saves M R F. unfold main. destruct (fetch_checkpoint c d) as [[d1 last]|e] eqn:FC.
  - destruct (fetch_ok _ _ _ _ FC) as [-> ->]. rewrite M, F. exists (fold_left apply_event (saves None) (made d)).
    now destruct (overwrite c) as [[]|].
  - exfalso. unfold fetch_checkpoint in FC. unfold resumes in R. rewrite R in FC. cbn [truthy negb] in FC. rewrite andb_false_r in FC. discriminate.
Qed.
(** With overwrite: null and resuming, the last checkpoint is ignored, and training starts anew. *)
Theorem train_null_overwrite_refuted : forall V (c : cfg) (d : ckdir V) saves,
  mode_train c = true -> resumes c -> overwrite c = None ->
  exists d', main c d saves = (Ok (Trained None), d').
Proof.
  intros V c d saves M R O. unfold main. destruct (fetch_checkpoint c d) as [[d1 last]|e] eqn:FC.
  - destruct (fetch_ok _ _ _ _ FC) as [-> ->]. rewrite M, O. eexists; reflexivity.
  - exfalso. unfold fetch_checkpoint in FC. unfold resumes in R. rewrite R in FC. cbn [truthy negb] in FC. rewrite andb_false_r in FC. discriminate.
Qed.

(** The number of steps: with n optimisers, training uses exactly max_steps batches in all, also over
    restarts after whole batches. *)
Lemma fit_batches_count {B} (m : Z) n (data : list B) (j : nat) : 0 < n -> (0 <= m)%Z ->
  fit_batches (m * Z.of_nat n) n (Z.of_nat j * Z.of_nat n) data = firstn (Z.to_nat m - j) data.
Proof.
  intros N M. revert j. induction data as [|b r IH]; intro j; [now rewrite firstn_nil|]. cbn [fit_batches].
  replace (m * Z.of_nat n =? -1)%Z with false by (symmetry; apply Z.eqb_neq; nia). cbn [negb andb].
  destruct (Z.leb_spec (m * Z.of_nat n) (Z.of_nat j * Z.of_nat n)) as [L|L].
  - replace (Z.to_nat m - j) with 0 by nia. reflexivity.
  - replace (Z.of_nat j * Z.of_nat n + Z.of_nat n)%Z with (Z.of_nat (S j) * Z.of_nat n)%Z by nia. rewrite IH.
    replace (Z.to_nat m - j) with (S (Z.to_nat m - S j)) by nia. reflexivity.
Qed.
Theorem train_steps : forall B (max_steps : Z) n (data : list B) done, 0 < n -> (0 <= max_steps)%Z ->
  exists limit, trainer_steps max_steps n = Ok limit /\
    fit_batches limit n (Z.of_nat done * Z.of_nat n) data = firstn (Z.to_nat max_steps - done) data.
Proof.
  intros B m n data j N M. exists (m * Z.of_nat n)%Z. split; [|now apply fit_batches_count].
  unfold trainer_steps. cbv zeta. destruct (Z.ltb_spec (m * Z.of_nat n) (-1)); [nia|reflexivity].
Qed.
(** Lightning's -1 (no limit) does not survive the multiplication. *)
Theorem train_unlimited_refuted : forall n, 2 <= n -> trainer_steps (-1) n = Raise ValueError.
Proof. intros n N. unfold trainer_steps. cbv zeta. destruct (Z.ltb_spec (-1 * Z.of_nat n) (-1)); [reflexivity|lia]. Qed.

(** A case: two launches that resume and one that tests. *)
Example train_instance :
  let c := mkCfg (Some false) (Some true) true 2 in
  let sd v := module_state [("discriminator", [("w", 9)]); ("model", [("w", v)])] in
  let fit (s : option (ckpt nat)) := [Save "epoch=0.ckpt" (mkK (start_step s + 5) (sd 1)); Save "last.ckpt" (mkK (start_step s + 5) (sd 2)); Delete "epoch=0.ckpt"] in
  well_behaved fit /\
  let d := run_launches None [mkL c fit; mkL c fit] in
  option_map k_step (file d "last.ckpt") = Some 10 /\
  fst (main (mkCfg (Some false) (Some true) false 1) d fit) = Ok (Tested [("w", 2)]).
Proof.
  split.
  - intros s e [<-|[<-|[<-|[]]]]; cbn [k_step]; try lia. discriminate.
  - split; reflexivity.
Qed.
Print Assumptions train_progress.
Print Assumptions test_run_iff.
Print Assumptions pretrained_roundtrip.
Print Assumptions train_steps.
Print Assumptions test_refused.

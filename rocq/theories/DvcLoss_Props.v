(** What each stage of the training of the video model DVC trains (C99). *)
From Coq Require Import String Reals QArith List Bool Arith Lia Lra Permutation Sorting.Sorted.
From Verif Require Import Base DvcStages_Model DvcLoss_Model.
Import ListNotations.
Open Scope string_scope.
Open Scope list_scope.
Open Scope nat_scope.

(** * Specification *)
(** sum of f 0 .. f (n - 1) *)
Fixpoint sum_n (n : nat) (f : nat -> R) : R := match n with 0 => 0%R | S k => (sum_n k f + f k)%R end.
(** mean squared difference of two images *)
Definition mse (a b : image) : R := (sum_n (length (px a)) (fun i => (nth i (px a) 0 - nth i (px b) 0) ^ 2) / INR (length (px a)))%R.
(** bits of symbols with the given probabilities *)
Definition bits (ps : list R) : R := sum_n (length ps) (fun i => - (ln (nth i ps 0) / ln 2))%R.
(** number of pixels of a batch *)
Definition pixels (a : image) : R := (INR (iB a) * INR (iH a) * INR (iW a))%R.

(** * Lemmas *)
Lemma sum_n_shift n f : sum_n (S n) f = (f 0%nat + sum_n n (fun i => f (S i)))%R.
Proof. induction n as [|n IH]; [cbn; lra|]. change (sum_n (S (S n)) f) with (sum_n (S n) f + f (S n))%R. rewrite IH. cbn [sum_n]. lra. Qed.
Lemma sum_n_ext n f g : (forall i, i < n -> f i = g i) -> sum_n n f = sum_n n g.
Proof. induction n as [|n IH]; intro H; [reflexivity|]. cbn. rewrite IH by (intros; apply H; lia). rewrite H by lia. reflexivity. Qed.
Lemma sum_sum_n l : sum l = sum_n (length l) (fun i => nth i l 0%R).
Proof. induction l as [|x l IH]; [reflexivity|]. cbn [sum fold_right length]. fold (sum l). rewrite IH, sum_n_shift. reflexivity. Qed.
Lemma sq_spec a : forall b, length a = length b ->
  sum (map (fun x => (x * x)%R) (zip Rminus a b)) = sum_n (length a) (fun i => (nth i a 0 - nth i b 0) ^ 2)%R.
Proof.
  induction a as [|x a IH]; intros [|y b] H; cbn [length] in H; try lia; [reflexivity|].
  unfold zip. cbn [combine map fst snd sum fold_right length]. rewrite sum_n_shift. cbn [nth].
  change (fold_right Rplus 0%R (map (fun x0 : R => (x0 * x0)%R) (map (fun p : R * R => (fst p - snd p)%R) (combine a b)))) with (sum (map (fun x0 : R => (x0 * x0)%R) (zip Rminus a b))).
  rewrite IH by lia. lra.
Qed.
Lemma zip_length f a : forall b, length a = length b -> length (zip f a b) = length a.
Proof. intros b H. unfold zip. rewrite map_length, combine_length. lia. Qed.
Lemma same_size_length a b : same_size a b = true -> length (px a) = length (px b).
Proof. unfold same_size. intro H. apply andb_prop in H. destruct H as [_ H]. now apply Nat.eqb_eq. Qed.
Lemma mse_loss_spec a b x : mse_loss a b = Ok x -> same_size a b = true /\ x = mse a b.
Proof.
  unfold mse_loss, image_op. destruct (same_size a b) eqn:E; cbn [bind]; [|discriminate]. intro H. injection H as <-. split; [reflexivity|].
  apply same_size_length in E. cbn [px]. unfold mean, mse. rewrite map_length, zip_length by exact E. rewrite sq_spec by exact E. reflexivity.
Qed.
Lemma mse_loss_ok a b : same_size a b = true -> mse_loss a b = Ok (mse a b).
Proof. intro H. destruct (mse_loss a b) as [x|e] eqn:E; [now rewrite (proj2 (mse_loss_spec _ _ _ E))|]. unfold mse_loss, image_op in E. rewrite H in E. discriminate E. Qed.
Lemma entropy_spec ps n : entropy_fn ps n = (bits ps / INR n)%R.
Proof.
  unfold entropy_fn, bits. f_equal. induction ps as [|p ps IH]; [cbn; lra|].
  cbn [map sum fold_right length]. fold (sum (map ln ps)). rewrite sum_n_shift. cbn [nth]. rewrite <- IH. unfold Rdiv. lra.
Qed.
Lemma mse_sym a b : length (px a) = length (px b) -> mse a b = mse b a.
Proof. intro H. unfold mse. rewrite <- H. f_equal. apply sum_n_ext. intros. ring. Qed.
Lemma mse_nonneg a b : (0 <= mse a b)%R.
Proof.
  unfold mse. assert (S0 : (0 <= sum_n (length (px a)) (fun i => (nth i (px a) 0 - nth i (px b) 0) ^ 2))%R).
  { generalize (length (px a)). induction n as [|n IH]; [cbn; lra|]. cbn [sum_n]. pose proof (pow2_ge_0 (nth n (px a) 0 - nth n (px b) 0)%R). lra. }
  destruct (length (px a)) as [|n]; [cbn; unfold Rdiv; rewrite Rinv_0; lra|].
  apply Rmult_le_pos; [exact S0|]. left. apply Rinv_0_lt_compat. apply lt_0_INR. lia.
Qed.
Lemma bits_nonneg ps : Forall (fun p => 0 < p <= 1)%R ps -> (0 <= bits ps)%R.
Proof.
  intro F. unfold bits. assert (L2 : (0 < ln 2)%R) by (rewrite <- ln_1; apply ln_increasing; lra).
  induction F as [|p ps [P Q] F IH]; [cbn; lra|]. cbn [length]. rewrite sum_n_shift. cbn [nth].
  assert (ln p <= 0)%R by (destruct Q as [Q| ->]; [left; rewrite <- ln_1; apply ln_increasing; lra|rewrite ln_1; lra]).
  assert (0 <= - (ln p / ln 2))%R; [|lra].
  unfold Rdiv. rewrite <- Ropp_mult_distr_l_reverse. apply Rmult_le_pos; [lra|]. left. now apply Rinv_0_lt_compat.
Qed.

(** * The configuration of a stage *)
Lemma get_none k d : get k d = None <-> ~ In k (map fst d).
Proof.
  unfold get. induction d as [|[x v] d IH]; cbn [find map fst In option_map]; [tauto|].
  destruct (String.eqb x k) eqn:E; cbn [option_map].
  - apply String.eqb_eq in E. subst. split; [discriminate|tauto].
  - apply String.eqb_neq in E. rewrite IH. tauto.
Qed.
Lemma has_spec k d : has k d = true <-> In k (map fst d).
Proof.
  unfold has. rewrite existsb_exists, in_map_iff. split; intros [[x v] H]; exists (x, v); cbn [fst] in *; destruct H as [A B].
  - apply String.eqb_eq in B. tauto.
  - subst. split; [assumption|apply String.eqb_refl].
Qed.
Lemma get_set_item k x v d : get k (set_item x v d) = if String.eqb x k then Some v else get k d.
Proof.
  unfold set_item. destruct (has x d) eqn:H.
  - apply has_spec in H. unfold get. induction d as [|[y w] d IH]; cbn [map fst In] in *; [tauto|].
    cbn [find fst]. destruct (String.eqb y x) eqn:E.
    + apply String.eqb_eq in E. subst. cbn [find fst]. destruct (String.eqb x k) eqn:K; [reflexivity|].
      clear - K. induction d as [|[z u] d IH]; [reflexivity|]. cbn [map find fst]. destruct (String.eqb z x) eqn:Z; cbn [fst find].
      * destruct (String.eqb z k) eqn:ZK; [|exact IH]. apply String.eqb_eq in Z, ZK. subst.
        rewrite String.eqb_refl in K. discriminate.
      * destruct (String.eqb z k); [reflexivity|exact IH].
    + cbn [find fst]. apply String.eqb_neq in E. destruct H as [H|H]; [congruence|].
      destruct (String.eqb y k) eqn:K.
      * apply String.eqb_eq in K. subst. apply String.eqb_neq in E. rewrite String.eqb_sym, E. reflexivity.
      * exact (IH H).
  - assert (N : ~ In x (map fst d)) by (intro A; apply has_spec in A; congruence). clear H.
    unfold get. induction d as [|[y w] d IH]; cbn [app find fst map In] in *.
    + destruct (String.eqb x k); reflexivity.
    + destruct (String.eqb y k) eqn:K; [|apply IH; tauto]. apply String.eqb_eq in K. subst.
      replace (String.eqb x k) with false; [reflexivity|]. symmetry. apply String.eqb_neq. intro; subst; tauto.
Qed.
(** The stage overrides the base configuration, and nothing else changes. *)
Theorem C99_merge a b k : NoDup (map fst b) ->
  get k (merge_configs a b) = match get k b with Some v => Some v | None => get k a end.
Proof.
  unfold merge_configs. revert a. induction b as [|[x v] b IH]; intros a N; [reflexivity|]. inversion N as [|? ? N1 N2]; subst.
  cbn [fold_left fst snd]. rewrite IH by exact N2. rewrite get_set_item.
  assert (C : get k ((x, v) :: b) = if String.eqb x k then Some v else get k b) by (unfold get; cbn [find fst]; destruct (String.eqb x k); reflexivity).
  rewrite C. destruct (String.eqb x k) eqn:E; [|reflexivity]. apply String.eqb_eq in E. subst. apply get_none in N1. now rewrite N1.
Qed.
(** The keys are those of both, each once. *)
Theorem C99_merge_keys a b : NoDup (map fst a) -> NoDup (map fst b) ->
  NoDup (map fst (merge_configs a b)) /\ forall k, In k (map fst (merge_configs a b)) <-> In k (map fst a) \/ In k (map fst b).
Proof.
  intros NA NB. split.
  - unfold merge_configs. clear NB. revert a NA. induction b as [|[x v] b IH]; intros a N; [exact N|]. cbn [fold_left fst snd]. apply IH.
    unfold set_item. destruct (has x a) eqn:H.
    + rewrite map_map. replace (map (fun p => fst (if String.eqb (fst p) x then (fst p, v) else p)) a) with (map fst a); [exact N|].
      apply map_ext. intros [y w]. cbn [fst]. destruct (String.eqb y x); reflexivity.
    + rewrite map_app. cbn [map fst]. apply (Permutation_NoDup (l := x :: map fst a)); [apply Permutation_cons_append|].
      constructor; [|exact N]. intro I. apply has_spec in I. congruence.
  - intro k. destruct (in_dec string_dec k (map fst (merge_configs a b))) as [I|I].
    + split; [intros _|tauto]. destruct (in_dec string_dec k (map fst b)) as [B|B]; [tauto|]. destruct (in_dec string_dec k (map fst a)) as [A|A]; [tauto|].
      exfalso. apply get_none in A, B. assert (M : get k (merge_configs a b) = None) by (rewrite C99_merge by exact NB; now rewrite B).
      apply get_none in M. tauto.
    + split; [tauto|]. apply get_none in I. rewrite C99_merge in I by exact NB. destruct (get k b) eqn:B; [discriminate|]. apply get_none in I, B. tauto.
Qed.
Example C99_merge_example : merge_configs [("a", VNum 1); ("b", VNum 2)] [("b", VNum 3); ("c", VNum 4)] = [("a", VNum 1); ("b", VNum 3); ("c", VNum 4)].
Proof. reflexivity. Qed.

(** * The module of a stage *)
(** The keywords that a module takes. *)
Definition keywords : list string :=
  ["training_stage"; "pretrained_model_name"; "pretrained_model_quality_level"; "num_pframes"; "distortion_type"; "distortion_lambda";
   "learning_rate"; "aux_learning_rate"; "lr_scheduler_params"; "grad_clip_value"].
Definition value_or (d : value) (o : option value) : value := match o with Some v => v | None => d end.
Definition stages : list (string * cls) :=
  [("1_motion_estimation", DvcStage1); ("2_motion_compression", DvcStage2); ("3_motion_compensation", DvcStage3);
   ("4_total_2frame", DvcStage4and5); ("5_total", DvcStage4and5)].
Lemma known_spec k : known k = true <-> In k keywords.
Proof.
  unfold known. rewrite orb_true_iff, has_spec. rewrite existsb_exists. split.
  - intros [[x [I E]]|I].
    + apply String.eqb_eq in E. subst. cbn in I. destruct I as [<-|[<-|[<-|[]]]]; cbn; tauto.
    + cbn in I. cbn. tauto.
  - intro I. cbn in I. destruct I as [<-|[<-|[<-|I]]]; [left; eexists; split; [|apply String.eqb_refl]; cbn; tauto ..|].
    right. cbn. tauto.
Qed.
Lemma all_known (kw : dict) : forallb (fun p => known (fst p)) kw = true <-> forall k, In k (map fst kw) -> In k keywords.
Proof.
  rewrite forallb_forall. split.
  - intros H k I. apply in_map_iff in I. destruct I as [p [<- I]]. apply known_spec. now apply H.
  - intros H p I. apply known_spec. apply H. now apply in_map.
Qed.
Lemma all_required (kw : dict) : forallb (fun k => has k kw) required = true <->
  (get "training_stage" kw <> None /\ get "pretrained_model_name" kw <> None /\ get "pretrained_model_quality_level" kw <> None).
Proof.
  assert (E : forall k, has k kw = true <-> get k kw <> None).
  { intro k. rewrite has_spec. split; intros H.
    - intro N. apply get_none in N. tauto.
    - destruct (in_dec string_dec k (map fst kw)) as [I|I]; [exact I|]. apply get_none in I. tauto. }
  unfold required. cbn [forallb]. rewrite !andb_true_iff, !E. tauto.
Qed.
Lemma stage_of_spec s c : stage_of s = Some c <-> In (s, c) stages.
Proof.
  unfold stage_of, TRAINING_STAGES, stages. cbn [find fst].
  repeat (match goal with |- context [String.eqb ?a s] => destruct (String.eqb_spec a s) as [<-|?] end;
    [cbn [option_map snd]; split; [intros H; injection H as <-; cbn; tauto|]; cbn [In]; intros H;
     repeat (destruct H as [H|H]; [try discriminate; injection H; intros; subst; reflexivity|]); destruct H|]).
  cbn [option_map]. split; [discriminate|]. cbn [In]. intro H. repeat (destruct H as [H|H]; [injection H; intros; subst; congruence|]). destruct H.
Qed.
(** When a module is built, and from what. *)
Theorem C99_module zoo (kw : dict) m : new_module zoo kw = Ok m <->
  (forall k, In k (map fst kw) -> In k keywords) /\
  (exists name quality u, get "pretrained_model_name" kw = Some name /\ get "pretrained_model_quality_level" kw = Some quality /\
     zoo name quality = Ok u /\ m_iframe m = (name, quality)) /\
  (get "training_stage" kw = Some (VStr (m_stage m)) /\ In (m_stage m, m_class m) stages) /\
  value_or (VStr "MSE") (get "distortion_type" kw) = VStr "MSE" /\
  m_pframes m = value_or (VNum 1) (get "num_pframes" kw) /\
  m_lambda m = value_or (VNum 256) (get "distortion_lambda" kw) /\
  m_lr m = value_or (VNum (1 # 10000)) (get "learning_rate" kw) /\
  m_aux_lr m = value_or (VNum (1 # 1000)) (get "aux_learning_rate" kw) /\
  m_sched m = value_or VNone (get "lr_scheduler_params" kw) /\
  m_clip m = value_or (VNum 1) (get "grad_clip_value" kw).
Proof.
  unfold new_module. destruct (forallb _ kw) eqn:K; cbn [negb].
  2: { split; [discriminate|]. intros [H _]. apply all_known in H. congruence. }
  destruct (forallb _ required) eqn:Q; cbn [negb].
  2: { split; [discriminate|]. intros [_ [[n [q [u [N [P _]]]]] [[T _] _]]]. assert (X : forallb (fun k => has k kw) required = true) by (apply all_required; repeat split; congruence). congruence. }
  pose proof (proj1 (all_known kw) K) as K'. apply all_required in Q. destruct Q as [T [N P]].
  unfold arg. destruct (get "training_stage" kw) as [t|]; [|congruence]. destruct (get "pretrained_model_name" kw) as [n|]; [|congruence].
  destruct (get "pretrained_model_quality_level" kw) as [q|]; [|congruence].
  destruct (zoo n q) as [u|e] eqn:Z; cbn [bind].
  2: { split; [discriminate|]. intros [_ [[n' [q' [u [N1 [P1 [Z1 _]]]]]] _]]. congruence. }
  cbn [get optional find fst String.eqb Ascii.eqb Bool.eqb option_map snd].
  set (dt := match get "distortion_type" kw with Some v => v | None => VStr "MSE" end).
  change (match get "distortion_type" kw with Some v => v | None => _ end) with dt.
  split.
  - destruct t as [| |s|]; try discriminate. destruct (stage_of s) as [c|] eqn:S; [|discriminate]. destruct dt as [| |t|] eqn:D; try discriminate.
    destruct (String.eqb_spec t "MSE") as [->|?]; [|discriminate]. intro H. injection H as <-. cbn [m_stage m_class m_pframes m_lambda m_lr m_aux_lr m_sched m_clip m_iframe].
    split; [exact K'|]. split; [exists n, q, u; repeat split; exact Z|]. split; [split; [reflexivity|now apply stage_of_spec]|].
    split; [exact D|]. unfold value_or. repeat split; destruct (get _ kw); reflexivity.
  - intros [_ [[n' [q' [u' [N1 [P1 [_ I]]]]]] [[T1 S] [D [E1 [E2 [E3 [E4 [E5 E6]]]]]]]]]. injection N1 as <-. injection P1 as <-. injection T1 as ->.
    apply stage_of_spec in S. rewrite S. change (value_or (VStr "MSE") (get "distortion_type" kw)) with dt in D. rewrite D. cbn [String.eqb Ascii.eqb Bool.eqb].
    destruct m as [ms mc mp ml mr ma msch mcl mi]. cbn [m_stage m_class m_pframes m_lambda m_lr m_aux_lr m_sched m_clip m_iframe] in *.
    subst. unfold value_or. f_equal.
Qed.
(** What is refused, and how. *)
Theorem C99_module_refused zoo (kw : dict) :
  ((exists k, In k (map fst kw) /\ ~ In k keywords) -> new_module zoo kw = Raise TypeError) /\
  ((get "training_stage" kw = None \/ get "pretrained_model_name" kw = None \/ get "pretrained_model_quality_level" kw = None) -> new_module zoo kw = Raise TypeError) /\
  ((forall a b, exists u, zoo a b = Ok u) -> (forall k, In k (map fst kw) -> In k keywords) ->
   get "training_stage" kw <> None -> get "pretrained_model_name" kw <> None -> get "pretrained_model_quality_level" kw <> None ->
   (forall s, get "training_stage" kw = Some (VStr s) -> ~ In s (map fst stages)) \/ (forall v, get "distortion_type" kw = Some v -> v <> VStr "MSE") /\ get "distortion_type" kw <> None ->
   new_module zoo kw = Raise ValueError).
Proof.
  split; [|split].
  - intros [k [I N]]. unfold new_module. destruct (forallb _ kw) eqn:K; [|reflexivity]. exfalso. apply N. now apply (proj1 (all_known kw) K).
  - intro H. unfold new_module. destruct (forallb (fun p => known (fst p)) kw); [|reflexivity]. cbn [negb]. destruct (forallb _ required) eqn:Q; [|reflexivity].
    apply all_required in Q. tauto.
  - intros Z K T N P H. unfold new_module. rewrite (proj2 (all_known kw) K). rewrite (proj2 (all_required kw) (conj T (conj N P))). cbn [negb].
    destruct (Z (arg "pretrained_model_name" kw) (arg "pretrained_model_quality_level" kw)) as [u ->]. cbn [bind].
    assert (TE : arg "training_stage" kw = match get "training_stage" kw with Some v => v | None => VNone end) by (unfold arg; destruct (get "training_stage" kw); reflexivity).
    rewrite TE. destruct (get "training_stage" kw) as [[| |s|]|]; try reflexivity.
    destruct (stage_of s) as [c|] eqn:S; [|reflexivity]. destruct H as [H|[H D]].
    + exfalso. apply (H s eq_refl). apply stage_of_spec in S. change s with (fst (s, c)). now apply in_map.
    + unfold arg at 1. destruct (get "distortion_type" kw) as [[| |t|]|]; try reflexivity; [|congruence].
      specialize (H _ eq_refl). destruct (String.eqb_spec t "MSE") as [->|?]; [congruence|reflexivity].
Qed.

(** * The order of the stages *)
Lemma leb_total a b : String.leb a b = false -> String.leb b a = true.
Proof. unfold String.leb. rewrite (String.compare_antisym a b). destruct (String.compare b a); cbn; congruence. Qed.
Lemma insert_perm x l : Permutation (insert x l) (x :: l).
Proof. induction l as [|y l IH]; [reflexivity|]. cbn [insert]. destruct (String.leb x y); [reflexivity|]. rewrite IH. apply perm_swap. Qed.
Lemma insert_sorted x l : Sorted (fun a b => String.leb a b = true) l -> Sorted (fun a b => String.leb a b = true) (insert x l).
Proof.
  induction l as [|y l IH]; intro H; [repeat constructor|]. cbn [insert]. destruct (String.leb x y) eqn:E; [constructor; [exact H|constructor; exact E]|].
  inversion H as [|? ? H1 H2]; subst. constructor; [now apply IH|]. apply leb_total in E.
  destruct l as [|z l]; cbn [insert]; [constructor; exact E|]. destruct (String.leb x z); constructor; [exact E|]. now inversion H2.
Qed.
(** Every stage of the configuration is run once, in alphabetical order of the names, with a module
    and a trainer configured by the base overridden by the stage. *)
Theorem C99_plan zoo cfg ps : plan zoo cfg = Ok ps ->
  Permutation (map p_name ps) (map fst (cfg_stages cfg)) /\ Sorted (fun a b => String.leb a b = true) (map p_name ps) /\
  forall p, In p ps -> exists sc, In (p_name p, sc) (cfg_stages cfg) /\
    new_module zoo (merge_configs (cfg_module cfg) (sc_module sc)) = Ok (p_module p) /\
    p_trainer p = merge_configs (cfg_trainer cfg) (sc_trainer sc) /\
    (forall k, In k ["logger"; "callbacks"; "resume_from_checkpoint"] -> ~ In k (map fst (p_trainer p))) /\
    p_dir p = match sc_save_dir sc with None => cfg_root cfg ++ [p_name p] | Some d => [d] end.
Proof.
  unfold plan. set (names := sorted (map fst (cfg_stages cfg))). intro H.
  assert (M : map p_name ps = names /\ forall p, In p ps -> plan_stage zoo cfg (p_name p) = Ok p).
  { clearbody names. revert ps H. induction names as [|n names IH]; intros ps H; cbn [mapM] in H.
    - injection H as <-. split; [reflexivity|intros p []].
    - destruct (plan_stage zoo cfg n) as [q|] eqn:E; cbn [bind] in H; [|discriminate]. destruct (mapM _ names) as [qs|]; cbn [bind] in H; [|discriminate].
      injection H as <-. destruct (IH _ eq_refl) as [A B]. assert (QN : p_name q = n).
      { unfold plan_stage in E. destruct (find _ _) as [[x sc]|]; [|discriminate]. destruct (new_module _ _); cbn [bind] in E; [|discriminate].
        destruct (_ || _ || _); [discriminate|]. injection E as <-. reflexivity. }
      split; [cbn [map]; now rewrite QN, A|]. intros p [<-|I]; [now rewrite QN|now apply B]. }
  destruct M as [M E]. rewrite M. split; [|split].
  - unfold names, sorted. clear. induction (map fst (cfg_stages cfg)) as [|x l IH]; [reflexivity|]. cbn [fold_right]. rewrite insert_perm. now constructor.
  - unfold names, sorted. clear. induction (map fst (cfg_stages cfg)) as [|x l IH]; [constructor|]. cbn [fold_right]. now apply insert_sorted.
  - intros p I. specialize (E p I). unfold plan_stage in E. destruct (find _ (cfg_stages cfg)) as [[x sc]|] eqn:F; [|discriminate].
    apply find_some in F. destruct F as [F X]. cbn [fst] in X. apply String.eqb_eq in X. subst x. exists sc. split; [exact F|].
    destruct (new_module _ _) as [m|] eqn:N; cbn [bind] in E; [|discriminate]. destruct (_ || _ || _) eqn:T; [discriminate|].
    apply orb_false_iff in T. destruct T as [T T3]. apply orb_false_iff in T. destruct T as [T1 T2].
    destruct p as [pn pd pm pt]. cbn [p_name p_dir p_module p_trainer] in *. injection E as E1 E2 E3. subst. split; [first [exact N|reflexivity]|]. split; [reflexivity|]. split; [|reflexivity].
    intros k [<-|[<-|[<-|[]]]] J; apply has_spec in J; congruence.
Qed.
(** The default configuration: five stages, the numbers of frames, the weights of the distortion,
    the learning rates, schedules and steps. *)
Theorem C99_default zoo u : zoo (VStr "bmshj2018-hyperprior") (VNum 3) = Ok u ->
  exists ps, plan zoo default_config = Ok ps /\
  map (fun p => (p_dir p, m_class (p_module p), m_pframes (p_module p), m_lambda (p_module p), get "max_steps" (p_trainer p))) ps =
  [(["."; "s1_motion_estimation"], DvcStage1, VNum 1, VNum 1, Some (VNum 2000));
   (["."; "s2_motion_compression"], DvcStage2, VNum 1, VNum 256, Some (VNum 20000));
   (["."; "s3_motion_compensation"], DvcStage3, VNum 1, VNum 256, Some (VNum 20000));
   (["."; "s4_total_2frame"], DvcStage4and5, VNum 1, VNum 256, Some (VNum 60000));
   (["."; "s5_total"], DvcStage4and5, VNum 6, VNum 256, Some (VNum 500000))] /\
  (forall p, In p ps -> m_lr (p_module p) = VNum (1 # 10000) /\ m_aux_lr (p_module p) = VNum (1 # 1000) /\ m_clip (p_module p) = VNum 1 /\
     (m_sched (p_module p) <> VNone <-> m_stage (p_module p) = "5_total")).
Proof.
  intro Z. eexists. split.
  - unfold plan, default_config. cbn. rewrite Z. cbn. reflexivity.
  - split; [reflexivity|]. intros p I. cbn [In] in I.
    repeat (destruct I as [<-|I]; [cbn; repeat split; congruence|]). destruct I.
Qed.
(** The order is that of the names, not of their numbers: a tenth stage would come second. *)
Theorem C99_order_refuted : sorted ["s1_a"; "s2_b"; "s10_j"] = ["s10_j"; "s1_a"; "s2_b"].
Proof. reflexivity. Qed.

(** * Losses *)
Section Losses.
Variables W flow latent sizes : Type.
Variable estimator : W -> image -> image -> flow * list (image * image).
Variable m_encoder : W -> flow -> latent * sizes.
Variable m_bottleneck : W -> latent -> latent * list R.
Variable m_decoder : W -> latent -> sizes -> flow.
Variable warp : image -> flow -> image.
Variable compensation : W -> image -> image -> flow -> image.
Variable r_encoder : W -> image -> latent * sizes.
Variable r_bottleneck : W -> latent -> latent * list R.
Variable r_decoder : W -> latent -> sizes -> image.
Variable lambda : R.
Notation loss := (compute_batch_loss W flow latent sizes estimator m_encoder m_bottleneck m_decoder warp compensation r_encoder r_bottleneck r_decoder lambda).
Notation dvc := (dvc_forward W flow latent sizes estimator m_encoder m_bottleneck m_decoder warp compensation r_encoder r_bottleneck r_decoder).
Notation fwd2 := (forward2 W flow latent sizes estimator m_encoder m_bottleneck m_decoder warp).
Notation fwd3 := (forward3 W flow latent sizes estimator m_encoder m_bottleneck m_decoder warp compensation).

(** Stages compute their losses, the loss of their quantiles and their update from the submodules
    that they hold (which are those their checkpoints have and their training changes, C73). *)
Theorem C99_held_only bl up c m m' x y : (forall s, holds c s = true -> m s = m' s) ->
  loss c m x y = loss c m' x y /\ quantile_loss W bl c m = quantile_loss W bl c m' /\ update W up c m = update W up c m' /\
  (forall s, In s (fst (update W up c m)) -> holds c s = true).
Proof.
  intro H. split; [|split; [|split]].
  - destruct c; cbn [compute_batch_loss]; unfold loss1, forward3, forward2, loss45, dvc_forward; rewrite !H by reflexivity; reflexivity.
  - destruct c; cbn [quantile_loss]; rewrite ?H by reflexivity; reflexivity.
  - destruct c; cbn [update]; rewrite ?H by reflexivity; reflexivity.
  - destruct c; cbn; intros s I; intuition subst; reflexivity.
Qed.

(** The loss of the quantiles is the sum of the losses of the bottlenecks that the stage holds, update
    gives new tables to exactly these, and tells whether one of them needed it; a stage without
    bottlenecks has nothing to tell. *)
Theorem C99_quantile_loss bl up c m : let held := filter (holds c) [MotionBottleneck; ResidualBottleneck] in
  quantile_loss W bl c m = fold_right Rplus 0%R (map (fun s => bl (m s)) held) /\ fst (update W up c m) = held /\
  snd (update W up c m) = match held with [] => None | _ => Some (existsb (fun s => up (m s)) held) end.
Proof. destruct c; cbn; repeat split; try ring; now rewrite ?orb_false_r. Qed.

(** A prediction that differs in a side from the picture to compress, neither side being 1, stops the
    step with a RuntimeError. *)
Definition clash (a b : image) : Prop :=
  (iB a <> iB b /\ iB a <> 1 /\ iB b <> 1) \/ (iC a <> iC b /\ iC a <> 1 /\ iC b <> 1) \/
  (iH a <> iH b /\ iH a <> 1 /\ iH b <> 1) \/ (iW a <> iW b /\ iW a <> 1 /\ iW b <> 1).
Lemma clash_size a b : clash a b -> same_size b a = false.
Proof.
  intro H. destruct (same_size b a) eqn:E; [|reflexivity]. exfalso. unfold same_size in E. rewrite !andb_true_iff, !Nat.eqb_eq in E.
  destruct E as [[[[E1 E2] E3] E4] _]. unfold clash in H. intuition congruence.
Qed.
Theorem C99_sizes m x y : let '(l, s) := m_encoder (m MotionEncoder) (fst (estimator (m MotionEstimator) x y)) in
  let f := m_decoder (m MotionDecoder) (fst (m_bottleneck (m MotionBottleneck) l)) s in
  (clash (warp x f) y -> loss DvcStage2 m x y = Raise RuntimeError) /\
  (clash (compensation (m MotionCompensation) x (warp x f) f) y ->
   loss DvcStage3 m x y = Raise RuntimeError /\ loss DvcStage4and5 m x y = Raise RuntimeError).
Proof.
  cbn [compute_batch_loss]. unfold loss23, loss45, forward3, forward2, dvc_forward, distortion_fn, mse_loss, image_op.
  destruct (m_encoder _ _) as [l s]. cbn zeta. destruct (m_bottleneck _ l) as [l2 q]. cbn [fst].
  split; [|split]; intros; rewrite clash_size by eassumption; reflexivity.
Qed.

(** The first stage: the mean over the levels of the scaled squared error of the warped image. *)
Theorem C99_stage1_loss m x y f outs : estimator (m MotionEstimator) x y = (f, outs) ->
  (outs = [] -> loss DvcStage1 m x y = Raise RuntimeError) /\
  (outs <> [] -> (forall warped target, In (warped, target) outs -> same_size target warped = true) ->
   loss DvcStage1 m x y =
   Ok (mkV (sum_n (length outs) (fun i => lambda * mse (fst (nth i outs (x, x))) (snd (nth i outs (x, x)))) / INR (length outs))%R None None,
       mkOut flow f x y (warp x f))).
Proof.
  intro E. cbn [compute_batch_loss]. unfold loss1. rewrite E. split; [intros ->; reflexivity|]. intros N H.
  assert (M : mapM (fun output => distortion_fn lambda (snd output) (fst output)) outs = Ok (map (fun o => lambda * mse (fst o) (snd o))%R outs)).
  { clear E N. induction outs as [|[w t] outs IH]; [reflexivity|]. cbn [mapM map fst snd]. unfold distortion_fn at 1.
    rewrite mse_loss_ok by (apply H; now left). cbn [bind]. rewrite IH by (intros; apply H; now right). cbn [bind].
    rewrite mse_sym; [reflexivity|]. apply same_size_length. apply H. now left. }
  rewrite M. cbn [bind]. destruct outs as [|o outs]; [congruence|]. cbn [map].
  do 2 f_equal. f_equal. unfold mean.
  change ((lambda * mse (fst o) (snd o))%R :: map (fun o => (lambda * mse (fst o) (snd o))%R) outs) with (map (fun o => (lambda * mse (fst o) (snd o))%R) (o :: outs)).
  rewrite map_length. f_equal. rewrite sum_sum_n, map_length. apply sum_n_ext. intros i I.
  rewrite (nth_indep _ _ (lambda * mse (fst (x, x)) (snd (x, x)))%R) by now rewrite map_length.
  now rewrite (map_nth (fun o => (lambda * mse (fst o) (snd o))%R)).
Qed.

(** The other stages: the scaled squared error of the estimate, and bits per pixel. *)
Theorem C99_rate_distortion c m x y v o : c <> DvcStage1 -> loss c m x y = Ok (v, o) ->
  exists flow_probs resid_probs,
    (c = DvcStage2 -> (o_flow _ o, o_est _ o, flow_probs) = fwd2 m x y) /\
    (c = DvcStage3 -> (o_flow _ o, o_est _ o, flow_probs) = fwd3 m x y) /\
    (c = DvcStage4and5 -> exists r, dvc m x y = Ok (mkDvc _ (o_flow _ o) (o_est _ o) r flow_probs resid_probs)) /\
    o_image1 _ o = x /\ o_image2 _ o = y /\
    distortion_loss v = (lambda * mse y (o_est _ o))%R /\
    flow_entropy_loss v = Some (bits flow_probs / pixels x)%R /\
    resid_entropy_loss v = (if match c with DvcStage4and5 => true | _ => false end then Some (bits resid_probs / pixels x)%R else None) /\
    total v = (lambda * mse y (o_est _ o) + (bits flow_probs + match c with DvcStage4and5 => bits resid_probs | _ => 0 end) / pixels x)%R.
Proof.
  assert (PX : INR (iB x * iH x * iW x) = pixels x) by (unfold pixels; now rewrite !mult_INR).
  intros N L. assert (K : forall fw, loss23 flow lambda fw x y = Ok (v, o) ->
    exists p, (o_flow _ o, o_est _ o, p) = fw /\ o_image1 _ o = x /\ o_image2 _ o = y /\ v = mkV (lambda * mse y (o_est _ o))%R (Some (bits p / pixels x)%R) None).
  { intros [[f est] p] H. unfold loss23, distortion_fn in H. destruct (mse_loss y est) as [z|] eqn:Z; cbn [bind] in H; [|discriminate].
    apply mse_loss_spec in Z. destruct Z as [_ ->]. injection H as <- <-. exists p. cbn [o_flow o_est o_image1 o_image2].
    rewrite entropy_spec, PX. repeat split. }
  destruct c; [congruence| | |]; cbn [compute_batch_loss] in L.
  - destruct (K _ L) as [p [A [B [C ->]]]]. exists p, []. repeat split; try congruence; unfold total; cbn [distortion_loss flow_entropy_loss resid_entropy_loss]; unfold Rdiv; ring.
  - destruct (K _ L) as [p [A [B [C ->]]]]. exists p, []. repeat split; try congruence; unfold total; cbn [distortion_loss flow_entropy_loss resid_entropy_loss]; unfold Rdiv; ring.
  - unfold loss45, distortion_fn in L. destruct (dvc m x y) as [d|] eqn:D; cbn [bind] in L; [|discriminate].
    destruct (mse_loss y (d_est flow d)) as [z|] eqn:Z; cbn [bind] in L; [|discriminate]. apply mse_loss_spec in Z. destruct Z as [_ ->].
    injection L as <- <-. exists (d_flow_probs flow d), (d_resid_probs flow d). cbn [o_flow o_est o_image1 o_image2].
    rewrite !entropy_spec, PX. repeat split; try congruence; unfold total; cbn [distortion_loss flow_entropy_loss resid_entropy_loss].
    + intros _. exists (d_residual flow d). now destruct d.
    + unfold Rdiv. lra.
Qed.
(** With a positive weight the loss is not negative, and its rate is the bits of at most certain symbols. *)
Theorem C99_loss_nonneg c m x y v o : c <> DvcStage1 -> loss c m x y = Ok (v, o) -> (0 <= lambda)%R ->
  (forall w l, Forall (fun p => 0 < p <= 1)%R (snd (m_bottleneck w l))) -> (forall w l, Forall (fun p => 0 < p <= 1)%R (snd (r_bottleneck w l))) ->
  (0 <= total v)%R.
Proof.
  intros N L P M B. destruct (C99_rate_distortion c m x y v o N L) as [fp [rp [A2 [A3 [A4 [_ [_ [_ [_ [_ T]]]]]]]]]]. rewrite T.
  assert (FM : forall i1 i2, Forall (fun p => 0 < p <= 1)%R (snd (fwd2 m i1 i2))).
  { intros i1 i2. unfold forward2. destruct (m_encoder _ _) as [l s]. specialize (M (m MotionBottleneck) l). destruct (m_bottleneck _ l). exact M. }
  assert (HP : (0 <= bits fp /\ 0 <= match c with DvcStage4and5 => bits rp | _ => 0 end)%R).
  { destruct c; [congruence| | |].
    - specialize (A2 eq_refl). specialize (FM x y). rewrite <- A2 in FM. split; [now apply bits_nonneg|lra].
    - specialize (A3 eq_refl). specialize (FM x y). unfold forward3 in A3. destruct (fwd2 m x y) as [[f e] p]. injection A3 as _ _ ->. split; [now apply bits_nonneg|lra].
    - destruct (A4 eq_refl) as [r D]. unfold dvc_forward in D. destruct (m_encoder _ _) as [l s]. specialize (M (m MotionBottleneck) l). destruct (m_bottleneck _ l) as [l' p].
      destruct (image_op Rminus _ _) as [res|]; cbn [bind] in D; [|discriminate]. destruct (r_encoder _ _) as [l2 s2]. specialize (B (m ResidualBottleneck) l2).
      destruct (r_bottleneck _ l2) as [l3 q]. destruct (image_op Rplus _ _); cbn [bind] in D; [|discriminate]. injection D as _ _ _ -> ->. split; now apply bits_nonneg. }
  assert (PX : (0 <= / pixels x)%R).
  { unfold pixels. rewrite <- !mult_INR. destruct (iB x * iH x * iW x) as [|k]; [cbn; rewrite Rinv_0; lra|]. left. apply Rinv_0_lt_compat, lt_0_INR. lia. }
  apply Rplus_le_le_0_compat; [apply Rmult_le_pos; [exact P|apply mse_nonneg]|]. unfold Rdiv. apply Rmult_le_pos; [lra|exact PX].
Qed.

(** The stages agree with each other and with the whole model: with the same weights they have the
    same motion and the same bits for it; the third adds the compensation to the second, and the
    whole model adds a decoded residual to the third. *)
Theorem C99_stages_agree m x y d : dvc m x y = Ok d ->
  exists warped compensated residual,
    fwd2 m x y = (d_flow _ d, warped, d_flow_probs _ d) /\ warped = warp x (d_flow _ d) /\
    fwd3 m x y = (d_flow _ d, compensated, d_flow_probs _ d) /\ compensated = compensation (m MotionCompensation) x warped (d_flow _ d) /\
    same_size y compensated = true /\ iB residual = iB y /\ iC residual = iC y /\ iH residual = iH y /\ iW residual = iW y /\
    px residual = map (fun p => fst p - snd p)%R (combine (px y) (px compensated)) /\
    (let '(l, s) := r_encoder (m ResidualEncoder) residual in let '(l', p) := r_bottleneck (m ResidualBottleneck) l in
     d_resid_probs _ d = p /\ d_residual _ d = r_decoder (m ResidualDecoder) l' s) /\
    px (d_est _ d) = map (fun p => fst p + snd p)%R (combine (px compensated) (px (d_residual _ d))).
Proof.
  unfold dvc_forward, forward3, forward2. destruct (m_encoder _ _) as [l s]. destruct (m_bottleneck _ l) as [l' p].
  set (f := m_decoder (m MotionDecoder) l' s). set (comp := compensation _ x (warp x f) f). unfold image_op at 1. destruct (same_size y comp) eqn:S; cbn [bind]; [|discriminate].
  set (r := mkI _ _ _ _ _). destruct (r_encoder _ r) as [l2 s2] eqn:E. destruct (r_bottleneck _ l2) as [l3 q] eqn:Q. unfold image_op.
  destruct (same_size comp _) eqn:S2; cbn [bind]; [|discriminate]. intro H. injection H as <-. cbn [d_flow d_flow_probs d_est d_residual d_resid_probs].
  exists (warp x f), comp, r. repeat split; try reflexivity; try exact S. rewrite E, Q. split; reflexivity.
Qed.
End Losses.

(** * A concrete model *)
(** One weight per submodule; images of one pixel and one channel; the flow is the difference, coded
    without loss at probability 1/4, the residual is coded as nothing at probability 1/2. *)
Definition px1 (a : image) : R := nth 0 (px a) 0%R.
Definition one (r : R) : image := mkI 1 1 1 1 [r].
Definition toy_loss := compute_batch_loss R R R unit
  (fun w a b => (w * (px1 b - px1 a), [(a, b); (one (px1 a + w * (px1 b - px1 a)), b)])%R) (fun w f => (f, tt)) (fun w l => (l, [/ 4]%R)) (fun w l s => l)
  (fun a f => one (px1 a + f)) (fun w a b f => b) (fun w a => (px1 a, tt)) (fun w l => (0%R, [/ 2]%R)) (fun w l s => one l) 256.
Definition toy_dvc := dvc_forward R R R unit
  (fun w a b => (w * (px1 b - px1 a), [(a, b); (one (px1 a + w * (px1 b - px1 a)), b)])%R) (fun w f => (f, tt)) (fun w l => (l, [/ 4]%R)) (fun w l s => l)
  (fun a f => one (px1 a + f)) (fun w a b f => b) (fun w a => (px1 a, tt)) (fun w l => (0%R, [/ 2]%R)) (fun w l s => one l).
Example C99_losses_example :
  (exists v o, toy_loss DvcStage1 (fun _ => / 2)%R (one 0) (one 1) = Ok (v, o) /\ distortion_loss v = 160%R) /\
  (exists v o, toy_loss DvcStage3 (fun _ => / 2)%R (one 0) (one 1) = Ok (v, o) /\ total v = 66%R) /\
  (exists v o, toy_loss DvcStage4and5 (fun _ => / 2)%R (one 0) (one 1) = Ok (v, o) /\ total v = 67%R).
Proof.
  assert (L4 : ln (/ 4) = (- 2 * ln 2)%R) by (rewrite ln_Rinv by lra; replace 4%R with (2 * 2)%R by lra; rewrite ln_mult by lra; lra).
  assert (L2 : ln (/ 2) = (- ln 2)%R) by (rewrite ln_Rinv by lra; reflexivity).
  assert (P2 : (ln 2 <> 0)%R) by (assert (0 < ln 2)%R by (rewrite <- ln_1; apply ln_increasing; lra); lra).
  split; [|split]; eexists; eexists; (split; [reflexivity|]).
  - unfold mean, sum. cbn [distortion_loss map fold_right length px zip combine fst snd px1 nth one iB iH iW Nat.mul Nat.add INR]. field.
  - unfold total. cbn. unfold entropy_fn, mean, sum. cbn. rewrite L4. field. exact P2.
  - unfold total. cbn. unfold entropy_fn, mean, sum. cbn.  rewrite L4, L2. field. exact P2.
Qed.
(** DVC.forward documents its third output as the residual between the compensated image and the true
    one; it is the residual after coding. *)
Definition toy_forward3 := forward3 R R R unit
  (fun w a b => (w * (px1 b - px1 a), [(a, b); (one (px1 a + w * (px1 b - px1 a)), b)])%R) (fun w f => (f, tt)) (fun w l => (l, [/ 4]%R)) (fun w l s => l)
  (fun a f => one (px1 a + f)) (fun w a b f => b).
Theorem C99_residual_refuted : exists d compensated,
  toy_dvc (fun _ => / 2)%R (one 0) (one 1) = Ok d /\ snd (fst (toy_forward3 (fun _ => / 2)%R (one 0) (one 1))) = compensated /\
  px (d_residual _ d) = [0%R] /\ (px1 (one 1) - px1 compensated = / 2)%R.
Proof. eexists. eexists. split; [reflexivity|]. split; [reflexivity|]. cbn. split; [reflexivity|lra]. Qed.

Print Assumptions C99_merge. Print Assumptions C99_merge_keys. Print Assumptions C99_module. Print Assumptions C99_module_refused. Print Assumptions C99_plan. Print Assumptions C99_default.
Print Assumptions C99_quantile_loss. Print Assumptions C99_sizes. Print Assumptions C99_order_refuted. Print Assumptions C99_held_only. Print Assumptions C99_stage1_loss. Print Assumptions C99_rate_distortion. Print Assumptions C99_loss_nonneg. Print Assumptions C99_stages_agree. Print Assumptions C99_residual_refuted.

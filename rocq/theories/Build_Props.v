(** C95: what an ILLM training is made of, and what a test run tests. *)
From Coq Require Import String QArith List Bool Arith Lia.
From Verif Require Import Base Train_Model Train_Props Build_Model.
Import ListNotations.
Open Scope string_scope.
Open Scope list_scope.

(** * Specification *)
Section Spec.
Variables (A W : Type) (shape : W -> list nat) (resizable : A -> string -> bool) (disk : string -> option (content W))
          (hub_load : string -> string -> res (net A W)).
(** [n] is the fresh network with the weights that the checkpoint has for its "model": every entry
    of the one is an entry of the other, and apart from the resizable ones the sizes are those of the network. *)
Definition loaded (fresh : net A W) (sd : list (string * W)) (n : net A W) : Prop :=
  n_arch n = n_arch fresh /\ n_requires n = n_requires fresh /\ n_training n = n_training fresh /\
  map fst (n_state n) = map fst (n_state fresh) /\
  (forall k, lookup (n_state n) k = lookup sd ("model." ++ k)) /\
  (forall k w v, lookup (n_state n) k = Some w -> lookup (n_state fresh) k = Some v ->
     resizable (n_arch fresh) k = false -> shape w = shape v).
(** Where the weights of a network come from *)
Definition supplied (fresh : net A W) (s : option source) (n : net A W) : Prop :=
  match s with
  | None => n = fresh
  | Some s =>
      match torchhub s with
      | Some (github, name) => hub_load github name = Ok n
      | None => exists p sd, path s = Some p /\ disk p = Some (Checkpoint sd) /\ loaded fresh sd n
      end
  end.
End Spec.

(** * Dictionaries *)
Lemma lookup_none : forall V (d : list (string * V)) k, lookup d k = None <-> ~ In k (map fst d).
Proof.
  intros V d k. induction d as [|[k' v] r IH]; cbn [lookup map fst In]; [tauto|].
  destruct (String.eqb_spec k k') as [E|E]; [subst; split; [discriminate|tauto]|]. rewrite IH. split; [intros N [H|H]; [now symmetry in H|tauto]|tauto].
Qed.
Lemma lookup_some_in : forall V (d : list (string * V)) k v, lookup d k = Some v -> In (k, v) d.
Proof.
  intros V d k v. induction d as [|[k' v'] r IH]; cbn [lookup]; [discriminate|].
  destruct (String.eqb_spec k k') as [E|E]; [subst; intro H; injection H as ->; now left|right; auto].
Qed.
Lemma in_lookup : forall V (d : list (string * V)) k v, NoDup (map fst d) -> In (k, v) d -> lookup d k = Some v.
Proof.
  intros V d k v. induction d as [|[k' v'] r IH]; cbn [lookup map fst In]; [tauto|]. intros N [E|I].
  - injection E as -> ->. now rewrite String.eqb_refl.
  - destruct (String.eqb_spec k k') as [E|E]; [|apply IH; [now inversion N|exact I]].
    subst. exfalso. apply NoDup_cons_iff in N. apply (proj1 N). now apply (in_map fst) in I.
Qed.
Lemma has_spec : forall V (d : list (string * V)) k, has d k = true <-> In k (map fst d).
Proof.
  intros V d k. unfold has. destruct (lookup d k) as [v|] eqn:E.
  - apply lookup_some_in in E. apply (in_map fst) in E. tauto.
  - apply lookup_none in E. split; [discriminate|tauto].
Qed.
Lemma lookup_mapv : forall V (d : list (string * V)) (f : string * V -> V) k,
  lookup (map (fun kv => (fst kv, f kv)) d) k = match lookup d k with Some v => Some (f (k, v)) | None => None end.
Proof.
  intros V d f k. induction d as [|[k' v'] r IH]; cbn [lookup map fst]; [reflexivity|].
  destruct (String.eqb_spec k k') as [->|E]; [reflexivity|exact IH].
Qed.
Lemma lookup_pretrained : forall V (sd : list (string * V)) p k,
  lookup (pretrained_state_dict sd p) k = lookup sd (p ++ k)%string.
Proof.
  intros V sd p k. unfold pretrained_state_dict. induction sd as [|[k' v] r IH]; [reflexivity|]. cbn [flat_map lookup].
  destruct (String.eqb_spec (p ++ k)%string k') as [<-|E].
  - rewrite strip_prefix. cbn [app lookup]. now rewrite String.eqb_refl.
  - destruct (String.eqb_spec (substring 0 (String.length p) k') p) as [P|P].
    + destruct (substring_prefix p k' P) as [q ->]. rewrite strip_prefix. cbn [app lookup].
      destruct (String.eqb_spec k q) as [->|_]; [now destruct E|exact IH].
    + rewrite strip_other; [exact IH|]. intros q ->. apply P. clear. induction p as [|c p IHp]; cbn; [now destruct q|now rewrite IHp].
Qed.
Lemma state_ext : forall V (a b : list (string * V)), NoDup (map fst a) -> map fst a = map fst b ->
  (forall k, lookup a k = lookup b k) -> a = b.
Proof.
  intros V a. induction a as [|[k v] a IH]; intros [|[k' v'] b] N M L; cbn [map fst] in M; try discriminate; [reflexivity|].
  injection M as <- M. cbn [map fst] in N. apply NoDup_cons_iff in N. destruct N as [NI N].
  pose proof (L k) as H. cbn [lookup] in H. rewrite String.eqb_refl in H. injection H as <-. f_equal. apply IH; [exact N|exact M|].
  intro q. specialize (L q). cbn [lookup] in L. destruct (String.eqb_spec q k) as [E|E]; [|exact L]. clear L. subst q.
  assert (H1 : lookup a k = None) by (now apply lookup_none). rewrite H1. symmetry. apply lookup_none. now rewrite <- M.
Qed.

(** * Loading *)
Section Load.
Variables (A W : Type) (shape : W -> list nat) (resizable : A -> string -> bool).
Notation net := (net A W).
Notation load := (load_state_dict A W shape resizable).
Notation loaded := (loaded A W shape resizable).

Lemma fits_spec (n : net) sd kv : fits A W shape resizable (n_arch n) sd kv = true <->
  exists w, lookup sd (fst kv) = Some w /\ (resizable (n_arch n) (fst kv) = false -> shape w = shape (snd kv)).
Proof.
  unfold fits. destruct (lookup sd (fst kv)) as [w|]; [|split; [discriminate|intros (w & H & _); discriminate]].
  destruct (resizable (n_arch n) (fst kv)); cbn [orb].
  - split; [intros _; exists w; split; [reflexivity|discriminate]|reflexivity].
  - destruct (list_eq_dec Nat.eq_dec (shape w) (shape (snd kv))) as [E|E]; (split; [intro H|intros (w' & H & S')]).
    + exists w. auto.
    + reflexivity.
    + discriminate.
    + injection H as <-. now destruct E; apply S'.
Qed.
Lemma load_ok : forall (fresh : net) sd n, NoDup (map fst (n_state fresh)) ->
  (load fresh (pretrained_state_dict sd "model.") = Ok n <-> loaded fresh sd n).
Proof.
  intros fresh sd n ND. unfold load_state_dict, Build_Props.loaded. set (sd' := pretrained_state_dict sd "model.").
  assert (LK : forall k, lookup sd' k = lookup sd ("model." ++ k)%string) by (intro k; apply lookup_pretrained).
  split.
  - destruct (forallb _ _ && forallb _ _) eqn:C; [|discriminate]. intro E. injection E as <-. cbn [n_arch n_requires n_training n_state].
    apply andb_prop in C. destruct C as [C1 C2]. rewrite forallb_forall in C1, C2.
    assert (LN : forall k, lookup (map (fun kv => (fst kv, match lookup sd' (fst kv) with Some w => w | None => snd kv end)) (n_state fresh)) k
                 = lookup sd' k).
    { intro k. rewrite lookup_mapv. cbn [fst snd]. destruct (lookup (n_state fresh) k) as [v|] eqn:E.
      - apply lookup_some_in, C1, fits_spec in E. cbn [fst] in E. destruct E as (w & -> & _). reflexivity.
      - symmetry. apply lookup_none. intro I. apply lookup_none in E. apply E. apply in_map_iff in I. destruct I as (kv & <- & I).
        apply C2, has_spec in I. exact I. }
    repeat split; try reflexivity.
    + rewrite map_map. reflexivity.
    + intro k. rewrite LN. apply LK.
    + intros k w v Hw Hv R. rewrite LN in Hw. apply lookup_some_in, C1, fits_spec in Hv. destruct Hv as (w' & Hw' & SH). cbn [fst snd] in *.
      rewrite Hw in Hw'. injection Hw' as <-. now apply SH.
  - intros (HA & HR & HT & HM & HL & HS).
    assert (C : forallb (fits A W shape resizable (n_arch fresh) sd') (n_state fresh) && forallb (fun kv => has (n_state fresh) (fst kv)) sd' = true).
    { apply andb_true_intro. split; apply forallb_forall.
      - intros [k v] I. apply fits_spec. cbn [fst snd]. apply (in_lookup _ _ _ _ ND) in I.
        destruct (lookup (n_state n) k) as [w|] eqn:E.
        + exists w. rewrite LK, <- HL. split; [exact E|]. intro R. now apply (HS k w v).
        + exfalso. apply lookup_none in E. apply E. rewrite HM. apply lookup_some_in in I. now apply (in_map fst) in I.
      - intros [k w] I. cbn [fst]. apply has_spec. rewrite <- HM. apply (in_map fst) in I. cbn [fst] in I.
        destruct (lookup (n_state n) k) as [w'|] eqn:E; [apply lookup_some_in in E; now apply (in_map fst) in E|].
        exfalso. rewrite HL, <- LK in E. now apply lookup_none in E. }
    rewrite C. f_equal. destruct n as [a st rq tr]. cbn [n_arch n_state n_requires n_training] in *. subst a rq tr. f_equal.
    symmetry. apply state_ext; [now rewrite HM|rewrite map_map; exact HM|].
    intro k. rewrite lookup_mapv. cbn [fst snd]. rewrite HL, <- LK.
    destruct (lookup (n_state fresh) k) as [v|] eqn:E.
    + destruct (lookup sd' k) as [w|] eqn:F; [reflexivity|]. rewrite LK, <- HL in F. apply lookup_none in F. exfalso. apply F. rewrite HM.
      apply lookup_some_in in E. now apply (in_map fst) in E.
    + destruct (lookup sd' k) as [w|] eqn:F; [|reflexivity]. rewrite LK, <- HL in F. apply lookup_none in E. exfalso. apply E. rewrite <- HM.
      apply lookup_some_in in F. now apply (in_map fst) in F.
Qed.
Lemma load_error : forall (fresh : net) sd e, load fresh sd = Raise e -> e = RuntimeError.
Proof. intros fresh sd e. unfold load_state_dict. destruct (_ && _); [discriminate|]. intro H. now injection H as <-. Qed.
End Load.

(** * Building *)
Section Build.
Variables (A W : Type) (shape : W -> list nat) (resizable : A -> string -> bool) (disk : string -> option (content W))
          (hub_load : string -> string -> res (net A W)).
Variables (spec L O : Type).
Variable instantiate_net : spec -> res (net A W).
Variable instantiate : spec -> res L.
Variable instantiate_projector : spec -> net A W -> res (option (net A W)).
Variable mse : L.
(** The names in a state dict are distinct. *)
Hypothesis names : forall s n, instantiate_net s = Ok n -> NoDup (map fst (n_state n)).
Notation cfg := (cfg spec O).
Notation module := (module A W L O).
Notation configure := (configure_and_load_state_dict A W shape resizable disk hub_load).
Notation build := (build_module A W shape resizable disk hub_load spec L O instantiate_net instantiate instantiate_projector mse).
Notation supplied := (supplied A W shape resizable disk hub_load).

Lemma configure_ok fresh s n : NoDup (map fst (n_state fresh)) -> (configure fresh s = Ok n <-> supplied fresh (Some s) n).
Proof.
  intro ND. unfold configure_and_load_state_dict, Build_Props.supplied. destruct (torchhub s) as [[g m]|]; [reflexivity|].
  unfold read_checkpoint. destruct (path s) as [p|]; cbn [bind]; [|split; [discriminate|intros (p & sd & H & _); discriminate]].
  destruct (disk p) as [[|sd]|] eqn:D; cbn [bind].
  - split; [discriminate|]. intros (p' & sd & H & H' & _). injection H as <-. congruence.
  - rewrite load_ok by exact ND. split; [intro H; exists p, sd; auto|]. intros (p' & sd' & H & H' & H2). injection H as <-.
    rewrite D in H'. injection H' as <-. exact H2.
  - split; [discriminate|]. intros (p' & sd & H & H' & _). injection H as <-. congruence.
Qed.
Lemma model_ok c n : build_model A W shape resizable disk hub_load spec O instantiate_net c = Ok n <->
  exists fresh, instantiate_net (c_model c) = Ok fresh /\ supplied fresh (c_pretrained c) n.
Proof.
  unfold build_model. destruct (instantiate_net (c_model c)) as [fresh|e] eqn:E; cbn [bind]; [|split; [discriminate|intros (f & H & _); discriminate]].
  destruct (c_pretrained c) as [s|].
  - rewrite configure_ok by (now apply (names (c_model c))). split; [intro H; now exists fresh|intros (f & H & H'); now injection H as <-].
  - split; [intro H; injection H as <-; now exists fresh|intros (f & H & H'); injection H as <-; cbn in H'; now subst].
Qed.

(** The settings of the module: what [lightning_module] says, and a default otherwise. *)
Definition settings (allowed : list string) (kw : list (string * value)) : Prop := forall k v, In (k, v) kw -> In k allowed.
Definition setting (kw : list (string * value)) (k : string) (default v : value) : Prop :=
  match lookup kw k with Some u => v = u | None => v = default end.
Definition frozen (n : net A W) : Prop :=
  (forall k b, In (k, b) (n_requires n) -> b = false) /\ (forall k b, In (k, b) (n_training n) -> b = false).

(** The labels of the discriminator *)
Definition projector_built (c : cfg) (p : option (net A W)) (warned : bool) : Prop :=
  match c_projector c with
  | None => p = None /\ warned = false
  | Some (autoencoder, projector) =>
      (warned = true <-> c_pretrained_projector c = None) /\
      exists fresh ae q n, instantiate_net autoencoder = Ok fresh /\ supplied fresh (c_pretrained_projector c) ae /\
        instantiate_projector projector ae = Ok (Some q) /\ p = Some n /\
        n_arch n = n_arch q /\ n_state n = n_state q /\ map fst (n_requires n) = map fst (n_requires q) /\
        map fst (n_training n) = map fst (n_training q) /\ frozen n
  end.
Definition gan_built (c : cfg) (g : option (gan A W L)) (warned : bool) : Prop :=
  match c_discriminator c with
  | None => g = None /\ warned = false /\ settings ["distortion_lam"; "gradient_clip_val"; "gradient_clip_algorithm"] (c_module c)
  | Some (dm, dl, gl) =>
      settings ["distortion_lam"; "gradient_clip_val"; "gradient_clip_algorithm"; "generator_weight"; "mc_sampling"] (c_module c) /\
      exists x, g = Some x /\ instantiate_net dm = Ok (g_discriminator x) /\ instantiate dl = Ok (g_discriminator_loss x) /\
        instantiate gl = Ok (g_generator_loss x) /\ projector_built c (g_projector x) warned /\
        setting (c_module c) "generator_weight" (VNum 1) (g_weight x) /\
        setting (c_module c) "mc_sampling" (VBool true) (g_mc x)
  end.
Definition module_built (c : cfg) (m : module) (warned : bool) : Prop :=
  (exists fresh, instantiate_net (c_model c) = Ok fresh /\ supplied fresh (c_pretrained c) (b_model m)) /\
  (exists d, c_distortion c = Some d /\ instantiate d = Ok (b_distortion m)) /\
  instantiate (c_rate c) = Ok (b_rate m) /\ b_optimizer m = c_optimizer c /\
  setting (c_module c) "distortion_lam" (VNum 1) (b_lam m) /\
  setting (c_module c) "gradient_clip_val" VNull (b_clip m) /\
  setting (c_module c) "gradient_clip_algorithm" (VStr "norm") (b_algorithm m) /\
  gan_built c (b_gan m) warned.

Lemma accept_ok l kw : accept l kw = Ok tt <-> settings l kw.
Proof.
  unfold accept, settings. destruct (forallb _ kw) eqn:E.
  - rewrite forallb_forall in E. split; [intros _ k v I|reflexivity]. apply E in I. cbn in I. apply existsb_exists in I.
    destruct I as (x & I & Q). apply String.eqb_eq in Q. now subst.
  - split; [discriminate|]. intro H. assert (forallb (fun p => existsb (String.eqb (fst p)) l) kw = true); [|congruence].
    apply forallb_forall. intros [k v] I. apply existsb_exists. exists k. split; [now apply (H k v)|apply String.eqb_refl].
Qed.
Lemma accept_cases l kw : accept l kw = Ok tt \/ accept l kw = Raise TypeError.
Proof. unfold accept. destruct (forallb _ kw); auto. Qed.
Lemma arg_setting kw k d v : v = arg kw k d <-> setting kw k d v.
Proof. unfold arg, setting. destruct (lookup kw k); reflexivity. Qed.
Lemma map_false_in : forall (l : list (string * bool)) k b, In (k, b) (map (fun p => (fst p, false)) l) -> b = false.
Proof. intros l k b I. apply in_map_iff in I. destruct I as (p & E & _). now injection E as _ <-. Qed.
Lemma all_false : forall (l m : list (string * bool)), map fst l = map fst m -> (forall k b, In (k, b) l -> b = false) ->
  l = map (fun p => (fst p, false)) m.
Proof.
  induction l as [|[k b] l IH]; intros [|[k' b'] m] E F; cbn [map fst] in E; try discriminate; [reflexivity|].
  injection E as <- E. cbn [map fst]. rewrite (F k b (or_introl eq_refl)). f_equal. apply IH; [exact E|]. intros q c I. apply (F q c). now right.
Qed.

Lemma projector_ok c p w : build_projector A W shape resizable disk hub_load spec O instantiate_net instantiate_projector c = Ok (p, w) <->
  projector_built c p w.
Proof.
  unfold build_projector, projector_built. destruct (c_projector c) as [[a pr]|]; [|split; [intro H; injection H as <- <-; auto|intros [-> ->]; reflexivity]].
  destruct (instantiate_net a) as [fresh|e] eqn:E; cbn [bind]; [|split; [discriminate|intros (_ & f & ? & ? & ? & H & _); discriminate]].
  assert (ND := names _ _ E).
  assert (X : forall ae, (match c_pretrained_projector c with None => Ok fresh | Some s => configure fresh s end) = Ok ae <->
                         supplied fresh (c_pretrained_projector c) ae).
  { intro ae. destruct (c_pretrained_projector c) as [s|]; [now apply configure_ok|]. cbn. split; [intro H; now injection H as <-|now intros ->]. }
  destruct (match c_pretrained_projector c with None => Ok fresh | Some s => configure fresh s end) as [ae|e] eqn:F; cbn [bind].
  2:{ split; [discriminate|]. intros (_ & f & ae & q & n & H & H' & _). injection H as <-. apply X in H'. discriminate. }
  assert (AE := proj1 (X ae) eq_refl). split.
  - destruct (instantiate_projector pr ae) as [[q|]|e] eqn:P; cbn [bind]; try discriminate. intro H. injection H as <- <-. split.
    + destruct (c_pretrained_projector c); split; congruence.
    + exists fresh, ae, q, (freeze (eval_mode q)). unfold freeze, eval_mode, frozen. cbn [n_arch n_state n_requires n_training].
      rewrite !map_map. cbn [fst]. repeat split; auto; apply map_false_in.
  - intros (WN & f & ae' & q & n & H & H' & P & -> & HA & HS & HR & HT & F1 & F2). injection H as <-. apply X in H'. injection H' as <-.
    rewrite P. cbn [bind]. f_equal. f_equal.
    + f_equal. unfold freeze, eval_mode. cbn [n_arch n_state n_requires n_training]. destruct n as [na ns nr nt]. cbn [n_arch n_state n_requires n_training] in *.
      subst na ns. f_equal; symmetry; now apply all_false.
    + destruct (c_pretrained_projector c), w; try reflexivity; destruct WN as [W1 W2]; [now specialize (W1 eq_refl)|now specialize (W2 eq_refl)].
Qed.

(** The module is built exactly when every part the configuration asks for can be built, and
    then it consists of these parts. *)
Theorem C95_module : forall c m warned, build c = Ok (m, warned) <-> module_built c m warned.
Proof.
  intros c m warned. unfold build_module, module_built.
  destruct (build_model A W shape resizable disk hub_load spec O instantiate_net c) as [model|e] eqn:M; cbn [bind].
  2:{ split; [discriminate|]. intros (H & _). apply model_ok in H. congruence. }
  assert (X : (exists fresh, instantiate_net (c_model c) = Ok fresh /\ supplied fresh (c_pretrained c) (b_model m)) <-> model = b_model m).
  { rewrite <- model_ok, M. split; [intro H; now injection H as <-|now intros <-]. }
  rewrite X. clear X.
  destruct (c_distortion c) as [ds|] eqn:DD; [|split; [discriminate|intros (_ & (d & H & _) & _); discriminate]].
  destruct (instantiate ds) as [dist|e] eqn:DI; cbn [bind];
    [|split; [discriminate|intros (_ & (d & H & H') & _); injection H as <-; congruence]].
  destruct (instantiate (c_rate c)) as [rate|e] eqn:RI; cbn [bind]; [|split; [discriminate|intros (_ & _ & H & _); discriminate]].
  rewrite <- !arg_setting. unfold gan_built. destruct (c_discriminator c) as [[[dm dls] gls]|].
  - destruct (instantiate_net dm) as [disc|e] eqn:E1; cbn [bind]; [|split; [discriminate|intros (_ & _ & _ & _ & _ & _ & _ & _ & x & _ & H & _); discriminate]].
    destruct (instantiate dls) as [dl|e] eqn:E2; cbn [bind]; [|split; [discriminate|intros (_ & _ & _ & _ & _ & _ & _ & _ & x & _ & _ & H & _); discriminate]].
    destruct (instantiate gls) as [gl|e] eqn:E3; cbn [bind]; [|split; [discriminate|intros (_ & _ & _ & _ & _ & _ & _ & _ & x & _ & _ & _ & H & _); discriminate]].
    destruct (build_projector A W shape resizable disk hub_load spec O instantiate_net instantiate_projector c) as [[p w]|e] eqn:E4; cbn [bind].
    2:{ split; [discriminate|]. intros (_ & _ & _ & _ & _ & _ & _ & _ & x & _ & _ & _ & _ & H & _). apply projector_ok in H. congruence. }
    unfold gan_module. rewrite <- accept_ok. change (base_names ++ _)%list with ["distortion_lam"; "gradient_clip_val"; "gradient_clip_algorithm"; "generator_weight"; "mc_sampling"].
    change gan_names with ["distortion_lam"; "gradient_clip_val"; "gradient_clip_algorithm"; "generator_weight"; "mc_sampling"].
    destruct (accept_cases ["distortion_lam"; "gradient_clip_val"; "gradient_clip_algorithm"; "generator_weight"; "mc_sampling"] (c_module c)) as [AC|AC];
      rewrite AC; cbn [bind fst snd]; [|split; [discriminate|intros (_ & _ & _ & _ & _ & _ & _ & H & _); discriminate]].
    split.
    + intro H. injection H as <- <-. unfold base_module. cbn. repeat split; try reflexivity; [now exists ds|].
      eexists. split; [reflexivity|]. cbn. rewrite <- !arg_setting. repeat split; try reflexivity. now apply projector_ok.
    + intros (-> & (d & H1 & H2) & H3 & H4 & H5 & H6 & H7 & _ & x & G & G1 & G2 & G3 & G4 & G5 & G6).
      injection H1 as <-. rewrite DI in H2. injection H2 as ->. injection H3 as ->.
      apply projector_ok in G4. rewrite E4 in G4. injection G4 as -> ->. apply arg_setting in G5, G6.
      destruct m as [bm br bd bo bl bc ba bg]. cbn in *. destruct x as [x1 x2 x3 x4 x5 x6]. cbn in *. unfold base_module. congruence.
  - unfold target_rate_module. rewrite <- accept_ok. change base_names with ["distortion_lam"; "gradient_clip_val"; "gradient_clip_algorithm"].
    destruct (accept_cases ["distortion_lam"; "gradient_clip_val"; "gradient_clip_algorithm"] (c_module c)) as [AC|AC];
      rewrite AC; cbn [bind]; [|split; [discriminate|intros (_ & _ & _ & _ & _ & _ & _ & _ & _ & H); discriminate]].
    split.
    + intro H. injection H as <- <-. unfold base_module. cbn. repeat split; try reflexivity. now exists ds.
    + intros (-> & (d & H1 & H2) & H3 & H4 & H5 & H6 & H7 & G & -> & _). injection H1 as <-. rewrite DI in H2. injection H2 as ->. injection H3 as ->.
      destruct m as [bm br bd bo bl bc ba bg]. cbn in *. unfold base_module. congruence.
Qed.

(** Fine-tuning: a model that is given the checkpoint of an earlier training starts with exactly
    the weights that training's model had, whatever else was in that training's module; no entry
    is left at its initial value, and none of the checkpoint's entries is dropped. *)
Theorem C95_finetune : forall c m warned fresh p before after sd,
  instantiate_net (c_model c) = Ok fresh ->
  c_pretrained c = Some (mkSrc None (Some p)) ->
  (forall s, In s (before ++ after) -> no_dot (fst s) /\ fst s <> "model") ->
  disk p = Some (Checkpoint (module_state (before ++ ("model", sd) :: after))) ->
  build c = Ok (m, warned) ->
  forall k, lookup (n_state (b_model m)) k = lookup sd k.
Proof.
  intros c m warned fresh p before after sd F P B D H k. apply C95_module in H. destruct H as ((fresh' & F' & S') & _).
  rewrite F in F'. injection F' as <-. rewrite P in S'. cbn in S'. destruct S' as (p' & sd' & E & D' & LO). injection E as <-.
  rewrite D in D'. injection D' as <-. destruct LO as (_ & _ & _ & _ & LK & _).
  rewrite LK, <- lookup_pretrained. now rewrite pretrained_roundtrip.
Qed.
(** It is built whenever the two models have the same entries with the same sizes. *)
Theorem C95_finetune_builds : forall fresh p before after sd,
  NoDup (map fst (n_state fresh)) ->
  (forall s, In s (before ++ after) -> no_dot (fst s) /\ fst s <> "model") ->
  disk p = Some (Checkpoint (module_state (before ++ ("model", sd) :: after))) ->
  map fst (n_state fresh) = map fst sd ->
  (forall k w v, lookup sd k = Some w -> lookup (n_state fresh) k = Some v -> resizable (n_arch fresh) k = false -> shape w = shape v) ->
  configure fresh (mkSrc None (Some p)) = Ok (mkN (n_arch fresh) sd (n_requires fresh) (n_training fresh)).
Proof.
  intros fresh p before after sd ND B D K SH. apply configure_ok; [exact ND|]. cbn.
  exists p, (module_state (before ++ ("model", sd) :: after)). split; [reflexivity|]. split; [exact D|].
  unfold loaded. cbn [n_arch n_requires n_training n_state]. repeat split; auto.
  intro k. rewrite <- lookup_pretrained. now rewrite pretrained_roundtrip.
Qed.
(** A checkpoint that does not fit is refused: one whose entries are not those of the model, under "model.". *)
Theorem C95_misfit : forall fresh p sd, NoDup (map fst (n_state fresh)) -> disk p = Some (Checkpoint sd) ->
  (exists k, ~ (In k (map fst (n_state fresh)) <-> In ("model." ++ k)%string (map fst sd))) ->
  configure fresh (mkSrc None (Some p)) = Raise RuntimeError.
Proof.
  intros fresh p sd ND D (k & N). destruct (configure fresh (mkSrc None (Some p))) as [n|e] eqn:E.
  - exfalso. apply configure_ok in E; [|exact ND]. cbn in E. destruct E as (p' & sd' & E & D' & LO). injection E as <-. rewrite D in D'. injection D' as <-.
    destruct LO as (_ & _ & _ & M & LK & _). apply N. rewrite <- M. specialize (LK k).
    destruct (lookup (n_state n) k) eqn:E; symmetry in LK.
    + apply lookup_some_in in E. apply (in_map fst) in E. apply lookup_some_in in LK. apply (in_map fst) in LK. tauto.
    + apply lookup_none in E. apply lookup_none in LK. tauto.
  - unfold configure_and_load_state_dict, read_checkpoint in E. cbn [torchhub path] in E. rewrite D in E. cbn [bind] in E.
    now rewrite (load_error _ _ _ _ _ _ _ E).
Qed.
(** Without a loss function nothing is built, if only the model can be. *)
Theorem C95_no_loss : forall c n, build_model A W shape resizable disk hub_load spec O instantiate_net c = Ok n ->
  c_distortion c = None -> build c = Raise ValueError.
Proof. intros c n M D. unfold build_module. rewrite M. cbn [bind]. now rewrite D. Qed.

(** Known deviations.  Without a discriminator the entries for the projector are ignored
    without a message; with torchhub, the path is. *)
Theorem C95_projector_ignored_refuted : forall c pr src, c_discriminator c = None ->
  build (mkCfg (c_model c) (c_pretrained c) (c_distortion c) (c_rate c) None pr src (c_optimizer c) (c_module c)) = build c.
Proof. intros c pr src D. unfold build_module, build_model. cbn. rewrite D. reflexivity. Qed.
Theorem C95_path_ignored_refuted : forall fresh h p, configure fresh (mkSrc (Some h) p) = hub_load (fst h) (snd h).
Proof. intros fresh [g n] p. reflexivity. Qed.
(** A checkpoint saved from the model itself (not from a training module) cannot be used, even
    if its entries are exactly those of the model. *)
Theorem C95_bare_checkpoint_refuted : forall fresh p, NoDup (map fst (n_state fresh)) -> n_state fresh <> [] ->
  (forall k, In k (map fst (n_state fresh)) -> forall r, k <> ("model." ++ r)%string) ->
  disk p = Some (Checkpoint (n_state fresh)) ->
  configure fresh (mkSrc None (Some p)) = Raise RuntimeError.
Proof.
  intros fresh p ND NE NP D. destruct (n_state fresh) as [|[k v] r] eqn:E; [congruence|]. rewrite <- E in *.
  apply (C95_misfit fresh p (n_state fresh)); [exact ND|exact D|]. exists k. intros [H _].
  assert (I : In k (map fst (n_state fresh))) by (rewrite E; now left). apply H in I. exact (NP _ I k eq_refl).
Qed.
End Build.

(** * Tests *)
Section Tests.
Variables (S D : Type) (instantiate_loader : S -> res D).
(** Every dataset of the configuration is tested once, in order, under its own name ... *)
Theorem C95_tests : forall entries ds,
  run_tests S D instantiate_loader entries = Ok ds <->
  map fst ds = map (fun e => fst (snd e)) entries /\
  Forall2 (fun e d => instantiate_loader (snd (snd e)) = Ok (snd d)) entries ds.
Proof.
  assert (X : forall entries ns ds, build_test_dataloaders S D instantiate_loader entries = Ok (ns, ds) <->
    ns = map (fun e => fst (snd e)) entries /\ Forall2 (fun e d => instantiate_loader (snd (snd e)) = Ok d) entries ds).
  { induction entries as [|[k [n s]] r IH]; intros ns ds; cbn [build_test_dataloaders map fst snd].
    - split; [intro H; injection H as <- <-; auto|intros [-> H]; now inversion H].
    - destruct (instantiate_loader s) as [d|e] eqn:E; cbn [bind].
      + destruct (build_test_dataloaders S D instantiate_loader r) as [[ns' ds']|e] eqn:F; cbn [bind fst snd].
        * destruct (proj1 (IH ns' ds') eq_refl) as [-> H]. split; [intro G; injection G as <- <-; auto|].
          intros [-> G]. inversion G as [|? d' ? ds2 G1 G2]; subst. cbn in G1. rewrite E in G1. injection G1 as <-.
          pose proof (proj2 (IH _ ds2) (conj eq_refl G2)) as Q. injection Q as <-. reflexivity.
        * split; [discriminate|]. intros [-> G]. inversion G as [|? d' ? ds2 G1 G2]; subst.
          pose proof (proj2 (IH _ ds2) (conj eq_refl G2)) as H. discriminate.
      + split; [discriminate|]. intros [-> G]. inversion G as [|? d' ? ds2 G1 G2]; subst. cbn in G1. congruence. }
  intros entries ds. unfold run_tests. destruct (build_test_dataloaders S D instantiate_loader entries) as [[ns l]|e] eqn:F; cbn [bind fst snd].
  - apply X in F. destruct F as [-> F].
    assert (LE : length (map (fun e => fst (snd e)) entries) = length l).
    { rewrite map_length. induction F; cbn [length]; congruence. }
    split.
    + intro H. injection H as <-. split.
      * clear F. revert l LE. induction entries as [|e r IH]; intros [|d l] LE; try discriminate LE; [reflexivity|]. cbn [map combine fst].
        f_equal. apply IH. cbn in LE. now injection LE.
      * clear LE. induction F as [|e d r l H F IH]; [constructor|]. cbn [map combine]. constructor; [exact H|exact IH].
    + intros [M G]. f_equal. clear LE. revert ds M G. induction F as [|e d r l H F IH]; intros ds M G.
      * now inversion G.
      * inversion G as [|? [n' d'] ? ds2 G1 G2]; subst. cbn [map combine fst snd] in *. injection M as -> M. rewrite H in G1. injection G1 as ->.
        f_equal. now apply IH.
  - split; [discriminate|]. intros [M G]. exfalso.
    assert (Y : Forall2 (fun e d => instantiate_loader (snd (snd e)) = Ok d) entries (map snd ds)).
    { clear - G. induction G; cbn [map]; constructor; auto. }
    pose proof (proj2 (X entries _ _) (conj eq_refl Y)). congruence.
Qed.
End Tests.
(** ... but the datasets that the project's own configuration names are never tested: one of
    the classes does not exist, and no test starts before all datasets are built. *)
Theorem C95_shipped_tests_refuted : run_tests _ _ locate shipped_tests = Raise RuntimeError.
Proof. reflexivity. Qed.

(** * A case *)
Definition ex_net (w : nat) : net string nat :=
  mkN "net" [("encoder.weight", w); ("bottleneck.cdf", 0%nat)] [("encoder.weight", true)] [("", true); ("encoder", true)].
Definition ex_shape (w : nat) : list nat := [w / 10]%nat.
Definition ex_resizable (a : string) (k : string) : bool := String.eqb k "bottleneck.cdf".
Definition ex_saved : list (string * nat) :=
  module_state [("eval_lpips", [("net.weight", 3%nat)]); ("model", [("encoder.weight", 17%nat); ("bottleneck.cdf", 99%nat)]);
                ("discriminator", [("model.weight", 5%nat)])].
Definition ex_disk (p : string) : option (content nat) :=
  if String.eqb p "old.ckpt" then Some (Checkpoint ex_saved) else if String.eqb p "bare.ckpt" then Some (NoState) else None.
Definition ex_cfg (pre : option source) (disc : option (string * string * string)) : cfg string unit :=
  mkCfg "model" pre (Some "mse") "rate" disc (Some ("ae", "projector")) None tt [("gradient_clip_val", VNum 1)].
Definition ex_build := build_module string nat ex_shape ex_resizable ex_disk (fun _ n => Ok (ex_net 12)) string string unit
  (fun s => Ok (ex_net 10)) (fun s => Ok s) (fun _ n => Ok (Some n)) "MSELoss".
Example C95_ex_names : forall s n, (fun _ : string => Ok (ex_net 10)) s = Ok n -> NoDup (map fst (n_state n)).
Proof. intros s n H. injection H as <-. cbn. repeat constructor; cbn; intuition discriminate. Qed.
Example C95_ex_plain : exists m, ex_build (ex_cfg (Some (mkSrc None (Some "old.ckpt"))) None) = Ok (m, false) /\
  n_state (b_model m) = [("encoder.weight", 17%nat); ("bottleneck.cdf", 99%nat)] /\ b_gan m = None.
Proof. eexists. split; [reflexivity|]. split; reflexivity. Qed.
Example C95_ex_gan : exists m g, ex_build (ex_cfg (Some (mkSrc None (Some "old.ckpt"))) (Some ("disc", "dl", "gl"))) = Ok (m, true) /\
  b_gan m = Some g /\ g_mc g = VBool true /\
  option_map (fun n => (n_requires n, n_training n)) (g_projector g) = Some ([("encoder.weight", false)], [("", false); ("encoder", false)]).
Proof. eexists. eexists. split; [reflexivity|]. repeat split. Qed.
Example C95_ex_errors :
  ex_build (ex_cfg (Some (mkSrc None (Some "bare.ckpt"))) None) = Raise KeyError /\
  ex_build (ex_cfg (Some (mkSrc None (Some "none.ckpt"))) None) = Raise FileNotFoundError /\
  ex_build (ex_cfg (Some (mkSrc None None)) None) = Raise AttributeError.
Proof. repeat split. Qed.
Example C95_ex_finetune :
  (forall s, In s ([("eval_lpips", [("net.weight", 3%nat)])] ++ [("discriminator", [("model.weight", 5%nat)])]) -> no_dot (fst s) /\ fst s <> "model").
Proof. intros s [<-|[<-|[]]]; cbn; repeat split; discriminate. Qed.
Example C95_ex_tests : run_tests _ _ locate (firstn 2 shipped_tests) =
  Ok [("kodak", ("Kodak", None)); ("clic2020_test", ("CLIC2020Image", Some "test_fid"))].
Proof. reflexivity. Qed.

Print Assumptions C95_module.
Print Assumptions C95_finetune.
Print Assumptions C95_finetune_builds.
Print Assumptions C95_misfit.
Print Assumptions C95_no_loss.
Print Assumptions C95_projector_ignored_refuted.
Print Assumptions C95_path_ignored_refuted.
Print Assumptions C95_bare_checkpoint_refuted.
Print Assumptions C95_tests.
Print Assumptions C95_shipped_tests_refuted.

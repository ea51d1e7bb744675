(** Model of how projects/illm/train.py builds what it trains and what it tests:
    configure_and_load_state_dict, build_model, build_module and build_test_dataloaders, with the
    constructors of target_compression_module.py and gan_compression_module.py.

    Simplifications: a network is its architecture, its state dict, and a flag for each parameter
    (requires_grad) and each submodule (training); what hydra.utils.instantiate and torch.hub
    build is a parameter of the model; the device and the random state are left out; exceptions
    of OmegaConf and hydra are named in the comments. *)
From Coq Require Import String QArith List Bool Arith.
From Verif Require Import Base Train_Model.
Import ListNotations.
Open Scope string_scope.
Open Scope list_scope.

Section Build.
Variables (A W : Type).                (* architectures; tensors *)
Variable shape : W -> list nat.
Record net := mkN { n_arch : A; n_state : list (string * W); n_requires : list (string * bool); n_training : list (string * bool) }.

(** torch's Module.load_state_dict(strict=True), after compressai's CompressionModel.load_state_dict,
    which gives the [resizable] buffers (the tables of the entropy coders) the size of the loaded ones. *)
Variable resizable : A -> string -> bool.
Definition has {V} (d : list (string * V)) (k : string) : bool := match lookup d k with Some _ => true | None => false end.
Definition fits (a : A) (sd : list (string * W)) (kv : string * W) : bool :=
  match lookup sd (fst kv) with
  | Some w => resizable a (fst kv) || (if list_eq_dec Nat.eq_dec (shape w) (shape (snd kv)) then true else false)
  | None => false
  end.
Definition load_state_dict (n : net) (sd : list (string * W)) : res net :=
  if forallb (fits (n_arch n) sd) (n_state n) && forallb (fun kv => has (n_state n) (fst kv)) sd
  then Ok (mkN (n_arch n) (map (fun kv => (fst kv, match lookup sd (fst kv) with Some w => w | None => snd kv end)) (n_state n))
               (n_requires n) (n_training n))
  else Raise RuntimeError.

(** The files: absent, a dictionary without "state_dict", or a Lightning checkpoint. *)
Inductive content := NoState | Checkpoint (sd : list (string * W)).
Variable disk : string -> option content.
(** train.py L117-120: torch.load(...)["state_dict"]; torch.load(None) is an AttributeError. *)
Definition read_checkpoint (path : option string) : res (list (string * W)) :=
  match path with
  | None => Raise AttributeError
  | Some p => match disk p with
              | None => Raise FileNotFoundError
              | Some NoState => Raise KeyError
              | Some (Checkpoint sd) => Ok sd
              end
  end.

(** The entries pretrained_autoencoder and pretrained_latent_autoencoder of the configuration. *)
Record source := mkSrc { torchhub : option (string * string); path : option string }.
Variable hub_load : string -> string -> res net.
(** train.py L128-140 (configure_and_load_state_dict); the prefix is the default of L117. *)
Definition configure_and_load_state_dict (model : net) (s : source) : res net :=
  match torchhub s with
  | Some (github, name) => hub_load github name
  | None => do sd <- read_checkpoint (path s); load_state_dict model (pretrained_state_dict sd "model.")
  end.

(** What hydra.utils.instantiate gives for a node of the configuration. *)
Variables (spec L O : Type).            (* nodes; losses and rate targets; optimiser settings *)
Variable instantiate_net : spec -> res net.
Variable instantiate : spec -> res L.
Variable instantiate_projector : spec -> net -> res (option net).

(** Values of the entry lightning_module *)
Inductive value := VNum (q : Q) | VStr (s : string) | VBool (b : bool) | VNull.
Record cfg := mkCfg {
  c_model : spec; c_pretrained : option source;
  c_distortion : option spec;                             (* None: without _target_ *)
  c_rate : spec;
  c_discriminator : option (spec * spec * spec);          (* model, discriminator_loss, generator_loss *)
  c_projector : option (spec * spec);                     (* autoencoder, projector *)
  c_pretrained_projector : option source;
  c_optimizer : O; c_module : list (string * value) }.

(** train.py L143-150 (build_model) *)
Definition build_model (c : cfg) : res net :=
  do model <- instantiate_net (c_model c);
  match c_pretrained c with
  | Some s => configure_and_load_state_dict model s
  | None => Ok model
  end.

(** Keyword arguments that come from **cfg.lightning_module: a name the constructor does not take, or
    one that the call gives already, is a TypeError. *)
Definition accept (names : list string) (kw : list (string * value)) : res unit :=
  if forallb (fun p => existsb (String.eqb (fst p)) names) kw then Ok tt else Raise TypeError.
Definition arg (kw : list (string * value)) (name : string) (default : value) : value :=
  match lookup kw name with Some v => v | None => default end.

Record gan := mkG { g_discriminator : net; g_discriminator_loss : L; g_generator_loss : L; g_projector : option net;
                    g_weight : value; g_mc : value }.
Record module := mkMod { b_model : net; b_rate : L; b_distortion : L; b_optimizer : O;
                         b_lam : value; b_clip : value; b_algorithm : value; b_gan : option gan }.
(** target_compression_module.py L34-63: the constructor; [mse]: the MSELoss() of L60. *)
Variable mse : L.
Definition base_names := ["distortion_lam"; "gradient_clip_val"; "gradient_clip_algorithm"].
Definition base_module (model : net) (rate : L) (optimizer : O) (distortion : option L) (kw : list (string * value)) (g : option gan) : module :=
  mkMod model rate (match distortion with Some l => l | None => mse end) optimizer
        (arg kw "distortion_lam" (VNum 1)) (arg kw "gradient_clip_val" VNull) (arg kw "gradient_clip_algorithm" (VStr "norm")) g.
Definition target_rate_module (model : net) (rate : L) (optimizer : O) (distortion : option L) (kw : list (string * value)) : res module :=
  do _ <- accept base_names kw; Ok (base_module model rate optimizer distortion kw None).
(** gan_compression_module.py L26-57 *)
Definition gan_names := base_names ++ ["generator_weight"; "mc_sampling"].
Definition gan_module (model : net) (rate : L) (discriminator : net) (dl gl : L) (optimizer : O) (distortion : option L)
  (projector : option net) (kw : list (string * value)) : res module :=
  do _ <- accept gan_names kw;
  Ok (base_module model rate optimizer distortion kw
        (Some (mkG discriminator dl gl projector (arg kw "generator_weight" (VNum 1)) (arg kw "mc_sampling" (VBool true))))).

(** Module.eval() and requires_grad_(False) for every parameter *)
Definition eval_mode (n : net) : net := mkN (n_arch n) (n_state n) (n_requires n) (map (fun p => (fst p, false)) (n_training n)).
Definition freeze (n : net) : net := mkN (n_arch n) (n_state n) (map (fun p => (fst p, false)) (n_requires n)) (n_training n).

(** train.py L178-204: the latent projector, and whether the warning of L184-187 is given *)
Definition build_projector (c : cfg) : res (option net * bool) :=
  match c_projector c with
  | None => Ok (None, false)
  | Some (autoencoder, projector) =>
      do ae <- instantiate_net autoencoder;
      do ae' <- (match c_pretrained_projector c with
                 | None => Ok ae
                 | Some s => configure_and_load_state_dict ae s
                 end);
      do p <- instantiate_projector projector ae';
      match p with
      | None => Raise AssertionError
      | Some p => Ok (Some (freeze (eval_mode p)), match c_pretrained_projector c with None => true | Some _ => false end)
      end
  end.
(** train.py L153-216 (build_module), with whether the warning is given *)
Definition build_module (c : cfg) : res (module * bool) :=
  do model <- build_model c;
  match c_distortion c with
  | None => Raise ValueError
  | Some ds =>
      do distortion <- instantiate ds;
      do rate <- instantiate (c_rate c);
      match c_discriminator c with
      | None => do m <- target_rate_module model rate (c_optimizer c) (Some distortion) (c_module c); Ok (m, false)
      | Some (dm, dls, gls) =>
          do discriminator <- instantiate_net dm;
          do dl <- instantiate dls;
          do gl <- instantiate gls;
          do pw <- build_projector c;
          do m <- gan_module model rate discriminator dl gl (c_optimizer c) (Some distortion) (fst pw) (c_module c);
          Ok (m, snd pw)
      end
  end.
End Build.
Arguments mkN {A W}. Arguments n_arch {A W}. Arguments n_state {A W}. Arguments n_requires {A W}. Arguments n_training {A W}. Arguments eval_mode {A W}. Arguments freeze {A W}. Arguments NoState {W}. Arguments Checkpoint {W}. Arguments mkCfg {spec O}. Arguments c_model {spec O}. Arguments c_pretrained {spec O}. Arguments c_distortion {spec O}. Arguments c_rate {spec O}. Arguments c_discriminator {spec O}. Arguments c_projector {spec O}. Arguments c_pretrained_projector {spec O}. Arguments c_optimizer {spec O}. Arguments c_module {spec O}. Arguments mkG {A W L}. Arguments g_discriminator {A W L}. Arguments g_discriminator_loss {A W L}. Arguments g_generator_loss {A W L}. Arguments g_projector {A W L}. Arguments g_weight {A W L}. Arguments g_mc {A W L}. Arguments mkMod {A W L O}. Arguments b_model {A W L O}. Arguments b_rate {A W L O}. Arguments b_distortion {A W L O}. Arguments b_optimizer {A W L O}. Arguments b_lam {A W L O}. Arguments b_clip {A W L O}. Arguments b_algorithm {A W L O}. Arguments b_gan {A W L O}.

(** * What is tested *)
Section Tests.
Variables (S D : Type).
Variable instantiate_loader : S -> res D.
(** train.py L344-352 (build_test_dataloaders); the keys of the configuration are not used. *)
Fixpoint build_test_dataloaders (entries : list (string * (string * S))) : res (list string * list D) :=
  match entries with
  | [] => Ok ([], [])
  | (_, (name, params)) :: r =>
      do d <- instantiate_loader params;
      do rest <- build_test_dataloaders r;
      Ok (name :: fst rest, d :: snd rest)
  end.
(** train.py L372-379 (in main): what is tested, and under which name *)
Definition run_tests (entries : list (string * (string * S))) : res (list (string * D)) :=
  do nl <- build_test_dataloaders entries; Ok (combine (fst nl) (snd nl)).
End Tests.

(** neuralcompression/data/__init__.py L6-11: the names of the package.  A dataset of the
    configuration is its class and its split; hydra's InstantiationException for a class that
    cannot be found is a [RuntimeError] here. *)
Definition data_package := ["CLIC2020Image"; "CLIC2020Video"; "DIV2KDataset"; "Kodak"; "OpenImagesV6"; "Vimeo90kSeptuplet"].
Definition locate (d : string * option string) : res (string * option string) :=
  if existsb (String.eqb (fst d)) data_package then Ok d else Raise RuntimeError.
(** projects/illm/conf/test_dataloaders/test.yaml, the entry every configuration includes
    (config.yaml L9); only the classes and splits of the datasets. *)
Definition shipped_tests : list (string * (string * (string * option string))) :=
  [("ds1", ("kodak", ("Kodak", None)));
   ("ds2", ("clic2020_test", ("CLIC2020Image", Some "test_fid")));
   ("ds3", ("div2k_val", ("DiV2KDataset", Some "val")))].

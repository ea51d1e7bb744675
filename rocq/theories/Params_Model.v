(** Parameters, modes and optimisers of module trees: nn.Module.named_modules,
    named_parameters and train of PyTorch (torch/nn/modules/module.py, after its
    documentation), and the code of the repository on top of them:
    /repo/projects/deep_video_compression/_utils.py (collect_parameters),
    dvc_module.py (configure_optimizers), /repo/projects/torch_vct/model_lightning.py
    (configure_optimizers) and /repo/neuralcompression/models/_vqvae_projector.py.

    A module is the number of its object, its parameters (attribute name and number of
    the object) and its children.  A module that is used in several places occurs as
    the same tree in each of them.  Buffers, hooks and the values of parameters are
    left out. *)
From Coq Require Import String List Bool Arith Lia Ascii.
From Verif Require Import Base.
Import ListNotations.
Open Scope string_scope.
Open Scope list_scope.
Open Scope nat_scope.

(** [pinned] is true for VqVaeProjector, which overrides train. *)
Inductive module := Node (obj : nat) (pinned : bool) (pars : list (string * nat)) (kids : list (string * module)).
Definition obj (m : module) : nat := match m with Node i _ _ _ => i end.
Definition pars (m : module) : list (string * nat) := match m with Node _ _ ps _ => ps end.
Definition kids (m : module) : list (string * module) := match m with Node _ _ _ ks => ks end.

Definition mem (i : nat) (l : list nat) : bool := existsb (Nat.eqb i) l.

(** [prefix + ('.' if prefix else '') + name] *)
Definition join (prefix name : string) : string :=
  (if String.eqb prefix "" then name else prefix ++ "." ++ name)%string.

(** nn.Module.named_modules: preorder, every object once. *)
Fixpoint named_modules (prefix : string) (m : module) (memo : list nat) : list nat * list (string * module) :=
  match m with
  | Node i pin ps ks =>
      if mem i memo then (memo, [])
      else
        let '(memo', out) :=
          (fix go (ks : list (string * module)) (memo : list nat) : list nat * list (string * module) :=
             match ks with
             | [] => (memo, [])
             | (n, k) :: ks' =>
                 let '(m1, o1) := named_modules (join prefix n) k memo in
                 let '(m2, o2) := go ks' m1 in (m2, o1 ++ o2)
             end) ks (i :: memo) in
        (memo', (prefix, Node i pin ps ks) :: out)
  end.

(** nn.Module.named_parameters: every object once, under the first name found. *)
Fixpoint fresh_pars (prefix : string) (ps : list (string * nat)) (memo : list nat) : list nat * list (string * nat) :=
  match ps with
  | [] => (memo, [])
  | (n, p) :: ps' =>
      if mem p memo then fresh_pars prefix ps' memo
      else let '(memo', out) := fresh_pars prefix ps' (p :: memo) in (memo', (join prefix n, p) :: out)
  end.
Fixpoint pars_of_modules (ms : list (string * module)) (memo : list nat) : list (string * nat) :=
  match ms with
  | [] => []
  | (prefix, m) :: ms' =>
      let '(memo', out) := fresh_pars prefix (pars m) memo in out ++ pars_of_modules ms' memo'
  end.
Definition named_parameters (m : module) : list (string * nat) :=
  pars_of_modules (snd (named_modules "" m [])) [].

(** str.endswith *)
Fixpoint ends_with (suffix s : string) : bool :=
  String.eqb s suffix || match s with "" => false | String _ s' => ends_with suffix s' end.

(** A dictionary comprehension: a later value replaces that of an equal key. *)
Fixpoint dict_set (k : string) (v : nat) (d : list (string * nat)) : list (string * nat) :=
  match d with
  | [] => [(k, v)]
  | (k', v') :: d' => if String.eqb k k' then (k, v) :: d' else (k', v') :: dict_set k v d'
  end.
Definition dict_of (l : list (string * nat)) : list (string * nat) :=
  fold_left (fun d p => dict_set (fst p) (snd p) d) l [].

Section Requires.
Variable requires_grad : nat -> bool.

(** _utils.py L34-46 (DvcStage) and, without the quantiles, L71-77 (DvcStage1) *)
Definition collect_parameters (stage1 : bool) (m : module)
  : list (string * nat) * option (list (string * nat)) :=
  (dict_of (filter (fun np => negb (ends_with ".quantiles" (fst np)) && requires_grad (snd np)) (named_parameters m)),
   if stage1 then None
   else Some (dict_of (filter (fun np => ends_with ".quantiles" (fst np) && requires_grad (snd np)) (named_parameters m)))).

(** torch.optim.Adam: the parameters it updates and whether it has a scheduler; an
    empty list of parameters is a ValueError. *)
Record optimizer := mkOpt { updates : list nat; scheduled : bool; learning_rate_is_aux : bool }.
Definition adam (ps : list nat) (scheduled aux : bool) : res optimizer :=
  match ps with [] => Raise ValueError | _ => Ok (mkOpt ps scheduled aux) end.

(** dvc_module.py L314-343; [m] is the stage, [sched] whether lr_scheduler_params is
    given. *)
Definition dvc_configure_optimizers (stage1 sched : bool) (m : module) : res (list optimizer) :=
  let '(model_param_dict, quantile_param_dict) := collect_parameters stage1 m in
  do base <- adam (map snd model_param_dict) sched false;
  match quantile_param_dict with
  | None => Ok [base]
  | Some q => do aux <- adam (map snd q) false true; Ok [base; aux]
  end.

(** model_lightning.py L187-212 *)
Definition vct_configure_optimizers (m : module) : res (list optimizer) :=
  do base <- adam (map snd (filter (fun np => negb (ends_with ".quantiles" (fst np)) && requires_grad (snd np))
                                   (named_parameters m))) true false;
  Ok [base].
End Requires.

(** * Modes *)

Definition setf (f : nat -> bool) (i : nat) (b : bool) : nat -> bool := fun j => if j =? i then b else f j.

(** nn.Module.train over nn.Module.children, which yields every object once, and _vqvae_projector.py L40-42: the projector passes False on. *)
Fixpoint train (mode : bool) (m : module) (tr : nat -> bool) : nat -> bool :=
  match m with
  | Node i pin ps ks =>
      let mode := if pin then false else mode in
      (fix go (ks : list (string * module)) (memo : list nat) (tr : nat -> bool) : nat -> bool :=
         match ks with
         | [] => tr
         | (_, k) :: ks' =>
             if mem (obj k) memo then go ks' memo tr
             else go ks' (obj k :: memo) (train mode k tr)
         end) ks [] (setf tr i mode)
  end.

(** The state of all modules and parameters. *)
Record state := mkS { training : nat -> bool; requires : nat -> bool }.

(** _vqvae_projector.py L32-38; [new] is the number of the new object.  [nn.Module.eval]
    is train(False); parameters() are the values of named_parameters. *)
Definition make_projector (new : nat) (encoder : module) (bottleneck_op : option module) (s : state)
  : res (module * state) :=
  match bottleneck_op with
  | None => Raise AssertionError
  | Some b =>
      let self := Node new true [] [("encoder", encoder); ("bottleneck_op", b)] in
      let tr := train false self (setf (training s) new true) in
      let rq := fold_left (fun r p => setf r (snd p) false) (named_parameters self) (requires s) in
      Ok (self, mkS tr rq)
  end.

(** Calls of train and eval on any module. *)
Definition run_modes (ops : list (module * bool)) (tr : nat -> bool) : nat -> bool :=
  fold_left (fun tr op => train (snd op) (fst op) tr) ops tr.

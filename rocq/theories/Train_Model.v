(** Model of projects/illm/train.py: launching, resuming and testing.

    Simplifications: a checkpoint is the number of optimiser steps it was saved after together
    with its state dict; Lightning's Trainer is an arbitrary sequence of saved and deleted files;
    a file is written at once; the models and data are built without error. *)
From Coq Require Import String ZArith List Bool Arith Lia.
From Verif Require Import Base.
Import ListNotations.
Open Scope nat_scope.
Open Scope string_scope.

Section Train.
Variable V : Type. (* tensors *)

Definition state_dict := list (string * V).
Record ckpt := mkK { k_step : nat; k_state : state_dict }.
(** The checkpoint directory: None if it does not exist. *)
Definition ckdir := option (list (string * ckpt)).

Fixpoint lookup {A} (d : list (string * A)) (k : string) : option A :=
  match d with
  | [] => None
  | (k', v) :: r => if String.eqb k k' then Some v else lookup r k
  end.
Definition remove {A} (k : string) (d : list (string * A)) : list (string * A) :=
  filter (fun p => negb (String.eqb k (fst p))) d.

(** Path.glob("*.ckpt"): the names that end in ".ckpt". *)
Definition ends_with (suffix s : string) : bool :=
  Nat.leb (String.length suffix) (String.length s) &&
  String.eqb (substring (String.length s - String.length suffix) (String.length suffix) s) suffix.
Definition glob_ckpt (d : ckdir) : list string :=
  match d with None => [] | Some l => filter (ends_with ".ckpt") (map fst l) end.

(** cfg.checkpoint (conf/config.yaml L44-46); a value may be null. *)
Record cfg := mkCfg {
  overwrite : option bool;
  resume_training : option bool;
  mode_train : bool;              (* cfg.training_mode == "train" *)
  ngpu : nat
}.
(** bool(x) *)
Definition truthy (x : option bool) : bool := match x with Some true => true | _ => false end.

(** train.py L256-277 (fetch_checkpoint) *)
Definition fetch_checkpoint (c : cfg) (d : ckdir) : res (ckdir * option ckpt) :=
  if negb (truthy (overwrite c)) && negb (truthy (resume_training c)) && Nat.ltb 0 (length (glob_ckpt d))
  then Raise RuntimeError
  else
    let d' := match d with None => Some [] | Some _ => d end in
    let last := match d' with Some l => lookup l "last.ckpt" | None => None end in
    let is_false := match overwrite c with Some false => true | _ => false end in
    Ok (d', match last with Some k => if is_false then Some k else None | None => None end).

(** What the Trainer does to the directory while it fits. *)
Inductive event := Save (name : string) (k : ckpt) | Delete (name : string).
Definition apply_event (d : ckdir) (e : event) : ckdir :=
  match d with
  | None => None
  | Some l => match e with
              | Save n k => Some ((n, k) :: remove n l)
              | Delete n => Some (remove n l)
              end
  end.

(** train.py L117-125 (pretrained_state_dict) *)
Definition strip (prefix : string) (kv : string * V) : list (string * V) :=
  let n := String.length prefix in
  if String.eqb (substring 0 n (fst kv)) prefix
  then [(substring n (String.length (fst kv) - n) (fst kv), snd kv)] else [].
Definition pretrained_state_dict (sd : state_dict) (prefix : string) : state_dict :=
  flat_map (strip prefix) sd.

(** train.py L355-379 (main): what the launch does with the data.  A training run starts from a
    checkpoint or from nothing; a test run uses the weights of a checkpoint. *)
Inductive launched := Trained (start : option ckpt) | Tested (weights : state_dict).
Definition main (c : cfg) (d : ckdir) (saves : option ckpt -> list event) : res launched * ckdir :=
  match fetch_checkpoint c d with
  | Raise e => (Raise e, d)
  | Ok (d1, last) =>
      if mode_train c then (Ok (Trained last), fold_left apply_event (saves last) d1)
      else match last with
           | None => (Raise AssertionError, d1)
           | Some k =>
               let w := pretrained_state_dict (k_state k) "model." in
               if Nat.ltb 1 (ngpu c) then (Raise ValueError, d1) else (Ok (Tested w), d1)
           end
  end.
Record launch := mkL { l_cfg : cfg; l_saves : option ckpt -> list event }.
Definition run_launch (d : ckdir) (l : launch) : ckdir := snd (main (l_cfg l) d (l_saves l)).
Definition run_launches (d : ckdir) (ls : list launch) : ckdir := fold_left run_launch ls d.

(** The state dict of a module with the given submodules (torch, Module.state_dict). *)
Definition module_state (subs : list (string * state_dict)) : state_dict :=
  flat_map (fun s => map (fun kv => (fst s ++ "." ++ fst kv, snd kv)) (snd s)) subs.
End Train.
Arguments mkK {V}. Arguments k_step {V}. Arguments k_state {V}. Arguments Save {V}. Arguments Delete {V}.
Arguments mkL {V}. Arguments l_cfg {V}. Arguments l_saves {V}. Arguments Trained {V}. Arguments Tested {V}.
Arguments fetch_checkpoint {V}. Arguments apply_event {V}. Arguments pretrained_state_dict {V}. Arguments strip {V}.
Arguments main {V}. Arguments run_launch {V}. Arguments run_launches {V}. Arguments module_state {V}. Arguments glob_ckpt {V}.

(** train.py L319-327 (in build_trainer): the number of optimiser steps.  [Raise] stands for the
    MisconfigurationException of Lightning's Trainer for max_steps < -1. *)
Definition trainer_steps (max_steps : Z) (num_opts : nat) : res Z :=
  let new_steps := (max_steps * Z.of_nat num_opts)%Z in
  if (new_steps <? -1)%Z then Raise ValueError else Ok new_steps.
(** Lightning's loop: before each batch it stops if global_step >= max_steps, unless max_steps is
    -1; with manual optimisation every optimiser step counts, and a batch makes one step with each
    optimiser (Gan_Model.training_step).  The batches of the data that are used. *)
Fixpoint fit_batches {B} (limit : Z) (num_opts : nat) (global_step : Z) (data : list B) : list B :=
  match data with
  | [] => []
  | b :: r => if negb (limit =? -1)%Z && (limit <=? global_step)%Z then []
              else b :: fit_batches limit num_opts (global_step + Z.of_nat num_opts) r
  end.

(** Model of the staged training of projects/deep_video_compression/train.py (run_training_stage and
    main) with the stages of projects/deep_video_compression/_utils.py.

    A launch goes through the stages in order and may be killed before any step or any write of a
    checkpoint. Submodules hold arbitrary weights; an update is an arbitrary function of the launch,
    the stage, the step and the submodules the stage holds.

    Simplifications: a checkpoint file is written at once; the directories of two stages are
    different; a checkpoint is its step and the weights of the submodules of the stage; the I-frame
    model is pretrained and never changes; number of steps and places where checkpoints are written
    are those of the configuration and do not change between launches. *)
From Coq Require Import List Bool Arith Lia.
From Verif Require Import Base.
Import ListNotations.
Open Scope nat_scope.

(** neuralcompression/models/deep_video_compression.py L118-165: the submodules of DVC *)
Inductive sub := MotionEstimator | MotionEncoder | MotionBottleneck | MotionDecoder | MotionCompensation
               | ResidualEncoder | ResidualBottleneck | ResidualDecoder.
(** dvc_module.py L24-30 (TRAINING_STAGES): the classes of stages *)
Inductive cls := DvcStage1 | DvcStage2 | DvcStage3 | DvcStage4and5.
(** _utils.py L64-67, L110-121, L178-190, L250-253 (and recompose_model, L105, L170, L241, L307): the submodules a stage holds *)
Definition holds (c : cls) (s : sub) : bool :=
  match c, s with
  | DvcStage1, MotionEstimator => true
  | DvcStage1, _ => false
  | DvcStage2, (MotionEstimator | MotionEncoder | MotionBottleneck | MotionDecoder) => true
  | DvcStage2, _ => false
  | DvcStage3, (MotionEstimator | MotionEncoder | MotionBottleneck | MotionDecoder | MotionCompensation) => true
  | DvcStage3, _ => false
  | DvcStage4and5, _ => true
  end.

(** cfg.checkpoint.overwrite: a YAML value; [Truthy] is a true value other than True, such as 1 *)
Inductive flag := No | Yes | Truthy.
Definition truth (f : flag) : bool := match f with No => false | _ => true end.
Definition is_True (f : flag) : bool := match f with Yes => true | _ => false end.

Section Stages.
Variable W : Type.
Definition model := sub -> W.
(** a new DVC of launch l (train.py L140) *)
Variable init : nat -> model.
(** the class of stage k and the number of its steps *)
Variable stage_class : nat -> cls.
Variable max_steps : nat -> nat.
(** update number i of stage k in launch l, given the submodules of the stage *)
Variable upd : nat -> nat -> nat -> (sub -> option W) -> sub -> W.
(** whether checkpoints are written after the i-th step, and whether it is the best so far *)
Variable saves : nat -> nat -> bool.
Variable best : nat -> nat -> nat -> bool.

Record ckpt := mkC { c_step : nat; c_weights : sub -> option W }.
(** the directory of a stage: last.ckpt and whether there are other checkpoints *)
Record dir := mkD { d_last : option ckpt; d_other : bool }.
Definition disk := nat -> dir.
Definition set (d : disk) (k : nat) (x : dir) : disk := fun j => if Nat.eqb j k then x else d j.
(** what the module of the stage sees of the model, and the weights with those of the stage replaced *)
Definition view (c : cls) (m : model) : sub -> option W := fun s => if holds c s then Some (m s) else None.
Definition put (c : cls) (m new : model) : model := fun s => if holds c s then new s else m s.
Definition load (m : model) (w : sub -> option W) : model := fun s => match w s with Some x => x | None => m s end.

Inductive ev := Done (m : model) | Killed | Refused.
(** trainer.fit: [todo] steps are left. Every step and every write of a checkpoint needs one unit of
    [budget]; at 0 the process is killed. *)
Fixpoint fit (l k : nat) (todo i : nat) (m : model) (d : disk) (budget : nat) : ev * disk * nat :=
  match todo with
  | 0 => (Done m, d, budget)
  | S todo' =>
      match budget with
      | 0 => (Killed, d, 0)
      | S budget =>
          let m := put (stage_class k) m (upd l k i (view (stage_class k) m)) in
          if saves k (S i) then
            match (if best l k (S i) then budget else S budget) with
            | 0 => (Killed, d, 0)
            | S budget =>
                let d := if best l k (S i) then set d k (mkD (d_last (d k)) true) else d in
                match budget with
                | 0 => (Killed, d, 0)
                | S budget =>
                    let d := set d k (mkD (Some (mkC (S i) (view (stage_class k) m))) (d_other (d k))) in
                    fit l k todo' (S i) m d budget
                end
            end
          else fit l k todo' (S i) m d budget
      end
  end.

(** train.py L94-135 (run_training_stage) *)
Definition run_training_stage (l : nat) (overwrite : flag) (resume : bool) (k : nat) (m : model) (d : disk) (budget : nat) : ev * disk * nat :=
  let files := match d_last (d k) with Some _ => true | None => d_other (d k) end in
  if negb (truth overwrite) && negb resume && files then (Refused, d, budget)
  else
    let last := if (match d_last (d k) with None => true | _ => false end) || is_True overwrite then None else d_last (d k) in
    match last with
    | Some c => fit l k (max_steps k - c_step c) (c_step c) (load m (c_weights c)) d budget
    | None => fit l k (max_steps k) 0 m d budget
    end.

(** train.py L161-162: the stages in order *)
Fixpoint run_stages (l : nat) (overwrite : flag) (resume : bool) (ks : list nat) (m : model) (d : disk) (budget : nat) : ev * disk * nat :=
  match ks with
  | [] => (Done m, d, budget)
  | k :: r =>
      match run_training_stage l overwrite resume k m d budget with
      | (Done m', d', b') => run_stages l overwrite resume r m' d' b'
      | x => x
      end
  end.
(** train.py L138-162 (main), with [K] stages *)
Definition main (K : nat) (l : nat) (overwrite : flag) (resume : bool) (d : disk) (budget : nat) : ev * disk :=
  fst (run_stages l overwrite resume (seq 0 K) (init l) d budget).
End Stages.

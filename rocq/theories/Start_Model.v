(** Model of the distributed start of training and of its logging,
    projects/bits_back_diffusion/bits_back_diffusion/script_util.py
    (parse_resume_step_from_filename, TrainLoop, WandbOutputFormat and the logging part of setup),
    with the parts of improved_diffusion that call it (TrainLoop.__init__, find_ema_checkpoint,
    dist_util.sync_params).

    Simplifications: a path is a directory and a name; int() accepts digits with an optional sign
    only (Python's also accepts spaces and underscores between digits); names neither begin nor end
    with a dot; the parameters of a model
    are one value; the processes run in lock step, and an exception in process 0 ends them all. *)
From Coq Require Import String Ascii ZArith List Bool Arith Lia.
From Verif Require Import Base Job_Model Cifar_Model.
Import ListNotations.
Open Scope string_scope.
Open Scope list_scope.
Open Scope nat_scope.

(** ** The step of a checkpoint, L104-122 *)
(** Path.suffix and Path.stem: split before the last dot. *)
Fixpoint split_suffix (l : list ascii) : option (list ascii * list ascii) :=
  match l with
  | [] => None
  | c :: r =>
      match split_suffix r with
      | Some (a, b) => Some (c :: a, b)
      | None => if Ascii.eqb c "."%char then Some ([], l) else None
      end
  end.
Definition stem (name : string) : list ascii :=
  let l := list_ascii_of_string name in match split_suffix l with Some (a, _) => a | None => l end.
Definition suffix (name : string) : string :=
  match split_suffix (list_ascii_of_string name) with Some (_, b) => string_of_list_ascii b | None => "" end.
Fixpoint contains (pat s : string) : bool :=
  String.prefix pat s || match s with EmptyString => false | String _ r => contains pat r end.
Definition to_ch (c : ascii) : option ch :=
  let n := nat_of_ascii c in
  if (48 <=? n) && (n <=? 57) then Some (Dg (Z.of_nat (n - 48)))
  else if n =? 45 then Some Minus else None.
Fixpoint to_chs (l : list ascii) : option (list ch) :=
  match l with
  | [] => Some []
  | c :: r => match to_ch c, to_chs r with Some x, Some y => Some (x :: y) | _, _ => None end
  end.
Definition py_int (l : list ascii) : res Z := match to_chs l with Some s => read_int s | None => Raise ValueError end.
Definition parse_resume_step_from_filename (name : string) : res Z :=
  if negb (String.eqb (suffix name) ".pt" || String.eqb (suffix name) ".npz") then Raise AssertionError
  else if negb (existsb (fun s => contains s name) ["ema"; "model"; "encode"; "decode"]) then Raise AssertionError
  else let st := stem name in py_int (skipn (length st - 6) st).

(** ** TrainLoop, L225-258 *)
Section TrainLoop.
Context {P : Type}.
Inductive saved := Params (p : P) | TornFile.
Definition disk := string -> string -> option saved.   (* directory, name *)
Definition torch_load (d : disk) (path : string * string) : res P :=
  match d (fst path) (snd path) with
  | None => Raise FileNotFoundError
  | Some TornFile => Raise RuntimeError
  | Some (Params p) => Ok p
  end.
(** dist_util.sync_params: dist.broadcast(p, 0) of every parameter *)
Definition sync_params (ranks : list P) : list P :=
  match ranks with [] => [] | p0 :: _ => map (fun _ => p0) ranks end.
(** Process 0 replaces its value, the others keep theirs. *)
Definition set_rank0 (p : P) (ranks : list P) : list P := match ranks with [] => [] | _ :: r => p :: r end.

(** L232-243: the parameters of the processes and their resume_step (0 by default) *)
Definition load_and_sync_parameters (d : disk) (resume_checkpoint : option (string * string)) (models : list P) : res (list P * Z) :=
  match resume_checkpoint with
  | None => Ok (sync_params models, 0%Z)
  | Some path =>
      do step <- parse_resume_step_from_filename (snd path);
      do p <- torch_load d path;
      Ok (sync_params (set_rank0 p models), step)
  end.

(** f"ema_{rate}_{step:06d}.pt" *)
Definition fmt6 (n : Z) : string := string_of_list_ascii (map (fun c => match c with Dg d => digit_char d | Minus => "-"%char end) (fmt06 n)).
Definition ema_name (rate : string) (step : Z) : string := ("ema_" ++ rate ++ "_" ++ fmt6 step ++ ".pt")%string.
(** improved_diffusion find_ema_checkpoint *)
Definition find_ema_checkpoint (d : disk) (main : option (string * string)) (step : Z) (rate : string) : option (string * string) :=
  match main with
  | None => None
  | Some (dir, _) => match d dir (ema_name rate step) with Some _ => Some (dir, ema_name rate step) | None => None end
  end.

(** L245-258 *)
Definition load_ema_parameters (d : disk) (main : option (string * string)) (step : Z) (masters : list P) (rate : string) : res (list P) :=
  match find_ema_checkpoint d main step rate with
  | Some path => do p <- torch_load d path; Ok (sync_params (set_rank0 p masters))
  | None => Ok (sync_params masters)
  end.

(** improved_diffusion TrainLoop.__init__: the moving averages are loaded if resume_step is not 0,
    otherwise copied from the parameters *)
Record loop := mkL { l_params : list P; l_step : Z; l_emas : list (list P) }.
Definition train_loop (d : disk) (resume_checkpoint : option (string * string)) (rates : list string) (models : list P) : res loop :=
  do r <- load_and_sync_parameters d resume_checkpoint models;
  if (snd r =? 0)%Z then Ok (mkL (fst r) (snd r) (map (fun _ => fst r) rates))
  else do e <- mapM (load_ema_parameters d resume_checkpoint (snd r) (fst r)) rates; Ok (mkL (fst r) (snd r) e).
End TrainLoop.

(** ** Logging *)
(** L183-184, L199-201: the logging directory of a process, and whether it logs to Weights & Biases *)
Definition rank_dir (log_dir : string) (log_ranks : bool) (rank : nat) : string :=
  if log_ranks then (log_dir ++ "_rank" ++ of_digits (pad 3 (digits (Z.of_nat rank))))%string else log_dir.
Definition uses_wandb (log_ranks : bool) (rank : nat) : bool := log_ranks || (rank =? 0).

(** WandbOutputFormat, L48-101: the run, with the rows it got, until it is closed *)
Definition row V : Type := list (string * V).
Fixpoint slashes (s : string) : string :=
  match s with EmptyString => EmptyString | String c r => String (if Ascii.eqb c "_"%char then "/"%char else c) (slashes r) end.
Section Writer.
Context {V : Type}.
(** a dictionary comprehension: a later key replaces the value of an equal earlier one *)
Fixpoint dict_set (k : string) (v : V) (d : row V) : row V :=
  match d with [] => [(k, v)] | (k', v') :: r => if String.eqb k k' then (k', v) :: r else (k', v') :: dict_set k v r end.
Definition renamed (kvs : row V) : row V := fold_left (fun d p => dict_set (slashes (fst p)) (snd p) d) kvs [].
Record writer := mkW { run : option (list (row V)); finished : list (list (row V)) }.
Inductive call := WriteKvs (kvs : row V) | Close.
(** L82-93, L95-101 *)
Definition call_writer (c : call) (w : writer) : writer * res unit :=
  match c with
  | WriteKvs kvs => match run w with Some rows => (mkW (Some (rows ++ [renamed kvs])) (finished w), Ok tt) | None => (w, Raise RuntimeError) end
  | Close => match run w with Some rows => (mkW None (finished w ++ [rows]), Ok tt) | None => (w, Ok tt) end
  end.
Definition new_writer : writer := mkW (Some []) [].
Definition call_writers (cs : list call) : writer := fold_left (fun w c => fst (call_writer c w)) cs new_writer.
End Writer.

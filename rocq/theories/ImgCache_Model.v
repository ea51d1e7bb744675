(** Model of build_wandb_image_logger in projects/illm/train.py L219-253: the cache of logged images.

    Simplifications: the pickled file is complete, or cut off (then pickle.load raises EOFError;
    a file cut off elsewhere raises UnpicklingError instead); the directory of the cache is
    made without error. *)
From Coq Require Import Ascii String ZArith List Bool Arith Lia DecimalString.
From Verif Require Import Base.
Import ListNotations.
Open Scope string_scope.

Section Cache.
Variable Img : Type.
Variable sha256 : string -> string.  (* hexdigest *)

Definition images := (list Img * list Img)%type.
Inductive pkl := Complete (im : images) | Cut.
Definition cache := string -> option pkl.

(** What build_wandb_image_logger reads from cfg, and the data sets of this launch (an index out of
    range raises). *)
Record conf := mkConf {
  target : string;                 (* cfg.data._target_ *)
  train_idx : list Z;              (* cfg.image_logs.train_log_indices *)
  val_idx : list Z;                (* cfg.image_logs.val_log_indices *)
  train_data : Z -> res Img;       (* data_module.train_dataset[i] *)
  val_data : Z -> res Img
}.
(** str of an int and of a list of ints: "[1, 2]" *)
Definition str_int (z : Z) : string := NilEmpty.string_of_int (Z.to_int z).
Fixpoint join (sep : string) (l : list string) : string :=
  match l with
  | [] => ""
  | [x] => x
  | x :: r => x ++ sep ++ join sep r
  end.
Definition str_list (l : list Z) : string := "[" ++ join ", " (map str_int l) ++ "]".
(** L225-229: the digest of the three strings one after the other *)
Definition key (c : conf) : string :=
  sha256 (target c ++ str_list (train_idx c) ++ str_list (val_idx c)) ++ ".pkl".

(** torch.stack raises for no images *)
Definition stack (l : list Img) : res (list Img) := match l with [] => Raise RuntimeError | _ => Ok l end.
(** L236-243 *)
Definition compute (c : conf) : res images :=
  do t <- mapM (train_data c) (train_idx c);
  do ts <- stack t;
  do v <- mapM (val_data c) (val_idx c);
  do vs <- stack v;
  Ok (ts, vs).

(** The process can be killed before opening the file for writing (0), while it is written (1), or not
    (2 and more). *)
Inductive outcome := Returned (im : images) | Failed (e : exn) | Killed.
(** L230-253 *)
Definition build (c : conf) (budget : nat) (s : cache) : outcome * cache :=
  let k := key c in
  match s k with
  | Some (Complete im) => (Returned im, s)
  | Some Cut => (Failed EOFError, s)
  | None =>
      match compute c with
      | Raise e => (Failed e, s)
      | Ok im =>
          match budget with
          | O => (Killed, s)
          | S O => (Killed, fun k' => if String.eqb k' k then Some Cut else s k')
          | _ => (Returned im, fun k' => if String.eqb k' k then Some (Complete im) else s k')
          end
      end
  end.
Definition run (s : cache) (h : list (conf * nat)) : cache := fold_left (fun s x => snd (build (fst x) (snd x) s)) h s.
Definition empty : cache := fun _ => None.
End Cache.
Arguments mkConf {Img}. Arguments target {Img}. Arguments train_idx {Img}. Arguments val_idx {Img}.
Arguments train_data {Img}. Arguments val_data {Img}. Arguments key {Img}. Arguments compute {Img}. Arguments build {Img}.
Arguments run {Img}. Arguments empty {Img}. Arguments Returned {Img}. Arguments Failed {Img}. Arguments Killed {Img}.
Arguments Complete {Img}. Arguments Cut {Img}.

(** Model of what surrounds training and evaluation of VCT: the UVG test data
    (projects/torch_vct/datamodules/uvg.py), loading of checkpoints
    (projects/torch_vct/utils/checkpoint_loaders.py) and the guard of checkpoints at launch
    (projects/torch_vct/model_train.py).

    Simplifications: a folder's images are directly in it (ImageFolder would walk subfolders); frames
    are their paths; a configuration file is readable or not; the Trainer is any list of writes and
    removals in the directory of checkpoints. *)
From Coq Require Import String Ascii List Bool ZArith Lia.
From Verif Require Import Base ClicImg_Model OpenImg_Model.
Import ListNotations.
Open Scope string_scope.
Open Scope list_scope.
Open Scope nat_scope.

(** * UVG *)
Record uvg := mkU { u_batch : Z; u_total : Z }.
(** uvg.py L52-66 (UVGDataModule.__init__) *)
Definition uvg_init (num_frames : option Z) : res uvg :=
  let b := match num_frames with Some n => n | None => 300%Z end in
  if Z.eqb b 0 then Raise ZeroDivisionError
  else if negb (Z.eqb (300 mod b) 0) then Raise AssertionError
  else Ok (mkU b (300 * 13 / b)).

(** torchvision's IMG_EXTENSIONS, of the lower-case name *)
Definition lower_char (c : ascii) : ascii :=
  let n := nat_of_ascii c in if (65 <=? n) && (n <=? 90) then ascii_of_nat (n + 32) else c.
Fixpoint lower (s : string) : string := match s with EmptyString => EmptyString | String c r => String (lower_char c) (lower r) end.
Definition is_image (name : string) : bool :=
  existsb (fun e => ends_with e (lower name)) [".jpg"; ".jpeg"; ".png"; ".ppm"; ".bmp"; ".pgm"; ".tif"; ".tiff"; ".webp"].
(** The directory: folders with their files, in any order. *)
Definition tree := list (string * list string).
Fixpoint assoc {A} (k : string) (l : list (string * A)) : option A :=
  match l with [] => None | (k', v) :: r => if String.eqb k k' then Some v else assoc k r end.
(** ImageFolder (uvg.py L98-100): classes sorted, images of each sorted; a class without images is an error *)
Definition class_images (t : tree) (c : string) : list string :=
  match assoc c t with Some fs => sort (filter is_image fs) | None => [] end.
Fixpoint samples_from (i : nat) (t : tree) (cs : list string) : list ((string * string) * nat) :=
  match cs with [] => [] | c :: r => map (fun f => ((c, f), i)) (class_images t c) ++ samples_from (S i) t r end.
Definition image_folder (t : tree) : res (list ((string * string) * nat)) :=
  let cs := sort (map fst t) in
  match cs with
  | [] => Raise FileNotFoundError
  | _ => if existsb (fun c => match class_images t c with [] => true | _ => false end) cs then Raise FileNotFoundError
         else Ok (samples_from 0 t cs)
  end.
(** uvg.py L76-82 (_custom_collate): all labels are the first *)
Definition collate (b : list ((string * string) * nat)) : res (list (string * string)) :=
  match b with
  | [] => Raise IndexError
  | (_, l) :: _ => if forallb (fun s => Nat.eqb (snd s) l) b then Ok (map fst b) else Raise AssertionError
  end.
(** uvg.py L94-107 (test_dataloader), and going through it *)
Definition test_videos (u : uvg) (t : tree) : res (list (list (string * string))) :=
  do ss <- image_folder t;
  if Z.leb (u_batch u) 0 then Raise ValueError
  else mapM collate (batches (length ss) (Z.to_nat (u_batch u)) ss).

(** * Checkpoints *)
(** Values in a file of torch.save: a tensor, a dictionary of tensors, or anything else. *)
Inductive pyval (A : Type) := Tensor (a : A) | Dict (d : list (string * A)) | Other.
Arguments Tensor {A}. Arguments Dict {A}. Arguments Other {A}.
Definition file (A : Type) := list (string * pyval A).
Record pipeline (A : Type) := mkP { p_params : list (string * A); p_training : bool; p_tables : option (list (string * A)) }.
Arguments mkP {A}. Arguments p_params {A}. Arguments p_training {A}. Arguments p_tables {A}.

Section Load.
Context {A : Type} (shape : A -> list nat).
(** checkpoint_loaders.py L32-40: the state_dict, or the file itself if it has none *)
Definition state_dict (f : file A) : res (file A) :=
  match assoc "state_dict" f with
  | Some (Dict d) => Ok (map (fun kv => (fst kv, Tensor (snd kv))) d)
  | Some _ => Raise AttributeError        (* .items() *)
  | None => Ok f
  end.
(** L45-50 *)
Definition strip (f : file A) : file A :=
  map (fun kv => (substring 6 (String.length (fst kv) - 6) (fst kv), snd kv))
      (filter (fun kv => String.eqb (substring 0 6 (fst kv)) "model.") f).
(** L51: load_state_dict(strict=True) *)
Definition fits (f : file A) (kv : string * A) : bool :=
  match assoc (fst kv) f with
  | Some (Tensor a) => if list_eq_dec Nat.eq_dec (shape a) (shape (snd kv)) then true else false
  | _ => false
  end.
Definition load_state_dict (params : list (string * A)) (f : file A) : res (list (string * A)) :=
  if forallb (fits f) params && forallb (fun kv => match assoc (fst kv) params with Some _ => true | None => false end) f
  then Ok (map (fun kv => (fst kv, match assoc (fst kv) f with Some (Tensor a) => a | _ => snd kv end)) params)
  else Raise RuntimeError.
(** A directory of checkpoints *)
Definition disk := string -> option (file A).
Definition write_file (n : string) (f : file A) (d : disk) : disk := fun m => if String.eqb m n then Some f else d m.
Definition copy_name (stamp : string) : string := ("eval_last_" ++ stamp ++ "h.pt")%string.
(** L16-61 (load_model_checkpoint_from_config). [readable]: the configuration; [fresh]: the parameters of
    the model it gives; [stamp]: date and hour. *)
Definition load (readable : bool) (fresh : list (string * A)) (name : string) (save_copy : bool) (stamp : string) (d : disk)
  : res (pipeline A) * disk :=
  if negb readable then (Raise FileNotFoundError, d)
  else match d name with
  | None => (Raise FileNotFoundError, d)
  | Some f =>
      match state_dict f with
      | Raise e => (Raise e, d)
      | Ok sd =>
          let d := if save_copy then write_file (copy_name stamp) sd d else d in
          (do ps <- load_state_dict fresh (strip sd); Ok (mkP ps false (Some ps)), d)
      end
  end.
End Load.

(** * Launching *)
(** The directory of checkpoints, each with what is in it (an identifier). *)
Definition ckpts := list (string * nat).
Inductive save := Save (name : string) (c : nat) | Remove (name : string).
Fixpoint remove_file (n : string) (d : ckpts) : ckpts :=
  match d with [] => [] | (k, v) :: r => if String.eqb k n then remove_file n r else (k, v) :: remove_file n r end.
Definition do_save (d : ckpts) (s : save) : ckpts :=
  match s with Save n c => (n, c) :: remove_file n d | Remove n => remove_file n d end.
Inductive start := Refused | Fresh | From (c : nat).
(** model_train.py L88-109: from what training starts *)
Definition launch (overwrite resume : bool) (d : ckpts) : start :=
  if negb overwrite && negb resume && existsb (fun kv => ends_with ".ckpt" (fst kv)) d then Refused
  else match assoc "last.ckpt" d with
       | Some c => if resume then From c else Fresh
       | None => Fresh
       end.
Record run_ := mkRun { r_overwrite : bool; r_resume : bool; r_saves : list save }.
(** one launch: its start, and the directory after the Trainer's writes (L140-159) *)
Definition run_launch (d : ckpts) (r : run_) : start * ckpts :=
  match launch (r_overwrite r) (r_resume r) d with
  | Refused => (Refused, d)
  | s => (s, fold_left do_save (r_saves r) d)
  end.
Definition run_launches (d : ckpts) (rs : list run_) : ckpts := fold_left (fun d r => snd (run_launch d r)) rs d.

(** Model of Vimeo90kSeptuplet (neuralcompression/data/_vimeo_90k_septuplet.py).

    Outside the model, as parameters: reading a frame file ([load folder n] stands for
    default_loader(root / folder / "im<n>.png"), L112, with the path join), the transforms, and
    torch.stack.  A transform returns a tensor or something else. *)
From Coq Require Import ZArith String Ascii List Bool Lia.
From Verif Require Import Base.
Import ListNotations.
Open Scope Z_scope.

(** str.strip() (ASCII white space). *)
Definition is_space (c : ascii) : bool :=
  let n := nat_of_ascii c in ((n =? 32) || ((9 <=? n) && (n <=? 13)) || ((28 <=? n) && (n <=? 31)))%nat.
Fixpoint drop_space (l : list ascii) : list ascii :=
  match l with
  | c :: r => if is_space c then drop_space r else l
  | [] => []
  end.
Definition strip (s : string) : string :=
  string_of_list_ascii (rev (drop_space (rev (drop_space (list_ascii_of_string s))))).

(** list indexing in Python: negative indices count from the end. *)
Definition pyget {A} (l : list A) (i : Z) : res A :=
  let n := Z.of_nat (length l) in
  let j := if i <? 0 then i + n else i in
  if (0 <=? j) && (j <? n)
  then match nth_error l (Z.to_nat j) with Some a => Ok a | None => Raise IndexError end
  else Raise IndexError.

Section Vimeo.
Context {Img T : Type}.
Variable load : string -> Z -> res Img.
Variable to_tensor : Img -> res (option T).   (* torchvision ToTensor *)
Variable stack : list T -> res T.              (* torch.stack *)
Variable read_list : string -> res (list string).  (* the lines of root/sep_<split>list.txt *)

Record vimeo := mkV {
  v_video : bool; v_frames : Z; v_folders : list string;
  v_pil : option (Img -> res (option T)); v_tensor : option (T -> res T) }.

(** L63-103 (__init__).  The integer check of L76 on an int. *)
Definition vimeo_init (as_video : bool) (frames_per_group : Z) (split : option string)
  (folder_list : option (list string)) (pil : option (Img -> res (option T))) (tt : option (T -> res T)) : res vimeo :=
  if negb ((1 <=? frames_per_group) && (frames_per_group <=? 7)) then Raise ValueError else
  let pil' := match pil with None => if as_video then Some to_tensor else None | Some f => Some f end in
  match split, folder_list with
  | None, None => Raise ValueError
  | Some _, Some _ => Raise ValueError
  | None, Some l => Ok (mkV as_video frames_per_group l pil' tt)
  | Some s, None =>
      if (String.eqb s "train" || String.eqb s "test")%bool
      then do lines <- read_list s;
           Ok (mkV as_video frames_per_group (map (fun f => append "sequences/" (strip f)) lines) pil' tt)
      else Raise ValueError
  end.

(** L105-109 (__len__). *)
Definition vimeo_len (d : vimeo) : Z :=
  if v_video d then Z.of_nat (length (v_folders d)) else Z.of_nat (length (v_folders d)) * v_frames d.

(** L111-119 (load_image): calling None raises TypeError; RuntimeError if the transform did not
    return a tensor. *)
Definition load_image (d : vimeo) (folder : string) (frame : Z) : res T :=
  do img <- load folder frame;
  match v_pil d with
  | None => Raise TypeError
  | Some f => do o <- f img; match o with Some t => Ok t | None => Raise RuntimeError end
  end.

(** range(1, n+1). *)
Definition frame_range (n : Z) : list Z := map (fun k => Z.of_nat k + 1) (seq 0 (Z.to_nat n)).

(** L121-140 (__getitem__). *)
Definition vimeo_get (d : vimeo) (idx : Z) : res T :=
  do item <-
    (if v_video d then
       do folder <- pyget (v_folders d) idx;
       do images <- mapM (load_image d folder) (frame_range (v_frames d));
       stack images
     else
       let folder_idx := idx / v_frames d in
       let frame_idx := idx mod v_frames d + 1 in
       do folder <- pyget (v_folders d) folder_idx;
       load_image d folder frame_idx);
  match v_tensor d with Some f => f item | None => Ok item end.
End Vimeo.

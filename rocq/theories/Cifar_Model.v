(** Model of projects/bits_back_diffusion/datasets/cifar10.py (main) with the output directory, under
    kills and failing downloads, and of the class labels that improved_diffusion's load_data takes
    from the names of the files.

    Simplifications: torchvision's CIFAR10 is the same list of images with labels at every download,
    or the download raises; a killed process leaves at most one cut-off file; nothing else writes
    into the output directory; directories are finite maps, given as functions. *)
From Coq Require Import String Ascii ZArith List Bool Arith Lia.
From Verif Require Import Base Job_Model ClicImg_Model.
Import ListNotations.
Open Scope string_scope.
Open Scope list_scope.
Open Scope nat_scope.

(** L20-31 *)
Definition classes : list string := ["plane"; "car"; "bird"; "cat"; "deer"; "dog"; "frog"; "horse"; "ship"; "truck"].
Inductive part := PTrain | PValid.
(** L33-36 *)
Definition size (s : part) : Z := match s with PTrain => 50000%Z | PValid => 10000%Z end.

Definition digit_char (d : Z) : ascii := ascii_of_nat (48 + Z.to_nat d).
Fixpoint of_digits (l : list Z) : string := match l with [] => EmptyString | d :: r => String (digit_char d) (of_digits r) end.
(** L72: f"{CLASSES[label]}_{i:05d}.png" *)
Definition filename (label i : nat) : string :=
  (nth label classes "" ++ "_" ++ of_digits (pad 5 (digits (Z.of_nat i))) ++ ".png")%string.

Section Dump.
Context {Img : Type}.
Inductive content := Whole (x : Img) | CutOff.
Definition directory := string -> option content.
Definition fs := part -> option directory.
Definition part_eqb (a b : part) : bool := match a, b with PTrain, PTrain | PValid, PValid => true | _, _ => false end.
Definition set_dir (f : fs) (s : part) (d : directory) : fs := fun s' => if part_eqb s' s then Some d else f s'.
Definition put (d : directory) (n : string) (c : content) : directory := fun n' => if String.eqb n' n then Some c else d n'.
Definition empty : directory := fun _ => None.

(** torchvision's data set of a split: images with their labels *)
Variable dataset : part -> list (Img * nat).

(** What a launch does to the file system, in order. *)
Inductive op := Mkdir (s : part) | Save (s : part) (n : string) (x : Img).
(** image.save opens the file, then writes it: killed in between, it is cut off. *)
Definition perform (cut : bool) (o : op) (f : fs) : fs :=
  match o with
  | Mkdir s => match f s with Some _ => f | None => set_dir f s empty end   (* exist_ok=True *)
  | Save s n x => match f s with Some d => set_dir f s (put d n (if cut then CutOff else Whole x)) | None => f end
  end.

(** L70-73: range(len(dataset)); CLASSES[label] raises for a label above 9 *)
Fixpoint dump (s : part) (i : nat) (l : list (Img * nat)) : list op * res unit :=
  match l with
  | [] => ([], Ok tt)
  | (x, label) :: q =>
      if label <? length classes then
        let r := dump s (S i) q in (Save s (filename label i) x :: fst r, snd r)
      else ([], Raise IndexError)
  end.

(** L55-73: the operations of a launch, and its outcome if it is not killed.  [net s]: the download
    succeeds. *)
Fixpoint launch (overwrite : bool) (net : part -> bool) (f : fs) (splits : list part) : list op * res unit :=
  match splits with
  | [] => ([], Ok tt)
  | s :: q =>
      if (match f s with Some _ => true | None => false end) && negb overwrite then launch overwrite net f q
      else if negb (net s) then ([], Raise OSError)
      else if negb (Z.of_nat (length (dataset s)) =? size s)%Z then ([], Raise AssertionError)
      else
        let d := dump s 0 (dataset s) in
        match snd d with
        | Ok _ => let r := launch overwrite net f q in (Mkdir s :: fst d ++ fst r, snd r)
        | Raise e => (Mkdir s :: fst d, Raise e)
        end
  end.
Definition splits : list part := [PTrain; PValid].

(** A launch, possibly killed after some operations, perhaps in the middle of the next one. *)
Record job := mkJ { j_over : bool; j_net : part -> bool; j_kill : option (nat * bool) }.
Definition performs (ops : list op) (f : fs) : fs := fold_left (fun f o => perform false o f) ops f.
Definition run (j : job) (f : fs) : fs * option (res unit) :=
  let a := launch (j_over j) (j_net j) f splits in
  match j_kill j with
  | None => (performs (fst a) f, Some (snd a))
  | Some (n, cut) =>
      let g := performs (firstn n (fst a)) f in
      (if cut then match nth_error (fst a) n with Some o => perform true o g | None => g end else g, None)
  end.
Definition history (js : list job) (f : fs) : fs := fold_left (fun f j => fst (run j f)) js f.
Definition nothing : fs := fun _ => None.
End Dump.

(** improved_diffusion load_data: [bf.basename(path).split("_")[0]] *)
Fixpoint before_underscore (s : string) : string :=
  match s with
  | EmptyString => EmptyString
  | String c r => if Ascii.eqb c "_"%char then EmptyString else String c (before_underscore r)
  end.
Fixpoint index_of (x : string) (l : list string) : nat :=
  match l with [] => 0 | y :: r => if String.eqb x y then 0 else S (index_of x r) end.
(** [{x: i for i, x in enumerate(sorted(set(class_names)))}], looked up for every file *)
Definition class_labels (files : list string) : list nat :=
  let names := map before_underscore files in
  let sorted_classes := ClicImg_Model.sort (nodup string_dec names) in
  map (fun n => index_of n sorted_classes) names.

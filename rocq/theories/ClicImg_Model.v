(** Model of neuralcompression/data/_clic_2020_image.py (CLIC2020Image) with the file system below
    <root>/clic2020, and of torchvision's download_and_extract_archive.

    The process may be killed before any operation on the file system (see [op]).

    Simplifications: the archives are lists of members, each in a directory, with distinct names; a
    file is first created empty and then written at once; an archive file is cut off, wrong or
    right (its md5 sum matches); no other process touches the directory. *)
From Coq Require Import String ZArith List Bool Arith Lia.
From Verif Require Import Base.
Import ListNotations.
Open Scope string_scope.
Open Scope nat_scope.

Definition bytes := list Z.
Inductive split := Train | Val | Test.
(** <root>/clic2020/train, val, valid, test, __MACOSX, test/__MACOSX *)
Inductive dir := DTrain | DVal | DValid | DTest | DMac | DTestMac.
Definition dir_eqb (a b : dir) : bool :=
  match a, b with
  | DTrain, DTrain | DVal, DVal | DValid, DValid | DTest, DTest | DMac, DMac | DTestMac, DTestMac => true
  | _, _ => false
  end.
Definition split_eqb (a b : split) : bool :=
  match a, b with Train, Train | Val, Val | Test, Test => true | _, _ => false end.
Inductive zip := Missing | CutOff | Wrong | Right.
Definition files := list (string * bytes).
Record fs := mkF { zips : split -> zip; dirs : dir -> option files }.

Inductive outcome (A : Type) :=
| Done (a : A) (f : fs) (left : nat)
| Failed (e : exn) (f : fs) (left : nat)
| Killed (f : fs).
Arguments Done {A}. Arguments Failed {A}. Arguments Killed {A}.
Definition act (A : Type) := fs -> nat -> outcome A.
Definition ret {A} (a : A) : act A := fun f n => Done a f n.
Definition raise {A} (e : exn) : act A := fun f n => Failed e f n.
Definition andthen {A B} (m : act A) (k : A -> act B) : act B :=
  fun f n => match m f n with
             | Done a f' n' => k a f' n'
             | Failed e f' n' => Failed e f' n'
             | Killed f' => Killed f'
             end.
Notation "m ;; k" := (andthen m (fun _ => k)) (at level 100, right associativity).
Definition op (g : fs -> res fs) : act unit :=
  fun f n => match n with
             | 0 => Killed f
             | S n' => match g f with Ok f' => Done tt f' n' | Raise e => Failed e f n' end
             end.

Definition set_zip (s : split) (z : zip) (f : fs) : fs :=
  mkF (fun x => if split_eqb x s then z else zips f x) (dirs f).
Definition set_dir (d : dir) (v : option files) (f : fs) : fs :=
  mkF (zips f) (fun x => if dir_eqb x d then v else dirs f x).
Fixpoint put_file (n : string) (b : bytes) (l : files) : files :=
  match l with
  | [] => [(n, b)]
  | (m, c) :: r => if String.eqb m n then (n, b) :: r else (m, c) :: put_file n b r
  end.
(** Writes a file, making its directory if needed. *)
Definition write (d : dir) (n : string) (b : bytes) (f : fs) : res fs :=
  Ok (set_dir d (Some (put_file n b (match dirs f d with Some l => l | None => [] end))) f).

(** What the server does for a URL. *)
Inductive server := NoAnswer | SendsRight | SendsWrong | BreaksOff.

Section Archive.
(** The members of the archive of each split. *)
Variable members : split -> list (dir * string * bytes).

(** torchvision.datasets.utils.download_url: nothing if the md5 sum of the file already matches *)
Definition download_url (srv : server) (s : split) : act unit :=
  fun f n => match zips f s with
  | Right => Done tt f n
  | _ =>
    match srv with
    | NoAnswer => Failed OSError f n
    | SendsRight => (op (fun f => Ok (set_zip s CutOff f)) ;; op (fun f => Ok (set_zip s Right f))) f n
    | SendsWrong => (op (fun f => Ok (set_zip s CutOff f)) ;; op (fun f => Ok (set_zip s Wrong f)) ;; raise RuntimeError) f n
    | BreaksOff => (op (fun f => Ok (set_zip s CutOff f)) ;; raise OSError) f n
    end
  end.
(** torchvision.datasets.utils.extract_archive: ZipFile.extractall *)
Fixpoint extract (ms : list (dir * string * bytes)) : act unit :=
  match ms with
  | [] => ret tt
  | (d, n, b) :: r => op (write d n []) ;; op (write d n b) ;; extract r
  end.
(** os.rename of a directory: an empty target is replaced, another one is an error *)
Definition rename (a b : dir) (f : fs) : res fs :=
  match dirs f a with
  | None => Raise FileNotFoundError
  | Some l => match dirs f b with
              | Some (_ :: _) => Raise OSError
              | _ => Ok (set_dir b (Some l) (set_dir a None f))
              end
  end.
(** shutil.rmtree: the files one by one, then the directory *)
Fixpoint unlink_all (d : dir) (l : files) : act unit :=
  match l with
  | [] => op (fun f => Ok (set_dir d None f))
  | _ :: r => op (fun f => Ok (set_dir d (Some r) f)) ;; unlink_all d r
  end.
Definition rmtree (d : dir) : act unit :=
  fun f n => match dirs f d with
             | None => Failed FileNotFoundError f n
             | Some l => unlink_all d l f n
             end.
(** L108-126 (download) *)
Definition download (srv : server) (s : split) : act unit :=
  download_url srv s ;;
  extract (members s) ;;
  (if split_eqb s Val then op (rename DValid DVal) else ret tt) ;;
  (match s with Train | Val => rmtree DMac | Test => rmtree DTestMac end).

(** sorted([*path.glob("*.png")]) *)
Definition ends_with (suffix s : string) : bool :=
  Nat.leb (String.length suffix) (String.length s) &&
  String.eqb (substring (String.length s - String.length suffix) (String.length suffix) s) suffix.
Fixpoint insert (x : string) (l : list string) : list string :=
  match l with
  | [] => [x]
  | y :: r => if String.leb x y then x :: l else y :: insert x r
  end.
Definition sort (l : list string) : list string := fold_right insert [] l.
Definition dir_of (s : split) : dir := match s with Train => DTrain | Val => DVal | Test => DTest end.
Definition png_paths (s : split) (f : fs) : list string :=
  match dirs f (dir_of s) with
  | None => []
  | Some l => sort (filter (ends_with ".png") (map fst l))
  end.
(** L84-86: verify_str_arg *)
Definition verify_split (s : string) : res split :=
  if String.eqb s "train" then Ok Train else
  if String.eqb s "val" then Ok Val else
  if String.eqb s "test" then Ok Test else Raise ValueError.
(** L75-93 (__init__): the data set is its list of paths *)
Definition construct (srv : server) (s : string) (dl : bool) : act (list string) :=
  fun f n => match verify_split s with
  | Raise e => Failed e f n
  | Ok sp => (andthen (if dl then download srv sp else ret tt) (fun _ f n => Done (png_paths sp f) f n)) f n
  end.

Record call := mkC { c_server : server; c_split : string; c_download : bool; c_budget : nat }.
Definition fs_after {A} (o : outcome A) : fs :=
  match o with Done _ f _ => f | Failed _ f _ => f | Killed f => f end.
Definition run_call (f : fs) (c : call) : fs := fs_after (construct (c_server c) (c_split c) (c_download c) f (c_budget c)).
Definition run_calls (f : fs) (cs : list call) : fs := fold_left run_call cs f.
Definition fresh : fs := mkF (fun _ => Missing) (fun _ => None).
End Archive.

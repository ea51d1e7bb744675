(** Model of neuralcompression/data/_kodak.py (class Kodak) with the file system it works on.

    The process may be killed before any file system operation: an operation takes one unit of
    a budget, and when the budget is used up the run ends in [Killed].  Bytes are written one by
    one.  The server answers each URL with bytes, after which the connection may fail, or not at
    all (both are OSError).

    Simplifications: the root directory is the only directory that changes and its parent exists
    or not; no other process touches it during a call; the sha1 digest is a parameter; decoding
    of images and the transform are left out. *)
From Coq Require Import String ZArith List Bool Arith Lia.
From Verif Require Import Base.
Import ListNotations.
Open Scope nat_scope.
Open Scope string_scope.

Definition bytes := list Z.
Definition dir := string -> option bytes.
(** The parent directory exists or not; the root directory with its files, if there. *)
Record fs := mkFS { parent : bool; root : option dir }.

Inductive outcome (A : Type) :=
| Done (a : A) (f : fs) (left : nat)
| Failed (e : exn) (f : fs) (left : nat)
| Killed (f : fs).
Arguments Done {A}. Arguments Failed {A}. Arguments Killed {A}.
Definition act (A : Type) := fs -> nat -> outcome A.
Definition ret {A} (a : A) : act A := fun f n => Done a f n.
Definition raise {A} (e : exn) : act A := fun f n => Failed e f n.
Definition andthen {A B} (m : act A) (k : A -> act B) : act B :=
  fun f n => match m f n with
             | Done a f' n' => k a f' n'
             | Failed e f' n' => Failed e f' n'
             | Killed f' => Killed f'
             end.
Notation "'let*' x := m 'in' k" := (andthen m (fun x => k)) (at level 200, x name, m at level 100, k at level 200).
(** One operation on the file system. *)
Definition op (g : fs -> res fs) : act unit :=
  fun f n => match n with
             | 0 => Killed f
             | S n' => match g f with Ok f' => Done tt f' n' | Raise e => Failed e f n' end
             end.
Definition get : act fs := fun f n => Done f f n.

(** Path.mkdir() *)
Definition mkdir (f : fs) : res fs :=
  match root f with
  | Some _ => Raise FileExistsError
  | None => if parent f then Ok (mkFS true (Some (fun _ => None))) else Raise FileNotFoundError
  end.
(** Writing [b] as the whole contents of a file. *)
Definition put (name : string) (b : bytes) (f : fs) : res fs :=
  match root f with
  | None => Raise FileNotFoundError
  | Some d => Ok (mkFS (parent f) (Some (fun m => if String.eqb m name then Some b else d m)))
  end.
Definition read (name : string) (f : fs) : res bytes :=
  match root f with
  | None => Raise FileNotFoundError
  | Some d => match d name with Some b => Ok b | None => Raise FileNotFoundError end
  end.

(** "kodim{:02}.png".format(im_num), L57 and L89 *)
Definition digit (n : nat) : string := String (Ascii.ascii_of_nat (48 + n)) "".
Definition img_name (n : nat) : string := "kodim" ++ digit (n / 10) ++ digit (n mod 10) ++ ".png".
(** L18: NUM_IMAGES = 24; L58, L88: range(1, NUM_IMAGES + 1) *)
Definition im_list : list string := map img_name (seq 1 24).

(** What the server sends for a URL, and whether the connection fails afterwards. *)
Definition server := string -> option (bytes * bool).

(** L92-95, shutil.copyfileobj: open for writing (which empties the file), then byte by byte. *)
Fixpoint copy (name : string) (done todo : bytes) : act unit :=
  match todo with
  | [] => ret tt
  | c :: r => let* u := op (put name (done ++ [c])%list) in copy name (done ++ [c])%list r
  end.
Definition fetch (srv : server) (url : string) (name : string) : act unit :=
  match srv (url ++ name) with
  | None => raise OSError
  | Some (b, fails) =>
      let* u := op (put name []) in
      let* u := copy name [] b in
      if fails then raise OSError else ret tt
  end.
Fixpoint fetch_all (srv : server) (url : string) (names : list string) : act unit :=
  match names with
  | [] => ret tt
  | n :: r => let* u := fetch srv url n in fetch_all srv url r
  end.
(** L79-95 (_download) *)
Definition download (srv : server) (url : string) (force : bool) : act unit :=
  let* f := get in
  if (match root f with Some _ => true | None => false end) && negb force then raise RuntimeError else
  let* u := op mkdir in
  fetch_all srv url im_list.

Section Hash.
Variable sha1 : bytes -> string.
(** L69-77 (_check_integrity) with L19: SHA_HASH *)
Definition SHA_HASH : string := "076e2a5fd4515b5fda677f15fe63dd112d266bc5".
Fixpoint read_all (names : list string) (f : fs) : res bytes :=
  match names with
  | [] => Ok []
  | n :: r => do b <- read n f; do bs <- read_all r f; Ok (b ++ bs)%list
  end.
Definition check_integrity : act unit :=
  let* f := get in
  match read_all im_list f with
  | Raise e => raise e
  | Ok b => if String.eqb (sha1 b) SHA_HASH then ret tt else raise RuntimeError
  end.
(** L43-67 (__init__) *)
Record args := mkA { a_check : bool; a_download : bool; a_force : bool; a_url : string }.
Definition construct (srv : server) (a : args) : act unit :=
  let* u := (if a_download a then download srv (a_url a) (a_force a)
             else let* f := get in
                  match root f with Some _ => ret tt | None => raise FileNotFoundError end) in
  if a_check a then check_integrity else ret tt.
(** L97-98 (__len__) and L100-102 (__getitem__): the file that is read; negative indices count
    from the end. *)
Definition len : nat := List.length im_list.
Definition getitem (i : Z) (f : fs) : res bytes :=
  let n := Z.of_nat len in
  let j := if (i <? 0)%Z then (i + n)%Z else i in
  if ((0 <=? j) && (j <? n))%Z then
    match nth_error im_list (Z.to_nat j) with Some name => read name f | None => Raise IndexError end
  else Raise IndexError.

(** A history of calls: each with its own server and the point at which it is killed. *)
Record call := mkC { c_server : server; c_args : args; c_budget : nat }.
Definition fs_after {A} (o : outcome A) : fs :=
  match o with Done _ f _ => f | Failed _ f _ => f | Killed f => f end.
Definition run_call (f : fs) (c : call) : fs := fs_after (construct (c_server c) (c_args c) f (c_budget c)).
Definition run_calls (f : fs) (cs : list call) : fs := fold_left run_call cs f.
End Hash.

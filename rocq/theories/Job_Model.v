(** Model of the encode job and its checkpoints,
    projects/bits_back_diffusion/encode.py and
    projects/bits_back_diffusion/bits_back_diffusion/script_util.py (update_checkpoint,
    parse_resume_step_from_filename).

    One process per rank, each with its own directory (script_util.py L180-182).
    The codec is abstract: [enc], [dec], [count] (data_count), [save] (state_dict
    written by np.savez), [load] (load_state_dict of np.load).  The data loader
    yields the same (already quantised) batches in every process; it is infinite.
    A process may be killed at any point: between two operations, or while a file
    is being written, which leaves a torn file under its final name. *)
From Coq Require Import ZArith List Bool.
From Verif Require Import Base.
Import ListNotations.
Open Scope Z_scope.

(** ** File names *)

(** The characters of the number in a file name; the prefix and the extension are
    the same for all files of a kind and are left out. *)
Inductive ch := Dg (d : Z) | Minus.

(** Decimal digits of n >= 0, most significant first; [fuel] exceeds the number of
    binary digits. *)
Fixpoint digits_fuel (fuel : nat) (n : Z) : list Z :=
  match fuel with
  | O => []
  | S fuel' => if n <? 10 then [n] else digits_fuel fuel' (n / 10) ++ [n mod 10]
  end.
Definition digits (n : Z) : list Z := digits_fuel (S (Z.to_nat (Z.log2 n))) n.

Definition pad (w : nat) (l : list Z) : list Z := repeat 0 (w - length l) ++ l.

(** f"{n:06d}": at least six characters, the sign included and in front. *)
Definition fmt06 (n : Z) : list ch :=
  if n <? 0 then Minus :: map Dg (pad 5 (digits (- n))) else map Dg (pad 6 (digits n)).

(** int() of a string of digits with an optional sign. *)
Fixpoint read_digits (acc : Z) (s : list ch) : res Z :=
  match s with
  | [] => Ok acc
  | Dg d :: s' => read_digits (10 * acc + d) s'
  | Minus :: _ => Raise ValueError
  end.
Definition read_int (s : list ch) : res Z :=
  match s with
  | [] => Raise ValueError
  | Minus :: [] => Raise ValueError
  | Minus :: s' => do n <- read_digits 0 s'; Ok (- n)
  | s' => read_digits 0 s'
  end.

(** script_util.py L107-126: int(path.stem[-6:]).  The stem is a prefix without
    digits at its end and a number of at least six characters. *)
Definition parse6 (s : list ch) : res Z := read_int (skipn (length s - 6) s).

Definition ch_eq_dec : forall a b : ch, {a = b} + {a <> b}.
Proof. decide equality. apply Z.eq_dec. Defined.
Definition name_eqb (a b : list ch) : bool := if list_eq_dec ch_eq_dec a b then true else false.

Section Job.
Variables (St F B : Type).
Variable enc : St -> B -> res St.
Variable dec : St -> res (St * B).
Variable count : St -> Z.
Variable save : St -> F.
Variable load : St -> F -> St.
Variable batches : nat -> B.
Variable eqB : B -> B -> bool.
(** codec.data_shape[0], dist.get_world_size(), save_interval, cfg.check *)
Variables (bsz world interval : Z).
Variable check : bool.

(** A checkpoint file: complete, or torn by a crash while it was written. *)
Inductive file := Whole (f : F) | Torn.
Record disk := mk_disk {
  enc_files : list (list ch * file);
  dec_files : list (list ch * file);
  batch_files : list (Z * option B)   (* batch{i:05d}.npz; None: torn *)
}.

(** The order in which Path.glob lists a directory. *)
Variable listing : list (list ch * file) -> list (list ch * file).

Definition write (n : list ch) (x : file) (l : list (list ch * file)) : list (list ch * file) :=
  (n, x) :: filter (fun e => negb (name_eqb n (fst e))) l.
Definition write_batch (i : Z) (x : option B) (l : list (Z * option B)) : list (Z * option B) :=
  (i, x) :: filter (fun e => negb (i =? fst e)) l.

(** script_util.py L150-154: max(ckpt_files, key=parse_resume_step_from_filename),
    the first of the maximal ones. *)
Fixpoint max_file (best : Z * file) (l : list (list ch * file)) : res (Z * file) :=
  match l with
  | [] => Ok best
  | (n, x) :: l' => do k <- parse6 n; max_file (if fst best <? k then (k, x) else best) l'
  end.
(** script_util.py L129-157 (update_checkpoint) for a checkpoint left unset in the
    configuration: the chosen file, if there is one. *)
Definition latest (l : list (list ch * file)) : res (option file) :=
  match listing l with
  | [] => Ok None
  | (n, x) :: l' => do k <- parse6 n; do b <- max_file (k, x) l'; Ok (Some (snd b))
  end.

(** encode.py L52-55 and L73-76: load the chosen file into the codec [s]; np.load of
    a torn file raises. *)
Definition resume (s : St) (o : option file) : res St :=
  match o with
  | None => Ok s
  | Some (Whole f) => Ok (load s f)
  | Some Torn => Raise ValueError
  end.

(** The process: the loop of encode at its test, with the number of samples, the
    codec and the position of the data loader; before it writes a checkpoint; the
    search for a decode checkpoint; the loop of decode at its test; before it
    writes a checkpoint; the comparison of the batches; finished; dead by an
    exception. *)
Inductive proc :=
| PEnc (num : Z) (s : St) (pos : nat)
| PSave (num : Z) (s : St) (pos : nat)
| PFind (s : St)
| PDec (s : St)
| PDSave (s : St)
| PCmp (s : St)
| PDone (s : St)
| PFail (e : exn).

(** encode.py L41-68: a new process with a codec with its own random initial
    message.  The guard around encode() (L57-60) is the test of its loop. *)
Definition start (num : Z) (fresh : St) (d : disk) : proc :=
  match (do o <- latest (enc_files d); resume fresh o) with
  | Ok s => PEnc num s (Z.to_nat (count s))
  | Raise e => PFail e
  end.

(** encode.py L81-86: the batches, sorted by number, are compared with the data
    loader from its beginning. *)
Fixpoint insert (e : Z * option B) (l : list (Z * option B)) : list (Z * option B) :=
  match l with
  | [] => [e]
  | e' :: l' => if fst e <=? fst e' then e :: e' :: l' else e' :: insert e l'
  end.
Definition sort (l : list (Z * option B)) : list (Z * option B) := fold_right insert [] l.
Fixpoint compare (i : nat) (l : list (Z * option B)) : res unit :=
  match l with
  | [] => Ok tt
  | (_, x) :: l' =>
      match x with
      | None => Raise ValueError
      | Some b => if eqB b (batches i) then compare (S i) l' else Raise AssertionError
      end
  end.

(** encode.py L109-150, L52-86 and L178-190: one operation. *)
Definition tick (d : disk) (p : proc) : disk * proc :=
  match p with
  | PEnc num s pos =>
      if bsz * count s * world <? num then
        match enc s (batches pos) with
        | Ok s' =>
            if (num <=? bsz * count s' * world) || ((bsz * count s') mod interval <? bsz)
            then (d, PSave num s' (S pos)) else (d, PEnc num s' (S pos))
        | Raise e => (d, PFail e)
        end
      else (d, if check then PFind s else PDone s)
  | PSave num s pos =>
      (mk_disk (write (fmt06 (bsz * count s)) (Whole (save s)) (enc_files d)) (dec_files d) (batch_files d),
       PEnc num s pos)
  | PFind s =>
      match (do o <- latest (dec_files d); resume s o) with
      | Ok s' => (d, PDec s')
      | Raise e => (d, PFail e)
      end
  | PDec s =>
      if 0 <? count s then
        match dec s with
        | Ok (s', b) =>
            (mk_disk (enc_files d) (dec_files d) (write_batch (count s') (Some b) (batch_files d)),
             if (bsz * count s') mod interval <? bsz then PDSave s' else PDec s')
        | Raise e => (d, PFail e)
        end
      else (d, PCmp s)
  | PDSave s =>
      (mk_disk (enc_files d) (write (fmt06 (- (bsz * count s))) (Whole (save s)) (dec_files d)) (batch_files d),
       PDec s)
  | PCmp s =>
      match compare 0 (sort (batch_files d)) with
      | Ok _ => (d, PDone s)
      | Raise e => (d, PFail e)
      end
  | PDone s => (d, PDone s)
  | PFail e => (d, PFail e)
  end.

(** What the world does: start a process if none is running, let it do one
    operation, kill it between two operations, kill it while it writes a batch
    file, kill it while it writes a checkpoint. *)
Inductive event := Start (num : Z) (fresh : St) | Tick | Crash | CrashBatch | CrashCkpt.
Definition config : Type := disk * option proc.

Definition step (c : config) (e : event) : config :=
  let '(d, p) := c in
  match p, e with
  | None, Start num fresh => (d, Some (start num fresh d))
  | None, _ => c
  | Some p, Tick => let '(d', p') := tick d p in (d', Some p')
  | Some _, Start _ _ => c
  | Some _, Crash => (d, None)
  | Some (PDec s), CrashBatch =>
      match dec s with
      | Ok (s', b) =>
          if 0 <? count s
          then (mk_disk (enc_files d) (dec_files d) (write_batch (count s') None (batch_files d)), None)
          else (d, None)
      | Raise _ => (d, None)
      end
  | Some (PSave num s pos), CrashCkpt =>
      (mk_disk (write (fmt06 (bsz * count s)) Torn (enc_files d)) (dec_files d) (batch_files d), None)
  | Some (PDSave s), CrashCkpt =>
      (mk_disk (enc_files d) (write (fmt06 (- (bsz * count s))) Torn (dec_files d)) (batch_files d), None)
  | Some _, _ => (d, None)
  end.
Definition run (c : config) (es : list event) : config := fold_left step es c.
Definition empty_dir : config := (mk_disk [] [] [], None).
End Job.

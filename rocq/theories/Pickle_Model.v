(** The measured size of a compressed image: neuralcompression/metrics/_pickle_size.py
    (pickle_size_of) on the objects that neuralcompression/models/_hific_autoencoder.py
    (compress, L319-324) returns.  Python's pickle module is modelled after its C
    implementation for the default protocol 4 and the types that occur here: integers
    from 0 to 2^31 - 1, bytes, ASCII strings, lists, tuples and named tuples, without
    cycles.  The file is a list of byte values. *)
From Coq Require Import ZArith Arith List Bool.
From Verif Require Import Base.
Import ListNotations.
Open Scope Z_scope.

(** * Objects.  The first number of a constructor is the identity of the object, by which
    the pickler recognises objects it has already written. *)
Inductive val :=
| VInt (n : Z)
| VBytes (id : nat) (b : list Z)
| VStr (id : nat) (s : list Z)
| VList (id : nat) (l : list val)
| VTuple (id : nat) (l : list val)
| VClass (id : nat) (module_name name : val)
| VObj (id : nat) (cls args : val).

(** * The pickler *)

(** Little-endian integers. *)
Fixpoint le (k : nat) (n : Z) : list Z :=
  match k with O => [] | S k' => n mod 256 :: le k' (n / 256) end.
Definition len (l : list Z) : Z := Z.of_nat (length l).

(** Opcodes *)
Definition PROTO := 128.
Definition FRAME := 149.
Definition STOP := 46.
Definition MARK := 40.
Definition BININT := 74.
Definition BININT1 := 75.
Definition BININT2 := 77.
Definition SHORT_BINBYTES := 67.
Definition BINBYTES := 66.
Definition BINBYTES8 := 142.
Definition SHORT_BINUNICODE := 140.
Definition BINUNICODE := 88.
Definition BINUNICODE8 := 141.
Definition MEMOIZE := 148.
Definition BINGET := 104.
Definition LONG_BINGET := 106.
Definition STACK_GLOBAL := 147.
Definition EMPTY_TUPLE := 41.
Definition TUPLE1 := 133.
Definition TUPLE2 := 134.
Definition TUPLE3 := 135.
Definition TUPLE := 116.
Definition EMPTY_LIST := 93.
Definition APPEND := 97.
Definition APPENDS := 101.
Definition NEWOBJ := 129.

(** What the pickler does to its output: complete opcodes are written into the current
    frame, the start of an object is a place where a full frame is ended, and a large
    payload is written between frames. *)
Inductive ev := Boundary | Write (b : list Z) | Large (b : list Z).

Definition FRAME_SIZE_TARGET := 65536.
Definition FRAME_SIZE_MIN := 4.

Definition write_bytes (header data : list Z) : ev :=
  if FRAME_SIZE_TARGET <=? len data then Large (header ++ data) else Write (header ++ data).
Definition save_data (short normal long : Z) (data : list Z) : ev :=
  write_bytes (if len data <=? 255 then short :: le 1 (len data)
               else if len data <=? 4294967295 then normal :: le 4 (len data)
               else long :: le 8 (len data)) data.
Definition save_int (n : Z) : ev :=
  Write (if n <? 256 then BININT1 :: le 1 n else if n <? 65536 then BININT2 :: le 2 n else BININT :: le 4 n).

(** The memo: identities in the order of their numbers. *)
Fixpoint find (i : nat) (memo : list nat) : option nat :=
  match memo with
  | [] => None
  | j :: memo' => if Nat.eqb i j then Some O else option_map S (find i memo')
  end.
Definition memo_get (k : nat) : ev :=
  Write (if Z.of_nat k <? 256 then BINGET :: le 1 (Z.of_nat k) else LONG_BINGET :: le 4 (Z.of_nat k)).

Definition BATCHSIZE := 1000%nat.

(** [save v memo]: the new memo and the output.  Numbers are not memoised, and neither is
    the empty tuple.  [save_items]: a sequence of objects.  [save_batches]: the elements
    of a list, in batches of at most 1000 (C: batch_list_exact), where [n] is the number
    of elements in the open batch. *)
Fixpoint save (v : val) (memo : list nat) : list nat * list ev :=
  let fix save_items (l : list val) (memo : list nat) : list nat * list ev :=
    match l with
    | [] => (memo, [])
    | x :: l' =>
        let '(m1, e1) := save x memo in
        let '(m2, e2) := save_items l' m1 in (m2, e1 ++ e2)
    end in
  let fix save_batches (n : nat) (l : list val) (memo : list nat) : list nat * list ev :=
    match l with
    | [] => (memo, [Write [APPENDS]])
    | x :: l' =>
        let '(m1, e1) := save x memo in
        let '(m2, e2) := save_batches (if Nat.eqb n BATCHSIZE then 1%nat else S n) l' m1 in
        (m2, (if Nat.eqb n BATCHSIZE then [Write [APPENDS]; Write [MARK]] else []) ++ e1 ++ e2)
    end in
  let memoised i (body : list nat * list ev) :=
    match find i memo with
    | Some k => (memo, [Boundary; memo_get k])
    | None => let '(m1, e1) := body in (m1 ++ [i], Boundary :: e1 ++ [Write [MEMOIZE]])
    end in
  match v with
  | VInt n => (memo, [Boundary; save_int n])
  | VBytes i b => memoised i (memo, [save_data SHORT_BINBYTES BINBYTES BINBYTES8 b])
  | VStr i s => memoised i (memo, [save_data SHORT_BINUNICODE BINUNICODE BINUNICODE8 s])
  | VList i l =>
      match find i memo with
      | Some k => (memo, [Boundary; memo_get k])
      | None =>
          let memo := memo ++ [i] in
          let '(m1, e1) :=
            match l with
            | [] => (memo, [])
            | [x] => let '(m1, e1) := save x memo in (m1, e1 ++ [Write [APPEND]])
            | x :: l' => let '(m1, e1) := save_batches 0%nat l memo in (m1, Write [MARK] :: e1)
            end in
          (m1, Boundary :: Write [EMPTY_LIST] :: Write [MEMOIZE] :: e1)
      end
  | VTuple i [] => (memo, [Boundary; Write [EMPTY_TUPLE]])
  | VTuple i l =>
      match find i memo with
      | Some k => (memo, [Boundary; memo_get k])
      | None =>
          let '(m1, e1) := save_items l memo in
          (m1 ++ [i],
           Boundary :: (if Nat.leb (length l) 3 then [] else [Write [MARK]]) ++ e1 ++
           [Write [match length l with 1%nat => TUPLE1 | 2%nat => TUPLE2 | 3%nat => TUPLE3 | _ => TUPLE end];
            Write [MEMOIZE]])
      end
  | VClass i m n => memoised i (let '(m1, e1) := save m memo in
                                let '(m2, e2) := save n m1 in (m2, e1 ++ e2 ++ [Write [STACK_GLOBAL]]))
  | VObj i c a => memoised i (let '(m1, e1) := save c memo in
                              let '(m2, e2) := save a m1 in (m2, e1 ++ e2 ++ [Write [NEWOBJ]]))
  end.

(** The framing: what is finished, and the frame that is open. *)
Definition close_frame (out : list Z) (cur : option (list Z)) : list Z :=
  match cur with
  | None => out
  | Some c => out ++ (if FRAME_SIZE_MIN <=? len c then FRAME :: le 8 (len c) else []) ++ c
  end.
Fixpoint frames (evs : list ev) (out : list Z) (cur : option (list Z)) : list Z :=
  match evs with
  | [] => close_frame out cur
  | Write b :: evs' => frames evs' out (Some (match cur with None => b | Some c => c ++ b end))
  | Large b :: evs' => frames evs' (close_frame out cur ++ b) None
  | Boundary :: evs' =>
      match cur with
      | Some c => if FRAME_SIZE_TARGET <=? len c then frames evs' (close_frame out cur) None else frames evs' out cur
      | None => frames evs' out cur
      end
  end.

(** pickle.dump(obj, file) with the default protocol *)
Definition dumps (v : val) : list Z :=
  frames (snd (save v []) ++ [Write [STOP]]) [PROTO; 4] None.

(** _pickle_size.py L26-33 *)
Definition pickle_size_of (v : val) : Z := len (dumps v).

(** * The unpickler *)

(** Values it builds; lists are mutable and live in a heap. *)
Inductive pv :=
| PInt (n : Z) | PBytes (b : list Z) | PStr (s : list Z) | PListRef (a : nat) | PTuple (l : list pv)
| PClass (m n : list Z) | PObj (cls : pv) (args : list pv).
Inductive item := IMark | IVal (p : pv).
Record mstate := mkM { stack : list item; umemo : list pv; heap : list (list pv) }.

Fixpoint unle (l : list Z) : Z := match l with [] => 0 | b :: l' => b + 256 * unle l' end.
Definition take (n : Z) (l : list Z) : res (list Z * list Z) :=
  if len l <? n then Raise EOFError else Ok (firstn (Z.to_nat n) l, skipn (Z.to_nat n) l).
(** A counted payload with a count of [k] bytes. *)
Definition counted (k : Z) (l : list Z) : res (list Z * list Z) :=
  do r <- take k l; let '(n, l) := r in take (unle n) l.
Definition push (p : pv) (s : mstate) : mstate := mkM (IVal p :: stack s) (umemo s) (heap s).
(** The elements above the mark, in the order they were pushed. *)
Fixpoint pop_mark (st : list item) (acc : list pv) : res (list pv * list item) :=
  match st with
  | [] => Raise ValueError
  | IMark :: st' => Ok (acc, st')
  | IVal p :: st' => pop_mark st' (p :: acc)
  end.
Fixpoint upd (h : list (list pv)) (a : nat) (l : list pv) : list (list pv) :=
  match h, a with
  | [], _ => []
  | _ :: h', O => l :: h'
  | x :: h', S a' => x :: upd h' a' l
  end.
Definition extend (s : mstate) (st : list item) (ps : list pv) : res mstate :=
  match st with
  | IVal (PListRef a) :: _ =>
      match nth_error (heap s) a with
      | Some l => Ok (mkM st (umemo s) (upd (heap s) a (l ++ ps)))
      | None => Raise RuntimeError
      end
  | _ => Raise AttributeError
  end.

(** One opcode: the next state and the rest of the file, or the result. *)
Definition mstep (s : mstate) (b : list Z) : res ((mstate * list Z) + (pv * list (list pv))) :=
  match b with
  | [] => Raise EOFError
  | op :: b =>
      let next s b := Ok (inl (s, b)) in
      if op =? PROTO then do r <- take 1 b; let '(_, b) := r in next s b
      else if op =? FRAME then do r <- take 8 b; let '(_, b) := r in next s b
      else if op =? STOP then match stack s with IVal p :: _ => Ok (inr (p, heap s)) | _ => Raise ValueError end
      else if op =? MARK then next (mkM (IMark :: stack s) (umemo s) (heap s)) b
      else if op =? BININT1 then do r <- take 1 b; let '(n, b) := r in next (push (PInt (unle n)) s) b
      else if op =? BININT2 then do r <- take 2 b; let '(n, b) := r in next (push (PInt (unle n)) s) b
      else if op =? BININT then
        do r <- take 4 b; let '(n, b) := r in 
        next (push (PInt (if unle n <? 2147483648 then unle n else unle n - 4294967296)) s) b
      else if op =? SHORT_BINBYTES then do r <- counted 1 b; let '(d, b) := r in next (push (PBytes d) s) b
      else if op =? BINBYTES then do r <- counted 4 b; let '(d, b) := r in next (push (PBytes d) s) b
      else if op =? BINBYTES8 then do r <- counted 8 b; let '(d, b) := r in next (push (PBytes d) s) b
      else if op =? SHORT_BINUNICODE then do r <- counted 1 b; let '(d, b) := r in next (push (PStr d) s) b
      else if op =? BINUNICODE then do r <- counted 4 b; let '(d, b) := r in next (push (PStr d) s) b
      else if op =? BINUNICODE8 then do r <- counted 8 b; let '(d, b) := r in next (push (PStr d) s) b
      else if op =? MEMOIZE then
        match stack s with
        | IVal p :: _ => next (mkM (stack s) (umemo s ++ [p]) (heap s)) b
        | _ => Raise ValueError
        end
      else if op =? BINGET then
        do r <- take 1 b; let '(n, b) := r in 
        match nth_error (umemo s) (Z.to_nat (unle n)) with Some p => next (push p s) b | None => Raise ValueError end
      else if op =? LONG_BINGET then
        do r <- take 4 b; let '(n, b) := r in 
        match nth_error (umemo s) (Z.to_nat (unle n)) with Some p => next (push p s) b | None => Raise ValueError end
      else if op =? STACK_GLOBAL then
        match stack s with
        | IVal (PStr n) :: IVal (PStr m) :: st => next (mkM (IVal (PClass m n) :: st) (umemo s) (heap s)) b
        | _ => Raise ValueError
        end
      else if op =? EMPTY_TUPLE then next (push (PTuple []) s) b
      else if op =? TUPLE1 then
        match stack s with
        | IVal x :: st => next (mkM (IVal (PTuple [x]) :: st) (umemo s) (heap s)) b
        | _ => Raise ValueError
        end
      else if op =? TUPLE2 then
        match stack s with
        | IVal y :: IVal x :: st => next (mkM (IVal (PTuple [x; y]) :: st) (umemo s) (heap s)) b
        | _ => Raise ValueError
        end
      else if op =? TUPLE3 then
        match stack s with
        | IVal z :: IVal y :: IVal x :: st => next (mkM (IVal (PTuple [x; y; z]) :: st) (umemo s) (heap s)) b
        | _ => Raise ValueError
        end
      else if op =? TUPLE then
        do r <- pop_mark (stack s) []; let '(l, st) := r in next (mkM (IVal (PTuple l) :: st) (umemo s) (heap s)) b
      else if op =? EMPTY_LIST then
        next (mkM (IVal (PListRef (length (heap s))) :: stack s) (umemo s) (heap s ++ [[]])) b
      else if op =? APPEND then
        match stack s with IVal p :: st => do s <- extend s st [p]; next s b | _ => Raise ValueError end
      else if op =? APPENDS then
        do r <- pop_mark (stack s) []; let '(l, st) := r in do s <- extend s st l; next s b
      else if op =? NEWOBJ then
        match stack s with
        | IVal (PTuple a) :: IVal (PClass m n) :: st => next (mkM (IVal (PObj (PClass m n) a) :: st) (umemo s) (heap s)) b
        | _ => Raise ValueError
        end
      else Raise ValueError
  end.

(** Every opcode takes at least a byte, so that the length of the file is fuel enough. *)
Fixpoint run (fuel : nat) (s : mstate) (b : list Z) : res (pv * list (list pv)) :=
  match fuel with
  | O => Raise EOFError
  | S fuel' => do r <- mstep s b; match r with inl (s', b') => run fuel' s' b' | inr p => Ok p end
  end.
Definition loads (b : list Z) : res (pv * list (list pv)) := run (length b) (mkM [] [] []) b.

(** * Compressed images *)

(** _hific_autoencoder.py L319-324: the named tuple of _outputs/_hyperprior_output.py
    L23-27.  Identity numbers from 0 to 8 are those of the parts other than the strings;
    [k] gives those of the strings. *)
(** "neuralcompression._outputs._hyperprior_output" *)
Definition module_str : list Z :=
  [110;101;117;114;97;108;99;111;109;112;114;101;115;115;105;111;110;46;95;111;117;116;112;117;116;115;46;95;104;121;112;101;114;112;114;105;111;114;95;111;117;116;112;117;116].
(** "HyperpriorCompressedOutput" *)
Definition class_str : list Z :=
  [72;121;112;101;114;112;114;105;111;114;67;111;109;112;114;101;115;115;101;100;79;117;116;112;117;116].
Definition compressed_output (latent hyper : list (nat * list Z)) (height width padded_height padded_width : Z) : val :=
  VObj 0 (VClass 1 (VStr 2 module_str) (VStr 3 class_str))
    (VTuple 4 [VList 5 (map (fun s => VBytes (fst s) (snd s)) latent);
               VList 6 (map (fun s => VBytes (fst s) (snd s)) hyper);
               VTuple 7 [VInt height; VInt width];
               VTuple 8 [VInt padded_height; VInt padded_width]]).

(** Model of projects/torch_vct/utils/memoize.py.

    Python values are trees [val].  Keyword names and strings are numbers (only their
    equality and order matter).  A tensor is its identity, which is also its hash
    (CPython's id); its contents are in the heap of the call.  Not modelled: floats that
    are not integers, functions that call memoised functions themselves, callers that
    change a returned object. *)
From Coq Require Import ZArith List Bool Arith.
From Verif Require Import Base.
Import ListNotations.
Open Scope Z_scope.

Inductive num_kind := NInt | NBool | NFloat.
(** A dict is the list of its items, each a TItem of key and value. *)
Inductive seq_tag := TList | TTuple | TDict | TItem.
Inductive val :=
| VNone
| VNum (k : num_kind) (z : Z)
| VStr (s : Z)
| VTensor (id : Z)
| VObj (id : Z)          (* another object, hashed and compared by identity *)
| VUnhashable (id : Z)   (* e.g. a set *)
| VCache (id : Z)        (* memoize.py L63-69 (_Cache) *)
| VSeq (t : seq_tag) (l : list val).

(** Values that can be dict keys, up to Python's ==: 1, True and 1.0 are the same key. *)
Inductive key :=
| KNone
| KNum (z : Z)
| KStr (s : Z)
| KObj (id : Z)
| KTup (l : list key).

Fixpoint key_eqb (a b : key) : bool :=
  match a, b with
  | KNone, KNone => true
  | KNum x, KNum y => x =? y
  | KStr x, KStr y => x =? y
  | KObj x, KObj y => x =? y
  | KTup l, KTup m =>
      (fix go l m := match l, m with
                     | [], [] => true
                     | x :: l', y :: m' => key_eqb x y && go l' m'
                     | _, _ => false
                     end) l m
  | _, _ => false
  end.

(** memoize.py L86-98 (_ensure_hashable) *)
Fixpoint ensure_hashable (v : val) : res key :=
  match v with
  | VSeq _ l =>
      do ks <- (fix go l := match l with
                            | [] => Ok []
                            | x :: l' => do k <- ensure_hashable x; do ks <- go l'; Ok (k :: ks)
                            end) l;
      Ok (KTup ks)
  | VTensor id => Ok (KNum id)
  | VNone => Ok KNone
  | VNum _ z => Ok (KNum z)
  | VStr s => Ok (KStr s)
  | VObj id => Ok (KObj id)
  | VCache id => Ok (KObj id)
  | VUnhashable _ => Raise TypeError
  end.

(** sorted(kwargs.items()): names are distinct, so the values are never compared. *)
Fixpoint insert_kw (p : Z * val) (l : list (Z * val)) : list (Z * val) :=
  match l with
  | [] => [p]
  | q :: l' => if fst p <=? fst q then p :: l else q :: insert_kw p l'
  end.
Definition sorted_kw (l : list (Z * val)) : list (Z * val) := fold_right insert_kw [] l.

Definition is_cache (v : val) : bool := match v with VCache _ => true | _ => false end.
(** memoize.py L129 *)
Definition key_args (args : list val) : list val := filter (fun x => negb (is_cache x)) args.
(** memoize.py L130-132 *)
Definition key_kwargs (kwargs : list (Z * val)) : list (Z * val) := filter (fun p => negb (is_cache (snd p))) (sorted_kw kwargs).
(** memoize.py L133-135 *)
Definition make_key (args : list val) (kwargs : list (Z * val)) : res key :=
  ensure_hashable (VSeq TTuple
    [VSeq TTuple (key_args args);
     VSeq TTuple (map (fun p => VSeq TTuple [VStr (fst p); snd p]) (key_kwargs kwargs))]).

Section Memo.
Context {C V : Type}.
(** Contents of the tensors at the time of a call. *)
Definition heap := Z -> C.
(** The functions under the decorator, by number. *)
Variable f : nat -> heap -> list val -> list (Z * val) -> res V.

(** memoize.py L78-83 (create_cache); the hit counters per function and key. *)
Record cache := mkCache { results : list ((nat * key) * V); hits : list ((nat * key) * nat) }.
Definition create_cache : cache := mkCache [] [].

Definition slot_eqb (a b : nat * key) : bool := Nat.eqb (fst a) (fst b) && key_eqb (snd a) (snd b).
Fixpoint lookup {A} (l : list ((nat * key) * A)) (s : nat * key) : option A :=
  match l with
  | [] => None
  | (s', a) :: l' => if slot_eqb s' s then Some a else lookup l' s
  end.
(** hit_counter[key] += 1 on a defaultdict(int) *)
Fixpoint incr (l : list ((nat * key) * nat)) (s : nat * key) : list ((nat * key) * nat) :=
  match l with
  | [] => [(s, 1%nat)]
  | (s', n) :: l' => if slot_eqb s' s then (s', S n) :: l' else (s', n) :: incr l' s
  end.
(** memoize.py L149 (get_total_cache_hits) *)
Definition get_total_cache_hits (st : cache) (fn : nat) : nat :=
  fold_right (fun p acc => if Nat.eqb (fst (fst p)) fn then (snd p + acc)%nat else acc) 0%nat (hits st).

(** One call of a decorated function; [bound]: through bind with a cache (memoize.py
    L153-176), else without or with cache=None. *)
Record call := mkCall { c_fn : nat; c_heap : heap; c_args : list val; c_kwargs : list (Z * val); c_bound : bool; c_expect : option bool }.
Definition plain (c : call) : res V := f (c_fn c) (c_heap c) (c_args c) (c_kwargs c).

(** memoize.py L109-145 (wrapper): new cache, result, and whether f was called. *)
Definition wrapper (st : cache) (c : call) : cache * (res V * bool) :=
  if negb (c_bound c) then
    match c_expect c with
    | Some true => (st, (Raise AssertionError, false))
    | _ => (st, (plain c, true))
    end
  else
    match make_key (c_args c) (c_kwargs c) with
    | Raise e => (st, (Raise e, false))
    | Ok k =>
        let s := (c_fn c, k) in
        match lookup (results st) s with
        | Some v =>
            match c_expect c with
            | Some false => (st, (Raise AssertionError, false))
            | _ => (mkCache (results st) (incr (hits st) s), (Ok v, false))
            end
        | None =>
            match c_expect c with
            | Some true => (st, (Raise AssertionError, false))
            | _ =>
                match plain c with
                | Ok v => (mkCache ((s, v) :: results st) (hits st), (Ok v, true))
                | Raise e => (st, (Raise e, true))
                end
            end
        end
    end.

Fixpoint run (st : cache) (hist : list call) : cache * list (res V * bool) :=
  match hist with
  | [] => (st, [])
  | c :: hist' =>
      let '(st, o) := wrapper st c in
      let '(st, os) := run st hist' in
      (st, o :: os)
  end.
End Memo.
Arguments heap : clear implicits.
Arguments cache : clear implicits.
Arguments call : clear implicits.

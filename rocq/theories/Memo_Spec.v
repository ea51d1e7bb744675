(** Vocabulary for C31. *)
From Coq Require Import ZArith List Bool.
From Verif Require Import Base Memo_Model.
Import ListNotations.
Open Scope Z_scope.

(** Forms of arguments, as in a function's type annotations. *)
Inductive form :=
| FNone
| FNum (k : num_kind)
| FStr
| FTensor
| FObj
| FOpt (t : form)                        (* Optional *)
| FFix (t : seq_tag) (ts : list form)    (* fixed length, e.g. a NamedTuple *)
| FMany (t : seq_tag) (f : form).        (* any length *)

Fixpoint has_form (t : form) (v : val) : Prop :=
  match t with
  | FNone => v = VNone
  | FNum k => exists z, v = VNum k z
  | FStr => exists s, v = VStr s
  | FTensor => exists i, v = VTensor i
  | FObj => exists i, v = VObj i
  | FOpt t => v = VNone \/ has_form t v
  | FFix g ts =>
      exists l, v = VSeq g l /\
        (fix go ts l := match ts, l with
                        | [], [] => True
                        | t :: ts', x :: l' => has_form t x /\ go ts' l'
                        | _, _ => False
                        end) ts l
  | FMany g t => exists l, v = VSeq g l /\ Forall (has_form t) l
  end.

(** A function's signature: a form for every position and for every keyword. *)
Record signature := mkSig { s_pos : nat -> form; s_kw : Z -> form }.
Fixpoint has_forms (ts : nat -> form) (i : nat) (l : list val) : Prop :=
  match l with
  | [] => True
  | v :: l' => has_form (ts i) v /\ has_forms ts (S i) l'
  end.

(** The tensors in a value. *)
Fixpoint tensors (v : val) : list Z :=
  match v with
  | VTensor i => [i]
  | VSeq _ l => flat_map tensors l
  | _ => []
  end.

(** The arguments without cache objects; keywords in order of name. *)
Definition visible_args (args : list val) : list val := filter (fun v => match v with VCache _ => false | _ => true end) args.
Definition visible_kwargs (kwargs : list (Z * val)) : list (Z * val) :=
  filter (fun p => match snd p with VCache _ => false | _ => true end) (sorted_kw kwargs).

Section Calls.
Context {C V : Type}.

Definition call_tensors (c : call C) : list Z :=
  flat_map tensors (visible_args (c_args c)) ++ flat_map (fun p => tensors (snd p)) (visible_kwargs (c_kwargs c)).

Definition well_formed (sigs : nat -> signature) (c : call C) : Prop :=
  has_forms (s_pos (sigs (c_fn c))) 0 (visible_args (c_args c)) /\
  Forall (fun p => has_form (s_kw (sigs (c_fn c)) (fst p)) (snd p)) (visible_kwargs (c_kwargs c)).

(** A tensor identity that occurs in two calls names a tensor with the same contents
    (no tensor is changed or freed and its identity reused in between). *)
Definition stable (hist : list (call C)) : Prop :=
  forall c c', In c hist -> In c' hist -> forall i, In i (call_tensors c) -> In i (call_tensors c') -> c_heap c i = c_heap c' i.

(** The function's result depends on the visible arguments and on the contents of the
    tensors in them only. *)
Definition pure (f : nat -> heap C -> list val -> list (Z * val) -> res V) : Prop :=
  forall c c' : call C, c_fn c = c_fn c' ->
    visible_args (c_args c) = visible_args (c_args c') -> visible_kwargs (c_kwargs c) = visible_kwargs (c_kwargs c') ->
    (forall i, In i (call_tensors c) -> c_heap c i = c_heap c' i) ->
    f (c_fn c) (c_heap c) (c_args c) (c_kwargs c) = f (c_fn c') (c_heap c') (c_args c') (c_kwargs c').
End Calls.

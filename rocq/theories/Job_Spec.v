(** Vocabulary for the encode job. *)
From Coq Require Import ZArith List Bool Permutation.
From Verif Require Import Base Job_Model.
Import ListNotations.
Open Scope Z_scope.

Section Spec.
Context {St F B : Type}.
Variable enc : St -> B -> res St.
Variable dec : St -> res (St * B).
Variable count : St -> Z.
Variable save : St -> F.
Variable load : St -> F -> St.
Variable batches : nat -> B.

(** The state after the first [k] batches of the data loader, without interruption. *)
Fixpoint uninterrupted (s0 : St) (k : nat) : res St :=
  match k with
  | O => Ok s0
  | S k' => do s <- uninterrupted s0 k'; enc s (batches k')
  end.

(** What is asked of the codec: [obs] is what its results depend on (the message and
    data_count); encoding a batch of the data loader succeeds and is undone by
    decoding; a checkpoint restores [obs]; [fresh] are the states of new codecs. *)
Definition good_codec {O} (obs : St -> O) (fresh : St -> Prop) : Prop :=
  (forall s, fresh s -> count s = 0) /\
  (forall s s', obs s = obs s' -> count s = count s') /\
  (forall s s' b t, obs s = obs s' -> enc s b = Ok t -> exists t', enc s' b = Ok t' /\ obs t = obs t') /\
  (forall s s' t b, obs s = obs s' -> dec s = Ok (t, b) -> exists t', dec s' = Ok (t', b) /\ obs t = obs t') /\
  (forall s s1, obs (load s1 (save s)) = obs s) /\
  (forall s0 k s, fresh s0 -> uninterrupted s0 k = Ok s ->
     exists s', enc s (batches k) = Ok s' /\ count s' = count s + 1 /\
     exists t, dec s' = Ok (t, batches k) /\ obs t = obs s).
End Spec.

(** Number of batches of [bsz] samples needed per process. *)
Definition batches_needed (num bsz world : Z) : nat :=
  Z.to_nat ((num + bsz * world - 1) / (bsz * world)).

(** Starts of the same job; no crash tears a checkpoint file. *)
Definition same_job {St} (num : Z) (fresh : St -> Prop) (e : event St) : Prop :=
  match e with
  | Start _ n s => n = num /\ fresh s
  | CrashCkpt _ => False
  | _ => True
  end.

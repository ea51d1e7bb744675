(** Vocabulary for the autoregressive coder. *)
From Coq Require Import ZArith List Reals.
From Verif Require Import Base Tensor Gsn_Model Gsn_Spec EM_Model.
Import ListNotations.
Open Scope nat_scope.

(** The network predicts a mean and a scale for each of the [L] tokens of [w] entries. *)
Definition net_shape {E D} (net : @net_type E D) (L w : nat) : Prop :=
  forall e toks, length toks = L -> Forall (fun t => length t = w) toks ->
    let '(means, scales, outs) := net e toks in
    length means = L /\ length scales = L /\ length outs = L /\
    Forall (fun t => length t = w) means /\ Forall (fun t => length t = w) scales.

(** The symbols of the latent, whatever is predicted, are ones the coder accepts. *)
Definition symbols_fit {E D} (net : @net_type E D) (L w : nat) (e : E) (latent : list token) (ok : Z -> Prop) : Prop :=
  forall toks means scales outs i, length toks = L -> Forall (fun t => length t = w) toks ->
    net e toks = (means, scales, outs) -> i < L ->
    Forall ok (map2 symbol (nth i latent []) (nth i means [])).

(** The mean and scale used for token [j] are the network's prediction from the tokens
    decoded so far, with 10 in place of the others. *)
Definition predicted_so_far {E D} (net : @net_type E D) (e : E) (latent quant means scales : list token) (j : nat) : Prop :=
  let '(m, s, _) := net e (firstn j quant ++ map (map (fun _ => 10%R)) (skipn j latent)) in
  nth j means [] = nth j m [] /\ nth j scales [] = nth j s [].

(** A network is causal: its predictions for token [i] do not depend on token [i] or later. *)
Definition causal {E D} (net : @net_type E D) (L : nat) : Prop :=
  forall e t1 t2 i, length t1 = L -> length t2 = L -> i < L -> firstn i t1 = firstn i t2 ->
    let '(m1, s1, o1) := net e t1 in let '(m2, s2, o2) := net e t2 in
    nth_error m1 i = nth_error m2 i /\ nth_error s1 i = nth_error s2 i /\ nth_error o1 i = nth_error o2 i.

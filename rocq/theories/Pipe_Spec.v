(** A receiver that has the strings only, and vocabulary for the context window. *)
From Coq Require Import List Reals ZArith.
From Verif Require Import Base RFloat Tensor Gsn_Model Gsn_Spec EM_Model Pipe_Model.
Import ListNotations.
Open Scope nat_scope.

(** The last [n] elements (all if there are fewer). *)
Definition last_n {A} (n : nat) (l : list A) : list A := rev (firstn n (rev l)).

(** The receiver: it knows the first latent, then for every scene decodes the strings with
    the context it has itself (entropy_model.py _decode with use_output_from_encode=False),
    and keeps the last [context_len] latents. *)
Section Receiver.
Variables (num_means num_scales : Z) (min_scale : R).
Context {B X D : Type}.
Variable ec_decompress : B -> list Z -> res (list Z).
Variable net : @net_type (list X) D.
Variable process : tensor R -> res X.
Variables (context_len window h w c : nat).

Fixpoint receive_P (transmitted : list (list B)) (state : list (tensor R * X)) : res (list (tensor R)) :=
  match transmitted with
  | [] => Ok []
  | strings :: rest =>
      do ctx <- context state;
      let unused := repeat [] (window * window) in
      do lat <- em_decode_latent num_means num_scales min_scale ec_decompress net window ctx false unused unused strings h w c;
      do p <- process lat;
      do lats <- receive_P rest (last_n context_len (state ++ [(lat, p)]));
      Ok (lat :: lats)
  end.
Definition receive (first : tensor R) (transmitted : list (list B)) : res (list (tensor R)) :=
  do p <- process first;
  do lats <- receive_P transmitted [(first, p)];
  Ok (first :: lats).
End Receiver.

(** The network's means are at most [M] in size. *)
Definition means_le {E D} (M : R) (net : @net_type E D) : Prop :=
  forall e toks means scales outs, net e toks = (means, scales, outs) -> Forall (Forall (fun m => (Rabs m <= M)%R)) means.

(** Every entry is at most [M] in size and further from every half-integer than float32
    rounding can move it. *)
Definition settled (M : R) (t : tensor R) : Prop :=
  forall i, (Rabs (tat t i) <= M)%R /\ forall n : Z, ((2 * M + 2) / 16777216 < Rabs (tat t i - (IZR n + / 2)))%R.

(** Processing a latent depends on its entries only. *)
Definition respects_entries {X} (process : tensor R -> res X) : Prop :=
  forall t u, teq t u -> process t = process u.

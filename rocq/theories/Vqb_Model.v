(** Model of the vector-quantisation bottleneck
    (neuralcompression/layers/_q_bottleneck.py, _vq_bottleneck.py).

    Simplifications: real arithmetic (so the straight-through sum L159 is exact, and
    log2(K)/8 in the byte count is not rounded); gradients are left out; tensors are
    non-empty. *)
From Coq Require Import Reals List Bool Arith Lia Lra.
From Verif Require Import Base Tensor RBase.
Import ListNotations.
Open Scope R_scope.

(** F.normalize(codebook, dim=1): divide each row by its Euclidean norm, at least 1e-12. *)
Definition row_norm (d : nat) (v : nat -> R) : R := sqrt (rsum d (fun j => v j * v j)).
Definition normalize_row (d : nat) (v : nat -> R) (j : nat) : R :=
  v j / Rmax (row_norm d v) (/ 10 ^ 12).

(** torch.argmin along a dimension: the first minimal element; IndexError if empty. *)
Fixpoint argmin_from (f : nat -> R) (n : nat) : nat :=
  match n with
  | O => O
  | S k => let b := argmin_from f k in if Rlt_dec (f (S k)) (f b) then S k else b
  end.
Definition argmin (n : nat) (f : nat -> R) : res nat :=
  match n with O => Raise IndexError | S k => Ok (argmin_from f k) end.

(** A codebook: number of rows, row length and entries. *)
Record codebook := mkCB { cb_size : nat; cb_dim : nat; cb_at : nat -> nat -> R }.
(** _q_bottleneck.py L123-124. *)
Definition effective (normalize : bool) (cb : codebook) : codebook :=
  if normalize then mkCB (cb_size cb) (cb_dim cb) (fun k => normalize_row (cb_dim cb) (cb_at cb k)) else cb.

(** L127-129: squared distance of the vector [v] to row [k]. *)
Definition distance (cb : codebook) (v : nat -> R) (k : nat) : R :=
  rsum (cb_dim cb) (fun j => (cb_at cb k j - v j) ^ 2).

(** L131-141: the probabilistic choice, for one vector and one uniform number [u]. *)
Definition weight (cb : codebook) (v : nat -> R) (k : nat) : R := 1 / (distance cb v k + / 10 ^ 7).
Definition cumulative (cb : codebook) (v : nat -> R) (k : nat) : R :=
  rsum (S k) (fun i => weight cb v i / rsum (cb_size cb) (weight cb v)).
Definition pick_random (cb : codebook) (v : nat -> R) (u : R) : res nat :=
  argmin (cb_size cb)
         (fun k => let t := cumulative cb v k - u in if Rlt_dec t 0 then 1 else t).
(** L142-144. *)
Definition pick_nearest (cb : codebook) (v : nat -> R) : res nat := argmin (cb_size cb) (distance cb v).

(** A VQOutput (L29-36), without gradients; the indices are in row-major order of
    (batch, y, x). *)
Record vq_out := mkVQ { vq_latent : tensor R; vq_preq : tensor R; vq_commit : R; vq_embed : R; vq_indices : list nat }.

(** The latent vectors in the order of the rows of L119. *)
Definition vectors (x : tensor R) (b h w : nat) : list (nat -> R) :=
  map (fun n => let i := unravel [b; h; w]%nat n in
                fun c => tat x [nth 0 i 0; c; nth 1 i 0; nth 2 i 0]%nat)
      (seq 0 (b * h * w)).
(** F.mse_loss of two tensors of shape [b; d; h; w]. *)
Definition mse (b d h w : nat) (p q : tensor R) : R :=
  rsum (b * (d * (h * w)))
       (fun n => let i := unravel [b; d; h; w]%nat n in (tat p i - tat q i) ^ 2)
  / INR (b * (d * (h * w))).

(** L112-165 (quantize_vectors) with [pick] the choice of the index.  A latent with another
    number of channels than the codebook raises, either in the subtraction or in .view. *)
Definition quantize_vectors (normalize : bool) (pick : codebook -> (nat -> R) -> res nat)
  (x : tensor R) (cb0 : codebook) : res vq_out :=
  match tshape x with
  | [b; d; h; w] =>
      let cb := effective normalize cb0 in
      if negb (d =? cb_dim cb)%nat then Raise RuntimeError else
      do idx <- mapM (pick cb) (vectors x b h w);
      let latents := mkT [b; d; h; w]%nat
        (fun i => match i with
                  | [k; c; y; z] => cb_at cb (nth (ravel [b; h; w]%nat [k; y; z]%nat) idx 0%nat) c
                  | _ => 0
                  end) in
      Ok (mkVQ (mkT [b; d; h; w]%nat (fun i => tat x i + (tat latents i - tat x i))) x
               (mse b d h w latents x) (mse b d h w latents x) idx)
  | _ => Raise ValueError
  end.

(** _vq_bottleneck.py L45-76 with the module's state: the codebook and the hit counts
    (codebook_hits_0).  [latent = None] stands for an output without latent. *)
Record vqb := mkVB { vb_codebook : codebook; vb_hits : list Z }.
(** index_add_ of ones: one more hit for every index. *)
Definition add_hit (hits : list Z) (k : nat) : list Z :=
  map (fun p => if (fst p =? k)%nat then (snd p + 1)%Z else snd p) (combine (seq 0 (length hits)) hits).
Definition num_bytes (b h w size : nat) : Z :=
  Rfloor (INR (b * h * w) * (ln (INR size) / ln 2) / 8).
Definition vqb_forward (m : vqb) (latent : option (tensor R)) : res (vqb * vq_out * Z) :=
  match latent with
  | None => Raise ValueError
  | Some x =>
      if (length (tshape x) <? 2)%nat then Raise IndexError else      (* shape[-2] *)
      if (cb_size (vb_codebook m) =? 0)%nat then Raise ValueError else (* log2(0) *)
      do q <- quantize_vectors true pick_nearest x (vb_codebook m);
      let n := match tshape x with
               | [b; _; h; w] => num_bytes b h w (cb_size (vb_codebook m))
               | _ => 0%Z
               end in
      Ok (mkVB (vb_codebook m) (fold_left add_hit (vq_indices q) (vb_hits m)), q, n)
  end.
(** L84-88 of _q_bottleneck.py: a new module's counts are 0. *)
Definition vqb_init (cb : codebook) : vqb := mkVB cb (repeat 0%Z (cb_size cb)).
(** L93-95 (reset_hits): the loop variable is a (name, tensor) pair, and "*= 0" on it makes an
    empty tuple and rebinds the variable: no buffer is changed. *)
Definition reset_hits (m : vqb) : vqb := m.

(** L97-110 (update_metrics) of one codebook: the fraction of codes used, the largest count,
    and the perplexity; None for NaN (no hits at all). *)
Definition log2 (x : R) : R := ln x / ln 2.
Definition sumZ (l : list Z) : Z := fold_right Z.add 0%Z l.
Definition percentage_hits (hits : list Z) : R :=
  IZR (sumZ (map (fun c => if (c =? 0)%Z then 0%Z else 1%Z) hits)) / INR (length hits).
Definition max_hits (hits : list Z) : Z := fold_right Z.max 0%Z hits.
Definition sumR (l : list R) : R := fold_right Rplus 0 l.
Definition perplexity (hits : list Z) : option R :=
  if (sumZ hits =? 0)%Z then None
  else let probs := map (fun c => IZR c / IZR (sumZ hits)) hits in
       Some (Rpower 2 (- sumR (map (fun p => p * log2 (p + / 10 ^ 7)) probs))).

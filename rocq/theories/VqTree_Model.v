(** Model of the trees of bottleneck operations of the VQ-VAE: neuralcompression/layers/_normalize_latent.py,
    _project_latent.py and _vq_bottleneck.py (Vqb_Model), acting on VqVaeAutoencoderOutput objects
    (_outputs/_vqvae_autoencoder_output.py).

    Simplifications: numbers are real; latents have four dimensions; after an exception the objects are not
    followed further; quantize_distances, codebook_indices and quantize_residuals are left out. *)
From Coq Require Import ZArith Reals List Bool Arith Lra Lia.
From Verif Require Import Base Tensor RBase RSum Vqb_Model.
Import ListNotations.
Open Scope R_scope.

(** _vqvae_autoencoder_output.py L13-24 *)
Record output := mkOut { o_image : option (tensor R); o_latent : option (tensor R); o_preq : option (tensor R);
  o_losses : option (R * R); o_bytes : option Z; o_indices : option (list nat) }.
(** objects, by their address *)
Definition store := list output.
Definition blank : output := mkOut None None None None None None.
Definition get (s : store) (id : nat) : output := nth id s blank.
Fixpoint put (s : store) (id : nat) (o : output) : store :=
  match s, id with
  | [], _ => []
  | _ :: r, O => o :: r
  | x :: r, S id => x :: put r id o
  end.
Definition set_latent (s : store) (id : nat) (t : tensor R) : store :=
  let o := get s id in put s id (mkOut (o_image o) (Some t) (o_preq o) (o_losses o) (o_bytes o) (o_indices o)).

(** nn.Conv2d with kernel_size=1 *)
Record conv1 := mkConv { c_in : nat; c_out : nat; c_w : nat -> nat -> R; c_b : nat -> R }.
Definition conv (c : conv1) (x : option (tensor R)) : res (tensor R) :=
  match x with
  | None => Raise TypeError
  | Some x =>
      match tshape x with
      | [b; k; h; w] =>
          if (k =? c_in c)%nat
          then Ok (mkT [b; c_out c; h; w]%nat (fun idx => match idx with
                 | [n; o; i; j] => rsum (c_in c) (fun k => c_w c o k * tat x [n; k; i; j]%nat) + c_b c o
                 | _ => 0 end))
          else Raise RuntimeError
      | _ => Raise RuntimeError
      end
  end.
(** F.normalize(latent, dim=1) *)
Definition normalize (x : tensor R) : res (tensor R) :=
  match tshape x with
  | [b; c; h; w] => Ok (mkT [b; c; h; w]%nat (fun idx => match idx with
      | [n; k; i; j] => normalize_row c (fun k => tat x [n; k; i; j]%nat) k | _ => 0 end))
  | _ => Raise IndexError
  end.

Inductive op := Normalize (child : option op) | Project (input_conv output_conv : conv1) (child : option op) | Quantize (m : vqb).
(** The constructor of ProjectLatent, _project_latent.py L28-39 *)
Definition project_latent (input_dim output_dim : nat) (w1 : nat -> nat -> R) (b1 : nat -> R) (w2 : nat -> nat -> R) (b2 : nat -> R) (child : option op) : op :=
  Project (mkConv input_dim output_dim w1 b1) (mkConv output_dim input_dim w2 b2) child.

Fixpoint forward (o : op) (s : store) (id : nat) : res (op * store * nat) :=
  match o with
  | Normalize child =>
      (* _normalize_latent.py L32-41 *)
      match o_latent (get s id) with
      | None => Raise ValueError
      | Some x =>
          do y <- normalize x;
          let s := set_latent s id y in
          match child with
          | None => Ok (o, s, id)
          | Some c => do r <- forward c s id; let '(c', s', id') := r in Ok (Normalize (Some c'), s', id')
          end
      end
  | Project ci co child =>
      (* _project_latent.py L41-49 *)
      match child with
      | None =>
          do y <- conv ci (o_latent (get s id));
          do z <- conv co (Some y);
          Ok (o, set_latent s id z, id)
      | Some c =>
          do y <- conv ci (o_latent (get s id));
          do r <- forward c (set_latent s id y) id;
          let '(c', s', id') := r in
          do z <- conv co (o_latent (get s' id'));
          Ok (Project ci co (Some c'), set_latent s' id' z, id')
      end
  | Quantize m =>
      (* _vq_bottleneck.py L45-76: dataclasses.replace makes a new object *)
      do r <- vqb_forward m (o_latent (get s id));
      let '(m', q, n) := r in
      Ok (Quantize m', s ++ [mkOut (o_image (get s id)) (Some (vq_latent q)) (Some (vq_preq q))
                                   (Some (vq_commit q, vq_embed q)) (Some n) (Some (vq_indices q))], length s)
  end.

(** zoo/_msillm_vqvae.py L47-73: the tree of the published model (256 to 8 channels) *)
Definition msillm_tree (cin d : nat) (w1 : nat -> nat -> R) (b1 : nat -> R) (w2 : nat -> nat -> R) (b2 : nat -> R) (cb : codebook) : op :=
  project_latent cin d w1 b1 w2 b2 (Some (Normalize (Some (Quantize (vqb_init cb))))).

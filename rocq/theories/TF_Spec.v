(** Vocabulary for the transformer: parameters of the right shapes, and attention logits
    far below the masking constant. *)
From Coq Require Import List Reals.
From Verif Require Import EM_Model TF_Model.
Import ListNotations.
Open Scope nat_scope.

Definition linear_shape (l : linear) (i o : nat) : Prop :=
  length (lin_w l) = o /\ Forall (fun r => length r = i) (lin_w l) /\ length (lin_b l) = o.
Definition norm_shape (n : norm) (d : nat) : Prop := length (n_gamma n) = d /\ length (n_beta n) = d.
Definition attention_shape (a : attention) (d : nat) : Prop :=
  linear_shape (q_linear a) d d /\ linear_shape (k_linear a) d d /\ linear_shape (v_linear a) d d /\ linear_shape (proj a) d d.
Definition mlp_shape (m : mlp) (d : nat) : Prop := exists k, linear_shape (fc1 m) d k /\ linear_shape (fc2 m) k d.
Definition block_shape (b : block) (d : nat) : Prop :=
  norm_shape (ln_1a b) d /\ attention_shape (self_attention b) d /\ norm_shape (ln_1b b) d /\ mlp_shape (mlp1 b) d /\
  norm_shape (ln_2a b) d /\ attention_shape (cross_attention b) d /\ norm_shape (ln_2b b) d /\ mlp_shape (mlp2 b) d.
Definition em_shape (P : em_params) (d num_channels seq_len : nat) : Prop :=
  linear_shape (decoder_embedding P) num_channels d /\ norm_shape (post_embedding_layernorm P) d /\
  length (dec_position P) = seq_len /\ Forall (fun t => length t = d) (dec_position P) /\
  Forall (fun b => block_shape b d) (decoder_layers P).

(** Whatever tokens the layer normalisation receives, the logits of the self-attention
    behind it are at most 400000 in size (the mask subtracts 1000000). *)
Definition bounded_logits (d heads : nat) (n : norm) (a : attention) : Prop :=
  forall t t' h, length t = d -> length t' = d ->
    (Rabs (dot (head d heads h (lin (q_linear a) (layer_norm n t)))
               (head d heads h (lin (k_linear a) (layer_norm n t'))) * attn_scale d heads) <= 400000)%R.

(** Every entry is at most [m] in size. *)
Definition entries_le (m : R) (t : token) : Prop := Forall (fun a => (Rabs a <= m)%R) t.

(** Model of neuralcompression/layers/_xca.py and of _AttnBlock of models/_vqvae_xcit_autoencoder.py.

    Simplifications: numbers are real; dropout is left out (its default probability is 0, and evaluation
    has none). *)
From Coq Require Import ZArith Reals List Bool Arith Lra Lia.
From Verif Require Import Base Tensor RBase RSum Vqb_Model Norm_Model.
Import ListNotations.
Open Scope R_scope.

(** nn.Linear: one output of one vector *)
Definition linear (n : nat) (w : nat -> nat -> R) (b : nat -> R) (v : nat -> R) (o : nat) : R :=
  rsum n (fun i => w o i * v i) + b o.
(** _xca.py L53-67: the parameters of a layer; b_qkv is zero without qkv_bias *)
Record xca := mkXca { dim : nat; heads : nat; temperature : nat -> R;
  w_qkv : nat -> nat -> R; b_qkv : nat -> R; w_proj : nat -> nat -> R; b_proj : nat -> R }.
(** softmax over n entries *)
Definition softmax (n : nat) (a : nat -> R) (e : nat) : R := exp (a e) / rsum n (fun i => exp (a i)).
(** L69-76: part s (query 0, key 1, value 2) of head h, channel d, token t of one batch entry x (token,
    channel); D channels per head *)
Definition part (l : xca) (D : nat) (x : nat -> nat -> R) (s h d t : nat) : R :=
  linear (dim l) (w_qkv l) (b_qkv l) (x t) (s * dim l + h * D + d).
(** L79-83: the attention of channel d to channel e *)
Definition attention (l : xca) (D N : nat) (x : nat -> nat -> R) (h d e : nat) : R :=
  let q := fun d => normalize_row N (fun t => part l D x 0 h d t) in
  let k := fun e => normalize_row N (fun t => part l D x 1 h e t) in
  softmax D (fun e => rsum N (fun t => q d t * k e t) * temperature l h) e.
(** L85-88 *)
Definition xca_entry (l : xca) (D N : nat) (x : nat -> nat -> R) (t c : nat) : R :=
  linear (dim l) (w_proj l) (b_proj l)
    (fun c => rsum D (fun e => attention l D N x (c / D) (c mod D) e * part l D x 2 (c / D) e t)) c.
(** L69-90 (forward) *)
Definition xca_forward (l : xca) (x : tensor R) : res (tensor R) :=
  match tshape x with
  | [B; N; C] =>
      if negb (C =? dim l)%nat then Raise RuntimeError
      else if (heads l =? 0)%nat then Raise ZeroDivisionError
      else let D := (C / heads l)%nat in
      if negb (B * N * 3 * C =? B * N * 3 * heads l * D)%nat then Raise RuntimeError
      else Ok (mkT [B; N; C]%nat (fun idx => match idx with
        | [b; t; c] => xca_entry l D N (fun t c => tat x [b; t; c]%nat) t c
        | _ => 0 end))
  | _ => Raise ValueError
  end.

(** _vqvae_xcit_autoencoder.py L149-171 (_AttnBlock.forward) with a ChannelNorm2D *)
Definition attn_block (n : channel_norm) (l : xca) (x : tensor R) : res (tensor R) :=
  match tshape x with
  | [B; C; H; W] =>
      do y <- channel_norm_forward n x;
      (* .view(batch, chans, -1).permute(0, 2, 1) *)
      do z <- xca_forward l (mkT [B; H * W; C]%nat (fun idx => match idx with
                | [b; t; c] => tat y [b; c; t / W; t mod W]%nat | _ => 0 end));
      (* .permute(0, 2, 1).reshape(batch, chans, num_y, num_x) *)
      Ok (mkT [B; C; H; W]%nat (fun idx => match idx with
                | [b; c; i; j] => tat x [b; c; i; j]%nat + tat z [b; i * W + j; c]%nat | _ => 0 end))
  | _ => Raise ValueError
  end.

(** Model of neuralcompression/models/_vqvae_xcit_autoencoder.py L61-554
    (VqVaeXCiTAutoencoder): the networks' shapes and the padding.

    Simplifications: construction-time checks of the group normalisation (channels divisible
    by 16) are left out; dropout and XCA attention are arbitrary functions that keep the
    shape, as in the code. *)
From Coq Require Import ZArith Arith List Bool Reals.
From Verif Require Import Base Tensor Net_Model.
Import ListNotations.
Open Scope nat_scope.

(** L61-74 (_Upsample) *)
Definition vq_upsample (W : nat -> vals) (c : nat) (with_conv : bool) : net :=
  sequential (upsample2 :: if with_conv then [conv c c 3 1 1 (W 0)] else []).
(** L77-94 (_Downsample) *)
Definition vq_downsample (W : nat -> vals) (c : nat) (with_conv : bool) : net := fun x =>
  if with_conv then do x <- pad2 0%R Constant x 0 1 0 1; conv c c 3 2 0 (W 0) x
  else avg_pool2 x.
(** L97-148 (_ResnetBlock), with conv_shortcut=False as everywhere in this file *)
Definition vq_resnet (W : nat -> vals) (ci co : nat) : net := fun x =>
  do h <- sequential [norm ci (W 0); act (W 1); conv ci co 3 1 1 (W 2); norm co (W 3); act (W 4); act (W 5); conv co co 3 1 1 (W 6)] x;
  do x <- (if ci =? co then Ok x else conv ci co 1 1 0 (W 7) x);
  add x h.
(** L151-171 (_AttnBlock) *)
Definition vq_attn (W : nat -> vals) (c : nat) : net := fun x =>
  do h <- sequential [norm c (W 0); act (W 1)] x;
  add x h.

(** [n] resnet blocks, the first from [ci] to [co] channels, each followed by attention if
    [at_res]; the layers of block [i] are [W i].  Encoder L214-229, decoder L359-373. *)
Fixpoint vq_blocks (W : nat -> nat -> nat -> vals) (i n ci co : nat) (at_res : bool) : list net :=
  match n with
  | 0 => []
  | S n' => vq_resnet (W i 0) ci co :: (if at_res then [vq_attn (W i 1) co] else []) ++ vq_blocks W (i + 1) n' co co at_res
  end.
(** L239-253 and L340-354 *)
Definition vq_mid (W : nat -> nat -> nat -> vals) (c : nat) : list net :=
  [vq_resnet (W 0 0) c c; vq_attn (W 0 1) c; vq_resnet (W 1 0) c c].

Section Nets.
Variables (ch num_res_blocks : nat) (attn_resolutions : list nat) (with_conv : bool).
Definition at_resolution (r : nat) : bool := existsb (Nat.eqb r) attn_resolutions.

(** L211-236: level after level; no downsampling after the last. *)
Fixpoint vq_down (W : nat -> nat -> nat -> nat -> vals) (lvl ci curr_res : nat) (ch_mult : list nat) : list net :=
  match ch_mult with
  | [] => []
  | m :: rest =>
      vq_blocks (W lvl) 0 num_res_blocks ci (ch * m) (at_resolution curr_res)
      ++ match rest with
         | [] => []
         | _ => vq_downsample (W lvl 0 2) (ch * m) with_conv :: vq_down W (lvl + 1) (ch * m) (curr_res / 2) rest
         end
  end.
(** L174-286; the block's last channel number is ch * ch_mult[-1] *)
Definition vq_encoder (W : nat -> nat -> nat -> nat -> vals) (ci embed_dim resolution : nat) (ch_mult : list nat) : net :=
  let c := ch * last ch_mult 0 in
  sequential (conv ci ch 3 1 1 (W 0 0 3 0) :: vq_down W 1 ch resolution ch_mult
              ++ vq_mid (W 0) c ++ [norm c (W 0 0 3 1); act (W 0 0 3 2); conv c embed_dim 3 1 1 (W 0 0 3 3)]).

(** L358-380: the levels from the last to the first; [rev_mult] is reversed(ch_mult). *)
Fixpoint vq_up (W : nat -> nat -> nat -> nat -> vals) (lvl ci curr_res : nat) (rev_mult : list nat) : list net :=
  match rev_mult with
  | [] => []
  | m :: rest =>
      vq_blocks (W lvl) 0 (num_res_blocks + 1) ci (ch * m) (at_resolution curr_res)
      ++ match rest with
         | [] => []
         | _ => vq_upsample (W lvl 0 2) (ch * m) with_conv :: vq_up W (lvl + 1) (ch * m) (curr_res * 2) rest
         end
  end.
(** L289-411 *)
Definition vq_decoder (W : nat -> nat -> nat -> nat -> vals) (co embed_dim resolution : nat) (ch_mult : list nat) : net :=
  let c := ch * last ch_mult 0 in
  let c0 := ch * hd 0 ch_mult in
  sequential (conv embed_dim c 3 1 1 (W 0 0 3 0) :: vq_mid (W 0) c
              ++ vq_up W 1 c (resolution / 2 ^ (length ch_mult - 1)) (rev ch_mult)
              ++ [norm c0 (W 0 0 3 1); act (W 0 0 3 2); conv c0 co 3 1 1 (W 0 0 3 3)]).
End Nets.

(** L541-543: Python's % of a possibly negative number *)
Definition vq_pad (factor size : nat) : nat :=
  Z.to_nat ((Z.of_nat factor - (Z.of_nat size - Z.of_nat factor)) mod Z.of_nat factor)%Z.

(** L482, L527-554 (forward).  [bottleneck_op] works on the latent. *)
Definition vq_factor (ch_mult : list nat) : nat := 2 ^ (length ch_mult - 1).
Definition vq_padded (factor : nat) (training : bool) (image : tensor R) : res (tensor R) :=
  match tshape image with
  | [_; _; height; width] =>
      if training then Ok image
      else
        let pad_height := vq_pad factor height in
        let pad_width := vq_pad factor width in
        if negb (pad_height =? 0) || negb (pad_width =? 0)
        then pad2 0%R Reflect image 0 pad_width 0 pad_height else Ok image
  | _ => Raise ValueError
  end.
Definition vq_forward (encoder decoder : net) (bottleneck_op : option net) (factor : nat) (training : bool)
    (image : tensor R) : res (tensor R) :=
  let height := nth 2 (tshape image) 0 in
  let width := nth 3 (tshape image) 0 in
  do image <- vq_padded factor training image;
  do latent <- encoder image;
  do latent <- (match bottleneck_op with Some op => op latent | None => Ok latent end);
  do out <- decoder latent;
  crop out height width.

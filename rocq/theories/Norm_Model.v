(** Model of neuralcompression/layers/_channel_norm.py and _simplified_gdn.py.

    Simplifications: numbers are real; images have four dimensions. *)
From Coq Require Import ZArith Reals List Bool Arith Lra Lia.
From Verif Require Import Base Tensor RBase RSum.
Import ListNotations.
Open Scope R_scope.

(** * ChannelNorm2D *)
(** _channel_norm.py L30-43 (__init__): the parameters of an affine layer *)
Record channel_norm := mkCN { cn_eps : R; cn_affine : option (nat * (nat -> R) * (nat -> R)) }.
Definition channel_norm_init (input_channels : nat) (epsilon : R) (affine : bool) : res channel_norm :=
  if (input_channels <=? 1)%nat then Raise ValueError
  else Ok (mkCN epsilon (if affine then Some (input_channels, fun _ => 1, fun _ => 0) else None)).
(** torch.mean and torch.var (unbiased) over the c channels *)
Definition mean (c : nat) (v : nat -> R) : R := rsum c v / INR c.
Definition var (c : nat) (v : nat -> R) : R := rsum c (fun k => (v k - mean c v) ^ 2) / (INR c - 1).
Definition normed (eps : R) (c : nat) (v : nat -> R) (k : nat) : R := (v k - mean c v) * / sqrt (var c v + eps).
(** L45-54 (forward); an affine layer broadcasts over its channels.  Images of one channel, whose variance
    is nan, are not modelled. *)
Definition channel_norm_forward (l : channel_norm) (x : tensor R) : res (tensor R) :=
  match tshape x with
  | [n; c; h; w] =>
      let y := fun b k i j => normed (cn_eps l) c (fun k => tat x [b; k; i; j]%nat) k in
      match cn_affine l with
      | None => Ok (mkT [n; c; h; w]%nat (fun idx => match idx with [b; k; i; j] => y b k i j | _ => 0 end))
      | Some (channels, gamma, beta) =>
          if (channels =? c)%nat
          then Ok (mkT [n; c; h; w]%nat (fun idx => match idx with [b; k; i; j] => gamma k * y b k i j + beta k | _ => 0 end))
          else Raise RuntimeError
      end
  | _ => Raise RuntimeError
  end.

(** * SimplifiedGDN and SimplifiedInverseGDN *)
Record gdn := mkGdn { channels : nat; gamma : nat -> nat -> R; beta : nat -> R; beta_min : R }.
(** _simplified_gdn.py L54-60, L101-107 (__init__) *)
Definition gdn_init (c : nat) (gamma_init bmin : R) : gdn :=
  mkGdn c (fun i j => (if (i =? j)%nat then 1 else 0) * gamma_init) (fun _ => 1) bmin.
(** L12-29: _ClampMin *)
Definition clamp_forward (data min : R) : R := Rmax data min.
Definition clamp_backward (data min grad : R) : R :=
  grad * (if Rle_dec min data then 1 else if Rlt_dec grad 0 then 1 else 0).
(** L72-75, L119-122: the parameters are clamped in place *)
Definition clamp_parameters (l : gdn) : gdn :=
  mkGdn (channels l) (fun i j => clamp_forward (gamma l i j) 0) (fun i => clamp_forward (beta l i) (beta_min l)) (beta_min l).
(** F.conv2d(torch.abs(image), gamma, beta) with 1x1 kernels *)
Definition conv_abs (l : gdn) (v : nat -> R) (i : nat) : R :=
  beta l i + rsum (channels l) (fun j => gamma l i j * Rabs (v j)).
(** L62-77, L109-124 (forward): the layer afterwards, and the result *)
Definition gdn_forward (inverse : bool) (l : gdn) (x : tensor R) : gdn * res (tensor R) :=
  let l := clamp_parameters l in
  (l, match tshape x with
      | [n; c; h; w] =>
          if (c =? channels l)%nat
          then Ok (mkT [n; c; h; w]%nat (fun idx => match idx with
                 | [b; k; i; j] =>
                     let d := conv_abs l (fun k => tat x [b; k; i; j]%nat) k in
                     if inverse then tat x [b; k; i; j]%nat * d else tat x [b; k; i; j]%nat / d
                 | _ => 0 end))
          else Raise RuntimeError
      | _ => Raise RuntimeError
      end).
(** A history of a layer: steps of an optimizer or loaded parameters, and calls. *)
Inductive gdn_op := SetParameters (g : nat -> nat -> R) (b : nat -> R) | Call (x : tensor R).
Fixpoint gdn_run (inverse : bool) (l : gdn) (ops : list gdn_op) : gdn * list (res (tensor R)) :=
  match ops with
  | [] => (l, [])
  | SetParameters g b :: ops => gdn_run inverse (mkGdn (channels l) g b (beta_min l)) ops
  | Call x :: ops => let '(l', y) := gdn_forward inverse l x in let '(l'', ys) := gdn_run inverse l' ops in (l'', y :: ys)
  end.

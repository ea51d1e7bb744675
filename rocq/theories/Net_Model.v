(** Shape semantics of the torch modules that the image and video networks are made of.

    Simplification: what a convolution, normalisation or interpolation computes is left open
    (any function of the whole input tensor, so every weight and every rounding of the
    hardware is covered); its checks and its output shape are torch's.  Tensors have four
    dimensions (B, C, H, W). *)
From Coq Require Import Arith List Bool Reals.
From Verif Require Import Base Tensor.
Import ListNotations.
Open Scope nat_scope.

(** What a layer computes, at every index of its output. *)
Notation vals := (tensor R -> list nat -> R).
Notation net := (tensor R -> res (tensor R)).

(** torch.nn.Conv2d(ci, co, kernel_size=k, stride=s, padding=p) *)
Definition conv (ci co k s p : nat) (f : vals) : net := fun x =>
  match tshape x with
  | [b; c; h; w] =>
      if (c =? ci) && (k <=? h + 2 * p) && (k <=? w + 2 * p)
      then Ok (mkT [b; co; (h + 2 * p - k) / s + 1; (w + 2 * p - k) / s + 1] (f x))
      else Raise RuntimeError
  | _ => Raise RuntimeError
  end.

(** torch.nn.ConvTranspose2d(ci, co, kernel_size=k, stride=s, padding=p, output_padding=op);
    torch refuses op >= s, and empty inputs are refused here. *)
Definition deconv (ci co k s p op : nat) (f : vals) : net := fun x =>
  match tshape x with
  | [b; c; h; w] =>
      if (c =? ci) && (op <? s) && (1 <=? h) && (1 <=? w)
      then Ok (mkT [b; co; (h - 1) * s + k + op - 2 * p; (w - 1) * s + k + op - 2 * p] (f x))
      else Raise RuntimeError
  | _ => Raise RuntimeError
  end.
(** ... called with an output size: between (h-1)*s - 2p + k and that plus s-1, else
    ValueError (torch's _ConvTransposeNd._output_padding). *)
Definition deconv_range (k s p h oh : nat) : bool :=
  (h * s + k <=? oh + s + 2 * p) && (oh + s + 2 * p <? h * s + k + s).
Definition deconv_to (ci co k s p : nat) (f : vals) (x : tensor R) (oh ow : nat) : res (tensor R) :=
  match tshape x with
  | [b; c; h; w] =>
      if deconv_range k s p h oh && deconv_range k s p w ow then
        if (c =? ci) && (1 <=? h) && (1 <=? w) then Ok (mkT [b; co; oh; ow] (f x)) else Raise RuntimeError
      else Raise ValueError
  | _ => Raise RuntimeError
  end.

(** A normalisation layer with [c] channels: shape kept, RuntimeError for another number. *)
Definition norm (c : nat) (f : vals) : net := fun x =>
  match tshape x with
  | [b; c'; h; w] => if c' =? c then Ok (mkT (tshape x) (f x)) else Raise RuntimeError
  | _ => Raise RuntimeError
  end.
(** A pointwise activation. *)
Definition act (f : vals) : net := fun x => Ok (mkT (tshape x) (f x)).

(** torch.nn.functional.avg_pool2d(x, 2): RuntimeError if nothing is left. *)
Definition avg_pool2 : net := fun x =>
  match tshape x with
  | [b; c; h; w] =>
      if (2 <=? h) && (2 <=? w)
      then Ok (mkT [b; c; h / 2; w / 2]
                 (fun idx => match idx with
                             | [b; c; i; j] =>
                                 ((tat x [b; c; 2 * i; 2 * j]%nat + tat x [b; c; 2 * i; 2 * j + 1]%nat
                                   + tat x [b; c; 2 * i + 1; 2 * j]%nat + tat x [b; c; 2 * i + 1; 2 * j + 1]%nat) / 4)%R
                             | _ => 0%R
                             end))
      else Raise RuntimeError
  | _ => Raise RuntimeError
  end.
(** Nearest-neighbour upsampling by 2: F.interpolate(x, scale_factor=2.0, mode="nearest"),
    torch.nn.Upsample(scale_factor=2). *)
Definition upsample2 : net := fun x =>
  match tshape x with
  | [b; c; h; w] =>
      if (1 <=? h) && (1 <=? w)
      then Ok (mkT [b; c; 2 * h; 2 * w]
                 (fun idx => match idx with [b; c; i; j] => tat x [b; c; i / 2; j / 2] | _ => 0%R end))
      else Raise RuntimeError
  | _ => Raise RuntimeError
  end.
(** F.interpolate(x, size=(oh, ow)) *)
Definition interpolate (f : vals) (x : tensor R) (oh ow : nat) : res (tensor R) :=
  match tshape x with
  | [b; c; h; w] =>
      if (1 <=? h) && (1 <=? w) && (1 <=? oh) && (1 <=? ow) then Ok (mkT [b; c; oh; ow] (f x)) else Raise RuntimeError
  | _ => Raise RuntimeError
  end.

(** torch.cat(xs, dim=1) *)
Definition cat1 (x y : tensor R) : res (tensor R) :=
  match tshape x, tshape y with
  | [b; c; h; w], [b'; c'; h'; w'] =>
      if (b =? b') && (h =? h') && (w =? w')
      then Ok (mkT [b; c + c'; h; w]
                 (fun idx => match idx with
                             | [b; k; i; j] => if k <? c then tat x [b; k; i; j] else tat y [b; k - c; i; j]
                             | _ => 0%R
                             end))
      else Raise RuntimeError
  | _, _ => Raise RuntimeError
  end.

(** Elementwise operators broadcast dimensions of size 1. *)
Fixpoint bshape (s t : list nat) : option (list nat) :=
  match s, t with
  | [], [] => Some []
  | d :: s', e :: t' =>
      match bshape s' t' with
      | Some r => if d =? e then Some (d :: r)
                  else if d =? 1 then Some (e :: r)
                  else if e =? 1 then Some (d :: r) else None
      | None => None
      end
  | _, _ => None
  end.
Fixpoint bidx (s idx : list nat) : list nat :=
  match s, idx with
  | d :: s', i :: idx' => (if d =? 1 then 0 else i) :: bidx s' idx'
  | _, _ => []
  end.
Definition pointwise2 (f : R -> R -> R) (x y : tensor R) : res (tensor R) :=
  match bshape (tshape x) (tshape y) with
  | Some s => Ok (mkT s (fun idx => f (tat x (bidx (tshape x) idx)) (tat y (bidx (tshape y) idx))))
  | None => Raise RuntimeError
  end.
Definition add : tensor R -> tensor R -> res (tensor R) := pointwise2 Rplus.
Definition sub : tensor R -> tensor R -> res (tensor R) := pointwise2 Rminus.

(** torch.nn.Sequential *)
Fixpoint sequential (l : list net) : net := fun x =>
  match l with
  | [] => Ok x
  | n :: l' => do y <- n x; sequential l' y
  end.

(** torch.Tensor.clamp(0.0, 1.0) *)
Definition clamp01 (x : tensor R) : tensor R := mkT (tshape x) (fun idx => Rmax 0 (Rmin 1 (tat x idx))).

(** neuralcompression/functional/_pad_image.py L12-37, with mode="reflect" *)
Definition pad_image_to_factor (image : tensor R) (factor : nat) : res (tensor R * (nat * nat)) :=
  match tshape image with
  | [_; _; height; width] =>
      let pad_height := (factor - height mod factor) mod factor in
      let pad_width := (factor - width mod factor) mod factor in
      do image <- (if negb (pad_height =? 0) || negb (pad_width =? 0)
                   then pad2 0%R Reflect image 0 pad_width 0 pad_height else Ok image);
      Ok (image, (height, width))
  | _ => Raise ValueError
  end.

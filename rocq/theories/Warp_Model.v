(** Model of neuralcompression/functional/_dense_image_warp.py and _optical_flow_to_color.py, with the
    sampling of torch.nn.functional.grid_sample (modes bilinear and nearest; the padding modes zeros,
    border and reflection).

    Simplifications: numbers are real; mode="bicubic" is not modelled; an image and a flow have four
    dimensions. *)
From Coq Require Import ZArith Reals List Bool Arith Lra Lia.
From Verif Require Import Base Tensor RBase Func_Model.
Import ListNotations.
Open Scope R_scope.

(** torch.linspace(-1, 1, n)[k] (_dense_image_warp.py L26-27) *)
Definition linspace (n k : nat) : R := if (n =? 1)%nat then -1 else -1 + 2 * INR k / (INR n - 1).

Inductive mode := Bilinear | Nearest.
Inductive padding := Zeros | Border | Reflection.

(** grid_sampler_unnormalize *)
Definition unnormalize (align : bool) (size : nat) (c : R) : R :=
  if align then (c + 1) / 2 * (INR size - 1) else ((c + 1) * INR size - 1) / 2.
(** clip_coordinates *)
Definition clip (size : nat) (x : R) : R := Rmin (INR size - 1) (Rmax x 0).
(** reflect_coordinates(in, twice_low, twice_high) *)
Definition reflect (x twice_low twice_high : R) : R :=
  if Req_EM_T twice_low twice_high then 0
  else
    let lo := twice_low / 2 in
    let span := (twice_high - twice_low) / 2 in
    let y := Rabs (x - lo) in
    let flips := Rfloor (y / span) in
    let extra := y - span * IZR flips in
    if Z.even flips then extra + lo else span - extra + lo.
(** grid_sampler_compute_source_index *)
Definition source (p : padding) (align : bool) (size : nat) (c : R) : R :=
  let x := unnormalize align size c in
  match p with
  | Zeros => x
  | Border => clip size x
  | Reflection => clip size (if align then reflect x 0 (2 * (INR size - 1)) else reflect x (-1) (2 * INR size - 1))
  end.

(** a pixel of the image, zero outside *)
Definition pixel (H W : nat) (f : nat -> nat -> R) (y x : Z) : R :=
  if ((0 <=? y) && (y <? Z.of_nat H) && (0 <=? x) && (x <? Z.of_nat W))%Z then f (Z.to_nat y) (Z.to_nat x) else 0.
(** grid_sampler_2d for one plane and one place *)
Definition sample (m : mode) (H W : nat) (f : nat -> nat -> R) (iy ix : R) : R :=
  match m with
  | Bilinear =>
      let y0 := Rfloor iy in let x0 := Rfloor ix in
      let y1 := (y0 + 1)%Z in let x1 := (x0 + 1)%Z in
      pixel H W f y0 x0 * ((IZR x1 - ix) * (IZR y1 - iy)) +
      pixel H W f y0 x1 * ((ix - IZR x0) * (IZR y1 - iy)) +
      pixel H W f y1 x0 * ((IZR x1 - ix) * (iy - IZR y0)) +
      pixel H W f y1 x1 * ((ix - IZR x0) * (iy - IZR y0))
  | Nearest => pixel H W f (round_even iy) (round_even ix)
  end.

(** _dense_image_warp.py L74-87 for one plane: an image of H x W, a flow of h x w; channel 0 of the flow
    is along the width *)
Definition warp (m : mode) (p : padding) (align : bool) (H W : nat) (f : nat -> nat -> R)
  (h w : nat) (flow : nat -> nat -> R * R) (i j : nat) : R :=
  let gx := linspace w j + fst (flow i j) in
  let gy := linspace h i + snd (flow i j) in
  sample m H W f (source p align H gy) (source p align W gx).

(** A tensor with its dtype and device. *)
Record dev_tensor := mkDT { dt : tensor R; dtype : nat; device : nat }.
(** L37-87 (dense_image_warp) *)
Definition dense_image_warp (image flow : dev_tensor) (m : mode) (p : padding) (align : bool) : res (tensor R) :=
  if negb (dtype image =? dtype flow)%nat || negb (device image =? device flow)%nat then Raise ValueError
  else if negb (last (tshape (dt flow)) 0 =? 2)%nat then Raise ValueError
  else match tshape (dt image), tshape (dt flow) with
  | [b; c; H; W], [b'; h; w; _] =>
      if negb (b =? b')%nat || (H * W =? 0)%nat then Raise RuntimeError
      else Ok (mkT [b; c; h; w]%nat (fun idx => match idx with
        | [n; k; i; j] => warp m p align H W (fun y x => tat (dt image) [n; k; y; x]%nat)
                            h w (fun i j => (tat (dt flow) [n; i; j; 0]%nat, tat (dt flow) [n; i; j; 1]%nat)) i j
        | _ => 0 end))
  | _, _ => Raise RuntimeError
  end.

(** * Colours *)
(** torch.atan2 *)
Definition atan2 (y x : R) : R :=
  if Rlt_dec 0 x then atan (y / x)
  else if Rlt_dec x 0 then (if Rlt_dec y 0 then atan (y / x) - PI else atan (y / x) + PI)
  else if Rlt_dec 0 y then PI / 2 else if Rlt_dec y 0 then - (PI / 2) else 0.
(** _optical_flow_to_color.py L33-36 (angles_in_0_to_360_range) *)
Definition angle (y x : R) : R :=
  let a := atan2 y x in 180 / PI * (if Rlt_dec a 0 then 2 * PI + a else a).
Definition indices (b h w : nat) : list (nat * nat * nat) :=
  flat_map (fun n => flat_map (fun i => map (fun j => (n, i, j)) (seq 0 w)) (seq 0 h)) (seq 0 b).
Definition rmin_list (d : R) (l : list R) : R := fold_right Rmin d l.
Definition rmax_list (d : R) (l : list R) : R := fold_right Rmax d l.
(** L14-46 *)
Definition optical_flow_to_color (flow : tensor R) (eps : R) : res (tensor R) :=
  match tshape flow with
  | [b; c; h; w] =>
      if (c <? 2)%nat then Raise IndexError
      else
        let mag := fun n i j => sqrt (tat flow [n; 0; i; j]%nat ^ 2 + tat flow [n; 1; i; j]%nat ^ 2) in
        match map (fun '(n, i, j) => mag n i j) (indices b h w) with
        | [] => Raise RuntimeError          (* mag.min() *)
        | m0 :: ms =>
            let lo := rmin_list m0 ms in
            let hi := rmax_list (m0 - lo) (map (fun m => m - lo) ms) in
            hsv_to_rgb (mkT [b; 3; h; w]%nat (fun idx => match idx with
              | [n; k; i; j] =>
                  match k with
                  | 0%nat => angle (tat flow [n; 0; i; j]%nat) (tat flow [n; 1; i; j]%nat)
                  | 1%nat => 1
                  | _ => (mag n i j - lo) / (hi + eps)
                  end
              | _ => 0 end))
        end
  | _ => Raise ValueError
  end.

(** Model of projects/illm/default_transforms.py: the transforms of training and validation pictures.

    The transforms of torchvision it composes are modelled after torchvision's source (pictures of PIL).
    Simplifications: random draws are arguments; resampling is an arbitrary function of a plane; real arithmetic in
    the draws of RandomResizedCrop, while the size computed by Resize is in binary64. *)
From Coq Require Import ZArith Reals List Bool.
From Verif Require Import Base RBase RFloat.
Import ListNotations.
Open Scope Z_scope.

(** A picture: channels, height, width, and the byte of a channel at a row and a column. *)
Record picture := mkPic { channels : nat; height : Z; width : Z; byte : nat -> Z -> Z -> Z }.
(** A tensor of shape [C, H, W]. *)
Record image := mkImg { i_channels : nat; i_height : Z; i_width : Z; value : nat -> Z -> Z -> R }.

(** Resampling of one plane, from (h, w) to (h', w'): PIL's Image.resize *)
Definition resampling := Z -> Z -> Z -> Z -> (Z -> Z -> Z) -> (Z -> Z -> Z).
Definition resized (rs : resampling) (h' w' : Z) (p : picture) : picture :=
  mkPic (channels p) h' w' (fun c => rs (height p) (width p) h' w' (byte p c)).
(** F.crop inside the picture *)
Definition crop (i j h w : Z) (p : picture) : picture :=
  mkPic (channels p) h w (fun c y x => byte p c (i + y) (j + x)).

(** F.pad with padding_mode="reflect" (np.pad): [k] rows away from the first of [n] rows; a single row is repeated *)
Definition reflect (n k : Z) : Z :=
  if n =? 1 then 0 else let m := k mod (2 * (n - 1)) in if m <? n then m else 2 * (n - 1) - m.
Definition pad_reflect (ph pw : Z) (p : picture) : picture :=
  mkPic (channels p) (height p + 2 * ph) (width p + 2 * pw)
        (fun c y x => byte p c (reflect (height p) (y - ph)) (reflect (width p) (x - pw))).
(** RandomCrop(size, pad_if_needed=True, padding_mode="reflect") with the draws (i, j): a side that is too short is
    padded on both ends by what is missing *)
Definition random_crop (size : Z) (draw : Z * Z) (p : picture) : picture :=
  let p := if width p <? size then pad_reflect 0 (size - width p) p else p in
  let p := if height p <? size then pad_reflect (size - height p) 0 p else p in
  let '(i, j) := if (width p =? size) && (height p =? size) then (0, 0) else draw in
  crop i j size size p.
(** The range of torch.randint in it *)
Definition crop_range (size n : Z) : Z := (if n <? size then n + 2 * (size - n) else n) - size.

(** RandomResizedCrop.get_params: the draws of one attempt, the part of the area and the aspect ratio, and the corner *)
Record attempt := mkAtt { part : R; aspect : R; corner : Z * Z }.
Definition window (H W : Z) (a : attempt) : Z * Z :=
  let target_area := (IZR (H * W) * part a)%R in
  (round_even (sqrt (target_area / aspect a)), round_even (sqrt (target_area * aspect a))).
Definition fits (H W h w : Z) : bool := (0 <? w) && (w <=? W) && (0 <? h) && (h <=? H).
(** The fallback after ten attempts *)
Definition central (H W : Z) : Z * Z * Z * Z :=
  let in_ratio := (IZR W / IZR H)%R in
  let '(h, w) :=
    if Rlt_dec in_ratio (3 / 4) then (round_even (IZR W / (3 / 4)), W)
    else if Rlt_dec (4 / 3) in_ratio then (H, round_even (IZR H * (4 / 3)))
    else (H, W) in
  ((H - h) / 2, (W - w) / 2, h, w).
Fixpoint get_params (H W : Z) (attempts : list attempt) : Z * Z * Z * Z :=
  match attempts with
  | [] => central H W
  | a :: l =>
      let '(h, w) := window H W a in
      if fits H W h w then (fst (corner a), snd (corner a), h, w) else get_params H W l
  end.
Definition random_resized_crop (rs : resampling) (size : Z) (attempts : list attempt) (p : picture) : picture :=
  let '(i, j, h, w) := get_params (height p) (width p) attempts in
  resized rs size size (crop i j h w p).

(** RandomHorizontalFlip *)
Definition hflip (flip : bool) (p : picture) : picture :=
  if flip then mkPic (channels p) (height p) (width p) (fun c y x => byte p c y (width p - 1 - x)) else p.
(** ToTensor *)
Definition to_tensor (p : picture) : image :=
  mkImg (channels p) (height p) (width p) (fun c y x => (IZR (byte p c y x) / 255)%R).

(** The draws of one training picture: which transform, its own draws, whether to flip. *)
Inductive choice := Crop (corner : Z * Z) | ResizedCrop (attempts : list attempt).
(** default_transforms.py L18-31 *)
Definition default_train_transform (image_size : Z) (rs : resampling) (ch : choice) (flip : bool) (p : picture) : image :=
  let p := match ch with
           | Crop d => random_crop image_size d p
           | ResizedCrop l => random_resized_crop rs image_size l p
           end in
  to_tensor (hflip flip p).

(** Resize(size): the shorter side gets the size; the other int(size * long / short) *)
Definition resized_size (size h w : Z) : Z * Z :=
  let '(short, long) := if w <=? h then (w, h) else (h, w) in
  let new_long := Rfloor (b64 (IZR (size * long) / IZR short)) in
  if w <=? h then (new_long, size) else (size, new_long).
Definition resize (rs : resampling) (size : Z) (p : picture) : picture :=
  let '(h, w) := resized_size size (height p) (width p) in resized rs h w p.
(** CenterCrop(size) *)
Definition center_crop (size : Z) (p : picture) : picture :=
  let pl := if width p <? size then (size - width p) / 2 else 0 in
  let pt := if height p <? size then (size - height p) / 2 else 0 in
  let pr := if width p <? size then (size - width p + 1) / 2 else 0 in
  let pb := if height p <? size then (size - height p + 1) / 2 else 0 in
  let padded := mkPic (channels p) (height p + pt + pb) (width p + pl + pr)
    (fun c y x => if (pt <=? y) && (y <? pt + height p) && (pl <=? x) && (x <? pl + width p) then byte p c (y - pt) (x - pl) else 0) in
  crop (round_even (IZR (height padded - size) / 2)) (round_even (IZR (width padded - size) / 2)) size size padded.
(** default_transforms.py L34-41 *)
Definition default_val_transform (image_size : Z) (rs : resampling) (p : picture) : image :=
  to_tensor (center_crop image_size (resize rs image_size p)).

(** Model of the video data modules: projects/torch_vct/datamodules/kinetics.py, vimeo.py and
    video_data_api.py, and projects/deep_video_compression/data_module.py.

    Outside the code, modelled after their documentation: the transforms of torchvision and pytorchvideo and
    PyTorch's collation.  Simplifications: real numbers (also in the indices of UniformTemporalSubsample);
    random draws are arguments; the resizing of RandomResizedCrop is an arbitrary function of a window of one
    plane; sampling and decoding of clips (pytorchvideo.data.Kinetics) is outside the model. *)
From Coq Require Import String Arith List Bool Reals Lra Lia.
From Verif Require Import Base.
Import ListNotations.
Open Scope string_scope.
Open Scope list_scope.
Open Scope nat_scope.

(** Tensors of four dimensions [A, B, H, W]: clips [C, T, H, W] or videos [T, C, H, W]. *)
Record video := mkV { d0 : nat; d1 : nat; vh : nat; vw : nat; at4 : nat -> nat -> nat -> nat -> R }.
Definition plane := nat -> nat -> R.

(** ** Transforms *)
(** UniformTemporalSubsample(n) of a clip of T frames: frames floor(linspace(0, T - 1, n)); no frame:
    AssertionError. *)
Definition subsample_index (T n j : nat) : nat := if n =? 1 then 0 else (j * (T - 1)) / (n - 1).
Definition subsample (n : nat) (v : video) : res video :=
  if d1 v =? 0 then Raise AssertionError
  else Ok (mkV (d0 v) n (vh v) (vw v) (fun c t y x => at4 v c (subsample_index (d1 v) n t) y x)).
(** A transform of planes applied to all planes of a tensor alike: new height, new width, new plane. *)
Record spatial := mkS { sh : nat -> nat -> nat; sw : nat -> nat -> nat; sp : nat -> nat -> plane -> plane }.
Definition apply_spatial (s : spatial) (v : video) : video :=
  mkV (d0 v) (d1 v) (sh s (vh v) (vw v)) (sw s (vh v) (vw v)) (fun a b => sp s (vh v) (vw v) (fun y x => at4 v a b y x)).
(** RandomCrop((ch, cw), pad_if_needed, padding_mode="edge"): on each side of a picture smaller than the crop,
    the missing number of rows (columns) is added by repeating the border; then rows from i, columns from j. *)
Definition clampn (k n : nat) (pad : nat) : nat := Nat.min (k - pad) (n - 1).
Definition random_crop (ch cw i j : nat) : spatial :=
  mkS (fun _ _ => ch) (fun _ _ => cw) (fun h w p y x => p (clampn (y + i) h (ch - h)) (clampn (x + j) w (cw - w))).
(** The draws it makes: 0 <= i <= height + 2 pad - ch *)
Definition crop_draw (ch cw h w i j : nat) : Prop := i + ch <= h + 2 * (ch - h) /\ j + cw <= w + 2 * (cw - w).
(** RandomResizedCrop((ch, cw)): some window, resized *)
Definition resized_crop (ch cw : nat) (resize : nat -> nat -> plane -> plane) : spatial := mkS (fun _ _ => ch) (fun _ _ => cw) resize.
(** RandomHorizontalFlip *)
Definition hflip (b : bool) : spatial := mkS (fun h _ => h) (fun _ w => w) (fun _ w p y x => if b then p y (w - 1 - x) else p y x).
(** CenterCrop((ch, cw)): a smaller picture gets zeros (half, rounded down, above and left); then from
    round(margin / 2), Python's round (half to even). *)
Definition half_even (m : nat) : nat := if m mod 4 =? 3 then m / 2 + 1 else m / 2.
Definition center_offset (n c : nat) : nat := half_even (n - c).
Definition center_crop (ch cw : nat) : spatial :=
  mkS (fun _ _ => ch) (fun _ _ => cw) (fun h w p y x =>
    let pt := (ch - h) / 2 in let pl := (cw - w) / 2 in
    let y' := y + center_offset h ch in let x' := x + center_offset w cw in
    if ((pt <=? y') && (y' <? pt + h) && (pl <=? x') && (x' <? pl + w))%bool then p (y' - pt) (x' - pl) else 0%R).

(** ** Kinetics (kinetics.py) *)
Inductive subsampling := NoSub | SubInt (n : nat) | SubList (ns : list nat).
(** L34-90; max of an empty list raises ValueError *)
Record kinetics := mkK { k_sub : subsampling; k_max : nat; k_normalize : bool }.
Definition kinetics_new (s : subsampling) (normalize : bool) : res kinetics :=
  match s with
  | NoSub => Ok (mkK s 0 normalize)
  | SubInt n => Ok (mkK s n normalize)
  | SubList [] => Raise ValueError
  | SubList (n :: ns) => Ok (mkK s (fold_left Nat.max ns n) normalize)
  end.
Definition video_crop_size : nat := 256.
(** The draws of one clip: which number of frames; crop or resized crop; the crop's corner; the resizing;
    flipping. *)
Record draws := mkD { pick : nat; use_crop : bool; crop_i : nat; crop_j : nat; resize : nat -> nat -> plane -> plane; flip : bool }.
(** L204-221; RandomChoice of an empty list cannot occur *)
Definition temporal (k : kinetics) (mode : string) (d : draws) (v : video) : res video :=
  match k_sub k with
  | NoSub => Ok v
  | SubInt n => subsample n v
  | SubList ns => if (mode =? "train")%string then subsample (nth (pick d) ns 0) v else subsample (k_max k) v
  end.
Definition map_values (f : R -> R) (v : video) : video := mkV (d0 v) (d1 v) (vh v) (vw v) (fun a b y x => f (at4 v a b y x)).
(** L85-87, L223-226: Normalize(0.45, 0.225) of three channels *)
Definition normalization (k : kinetics) (x : R) : R := if k_normalize k then ((x - 45 / 100) / (225 / 1000))%R else x.
(** L227-240 *)
Definition train_augmentation (ch cw : nat) (d : draws) (v : video) : video :=
  let v := apply_spatial (if use_crop d then random_crop ch cw (crop_i d) (crop_j d) else resized_crop ch cw (resize d)) v in
  apply_spatial (hflip (flip d)) v.
(** L190-252 *)
Definition video_transform (k : kinetics) (mode : string) (d : draws) (v : video) : res video :=
  do v <- temporal k mode d v;
  let v := map_values (fun x => x / 255)%R v in
  let v := map_values (normalization k) v in
  Ok (if (mode =? "train")%string then train_augmentation video_crop_size video_crop_size d v
      else if (mode =? "val")%string then apply_spatial (center_crop video_crop_size video_crop_size) v
      else v).

(** permute(1, 0, 2, 3) *)
Definition permute (v : video) : video := mkV (d1 v) (d0 v) (vh v) (vw v) (fun t c y x => at4 v c t y x).
(** a batch [B, T, C, H, W] *)
Record batch := mkB { bn : nat; bt : nat; bc : nat; bh : nat; bw : nat; at5 : nat -> nat -> nat -> nat -> nat -> R }.
Definition same_shape (v w : video) : bool := ((d0 v =? d0 w) && (d1 v =? d1 w) && (vh v =? vh w) && (vw v =? vw w))%bool.
(** torch.stack in default_collate: RuntimeError for different sizes; an empty batch raises IndexError *)
Definition collate (l : list video) : res batch :=
  match l with
  | [] => Raise IndexError
  | v :: _ =>
      if forallb (same_shape v) l
      then Ok (mkB (length l) (d0 v) (d1 v) (vh v) (vw v) (fun b t c y x => at4 (nth b l v) t c y x))
      else Raise RuntimeError
  end.
(** L92-100 *)
Definition collate_val (l : list video) : res batch := collate (map permute l).
(** torch.nn.utils.rnn.pad_sequence(batch_first=True): videos padded with zero frames at the end; other
    dimensions must agree *)
Definition pad_to (n : nat) (v : video) : video := mkV n (d1 v) (vh v) (vw v) (fun t c y x => if t <? d0 v then at4 v t c y x else 0%R).
Definition pad_sequence (l : list video) : list video := map (pad_to (fold_right Nat.max 0 (map d0 l))) l.
(** L102-120; the data loader (L146-152) leaves pad False *)
Definition collate_train (pad : bool) (l : list video) : res batch :=
  let l := map permute l in
  if pad then collate (pad_sequence l) else collate l.

(** ** Vimeo (vimeo.py L57-80): tensors [T, C, H, W] already in [0, 1], transformed, stacked *)
Definition vimeo_transform (mode : string) (ch cw : nat) (d : draws) (v : video) : video :=
  if (mode =? "train")%string then train_augmentation ch cw d v else apply_spatial (center_crop ch cw) v.
Definition vimeo_collate : list video -> res batch := collate.

(** ** Deep video compression (data_module.py L46-50, L58-65): frames_per_group must be in range(1, 8); frames
    are cropped in the centre (as pictures of bytes) and divided by 255 (ToTensor) *)
Definition dvc_new (frames_per_group : nat) : res nat :=
  if existsb (Nat.eqb frames_per_group) (seq 1 7) then Ok frames_per_group else Raise ValueError.
Definition dvc_transform (size : nat) (v : video) : video := map_values (fun x => x / 255)%R (apply_spatial (center_crop size size) v).

(** ** video_data_api.py *)
(** L42-47 (validate_shape), on shapes *)
Definition validate_shape (shape : list nat) : res unit :=
  if negb (length shape =? 5) then Raise ValueError else if negb (nth 2 shape 0 =? 3) then Raise ValueError else Ok tt.
Definition shape_of (b : batch) : list nat := [bn b; bt b; bc b; bh b; bw b].
(** L91-104 (validate_shapes and get_scenes_iter): the type and number of dimensions are checked, then the
    latents of one time are returned in order *)
Record scene := mkScene { sn : nat; scc : nat; sch : nat; scw : nat; at_s : nat -> nat -> nat -> nat -> R }.
Definition get_scenes_iter (is_float32 : bool) (b : batch) : res (list scene) :=
  if negb is_float32 then Raise ValueError
  else Ok (map (fun i => mkScene (bn b) (bc b) (bh b) (bw b) (fun n c y x => at5 b n i c y x)) (seq 0 (bt b))).

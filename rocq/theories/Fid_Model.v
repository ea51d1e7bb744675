(** Model of neuralcompression/functional/_image_to_255_scale.py and
    neuralcompression/metrics/_update_patch_fid.py. *)
From Coq Require Import ZArith Arith List Bool Reals.
From Verif Require Import Base RBase RFloat Tensor.
Import ListNotations.
Open Scope nat_scope.

(** Whether some element of a tensor satisfies [p]. *)
Definition tany {A} (p : A -> bool) (t : tensor A) : bool :=
  existsb (fun q => p (tat t (unravel (tshape t) q))) (seq 0 (prod (tshape t))).
Definition Rgtb (a b : R) : bool := if Rlt_dec b a then true else false.

(** _image_to_255_scale.py L12-37 for a float32 image and dtype=torch.uint8: [image.max() > 1.0]
    is "some element exceeds 1.0"; max() of an empty tensor is a RuntimeError.  The product is
    rounded to float32; the conversion to uint8 keeps the low 8 bits of the integer. *)
Definition to_255 (x : R) : Z := u8 (round_even (b32 (x * 255))).
Definition image_to_255_scale (image : tensor R) : res (tensor Z) :=
  if prod (tshape image) =? 0 then Raise RuntimeError
  else if tany (fun v => Rgtb v 1) image then Raise ValueError
  else if tany (fun v => Rgtb 0 v) image then Raise ValueError
  else Ok (mkT (tshape image) (fun i => to_255 (tat image i))).

(** torch.nn.functional.unfold(x, kernel_size=p, stride=p): RuntimeError if no patch fits. *)
Definition unfold_patches (x : tensor R) (p : nat) : res (tensor R) :=
  match tshape x with
  | [b; c; h; w] =>
      if (1 <=? p) && (p <=? h) && (p <=? w) then
        let ny := (h - p) / p + 1 in
        let nx := (w - p) / p + 1 in
        Ok (mkT [b; c * (p * p); ny * nx]
              (fun idx => match idx with
                          | [k; d; l] =>
                              tat x [k; d / (p * p); (l / nx) * p + (d mod (p * p)) / p; (l mod nx) * p + d mod p]
                          | _ => 0%R
                          end))
      else Raise RuntimeError
  | _ => Raise RuntimeError
  end.
(** x[:, :, s:, s:] *)
Definition shift_image (x : tensor R) (s : nat) : res (tensor R) :=
  match tshape x with
  | [b; c; h; w] =>
      Ok (mkT [b; c; h - s; w - s]
            (fun idx => match idx with
                        | [k; c; y; z] => tat x [k; c; s + y; s + z]
                        | _ => 0%R
                        end))
  | _ => Raise IndexError
  end.
(** _update_patch_fid.py L66-77: image_to_255_scale(F.unfold(...).permute(0, 2, 1)
    .reshape(-1, 3, patch_size, patch_size), dtype=torch.uint8) *)
Definition cut (x : tensor R) (p : nat) : res (tensor Z) :=
  do u <- unfold_patches x p;
  do r <- reshape_infer (permute u [0; 2; 1]) [3; p; p];
  image_to_255_scale r.

(** A metric is the list of its update calls: the images and the [real] flag. *)
Definition metric : Type := list (tensor Z * bool).
Record metrics := mkMetrics { fid : option metric; fid_swav : option metric; kid : option metric }.
Definition feed (real fake : tensor Z) (m : option metric) : option metric :=
  match m with
  | Some l => Some (l ++ [(real, true); (fake, false)])
  | None => None
  end.
Definition feed_all real fake (m : metrics) : metrics :=
  mkMetrics (feed real fake (fid m)) (feed real fake (fid_swav m)) (feed real fake (kid m)).

(** _update_patch_fid.py L20-123.  Returns the metrics, updated as far as the call got, and
    the patch count or the exception.  num_y >= 1.5 * patch_size is exact in float64. *)
Definition update_patch_fid (input_images pred : tensor R) (m : metrics) (patch_size : nat)
  : metrics * res nat :=
  match fid m, kid m, fid_swav m with
  | None, None, None => (m, Raise ValueError)
  | _, _, _ =>
      match (do real <- cut input_images patch_size;
             do fake <- cut pred patch_size; Ok (real, fake)) with
      | Raise e => (m, Raise e)
      | Ok (real, fake) =>
          let patch_count := nth 0 (tshape real) 0 in
          let m := feed_all real fake m in
          let num_y := nth 2 (tshape input_images) 0 in
          let num_x := nth 3 (tshape input_images) 0 in
          if (3 * patch_size <=? 2 * num_y) && (3 * patch_size <=? 2 * num_x) then
            match (do i <- shift_image input_images (patch_size / 2);
                   do real <- cut i patch_size;
                   do j <- shift_image pred (patch_size / 2);
                   do fake <- cut j patch_size; Ok (real, fake)) with
            | Raise e => (m, Raise e)
            | Ok (real, fake) => (feed_all real fake m, Ok (patch_count + nth 0 (tshape real) 0))
            end
          else (m, Ok patch_count)
      end
  end.

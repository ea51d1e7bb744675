(** Model of neuralcompression/models/_unet_discriminator.py L18-338 (UnetDiscriminator,
    ConditionalUnetDiscriminator): networks with arbitrary weights and torch's shapes
    (Net_Model.v).

    Simplification: batch normalisation's refusal, in training, of a single value per channel
    is left out; instance normalisation's is modelled. *)
From Coq Require Import String ZArith Arith List Bool Reals.
From Verif Require Import Base Tensor Net_Model.
Import ListNotations.
Open Scope nat_scope.

(** L18-20 *)
Inductive norm_type := Batch | Spectral | Instance | IdentityNorm.
Definition verify_norm_type (s : string) : res norm_type :=
  if String.eqb s "batch" then Ok Batch
  else if String.eqb s "spectral" then Ok Spectral
  else if String.eqb s "instance" then Ok Instance
  else if String.eqb s "identity" then Ok IdentityNorm
  else Raise ValueError.
(** L32-39; torch's InstanceNorm2d without affine parameters checks no channels but refuses
    a single spatial element. *)
Definition norm_layer (t : norm_type) (c : nat) (f : vals) : net :=
  match t with
  | Batch => norm c f
  | Instance => fun x => match tshape x with
                         | [_; _; h; w] => if h * w =? 1 then Raise ValueError else Ok (mkT (tshape x) (f x))
                         | _ => Raise ValueError
                         end
  | Spectral | IdentityNorm => fun x => Ok x
  end.
(** Whether the in-place LeakyReLU after norm_layer overwrites norm_layer's own input. *)
Definition norm_is_identity (t : norm_type) : bool :=
  match t with Spectral | IdentityNorm => true | _ => false end.
(** L42-58 (_conv), kernel 3, stride 1, padding 1; spectral normalisation changes weights. *)
Definition conv3 (ci co : nat) (f : vals) : net := conv ci co 3 1 1 f.
Definition conv1 (ci co : nat) (f : vals) : net := conv ci co 1 1 0 f.

(** L61-147 (_UnetLevel); [W i] is layer i.  Where norm_layer is the identity, the in-place
    activation changes the image that the shortcut then reads. *)
Definition unet_level (t : norm_type) (W : nat -> vals) (in_planes down_planes out_planes : nat) (child : net)
    (top clip_upsample : bool) : net := fun image =>
  let left_block :=
    sequential ((if top then [] else [norm_layer t in_planes (W 0); act (W 1)])
                ++ [conv3 in_planes down_planes (W 2); norm_layer t down_planes (W 3); act (W 4);
                    conv3 down_planes down_planes (W 5); avg_pool2]) in
  let left_shortcut :=
    sequential ((if in_planes =? down_planes then [] else [conv1 in_planes down_planes (W 6)]) ++ [avg_pool2]) in
  let right_block :=
    sequential [norm_layer t down_planes (W 7); act (W 8); upsample2; conv3 down_planes out_planes (W 9);
                norm_layer t out_planes (W 10); act (W 11); conv3 out_planes out_planes (W 12)] in
  let right_shortcut :=
    sequential ((if down_planes =? out_planes then [] else [conv1 down_planes out_planes (W 13)]) ++ [upsample2]) in
  do l <- left_block image;
  do image <- (if negb top && norm_is_identity t then act (W 1) image else Ok image);
  do s <- left_shortcut image;
  do x <- add l s;
  do x <- child x;
  if clip_upsample then Ok (mkT (tshape x) (fun idx => (tat x idx + 0)%R))
  else
    do r <- right_block x;
    do x <- (if norm_is_identity t then act (W 8) x else Ok x);
    do s <- right_shortcut x;
    add r s.

(** L208-224: the inner levels, innermost first; [chans] is reversed(channels[1:-1]). *)
Fixpoint unet_inner (t : norm_type) (W : nat -> nat -> vals) (num_upsamples : Z) (count lastchan : nat) (clip_upsample : bool)
    (model : net) (chans : list nat) : net * nat * bool :=
  match chans with
  | [] => (model, lastchan, clip_upsample)
  | chan :: rest =>
      let clip_upsample := if (Z.of_nat count =? num_upsamples)%Z then true else clip_upsample in
      let out_planes := if (Z.of_nat count =? num_upsamples - 1)%Z then 64 else chan in
      unet_inner t W num_upsamples (count + 1) chan clip_upsample
        (unet_level t (W (count + 1)) chan lastchan out_planes model false clip_upsample) rest
  end.
(** L188-190: the bit trick on Python's integers *)
Definition is_pow2_py (n : Z) : bool := ((Z.land n (n - 1) =? 0) && negb (n =? 0))%Z.
(** L177-237; channels has at least two entries *)
Definition unet (norm : string) (W : nat -> nat -> vals) (output_channels : nat) (factor : Z) (channels : list nat) : res net :=
  if negb (is_pow2_py factor) then Raise ValueError
  else
    let num_downsamples := Z.log2 factor in
    do t <- verify_norm_type norm;
    let num_upsamples := (Z.of_nat (length channels) - 1 - num_downsamples)%Z in
    let '(model, lastchan, clip) :=
      unet_inner t W num_upsamples 0 (last channels 0) false (fun x => Ok x) (rev (removelast (tl channels))) in
    let model := unet_level t (W 0) (hd 0 channels) lastchan 64 model true clip in
    Ok (sequential [model; conv 64 output_channels 1 1 0 (W 0 20)]).

(** L290-338 (ConditionalUnetDiscriminator); reflection padding by 1 *)
Definition conditional_unet (U : nat -> vals) (context_in context_out : nat) (interp : vals) (the_unet : net)
    (image context : tensor R) : res (tensor R) :=
  do c <- pad2 0%R Reflect context 1 1 1 1;
  do c <- conv context_in context_out 3 1 0 (U 0) c;
  do c <- act (U 1) c;
  do c <- interpolate interp c (nth 2 (tshape image) 0) (nth 3 (tshape image) 0);
  do x <- cat1 image c;
  the_unet x.

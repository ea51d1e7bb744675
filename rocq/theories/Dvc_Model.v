(** Model of neuralcompression/models/deep_video_compression.py L68-767 (DVC and its default
    networks), with neuralcompression/functional/_dense_image_warp.py L37-87.

    Networks compute arbitrary values with torch's shapes (Net_Model.v).  The entropy
    bottlenecks are compressai's and are parameters.  The training output (forward's
    probabilities) is not modelled. *)
From Coq Require Import Arith List Bool Reals.
From Verif Require Import Base Tensor Net_Model.
Import ListNotations.
Open Scope nat_scope.

(** * Autoencoders *)
(** The layers of DVCCompressionEncoder / DVCCompressionDecoder, as isinstance tells them
    apart. *)
Inductive layer :=
| Conv2d (n : net)
| ConvTranspose2d (ci co k s p : nat) (f : vals)
| Other (n : net).

(** L428-461: all but the last convolution are followed by a GDN, or by batch norm and
    ReLU.  [W i j]: layer j of stage i. *)
Fixpoint enc_layers (W : nat -> nat -> vals) (i ci fc co k s : nat) (use_gdn : bool) (num_conv_layers : nat) : list layer :=
  match num_conv_layers with
  | 0 => []
  | 1 => [Conv2d (conv ci co k s (k / 2) (W i 0))]
  | S n => Conv2d (conv ci fc k s (k / 2) (W i 0))
           :: (if use_gdn then [Other (norm fc (W i 1))] else [Other (norm fc (W i 1)); Other (act (W i 2))])
           ++ enc_layers W (i + 1) fc fc co k s use_gdn n
  end.
(** L343-375 *)
Fixpoint dec_layers (W : nat -> nat -> vals) (i ci fc co k s : nat) (use_gdn : bool) (num_conv_layers : nat) : list layer :=
  match num_conv_layers with
  | 0 => []
  | 1 => [ConvTranspose2d ci co k s (k / 2) (W i 0)]
  | S n => ConvTranspose2d ci fc k s (k / 2) (W i 0)
           :: (if use_gdn then [Other (norm fc (W i 1))] else [Other (norm fc (W i 1)); Other (act (W i 2))])
           ++ dec_layers W (i + 1) fc fc co k s use_gdn n
  end.

(** L463-472: the sizes before each convolution are logged. *)
Fixpoint encoder_forward (layers : list layer) (image : tensor R) : res (tensor R * list (list nat)) :=
  match layers with
  | [] => Ok (image, [])
  | Conv2d n :: l =>
      do y <- n image;
      do (out, sizes) <- encoder_forward l y;
      Ok (out, tshape image :: sizes)
  | ConvTranspose2d ci co k s p f :: l =>
      do y <- deconv ci co k s p 0 f image;
      encoder_forward l y
  | Other n :: l => do y <- n image; encoder_forward l y
  end.

Definition is_transpose (l : layer) : bool := match l with ConvTranspose2d _ _ _ _ _ _ => true | _ => false end.
(** output_sizes.pop(): the last element *)
Fixpoint run_decoder (layers : list layer) (image : tensor R) (output_sizes : option (list (list nat))) : res (tensor R) :=
  match layers with
  | [] => Ok image
  | ConvTranspose2d ci co k s p f :: l =>
      match output_sizes with
      | Some sizes =>
          match rev sizes with
          | [] => Raise IndexError
          | size :: rest =>
              do y <- deconv_to ci co k s p f image (nth 2 size 0) (nth 3 size 0);
              run_decoder l y (Some (rev rest))
          end
      | None => do y <- deconv ci co k s p 0 f image; run_decoder l y None
      end
  | Conv2d n :: l | Other n :: l => do y <- n image; run_decoder l y output_sizes
  end.
(** L377-400 *)
Definition decoder_forward (layers : list layer) (image : tensor R) (output_sizes : option (list (list nat))) : res (tensor R) :=
  match output_sizes with
  | Some sizes =>
      if length (filter is_transpose layers) =? length sizes
      then run_decoder layers image output_sizes else Raise ValueError
  | None => run_decoder layers image None
  end.

(** * Warping *)
(** _dense_image_warp.py L37-87; [flow] is given here before flow.permute(0, 2, 3, 1), so
    its second dimension is the last of the permuted one.  dtype and device match. *)
Definition dense_image_warp (f : tensor R -> tensor R -> list nat -> R) (image flow : tensor R) : res (tensor R) :=
  match tshape image, tshape flow with
  | [b; c; h; w], [b'; d; h'; w'] =>
      if negb (d =? 2) then Raise ValueError
      else if (b =? b') && (1 <=? h) && (1 <=? w) then Ok (mkT [b; c; h'; w'] (f image flow)) else Raise RuntimeError
  | _, _ => Raise ValueError
  end.

(** * Motion estimation *)
(** L505-522: one level: convolutions with ReLUs between them *)
Fixpoint level_layers (W : nat -> vals) (i ci k : nat) (filter_counts : list nat) : list net :=
  match filter_counts with
  | [] => []
  | co :: rest =>
      conv ci co k 1 (k / 2) (W (2 * i))
      :: (match rest with [] => [] | _ => [act (W (2 * i + 1))] end) ++ level_layers W (i + 1) co k rest
  end.
(** L524-534: the image and its [n] repeated halvings, the largest first *)
Fixpoint pyramid (n : nat) (x : tensor R) : res (list (tensor R)) :=
  match n with
  | 0 => Ok [x]
  | S n' => do y <- avg_pool2 x; do l <- pyramid n' y; Ok (x :: l)
  end.

Section Estimator.
Variables (warp_vals : tensor R -> tensor R -> list nat -> R) (interp : vals).
(** L566-582: from the coarsest level; [images] are the pairs popped. *)
Fixpoint flow_levels (model_levels : list net) (images : list (tensor R * tensor R)) (flow : tensor R)
    : res (tensor R * list (tensor R * tensor R)) :=
  match model_levels, images with
  | [], _ => Ok (flow, [])
  | model_level :: ml, (image1, image2) :: imgs =>
      do flow <- interpolate interp flow (nth 2 (tshape image1) 0) (nth 3 (tshape image1) 0);
      do warped <- dense_image_warp warp_vals image1 flow;
      do wi <- cat1 warped image2;
      do inp <- cat1 wi flow;
      do delta <- model_level inp;
      do flow <- add flow delta;
      do warped <- dense_image_warp warp_vals image1 flow;
      do (f, pairs) <- flow_levels ml imgs flow;
      Ok (f, (warped, image2) :: pairs)
  | _ :: _, [] => Raise IndexError
  end.
(** torch.zeros_like(x)[:, :2] *)
Definition zeros2 (x : tensor R) : tensor R :=
  match tshape x with
  | b :: c :: s => mkT (b :: Nat.min 2 c :: s) (fun _ => 0%R)
  | _ => x
  end.
(** L536-586 *)
Definition calculate_flow_with_image_pairs (model_levels : list net) (image1 image2 : tensor R)
    : res (tensor R * list (tensor R * tensor R)) :=
  if list_eq_dec Nat.eq_dec (tshape image1) (tshape image2) then
    do images_1 <- pyramid (length model_levels - 1) image1;
    do images_2 <- pyramid (length model_levels - 1) image2;
    flow_levels model_levels (combine (rev images_1) (rev images_2)) (zeros2 (last images_1 image1))
  else Raise ValueError.
(** L588-600 *)
Definition estimate (model_levels : list net) (image1 image2 : tensor R) : res (tensor R) :=
  do (flow, _) <- calculate_flow_with_image_pairs model_levels image1 image2; Ok flow.
End Estimator.
(** L492-522: [levels] levels *)
Definition pyramid_levels (W : nat -> nat -> vals) (ci k levels : nat) (filter_counts : list nat) : list net :=
  map (fun l => sequential (level_layers (W l) 0 ci k filter_counts)) (seq 0 levels).

(** * Motion compensation *)
(** L722-767 (_ResidualBlock) *)
Definition mc_residual (W : nat -> vals) (c : nat) : net := fun x =>
  do y <- sequential [act (W 0); conv c c 3 1 1 (W 1); act (W 2); conv c c 3 1 1 (W 3)] x;
  add x y.
(** L675-720 (_MotionCompensationLayer): [n] children below *)
Fixpoint mc_layer (W : nat -> nat -> vals) (interp : vals) (c n : nat) : net := fun x =>
  do y <- mc_residual (W (2 * n)) c x;
  do y <- (match n with
           | 0 => Ok y
           | S n' =>
               do p <- avg_pool2 y;
               do q <- mc_layer W interp c n' p;
               do u <- interpolate interp q (nth 2 (tshape x) 0) (nth 3 (tshape x) 0);
               add y u
           end);
  mc_residual (W (2 * n + 1)) c y.
(** L603-672 (DVCMotionCompensationModel), num_levels >= 1 *)
Definition motion_compensation_net (V : nat -> vals) (W : nat -> nat -> vals) (interp : vals) (ci c co k num_levels : nat)
    (image1 image2 flow : tensor R) : res (tensor R) :=
  do a <- cat1 image1 image2;
  do a <- cat1 a flow;
  sequential [conv ci c k 1 (k / 2) (V 0); mc_layer W interp c (num_levels - 1);
              conv c c k 1 (k / 2) (V 1); act (V 2); conv c co k 1 (k / 2) (V 3)] a.

(** * DVC *)
Section DVC.
Variable motion_estimator : tensor R -> tensor R -> res (tensor R).
Variables (motion_encoder motion_decoder residual_encoder residual_decoder : list layer).
Variable warp_vals : tensor R -> tensor R -> list nat -> R.
Variable motion_compensation : tensor R -> tensor R -> tensor R -> res (tensor R).
Context {B B' : Type}.
Variables (mb_compress : tensor R -> res B) (mb_decompress : B -> nat * nat -> res (tensor R)).
Variables (rb_compress : tensor R -> res B') (rb_decompress : B' -> nat * nat -> res (tensor R)).

(** L27-43 *)
Record pframe := mkPF {
  compressed_flow : B; flow_decomp_sizes : list (list nat);
  compressed_residual : B'; residual_decomp_sizes : list (list nat) }.

(** x.shape[-2:] and (x[-1][-2] // 2, x[-1][-1] // 2) *)
Definition last2 (s : list nat) : nat * nat := (nth (length s - 2) s 0, nth (length s - 1) s 0).
Definition latent_size (sizes : list (list nat)) : res (nat * nat) :=
  match rev sizes with
  | [] => Raise IndexError
  | s :: _ => Ok (fst (last2 s) / 2, snd (last2 s) / 2)
  end.

(** L171-213 *)
Definition dvc_compress (image1 image2 : tensor R) : res pframe :=
  do flow <- motion_estimator image1 image2;
  do (flow_latent, flow_sizes) <- encoder_forward motion_encoder flow;
  do cflow <- mb_compress flow_latent;
  do flow_latent <- mb_decompress cflow (last2 (tshape flow_latent));
  do flow <- decoder_forward motion_decoder flow_latent (Some flow_sizes);
  do image2_est <- dense_image_warp warp_vals image1 flow;
  do image2_est <- motion_compensation image1 image2_est flow;
  do residual <- sub image2 image2_est;
  do (residual_latent, resid_sizes) <- encoder_forward residual_encoder residual;
  do cres <- rb_compress residual_latent;
  Ok (mkPF cflow flow_sizes cres resid_sizes).

(** L215-254 *)
Definition dvc_decompress (image1 : tensor R) (p : pframe) : res (tensor R) :=
  do fsz <- latent_size (flow_decomp_sizes p);
  do flow_latent <- mb_decompress (compressed_flow p) fsz;
  do flow <- decoder_forward motion_decoder flow_latent (Some (flow_decomp_sizes p));
  do image2_est <- dense_image_warp warp_vals image1 flow;
  do image2_est <- motion_compensation image1 image2_est flow;
  do rsz <- latent_size (residual_decomp_sizes p);
  do residual_latent <- rb_decompress (compressed_residual p) rsz;
  do residual <- decoder_forward residual_decoder residual_latent (Some (residual_decomp_sizes p));
  do out <- add image2_est residual;
  Ok (clamp01 out).
End DVC.
Arguments mkPF {B B'}.

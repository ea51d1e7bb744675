(** Model of neuralcompression/models/_hific_encoder_decoder.py L22-152 (HiFiCEncoder,
    HiFiCGenerator), _hific_autoencoder.py L19-374 (HiFiCAutoencoder) and
    _hyperprior_autoencoder.py L32-132 (HyperpriorAutoencoderBase).

    The entropy bottlenecks are compressai's and are parameters here. *)
From Coq Require Import String ZArith Arith List Bool Reals.
From Verif Require Import Base RBase Tensor Net_Model.
Import ListNotations.
Open Scope nat_scope.

(** * Networks.  [W i] is what the i-th layer of the network computes. *)

(** _hific_encoder_decoder.py L38-62: the list of blocks. *)
Fixpoint encoder_blocks (W : nat -> vals) (index ci : nat) (outs : list nat) : list net :=
  match outs with
  | [] => []
  | co :: outs' =>
      (if index =? 0 then conv ci co 7 1 3 (W (3 * index)) else conv ci co 3 2 1 (W (3 * index)))
      :: norm co (W (3 * index + 1)) :: act (W (3 * index + 2))
      :: encoder_blocks W (index + 1) co outs'
  end.
Definition hific_encoder (W : nat -> vals) (ci lat : nat) : net :=
  sequential (encoder_blocks W 0 ci [60; 120; 240; 480; 960] ++ [conv 960 lat 3 1 1 (W 15)]).

(** _hific_encoder_decoder.py L70-83 (_ResidualBlock) *)
Definition residual_block (W : nat -> vals) (c : nat) : net := fun x =>
  do y <- sequential [conv c c 3 1 1 (W 0); norm c (W 1); act (W 2); conv c c 3 1 1 (W 3); norm c (W 4)] x;
  add x y.
(** _hific_encoder_decoder.py L121-139: the upsampling blocks. *)
Fixpoint generator_blocks (W : nat -> vals) (index ci : nat) (outs : list nat) : list net :=
  match outs with
  | [] => []
  | co :: outs' =>
      deconv ci co 3 2 1 1 (W (3 * index)) :: norm co (W (3 * index + 1)) :: act (W (3 * index + 2))
      :: generator_blocks W (index + 1) co outs'
  end.
(** _hific_encoder_decoder.py L97-153 (HiFiCGenerator); [V j] are the layers of the j-th
    residual block. *)
Definition hific_generator (W : nat -> vals) (V : nat -> nat -> vals) (co lat n_residual_blocks : nat) : net := fun x =>
  do x <- sequential [norm lat (W 0); conv lat 960 3 1 1 (W 1); norm 960 (W 2)] x;
  do y <- sequential (map (fun j => residual_block (V j) 960) (seq 0 n_residual_blocks)) x;
  do x <- add x y;
  sequential (generator_blocks W 1 960 [480; 240; 120; 60] ++ [conv 60 co 7 1 3 (W 15)]) x.

(** _hific_autoencoder.py L19-44 *)
Definition hific_conv (ci co k s : nat) (f : vals) : net := conv ci co k s (k / 2) f.
Definition hific_deconv (ci co k s : nat) (f : vals) : net := deconv ci co k s (k / 2) 1 f.
(** L90-96 *)
Definition hyper_analysis_net (W : nat -> vals) (lat hyp : nat) : net :=
  sequential [hific_conv lat hyp 3 1 (W 0); act (W 1); hific_conv hyp hyp 5 2 (W 2); act (W 3); hific_conv hyp hyp 5 2 (W 4)].
(** L97-120: two networks of the same form *)
Definition hyper_synthesis_net (W : nat -> vals) (lat hyp : nat) : net :=
  sequential [hific_deconv hyp hyp 5 2 (W 0); act (W 1); hific_deconv hyp hyp 5 2 (W 2); act (W 3); hific_conv hyp lat 3 1 (W 4)].

(** * Modules and their state *)

(** The children of the model that hold parameters. *)
Inductive child := Encoder | Decoder | HyperAnalysis | HyperSynthesisMean | HyperSynthesisScale
                 | HyperBottleneck | LatentBottleneck.
Definition child_eqb (a b : child) : bool :=
  match a, b with
  | Encoder, Encoder | Decoder, Decoder | HyperAnalysis, HyperAnalysis
  | HyperSynthesisMean, HyperSynthesisMean | HyperSynthesisScale, HyperSynthesisScale
  | HyperBottleneck, HyperBottleneck | LatentBottleneck, LatentBottleneck => true
  | _, _ => false
  end.
(** _hific_autoencoder.py L174-179, L184-190, L210-216: the same five modules. *)
Definition bottleneck_modules : list child :=
  [HyperBottleneck; LatentBottleneck; HyperSynthesisScale; HyperSynthesisMean; HyperAnalysis].
Definition is_bottleneck (c : child) : bool := existsb (child_eqb c) bottleneck_modules.

(** A device is a number; 0 is the CPU. *)
Record param := mkP { pname : string; pchild : child; prequires : bool; pdevice : nat }.
(** The model's state.  [ptrain c]: c.training; [mtrain]: self.training; [weights]: how
    often the parameters changed (an optimiser step); [tables]: for which of these the
    coder's tables were computed (None: not yet). *)
Record hstate := mkH {
  params : list param;
  ptrain : child -> bool;
  mtrain : bool;
  frozen_encoder : bool;
  frozen_bottleneck : bool;
  device_setting : string;
  weights : nat;
  tables : option nat
}.

(** nn.Module.train(mode) / eval on one child *)
Definition set_train (P : child -> bool) (mode : bool) (s : hstate) : hstate :=
  mkH (params s) (fun c => if P c then mode else ptrain s c) (mtrain s) (frozen_encoder s) (frozen_bottleneck s)
      (device_setting s) (weights s) (tables s).
(** param.requires_grad_(False) for the parameters of some children *)
Definition no_grad (P : child -> bool) (s : hstate) : hstate :=
  mkH (map (fun p => if P (pchild p) then mkP (pname p) (pchild p) false (pdevice p) else p) (params s))
      (ptrain s) (mtrain s) (frozen_encoder s) (frozen_bottleneck s) (device_setting s) (weights s) (tables s).
(** module.to(device) for some children *)
Definition to_device (P : child -> bool) (d : nat) (s : hstate) : hstate :=
  mkH (map (fun p => if P (pchild p) then mkP (pname p) (pchild p) (prequires p) d else p) (params s))
      (ptrain s) (mtrain s) (frozen_encoder s) (frozen_bottleneck s) (device_setting s) (weights s) (tables s).

(** _hific_autoencoder.py L197-203 *)
Definition freeze_encoder (s : hstate) : hstate :=
  let s := mkH (params s) (ptrain s) (mtrain s) true (frozen_bottleneck s) (device_setting s) (weights s) (tables s) in
  let s := set_train (child_eqb Encoder) false s in
  no_grad (child_eqb Encoder) s.
(** _hific_autoencoder.py L205-219 *)
Definition freeze_bottleneck (s : hstate) : hstate :=
  let s := mkH (params s) (ptrain s) (mtrain s) (frozen_encoder s) true (device_setting s) (weights s) (tables s) in
  let s := set_train is_bottleneck false s in
  no_grad is_bottleneck s.
(** _hific_autoencoder.py L221-228 (train); eval() is train(False) *)
Definition train (mode : bool) (s : hstate) : hstate :=
  let s := mkH (params s) (fun _ => mode) mode (frozen_encoder s) (frozen_bottleneck s) (device_setting s) (weights s) (tables s) in
  let s := if frozen_encoder s then freeze_encoder s else s in
  if frozen_bottleneck s then freeze_bottleneck s else s.

(** CompressionModel.update() of compressai with force=False: existing tables are kept. *)
Definition update (s : hstate) : hstate :=
  mkH (params s) (ptrain s) (mtrain s) (frozen_encoder s) (frozen_bottleneck s) (device_setting s) (weights s)
      (match tables s with Some t => Some t | None => Some (weights s) end).

(** encoder.blocks[0][0].weight: the first parameter of the encoder *)
Definition encoder_device (s : hstate) : res nat :=
  match find (fun p => child_eqb Encoder (pchild p)) (params s) with
  | Some p => Ok (pdevice p)
  | None => Raise AttributeError
  end.
Open Scope string_scope.
(** _hific_autoencoder.py L151-179 *)
Definition update_tensor_devices (op : string) (s : hstate) : res hstate :=
  if negb (String.eqb op "forward" || String.eqb op "compress") then Raise ValueError
  else
    do s <- (if String.eqb op "forward"
             then do d <- encoder_device s; Ok (to_device (fun _ => true) d s)
             else Ok (to_device is_bottleneck 0 (update s)));
    Ok (mkH (params s) (ptrain s) (mtrain s) (frozen_encoder s) (frozen_bottleneck s) op (weights s) (tables s)).
Close Scope string_scope.
(** A step of an optimiser over collect_parameters: the parameters change. *)
Definition optimiser_step (s : hstate) : hstate :=
  mkH (params s) (ptrain s) (mtrain s) (frozen_encoder s) (frozen_bottleneck s) (device_setting s) (S (weights s)) (tables s).

(** _hyperprior_autoencoder.py L127-132 *)
Definition on_cpu (s : hstate) : bool := forallb (fun p => pdevice p =? 0) (params s).
(** _hific_autoencoder.py L181-195 *)
Definition check_compress_devices (s : hstate) : bool :=
  forallb (fun p => negb (is_bottleneck (pchild p)) || (pdevice p =? 0)) (params s).
(** _hific_autoencoder.py L286-295 and L337-346 *)
Definition check_devices (force_cpu : bool) (s : hstate) : res unit :=
  if on_cpu s then Ok tt
  else if force_cpu then Raise ValueError
  else if check_compress_devices s then Ok tt else Raise ValueError.

(** str.endswith *)
Definition ends_with (suffix n : string) : bool :=
  (String.length suffix <=? String.length n)
  && String.eqb (substring (String.length n - String.length suffix) (String.length suffix) n) suffix.
(** dict built from pairs: a later value replaces the one of an equal key, whose place is kept. *)
Fixpoint dict_set {A} (k : string) (v : A) (d : list (string * A)) : list (string * A) :=
  match d with
  | [] => [(k, v)]
  | (k', v') :: d' => if String.eqb k k' then (k, v) :: d' else (k', v') :: dict_set k v d'
  end.
Definition dict_of {A} (l : list (string * A)) : list (string * A) :=
  fold_left (fun d p => dict_set (fst p) (snd p) d) l [].
Definition mem (k : string) (l : list string) : bool := existsb (String.eqb k) l.
(** _hyperprior_autoencoder.py L44-85 *)
Definition collect_parameters (s : hstate) : res (list param * list param) :=
  let named := map (fun p => (pname p, p)) (params s) in
  let model_parameters :=
    dict_of (filter (fun np => negb (ends_with ".quantiles" (fst np)) && prequires (snd np)) named) in
  let quantile_parameters :=
    dict_of (filter (fun np => ends_with ".quantiles" (fst np) && prequires (snd np)) named) in
  let params_dict := dict_of (filter (fun np => prequires (snd np)) named) in
  let model_keys := map fst model_parameters in
  let quantile_keys := map fst quantile_parameters in
  let params_keys := map fst params_dict in
  let inter_keys := filter (fun k => mem k quantile_keys) model_keys in
  let union_keys := model_keys ++ quantile_keys in
  if negb (length inter_keys =? 0)
     || negb (forallb (fun k => mem k params_keys) union_keys && forallb (fun k => mem k union_keys) params_keys)
  then Raise RuntimeError
  else Ok (map snd model_parameters, map snd quantile_parameters).

(** * Compression *)

Section Codec.
(** The networks. *)
Variables (encoder decoder hyper_analysis hyper_synthesis_mean hyper_synthesis_scale : net).
(** compressai's EntropyBottleneck.compress / decompress, build_indexes and
    GaussianConditional.compress / decompress. *)
Context {B B' I : Type}.
Variable hb_compress : tensor R -> res B.
Variable hb_decompress : B -> nat * nat -> res (tensor R).
Variable build_indexes : tensor R -> I.
Variable lb_compress : tensor R -> I -> tensor R -> res B'.
Variable lb_decompress : B' -> I -> tensor R -> res (tensor R).

(** neuralcompression/_outputs: HyperpriorCompressedOutput *)
Record compressed := mkC {
  latent_strings : B'; hyper_latent_strings : B; image_size : nat * nat; padded_size : nat * nat }.
(** _hific_autoencoder.py L78 *)
Definition factor : nat := 64.

(** compressai raises ValueError if the tables were never computed. *)
Definition with_tables {A} (s : hstate) (m : res A) : res A :=
  match tables s with Some _ => m | None => Raise ValueError end.

(** _hific_autoencoder.py L275-324 *)
Definition compress (s : hstate) (force_cpu : bool) (image : tensor R) : res compressed :=
  do _ <- check_devices force_cpu s;
  do (image, (height, width)) <- pad_image_to_factor image factor;
  do latent <- encoder image;
  do hyper_latent <- hyper_analysis latent;
  do hyper_latent_strings <- with_tables s (hb_compress hyper_latent);
  do hyper_latent_decoded <-
    with_tables s (hb_decompress hyper_latent_strings (nth 2 (tshape hyper_latent) 0, nth 3 (tshape hyper_latent) 0));
  do means <- hyper_synthesis_mean hyper_latent_decoded;
  do scales <- hyper_synthesis_scale hyper_latent_decoded;
  let indexes := build_indexes scales in
  do latent_strings <- with_tables s (lb_compress latent indexes means);
  Ok (mkC latent_strings hyper_latent_strings (height, width) (nth 2 (tshape image) 0, nth 3 (tshape image) 0)).

(** _hific_autoencoder.py L326-374 *)
Definition decompress (s : hstate) (force_cpu : bool) (d : compressed) : res (tensor R) :=
  do _ <- check_devices force_cpu s;
  let latent_size := (fst (padded_size d) / 2 ^ 4, snd (padded_size d) / 2 ^ 4) in
  let hyper_latent_size := (fst latent_size / 2 ^ 2, snd latent_size / 2 ^ 2) in
  do hyper_latent_decoded <- with_tables s (hb_decompress (hyper_latent_strings d) hyper_latent_size);
  do means <- hyper_synthesis_mean hyper_latent_decoded;
  do scales <- hyper_synthesis_scale hyper_latent_decoded;
  let indexes := build_indexes scales in
  do latent_decoded <- with_tables s (lb_decompress (latent_strings d) indexes means);
  do reconstruction <- decoder latent_decoded;
  do cropped <- crop reconstruction (fst (image_size d)) (snd (image_size d));
  Ok (clamp01 cropped).

(** _hific_autoencoder.py L230-273 (forward) in evaluation mode, image only: likelihoods
    are not computed.  [hb_quantize] is EntropyBottleneck's quantisation.
    GaussianConditional.quantize subtracts the means in place, so they must broadcast to
    the latent's shape. *)
Variable hb_quantize : tensor R -> tensor R.
Definition lb_quantize (latent means : tensor R) : res (tensor R) :=
  match bshape (tshape latent) (tshape means) with
  | Some sh =>
      if list_eq_dec Nat.eq_dec sh (tshape latent)
      then Ok (mkT sh (fun idx => let m := tat means (bidx (tshape means) idx) in
                                  (IZR (round_even (tat latent idx - m)) + m)%R))
      else Raise RuntimeError
  | None => Raise RuntimeError
  end.
Definition forward_eval (s : hstate) (image : tensor R) : res (tensor R) :=
  if negb (String.eqb (device_setting s) "forward") then Raise RuntimeError
  else
    do latent <- encoder image;
    do hyper_latent <- hyper_analysis latent;
    let hyper_latent := hb_quantize hyper_latent in
    do means <- hyper_synthesis_mean hyper_latent;
    do scales <- hyper_synthesis_scale hyper_latent;
    do latent <- lb_quantize latent means;
    decoder latent.
End Codec.
Arguments mkC {B B'}.

(** Tensors as memory cells: the forward passes that contain in-place operations
    (/repo/neuralcompression/models/_unet_discriminator.py,
    _hific_encoder_decoder.py, _hific_autoencoder.py, deep_video_compression.py and
    /repo/projects/torch_vct/neural/transforms.py).

    A tensor is the number of a memory cell; a layer either makes a new cell, returns
    the cell it was given, or overwrites it.  [detach] returns the same memory, so it
    is not written at all.  Simplifications: what a convolution, a normalisation, a
    pooling, an interpolation or an entropy model computes is an arbitrary function of
    the values of its arguments (spectral normalisation and batch statistics included:
    the functions are those of one moment); gradients are left out. *)
From Coq Require Import List Bool Arith Lia.
From Verif Require Import Base.
Import ListNotations.
Open Scope list_scope.
Open Scope nat_scope.

Section Heap.
Context {V : Type}.

Record heap := mkH { next : nat; cell : nat -> V }.
Definition loc := nat.

(** Computations over the memory. *)
Definition M (A : Type) := heap -> heap * A.
Definition ret {A} (a : A) : M A := fun h => (h, a).
Definition andthen {A B} (m : M A) (k : A -> M B) : M B := fun h => let '(h', a) := m h in k a h'.
Notation "'let*' x := m 'in' k" := (andthen m (fun x => k)) (at level 200, x name, m at level 100, k at level 200).

Definition read (l : loc) : M V := fun h => (h, cell h l).
Definition alloc (v : V) : M loc :=
  fun h => (mkH (S (next h)) (fun j => if j =? next h then v else cell h j), next h).
Definition write (l : loc) (v : V) : M unit :=
  fun h => (mkH (next h) (fun j => if j =? l then v else cell h j), tt).

(** A layer that computes a new tensor, [nn.Identity], an activation with
    [inplace=True], and the operator [a + b]. *)
Definition layer := loc -> M loc.
Definition pure1 (f : V -> V) : layer := fun l => let* v := read l in alloc (f v).
Definition identity : layer := fun l => ret l.
Definition inplace (f : V -> V) : layer := fun l => let* v := read l in let* u := write l (f v) in ret l.
Definition pure2 (f : V -> V -> V) (a b : loc) : M loc :=
  let* x := read a in let* y := read b in alloc (f x y).
(** [a += b] *)
Definition iadd (f : V -> V -> V) (a b : loc) : M loc :=
  let* x := read a in let* y := read b in let* u := write a (f x y) in ret a.
(** [nn.Sequential] *)
Fixpoint sequential (ls : list layer) : layer :=
  fun l => match ls with [] => ret l | m :: ls' => let* l' := m l in sequential ls' l' end.

Variable add : V -> V -> V.

(** * The U-Net discriminators *)

Inductive norm_type := Batch | Spectral | Instance | IdentityNorm.
(** _unet_discriminator.py L33-40 *)
Definition build_norm_layer (t : norm_type) (f : V -> V) : layer :=
  match t with Batch | Instance => pure1 f | Spectral | IdentityNorm => identity end.

(** The layers of one level, numbered in the order of their construction. *)
Record level := mkLevel {
  norm : norm_type; top : bool; clip_upsample : bool;
  in_is_down : bool;   (* in_planes == down_planes *)
  down_is_out : bool;  (* down_planes == out_planes *)
  W : nat -> V -> V }.

Variable leaky : V -> V.   (* LeakyReLU(0.2) *)
Variable pool : V -> V.    (* AvgPool2d(2) *)
Variable up : V -> V.      (* Upsample(scale_factor=2) *)
Variable zero : V.         (* torch.tensor(0.0) *)

(** L89-99 *)
Definition left_block (v : level) : layer :=
  sequential [if top v then identity else build_norm_layer (norm v) (W v 0);
              if top v then identity else inplace leaky;
              pure1 (W v 1);
              build_norm_layer (norm v) (W v 2);
              inplace leaky;
              pure1 (W v 3);
              pure1 pool].
(** L100-116 *)
Definition left_shortcut (v : level) : layer :=
  sequential [if in_is_down v then identity else pure1 (W v 4); pure1 pool].
(** L120-134 *)
Definition right_block (v : level) : layer :=
  if clip_upsample v then identity
  else sequential [build_norm_layer (norm v) (W v 5);
                   inplace leaky;
                   pure1 up;
                   pure1 (W v 6);
                   build_norm_layer (norm v) (W v 7);
                   inplace leaky;
                   pure1 (W v 8)].
(** L122, L135-150 *)
Definition right_shortcut (v : level) : layer :=
  if clip_upsample v then fun _ => alloc zero
  else sequential [if down_is_out v then identity else pure1 (W v 9); pure1 up].
(** L152-154 *)
Definition level_forward (v : level) (child : layer) : layer := fun image =>
  let* a := left_block v image in
  let* b := left_shortcut v image in
  let* x := pure2 add a b in
  let* y := child x in
  let* r := right_block v y in
  let* s := right_shortcut v y in
  pure2 add r s.

(** L213-241, L247-248: the levels from the innermost to the outermost around
    [nn.Identity()], then the last convolution. *)
Definition unet_forward (levels : list level) (last_conv : V -> V) : layer :=
  sequential [fold_left (fun child v => level_forward v child) levels identity; pure1 last_conv].

(** L311-338 *)
Definition conditional_forward (levels : list level) (last_conv context_conv interpolate : V -> V)
    (cat : V -> V -> V) (image context : loc) : M loc :=
  let* c := sequential [pure1 context_conv; inplace leaky] context in
  let* c := pure1 interpolate c in
  let* x := pure2 cat image c in
  unet_forward levels last_conv x.

(** * The HiFiC autoencoder *)

Variable relu : V -> V.

(** _hific_encoder_decoder.py L38-67: five blocks of convolution, normalisation and
    (not in-place) activation, and a convolution. *)
Definition hific_encoder (C : nat -> V -> V) : layer :=
  sequential [sequential [pure1 (C 0); pure1 (C 1); pure1 relu];
              sequential [pure1 (C 2); pure1 (C 3); pure1 relu];
              sequential [pure1 (C 4); pure1 (C 5); pure1 relu];
              sequential [pure1 (C 6); pure1 (C 7); pure1 relu];
              sequential [pure1 (C 8); pure1 (C 9); pure1 relu];
              pure1 (C 10)].
(** L70-83 *)
Definition residual_block (C : nat -> V -> V) : layer := fun x =>
  let* y := sequential [pure1 (C 0); pure1 (C 1); pure1 relu; pure1 (C 2); pure1 (C 3)] x in
  pure2 add x y.
(** L109-153; [Rs] are the residual blocks. *)
Definition hific_generator (C : nat -> V -> V) (Rs : list (nat -> V -> V)) : layer := fun x =>
  let* x := sequential [pure1 (C 0); pure1 (C 1); pure1 (C 2)] x in
  let* r := sequential (map residual_block Rs) x in
  let* x := pure2 add x r in
  sequential [sequential [pure1 (C 3); pure1 (C 4); pure1 relu];
              sequential [pure1 (C 5); pure1 (C 6); pure1 relu];
              sequential [pure1 (C 7); pure1 (C 8); pure1 relu];
              sequential [pure1 (C 9); pure1 (C 10); pure1 relu];
              pure1 (C 11)] x.

(** _hific_autoencoder.py L90-96 *)
Definition hyper_analysis (C : nat -> V -> V) : layer :=
  sequential [pure1 (C 0); inplace relu; pure1 (C 1); inplace relu; pure1 (C 2)].
(** L97-120, both networks *)
Definition hyper_synthesis (C : nat -> V -> V) : layer :=
  sequential [pure1 (C 0); inplace relu; pure1 (C 1); inplace relu; pure1 (C 2)].

(** The entropy models of CompressAI: in training they add noise, otherwise they
    round; either way they return new tensors and the likelihoods of what they
    return. *)
Record entropy := mkE {
  z_noise : V -> V; z_round : V -> V; z_lik : V -> V;
  y_noise : V -> V; y_round : V -> V -> V;           (* means, values *)
  y_lik : V -> V -> V -> V;                          (* scales, means, values *)
  ste : V -> V -> V }.                                (* means, values *)
Definition hyper_bottleneck (E : entropy) (training : bool) (z : loc) : M (loc * loc) :=
  let* o := pure1 (if training then z_noise E else z_round E) z in
  let* p := pure1 (z_lik E) o in
  ret (o, p).
Definition latent_bottleneck (E : entropy) (training : bool) (y scales means : loc) : M (loc * loc) :=
  let* o := (if training then pure1 (y_noise E) y else pure2 (y_round E) means y) in
  let* vs := read scales in
  let* p := pure2 (y_lik E vs) means o in
  ret (o, p).

Record hyperprior_output := mkO {
  o_image : loc; o_latent : loc; o_latent_lik : loc; o_quantized_latent_lik : loc;
  o_hyper_latent : loc; o_hyper_lik : loc; o_quantized_hyper_lik : loc }.

(** L230-273; _hyperprior_autoencoder.py L87-102 is [ste]. *)
Definition hific_forward (training : bool) (Enc : nat -> V -> V) (Ha Hm Hs : nat -> V -> V) (E : entropy)
    (Gen : nat -> V -> V) (Rs : list (nat -> V -> V)) (image : loc) : M hyperprior_output :=
  let* latent := hific_encoder Enc image in
  let* hyper_latent := hyper_analysis Ha latent in
  let* zz := hyper_bottleneck E training hyper_latent in
  let '(hyper_latent, hyper_likelihoods) := zz in
  let* qq := hyper_bottleneck E false hyper_latent in
  let '(_, quantized_hyper_latent_likelihoods) := qq in
  let* means := hyper_synthesis Hm hyper_latent in
  let* scales := hyper_synthesis Hs hyper_latent in
  let* yy := latent_bottleneck E training latent scales means in
  let '(quantized_latents, latent_likelihoods) := yy in
  let* yq := latent_bottleneck E false latent scales means in
  let '(_, quantized_latent_likelihoods) := yq in
  let* latent := (if training then pure2 (ste E) means latent else ret quantized_latents) in
  let* reconstruction := hific_generator Gen Rs latent in
  ret (mkO reconstruction latent latent_likelihoods quantized_latent_likelihoods
           hyper_latent hyper_likelihoods quantized_hyper_latent_likelihoods).

(** * VCT and DVC *)

(** transforms.py L115-134 *)
Definition residual_unit (C : nat -> V -> V) : layer := fun x =>
  let* out := sequential [pure1 (C 0); inplace relu; pure1 (C 1); inplace relu; pure1 (C 2)] x in
  let* out := iadd add out x in
  inplace relu out.
(** transforms.py L172-187 (ELICAnalysis): [n] residual units per stage; the attention
    blocks of CompressAI are arbitrary layers that return new tensors. *)
Definition elic_analysis (C : nat -> V -> V) (Us : nat -> list (nat -> V -> V)) : layer :=
  sequential ([pure1 (C 0)] ++ map residual_unit (Us 0) ++
              [pure1 (C 1)] ++ map residual_unit (Us 1) ++
              [pure1 (C 2); pure1 (C 3)] ++ map residual_unit (Us 2) ++
              [pure1 (C 4); pure1 (C 5)]).

(** deep_video_compression.py L254 *)
Variable clamp01 : V -> V.
Definition dvc_reconstruct (image2_est residual : loc) : M loc :=
  let* s := pure2 add image2_est residual in inplace clamp01 s.

End Heap.
Arguments heap : clear implicits.
Arguments M : clear implicits.
Arguments level : clear implicits.
Arguments entropy : clear implicits.
Arguments layer : clear implicits.

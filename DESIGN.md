# Formal model of NeuralCompression in Rocq: design

Source under study: `/repo` (facebookresearch/NeuralCompression, pinned commit), read as text only.
Tool: Coq 8.16.1. Everything is under `rocq/theories` (logical name `Verif`).

## Method

* Each area has up to four files: `<Area>_Model.v` (executable Gallina, one definition per Python function, each with a
  comment citing file and lines), `<Area>_Spec.v` (small independent specification, only where the model's own words do
  not already read like the English property), `<Area>_Proofs.v` (lemmas), `<Area>_Props.v` (only theorems that carry a
  property, each closed by `exact`, with `Print Assumptions`, and beside it an `Example` showing the hypotheses are met
  by a concrete non-trivial case).
* Python exceptions are values (`option` / error constructors). JAX out-of-range semantics (dropped scatter updates,
  clamped gathers, clamped slices) are modelled explicitly where a property depends on them.
* Fixed width integers: unbounded `Z`, with `mod 2^32`, `mod 2^8`, ... written where the code wraps.
* Neural networks, CDF callables and distributions are universally quantified functions (Section variables, closed when
  the section ends). Their assumed properties are explicit hypotheses of the theorem.
* Floating point tensors are modelled by exact reals (`R`), rationals or integers, as said in each file. Rounding error
  of IEEE arithmetic is out of scope unless a file says otherwise.
* When the code violates the naive property, a theorem `..._refuted` exhibits a witness, and the exact behaviour is
  stated in properties.jsonl (with "Known deviations") and proved.

## Trusted base

* Coq's kernel (and `coqchk`).
* Axioms: most theorems are "Closed under the global context". Theorems over `R` use the standard library's real-number
  axioms (`ClassicalDedekindReals.sig_forall_dec`, `ClassicalDedekindReals.sig_not_dec`,
  `FunctionalExtensionality.functional_extensionality_dep`) and, where listed, `Classical_Prop.classic`. No axiom of our
  own, no other library's axioms. The per-theorem list is at the end of this file.
* The reading of the Python source: the model is tied to the code only by the citations in comments.

## Plan per property

| id | modelled as | proof |
|----|-------------|-------|
| C01 | byte-exact encoder and decoder state machines over `Z`, CDF callables as parameters | backward induction on the message: the 32-bit window of the emitted stream lies in the current interval for every continuation |
| C02 | same | invariant, span doubling bounds the loop |
| C03 | batch = list of elements, zero padding explicit | from C01/C07 (any continuation decodes) |
| C04 | same | span product inequality in integers |
| C05 | buffer with dropped out-of-range writes | prefix simulation: exact result for every buffer size, refutation of detection by witness |
| C06 | uint8 output | refutation by computed witness + exact `mod 256` theorem |
| C07 | same as C01 | corollary of the window lemma |
| C08 | lanes as lists, tail array + pointer with clamped slices | refinement to an abstract (heads, byte stack) machine, lane-wise rANS algebra |
| C09 | coder.encode/decode on byte lists | refinement + induction over the message |
| C10 | same, start buffers | induction over the history |
| C11 | same | invariant |
| C12 | planar byte layout | list algebra + base-256 digits |
| C13 | same | the bytes needed as a function of the message; exact behaviour per capacity, refutations by witness |
| C14 | codec records with push/pop | algebra on the abstract machine |
| C15 | clip of the pointer | single-lane and first-row proofs, multi-lane refutation |
| C16 | argmin over booleans | list induction |
| C17 | byte count of a push | potential argument |
| C18 | hierarchical codec over an abstract stack codec | induction over steps and over the history |
| C19 | tracked byte counts | telescoping |
| C20 | reals / integers | floor arithmetic |
| C21 | state record, key table | refutation + partial restore theorem |
| C22 | decision table | case analysis |
| C23 | rationals for the fractional stride, round-half-even | arithmetic |
| C24 | file-name parsing on integers | refutation beyond six digits + proof within |
| C25 | tensors as index functions, reshape/permute as index maps | arithmetic of div/mod |
| C26 | same | same |
| C27 | autoregressive loops over an abstract causal model | induction over positions |
| C28 | attention with masked softmax as a function of positions | non-interference |
| C29 | scene coders as folds with state | induction over scenes |
| C30 | list suffix | list lemmas + refutation for context_len other than 2 |
| C31 | cache as association list, histories as call lists | invariant: every entry stores f of its key |
| C32 | reals with clamp/truncate | floor arithmetic |
| C33 | reals with ln/exp | algebra; refutation of exact inverse |
| C34 | round-half-even and float32 rounding on reals | equivalence + refutation |
| C35 | shape arithmetic, lossless bottleneck parameter | div/mod arithmetic |
| C36 | state machine | invariant over call lists |
| C37 | shape arithmetic | same |
| C38 | shape arithmetic, per-level ceil/floor | induction over levels; refutation for odd sizes |
| C39 | shape arithmetic | induction over levels |
| C40 | recursive constructor as shape/channel transformer | induction; refutation of boundary factors |
| C41 | vectors of reals; the choice, the normalised rows and the straight-through output also in float32 (Flocq) with an arbitrary tree as order of summation | argmin induction; relative-error bounds by induction on the tree |
| C42 | reals, tanh/atanh | monotonicity, algebra |
| C43 | reals | case analysis; refutation of one mode |
| C44 | reals; float32 for one pixel | case analysis; Lipschitz bound |
| C45 | reals, cos | monotonicity of cos; refutation past the end |
| C46 | abstract CDF | telescoping |
| C47 | reals and shapes | induction |
| C48 | distributions as CDF functions | refutation + correct cases |
| C49 | reals | floor arithmetic |
| C50 | shape arithmetic | counting |
| C51 | accumulators | fold algebra |
| C52 | index arithmetic | bijection |
| C53 | iterator state machine | refutation |
| C54 | decision function | list induction |
| C55 | dictionary merge | list induction |
| C56 | shape arithmetic of the evaluation-mode forward pass | div/mod arithmetic |
| C57 | table state machine | case analysis, refutation of freshness |
| C58 | reals; uint8 wrap-around | algebra of logarithms |
| C59 | reals and shapes of the noise | algebra, refutations by witness |
| C60 | reals with infinities and NaN | case analysis |
| C61 | iteration as a loop with fuel, Adam steps | invariant |
| C62 | tables over reals; quantiser as a parameter with a contract, which Quant_Props proves of compressai's | arithmetic of floor and ceil; refutations |
| C63 | constructor as a decision function; state loading | case analysis |
| C64 | reals; tensors with row-major reshape | derivatives, finite sums; refutations by witness |
| C65 | symbolic losses and a state machine of requires_grad flags and gradients | invariant over histories; refutations |
| C66 | file system with an operation budget (crash points), server as a parameter | invariant over histories; refutations |
| C67 | directory of checkpoints and histories of launches; the Trainer as any sequence of saves | invariant over histories; exact characterisations |
| C68 | cache file system with crash points; strings of index lists | injectivity of the key; invariant over histories |
| C69 | metrics as lists of updates; Lightning's hooks as a state machine with failures | invariant over histories, exact logs |
| C70 | file system with crash points and a failing server; archives as lists of members | invariant over histories of calls; completeness of finished runs |
| C71 | text of list files, readlines, rstrip, splitext, sorted; loaders as lists of batches | uniqueness of sorted permutations; monotonicity of stripping; induction on batches |
| C72 | training and validation steps over arbitrary losses; gradients as lists of differentiated losses | induction on the pairs with the closed-loop trajectory as witness |
| C73 | launches as runs over stages with a kill budget; disk of checkpoints; models as functions of submodules | lineage as an inductive predicate, invariant over histories, swapping of untrained submodules |
| C74 | shapes through lists of layers with the formulas of Conv2d and ConvTranspose2d; chunking of lists | arithmetic of ceil-halving and doubling; induction on the blocks and pieces |
| C75 | videos as likelihoods, string lengths and errors per frame; modes as a state machine | sums; invariants over histories of calls |
| C76 | directories as lists of folders; torch.save files as lists of entries; the directory of checkpoints over launches | induction on folders cut into batches; injectivity of the stripped prefix; invariant over histories |
| C77 | grid_sample as real coordinates and four weights; polar angles by cases on atan | convexity of the weights; unnormalise(linspace) in closed form; trigonometric identities; extremes of lists |
| C78 | mean, unbiased variance and 1x1 convolution over real channels; a GDN layer as a state changed by updates and calls | sums; Cauchy-Schwarz; invariant (equal after clamping) over histories; largest-ratio argument for uniqueness of solutions |
| C79 | linear maps, normalised rows and softmax over reals; the block's reshapes as index arithmetic | Cauchy-Schwarz for cosines; bounds of softmax; sums invariant under permutations |
| C80 | objects as records at addresses; operations as an inductive tree | induction on the tree; squared distance of unit vectors as 2 - 2 cos |
| C81 | networks as lists of layers with their channels, built as the constructors do; modes and requires_grad as a state | induction on the multipliers; invariant over histories |
| C82 | losses over real images; the LPIPS backbone as an arbitrary function, its dropout active only in training mode | sums; lifting to the unit sphere for the Lipschitz bound; invariant over mode histories |
| C83 | clips as four-dimensional tensors; transforms as functions of planes with their draws as arguments; collation as stacking | index arithmetic; induction on batches |
| C84 | processes as a list of states in lock step; terms of a sample as arbitrary real functions; the loader as strided shards with dropped last batches | invariant over rounds; permutations of the shards |
| C85 | launches as lists of file operations cut anywhere; directories as finite maps; names as strings | induction on histories; injectivity of names |
| C86 | parameters of all processes as a list; broadcast from process 0; disk with torn files; the log writer as a state machine | case analysis; induction on rates and histories |
| C87 | entry points as functions to plans; processes as state machines over a shared cache; failures as events | invariant over all interleavings; case analysis of the entry points |
| C88 | tensors as memory cells; layers allocate, return or overwrite cells; values arbitrary | composition lemmas for layer sequences; induction on levels, blocks and calls |
| C89 | module trees with object identities; named_modules, named_parameters, train as walks with a memo; optimisers as sets of parameters | invariant of the walk (visited modules are closed except for the open ancestors); injectivity of dotted names; induction on histories |
| C90 | pickler (memo, framing, batches) and unpickler (stack machine with a heap of lists) over byte lists | framing adds only headers between opcodes; induction on the object with an invariant relating the two memos; size arithmetic |
| C91 | the layers of Net_Model: shapes and exceptions of PyTorch, values as functions of indices | case analysis on the guards; the first layer decides for whole networks |
| C92 | float32 images and bytes, rates in float64, the metrics of C49-C51, C58 and C90 as they accumulate; the folder as a list of named entries | induction on the files; relative error of sums in float64; permutation of sums |
| C93 | tables over the reals, the quantile function of the normal distribution and the quantiser as parameters with contracts; compressai's pmf_to_quantized_cdf as a loop | symmetry and monotonicity of Phi, telescoping sums; invariant of the loop that steals frequencies; invariant over histories of updates |
| C94 | tensors as functions of indices; torch.cat, list(tensor), clip and make_grid (a loop of pastes); the logged records with the exception that ends them | index arithmetic; invariant of the pasting loop; unique cells; induction on the P-frames |
| C95 | networks as architecture, state dict and flags; configure_and_load_state_dict, build_model, build_module and build_test_dataloaders; what hydra and torch.hub build is a parameter | exact success conditions; a round trip of checkpoints through the "model." prefix; concrete deviations |
| C96 | scalar expressions that record torch's operations, with value and backward(); the straight-through rounding, the vector quantiser with its losses, the video model's bottleneck in training and its contexts over frames as such expressions | backward() proved equal to the derivative with detached parts held fixed (duality of forward and reverse mode); closed forms of the gradients; induction over frames |
| C97 | the float32 states of the MS-SSIM and DISTS metrics (running sum, count, quotient) with any summation tree per batch and over processes | a signed error bound for summation trees; induction over updates; exact integers up to 2^24; a stuck addition at 2^24 |
| C98 | the arrays of the diffusion process, infer_fn, generate_fn and create_gaussian_diffusion with its respacing loop; the network is a parameter | Bayes' rule for normal densities and induction over the latents; invariant of the respacing loop on cumulative products; closed forms of both schedules |
| C99 | dictionaries and their merge, the keywords of DvcModule, the sorted stages and what each is configured with; the losses of the four classes of stages and DVC.forward over arbitrary networks of their submodules' weights | lookup in merged dictionaries by induction; insertion sort; case analysis over classes of stages against a specification of squared error and bits per pixel |
| C100 | the two transforms of illm's pictures: reflecting crops, the ten attempts and fallback of the resized crop, flip, resize in binary64, central crop; resampling and draws are parameters | arithmetic of reflection modulo twice the side; induction over the attempts; rounding to nearest; relative error of the binary64 quotient |
| C101 | zero_grad, backward with arbitrary gradients, Lightning's clipping, AdamW and LambdaLR on lists of entries; the two optimisers of a training | invariant m^2 <= C_t v by a weighted Cauchy-Schwarz step, then (1-X)(1-Y) <= (1-sqrt(XY))^2 for the bias corrections; refinement of the published recursion |
| C102 | the transformer of C27-C30 with Dropout and StochasticDepth, the draws as inputs | the masked weights are those of the prefix followed by zeros, which dropout leaves alone; relational induction over layers; induction over independent flags and a Riemann integral for the averages |
| C103 | the constructors of the video model's transformer, draws as inputs | shapes by computation on lists; the clamp bounds every weight, so the logits are bounded by C27's theorem and the causality of C102 applies; the same with every entry off by e |
| C104 | validate_causal over an arbitrary network: the loop with its partly filled input, and the comparison with tolerance | loop invariant: after i steps the input is the first symbols followed by tens, and the rows collected are those of the runs; causality from C27's and C103's theorems; a concrete peeking network refutes the converse |

## What is modelled and what is not

"Parameter" means an arbitrary function or value, universally quantified in the theorems.

| files | code modelled | not modelled / parameters |
|-------|---------------|---------------------------|
| AC_* (C01-C07) | projects/jax_entropy_coders/jax_arithmetic_coder.py, encoder and decoder loops, bit buffer, batch padding, uint32/uint64 wrap, IEEE float64 division (FDiv.v) | CDF callables are parameters; JAX tracing, jit and vmap |
| Rans_* (C08-C17) | projects/jax_entropy_coders/craystack/{_backend,codecs,coder}.py, uint32 arithmetic, tail array with pointer, sort-based scatter, start buffers | normalisation of out-of-range slice starts is a parameter (`slice_ok`); CDF functions are parameters |
| Diff_* (C18-C22) | projects/bits_back_diffusion/bits_back_diffusion/codec.py: push/pop of the hierarchical codec, statistics, state dictionaries, quantisation | craystack's codecs and the networks are parameters |
| Steps_* (C23) | script_util.py L261-334 (timestep respacing), with IEEE binary64 | the diffusion process itself |
| Job_* (C24) | encode.py and checkpoint functions of script_util.py, crashes at every point | data loader order; several ranks share nothing |
| Patch_* (C25, C26) | projects/torch_vct/neural/patcher.py | |
| EM_*, TF_*, Gsn_*, Pipe_*, Memo_* (C27-C34) | entropy_model.py, entropy_model_layers.py, layers_utils.py, bottlenecks.py, model_pipeline.py, memoize.py of torch_vct | dropout (in TfTrain_*), training losses, GELU (parameter), float32 only where said (coded values, softmax's exp); transforms.py |
| Hyp_*, Net_* (C35, C36, C56, C57) | HiFiC and hyperprior autoencoders: shapes, padding, compress/decompress, table updates | values of network layers (arbitrary), compressai's bottlenecks (parameters) |
| Vq_*, Vqb_*, VqbFloat_* (C37, C41) | VQ-VAE XCiT autoencoder shapes; vector-quantisation bottleneck, over the reals and (distances, choice, normalisation, straight-through sum) in float32 | attention values; overflow, infinities and NaN |
| Dvc_* (C38, C39) | models/deep_video_compression.py: shapes, compress/decompress, motion compensation sizes | network values; training output |
| Unet_* (C40) | models/_unet_discriminator.py | network values |
| Func_*, Sched_*, Dist_*, Gauss, Noise_*, Info_*, Tail_* (C42-C46, C48, C59-C61) | neuralcompression/functional, distributions, optim | rounding of floating point; gradients except where the code supplies them by hand |
| Ssim_*, Met_*, Fid_*, Psnr_* (C47, C49-C51, C58) | functional/_multiscale_structural_similarity.py, metrics/* | feature networks and torch-fidelity's final statistics are parameters |
| Vimeo_*, Clic_*, (C52, C53) | data/_vimeo_90k_septuplet.py, data/_clic_2020_video.py | file contents, clip samplers (parameters) |
| Rate_* (C54) | loss_fn/_target_rate_config.py, illm/target_compression_module.py, step counting of illm/train.py | Lightning's trainer beyond its step counter |
| Flops_* (C55) | functional/_count_flops.py | fvcore's tracing and built-in table (parameters) |
| CE_* (C62, C63) | layers/_continuous_entropy.py | compressai's pmf_to_quantized_cdf (parameter with a contract, see Quant_*); rounding of floating point |
| GanLoss_*, OasisGrad_Props (C64) | loss_fn/_binary_crossentropy_loss.py, loss_fn/_oasis_loss.py, and torch's two cross-entropies | rounding of floating point; NaN for empty tensors |
| Gan_* (C65) | training_step, eval_step and configure_optimizers of illm/gan_compression_module.py and target_compression_module.py | the amount of an update, clipping, schedulers, logging; networks are symbolic |
| Kodak_* (C66) | data/_kodak.py | decoding of images, the transform; sha1 is a parameter; concurrent processes |
| Train_* (C67) | main, fetch_checkpoint, build_trainer (steps), pretrained_state_dict of illm/train.py | hydra, Lightning's Trainer (arbitrary sequence of saves), loggers |
| ImgCache_* (C68) | build_wandb_image_logger of illm/train.py | sha256 and pickle formats |
| ImgMod_* (C69) | illm/image_module.py; the steps and hooks of target_compression_module.py that use it | values of the metrics (elsewhere), other logged losses |
| ClicImg_* (C70) | CLIC2020Image of data/_clic_2020_image.py and torchvision's download_and_extract_archive | image decoding and transform, the URLs and md5 sums, other processes |
| OpenImg_* (C71) | data/_openimages_v6.py, data/_div2k_dataset.py, illm/open_images_datamodule.py, torch's DataLoader batching | image decoding, transforms (numbers), shuffling, worker processes, non-ASCII text |
| DvcGop_* (C72) | dvc_module.py (losses, steps, logging), the image logger of dvc train.py | networks, optimisers, clipping and learning-rate schedule (arbitrary functions), drawing of the mosaics |
| DvcStages_* (C73) | run_training_stage and main of dvc train.py, the classes of stages of _utils.py | the updates themselves, torn writes of a checkpoint, two stages sharing a directory, changed configurations between launches |
| VctShape_* (C74) | torch_vct transforms.py, make_conv, make_deconv, VCTPipeline (construction, padding, cropping) | values of the layers; shapes inside the entropy model (C25, C26) |
| VctLit_* (C75) | model_lightning.py (losses, steps), modes of model_pipeline.py | networks, PSNR, optimizers; likelihoods are given per scene |
| VctEval_* (C76) | uvg.py, checkpoint_loaders.py, checkpoint guard of torch_vct model_train.py | decoding and normalising of images, nested folders, YAML parsing, the Trainer, the test run after training |
| Warp_* (C77) | _dense_image_warp.py, _optical_flow_to_color.py, grid_sample (bilinear, nearest; all paddings) | mode bicubic, rounding, non-finite values |
| Norm_* (C78) | _channel_norm.py, _simplified_gdn.py | rounding; backpropagation through conv2d; images of three dimensions |
| Xca_* (C79) | _xca.py, _AttnBlock of _vqvae_xcit_autoencoder.py | dropout, rounding, group normalisation |
| VqTree_* (C80) | _normalize_latent.py, _project_latent.py, VQBottleneck.forward on VqVaeAutoencoderOutput, the tree of _msillm_vqvae.py | gradients, distances field, latents of other ranks, objects after exceptions |
| VqNet_* (C81) | constructors of _VqVaeXCiTConvEncoder, _VqvaeXCiTConvDecoder and VqVaeXCiTAutoencoder, channels of their forward passes, freezing | values computed by the layers (but see C37, C78, C79), dropout, logging, empty ch_mult |
| Loss_* (C82) | MSELoss, MSELPIPSLoss, NormFixLPIPS (spatial=False), functional lpips | the LPIPS package's networks and weights, spatial=True, broadcasting, requires_grad of its parameters |
| VidData_* (C83) | transforms and collation of KineticsDataModule, VimeoDataModule, Vimeo90kSeptupletLightning; validate_shape, get_scenes_iter | clip sampling and decoding, data loader workers, the resizing of RandomResizedCrop, rounding of linspace |
| Vlb_* (C84) | compute_vlb.py main; plot_evolution, divide_by_n_proc, the warning of setup; improved_diffusion calc_bpd_loop, load_data | the network, the random noise, the figure's layout, log files |
| Cifar_* (C85) | cifar10.py main; class labels of load_data | PNG encoding, argparse, the temporary download directory |
| Start_* (C86) | TrainLoop._load_and_sync_parameters, _load_ema_parameters; parse_resume_step_from_filename; WandbOutputFormat; logging directories of setup | optimiser state, training steps and saving (improved_diffusion), the Weights & Biases client |
| Zoo_* (C87) | zoo/_msillm.py, _noganms.py, _msillm_vqvae.py, hubconf.py entry points; cache protocol of torch.hub.load_state_dict_from_url | logging, contents of checkpoints, strict key matching (a parameter) |
| Heap_* (C88) | forward passes of _unet_discriminator.py, _hific_encoder_decoder.py, _hific_autoencoder.py, ResidualUnit/ELICAnalysis, DVC's final clamp, as memory effects | arithmetic of single layers, gradients, running statistics |
| Params_* (C89) | collect_parameters, configure_optimizers of DVC and VCT, VqVaeProjector.__init__/train; named_modules, named_parameters, train of PyTorch | what Adam and the schedulers compute |
| Pickle_* (C90) | metrics/_pickle_size.py on the output of HiFiCAutoencoder.compress; pickle protocol 4 for the types that occur | other types, cyclic objects, negative and large integers |
| Net_Props (C91) | the layers that all network models share (Net_Model), and input checks of the networks built from them | values of convolutions and normalisations (arbitrary functions) |
| Folder_* (C92) | projects/illm/eval_folder_example.py | PNG decoding, CUDA, statistics of FID, printing; the compression model and LPIPS are parameters |
| Vtab_*, Quant_* (C93) | tables of neural/bottlenecks.py; compressai's pmf_to_quantized_cdf (from its documentation and published source) | rounding of floating point; scipy's ppf (parameter with its defining property) |
| Mosaic_* (C94) | WandbImageCallback of the three trainings; torch.cat, torchvision's make_grid | wandb itself, devices and dtypes, when Lightning calls the hooks |
| Build_* (C95) | projects/illm/train.py (configure_and_load_state_dict, build_model, build_module, build_test_dataloaders); the constructors of target_compression_module.py and gan_compression_module.py | what hydra and torch.hub instantiate, devices, the random state |
| Grad* (C96) | gradients through _q_bottleneck.py (quantize_vectors), _ste_quantize, HiFiC's forward, neural/bottlenecks.py in training, the contexts of model_pipeline.py | the networks around them (arbitrary expressions), floating point, autograd's engine beyond its rules |
| MetFloat_* (C97) | metrics/_dists.py and _msssim.py: update, compute and synchronisation in float32 | how the scores themselves are computed, overflow, 0/0 |
| GDiff_* (C98) | codec.py DiffusionModel; script_util.py create_gaussian_diffusion; improved_diffusion's GaussianDiffusion and SpacedDiffusion after its source | float64 and float32 rounding of schedules and parameters, the network, devices |
| DvcLoss_* (C99) | deep_video_compression/train.py merge_configs, run_training_stage up to the training, main's loop; dvc_module.py constructor; _utils.py losses, quantile_loss, update; DVC.forward; config/ | OmegaConf's types and interpolations, Lightning's Trainer, broadcasting of images of different sizes |
| ImgTf_* (C100) | illm/default_transforms.py; torchvision's RandomCrop, RandomResizedCrop, RandomHorizontalFlip, Resize, CenterCrop, ToTensor after its source | PIL's resampling filters, pictures with palettes, the probability of the draws |
| HsvFloat_* (C44) | functional/_hsv_to_rgb.py's conversion in float32, with division by 60 on CPU and on CUDA | half precision, fused multiply-add, the range checks (exact, in Func_*) |
| Opt_* (C101) | the optimiser part of training_step in illm's target_compression_module.py and gan_compression_module.py; Lightning's clip_gradients, torch's clip_grad_norm_, clip_grad_value_, AdamW and LambdaLR after their sources; conf/optimizer | rounding, mixed precision, distributed averaging of gradients; which parameters get gradients (C65) |
| TfTrain_* (C102) | training mode of torch_vct's MLP, WindowMultiHeadAttention, StochasticDepth, TransformerBlock, Transformer and _get_transformer_output; torch.nn.Dropout after its documentation | rounding except exp in the softmax; a rate of 1; the device of the draws; the probabilities of the draws except in the two averages proved |
| VctInit_* (C103) | VCTEntropyModel.__init__ and the constructors of torch_vct's transformer, make_embedding, init_weights_truncated_normal; torch's LayerNorm, Linear, uniform_ and trunc_normal_ after their sources | rounding of the weights, the probabilities of the draws, negative sizes other than num_channels, the bottleneck |
| ValCausal_* (C104) | VCTEntropyModel.validate_causal; torch.isclose with its defaults | training mode, rounding, the text of the error; compress calls it only if asked to, before coding |

## Axioms per theorem

Generated from `Print Assumptions` for every theorem named in MANIFEST.json. Full names:
`ClassicalDedekindReals.sig_forall_dec`, `ClassicalDedekindReals.sig_not_dec`,
`FunctionalExtensionality.functional_extensionality_dep`, `Classical_Prop.classic`. All four belong to Coq's standard
library.

* no axioms ("Closed under the global context") (321 theorems): rans_push_then_pop, rans_push_total, rans_pop_then_push, rans_pop_total, rans_roundtrip, rans_encode_total, rans_fixed_array_roundtrip, rans_history, rans_range_invariant, rans_push_no_overflow, rans_serialise_roundtrip, rans_deserialise_roundtrip, rans_capacity_exact, rans_capacity_room, rans_capacity_silent_refuted, rans_default_capacity_refuted, rans_bitsback_push_pop, rans_bitsback_pushes, rans_bitsback_roundtrip, rans_bitsback_one_lane, rans_bitsback_first_row, rans_bitsback_empty_pops_refuted, rans_lookup_sound, rans_lookup_unique, rans_uint8_symbol_255_refuted, rans_push_bytes, diff_lossless, diff_encode_succeeds, diff_sampling_invertible, diff_prior_count, diff_rate_accounting, diff_rate_accounting_one, diff_rate_per_step, diff_bytes_used, diff_samples, diff_accounting_after_error_refuted, diff_checkpoint_restores, diff_checkpoint_same_extra, diff_checkpoint_refuted, diff_encode_validates, job_crash_safe, job_resumes_latest, job_finishes, job_name_round_trip, job_diffusion_codec, job_long_run_refuted, job_long_decode_refuted, job_torn_checkpoint_refuted, job_extended_check_refuted, unpatch_wrong_size, vct_heads_partition, vct_decoder_states, vct_state_window, vct_context_sequences, em_context, em_context_refuted, vct_context_works_iff, memo_transparent, memo_once, memo_hits, memo_next_call, memo_unbound, memo_key_ignores, memo_key_position, memo_pipeline_hits, memo_transparent_refuted, memo_unhashable, hific_frozen_encoder, hific_frozen_bottleneck, hific_train_exact, hific_forward_one_device, hific_compress_mode, hific_device_targets, hific_force_cpu_refuted, hific_collect_parameters, hific_tables_first, hific_tables_fresh_refuted, dvc_autoencoder_size, patch_fid_covers, fid_metric_value, fid_metric_empty, fid_metric_batching, fid_distributed_refuted, fid_feature_sizes, vct_ramp_linear_zero_refuted, noise_shapes_swapped, offset_fallback_refuted, vimeo_init_accepts, vimeo_init_rejects, vimeo_image_item, vimeo_index_bijection, vimeo_video_item, vimeo_other_indices, vimeo_visits_every_frame_once, vimeo_default_image_refuted, vimeo_folder_names, clic_pass, clic_every_video_iff, clic_one_clip_each, clic_sample_frames, clic_sample_frames_empty, clic_second_pass_refuted, clic_skips_videos_refuted, rate_config_checked, rate_training_batches, flops_rule, flops_elementwise, flops_no_leak, ce_restore_exactly, gan_batch_halves, gan_single_image_refuted, plain_frozen_quantiles_refuted, kodak_checked_intact, kodak_local_iff, kodak_items, kodak_existing_unchanged, kodak_force_refuted, kodak_damaged_forever_refuted, kodak_fresh_download, kodak_killed_download, kodak_unchecked_refuted, kodak_boundaries_refuted, kodak_no_parent, train_guard, train_start, train_progress, test_run_iff, test_changes_nothing, test_refused, pretrained_roundtrip, train_steps, pretrained_bare_refuted, train_resume_without_last_refuted, train_null_overwrite_refuted, train_unlimited_refuted, image_key_injective, image_cache_sound, image_cache_exact, image_cache_stale_refuted, image_cache_cut_refuted, validation_epoch_exact, validation_fid_failure, name_in_force, test_epoch_exact, test_unnamed, test_kodak_fid_refuted, naming_keeps, quality_metrics_errors, clic_val_atomic, clic_val_dataset, clic_repairs, clic_not_again, clic_bad_archive, clic_bad_split, clic_val_again_refuted, clic_partial_refuted, oi_items, oi_count, oi_order_free, oi_bad_split, oi_construct, oi_index, div2k_paths, dm_construct, dm_validation, dm_training, oi_blank_refuted, oi_directory_refuted, dm_no_workers_refuted, oi_trailing_white, oi_hidden_files, oi_hidden_files_in_folder, C72_logger_original_clip, C72_logger_recompresses_refuted, C73_every_history_sound, C73_nothing_sound, C73_stage_leaves_others, C73_progress_kept, C73_finished_run_is_reused, C73_finishes, C73_refuses, C73_truthy_overwrite_resumes_refuted, C73_default_growing, C73_default_submodules, C73_overwrite_starts_over, C74_gdn_construct, C74_elic_construct, C74_training_size_gdn, C74_size_elic, C74_evaluation_size_gdn, C74_small_images_refuted, C74_not_rgb, C74_chunks, C74_elic_refused, C74_codec_size, C74_codec_refused, C75_forward_iff, C76_uvg_init, C76_uvg_zero, C76_uvg_iff, C76_uvg_negative, C76_uvg_frames, C76_uvg_dataset, C76_uvg_order, C76_uvg_order_refuted, C76_load, C76_load_copy, C76_load_bare_refuted, C76_copy_replaced_refuted, C76_launch, C76_refused_untouched, C76_resume, C76_overwrite_resumes_refuted, C76_frames, C81_wiring, C81_no_blocks_refuted, C81_norms, C81_attention, C81_attention_refuted, C81_frozen, C81_not_frozen, C81_frozen_between_refuted, C83_subsample, C83_new, C83_scenes, C83_crop_edges, C83_validate_shape, C83_no_frames, C84_dropping_warning_refuted, C84_images_once, C84_every_image_refuted, C84_divide_by_n_proc, C85_names, C85_histories_are_sane, C85_overwriting_repairs, C85_first_launch_completes, C85_relaunch_does_nothing, C85_offline_keeps_files, C85_killed_dump_refuted, C85_class_labels, C85_partial_labels_refuted, C85_wrong_size_refused, C86_step_of_names, C86_processes_agree, C86_resume_restores, C86_bad_files_raise, C86_average_lost_refuted, C86_log_directories, C86_rows_reach_the_run, C86_keys_kept, C86_clashing_keys_refuted, C86_words_required, C86_letters_refused, C87_files_distinct, C87_unknown_weights, C87_same_through_hub_and_zoo, C87_right_weights, C87_untrained_never_fails, C87_only_own_file, C87_cache_holds_whole_files, C87_recovers, C87_cut_download_is_never_repaired, C87_works_offline, C87_true_value_refuted, C87_rates_grow, C88_unet, C88_unet_is_documented, C88_conditional_unet, C88_hyper_networks, C88_hific_encoder, C88_hific_generator, C88_residual_unit, C88_elic_analysis, C88_dvc_reconstruct, C88_hific_forward, C88_forward_eval_consistent, C88_forward_train_latent, C88_calls_independent, C88_training_hyper_rate_refuted, C88_unet_spectral_refuted, C88_inner_level_overwrites, C89_named_parameters, C89_groups, C89_dvc_optimizers, C89_single_optimizer, C89_single_optimizer_kind, C89_vct_quantiles_untrained, C89_projector, C89_projector_needs_bottleneck, C89_projector_mode_refuted, C89_root_quantiles_refuted, C90_roundtrip, C90_compressed_readable, C90_one_image_size, C90_overhead, C90_batch_size, C90_shared_strings_refuted, C90_file_bytes, C90_list_bytes, C90_names, C91_convolution, C91_transposed_convolution, C91_transposed_size, C92_entries, C95_module, C95_finetune, C95_finetune_builds, C95_misfit, C95_no_loss, C95_projector_ignored_refuted, C95_path_ignored_refuted, C95_bare_checkpoint_refuted, C95_tests, C95_shipped_tests_refuted, C99_merge, C99_merge_keys, C99_module, C99_module_refused, C99_plan, C99_default, C99_order_refuted.
* axioms `sig_forall_dec` (36 theorems): patch_reflect_refuted, em_causal_one_shot, vct_context_works_refuted, hific_small_image_refuted, hific_compress_needs_tables, unet_conditional, dists_metric_reductions, kid_metric_value, kid_distributed, kid_parameters_refuted, identity_schedule, rsample_scalar, rsample_shared_noise_refuted, rsample_vector_refuted, rate_schedule_first, rate_schedule_piecewise, rate_warmup_refuted, gan_updates, gan_flags, gan_frozen_untouched, plain_updates, gan_refit_refuted, gan_unconditional_refuted, gan_validation, C78_channel_norm_init, C83_collate, C83_collate_padded, C83_vimeo, C83_vimeo_values, C91_concatenation, C91_upsampling, C91_elementwise, C91_elementwise_mismatch, C94_grid, C94_grid_empty, C99_stages_agree.
* axioms `sig_forall_dec`, `functional_extensionality_dep` (148 theorems): diff_quantize_symbols, diff_quantize_close, diff_quantize_half_bin, diff_quantize_range, diff_bins_contain, diff_bins_centred, diff_bins_narrow_refuted, C23_sections_refused, C23_vlb_refused, C23_ddim, C23_ddim_refused, patch_round_trip, patch_round_trip_channels_first, patch_forward_succeeds_iff, patch_reflect_default_sizes, patch_windows_aligned, gsn_row_valid, gsn_rows_distinct, vct_final_head, hific_roundtrip, hific_decoded_latent, hific_compress_devices, hific_forward_setting, vqvae_eval_size, vqvae_small_image_refuted, vqvae_train_size, hific_forward_size, hific_forward_same_size, hific_forward_latent, dvc_closed_loop, dvc_odd_size_refuted, dvc_compensation_size, dvc_default_sizes, dvc_flow_size, dvc_flow_shapes, dvc_flow_small, dvc_flow_grey_refuted, unet_constructor, unet_norm_rejected, unet_factor_rejected, unet_full_resolution, unet_factor, unet_factor_two_refuted, unet_factor_depth_refuted, unet_large_factor_refuted, unet_small_image, msssim_default_size, dists_metric_accepts, dists_metric_value, dists_metric_batching, lower_bound_value, lower_bound_gradient, lower_bound_disconnected_refuted, lower_bound_float_refuted, lower_bound_modes, hsv_pixel, hsv_value, hsv_rejects, hsv_bad_shape, hsv_gamut, vct_ramp_linear, offset_value, offset_quantise, offset_errors, vq_usage, ce_tables_exist, ce_sizes_and_offsets, ce_row_contents, ce_row_usable_iff, ce_noise_prior_refuted, ce_negative_values_refuted, ce_wrong_distribution_refuted, ce_arguments, ce_given_tables, ce_not_compressible, ce_prior_access, ce_restore, ce_restore_empty_refuted, ce_quantize_refuted, ce_quantize_ints, C72_training_step, C72_validation_step, C72_training_refuses_short, C72_validation_refuses_short, C72_no_pframes_fails, C72_validation_bpp_lacks_iframe_refuted, C77_range, C77_range_zeros, C77_nearest, C77_linear, C77_zero_flow_aligned, C77_integer_flow, C77_default_half_pixel, C77_zero_flow_default_small, C77_zero_flow_default_refuted, C77_dense_image_warp, C77_bad_flow, C77_reflection, C78_gdn_history, C78_gdn_clamped, C78_gdn_pure_refuted, C78_gdn_new, C78_gdn_bounds, C78_gdn_injective, C78_inverse_refuted, C78_clamp_gradient, C82_mse, C82_functional, C83_train, C83_val, C83_test, C83_values, C83_train_batches, C83_train_batches_refuted, C83_dvc, C91_pooling, C91_pool_upsample, C91_image_networks, C91_compress, C91_video_networks, C93_create, quantiser_result, compressai_quantiser, compressai_exact, compressai_nearest, quantiser_too_small, C94_illm, C94_illm_validation_quiet, C94_illm_empty, C94_illm_epoch_end_refuted, C94_vct, C94_vct_errors, C96_ste, C96_hific, C96_quantized_likelihoods, C96_vct_output, C96_frames, C96_frames_cut, C96_first_frame, C96_frame_value, C98_linear_schedule, C99_quantile_loss, C99_residual_refuted, C102_drop_path, C102_dropout, C104_verdict, C104_one_run_is_not_enough_refuted, C104_batch.
* axioms `sig_forall_dec`, `sig_not_dec`, `functional_extensionality_dep` (87 theorems): vct_logits_bounded, soft_round_half, soft_round_shift, ramp_cosine_range, ramp_cosine_rises, ramp_cosine_peak, ramp_cosine_falls, ramp_cosine_bottom, ramp_cosine_end_refuted, ramp_cosine_restart_refuted, ramp_const_range, ramp_const_rises, ramp_const_flat, ramp_const_falls, ramp_const_end, ramp_const_restart_refuted, ramp_const_default_refuted, vct_ramp_cosine_raises, vct_ramp_cosine_decay, vct_ramp_cosine_bound, vct_ramp_cosine_rises, vct_ramp_cosine_rises_refuted, vct_ramp_cosine_restart_refuted, vct_warmup_cosine, vct_warmup_long_refuted, tails_return, tails_never_return, tails_flat_refuted, tails_step_bound, tails_accuracy, tails_terminate, vq_accepts, vq_nearest, vq_unit_rows, vq_idempotent, vq_loss_minimal, vq_random_choice, oasis_gradient_direction, C78_channel_norm, C78_channel_norm_affine, C78_channel_norm_bound, C79_shape, C79_equivariant, C79_attn_block, C79_attn_residual, C82_normalised, C82_stable, C82_lpips, C82_lpips_bounds, C82_combined, C84_evaluation_is_exact, C84_saved_statistics, C84_bound_is_sum_of_terms, C84_small_data_hangs, C84_uneven_batches_refused, C84_plot, C96_autograd, C96_vq_values, C96_vq_straight_through, C96_vq_commitment, C96_vq_embedding_reach, C96_vq_embedding, C96_vq_normalized, C96_vq_short_codeword, C98_cosine_schedule, C98_linear_20_refuted, C98_cosine_signal, C100_window, C100_train_crop, C100_train_resized, C100_train, C101_step_bound, C101_weights_bounded, C101_travel, C101_adamw, C101_clip_norm, C101_clip_value, C101_no_clipping, C101_unsupported, C101_skipped, C101_two_optimisers, C101_shipped, C101_shipped_training, C103_shapes, C103_errors, C103_values, C103_uniform.
* axioms `sig_forall_dec`, `classic`, `functional_extensionality_dep` (1 theorems): C104_passing_everywhere.
* axioms `sig_forall_dec`, `sig_not_dec`, `classic`, `functional_extensionality_dep` (256 theorems): ac_roundtrip, ac_roundtrip_index, ac_roundtrip_oversize3, ac_interval_invariant, ac_sync, ac_decode_total, ac_batch_independent, ac_code_length, ac_code_length_slack, ac_overrun_exact, ac_overrun_detected, ac_overrun_refuted, ac_symbol_range_exact, ac_symbol_range_refuted, ac_trailing_bytes, rans_code_length, rans_overhead_small, diff_quantize_float, diff_dequantize_float, diff_symbols_float, diff_pixels_float, C23_sections, C23_first_step, C23_vlb, em_token_round_trip, em_latent_round_trip, em_decode_string_count, em_self_check, em_one_latent_only, gsn_row_parameters, gsn_lossless, gsn_forward_agrees, gsn_build_indexes_refuted, gsn_build_indexes, scaler_to_idx_range, scaler_inverse, scaler_inverse_refuted, vct_skip_decode_exact, vct_skip_decode_away, vct_skip_decode_refuted, vct_masked_attention, vct_decoder_causal, vct_network_causal, vct_coded_distributions, vct_masked_attention_refuted, vct_attention_average, vct_transformer_errors, vct_attention_errors, vct_network_outputs, vct_heads_apart, vct_receiver_in_sync, vct_encoding_succeeds, vct_receiver_in_sync_refuted, msssim_formula, msssim_raises_iff, msssim_reductions, msssim_window, msssim_range, msssim_symmetric, msssim_one_iff, msssim_self, msssim_extra_channels_refuted, image255_value, image255_rejects, image255_monotone, image255_roundtrip, patch_fid_updates, patch_fid_refusals, patch_fid_atomic_refuted, patch_fid_shift_refuted, patch_fid_grey_refuted, msssim_metric_mean, msssim_metric_value, msssim_metric_batching, msssim_metric_distributed, psnr_value, psnr_bad_range, psnr_symmetric, psnr_decreasing, psnr_scale, psnr_batch_refuted, psnr_uint8_exact, psnr_uint8_optimistic, psnr_uint8_refuted, soft_round_small, soft_round_cell, soft_round_integer, soft_round_increasing, soft_round_inverse_left, soft_round_inverse_right, soft_round_towards, soft_round_limit, soft_round_mean_is_midpoint, soft_round_mean_small_alpha, hsv_gamut_float, hsv_grey_float, hsv_close_float, noise_prob_value, noise_prob_range, noise_prob_telescopes, noise_prob_uniform, noise_normal_total_mass, noise_log_prob_normal, noise_log_prob_normal_tail, noise_log_prob_normal_finite, noise_log_prob_other, noise_log_prob_uniform_refuted, Phi_is_normal_cdf, ndtr_value, log_ndtr_value, log_ndtr_tail, log_ndtr_increasing, log_ndtr_dtype, log_ndtr_float64_refuted, cdf_normal, log_cdf_normal, log_survival_normal, survival_complement, log_cdf_other, log_cdf_uniform_refuted, log_survival_other_refuted, ndtr_float32_accuracy, info_none, info_sum, info_batch, info_reductions_agree, info_bits, info_raises, info_unknown_reduction, info_exceptions, log_expm1_value, log_expm1_softplus, log_expm1_increasing, tails_icdf, lower_tail_estimate, upper_tail_diverges_refuted, tails_refused, vq_hits_history, vq_reset_refuted, vq_num_bytes, vq_perplexity, vq_perplexity_even, vq_distance_float, vq_nearest_float, vq_codeword_float, vq_output_float, vq_output_float_refuted, vq_unit_rows_float, rate_loss_spec, rate_loss_total, rate_loss_bounds, gan_bce_generator_value, gan_bce_discriminator_value, gan_bce_refused, gan_bce_positive, gan_bce_undecided, gan_bce_generator_gradient, gan_bce_discriminator_gradient, oasis_generator_value, oasis_discriminator_value, oasis_generator_checked, oasis_discriminator_checked, oasis_positive, oasis_shift_invariant, oasis_undecided, oasis_label_layout_refuted, oasis_fake_shape_refuted, oasis_generator_gradient, oasis_discriminator_gradient, C75_losses, C75_weighted_bounds, C75_no_lambda, C75_test, C75_test_raises, C75_test_stateless, C75_forward_before, C75_compress_then_forward_refuted, C75_train_after_compress, C77_colors, C77_colors_raise, C77_batch_refuted, C79_mixture, C80_trees, C80_msillm, C80_msillm_accepts, C80_no_latent, C80_normalised, C92_bytes_recovered, C92_nearest_byte, C92_bytes_monotone, C92_report, C92_nothing_to_report, C92_single_patch_refused, C92_small_picture, C92_unreadable, C92_order, C93_tables, C93_probabilities, C93_row_exists, C93_built_once, C93_kept, C93_refused, C93_precision_unused, C93_default_fits, C93_usable, C94_mosaic, C94_flow_mosaic, C94_mosaic_refused, C94_log_images, C94_dvc, C94_dvc_short, C96_vct_rate, C96_vct_rate_scale, metric_sum_float, metric_count_float, metric_mean_float, metric_mean_float_unit, metric_batching_float, metric_distributed_float, metric_float_refuted, C98_encoder_latents, C98_step_zero, C98_prior_accepts, C98_network_call, C98_prior_mean, C98_right_network, C98_prior_stdd, C98_prior_variance, C98_create, C98_default, C98_vlb, C98_create_refused, C98_first_variance, C98_step_refused, C99_held_only, C99_sizes, C99_stage1_loss, C99_rate_distortion, C99_loss_nonneg, C100_resize, C100_val, C100_val_same, C102_causal, C102_evaluation, C102_dropped_block, C102_attention_unbiased, C102_dropped_layers, C102_rates, C103_causal_near, C103_default_causal, C103_coded_distributions, C104_no_false_alarm, C104_fresh_passes, C104_accepted, C104_fresh_ok, C104_fresh_batch.

{"id": "C01", "title": "Arithmetic coder round trip", "statement": "Whenever arithmetic `encode` finishes with its write index strictly inside the buffer, `decode` of the returned bytes with the matching inverse CDF returns exactly the encoded message.", "quantifier": "every message of 8-bit symbols of any length >= 1, every (possibly adaptive, stateful) cdf_fun / inverse_cdf_fun pair whose intervals lie in [0,65536], are non-empty and invert each other, every buffer size", "why_tests_cant": "the state is a 2^64-size interval plus an unbounded pending-bit counter; carries that straddle byte borders or pile up pending bits appear only for rare symbol sequences", "anchors": ["projects/jax_entropy_coders/jax_arithmetic_coder.py: encode, decode, _jax_encode, _jax_decode, _enqueue, _dequeue, _append_bit, _append_bit_and_pending, _retrieve_bit"]}
{"id": "C02", "title": "Arithmetic coder interval invariant and termination", "statement": "After every coded symbol the coding interval satisfies 0 <= low < 1/2 <= high < 1 (scaled to 2^32), is wider than 1/4, encoder and decoder hold the same interval, and each renormalisation loop ends after at most 32 iterations without any 32-bit wrap-around changing the interval.", "quantifier": "every message, every valid CDF sequence, every intermediate coder state", "why_tests_cant": "a while loop inside jit with no iteration bound: only an invariant shows that no reachable state loops forever or collapses the interval", "anchors": ["projects/jax_entropy_coders/jax_arithmetic_coder.py: _enqueue, _dequeue"]}
{"id": "C03", "title": "Arithmetic coder batch independence", "statement": "In `decode`, the message recovered for one batch element does not depend on the other elements: zero-padding its bytes to the longest byte string and decoding up to the longest message length, then truncating, gives the same symbols as decoding it alone.", "quantifier": "every batch of byte strings produced by encode, of any (different) lengths, with any message_lens", "why_tests_cant": "the effect depends on the relative lengths of all batch members and on out-of-range reads; tests use a couple of batches", "anchors": ["projects/jax_entropy_coders/jax_arithmetic_coder.py: decode, _single_batch_decode, encode"]}
{"id": "C04", "title": "Arithmetic coder code length", "statement": "The number of bits written for a message is at most the ideal code length sum(log2(65536/freq_i)) plus 2 bits plus at most log2(1/(1-2^-14)) (<0.0001) bit per symbol; and at least the ideal minus a like slack.", "quantifier": "every message and every valid CDF sequence", "why_tests_cant": "a bound over all distributions and lengths; rounding losses accumulate multiplicatively", "anchors": ["projects/jax_entropy_coders/jax_arithmetic_coder.py: _enqueue, _jax_encode"]}
{"id": "C05", "title": "Arithmetic coder buffer overrun is detected", "statement": "With a buffer at least as long as the code, `encode` returns the code and it decodes to the message; if the code is two or more bytes longer than the buffer, `encode` raises. Known deviation: if the code is exactly one byte longer than the buffer (possible with the default buffer_oversize), `encode` returns the code without its last byte, which can decode to another message.", "quantifier": "every message, CDF and buffer_oversize", "why_tests_cant": "the boundary case (exactly full buffer) needs a message whose code ends in exactly one byte past the buffer", "anchors": ["projects/jax_entropy_coders/jax_arithmetic_coder.py: encode (the i > len(b) check), _jax_encode"]}
{"id": "C06", "title": "Arithmetic coder symbol range", "statement": "`decode` returns every symbol modulo 256, so the coder is lossless exactly for messages of symbols below 256. Known deviation: a CDF may have up to 65536 symbols, and symbols above 255 come back changed without an error.", "quantifier": "every symbol value of a CDF with up to 65536 symbols", "why_tests_cant": "only alphabets above 256 symbols show the truncation", "anchors": ["projects/jax_entropy_coders/jax_arithmetic_coder.py: _jax_decode (message dtype uint8)"]}
{"id": "C07", "title": "Arithmetic coder ignores trailing bytes", "statement": "Appending arbitrary bytes to an encoded byte string does not change what `decode` returns.", "quantifier": "every encoded message and every byte suffix", "why_tests_cant": "universally quantified over suffixes; relies on the final flush disambiguating every continuation", "anchors": ["projects/jax_entropy_coders/jax_arithmetic_coder.py: _jax_encode (final bits), _jax_decode"]}
{"id": "C08", "title": "rANS push and pop are inverse", "statement": "Pushing symbols with interval [low,high) on a compressed message and popping with the same intervals restores heads and stack exactly; conversely popping and then pushing back restores the message, provided the stack holds the needed bytes.", "quantifier": "every number of interleaved lanes, every head vector in [2^24,2^32), every precision p<=24, every interval 0<=low<high<=2^p per lane, every tail content with room", "why_tests_cant": "three-stage vectorised renormalisation with data dependent byte counts per lane, in 2^32 head states per lane", "anchors": ["projects/jax_entropy_coders/craystack/_backend.py: push_symbols, pop_symbols, tail_push, tail_pop, peek"]}
{"id": "C09", "title": "rANS encode/decode round trip", "statement": "`decode(encode(messages))` returns the messages, for the default and fixed-array codecs, whenever the tail pointer at the end of encoding is at least the interleave width and the decoder is given enough capacity (not necessarily the same capacity).", "quantifier": "every batch, message length, interleave level, codec with matching cdf/inverse-cdf, tail capacity", "why_tests_cant": "correctness depends on pointer arithmetic, clamped slices and LIFO order for arbitrary lengths", "anchors": ["projects/jax_entropy_coders/craystack/coder.py: encode, decode, _jax_encode, _jax_decode", "projects/jax_entropy_coders/craystack/codecs.py: default_rans_codec, fixed_array_cdf_codec", "projects/jax_entropy_coders/craystack/_backend.py"]}
{"id": "C10", "title": "rANS append and peel histories", "statement": "Encoding onto an existing buffer (`start_buffers`) and decoding again returns the new message and the old buffer byte-for-byte; hence any number of messages stacked by successive encode calls is recovered in reverse order by successive decode calls.", "quantifier": "every history (list) of messages of any lengths with per-call capacities large enough, every start buffer with normalised heads", "why_tests_cant": "histories of unbounded length; off-by-one pointer conventions (the -1/+1 corrections) must cancel in every nesting", "anchors": ["projects/jax_entropy_coders/craystack/coder.py: encode(start_buffers), decode", "projects/jax_entropy_coders/craystack/_backend.py: convert_to_embedded, insert_zeros"]}
{"id": "C11", "title": "rANS head and tail stay in range", "statement": "Every reachable compressed message has every head in [2^24, 2^32) and only bytes in its tail; no 32-bit overflow happens in push or pop.", "quantifier": "every sequence of pushes and pops with valid intervals", "why_tests_cant": "invariant over all histories", "anchors": ["projects/jax_entropy_coders/craystack/_backend.py: push_symbols, pop_symbols, empty_message"]}
{"id": "C12", "title": "rANS message serialisation is lossless", "statement": "Flattening a compressed message to a byte array and unflattening it with the same shape and pointer returns the same heads and tail; and flatten after unflatten returns the same bytes.", "quantifier": "every head vector of 32-bit values, every tail, every lane count", "why_tests_cant": "all 2^32 head values and all lane counts", "anchors": ["projects/jax_entropy_coders/craystack/_backend.py: craymessage_to_array, array_to_craymessage"]}
{"id": "C13", "title": "rANS capacity errors are reported", "statement": "For every message there is a number of tail bytes, needed, that does not depend on the capacity: with a capacity below needed, encode raises; with a capacity of at least needed plus one byte per lane, encode succeeds with a buffer of exactly 4 * lanes + 1 + needed bytes and decode with the same capacity returns the message and the start buffer. Known deviations: with a capacity from needed up to needed + lanes - 1 encode still returns a buffer without an error, and at needed exactly decode with the same capacity raises ValueError, while in between encode or decode may return a wrong message silently; the default capacity is not always enough.", "quantifier": "every message, interleave level and capacity", "why_tests_cant": "needs the pointer to land in [0, lanes) or exactly 0 at a particular step", "anchors": ["projects/jax_entropy_coders/craystack/coder.py: encode (lim - head_size < 0 check), decode", "projects/jax_entropy_coders/craystack/_backend.py: tail_push, insert_zeros"]}
{"id": "C14", "title": "Bits-back codec round trip", "statement": "A bits-back codec built from any valid prior, posterior maker and likelihood maker is itself a lossless codec: pop after push returns the symbols and restores the message, and full encode/decode of message sequences is lossless, as long as the stack holds enough initial bits.", "quantifier": "every latent-variable model (posterior/likelihood depending arbitrarily on symbol/latent), every message, every starting message with enough bits", "why_tests_cant": "the latents are determined by stack contents; correctness is an algebraic identity over all stacks", "anchors": ["projects/jax_entropy_coders/craystack/codecs.py: bitsback_ans_codec"]}
{"id": "C15", "title": "Bits-back with on-demand random bits", "statement": "With allow_empty_pops, coding remains lossless when the stack runs dry: for one lane at every depth, and for any number of lanes when a row starts on an empty stack or on one with three bytes per lane and remaining row; decode then returns the start buffer followed by the borrowed bytes. Known deviation: with two or more lanes, a stack that holds some bytes but fewer than the lanes want makes encode succeed and decode return a different message.", "quantifier": "every message and lane count, every stack depth including empty and partially empty", "why_tests_cant": "partial emptiness with several lanes (some flagged, fewer bytes than flags) is a measure-zero corner", "anchors": ["projects/jax_entropy_coders/craystack/_backend.py: tail_pop (allow_empty_pop clip)", "projects/jax_entropy_coders/craystack/codecs.py: bitsback_ans_codec"]}
{"id": "C16", "title": "Fixed-array codec lookup", "statement": "For a non-decreasing CDF array from 0 to 2^precision, the pop lookup of any value returns the unique symbol whose interval contains it, so symbols of zero frequency are never produced and each symbol of positive frequency is recovered from every value in its interval.", "quantifier": "every CDF array of any length, every value in [0, 2^precision)", "why_tests_cant": "argmin over a boolean array with ties and repeated CDF entries", "anchors": ["projects/jax_entropy_coders/craystack/codecs.py: fixed_array_cdf_codec (inverse_cdf_fun, _lookup)"]}
{"id": "C17", "title": "rANS code length", "statement": "The bytes pushed for a message are bounded by the ideal code length plus a constant and a small per-symbol overhead; no push writes more than three bytes per lane.", "quantifier": "every message, codec of precision <= 16, lane", "why_tests_cant": "bound over all inputs", "anchors": ["projects/jax_entropy_coders/craystack/_backend.py: push_symbols"]}
{"id": "C18", "title": "Diffusion bits-back codec is lossless over histories", "statement": "For any hierarchical latent-variable model and any number of diffusion steps, after any sequence of `encode` calls the same number of `decode` calls returns the data batches in reverse order and restores the original message and data_count.", "quantifier": "every model (generate / inference functions), every number of steps, every history, every abstract stack codec with inverse push/pop", "why_tests_cant": "unbounded histories and models; latent order must be mirrored exactly in four loops", "anchors": ["projects/bits_back_diffusion/bits_back_diffusion/codec.py: BitsBackCodec.encode, decode, prior_push, prior_pop, posterior_push, posterior_pop, likelihood"]}
{"id": "C19", "title": "Diffusion bits-back rate accounting", "statement": "With tracking on, the per-step pushed bytes minus popped bytes add up exactly to the growth of the message during the encode call.", "quantifier": "every model, number of steps and message", "why_tests_cant": "telescoping sum over all steps", "anchors": ["projects/bits_back_diffusion/bits_back_diffusion/codec.py: _track_codec, encode, statistics"]}
{"id": "C20", "title": "Diffusion quantise/dequantise", "statement": "Quantising the bin centre of any integer symbol gives back this symbol; quantising any real value in range moves it by at most half a bin; results are always in [0, 2^prec). Over the default range [-1, 1] the same holds in floating point: a symbol's value survives dequantising and quantising in double precision (up to 49 bits) and in single precision (up to 20 bits), and 8-bit pixels that a loader has mapped to [-1, 1] in single precision are recovered exactly.", "quantifier": "every precision, data range and symbol / real value", "why_tests_cant": "all symbols at all precisions", "anchors": ["projects/bits_back_diffusion/bits_back_diffusion/codec.py: quantize, diag_gaussian_unif_bins"]}
{"id": "C21", "title": "Diffusion codec checkpoint restores everything", "statement": "Loading a saved state dict into a codec restores the message, the data count, the initial size and the byte counts of every step, and every later sequence of calls returns the same as on the saved codec. Known deviation: extra_bytes is saved under a misspelt key and keeps the value of the loading codec, so the reported sizes differ unless it agrees.", "quantifier": "every reachable codec state", "why_tests_cant": "state after arbitrary histories; a misspelt key only shows when the lost field is non-zero", "anchors": ["projects/bits_back_diffusion/bits_back_diffusion/codec.py: state_dict, load_state_dict, statistics"]}
{"id": "C22", "title": "Diffusion codec input validation", "statement": "`encode` rejects data of the wrong shape or outside [0, 2^prec) with ValueError and leaves the codec unchanged; accepted data increments data_count by one.", "quantifier": "every input array and codec state", "why_tests_cant": "quantifies over all malformed inputs", "anchors": ["projects/bits_back_diffusion/bits_back_diffusion/codec.py: encode"]}
{"id": "C23", "title": "Timestep respacing", "statement": "space_timesteps returns only steps of the original process, and exactly the requested number of distinct steps for section lists and for vlbN; the first step is always kept.", "quantifier": "every number of timesteps and every section list", "why_tests_cant": "rounded fractional strides could collide for some size / count pair", "anchors": ["projects/bits_back_diffusion/bits_back_diffusion/script_util.py: space_timesteps"]}
{"id": "C24", "title": "Encode job resumes from the latest checkpoint", "statement": "When several encode (or decode) checkpoints exist, the one with most progress is chosen, so a job killed between two operations or while it writes a decoded batch, any number of times, resumes without repeating saved batches or skipping any, never dies, finishes, and ends with the result of an uninterrupted run (sample counts that fit the six characters of the file names; a checkpoint torn by the crash is not survived).", "quantifier": "every crash point and history of restarts, every set of checkpoint files written by the run, every directory listing order, every batch size, world size and save interval", "why_tests_cant": "crash points and very long runs (six-digit parsing)", "anchors": ["projects/bits_back_diffusion/encode.py: main, encode, decode", "projects/bits_back_diffusion/bits_back_diffusion/script_util.py: update_checkpoint, parse_resume_step_from_filename"]}
{"id": "C25", "title": "VCT patcher round trip", "statement": "Splitting a latent into windows (patch_size = stride) and un-patching returns the original tensor at every pixel, for any height and width that the padding mode can extend to a multiple of the stride; splitting fails exactly for the other sizes (with reflection and the default windows: a side of 1, 2, 3 or 5). Un-patching refuses patches that are not of the patcher's size.", "quantifier": "every batch, channel count, height, width, stride and pixel", "why_tests_cant": "index arithmetic through reshape/permute for all sizes including non-multiples", "anchors": ["projects/torch_vct/neural/patcher.py: Patcher.forward, _pad, _window_partition, unpatch"]}
{"id": "C26", "title": "VCT encoder and decoder windows line up", "statement": "Patches of the larger context window and of the target window agree in number and order, and the i-th context patch is centred on the i-th target patch.", "quantifier": "every height, width, stride and (even-difference) window size", "why_tests_cant": "padding and strides vary with every size", "anchors": ["projects/torch_vct/neural/patcher.py: Patcher._pad, _window_partition, _window_partition_conv2d"]}
{"id": "C27", "title": "VCT autoregressive coding round trip", "statement": "Decoding the per-token byte strings produced by `compress` reproduces exactly the quantised latent that the encoder computed, for any deterministic entropy model; with a causal one, the coded distributions are those of a single parallel run. With run_decode, a result is returned only if the decoder makes of the strings what the encoder reconstructed, in every entry, for every entropy coder, faulty ones included. Everything but one latent at a time is refused.", "quantifier": "every latent, every model, every sequence length", "why_tests_cant": "decoder re-derives each distribution from its own partial output; all histories of previous tokens matter", "anchors": ["projects/torch_vct/neural/entropy_model.py: compress, decompress, _encode, _decode"]}
{"id": "C28", "title": "VCT decoder transformer is causal", "statement": "The distribution parameters predicted for token i depend only on tokens before i (start symbol and look-ahead mask), for every input and weights, as long as the attention logits stay within +-400000 (an unbounded logit outweighs the finite mask and leaks). The heads of attention partition every token, attention is an average of the values with weights that are not negative, sum to one and grow with the similarity of query and key, and the final heads are three affine maps with max(a, a/100) between them.", "quantifier": "every token sequence, depth, head count, weights (with bounded logits)", "why_tests_cant": "requires non-interference over all inputs; a test perturbs a few tokens", "anchors": ["projects/torch_vct/neural/entropy_model_layers.py: StartSym, TransformerBlock, Transformer", "projects/torch_vct/neural/layers_utils.py: WindowMultiHeadAttention"]}
{"id": "C29", "title": "VCT encoder and decoder stay in sync", "statement": "For every scene sequence, decode_scenes and encode_scenes hold identical previous-latent states after every scene, and a receiver that has only the strings and conditions on its own decoded latents recovers the encoder's latents for every scene; from the fourth scene on, where the encoder skips decoding, this needs latents that are not within float32 error of a half-integer (else the two sides drift apart).", "quantifier": "every number of scenes and frames, every model", "why_tests_cant": "drift would show only after particular sequence lengths", "anchors": ["projects/torch_vct/model_pipeline.py: encode_scenes, decode_scenes, encode_Pscene, decode_Pscene, compress_video, decompress_video"]}
{"id": "C30", "title": "VCT context window", "statement": "The P-frame state always holds the last context_len latents (or all if fewer, or if context_len is 0), oldest first; each scene is coded given the previous two latents (the previous one twice if there is no other); encoding works exactly when context_len is 1 or 2 or there are at most three scenes (the entropy model ignores the pipeline's context_len).", "quantifier": "every scene length and context_len", "why_tests_cant": "off-by-one slices at the start of a scene and for context_len 0", "anchors": ["projects/torch_vct/model_pipeline.py: VCTPipeline.__init__, decode_Pscene", "projects/torch_vct/neural/entropy_model.py: _get_encoded_seqs"]}
{"id": "C31", "title": "Memoisation is transparent", "statement": "A memoised method returns the same value or exception as the plain one for every call history in which arguments have the annotated forms and tensors keep identity and contents (a reused or changed tensor gives a stale result); the underlying function returns at most once per function and key, hit counts and expect_cache_hit are exact, keyword order and cache arguments do not matter; without a bound cache it always calls through. In the video pipeline the cache is hit exactly once, for the first scene. An argument that cannot be part of a key, such as a set at any depth, is a TypeError that calls nothing and leaves the cache alone.", "quantifier": "every call history and argument", "why_tests_cant": "depends on key collisions between all earlier calls", "anchors": ["projects/torch_vct/utils/memoize.py: memoize, bind, _ensure_hashable"]}
{"id": "C32", "title": "VCT entropy tables are indexed in range", "statement": "Every (mean, scale) pair is mapped to a valid CDF table row, distinct grid cells to distinct rows, and compress and decompress compute identical rows from identical parameters, so conditional compression is lossless. Every symbol is coded with the table row of its own mean and scale.", "quantifier": "every real mean and scale, every table size", "why_tests_cant": "clamping and truncation at grid borders", "anchors": ["projects/torch_vct/neural/bottlenecks.py: _normalize_indexes, indexes_to_cdf_indexes, _get_indexes, compress, decompress"]}
{"id": "C33", "title": "VCT scale quantiser inverse", "statement": "to_scale_idx is increasing, maps (0,scales_max] into (0,num_scales-1] with scales_max at the end, refuses scales that are not positive, and from_scale_idx undoes it up to adding scales_min (it does not subtract the shift again).", "quantifier": "every scale in range", "why_tests_cant": "real-valued identity", "anchors": ["projects/torch_vct/neural/bottlenecks.py: Scaler"]}
{"id": "C34", "title": "VCT compress without decoding returns the coded latent", "statement": "With run_decode=False, the latent returned by `compress` equals the latent that the decoder will reconstruct whenever float32 computes latent minus rounded mean exactly and the latent is not a half-integer with an odd rounded mean; also whenever the latent is further from every half-integer than the rounding error of that subtraction. Known deviations: at a half-integer with an odd rounded mean the two differ by 1, and a subtraction that rounds to a half-integer can make them differ too.", "quantifier": "every latent and mean", "why_tests_cant": "differs only at exact half-integers", "anchors": ["projects/torch_vct/neural/entropy_model.py: compress", "projects/torch_vct/neural/bottlenecks.py: GsnConditionalLocScaleShift.compress"]}
{"id": "C35", "title": "Hyperprior compress/decompress preserves image size and coding state", "statement": "For every image of at least 33 by 33 pixels, decompress(compress(x)) has the size of x and values in [0, 1]; the padded size is the smallest multiple of 64 not below it; latent and hyper-latent shapes used by the decoder equal the encoder's; and the decoded latent equals the encoder's quantised latent. Smaller images make compress raise RuntimeError (reflection padding), although the docstring puts no limit on the size.", "quantifier": "every batch, height and width, every network and lossless bottleneck", "why_tests_cant": "all sizes modulo 64", "anchors": ["neuralcompression/models/_hific_autoencoder.py", "neuralcompression/models/_hyperprior_autoencoder.py: compress, decompress", "neuralcompression/functional/_pad_image.py"]}
{"id": "C36", "title": "Hyperprior encoder freezing and device state", "statement": "Once the encoder (or the bottleneck) is frozen, no sequence of train, eval, freeze, device and optimiser calls puts it in training mode or returns its parameters for optimisation. forward works only under the device setting \"forward\", under which all parameters share a device. compress and decompress work exactly if all parameters are on the CPU, or force_cpu=False was given and the five bottleneck modules are on the CPU, and the coding tables exist; so the default force_cpu=True fails for a model on a GPU even after update_tensor_devices(\"compress\"). collect_parameters splits the trainable parameters by whether the name ends in .quantiles.", "quantifier": "every call sequence", "why_tests_cant": "state machine over arbitrary histories", "anchors": ["neuralcompression/models/_hyperprior_autoencoder.py: train, freeze_encoder, freeze_bottleneck, update_tensor_devices, collect_parameters, forward", "neuralcompression/models/_hific_autoencoder.py"]}
{"id": "C37", "title": "VQ-VAE autoencoder preserves image size", "statement": "In eval mode the output has exactly the input's height and width for every size above half the downsampling factor (or equal to the factor), padding does not change the visible region, and smaller images raise; in training mode, where nothing is padded, the output has the size rounded down to multiples of the factor.", "quantifier": "every height, width and number of levels", "why_tests_cant": "all sizes modulo the downsampling factor", "anchors": ["neuralcompression/models/_vqvae_xcit_autoencoder.py: forward, encode, decode"]}
{"id": "C38", "title": "DVC P-frame coding is closed loop", "statement": "If the image's size over 2^(layers-1), rounded up, is even in both directions for both autoencoders, decompress of what compress produced returns exactly the prediction the encoder subtracted plus the decoded residual, clamped to [0, 1], with tensors of the image's size; otherwise compress succeeds but decompress raises. For the default model and images of at least 16x16: it works exactly if height and width are, modulo 16, zero or at least 9 (1280x720 works, 1920x1080 does not). For any kernel, stride and number of layers the decoder given the encoder's logged sizes restores the input size and rejects a wrong number of sizes.", "quantifier": "every image size, number of layers, odd kernel, weights and lossless bottleneck", "why_tests_cant": "sizes that are odd at some pyramid level", "anchors": ["neuralcompression/models/deep_video_compression.py: DVC.compress, DVC.decompress, DVCCompressionEncoder, DVCCompressionDecoder, DVCMotionCompensationModel", "neuralcompression/functional/_dense_image_warp.py"]}
{"id": "C39", "title": "DVC pyramid flow sizes", "statement": "The pyramid flow estimator returns a two-channel flow of the image's size and one image pair per level, each half the size of the next, for every number of levels L and every size of at least 2^(L-1); smaller images raise RuntimeError, images of different shapes or of one channel raise ValueError.", "quantifier": "every height, width, level count, odd kernel size and list of filter counts ending in 2", "why_tests_cant": "odd sizes at deep levels", "anchors": ["neuralcompression/models/deep_video_compression.py: DVCPyramidFlowEstimator"]}
{"id": "C40", "title": "U-Net discriminator output resolution", "statement": "With L levels, the constructor accepts exactly the powers of two as output_downsampling_factor (and the four norm types). Images smaller than 2^L are refused. Factor 1 gives the image's resolution cut down to multiples of 2^L; factors 4 to 2^(L-1) give the size divided by the factor for sizes divisible by 2^L (else cut down first). Deviations from the documentation: factor 2 refuses every image (or, if the second channel number is 64, is ignored); factor 2^L works only if the last channel number is 64; larger factors are silently ignored.", "quantifier": "every channel list, factor, norm type, weights and image size", "why_tests_cant": "recursive construction with flags per level", "anchors": ["neuralcompression/models/_unet_discriminator.py: UnetDiscriminator, _UnetLevel, ConditionalUnetDiscriminator"]}
{"id": "C41", "title": "Vector quantiser picks the nearest codeword", "statement": "The bottleneck replaces every latent vector by the first of the length-1 normalised codebook rows nearest to the vector, so the result has unit vectors only; quantising twice changes neither vectors nor indices; the two losses are the least mean squared distance over all choices of codewords; the random choice takes row k with a probability inversely proportional to its squared distance plus 1e-7. The hit counts are the number of uses of each code over the whole history of training calls, the usage figures are computed from them, and the perplexity is NaN exactly if there were no hits and otherwise in [1/(1+1e-7), number of used codes). Known deviations: reset_hits resets nothing; num_bytes returns the largest n with 256^n <= K^(vectors), which understates the length by up to a byte. In float32 arithmetic, whatever the order of summation, the chosen codeword's squared distance exceeds the least one by at most the rounding of d+2 operations and d*2^-149; a vector that is a codeword is given that codeword up to 2^-73 per entry; normalised rows have length one up to (d+10)/2^22; the returned latent is the codeword's entry within 2^-24*(|q|+2|q-x|), exactly so if q/2 <= x <= 2q, but not always (a further known deviation).", "quantifier": "every codebook, every latent tensor, every history of calls", "why_tests_cant": "expanded-distance formula versus true distance; ties", "anchors": ["neuralcompression/layers/_vq_bottleneck.py", "neuralcompression/layers/_q_bottleneck.py"]}
{"id": "C42", "title": "Soft rounding", "statement": "soft_round fixes integers and half-integers, is strictly increasing, commutes with integer shifts, stays in the unit cell and between the identity and rounding, and is within exp(-2*alpha*d) of the nearest integer for a point at distance d from the middle of its cell; soft_round_inverse is its two-sided inverse; soft_round_conditional_mean(z) is the midpoint of the set of points whose soft rounding is within 1/2 of z; below the cut-off both are the identity. For alpha below 1/1000 rounding and the conditional mean are the identity.", "quantifier": "every real x and alpha above the cut-off", "why_tests_cant": "continuum of inputs", "anchors": ["neuralcompression/functional/_soft_round.py", "neuralcompression/functional/_soft_round_inverse.py", "neuralcompression/functional/_soft_round_conditional_mean.py"]}
{"id": "C43", "title": "Lower bound operator", "statement": "lower_bound with a tensor bound returns max(x, bound), and in modes identity and identity_if_towards its gradient follows the documented rule; other mode names raise ValueError. Known deviations: mode disconnected returns the input in place of a gradient, and a Python number as bound, which the signature allows, raises AttributeError.", "quantifier": "every tensor, bound and upstream gradient", "why_tests_cant": "all sign combinations", "anchors": ["neuralcompression/functional/_lower_bound.py"]}
{"id": "C44", "title": "HSV to RGB stays in gamut", "statement": "hsv_to_rgb converts every valid HSV pixel by the six-sector hexcone formula (hue 360 as hue 0); results are in [0,1], the largest component is v and the smallest v*(1-s); any shape other than N x 3 x H x W and any value out of range raises ValueError. In single precision, on the CPU and with CUDA's multiplication by the reciprocal, the largest component is still exactly the value, the smallest is v - v s with each operation rounded, unsaturated colours are exactly grey, and every component is within 2^-19 of the exact colour.", "quantifier": "every h, s, v", "why_tests_cant": "continuum; six branches", "anchors": ["neuralcompression/functional/_hsv_to_rgb.py"]}
{"id": "C45", "title": "Learning-rate schedules", "statement": "The ramp/cosine schedule multipliers stay in [min,1], rise during the ramp to 1 and fall afterwards; RampConstCosine is at its minimum at the last step; the torch_vct schedules fall from the base rate to eta_min at epoch T_max-1. Known deviations: RampCosine stretches the decay over num_max_steps after the ramp, so at the last step it is still sin(ramp/max*pi/2); all cosine schedules bring the full rate back if training runs past the end; RampConstCosine with its default of no cosine steps and the torch_vct schedules with ramp_len 0 or T_max-1 divide by zero; LinearRampCosineLR need not rise during a ramp of more than half of the epochs (it drops to eta_min just before the peak if T_max = ramp_len+2). The identity schedule never changes the rate.", "quantifier": "every step and configuration", "why_tests_cant": "continuum of configurations; behaviour past the last step", "anchors": ["neuralcompression/optim/", "projects/torch_vct/utils/schedulers.py"]}
{"id": "C46", "title": "Uniform-noise densities are consistent", "statement": "prob of the uniform-noise convolved distribution equals the base CDF difference over the unit interval around the point, is in [0,1], telescopes over consecutive unit steps to the CDF difference of the range's ends, and for normal bases sums to one over the whole grid. log_prob is its logarithm for normal bases within 10 (float32) or 20 (float64) standard deviations, and beyond that at most 4/z^4 too small and never infinite; for other bases it is the logarithm wherever the CDF at the upper end is positive. Known deviations: NaN instead of -infinity where that CDF is 0, and for uniform bases log_prob raises or is NaN or -infinity.", "quantifier": "every base distribution with survival/cdf, every point", "why_tests_cant": "continuum", "anchors": ["neuralcompression/distributions/_uniform_noise.py", "neuralcompression/distributions/_noisy_normal.py"]}
{"id": "C47", "title": "MS-SSIM well-posedness", "statement": "The multiscale SSIM of each image of a batch is the paper's formula (product over scales of mean contrast-structure, with luminance at the coarsest scale, each clipped at zero and raised to its factor); it lies in [0,1], is symmetric, is 1 exactly when the two images are identical (window of at least 3, positive factors), and the call raises exactly when the coarsest scale, ceil(side/2^(S-1)), is smaller than the window on some side. Unknown reductions and even or too small windows are refused. Known deviation: extra channels of the target are silently ignored.", "quantifier": "every image pair, size and number of scales", "why_tests_cant": "all sizes near the threshold", "anchors": ["neuralcompression/functional/_multiscale_structural_similarity.py"]}
{"id": "C48", "title": "Log-probability helpers are correct", "statement": "ndtr is the standard normal CDF, survival_function is one minus the CDF for every distribution; log_ndtr is the logarithm of the normal CDF from -10 (float32) or -20 (float64) upwards, below that too small by between 1/x^4 and 3/x^4, strictly increasing everywhere, and refuses other dtypes; log_cdf and log_survival_function follow for normal distributions, and log_cdf is the logarithm of the CDF for distributions other than normal and uniform. Known deviations: log_cdf of a uniform distribution is right only for Uniform(0,1); log_survival_function of a non-normal distribution is log(1+cdf(-x)), right only where both cdf(x) and cdf(-x) are 0; the cast to float32 inside ndtr makes log_ndtr of float64 arguments in [-20,-16] minus infinity. The float32 evaluation of the normal distribution function is within 2^-17 of the true one for every argument.", "quantifier": "every distribution and every point", "why_tests_cant": "closed form per distribution; errors only for non-normal families", "anchors": ["neuralcompression/functional/_log_cdf.py", "neuralcompression/functional/_log_survival_function.py", "neuralcompression/functional/_survival_function.py", "neuralcompression/functional/_log_ndtr.py", "neuralcompression/functional/_ndtr.py"]}
{"id": "C49", "title": "Image rescale to 8 bits", "statement": "In float32 arithmetic, images in [0,1] are mapped to integers 0..255 within 1/2 + 2^-16 of 255 times the value, monotonically and never wrapping in uint8; 8-bit images divided by 255 come back unchanged; an image with any value outside [0,1] is refused with ValueError.", "quantifier": "every pixel value in [0,1]", "why_tests_cant": "continuum, boundary 1.0", "anchors": ["neuralcompression/functional/_image_to_255_scale.py"]}
{"id": "C50", "title": "Patch FID sampling counts", "statement": "update_patch_fid feeds every metric the same patches of both image sets, each patch inside the image, floor(H/p)*floor(W/p) per image plus the grid shifted by half a patch exactly when both sides are at least 1.5 patches, and returns the number of patches. Known deviations: for an odd patch size the shifted grid can fit and yet not be used; grey images have three patches packed into the channels of one; a refused call may already have updated some of the metrics.", "quantifier": "every image size, batch, patch size", "why_tests_cant": "sizes around 1.5 patches", "anchors": ["neuralcompression/metrics/_update_patch_fid.py"]}
{"id": "C51", "title": "Batch metrics do not depend on batching", "statement": "The accumulated MS-SSIM and DISTS metrics are the mean (or sum) of the per-image scores, and FID, FID-SwAV and KID are functions of the features of all real and all generated images, however the images are split into update calls, ordered or interleaved; MS-SSIM and KID give every process of a distributed run the value a single process would compute. Known deviations: FID and FID-SwAV cannot be computed in a distributed run (TypeError), and KID ignores the subset, degree, gamma and coefficient arguments of its constructor. FID accepts exactly the feature sizes 64, 192, 768 and 2048; KID always uses torch-fidelity's 100 subsets of 1000 with degree 3.", "quantifier": "every sequence of updates and partition into batches", "why_tests_cant": "all partitions", "anchors": ["neuralcompression/metrics/_msssim.py", "neuralcompression/metrics/_dists.py", "neuralcompression/metrics/_fid.py", "neuralcompression/metrics/_kid.py"]}
{"id": "C52", "title": "Vimeo-90k indexing is a bijection", "statement": "The constructor accepts exactly the documented modes and frame counts. In image mode each (folder, frame) is visited exactly once by indices 0..len-1 and in video mode each folder once with its frames in order; negative indices count from the end and others raise IndexError. Known deviation: in image mode without pil_transform, which the signature allows, every item raises TypeError. White space around the names of the list file is dropped.", "quantifier": "every folder list and frames_per_group", "why_tests_cant": "all sizes", "anchors": ["neuralcompression/data/_vimeo_90k_septuplet.py"]}
{"id": "C53", "title": "CLIC video dataset visits every video", "statement": "A pass over the dataset yields as many samples as there are videos; _sample_frames returns the requested number of frames, evenly spread, first and last included. Known deviations: every clip after the first of a video uses up, and discards, one video of the sampler's order, so a pass shows every video exactly if all videos but the last one have a single clip; a second pass over the same dataset is empty.", "quantifier": "every list of videos and clip counts", "why_tests_cant": "interaction of two iterators over whole histories", "anchors": ["neuralcompression/data/_clic_2020_video.py: __getitem__"]}
{"id": "C54", "title": "Rate targeting schedule", "statement": "The scheduled rate target and lambda are piecewise constant: the factor of the first range whose end is beyond the current step, the last factor afterwards; the rate loss is the mean over the batch of lambda times the rate of the noisy latent, with the high lambda exactly for the images whose quantised rate exceeds the target; configurations with the wrong number of factors are rejected. Known deviation: steps are optimiser steps, so with several optimisers a warm-up of s steps lasts ceil(s/n) batches.", "quantifier": "every step and schedule", "why_tests_cant": "all schedules", "anchors": ["projects/illm/target_compression_module.py: _get_scheduled_rate_param, rate_loss", "neuralcompression/loss_fn/"]}
{"id": "C55", "title": "Count-flops rule precedence", "statement": "User overrides (None: no rule) take precedence over the listed single-flop operators and, if requested, the single-flop estimates, which take precedence over fvcore's rules; the total and the breakdown are the sums over the operators of the graph of what their rules report; an operator without rule is either ignored or counted as unsupported; previous calls with other overrides have no influence.", "quantifier": "every operator list, override table and history of calls", "why_tests_cant": "all key overlaps", "anchors": ["neuralcompression/functional/_count_flops.py"]}
{"id": "C56", "title": "Hyperprior forward sizes in evaluation mode", "statement": "forward does not pad: in evaluation mode it succeeds exactly if the image's height and width divided by 16 and rounded up are multiples of 4, returns 16 times those sizes, and so returns the image's own size exactly for multiples of 64. The forward pass decodes exactly the latent that compression would code.", "quantifier": "every batch, height and width, every network", "why_tests_cant": "all sizes modulo 64", "anchors": ["neuralcompression/models/_hyperprior_autoencoder.py: forward", "neuralcompression/models/_hific_autoencoder.py"]}
{"id": "C57", "title": "Entropy-coder tables follow the first switch to compression", "statement": "update_tensor_devices(\"compress\") builds the coding tables only if there are none: after a switch, more training and a second switch the tables are still those of the old weights. No sequence of calls other than an explicit forced update refreshes them.", "quantifier": "every sequence of calls and training steps", "why_tests_cant": "depends on the whole history of a model object", "anchors": ["neuralcompression/models/_hyperprior_autoencoder.py: update_tensor_devices, update"]}
{"id": "C58", "title": "PSNR is the decibel formula", "statement": "calc_psnr returns 10*log10(range^2/mean squared error), +infinity exactly for equal images, and refuses a range that is not positive; it is symmetric, strictly decreasing in the error and unchanged when images and range are scaled together. Known deviations: the value of a batch is at most, and usually below, the mean of the values of its images; calc_psnr_numpy on uint8 arrays wraps, so it is right only if no two pixels differ by more than 15, otherwise too optimistic, and infinite for images that differ by multiples of 16.", "quantifier": "every pair of images and data range", "why_tests_cant": "continuum of images; the wrap-around shows only for particular differences", "anchors": ["neuralcompression/metrics/_calc_psnr.py: calc_psnr, calc_psnr_numpy"]}
{"id": "C59", "title": "Sampling from uniform-noise distributions", "statement": "Samples of a uniform-noise distribution over a single variable are the base samples plus their own noise, of the requested shape. Known deviations: with several variables the noise is drawn for the sample shape only, so sample() adds one shared value to all variables, and sample((n,)) raises, pairs the noise with the wrong index or returns the wrong shape depending on the last size; the reported batch and event shapes are exchanged.", "quantifier": "every batch, event and sample shape", "why_tests_cant": "all combinations of shapes", "anchors": ["neuralcompression/distributions/_uniform_noise.py: __init__, rsample"]}
{"id": "C60", "title": "Information content, log_expm1 and quantization offset", "statement": "information_content is minus the logarithm of the probabilities in the given base, per element, per batch element or in total; the three reductions agree; it raises exactly for unknown reductions, bases that are not positive or are 1, and batch reductions without batch. log_expm1 is log(exp(x)-1) up to 2exp(-x) above 15, inverts softplus and is strictly increasing. The quantization offset lies in [-1/2,1/2], differs from the mean by an integer, so that quantising relative to it keeps the mean and moves no value by more than 1/2. Known deviation: a distribution without mean raises NotImplementedError instead of getting offset 0.", "quantifier": "every tensor of probabilities, base, reduction, argument and mean", "why_tests_cant": "continuum and all shapes", "anchors": ["neuralcompression/functional/_information_content.py", "neuralcompression/functional/_log_expm1.py", "neuralcompression/functional/_quantization_offset.py"]}
{"id": "C61", "title": "Tail quantile estimation", "statement": "estimate_tails returns exactly when every element's gradient has pointed back towards the start at some iteration at least 100 before the last, and the result is the Adam iterate of that moment; each iteration moves an element by less than 0.0235; for a strictly monotone function whose quantile is at least 0.0235 from 0 a returned single estimate is within 2.4 of it, and the call does return if the derivative is bounded away from zero and infinity between 0 and the quantile. With an inverse CDF, lower_tail and upper_tail leave exactly the requested mass outside. Known deviations: the call never returns if the function is flat at 0 or has the target value there; upper_tail of any distribution without icdf other than a normal one never returns. Without an icdf, a tail mass that is not positive raises ValueError, and a distribution without elements RuntimeError.", "quantifier": "every function, target, batch and number of iterations", "why_tests_cant": "termination and accuracy over all functions", "anchors": ["neuralcompression/functional/_estimate_tails.py", "neuralcompression/functional/_lower_tail.py", "neuralcompression/functional/_upper_tail.py"]}
{"id": "C62", "title": "Range-coding tables of the continuous entropy layer", "statement": "A compressible layer made from a prior has one table row per scalar distribution, exactly for non-noise priors over a vector of at least two distributions; the offset of each row is floor(lower tail - fractional mean) and its size reaches to ceil(upper tail - fractional mean) plus two extra entries, both ends raised to at least 0; a row can be used by a range coder at its declared size exactly if its alphabet is no larger than the number of distributions and its index is below the largest alphabet. Known deviations: the layer refuses every uniform-noise prior; values below 0 get no symbol, so a prior below 0 has the single symbol 0; row i holds the densities of the first distributions at their i-th point instead of the densities of distribution i, and rows beyond the largest alphabet are zero.", "quantifier": "every family of distributions, tail mass, precision and quantiser", "why_tests_cant": "the axes are exchanged and negative values dropped for all priors; the tests only look at shapes", "anchors": ["neuralcompression/layers/_continuous_entropy.py: _update", "neuralcompression/distributions/_uniform_noise.py: __init__"]}
{"id": "C63", "title": "Arguments, state and quantisation of the continuous entropy layer", "statement": "The constructor raises ValueError exactly when the documented requirements on its arguments are not met; tables passed in are the tables of the layer; a layer that is not compressible refuses to give tables; the state of one layer can be loaded into another with tables of the same shapes, which then has the same tables; the prior can be read back exactly from a compressible layer made from one, and deleting it keeps the tables. Known deviations: otherwise reading the prior is an AttributeError instead of the documented RuntimeError; a layer with empty tables (maximum_cdf_size) can not load the tables of any prior of the same shape; quantize raises TypeError for every floating-point tensor.", "quantifier": "every combination of arguments, every prior, table and tensor", "why_tests_cant": "2^9 combinations of arguments, and all shapes of tables", "anchors": ["neuralcompression/layers/_continuous_entropy.py: __init__, prior, cdfs, cdf_sizes, cdf_offsets, quantize"]}
{"id": "C64", "title": "Values and checks of the adversarial losses", "statement": "The binary cross-entropy losses are the mean logistic loss of the logits against the target (a single number or one per logit), real logits against the target and fake logits against 0 with weight one half each; their gradient at each logit is (sigmoid - target) over the number of logits; they are positive, and ln 2 for a discriminator that can not tell; any other combination of shapes is a ValueError. The OASIS losses are the mean over all pixels of -log softmax of class label+1, with class 0 for fake; they are positive, do not change when all logits of a pixel are shifted, and refuse logits that are not 4-D, labels that are not torch.long or not one per pixel with ValueError and labels outside the classes with IndexError. Known deviations: the layout of the labels is not checked (any shape with the right number of elements is read in row-major order); label -101 is left out of the mean; fake logits of another batch size with the same number of pixels are accepted and classes of different pixels mixed up. The gradient of the OASIS losses in any logit is the softmax probability of its class minus 1 at the label, over the number of pixels (half of it in the discriminator's loss): negative at the label, positive at other classes, zero in sum.", "quantifier": "every shape and value of logits and targets", "why_tests_cant": "unbounded shapes and values", "anchors": ["neuralcompression/loss_fn/_binary_crossentropy_loss.py", "neuralcompression/loss_fn/_oasis_loss.py"]}
{"id": "C65", "title": "Isolation of the losses in the training loops", "statement": "In every history of training and validation batches, each training batch updates every trainable parameter of the autoencoder, the discriminator and the quantiles exactly once, each with the gradient of its own loss alone: weighted distortion + rate + weighted generator loss of the first half of the batch, discriminator loss between the second half and the reconstructions of the first half made before the update (with labels of the images whose logits they are compared with), and quantile loss; the same without a discriminator. Parameters frozen at the beginning are never changed. A batch of n images is split into two disjoint halves of n/2 (or used twice without Monte Carlo sampling). Known deviations: an odd image is dropped and a batch of one image trains on none; after a batch the autoencoder is left frozen, so setting up the optimisers again fails with ValueError; an unconditional discriminator raises TypeError after the autoencoder was updated, and in every validation batch; without a discriminator frozen quantiles are a ValueError. Validation changes nothing and reports the loss of the whole batch with the current weights.", "quantifier": "every module, set of frozen parameters and history of batches", "why_tests_cant": "all histories of batches and all sets of parameters", "anchors": ["projects/illm/gan_compression_module.py: training_step, eval_step, _resample_batch, configure_optimizers", "projects/illm/target_compression_module.py: training_step, configure_optimizers", "neuralcompression/models/_hyperprior_autoencoder.py: collect_parameters"]}
{"id": "C66", "title": "Kodak downloads under crashes and network failures", "statement": "In every history of constructions, each with its own server and killed at any file operation: a construction with the hash check that returns has all 24 files, and the sha1 digest of their concatenation is the published one; without download it returns exactly then. Its items are the 24 files in order, also by negative index, and IndexError otherwise. A download into a new directory that is not interrupted leaves exactly the files of the server. No construction ever changes a root directory that exists, so no data is overwritten. Known deviations: force_download on an existing directory is FileExistsError instead of a download, so a directory left by an interrupted download is refused for ever, and no sequence of calls repairs it; without the check any existing directory is accepted with length 24; the check does not see bytes moved from one file to the next.", "quantifier": "every history of calls, crash points, servers and starting states", "why_tests_cant": "all crash points and histories", "anchors": ["neuralcompression/data/_kodak.py: Kodak"]}
{"id": "C67", "title": "Launching, resuming and testing from checkpoints", "statement": "In every history of launches without overwriting (training runs that are killed anywhere, tests, refused launches) the last checkpoint never disappears and its step never goes back. A launch with neither overwrite nor resume is refused exactly if the directory has a checkpoint, and changes nothing; no other training run is refused. Training starts from last.ckpt exactly if overwrite is False and it exists. A test runs exactly if last.ckpt exists, overwrite is False, resume is True and there is at most one GPU, uses exactly the saved weights of the autoencoder whatever other submodules were saved, and changes no checkpoint. Training uses max_steps batches in all, however many optimisers there are and however often it is restarted. Known deviations: resuming with checkpoints but no last.ckpt silently starts anew; overwrite null with resume ignores last.ckpt; max_steps -1 is refused; a checkpoint without the 'model.' prefix gives an empty state dict.", "quantifier": "every history of launches, configuration, directory and set of submodules", "why_tests_cant": "all histories and crash points", "anchors": ["projects/illm/train.py: main, fetch_checkpoint, build_trainer, pretrained_state_dict"]}
{"id": "C68", "title": "The cache of logged images", "statement": "In every history of launches, killed anywhere, on a cache that starts empty: if a launch gets its images to log, they are the images at its own indices of its own data class, given that the digest has no collisions: the concatenated key determines data class and both index lists. Known deviations: the key leaves out the data root and image size, so a launch with other data gets the images of the first; a launch killed while the cache file is written makes every later launch with the same request fail with EOFError.", "quantifier": "every history of launches, crash point, index list and data set", "why_tests_cant": "all histories and index lists", "anchors": ["projects/illm/train.py: build_wandb_image_logger"]}
{"id": "C69", "title": "Metrics logged in validation and test epochs", "statement": "In every history of training, validation and test epochs, renamed test sets, loaded checkpoints and epochs that failed half-way: a validation epoch logs PSNR, MSE, MS-SSIM, LPIPS, the HiFiC distortion and FID of exactly its own batches, each once; a test epoch logs, under the data set name set last, bits per pixel, PSNR, MSE, MS-SSIM, LPIPS, DISTS, the HiFiC distortion, FID, FID-SwAV and KID of the decoded bitstreams of exactly its own batches, on patches exactly if the name contains clic or div2k. IndexError and ValueError of the validation FID are swallowed, and then only the FID is missing; other exceptions end the run. A test before any name is set fails and logs nothing. Known deviation: for the name kodak FID and KID are logged as 0. Naming a test set changes no other metric; quality metrics of an unknown phase, or of a test without metrics or name, are refused without any effect.", "quantifier": "every history of epochs and failures, batch lists and names", "why_tests_cant": "all histories of epochs", "anchors": ["projects/illm/image_module.py: ImageModule", "projects/illm/target_compression_module.py: test_step, validation_step, on_train_epoch_start, on_load_checkpoint"]}
{"id": "C70", "title": "The CLIC 2020 image data set under interrupted downloads", "statement": "In every history of calls of CLIC2020Image on a fresh root, killed before any file system operation and with any server failures: val is missing or has exactly the images of its archive, so a val data set is empty or complete. An uninterrupted call with download=True and a good server repairs whatever was left of train, test or an unfinished val: the data set lists each png of the archive once, sorted, the files are those of the archive and __MACOSX is gone. A verified archive is not downloaded again; an archive that cannot be verified is never unpacked and the call fails. Other names of splits raise ValueError. Known deviations: once val is there, every further call with download=True fails (OSError when nothing else fails first) and leaves the directories valid and __MACOSX behind; after an interrupted download of train or test a call with download=False silently gives a partial data set.", "quantifier": "every history of calls, crash point, server behaviour and archive content", "why_tests_cant": "all histories and crash points", "anchors": ["neuralcompression/data/_clic_2020_image.py: CLIC2020Image.__init__, CLIC2020Image.download"]}
{"id": "C71", "title": "Open Images V6, DIV2K and the data module", "statement": "For every list file of plain image names (any extension or none, LF or CRLF, with or without a final end of line, any order, repetitions) the data set has each listed image exactly as often as listed, in the order of the file names, at root/folder/name.jpg, except the known broken images in train, which are left out. For any lines whatsoever the order of the lines does not matter. Unknown splits raise ValueError; otherwise the list file is the one given or root/list-folder-files.txt, folder being validation for val, and a missing one raises FileNotFoundError; indices from -len to len-1 are accepted and others raise IndexError. DIV2K accepts only val and lists each png of its directory, sorted. The data module needs an image size exactly if a transform is missing; validation and test go through the images of val once, in order, in batches of val_batch_size (batch_size if it is None) with the transform given for validation; training covers the train images in batches of batch_size. Known deviations: a blank line becomes an image named .jpg; broken images listed with a directory are not left out; with the default workers=0 the training loader raises ValueError (torch 2). White space after a name is ignored, and dots at the beginning of a name do not begin an extension.", "quantifier": "every list file, order, split, index, directory and batch size", "why_tests_cant": "all list files and orders", "anchors": ["neuralcompression/data/_openimages_v6.py: OpenImagesV6, _load_indices", "neuralcompression/data/_div2k_dataset.py: DIV2KDataset", "projects/illm/open_images_datamodule.py: OpenImagesDataModule"]}
{"id": "C72", "title": "DVC group-of-pictures training, validation and image logging", "statement": "For every clip, stage, weights and number P>=1 of P-frames the clip has: the first reference is the compressed I-frame and each later reference is the estimate of the previous frame; in training the i-th weight update uses the gradient of the loss of the i-th pair alone, computed with the weights of that moment, and the quantiles are updated once, with the gradient of the quantile loss at the final weights, exactly if there are two optimisers; the numbers logged are the sums over the pairs of total loss, distortion, flow and residual bits divided by P+1, flow and residual bits exactly in the stages that have them, and the bits of the I-frame are in gop_bpp in training. A clip with too few frames raises IndexError. The image logger logs reference, frame and estimate of the original clip at every validation when its batch has to be moved to the device. Known deviations: the gop_bpp of validation lacks the bits of the I-frame, although it divides by P+1; val_loss (the monitored value) is the loss of the last pair only; without P-frames both steps fail; on the same device and type the logger overwrites its own clip, so the I-frame is compressed once more at every validation.", "quantifier": "every clip, number of P-frames, stage, losses, optimisers and sequence of validations", "why_tests_cant": "all clips, lengths and histories of validations", "anchors": ["projects/deep_video_compression/dvc_module.py: DvcModule.compute_loss_and_metrics, log_all_metrics, training_step, validation_step, compress_iframe", "projects/deep_video_compression/train.py: WandbImageCallback.on_validation_end"]}
{"id": "C73", "title": "Staged DVC training under kills, resumption and overwriting", "statement": "For every number of stages, classes of stages that hold more and more submodules (as the default configuration), numbers of steps, moments at which checkpoints are written, and every history of launches with any flags, each killed at any moment before a step or a write: every last.ckpt holds the submodules of its stage after exactly the recorded number of steps of that stage, preceded by all steps of all earlier stages in order, and a launch that finishes returns a model that went through all steps of all stages in order; submodules a stage does not hold are not changed by it. Unless a launch overwrites, a last.ckpt is never lost or replaced by an earlier one. Resuming when all stages are finished does no steps and gives the saved weights. With a flag set, or without checkpoints, a launch that is not killed finishes; without flags a launch never finishes if some stage has checkpoints. Known deviations: the refusal comes only at the stage with checkpoints, after all earlier stages have been trained and have written checkpoints; overwrite set to a true value other than True (such as 1) resumes from the checkpoints instead of overwriting them. With overwrite=True the result does not depend on what was on the disk.", "quantifier": "every configuration with growing stages, every history of launches, flags and kill points", "why_tests_cant": "all histories and kill points", "anchors": ["projects/deep_video_compression/train.py: run_training_stage, main", "projects/deep_video_compression/_utils.py: DvcStage1, DvcStage2, DvcStage3, DvcStage4and5 (__init__, recompose_model)"]}
{"id": "C74", "title": "Shapes of VCT reconstructions, construction and chunking", "statement": "For every video size, network width, number of residual blocks and lists of channels: in training the reconstruction has exactly the height and width of the video; in evaluation too, for ELIC transforms at any size and for ConvGDN transforms exactly if both sides are longer than 8 (otherwise RuntimeError); a video without 3 channels raises ValueError. A pipeline of ELIC transforms can be built exactly if both have four channels and the last of the analysis and the first of the synthesis are the compression channels. Transforms that treat each image on its own give the same result with max_frames as without, if there are at most max_frames images or a multiple of it; otherwise AssertionError. Known deviations: ConvGDN pipelines can be built for 192 channels only, whatever channels both transforms were given; images with a side of at most 8 pixels cannot be evaluated with ConvGDN. ELIC transforms are refused with ValueError unless there are four channel numbers, the last being the one asked for. A video that is compressed and decompressed has the size that the model gives in evaluation, on any device; batches of more or fewer than one video, a demanded CPU that is not there and sizes of other than five entries are refused.", "quantifier": "every size, mode, channels, blocks and chunk length", "why_tests_cant": "all sizes and configurations", "anchors": ["projects/torch_vct/neural/transforms.py: ConvGDNAnalysis, ConvGDNSynthesis, ResidualUnit, ELICAnalysis, ELICSynthesis", "projects/torch_vct/neural/layers_utils.py: make_conv, make_deconv", "projects/torch_vct/model_pipeline.py: VCTPipeline.__init__, _pad, forward"]}
{"id": "C75", "title": "VCT losses and rates, and the mode of its pipeline", "statement": "For every video and every history of train(), eval(), forward, training and validation steps, compress_video and test_step: the logged rate is the sum of -log2 of all likelihoods over all pixels of all frames and clips, the logged distortion the mean squared error over all values; the combined loss is lambda*255^2*distortion + rate; the loss that is minimised gives the first frame weight 1 and every other weight 10 before averaging, so it lies between the combined loss and ten times it. test_step in evaluation mode gives the same result whatever was done before: bpp is all bits over all pixels, bpp_xfirst the bits of the frames after the first over their pixels, and T*bpp = bits of the first frame per pixel + (T-1)*bpp_xfirst. It raises AssertionError for a batch other than one clip and for a module in training. Known deviations: after compress_video (or test_step) the pipeline stays in the mode of coding to strings: forward, and so a validation step, on a clip of two or more frames raises RuntimeError until train() is called, and again after the next eval(); a one-frame clip makes test_step divide by zero; without distortion_lambda every step raises.", "quantifier": "every video, likelihoods, lambda and history of calls", "why_tests_cant": "histories of calls are unbounded", "anchors": ["projects/torch_vct/model_lightning.py: VCTModule", "projects/torch_vct/model_pipeline.py: VCTPipeline.forward, compute_rate, compress_video, encode_Pscene"]}
{"id": "C76", "title": "VCT test videos, checkpoints and launches", "statement": "UVG: num_frames is accepted exactly if it divides 300 (0 divides by zero), and for every directory of folders of frames, going through the test videos succeeds exactly if every folder but the last in the order of names has a multiple of num_frames frames, otherwise it raises AssertionError; on success the batches are all frames once, folders in the order of their names and frames in the order of theirs, each batch of a single folder; on the data set itself (folders of multiples of 300 frames, 3900 in all) there are exactly 3900/num_frames batches, all full. Frame order is temporal if frame numbers are padded with zeros to one width. Checkpoints: for every file, loading gives a model exactly if the file (its state_dict, or itself if it has none) has one tensor of the right shape under model.<name> for each parameter and no other entry model.<...>; the model then has exactly those tensors, is in evaluation mode and its coding tables are those of the loaded parameters; the saved copy loads to the same model, and no other file changes. Launches: a launch is refused exactly if neither overwrite nor resume_training is set and there is a checkpoint, and then changes nothing; with resume_training every launch goes on from the newest last.ckpt of all launches before it. Known deviations: unpadded frame numbers are read in the order of strings (10 before 9); a negative divisor of 300 passes the check and fails later; a file of the bare model's parameters is refused; two copies in one hour share a name and the second replaces the first; overwrite=True together with resume_training=True resumes instead of ignoring the checkpoint. A file is a frame exactly if its name ends in one of the nine image endings, in lower or upper case.", "quantifier": "every directory, file, number of frames and history of launches", "why_tests_cant": "directories, files and histories are unbounded", "anchors": ["projects/torch_vct/datamodules/uvg.py: UVGDataModule", "projects/torch_vct/utils/checkpoint_loaders.py: load_model_checkpoint_from_config", "projects/torch_vct/model_train.py: main"]}
{"id": "C77", "title": "Warping an image by a flow never leaves its range of values, and flow colours encode direction and speed", "statement": "dense_image_warp returns an image of the flow's height and width whose every value depends on the image of the same batch entry and channel and on the flow of the same place only. With border or reflection padding every value lies within the range of the image's values (with zeros padding, within that range extended to 0), for every flow; nearest mode returns values of the image itself; the result is linear in the image. With align_corners=True a zero flow returns the image in every mode and padding, and a flow of whole pixels with border padding shifts the image with its border repeated. Known deviation: with the default align_corners=False a zero flow takes pixel k of n from k*n/(n-1)-1/2, up to half a pixel away, so it returns the image only if height and width are at most 3. Mismatched dtypes or devices and flows without two components raise ValueError. optical_flow_to_color gives every 4-dimensional flow with at least two channels colours in [0,1]: hue is the polar angle (first component the sine), saturation 1, brightness (speed - slowest)/(fastest - slowest + eps), the slowest vector is black. Known deviation: slowest and fastest are of the whole batch, so the colours of one image depend on the others. Other ranks raise ValueError. With reflection padding, places outside the image are mirrored at its borders until they are inside.", "quantifier": "every image, flow, size, mode, padding, alignment; every flow and eps > 0", "why_tests_cant": "ranges, identities and shifts must hold for every image, flow and size; tests compare a few random tensors with grid_sample or TensorFlow", "anchors": ["neuralcompression/functional/_dense_image_warp.py: dense_image_warp", "neuralcompression/functional/_optical_flow_to_color.py: optical_flow_to_color"]}
{"id": "C78", "title": "Normalisation layers are finite, local and lossless", "statement": "ChannelNorm2D refuses fewer than two channels with ValueError; a new layer gives at every place channels of mean 0 and variance v/(v+eps), v the unbiased variance of the image's channels at that place, whatever the other places and the size of the image; before the affine step every value satisfies y^2 <= (C-1)^2/C; trained parameters scale and shift each channel, another channel count raises RuntimeError. SimplifiedGDN returns x_i/(beta_i + sum_j gamma_ij |x_j|), and SimplifiedInverseGDN x_i times it, with beta at least beta_min and gamma at least 0, for every history of optimiser steps, loaded parameters and calls; a new layer gives x/(1+0.1|x|). Values keep their signs, are at most |x_i|/beta_min, and below 1/gamma_ii where gamma_ii > 0; different inputs have different results for all parameters. The clamp's gradient is the identity within the bound and never pushes a parameter below its bound further down. Known deviations: a call changes parameters outside their bounds in place, in evaluation too; SimplifiedInverseGDN with the same parameters does not invert SimplifiedGDN.", "quantifier": "every image, channel count, parameters, history of parameter updates and calls", "why_tests_cant": "boundedness, injectivity and independence of histories concern all images and parameters; the tests check shapes and one clamping", "anchors": ["neuralcompression/layers/_channel_norm.py: ChannelNorm2D", "neuralcompression/layers/_simplified_gdn.py: SimplifiedGDN, SimplifiedInverseGDN, _ClampMin"]}
{"id": "C79", "title": "Cross-covariance attention mixes channels by weighted means and ignores the order of tokens", "statement": "XCA returns a tensor of the shape of its input; every output channel is the projection of channels each of which is, at every token, the weighted mean of the value channels of its head. The weights are the softmax of temperature times the cosine between the query and key rows over all tokens: positive, of sum 1, the same for all tokens, and 1/D up to a factor exp(2|temperature|) for D channels per head. Permuted tokens give equally permuted results and the entries of a batch do not influence each other. Inputs of another dimension, or a number of heads that does not divide the channels, raise RuntimeError; zero heads raise ZeroDivisionError. The attention block of the VQ-VAE with channel normalisation preserves the image's shape, is residual, and commutes with every permutation of the pixels.", "quantifier": "every input, weights, temperature, number of tokens, channels and heads, permutation of tokens or pixels", "why_tests_cant": "sums to one, bounds and equivariance must hold for all weights and all permutations; the test compares shapes", "anchors": ["neuralcompression/layers/_xca.py: XCA", "neuralcompression/models/_vqvae_xcit_autoencoder.py: _AttnBlock"]}
{"id": "C80", "title": "Trees of bottleneck operations keep the latent's shape and quantise by angle", "statement": "Every tree of ProjectLatent, NormalizeLatent and VQBottleneck that accepts an object returns a latent of the shape it got; the object is the caller's own if the tree does not quantise and a new one otherwise; other objects, and all fields but the latent of the caller's, are untouched. NormalizeLatent gives vectors of length 1 (at most 1 where the length was below 1e-12) in the same direction. In the tree of the published MS-ILLM VQ-VAE each place gets the code of smallest angle with the projected latent, the returned latent is the output convolution of that unit-length code, and the prequantised latent is the normalised projection; every latent of the right number of channels is accepted. Without a latent NormalizeLatent and VQBottleneck raise ValueError and ProjectLatent TypeError. Known deviation: the caller's object is modified: after the published tree it holds the normalised projection instead of the encoder's latent.", "quantifier": "every tree, object, latent, weights and codebook", "why_tests_cant": "trees are unbounded in depth and the choice of the code must be right for every latent; the tests run single layers on random latents", "anchors": ["neuralcompression/layers/_normalize_latent.py: NormalizeLatent", "neuralcompression/layers/_project_latent.py: ProjectLatent", "neuralcompression/layers/_vq_bottleneck.py: VQBottleneck.forward", "neuralcompression/zoo/_msillm_vqvae.py: vqvae_xcit_p8_ch64_cb1024_h8"]}
{"id": "C81", "title": "The VQ-VAE's encoder and decoder fit together, and frozen parts run frozen", "statement": "For all channel multipliers, numbers (at least 1) of residual blocks, attention resolutions and norms, every layer of the encoder and decoder gets the number of channels it was made for: the encoder turns in_channels into embed_dim channels, the decoder embed_dim into out_ch, and inputs with other channels raise RuntimeError. The constructor accepts norm_type group and channel_last exactly if ch is a multiple of 16, channel exactly if ch is at least 2, and raises ValueError otherwise. Level i of both networks attends after each residual block exactly if resolution / 2^i is among attn_resolutions, provided resolution is a multiple of 2^(levels-1); both attend once in the middle. In every history of train, eval, requires_grad_ and forward, a frozen encoder or bottleneck runs in eval mode without gradients, and a part that is not frozen runs as set last. Known deviations: for other resolutions encoder and decoder attend at different levels; without residual blocks the encoder fails; between calls of forward, train() and requires_grad_(True) put a frozen part in training mode with gradients.", "quantifier": "every multiplier list, number of blocks, resolution, attention list, norm and history of calls", "why_tests_cant": "configurations and histories are unbounded; the tests build a few configurations", "anchors": ["neuralcompression/models/_vqvae_xcit_autoencoder.py: _VqVaeXCiTConvEncoder, _VqvaeXCiTConvDecoder, VqVaeXCiTAutoencoder"]}
{"id": "C82", "title": "Distortion losses are the documented distances in every mode, with bounded sensitivity", "statement": "MSELoss is its parameter times the mean squared difference, with the default parameter that of the images on the scale of 255; it is symmetric, between 0 and the parameter for images in [0,1], and zero exactly for equal images. Normalised LPIPS features point in the features' direction, are shorter than 1 also where the features vanish, and never move more than the features' move divided by sqrt(C*1e-8), so gradients are bounded. NormFixLPIPS is the sum over layers of the mean over places of weighted squared distances of normalised features, is symmetric, zero for an image with itself, and with weights in [0,M] at most 4M per layer (2M for non-negative features). Whatever train and eval calls are made on the loss or its model, MSELPIPSLoss is 255^2 times the MSE plus the mean LPIPS on images rescaled to [-1,1] (dropout never acts), and the loss of a batch is the mean of its images' losses. The functional lpips reduces per-image scores by mean, sum or none and raises ValueError for an unknown network, version or reduction.", "quantifier": "every batch of images of one size, backbone, weights, parameter and history of mode calls", "why_tests_cant": "the values range over all images and weights and the histories of mode calls are unbounded; the tests compare a few random images", "anchors": ["neuralcompression/loss_fn/_mse_loss.py: MSELoss", "neuralcompression/loss_fn/_mse_lpips_loss.py: MSELPIPSLoss", "neuralcompression/loss_fn/_normfix_lpips.py: NormFixLPIPS, normalize_tensor", "neuralcompression/functional/_lpips.py: lpips"]}
{"id": "C83", "title": "Video batches have the promised shape, frames and pictures", "statement": "Subsampling n of T frames keeps frames in order, from the first to the last, all different if n <= T. In training, every Kinetics clip (any length of at least one frame, any size) becomes a 256x256 clip with the frames asked for, by one change of the picture applied alike to all frames and channels; a crop shows rows and columns of the picture in order (the border repeated where it is smaller than 256), possibly mirrored. In validation the middle is kept with margins differing by at most one, smaller pictures lie in the middle of zeros; in tests sizes are kept. Values are x/255, in [0,1], or an invertible normalisation. Clips of one shape are collated in order to [B,T,C,H,W], others raise RuntimeError; with padding clips of different lengths are accepted and end in zero frames. With a single number of frames every training batch passes validate_shape. Vimeo batches have the crop's size for videos of any picture sizes. DVC accepts exactly 1 to 7 frames per group and crops the middle. Scenes are handed out in time order. Known deviation: with a list of different numbers of frames, a training batch can mix lengths and is then refused with RuntimeError, because the data loader's collation does not pad. A random crop of a smaller picture repeats the picture's border, and of a larger one cuts without change.", "quantifier": "every clip, size, length, configuration and random draw", "why_tests_cant": "the draws, sizes and lengths are unbounded; no tests of these modules exist", "anchors": ["projects/torch_vct/datamodules/kinetics.py: KineticsDataModule", "projects/torch_vct/datamodules/vimeo.py: VimeoDataModule", "projects/torch_vct/datamodules/video_data_api.py: VideoDataset, Scenes", "projects/deep_video_compression/data_module.py: Vimeo90kSeptupletLightning"]}
{"id": "C84", "title": "The distributed evaluation of the variational bound reports exact sample averages", "statement": "With batches of one size in all processes, the evaluation ends after the least number of rounds that covers the requested samples. Every process logs after each round the number of samples seen so far and the average bits per dimension over exactly those samples of all processes. Process 0 reports one row per sample with the terms in order of the timestep, the prior last; it saves for every timestep the mean, the deviation, the attained minimum and maximum, and the saved means of the bound add up to the reported bits per dimension. The shape assertion never fails. While the rounds fit into the data set no image is evaluated twice, and when the effective batch size divides its size one pass evaluates every image exactly once. Batches of different sizes are refused before anything is logged. A training batch size is split evenly over the processes or refused. The plot shows the saved statistics. Known deviations: the warning that samples are dropped is wrong, more samples than requested are evaluated; a data set that the effective batch size does not divide has images evaluated twice and others never; one with fewer images than a round makes the evaluation hang.", "quantifier": "every number of processes, batch size, number of samples and timesteps, data set and values of the terms", "why_tests_cant": "runs on many processes cannot be unit tested, and the averages must be right for all values", "anchors": ["projects/bits_back_diffusion/compute_vlb.py: main", "projects/bits_back_diffusion/bits_back_diffusion/script_util.py: setup, divide_by_n_proc, plot_evolution"]}
{"id": "C85", "title": "Preparing CIFAR-10 under kills and failing downloads", "statement": "The name of a dumped file tells the class and the number of its image. After any history of launches, killed anywhere and with failing downloads, every file in a split's directory is an image of that split under its own name, complete or cut off. A first launch, one that continues after a failed download, and one with --overwrite after any history end with both splits complete and nothing else in them. A launch without --overwrite does nothing when both directories exist, and a launch that cannot download raises before touching the split. When every class occurs, conditional training labels an image by the alphabetical position of its class, the same in both splits. Known deviations: a dump killed before its last image is taken for complete by later launches, without an error; labels read from such a dump can differ. A download with another number of images than 50000 (or 10000) is refused before anything is written.", "quantifier": "every history of launches, kill point and download failure", "why_tests_cant": "kill points and histories are unbounded; downloads do not run in tests", "anchors": ["projects/bits_back_diffusion/datasets/cifar10.py: main"]}
{"id": "C86", "title": "The processes of a distributed training start from one state and log without loss", "statement": "Whatever is on disk and however the processes initialised their models: if training starts, all processes have the same parameters and moving averages. Resuming from a complete checkpoint of step 0 < n < 1000000 restores its parameters, its step and, for every rate, its moving average; a missing average restarts from the parameters. Missing or cut-off checkpoints raise. The number in a checkpoint's name is read back modulo a million, for models and averages of any rate. Either only process 0 logs to Weights & Biases or every process does in a directory of its own. For every history of calls the run receives exactly the rows given before it was closed, in order, and is finished once; later rows raise. Distinct keys without slashes keep their values. Known deviations: from the first checkpoint and from every millionth step the saved averages are ignored; keys differing only in an underscore and a slash lose a value. A file name without one of the words ema, model, encode, decode raises AssertionError, and a letter among the six characters of the step ValueError.", "quantifier": "every disk content, number of processes, initialisation and history of calls", "why_tests_cant": "distributed start-up and crash states are not reachable in unit tests", "anchors": ["projects/bits_back_diffusion/bits_back_diffusion/script_util.py: TrainLoop, parse_resume_step_from_filename, WandbOutputFormat, setup"]}
{"id": "C87", "title": "The model zoo returns the weights that were asked for", "statement": "Every entry point of the hub and of the zoo with pretrained=True asks for the file that carries its own method and rate, and the cached file names of different entry points are different. With any number of processes sharing one cache, in any interleaving, with processes killed, downloads failing and connections closed early, a call that returns a trained network returns exactly the weights published for its entry point and never those of another one; a call without pretrained=True returns the untrained network of the right class and never fails. A run touches no cache file but those of its own entry points. As long as no connection is closed early every cached file is complete, and every call that is neither killed nor cut off ends with its weights. With its file cached a call works without the server. An unknown weight name is refused before any download. The hub and the zoo give the same for the same pretrained value, and further keyword arguments change nothing. Higher qualities have higher target rates. Known deviations: any other true value for pretrained (1, a NumPy True) silently gives an untrained network; the default is trained in the hub and untrained in the zoo; a file cut by an early close stays in the cache and every later call of that entry point fails.", "quantifier": "every entry point, number of processes, interleaving, failure and cache content that earlier runs can leave", "why_tests_cant": "interleavings of processes with failures at every block of a download cannot be enumerated by tests", "anchors": ["neuralcompression/zoo/_msillm.py", "neuralcompression/zoo/_noganms.py", "neuralcompression/zoo/_msillm_vqvae.py", "hubconf.py"]}
{"id": "C88", "title": "Networks with in-place layers never change the tensors they are given", "statement": "The U-Net discriminators for every depth and normalisation, the HiFiC encoder, generator, hyper networks and whole forward pass, the residual units and the analysis transform of the video codec and the final clamp of DVC return a new tensor whose value is a fixed formula of the arguments, and leave every tensor that existed before the call unchanged, although they contain in-place activations and additions. So any sequence of calls on the same tensors gives for each call the result it would give alone; this matters because detached tensors share memory. The autoencoder's forward pass follows the documented dataflow in both modes: in evaluation the likelihoods of the quantised values are those of the returned values, in training the generator sees the rounded latent and its logged likelihoods are those of that latent. With batch or instance normalisation the U-Net is the documented residual network. Known deviations: with spectral or no normalisation the in-place activation overwrites what the shortcuts read, so they see activated tensors; an inner level on its own overwrites its argument; in training the logged likelihoods of the quantised hyper-latent belong to the rounded noisy hyper-latent.", "quantifier": "every memory content, depth, normalisation, number of residual blocks, weights and sequence of calls", "why_tests_cant": "aliasing bugs show only for particular compositions of layers and orders of calls; tests check a few shapes", "anchors": ["neuralcompression/models/_unet_discriminator.py", "neuralcompression/models/_hific_encoder_decoder.py", "neuralcompression/models/_hific_autoencoder.py: HiFiCAutoencoder.forward", "projects/torch_vct/neural/transforms.py: ResidualUnit, ELICAnalysis", "neuralcompression/models/deep_video_compression.py: DVC.decompress"]}
{"id": "C89", "title": "Every trainable parameter is updated by exactly one optimiser, and a frozen projector stays frozen", "statement": "named_parameters of any module tree, with shared submodules and shared parameters, lists every parameter object exactly once, under pairwise different names, each the dotted path of a place where the parameter is. So splitting it by the suffix .quantiles into two dictionaries loses nothing: the two optimisers of a DVC stage together update every trainable parameter exactly once and no frozen one, the auxiliary one those that are an attribute 'quantiles' of a submodule, the main one the others; only the main one has a scheduler. If one group is empty, construction fails with ValueError and in no other case. The first stage and the video transformer have one optimiser for every trainable parameter that is no quantile. Making a projector from a VQ-VAE without a bottleneck is refused; otherwise exactly the parameters of its encoder and bottleneck are frozen, and they are in evaluation mode after any sequence of train and eval calls on modules that hold them only through the projector. Known deviations: nobody trains the quantiles of the video transformer's entropy bottlenecks; the projector freezes the encoder of the VQ-VAE it was made from, since they are one object; train() on that VQ-VAE puts the projector's encoder back into training mode; a bottleneck that is itself the root is not recognised as having quantiles.", "quantifier": "every module tree with any sharing, every set of trainable parameters and every sequence of mode changes", "why_tests_cant": "tests build a few networks; sharing, naming and later mode changes are unbounded", "anchors": ["projects/deep_video_compression/_utils.py: DvcStage.collect_parameters", "projects/deep_video_compression/dvc_module.py: DvcModule.configure_optimizers", "projects/torch_vct/model_lightning.py: configure_optimizers", "neuralcompression/models/_vqvae_projector.py: VqVaeProjector"]}
{"id": "C90", "title": "The measured size of a compressed image is that of a file from which it can be read back", "statement": "pickle_size_of returns the length of a pickle file. For every object made of integers, bytes, strings, lists, tuples and named tuples, with any sharing between its parts, reading that file gives an equal object; for the output of compress it gives the named tuple with exactly the coded strings, the image size and the padded size, for any number of strings of any length, through all frame and batch boundaries of the format. For one image the size is the length of the two strings plus an exactly known 120 to 146 bytes as long as the strings have less than 65000 bytes together, and never more than 164 bytes plus one in seven thousand above them; the size of a batch is never below the total length of its strings. So the reported rate never flatters the codec. Known deviation: a string object that occurs twice in a batch is counted once. Byte for byte the file of an image follows pickle's protocol 4, so any reader of that format can read it.", "quantifier": "every object graph without cycles, every number and length of strings and every image size below 2^31", "why_tests_cant": "frame boundaries at 64 kB, batches of 1000 and memo references depend on sizes and sharing that tests do not enumerate", "anchors": ["neuralcompression/metrics/_pickle_size.py: pickle_size_of", "neuralcompression/models/_hific_autoencoder.py: HiFiCAutoencoder.compress", "neuralcompression/_outputs/_hyperprior_output.py: HyperpriorCompressedOutput", "projects/illm/eval_folder_example.py: main"]}
{"id": "C91", "title": "Networks refuse inputs with another number of channels, and joining, pooling and upsampling put every value in its place", "statement": "For every weight, size and batch: a (transposed) convolution accepts exactly the images with its own number of channels that are large enough, gives the documented output size, and raises RuntimeError otherwise; a transposed convolution asked for a size gives that size exactly if convolving it leads back, and raises ValueError otherwise. Concatenation keeps every value of both operands at its channel, upsampling copies every value into a square of four, pooling takes the mean of every square, so that pooling undoes upsampling; sums and differences are taken entry by entry, and shapes that can not be broadcast are refused. Therefore all image networks (HiFiC encoder, generator and hyperprior, VQ-VAE encoder and decoder, U-Net), compress, and the video networks (motion and residual autoencoders, motion estimator and compensation) raise RuntimeError for every input with another number of channels; none of them silently uses a part of it.", "quantifier": "all tensors of all shapes, all layer parameters and all weights", "why_tests_cant": "tests try a few shapes; acceptance must be exact for every shape and every architecture parameter", "anchors": ["neuralcompression/models/_hific_autoencoder.py: HiFiCAutoencoder", "neuralcompression/models/_hific_encoder_decoder.py: HiFiCEncoder, HiFiCGenerator", "neuralcompression/models/_vqvae_xcit_autoencoder.py", "neuralcompression/models/_unet_discriminator.py: UnetDiscriminator", "neuralcompression/models/deep_video_compression.py: DVC, DVCCompressionEncoder, DVCCompressionDecoder, DVCPyramidFlowEstimator, DVCMotionCompensationModel"]}
{"id": "C92", "title": "What the evaluation of a folder of images reports", "statement": "For every folder, compression model and perceptual network: the script evaluates exactly the entries whose names end in .png, each once. The pixels of a picture come back from the float image as the very same bytes, every decoded value between 0 and 1 becomes its nearest byte (up to the rounding of float32), and larger values never give smaller bytes. The reported rate is the mean over the files of 8 times the size of the pickled compressed picture divided by its number of pixels, within the stated rounding of float64; PSNR, MS-SSIM and LPIPS are the means over the files of the values between the original and the decoded (clamped) picture of the same file, at the scale of 255; FID receives every patch of 256 pixels of every original as real and of every decoded picture as fake, on both grids of patches, and nothing else. The order of the files does not change the averages of the qualities. Known deviations: a folder without such files ends in a ZeroDivisionError, a single picture with one patch, or a picture smaller than 256 pixels in one direction, in a RuntimeError, and a file that is no picture in an OSError, without a report on the others; one perfectly decoded picture makes the mean PSNR infinite.", "quantifier": "all folders, pictures, compression models, decoders and perceptual networks", "why_tests_cant": "tests use one folder and one model; the averages, rounding and the pairing of original and decoded pictures must be right for every folder", "anchors": ["projects/illm/eval_folder_example.py: main, rescale_image", "neuralcompression/metrics/_update_patch_fid.py: update_patch_fid", "neuralcompression/metrics/_calc_psnr.py: calc_psnr", "neuralcompression/metrics/_pickle_size.py: pickle_size_of"]}
{"id": "C93", "title": "The coding tables of the video model's Gaussian bottleneck hold the right probabilities", "statement": "For every number of means and scales, every range of scales and every tail mass between 0 and 1: updating a bottleneck that has no tables (or with force) builds one table per pair of a mean and a scale, at the place i * num_scales + j at which compression looks it up; the table that compression asks for always exists, its mean is within 1/num_means of the fractional part of the mean, and its scale is the largest one of the grid that is not above the shifted scale. A table starts and ends at the integers beyond which at most half of the tail mass lies (never farther out than necessary), always contains both integers next to its mean, and gives every integer exactly the likelihood that evaluation computes for this mean and scale, that is the probability that a normal variable rounds to it, which is positive; together they hold more than 1 - tail_mass. The escape symbol gets a positive mass below tail_mass; everything sums to 1 up to tail_mass/2, and exactly for mean 0. Given a quantiser that keeps its contract (compressai's does, which is proved), the quantised table rises strictly from 0 to 2^16 over its stated length, with zeros after it; with the default arguments no table has more than 3000 entries, so that the contract applies. Further updates, forced or not, never change the tables, and updates without force say that they did nothing. A single scale, no or negative numbers of means or scales, and ranges of scales that are not positive are refused with the stated exceptions and change nothing; so are a scaler with another number of scales and bounds that are not positive. Known deviation: the argument precision (documented as the precision of the entropy coder, default 12) has no effect on any table; the tables have compressai's default precision 16.", "quantifier": "all grids of means and scales, all tail masses, all integers, all histories of updates", "why_tests_cant": "tests build the tables of one configuration; that the probabilities are right must hold for every row and every entry", "anchors": ["projects/torch_vct/neural/bottlenecks.py: ContinuousIndexedGaussianConditional.__init__, update_tables, _build_tables, _likelihood, _standardized_cumulative, _get_prior_params, indexes_to_cdf_indexes; GsnConditionalLocScaleShift.update", "projects/torch_vct/neural/entropy_model.py: VCTEntropyModel.update", "neuralcompression/layers/_continuous_entropy.py: _update"]}
{"id": "C94", "title": "The images that trainings log show every frame at its place", "statement": "Video training (DVC): at every validation exactly four images are logged under the name of the stage, with the current step: the flows, the references, the frames and their estimates. In each, the image of clip b for P-frame k is in row b and column k, unchanged except that values are limited to [0, 1], and there is nothing else; the first column of the references is the decoded I-frame and every further column is the estimate in the column before. The flows are coloured together: hue is the direction, black the slowest and full brightness the fastest movement of all clips and frames. Batches that differ in number, channels or height are refused; without P-frames nothing is logged, and a clip that is too short is an IndexError before anything is logged. Image training (ILLM): validation and the end of an epoch log, for the training and for the validation images, a grid of the inputs and a grid of the outputs limited to [0, 1], with every image once, in order, eight per row, on black with a border of two pixels, at the same place in both grids; one image has no border, no image is an error. Video transformer (VCT): the same for the frames of the first clip of each batch, seven per row. Logging at validation draws no random numbers if evaluation does not. Known deviation: logging at the end of an epoch runs the model twice in training mode, so that it changes the random numbers of the rest of the training.", "quantifier": "all numbers of clips, frames, channels and pixels, all images, models and flows", "why_tests_cant": "tests look at the keys of one small batch at most; that every pixel is where the axes say must hold for all sizes", "anchors": ["projects/deep_video_compression/train.py: WandbImageCallback", "projects/illm/train.py: WandbImageCallback", "projects/torch_vct/model_train.py: WandbImageCallback", "neuralcompression/functional/_optical_flow_to_color.py: optical_flow_to_color"]}
{"id": "C95", "title": "What an image training is made of", "statement": "For every configuration, build_module of the ILLM training succeeds exactly when each part it names can be built, and then the module has those parts: the model with its own initial weights, with the torch.hub model's, or with exactly the weights a given checkpoint has under \"model.\" (so a fine-tuning starts from the very weights the earlier training's model ended with, whatever else that training's module held; a checkpoint with a missing, extra or differently sized entry is refused); the distortion loss (a ValueError without one), rate target and optimiser settings; every option of lightning_module or its default, and a TypeError for one the module does not take; and, if a discriminator is named, the discriminator, its losses, and a label network whose parameters are all frozen and whose modules are all in evaluation mode, with a warning exactly if it has no pretrained weights. Every test dataset of the configuration is tested once, in order, under its own name. Known deviations: without a discriminator the label network's settings are silently ignored, a path next to torchhub is ignored, a checkpoint of the bare model is refused, and the shipped test configuration names a dataset class that does not exist, so that nothing is tested.", "quantifier": "every configuration, checkpoint file, network and list of test datasets", "why_tests_cant": "tests build a handful of configurations; they cannot cover all checkpoints and all combinations of optional parts", "anchors": ["projects/illm/train.py: build_module, build_model, configure_and_load_state_dict, pretrained_state_dict, build_test_dataloaders", "projects/illm/target_compression_module.py: TargetRateCompressionModule.__init__", "projects/illm/gan_compression_module.py: GANCompressionModule.__init__", "projects/illm/conf/test_dataloaders/test.yaml"]}
{"id": "C96", "title": "Gradients through quantisation", "statement": "For every differentiable network around them, backward() through the quantisers gives each variable the gradient of the surrogate that the code intends. In general: the gradient of an output that was built with detach and round is that of the same output with every detached or rounded part held fixed, whatever the order of operations and however often a tensor is used. Straight-through rounding of a hyperprior autoencoder: the value is rounded around the predicted mean, the latent gets the gradient unchanged and the mean none; so training HiFiC gives the encoder exactly the gradient at the rounded latent, and the likelihoods of rounded latents never carry one. Vector quantiser: the output's gradient is the input's; the commitment loss moves only the latents, each towards its codeword; the embedding loss moves only the codewords that were chosen, each towards the latents that chose it; with normalised codewords its gradient never changes a codeword's length to first order. Bottleneck of the video model: the training likelihood is that of the coded mean and bounded scale, its gradients with respect to input, mean and scale are the exact derivatives although the mean is rounded on the way, except that the floor of 1e-9 stops gradients that would lower a likelihood further, that the scale's is halved at exactly 0 and that only a decrease passes beyond the largest scale. Over a video: a frame's loss reaches its own latent and the latents of the frames in its context, each through straight-through rounding, never the first frame's latent nor any older frame. A codeword shorter than 1e-12 is divided by that constant, in value and gradient; what later frames see of a frame is its latent rounded around the rounded mean.", "quantifier": "every expression, value of the variables and incoming gradient; every shape, codebook and choice of codewords; every number of means and scales, input and noise; every frame number, context length and network", "why_tests_cant": "a unit test compares a few gradients at a few points; it cannot show where no gradient flows for every network and every video length", "anchors": ["neuralcompression/layers/_q_bottleneck.py: quantize_vectors", "neuralcompression/models/_hyperprior_autoencoder.py: _ste_quantize", "neuralcompression/models/_hific_autoencoder.py: forward", "projects/torch_vct/neural/bottlenecks.py: GsnConditionalLocScaleShift, ContinuousIndexedGaussianConditional, Scaler", "projects/torch_vct/model_pipeline.py: encode_scenes, decode_Iscene, decode_Pscene"]}
{"id": "C97", "title": "Accumulated metrics in single precision", "statement": "The MS-SSIM and DISTS metrics keep their running sum in float32, and DISTS its count too. For up to 2^24 images, in any batches, with each batch's scores summed in any order, both counts are exact and the reported value differs from the mean of the scores by at most about (number of updates + depth of the batch sums + 1) * 2^-24 times the mean size of the scores; for scores in [0, 1] and at most 2^20 updates by twice that. So two ways of batching the same images, and processes that see parts of the images and are synchronised, agree up to these errors. Beyond 2^24 images in batches of one this fails (a known deviation): DISTS stops counting, its sum stops growing, and the MS-SSIM reported for images that are all perfect falls below any bound.", "quantifier": "every list of batches of float32 scores of any sign, every order of summation, every number of processes", "why_tests_cant": "tests accumulate a few batches and compare with a tolerance; they never reach the sizes at which rounding accumulates or the count stops", "anchors": ["neuralcompression/metrics/_dists.py: DeepImageStructureTextureSimilarity.update, compute", "neuralcompression/metrics/_msssim.py: MultiscaleStructuralSimilarity.update, compute"]}
{"id": "C98", "title": "The diffusion model behind the bits-back codec", "statement": "Whatever the schedule and the latents, infer_fn for the last latent followed by generate_fn with the data for the earlier ones has exactly the joint density of the process that adds noise step by step to the data, with either way of computing the standard deviation; the posterior of step 0 is the data itself. generate_fn without data succeeds exactly for a step of the process and a network output of the right shape; the network is called once, with each step's timestep in the original process, scaled to 1000 steps if asked; the mean is the posterior's for a predicted image, which is clipped to [-1, 1] if asked, and is the posterior's for the data if the network is right. Standard deviations are positive, except at step 0 with the small fixed variance computed without the logarithm (a known deviation), and beyond it lie between the posterior's and the noising step's. create_gaussian_diffusion keeps exactly the asked timesteps with the noise levels the original process has there, all of them by default, N for vlbN, chooses the kinds of prediction, variance and loss as the options say, and refuses other schedules, linear ones of fewer than 20 steps and fewer than two kept steps; a linear one of 20 steps is accepted although no signal is left at its end (a known deviation). The cosine schedule meets the squared-cosine noise levels exactly until a step is limited to 0.999, as the last always is; at the first step the variance is that of the second step's posterior where the library clips, never above the noising step's; steps outside the process and data of another shape are refused.", "quantifier": "every schedule, network, data, latent, option and step; every number of original timesteps up to 2^24", "why_tests_cant": "tests run one untrained or cheating model; the identity of densities and of respaced noise levels is about all schedules and latents", "anchors": ["projects/bits_back_diffusion/bits_back_diffusion/codec.py: DiffusionModel.infer_fn, generate_fn", "projects/bits_back_diffusion/bits_back_diffusion/script_util.py: create_gaussian_diffusion"]}
{"id": "C99", "title": "What each stage of the video model's training trains", "statement": "The stages of a DVC training are run once each, in alphabetical order of their names (so a tenth stage would come second, a known deviation), each in its own directory or the one it names, with a module and a trainer configured by the base configuration overridden key by key by the stage's; the default configuration gives the five stages of the paper with one, one, one, one and six P-frames, distortion weights 1 and then 256, one learning rate, and a schedule in the last stage only. A module is built exactly if its keywords are known, stage, I-frame model and quality are given, the stage exists and the distortion is MSE, and holds the given values or the documented defaults. The loss of the first stage is the mean over the pyramid's levels of the weighted squared error of the warped image; that of the others is the weighted squared error of the estimate plus the bits of the motion, and in the last two of the residual, per pixel; it is not negative. Losses, quantile loss and update use only submodules the stage holds. With the same weights all stages see the same motion at the same bits; the third adds compensation to the second and the whole model a decoded residual to the third. The residual that the model's forward returns is that decoded one, not the documented difference (a known deviation).", "quantifier": "every configuration, every network, every weights and images, every number of levels", "why_tests_cant": "a test trains one stage for a step with one configuration; that base and stage merge as intended and that stages agree is about all configurations and weights", "anchors": ["projects/deep_video_compression/train.py: merge_configs, run_training_stage, main", "projects/deep_video_compression/dvc_module.py: DvcModule.__init__", "projects/deep_video_compression/_utils.py: DvcStage1..DvcStage4and5", "neuralcompression/models/deep_video_compression.py: DVC.forward"]}
{"id": "C100", "title": "Training and validation pictures have the asked size and show what was drawn", "statement": "Whatever the picture and the random draws, default_train_transform and default_val_transform with image size S give a tensor of S by S with the picture's channels and values between 0 and 1. A random crop shows pixels of the picture itself: a contiguous window along a side of at least S pixels, and along a shorter side all of the picture, continued by reflection so that neighbouring pixels stay neighbours, mirrored if the flip was drawn. A random resized crop shows a window that is never empty and never leaves the picture, the same for every channel: that of the first of ten attempts that fits, with the drawn part of the area and the drawn aspect ratio up to half a pixel per side, and if none fits a central one, which is the whole picture if its aspect ratio lies between 3/4 and 4/3. A validation picture is scaled so that its shorter side is exactly S and the longer one keeps the aspect ratio, rounded down; the square taken from it is central up to one pixel and has no padding; a picture of S by S is only divided by 255.", "quantifier": "every picture of at least one pixel with S times its longer side below 2^53, every size S, every draw, every resampling that gives bytes and keeps a picture of the right size", "why_tests_cant": "a test transforms a few pictures with a few seeds; windows that leave the picture, padded borders and sizes off by one show only for some sizes and draws", "anchors": ["projects/illm/default_transforms.py: default_train_transform, default_val_transform", "projects/illm/open_images_datamodule.py: OpenImagesDataModule"]}
{"id": "C101", "title": "How far an optimiser step can move the weights", "statement": "In the image trainings, whatever the gradients of the batches are and however they are clipped, every step of an optimiser moves each entry of each weight by at most lr * factor * (decay * |w| + reach), where factor is the schedule's value for that step and reach = (1-beta1)/sqrt((1-beta2)(1-beta1^2/beta2)), at most 7.28 for the shipped rate-distortion training and 1.87 for the adversarial one; so with weight decay the weights stay bounded for ever, by their first value or reach/decay, and without it k steps move a weight by at most k * lr * reach. Without clipping a weight that gets a gradient in every batch follows the published AdamW recursion exactly, the k-th step at the rate lr * factor(k). Clipping by norm scales the gradients of all parameters of the optimiser by one factor in (0, 1] so that their joint norm is at most the limit, changes nothing if it is at least 1e-6 below it and scales no more than needed up to 1e-6; clipping by value limits each entry; a limit that is not positive clips nothing; an unknown algorithm raises and leaves the weights and the schedule as they were. Parameters without a gradient are not changed, not even decayed. The quantiles are never clipped, and neither optimiser sees the gradients of the other.", "quantifier": "every list of parameter tensors, every history of batches with any gradients (also none) for any parameters, every clipping setting, schedule with factors in [0,1] and AdamW with beta1^2 < beta2", "why_tests_cant": "the bound must hold after every history of gradients of any size; tests see a few well-behaved batches", "anchors": ["projects/illm/target_compression_module.py: training_step", "projects/illm/gan_compression_module.py: training_step", "projects/illm/conf/optimizer/model_adamw.yaml", "projects/illm/conf/optimizer/model_adamw_disc_const.yaml"]}
{"id": "C102", "title": "The video model's transformer while it trains", "statement": "In training too, the distribution the video model's transformer predicts for a symbol depends on no later symbol and not on that symbol itself, whatever entries dropout removes, whatever branches stochastic depth skips and whatever the rates are, as long as the attention logits are small against the mask; so what is trained is what the decoder can run. In evaluation mode, and in training with the default rates of 0, the outputs are those of the transformer without these layers. Dropout divides what it keeps by 1 - p and removes the rest; on average over the draws each entry, and each feature an attention head gathers, is what it is in evaluation. Stochastic depth drops a branch of a patch as a whole, exactly when the draw is below the rate, divides it by 1 - rate otherwise, and leaves its mean unchanged; a block all of whose branches are dropped returns its tokens unchanged. Dropping all output entries of an attention or an MLP gives zeros; dropping all attention weights or hidden units gives an output that does not depend on the input. The encoder uses drop_out_enc only, the decoder drop_out_dec only.", "quantifier": "every network of the shapes the constructors build, every rate in [0,1), every outcome of the draws of every layer, every context and every pair of latents that agree before a position", "why_tests_cant": "tests run with the default rates of 0, where these layers do nothing, or with a few random draws; the property ranges over all draws and latents and over the mean of infinitely many", "anchors": ["projects/torch_vct/neural/layers_utils.py: MLP, WindowMultiHeadAttention, StochasticDepth", "projects/torch_vct/neural/entropy_model_layers.py: TransformerBlock, Transformer", "projects/torch_vct/neural/entropy_model.py: VCTEntropyModel._get_transformer_output"]}
{"id": "C103", "title": "A freshly built video transformer is causal, and stays so while its weights move little", "statement": "Building the video model's transformer gives parts of exactly the sizes the arguments ask for: the numbers of blocks, hidden layers of mlp_expansion * d_model units, positions for window_size_dec^2, window_size_enc^2 and context_len * window_size_enc^2 tokens, heads of num_channels outputs. It fails, before any weight is used, exactly for a decoder window larger than the encoder's, negative num_channels, rates outside [0,1], or, if there is any block, a d_model that is not a positive multiple of num_head; num_channels = 0 passes the constructor's check but raises ZeroDivisionError. Whatever is drawn, the weights of the transformers are in [-0.04,0.04] with biases 0.01 and neutral layer normalisations, the embeddings within 1/sqrt(num_channels), and the start symbol in [-3,3) and the same in all models of that size. Hence every fresh model of the default sizes predicts each symbol without seeing it or later ones, for all inputs, in training and evaluation, and so does every model whose self-attention weights in the decoder have each moved by at most 0.06; for other sizes the same holds within an explicit bound. A draw u of [0,1) gives 6u - 3 in the start symbol and (2u - 1)/sqrt(num_channels) in an embedding. In every such model the distribution the coder uses for a symbol is the one that a single run on the whole latent predicts.", "quantifier": "every argument of the constructor, every outcome of the random initialisation, every drift of the weights within the bound, every context and pair of latents", "why_tests_cant": "a test builds one or a few models from a seed and runs a few inputs; the property ranges over all draws, weights near them and inputs of any size", "anchors": ["projects/torch_vct/neural/entropy_model.py: VCTEntropyModel.__init__", "projects/torch_vct/neural/entropy_model_layers.py: LearnedPosition, StartSym, TransformerBlock.__init__, Transformer.__init__", "projects/torch_vct/neural/layers_utils.py: make_embedding, init_weights_truncated_normal, MLP.__init__, WindowMultiHeadAttention.__init__"]}
{"id": "C104", "title": "The causality check of the video model raises no false alarm, and one pass does not prove causality", "statement": "validate_causal passes exactly if, at every position, the means and scales predicted from the whole latent agree, within 1e-8 + 1e-5 of the value's size, with those predicted when all symbols from that position on are replaced by 10; otherwise it raises ValueError. For every transformer whose logits are bounded, in particular every fresh model of the default sizes and every model near one, it never raises it, whatever the latent and context: it either passes or raises what the network itself raises for inputs it does not accept. The converse is false: a network that sees later symbols can pass for one latent, and is caught only by a latent for which that matters. Contexts and latents of the sizes the model was built for are accepted, so for a fresh default model the check passes for all of them. A network that passes for every latent is causal up to twice the tolerance: what it predicts for a symbol changes by at most 2e-8 + 1e-5 (|a| + |b|) when that symbol and later ones change. On a batch of patches it passes exactly if it passes for each.", "quantifier": "every network, context and latent of the decoder's length; for the absence of false alarms, every transformer with bounded logits", "why_tests_cant": "a test runs the check on some latents and one set of weights; that it never raises for a causal network is a statement about all of them", "anchors": ["projects/torch_vct/neural/entropy_model.py: VCTEntropyModel.validate_causal, _get_transformer_output"]}

(** Model of the vectorised rANS coder ("craystack") of
    projects/jax_entropy_coders/craystack/{_backend,codecs,coder}.py.

    A head vector is a list of 32-bit integers, one per interleaved lane; the
    tail is a byte array with a pointer, the live stack being
    [data[pointer:]].  JAX's shape-dependent tracing errors are modelled as
    [Raise TypeError].

    The start index of [lax.dynamic_slice] / [lax.dynamic_update_slice] is
    normalised by JAX when it is out of range (negative indices wrap or clamp,
    depending on the version).  The model is parametric in that normalisation,
    [ns start len size]. *)
From Coq Require Import ZArith List Bool Lia.
From Verif Require Import Base.
Import ListNotations.
Open Scope Z_scope.

(** _backend.py L38-42: HEAD_PRECISION, TAIL_PRECISION, HEAD_MIN. *)
Definition HEAD_PRECISION : Z := 32.
Definition TAIL_PRECISION : Z := 8.
Definition HEAD_MIN : Z := 2 ^ (HEAD_PRECISION - TAIL_PRECISION).

(** _backend.py L45-63 (CrayTail) and L67-88 (CrayCompressedMessage), the head
    raveled to a vector of lanes. *)
Record msg := mk_msg { heads : list Z; ptr : Z; data : list Z }.

(** Elementwise operations on equally long vectors (JAX broadcasting of
    vectors of the same shape). *)
Fixpoint map2 {A B C} (f : A -> B -> C) (xs : list A) (ys : list B) : list C :=
  match xs, ys with
  | x :: xs', y :: ys' => f x y :: map2 f xs' ys'
  | _, _ => []
  end.

Definition map3 {A B C D} (f : A -> B -> C -> D) xs ys zs : list D :=
  map2 (fun g z => g z) (map2 f xs ys) zs.

Definition zlen {A} (l : list A) : Z := Z.of_nat (length l).

(** jnp.sum of a boolean vector. *)
Definition count (fs : list bool) : Z := zlen (filter (fun b => b) fs).

Definition b2z (b : bool) : Z := if b then 1 else 0.

(** lax.sort_key_val: stable sort of the pairs by key, as insertion sort. *)
Fixpoint insert_kv (k v : Z) (l : list (Z * Z)) : list (Z * Z) :=
  match l with
  | [] => [(k, v)]
  | (k', v') :: l' =>
      if k <=? k' then (k, v) :: l else (k', v') :: insert_kv k v l'
  end.

Fixpoint sort_pairs (l : list (Z * Z)) : list (Z * Z) :=
  match l with
  | [] => []
  | (k, v) :: l' => insert_kv k v (sort_pairs l')
  end.

Definition sort_key_val (ks vs : list Z) : list Z :=
  map snd (sort_pairs (combine ks vs)).

(** jnp.arange(n). *)
Definition arange (n : nat) : list Z := map Z.of_nat (seq 0 n).

(** XLA logical right shift of a uint32: shifting by 32 or more gives 0. *)
Definition shr (x k : Z) : Z :=
  if (k <? 0) || (32 <=? k) then 0 else x / 2 ^ k.

(** XLA unsigned division: by zero gives all ones, and remainder the dividend. *)
Definition udiv (x f : Z) : Z := if f =? 0 then 2 ^ 32 - 1 else x / f.
Definition umod (x f : Z) : Z := if f =? 0 then x else x mod f.

Definition where_ (fs : list bool) (xs ys : list Z) : list Z :=
  map3 (fun (b : bool) x y => if b then x else y) fs xs ys.

(** codecs.py L16-53 (CrayCodec).  [c_pop] returns the popped symbols; writing
    them into row [msg_index] of the message buffer, which codecs.py L159-161
    does inside [pop], is done by the caller here.  Symbols are kept as integers
    ([message_dtype] wide enough).  [St] is the type of [cdf_state]. *)
Record codec (St : Type) := mk_codec {
  c_push : list Z -> msg -> St -> res (msg * St);
  c_pop : bool -> msg -> St -> res (msg * list Z * St);
  c_state : St;
  c_allow : bool
}.
Arguments mk_codec {St} _ _ _ _.
Arguments c_push {St} _ _ _ _.
Arguments c_pop {St} _ _ _ _.
Arguments c_state {St} _.
Arguments c_allow {St} _.

Section Slices.
Variable ns : Z -> Z -> Z -> Z.

(** lax.dynamic_slice; the operand must be at least as long as the slice. *)
Definition dynamic_slice (d : list Z) (start : Z) (size : nat) : res (list Z) :=
  if Nat.ltb (length d) size then Raise TypeError
  else
    let s := Z.to_nat (ns start (zlen d) (Z.of_nat size)) in
    Ok (firstn size (skipn s d)).

(** lax.dynamic_update_slice. *)
Definition dynamic_update_slice (d upd : list Z) (start : Z) : res (list Z) :=
  if Nat.ltb (length d) (length upd) then Raise TypeError
  else
    let s := Z.to_nat (ns start (zlen d) (zlen upd)) in
    Ok (firstn s d ++ upd ++ skipn (s + length upd) d).

(** _backend.py L116-137 (tail_push). *)
Definition tail_push (limit : Z) (tail_data : list Z)
    (push_indices : list bool) (bytes : list Z) : res (Z * list Z) :=
  do d <- dynamic_update_slice tail_data
            (sort_key_val (map b2z push_indices) bytes) (limit - zlen bytes);
  Ok (limit - count push_indices, d).

(** _backend.py L140-181 (tail_pop). *)
Definition tail_pop (limit : Z) (tail_data : list Z) (pop_indices : list bool)
    (allow_empty_pop : bool) : res (Z * list Z) :=
  let size := length pop_indices in
  let unsorted := sort_key_val (map b2z pop_indices) (arange size) in
  let limit' :=
    if allow_empty_pop
    then Z.min (Z.max (limit + count pop_indices) 0) (zlen tail_data)
    else limit + count pop_indices in
  do sl <- dynamic_slice tail_data (limit' - Z.of_nat size) size;
  Ok (limit', sort_key_val unsorted sl).

(** _backend.py L212-222: one renormalisation write of push_symbols, with the
    shift amount as argument (the source repeats it three times). *)
Definition push_round (shift : Z) (freqs : list Z) (hs : list Z) (limit : Z)
    (d : list Z) : res (list Z * Z * list Z) :=
  let indices := map2 (fun h f => f <=? shr h shift) hs freqs in
  do (limit', d') <- tail_push limit d indices (map u8 hs);
  Ok (where_ indices (map (fun h => shr h TAIL_PRECISION) hs) hs, limit', d').

(** _backend.py L184-228 (push_symbols).  All arithmetic is on uint32. *)
Definition push_symbols (m : msg) (cdf_low cdf_high : list Z) (precision : Z)
    : res msg :=
  let freqs := map2 (fun h l => u32 (h - l)) cdf_high cdf_low in
  do (h1, l1, d1) <-
    push_round (2 * TAIL_PRECISION + HEAD_PRECISION - precision) freqs
      (heads m) (ptr m) (data m);
  do (h2, l2, d2) <-
    push_round (1 * TAIL_PRECISION + HEAD_PRECISION - precision) freqs h1 l1 d1;
  do (h3, l3, d3) <-
    push_round (HEAD_PRECISION - precision) freqs h2 l2 d2;
  Ok (mk_msg
        (map3 (fun h f lo => u32 (u32 (udiv h f * 2 ^ precision) + umod h f + lo))
              h3 freqs cdf_low)
        l3 d3).

(** _backend.py L265-268: one iteration of the pop loop. *)
Definition pop_round (allow_empty_pops : bool) (hs : list Z) (limit : Z)
    (d : list Z) : res (list Z * Z * list Z) :=
  let indices := map (fun h => h <? HEAD_MIN) hs in
  do (limit', new_head) <- tail_pop limit d indices allow_empty_pops;
  Ok (where_ indices
        (map2 (fun h b => Z.lor (u32 (h * 2 ^ TAIL_PRECISION)) b) hs new_head) hs,
      limit', d).

(** _backend.py L231-270 (pop_symbols); the loop [for _ in range(3)] unrolled. *)
Definition pop_symbols (m : msg) (cfs cdf_low cdf_high : list Z) (precision : Z)
    (allow_empty_pops : bool) : res msg :=
  let freqs := map2 (fun h l => u32 (h - l)) cdf_high cdf_low in
  let h0 := map3 (fun f h c => u32 (u32 (f * shr h precision) + c))
              freqs (heads m) (map2 (fun c l => c - l) cfs cdf_low) in
  do (h1, l1, d1) <- pop_round allow_empty_pops h0 (ptr m) (data m);
  do (h2, l2, d2) <- pop_round allow_empty_pops h1 l1 d1;
  do (h3, l3, d3) <- pop_round allow_empty_pops h2 l2 d2;
  Ok (mk_msg h3 l3 d3).

(** _backend.py L273-285 (peek). *)
Definition peek (m : msg) (precision : Z) : list Z :=
  map (fun h => Z.land h (2 ^ precision - 1)) (heads m).

(** _backend.py L288-315 (craymessage_to_array). *)
Definition craymessage_to_array (m : msg) : list Z * Z :=
  let h := heads m in
  (map (fun x => u8 (shr x (3 * TAIL_PRECISION))) h
   ++ map (fun x => u8 (shr x (2 * TAIL_PRECISION))) h
   ++ map (fun x => u8 (shr x TAIL_PRECISION)) h
   ++ map u8 h
   ++ data m,
   zlen h * 4 + ptr m).

(** jnp.split pieces: [a[i:j]] with Python's clipping. *)
Definition slice {A} (a : list A) (i j : nat) : list A := firstn (j - i) (skipn i a).

(** _backend.py L318-344 (array_to_craymessage), [size] being the number of
    lanes. *)
Definition array_to_craymessage (a : list Z) (size : nat) (tail_limit : Z) : msg :=
  let b3 := slice a 0 size in
  let b2 := slice a size (2 * size) in
  let b1 := slice a (2 * size) (3 * size) in
  let b0 := slice a (3 * size) (4 * size) in
  let head :=
    map2 (fun x y => Z.lor x y)
      (map2 (fun x y => Z.lor x y)
         (map2 (fun x y => Z.lor (u32 (x * 2 ^ (3 * TAIL_PRECISION)))
                                 (u32 (y * 2 ^ (2 * TAIL_PRECISION)))) b3 b2)
         (map (fun y => u32 (y * 2 ^ (1 * TAIL_PRECISION))) b1))
      b0 in
  mk_msg head tail_limit (skipn (4 * size) a).

(** _backend.py L347-362 (insert_zeros). *)
Definition insert_zeros (a : list Z) (size : nat) (tail_capacity : Z)
    : res (list Z * Z) :=
  let head_size := (size * 4)%nat in
  let s0 := firstn head_size a in
  let s1 := skipn head_size a in
  let needed_zeros := tail_capacity - zlen s1 in
  let tail_limit := needed_zeros + 1 in
  if needed_zeros <? 0 then Raise ValueError
  else Ok (s0 ++ repeat 0 (Z.to_nat needed_zeros) ++ s1, tail_limit).

(** _backend.py L91-112 (empty_message, empty_stack); [rnd] are the random
    bytes drawn for the tail, [randint(prng_key, (capacity,), ...)]. *)
Definition empty_message (size : nat) (tail_capacity : Z) (rnd : Z -> list Z) : msg :=
  mk_msg (repeat HEAD_MIN size) tail_capacity (rnd tail_capacity).

(** codecs.py L107-165 (default_rans_codec). *)
Definition default_rans_codec {St : Type}
    (cdf_fun : list Z -> St -> list Z * list Z * St)
    (inverse_cdf_fun : list Z -> St -> list Z * list Z * list Z * St)
    (init_cdf_state : St) (precision : Z) (allow_empty_pops : bool) : codec St :=
  mk_codec
    (fun symbols m st =>
       let '(lo, hi, st') := cdf_fun symbols st in
       do m' <- push_symbols m lo hi precision; Ok (m', st'))
    (fun allow m st =>
       let cdf_value := peek m precision in
       let '(lo, hi, symbols, st') := inverse_cdf_fun cdf_value st in
       do m' <- pop_symbols m cdf_value lo hi precision allow;
       Ok (m', symbols, st'))
    init_cdf_state allow_empty_pops.

(** codecs.py L85-86 (_lookup) on one lane: jnp.take_along_axis; a negative
    index counts from the end, an index past the end is clamped. *)
Definition lookup (cdf : list Z) (i : Z) : Z :=
  if i <? 0 then nth (Z.to_nat (zlen cdf + i)) cdf 0 else gather cdf (Z.to_nat i).

(** jnp.argmin of [value >= cdf]: index of the first False, 0 if there is none. *)
Fixpoint argmin_from (v : Z) (cdf : list Z) (i : Z) : option Z :=
  match cdf with
  | [] => None
  | c :: cdf' => if c <=? v then argmin_from v cdf' (i + 1) else Some i
  end.
Definition argmin_ge (v : Z) (cdf : list Z) : Z :=
  match argmin_from v cdf 0 with Some i => i | None => 0 end.

(** codecs.py L92-95 (inverse_cdf_fun), the symbol of one lane. *)
Definition inv_symbol (cdf : list Z) (v : Z) : Z := argmin_ge v cdf - 1.

(** codecs.py L56-105 (fixed_array_cdf_codec).  The state holds one CDF array
    per lane.  [wrap] is the overflow behaviour of the dtype of the message
    given to [encode] ([symbols + 1] is computed in that dtype, L90); decoded
    symbols come from argmin and are not affected. *)
Definition fixed_array_cdf_codec (wrap : Z -> Z) (cdf_array : list (list Z))
    (precision : Z) (allow_empty_pops : bool) : codec (list (list Z)) :=
  default_rans_codec
    (fun symbols st =>
       (map2 lookup st symbols, map2 (fun c s => lookup c (wrap (s + 1))) st symbols,
        st))
    (fun values st =>
       let symbols := map2 inv_symbol st values in
       (map2 lookup st symbols, map2 (fun c s => lookup c (s + 1)) st symbols,
        symbols, st))
    cdf_array precision allow_empty_pops.

(** codecs.py L168-286 (bitsback_ans_codec).  Latents have the shape of one row
    (one latent per lane), so that writing the popped latents at index 0 of the
    zero message of the same shape (L234, L259) gives the popped latents. *)
Definition bitsback_ans_codec {S1 S2 S3 : Type}
    (latent_prior_codec : codec S1)
    (latent_posterior_codec_maker : list Z -> codec S2)
    (obs_codec_maker : list Z -> codec S3) : codec unit :=
  mk_codec
    (fun symbols m _ =>
       let post := latent_posterior_codec_maker symbols in
       do (m1, latents, _) <- c_pop post (c_allow post) m (c_state post);
       let obs := obs_codec_maker latents in
       do (m2, _) <- c_push obs symbols m1 (c_state obs);
       do (m3, _) <- c_push latent_prior_codec latents m2 (c_state latent_prior_codec);
       Ok (m3, tt))
    (fun _ m _ =>
       do (m1, latents, _) <-
         c_pop latent_prior_codec (c_allow latent_prior_codec) m
               (c_state latent_prior_codec);
       let obs := obs_codec_maker latents in
       do (m2, symbols, _) <- c_pop obs (c_allow obs) m1 (c_state obs);
       let post := latent_posterior_codec_maker symbols in
       do (m3, _) <- c_push post latents m2 (c_state post);
       Ok (m3, symbols, tt))
    tt false.

(** coder.py L23-65 (_jax_encode): the fori_loop pushes the rows from the last
    to the first. *)
Fixpoint push_rows {St} (c : codec St) (rows : list (list Z)) (m : msg) (st : St)
    : res (msg * St) :=
  match rows with
  | [] => Ok (m, st)
  | r :: rows' => do (m', st') <- c_push c r m st; push_rows c rows' m' st'
  end.

Definition jax_encode {St} (c : codec St) (message : list (list Z)) (m : msg) (st : St)
    : res (list Z * Z * St) :=
  do (m', st') <- push_rows c (rev message) m st;
  Ok (craymessage_to_array m', st').

(** coder.py L67-122 (_jax_decode): the fori_loop pops [message_len] rows, first
    to last; [default_rans_codec]'s pop is called without [allow_empty_pops]. *)
Fixpoint pop_rows {St} (c : codec St) (len : nat) (m : msg) (st : St)
    : res (msg * list (list Z) * St) :=
  match len with
  | O => Ok (m, [], st)
  | S len' =>
      do (m', r, st') <- c_pop c false m st;
      do (m'', rs, st'') <- pop_rows c len' m' st';
      Ok (m'', r :: rs, st'')
  end.

Definition jax_decode {St} (c : codec St) (a : list Z) (tail_limit : Z)
    (message_len : nat) (size : nat) (st : St)
    : res (list Z * Z * list (list Z) * St) :=
  do (m', rows, st') <- pop_rows c message_len (array_to_craymessage a size tail_limit) st;
  Ok (craymessage_to_array m', rows, st').

(** coder.py L205-218: truncation of one encoded buffer; jnp.split at
    [head_size, lim - 1] and concatenation of the outer pieces. *)
Definition truncate_buffer (cm : list Z) (head_size : nat) (lim : Z) : res (list Z) :=
  if lim - Z.of_nat head_size <? 0 then Raise RuntimeError
  else Ok (firstn head_size cm ++ skipn (Z.to_nat (lim - 1)) cm).

(** coder.py L176-203, one batch element of encode (jax.vmap runs every
    element; [n] is the number of lanes, messages.shape[2:]). *)
Definition encode_one {St} (c : codec St) (n : nat) (tail_capacity : Z)
    (rnd : Z -> list Z) (start : option (list Z)) (message : list (list Z)) (st : St)
    : res (list Z * St) :=
  do (buf, limit) <-
    match start with
    | None => Ok (fst (craymessage_to_array (empty_message n tail_capacity rnd)),
                  tail_capacity)
    | Some b => do (b', l) <- insert_zeros b n tail_capacity; Ok (b', l - 1)
    end;
  do (cm, lim, st') <- jax_encode c message (array_to_craymessage buf n limit) st;
  do out <- truncate_buffer cm (n * 4)%nat lim;
  Ok (out, st').

(** coder.py L125-220 (encode) over a batch: per element, the start buffer, the
    message and the initial CDF state.  The order in which errors of different
    elements surface is simplified to element order. *)
Definition encode {St} (c : codec St) (n : nat) (tail_capacity : Z)
    (rnd : Z -> list Z) (batch : list (option (list Z) * list (list Z) * St))
    : res (list (list Z * St)) :=
  mapM (fun '(start, message, st) => encode_one c n tail_capacity rnd start message st)
       batch.

(** coder.py L287-311, one batch element of decode: [lims += 1], then split at
    [head_size, lim - 1]. *)
Definition decode_one {St} (c : codec St) (message_len n : nat) (tail_capacity : Z)
    (a : list Z) (st : St) : res (list (list Z) * list Z * St) :=
  do (a', limit) <- insert_zeros a n tail_capacity;
  do (cm, lim, rows, st') <- jax_decode c a' limit message_len n st;
  let lim1 := lim + 1 in
  Ok (rows, firstn (n * 4) cm ++ skipn (Z.to_nat (lim1 - 1)) cm, st').

(** coder.py L223-311 (decode) over a batch. *)
Definition decode {St} (c : codec St) (message_len n : nat) (tail_capacity : Z)
    (batch : list (list Z * St)) : res (list (list (list Z) * list Z * St)) :=
  mapM (fun '(a, st) => decode_one c message_len n tail_capacity a st) batch.

(** coder.py L176-177: the default capacity, int(1.5 * messages[0].size). *)
Definition default_capacity (message_len n : nat) : Z :=
  (3 * Z.of_nat (message_len * n)) / 2.

End Slices.

(** Two concrete start normalisations: XLA clamping, and JAX's treatment of
    negative starts (add the length first, then clamp). *)
Definition ns_clamp (start len size : Z) : Z := Z.max 0 (Z.min start (len - size)).
Definition ns_wrap (start len size : Z) : Z :=
  ns_clamp (if start <? 0 then start + len else start) len size.

(** Model of projects/torch_vct/model_pipeline.py L155-367 (VCTPipeline), without the
    memoisation (Memo_Model.v) and without the analysis and synthesis transforms.

    Generators are lists: encode_and_decode_scenes pulls one scene at a time, encodes it and
    decodes it; nothing else happens in between, so the lists are the same. *)
From Coq Require Import Arith List Bool Reals.
From Verif Require Import Base RFloat Tensor Patch_Model Gsn_Model EM_Model.
Import ListNotations.
Open Scope nat_scope.

(** s[0 - n:] of a tuple *)
Definition from_minus {A} (n : nat) (l : list A) : list A := if n =? 0 then l else skipn (length l - n) l.

Section Pipeline.
Context {X S F : Type}.
(** The processed latent (entropy_model.py L205-234, process_previous_latent_q). *)
Variable process : tensor R -> res X.
(** entropy_model.py L36-46 (PreviousLatent); State is a tuple of these. *)
Notation prev := (tensor R * X)%type.
(** One run of the entropy model on scene number [i], given the context: the latent
    returned, what is transmitted (or its likelihood), the features. *)
Variable code : nat -> tensor R -> list X -> res (tensor R * S * F).
(** model_pipeline.py L192: context_len of the pipeline ... *)
Variable context_len : nat.
(** ... but the entropy model is built without it (L186), so it always uses 2. *)
Definition em_context_len : nat := 2.

(** entropy_model.py L300-331 and LearnedPosition (entropy_model_layers.py L57-60) on the
    concatenation of the sequences: their total length must be context_len * seq_len_enc,
    that is, the number of sequences must be context_len. *)
Definition context (state : list prev) : res (list X) :=
  do seqs <- get_encoded_seqs em_context_len (map snd state);
  if length seqs =? em_context_len then Ok seqs else Raise AssertionError.

(** model_pipeline.py L36-51 *)
Record bottleneck := mkBn { latent_q : tensor R; likelihood : S; features : F }.

Section Rec.
Context {O : Type}.
(** model_pipeline.py L112-151 (Dequantizer) *)
Variable dequantize : tensor R -> F -> O.

(** model_pipeline.py L287-303 (decode_Iscene) *)
Definition decode_Iscene (b : bottleneck) : res (O * list prev) :=
  let synthesis_in := dequantize (latent_q b) (features b) in
  do p <- process (latent_q b);
  Ok (synthesis_in, [(latent_q b, p)]).

(** model_pipeline.py L306-321 (decode_Pscene) *)
Definition decode_Pscene (b : bottleneck) (state : list prev) : res (O * list prev) :=
  let synthesis_in := dequantize (latent_q b) (features b) in
  do p <- process (latent_q b);
  Ok (synthesis_in, from_minus context_len (state ++ [(latent_q b, p)])).

(** model_pipeline.py L197-229 (encode_Iscene); [fake] is _temporal_pad_token_maker.
    Scene number 0 is always run forward, not compressed. *)
Variable fake : list nat -> tensor R.
Definition encode_Iscene (scene : tensor R) : res (list prev * bottleneck) :=
  do p <- process (fake (tshape scene));
  do ctx <- context [(fake (tshape scene), p)];
  do (lat, s, f) <- code 0 scene ctx;
  let b := mkBn lat s f in
  do (_, state) <- decode_Iscene b;
  Ok (state, b).

(** model_pipeline.py L232-266 (encode_Pscene) *)
Definition encode_Pscene (scene : tensor R) (index : nat) (state : list prev) : res (list prev * bottleneck) :=
  do ctx <- context state;
  do (lat, s, f) <- code index scene ctx;
  let b := mkBn lat s f in
  do (_, new_state) <- decode_Pscene b state;
  Ok (new_state, b).

(** model_pipeline.py L268-284 (encode_scenes): each bottleneck with the encoder's state
    after it. *)
Fixpoint encode_P (scenes : list (tensor R)) (index : nat) (state : list prev) : res (list (list prev * bottleneck)) :=
  match scenes with
  | [] => Ok []
  | x :: scenes' =>
      do (state, b) <- encode_Pscene x index state;
      do rest <- encode_P scenes' (index + 1) state;
      Ok ((state, b) :: rest)
  end.
Definition encode_scenes (scenes : list (tensor R)) : res (list (list prev * bottleneck)) :=
  match scenes with
  | [] => Ok []
  | x :: scenes' =>
      do (state, b) <- encode_Iscene x;
      do rest <- encode_P scenes' 1 state;
      Ok ((state, b) :: rest)
  end.

(** model_pipeline.py L324-339 (decode_scenes): each reconstruction with the decoder's
    state after it. *)
Fixpoint decode_P (bs : list bottleneck) (state : list prev) : res (list (O * list prev)) :=
  match bs with
  | [] => Ok []
  | b :: bs' =>
      do (r, state) <- decode_Pscene b state;
      do rest <- decode_P bs' state;
      Ok ((r, state) :: rest)
  end.
Definition decode_scenes (bs : list bottleneck) : res (list (O * list prev)) :=
  match bs with
  | [] => Ok []
  | b :: bs' =>
      do (r, state) <- decode_Iscene b;
      do rest <- decode_P bs' state;
      Ok ((r, state) :: rest)
  end.

(** model_pipeline.py L341-367 (encode_and_decode_scenes): reconstruction and likelihood. *)
Definition encode_and_decode_scenes (scenes : list (tensor R)) : res (list (O * S)) :=
  do enc <- encode_scenes scenes;
  do dec <- decode_scenes (map snd enc);
  Ok (map (fun p => (fst (fst p), likelihood (snd (snd p)))) (combine dec enc)).
End Rec.
End Pipeline.

Section Coding.
Variables (num_means num_scales : Z) (min_scale : R).
Context {B X D : Type}.
Variable ec_compress : list Z -> list Z -> res B.
Variable ec_decompress : B -> list Z -> res (list Z).
Variable net : @net_type (list X) D.
Variables (fill_out : D) (window : nat).

(** entropy_model.py L333-403 (forward) in evaluation mode: the quantised latent.
    Likelihoods and features are not computed here. *)
Definition em_forward (latent : tensor R) (ctx : list X) : res (tensor R) :=
  match tshape latent with
  | [b; c; h; w] =>
      let latent_q := mkT (tshape latent) (fun i => round_st (tat latent i)) in
      do (pq, n) <- forward window Reflect latent_q window;
      let '(means, scales, outs) := net ctx (tokens_of pq) in
      do (p, _) <- forward window Reflect latent window;
      let out := map2 gsn_forward_eval (tokens_of p) means in
      unpatch window (of_tokens (nth 0 (tshape p) 0) (window * window) c out, n) (Some (h, w)) true
  | _ => Raise ValueError
  end.

(** model_pipeline.py L239-254 with _code_to_strings (compress_video): the first scene is
    run forward, the others are compressed, with decoding for scenes 1 and 2 only. *)
Definition code_strings (index : nat) (scene : tensor R) (ctx : list X) : res (tensor R * list B * unit) :=
  if index =? 0 then
    do lat <- em_forward scene ctx;
    Ok (lat, [], tt)
  else
    do (lat, strings, _) <- em_compress num_means num_scales min_scale ec_compress ec_decompress net fill_out window ctx scene (index <? 3);
    Ok (lat, strings, tt).
End Coding.

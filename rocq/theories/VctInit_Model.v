(** Model of building the transformer of projects/torch_vct: VCTEntropyModel.__init__
    (neural/entropy_model.py L70-195), Transformer.__init__ and TransformerBlock.__init__
    (neural/entropy_model_layers.py L131-181, L232-261), LearnedPosition.__init__ (L35-48),
    StartSym.__init__ (L69-84), MLP.__init__, WindowMultiHeadAttention.__init__, make_embedding and
    init_weights_truncated_normal (neural/layers_utils.py L44-105, L127-172).

    The random draws are inputs.  Sizes other than num_channels are natural numbers; the weights are
    exact reals; the bottleneck and the patcher are modelled elsewhere (Gsn_Model.v, EM_Model.v). *)
From Coq Require Import Arith List Bool Reals ZArith.
From Verif Require Import Base RBase RFloat Gsn_Model EM_Model TF_Model.
Import ListNotations.
Open Scope nat_scope.

(** torch.nn.Linear(i, o) with given entries *)
Definition mk_linear (i o : nat) (w : nat -> nat -> R) (b : nat -> R) : linear :=
  mkLin (map (fun r => map (w r) (seq 0 i)) (seq 0 o)) (map b (seq 0 o)).
(** torch.Tensor.uniform_(a, b) for a draw u of [0, 1) *)
Definition uniform (a b u : R) : R := (a + u * (b - a))%R.
(** torch.nn.init.trunc_normal_: the transformed draw is clamped to [a, b]. *)
Definition trunc_normal (a b x : R) : R := Rmin (Rmax x a) b.
(** torch.nn.LayerNorm: ones and zeros *)
Definition fresh_norm (d : nat) : norm := mkNorm (repeat 1%R d) (repeat 0%R d).

(** layers_utils.py L63-79 (init_weights_truncated_normal) of a layer of the given sizes *)
Definition truncated_linear (i o : nat) (x : nat -> nat -> R) : linear :=
  let std := 0.02%R in
  mk_linear i o (fun r c => trunc_normal (-2 * std) (2 * std) (x r c)) (fun _ => 0.01%R).
(** layers_utils.py L44-60 (make_embedding); draws in [0, 1) *)
Definition make_embedding (input_dim hidden_dim : nat) (u : nat -> nat -> R) (ub : nat -> R) : res linear :=
  if input_dim =? 0 then Raise ZeroDivisionError
  else
    let scale := (1 / sqrt (INR input_dim))%R in
    Ok (mk_linear input_dim hidden_dim (fun r c => uniform (- scale) scale (u r c)) (fun r => uniform (- scale) scale (ub r))).
(** torch.nn.Linear's own initialisation: uniform in 1 / sqrt of the number of inputs *)
Definition default_linear (i o : nat) (u : nat -> nat -> R) (ub : nat -> R) : linear :=
  let scale := (1 / sqrt (INR i))%R in
  mk_linear i o (fun r c => uniform (- scale) scale (u r c)) (fun r => uniform (- scale) scale (ub r)).

(** entropy_model_layers.py L35-48: a normal draw times 0.02 *)
Definition fresh_position (seq_length d : nat) (z : nat -> nat -> R) : list token :=
  map (fun i => map (fun c => (0.02 * z i c)%R) (seq 0 d)) (seq 0 seq_length).

(** layers_utils.py L127-172 (WindowMultiHeadAttention.__init__); [x] holds the draws of its four layers. *)
Definition fresh_attention (d num_heads : nat) (x : nat -> nat -> nat -> R) : res attention :=
  if num_heads =? 0 then Raise ZeroDivisionError
  else if negb (d mod num_heads =? 0) then Raise ValueError
  else if d / num_heads =? 0 then Raise ZeroDivisionError
  else Ok (mkAttn (truncated_linear d d (x 0)) (truncated_linear d d (x 1)) (truncated_linear d d (x 2)) (truncated_linear d d (x 3))).
(** layers_utils.py L85-108 (MLP.__init__) *)
Definition fresh_mlp (d mlp_dim : nat) (x : nat -> nat -> nat -> R) : mlp :=
  mkMlp (truncated_linear d mlp_dim (x 0)) (truncated_linear mlp_dim d (x 1)).
(** entropy_model_layers.py L131-181 (TransformerBlock.__init__) *)
Definition fresh_block (d num_heads mlp_dim : nat) (x : nat -> nat -> nat -> R) : res block :=
  do a <- fresh_attention d num_heads x;
  do c <- fresh_attention d num_heads (fun k => x (6 + k));
  Ok (mkBlock (fresh_norm d) a (fresh_norm d) (fresh_mlp d mlp_dim (fun k => x (4 + k)))
              (fresh_norm d) c (fresh_norm d) (fresh_mlp d mlp_dim (fun k => x (10 + k)))).
(** torch.nn.Dropout refuses rates outside [0, 1]. *)
Definition check_rate (p : R) : res unit :=
  if Rlt_dec p 0 then Raise ValueError else if Rlt_dec 1 p then Raise ValueError else Ok tt.
(** entropy_model_layers.py L232-261 (Transformer.__init__) *)
Definition fresh_transformer (num_layers num_heads d mlp_expansion : nat) (dropout : R)
    (x : nat -> nat -> nat -> nat -> R) : res (list block) :=
  do _ <- check_rate dropout;
  mapM (fun l => fresh_block d num_heads (mlp_expansion * d) (x l)) (seq 0 num_layers).

(** entropy_model.py L70-84: the arguments. *)
Record em_args := mkArgs {
  num_channels : Z; context_len : nat; window_size_enc : nat; window_size_dec : nat;
  num_layers_encoder_sep : nat; num_layers_encoder_joint : nat; num_layers_decoder : nat;
  d_model : nat; num_head : nat; mlp_expansion : nat; drop_out_enc : R; drop_out_dec : R
}.
Definition default_args : em_args := mkArgs 192 2 8 4 3 2 5 768 16 4 0 0.

(** The draws: of the three transformers (section, layer, linear layer, row, column), of the positions,
    of the embeddings and of the final heads (in [0, 1)). *)
Record em_init := mkInit {
  i_tf : nat -> nat -> nat -> nat -> nat -> R;
  i_pos : nat -> nat -> nat -> R;
  i_emb : nat -> nat -> nat -> R; i_emb_b : nat -> nat -> R;
  i_head : nat -> nat -> nat -> nat -> R; i_head_b : nat -> nat -> nat -> R
}.

(** The parts of the model that em_params leaves out. *)
Record vct := mkVct { v_em : em_params; v_encoder_sep : list block; v_encoder_embedding : linear; v_position_sep : list token }.

(** entropy_model.py L184-195 (_make_final_heads) *)
Definition fresh_heads (d out : nat) (u : nat -> nat -> nat -> R) (ub : nat -> nat -> R) : heads :=
  mkHeads (default_linear d d (u 0) (ub 0)) (default_linear d d (u 1) (ub 1)) (default_linear d out (u 2) (ub 2)).

(** entropy_model.py L70-195 (VCTEntropyModel.__init__).  [seed42 i] is the i-th draw of the generator
    that StartSym seeds with 42 (entropy_model_layers.py L78-84). *)
Definition build (seed42 : nat -> R) (a : em_args) (w : em_init) : res vct :=
  if window_size_enc a <? window_size_dec a then Raise ValueError
  else if (num_channels a <? 0)%Z then Raise ValueError
  else
    let c := Z.to_nat (num_channels a) in
    let d := d_model a in
    do sep <- fresh_transformer (num_layers_encoder_sep a) (num_head a) d (mlp_expansion a) (drop_out_enc a) (i_tf w 0);
    do joint <- fresh_transformer (num_layers_encoder_joint a) (num_head a) d (mlp_expansion a) (drop_out_enc a) (i_tf w 1);
    let seq_len_dec := window_size_dec a * window_size_dec a in
    let seq_len_enc := window_size_enc a * window_size_enc a in
    let zero := map (fun i => uniform (-3) 3 (seed42 i)) (seq 0 c) in
    let pos_sep := fresh_position seq_len_enc d (i_pos w 0) in
    let pos_joint := fresh_position (seq_len_enc * context_len a) d (i_pos w 1) in
    let pos_dec := fresh_position seq_len_dec d (i_pos w 2) in
    do emb_enc <- make_embedding c d (i_emb w 0) (i_emb_b w 0);
    do emb_dec <- make_embedding c d (i_emb w 1) (i_emb_b w 1);
    do dec <- fresh_transformer (num_layers_decoder a) (num_head a) d (mlp_expansion a) (drop_out_dec a) (i_tf w 2);
    Ok (mkVct (mkEm zero emb_dec (fresh_norm d) pos_dec pos_joint joint dec
                 (fresh_heads d c (i_head w 0) (i_head_b w 0)) (fresh_heads d c (i_head w 1) (i_head_b w 1)))
              sep emb_enc pos_sep).

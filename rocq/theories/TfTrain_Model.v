(** Model of the transformer of projects/torch_vct in training mode: TF_Model.v with the Dropout and
    StochasticDepth layers of neural/layers_utils.py (L82-123, L126-279, L281-307) and
    neural/entropy_model_layers.py L131-224, L263-289.

    The random draws are inputs.  nn.Dropout keeps an entry with probability 1 - p and divides it by
    1 - p; StochasticDepth draws one number of [0, 1) per patch and call.  Simplified as in TF_Model.v;
    a rate of 1, for which StochasticDepth divides by 0, is left out. *)
From Coq Require Import Arith List Bool Reals ZArith.
From Verif Require Import Base RBase RFloat Gsn_Model EM_Model TF_Model.
Import ListNotations.
Open Scope nat_scope.

(** torch.nn.Dropout: [kept] tells which entries stay. *)
Definition dropout (training : bool) (p : R) (kept : nat -> bool) (x : list R) : list R :=
  if training then map2 (fun a j => if kept j then (a * (1 / (1 - p)))%R else 0%R) x (seq 0 (length x)) else x.
(** ... of the tokens of a sequence *)
Definition dropout_seq (training : bool) (p : R) (kept : nat -> nat -> bool) (x : list token) : list token :=
  map2 (fun t i => dropout training p (kept i) t) x (seq 0 (length x)).

(** layers_utils.py L296-307 (StochasticDepth.forward), one patch; [r] is the drawn number. *)
Definition drop_path (training : bool) (rate r : R) (x : list token) : list token :=
  if negb training || (if Req_EM_T rate 0 then true else false) then x
  else
    let keep_prob := (1 - rate)%R in
    let binary := IZR (Rfloor (keep_prob + r)) in
    map (map (fun a => (a / keep_prob * binary)%R)) x.

(** The draws of an attention: head, query, key; token, channel.  Of an MLP: token, unit; token,
    channel.  Of a block: those of its parts, and a number for each call of drop_path. *)
Record attn_draws := mkAD { ad_attn : nat -> nat -> nat -> bool; ad_proj : nat -> nat -> bool }.
Record mlp_draws := mkMD { md_1 : nat -> nat -> bool; md_2 : nat -> nat -> bool }.
Record block_draws := mkBD {
  bd_self : attn_draws; bd_path1 : R; bd_mlp1 : mlp_draws; bd_path2 : R;
  bd_cross : attn_draws; bd_path3 : R; bd_mlp2 : mlp_draws; bd_path4 : R
}.

Section Train.
Variable gelu : R -> R.
Variables (hidden_dim num_heads : nat).
(** drop_out_rate and drop_path_rate are the same number (entropy_model_layers.py L256-257). *)
Variables (training : bool) (p : R).

(** layers_utils.py L110-123 (MLP.forward) *)
Definition mlp_train (m : mlp) (dr : mlp_draws) (i : nat) (x : token) : token :=
  dropout training p (md_2 dr i) (lin (fc2 m) (dropout training p (md_1 dr i) (map gelu (lin (fc1 m) x)))).

(** layers_utils.py L232-262: the attention weights of one head and query before attn_dropout, *)
Definition head_weights (q : token) (ks : list token) (mask : option token) : list R :=
  let attn := map (fun k => (dot q k * attn_scale hidden_dim num_heads)%R) ks in
  let attn := match mask with
              | Some m => map2 (fun a k => (a + k * -1000000)%R) attn m
              | None => attn
              end in
  let attn := softmax attn in
  match mask with
  | Some m => map2 (fun a k => (a * (1 - k))%R) attn m
  | None => attn
  end.
(** L264-268: and the features. *)
Definition attend_train (q : token) (ks vs : list token) (mask : option token) (kept : nat -> bool) : token :=
  let attn := dropout training p kept (head_weights q ks mask) in
  map (fun c => sum (map2 (fun a v => (a * nth c v 0)%R) attn vs)) (seq 0 (head_dim hidden_dim num_heads)).

(** layers_utils.py L174-278 (WindowMultiHeadAttention.forward) *)
Definition attention_train (a : attention) (dr : attn_draws) (query kv : list token) (mask : option (list token)) : res (list token) :=
  let sq := length query in
  let skv := length kv in
  if sq =? 0 then Raise ZeroDivisionError
  else if negb (skv mod sq =? 0) then Raise AssertionError
  else
    let blowup := skv / sq in
    let qs := map (lin (q_linear a)) query in
    let ks := map (lin (k_linear a)) kv in
    let vs := map (lin (v_linear a)) kv in
    let bad := match mask with
               | Some m => negb ((length m =? sq) && forallb (fun r => length r =? sq) m)
               | None => false
               end in
    if bad then Raise ValueError
    else
      Ok (dropout_seq training p (ad_proj dr) (map (fun i =>
            let row := match mask with
                       | Some m => Some (concat (repeat (nth i m []) blowup))
                       | None => None
                       end in
            lin (proj a)
              (concat (map (fun h => attend_train (head hidden_dim num_heads h (nth i qs []))
                                       (map (head hidden_dim num_heads h) ks) (map (head hidden_dim num_heads h) vs) row (ad_attn dr h i))
                         (seq 0 num_heads))))
          (seq 0 sq))).

(** entropy_model_layers.py L183-224 (TransformerBlock.forward) *)
Definition mlp_branch (n : norm) (m : mlp) (dr : mlp_draws) (r : R) (x : list token) : list token :=
  map2 vadd x (drop_path training p r (map2 (fun t i => mlp_train m dr i (layer_norm n t)) x (seq 0 (length x)))).
Definition block_train (decoder : option nat) (b : block) (dr : block_draws) (input : list token)
    (encoder_output : option (list token)) : res (list token) :=
  match decoder, encoder_output with
  | Some _, None => Raise ValueError
  | _, _ =>
      let x := map (layer_norm (ln_1a b)) input in
      do x <- attention_train (self_attention b) (bd_self dr) x x (option_map look_ahead_mask decoder);
      let x := map2 vadd input (drop_path training p (bd_path1 dr) x) in
      let x := mlp_branch (ln_1b b) (mlp1 b) (bd_mlp1 dr) (bd_path2 dr) x in
      let y := map (layer_norm (ln_2a b)) x in
      do y <- attention_train (cross_attention b) (bd_cross dr) y (match encoder_output with Some e => e | None => y end) None;
      let y := map2 vadd x (drop_path training p (bd_path3 dr) y) in
      Ok (mlp_branch (ln_2b b) (mlp2 b) (bd_mlp2 dr) (bd_path4 dr) y)
  end.
(** L263-289 (Transformer.forward); [draws] are those of each layer. *)
Fixpoint transformer_train (decoder : option nat) (layers : list block) (draws : nat -> block_draws) (input : list token)
    (encoder_output : option (list token)) : res (list token) :=
  match layers with
  | [] => Ok input
  | b :: layers' =>
      do input <- block_train decoder b (draws 0) input encoder_output;
      transformer_train decoder layers' (fun k => draws (S k)) input encoder_output
  end.
End Train.

(** entropy_model.py L257-298 (_get_transformer_output), one patch; [pe] and [pd] are drop_out_enc and
    drop_out_dec. *)
Definition output_train (gelu : R -> R) (hidden_dim num_heads : nat) (training : bool) (pe pd : R) (P : em_params)
    (draws_enc draws_dec : nat -> block_draws) (encoded latent : list token) : res (list token * list token * list token) :=
  do emb <- embed P (start_sym (learned_zero P) latent);
  do encoded <- learned_position (enc_position_joint P) encoded;
  do encoded <- transformer_train gelu hidden_dim num_heads training pe None (encoder_joint P) draws_enc encoded None;
  do out <- transformer_train gelu hidden_dim num_heads training pd (Some (length (dec_position P))) (decoder_layers P) draws_dec emb (Some encoded);
  Ok (map (final_head (mean_head P)) out, map (final_head (scale_head P)) out, out).

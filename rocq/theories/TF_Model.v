(** Model of the transformer of projects/torch_vct: neural/layers_utils.py and
    neural/entropy_model_layers.py, and its use in neural/entropy_model.py L237-298.

    Evaluation mode: Dropout and StochasticDepth are the identity.  One patch (one entry of
    the augmented batch b') at a time; [tf_net] runs every patch.  Simplified: exact real
    arithmetic except the exponential of softmax, which is rounded to float32 (so it
    underflows); GELU is an arbitrary function; layers have the shapes their constructors
    give them, so only the checks on sequence lengths are modelled. *)
From Coq Require Import Arith List Bool Reals.
From Verif Require Import Base RFloat Gsn_Model EM_Model.
Import ListNotations.
Open Scope nat_scope.

Definition sum (l : list R) : R := fold_right Rplus 0%R l.
Definition dot (a b : token) : R := sum (map2 Rmult a b).
Definition vadd (a b : token) : token := map2 Rplus a b.

(** torch.nn.Linear: one row of weights per output. *)
Record linear := mkLin { lin_w : list token; lin_b : token }.
Definition lin (l : linear) (x : token) : token := map2 (fun row b => (dot row x + b)%R) (lin_w l) (lin_b l).

(** torch.nn.LayerNorm with eps=1e-6 (entropy_model_layers.py L138) *)
Record norm := mkNorm { n_gamma : token; n_beta : token }.
Definition mean (x : token) : R := (sum x / INR (length x))%R.
Definition var (x : token) : R := mean (map (fun a => ((a - mean x) * (a - mean x))%R) x).
Definition standardise (x : token) : token := map (fun a => ((a - mean x) / sqrt (var x + / 1000000))%R) x.
Definition layer_norm (n : norm) (x : token) : token := map2 Rplus (map2 Rmult (standardise x) (n_gamma n)) (n_beta n).

(** torch.nn.Softmax(dim=-1), computed with the maximum subtracted; float32 exponential. *)
Definition exp32 (y : R) : R := b32 (exp y).
Definition maxl (l : list R) : R := match l with [] => 0%R | x :: l' => fold_right Rmax x l' end.
Definition softmax (l : list R) : list R :=
  let m := maxl l in
  let e := map (fun x => exp32 (x - m)) l in
  map (fun x => (x / sum e)%R) e.

Section TF.
Variable gelu : R -> R.
Variables (hidden_dim num_heads : nat).
(** layers_utils.py L153-154 (attn_scale); the constructor's divisibility check (L148-151)
    is a hypothesis where it matters. *)
Definition head_dim : nat := hidden_dim / num_heads.
Definition attn_scale : R := (/ sqrt (INR head_dim))%R.

(** layers_utils.py L82-123 (MLP) *)
Record mlp := mkMlp { fc1 : linear; fc2 : linear }.
Definition mlp_forward (m : mlp) (x : token) : token := lin (fc2 m) (map gelu (lin (fc1 m) x)).

(** layers_utils.py L153-172 *)
Record attention := mkAttn { q_linear : linear; k_linear : linear; v_linear : linear; proj : linear }.

(** The [h]-th head of a token: the reshape of L215-229. *)
Definition head (h : nat) (t : token) : token := firstn head_dim (skipn (h * head_dim) t).

(** layers_utils.py L232-269: one head, one query. *)
Definition attend (q : token) (ks vs : list token) (mask : option token) : token :=
  let attn := map (fun k => (dot q k * attn_scale)%R) ks in
  let attn := match mask with
              | Some m => map2 (fun a k => (a + k * -1000000)%R) attn m
              | None => attn
              end in
  let attn := softmax attn in
  let attn := match mask with
              | Some m => map2 (fun a k => (a * (1 - k))%R) attn m
              | None => attn
              end in
  map (fun c => sum (map2 (fun a v => (a * nth c v 0)%R) attn vs)) (seq 0 head_dim).

(** layers_utils.py L174-278 (WindowMultiHeadAttention.forward); key and value are the
    same tensor in every call. *)
Definition attention_forward (a : attention) (query kv : list token) (mask : option (list token)) : res (list token) :=
  let sq := length query in
  let skv := length kv in
  if sq =? 0 then Raise ZeroDivisionError
  else if negb (skv mod sq =? 0) then Raise AssertionError
  else
    let blowup := skv / sq in
    let qs := map (lin (q_linear a)) query in
    let ks := map (lin (k_linear a)) kv in
    let vs := map (lin (v_linear a)) kv in
    let bad := match mask with
               | Some m => negb ((length m =? sq) && forallb (fun r => length r =? sq) m)
               | None => false
               end in
    if bad then Raise ValueError
    else
      Ok (map (fun i =>
            let row := match mask with
                       | Some m => Some (concat (repeat (nth i m []) blowup))
                       | None => None
                       end in
            lin (proj a)
              (concat (map (fun h => attend (head h (nth i qs [])) (map (head h) ks) (map (head h) vs) row)
                         (seq 0 num_heads))))
          (seq 0 sq)).

(** entropy_model_layers.py L143-151: triu(ones, diagonal=1) *)
Definition look_ahead_mask (n : nat) : list token :=
  map (fun i => map (fun j => if i <? j then 1%R else 0%R) (seq 0 n)) (seq 0 n).

(** entropy_model_layers.py L131-181 (TransformerBlock.__init__) *)
Record block := mkBlock {
  ln_1a : norm; self_attention : attention; ln_1b : norm; mlp1 : mlp;
  ln_2a : norm; cross_attention : attention; ln_2b : norm; mlp2 : mlp
}.

(** entropy_model_layers.py L183-224 (TransformerBlock.forward).  [decoder] is
    Some seq_length if is_decoder. *)
Definition block_forward (decoder : option nat) (b : block) (input : list token) (encoder_output : option (list token)) :
    res (list token) :=
  match decoder, encoder_output with
  | Some _, None => Raise ValueError
  | _, _ =>
      let x := map (layer_norm (ln_1a b)) input in
      do x <- attention_forward (self_attention b) x x (option_map look_ahead_mask decoder);
      let x := map2 vadd input x in
      let x := map (fun t => vadd t (mlp_forward (mlp1 b) (layer_norm (ln_1b b) t))) x in
      let y := map (layer_norm (ln_2a b)) x in
      do y <- attention_forward (cross_attention b) y (match encoder_output with Some e => e | None => y end) None;
      let y := map2 vadd x y in
      Ok (map (fun t => vadd t (mlp_forward (mlp2 b) (layer_norm (ln_2b b) t))) y)
  end.

(** entropy_model_layers.py L263-289 (Transformer.forward) *)
Fixpoint transformer (decoder : option nat) (layers : list block) (input : list token)
    (encoder_output : option (list token)) : res (list token) :=
  match layers with
  | [] => Ok input
  | b :: layers' =>
      do input <- block_forward decoder b input encoder_output;
      transformer decoder layers' input encoder_output
  end.

(** entropy_model_layers.py L50-63 (LearnedPosition.forward) *)
Definition learned_position (emb : list token) (x : list token) : res (list token) :=
  if negb (length x =? length emb) then Raise AssertionError else Ok (map2 vadd x emb).

(** entropy_model_layers.py L86-123 (StartSym) *)
Definition start_sym (sym : token) (x : list token) : list token := sym :: removelast x.

(** entropy_model.py L184-195 (the final heads: three linear layers) *)
Definition leaky_relu (x : R) : R := if Rlt_dec x 0 then (0.01 * x)%R else x.
Record heads := mkHeads { h1 : linear; h2 : linear; h3 : linear }.
Definition final_head (h : heads) (x : token) : token :=
  lin (h3 h) (map leaky_relu (lin (h2 h) (map leaky_relu (lin (h1 h) x)))).

(** entropy_model.py L132-195: the parameters of the prediction. *)
Record em_params := mkEm {
  learned_zero : token; decoder_embedding : linear; post_embedding_layernorm : norm;
  dec_position : list token; enc_position_joint : list token;
  encoder_joint : list block; decoder_layers : list block; mean_head : heads; scale_head : heads
}.

(** entropy_model.py L237-255 (_embed_latent_q_patched) *)
Definition embed (P : em_params) (x : list token) : res (list token) :=
  let x := map (map (fun a => (a / 35)%R)) x in
  let x := map (lin (decoder_embedding P)) x in
  let x := map (layer_norm (post_embedding_layernorm P)) x in
  learned_position (dec_position P) x.

(** entropy_model.py L257-298 (_get_transformer_output), for one patch.  The mask of the
    decoder's blocks has seq_length = seq_len_dec = the length of dec_position. *)
Definition get_transformer_output (P : em_params) (encoded latent : list token) : res (list token * list token * list token) :=
  do emb <- embed P (start_sym (learned_zero P) latent);
  do encoded <- learned_position (enc_position_joint P) encoded;
  do encoded <- transformer None (encoder_joint P) encoded None;
  do out <- transformer (Some (length (dec_position P))) (decoder_layers P) emb (Some encoded);
  Ok (map (final_head (mean_head P)) out, map (final_head (scale_head P)) out, out).

(** Every patch: the context is a list of sequences, one per patch; token i of the latent
    holds the [num_channels] entries of its patches one after the other.  Failures (which
    depend on the lengths of the sequences only) give no tokens. *)
Definition patch_run (P : em_params) (num_channels : nat) (toks : list token) (p : nat * list token) :=
  get_transformer_output P (snd p) (map (fun t => firstn num_channels (skipn (fst p * num_channels) t)) toks).
Definition tf_net (P : em_params) (num_channels : nat) : @net_type (list (list token)) token :=
  fun encoded toks =>
    match mapM (patch_run P num_channels toks) (combine (seq 0 (length encoded)) encoded) with
    | Ok rs =>
        let gather (f : list token * list token * list token -> list token) :=
          map (fun i => concat (map (fun r => nth i (f r) []) rs)) (seq 0 (length toks)) in
        (gather (fun r => fst (fst r)), gather (fun r => snd (fst r)), gather snd)
    | Raise _ => ([], [], [])
    end.
End TF.

(** Model of the wiring of the VQ-VAE's encoder and decoder and of its frozen parts
    (neuralcompression/models/_vqvae_xcit_autoencoder.py).

    Simplifications: layers are kept with their numbers of channels only; an empty ch_mult, for which the
    constructor fails with UnboundLocalError, is not modelled. *)
From Coq Require Import String ZArith List Bool Arith Lia.
From Verif Require Import Base.
Import ListNotations.
Open Scope string_scope.
Open Scope list_scope.
Open Scope nat_scope.

(** * Layers *)
Inductive layer := Conv (i o : nat) | NormL (kind : string) (c : nat) | Res (kind : string) (i o : nat) | Attn (kind : string) (c : nat) | Down (c : nat) | Up (c : nat).
(** L52-58 (create_norm): GroupNorm needs a multiple of 16 channels, ChannelNorm2D at least two *)
Definition create_norm (kind : string) (c : nat) : res unit :=
  if (kind =? "group")%string then (if c mod 16 =? 0 then Ok tt else Raise ValueError)
  else if (kind =? "channel")%string then (if c <=? 1 then Raise ValueError else Ok tt)
  else Raise ValueError.
(** The norms a layer creates: L97-129 (_ResnetBlock), L151-163 (_AttnBlock) *)
Definition create (l : layer) : res unit :=
  match l with
  | NormL k c | Attn k c => create_norm k c
  | Res k i o => do _ <- create_norm k i; create_norm k o
  | _ => Ok tt
  end.
Fixpoint create_all (ls : list layer) : res unit :=
  match ls with [] => Ok tt | l :: r => do _ <- create l; create_all r end.
(** The channels after a layer; another number than it was made for raises RuntimeError *)
Definition apply (l : layer) (c : nat) : res nat :=
  match l with
  | Conv i o | Res _ i o => if c =? i then Ok o else Raise RuntimeError
  | NormL _ i | Attn _ i | Down i | Up i => if c =? i then Ok c else Raise RuntimeError
  end.
Fixpoint run (ls : list layer) (c : nat) : res nat :=
  match ls with [] => Ok c | l :: r => do c' <- apply l c; run r c' end.

Definition mem (n : nat) (l : list nat) : bool := existsb (Nat.eqb n) l.
(** L218-229, L362-373: n residual blocks from i to o channels, each followed by attention where wanted *)
Fixpoint blocks (kind : string) (n i o : nat) (attn : bool) : list layer :=
  match n with
  | O => []
  | S n => Res kind i o :: (if attn then [Attn kind o] else []) ++ blocks kind n o o attn
  end.
Definition after (n i o : nat) : nat := if n =? 0 then i else o.
(** L238-253, L339-354 *)
Definition middle (kind : string) (c : nat) : list layer := [Res kind c c; Attn kind c; Res kind c c].

(** L210-236: the levels of the encoder; pm the previous multiplier, r the current resolution.  The layers,
    the last number of channels and the last resolution. *)
Fixpoint enc_levels (kind : string) (ch nres : nat) (attn : list nat) (pm : nat) (mults : list nat) (r : nat) : list layer * nat :=
  match mults with
  | [] => ([], ch * pm)
  | m :: rest =>
      let bl := blocks kind nres (ch * pm) (ch * m) (mem r attn) in
      let last := after nres (ch * pm) (ch * m) in
      match rest with
      | [] => (bl, last)
      | _ => let '(ls, b) := enc_levels kind ch nres attn m rest (r / 2) in (bl ++ Down last :: ls, b)
      end
  end.
(** L174-286: norm_type "channel_last" is "group" in the encoder *)
Definition encoder (norm_type : string) (ch : nat) (mults : list nat) (nres : nat) (attn : list nat) (in_channels resolution embed_dim : nat) : list layer :=
  let kind := if (norm_type =? "channel_last")%string then "group" else norm_type in
  let '(ls, b) := enc_levels kind ch nres attn 1 mults resolution in
  Conv in_channels ch :: ls ++ middle kind b ++ [NormL kind b; Conv b embed_dim].

(** L356-380: the levels of the decoder, from the last multiplier to the first *)
Fixpoint dec_levels (kind : string) (ch nres : nat) (attn : list nat) (b : nat) (rev_mults : list nat) (r : nat) : list layer * nat :=
  match rev_mults with
  | [] => ([], b)
  | m :: rest =>
      let bl := blocks kind (nres + 1) b (ch * m) (mem r attn) in
      let b := ch * m in
      match rest with
      | [] => (bl, b)
      | _ => let '(ls, b') := dec_levels kind ch nres attn b rest (r * 2) in (bl ++ Up b :: ls, b')
      end
  end.
(** L289-411 *)
Definition decoder (norm_type : string) (ch : nat) (mults : list nat) (nres : nat) (attn : list nat) (out_ch resolution embed_dim : nat) : list layer :=
  let last_norm := if (norm_type =? "channel_last")%string then "channel" else norm_type in
  let kind := if (norm_type =? "channel_last")%string then "group" else norm_type in
  let block_in := ch * last mults 0 in
  let curr_res := resolution / 2 ^ (length mults - 1) in
  let '(ls, b) := dec_levels kind ch nres attn block_in (rev mults) curr_res in
  Conv embed_dim block_in :: middle kind block_in ++ ls ++ [NormL last_norm b; Conv b out_ch].

(** L456-507: both are made *)
Definition construct (norm_type : string) (ch : nat) (mults : list nat) (nres : nat) (attn : list nat) (in_channels out_ch resolution embed_dim : nat) : res unit :=
  do _ <- create_all (encoder norm_type ch mults nres attn in_channels resolution embed_dim);
  create_all (decoder norm_type ch mults nres attn out_ch resolution embed_dim).

(** The resolutions at which the levels decide on attention (the decoder's from its last level): L235, L326, L379. *)
Fixpoint enc_res (n r : nat) : list nat := match n with O => [] | S n => r :: enc_res n (r / 2) end.
Fixpoint dec_res_rev (n r : nat) : list nat := match n with O => [] | S n => r :: dec_res_rev n (r * 2) end.

(** * Frozen parts *)
(** The modes (training or not) and requires_grad of the encoder and the bottleneck. *)
Record state := mkSt { enc_train : bool; enc_grad : bool; bot_train : bool; bot_grad : bool }.
(** L510-522, L528-537 *)
Definition freeze (freeze_encoder freeze_bottleneck : bool) (s : state) : state :=
  let s := if freeze_encoder then mkSt false false (bot_train s) (bot_grad s) else s in
  if freeze_bottleneck then mkSt (enc_train s) (enc_grad s) false false else s.
Definition new_state (fe fb : bool) : state := freeze fe fb (mkSt true true true true).
Inductive op := Train (mode : bool) | RequiresGrad (b : bool) | Forward.
Definition step (fe fb : bool) (s : state) (o : op) : state :=
  match o with
  | Train m => mkSt m (enc_grad s) m (bot_grad s)
  | RequiresGrad b => mkSt (enc_train s) b (bot_train s) b
  | Forward => freeze fe fb s
  end.
(** the states in which the encoder and the bottleneck run *)
Fixpoint runs (fe fb : bool) (s : state) (ops : list op) : list state :=
  match ops with
  | [] => []
  | o :: r => let s' := step fe fb s o in (match o with Forward => [s'] | _ => [] end) ++ runs fe fb s' r
  end.

(** Model of the shapes in projects/torch_vct: the analysis and synthesis transforms of
    neural/transforms.py, their construction and their use in model_pipeline.py.

    Simplifications: the sizes of kernels are those of PyTorch's documentation of Conv2d and
    ConvTranspose2d; GDN and CompressAI's AttentionBlock keep the shape of an input with the right
    number of channels; coding of the latents keeps their shape (C25, C27, C29). A shape that a
    layer refuses is a RuntimeError. *)
From Coq Require Import List Bool Arith Lia.
From Verif Require Import Base.
Import ListNotations.
Open Scope nat_scope.

(** channels, height, width of a batch of images *)
Record shape := mkSh { ch : nat; hh : nat; ww : nat }.

(** Layers of an nn.Sequential. *)
Inductive layer :=
| Conv (cin cout kernel stride : nat)       (* layers_utils.py L13-25 (make_conv) *)
| Deconv (cin cout kernel stride : nat)     (* layers_utils.py L28-41 (make_deconv) *)
| Same (c : nat)                            (* GDN(c), AttentionBlock(c) *)
| Residual (n : nat).                       (* transforms.py L115-134 (ResidualUnit) *)

(** Conv2d with padding = kernel_size // 2 *)
Definition conv_size (n kernel stride : nat) : res nat :=
  if n + 2 * (kernel / 2) <? kernel then Raise RuntimeError
  else Ok ((n + 2 * (kernel / 2) - kernel) / stride + 1).
(** ConvTranspose2d with padding = kernel_size // 2 and output_padding = stride - 1 *)
Definition deconv_size (n kernel stride : nat) : res nat :=
  let full := (n - 1) * stride + kernel + (stride - 1) in
  if full <=? 2 * (kernel / 2) then Raise RuntimeError else Ok (full - 2 * (kernel / 2)).

Definition conv (cin cout kernel stride : nat) (s : shape) : res shape :=
  if negb (ch s =? cin) then Raise RuntimeError
  else do h <- conv_size (hh s) kernel stride; do w <- conv_size (ww s) kernel stride; Ok (mkSh cout h w).
Definition deconv (cin cout kernel stride : nat) (s : shape) : res shape :=
  if negb (ch s =? cin) then Raise RuntimeError
  else do h <- deconv_size (hh s) kernel stride; do w <- deconv_size (ww s) kernel stride; Ok (mkSh cout h w).

Definition apply_layer (l : layer) (s : shape) : res shape :=
  match l with
  | Conv cin cout k st => conv cin cout k st s
  | Deconv cin cout k st => deconv cin cout k st s
  | Same c => if negb (ch s =? c) then Raise RuntimeError else Ok s
  | Residual n =>
      do a <- conv n (n / 2) 1 1 s; do b <- conv (n / 2) (n / 2) 3 1 a; do c <- conv (n / 2) n 1 1 b;
      (* out += identity *)
      if (ch c =? ch s) && (hh c =? hh s) && (ww c =? ww s) then Ok c else Raise RuntimeError
  end.
Fixpoint sequential (ls : list layer) (s : shape) : res shape :=
  match ls with [] => Ok s | l :: r => do s' <- apply_layer l s; sequential r s' end.

(** transforms.py L29-37 (ConvGDNAnalysis) *)
Definition gdn_analysis (n c : nat) : list layer :=
  [Conv 3 n 5 2; Same n; Conv n n 5 2; Same n; Conv n n 5 2; Same n; Conv n c 5 2].
(** transforms.py L78-88 (ConvGDNSynthesis) *)
Definition gdn_synthesis (n c : nat) : list layer :=
  [Deconv c n 5 2; Same n; Deconv n n 5 2; Same n; Deconv n n 5 2; Same n; Deconv n 3 5 2].
(** transforms.py L175-187 (ELICAnalysis), channels [c1; c2; c3; c4] *)
Definition elic_analysis (blocks c1 c2 c3 c4 : nat) : list layer :=
  [Conv 3 c1 5 2] ++ repeat (Residual c1) blocks ++ [Conv c1 c2 5 2] ++ repeat (Residual c2) blocks ++ [Same c2]
  ++ [Conv c2 c3 5 2] ++ repeat (Residual c3) blocks ++ [Conv c3 c4 5 2; Same c4].
(** transforms.py L245-256 (ELICSynthesis), channels [c1; c2; c3; c4] *)
Definition elic_synthesis (blocks c1 c2 c3 c4 : nat) : list layer :=
  [Same c1; Deconv c1 c1 5 2] ++ repeat (Residual c1) blocks ++ [Deconv c1 c2 5 2; Same c2] ++ repeat (Residual c2) blocks
  ++ [Deconv c2 c3 5 2] ++ repeat (Residual c3) blocks ++ [Deconv c3 c4 5 2].

(** A transform as the pipeline sees it: layers, compression_channels, and the factor of two
    num_downsampling_layers tells (0 if it has no such attribute). *)
Record transform := mkT { t_layers : list layer; t_channels : nat; t_down : nat }.
(** transforms.py L17-46: compression_channels as given; num_downsampling_layers is 4 *)
Definition ConvGDNAnalysis (n c : nat) : res transform := Ok (mkT (gdn_analysis n c) c 4).
(** transforms.py L65-92: compression_channels is always 192 *)
Definition ConvGDNSynthesis (n c : nat) : res transform := Ok (mkT (gdn_synthesis n c) 192 0).
(** transforms.py L137-191: no num_downsampling_layers *)
Definition ELICAnalysis (blocks : nat) (channels : list nat) (compression_channels : option nat) : res transform :=
  match channels with
  | [c1; c2; c3; c4] =>
      match compression_channels with
      | Some c => if negb (c =? c4) then Raise ValueError else Ok (mkT (elic_analysis blocks c1 c2 c3 c4) c 0)
      | None => Ok (mkT (elic_analysis blocks c1 c2 c3 c4) c4 0)
      end
  | _ => Raise ValueError
  end.
(** transforms.py L208-259 *)
Definition ELICSynthesis (blocks : nat) (channels : list nat) (output_channels : option nat) : res transform :=
  match channels with
  | [c1; c2; c3; c4] =>
      match output_channels with
      | Some c => if negb (c =? c4) then Raise ValueError else Ok (mkT (elic_synthesis blocks c1 c2 c3 c4) c1 0)
      | None => Ok (mkT (elic_synthesis blocks c1 c2 c3 c4) c1 0)
      end
  | _ => Raise ValueError
  end.

(** model_pipeline.py L160-193 (VCTPipeline.__init__) *)
Record pipeline := mkP { p_analysis : transform; p_synthesis : transform }.
Definition VCTPipeline (a s : transform) (compression_channels : nat) : res pipeline :=
  if negb (t_channels a =? compression_channels) then Raise AssertionError
  else if negb (t_channels s =? compression_channels) then Raise AssertionError
  else Ok (mkP a s).

(** model_pipeline.py L371-395 (_pad): torch's reflect padding needs pad < size *)
Definition pad_amount (factor s : nat) : nat := (factor - s mod factor) mod factor.
Definition pad (factor : nat) (s : shape) : res shape :=
  let ph := pad_amount factor (hh s) in let pw := pad_amount factor (ww s) in
  if (ph <? hh s) && (pw <? ww s) then Ok (mkSh (ch s) (hh s + ph) (ww s + pw)) else Raise RuntimeError.
(** x[..., :h, :w] *)
Definition crop (h w : nat) (s : shape) : shape := mkSh (ch s) (Nat.min h (hh s)) (Nat.min w (ww s)).
(** video_data_api.py L43-48 (validate_shape) and model_pipeline.py L397-443 (forward): the shape of
    the images of the reconstruction *)
Definition forward_shape (p : pipeline) (training : bool) (s : shape) : res shape :=
  if negb (ch s =? 3) then Raise ValueError
  else
    do inputs <- (if training then Ok s else pad (2 ^ t_down (p_analysis p)) s);
    do lat <- sequential (t_layers (p_analysis p)) inputs;
    do out <- sequential (t_layers (p_synthesis p)) lat;
    let out := crop (hh s) (ww s) out in            (* transforms.py L112, L284 *)
    Ok (if training then out else crop (hh s) (ww s) out).

(** model_pipeline.py L469-499 (compress_video): the size of the latents of a batch of [b] videos;
    unlike forward it does not validate the channels. *)
Definition compress_shape (p : pipeline) (on_cpu force_cpu : bool) (b : nat) (s : shape) : res shape :=
  if negb (b =? 1) then Raise AssertionError
  else if negb on_cpu && force_cpu then Raise ValueError
  else
    do inputs <- pad (2 ^ t_down (p_analysis p)) s;
    sequential (t_layers (p_analysis p)) inputs.
(** model_pipeline.py L501-518 (decompress_video), for frames_shape of at least two entries; the
    GDN synthesis asserts their number before it runs. *)
Definition decompress_shape (p : pipeline) (on_cpu force_cpu : bool) (frames_shape : list nat) (lat : shape) : res shape :=
  if negb on_cpu && force_cpu then Raise ValueError
  else
    do out <- sequential (t_layers (p_synthesis p)) lat;
    if length frames_shape =? 5
    then Ok (crop (nth 3 frames_shape 0) (nth 4 frames_shape 0) out)
    else Raise AssertionError.

(** transforms.py L193-205, L261-284: the images of the clips, all at once or in chunks. [net] is what
    the layers do with a batch of images. x.reshape(f, max_frames, ...) cuts a list in f pieces. *)
Section Chunks.
Context {A B : Type}.
Fixpoint pieces (n f : nat) (l : list A) : list (list A) :=
  match f with 0 => [] | S f' => firstn n l :: pieces n f' (skipn n l) end.
Definition elic_frames (net : list A -> list B) (max_frames : option nat) (frames : list A) : res (list B) :=
  match max_frames with
  | Some m =>
      if m <? length frames then
        if m =? 0 then Raise ZeroDivisionError
        else if negb (length frames mod m =? 0) then Raise AssertionError
        else Ok (concat (map net (pieces m (length frames / m) frames)))
      else Ok (net frames)
  | None => Ok (net frames)
  end.
End Chunks.

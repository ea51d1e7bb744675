(** Model of the gradients that autograd computes at the quantisers: the vector quantiser
    (neuralcompression/layers/_q_bottleneck.py), the straight-through rounding of the hyperprior
    autoencoders (neuralcompression/models/_hyperprior_autoencoder.py, _hific_autoencoder.py), and
    the bottleneck and the contexts of the video model (projects/torch_vct).

    A tensor's entry is an expression that records the operations which made it; [eval] is its
    value and [back] what backward() adds to the gradient of every variable.  [Let] is a tensor
    used more than once: the gradients of its uses are summed before they go on.

    Simplifications: real arithmetic; scalars (one entry at a time). *)
From Coq Require Import Reals List Bool Arith ZArith.
From Verif Require Import Base Tensor RBase Gauss Vqb_Model.
Import ListNotations.
Open Scope nat_scope.
Open Scope R_scope.

(** Operations of torch used at the quantisers.  [Fn f f'] is a function of one entry with the
    derivative that torch uses; [Detach] is Tensor.detach (or code under no_grad), [Round]
    torch.round, [IfPos c a b] torch.where(c > 0, a, b), [Bound] compressai's LowerBound. *)
Inductive expr :=
| Var (n : nat) | Cst (r : R)
| Add (a b : expr) | Sub (a b : expr) | Mul (a b : expr) | Div (a b : expr)
| Fn (f f' : R -> R) (a : expr)
| Max (a b : expr) | Min (a b : expr) | IfPos (c a b : expr)
| Detach (a : expr) | Round (a : expr) | Bound (r : R) (a : expr)
| Let (x : nat) (a b : expr).

Definition upd {T} (env : nat -> T) (x : nat) (v : T) : nat -> T := fun n => if (n =? x)%nat then v else env n.

Fixpoint eval (env : nat -> R) (e : expr) : R :=
  match e with
  | Var n => env n
  | Cst r => r
  | Add a b => eval env a + eval env b
  | Sub a b => eval env a - eval env b
  | Mul a b => eval env a * eval env b
  | Div a b => eval env a / eval env b
  | Fn f _ a => f (eval env a)
  | Max a b => Rmax (eval env a) (eval env b)
  | Min a b => Rmin (eval env a) (eval env b)
  | IfPos c a b => if Rlt_dec 0 (eval env c) then eval env a else eval env b
  | Detach a => eval env a
  | Round a => IZR (round_even (eval env a))
  | Bound r a => Rmax (eval env a) r
  | Let x a b => eval (upd env x (eval env a)) b
  end.

(** The gradient that torch.maximum gives to its first argument: all of it, none, or one half if
    the two are equal. *)
Definition share (a b g : R) : R := if Req_EM_T a b then g / 2 else if Rlt_dec b a then g else 0.

(** backward() with the gradient [g] of the entry: what is added to each variable's. *)
Fixpoint back (env : nat -> R) (e : expr) (g : R) : nat -> R :=
  match e with
  | Var n => fun i => if (i =? n)%nat then g else 0
  | Cst _ => fun _ => 0
  | Add a b => fun i => back env a g i + back env b g i
  | Sub a b => fun i => back env a g i + back env b (- g) i
  | Mul a b => fun i => back env a (g * eval env b) i + back env b (g * eval env a) i
  | Div a b => fun i => back env a (g / eval env b) i
                        + back env b (- (g * eval env a / (eval env b * eval env b))) i
  | Fn _ f' a => back env a (g * f' (eval env a))
  | Max a b => fun i => back env a (share (eval env a) (eval env b) g) i
                        + back env b (share (eval env b) (eval env a) g) i
  | Min a b => fun i => back env a (share (eval env b) (eval env a) g) i
                        + back env b (share (eval env a) (eval env b) g) i
  | IfPos c a b => if Rlt_dec 0 (eval env c) then back env a g else back env b g
  | Detach _ | Round _ => fun _ => 0
  | Bound r a =>                       (* LowerBound.backward: (x >= bound) | (grad < 0) *)
      if Rle_dec r (eval env a) then back env a g
      else if Rlt_dec g 0 then back env a g else fun _ => 0
  | Let x a b =>
      let gb := back (upd env x (eval env a)) b g in
      fun i => (if (i =? x)%nat then 0 else gb i) + back env a (gb x) i
  end.

Definition Neg (a : expr) : expr := Fn Ropp (fun _ => -1) a.
Definition Square (a : expr) : expr := Fn (fun t => t ^ 2) (fun t => 2 * t) a.
Definition esum (l : list expr) : expr := fold_right Add (Cst 0) l.
(** torch.sqrt under a norm (no gradient at 0), clamp_min, torch.abs and torch.erfc *)
Definition Sqrt (a : expr) : expr := Fn sqrt (fun t => if Req_EM_T t 0 then 0 else / (2 * sqrt t)) a.
Definition ClampMin (r : R) (a : expr) : expr := Fn (fun t => Rmax t r) (fun t => if Rle_dec r t then 1 else 0) a.
Definition sign (t : R) : R := if Rlt_dec 0 t then 1 else if Rlt_dec t 0 then -1 else 0.
Definition Abs (a : expr) : expr := Fn Rabs sign a.
Definition Erfc (a : expr) : expr := Fn erfc (fun t => - (2 / sqrt PI * exp (- (t * t)))) a.

(** ** Straight-through rounding *)

(** bottlenecks.py L349-352 (_round_st); compressai's quantize_ste is the same. *)
Definition round_st (a : expr) : expr := Add (Detach (Sub (Round a) a)) a.

(** _hyperprior_autoencoder.py L87-102 (_ste_quantize) *)
Definition ste_quantize (latent : expr) (means : option expr) : expr :=
  match means with None => round_st latent | Some m => Add (round_st (Sub latent m)) m end.

(** _hific_autoencoder.py L230-272 (forward): what reaches the decoder, for a latent entry and
    its predicted mean held in the variables [vl] and [vm], and the bottleneck's own output
    [quantized]; [training] as L253-258. *)
Definition hific_latent (training : bool) (vl vm : nat) (quantized : expr) : expr :=
  if training then ste_quantize (Var vl) (Some (Var vm)) else quantized.
(** L237-241, L248-251 and L264-272: the likelihoods of the rounded latents are computed under
    no_grad and detached. *)
Definition quantized_likelihoods (likelihoods : expr) : expr := Detach (Detach likelihoods).

(** ** The vector quantiser: _q_bottleneck.py L112-165 (quantize_vectors) *)

Section VQ.
(** Latents of shape [b; d; h; w] are the variables 0, ..., b*d*h*w - 1 in row-major order; the
    entry [j] of the codebook's row [k] is the variable b*d*h*w + k*d + j. *)
Variables (b d h w : nat) (normalize : bool).
Definition count : nat := (b * (d * (h * w)))%nat.
Definition xvar (i : list nat) : nat := ravel [b; d; h; w]%nat i.
Definition cvar (k j : nat) : nat := (count + (k * d + j))%nat.
(** L123-124 (F.normalize) *)
Definition code (k j : nat) : expr :=
  if normalize
  then Div (Var (cvar k j))
           (ClampMin (/ 10 ^ 12) (Sqrt (esum (map (fun j => Mul (Var (cvar k j)) (Var (cvar k j))) (seq 0 d)))))
  else Var (cvar k j).
(** L146-152 with the chosen indices (which carry no gradient) *)
Definition latents (idx : list nat) (i : list nat) : expr :=
  match i with
  | [k; c; y; z] => code (nth (ravel [b; h; w]%nat [k; y; z]%nat) idx 0%nat) c
  | _ => Cst 0
  end.
(** F.mse_loss *)
Definition mse_loss (p q : list nat -> expr) : expr :=
  Div (esum (map (fun n => let i := unravel [b; d; h; w]%nat n in Square (Sub (p i) (q i))) (seq 0 count)))
      (Cst (INR count)).
(** L155-159 *)
Definition commitment_loss (idx : list nat) : expr :=
  mse_loss (fun i => Detach (latents idx i)) (fun i => Var (xvar i)).
Definition embedding_loss (idx : list nat) : expr :=
  mse_loss (latents idx) (fun i => Detach (Var (xvar i))).
Definition vq_output (idx : list nat) (i : list nat) : expr :=
  Add (Var (xvar i)) (Detach (Sub (latents idx i) (Var (xvar i)))).
End VQ.

(** ** The bottleneck of the video model: bottlenecks.py *)

Section Gsn.
(** The input, the predicted mean and the predicted scale are the variables 0, 1 and 2; the
    variables 3, 4, ... name intermediate tensors.  scales_max keeps its default, 256. *)
Variables (num_means num_scales : Z) (min_scale : R).

(** L354-359 (verysoftplus) *)
Definition verysoftplus (s : expr) : expr :=
  IfPos s (Add (Max s (Cst 0)) (Cst 1)) (Div (Cst 1) (Sub (Cst 1) (Min s (Cst 0)))).
(** L35-53 (Scaler.to_scale_idx) with training=True *)
Definition to_scale_idx (v : expr) : expr :=
  Mul (Div (Sub (Fn ln Rinv (Add v (Cst min_scale))) (Cst (ln min_scale)))
           (Cst (ln (256 / min_scale + 1))))
      (Cst (IZR (num_scales - 1))).
(** L55-61 (Scaler.from_scale_idx) *)
Definition from_scale_idx (i : expr) : expr :=
  Fn exp exp (Add (Mul (Div i (Cst (IZR (num_scales - 1)))) (Cst (ln (256 / min_scale + 1))))
                  (Cst (ln min_scale))).
(** L361-371 (_get_indexes) *)
Definition mean_index : expr :=
  Mul (Add (Sub (Var 1) (round_st (Var 1))) (Cst (/ 2))) (Cst (IZR num_means)).
Definition scale_index : expr := to_scale_idx (verysoftplus (Var 2)).
(** L239-247 (_normalize_indexes), one index with [n] values *)
Definition clamp_index (n : Z) (i : expr) : expr := Neg (Bound (- IZR (n - 1)) (Neg (Bound 0 i))).
(** L117-132 (_get_prior_params), the mean *)
Definition prior_mean (i : expr) : expr :=
  Sub (Div i (Cst (IZR num_means))) (Cst (/ 2 * (if (num_means =? 1)%Z then 0 else 1))).
(** L139-143 (_standardized_cumulative) *)
Definition standardized_cumulative (a : expr) : expr :=
  Mul (Cst (/ 2)) (Erfc (Mul (Cst (- / sqrt 2)) a)).
(** L223-237 (_likelihood), of the entry in variable 5 with mean and scale in 6 and 7 *)
Definition likelihood : expr :=
  Let 8 (Abs (Sub (Var 5) (Var 6)))
    (Sub (standardized_cumulative (Div (Sub (Cst (/ 2)) (Var 8)) (Var 7)))
         (standardized_cumulative (Div (Sub (Cst (- / 2)) (Var 8)) (Var 7)))).
(** L249-273 (ContinuousIndexedGaussianConditional.forward) with training=True and the noise
    [u], of the entry in variable 4; the likelihood is at least 1e-9 (compressai's default). *)
Definition entropy_model_likelihood (u : R) : expr :=
  Let 5 (Add (Var 4) (Cst u))
    (Let 6 (prior_mean (clamp_index num_means mean_index))
      (Let 7 (from_scale_idx (clamp_index num_scales scale_index))
        (Bound (/ 10 ^ 9) likelihood))).
(** L373-406 (GsnConditionalLocScaleShift.forward) with training=True: both results *)
Definition gsn_output : expr :=
  Let 3 (round_st (Var 1)) (Let 4 (Sub (Var 0) (Var 3)) (Add (round_st (Var 4)) (Var 3))).
Definition gsn_likelihood (u : R) : expr :=
  Let 3 (round_st (Var 1)) (Let 4 (Sub (Var 0) (Var 3)) (entropy_model_likelihood u)).
End Gsn.

(** ** The frames of a video: model_pipeline.py L195-352, while training *)

Section Pipeline.
(** A latent has [size] entries; entry [j] of the latent of frame [t] is the variable
    [t * size + j] (below [base]).  Entry [j] of the [c]-th latent of a frame's context is the
    variable [base + (c * size + j)]; variable [mvar] names a predicted mean. *)
Variables (size base mvar : nat).
Definition latent_var (t j : nat) : nat := (t * size + j)%nat.
Definition context_var (c j : nat) : nat := (base + (c * size + j))%nat.

(** A tensor used by a network: every entry of every latent of the context is a variable of the
    network's expression. *)
Definition entries (ctx : list (nat -> expr)) : list (nat * expr) :=
  concat (map (fun p => map (fun j => (context_var (fst p) j, snd p j)) (seq 0 size))
              (combine (seq 0 (length ctx)) ctx)).
Definition in_context (ctx : list (nat -> expr)) (e : expr) : expr :=
  fold_right (fun p e => Let (fst p) (snd p) e) e (entries ctx).

(** Network outputs: the mean that the entropy model predicts for entry [j] of frame [t], and
    everything else that a loss takes from frame [t] (its bits, its reconstruction).  They are
    arbitrary expressions of the frame's latent, the context and any parameters. *)
Variable mean : nat -> nat -> expr.

(** entropy_model.py L386-396 with the bottleneck above: the perturbed latent *)
Definition perturbed (ctx : list (nat -> expr)) (t j : nat) : expr :=
  Let mvar (in_context ctx (mean t j))
    (Let (S mvar) (round_st (Var mvar))
       (Let (S (S mvar)) (Sub (Var (latent_var t j)) (Var (S mvar)))
          (Add (round_st (Var (S (S mvar)))) (Var (S mvar))))).

(** L283-302 (decode_Iscene) and L304-322 (decode_Pscene): the next frame's context. *)
Definition decode_Iscene (latent_q : nat -> expr) : list (nat -> expr) := [fun j => Detach (latent_q j)].
Definition decode_Pscene (context_len : nat) (latent_q : nat -> expr) (state : list (nat -> expr)) : list (nat -> expr) :=
  let new_state := state ++ [latent_q] in
  if (context_len =? 0)%nat then new_state else skipn (length new_state - context_len) new_state.

(** L266-281 (encode_scenes): the context before frame [t]; the first frame's is a learnt
    latent (L185-187, L212-217). *)
Variables (context_len : nat) (fake : nat -> expr).
Fixpoint context (t : nat) : list (nat -> expr) :=
  match t with
  | O => [fake]
  | S t' =>
      let latent_q := perturbed (context t') t' in
      match t' with
      | O => decode_Iscene latent_q
      | _ => decode_Pscene context_len latent_q (context t')
      end
  end.

(** A quantity [e] of frame [t] as a function of the latents. *)
Definition of_frame (t : nat) (e : expr) : expr := in_context (context t) e.
End Pipeline.

(** Model of the probability helpers
    (neuralcompression/functional/_ndtr.py, _log_ndtr.py, _log_cdf.py,
    _survival_function.py, _log_survival_function.py, _quantization_offset.py) and
    of the uniform-noise distributions
    (neuralcompression/distributions/_uniform_noise.py, _noisy_normal.py).

    Simplifications: tensors are modelled by one element (every operation here is
    elementwise) except for sampling, whose shapes matter.  Arithmetic is real
    arithmetic extended with the infinities and NaN of floating point ([ext]);
    rounding is ignored, except in [ndtr32].  The framework's erf and erfc are the
    mathematical functions of Gauss.v. *)
From Coq Require Import Reals List Bool Arith Lia Lra.
From Verif Require Import Base Tensor RBase RFloat Gauss.
Import ListNotations.
Open Scope R_scope.

(** The special values of floating point. *)
Inductive ext := Fin (r : R) | MInf | PInf | NaN.

Definition eadd (a b : ext) : ext :=
  match a, b with
  | NaN, _ | _, NaN => NaN
  | MInf, PInf | PInf, MInf => NaN
  | MInf, _ | _, MInf => MInf
  | PInf, _ | _, PInf => PInf
  | Fin x, Fin y => Fin (x + y)
  end.
Definition eopp (a : ext) : ext :=
  match a with Fin x => Fin (- x) | MInf => PInf | PInf => MInf | NaN => NaN end.
Definition esub (a b : ext) : ext := eadd a (eopp b).
Definition eexp (a : ext) : ext :=
  match a with Fin x => Fin (exp x) | MInf => Fin 0 | PInf => PInf | NaN => NaN end.
(** torch.log: -inf at 0, NaN below. *)
Definition elog (a : ext) : ext :=
  match a with
  | Fin x => if Rlt_dec 0 x then Fin (ln x) else if Req_EM_T x 0 then MInf else NaN
  | PInf => PInf
  | MInf | NaN => NaN
  end.
Definition elog1p (a : ext) : ext := elog (eadd (Fin 1) a).
(** The comparison a < b of tensors; false when either is NaN. *)
Definition eltb (a b : ext) : bool :=
  match a, b with
  | NaN, _ | _, NaN => false
  | MInf, MInf | PInf, _ | _, MInf => false
  | MInf, _ | _, PInf => true
  | Fin x, Fin y => if Rlt_dec x y then true else false
  end.

(** functional/_ndtr.py L12-34. *)
Definition ndtr (x : R) : R :=
  let s := x * sqrt (1 / 2) in
  let y := 1 / 2 * erfc (Rabs s) in
  if Rlt_dec (Rabs s) (sqrt (1 / 2)) then 1 / 2 + 1 / 2 * erf s
  else if Rlt_dec 0 s then 1 - y else y.

(** The same with the code's unconditional cast to float32 (L23) and correctly rounded
    float32 operations; the constant math.sqrt(0.5) is rounded to float32 by the
    multiplication. *)
Definition ndtr32 (x : R) : R :=
  let h := b32 (sqrt (1 / 2)) in
  let s := b32 (b32 x * h) in
  let y := b32 (1 / 2 * b32 (erfc (Rabs s))) in
  if Rlt_dec (Rabs s) h then b32 (1 / 2 + b32 (1 / 2 * b32 (erf s)))
  else if Rlt_dec 0 s then b32 (1 - y) else y.

(** functional/_log_ndtr.py L14-27: the loop n = 1 .. series_order over the state
    (t2, value_even_power, double_fac, multiplier). *)
Definition series_step (x2 : R) (st : R * R * R * R) (n : nat) : R * R * R * R :=
  let '(t2, vep, df, mult) := st in
  (t2 + mult * df / vep, vep * x2, df * (2 * INR n - 1), mult * -1).
Definition series_t2 (x2 : R) (order : nat) : R :=
  fst (fst (fst (fold_left (series_step x2) (seq 1 order) (0, x2, 1, -1)))).
Definition log_ndtr_asymptotic_series (x : R) (order : nat) : ext :=
  let t1 := - (1 / 2) * (ln (2 * PI) + x * x) in
  eadd (esub (Fin t1) (elog (Fin (- x)))) (elog1p (Fin (series_t2 (x * x) order))).

(** functional/_log_ndtr.py L30-57; the dtypes the function distinguishes. *)
Inductive dtype := Float32 | Float64 | OtherDtype.
Definition log_ndtr (dt : dtype) (x : R) : res ext :=
  match dt with
  | OtherDtype => Raise TypeError
  | _ =>
      let '(m, n) := match dt with Float32 => (-10, 5) | _ => (-20, 8) end in
      Ok (if Rlt_dec n x then elog1p (Fin (- ndtr (- x)))
          else if Rle_dec m x then elog (Fin (ndtr x))
          else log_ndtr_asymptotic_series x 3)
  end.

(** torch.distributions.  [DNormal] and [DUniform] are the two classes the code tests
    for; [DOther] is any other distribution, given by its cdf method (which may raise).
    Uniform.cdf is (x - low) / (high - low) clamped to [0, 1]; with argument validation on
    (torch's default) it raises ValueError outside the support. *)
Inductive distn :=
| DNormal (loc scale : R)
| DUniform (low high : R) (validate : bool)
| DOther (cdf : R -> res R).

Definition clamp01 (x : R) : R := Rmin (Rmax x 0) 1.
Definition cdf (d : distn) (x : R) : res R :=
  match d with
  | DNormal loc scale => Ok (1 / 2 * (1 + erf ((x - loc) * / scale * sqrt (1 / 2))))
  | DUniform low high v =>
      if v && negb (if Rle_dec low x then if Rle_dec x high then true else false else false)
      then Raise ValueError
      else Ok (clamp01 ((x - low) / (high - low)))
  | DOther c => c x
  end.

(** functional/_log_cdf.py L13-36. *)
Definition log_cdf (dt : dtype) (x : R) (d : distn) : res ext :=
  match d with
  | DNormal loc scale => log_ndtr dt ((x - loc) / scale)
  | DUniform _ _ _ => Ok (elog (Fin x))
  | DOther _ => do p <- cdf d x; Ok (elog (Fin p))
  end.

(** functional/_survival_function.py L13-34. *)
Definition survival_function (x : R) (d : distn) : res R :=
  match d with
  | DNormal loc scale => Ok (ndtr (- ((x - loc) / scale)))
  | _ => do p <- cdf d x; Ok (1 - p)
  end.

(** functional/_log_survival_function.py L13-33. *)
Definition log_survival_function (dt : dtype) (x : R) (d : distn) : res ext :=
  match d with
  | DNormal loc scale => log_ndtr dt (- ((x - loc) / scale))
  | _ => do p <- cdf d (- x); Ok (elog1p (Fin p))
  end.

(** distributions/_uniform_noise.py L75-76 (cdf) and L122-133 (prob). *)
Definition noise_cdf (d : distn) (x : R) : res R := cdf d x.
Definition noise_prob (d : distn) (x : R) : res R :=
  do sp <- survival_function (x + 1 / 2) d;
  do sn <- survival_function (x - 1 / 2) d;
  do cp <- noise_cdf d (x + 1 / 2);
  do cn <- noise_cdf d (x - 1 / 2);
  Ok (if Rlt_dec sp cp then sn - sp else cp - cn).

(** distributions/_uniform_noise.py L93-114. *)
Definition noise_log_prob (dt : dtype) (d : distn) (x : R) : res ext :=
  do lsp <- log_survival_function dt (x + 1 / 2) d;
  do lsn <- log_survival_function dt (x - 1 / 2) d;
  do lcp <- log_cdf dt (x + 1 / 2) d;
  do lcn <- log_cdf dt (x - 1 / 2) d;
  let condition := eltb lsp lcp in
  let a := if condition then lsn else lcp in
  let b := if condition then lsp else lcn in
  Ok (eadd (elog1p (eopp (eexp (esub b a)))) a).

(** functional/_quantization_offset.py L38-44: [mean] is the distribution's mean
    property. *)
Definition quantization_offset (mean : res R) : res R :=
  do offset <- match mean with
               | Raise AttributeError => Ok 0
               | m => m
               end;
  Ok (offset - IZR (round_even offset)).

(** torch broadcasting, shapes aligned at the right: written on reversed shapes. *)
Open Scope nat_scope.
Fixpoint bcast_rev (a b : list nat) : res (list nat) :=
  match a, b with
  | [], s | s, [] => Ok s
  | m :: a', n :: b' =>
      do d <- (if m =? n then Ok m else if m =? 1 then Ok n else if n =? 1 then Ok m
               else Raise RuntimeError);
      do r <- bcast_rev a' b';
      Ok (d :: r)
  end.
Definition bcast_shape (a b : list nat) : res (list nat) :=
  do r <- bcast_rev (rev a) (rev b); Ok (rev r).
(** The element of a tensor of shape [s] that the index [i] of the broadcast result reads. *)
Definition bcast_index (s i : list nat) : list nat :=
  map (fun p => if (fst p =? 1)%nat then 0 else snd p) (combine s (skipn (length i - length s) i)).
Definition bcast_add (x y : tensor R) : res (tensor R) :=
  do s <- bcast_shape (tshape x) (tshape y);
  Ok (mkT s (fun i => tat x (bcast_index (tshape x) i) + tat y (bcast_index (tshape y) i))%R).

(** distributions/_uniform_noise.py L45-53 and L135-139.  A distribution object is its
    batch and event shapes; [base] is the tensor drawn from the wrapped distribution and
    [u] the one drawn from Uniform(-0.5, 0.5), whose own shapes are empty.
    Distribution.sample(sample_shape) draws a tensor of shape
    sample_shape + batch_shape + event_shape. *)
Record dshape := mkDS { ds_batch : list nat; ds_event : list nat }.
(** super().__init__(distribution.event_shape, distribution.batch_shape): the parameters of
    torch's Distribution are (batch_shape, event_shape), so the two are exchanged. *)
Definition noise_shapes (d : dshape) : dshape := mkDS (ds_event d) (ds_batch d).
Definition sample_dims (d : dshape) (sample_shape : list nat) : list nat :=
  sample_shape ++ ds_batch d ++ ds_event d.
Definition rsample (d : dshape) (base u : list nat -> R) (sample_shape : list nat) : res (tensor R) :=
  bcast_add (mkT (sample_dims d sample_shape) base) (mkT (sample_dims (mkDS [] []) sample_shape) u).

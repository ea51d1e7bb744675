(** Model of the quantisation of data in the diffusion codec, on reals.
    projects/bits_back_diffusion/bits_back_diffusion/codec.py *)
From Coq Require Import ZArith Reals.
From Verif Require Import RBase RFloat.
Open Scope R_scope.

(** codec.py L555-570 (quantize), one entry. *)
Definition quantize (data_min data_max : R) (data_prec : Z) (data : R) : Z :=
  round_even ((data - data_min) * IZR (2 ^ data_prec - 1) / (data_max - data_min)).

(** codec.py L417-419, the value shown to the model for a discrete symbol. *)
Definition dequantize (data_min data_max : R) (data_prec : Z) (d : Z) : R :=
  data_min + IZR d * (data_max - data_min) / IZR (2 ^ data_prec - 1).

(** codec.py L705-709, the bin edges of diag_gaussian_unif_bins: entry [i] of
    np.linspace(bin_min, bin_max, n_bins + 1). *)
Definition bin_edge (data_min data_max : R) (bin_prec i : Z) : R :=
  let n_bins := (2 ^ bin_prec)%Z in
  let bin_min := data_min - 1 / IZR (n_bins - 1) in
  let bin_max := data_max + 1 / IZR (n_bins - 1) in
  bin_min + IZR i * ((bin_max - bin_min) / IZR n_bins).

(** The same in floating point: an array of floats keeps its precision, Python numbers are rounded
    to it (data_max - data_min is a Python float); the discrete data becomes doubles (astype(float)). *)
Inductive precision := Single | Double.
Definition fl (k : precision) : R -> R := match k with Single => b32 | Double => b64 end.
(** codec.py L565-570 *)
Definition quantize_fl (k : precision) (data_min data_max : R) (data_prec : Z) (data : R) : Z :=
  round_even (fl k (fl k (fl k (data - fl k data_min) * fl k (IZR (2 ^ data_prec - 1))) / fl k (b64 (data_max - data_min)))).
(** codec.py L417-419 *)
Definition dequantize_fl (data_min data_max : R) (data_prec : Z) (d : Z) : R :=
  b64 (data_min + b64 (b64 (b64 (IZR d) * b64 (data_max - data_min)) / b64 (IZR (2 ^ data_prec - 1)))).
(** codec.py L146, L172, L188: torch.from_numpy(...).to(dtype=torch.float) *)
Definition to_float (x : R) : R := b32 x.

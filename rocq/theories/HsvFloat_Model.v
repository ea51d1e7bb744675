(** Model of neuralcompression/functional/_hsv_to_rgb.py in single precision, for one pixel.

    Every operation rounds to float32, torch.fmod is exact; no overflow can occur. *)
From Coq Require Import Reals.
From Verif Require Import RFloat Func_Model.
Open Scope R_scope.

(** L31-35 (convert_fn).  [hue60] is hsv[:, 0] / 60 as the device computes it. *)
Definition convert_fl (hue60 s v n : R) : R :=
  let k := fmod6 (b32 (n + hue60)) in
  b32 (v - b32 (b32 (v * s) * Rmax 0 (Rmin (Rmin k (b32 (4 - k))) 1))).
(** On the CPU the quotient is rounded once. *)
Definition hue60_cpu (h : R) : R := b32 (h / 60).
(** CUDA multiplies by the reciprocal of a scalar divisor. *)
Definition hue60_cuda (h : R) : R := b32 (h * b32 (1 / 60)).
(** L37 *)
Definition hsv_to_rgb_fl (hue60 s v : R) : R * R * R :=
  (convert_fl hue60 s v 5, convert_fl hue60 s v 3, convert_fl hue60 s v 1).

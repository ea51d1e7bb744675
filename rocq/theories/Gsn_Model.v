(** Model of projects/torch_vct/neural/bottlenecks.py.

    Float32 arithmetic on the coded values is modelled by [b32] (rounding to nearest
    even, without overflow).  Simplified: the indexes into the table (log, exp, division)
    are computed in exact real arithmetic; a tensor is the list of its entries; tensors
    hold no NaN or infinity. *)
From Coq Require Import ZArith List Bool Reals.
From Verif Require Import Base RBase RFloat.
Import ListNotations.
Open Scope Z_scope.

(** Tensor.int(): truncation towards zero. *)
Definition Rtrunc (x : R) : Z := if Rle_dec 0 x then Rfloor x else - Rfloor (- x).
(** Conversion to a 32-bit integer wraps (the result is unspecified in torch). *)
Definition to_int32 (z : Z) : Z := (z + 2 ^ 31) mod 2 ^ 32 - 2 ^ 31.

Definition map2 {A B C} (f : A -> B -> C) (l : list A) (m : list B) : list C :=
  map (fun p => f (fst p) (snd p)) (combine l m).

(** compressai.ops.LowerBound: max(x, bound). *)
Definition lower_bound (bound x : R) : R := Rmax x bound.

Section Scaler.
(** bottlenecks.py L23-33 (Scaler.__init__) *)
Variables (scales_min scales_max : R) (num_bins : Z) (verify : bool).

(** bottlenecks.py L35-53 (Scaler.to_scale_idx), one entry *)
Definition to_scale_idx (v : R) (training : bool) : res R :=
  if verify && (if Rlt_dec 0 v then false else true) then Raise AssertionError
  else
    let idx := (ln (v + scales_min) - ln scales_min)%R in
    let normalizer := (scales_max / scales_min + 1)%R in
    let idx := (idx / ln normalizer * IZR (num_bins - 1))%R in
    Ok (if training then idx else IZR (round_even idx)).

(** bottlenecks.py L55-61 (Scaler.from_scale_idx) *)
Definition from_scale_idx (idx : R) : R :=
  let out := (idx / IZR (num_bins - 1))%R in
  let normalizer := (scales_max / scales_min + 1)%R in
  exp (out * ln normalizer + ln scales_min).
End Scaler.

Section Gsn.
(** bottlenecks.py L325-347 (GsnConditionalLocScaleShift.__init__): scales_max keeps its
    default, 256. *)
Variables (num_means num_scales : Z) (min_scale : R).

(** bottlenecks.py L117-132 (_get_prior_params) *)
Definition prior_mean (i : Z) : R :=
  (IZR i / IZR num_means - (if num_means =? 1 then 0 else 0.5))%R.
Definition prior_scale (j : Z) : R := from_scale_idx min_scale 256 num_scales (IZR j).

(** bottlenecks.py L239-247 (_normalize_indexes) with the bounds of L103-106 *)
Definition normalize_indexes (i0 i1 : R) : R * R :=
  let i0 := lower_bound 0 i0 in
  let i1 := lower_bound 0 i1 in
  ((- lower_bound (- IZR (num_means - 1)) (- i0))%R, (- lower_bound (- IZR (num_scales - 1)) (- i1))%R).

(** bottlenecks.py L282-299 (indexes_to_cdf_indexes) *)
Definition cdf_index (i0 i1 : R) : Z := Rtrunc i0 * num_scales + Rtrunc i1.

(** bottlenecks.py L354-359 (verysoftplus) *)
Definition verysoftplus (x : R) : R :=
  if Rlt_dec 0 x then (Rmax x 0 + 1)%R else (1 / (1 - Rmin x 0))%R.

(** bottlenecks.py L361-371 (_get_indexes).  The straight-through round is [round_even]
    in value. *)
Definition get_indexes (mean scale : R) (training : bool) : res (R * R) :=
  do si <- to_scale_idx min_scale 256 num_scales true (verysoftplus scale) training;
  Ok (((mean - IZR (round_even mean) + 0.5) * IZR num_means)%R, si).

(** The table row of one entry: bottlenecks.py L422-426, L439-443. *)
Definition row (mean scale : R) : res Z :=
  do (i0, i1) <- get_indexes mean scale true;
  let '(i0, i1) := normalize_indexes i0 i1 in
  Ok (cdf_index i0 i1).

(** Every entry. *)
Definition rows (means scales : list R) : res (list Z) :=
  mapM (fun p => row (fst p) (snd p)) (combine means scales).

(** bottlenecks.py L275-280 (_find_idx_of_first_smallest): torch.max over booleans gives
    the first True, or index 0 if there is none. *)
Fixpoint first_geq (v : R) (grid : list R) (k : Z) : option Z :=
  match grid with
  | [] => None
  | g :: grid' => if Rle_dec v g then Some k else first_geq v grid' (k + 1)
  end.
Definition find_idx_of_first_smallest (v : R) (grid : list R) : Z :=
  match first_geq v grid 0 with Some k => k | None => 0 end.
(** bottlenecks.py L301-317 (build_indexes), one entry *)
Definition zrange (n : Z) : list Z := map Z.of_nat (seq 0 (Z.to_nat n)).
Definition build_indexes (mean scale : R) : Z :=
  find_idx_of_first_smallest mean (map prior_mean (zrange num_means)) * num_scales +
  find_idx_of_first_smallest scale (map prior_scale (zrange num_scales)).

(** The entropy coder of compressai (an external library): symbols and rows to bytes and
    back. *)
Context {B : Type}.
Variable ec_compress : list Z -> list Z -> res B.
Variable ec_decompress : B -> list Z -> res (list Z).

(** bottlenecks.py L408-433 (compress); EntropyModel.compress rounds to integers. *)
Definition gsn_compress (inputs scales means : list R) : res (list R * B) :=
  do idx <- rows means scales;
  let rm := map (fun m => IZR (round_even m)) means in
  let inputs := map2 (fun x k => b32 (x - k)) inputs rm in
  if negb (Nat.eqb (length inputs) (length idx)) then Raise ValueError
  else
    do b <- ec_compress (map (fun y => to_int32 (round_even y)) inputs) idx;
    Ok (map2 (fun y k => b32 (IZR (round_even y) + k)) inputs rm, b).

(** bottlenecks.py L435-449 (decompress); the symbols become float32. *)
Definition gsn_decompress (b : B) (scales means : list R) : res (list R) :=
  do idx <- rows means scales;
  let rm := map (fun m => IZR (round_even m)) means in
  do outputs <- ec_decompress b idx;
  Ok (map2 (fun z k => b32 (b32 (IZR z) + k)) outputs rm).

(** bottlenecks.py L349-352 (_round_st) in float32 *)
Definition round_st (x : R) : R := b32 (b32 (IZR (round_even x) - x) + x).

(** bottlenecks.py L373-406 (forward), the first result with training=False; the entropy
    model's quantize rounds (L268-269). *)
Definition gsn_forward_eval (inputs means : list R) : list R :=
  let rm := map round_st means in
  let inputs := map2 (fun x k => b32 (x - k)) inputs rm in
  map2 (fun y k => b32 (IZR (round_even y) + k)) inputs rm.

(** ... and with training=True (L403-404). *)
Definition gsn_forward_train (inputs means : list R) : list R :=
  let rm := map round_st means in
  let inputs := map2 (fun x k => b32 (x - k)) inputs rm in
  map2 (fun y k => b32 (round_st y + k)) inputs rm.
End Gsn.

(** entropy_model.py L507-509: with run_decode=False the latent is rounded. *)
Definition skip_decode (x : R) : R := IZR (round_even x).

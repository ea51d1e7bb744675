(** Model of the coding tables of projects/torch_vct/neural/bottlenecks.py
    (ContinuousIndexedGaussianConditional: __init__, update_tables, _build_tables, _likelihood).

    Real arithmetic; conversions to int32 do not overflow.  SciPy's quantile function of the standard
    normal distribution is a parameter ([ppf]; sps.norm(mean, scale).ppf(q) is mean + scale * ppf(q)),
    and so is the quantiser of compressai (pmf_to_quantized_cdf, of the probabilities and a precision).
    A one-point scale grid divides 0 by 0; the NaN makes the check of the grid fail. *)
From Coq Require Import ZArith List Bool Reals Arith.
From Verif Require Import Base RBase Gsn_Model Gauss.
Import ListNotations.
Open Scope Z_scope.

(** compressai's EntropyModel and the attributes that L69-115 add. *)
Record gmodel := mkG {
  num_means : Z; num_scales : Z; scales_min : R; scales_max : R; tail_mass : R; precision : Z;
  coder_precision : Z;           (* EntropyModel.entropy_coder_precision *)
  prior_mean_grid : list R; prior_scale_grid : list R;
  offset : list Z; cdf_length : list Z; quantized_cdf : list (list Z) }.

(** L69-115 (__init__): bins, smin and smax are those of the scaler; the tables are empty. *)
Definition create (means scales bins : Z) (smin smax scale_bound tail : R) (prec coder : Z) : res gmodel :=
  if negb (bins =? scales) then Raise ValueError
  else if Rle_dec scale_bound 0 then Raise ValueError
  else Ok (mkG means scales smin smax tail prec coder [] [] [] [] []).

Section Tables.
Variable ppf : R -> R.
Variable pmf_to_quantized_cdf : list R -> Z -> list Z.

(** L117-132 (_get_prior_params) *)
Definition mean_at (g : gmodel) (i : R) : R := (i / IZR (num_means g) - 0.5 * (if num_means g =? 1 then 0 else 1))%R.
Definition scale_at (g : gmodel) (j : R) : R := from_scale_idx (scales_min g) (scales_max g) (num_scales g) j.

(** L139-143 (_standardized_cumulative) *)
Definition standardized_cumulative (x : R) : R := (1 / 2 * erfc (- / sqrt 2 * x))%R.
(** L201-208: upper and lower at a sample *)
Definition upper_at (x mean scale : R) : R := standardized_cumulative ((0.5 - Rabs (x - mean)) / scale).
Definition lower_at (x mean scale : R) : R := standardized_cumulative ((-0.5 - Rabs (x - mean)) / scale).

(** L223-237 (_likelihood), one entry *)
Definition likelihood (g : gmodel) (input i j : R) : R :=
  let mean := mean_at g i in
  let scale := scale_at g j in
  let v := Rabs (input - mean) in
  (standardized_cumulative ((1 / 2 - v) / scale) - standardized_cumulative ((- (1 / 2) - v) / scale))%R.

(** L182-189 *)
Definition minimum (tail mean scale : R) : Z := Rfloor (mean + scale * ppf (tail / 2)).
Definition maximum (tail mean scale : R) : Z := Rceil (mean + scale * ppf (1 - tail / 2)).
Definition length_of (tail mean scale : R) : Z := maximum tail mean scale - minimum tail mean scale + 1.

(** The grids, row by row: [num_means, num_scales] reshaped to num_means * num_scales. *)
Definition grid (means scales : list R) : list (R * R) := flat_map (fun m => map (fun s => (m, s)) scales) means.

(** compressai's EntropyModel._pmf_to_cdf: for every row the first pmf_length probabilities and the tail,
    quantised, filled up with zeros to max_length + 2 entries. *)
Definition table_row (tail : R) (prec : Z) (max_length : Z) (p : R * R) : list Z :=
  let '(mean, scale) := p in
  let start := IZR (minimum tail mean scale) in
  let pmf := map (fun k => upper_at (INR k + start) mean scale - lower_at (INR k + start) mean scale)%R (seq 0 (Z.to_nat max_length)) in
  let c := pmf_to_quantized_cdf (firstn (Z.to_nat (length_of tail mean scale)) pmf ++ [(2 * lower_at (INR 0 + start) mean scale)%R]) prec in
  c ++ repeat 0 (Z.to_nat (max_length + 2) - length c).
(** L178-221 (_build_tables); torch.max of an empty tensor raises RuntimeError *)
Definition build_tables (g : gmodel) : res gmodel :=
  let ps := grid (prior_mean_grid g) (prior_scale_grid g) in
  let lengths := map (fun p => length_of (tail_mass g) (fst p) (snd p)) ps in
  match lengths with
  | [] => Raise RuntimeError
  | l :: ls =>
      let max_length := fold_right Z.max l ls in
      Ok (mkG (num_means g) (num_scales g) (scales_min g) (scales_max g) (tail_mass g) (precision g) (coder_precision g)
              (prior_mean_grid g) (prior_scale_grid g)
              (map (fun p => minimum (tail_mass g) (fst p) (snd p)) ps) (map (fun l => l + 2) lengths)
              (map (table_row (tail_mass g) (coder_precision g) max_length) ps))
  end.

(** L168-170: a grid is compared with its sorted copy *)
Fixpoint increasing (l : list R) : bool :=
  match l with
  | [] => true
  | x :: l' => match l' with [] => true | y :: _ => if Rle_dec x y then increasing l' else false end
  end.
(** L55-61: smax / smin is a ZeroDivisionError for smin = 0, math.log a ValueError for arguments that
    are not positive. *)
Definition scaler_check (smin smax : R) : res unit :=
  if Req_EM_T smin 0 then Raise ZeroDivisionError
  else if Rle_dec (smax / smin + 1) 0 then Raise ValueError
  else if Rle_dec smin 0 then Raise ValueError
  else Ok tt.
(** L149-176 (update_tables): torch.arange of a negative length raises RuntimeError, column 0 or row 0
    of an empty grid IndexError.  The grid is assigned before the tables are built. *)
Definition update_tables (g : gmodel) (force : bool) : gmodel * res bool :=
  if negb (Nat.eqb (length (offset g)) 0) && negb force then (g, Ok false)
  else if (num_means g <? 0) || (num_scales g <? 0) then (g, Raise RuntimeError)
  else match scaler_check (scales_min g) (scales_max g) with Raise e => (g, Raise e) | Ok _ =>
  if (num_means g =? 0) || (num_scales g =? 0) then (g, Raise IndexError)
  else if num_scales g =? 1 then (g, Raise AssertionError)
  else
    let ms := map (fun i => mean_at g (IZR i)) (zrange (num_means g)) in
    let ss := map (fun j => scale_at g (IZR j)) (zrange (num_scales g)) in
    if negb (increasing ms) then (g, Raise AssertionError)
    else if negb (increasing ss) then (g, Raise AssertionError)
    else
      let g := mkG (num_means g) (num_scales g) (scales_min g) (scales_max g) (tail_mass g) (precision g) (coder_precision g)
                   ms ss (offset g) (cdf_length g) (quantized_cdf g) in
      match build_tables g with Ok g' => (g', Ok true) | Raise e => (g, Raise e) end
  end.
(** L450-452 and entropy_model.py L693-712 (update) call update_tables; a history of calls *)
Definition updates (g : gmodel) (calls : list bool) : gmodel := fold_left (fun g force => fst (update_tables g force)) calls g.
End Tables.

(** Model of ContinuousEntropy (neuralcompression/layers/_continuous_entropy.py).

    A prior is described by its parameters' shape and, for each of its scalar distributions, its
    mean, its tail quantiles and its density ([pr_prob j x] is prior.prob or exp(log_prob) of
    distribution j at x).  The framework's quantiser pmf_to_quantized_cdf is a parameter.

    Simplifications: real arithmetic; conversions to int32 do not overflow; the tail quantiles
    exist (their computation is in Tail_Model.v). *)
From Coq Require Import Reals List Bool Arith ZArith Lia.
From Verif Require Import Base Tensor RBase Gsn_Model.
Import ListNotations.
Open Scope Z_scope.

Record prior := mkP {
  pr_noise : bool;                 (* an instance of UniformNoise *)
  pr_dims : list nat;              (* the shape of the distribution's parameters *)
  pr_mean : nat -> R;              (* by the row-major number of the distribution *)
  pr_lower : R -> nat -> R;
  pr_upper : R -> nat -> R;
  pr_prob : nat -> R -> R }.

(** prior.batch_shape.  UniformNoise passes event_shape and batch_shape to Distribution's
    constructor in the wrong order (_uniform_noise.py L47-50; C59), and the families with a cdf
    or icdf have scalar events. *)
Definition batch_shape (p : prior) : list nat := if pr_noise p then [] else pr_dims p.

(** functional/_quantization_offset.py L40-41 *)
Definition offset_of (p : prior) (j : nat) : R := (pr_mean p j - IZR (round_even (pr_mean p j)))%R.
(** L317-319, L321-323: floor, ceil, to(int32), clamp_min(0) *)
Definition minimum_of (p : prior) (tm : R) (j : nat) : Z := Z.max 0 (Rfloor (pr_lower p tm j - offset_of p j)).
Definition maximum_of (p : prior) (tm : R) (j : nat) : Z := Z.max 0 (Rceil (pr_upper p tm j - offset_of p j)).
(** L325-326: to(int32) truncates *)
Definition pmf_start (p : prior) (tm : R) (j : nat) : Z := Rtrunc (IZR (minimum_of p tm j) + offset_of p j).
(** L328 *)
Definition pmf_size (p : prior) (tm : R) (j : nat) : Z := maximum_of p tm j - minimum_of p tm j + 1.
(** L330: torch.max over the distributions *)
Definition max_size (p : prior) (tm : R) (n : nat) : Z :=
  fold_right Z.max (pmf_size p tm 0) (map (pmf_size p tm) (seq 0 n)).

(** A matrix or vector as a tensor *)
Definition vec {A} (n : nat) (f : nat -> A) : tensor A := mkT [n] (fun i => f (hd 0%nat i)).
Definition mat {A} (n m : nat) (f : nat -> nat -> A) : tensor A :=
  mkT [n; m] (fun i => f (hd 0%nat i) (hd 0%nat (tl i))).

Definition tables := (tensor Z * tensor Z * tensor Z)%type.   (* cdfs, cdf_sizes, cdf_offsets *)

Section Layer.
(** compressai's pmf_to_quantized_cdf *)
Variable quantized_cdf : list R -> Z -> list Z.

(** L333-340: pmfs[k], the values of all distributions at their k-th sample. *)
Definition pmfs_at (p : prior) (tm : R) (n k : nat) : list R :=
  map (fun j => pr_prob p j (INR k + IZR (pmf_start p tm j))%R) (seq 0 n).
(** L356-371: one iteration of the loop over zip(pmfs, pmf_sizes). *)
Definition table_row (p : prior) (tm : R) (prec : Z) (n i : nat) : list Z :=
  let pmf := firstn (Z.to_nat (pmf_size p tm i)) (pmfs_at p tm n i) in
  let overflow := Rmax (1 - fold_right Rplus 0%R pmf) 0 in
  quantized_cdf (pmf ++ [overflow]) prec.
(** L356: zip stops at the shorter of pmfs (max_size entries) and pmf_sizes; L350-354, L371:
    the other entries stay 0. *)
Definition cdf_entry (p : prior) (tm : R) (prec : Z) (n : nat) (i k : nat) : Z :=
  if Z.of_nat i <? max_size p tm n then nth k (table_row p tm prec n i) 0 else 0.

(** L304-373 (_update).  An empty batch makes torch.max raise.  A prior of batch shape () makes
    broadcast_to raise (the tails have at least one dimension), or already the sum of samples and
    pmf_start.  A shape that does not squeeze to one dimension makes len(), the slice or
    pmf_to_quantized_cdf raise. *)
Definition update (p : prior) (tm : R) (prec : Z) : res tables :=
  if Nat.eqb (prod (pr_dims p)) 0 then Raise RuntimeError
  else match batch_shape p with
  | [] => Raise RuntimeError
  | [n] => if Nat.eqb n 1 then Raise TypeError
           else Ok (mat n (Z.to_nat (max_size p tm n) + 2) (cdf_entry p tm prec n),
                    vec n (fun j => pmf_size p tm j + 2),
                    vec n (fun j => minimum_of p tm j))
  | _ => Raise TypeError
  end.

(** L73-87: the arguments that matter here; [None] is Python's None. *)
Record args := mkA {
  a_compressible : bool; a_stateless : bool; a_prior : option prior; a_tail_mass : R;
  a_shape : option (list nat); a_dtype : option nat;
  a_cdfs : option (tensor Z); a_sizes : option (tensor Z); a_offsets : option (tensor Z);
  a_maximum : option nat; a_precision : Z }.
(** [l_prior]: None if the attribute _prior was never assigned, Some None after deletion. *)
Record layer := mkL {
  l_compressible : bool; l_stateless : bool; l_shape : list nat; l_prior : option (option prior);
  l_cdfs : option (tensor Z); l_sizes : option (tensor Z); l_offsets : option (tensor Z) }.

Definition isNone {A} (o : option A) : bool := match o with None => true | Some _ => false end.
Definition b2n (b : bool) : nat := if b then 1 else 0.

(** L100-113 *)
Definition prior_shape (a : args) : res (list nat) :=
  match a_prior a with
  | None => match a_shape a, a_dtype a with Some s, Some _ => Ok s | _, _ => Raise ValueError end
  | Some p => Ok (batch_shape p)
  end.
(** L73-172 (__init__) *)
Definition create (a : args) : res layer :=
  do shp <- prior_shape a;
  let mk pr c s o := mkL (a_compressible a) (a_stateless a) shp pr c s o in
  if a_compressible a then
    let b1 := isNone (a_cdfs a) in let b2 := isNone (a_sizes a) in let b3 := isNone (a_offsets a) in
    if negb (Bool.eqb b1 b2 && Bool.eqb b2 b3) then Raise ValueError
    else if negb (Nat.eqb (b2n (isNone (a_prior a)) + b2n (isNone (a_maximum a)) + b2n b1) 2) then Raise ValueError
    else match a_prior a with
    | Some p => do (c, s, o) <- update p (a_tail_mass a) (a_precision a);
                Ok (mk (Some (Some p)) (Some c) (Some s) (Some o))
    | None =>
        match a_maximum a with
        | Some m =>
            if a_stateless a then Raise ValueError
            else
              let context_size := length shp in
              if Nat.eqb context_size 0 then Raise IndexError     (* zeros[0, :] *)
              else Ok (mk None (Some (mat context_size m (fun _ _ => 0)))
                        (Some (vec m (fun _ => 0))) (Some (vec m (fun _ => 0))))
        | None => Ok (mk None (a_cdfs a) (a_sizes a) (a_offsets a))
        end
    end
  else if isNone (a_cdfs a) && isNone (a_offsets a) && isNone (a_sizes a) && isNone (a_maximum a)
  then Ok (mk None None None None)
  else Raise ValueError.

(** L174-190: cdf_offsets, cdf_sizes, cdfs (a table that was not created reads as None). *)
Definition get_cdfs (l : layer) : res (option (tensor Z)) :=
  if l_compressible l then Ok (l_cdfs l) else Raise RuntimeError.
Definition get_sizes (l : layer) : res (option (tensor Z)) :=
  if l_compressible l then Ok (l_sizes l) else Raise RuntimeError.
Definition get_offsets (l : layer) : res (option (tensor Z)) :=
  if l_compressible l then Ok (l_offsets l) else Raise RuntimeError.
(** L216-230: prior and its deleter (which assigns None; an unset attribute is an AttributeError). *)
Definition get_prior (l : layer) : res prior :=
  match l_prior l with
  | None => Raise AttributeError
  | Some None => Raise RuntimeError
  | Some (Some p) => Ok p
  end.
Definition del_prior (l : layer) : layer :=
  mkL (l_compressible l) (l_stateless l) (l_shape l) (Some None) (l_cdfs l) (l_sizes l) (l_offsets l).

(** torch's state_dict / load_state_dict(strict=True) on the three buffers: a buffer that is None
    is left out; missing, unexpected or differently shaped entries raise. *)
Definition state_dict (l : layer) : option (tensor Z) * option (tensor Z) * option (tensor Z) :=
  (l_cdfs l, l_sizes l, l_offsets l).
Definition load_entry (mine saved : option (tensor Z)) : res (option (tensor Z)) :=
  match mine, saved with
  | None, None => Ok None
  | Some t, Some u => if list_eq_dec Nat.eq_dec (tshape t) (tshape u) then Ok (Some u) else Raise RuntimeError
  | _, _ => Raise RuntimeError
  end.
Definition load_state (l : layer) (sd : option (tensor Z) * option (tensor Z) * option (tensor Z)) : res layer :=
  let '(c, s, o) := sd in
  do c' <- load_entry (l_cdfs l) c;
  do s' <- load_entry (l_sizes l) s;
  do o' <- load_entry (l_offsets l) o;
  Ok (mkL (l_compressible l) (l_stateless l) (l_shape l) (l_prior l) c' s' o').
End Layer.

(** L268-302 (quantize).  Elements are floats or 32-bit integers; IntTensor(t) accepts only an
    int32 tensor. *)
Inductive data := Floats (l : list R) | Ints (l : list Z).
Definition subtract (x y : data) : res data :=
  match x, y with
  | Ints a, Ints b => if Nat.eqb (length a) (length b) then Ok (Ints (map (fun p => fst p - snd p) (combine a b))) else Raise RuntimeError
  | Floats a, Floats b => if Nat.eqb (length a) (length b) then Ok (Floats (map (fun p => fst p - snd p)%R (combine a b))) else Raise RuntimeError
  | Floats a, Ints b => if Nat.eqb (length a) (length b) then Ok (Floats (map (fun p => fst p - IZR (snd p))%R (combine a b))) else Raise RuntimeError
  | Ints a, Floats b => if Nat.eqb (length a) (length b) then Ok (Floats (map (fun p => IZR (fst p) - snd p)%R (combine a b))) else Raise RuntimeError
  end.
Definition round_data (x : data) : data :=
  match x with Floats l => Floats (map (fun r => IZR (round_even r)) l) | Ints l => Ints l end.
Definition int_tensor (x : data) : res (list Z) :=
  match x with Ints l => Ok l | Floats _ => Raise TypeError end.
Definition quantize (bottleneck : data) (offsets : option data) : res (list Z) :=
  do outputs <- match offsets with Some o => subtract bottleneck o | None => Ok bottleneck end;
  int_tensor (round_data outputs).

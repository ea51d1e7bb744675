(** Model of the quantiser pmf_to_quantized_cdf of compressai (the C++ extension _CXX, file cpp_exts/ops/ops.cpp of that
    project; not part of /repo).  The code under study calls it in neuralcompression/layers/_continuous_entropy.py L366-369 and,
    through compressai's EntropyModel._pmf_to_cdf, in projects/torch_vct/neural/bottlenecks.py L216.  The theorems
    about these callers use only the contract of Quant_Props.v; this file shows that the contract is met.

    Arithmetic is exact (multiplying a float by 2^precision is), and the sums do not overflow 32 bits. *)
From Coq Require Import ZArith List Bool Reals Arith.
From Verif Require Import Base RBase.
Import ListNotations.
Open Scope Z_scope.

(** std::round of a non-negative number: ties go up *)
Definition std_round (x : R) : Z := Rfloor (x + 1 / 2).
(** std::partial_sum *)
Fixpoint partial_sum (acc : Z) (l : list Z) : list Z :=
  match l with [] => [] | z :: r => (acc + z) :: partial_sum (acc + z) r end.
Definition entry (cdf : list Z) (k : nat) : Z := nth k cdf 0.
Definition modify (f : nat -> Z -> Z) (l : list Z) : list Z := map (fun k => f k (nth k l 0)) (seq 0 (length l)).

(** The first of the smallest frequencies above 1 *)
Fixpoint best_steal (cdf : list Z) (js : list nat) (best : option (nat * Z)) : option nat :=
  match js with
  | [] => option_map fst best
  | j :: js' =>
      let freq := entry cdf (S j) - entry cdf j in
      let better := match best with Some (_, f) => freq <? f | None => true end in
      best_steal cdf js' (if (1 <? freq) && better then Some (j, freq) else best)
  end.
(** One round of the loop; the assertion best_steal <> -1 fails for None. *)
Definition steal (n : nat) (cdf : list Z) (i : nat) : res (list Z) :=
  if entry cdf i =? entry cdf (S i) then
    match best_steal cdf (seq 0 n) None with
    | None => Raise AssertionError
    | Some b =>
        Ok (if (b <? i)%nat then modify (fun j z => if ((S b <=? j) && (j <=? i))%nat then z - 1 else z) cdf
            else modify (fun j z => if ((S i <=? j) && (j <=? b))%nat then z + 1 else z) cdf)
    end
  else Ok cdf.
Fixpoint steal_all (n : nat) (cdf : list Z) (is : list nat) : res (list Z) :=
  match is with [] => Ok cdf | i :: is' => do cdf' <- steal n cdf i; steal_all n cdf' is' end.

(** The whole function; std::domain_error becomes ValueError in Python. *)
Definition pmf_to_quantized_cdf (pmf : list R) (precision : Z) : res (list Z) :=
  if existsb (fun p => if Rlt_dec p 0 then true else false) pmf then Raise ValueError
  else
    let freqs := map (fun p => std_round (p * 2 ^ Z.to_nat precision)) pmf in
    let total := fold_right Z.add 0 freqs in
    if total =? 0 then Raise ValueError
    else
      let cdf := 0 :: partial_sum 0 (map (fun f => 2 ^ precision * f / total) freqs) in
      let n := length pmf in
      let cdf := modify (fun k z => if (k =? n)%nat then 2 ^ precision else z) cdf in
      steal_all n cdf (seq 0 n).

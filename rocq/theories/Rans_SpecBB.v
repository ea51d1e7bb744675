(** Specification vocabulary for the bits-back codec built from three
    distributions: a prior over latents, a posterior over latents given the
    symbols, and a likelihood of the symbols given the latents. *)
From Coq Require Import ZArith List Bool.
From Verif Require Import Base Rans_Model Rans_Spec.
Import ListNotations.
Open Scope Z_scope.

Section BB.
Variable ns : Z -> Z -> Z -> Z.
Context {S1 S2 S3 : Type}.
Variable n : nat.
(* prior *)
Variable cdf1 : list Z -> S1 -> list Z * list Z * S1.
Variable inv1 : list Z -> S1 -> list Z * list Z * list Z * S1.
Variables (s1 : S1) (p1 : Z) (al1 : bool).
(* posterior, given the symbols *)
Variable cdf2 : list Z -> list Z -> S2 -> list Z * list Z * S2.
Variable inv2 : list Z -> list Z -> S2 -> list Z * list Z * list Z * S2.
Variables (s2 : list Z -> S2) (p2 : Z) (al2 : bool).
(* likelihood, given the latents *)
Variable cdf3 : list Z -> list Z -> S3 -> list Z * list Z * S3.
Variable inv3 : list Z -> list Z -> S3 -> list Z * list Z * list Z * S3.
Variables (s3 : list Z -> S3) (p3 : Z) (al3 : bool).

Definition bb_post (x : list Z) := default_rans_codec ns (cdf2 x) (inv2 x) (s2 x) p2 al2.
Definition bb_obs (z : list Z) := default_rans_codec ns (cdf3 z) (inv3 z) (s3 z) p3 al3.
Definition bb_prior := default_rans_codec ns cdf1 inv1 s1 p1 al1.
Definition bb : codec unit := bitsback_ans_codec bb_prior bb_post bb_obs.

(** The model can code the symbols [x]: whatever latents the posterior decodes,
    the prior can code them and the likelihood can code [x] under them. *)
Definition bb_codable (x : list Z) : Prop :=
  decodes_all (cdf2 x) (inv2 x) n p2 (s2 x)
    (fun z => row_codable cdf1 inv1 n p1 s1 z /\ row_codable (cdf3 z) (inv3 z) n p3 (s3 z) x).

(** Messages pushed one after the other, with the condition that no posterior
    pop runs below the bottom of the stack and room is left. *)
Inductive bb_pushes : list (list Z) -> msg -> msg -> Prop :=
| bbp_nil m : bb_pushes [] m m
| bbp_cons x rows m m1 m' :
    (forall m2 z s, c_pop (bb_post x) (c_allow (bb_post x)) m (c_state (bb_post x))
       = Ok (m2, z, s) -> ptr m2 <= zlen (data m)) ->
    c_push bb x m tt = Ok (m1, tt) -> Z.of_nat n <= ptr m1 ->
    bb_pushes rows m1 m' -> bb_pushes (x :: rows) m m'.

End BB.

(** float64 is accurate enough for every process of at most 2^24 timesteps. *)
From Coq Require Import ZArith Reals Lia Lra.
From Verif Require Import Base RBase RFloat Steps_Spec.
Open Scope Z_scope.

Lemma b64_good N : 0 <= N <= 2 ^ 24 -> good_fl N b64.
Proof.
  intro H. exists (/ 9007199254740992)%R. split; [lra|]. split; [|split].
  - assert (A : (0 <= IZR N <= 16777216)%R) by (split; apply IZR_le; lia). nra.
  - intros x Hx. pose proof (b64_rel x) as E. change (Flocq.Core.Raux.bpow Flocq.Core.Zaux.radix2 (-53)) with (/ 9007199254740992)%R in E.
    rewrite (Rabs_pos_eq x) in E by lra. apply E. exact Hx.
  - intros k Hk. apply b64_int. lia.
Qed.

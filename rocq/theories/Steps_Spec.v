(** Vocabulary for the timestep respacing. *)
From Coq Require Import ZArith Reals List.
From Verif Require Import Base RBase.
Import ListNotations.
Open Scope Z_scope.

(** Number of elements of the set given by a list. *)
Definition set_size (l : list Z) : Z := Z.of_nat (length (nodup Z.eq_dec l)).

(** Float arithmetic accurate enough for [N] timesteps: a relative error [eps]
    with 16 eps N^2 <= 1, and integers up to [N] represented exactly. *)
Definition good_fl (N : Z) (fl : R -> R) : Prop :=
  exists eps : R, (0 <= eps)%R /\ (16 * eps * (IZR N * IZR N) <= 1)%R /\
    (forall x, (1 <= x)%R -> (Rabs (fl x - x) <= eps * x)%R) /\
    (forall k, 0 <= k <= N -> fl (IZR k) = IZR k).

(** Size of section [i] of [n] sections of [N] timesteps: as equal as possible,
    the first ones longer. *)
Definition section_size (N n i : Z) : Z := N / n + (if i <? N mod n then 1 else 0).

Definition total (l : list Z) : Z := fold_right Z.add 0 l.

(** The sections are [section_start N n i, section_start N n (i+1)). *)
Definition section_start (N n i : Z) : Z := i * (N / n) + Z.min i (N mod n).

(** Number of entries of [l] in [lo, hi). *)
Definition count_in (lo hi : Z) (l : list Z) : Z :=
  Z.of_nat (length (filter (fun x => andb (lo <=? x) (x <? hi)) l)).

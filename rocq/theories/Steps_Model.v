(** Model of the timestep respacing of the diffusion process,
    projects/bits_back_diffusion/bits_back_diffusion/script_util.py L261-334. *)
From Coq Require Import ZArith Reals List.
From Verif Require Import Base RBase.
Import ListNotations.
Open Scope Z_scope.

(** The argument section_counts: "ddimN", "vlbN" or a list of counts (given as a
    list or as a comma-separated string, parsed by int). *)
Inductive respacing := Ddim (n : Z) | Vlb (n : Z) | Sections (counts : list Z).

(** Python's range(n) and range(0, n, i), i >= 1. *)
Definition range (n : Z) : list Z := map Z.of_nat (seq 0 (Z.to_nat n)).
Definition range_step (n i : Z) : list Z := map (fun k => k * i) (range ((n + i - 1) / i)).

Section Float.
(** [fl] rounds the exact result of a float64 operation. *)
Variable fl : R -> R.

(** script_util.py L325-329: the inner loop. *)
Fixpoint stride_steps (start_idx : Z) (k : nat) (cur_idx frac_stride : R) : list Z :=
  match k with
  | O => []
  | S k' => (start_idx + round_even cur_idx)
            :: stride_steps start_idx k' (fl (cur_idx + frac_stride)) frac_stride
  end.

(** script_util.py L315-330: one section. *)
Definition section_steps (start_idx size section_count : Z) : res (list Z) :=
  if size <? section_count then Raise ValueError
  else
    let frac_stride :=
      if section_count <=? 1 then 1%R
      else fl (IZR (size - 1) / IZR (section_count - 1))%R in
    Ok (stride_steps start_idx (Z.to_nat section_count) 0%R frac_stride).

(** script_util.py L313-331: the loop over the sections, [i] being the index. *)
Fixpoint sections_loop (size_per extra i start_idx : Z) (counts : list Z) : res (list Z) :=
  match counts with
  | [] => Ok []
  | c :: counts' =>
      let size := size_per + (if i <? extra then 1 else 0) in
      do taken <- section_steps start_idx size c;
      do rest <- sections_loop size_per extra (i + 1) (start_idx + size) counts';
      Ok (taken ++ rest)
  end.

Definition from_sections (num_timesteps : Z) (all_steps : list Z) (counts : list Z)
    : res (list Z) :=
  let n := Z.of_nat (length counts) in
  if n =? 0 then Raise ZeroDivisionError
  else
    do l <- sections_loop (num_timesteps / n) (num_timesteps mod n) 0 0 counts;
    Ok (all_steps ++ l).

(** script_util.py L293-299: the ddim loop over i in range(1, num_timesteps). *)
Fixpoint ddim_loop (num_timesteps desired_count : Z) (is_ : list Z) : res (list Z) :=
  match is_ with
  | [] => Raise ValueError
  | i :: is' =>
      if Z.of_nat (length (range_step num_timesteps i)) =? desired_count
      then Ok (range_step num_timesteps i)
      else ddim_loop num_timesteps desired_count is'
  end.

(** script_util.py L261-334 (space_timesteps).  The returned set is given by the
    list it is made of. *)
Definition space_timesteps (num_timesteps : Z) (section_counts : respacing) : res (list Z) :=
  match section_counts with
  | Ddim d => ddim_loop num_timesteps d (map (Z.add 1) (range (num_timesteps - 1)))
  | Vlb d =>
      if d =? 0 then Raise ZeroDivisionError
      else if num_timesteps / d <? d
      then from_sections num_timesteps (range (num_timesteps / d))
             [d - num_timesteps / d + 1]
      else Raise ValueError
  | Sections counts => from_sections num_timesteps [] counts
  end.
End Float.

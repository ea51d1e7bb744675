(** Model of projects/bits_back_diffusion/compute_vlb.py (main), of
    projects/bits_back_diffusion/bits_back_diffusion/script_util.py (plot_evolution, the warning of
    setup, divide_by_n_proc) and of the parts of improved_diffusion they rely on
    (GaussianDiffusion.calc_bpd_loop, image_datasets.load_data).

    Simplifications: floats are reals; the network, the noise and the images are in the four
    functions that give the terms of a sample at a timestep; the processes run in lock step, a
    collective that not all of them reach waits for ever ([Diverges]), and all_gather raises when
    the tensors of the processes have different sizes; the names of files are abstract. *)
From Coq Require Import List Arith Lia Bool Reals.
From Verif Require Import Base.
Import ListNotations.
Open Scope nat_scope.
Open Scope list_scope.

Fixpoint total (l : list R) : R := match l with [] => 0%R | x :: r => (x + total r)%R end.
(** tensor.mean(), np.mean *)
Definition mean (l : list R) : R := (total l / INR (length l))%R.

(** The keys of [metrics], compute_vlb.py L45, in the order of the dictionary. *)
Inductive key := Vb | Mse | Xstart.
Definition keys : list key := [Vb; Mse; Xstart].
Definition is_vb (k : key) : bool := match k with Vb => true | _ => false end.

Section Eval.
Context {A : Type}.
(** diffusion.num_timesteps, and the terms of a sample at a timestep. *)
Variables (T : nat) (vb mse xstart : A -> nat -> R) (prior : A -> R).

Definition term (k : key) : A -> nat -> R := match k with Vb => vb | Mse => mse | Xstart => xstart end.

(** improved_diffusion calc_bpd_loop: [for t in list(range(self.num_timesteps))[::-1]] appends one
    column per timestep; total_bpd = vb.sum(dim=1) + prior_bpd *)
Record bpd := mkB { total_bpd : list R; prior_bpd : list R; columns : key -> list (list R) }.
Definition calc_bpd_loop (batch : list A) : bpd :=
  let col := fun k => map (fun a => map (term k a) (rev (seq 0 T))) batch in
  let pri := map prior batch in
  mkB (map (fun p : list R * R => (total (fst p) + snd p)%R) (combine (col Vb) pri)) pri col.

(** The variables of one process, L43-45, and what it logged, L77. *)
Record proc := mkP { num_complete : nat; bpds : list R; terms : key -> list (list (list R)); logged : list (R * nat) }.
Definition start : proc := mkP 0 [] (fun _ => []) [].

(** L61-65: the terms of a batch that a process contributes *)
Definition batch_terms (b : list A) (k : key) : list (list R) :=
  let m := calc_bpd_loop b in
  if is_vb k then map (fun p : R * list R => fst p :: snd p) (combine (prior_bpd m) (columns m k)) else columns m k.

(** L66-69: all_gather into tensors of the size of the process' own *)
Definition all_gather (own : list (list R)) (all : list (list (list R))) : res (list (list (list R))) :=
  if forallb (fun t => length t =? length own) all then Ok all else Raise RuntimeError.

(** L73-74: the mean over the batch, divided by the number of processes, summed over them *)
Definition reduced_bpd (batches : list (list A)) : R :=
  total (map (fun b => mean (total_bpd (calc_bpd_loop b)) / INR (length batches))%R batches).

(** L60-78: one pass of the body of the loop in one process *)
Definition pass (batches : list (list A)) (p : proc) (b : list A) : res proc :=
  do g <- mapM (fun k => all_gather (batch_terms b k) (map (fun b' => batch_terms b' k) batches)) keys;
  let new := fun k => match k with Vb => nth 0 g [] | Mse => nth 1 g [] | Xstart => nth 2 g [] end in
  let bs := bpds p ++ [reduced_bpd batches] in
  let nc := num_complete p + length b * length batches in
  Ok (mkP nc bs (fun k => terms p k ++ new k) (logged p ++ [(mean bs, nc)])).

(** L48: [next(dataloader)] of process r for the k-th time; [None]: it never returns *)
Variables (W : nat) (next : nat -> nat -> option (list A)) (num_samples : nat).
Fixpoint fetch (k : nat) (rs : list nat) : res (list (list A)) :=
  match rs with
  | [] => Ok []
  | r :: q => match next r k with None => Raise Diverges | Some b => do bs <- fetch k q; Ok (b :: bs) end
  end.

(** L47-78 in all processes *)
Fixpoint loop (fuel k : nat) (ps : list proc) : res (list proc) :=
  match fuel with
  | 0 => Raise Diverges
  | S f =>
      if forallb (fun p => num_samples <=? num_complete p) ps then Ok ps
      else if forallb (fun p => num_complete p <? num_samples) ps then
        do bs <- fetch k (seq 0 W);
        do qs <- mapM (fun pb : proc * list A => pass bs (fst pb) (snd pb)) (combine ps bs);
        loop f (S k) qs
      else Raise Diverges
  end.

(** L91-97: the statistics of each column *)
Record stats := mkS { s_mean : list R; s_stdd : list R; s_min : list R; s_max : list R }.
Definition column (rows : list (list R)) (j : nat) : list R := map (fun r => nth j r 0%R) rows.
Definition std (l : list R) : R := sqrt (mean (map (fun x => (x - mean l) ^ 2)%R l)).
Definition minimum (l : list R) : R := fold_right Rmin (hd 0%R l) l.
Definition maximum (l : list R) : R := fold_right Rmax (hd 0%R l) l.
Definition per_column (f : list R -> R) (rows : list (list R)) : list R :=
  map (fun j => f (column rows j)) (seq 0 (length (hd [] rows))).
Definition savez (rows : list (list R)) : stats :=
  mkS (per_column mean rows) (per_column std rows) (per_column minimum rows) (per_column maximum rows).

(** L86-90: np.concatenate of nothing raises; the columns are reversed and the shape is asserted *)
Definition report (p : proc) (k : key) : res (list (list R)) :=
  match terms p k with
  | [] => Raise ValueError
  | ts =>
      let rows := map (@rev R) (concat ts) in
      if (length rows =? num_complete p) && forallb (fun r => length r =? T + (if is_vb k then 1 else 0)) rows
      then Ok rows else Raise AssertionError
  end.

(** L33-102: what the processes logged, and the arrays that process 0 reported and saved *)
Definition main (fuel : nat) : res (list proc * list (list (list R) * stats)) :=
  do ps <- loop fuel 0 (repeat start W);
  match ps with
  | [] => Raise RuntimeError
  | p0 :: _ => do rows <- mapM (report p0) keys; Ok (ps, map (fun r => (r, savez r)) rows)
  end.
End Eval.

(** script_util.py L208-213: the warning that samples are dropped *)
Definition warns_dropping (num_samples batch_size W : nat) : bool := negb (num_samples mod (batch_size * W) =? 0).

(** script_util.py L28-42 *)
Definition divide_by_n_proc (x W : nat) : res nat :=
  if W =? 0 then Raise ZeroDivisionError else if x mod W =? 0 then Ok (x / W) else Raise ValueError.

(** improved_diffusion ImageDataset: [image_paths[shard:][::num_shards]] *)
Definition stride {A} (n : nat) (l : list A) : list A :=
  map snd (filter (fun p => fst p mod n =? 0) (combine (seq 0 (length l)) l)).
Definition shard {A} (files : list A) (W r : nat) : list A := stride W (skipn r files).
(** DataLoader(shuffle=False, drop_last=True) *)
Definition full_batches {A} (b : nat) (l : list A) : list (list A) :=
  map (fun i => firstn b (skipn (i * b) l)) (seq 0 (length l / b)).
(** improved_diffusion load_data, deterministic (config/data/imagenet.yaml, val):
    [while True: yield from loader], which never yields if the loader has no batch *)
Definition load_data {A} (files : list A) (batch_size W : nat) (r k : nat) : option (list A) :=
  let bs := full_batches batch_size (shard files W r) in
  if length bs =? 0 then None else Some (nth (k mod length bs) bs []).

(** script_util.py L382-432 (plot_evolution) for two-dimensional data: the points of the three
    traces.  Colours and layout are left out. *)
Definition append {B} (a b : list B) : list B := a ++ b.
Definition plot_evolution (data : list (list R)) : list (nat * R) * list (nat * R) * list (nat * R) :=
  let m := per_column mean data in
  let x := seq 0 (length m) in
  let stdd := per_column std data in
  let x_round := append x (rev x) in
  let ms f := map (fun p : R * R => f (fst p) (snd p)) (combine m stdd) in
  (combine x m,
   combine x_round (append (ms Rplus) (rev (ms Rminus))),
   combine x_round (append (per_column maximum data) (rev (per_column minimum data)))).

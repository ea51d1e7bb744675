(** Vocabulary for the properties of the diffusion bits-back codec. *)
From Coq Require Import ZArith List Bool.
From Verif Require Import Base Diff_Model.
Import ListNotations.
Open Scope Z_scope.

(** What is asked of a craystack codec on well-formed messages [wf] and
    admissible symbols [V]: popping what was pushed gives it back with the
    message, and pushing what was popped restores the message. *)
Definition push_pop {M A} (wf : M -> Prop) (V : A -> Prop) (c : prim M A) : Prop :=
  forall m x m', wf m -> V x -> p_push c m x = Ok m' -> wf m' /\ p_pop c m' = Ok (m, x).
Definition pop_push {M A} (wf : M -> Prop) (V : A -> Prop) (c : prim M A) : Prop :=
  forall m m' x, wf m -> p_pop c m = Ok (m', x) -> wf m' /\ V x /\ p_push c m' x = Ok m.

(** A data batch of the right shape with values of [prec] bits. *)
Definition valid_data (shp : list Z) (prec : Z) (a : array) : Prop :=
  shape a = shp /\ vals a <> [] /\ Forall (fun v => 0 <= v < 2 ^ prec) (vals a) /\
  Z.of_nat (length (vals a)) = fold_right Z.mul 1 shp.

Definition sum (l : list Z) : Z := fold_right Z.add 0 l.

(** Calls of a codec object: encode a list of batches, or decode [k] times,
    stopping at the first exception. *)
Fixpoint encode_all {M} (enc : obj M -> array -> obj M * res M) (o : obj M)
    (ds : list array) : res (obj M) :=
  match ds with
  | [] => Ok o
  | d :: ds' => let '(o', r) := enc o d in do _ <- r; encode_all enc o' ds'
  end.

Fixpoint decode_all {M} (dec : obj M -> obj M * res (M * array)) (o : obj M) (k : nat)
    : res (obj M * list array) :=
  match k with
  | O => Ok (o, [])
  | S k' =>
      let '(o', r) := dec o in
      do (_, d) <- r;
      do (o'', ds) <- decode_all dec o' k';
      Ok (o'', d :: ds)
  end.

(** Any mixture of calls on one object, the ones that raise included. *)
Inductive call := Enc (d : array) | Dec.
Definition do_call {M} (enc : obj M -> array -> obj M * res M)
    (dec : obj M -> obj M * res (M * array)) (o : obj M) (c : call)
    : obj M * res (M * option array) :=
  match c with
  | Enc d => let '(o', r) := enc o d in (o', do m <- r; Ok (m, None))
  | Dec => let '(o', r) := dec o in (o', do (m, d) <- r; Ok (m, Some d))
  end.
Fixpoint calls {M} (enc : obj M -> array -> obj M * res M)
    (dec : obj M -> obj M * res (M * array)) (o : obj M) (cs : list call)
    : obj M * list (res (M * option array)) :=
  match cs with
  | [] => (o, [])
  | c :: cs' =>
      let '(o', r) := do_call enc dec o c in
      let '(o'', rs) := calls enc dec o' cs' in (o'', r :: rs)
  end.

(** Two objects that agree in everything but [extra_bytes]. *)
Definition agree_but_extra {M} (o o' : obj M) : Prop :=
  message M o = message M o' /\ data_count M o = data_count M o' /\
  initial_bytes M o = initial_bytes M o' /\
  push_bytes (o_stats M o) = push_bytes (o_stats M o') /\
  pop_bytes (o_stats M o) = pop_bytes (o_stats M o').

(** What one encode does, step by step: [f k] is the message before latent [k] is
    popped from its posterior ([f 0] after all), [g k] after latent [k] was pushed
    with the prior ([g 0] after the likelihood); [ls] are the latents with their
    prior parameters, latent 1 first. *)
Section Trace.
Context {M Par Lat Inds : Type}.
Variable prior_codec : prim M Inds.
Variable post_codec : Par -> Par -> prim M Inds.
Variable lik_codec : Par -> prim M array.
Variable std_params : Par.
Variable to_latent : Inds * Par -> Lat.
Variable steps : nat.
Variable infer_fn : array -> Par.
Variable generate_fn : Lat -> nat -> Par.
Variable generate_post_fn : Lat -> nat -> array -> Par.

Definition prior_par (ls : list (Inds * Par)) (k : nat) : Par :=
  match nth_error ls k with Some l => generate_fn (to_latent l) k | None => std_params end.
Definition post_par (d : array) (ls : list (Inds * Par)) (k : nat) : Par :=
  match nth_error ls k with Some l => generate_post_fn (to_latent l) k d | None => infer_fn d end.

Definition encode_trace (m : M) (d : array) (m' : M) (ls : list (Inds * Par)) (f g : nat -> M) : Prop :=
  length ls = steps /\ f steps = m /\ g steps = m' /\
  (forall k l, (1 <= k <= steps)%nat -> nth_error ls (k - 1) = Some l ->
     snd l = prior_par ls k /\
     p_pop (post_codec (post_par d ls k) (snd l)) (f k) = Ok (f (k - 1)%nat, fst l) /\
     p_push prior_codec (g (k - 1)%nat) (fst l) = Ok (g k)) /\
  (exists l, nth_error ls 0 = Some l /\
     p_push (lik_codec (generate_fn (to_latent l) 0)) (f 0%nat) d = Ok (g 0%nat)).
End Trace.

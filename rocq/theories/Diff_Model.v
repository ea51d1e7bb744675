(** Model of the bits-back codec for hierarchical latent variable models,
    projects/bits_back_diffusion/bits_back_diffusion/codec.py.

    The external library craystack is a parameter: a message type with a byte
    size and its primitive codecs, each a pair of push and pop functions that may
    raise (an empty tail).  The neural networks ([infer_fn], [generate_fn]) are
    arbitrary deterministic functions.  [self]'s statistics are state that
    survives an exception. *)
From Coq Require Import ZArith List Bool Lia.
From Verif Require Import Base.
Import ListNotations.
Open Scope Z_scope.

(** A craystack codec (cs.Codec): push and pop on messages of type [M]. *)
Record prim (M A : Type) := mk_prim {
  p_push : M -> A -> res M;
  p_pop : M -> res (M * A)
}.
Arguments mk_prim {M A} _ _.
Arguments p_push {M A} _ _ _.
Arguments p_pop {M A} _ _.

(** The mutable statistics of the codec object, codec.py L245-248. *)
Record stats := mk_stats {
  extra_bytes : Z;
  push_bytes : list Z;
  pop_bytes : list Z
}.

(** Python code acting on the statistics: exceptions do not undo mutations. *)
Definition eff (A : Type) : Type := stats -> stats * res A.
Definition ret {A} (a : A) : eff A := fun s => (s, Ok a).
Definition raise {A} (e : exn) : eff A := fun s => (s, Raise e).
Definition lift {A} (r : res A) : eff A := fun s => (s, r).
Definition ebind {A B} (m : eff A) (f : A -> eff B) : eff B :=
  fun s => match m s with
           | (s', Ok a) => f a s'
           | (s', Raise e) => (s', Raise e)
           end.
Notation "'run' x <- m ; f" := (ebind m (fun x => f))
  (at level 200, x pattern, m at level 100, f at level 200, only parsing).

(** [array[step] += v] (a list index in range). *)
Fixpoint add_at (l : list Z) (i : nat) (v : Z) : list Z :=
  match l, i with
  | [], _ => []
  | x :: l', O => (x + v) :: l'
  | x :: l', S i' => x :: add_at l' i' v
  end.

(** A codec whose push and pop may also update the statistics. *)
Record scodec (M A : Type) := mk_scodec {
  s_push : M -> A -> eff M;
  s_pop : M -> eff (M * A)
}.
Arguments mk_scodec {M A} _ _.
Arguments s_push {M A} _ _ _.
Arguments s_pop {M A} _ _.

Definition of_prim {M A} (c : prim M A) : scodec M A :=
  mk_scodec (fun m x => lift (p_push c m x)) (fun m => lift (p_pop c m)).

(** An integer array: its shape and its values in row-major order. *)
Record array := mk_array { shape : list Z; vals : list Z }.

Section Codec.
Variables (M Par Lat Inds : Type).
(** cs.flatten(message).nbytes *)
Variable nbytes : M -> Z.
(** cs.Uniform(prior_prec), L246; cs.DiagGaussian_GaussianBins, L334-356, given
    the posterior and the prior parameters; diag_gaussian_unif_bins with clipped
    standard deviation, L515-522. *)
Variable prior_codec : prim M Inds.
Variable post_codec : Par -> Par -> prim M Inds.
Variable lik_codec : Par -> prim M array.
(** GaussianParams of a standard normal, L392-394. *)
Variable std_params : Par.
(** _to_latent, L317-332 *)
Variable to_latent : Inds * Par -> Lat.
(** BaseHLVModel: steps, infer_fn and generate_fn without and with data, L40-89;
    the dequantisation of the data (L417-419) is part of the function. *)
Variable steps : nat.
Variable infer_fn : array -> Par.
Variable generate_fn : Lat -> nat -> Par.
Variable generate_post_fn : Lat -> nat -> array -> Par.
(** constructor arguments track, data_shape and data_prec. *)
Variable track : bool.
Variable data_shape : list Z.
Variable data_prec : Z.

(** DiscrLatent, L22-24: the indices and the prior's parameters. *)
Definition discr_latent : Type := Inds * Par.

(** codec.py L525-553 (_track_codec). *)
Definition track_codec {A} (c : scodec M A) (step : nat) : scodec M A :=
  if negb track then c
  else if Nat.ltb steps step then
    mk_scodec (fun _ _ => raise RuntimeError) (fun _ => raise RuntimeError)
  else
    mk_scodec
      (fun m x =>
         run m' <- s_push c m x;
         fun s => (mk_stats (extra_bytes s)
                     (add_at (push_bytes s) step (nbytes m' - nbytes m)) (pop_bytes s),
                   Ok m'))
      (fun m =>
         run (m', x) <- s_pop c m;
         fun s => (mk_stats (extra_bytes s) (push_bytes s)
                     (add_at (pop_bytes s) step (nbytes m - nbytes m')),
                   Ok (m', x))).

(** codec.py L370-374, the loop of prior_push: [step] runs from 1 along the
    list. *)
Fixpoint prior_push_loop (step : nat) (ls : list discr_latent) (m : M) : eff M :=
  match ls with
  | [] => ret m
  | l :: ls' =>
      run m' <- s_push (track_codec (of_prim prior_codec) step) m (fst l);
      prior_push_loop (S step) ls' m'
  end.

(** codec.py L358-374 (prior_push). *)
Definition prior_push (m : M) (ls : list discr_latent) : eff M :=
  if Nat.eqb (length ls) steps then prior_push_loop 1 ls m else raise AssertionError.

(** codec.py L391-404, the loop of prior_pop: [step] runs down to 1.  The list is
    kept newest first, so it is already the reversed list that is returned. *)
Fixpoint prior_pop_loop (step : nat) (m : M) (acc : list discr_latent)
    : eff (M * list discr_latent) :=
  match step with
  | O => ret (m, acc)
  | S step' =>
      run params <-
        (if Nat.eqb step steps then ret std_params
         else match acc with
              | l :: _ => ret (generate_fn (to_latent l) step)
              | [] => raise IndexError
              end);
      run (m', inds) <- s_pop (track_codec (of_prim prior_codec) step) m;
      prior_pop_loop step' m' ((inds, params) :: acc)
  end.

(** codec.py L376-404 (prior_pop). *)
Definition prior_pop (m : M) : eff (M * list discr_latent) := prior_pop_loop steps m [].

(** codec.py L437-453, the loop of posterior_push. *)
Fixpoint post_push_loop (data : array) (step : nat) (ls : list discr_latent) (m : M)
    : eff M :=
  match ls with
  | [] => ret m
  | l :: ls' =>
      run post_params <-
        (if Nat.ltb step steps
         then match ls' with
              | next :: _ => ret (generate_post_fn (to_latent next) step data)
              | [] => raise IndexError
              end
         else ret (infer_fn data));
      run m' <- s_push (track_codec (of_prim (post_codec post_params (snd l))) step)
                       m (fst l);
      post_push_loop data (S step) ls' m'
  end.

(** codec.py L422-454 (posterior_push). *)
Definition posterior_push (data : array) (m : M) (ls : list discr_latent) : eff M :=
  if Nat.eqb (length ls) steps then post_push_loop data 1 ls m else raise AssertionError.

(** codec.py L470-483, the loop of posterior_pop. *)
Fixpoint post_pop_loop (data : array) (step : nat) (m : M) (acc : list discr_latent)
    : eff (M * list discr_latent) :=
  match step with
  | O => ret (m, acc)
  | S step' =>
      run (prior_params, post_params) <-
        (if Nat.eqb step steps then ret (std_params, infer_fn data)
         else match acc with
              | l :: _ => ret (generate_fn (to_latent l) step,
                               generate_post_fn (to_latent l) step data)
              | [] => raise IndexError
              end);
      run (m', inds) <-
        s_pop (track_codec (of_prim (post_codec post_params prior_params)) step) m;
      post_pop_loop data step' m' ((inds, prior_params) :: acc)
  end.

(** codec.py L456-489 (posterior_pop); [data_count] and [initial_bytes] are read
    from the object. *)
Definition posterior_pop (data_count initial_bytes : Z) (data : array) (m : M)
    : eff (M * list discr_latent) :=
  run (m', ls) <- post_pop_loop data steps m [];
  fun s =>
    (if data_count =? 0
     then mk_stats (initial_bytes - nbytes m') (push_bytes s) (pop_bytes s)
     else s, Ok (m', ls)).

(** codec.py L493-523 (likelihood). *)
Definition likelihood (ls : list discr_latent) : eff (scodec M array) :=
  if Nat.eqb (length ls) steps then
    match ls with
    | l :: _ => ret (track_codec (of_prim (lik_codec (generate_fn (to_latent l) 0))) 0)
    | [] => raise IndexError
    end
  else raise AssertionError.

(** codec.py L268-281 (bb_ans) with craystack's BBANS; the docstrings of encode
    and decode (L573-576, L602-605) give the order.  cs.substack with
    _model_view only reshapes the head, which has data_size elements. *)
Definition bb_push (data_count initial_bytes : Z) (m : M) (data : array) : eff M :=
  run (m1, ls) <- posterior_pop data_count initial_bytes data m;
  run lik <- likelihood ls;
  run m2 <- s_push lik m1 data;
  prior_push m2 ls.

Definition bb_pop (m : M) : eff (M * array) :=
  run (m1, ls) <- prior_pop m;
  run lik <- likelihood ls;
  run (m2, data) <- s_pop lik m1;
  run m3 <- posterior_push data m2 ls;
  ret (m3, data).

(** The codec object, codec.py L227-258. *)
Record obj := mk_obj {
  message : M;
  data_count : Z;
  initial_bytes : Z;
  o_stats : stats
}.

(** codec.py L244-258: the object after construction, given the random initial
    message. *)
Definition new_codec (m0 : M) : obj :=
  mk_obj m0 0 (nbytes m0) (mk_stats 0 (repeat 0 (S steps)) (repeat 0 (S steps))).

(** codec.py L583-594: the checks of encode.  numpy's min of an empty array
    raises ValueError too.  The last test is true of every numpy array: it rejects
    the elements of [array] that are none. *)
Definition check_data (a : array) : bool :=
  match vals a with
  | [] => false
  | x :: l =>
      negb ((fold_left Z.min l x <? 0) || (2 ^ data_prec - 1 <? fold_left Z.max l x))
      && (if list_eq_dec Z.eq_dec (shape a) data_shape then true else false)
      && (Z.of_nat (length (vals a)) =? fold_right Z.mul 1 (shape a))
  end.

(** codec.py L572-599 (encode): the new object and what the call returned. *)
Definition encode (o : obj) (data : array) : obj * res M :=
  if negb (check_data data) then (o, Raise ValueError)
  else
    match bb_push (data_count o) (initial_bytes o) (message o) data (o_stats o) with
    | (s, Ok m) => (mk_obj m (data_count o + 1) (initial_bytes o) s, Ok m)
    | (s, Raise e) => (mk_obj (message o) (data_count o) (initial_bytes o) s, Raise e)
    end.

(** codec.py L601-614 (decode). *)
Definition decode (o : obj) : obj * res (M * array) :=
  match bb_pop (message o) (o_stats o) with
  | (s, Ok (m, data)) => (mk_obj m (data_count o - 1) (initial_bytes o) s, Ok (m, data))
  | (s, Raise e) => (mk_obj (message o) (data_count o) (initial_bytes o) s, Raise e)
  end.

(** codec.py L616-644 (statistics): the three rates and the number of samples.
    A rate is 8 * bytes / (data_count * data_size); the model returns the byte
    counts, the common factor (ZeroDivisionError at data_count = 0) being the
    same for all. *)
Record codec_stats := mk_codec_stats {
  samples : Z; bytes_total : Z; bytes_used : Z; bytes_effective : Z;
  bytes_push : option (list Z); bytes_pop : option (list Z)
}.
Definition statistics (o : obj) : codec_stats :=
  mk_codec_stats (data_count o * nth 0 data_shape 0)
    (nbytes (message o))
    (nbytes (message o) - initial_bytes o + extra_bytes (o_stats o))
    (nbytes (message o) - initial_bytes o)
    (if track then Some (push_bytes (o_stats o)) else None)
    (if track then Some (pop_bytes (o_stats o)) else None).
End Codec.

(** codec.py L646-661 (state_dict) and L663-675 (load_state_dict), on saved
    copies: np.savez writes the arrays to disk (encode.py L148-149).  The
    dictionary is an association list from keys to values; cs.flatten and
    cs.unflatten are parameters.  [setattr] with a key that is not an attribute of
    the class creates an attribute nobody reads. *)
Inductive key :=
  K_flat_message | K_data_count | K_extr_bytes | K_extra_bytes | K_push_bytes | K_pop_bytes
| K_initial_bytes.

Section State.
Variables (M F : Type).
Variable flatten : M -> F.
Variable unflatten : F -> M.

Inductive value := V_flat (f : F) | V_int (z : Z) | V_arr (l : list Z).

Definition state_dict (o : obj M) : list (key * value) :=
  [(K_flat_message, V_flat (flatten (message M o)));
   (K_data_count, V_int (data_count M o));
   (K_extr_bytes, V_int (extra_bytes (o_stats M o)));
   (K_push_bytes, V_arr (push_bytes (o_stats M o)));
   (K_pop_bytes, V_arr (pop_bytes (o_stats M o)));
   (K_initial_bytes, V_int (initial_bytes M o))].

Definition set_attr (o : obj M) (kv : key * value) : obj M :=
  let '(mk_obj _ m c i (mk_stats e pu po)) := o in
  match kv with
  | (K_flat_message, V_flat f) => mk_obj M (unflatten f) c i (mk_stats e pu po)
  | (K_data_count, V_int z) => mk_obj M m z i (mk_stats e pu po)
  | (K_extra_bytes, V_int z) => mk_obj M m c i (mk_stats z pu po)
  | (K_push_bytes, V_arr l) => mk_obj M m c i (mk_stats e l po)
  | (K_pop_bytes, V_arr l) => mk_obj M m c i (mk_stats e pu l)
  | (K_initial_bytes, V_int z) => mk_obj M m c z (mk_stats e pu po)
  | _ => o
  end.

Definition load_state_dict (o : obj M) (d : list (key * value)) : obj M :=
  fold_left set_attr d o.
End State.

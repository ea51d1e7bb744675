(** The diffusion codec meets what the theorems of Job_Props ask of the codec (C24). *)
From Coq Require Import ZArith List Bool Lia.
From Verif Require Import Base Job_Spec Diff_Model Diff_Spec Diff_Proofs Diff_Examples.
Import ListNotations.
Open Scope Z_scope.

(** ** The diffusion codec is such a codec *)
Section Diff.
Context {M Par Lat Inds F : Type}.
Variable nbytes : M -> Z.
Variable prior_codec : prim M Inds.
Variable post_codec : Par -> Par -> prim M Inds.
Variable lik_codec : Par -> prim M array.
Variable std_params : Par.
Variable to_latent : Inds * Par -> Lat.
Variable steps : nat.
Variable infer_fn : array -> Par.
Variable generate_fn : Lat -> nat -> Par.
Variable generate_post_fn : Lat -> nat -> array -> Par.
Variable track : bool.
Variable data_shape : list Z.
Variable data_prec : Z.
Variable flatten : M -> F.
Variable unflatten : F -> M.
Notation enc := (encode M Par Lat Inds nbytes prior_codec post_codec lik_codec std_params
  to_latent steps infer_fn generate_fn generate_post_fn track data_shape data_prec).
Notation dec := (decode M Par Lat Inds nbytes prior_codec post_codec lik_codec std_params
  to_latent steps infer_fn generate_fn generate_post_fn track).
Notation valid := (valid_data data_shape data_prec).

(** codec.encode(batch) and codec.decode() as the job calls them. *)
Definition job_enc (o : obj M) (b : array) : res (obj M) := let '(o', r) := enc o b in do _ <- r; Ok o'.
Definition job_dec (o : obj M) : res (obj M * array) := let '(o', r) := dec o in do (_, b) <- r; Ok (o', b).

Theorem job_diffusion_codec (wf : M -> Prop) (Vi : Inds -> Prop) (batches : nat -> array) :
  push_pop wf Vi prior_codec -> (forall a b, pop_push wf Vi (post_codec a b)) ->
  (forall a, push_pop wf valid (lik_codec a)) ->
  (forall m x, wf m -> Vi x -> exists m', p_push prior_codec m x = Ok m') ->
  (forall a b m, wf m -> exists r, p_pop (post_codec a b) m = Ok r) ->
  (forall a m d, wf m -> valid d -> exists m', p_push (lik_codec a) m d = Ok m') ->
  (1 <= steps)%nat -> (forall i, valid (batches i)) -> (forall m, unflatten (flatten m) = m) ->
  good_codec job_enc job_dec (data_count M) (state_dict M F flatten) (load_state_dict M F unflatten) batches
    (fun o => (message M o, data_count M o))
    (fun o => wf (message M o) /\ data_count M o = 0).
Proof.
  intros H1 H2 H3 T1 T2 T3 HS HV HF.
  assert (EV := encode_val nbytes prior_codec post_codec lik_codec std_params to_latent steps infer_fn
    generate_fn generate_post_fn track data_shape data_prec).
  assert (DV := decode_val nbytes prior_codec post_codec lik_codec std_params to_latent steps infer_fn
    generate_fn generate_post_fn track).
  assert (CD := check_data_spec data_shape data_prec).
  split; [now intros s [_ H]|]. split; [intros s s' H; now injection H|]. split; [|split; [|split]].
  - intros s s' b t H E. injection H as Hm Hc. unfold job_enc in *.
    pose proof (EV s b) as V. pose proof (EV s' b) as V'. destruct (enc s b) as [o r], (enc s' b) as [o' r'].
    destruct V as [V VN], V' as [V' VN'].
    assert (D : valid b \/ ~ valid b).
    { destruct (check_data data_shape data_prec b) eqn:C; [left; now apply CD | right; intro X; apply CD in X; congruence]. }
    destruct D as [D|D]; [|destruct (VN D) as [_ ->]; discriminate].
    destruct (V D) as (A1 & _ & A3), (V' D) as (A1' & _ & A3'). rewrite Hm in A1.
    assert (RR : r' = r) by congruence. rewrite RR in *. clear RR. destruct r as [m|]; [|discriminate]. cbn [bind] in *.
    injection E as <-. exists o'. split; [reflexivity|]. f_equal; [destruct A3, A3'; congruence | lia].
  - intros s s' t b H E. injection H as Hm Hc. unfold job_dec in *.
    pose proof (DV s) as V. pose proof (DV s') as V'. destruct (dec s) as [o r], (dec s') as [o' r'].
    destruct V as (A1 & _ & A3), V' as (A1' & _ & A3'). rewrite Hm in A1.
    assert (RR : r' = r) by congruence. rewrite RR in *. clear RR. destruct r as [[m x]|]; [|discriminate]. cbn [bind] in *.
    injection E as <- <-. exists o'. split; [reflexivity|]. f_equal; [destruct A3, A3'; congruence | lia].
  - intros s s1. unfold load_state_dict, state_dict. destruct s1 as [? ? ? [? ? ?]], s as [? ? ? [? ? ?]]. cbn.
    now rewrite HF.
  - assert (W : forall s0 k s, wf (message M s0) -> uninterrupted job_enc batches s0 k = Ok s -> wf (message M s)).
    { induction k as [|k IH]; intros s Hw E; cbn in E; [now injection E as <-|].
      destruct (uninterrupted job_enc batches s0 k) as [t|]; [|discriminate]. cbn [bind] in E.
      specialize (IH t Hw eq_refl).
      assert (X : encode_all enc t [batches k] = Ok s).
      { cbn. unfold job_enc in E. destruct (enc t (batches k)) as [o' [m|]]; [exact E | discriminate]. }
      now destruct (lossless nbytes prior_codec post_codec lik_codec std_params to_latent steps infer_fn
        generate_fn generate_post_fn track data_shape data_prec wf Vi H1 H2 H3 [batches k] t s IH X). }
    intros s0 k s [Hw _] E. specialize (W s0 k s Hw E).
    destruct (encode_succeeds nbytes prior_codec post_codec lik_codec std_params to_latent steps infer_fn
        generate_fn generate_post_fn track data_shape data_prec wf Vi H1 H2 H3 T1 T2 T3 HS [batches k] s W
        ltac:(repeat constructor; apply HV)) as (s' & X).
    destruct (lossless nbytes prior_codec post_codec lik_codec std_params to_latent steps infer_fn
        generate_fn generate_post_fn track data_shape data_prec wf Vi H1 H2 H3 [batches k] s s' W X) as (_ & C & D).
    destruct (D s' eq_refl) as (o2 & D1 & D2 & D3). exists s'. split; [|split].
    + unfold job_enc. cbn in X. destruct (enc s (batches k)) as [o' [m|]]; [exact X | discriminate].
    + cbn [length] in C. lia.
    + cbn [length] in *. exists o2. cbn [decode_all] in D1. unfold job_dec. destruct (dec s') as [o3 [[m b]|]]; [|discriminate].
      cbn [bind rev app] in *. injection D1 as <- ->. split; [reflexivity|]. f_equal; [exact D2 | lia].
Qed.
End Diff.
Print Assumptions job_diffusion_codec.

(** The instance of the diffusion codec. *)
Example job_diffusion_example (batches : nat -> array) : (forall i, valid_data Sh 2 (batches i)) ->
  good_codec
    (job_enc ex_nbytes ex_prior ex_post ex_lik 0 ex_to_latent 3 ex_infer ex_gen ex_gen_post true Sh 2)
    (job_dec ex_nbytes ex_prior ex_post ex_lik 0 ex_to_latent 3 ex_infer ex_gen ex_gen_post true)
    (data_count Z) (state_dict Z Z (fun m => m)) (load_state_dict Z Z (fun m => m)) batches
    (fun o => (message Z o, data_count Z o)) (fun o => 0 <= message Z o /\ data_count Z o = 0).
Proof.
  intro HV. apply job_diffusion_codec with (Vi := small 4).
  - exact ex_prior_push_pop.
  - exact ex_post_pop_push.
  - exact ex_lik_push_pop.
  - exact ex_prior_total.
  - exact ex_post_total.
  - exact ex_lik_total.
  - lia.
  - exact HV.
  - reflexivity.
Qed.


(** Property theorems for the diffusion bits-back codec (C18-C22).  The model is
    Diff_Model and Diff_QModel, the vocabulary Diff_Spec; the instance of
    Diff_Examples meets the hypotheses. *)
From Coq Require Import ZArith Reals List Bool Lia Lra.
From Verif Require Import Base RBase Diff_Model Diff_Spec Diff_Proofs Diff_Trace Diff_QModel Diff_Quant Diff_Examples.
Import ListNotations.
Open Scope Z_scope.

Section Any.
(** The craystack codecs, the model and the constructor's arguments. *)
Context {M Par Lat Inds : Type}.
Variable nbytes : M -> Z.
Variable prior_codec : prim M Inds.
Variable post_codec : Par -> Par -> prim M Inds.
Variable lik_codec : Par -> prim M array.
Variable std_params : Par.
Variable to_latent : Inds * Par -> Lat.
Variable steps : nat.
Variable infer_fn : array -> Par.
Variable generate_fn : Lat -> nat -> Par.
Variable generate_post_fn : Lat -> nat -> array -> Par.
Variable track : bool.
Variable data_shape : list Z.
Variable data_prec : Z.

Notation enc := (encode M Par Lat Inds nbytes prior_codec post_codec lik_codec std_params
  to_latent steps infer_fn generate_fn generate_post_fn track data_shape data_prec).
Notation dec := (decode M Par Lat Inds nbytes prior_codec post_codec lik_codec std_params
  to_latent steps infer_fn generate_fn generate_post_fn track).
Notation stats_of := (statistics M nbytes track data_shape).
Notation valid := (valid_data data_shape data_prec).

(* ------------------------------------------------------------------ *)
(** ** C18: lossless over histories *)

(** After any sequence of encodes, as many decodes of the final message (by the
    same object or by any other one holding this message) give the batches in
    reverse order and the original message; data_count follows. *)
Theorem diff_lossless (wf : M -> Prop) (Vi : Inds -> Prop) :
  push_pop wf Vi prior_codec -> (forall a b, pop_push wf Vi (post_codec a b)) ->
  (forall a, push_pop wf valid (lik_codec a)) ->
  forall ds o o', wf (message M o) -> encode_all enc o ds = Ok o' ->
  wf (message M o') /\ data_count M o' = data_count M o + Z.of_nat (length ds) /\
  forall o1, message M o1 = message M o' ->
  exists o2, decode_all dec o1 (length ds) = Ok (o2, rev ds) /\
    message M o2 = message M o /\ data_count M o2 = data_count M o1 - Z.of_nat (length ds).
Proof. apply lossless. Qed.

(** Encoding succeeds on all valid data if no codec raises. *)
Theorem diff_encode_succeeds (wf : M -> Prop) (Vi : Inds -> Prop) :
  push_pop wf Vi prior_codec -> (forall a b, pop_push wf Vi (post_codec a b)) ->
  (forall a, push_pop wf valid (lik_codec a)) ->
  (forall m x, wf m -> Vi x -> exists m', p_push prior_codec m x = Ok m') ->
  (forall a b m, wf m -> exists r, p_pop (post_codec a b) m = Ok r) ->
  (forall a m d, wf m -> valid d -> exists m', p_push (lik_codec a) m d = Ok m') ->
  (1 <= steps)%nat ->
  forall ds o, wf (message M o) -> Forall valid ds -> exists o', encode_all enc o ds = Ok o'.
Proof. apply encode_succeeds. Qed.

(** The other direction: decoding samples from any message and encoding them again
    restores it. *)
Theorem diff_sampling_invertible (wf : M -> Prop) (Vi : Inds -> Prop) :
  pop_push wf Vi prior_codec -> (forall a b, push_pop wf Vi (post_codec a b)) ->
  (forall a, pop_push wf valid (lik_codec a)) ->
  forall k o o' ds, wf (message M o) -> decode_all dec o k = Ok (o', ds) ->
  wf (message M o') /\ data_count M o' = data_count M o - Z.of_nat k /\ Forall valid ds /\
  forall o1, message M o1 = message M o' ->
  exists o2, encode_all enc o1 (rev ds) = Ok o2 /\
    message M o2 = message M o /\ data_count M o2 = data_count M o1 + Z.of_nat k.
Proof. apply reencode. Qed.

(* ------------------------------------------------------------------ *)
(** ** C19: rate accounting *)

(** After every history of successful calls the pushed minus the popped bytes of
    all steps add up to the effective size reported by [statistics]. *)
Theorem diff_rate_accounting : track = true -> forall cs m0 o rs,
  calls enc dec (new_codec M nbytes steps m0) cs = (o, rs) ->
  Forall (fun r => exists x, r = Ok x) rs ->
  exists pu po, bytes_push (stats_of o) = Some pu /\ bytes_pop (stats_of o) = Some po /\
    length pu = S steps /\ length po = S steps /\
    sum pu - sum po = bytes_effective (stats_of o) /\
    bytes_effective (stats_of o) = nbytes (message M o) - nbytes m0.
Proof.
  intros HT cs m0.
  assert (G : forall cs o o' rs, accounted nbytes steps o -> calls enc dec o cs = (o', rs) ->
    Forall (fun r => exists x, r = Ok x) rs ->
    accounted nbytes steps o' /\ initial_bytes M o' = initial_bytes M o).
  { clear cs. induction cs as [|c cs IH]; intros o o' rs A E F; cbn [calls] in E.
    - injection E as <- <-. split; [exact A | reflexivity].
    - destruct (do_call enc dec o c) as [o1 r] eqn:E1.
      destruct (calls enc dec o1 cs) as [o2 rs2] eqn:E2. injection E as <- <-.
      apply Forall_cons_iff in F. destruct F as [(x & ->) F'].
      assert (A1 : accounted nbytes steps o1 /\ initial_bytes M o1 = initial_bytes M o).
      { destruct c as [d|]; cbn [do_call] in E1.
        - destruct (enc o d) as [oa ra] eqn:EA. injection E1 as <- E1. destruct ra as [m|e]; [|discriminate].
          split; [eapply encode_accounted; [exact HT | exact A | exact EA]|].
          unfold encode in EA. destruct (negb _); [discriminate|].
          destruct (bb_push _ _ _ _ _ _ _ _ _ _ _ _ _ _ _ _ _ _ _ _) as [s [m'|e]]; [|discriminate].
          injection EA as <- _. reflexivity.
        - destruct (dec o) as [oa ra] eqn:EA. injection E1 as <- E1. destruct ra as [[m d]|e]; [|discriminate].
          split; [eapply decode_accounted; [exact HT | exact A | exact EA]|].
          pose proof (decode_val nbytes prior_codec post_codec lik_codec std_params to_latent steps infer_fn
            generate_fn generate_post_fn track o) as V. rewrite EA in V. tauto. }
      destruct A1 as [A1 I1]. destruct (IH o1 o2 rs2 A1 E2 F') as [A2 I2]. split; [exact A2 | congruence]. }
  intros o rs E F. destruct (G cs _ o rs (new_accounted nbytes steps m0) E F) as [[[L1 L2] B] I0].
  cbn [new_codec initial_bytes] in I0. unfold statistics. rewrite HT. cbn.
  do 2 eexists. do 2 (split; [reflexivity|]). split; [exact L1|]. split; [exact L2|].
  unfold bal in B. split; [exact B | now rewrite I0].
Qed.

(** One encode: the growth of the message is what was pushed minus what was popped
    by this call. *)
Theorem diff_rate_accounting_one : track = true -> forall cs m0 o rs d o' m,
  calls enc dec (new_codec M nbytes steps m0) cs = (o, rs) ->
  Forall (fun r => exists x, r = Ok x) rs -> enc o d = (o', Ok m) ->
  (sum (push_bytes (o_stats M o')) - sum (push_bytes (o_stats M o)))
  - (sum (pop_bytes (o_stats M o')) - sum (pop_bytes (o_stats M o)))
  = nbytes (message M o') - nbytes (message M o).
Proof.
  intros HT cs m0 o rs d o' m E F E1.
  assert (C : forall cs o1, calls enc dec o1 (cs ++ [Enc d]) =
    (let '(oa, ra) := calls enc dec o1 cs in
     let '(ob, rb) := do_call enc dec oa (Enc d) in (ob, ra ++ [rb]))).
  { clear. induction cs as [|c cs IH]; intro o1.
    - cbn [app calls]. destruct (do_call enc dec o1 (Enc d)). reflexivity.
    - cbn [app calls]. destruct (do_call enc dec o1 c) as [oa ra]. rewrite IH.
      destruct (calls enc dec oa cs) as [ob rb]. destruct (do_call enc dec ob (Enc d)). reflexivity. }
  specialize (C cs (new_codec M nbytes steps m0)). rewrite E in C. cbn [do_call] in C. rewrite E1 in C.
  destruct (diff_rate_accounting HT cs m0 o rs E F) as (pu & po & P1 & P2 & _ & _ & P3 & P4).
  destruct (diff_rate_accounting HT (cs ++ [Enc d]) m0 _ _ C) as (pu' & po' & Q1 & Q2 & _ & _ & Q3 & Q4).
  { apply Forall_app. split; [exact F|]. constructor; [cbn [bind]; eexists; reflexivity | constructor]. }
  unfold statistics in P1, P2, Q1, Q2. rewrite HT in P1, P2, Q1, Q2. cbn in P1, P2, Q1, Q2.
  injection P1 as <-. injection P2 as <-. injection Q1 as <-. injection Q2 as <-. lia.
Qed.

(** Over any history of calls, those that raise included, the reported number of samples is the
    number of batches encoded less the number decoded, times the batch size, and the reported total
    is the size of the message; a call that raises changes neither. *)
Fixpoint net_batches (cs : list call) (rs : list (res (M * option array))) : Z :=
  match cs, rs with
  | Enc _ :: cs', Ok _ :: rs' => 1 + net_batches cs' rs'
  | Dec :: cs', Ok _ :: rs' => -1 + net_batches cs' rs'
  | _ :: cs', Raise _ :: rs' => net_batches cs' rs'
  | _, _ => 0
  end.
Theorem diff_samples : forall cs m0 o rs b rest, data_shape = b :: rest ->
  calls enc dec (new_codec M nbytes steps m0) cs = (o, rs) ->
  samples (stats_of o) = net_batches cs rs * b /\ bytes_total (stats_of o) = nbytes (message M o).
Proof.
  intros cs m0 o rs b rest D E. split; [|reflexivity]. unfold statistics. cbn [samples]. rewrite D. cbn [nth]. f_equal.
  assert (G : forall cs o o' rs, calls enc dec o cs = (o', rs) -> data_count M o' = data_count M o + net_batches cs rs).
  { clear. induction cs as [|c cs IH]; intros o o' rs E; cbn [calls] in E.
    - injection E as <- <-. cbn. lia.
    - destruct (do_call enc dec o c) as [o1 r] eqn:E1. destruct (calls enc dec o1 cs) as [o2 rs2] eqn:E2. injection E as <- <-.
      rewrite (IH _ _ _ E2). destruct c as [d|]; cbn [do_call] in E1.
      + destruct (enc o d) as [oa ra] eqn:EA. injection E1 as <- <-. unfold encode in EA. destruct (negb _).
        * injection EA as <- <-. reflexivity.
        * destruct (bb_push _ _ _ _ _ _ _ _ _ _ _ _ _ _ _ _ _ _ _ _) as [s [m'|e]]; injection EA as <- <-; cbn [bind net_batches data_count]; lia.
      + destruct (dec o) as [oa ra] eqn:EA. injection E1 as <- <-. unfold decode in EA.
        destruct (bb_pop _ _ _ _ _ _ _ _ _ _ _ _ _ _ _ _ _) as [s [[m' d]|e]]; injection EA as <- <-; cbn [bind net_batches data_count]; lia. }
  rewrite (G _ _ _ _ E). cbn. lia.
Qed.
(** The prior takes one latent for each step and no other number of them. *)
Theorem diff_prior_count : forall m ls s, length ls <> steps ->
  prior_push M Par Inds nbytes prior_codec steps track m ls s = (s, Raise AssertionError).
Proof. intros m ls s N. unfold prior_push. apply Nat.eqb_neq in N. now rewrite N. Qed.

(** Step by step: a successful encode pops latent k from its posterior, for k from
    the number of steps down to 1, pushes the data with the likelihood and pushes
    the latents with the prior, and books the bytes of each on its step.
    ([diff_rate_accounting] gives the lengths for every reachable codec.) *)
Theorem diff_rate_per_step (o : obj M) d o' m' :
  length (push_bytes (o_stats M o)) = S steps -> length (pop_bytes (o_stats M o)) = S steps ->
  enc o d = (o', Ok m') ->
  exists ls f g,
    encode_trace prior_codec post_codec lik_codec std_params to_latent steps infer_fn generate_fn
      generate_post_fn (message M o) d m' ls f g /\
    message M o' = m' /\
    extra_bytes (o_stats M o') = (if data_count M o =? 0 then initial_bytes M o - nbytes (f 0%nat)
                                  else extra_bytes (o_stats M o)) /\
    (track = true -> forall k, (k <= steps)%nat ->
       nth k (push_bytes (o_stats M o')) 0 = nth k (push_bytes (o_stats M o)) 0 +
         (nbytes (g k) - nbytes (if Nat.eqb k 0 then f 0%nat else g (k - 1)%nat)) /\
       nth k (pop_bytes (o_stats M o')) 0 = nth k (pop_bytes (o_stats M o)) 0 +
         (if Nat.eqb k 0 then 0 else nbytes (f k) - nbytes (f (k - 1)%nat))) /\
    (track = false -> forall k, nth k (push_bytes (o_stats M o')) 0 = nth k (push_bytes (o_stats M o)) 0 /\
                                nth k (pop_bytes (o_stats M o')) 0 = nth k (pop_bytes (o_stats M o)) 0).
Proof. intros A B. apply encode_traced. exact (conj A B). Qed.

(** The used size counts the bits borrowed from the initial message: the smallest
    message met by the first encode is what was not needed. *)
Theorem diff_bytes_used (o : obj M) d o' m : data_count M o = 0 -> enc o d = (o', Ok m) ->
  exists m1 ls,
    out (post_pop_loop M Par Lat Inds nbytes post_codec std_params to_latent steps infer_fn generate_fn
           generate_post_fn track d steps (message M o) []) = Ok (m1, ls) /\
    bytes_used (stats_of o') = nbytes (message M o') - nbytes m1.
Proof.
  intros H E.
  destruct (first_encode nbytes prior_codec post_codec lik_codec std_params to_latent steps infer_fn
    generate_fn generate_post_fn track data_shape data_prec o d o' m H ltac:(destruct track; auto) E)
    as (m1 & ls & A & B).
  exists m1, ls. split; [exact A|]. cbn [statistics bytes_used]. rewrite B.
  assert (I1 : initial_bytes M o' = initial_bytes M o).
  { unfold encode in E. destruct (negb _); [discriminate|].
    destruct (bb_push _ _ _ _ _ _ _ _ _ _ _ _ _ _ _ _ _ _ _ _) as [s [m'|e]]; [|discriminate].
    injection E as <- _. reflexivity. }
  lia.
Qed.

(* ------------------------------------------------------------------ *)
(** ** C21: checkpoints *)

Section Checkpoint.
Context {F : Type}.
Variable flatten : M -> F.
Variable unflatten : F -> M.
Hypothesis unflatten_flatten : forall m, unflatten (flatten m) = m.

(** The loaded codec has the saved message, data_count, initial size and byte
    counts per step, and every later sequence of calls returns the same and keeps
    agreeing.  Missing: [extra_bytes], see the refutation below. *)
Theorem diff_checkpoint_restores (o1 o : obj M) :
  let o2 := load_state_dict M F unflatten o1 (state_dict M F flatten o) in
  agree_but_extra o2 o /\
  forall cs, snd (calls enc dec o2 cs) = snd (calls enc dec o cs) /\
             agree_but_extra (fst (calls enc dec o2 cs)) (fst (calls enc dec o cs)).
Proof.
  cbv zeta. set (o2 := load_state_dict M F unflatten o1 (state_dict M F flatten o)).
  assert (A : agree_but_extra o2 o).
  { unfold o2, load_state_dict, state_dict. destruct o1 as [? ? ? [? ? ?]], o as [? ? ? [? ? ?]]. cbn.
    rewrite unflatten_flatten. unfold agree_but_extra. cbn. auto. }
  split; [exact A|]. intro cs.
  destruct (calls_agree nbytes prior_codec post_codec lik_codec std_params to_latent steps infer_fn
    generate_fn generate_post_fn track data_shape data_prec cs o2 o A) as [B C]. auto.
Qed.

(** Loading from any state whose extra_bytes already agrees restores everything. *)
Theorem diff_checkpoint_same_extra (o1 o : obj M) :
  extra_bytes (o_stats M o1) = extra_bytes (o_stats M o) ->
  load_state_dict M F unflatten o1 (state_dict M F flatten o) = o.
Proof.
  unfold load_state_dict, state_dict. destruct o1 as [? ? ? [? ? ?]], o as [? ? ? [? ? ?]]. cbn.
  intros ->. now rewrite unflatten_flatten.
Qed.
End Checkpoint.

(* ------------------------------------------------------------------ *)
(** ** C22: validation *)

Theorem diff_encode_validates (o : obj M) d :
  (~ valid d -> enc o d = (o, Raise ValueError)) /\
  (valid d -> forall o' m, enc o d = (o', Ok m) ->
     message M o' = m /\ data_count M o' = data_count M o + 1 /\ initial_bytes M o' = initial_bytes M o) /\
  (forall o' e, enc o d = (o', Raise e) ->
     message M o' = message M o /\ data_count M o' = data_count M o /\ initial_bytes M o' = initial_bytes M o).
Proof.
  pose proof (encode_val nbytes prior_codec post_codec lik_codec std_params to_latent steps infer_fn
    generate_fn generate_post_fn track data_shape data_prec o d) as V.
  destruct (enc o d) as [o' r]. destruct V as [V1 V2]. split; [|split].
  - intro H. destruct (V2 H) as [-> ->]. reflexivity.
  - intros H o2 m E. injection E as <- ->. destruct (V1 H) as (_ & I1 & A & B). auto.
  - intros o2 e E. injection E as <- ->.
    assert (D : valid d \/ ~ valid d).
    { destruct (check_data data_shape data_prec d) eqn:C; [left | right].
      - now apply check_data_spec.
      - intro H. apply check_data_spec in H. congruence. }
    destruct D as [D|D].
    + destruct (V1 D) as (_ & I1 & A & B). auto.
    + destruct (V2 D) as [-> _]. auto.
Qed.
End Any.

Print Assumptions diff_lossless.
Print Assumptions diff_encode_succeeds.
Print Assumptions diff_sampling_invertible.
Print Assumptions diff_rate_accounting.
Print Assumptions diff_rate_accounting_one.
Print Assumptions diff_rate_per_step.
Print Assumptions diff_bytes_used.
Print Assumptions diff_checkpoint_restores.
Print Assumptions diff_checkpoint_same_extra.
Print Assumptions diff_encode_validates.

(** Accounting does not survive a call that raises: the posterior runs out of bits
    after one successful pop, the message is kept but the popped bytes are counted. *)
Theorem diff_accounting_after_error_refuted : exists o,
  low_encode ex_new (arr 3) = (o, Raise IndexError) /\ message Z o = message Z ex_new /\
  sum (push_bytes (o_stats Z o)) - sum (pop_bytes (o_stats Z o))
  <> ex_nbytes (message Z o) - initial_bytes Z o.
Proof. eexists. split; [vm_compute; reflexivity|]. split; [reflexivity|]. vm_compute. discriminate. Qed.
Print Assumptions diff_accounting_after_error_refuted.

(** C21 as stated fails: extra_bytes is saved under a key that load_state_dict
    does not map to it, so the loaded codec reports another used size. *)
Theorem diff_checkpoint_refuted : exists o m,
  ex_encode true ex_new (arr 3) = (o, Ok m) /\
  let o2 := load_state_dict Z Z (fun m => m) ex_new (state_dict Z Z (fun m => m) o) in
  extra_bytes (o_stats Z o2) <> extra_bytes (o_stats Z o) /\
  bytes_used (statistics Z ex_nbytes true Sh o2) <> bytes_used (statistics Z ex_nbytes true Sh o).
Proof.
  do 2 eexists. split; [vm_compute; reflexivity|]. cbv zeta. split; vm_compute; discriminate.
Qed.
Print Assumptions diff_checkpoint_refuted.

(* ------------------------------------------------------------------ *)
(** ** C20: quantisation *)
Open Scope R_scope.

Theorem diff_quantize_symbols (lo hi : R) (p d : Z) : lo < hi -> (1 <= p)%Z ->
  quantize lo hi p (dequantize lo hi p d) = d.
Proof. apply quantize_dequantize. Qed.
(** also with rounding errors below half a bin *)
Theorem diff_quantize_close (lo hi : R) (p d : Z) (x : R) : lo < hi -> (1 <= p)%Z ->
  Rabs (x - dequantize lo hi p d) < (hi - lo) / (2 * IZR (2 ^ p - 1)) -> quantize lo hi p x = d.
Proof. apply quantize_close. Qed.
Theorem diff_quantize_half_bin (lo hi : R) (p : Z) (x : R) : lo < hi -> (1 <= p)%Z ->
  Rabs (x - dequantize lo hi p (quantize lo hi p x)) <= (hi - lo) / (2 * IZR (2 ^ p - 1)).
Proof. apply quantize_error. Qed.
Theorem diff_quantize_range (lo hi : R) (p : Z) (x : R) : lo < hi -> (1 <= p)%Z -> lo <= x <= hi ->
  (0 <= quantize lo hi p x < 2 ^ p)%Z.
Proof. apply quantize_range. Qed.
(** The likelihood's bin of a symbol contains the symbol's value for data ranges of
    length at least one, and is centred on it for the default range [-1, 1]. *)
Theorem diff_bins_contain (lo hi : R) (p i : Z) : 1 <= hi - lo -> (1 <= p)%Z -> (0 <= i < 2 ^ p)%Z ->
  bin_edge lo hi p i <= dequantize lo hi p i <= bin_edge lo hi p (i + 1).
Proof. apply bins_contain. Qed.
Theorem diff_bins_centred (lo hi : R) (p i : Z) : hi - lo = 2 -> (1 <= p)%Z ->
  dequantize lo hi p i = (bin_edge lo hi p i + bin_edge lo hi p (i + 1)) / 2.
Proof. apply bins_centred. Qed.
(** For narrower ranges it does not: the margin is not scaled with the range. *)
Theorem diff_bins_narrow_refuted : exists lo hi, lo < hi /\ dequantize lo hi 8 0 > bin_edge lo hi 8 1.
Proof. exists 0, (1 / 2). split; [lra | exact bins_narrow]. Qed.

Print Assumptions diff_quantize_symbols.
Print Assumptions diff_quantize_close.
Print Assumptions diff_quantize_half_bin.
Print Assumptions diff_quantize_range.
Print Assumptions diff_bins_contain.
Print Assumptions diff_bins_centred.
Print Assumptions diff_bins_narrow_refuted.

(* ------------------------------------------------------------------ *)
(** ** Non-vacuity *)
Open Scope Z_scope.
Example diff_ex_history : exists o, encode_all (ex_encode true) ex_new [arr 3; arr 0; arr 2] = Ok o /\
  message Z ex_new <> message Z o.
Proof. eexists. split; [vm_compute; reflexivity|]. vm_compute. discriminate. Qed.
Example diff_ex_lossless : exists o o2,
  encode_all (ex_encode true) ex_new [arr 3; arr 0; arr 2] = Ok o /\
  decode_all (ex_decode true) o 3 = Ok (o2, [arr 2; arr 0; arr 3]) /\ message Z o2 = message Z ex_new.
Proof.
  destruct diff_ex_history as (o & E & _).
  pose proof (diff_lossless ex_nbytes ex_prior ex_post ex_lik 0 ex_to_latent 3 ex_infer ex_gen
    ex_gen_post true Sh 2 ex_wf (small 4) ex_prior_push_pop ex_post_pop_push ex_lik_push_pop
    _ ex_new o ltac:(cbn; lia) E) as (_ & _ & D).
  destruct (D o eq_refl) as (o2 & A & B & _). exists o, o2. auto.
Qed.
Example diff_ex_succeeds d1 d2 : valid_data Sh 2 d1 -> valid_data Sh 2 d2 ->
  exists o, encode_all (ex_encode true) ex_new [d1; d2] = Ok o.
Proof.
  intros V1 V2. apply (diff_encode_succeeds ex_nbytes ex_prior ex_post ex_lik 0 ex_to_latent 3 ex_infer ex_gen
    ex_gen_post true Sh 2 ex_wf (small 4) ex_prior_push_pop ex_post_pop_push ex_lik_push_pop
    ex_prior_total ex_post_total ex_lik_total); [lia | cbn; lia | now apply Forall_cons; [|apply Forall_cons]].
Qed.
Example diff_ex_sampling : exists o ds, decode_all (ex_decode true) ex_new 2 = Ok (o, ds) /\ length ds = 2%nat.
Proof. do 2 eexists. split; [vm_compute; reflexivity | reflexivity]. Qed.
Example diff_ex_sampling_laws : pop_push ex_wf (small 4) ex_prior /\
  (forall a b, push_pop ex_wf (small 4) (ex_post a b)) /\ (forall a, pop_push ex_wf (valid_data Sh 2) (ex_lik a)).
Proof. exact (conj ex_prior_pop_push (conj ex_post_push_pop ex_lik_pop_push)). Qed.
Example diff_ex_total_post a b m : exists r, p_pop (ex_post a b) m = Ok r.
Proof. unfold ex_post. cbn [tab p_pop]. destruct (locate _ _) as [[? ?] ?]. eexists. reflexivity. Qed.
Example diff_ex_rates : exists o rs,
  calls (ex_encode true) (ex_decode true) ex_new [Enc (arr 3); Enc (arr 0); Dec; Enc (arr 2)] = (o, rs) /\
  Forall (fun r => exists x, r = Ok x) rs /\ bytes_push (statistics Z ex_nbytes true Sh o) <> Some [0; 0; 0; 0].
Proof.
  do 2 eexists. split; [vm_compute; reflexivity|]. split; [repeat constructor; eexists; reflexivity|].
  vm_compute. discriminate.
Qed.
Example diff_ex_reject_shape : ex_encode true ex_new (mk_array [2; 1; 1; 1] [1; 1]) = (ex_new, Raise ValueError).
Proof. reflexivity. Qed.
Example diff_ex_reject_value : ex_encode true ex_new (arr 4) = (ex_new, Raise ValueError).
Proof. reflexivity. Qed.
Example diff_ex_valid : valid_data Sh 2 (arr 3).
Proof. split; [reflexivity|]. split; [easy|]. split; [|reflexivity]. repeat constructor; cbn; lia. Qed.

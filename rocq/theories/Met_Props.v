(** C51: accumulated metrics do not depend on batching.  C58: PSNR. *)
From Coq Require Import String ZArith Arith List Bool Reals Lra Lia Psatz ZifyNat Permutation.
From Verif Require Import Base Tensor RSum Net_Model Ssim_Model Ssim_Spec Ssim_Proofs Ssim_Refine Ssim_Props
  Met_Model Met_Spec.
Import ListNotations.
Open Scope nat_scope.

(** ** Sums over lists *)
Lemma sum_app l m : sum_of (l ++ m) = (sum_of l + sum_of m)%R.
Proof. induction l as [|a l IH]; cbn [app sum_of fold_right] in *; unfold sum_of in *; [ring|]. rewrite IH. ring. Qed.
Lemma sum_perm l m : Permutation l m -> sum_of l = sum_of m.
Proof. induction 1; unfold sum_of in *; cbn [fold_right]; lra. Qed.
Lemma sum_rsum {A} (f : A -> R) l d : sum_of (map f l) = rsum (length l) (fun k => f (nth k l d)).
Proof.
  induction l as [|a l IH]; [reflexivity|]. cbn [map length]. rewrite rsum_S. cbn [nth].
  unfold sum_of in *. cbn [fold_right]. now rewrite IH.
Qed.

(** ** MS-SSIM *)
Section Msssim.
Variables data_range k1 k2 sd : R.
Hypothesis C1 : (0 < (k1 * data_range) ^ 2)%R.
Hypothesis C2 : (0 < (k2 * data_range) ^ 2)%R.
Hypothesis SD : (0 < sd)%R.
Variable r : nat.
Variable factors : list R.
Hypothesis NE : factors <> [].
Local Notation W := (Z.of_nat (2 * r + 1)).
Local Notation update := (msssim_update data_range W k1 k2 sd factors).
Local Notation run := (msssim_run data_range W k1 k2 sd factors).
Local Notation score := (item_score sd r ((k1 * data_range) ^ 2) ((k2 * data_range) ^ 2) factors).

Lemma update_ok s g : large_enough r factors (gc g) (gh g) (gw g) ->
  exists s', update s (group_batch g) = Ok s' /\
  score_sum s' = (score_sum s + sum_of (map score (group_items g)))%R /\
  total s' = total s + length (group_items g).
Proof.
  intros (C & H & L & SH & SW). unfold msssim_update, group_batch.
  set (x := batch_tensor _ _ _ (map fst _)). set (y := batch_tensor _ _ _ (map snd _)).
  assert (X : tshape x = [length (gpairs g); gc g; gh g; gw g]) by (unfold x; cbn; now rewrite map_length).
  assert (Y : tshape y = [length (gpairs g); gc g; gh g; gw g]) by (unfold y; cbn; now rewrite map_length).
  destruct (run_ok data_range k1 k2 sd r _ _ _ _ _ x y factors "sum" NE X Y ltac:(lia) H L SH SW) as (v & T & V & E).
  unfold msssim in E. rewrite E. unfold reduce. cbn [String.eqb Ascii.eqb Bool.eqb bind]. rewrite T, X. cbn [nth tat].
  eexists. split; [reflexivity|]. cbn [score_sum total]. unfold group_items. rewrite map_map, map_length. split; [|reflexivity].
  apply (f_equal (Rplus (score_sum s))). rewrite (@sum_rsum (pixels * pixels) _ _ ((fun _ _ _ => 0%R), (fun _ _ _ => 0%R))). apply rsum_ext. intros k K.
  rewrite V. unfold paper_score, item_score. cbn [ic ih iw ipred itarget]. f_equal. apply rsum_ext. intros ch CH.
  apply ms_ext; intros i j I J; unfold plane, x, y; cbn [batch_tensor tat].
  - change (fun _ _ _ : nat => 0%R) with (fst ((fun _ _ _ : nat => 0%R), (fun _ _ _ : nat => 0%R))) at 1.
    now rewrite map_nth.
  - change (fun _ _ _ : nat => 0%R) with (snd ((fun _ _ _ : nat => 0%R), (fun _ _ _ : nat => 0%R))) at 1.
    now rewrite map_nth.
Qed.

(** The final value is the mean of the per-image scores over all images seen. *)
Theorem msssim_metric_mean s (groups : list group) :
  Forall (fun g => large_enough r factors (gc g) (gh g) (gw g)) groups ->
  let items := concat (map group_items groups) in
  exists s', run s (map group_batch groups) = Ok s' /\
  score_sum s' = (score_sum s + sum_of (map score items))%R /\ total s' = total s + length items.
Proof.
  intros F. cbv zeta. revert s. induction F as [|g gs G F IH]; intro s.
  - exists s. cbn. split; [reflexivity|]. split; [ring|lia].
  - cbn [map msssim_run concat]. destruct (update_ok s g G) as (s1 & -> & S1 & T1). cbn [bind].
    destruct (IH s1) as (s2 & -> & S2 & T2). exists s2. split; [reflexivity|].
    rewrite map_app, sum_app, app_length. split; [rewrite S2, S1; ring|lia].
Qed.
Theorem msssim_metric_value groups :
  Forall (fun g => large_enough r factors (gc g) (gh g) (gw g)) groups ->
  exists s, run sum_init (map group_batch groups) = Ok s /\
  sum_compute s = mean_of (map score (concat (map group_items groups))).
Proof.
  intro F. destruct (msssim_metric_mean sum_init groups F) as (s & E & S & T). exists s. split; [exact E|].
  unfold sum_compute, mean_of. rewrite map_length, S, T. cbn [sum_init score_sum total]. f_equal. ring.
Qed.
(** Hence it does not depend on how, or in what order, the images are put into batches. *)
Theorem msssim_metric_batching groups groups' :
  Forall (fun g => large_enough r factors (gc g) (gh g) (gw g)) groups ->
  Forall (fun g => large_enough r factors (gc g) (gh g) (gw g)) groups' ->
  Permutation (concat (map group_items groups)) (concat (map group_items groups')) ->
  exists s s', run sum_init (map group_batch groups) = Ok s /\ run sum_init (map group_batch groups') = Ok s' /\
  sum_compute s = sum_compute s'.
Proof.
  intros F F' P. destruct (msssim_metric_value _ F) as (s & E & V). destruct (msssim_metric_value _ F') as (s' & E' & V').
  exists s, s'. split; [exact E|split; [exact E'|]]. rewrite V, V'. unfold mean_of.
  rewrite (sum_perm _ _ (Permutation_map score P)), !map_length. now rewrite (Permutation_length P).
Qed.
(** Processes that each see a part of the images agree, after synchronisation, on the value a
    single process computes. *)
Theorem msssim_metric_distributed (parts : list (list group)) :
  Forall (fun g => large_enough r factors (gc g) (gh g) (gw g)) (concat parts) ->
  exists states s, mapM (fun p => run sum_init (map group_batch p)) parts = Ok states /\
  run sum_init (map group_batch (concat parts)) = Ok s /\
  sum_compute (sum_sync states) = sum_compute s.
Proof.
  intro F.
  assert (Q : exists states, mapM (fun p => run sum_init (map group_batch p)) parts = Ok states /\
    score_sum (sum_sync states) = sum_of (map score (concat (map group_items (concat parts)))) /\
    total (sum_sync states) = length (concat (map group_items (concat parts)))).
  { revert F. induction parts as [|p ps IH]; intro F.
    - exists []. cbn. auto.
    - cbn [concat] in F. apply Forall_app in F. destruct F as [Fp F]. destruct (IH F) as (st & E & S & T).
      destruct (msssim_metric_mean sum_init p Fp) as (s & Es & Ss & Ts).
      exists (s :: st). cbn [mapM]. rewrite Es. cbn [bind]. rewrite E. cbn [bind]. split; [reflexivity|].
      cbn [concat]. rewrite map_app, concat_app, map_app, sum_app, app_length.
      unfold sum_sync in *. cbn [score_sum total map fold_right] in *. cbn [sum_init score_sum total] in Ss, Ts.
      split; [rewrite S, Ss; ring|lia]. }
  destruct Q as (states & E & S & T). destruct (msssim_metric_mean sum_init _ F) as (s & Es & Ss & Ts).
  exists states, s. split; [exact E|split; [exact Es|]]. unfold sum_compute. rewrite S, T, Ss, Ts. cbn [sum_init score_sum total].
  f_equal. ring.
Qed.
End Msssim.

(** ** DISTS *)
Section Dists.
Variable image : Type.
Variable net : image -> image -> R.
Variable valid : image -> bool.
Local Notation run := (dists_run image net valid).
Definition pair_score (p : image * image) : R := net (fst p) (snd p).
Definition acceptable (batches : list (list (image * image))) : Prop :=
  Forall (fun b => b <> []) batches /\
  forall p, In p (concat batches) -> valid (fst p) = true /\ valid (snd p) = true.

Lemma dists_run_ok s batches : acceptable batches -> exists s', run s batches = Ok s' /\
  score_sum s' = (score_sum s + sum_of (map pair_score (concat batches)))%R /\
  total s' = total s + length (concat batches).
Proof.
  revert s. induction batches as [|b bs IH]; intros s [N V].
  - exists s. cbn. split; [reflexivity|]. split; [ring|lia].
  - inversion N as [|? ? Nb Ns]; subst. cbn [dists_run concat].
    assert (A : forallb (fun p => valid (fst p) && valid (snd p)) b = true).
    { apply forallb_forall. intros p P. destruct (V p) as [-> ->]; [cbn; apply in_or_app; auto|reflexivity]. }
    unfold dists_update at 1. destruct b as [|p b]; [easy|]. rewrite A. cbn [bind].
    edestruct IH as (s' & E & S & T); [split; [exact Ns|intros q Q; apply V; cbn [concat]; apply in_or_app; auto]|].
    rewrite E. exists s'. split; [reflexivity|]. rewrite map_app, sum_app, app_length.
    cbn [score_sum total] in S, T. split; [rewrite S; unfold sum_of, pair_score; ring|lia].
Qed.
(** Accepted exactly when no batch is empty and all images are valid; the result is then the
    mean or the sum of the scores of all pairs. *)
Theorem dists_metric_accepts batches :
  is_ok (run sum_init batches) = true <-> acceptable batches.
Proof.
  split.
  - generalize sum_init. induction batches as [|b bs IH]; intros s0 H; [split; [constructor|cbn; easy]|].
    cbn [dists_run] in H. unfold dists_update at 1 in H. destruct b as [|p b]; [discriminate|].
    destruct (forallb (fun p => valid (fst p) && valid (snd p)) (p :: b)) eqn:A; [|discriminate].
    cbn [bind] in H. apply IH in H. destruct H as [N V]. split; [constructor; [discriminate|exact N]|].
    intros q Q. cbn [concat] in Q. apply in_app_or in Q. destruct Q as [Q|Q]; [|now apply V].
    rewrite forallb_forall in A. apply A in Q. now apply andb_true_iff in Q.
  - intro A. destruct (dists_run_ok sum_init batches A) as (s & -> & _). reflexivity.
Qed.
Theorem dists_metric_value batches : acceptable batches -> exists s, run sum_init batches = Ok s /\
  dists_compute Mean s = mean_of (map pair_score (concat batches)) /\
  dists_compute Sum s = sum_of (map pair_score (concat batches)).
Proof.
  intro A. destruct (dists_run_ok sum_init batches A) as (s & E & S & T). exists s. split; [exact E|].
  cbn [dists_compute]. unfold sum_compute, mean_of. rewrite S, T, map_length. cbn [sum_init score_sum total].
  split; [f_equal|]; ring.
Qed.
Theorem dists_metric_batching batches batches' red : acceptable batches -> acceptable batches' ->
  Permutation (concat batches) (concat batches') ->
  exists s s', run sum_init batches = Ok s /\ run sum_init batches' = Ok s' /\
  dists_compute red s = dists_compute red s'.
Proof.
  intros A A' P. destruct (dists_metric_value _ A) as (s & E & M & U). destruct (dists_metric_value _ A') as (s' & E' & M' & U').
  exists s, s'. split; [exact E|split; [exact E'|]].
  pose proof (Permutation_map pair_score P) as Q.
  destruct red; [rewrite M, M'; unfold mean_of; rewrite (Permutation_length Q)|rewrite U, U']; now rewrite (sum_perm _ _ Q).
Qed.
End Dists.
(** Only "mean" and "sum" can be constructed. *)
Theorem dists_metric_reductions red :
  is_ok (dists_new red) = true <-> red = "mean"%string \/ red = "sum"%string.
Proof.
  unfold dists_new. destruct (String.eqb_spec red "mean") as [->|N]; [cbn; tauto|].
  destruct (String.eqb_spec red "sum") as [->|M]; [cbn; tauto|]. cbn. split; [discriminate|tauto].
Qed.

(** ** Feature metrics *)
Section Features.
Variable image feature result : Type.
Variable backbone : image -> feature.
Local Notation run := (feat_run image feature backbone).
Definition images_of (real : bool) (calls : list (list image * bool)) : list image :=
  concat (map fst (filter (fun c => Bool.eqb (snd c) real) calls)).
Definition some_call (real : bool) (calls : list (list image * bool)) : Prop := In real (map snd calls).

Lemma feat_run_from l m calls :
  run (mkFeat (FList l) (FList m)) calls =
  Ok (mkFeat (FList (l ++ map (fun c => map backbone (fst c)) (filter (fun c => Bool.eqb (snd c) true) calls)))
             (FList (m ++ map (fun c => map backbone (fst c)) (filter (fun c => Bool.eqb (snd c) false) calls)))).
Proof.
  revert l m. induction calls as [|[imgs real] cs IH]; intros l m; cbn [feat_run filter map].
  - now rewrite !app_nil_r.
  - unfold feat_update. destruct real; cbn [fappend real_features fake_features bind snd Bool.eqb fst map]; rewrite IH, <- app_assoc; reflexivity.
Qed.
Lemma fcat_calls real calls :
  fcat feature (FList (map (fun c => map backbone (fst c)) (filter (fun c => Bool.eqb (snd c) real) calls))) =
  if existsb (fun c => Bool.eqb (snd c) real) calls
  then Ok (map backbone (images_of real calls)) else Raise RuntimeError.
Proof.
  assert (Q : existsb (fun c : list image * bool => Bool.eqb (snd c) real) calls = false -> filter (fun c => Bool.eqb (snd c) real) calls = []).
  { induction calls as [|c cs IH]; [reflexivity|]. cbn. destruct (Bool.eqb (snd c) real); [discriminate|]. exact IH. }
  destruct (existsb _ calls) eqn:X; [|now rewrite Q].
  unfold images_of. rewrite <- (map_map fst (map backbone)). clear Q.
  destruct (filter _ calls) as [|c l] eqn:Y.
  - apply existsb_exists in X. destruct X as (c & I & J).
    assert (K : In c (filter (fun c => Bool.eqb (snd c) real) calls)) by (apply filter_In; auto). rewrite Y in K. destruct K.
  - unfold fcat. cbn [map]. apply (f_equal (@Ok (list feature))). symmetry.
    exact (concat_map backbone (fst c :: map fst l)).
Qed.
Lemma some_call_exists real calls : existsb (fun c : list image * bool => Bool.eqb (snd c) real) calls = true <-> some_call real calls.
Proof.
  unfold some_call. rewrite existsb_exists, in_map_iff. split.
  - intros (c & I & J). exists c. split; [now apply eqb_prop|exact I].
  - intros (c & <- & I). exists c. split; [exact I|apply eqb_reflx].
Qed.

Variable fid_metric : list feature -> list feature -> result.
Variable kid_metric : kid_params -> list feature -> list feature -> result.

(** The result is the metric of the features of all real and of all generated images, in the
    order they came, whatever the batches and however real and generated calls interleave. *)
Theorem fid_metric_value calls : some_call true calls -> some_call false calls ->
  exists s, run feat_init calls = Ok s /\
  fid_compute feature result fid_metric s =
    Ok (fid_metric (map backbone (images_of true calls)) (map backbone (images_of false calls))).
Proof.
  intros T F. apply some_call_exists in T, F. unfold feat_init. rewrite feat_run_from.
  eexists. split; [reflexivity|]. unfold fid_compute. cbn [real_features fake_features app].
  rewrite !fcat_calls, T, F. reflexivity.
Qed.
Theorem fid_metric_empty calls : ~ (some_call true calls /\ some_call false calls) ->
  exists s, run feat_init calls = Ok s /\ fid_compute feature result fid_metric s = Raise RuntimeError.
Proof.
  intro N. rewrite <- !some_call_exists in N. unfold feat_init. rewrite feat_run_from.
  eexists. split; [reflexivity|]. unfold fid_compute. cbn [real_features fake_features app].
  rewrite !fcat_calls. destruct (existsb _ calls); [|reflexivity]. cbn [bind].
  destruct (existsb _ calls); [tauto|reflexivity].
Qed.
Theorem fid_metric_batching calls calls' :
  some_call true calls -> some_call false calls -> some_call true calls' -> some_call false calls' ->
  (forall p p' q q', Permutation p p' -> Permutation q q' -> fid_metric p q = fid_metric p' q') ->
  (forall real, Permutation (images_of real calls) (images_of real calls')) ->
  exists s s', run feat_init calls = Ok s /\ run feat_init calls' = Ok s' /\
  fid_compute feature result fid_metric s = fid_compute feature result fid_metric s'.
Proof.
  intros T F T' F' I P. destruct (fid_metric_value calls T F) as (s & E & V). destruct (fid_metric_value calls' T' F') as (s' & E' & V').
  exists s, s'. split; [exact E|split; [exact E'|]]. rewrite V, V'. f_equal. apply I; now apply Permutation_map.
Qed.
Theorem kid_metric_value own calls : some_call true calls -> some_call false calls ->
  exists s, run feat_init calls = Ok s /\
  kid_compute feature result kid_metric own s =
    Ok (kid_metric (mkKid 100 1000 3 None 1) (map backbone (images_of true calls)) (map backbone (images_of false calls))).
Proof.
  intros T F. apply some_call_exists in T, F. unfold feat_init. rewrite feat_run_from.
  eexists. split; [reflexivity|]. unfold kid_compute. cbn [real_features fake_features app].
  rewrite !fcat_calls, T, F. reflexivity.
Qed.

(** Distributed evaluation: each process sees [calls] of its own. *)
Lemma concat_map_map (l : list (list image)) : concat (map (map backbone) l) = map backbone (concat l).
Proof. symmetry. apply concat_map. Qed.
Definition process_states (parts : list (list (list image * bool))) : res (list (feat_state feature)) :=
  mapM (run feat_init) parts.
Lemma process_states_ok parts : process_states parts =
  Ok (map (fun calls =>
    mkFeat (FList (map (fun c => map backbone (fst c)) (filter (fun c => Bool.eqb (snd c) true) calls)))
           (FList (map (fun c => map backbone (fst c)) (filter (fun c => Bool.eqb (snd c) false) calls)))) parts).
Proof.
  unfold process_states. induction parts as [|p ps IH]; [reflexivity|]. cbn [mapM map].
  unfold feat_init. rewrite feat_run_from. cbn [bind app]. fold (@feat_init feature). rewrite IH. reflexivity.
Qed.
Lemma gathered real parts :
  let lists := fun calls => map (fun c => map backbone (fst c)) (filter (fun c => Bool.eqb (snd c) real) calls) in
  some_call real (concat parts) ->
  fcat feature (fsync_none feature (map (fun calls => FList (lists calls)) parts)) =
  Ok (map backbone (images_of real (concat parts))).
Proof.
  intros lists S. unfold fsync_none.
  assert (Q : concat (map (fun f => concat (flists feature f)) (filter (fun f => match flists feature f with [] => false | _ => true end)
     (map (fun calls => FList (lists calls)) parts))) = map backbone (images_of real (concat parts))).
  { clear S. unfold images_of. induction parts as [|p ps IH]; [reflexivity|]. cbn [map concat filter flists].
    rewrite filter_app, map_app, concat_app, map_app, <- IH.
    assert (L : concat (lists p) = map backbone (concat (map fst (filter (fun c => Bool.eqb (snd c) real) p)))).
    { unfold lists. rewrite <- (map_map fst (map backbone)). apply concat_map_map. }
    rewrite <- L. destruct (lists p) as [|a l] eqn:LP; [reflexivity|]. cbn [map concat flists]. reflexivity. }
  rewrite <- Q. unfold fcat. destruct (map (fun f => concat (flists feature f)) _) eqn:M; [|reflexivity].
  exfalso. apply map_eq_nil in M. apply some_call_exists in S. apply existsb_exists in S. destruct S as (c & I & J).
  apply in_concat in I. destruct I as (p & P & C).
  assert (K : In (FList (lists p)) (filter (fun f => match flists feature f with [] => false | _ => true end) (map (fun calls => FList (lists calls)) parts))).
  { apply filter_In. split; [apply in_map_iff; eauto|]. cbn [flists]. 
    assert (Z : In (map backbone (fst c)) (lists p)) by (unfold lists; apply in_map_iff; exists c; split; [reflexivity|apply filter_In; auto]).
    destruct (lists p); [destruct Z|reflexivity]. }
  rewrite M in K. destruct K.
Qed.
(** KID: every process gets the value a single process would. *)
Theorem kid_distributed own parts : some_call true (concat parts) -> some_call false (concat parts) ->
  exists states, process_states parts = Ok states /\
  kid_compute feature result kid_metric own (feat_sync feature (fsync_none feature) states) =
  Ok (kid_metric (mkKid 100 1000 3 None 1) (map backbone (images_of true (concat parts))) (map backbone (images_of false (concat parts)))).
Proof.
  intros T F. eexists. split; [apply process_states_ok|]. unfold kid_compute, feat_sync. cbn [real_features fake_features].
  rewrite !map_map. cbn [real_features fake_features]. rewrite (gathered true parts T). cbn [bind]. 
  rewrite (gathered false parts F). reflexivity.
Qed.
(** FID and FID-SwAV: the states are declared with "cat", so that after synchronisation they
    are tensors and the concatenation in [compute] refuses them: there is no result. *)
Theorem fid_distributed_refuted parts : some_call true (concat parts) ->
  exists states, process_states parts = Ok states /\
  fid_compute feature result fid_metric (feat_sync feature (fsync_cat feature) states) = Raise TypeError.
Proof.
  intros T. eexists. split; [apply process_states_ok|]. unfold fid_compute, feat_sync. cbn [real_features].
  rewrite (map_map _ real_features). cbn [real_features]. unfold fsync_cat at 1. rewrite map_map. cbn [flists].
  match goal with |- bind (fcat _ (match ?c with [] => _ | _ => _ end)) _ = _ => destruct c eqn:M; [|reflexivity] end. exfalso.
  apply some_call_exists in T. apply existsb_exists in T. destruct T as (c & I & J).
  apply in_concat in I. destruct I as (p & P & C).
  assert (K : In (map backbone (fst c)) []); [|destruct K]. rewrite <- M. apply in_concat.
  exists (map (fun c => map backbone (fst c)) (filter (fun c => Bool.eqb (snd c) true) p)). split.
  - apply in_map_iff. exists p. auto.
  - apply in_map_iff. exists c. split; [reflexivity|]. apply filter_In. auto.
Qed.
(** KID: the constructor's subsets, subset_size, degree, gamma and coef have no effect. *)
Theorem kid_parameters_refuted own own' s :
  kid_compute feature result kid_metric own s = kid_compute feature result kid_metric own' s.
Proof. reflexivity. Qed.
(** FID can be made with the four feature sizes of the Inception network, and no other. *)
Theorem fid_feature_sizes size : fid_new feature size =
  if in_dec Z.eq_dec size [64; 192; 768; 2048]%Z then Ok feat_init else Raise ValueError.
Proof.
  unfold fid_new. destruct (in_dec Z.eq_dec size [64; 192; 768; 2048]%Z) as [I|I].
  - replace (existsb (Z.eqb size) [64; 192; 768; 2048]%Z) with true; [reflexivity|]. symmetry. apply existsb_exists.
    exists size. split; [exact I|apply Z.eqb_refl].
  - destruct (existsb (Z.eqb size) [64; 192; 768; 2048]%Z) eqn:E; [|reflexivity]. exfalso. apply I. apply existsb_exists in E.
    destruct E as (x & J & K). apply Z.eqb_eq in K. now subst.
Qed.
End Features.
Print Assumptions fid_feature_sizes.

(** Two real images in one batch or in two, around a generated one. *)
Example fid_metric_ex : 
  let run := feat_run nat nat (fun x => x * x) in
  match run feat_init [([3; 4], true); ([5], false)], run feat_init [([3], true); ([5], false); ([4], true)] with
  | Ok s, Ok s' => fid_compute nat (list nat) (fun a b => a ++ 0 :: b) s = Ok [9; 16; 0; 25] /\
                   fid_compute nat (list nat) (fun a b => a ++ 0 :: b) s' = Ok [9; 16; 0; 25]
  | _, _ => False
  end.
Proof. split; reflexivity. Qed.
(** Items large enough for the default five scales and window 11. *)
Example large_enough_ex : large_enough 5 MS_SSIM_FACTORS 3 161 200.
Proof. unfold large_enough, size_at. cbn. repeat split; lia. Qed.

Print Assumptions msssim_metric_mean.
Print Assumptions msssim_metric_value.
Print Assumptions msssim_metric_batching.
Print Assumptions msssim_metric_distributed.
Print Assumptions dists_metric_accepts.
Print Assumptions dists_metric_value.
Print Assumptions dists_metric_batching.
Print Assumptions dists_metric_reductions.
Print Assumptions fid_metric_value.
Print Assumptions fid_metric_empty.
Print Assumptions fid_metric_batching.
Print Assumptions kid_metric_value.
Print Assumptions kid_distributed.
Print Assumptions fid_distributed_refuted.
Print Assumptions kid_parameters_refuted.

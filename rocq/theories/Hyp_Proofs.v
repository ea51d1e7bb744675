(** Proofs about the hyperprior model: shapes, state invariants, parameter groups. *)
From Coq Require Import String ZArith Arith List Bool Reals Lia Lra Permutation ZifyNat.
From Verif Require Import Base RBase Tensor Net_Model Net_Proofs Hyp_Model Hyp_Spec.
Import ListNotations.
Open Scope nat_scope.

(** * Sizes *)
Definition half (n : nat) : nat := (n + 1) / 2.
Lemma half_pos n : 1 <= n -> 1 <= half n.
Proof. unfold half. intro. dlia. Qed.
Lemma half4 n : half (half (half (half n))) = sixteenths n.
Proof. unfold half, sixteenths. dlia. Qed.
Lemma half2 n : half (half n) = (n + 3) / 4.
Proof. unfold half. dlia. Qed.
Lemma sixteenths_pos n : 1 <= n -> 1 <= sixteenths n.
Proof. unfold sixteenths. intro. dlia. Qed.

Lemma conv7 ci co f b h w : 1 <= h -> 1 <= w -> maps (conv ci co 7 1 3 f) [b; ci; h; w] [b; co; h; w].
Proof. intros. apply maps_conv; try lia; rewrite Nat.div_1_r; lia. Qed.
Lemma conv3 ci co f b h w : 1 <= h -> 1 <= w -> maps (conv ci co 3 1 1 f) [b; ci; h; w] [b; co; h; w].
Proof. intros. apply maps_conv; try lia; rewrite Nat.div_1_r; lia. Qed.
Lemma conv32 ci co f b h w : 1 <= h -> 1 <= w -> maps (conv ci co 3 2 1 f) [b; ci; h; w] [b; co; half h; half w].
Proof. intros. apply maps_conv; try lia; unfold half; dlia. Qed.
Lemma conv52 ci co f b h w : 1 <= h -> 1 <= w -> maps (conv ci co 5 2 2 f) [b; ci; h; w] [b; co; half h; half w].
Proof. intros. apply maps_conv; try lia; unfold half; dlia. Qed.
Lemma deconv3 ci co f b h w : 1 <= h -> 1 <= w -> maps (deconv ci co 3 2 1 1 f) [b; ci; h; w] [b; co; 2 * h; 2 * w].
Proof. intros. apply maps_deconv; lia. Qed.
Lemma deconv5 ci co f b h w : 1 <= h -> 1 <= w -> maps (deconv ci co 5 2 2 1 f) [b; ci; h; w] [b; co; 2 * h; 2 * w].
Proof. intros. apply maps_deconv; lia. Qed.

Lemma encoder_maps W ci lat b h w : 1 <= h -> 1 <= w ->
  maps (hific_encoder W ci lat) [b; ci; h; w] [b; lat; sixteenths h; sixteenths w].
Proof.
  intros H K. unfold hific_encoder. cbn [encoder_blocks app Nat.eqb Nat.add].
  eapply maps_cons; [now apply conv7|]. eapply maps_cons; [apply maps_norm|]. eapply maps_cons; [apply maps_act|].
  do 4 (eapply maps_cons; [apply conv32; repeat apply half_pos; assumption|]; eapply maps_cons; [apply maps_norm|]; eapply maps_cons; [apply maps_act|]).
  eapply maps_cons; [apply conv3; repeat apply half_pos; assumption|]. rewrite !half4. apply maps_nil.
Qed.
Lemma analysis_maps W lat hyp b h w : 1 <= h -> 1 <= w ->
  maps (hyper_analysis_net W lat hyp) [b; lat; h; w] [b; hyp; (h + 3) / 4; (w + 3) / 4].
Proof.
  intros H K. unfold hyper_analysis_net, hific_conv. change (3 / 2) with 1. change (5 / 2) with 2.
  eapply maps_cons; [now apply conv3|]. eapply maps_cons; [apply maps_act|].
  eapply maps_cons; [now apply conv52|]. eapply maps_cons; [apply maps_act|].
  eapply maps_cons; [apply conv52; now apply half_pos|]. rewrite !half2. apply maps_nil.
Qed.
Lemma synthesis_maps W lat hyp b h w : 1 <= h -> 1 <= w ->
  maps (hyper_synthesis_net W lat hyp) [b; hyp; h; w] [b; lat; 4 * h; 4 * w].
Proof.
  intros H K. unfold hyper_synthesis_net, hific_conv, hific_deconv. change (3 / 2) with 1. change (5 / 2) with 2.
  eapply maps_cons; [now apply deconv5|]. eapply maps_cons; [apply maps_act|].
  eapply maps_cons; [apply deconv5; lia|]. eapply maps_cons; [apply maps_act|].
  eapply maps_cons; [apply conv3; lia|]. replace (2 * (2 * h)) with (4 * h) by lia. replace (2 * (2 * w)) with (4 * w) by lia.
  apply maps_nil.
Qed.
Lemma residual_maps W c b h w : 1 <= h -> 1 <= w -> maps (residual_block W c) [b; c; h; w] [b; c; h; w].
Proof.
  intros H K. unfold residual_block. apply maps_add_self.
  eapply maps_cons; [now apply conv3|]. eapply maps_cons; [apply maps_norm|]. eapply maps_cons; [apply maps_act|].
  eapply maps_cons; [now apply conv3|]. eapply maps_cons; [apply maps_norm|]. apply maps_nil.
Qed.
Lemma residuals_maps V c b h w n k : 1 <= h -> 1 <= w ->
  maps (sequential (map (fun j => residual_block (V j) c) (seq k n))) [b; c; h; w] [b; c; h; w].
Proof.
  intros H K. revert k. induction n as [|n IH]; intro k; [apply maps_nil|].
  cbn [seq map]. eapply maps_cons; [now apply residual_maps|apply IH].
Qed.
Lemma generator_maps W V co lat n b h w : 1 <= h -> 1 <= w ->
  maps (hific_generator W V co lat n) [b; lat; h; w] [b; co; 16 * h; 16 * w].
Proof.
  intros H K x Hx. unfold hific_generator.
  assert (A : maps (sequential [norm lat (W 0); conv lat 960 3 1 1 (W 1); norm 960 (W 2)]) [b; lat; h; w] [b; 960; h; w]).
  { eapply maps_cons; [apply maps_norm|]. eapply maps_cons; [now apply conv3|]. eapply maps_cons; [apply maps_norm|]. apply maps_nil. }
  destruct (A x Hx) as (y & Y & Hy). rewrite Y. cbn [bind].
  destruct (residuals_maps V 960 b h w n 0 H K y Hy) as (z & Z & Hz). rewrite Z. cbn [bind].
  destruct (add_ok y z) as (t & T & Ht); [congruence|]. rewrite T. cbn [bind]. rewrite Hy in Ht. clear - Ht H K.
  revert t Ht. change (maps (sequential (generator_blocks W 1 960 [480; 240; 120; 60] ++ [conv 60 co 7 1 3 (W 15)])) [b; 960; h; w] [b; co; 16 * h; 16 * w]).
  cbn [generator_blocks app].
  do 4 (eapply maps_cons; [apply deconv3; lia|]; eapply maps_cons; [apply maps_norm|]; eapply maps_cons; [apply maps_act|]).
  eapply maps_cons; [apply conv7; lia|].
  replace (2 * (2 * (2 * (2 * h)))) with (16 * h) by lia. replace (2 * (2 * (2 * (2 * w)))) with (16 * w) by lia. apply maps_nil.
Qed.

(** * State *)
Lemma child_eqb_spec a b : child_eqb a b = true <-> a = b.
Proof. destruct a, b; cbn; split; intro H; congruence || reflexivity. Qed.
Lemma is_bottleneck_spec c : is_bottleneck c = true <-> bottleneck_side c.
Proof. unfold bottleneck_side. destruct c; cbn; split; intro H; try easy; destruct H; congruence. Qed.

Lemma in_map_params (f : param -> param) l p : In p (map f l) -> exists q, In q l /\ p = f q.
Proof. intro H. apply in_map_iff in H. destruct H as (q & E & I). now exists q. Qed.

(** What every operation keeps. *)
Lemma frozen_encoder_kept o s : frozen_encoder s = true -> frozen_encoder (call o s) = true.
Proof.
  destruct o as [m| | |t|d|]; cbn [call]; intro H; try reflexivity; try exact H.
  - unfold train. cbn [frozen_encoder]. rewrite H. cbn [frozen_bottleneck freeze_encoder no_grad set_train].
    destruct (frozen_bottleneck s); reflexivity.
  - unfold update_tensor_devices. destruct (negb _); [exact H|]. destruct (String.eqb t "forward").
    + destruct (encoder_device s); cbn; exact H.
    + cbn. exact H.
Qed.
Lemma frozen_bottleneck_kept o s : frozen_bottleneck s = true -> frozen_bottleneck (call o s) = true.
Proof.
  destruct o as [m| | |t|d|]; cbn [call]; intro H; try reflexivity; try exact H.
  - unfold train. cbn [frozen_encoder]. destruct (frozen_encoder s); cbn; now rewrite H.
  - unfold update_tensor_devices. destruct (negb _); [exact H|]. destruct (String.eqb t "forward").
    + destruct (encoder_device s); cbn; exact H.
    + cbn. exact H.
Qed.

Lemma no_grad_keeps P s c : (forall p, In p (params s) -> pchild p = c -> prequires p = false) ->
  forall p, In p (params (no_grad P s)) -> pchild p = c -> prequires p = false.
Proof.
  intros H p I E. cbn in I. apply in_map_params in I. destruct I as (q & I & ->). destruct (P (pchild q)); [reflexivity|]. now apply H.
Qed.
Lemma no_grad_sets (P : child -> bool) s c : P c = true ->
  forall p, In p (params (no_grad P s)) -> pchild p = c -> prequires p = false.
Proof.
  intros H p I E. cbn in I. apply in_map_params in I. destruct I as (q & I & ->).
  destruct (P (pchild q)) eqn:Q; [reflexivity|]. congruence.
Qed.
Lemma to_device_keeps P d s c : (forall p, In p (params s) -> pchild p = c -> prequires p = false) ->
  forall p, In p (params (to_device P d s)) -> pchild p = c -> prequires p = false.
Proof.
  intros H p I E. cbn in I. apply in_map_params in I. destruct I as (q & I & ->).
  destruct (P (pchild q)); cbn in *; now apply H.
Qed.

Lemma freeze_encoder_frozen s : is_frozen (freeze_encoder s) Encoder.
Proof. split; [reflexivity|]. apply no_grad_sets. reflexivity. Qed.
Lemma freeze_bottleneck_frozen s c : bottleneck_side c -> is_frozen (freeze_bottleneck s) c.
Proof.
  intro B. apply is_bottleneck_spec in B. split; [|now apply no_grad_sets].
  change ((if is_bottleneck c then false else ptrain s c) = false). now rewrite B.
Qed.
Lemma freeze_encoder_keeps s c : is_frozen s c -> is_frozen (freeze_encoder s) c.
Proof.
  intros [A B]. split; [|apply no_grad_keeps; exact B].
  change ((if child_eqb Encoder c then false else ptrain s c) = false). rewrite A. now destruct (child_eqb Encoder c).
Qed.
Lemma freeze_bottleneck_keeps s c : is_frozen s c -> is_frozen (freeze_bottleneck s) c.
Proof.
  intros [A B]. split; [|apply no_grad_keeps; exact B].
  change ((if is_bottleneck c then false else ptrain s c) = false). rewrite A. now destruct (is_bottleneck c).
Qed.
Lemma devices_keeps t s c : is_frozen s c -> is_frozen (call (Devices t) s) c.
Proof.
  intros [A B]. cbn [call]. unfold update_tensor_devices. destruct (negb _); [now split|]. destruct (String.eqb t "forward").
  - destruct (encoder_device s) as [d|]; [|now split]. cbn [bind]. split; [exact A|]. apply to_device_keeps. exact B.
  - cbn [bind]. split; [exact A|]. apply (to_device_keeps is_bottleneck 0 (update s)). exact B.
Qed.

(** Invariant: a set flag means the corresponding children are frozen. *)
Definition flags_ok (s : hstate) : Prop :=
  (frozen_encoder s = true -> is_frozen s Encoder) /\
  (frozen_bottleneck s = true -> forall c, bottleneck_side c -> is_frozen s c).
Lemma set_flag_frozen s fe fb t c : is_frozen s c ->
  is_frozen (mkH (params s) (ptrain s) (mtrain s) fe fb (device_setting s) (weights s) t) c.
Proof. intros [A B]. split; assumption. Qed.
Lemma flags_call o s : flags_ok s -> flags_ok (call o s).
Proof.
  intros [A B]. destruct o as [m| | |t|d|].
  - cbn [call]. unfold train.
    set (s0 := mkH (params s) (fun _ => m) m (frozen_encoder s) (frozen_bottleneck s) (device_setting s) (weights s) (tables s)).
    change (frozen_encoder s0) with (frozen_encoder s).
    destruct (frozen_encoder s) eqn:FE.
    + change (frozen_bottleneck (freeze_encoder s0)) with (frozen_bottleneck s). destruct (frozen_bottleneck s) eqn:FB.
      * split; intros _; [apply freeze_bottleneck_keeps, freeze_encoder_frozen|]. intros c C. now apply freeze_bottleneck_frozen.
      * split; intro X; [apply freeze_encoder_frozen|]. cbn in X. congruence.
    + change (frozen_bottleneck s0) with (frozen_bottleneck s). destruct (frozen_bottleneck s) eqn:FB.
      * split; intro X; [cbn in X; congruence|]. intros c C. now apply freeze_bottleneck_frozen.
      * split; intro X; cbn in X; congruence.
  - cbn [call]. split; intro X; [apply freeze_encoder_frozen|]. intros c C. apply freeze_encoder_keeps. now apply B.
  - cbn [call]. split; intro X; [apply freeze_bottleneck_keeps; now apply A|]. intros c C. now apply freeze_bottleneck_frozen.
  - assert (FE : frozen_encoder (call (Devices t) s) = frozen_encoder s /\ frozen_bottleneck (call (Devices t) s) = frozen_bottleneck s).
    { cbn [call]. unfold update_tensor_devices. destruct (negb _); [now split|]. destruct (String.eqb t "forward").
      - destruct (encoder_device s); now split.
      - now split. }
    destruct FE as [FE FB]. split; intro X.
    + apply devices_keeps. apply A. congruence.
    + intros c C. apply devices_keeps. apply B; [congruence|exact C].
  - cbn [call]. split; intro X.
    + destruct (A X) as [A1 A2]. split; [exact A1|]. apply to_device_keeps. exact A2.
    + intros c C. destruct (B X c C) as [A1 A2]. split; [exact A1|]. apply to_device_keeps. exact A2.
  - cbn [call]. split; intro X; [now apply A|]. intros c C. now apply B.
Qed.
Lemma flags_calls l s : flags_ok s -> flags_ok (calls l s).
Proof. revert s. induction l as [|o l IH]; intros s H; [exact H|]. cbn [calls fold_left]. apply IH. now apply flags_call. Qed.
Lemma frozen_encoder_calls l s : frozen_encoder s = true -> frozen_encoder (calls l s) = true.
Proof. revert s. induction l as [|o l IH]; intros s H; [exact H|]. cbn [calls fold_left]. apply IH. now apply frozen_encoder_kept. Qed.
Lemma frozen_bottleneck_calls l s : frozen_bottleneck s = true -> frozen_bottleneck (calls l s) = true.
Proof. revert s. induction l as [|o l IH]; intros s H; [exact H|]. cbn [calls fold_left]. apply IH. now apply frozen_bottleneck_kept. Qed.

(** Each operation keeps a frozen child frozen, unless it is Train. *)
Lemma keeps_frozen o s c : (forall m, o <> Train m) -> is_frozen s c -> is_frozen (call o s) c.
Proof.
  intros N H. destruct o as [m| | |t|d|].
  - now destruct (N m).
  - now apply freeze_encoder_keeps.
  - now apply freeze_bottleneck_keeps.
  - now apply devices_keeps.
  - destruct H as [A B]. split; [exact A|]. apply to_device_keeps. exact B.
  - exact H.
Qed.

(** * Devices *)
Definition uniform_if_forward (s : hstate) : Prop := device_setting s = "forward"%string -> same_device s.
Lemma map_same (f : param -> param) s d : (forall p, In p (params s) -> pdevice p = d) -> (forall p, pdevice (f p) = pdevice p) ->
  forall p, In p (map f (params s)) -> pdevice p = d.
Proof. intros A F p I. apply in_map_params in I. destruct I as (q & I & ->). rewrite F. now apply A. Qed.
Lemma same_no_grad P s : same_device s -> same_device (no_grad P s).
Proof. intros [d A]. exists d. apply map_same; [exact A|]. intro p. now destruct (P (pchild p)). Qed.
Lemma setting_train m s : device_setting (train m s) = device_setting s.
Proof. unfold train. cbn [frozen_encoder]. destruct (frozen_encoder s); cbn; destruct (frozen_bottleneck s); reflexivity. Qed.
Lemma same_train m s : same_device s -> same_device (train m s).
Proof.
  intro H. unfold train. set (s0 := mkH _ _ _ _ _ _ _ _). assert (H0 : same_device s0) by exact H. clearbody s0.
  destruct (frozen_encoder s0).
  - assert (H1 : same_device (freeze_encoder s0)) by (apply same_no_grad; exact H0).
    destruct (frozen_bottleneck _); [apply same_no_grad|]; exact H1.
  - destruct (frozen_bottleneck s0); [apply same_no_grad|]; exact H0.
Qed.
Lemma same_to d s : same_device (to_device (fun _ => true) d s).
Proof. exists d. intros p I. cbn in I. apply in_map_params in I. now destruct I as (q & _ & ->). Qed.
Lemma uniform_call o s : uniform_if_forward s -> uniform_if_forward (call o s).
Proof.
  intro H. destruct o as [m| | |t|d|]; cbn [call]; intro X.
  - rewrite setting_train in X. apply same_train. now apply H.
  - apply same_no_grad. now apply H.
  - apply same_no_grad. now apply H.
  - unfold update_tensor_devices in *. destruct (negb _); [now apply H|]. destruct (String.eqb t "forward") eqn:T.
    + destruct (encoder_device s) as [d|]; [|now apply H]. cbn [bind] in *. apply same_to.
    + cbn [bind device_setting] in X. apply String.eqb_eq in X. congruence.
  - apply same_to.
  - now apply H.
Qed.
Lemma uniform_calls l s : uniform_if_forward s -> uniform_if_forward (calls l s).
Proof. revert s. induction l as [|o l IH]; intros s H; [exact H|]. cbn [calls fold_left]. apply IH. now apply uniform_call. Qed.

Lemma on_cpu_spec s : on_cpu s = true <-> forall p, In p (params s) -> pdevice p = 0.
Proof.
  unfold on_cpu. rewrite forallb_forall. split; intros H p I; specialize (H p I); now apply Nat.eqb_eq.
Qed.
Lemma check_compress_spec s : check_compress_devices s = true <-> forall p, In p (params s) -> bottleneck_side (pchild p) -> pdevice p = 0.
Proof.
  unfold check_compress_devices. rewrite forallb_forall. split; intros H p I.
  - intro B. apply is_bottleneck_spec in B. specialize (H p I). rewrite B in H. now apply Nat.eqb_eq.
  - destruct (is_bottleneck (pchild p)) eqn:B; [|reflexivity]. cbn. apply Nat.eqb_eq. apply H; [exact I|]. now apply is_bottleneck_spec.
Qed.

(** * Parameter groups *)
Lemma dict_set_fresh {A} k (v : A) d : ~ In k (map fst d) -> dict_set k v d = d ++ [(k, v)].
Proof.
  induction d as [|[k' v'] d IH]; intro H; [reflexivity|]. cbn in *.
  destruct (String.eqb_spec k k'); [subst; tauto|]. f_equal. apply IH. tauto.
Qed.
Lemma dict_of_nodup {A} (l : list (string * A)) : NoDup (map fst l) -> dict_of l = l.
Proof.
  unfold dict_of. assert (G : forall d, NoDup (map fst (d ++ l)) -> fold_left (fun d p => dict_set (fst p) (snd p) d) l d = d ++ l).
  { induction l as [|[k v] l IH]; intros d H; [now rewrite app_nil_r|]. cbn [fold_left fst snd].
    rewrite map_app in H. cbn in H. rewrite dict_set_fresh.
    - rewrite IH; [now rewrite <- app_assoc|]. rewrite <- app_assoc, map_app. exact H.
    - intro I. apply NoDup_remove_2 in H. apply H. apply in_or_app. now left. }
  intro H. apply (G []). exact H.
Qed.
Lemma NoDup_filter_fst {A} (f : string * A -> bool) l : NoDup (map fst l) -> NoDup (map fst (filter f l)).
Proof.
  induction l as [|p l IH]; intro H; [constructor|]. cbn in H. inversion H as [|a b N D]; subst. cbn.
  destruct (f p); [|now apply IH]. cbn. constructor; [|now apply IH].
  intro I. apply N. apply in_map_iff in I. destruct I as (q & E & I). apply filter_In in I. apply in_map_iff. exists q. tauto.
Qed.
Lemma mem_In k l : mem k l = true <-> In k l.
Proof.
  unfold mem. rewrite existsb_exists. split.
  - intros (x & I & E). apply String.eqb_eq in E. now subst.
  - intro I. exists k. split; [exact I|]. apply String.eqb_refl.
Qed.
Lemma map_snd_named (f : string * param -> bool) l :
  map snd (filter f (map (fun p => (pname p, p)) l)) = filter (fun p => f (pname p, p)) l.
Proof. induction l as [|p l IH]; [reflexivity|]. cbn. destruct (f (pname p, p)); cbn; now rewrite IH. Qed.
Lemma in_fst_named (f : string * param -> bool) l k :
  In k (map fst (filter f (map (fun p => (pname p, p)) l))) <-> exists p, In p l /\ f (pname p, p) = true /\ pname p = k.
Proof.
  rewrite in_map_iff. split.
  - intros ([n p] & E & I). apply filter_In in I. destruct I as [I F]. apply in_map_iff in I. destruct I as (q & Q & I).
    inversion Q; subst. cbn. exists p. tauto.
  - intros (p & I & F & E). exists (pname p, p). split; [exact E|]. apply filter_In. split; [|exact F].
    apply in_map_iff. now exists p.
Qed.
Lemma nodup_same_name l p q : NoDup (map pname l) -> In p l -> In q l -> pname p = pname q -> p = q.
Proof.
  induction l as [|a l IH]; intros N P Q E; [easy|]. cbn in N. inversion N as [|x y M D]; subst.
  destruct P as [->|P], Q as [->|Q]; [reflexivity| | |now apply IH].
  - destruct M. rewrite E. now apply in_map.
  - destruct M. rewrite <- E. now apply in_map.
Qed.
Lemma collect_ok s : NoDup (map pname (params s)) ->
  collect_parameters s = Ok (filter (fun p => negb (ends_with ".quantiles" (pname p)) && prequires p) (params s),
                             filter (fun p => ends_with ".quantiles" (pname p) && prequires p) (params s)).
Proof.
  intro N. unfold collect_parameters.
  assert (N' : NoDup (map fst (map (fun p => (pname p, p)) (params s)))) by (rewrite map_map; exact N).
  rewrite !dict_of_nodup by now apply NoDup_filter_fst. rewrite !map_snd_named. cbn [fst snd].
  match goal with |- (if ?b then _ else _) = _ => assert (E : b = false) end; [|rewrite E; reflexivity].
  apply orb_false_iff. split; apply negb_false_iff.
  - apply Nat.eqb_eq. apply length_zero_iff_nil.
    match goal with |- ?l = [] => destruct l as [|k r] eqn:L; [reflexivity|] end. exfalso.
    assert (I : In k (k :: r)) by now left. rewrite <- L in I. apply filter_In in I. destruct I as [I J].
    apply mem_In in J. apply in_fst_named in I, J. destruct I as (p & P1 & P2 & P3), J as (q & Q1 & Q2 & Q3). cbn [fst snd] in P2, Q2.
    assert (p = q) as -> by (apply (nodup_same_name (params s)); congruence).
    destruct (ends_with ".quantiles" (pname q)); cbn [negb andb] in P2, Q2; congruence.
  - apply andb_true_iff. split; apply forallb_forall; intros k I; apply mem_In.
    + apply in_app_iff in I. apply in_fst_named. destruct I as [I|I]; apply in_fst_named in I; destruct I as (p & P1 & P2 & P3);
        apply andb_true_iff in P2; exists p; cbn [fst snd] in *; tauto.
    + apply in_fst_named in I. destruct I as (p & P1 & P2 & P3). apply in_app_iff. cbn [fst snd] in P2.
      destruct (ends_with ".quantiles" (pname p)) eqn:Q; [right|left]; apply in_fst_named; exists p; cbn [fst snd]; rewrite Q, P2; tauto.
Qed.

Lemma substring_full n : substring 0 (String.length n) n = n.
Proof. induction n as [|a n IH]; [reflexivity|]. cbn. now rewrite IH. Qed.
Lemma substring_zero k n : String.length (substring k 0 n) = 0.
Proof. revert k. induction n as [|a n IH]; intros [|k]; cbn; try reflexivity. apply IH. Qed.
Lemma length_append a b : String.length (append a b) = String.length a + String.length b.
Proof. induction a as [|x a IH]; [reflexivity|]. cbn. now rewrite IH. Qed.
Lemma substring_split n : forall k, k <= String.length n -> n = append (substring 0 k n) (substring k (String.length n - k) n).
Proof.
  induction n as [|a n IH]; intros k K; cbn in K.
  - assert (k = 0) as -> by lia. reflexivity.
  - destruct k as [|k]; cbn [substring String.length append Nat.sub].
    + cbn. now rewrite substring_full.
    + f_equal. apply IH. lia.
Qed.
Lemma substring_append a b : substring (String.length a) (String.length b) (append a b) = b.
Proof. induction a as [|x a IH]; cbn; [apply substring_full|exact IH]. Qed.
Lemma ends_with_spec suffix n : ends_with suffix n = true <-> exists pre, n = append pre suffix.
Proof.
  unfold ends_with. split.
  - intro H. apply andb_true_iff in H. destruct H as [L E]. apply Nat.leb_le in L. apply String.eqb_eq in E.
    exists (substring 0 (String.length n - String.length suffix) n).
    rewrite (substring_split n (String.length n - String.length suffix)) at 1 by lia.
    replace (String.length n - (String.length n - String.length suffix)) with (String.length suffix) by lia.
    now rewrite E.
  - intros (pre & ->). rewrite length_append. apply andb_true_iff. split; [apply Nat.leb_le; lia|].
    replace (String.length pre + String.length suffix - String.length suffix) with (String.length pre) by lia.
    rewrite substring_append. apply String.eqb_refl.
Qed.

(** C47: multi-scale structural similarity. *)
From Coq Require Import String ZArith Arith List Bool Reals Lra Lia Psatz ZifyNat.
From Verif Require Import Base Tensor RSum Net_Model Ssim_Model Ssim_Spec Ssim_Proofs Ssim_Refine.
Import ListNotations.
Open Scope nat_scope.

Definition msssim data_range window_size k1 k2 sd preds target factors reduction :=
  multiscale_structural_similarity data_range window_size k1 k2 sd preds target factors reduction.
(** The score of image [k] as the paper defines it, averaged over [c] channels. *)
Definition paper_score sd r c1 c2 c h w (x y : tensor R) (factors : list R) (k : nat) : R :=
  (rsum c (fun ch => ms_ssim sd r c1 c2 h w (plane x k ch) (plane y k ch) factors) / INR c)%R.

Section Props.
Variables data_range k1 k2 sd : R.
Hypothesis C1 : (0 < (k1 * data_range) ^ 2)%R.
Hypothesis C2 : (0 < (k2 * data_range) ^ 2)%R.
Hypothesis SD : (0 < sd)%R.
Variable r : nat.
Local Notation W := (Z.of_nat (2 * r + 1)).
Local Notation c1 := ((k1 * data_range) ^ 2)%R.
Local Notation c2 := ((k2 * data_range) ^ 2)%R.

Lemma run_ok b c cy h w x y ps red : ps <> [] ->
  tshape x = [b; c; h; w] -> tshape y = [b; cy; h; w] -> 1 <= c <= cy -> 1 <= h -> 1 <= w ->
  2 * r + 1 <= size_at h (length ps - 1) -> 2 * r + 1 <= size_at w (length ps - 1) ->
  exists v, tshape v = [b] /\
    (forall k, tat v [k] = paper_score sd r c1 c2 c h w x y ps k) /\
    msssim data_range W k1 k2 sd x y ps red = reduce red v.
Proof.
  intros N X Y C H L SH SW.
  destruct (loop_ok data_range r k1 k2 sd ps true b c cy h w x y N X Y C H L SH SW) as (l & E & LN & F & V).
  unfold msssim, multiscale_structural_similarity. rewrite E. cbn [bind].
  assert (NL : l <> []) by (intros ->; destruct ps; [easy|cbn in LN; lia]).
  destruct (stack_ok l [c; 2; b] NL F) as [t0 ->]. cbn [bind tshape nth].
  eexists. split; [|split; [|reflexivity]]; [reflexivity|]. intro k. cbn [tat]. unfold paper_score. f_equal.
  apply rsum_ext. intros ch CH. rewrite <- (V ch k CH). unfold product.
  destruct l as [|u l]; [easy|]. f_equal.
  - cbn [tat]. f_equal. apply nth_indep. cbn [length]. lia.
  - f_equal. apply map_ext_in. intros s S. apply in_seq in S. cbn [tat]. f_equal. apply nth_indep. cbn [length] in *. lia.
Qed.

(** For images of one shape the function raises exactly when some scale is smaller than
    the window; else the unreduced result is the paper's score for every image. *)
Theorem msssim_formula b c h w x y ps : ps <> [] ->
  tshape x = [b; c; h; w] -> tshape y = [b; c; h; w] -> 1 <= c -> 1 <= h -> 1 <= w ->
  2 * r + 1 <= size_at h (length ps - 1) -> 2 * r + 1 <= size_at w (length ps - 1) ->
  exists v, msssim data_range W k1 k2 sd x y ps "none" = Ok v /\ tshape v = [b] /\
  forall k, k < b -> tat v [k] = paper_score sd r c1 c2 c h w x y ps k.
Proof.
  intros N X Y C H L SH SW. destruct (run_ok b c c h w x y ps "none" N X Y) as (v & T & V & E); auto; try lia.
  exists v. rewrite E. auto.
Qed.

Theorem msssim_raises_iff b c h w x y ps red : ps <> [] -> In red ["mean"; "sum"; "none"]%string ->
  tshape x = [b; c; h; w] -> tshape y = [b; c; h; w] -> 1 <= c -> 1 <= h -> 1 <= w ->
  ((exists e, msssim data_range W k1 k2 sd x y ps red = Raise e) <->
   exists k, k < length ps /\ (size_at h k < 2 * r + 1 \/ size_at w k < 2 * r + 1)) /\
  (forall e, msssim data_range W k1 k2 sd x y ps red = Raise e -> e = RuntimeError).
Proof.
  intros N R X Y C H L.
  assert (LP : 1 <= length ps) by (destruct ps; [easy|cbn; lia]).
  assert (D : forall q m k, k <= m -> size_at q m <= size_at q k).
  { intros q m k K. induction K as [|m K IH]; [lia|]. etransitivity; [|exact IH].
    rewrite <- size_at_S. apply size_at_mono. unfold up_half. destruct q; [reflexivity|dlia]. }
  assert (OK : forall v, exists t, reduce red v = Ok t).
  { intro v. unfold reduce. cbn in R. destruct R as [<-|[<-|[<-|[]]]]; eexists; reflexivity. }
  destruct (le_lt_dec (2 * r + 1) (size_at h (length ps - 1))) as [SH|SH].
  destruct (le_lt_dec (2 * r + 1) (size_at w (length ps - 1))) as [SW|SW].
  - destruct (run_ok b c c h w x y ps red N X Y) as (v & T & V & E); auto; try lia.
    destruct (OK v) as [t O]. rewrite E, O. split; [|discriminate]. split; [intros [e Q]; discriminate|].
    intros (k & K & S). pose proof (D h (length ps - 1) k ltac:(lia)). pose proof (D w (length ps - 1) k ltac:(lia)). lia.
  - pose proof (loop_small data_range r k1 k2 sd ps true b c c h w x y N X Y ltac:(lia) H L (or_intror SW)) as E.
    unfold msssim, multiscale_structural_similarity. rewrite E. cbn [bind].
    split; [|congruence]. split; [|eauto]. intros _. exists (length ps - 1). split; [lia|now right].
  - pose proof (loop_small data_range r k1 k2 sd ps true b c c h w x y N X Y ltac:(lia) H L (or_introl SH)) as E.
    unfold msssim, multiscale_structural_similarity. rewrite E. cbn [bind].
    split; [|congruence]. split; [|eauto]. intros _. exists (length ps - 1). split; [lia|now left].
Qed.

(** 'sum' and 'mean' reduce the unreduced result; any other word is refused. *)
Theorem msssim_reductions x y ps window v :
  msssim data_range window k1 k2 sd x y ps "none" = Ok v -> 
  let b := nth 0 (tshape v) 0 in
  let m := msssim data_range window k1 k2 sd x y ps in
  (exists t, m "sum"%string = Ok t /\ tshape t = [] /\ tat t [] = rsum b (fun k => tat v [k])) /\
  (exists t, m "mean"%string = Ok t /\ tshape t = [] /\ tat t [] = (rsum b (fun k => tat v [k]) / INR b)%R) /\
  (forall red, ~ In red ["mean"; "sum"; "none"]%string -> m red = Raise ValueError).
Proof.
  intros H b m. unfold m, b. clear m b. unfold msssim, multiscale_structural_similarity in *.
  destruct (scale_loop data_range window k1 k2 sd true x y ps) as [l|]; [|discriminate]. cbn [bind] in *.
  destruct (stack l) as [t|]; [|discriminate]. cbn [bind] in *. cbn in H. injection H as <-.
  split; [|split]; [eexists; cbn; eauto|eexists; cbn; eauto|].
  intros red R. unfold reduce. cbn [In] in R.
  destruct (String.eqb_spec red "mean"); [exfalso; tauto + (apply R; left; congruence)|].
  destruct (String.eqb_spec red "sum"); [exfalso; apply R; right; left; congruence|].
  destruct (String.eqb_spec red "none"); [exfalso; apply R; right; right; left; congruence|]. reflexivity.
Qed.

(** A window that is not a positive odd number is always refused. *)
Theorem msssim_window window b c h w x y ps red : ps <> [] ->
  (window <= 0 \/ window mod 2 = 0)%Z ->
  tshape x = [b; c; h; w] -> tshape y = [b; c; h; w] -> 1 <= c ->
  msssim data_range window k1 k2 sd x y ps red =
    Raise (if (Z.of_nat h <? window) || (Z.of_nat w <? window) then RuntimeError else ValueError)%Z.
Proof.
  intros N P X Y C. destruct ps as [|p ps]; [easy|].
  unfold msssim, multiscale_structural_similarity. cbn [scale_loop bind]. rewrite X.
  destruct ((Z.of_nat h <? window) || (Z.of_nat w <? window))%Z; [reflexivity|].
  unfold ssim_multichannel. rewrite X. cbn [nth]. destruct c as [|c]; [lia|]. cbn [seq mapM]. unfold channel. rewrite X, Y.
  cbn [bind]. unfold ssim_single_channel, gaussian_window.
  replace ((window <=? 0) || (window mod 2 =? 0))%Z with true; [reflexivity|].
  symmetry. apply orb_true_iff. destruct P as [P|P]; [left; now apply Z.leb_le|right; now apply Z.eqb_eq].
Qed.

(** Values lie in [0, 1]. *)
Lemma mean_range c f : 1 <= c -> (forall ch, ch < c -> (0 <= f ch <= 1)%R) -> (0 <= rsum c f / INR c <= 1)%R.
Proof.
  intros C F. assert (P : (0 < INR c)%R) by (apply lt_0_INR; lia). split.
  - apply Rmult_le_pos; [apply rsum_nonneg; intros; apply F; assumption|apply Rlt_le, Rinv_0_lt_compat; exact P].
  - apply Rdiv_le_1; [exact P|]. rewrite <- (Rmult_1_r (INR c)), <- rsum_const. apply rsum_le. intros. now apply F.
Qed.
Theorem msssim_range b c h w x y ps v : ps <> [] -> Forall (fun p => 0 <= p)%R ps ->
  tshape x = [b; c; h; w] -> tshape y = [b; c; h; w] -> 1 <= c -> 1 <= h -> 1 <= w ->
  msssim data_range W k1 k2 sd x y ps "none" = Ok v ->
  forall k, k < b -> (0 <= tat v [k] <= 1)%R.
Proof.
  intros N F X Y C H L E k K.
  destruct (msssim_raises_iff b c h w x y ps "none" N) as [I _]; auto; [cbn; auto|].
  assert (Q : forall s, s < length ps -> 2 * r + 1 <= size_at h s /\ 2 * r + 1 <= size_at w s).
  { intros s S. destruct (le_lt_dec (2 * r + 1) (size_at h s)), (le_lt_dec (2 * r + 1) (size_at w s)); auto;
      (destruct I as [_ I]; destruct I as [e I]; [exists s; auto|congruence]). }
  assert (LP : 1 <= length ps) by (destruct ps; [easy|cbn; lia]).
  destruct (Q (length ps - 1) ltac:(lia)) as [SH SW].
  destruct (msssim_formula b c h w x y ps N X Y C H L SH SW) as (v' & E' & _ & V).
  assert (v' = v) by congruence. subst. rewrite V by exact K. apply mean_range; [exact C|].
  intros ch CH. apply ms_range; auto; lia.
Qed.

(** Symmetric: swapping the images gives the same failure or the same values. *)
Theorem msssim_symmetric b c h w x y ps red : ps <> [] ->
  tshape x = [b; c; h; w] -> tshape y = [b; c; h; w] -> 1 <= c -> 1 <= h -> 1 <= w ->
  match msssim data_range W k1 k2 sd x y ps red, msssim data_range W k1 k2 sd y x ps red with
  | Ok u, Ok v => teq u v
  | Raise e, Raise e' => e = e'
  | _, _ => False
  end.
Proof.
  intros N X Y C H L.
  destruct (le_lt_dec (2 * r + 1) (size_at h (length ps - 1))) as [SH|SH].
  destruct (le_lt_dec (2 * r + 1) (size_at w (length ps - 1))) as [SW|SW].
  - destruct (run_ok b c c h w x y ps red N X Y) as (u & U & VU & ->); auto; try lia.
    destruct (run_ok b c c h w y x ps red N Y X) as (v & V & VV & ->); auto; try lia.
    assert (Q : forall k, tat u [k] = tat v [k]).
    { intro k. rewrite VU, VV. unfold paper_score. f_equal. apply rsum_ext. intros. apply ms_sym. }
    assert (Q' : rsum b (fun k => tat u [k]) = rsum b (fun k => tat v [k])) by (apply rsum_ext; auto).
    unfold reduce. rewrite U, V. cbn [nth].
    destruct (String.eqb red "mean"); [split; [reflexivity|]; intros idx _; cbn [tat]; now rewrite Q'|].
    destruct (String.eqb red "sum"); [split; [reflexivity|]; intros idx _; cbn [tat]; now rewrite Q'|].
    destruct (String.eqb red "none"); [|reflexivity]. split; [congruence|]. rewrite U.
    intros [|k [|]] I; cbn in I; try tauto. apply Q.
  - unfold msssim, multiscale_structural_similarity.
    rewrite (loop_small data_range r k1 k2 sd ps true b c c h w x y N X Y ltac:(lia) H L (or_intror SW)).
    rewrite (loop_small data_range r k1 k2 sd ps true b c c h w y x N Y X ltac:(lia) H L (or_intror SW)). reflexivity.
  - unfold msssim, multiscale_structural_similarity.
    rewrite (loop_small data_range r k1 k2 sd ps true b c c h w x y N X Y ltac:(lia) H L (or_introl SH)).
    rewrite (loop_small data_range r k1 k2 sd ps true b c c h w y x N Y X ltac:(lia) H L (or_introl SH)). reflexivity.
Qed.

(** The score of an image is 1 for the image itself and, if the window is larger than one
    pixel and the factors are positive, for no other. *)
Theorem msssim_one_iff b c h w x y ps v : ps <> [] -> Forall (fun p => 0 < p)%R ps -> 1 <= r ->
  tshape x = [b; c; h; w] -> tshape y = [b; c; h; w] -> 1 <= c -> 1 <= h -> 1 <= w ->
  msssim data_range W k1 k2 sd x y ps "none" = Ok v ->
  forall k, k < b ->
  (tat v [k] = 1%R <->
   forall ch i j, ch < c -> i < h -> j < w -> tat x [k; ch; i; j] = tat y [k; ch; i; j]).
Proof.
  intros N F R1 X Y C H L E k K.
  assert (F0 : Forall (fun p => 0 <= p)%R ps) by (eapply Forall_impl; [|exact F]; intros; cbn beta in *; lra).
  destruct (msssim_raises_iff b c h w x y ps "none" N) as [I _]; auto; [cbn; auto|].
  assert (Q : forall s, s < length ps -> 2 * r + 1 <= size_at h s /\ 2 * r + 1 <= size_at w s).
  { intros s S. destruct (le_lt_dec (2 * r + 1) (size_at h s)), (le_lt_dec (2 * r + 1) (size_at w s)); auto;
      (destruct I as [_ I]; destruct I as [e I]; [exists s; auto|congruence]). }
  assert (LP : 1 <= length ps) by (destruct ps; [easy|cbn; lia]).
  destruct (Q (length ps - 1) ltac:(lia)) as [SH SW].
  destruct (msssim_formula b c h w x y ps N X Y C H L SH SW) as (v' & E' & _ & V).
  assert (v' = v) by congruence. subst. rewrite V by exact K. unfold paper_score.
  assert (PC : (INR c <> 0)%R) by (apply not_0_INR; lia). split.
  - intros ONE ch i j CH I' J.
    assert (S : rsum c (fun ch => ms_ssim sd r c1 c2 h w (plane x k ch) (plane y k ch) ps) = (INR c * 1)%R).
    { apply (f_equal (fun q => q * INR c)%R) in ONE. unfold Rdiv in ONE.
      rewrite Rmult_assoc, Rinv_l in ONE by exact PC. lra. }
    assert (M : ms_ssim sd r c1 c2 h w (plane x k ch) (plane y k ch) ps = 1%R).
    { apply (rsum_max_inv c (fun ch => ms_ssim sd r c1 c2 h w (plane x k ch) (plane y k ch) ps)); auto.
      intros. apply ms_range; auto; lia. }
    apply (ms_identity sd r c1 c2 C1 C2 ps h w _ _ R1 N F ltac:(lia) ltac:(lia) M i j I' J).
  - intro EQ. rewrite (rsum_ext _ _ (fun _ => 1%R)); [rewrite rsum_const; field; exact PC|].
    intros ch CH. rewrite (ms_ext sd r c1 c2 ps h w _ _ (plane x k ch) (plane x k ch)).
    + apply ms_self; auto; lia.
    + reflexivity.
    + intros. symmetry. now apply EQ.
Qed.

(** An image compared with itself scores 1, for every window and all factors. *)
Theorem msssim_self b c h w x ps : ps <> [] -> tshape x = [b; c; h; w] -> 1 <= c -> 1 <= h -> 1 <= w ->
  2 * r + 1 <= size_at h (length ps - 1) -> 2 * r + 1 <= size_at w (length ps - 1) ->
  exists v, msssim data_range W k1 k2 sd x x ps "none" = Ok v /\ forall k, k < b -> tat v [k] = 1%R.
Proof.
  intros N X C H L SH SW. destruct (msssim_formula b c h w x x ps N X X C H L SH SW) as (v & E & _ & V).
  exists v. split; [exact E|]. intros k K. rewrite V by exact K. unfold paper_score.
  rewrite (rsum_ext _ _ (fun _ => 1%R)); [rewrite rsum_const; field; apply not_0_INR; lia|].
  intros. apply ms_self; auto; lia.
Qed.

(** Not checked: a target with more channels than the prediction is accepted and the extra
    channels are ignored, so different images can score 1. *)
Theorem msssim_extra_channels_refuted b c cy h w x y ps : ps <> [] ->
  tshape x = [b; c; h; w] -> tshape y = [b; cy; h; w] -> 1 <= c < cy -> 1 <= h -> 1 <= w ->
  2 * r + 1 <= size_at h (length ps - 1) -> 2 * r + 1 <= size_at w (length ps - 1) ->
  (forall k ch i j, ch < c -> tat x [k; ch; i; j] = tat y [k; ch; i; j]) ->
  exists v, msssim data_range W k1 k2 sd x y ps "none" = Ok v /\ forall k, k < b -> tat v [k] = 1%R.
Proof.
  intros N X Y C H L SH SW EQ.
  destruct (run_ok b c cy h w x y ps "none" N X Y ltac:(lia) H L SH SW) as (v & T & V & E).
  exists v. split; [exact E|]. intros k K. rewrite V. unfold paper_score.
  rewrite (rsum_ext _ _ (fun _ => 1%R)); [rewrite rsum_const; field; apply not_0_INR; lia|].
  intros ch CH. rewrite (ms_ext sd r c1 c2 ps h w _ _ (plane x k ch) (plane x k ch)).
  - apply ms_self; auto; lia.
  - reflexivity.
  - intros. symmetry. now apply EQ.
Qed.
End Props.

(** The default call: five scales with positive factors of sum 1 (up to the last digit), window
    11: the smallest accepted side is 161 = 10·16 + 1. *)
Theorem msssim_default_size :
  List.length MS_SSIM_FACTORS = 5 /\ Forall (fun p => 0 < p)%R MS_SSIM_FACTORS /\
  fold_right Rplus 0%R MS_SSIM_FACTORS = (10001 / 10000)%R /\
  forall q, 11 <= size_at q (List.length MS_SSIM_FACTORS - 1) <-> 161 <= q.
Proof.
  split; [reflexivity|]. split; [unfold MS_SSIM_FACTORS; repeat constructor; lra|].
  split; [cbn [MS_SSIM_FACTORS fold_right]; lra|].
  intro q. unfold size_at. change (2 ^ (List.length MS_SSIM_FACTORS - 1)) with 16. split; intro; dlia.
Qed.

(** A black against a white image with one scale and a window of 3: the score is c1/(1+c1). *)
Example msssim_black_white :
  let x := mkT [1; 1; 3; 3] (fun _ => 0%R) in
  let y := mkT [1; 1; 3; 3] (fun _ => 1%R) in
  exists v, msssim 1 3 (1/100) (3/100) (3/2) x y [1%R] "none" = Ok v /\
  tat v [0] = (1 / 10001)%R.
Proof.
  intros x y.
  destruct (msssim_formula 1 (1/100) (3/100) (3/2) 1 1 1 3 3 x y [1%R]) as (v & E & _ & V);
    try discriminate; try reflexivity; try (cbn; lia); try lra.
  exists v. split; [exact E|]. rewrite V by lia. unfold paper_score. rewrite rsum_S, rsum_0. cbn [ms_ssim INR].
  assert (LC : forall k i j, local (3/2) 1 (fun _ _ => k) i j = k) by (intros; apply local_const).
  change (plane x 0 0) with (fun _ _ : nat => 0%R). change (plane y 0 0) with (fun _ _ : nat => 1%R).
  assert (S : ssim (3 / 2) 1 ((1 / 100 * 1) ^ 2) ((3 / 100 * 1) ^ 2) 3 3 (fun _ _ => 0%R) (fun _ _ => 1%R) = (1/10001)%R).
  { unfold ssim. rewrite (over_ext 1 3 3 _ (fun _ _ => (1/10001)%R)); [apply over_const; lia|].
    intros i j _ _. unfold luminance, contrast_structure, variance. cbv zeta. rewrite !covariance_raw, !LC. 
    field. }
  rewrite S. unfold power. destruct (Rle_dec (1/10001) 0); [lra|]. rewrite Rpower_1 by lra. field.
Qed.

Print Assumptions msssim_formula.
Print Assumptions msssim_raises_iff.
Print Assumptions msssim_reductions.
Print Assumptions msssim_window.
Print Assumptions msssim_range.
Print Assumptions msssim_symmetric.
Print Assumptions msssim_one_iff.
Print Assumptions msssim_self.
Print Assumptions msssim_extra_channels_refuted.
Print Assumptions msssim_default_size.

(** C40: resolution of the U-Net discriminator's output. *)
From Coq Require Import String ZArith Arith List Bool Reals Lia ZifyNat ZifyBool.
From Verif Require Import Base Tensor Net_Model Net_Proofs Unet_Model Unet_Spec Unet_Proofs.
Import ListNotations.
Open Scope nat_scope.

Lemma pow2_land d : Z.land (2 ^ Z.of_nat d) (2 ^ Z.of_nat d - 1) = 0%Z.
Proof.
  rewrite Z.sub_1_r, <- Z.ones_equiv, Z.land_ones by lia. apply Z.mod_same. apply Z.pow_nonzero; lia.
Qed.
Lemma is_pow2_spec n : is_pow2_py n = true <-> power_of_two n.
Proof.
  unfold is_pow2_py, power_of_two. rewrite andb_true_iff, negb_true_iff, Z.eqb_eq, Z.eqb_neq. split.
  - intros [L N]. destruct (Z_lt_le_dec n 0) as [A|A].
    + exfalso. assert (Z.land n (n - 1) < 0)%Z by (apply Z.land_neg; lia). lia.
    + exists (Z.to_nat (Z.log2 n)). rewrite Z2Nat.id by apply Z.log2_nonneg.
      destruct (Z.log2_spec n) as [B C]; [lia|]. pose proof (Z.log2_nonneg n) as LN. set (k := Z.log2 n) in *.
      destruct (Z.eq_dec n (2 ^ k)) as [E|E]; [exact E|exfalso].
      assert (T : Z.testbit (Z.land n (n - 1)) k = true).
      { rewrite Z.land_spec. assert (TB : forall m, (2 ^ k <= m < 2 ^ Z.succ k)%Z -> Z.testbit m k = true).
        { intros m [M1 M2]. rewrite Z.testbit_true by lia. rewrite Z.pow_succ_r in M2 by lia.
          assert (P : (0 < 2 ^ k)%Z) by (apply Z.pow_pos_nonneg; lia).
          replace (m / 2 ^ k)%Z with 1%Z; [reflexivity|]. apply Z.div_unique with (m - 2 ^ k)%Z; lia. }
        rewrite !TB by lia. reflexivity. }
      rewrite L, Z.testbit_0_l in T. discriminate.
  - intros [d ->]. split; [apply pow2_land|]. apply Z.pow_nonzero; lia.
Qed.

Lemma norm_ok_string norm : known_norm norm -> exists t, verify_norm_type norm = Ok t /\ (t = Instance -> norm = "instance"%string).
Proof. intros [<-|[<-|[<-|[<-|[]]]]]; eexists; (split; [reflexivity|]); congruence. Qed.

(** Only powers of two and known norms are accepted. *)
Theorem unet_constructor norm W oc factor channels :
  (exists disc, unet norm W oc factor channels = Ok disc) <-> power_of_two factor /\ known_norm norm.
Proof.
  unfold unet. rewrite <- is_pow2_spec. destruct (is_pow2_py factor); cbn [negb].
  - split.
    + intros [disc D]. split; [reflexivity|]. unfold verify_norm_type in D. unfold known_norm.
      destruct (String.eqb_spec norm "batch") as [->|]; [now left|]. destruct (String.eqb_spec norm "spectral") as [->|]; [right; now left|].
      destruct (String.eqb_spec norm "instance") as [->|]; [right; right; now left|]. destruct (String.eqb_spec norm "identity") as [->|]; [right; right; right; now left|].
      discriminate.
    + intros [_ K]. destruct (norm_ok_string norm K) as (t & -> & _). cbn [bind]. destruct (unet_inner _ _ _ _ _ _ _ _) as [[m l] c]. now eexists.
  - split; [intros [d D]; discriminate|]. intros [X _]. discriminate.
Qed.
Theorem unet_factor_rejected norm W oc factor channels : ~ power_of_two factor ->
  unet norm W oc factor channels = Raise ValueError.
Proof.
  intro N. unfold unet. destruct (is_pow2_py factor) eqn:E; [apply is_pow2_spec in E; tauto|reflexivity].
Qed.

Section Unet.
Variables (norm : string) (W : nat -> nat -> vals) (oc : nat).
Hypothesis KN : known_norm norm.
(** The list of channels, c0 :: inner ++ [bottom], has one level per entry but the first. *)
Variables (c0 : nat) (inner : list nat) (bottom : nat).
Notation channels := (c0 :: inner ++ [bottom]).
Notation L := (length inner + 1).
(** The channels of the second entry *)
Notation c1 := (hd bottom inner).
Notation the d := (unet norm W oc (2 ^ Z.of_nat d) channels).

Lemma unet_unfold d : exists t model disc, the d = Ok disc /\ (t = Instance -> norm = "instance"%string) /\
  let u := (Z.of_nat L - Z.of_nat d)%Z in
  disc = sequential [unet_level t (W 0) c0 c1 64 model true (clipped u (length inner)); conv 64 oc 1 1 0 (W 0 20)] /\
  inner_inv t u bottom (length inner) c1 (clipped u (length inner)) model.
Proof.
  destruct (norm_ok_string norm KN) as (t & T & TI).
  set (u := (Z.of_nat L - Z.of_nat d)%Z).
  destruct (inner_all t W u bottom (rev inner) 0 bottom false _ (inner_start t W u bottom)) as (model & E & I).
  rewrite rev_length in E, I. cbn [Nat.add] in E, I.
  assert (HL : last (rev inner) bottom = c1).
  { destruct inner as [|a l]; [reflexivity|]. cbn [rev hd]. apply last_last. }
  rewrite HL in E, I. exists t, model, (sequential [unet_level t (W 0) c0 c1 64 model true (clipped u (length inner)); conv 64 oc 1 1 0 (W 0 20)]).
  split; [|split; [exact TI|split; [reflexivity|exact I]]].
  unfold unet. assert (P : is_pow2_py (2 ^ Z.of_nat d) = true) by (apply is_pow2_spec; now exists d). rewrite P. cbn [negb]. rewrite T. cbn [bind].
  rewrite Z.log2_pow2 by lia. cbn [tl hd]. rewrite removelast_last.
  replace (last channels 0) with bottom by (change (c0 :: inner ++ [bottom]) with ((c0 :: inner) ++ [bottom]); now rewrite last_last).
  replace (Z.of_nat (length channels) - 1 - Z.of_nat d)%Z with u by (unfold u; cbn [length]; rewrite app_length; cbn [length]; lia).
  rewrite E. reflexivity.
Qed.
Lemma nok_of t h w : (t = Instance -> norm = "instance"%string) -> norm_fits norm L h w ->
  nok t (h / 2 / 2 ^ length inner) (w / 2 / 2 ^ length inner).
Proof.
  intros TI NF E. specialize (NF (TI E)). rewrite Nat.add_1_r in NF. cbn [Nat.pow] in NF.
  assert (2 ^ length inner <> 0) by (apply Nat.pow_nonzero; lia). rewrite !Nat.div_div by lia. exact NF.
Qed.
Lemma pow_L : 2 ^ L = 2 * 2 ^ length inner.
Proof. rewrite Nat.add_1_r. reflexivity. Qed.
Lemma div_L h : h / 2 / 2 ^ length inner = h / 2 ^ L.
Proof. rewrite pow_L. assert (2 ^ length inner <> 0) by (apply Nat.pow_nonzero; lia). now rewrite Nat.div_div by lia. Qed.
Lemma last_conv b h w : 1 <= h -> 1 <= w -> maps (conv 64 oc 1 1 0 (W 0 20)) [b; 64; h; w] [b; oc; h; w].
Proof. intros. apply maps_conv; try lia; rewrite Nat.div_1_r; lia. Qed.

(** What happens for each d, given a large enough image. *)
Lemma unet_cases d h w : 2 ^ L <= h -> 2 ^ L <= w -> norm_fits norm L h w ->
  exists disc, the d = Ok disc /\
  let u := (Z.of_nat L - Z.of_nat d)%Z in
  let c := outc u bottom (length inner) c1 in
  if clipped u (length inner)
  then (c = 64 -> produces disc c0 h w oc (h / 2 ^ L * 2 ^ Z.to_nat u) (w / 2 ^ L * 2 ^ Z.to_nat u)) /\ (c <> 64 -> refuses disc c0 h w)
  else (c = c1 -> produces disc c0 h w oc (h / 2 ^ L * 2 ^ L) (w / 2 ^ L * 2 ^ L)) /\ (c <> c1 -> refuses disc c0 h w).
Proof.
  intros Hh Hw NF. destruct (unet_unfold d) as (t & model & disc & E & TI & H). cbv zeta in H. destruct H as [-> (_ & M & F)].
  eexists. split; [exact E|]. cbv zeta. set (u := (Z.of_nat L - Z.of_nat d)%Z) in *. set (c := outc u bottom (length inner) c1) in *.
  pose proof (nok_of t h w TI NF) as NK.
  assert (P : 1 <= 2 ^ length inner) by (pose proof (Nat.pow_nonzero 2 (length inner)); lia).
  rewrite pow_L in Hh, Hw.
  assert (Hh2 : 2 ^ length inner <= h / 2) by (apply Nat.div_le_lower_bound; lia).
  assert (Hw2 : 2 ^ length inner <= w / 2) by (apply Nat.div_le_lower_bound; lia).
  assert (CM : forall b, maps model [b; c1; h / 2; w / 2] [b; c; h / 2 ^ L * 2 ^ ups u (length inner); w / 2 ^ L * 2 ^ ups u (length inner)]).
  { intro b. rewrite <- !div_L. apply (M b (h / 2) (w / 2) Hh2 Hw2 NK). }
  assert (Ph : 1 <= h / 2 ^ L) by (rewrite pow_L; apply Nat.div_le_lower_bound; lia).
  assert (Pw : 1 <= w / 2 ^ L) by (rewrite pow_L; apply Nat.div_le_lower_bound; lia).
  assert (PP : forall k, 1 <= 2 ^ k) by (intro k; pose proof (Nat.pow_nonzero 2 k); lia).
  destruct (clipped u (length inner)) eqn:CL.
  - assert (UE : ups u (length inner) = Z.to_nat u) by (unfold ups; now rewrite CL). rewrite UE in CM.
    split.
    + intros EC b x H. rewrite EC in CM.
      destruct (level_clipped t (W 0) b c0 c1 true h w 64 model 64 _ _ ltac:(lia) ltac:(lia) (CM b) x H) as (y & Y & Hy).
      change (exists z, (do y <- unet_level t (W 0) c0 c1 64 model true true x; do z <- conv 64 oc 1 1 0 (W 0 20) y; Ok z) = Ok z /\
        tshape z = [b; oc; h / 2 ^ L * 2 ^ Z.to_nat u; w / 2 ^ L * 2 ^ Z.to_nat u]). rewrite Y. cbn [bind].
      assert (Ha : 1 <= h / 2 ^ L * 2 ^ Z.to_nat u) by (specialize (PP (Z.to_nat u)); nia).
      assert (Hc : 1 <= w / 2 ^ L * 2 ^ Z.to_nat u) by (specialize (PP (Z.to_nat u)); nia).
      destruct (last_conv b _ _ Ha Hc y Hy) as (z & -> & Hz). cbn [bind]. exists z. now split.
    + intros EC b x H.
      destruct (level_clipped t (W 0) b c0 c1 true h w 64 model c _ _ ltac:(lia) ltac:(lia) (CM b) x H) as (y & Y & Hy).
      change (exists e, (do y <- unet_level t (W 0) c0 c1 64 model true true x; do z <- conv 64 oc 1 1 0 (W 0 20) y; Ok z) = Raise e). rewrite Y. cbn [bind].
      unfold conv. rewrite Hy, (proj2 (Nat.eqb_neq c 64) EC). cbn [andb bind]. now eexists.
  - assert (UE : ups u (length inner) = length inner) by (unfold ups; now rewrite CL). rewrite UE in CM.
    assert (EL : forall q, q / 2 ^ L * 2 ^ L = 2 * (q / 2 ^ L * 2 ^ length inner)) by (intro q; rewrite pow_L at 2; lia).
    assert (Ha : 1 <= h / 2 ^ L * 2 ^ length inner) by nia.
    assert (Hc : 1 <= w / 2 ^ L * 2 ^ length inner) by nia.
    split.
    + intros EC b x H. rewrite EC in CM.
      assert (NK2 : nok t (h / 2 ^ L * 2 ^ length inner) (w / 2 ^ L * 2 ^ length inner)) by (rewrite <- !div_L; eapply nok_mono; [exact NK|nia|nia]).
      destruct (level_open t (W 0) b c0 c1 true h w 64 model _ _ ltac:(lia) ltac:(lia) Ha Hc NK2 (CM b) x H) as (y & Y & Hy).
      change (exists z, (do y <- unet_level t (W 0) c0 c1 64 model true false x; do z <- conv 64 oc 1 1 0 (W 0 20) y; Ok z) = Ok z /\
        tshape z = [b; oc; h / 2 ^ L * 2 ^ L; w / 2 ^ L * 2 ^ L]). rewrite Y. cbn [bind]. rewrite !EL.
      destruct (last_conv b (2 * (h / 2 ^ L * 2 ^ length inner)) (2 * (w / 2 ^ L * 2 ^ length inner)) ltac:(lia) ltac:(lia) y Hy) as (z & -> & Hz). cbn [bind]. exists z. now split.
    + intros EC b x H.
      destruct (level_mismatch t (W 0) b c0 c1 true h w 64 model c _ _ x ltac:(lia) ltac:(lia) EC Ha Hc (CM b) H) as (e & Y).
      exists e. cbn [sequential]. now rewrite Y.
Qed.

(** Factor 1: the output has the image's resolution, cut down to a multiple of 2^L. *)
Theorem unet_full_resolution h w : 2 ^ L <= h -> 2 ^ L <= w -> norm_fits norm L h w ->
  exists disc, the 0 = Ok disc /\ produces disc c0 h w oc (h / 2 ^ L * 2 ^ L) (w / 2 ^ L * 2 ^ L).
Proof.
  intros Hh Hw NF. destruct (unet_cases 0 h w Hh Hw NF) as (disc & E & H). cbv zeta in H. exists disc. split; [exact E|].
  unfold clipped, outc in H. destruct (_ && _) eqn:X in H; [lia|]. apply H.
  replace ((1 <=? _)%Z && _) with false by lia. destruct (Z.eqb_spec (Z.of_nat L - Z.of_nat 0) 0); [lia|reflexivity].
Qed.
(** C40: factors 4, 8, ... up to 2^(L-1) work: for sizes divisible by 2^L the output is the
    image's size divided by the factor; other sizes are first cut down to multiples of 2^L. *)
Theorem unet_factor d h w : 2 <= d -> d < L -> 2 ^ L <= h -> 2 ^ L <= w -> norm_fits norm L h w ->
  exists disc, the d = Ok disc /\ produces disc c0 h w oc (h / 2 ^ L * 2 ^ (L - d)) (w / 2 ^ L * 2 ^ (L - d)) /\
  (forall q, Nat.divide (2 ^ L) q -> q / 2 ^ L * 2 ^ (L - d) = q / 2 ^ d).
Proof.
  intros D1 D2 Hh Hw NF. destruct (unet_cases d h w Hh Hw NF) as (disc & E & H). cbv zeta in H. exists disc. split; [exact E|].
  unfold clipped, outc in H. destruct (_ && _) eqn:X in H; [|lia].
  replace ((1 <=? Z.of_nat L - Z.of_nat d)%Z && (Z.of_nat L - Z.of_nat d <=? Z.of_nat (length inner))%Z) with true in H by lia.
  replace (Z.to_nat (Z.of_nat L - Z.of_nat d)) with (L - d) in H by lia. split; [now apply H|].
  intros q [k ->]. assert (2 ^ L <> 0) by (apply Nat.pow_nonzero; lia). assert (2 ^ d <> 0) by (apply Nat.pow_nonzero; lia).
  rewrite Nat.div_mul by assumption. replace (2 ^ L) with (2 ^ (L - d) * 2 ^ d) by (rewrite <- Nat.pow_add_r; f_equal; lia).
  rewrite Nat.mul_assoc, Nat.div_mul by assumption. reflexivity.
Qed.
(** C40, first exception: factor 2 with at least two levels never works: the discriminator
    refuses every image, or, if the second entry of the channels happens to be 64, it
    returns the full resolution. *)
Theorem unet_factor_two_refuted h w : 2 <= L -> 2 ^ L <= h -> 2 ^ L <= w -> norm_fits norm L h w ->
  exists disc, the 1 = Ok disc /\
  (c1 <> 64 -> refuses disc c0 h w) /\
  (c1 = 64 -> produces disc c0 h w oc (h / 2 ^ L * 2 ^ L) (w / 2 ^ L * 2 ^ L)).
Proof.
  intros L2 Hh Hw NF. destruct (unet_cases 1 h w Hh Hw NF) as (disc & E & H). cbv zeta in H. exists disc. split; [exact E|].
  unfold clipped, outc in H. destruct (_ && _) eqn:X in H; [lia|].
  replace ((1 <=? Z.of_nat L - Z.of_nat 1)%Z && (Z.of_nat L - Z.of_nat 1 <=? Z.of_nat (length inner))%Z) with true in H by lia.
  destruct H as [H1 H2]. split; [intro N; apply H2; congruence|intro N; apply H1; congruence].
Qed.
(** C40, second exception: the factor 2^L of the whole depth works only if the last entry
    of the channels is 64. *)
Theorem unet_factor_depth_refuted h w : 2 <= L -> 2 ^ L <= h -> 2 ^ L <= w -> norm_fits norm L h w ->
  exists disc, the L = Ok disc /\
  (bottom <> 64 -> refuses disc c0 h w) /\
  (bottom = 64 -> produces disc c0 h w oc (h / 2 ^ L) (w / 2 ^ L)).
Proof.
  intros L2 Hh Hw NF. destruct (unet_cases L h w Hh Hw NF) as (disc & E & H). cbv zeta in H. exists disc. split; [exact E|].
  unfold clipped, outc in H. destruct (_ && _) eqn:X in H; [|lia].
  replace ((1 <=? Z.of_nat L - Z.of_nat L)%Z && (Z.of_nat L - Z.of_nat L <=? Z.of_nat (length inner))%Z) with false in H by lia.
  replace (Z.of_nat L - Z.of_nat L =? 0)%Z with true in H by lia. replace (Z.to_nat (Z.of_nat L - Z.of_nat L)) with 0 in H by lia.
  rewrite !Nat.mul_1_r in H. split; tauto.
Qed.
(** C40, third exception: a larger factor, or factor 2 with one level, is silently ignored. *)
Theorem unet_large_factor_refuted d h w : L < d \/ (L = 1 /\ d = 1) -> 2 ^ L <= h -> 2 ^ L <= w -> norm_fits norm L h w ->
  exists disc, the d = Ok disc /\ produces disc c0 h w oc (h / 2 ^ L * 2 ^ L) (w / 2 ^ L * 2 ^ L).
Proof.
  intros D Hh Hw NF. destruct (unet_cases d h w Hh Hw NF) as (disc & E & H). cbv zeta in H. exists disc. split; [exact E|].
  unfold clipped, outc in H. destruct (_ && _) eqn:X in H; [lia|]. apply H.
  replace ((1 <=? Z.of_nat L - Z.of_nat d)%Z && (Z.of_nat L - Z.of_nat d <=? Z.of_nat (length inner))%Z) with false by lia.
  destruct (Z.eqb_spec (Z.of_nat L - Z.of_nat d) 0) as [Z0|Z0]; [|reflexivity].
  assert (length inner = 0) by lia. destruct inner; [reflexivity|cbn in *; lia].
Qed.
(** Images smaller than 2^L are refused whatever the factor. *)
Theorem unet_small_image d h w : 1 <= h -> 1 <= w -> h < 2 ^ L \/ w < 2 ^ L ->
  exists disc, the d = Ok disc /\ refuses disc c0 h w.
Proof.
  intros Hh Hw S. destruct (unet_unfold d) as (t & model & disc & E & TI & H). cbv zeta in H. destruct H as [-> (_ & M & F)].
  eexists. split; [exact E|]. intros b x H.
  assert (G : exists e, unet_level t (W 0) c0 c1 64 model true (clipped (Z.of_nat L - Z.of_nat d) (length inner)) x = Raise e).
  { rewrite pow_L in S. destruct (le_lt_dec 2 h) as [A|A]; [destruct (le_lt_dec 2 w) as [B|B]|].
    - apply (level_child_fails t (W 0) b c0 c1 true h w 64 model _ x A B H). intros z Hz.
      apply (F b (h / 2) (w / 2) z); [clear -A; dlia|clear -B; dlia| |exact Hz].
      destruct S as [S|S]; [left|right]; apply Nat.div_lt_upper_bound; lia.
    - apply (level_small t (W 0) b c0 c1 true h w 64 model _ x Hh Hw ltac:(lia) H).
    - apply (level_small t (W 0) b c0 c1 true h w 64 model _ x Hh Hw ltac:(lia) H). }
  destruct G as (e & G). exists e. cbn [sequential]. now rewrite G.
Qed.

(** The conditional discriminator: a context of any size from 2 by 2 is resampled to the
    image's size; the first entry of the channels must count the context's channels. *)
Theorem unet_conditional U context_in context_out interp disc ci h w oc' h' w' b image context hc wc :
  produces disc (ci + context_out) h w oc' h' w' -> 1 <= h -> 1 <= w ->
  tshape image = [b; ci; h; w] -> tshape context = [b; context_in; hc; wc] -> 2 <= hc -> 2 <= wc ->
  exists y, conditional_unet U context_in context_out interp disc image context = Ok y /\ tshape y = [b; oc'; h'; w'].
Proof.
  intros P Hh Hw HI HC Hhc Hwc. unfold conditional_unet.
  assert (PD : exists c, pad2 0%R Reflect context 1 1 1 1 = Ok c /\ tshape c = [b; context_in; 1 + hc + 1; 1 + wc + 1]).
  { unfold pad2. rewrite HC. unfold pad_ok. assert (X : 1 <? hc = true) by (apply Nat.ltb_lt; lia). assert (Y : 1 <? wc = true) by (apply Nat.ltb_lt; lia).
    rewrite X, Y. cbn [andb]. eexists. now split. }
  destruct PD as (c & -> & Hc). cbn [bind].
  assert (CV : maps (conv context_in context_out 3 1 0 (U 0)) [b; context_in; 1 + hc + 1; 1 + wc + 1] [b; context_out; hc; wc]).
  { apply maps_conv; try lia; rewrite Nat.div_1_r; lia. }
  destruct (CV c Hc) as (c' & -> & Hc'). cbn [bind]. destruct (maps_act (U 1) _ c' Hc') as (a & -> & Ha). cbn [bind].
  rewrite HI. cbn [nth]. unfold interpolate. rewrite Ha.
  rewrite (proj2 (Nat.leb_le 1 hc)), (proj2 (Nat.leb_le 1 wc)), (proj2 (Nat.leb_le 1 h)), (proj2 (Nat.leb_le 1 w)) by lia. cbn [andb bind].
  unfold cat1. rewrite HI. cbn [tshape]. rewrite !Nat.eqb_refl. cbn [andb bind]. now apply (P b).
Qed.
End Unet.

(** The default channels [3; 128; 128; 256; 256; 512; 512] and a 256 by 256 image: factors
    1, 4, 8, 16 and 32 work; 2 and 64 do not; from 128 the factor is ignored. *)
Example unet_default_ex : length [128; 128; 256; 256; 512] + 1 = 6 /\ 2 ^ 6 <= 256 /\
  norm_fits "identity" 6 256 256 /\ known_norm "identity" /\ 256 / 2 ^ 6 * 2 ^ (6 - 4) = 16 /\
  hd 512 [128; 128; 256; 256; 512] <> 64 /\ ~ power_of_two 12.
Proof.
  repeat split; try (cbn; lia).
  - intro X. discriminate.
  - right; right; right; now left.
  - intros [d E]. destruct d as [|[|[|[|d]]]]; cbn in E; try lia.
    assert (16 <= 2 ^ Z.of_nat (S (S (S (S d)))))%Z by (change 16%Z with (2 ^ 4)%Z; apply Z.pow_le_mono_r; lia). lia.
Qed.

Print Assumptions unet_constructor.
Print Assumptions unet_factor.
Print Assumptions unet_factor_two_refuted.
Print Assumptions unet_factor_depth_refuted.
Print Assumptions unet_large_factor_refuted.
Print Assumptions unet_small_image.
Print Assumptions unet_conditional.

(** An unknown norm is refused with a ValueError, as is a factor that is not a power of two. *)
Theorem unet_norm_rejected norm W oc factor channels : ~ known_norm norm -> unet norm W oc factor channels = Raise ValueError.
Proof.
  intro N. unfold unet. destruct (is_pow2_py factor); cbn [negb]; [|reflexivity]. unfold verify_norm_type. unfold known_norm in N. cbn [In] in N.
  destruct (String.eqb_spec norm "batch") as [->|]; [tauto|]. destruct (String.eqb_spec norm "spectral") as [->|]; [tauto|].
  destruct (String.eqb_spec norm "instance") as [->|]; [tauto|]. destruct (String.eqb_spec norm "identity") as [->|]; [tauto|]. reflexivity.
Qed.
Print Assumptions unet_norm_rejected.

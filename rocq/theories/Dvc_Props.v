(** C38, C39: deep video compression. *)
From Coq Require Import ZArith Arith List Bool Reals Lia Lra ZifyNat.
From Verif Require Import Base RBase Tensor Net_Model Net_Proofs Dvc_Model Dvc_Spec Dvc_Proofs.
Import ListNotations.
Open Scope nat_scope.

(** C38: for any kernel, stride and number of layers, the decoder given the sizes the
    encoder logged restores the encoder's input size; with another number of sizes it
    raises ValueError. *)
Theorem dvc_autoencoder_size WE WD ci fc co fd cl k s g g' n x b h w :
  1 <= k -> 1 <= s -> 1 <= n -> tshape x = [b; ci; h; w] -> 1 <= h -> 1 <= w ->
  exists y sizes h' w', encoder_forward (enc_layers WE 0 ci fc co k s g n) x = Ok (y, sizes) /\ tshape y = [b; co; h'; w'] /\
    (forall z, tshape z = tshape y ->
       exists r, decoder_forward (dec_layers WD 0 co fd cl k s g' n) z (Some sizes) = Ok r /\ tshape r = [b; cl; h; w]) /\
    (forall z other, length other <> length sizes ->
       decoder_forward (dec_layers WD 0 co fd cl k s g' n) z (Some other) = Raise ValueError).
Proof.
  intros K S1 N H Hh Hw. destruct n as [|m]; [lia|].
  destruct (encoder_ok WE fc co k s g b K m 0 ci x h w H Hh Hw) as (y & Y & Hy).
  exists y, (esizes b ci fc k s (S m) h w), (down k s (S m) h), (down k s (S m) w). split; [exact Y|]. split; [exact Hy|]. split.
  - intros z Hz. apply decoder_ok; try assumption. congruence.
  - intros z other L. unfold decoder_forward. rewrite dec_count. rewrite esizes_length in L.
    destruct (Nat.eqb_spec (S m) (length other)); [congruence|reflexivity].
Qed.

Lemma odd_pos k : Nat.Odd k -> 1 <= k.
Proof. intros [j ->]. lia. Qed.

Lemma half_even m n : 1 <= n -> Nat.Even (ceil_pow2 m n) -> ceil_pow2 m n / 2 = ceil_pow2 (S m) n.
Proof.
  intros N [q E]. rewrite <- (down2 1 ltac:(now exists 0) (S m) n N), down_S, down2 by (auto; now exists 0). rewrite E.
  rewrite osz2; [dlia|now exists 0|]. pose proof (ceil_pow2_pos m n N). lia.
Qed.

Section DVC.
(** Any motion estimator and compensation of the right shapes, any warp. *)
Variable motion_estimator : tensor R -> tensor R -> res (tensor R).
Variable motion_compensation : tensor R -> tensor R -> tensor R -> res (tensor R).
Variable warp_vals : tensor R -> tensor R -> list nat -> R.
(** Any weights, channels, odd kernel sizes and numbers of layers of the two autoencoders. *)
Variables (W1 W2 W3 W4 : nat -> nat -> vals).
Variables (c fm fm' cm km nm fr fr' cr kr nr : nat) (g1 g2 g3 g4 : bool).
Notation menc := (enc_layers W1 0 2 fm cm km 2 g1 nm).
Notation mdec := (dec_layers W2 0 cm fm' 2 km 2 g2 nm).
Notation renc := (enc_layers W3 0 c fr cr kr 2 g3 nr).
Notation rdec := (dec_layers W4 0 cr fr' c kr 2 g4 nr).
(** Any bottlenecks. *)
Context {B B' : Type}.
Variables (mb_compress : tensor R -> res B) (mb_decompress : B -> nat * nat -> res (tensor R)) (mq : tensor R -> tensor R).
Variables (rb_compress : tensor R -> res B') (rb_decompress : B' -> nat * nat -> res (tensor R)) (rq : tensor R -> tensor R).
Notation compress := (dvc_compress motion_estimator menc mdec renc warp_vals motion_compensation mb_compress mb_decompress rb_compress).
Notation decompress := (dvc_decompress mdec rdec warp_vals motion_compensation mb_decompress rb_decompress).

(** What both sides compute, with the flow and the residual quantised. *)
Definition dvc_prediction (image1 image2 : tensor R) (flat : tensor R) (fsz : list (list nat)) (est : tensor R) : Prop :=
  exists flow flow' warped,
    motion_estimator image1 image2 = Ok flow /\ encoder_forward menc flow = Ok (flat, fsz) /\
    decoder_forward mdec (mq flat) (Some fsz) = Ok flow' /\
    dense_image_warp warp_vals image1 flow' = Ok warped /\
    motion_compensation image1 warped flow' = Ok est.

Section Run.
Variables (b h w : nat) (image1 image2 : tensor R).
Hypotheses (ML : bottleneck_lossless mb_compress mb_decompress mq cm) (RL : bottleneck_lossless rb_compress rb_decompress rq cr).
Hypotheses (ME : estimates motion_estimator b c h w) (MC : compensates motion_compensation b c h w).
Hypotheses (Km : Nat.Odd km) (Kr : Nat.Odd kr) (Nm : 1 <= nm) (Nr : 1 <= nr).
Hypotheses (H1 : tshape image1 = [b; c; h; w]) (H2 : tshape image2 = [b; c; h; w]) (Hb : 1 <= b) (Hh : 1 <= h) (Hw : 1 <= w).

Lemma compress_all : exists p flat est residual rlat rres mstr rstr,
  compress image1 image2 = Ok p /\
  dvc_prediction image1 image2 flat (flow_decomp_sizes p) est /\ tshape est = [b; c; h; w] /\
  sub image2 est = Ok residual /\ tshape residual = [b; c; h; w] /\ encoder_forward renc residual = Ok (rlat, residual_decomp_sizes p) /\
  decoder_forward rdec (rq rlat) (Some (residual_decomp_sizes p)) = Ok rres /\ tshape rres = [b; c; h; w] /\
  p = mkPF mstr (esizes b 2 fm km 2 nm h w) rstr (esizes b c fr kr 2 nr h w) /\
  mb_decompress mstr (ceil_pow2 nm h, ceil_pow2 nm w) = Ok (mq flat) /\
  rb_decompress rstr (ceil_pow2 nr h, ceil_pow2 nr w) = Ok (rq rlat).
Proof.
  clear -ML RL ME MC Km Kr Nm Nr H1 H2 Hb Hh Hw.
  destruct nm as [|m] eqn:EN; [lia|]. destruct nr as [|r] eqn:ER; [lia|]. rewrite <- EN, <- ER in *.
  destruct (ME image1 image2 H1 H2) as (flow & F & Hf).
  destruct (encoder_ok W1 fm cm km 2 g1 b (odd_pos km Km) m 0 2 flow h w Hf Hh Hw) as (flat & FL & Hfl). rewrite <- EN in FL, Hfl.
  rewrite !down2 in Hfl by assumption.
  destruct (ML flat b _ _ Hfl Hb (ceil_pow2_pos nm h Hh) (ceil_pow2_pos nm w Hw)) as (ms & C1 & D1 & Q1).
  assert (Q1' : tshape (mq flat) = [b; cm; down km 2 nm h; down km 2 nm w]) by (rewrite !down2 by assumption; congruence).
  rewrite EN in Q1'. destruct (decoder_ok W2 fm' 2 km 2 g2 b h w 2 fm m 0 cm (mq flat) (odd_pos km Km) ltac:(lia) Hh Hw Q1') as (flow' & FD & Hfd).
  rewrite <- EN in FD.
  destruct (warp_ok warp_vals image1 flow' b c h w h w H1 Hfd Hh Hw) as (wp & WP & Hwp).
  destruct (MC image1 wp flow' H1 Hwp Hfd) as (est & ES & He).
  assert (SB : exists residual, sub image2 est = Ok residual /\ tshape residual = [b; c; h; w]).
  { unfold sub, pointwise2. rewrite H2, He, bshape_refl. eexists. now split. }
  destruct SB as (residual & SB & Hr).
  destruct (encoder_ok W3 fr cr kr 2 g3 b (odd_pos kr Kr) r 0 c residual h w Hr Hh Hw) as (rlat & RE & Hrl). rewrite <- ER in RE, Hrl.
  rewrite !down2 in Hrl by assumption.
  destruct (RL rlat b _ _ Hrl Hb (ceil_pow2_pos nr h Hh) (ceil_pow2_pos nr w Hw)) as (rs & C2 & D2 & Q2).
  assert (Q2' : tshape (rq rlat) = [b; cr; down kr 2 nr h; down kr 2 nr w]) by (rewrite !down2 by assumption; congruence).
  rewrite ER in Q2'. destruct (decoder_ok W4 fr' c kr 2 g4 b h w c fr r 0 cr (rq rlat) (odd_pos kr Kr) ltac:(lia) Hh Hw Q2') as (rres & RD & Hrd).
  rewrite <- ER in RD.
  exists (mkPF ms (esizes b 2 fm km 2 nm h w) rs (esizes b c fr kr 2 nr h w)), flat, est, residual, rlat, rres, ms, rs.
  split. { unfold dvc_compress. rewrite F. cbn [bind]. rewrite FL. cbn [bind]. rewrite C1. cbn [bind]. rewrite Hfl.
    change (last2 [b; cm; ceil_pow2 nm h; ceil_pow2 nm w]) with (ceil_pow2 nm h, ceil_pow2 nm w). rewrite D1. cbn [bind]. rewrite FD. cbn [bind].
    rewrite WP. cbn [bind]. rewrite ES. cbn [bind]. rewrite SB. cbn [bind]. rewrite RE. cbn [bind]. rewrite C2. reflexivity. }
  cbn [flow_decomp_sizes residual_decomp_sizes].
  split; [now exists flow, flow', wp|]. repeat split; assumption.
Qed.

(** C38: if the last size the encoders log, the image's size over 2^(layers - 1) rounded
    up, is even in both directions, decompress returns the frame predicted from image1 with
    the flow both sides decode, plus the decoded residual against exactly that prediction,
    clamped to [0, 1], in the size of the image. *)
Theorem dvc_closed_loop :
  Nat.Even (ceil_pow2 (nm - 1) h) -> Nat.Even (ceil_pow2 (nm - 1) w) ->
  Nat.Even (ceil_pow2 (nr - 1) h) -> Nat.Even (ceil_pow2 (nr - 1) w) ->
  exists p flat est residual rlat rres y,
    compress image1 image2 = Ok p /\
    dvc_prediction image1 image2 flat (flow_decomp_sizes p) est /\
    sub image2 est = Ok residual /\ encoder_forward renc residual = Ok (rlat, residual_decomp_sizes p) /\
    decoder_forward rdec (rq rlat) (Some (residual_decomp_sizes p)) = Ok rres /\
    decompress image1 p = Ok y /\ tshape y = [b; c; h; w] /\
    forall idx, within [b; c; h; w] idx -> tat y idx = clamp (tat est idx + tat rres idx).
Proof.
  intros E1 E2 E3 E4. destruct compress_all as (p & flat & est & residual & rlat & rres & ms & rs & C & P & He & SB & Hr & RE & RD & Hrd & EP & D1 & D2).
  pose proof P as P0. destruct P as (flow & flow' & wp & F & FL & FD & WP & ES).
  destruct nm as [|m] eqn:EN; [lia|]. destruct nr as [|r] eqn:ER; [lia|]. cbn [Nat.sub] in E1, E2, E3, E4. rewrite Nat.sub_0_r in *.
  assert (SA : exists o, add est rres = Ok o /\ tshape o = [b; c; h; w] /\ forall idx, within [b; c; h; w] idx -> tat o idx = (tat est idx + tat rres idx)%R).
  { unfold add, pointwise2. rewrite He, Hrd, bshape_refl. eexists. split; [reflexivity|]. split; [reflexivity|]. intros idx I. cbn [tat].
    assert (BI : bidx [b; c; h; w] idx = idx).
    { revert I. generalize [b; c; h; w]. intros s I. induction I as [|i d idx s L I IH]; [reflexivity|]. cbn [bidx]. rewrite IH.
      destruct (Nat.eqb_spec d 1); [|reflexivity]. f_equal. lia. }
    now rewrite BI. }
  destruct SA as (o & SA & Ho & Vo).
  exists p, flat, est, residual, rlat, rres, (clamp01 o). repeat (split; [assumption|]). split.
  - unfold dvc_decompress. subst p. cbn [flow_decomp_sizes residual_decomp_sizes compressed_flow compressed_residual] in *.
    rewrite latent_size_ok by assumption. cbn [bind]. rewrite !half_even by assumption. rewrite D1. cbn [bind]. rewrite FD. cbn [bind].
    rewrite WP. cbn [bind]. rewrite ES. cbn [bind]. rewrite latent_size_ok by assumption. cbn [bind]. rewrite !half_even by assumption.
    rewrite D2. cbn [bind]. rewrite RD. cbn [bind]. rewrite SA. reflexivity.
  - split; [exact Ho|]. intros idx I. cbn [clamp01 tat]. now rewrite Vo.
Qed.

(** C38, the exception: if that size is odd in some direction, compress succeeds and
    decompress raises, because it halves it rounding down. *)
Theorem dvc_odd_size_refuted :
  bottleneck_sized mb_decompress -> bottleneck_sized rb_decompress ->
  Nat.Odd (ceil_pow2 (nm - 1) h) \/ Nat.Odd (ceil_pow2 (nm - 1) w) \/
  Nat.Odd (ceil_pow2 (nr - 1) h) \/ Nat.Odd (ceil_pow2 (nr - 1) w) ->
  exists p e, compress image1 image2 = Ok p /\ decompress image1 p = Raise e.
Proof.
  intros Z1 Z2 O. destruct compress_all as (p & flat & est & residual & rlat & rres & ms & rs & C & P & He & SB & Hr & RE & RD & Hrd & EP & D1 & D2).
  destruct nm as [|m] eqn:EN; [lia|]. destruct nr as [|r] eqn:ER; [lia|]. cbn [Nat.sub] in O. rewrite ?Nat.sub_0_r in *.
  exists p. subst p. unfold dvc_decompress. cbn [flow_decomp_sizes residual_decomp_sizes compressed_flow compressed_residual] in *.
  clear D1 D2 RD.
  rewrite latent_size_ok by assumption. cbn [bind].
  destruct (mb_decompress ms _) as [fl|e] eqn:MD; cbn [bind]; [|now exists e].
  destruct (Z1 _ _ _ _ MD) as (b1 & c1 & Hfl).
  destruct (decoder_forward (dec_layers W2 0 cm fm' 2 km 2 g2 (S m)) fl _) as [flow'|e] eqn:FD; cbn [bind]; [|now exists e].
  destruct (dense_image_warp _ _ _) as [wp|e]; cbn [bind]; [|now exists e].
  destruct (motion_compensation _ _ _) as [est'|e]; cbn [bind]; [|now exists e].
  rewrite latent_size_ok by assumption. cbn [bind].
  destruct (rb_decompress rs _) as [rl|e] eqn:RDc; cbn [bind]; [|now exists e].
  destruct (Z2 _ _ _ _ RDc) as (b2 & c2 & Hrl).
  destruct (Nat.Even_or_Odd (ceil_pow2 m h)) as [E1|E1]; [destruct (Nat.Even_or_Odd (ceil_pow2 m w)) as [E2|E2]|].
  2, 3: rewrite (decoder_wrong W2 fm' 2 km g2 b h w 2 fm m 0 cm fl b1 c1 Km Hh Hw Hfl ltac:(tauto)) in FD; discriminate.
  rewrite (decoder_wrong W4 fr' c kr g4 b h w c fr r 0 cr rl b2 c2 Kr Hh Hw Hrl); [now exists ValueError|].
  assert (NE : forall n, Nat.Even n -> ~ Nat.Odd n) by (intros n A A'; exact (Nat.Even_Odd_False n A A')).
  pose proof (NE _ E1). pose proof (NE _ E2). tauto.
Qed.
End Run.
End DVC.

(** * C39 *)
(** Images of different shapes are refused. *)
Theorem dvc_flow_shapes warp_vals interp levels x y : tshape x <> tshape y ->
  calculate_flow_with_image_pairs warp_vals interp levels x y = Raise ValueError.
Proof. intro H. unfold calculate_flow_with_image_pairs. destruct (list_eq_dec _ _ _); [tauto|reflexivity]. Qed.

Section Flow.
(** Any weights. *)
Variables (warp_vals : tensor R -> tensor R -> list nat -> R) (interp : vals) (W : nat -> nat -> vals).
(** Any odd kernel size, any number of levels, any filter counts ending in 2, images with
    at least two channels. *)
Variables (k levels c : nat) (filter_counts : list nat).
Hypotheses (K : Nat.Odd k) (L : 1 <= levels) (FC : last filter_counts 0 = 2) (C : 2 <= c).
Notation net_levels := (pyramid_levels W (2 * c + 2) k levels filter_counts).

Lemma net_levels_ok b : Forall (level_ok b c) net_levels.
Proof.
  clear -K FC. apply Forall_forall. intros m I. unfold pyramid_levels in I. apply in_map_iff in I. destruct I as (l & <- & _). intros h w Hh Hw.
  replace (c + c + 2) with (2 * c + 2) by lia.
  eapply maps_eq; [now apply maps_level|]. do 2 f_equal. rewrite <- FC. destruct filter_counts as [|a fc]; [discriminate|].
  clear. revert a. induction fc as [|d fc IH]; intro a; [reflexivity|]. apply IH.
Qed.

(** The flow has the images' size, and there is a pair of images of half the size of the
    next for each level, from the coarsest. *)
Theorem dvc_flow_size x y b h w :
  tshape x = [b; c; h; w] -> tshape y = [b; c; h; w] -> 2 ^ (levels - 1) <= h -> 2 ^ (levels - 1) <= w ->
  exists f pairs, calculate_flow_with_image_pairs warp_vals interp net_levels x y = Ok (f, pairs) /\
    estimate warp_vals interp net_levels x y = Ok f /\
    tshape f = [b; 2; h; w] /\ length pairs = levels /\
    forall i warped target, nth_error pairs i = Some (warped, target) ->
      tshape warped = [b; c; h / 2 ^ (levels - 1 - i); w / 2 ^ (levels - 1 - i)] /\ tshape target = tshape warped.
Proof.
  intros Hx Hy Hh Hw.
  assert (LN : length net_levels = levels) by (unfold pyramid_levels; now rewrite map_length, seq_length).
  destruct (pyramid_ok (levels - 1) x b c h w Hx Hh Hw) as (l1 & P1 & S1).
  destruct (pyramid_ok (levels - 1) y b c h w Hy Hh Hw) as (l2 & P2 & S2).
  replace (S (levels - 1)) with levels in S1, S2 by lia.
  assert (LL1 : length l1 = levels) by (rewrite <- (map_length tshape l1), S1, map_length; apply seq_length).
  assert (LL2 : length l2 = levels) by (rewrite <- (map_length tshape l2), S2, map_length; apply seq_length).
  set (sz := rev (map (fun i => (h / 2 ^ i, w / 2 ^ i)) (seq 0 levels))).
  assert (FS : Forall2 (pair_shape b c) (combine (rev l1) (rev l2)) sz).
  { assert (G : forall (a1 a2 : list (tensor R)) z, map tshape a1 = map (fun s => [b; c; fst s; snd s]) z -> map tshape a2 = map (fun s => [b; c; fst s; snd s]) z ->
       Forall2 (pair_shape b c) (combine a1 a2) z).
    { induction a1 as [|t a1 IH]; intros a2 z A B; destruct z as [|s z]; try discriminate; [constructor|].
      destruct a2 as [|t2 a2]; [discriminate|]. cbn in A, B. injection A as A1 A2. injection B as B1 B2. cbn. constructor; [now split|]. now apply IH. }
    apply G; unfold sz; rewrite !map_rev, map_map; f_equal; cbn [fst snd]; assumption. }
  assert (PW : forall i, i < levels -> 1 <= h / 2 ^ i /\ 1 <= w / 2 ^ i).
  { intros i I. assert (Q : 2 ^ i <= 2 ^ (levels - 1)) by (apply Nat.pow_le_mono_r; lia).
    assert (2 ^ i <> 0) by (apply Nat.pow_nonzero; lia).
    split; apply Nat.div_le_lower_bound; lia. }
  assert (PS : Forall (fun s => 1 <= fst s /\ 1 <= snd s) sz).
  { apply Forall_forall. intros s I. unfold sz in I. apply in_rev, in_map_iff in I. destruct I as (i & <- & I). apply in_seq in I. cbn [fst snd]. apply PW. lia. }
  assert (HL : tshape (last l1 x) = [b; c; h / 2 ^ (levels - 1); w / 2 ^ (levels - 1)]).
  { assert (G : last (map tshape l1) (tshape x) = tshape (last l1 x)).
    { clear. destruct l1 as [|a l]; [reflexivity|]. revert a. induction l as [|d l IH]; intro a; [reflexivity|]. apply IH. }
    rewrite <- G, S1. replace levels with ((levels - 1) + 1) at 1 by lia. rewrite seq_app, map_app. cbn [seq map]. now rewrite last_last. }
  assert (HZ : tshape (zeros2 (last l1 x)) = [b; 2; h / 2 ^ (levels - 1); w / 2 ^ (levels - 1)]).
  { unfold zeros2. rewrite HL. cbn [tshape]. now rewrite Nat.min_l by exact C. }
  destruct (PW (levels - 1) ltac:(lia)) as [PA PB].
  destruct (flow_levels_ok warp_vals interp b c net_levels (combine (rev l1) (rev l2)) sz (zeros2 (last l1 x)) (h / 2 ^ (levels - 1)) (w / 2 ^ (levels - 1)) (net_levels_ok b) FS) as (f & pairs & FL & Hf & Hp);
    [rewrite LN, combine_length, !rev_length; lia|exact PS|exact HZ|exact PA|exact PB|].
  assert (E : calculate_flow_with_image_pairs warp_vals interp net_levels x y = Ok (f, pairs)).
  { unfold calculate_flow_with_image_pairs. destruct (list_eq_dec _ _ _) as [_|N]; [|congruence]. rewrite LN, P1. cbn [bind]. rewrite P2. cbn [bind]. exact FL. }
  assert (LS : length sz = levels) by (unfold sz; now rewrite rev_length, map_length, seq_length).
  exists f, pairs. split; [exact E|]. split; [unfold estimate; now rewrite E|]. split; [|split].
  - assert (LZ : forall d, last sz d = (h, w)).
    { intro d. unfold sz. destruct levels as [|n]; [lia|]. cbn [seq map rev]. rewrite last_last. now rewrite Nat.pow_0_r, !Nat.div_1_r. }
    now rewrite Hf, LZ.
  - rewrite <- LS. clear -Hp. induction Hp; cbn; congruence.
  - intros i wp tg N.
    assert (G : forall ps z, Forall2 (pair_shape b c) ps z -> forall i, nth_error ps i = Some (wp, tg) -> pair_shape b c (wp, tg) (nth i z (0, 0))).
    { clear. induction 1 as [|p s ps z A B IH]; intros i N; [destruct i; discriminate|]. destruct i; cbn in N; [injection N as ->; exact A|]. now apply IH. }
    specialize (G _ _ Hp i N). assert (I : i < levels).
    { rewrite <- LS. assert (length pairs = length sz) as <- by (clear -Hp; induction Hp; cbn; congruence). apply nth_error_Some. congruence. }
    assert (NS : nth i sz (0, 0) = (h / 2 ^ (levels - 1 - i), w / 2 ^ (levels - 1 - i))).
    { unfold sz. rewrite rev_nth by (rewrite map_length, seq_length; lia). rewrite map_length, seq_length.
      replace (levels - S i) with (levels - 1 - i) by lia.
      rewrite (nth_indep _ _ ((fun i => (h / 2 ^ i, w / 2 ^ i)) 0)) by (rewrite map_length, seq_length; lia).
      rewrite (map_nth (fun i => (h / 2 ^ i, w / 2 ^ i))). rewrite seq_nth by lia. reflexivity. }
    rewrite NS in G. destruct G as [G1 G2]. cbn [fst snd] in G1, G2. split; congruence.
Qed.

(** Images too small for the pyramid are refused by the pooling. *)
Theorem dvc_flow_small x y b h w :
  tshape x = [b; c; h; w] -> tshape y = [b; c; h; w] -> 1 <= h -> 1 <= w -> h < 2 ^ (levels - 1) \/ w < 2 ^ (levels - 1) ->
  estimate warp_vals interp net_levels x y = Raise RuntimeError.
Proof.
  intros Hx Hy Hh Hw S. unfold estimate, calculate_flow_with_image_pairs. destruct (list_eq_dec _ _ _) as [_|N]; [|congruence].
  assert (LN : length net_levels = levels) by (unfold pyramid_levels; now rewrite map_length, seq_length).
  now rewrite LN, (pyramid_small (levels - 1) x b c h w Hx Hh Hw S).
Qed.
End Flow.
(** Images of one channel are refused too: there are not two channels to take the zero flow
    from. *)
Theorem dvc_flow_grey_refuted warp_vals interp W k levels filter_counts x y b h w :
  1 <= levels -> tshape x = [b; 1; h; w] -> tshape y = [b; 1; h; w] -> 2 ^ (levels - 1) <= h -> 2 ^ (levels - 1) <= w ->
  estimate warp_vals interp (pyramid_levels W (2 * 1 + 2) k levels filter_counts) x y = Raise ValueError.
Proof.
  intros L Hx Hy Hh Hw. unfold estimate, calculate_flow_with_image_pairs. destruct (list_eq_dec _ _ _) as [_|N]; [|congruence].
  assert (LN : length (pyramid_levels W (2 * 1 + 2) k levels filter_counts) = levels) by (unfold pyramid_levels; now rewrite map_length, seq_length).
  rewrite LN. destruct (pyramid_ok (levels - 1) x b 1 h w Hx Hh Hw) as (l1 & P1 & S1).
  destruct (pyramid_ok (levels - 1) y b 1 h w Hy Hh Hw) as (l2 & P2 & S2). rewrite P1. cbn [bind]. rewrite P2. cbn [bind].
  destruct levels as [|n]; [lia|]. cbn [Nat.sub] in *. rewrite Nat.sub_0_r in *.
  assert (P0 : 2 ^ n <> 0) by (apply Nat.pow_nonzero; lia).
  assert (PA : 1 <= h / 2 ^ n) by (apply Nat.div_le_lower_bound; lia). assert (PB : 1 <= w / 2 ^ n) by (apply Nat.div_le_lower_bound; lia).
  rewrite seq_S, map_app in S1, S2. cbn [map Nat.add] in S1, S2.
  assert (G : forall (l : list (tensor R)) a s, map tshape l = a ++ [s] -> exists l' t, l = l' ++ [t] /\ tshape t = s).
  { intros l a s E. destruct l as [|t l] using rev_ind; [destruct a; discriminate|]. exists l, t. split; [reflexivity|].
    rewrite map_app in E. apply app_inj_tail in E. tauto. }
  destruct (G _ _ _ S1) as (l1' & t1 & -> & T1). destruct (G _ _ _ S2) as (l2' & t2 & -> & T2).
  rewrite !rev_app_distr. cbn [rev app combine]. rewrite last_last.
  unfold pyramid_levels. cbn [seq map flow_levels].
  assert (HZ : tshape (zeros2 t1) = [b; 1; h / 2 ^ n; w / 2 ^ n]) by (unfold zeros2; now rewrite T1).
  rewrite T1. cbn [nth]. destruct (interpolate_ok interp (zeros2 t1) b 1 _ _ _ _ HZ PA PB PA PB) as (fl & -> & Hfl). cbn [bind].
  unfold dense_image_warp. rewrite T1, Hfl. reflexivity.
Qed.

(** * The default model *)
(** DVCMotionCompensationModel with any channels, odd kernel and number of levels. *)
Theorem dvc_compensation_size V W interp c mc k num_levels b h w :
  Nat.Odd k -> 2 ^ (num_levels - 1) <= h -> 2 ^ (num_levels - 1) <= w ->
  compensates (motion_compensation_net V W interp (2 * c + 2) mc c k num_levels) b c h w.
Proof.
  intros K Hh Hw x y f Hx Hy Hf. assert (P : 2 ^ (num_levels - 1) <> 0) by (apply Nat.pow_nonzero; lia).
  unfold motion_compensation_net. destruct (cat1_ok x y b c c h w Hx Hy) as (a & -> & Ha). cbn [bind].
  destruct (cat1_ok a f b (c + c) 2 h w Ha Hf) as (a' & -> & Ha'). cbn [bind]. replace (c + c + 2) with (2 * c + 2) in Ha' by lia.
  revert a' Ha'. change (maps (sequential [conv (2 * c + 2) mc k 1 (k / 2) (V 0); mc_layer W interp mc (num_levels - 1);
    conv mc mc k 1 (k / 2) (V 1); act (V 2); conv mc c k 1 (k / 2) (V 3)]) [b; 2 * c + 2; h; w] [b; c; h; w]).
  eapply maps_cons; [apply maps_conv_same; [exact K|lia|lia]|]. eapply maps_cons; [now apply maps_mc_layer|].
  eapply maps_cons; [apply maps_conv_same; [exact K|lia|lia]|]. eapply maps_cons; [apply maps_act|].
  eapply maps_cons; [apply maps_conv_same; [exact K|lia|lia]|]. apply maps_nil.
Qed.

Lemma ceil8 h : Nat.Even (ceil_pow2 3 h) <-> h mod 16 = 0 \/ 9 <= h mod 16.
Proof.
  unfold ceil_pow2. change (2 ^ 3) with 8. split.
  - intros [q Q]. dlia.
  - intro H. exists ((h + 15) / 16). dlia.
Qed.
(** C38 for DVC() as constructed by default, with any weights and number of coder channels:
    images of at least 16 by 16 pixels decode exactly if both sizes are, modulo 16, zero or
    at least 9.  So 1280x720 works and 1920x1080 does not. *)
Theorem dvc_default_sizes warp_vals interp interp' WF V WC W1 W2 W3 W4 coder_channels
    {B B'} (mb_compress : tensor R -> res B) mb_decompress mq (rb_compress : tensor R -> res B') rb_decompress rq
    b h w image1 image2 :
  let C := coder_channels in
  let est := estimate warp_vals interp (pyramid_levels WF 8 7 5 [32; 64; 32; 16; 2]) in
  let comp := motion_compensation_net V WC interp' 8 64 3 3 3 in
  let compress := dvc_compress est (enc_layers W1 0 2 C C 3 2 true 4) (dec_layers W2 0 C C 2 3 2 true 4)
     (enc_layers W3 0 3 C C 5 2 true 4) warp_vals comp mb_compress mb_decompress rb_compress in
  let decompress := dvc_decompress (dec_layers W2 0 C C 2 3 2 true 4) (dec_layers W4 0 C C 3 5 2 true 4) warp_vals comp mb_decompress rb_decompress in
  bottleneck_lossless mb_compress mb_decompress mq C -> bottleneck_lossless rb_compress rb_decompress rq C ->
  bottleneck_sized mb_decompress -> bottleneck_sized rb_decompress ->
  tshape image1 = [b; 3; h; w] -> tshape image2 = [b; 3; h; w] -> 1 <= b -> 16 <= h -> 16 <= w ->
  exists p, compress image1 image2 = Ok p /\
    ((h mod 16 = 0 \/ 9 <= h mod 16) /\ (w mod 16 = 0 \/ 9 <= w mod 16) <->
     exists y, decompress image1 p = Ok y) /\
    forall y, decompress image1 p = Ok y -> tshape y = [b; 3; h; w].
Proof.
  intros C est comp compress decompress ML RL Z1 Z2 H1 H2 Hb Hh Hw.
  assert (ME : estimates est b 3 h w).
  { intros x y Hx Hy. destruct (dvc_flow_size warp_vals interp WF 7 5 3 [32; 64; 32; 16; 2] ltac:(now exists 3) ltac:(lia) eq_refl ltac:(lia) x y b h w Hx Hy Hh Hw)
      as (f & prs & _ & E & S & _). now exists f. }
  assert (MC : compensates comp b 3 h w) by (apply (dvc_compensation_size V WC interp' 3 64 3 3 b h w); [now exists 1|cbn; lia|cbn; lia]).
  assert (K3 : Nat.Odd 3) by now exists 1. assert (K5 : Nat.Odd 5) by now exists 2.
  destruct (Nat.Even_or_Odd (ceil_pow2 3 h)) as [E1|E1]; [destruct (Nat.Even_or_Odd (ceil_pow2 3 w)) as [E2|E2]|].
  - destruct (dvc_closed_loop est comp warp_vals W1 W2 W3 W4 3 C C C 3 4 C C C 5 4 true true true true mb_compress mb_decompress mq rb_compress rb_decompress rq
      b h w image1 image2 ML RL ME MC K3 K5 ltac:(lia) ltac:(lia) H1 H2 Hb ltac:(lia) ltac:(lia) E1 E2 E1 E2)
      as (p & fl & es & rs & rl & rr & y & A1 & _ & _ & _ & _ & A2 & A3 & _).
    exists p. split; [exact A1|]. rewrite <- !ceil8. split; [split; [intros _; now exists y|tauto]|].
    intros y' Y. unfold decompress in Y. rewrite A2 in Y. now injection Y as <-.
  - destruct (dvc_odd_size_refuted est comp warp_vals W1 W2 W3 W4 3 C C C 3 4 C C C 5 4 true true true true mb_compress mb_decompress mq rb_compress rb_decompress rq
      b h w image1 image2 ML RL ME MC K3 K5 ltac:(lia) ltac:(lia) H1 H2 Hb ltac:(lia) ltac:(lia) Z1 Z2 ltac:(tauto)) as (p & e & A1 & A2).
    exists p. split; [exact A1|]. rewrite <- !ceil8. unfold decompress. rewrite A2. split; [|discriminate].
    split; [intros [_ X]; exfalso; exact (Nat.Even_Odd_False _ X E2)|intros [y Y]; discriminate].
  - destruct (dvc_odd_size_refuted est comp warp_vals W1 W2 W3 W4 3 C C C 3 4 C C C 5 4 true true true true mb_compress mb_decompress mq rb_compress rb_decompress rq
      b h w image1 image2 ML RL ME MC K3 K5 ltac:(lia) ltac:(lia) H1 H2 Hb ltac:(lia) ltac:(lia) Z1 Z2 ltac:(tauto)) as (p & e & A1 & A2).
    exists p. split; [exact A1|]. rewrite <- !ceil8. unfold decompress. rewrite A2. split; [|discriminate].
    split; [intros [X _]; exfalso; exact (Nat.Even_Odd_False _ X E1)|intros [y Y]; discriminate].
Qed.
(** The hypotheses are met: a bottleneck that stores the rounded tensor and its size. *)
Definition ex_round (y : tensor R) : tensor R := mkT (tshape y) (fun i => IZR (round_even (tat y i))).
Definition ex_decompress (s : tensor R) (size : nat * nat) : res (tensor R) :=
  match tshape s with
  | [b; c; h; w] => Ok (if (h =? fst size) && (w =? snd size) then s else mkT [b; c; fst size; snd size] (tat s))
  | _ => Raise ValueError
  end.
Example dvc_bottleneck_ex :
  bottleneck_lossless (fun y => Ok (ex_round y)) ex_decompress ex_round 128 /\ bottleneck_sized ex_decompress /\
  (exists x : tensor R, tshape x = [1; 3; 720; 1280]) /\ (720 mod 16 = 0) /\ 1080 mod 16 = 8.
Proof.
  split; [|split; [|split; [|split]]].
  - intros y b h w H _ _ _. exists (ex_round y). split; [reflexivity|]. split; [|reflexivity].
    unfold ex_decompress. change (tshape (ex_round y)) with (tshape y). rewrite H. cbn [fst snd]. now rewrite !Nat.eqb_refl.
  - intros s h w y. unfold ex_decompress. destruct (tshape s) as [|b [|c [|h' [|w' [|]]]]] eqn:E; try discriminate.
    intro X. injection X as <-. cbn [fst snd]. destruct (Nat.eqb_spec h' h); destruct (Nat.eqb_spec w' w); cbn [andb]; exists b, c; subst; reflexivity || exact E.
  - now exists (mkT [1; 3; 720; 1280] (fun _ => 0%R)).
  - reflexivity.
  - reflexivity.
Qed.

Print Assumptions dvc_closed_loop.
Print Assumptions dvc_odd_size_refuted.
Print Assumptions dvc_default_sizes.
Print Assumptions dvc_flow_size.
Print Assumptions dvc_flow_grey_refuted.

(** C91: the image and video networks refuse inputs with another number of channels, and
    concatenation, pooling, upsampling and elementwise operators put every value in its place. *)
From Coq Require Import String ZArith Arith List Bool Reals Lia Lra.
From Verif Require Import Base Tensor Net_Model Net_Proofs Hyp_Model Hyp_Spec Hyp_Proofs Hyp_Props Dvc_Model Unet_Model Vq_Model.
Import ListNotations.
Open Scope nat_scope.

(** * Layers: accepted shapes *)
Lemma wrong_conv ci co k s p f x b c h w : tshape x = [b; c; h; w] -> c <> ci -> conv ci co k s p f x = Raise RuntimeError.
Proof. intros H N. unfold conv. rewrite H. apply Nat.eqb_neq in N. now rewrite N. Qed.
Lemma wrong_deconv ci co k s p op f x b c h w : tshape x = [b; c; h; w] -> c <> ci -> deconv ci co k s p op f x = Raise RuntimeError.
Proof. intros H N. unfold deconv. rewrite H. apply Nat.eqb_neq in N. now rewrite N. Qed.
Lemma wrong_norm c' f x b c h w : tshape x = [b; c; h; w] -> c <> c' -> norm c' f x = Raise RuntimeError.
Proof. intros H N. unfold norm. rewrite H. apply Nat.eqb_neq in N. now rewrite N. Qed.
Lemma wrong_first n l x e : n x = Raise e -> sequential (n :: l) x = Raise e.
Proof. intro H. cbn [sequential]. now rewrite H. Qed.

(** A convolution works exactly if the channels agree and the kernel fits into the padded
    image; a transposed one if the channels agree, the image is not empty and the output
    padding is below the stride. *)
Theorem C91_convolution : forall ci co k s p f x b c h w, tshape x = [b; c; h; w] ->
  (c = ci /\ k <= h + 2 * p /\ k <= w + 2 * p ->
   exists y, conv ci co k s p f x = Ok y /\ tshape y = [b; co; (h + 2 * p - k) / s + 1; (w + 2 * p - k) / s + 1]) /\
  (~ (c = ci /\ k <= h + 2 * p /\ k <= w + 2 * p) -> conv ci co k s p f x = Raise RuntimeError).
Proof.
  intros ci co k s p f x b c h w H. split.
  - intros (-> & A & B). apply (maps_conv ci co k s p f b h w _ _ A B eq_refl eq_refl x H).
  - intro N. unfold conv. rewrite H. destruct (Nat.eqb_spec c ci), (Nat.leb_spec k (h + 2 * p)), (Nat.leb_spec k (w + 2 * p)); cbn [andb]; try reflexivity. tauto.
Qed.
Theorem C91_transposed_convolution : forall ci co k s p op f x b c h w, tshape x = [b; c; h; w] ->
  (c = ci /\ op < s /\ 1 <= h /\ 1 <= w ->
   exists y, deconv ci co k s p op f x = Ok y /\ tshape y = [b; co; (h - 1) * s + k + op - 2 * p; (w - 1) * s + k + op - 2 * p]) /\
  (~ (c = ci /\ op < s /\ 1 <= h /\ 1 <= w) -> deconv ci co k s p op f x = Raise RuntimeError).
Proof.
  intros ci co k s p op f x b c h w H. split.
  - intros (-> & O & A & B). apply (maps_deconv ci co k s p op f b h w _ _ O A B eq_refl eq_refl x H).
  - intro N. unfold deconv. rewrite H.
    destruct (Nat.eqb_spec c ci), (Nat.ltb_spec op s), (Nat.leb_spec 1 h), (Nat.leb_spec 1 w); cbn [andb]; try reflexivity. tauto.
Qed.
(** With a requested size the transposed convolution gives it if a convolution could have
    come from there, i.e. if convolving that size leads back to the present size; for any
    other size it raises ValueError. *)
Theorem C91_transposed_size : forall ci co k s p f x b h w oh ow, tshape x = [b; ci; h; w] -> 1 <= h -> 1 <= w -> 1 <= s ->
  let back o n := k <= o + 2 * p /\ (o + 2 * p - k) / s + 1 = n in
  (back oh h /\ back ow w -> exists y, deconv_to ci co k s p f x oh ow = Ok y /\ tshape y = [b; co; oh; ow]) /\
  (~ (back oh h /\ back ow w) -> deconv_to ci co k s p f x oh ow = Raise ValueError).
Proof.
  intros ci co k s p f x b h w oh ow H Hh Hw Hs back.
  assert (R : forall n o, 1 <= n -> deconv_range k s p n o = true <-> back o n).
  { intros n o Hn. unfold deconv_range, back. rewrite andb_true_iff, Nat.leb_le, Nat.ltb_lt. split.
    - intros [A B]. assert (K : k <= o + 2 * p) by nia. split; [exact K|].
      assert (Q : (o + 2 * p - k) / s = n - 1); [|lia]. symmetry. apply Nat.div_unique with (o + 2 * p - k - s * (n - 1)); nia.
    - intros [K E]. pose proof (Nat.div_mod (o + 2 * p - k) s ltac:(lia)) as D. pose proof (Nat.mod_upper_bound (o + 2 * p - k) s ltac:(lia)). nia. }
  unfold deconv_to. rewrite H, Nat.eqb_refl. apply Nat.leb_le in Hh as Lh. apply Nat.leb_le in Hw as Lw. rewrite Lh, Lw. cbn [andb]. split.
  - intros [A B]. apply R in A; [|exact Hh]. apply R in B; [|exact Hw]. rewrite A, B. cbn [andb]. eexists. split; reflexivity.
  - intro N. destruct (deconv_range k s p h oh) eqn:A; [|reflexivity]. destruct (deconv_range k s p w ow) eqn:B; [|reflexivity].
    exfalso. apply N. split; apply R; assumption.
Qed.

(** * Where values go *)
(** Channels of the first operand first, then those of the second; other sizes must agree. *)
Theorem C91_concatenation : forall x y b c h w b' c' h' w', tshape x = [b; c; h; w] -> tshape y = [b'; c'; h'; w'] ->
  (b = b' /\ h = h' /\ w = w' ->
   exists z, cat1 x y = Ok z /\ tshape z = [b; c + c'; h; w] /\
     (forall n k i j, k < c -> tat z [n; k; i; j] = tat x [n; k; i; j]) /\
     (forall n k i j, tat z [n; c + k; i; j] = tat y [n; k; i; j])) /\
  (~ (b = b' /\ h = h' /\ w = w') -> cat1 x y = Raise RuntimeError).
Proof.
  intros x y b c h w b' c' h' w' Hx Hy. unfold cat1. rewrite Hx, Hy. split.
  - intros (<- & <- & <-). rewrite !Nat.eqb_refl. cbn [andb]. eexists. split; [reflexivity|]. split; [reflexivity|]. split; cbn [tat].
    + intros n k i j K. apply Nat.ltb_lt in K. now rewrite K.
    + intros n k i j. destruct (Nat.ltb_spec (c + k) c); [lia|]. now replace (c + k - c) with k by lia.
  - intro N. destruct (Nat.eqb_spec b b'), (Nat.eqb_spec h h'), (Nat.eqb_spec w w'); cbn [andb]; try reflexivity. tauto.
Qed.
(** Every value becomes a square of two by two. *)
Theorem C91_upsampling : forall x b c h w, tshape x = [b; c; h; w] -> 1 <= h -> 1 <= w ->
  exists y, upsample2 x = Ok y /\ tshape y = [b; c; 2 * h; 2 * w] /\
    forall n k i j di dj, di < 2 -> dj < 2 -> tat y [n; k; 2 * i + di; 2 * j + dj] = tat x [n; k; i; j].
Proof.
  intros x b c h w H A B. unfold upsample2. rewrite H. apply Nat.leb_le in A, B. rewrite A, B. cbn [andb].
  eexists. split; [reflexivity|]. split; [reflexivity|]. intros n k i j di dj Di Dj. cbn [tat].
  assert (Q : forall u d, d < 2 -> (2 * u + d) / 2 = u) by (intros u d D; rewrite (Nat.mul_comm 2), Nat.div_add_l by lia; rewrite Nat.div_small by lia; lia).
  now rewrite !Q.
Qed.
(** Every square of two by two becomes its mean; an odd last row or column is dropped. *)
Theorem C91_pooling : forall x b c h w, tshape x = [b; c; h; w] ->
  (2 <= h /\ 2 <= w -> exists y, avg_pool2 x = Ok y /\ tshape y = [b; c; h / 2; w / 2] /\
    forall n k i j, (tat y [n; k; i; j] * 4)%R =
      (tat x [n; k; (2 * i)%nat; (2 * j)%nat] + tat x [n; k; (2 * i)%nat; (2 * j + 1)%nat]
       + tat x [n; k; (2 * i + 1)%nat; (2 * j)%nat] + tat x [n; k; (2 * i + 1)%nat; (2 * j + 1)%nat])%R) /\
  (h < 2 \/ w < 2 -> avg_pool2 x = Raise RuntimeError).
Proof.
  intros x b c h w H. unfold avg_pool2. rewrite H. split.
  - intros [A B]. apply Nat.leb_le in A, B. rewrite A, B. cbn [andb]. eexists. split; [reflexivity|]. split; [reflexivity|].
    intros n k i j. cbn [tat]. field.
  - intro N. destruct (Nat.leb_spec 2 h), (Nat.leb_spec 2 w); cbn [andb]; try reflexivity. lia.
Qed.
(** Pooling undoes upsampling, for every image. *)
Theorem C91_pool_upsample : forall x b c h w, tshape x = [b; c; h; w] -> 1 <= h -> 1 <= w ->
  exists y z, upsample2 x = Ok y /\ avg_pool2 y = Ok z /\ tshape z = tshape x /\
    forall n k i j, tat z [n; k; i; j] = tat x [n; k; i; j].
Proof.
  intros x b c h w H A B. destruct (C91_upsampling x b c h w H A B) as (y & Y & Sy & Vy).
  destruct (C91_pooling y b c (2 * h) (2 * w) Sy) as [(z & Z & Sz & Vz) _]; [lia|].
  exists y, z. split; [exact Y|]. split; [exact Z|]. split.
  - rewrite Sz, H. rewrite !(Nat.mul_comm 2), !Nat.div_mul by lia. reflexivity.
  - intros n k i j. specialize (Vz n k i j).
    pose proof (Vy n k i j 0 0) as V0. pose proof (Vy n k i j 0 1) as V1. pose proof (Vy n k i j 1 0) as V2. pose proof (Vy n k i j 1 1) as V3.
    rewrite !Nat.add_0_r in *. rewrite V0, V1, V2, V3 in Vz by lia. lra.
Qed.
(** Sums and differences of tensors of one shape are taken entry by entry. *)
Theorem C91_elementwise : forall x y b c h w, tshape x = [b; c; h; w] -> tshape y = [b; c; h; w] ->
  exists u v, add x y = Ok u /\ sub x y = Ok v /\ tshape u = [b; c; h; w] /\ tshape v = [b; c; h; w] /\
    forall n k i j, n < b -> k < c -> i < h -> j < w ->
      tat u [n; k; i; j] = (tat x [n; k; i; j] + tat y [n; k; i; j])%R /\
      tat v [n; k; i; j] = (tat x [n; k; i; j] - tat y [n; k; i; j])%R.
Proof.
  intros x y b c h w Hx Hy. unfold add, sub, pointwise2. rewrite Hx, Hy, bshape_refl.
  eexists _, _. split; [reflexivity|]. split; [reflexivity|]. split; [reflexivity|]. split; [reflexivity|].
  intros n k i j N K I J. cbn [tat bidx].
  assert (Q : forall d u, u < d -> (if d =? 1 then 0 else u) = u) by (intros d u U; destruct (Nat.eqb_spec d 1); lia).
  now rewrite !Q by assumption.
Qed.
(** Shapes that differ in a dimension other than by a size of 1 are refused. *)
Theorem C91_elementwise_mismatch : forall x y s t d e s' t', tshape x = s ++ d :: s' -> tshape y = t ++ e :: t' ->
  length s = length t -> d <> e -> d <> 1 -> e <> 1 -> add x y = Raise RuntimeError /\ sub x y = Raise RuntimeError.
Proof.
  intros x y s t d e s' t' Hx Hy L N1 N2 N3. unfold add, sub, pointwise2. rewrite Hx, Hy.
  assert (E : bshape (s ++ d :: s') (t ++ e :: t') = None); [|now rewrite E].
  clear Hx Hy. revert t L. induction s as [|a s IH]; intros [|u t] L; try discriminate.
  - cbn [app bshape]. destruct (bshape s' t'); [|reflexivity]. apply Nat.eqb_neq in N1, N2, N3. now rewrite N1, N2, N3.
  - cbn [app bshape]. cbn [length] in L. now rewrite IH by lia.
Qed.

(** * Networks *)
(** Encoders, decoders, discriminators and the hyperprior's networks. *)
Theorem C91_image_networks : forall x b c h w, tshape x = [b; c; h; w] ->
  (forall W ci lat, c <> ci -> hific_encoder W ci lat x = Raise RuntimeError) /\
  (forall W V co lat n, c <> lat -> c <> 1 -> hific_generator W V co lat n x = Raise RuntimeError) /\
  (forall W lat hyp, c <> lat -> hyper_analysis_net W lat hyp x = Raise RuntimeError) /\
  (forall W lat hyp, c <> hyp -> hyper_synthesis_net W lat hyp x = Raise RuntimeError) /\
  (forall ch nrb attn wc W ci embed res mult, c <> ci -> vq_encoder ch nrb attn wc W ci embed res mult x = Raise RuntimeError) /\
  (forall ch nrb attn wc W co embed res mult, c <> embed -> vq_decoder ch nrb attn wc W co embed res mult x = Raise RuntimeError) /\
  (forall name W oc factor channels the_unet, unet name W oc factor channels = Ok the_unet -> c <> hd 0 channels ->
     the_unet x = Raise RuntimeError).
Proof.
  intros x b c h w H. repeat split.
  - intros W ci lat N. unfold hific_encoder. cbn [encoder_blocks app Nat.eqb]. apply wrong_first. exact (wrong_conv _ _ _ _ _ _ x b c h w H N).
  - intros W V co lat n N _. unfold hific_generator. cbn [sequential]. now rewrite (wrong_norm _ _ x b c h w H N).
  - intros W lat hyp N. apply wrong_first. exact (wrong_conv _ _ _ _ _ _ x b c h w H N).
  - intros W lat hyp N. apply wrong_first. exact (wrong_deconv _ _ _ _ _ _ _ x b c h w H N).
  - intros ch nrb attn wc W ci embed res mult N. apply wrong_first. exact (wrong_conv _ _ _ _ _ _ x b c h w H N).
  - intros ch nrb attn wc W co embed res mult N. apply wrong_first. exact (wrong_conv _ _ _ _ _ _ x b c h w H N).
  - intros name W oc factor channels the_unet U N. unfold unet in U. destruct (is_pow2_py factor); [|discriminate]. cbn [negb] in U.
    destruct (verify_norm_type name) as [t|]; [|discriminate]. cbn [bind] in U.
    destruct (unet_inner _ _ _ _ _ _ _ _) as [[model lc] clip]. injection U as <-.
    assert (L : unet_level t (W 0) (hd 0 channels) lc 64 model true clip x = Raise RuntimeError); [|now rewrite L].
    unfold unet_level. cbn [app].
    rewrite (wrong_first (conv3 _ _ _) _ x RuntimeError); [reflexivity|]. exact (wrong_conv _ _ _ _ _ _ x b c h w H N).
Qed.
(** Compression of an image of a coded size, with any device setting that allows it. *)
Theorem C91_compress : forall WE WA WM WS ci lat hyp {B B' I : Type} (hbc : tensor R -> res B) hbd (build : tensor R -> I)
    (lbc : tensor R -> I -> tensor R -> res B') s force x b c h w,
  may_compress force s -> tshape x = [b; c; h; w] -> 33 <= h -> 33 <= w -> c <> ci ->
  compress (hific_encoder WE ci lat) (hyper_analysis_net WA lat hyp) (hyper_synthesis_net WM lat hyp) (hyper_synthesis_net WS lat hyp)
    hbc hbd build lbc s force x = Raise RuntimeError.
Proof.
  intros WE WA WM WS ci lat hyp B B' I hbc hbd build lbc s force x b c h w MC Hx Hh Hw N.
  apply check_devices_spec in MC. unfold compress. rewrite MC. cbn [bind]. unfold factor.
  destruct (pad_to_ok 64 x b c h w) as (xp & PX & SX & _); [lia|exact Hx|apply reflectable_iff; lia|apply reflectable_iff; lia|].
  rewrite PX. cbn [bind]. destruct (C91_image_networks _ _ _ _ _ SX) as [E _]. now rewrite (E WE ci lat N).
Qed.
(** The video networks: the autoencoders of motion and residual, every level of the motion
    estimator, and motion compensation with the channels of both images and the flow. *)
Theorem C91_video_networks : forall x b c h w, tshape x = [b; c; h; w] ->
  (forall W i ci fc co k s g n, 1 <= n -> c <> ci -> encoder_forward (enc_layers W i ci fc co k s g n) x = Raise RuntimeError) /\
  (forall W i ci fc co k s g n, 1 <= n -> c <> ci -> run_decoder (dec_layers W i ci fc co k s g n) x None = Raise RuntimeError) /\
  (forall W ci k levels fcs n level, fcs <> [] -> c <> ci -> nth_error (pyramid_levels W ci k levels fcs) n = Some level -> level x = Raise RuntimeError) /\
  (forall V W interp ci ch co k levels y flow c2 c3, tshape y = [b; c2; h; w] -> tshape flow = [b; c3; h; w] ->
     c + c2 + c3 <> ci -> motion_compensation_net V W interp ci ch co k levels x y flow = Raise RuntimeError).
Proof.
  intros x b c h w H. split; [|split; [|split]].
  - intros W i ci fc co k s g n Hn N. destruct n as [|[|n]]; [lia| |]; cbn [enc_layers encoder_forward app]; now rewrite (wrong_conv _ _ _ _ _ _ x b c h w H N).
  - intros W i ci fc co k s g n Hn N. destruct n as [|[|n]]; [lia| |]; cbn [dec_layers run_decoder app]; now rewrite (wrong_deconv _ _ _ _ _ _ _ x b c h w H N).
  - intros W ci k levels fcs n level F N E. unfold pyramid_levels in E. rewrite nth_error_map in E.
    destruct (nth_error (seq 0 levels) n) as [l|]; [|discriminate]. injection E as <-. destruct fcs as [|f fcs]; [easy|].
    cbn [level_layers]. apply wrong_first. exact (wrong_conv _ _ _ _ _ _ x b c h w H N).
  - intros V W interp ci ch co k levels y flow c2 c3 Hy Hf N. unfold motion_compensation_net.
    destruct (C91_concatenation x y _ _ _ _ _ _ _ _ H Hy) as [(z & Z & Sz & _) _]; [auto|]. rewrite Z. cbn [bind].
    destruct (C91_concatenation z flow _ _ _ _ _ _ _ _ Sz Hf) as [(u & U & Su & _) _]; [auto|]. rewrite U. cbn [bind].
    apply wrong_first. exact (wrong_conv _ _ _ _ _ _ u b _ h w Su N).
Qed.

(** A grey image given to networks for colour. *)
Example C91_ex : forall W, hific_encoder W 3 220 (mkT [1; 1; 64; 64] (fun _ => 0%R)) = Raise RuntimeError /\
  exists y, hific_encoder W 3 220 (mkT [1; 3; 64; 64] (fun _ => 0%R)) = Ok y.
Proof.
  intro W. split; [|eexists; reflexivity]. destruct (C91_image_networks (mkT [1; 1; 64; 64] (fun _ => 0%R)) 1 1 64 64 eq_refl) as [E _]. apply E. lia.
Qed.
Print Assumptions C91_convolution.
Print Assumptions C91_transposed_size.
Print Assumptions C91_concatenation.
Print Assumptions C91_upsampling.
Print Assumptions C91_pool_upsample.
Print Assumptions C91_elementwise.
Print Assumptions C91_image_networks.
Print Assumptions C91_compress.
Print Assumptions C91_video_networks.

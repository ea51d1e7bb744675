(** Shapes of the VQ-VAE's networks. *)
From Coq Require Import ZArith Arith List Bool Reals Lia ZifyNat.
From Verif Require Import Base Tensor Net_Model Net_Proofs Vq_Model.
Import ListNotations.
Open Scope nat_scope.

Lemma c3 ci co f b h w : 1 <= h -> 1 <= w -> maps (conv ci co 3 1 1 f) [b; ci; h; w] [b; co; h; w].
Proof. intros. apply maps_conv; try lia; rewrite Nat.div_1_r; lia. Qed.

Lemma resnet_maps W ci co b h w : 1 <= h -> 1 <= w -> maps (vq_resnet W ci co) [b; ci; h; w] [b; co; h; w].
Proof.
  intros H K x Hx. unfold vq_resnet.
  assert (A : maps (sequential [norm ci (W 0); act (W 1); conv ci co 3 1 1 (W 2); norm co (W 3); act (W 4); act (W 5); conv co co 3 1 1 (W 6)]) [b; ci; h; w] [b; co; h; w]).
  { eapply maps_cons; [apply maps_norm|]. eapply maps_cons; [apply maps_act|]. eapply maps_cons; [now apply c3|].
    eapply maps_cons; [apply maps_norm|]. eapply maps_cons; [apply maps_act|]. eapply maps_cons; [apply maps_act|].
    eapply maps_cons; [now apply c3|]. apply maps_nil. }
  destruct (A x Hx) as (y & -> & Hy). cbn [bind]. destruct (Nat.eqb_spec ci co) as [->|N].
  - cbn [bind]. destruct (add_ok x y) as (z & Z & Hz); [congruence|]. exists z. split; [exact Z|congruence].
  - destruct (maps_conv ci co 1 1 0 (W 7) b h w h w) with (x := x) as (t & -> & Ht); try lia; try (rewrite Nat.div_1_r; lia); [exact Hx|].
    cbn [bind]. destruct (add_ok t y) as (z & Z & Hz); [congruence|]. exists z. split; [exact Z|congruence].
Qed.
Lemma attn_maps W c b h w : maps (vq_attn W c) [b; c; h; w] [b; c; h; w].
Proof.
  unfold vq_attn. apply maps_add_self. eapply maps_cons; [apply maps_norm|]. eapply maps_cons; [apply maps_act|]. apply maps_nil.
Qed.
Lemma blocks_maps W a co b h w : 1 <= h -> 1 <= w -> forall n i ci, 1 <= n ->
  maps (sequential (vq_blocks W i n ci co a)) [b; ci; h; w] [b; co; h; w].
Proof.
  intros H K. induction n as [|n IH]; intros i ci N; [lia|]. cbn [vq_blocks].
  eapply maps_cons; [now apply resnet_maps|]. apply maps_app with (s1 := [b; co; h; w]).
  - destruct a; [eapply maps_cons; [apply attn_maps|]|]; apply maps_nil.
  - destruct n as [|n]; [apply maps_nil|]. apply IH. lia.
Qed.
Lemma mid_maps W c b h w : 1 <= h -> 1 <= w -> maps (sequential (vq_mid W c)) [b; c; h; w] [b; c; h; w].
Proof.
  intros H K. eapply maps_cons; [now apply resnet_maps|]. eapply maps_cons; [apply attn_maps|].
  eapply maps_cons; [now apply resnet_maps|]. apply maps_nil.
Qed.
Lemma downsample_maps W c wc b h w : 2 <= h -> 2 <= w -> maps (vq_downsample W c wc) [b; c; h; w] [b; c; h / 2; w / 2].
Proof.
  intros H K x Hx. unfold vq_downsample. destruct wc; [|now apply (maps_pool b c h w)].
  unfold pad2. rewrite Hx. cbn [pad_ok andb bind]. apply (maps_conv c c 3 2 0 (W 0) b (h + 1) (w + 1)); try lia; try dlia. reflexivity.
Qed.
(** Too small to be downsampled. *)
Lemma downsample_fail W c wc x b h w : tshape x = [b; c; h; w] -> h = 1 \/ w = 1 -> vq_downsample W c wc x = Raise RuntimeError.
Proof.
  intros Hx H. unfold vq_downsample. destruct wc.
  - unfold pad2. rewrite Hx. cbn [pad_ok andb bind]. unfold conv. cbn [tshape]. rewrite Nat.eqb_refl. cbn [andb].
    destruct (Nat.leb_spec 3 (0 + h + 1 + 2 * 0)); destruct (Nat.leb_spec 3 (0 + w + 1 + 2 * 0)); try reflexivity. lia.
  - unfold avg_pool2. rewrite Hx. destruct (Nat.leb_spec 2 h); destruct (Nat.leb_spec 2 w); try reflexivity. lia.
Qed.
Lemma upsample_maps W c wc b h w : 1 <= h -> 1 <= w -> maps (vq_upsample W c wc) [b; c; h; w] [b; c; 2 * h; 2 * w].
Proof.
  intros H K. unfold vq_upsample. eapply maps_cons; [now apply maps_up|]. destruct wc; [|apply maps_nil].
  eapply maps_cons; [apply c3; lia|apply maps_nil].
Qed.

(** n downsamplings by 2, rounding down *)
Lemma div_pow_S h n : h / 2 / 2 ^ n = h / 2 ^ S n.
Proof. rewrite Nat.div_div by (try apply Nat.pow_nonzero; lia). now rewrite Nat.pow_succ_r'. Qed.

Section Nets.
Variables (ch nres : nat) (attn : list nat) (wc : bool).
Hypothesis N : 1 <= nres.
Lemma down_maps W b ms : forall lvl ci r h w m, 2 ^ length ms <= h -> 2 ^ length ms <= w ->
  maps (sequential (vq_down ch nres attn wc W lvl ci r (m :: ms))) [b; ci; h; w]
       [b; ch * last (m :: ms) 0; h / 2 ^ length ms; w / 2 ^ length ms].
Proof.
  induction ms as [|m' ms IH]; intros lvl ci r h w m H K.
  - cbn [vq_down]. rewrite app_nil_r. cbn [length Nat.pow last]. rewrite !Nat.div_1_r. cbn in H, K. now apply blocks_maps.
  - cbn [length] in *. pose proof (Nat.pow_nonzero 2 (length ms) ltac:(lia)) as P. rewrite Nat.pow_succ_r' in H, K.
    replace (last (m :: m' :: ms) 0) with (last (m' :: ms) 0) by reflexivity.
    replace (vq_down ch nres attn wc W lvl ci r (m :: m' :: ms)) with
      (vq_blocks (W lvl) 0 nres ci (ch * m) (at_resolution attn r) ++ vq_downsample (W lvl 0 2) (ch * m) wc :: vq_down ch nres attn wc W (lvl + 1) (ch * m) (r / 2) (m' :: ms)) by reflexivity.
    eapply maps_app; [apply blocks_maps; lia|]. eapply maps_cons; [apply downsample_maps; lia|].
    rewrite <- !div_pow_S. apply IH; apply Nat.div_le_lower_bound; lia.
Qed.
(** If one side is too small for all the downsamplings, some downsampling raises. *)
Lemma down_fail W b ms : forall lvl ci r h w m x, 1 <= h -> 1 <= w -> h < 2 ^ length ms \/ w < 2 ^ length ms ->
  tshape x = [b; ci; h; w] ->
  sequential (vq_down ch nres attn wc W lvl ci r (m :: ms)) x = Raise RuntimeError.
Proof.
  induction ms as [|m' ms IH]; intros lvl ci r h w m x H K F Hx; [cbn in F; lia|].
  cbn [length] in *. rewrite Nat.pow_succ_r' in F.
  replace (vq_down ch nres attn wc W lvl ci r (m :: m' :: ms)) with
      (vq_blocks (W lvl) 0 nres ci (ch * m) (at_resolution attn r) ++ vq_downsample (W lvl 0 2) (ch * m) wc :: vq_down ch nres attn wc W (lvl + 1) (ch * m) (r / 2) (m' :: ms)) by reflexivity.
  rewrite sequential_app. destruct (blocks_maps (W lvl) (at_resolution attn r) (ch * m) b h w H K nres 0 ci N x Hx) as (y & -> & Hy).
  cbn [bind]. set (rest := vq_down _ _ _ _ _ _ _ _ _). cbn [sequential].
  destruct (le_lt_dec 2 h) as [H2|H2]; [destruct (le_lt_dec 2 w) as [W2|W2]|].
  - destruct (downsample_maps (W lvl 0 2) (ch * m) wc b h w H2 W2 y Hy) as (z & -> & Hz). cbn [bind]. unfold rest.
    apply (IH _ _ _ (h / 2) (w / 2)); [dlia|dlia| |exact Hz].
    destruct F as [F|F]; [left|right]; apply Nat.div_lt_upper_bound; lia.
  - rewrite (downsample_fail (W lvl 0 2) (ch * m) wc y b h w Hy ltac:(lia)). reflexivity.
  - rewrite (downsample_fail (W lvl 0 2) (ch * m) wc y b h w Hy ltac:(lia)). reflexivity.
Qed.
Lemma up_maps W b ms : forall lvl ci r h w m, 1 <= h -> 1 <= w ->
  maps (sequential (vq_up ch nres attn wc W lvl ci r (m :: ms))) [b; ci; h; w]
       [b; ch * last (m :: ms) 0; 2 ^ length ms * h; 2 ^ length ms * w].
Proof.
  induction ms as [|m' ms IH]; intros lvl ci r h w m H K.
  - cbn [vq_up]. rewrite app_nil_r. cbn [length Nat.pow last]. rewrite !Nat.mul_1_l. apply blocks_maps; lia.
  - cbn [length]. rewrite Nat.pow_succ_r'.
    replace (last (m :: m' :: ms) 0) with (last (m' :: ms) 0) by reflexivity.
    replace (vq_up ch nres attn wc W lvl ci r (m :: m' :: ms)) with
      (vq_blocks (W lvl) 0 (nres + 1) ci (ch * m) (at_resolution attn r) ++ vq_upsample (W lvl 0 2) (ch * m) wc :: vq_up ch nres attn wc W (lvl + 1) (ch * m) (r * 2) (m' :: ms)) by reflexivity.
    eapply maps_app; [apply blocks_maps; lia|]. eapply maps_cons; [apply upsample_maps; lia|].
    replace (2 * 2 ^ length ms * h) with (2 ^ length ms * (2 * h)) by lia.
    replace (2 * 2 ^ length ms * w) with (2 ^ length ms * (2 * w)) by lia. apply IH; lia.
Qed.

Lemma encoder_maps W ci e res b ms m h w : 2 ^ length ms <= h -> 2 ^ length ms <= w ->
  maps (vq_encoder ch nres attn wc W ci e res (m :: ms)) [b; ci; h; w] [b; e; h / 2 ^ length ms; w / 2 ^ length ms].
Proof.
  intros H K. pose proof (Nat.pow_nonzero 2 (length ms) ltac:(lia)) as P.
  assert (A : 1 <= h / 2 ^ length ms) by (apply Nat.div_le_lower_bound; lia).
  assert (B : 1 <= w / 2 ^ length ms) by (apply Nat.div_le_lower_bound; lia).
  unfold vq_encoder. eapply maps_cons; [apply c3; lia|]. eapply maps_app; [now apply down_maps|].
  eapply maps_app; [now apply mid_maps|]. eapply maps_cons; [apply maps_norm|]. eapply maps_cons; [apply maps_act|].
  eapply maps_cons; [now apply c3|]. apply maps_nil.
Qed.
Lemma encoder_fail W ci e res b ms m h w x : 1 <= h -> 1 <= w -> h < 2 ^ length ms \/ w < 2 ^ length ms ->
  tshape x = [b; ci; h; w] -> vq_encoder ch nres attn wc W ci e res (m :: ms) x = Raise RuntimeError.
Proof.
  intros H K F Hx. unfold vq_encoder. set (d := vq_down _ _ _ _ _ _ _ _ _). set (tl := _ ++ _). cbn [sequential]. unfold tl.
  destruct (c3 ci ch (W 0 0 3 0) b h w H K x Hx) as (y & -> & Hy). cbn [bind]. rewrite sequential_app. unfold d.
  rewrite (down_fail W b ms _ _ _ h w m y H K F Hy). reflexivity.
Qed.
Lemma decoder_maps W co e res b ms m h w : 1 <= h -> 1 <= w ->
  maps (vq_decoder ch nres attn wc W co e res (m :: ms)) [b; e; h; w] [b; co; 2 ^ length ms * h; 2 ^ length ms * w].
Proof.
  intros H K. pose proof (Nat.pow_nonzero 2 (length ms) ltac:(lia)) as P.
  unfold vq_decoder. eapply maps_cons; [now apply c3|]. eapply maps_app; [now apply mid_maps|].
  assert (A : exists m' ms', rev (m :: ms) = m' :: ms' /\ length ms' = length ms /\ last (m' :: ms') 0 = m).
  { assert (L : length (rev (m :: ms)) = S (length ms)) by (rewrite rev_length; reflexivity).
    destruct (rev (m :: ms)) as [|m' ms'] eqn:E; [discriminate|]. exists m', ms'. split; [reflexivity|]. split; [cbn in L; lia|].
    rewrite <- E. cbn [rev]. apply last_last. }
  destruct A as (m' & ms' & -> & L & LS). rewrite <- L.
  eapply maps_app; [now apply up_maps|]. rewrite LS. cbn [hd].
  assert (1 <= 2 ^ length ms' * h /\ 1 <= 2 ^ length ms' * w) as [A1 A2] by (rewrite L; nia).
  eapply maps_cons; [apply maps_norm|]. eapply maps_cons; [apply maps_act|]. eapply maps_cons; [now apply c3|]. apply maps_nil.
Qed.
End Nets.

(** * Padding *)
Lemma vq_pad_eq f n : 1 <= f -> vq_pad f n = (f - n mod f) mod f.
Proof.
  intro F. unfold vq_pad. rewrite <- (Nat2Z.id ((f - n mod f) mod f)). f_equal.
  rewrite Nat2Z.inj_mod, Nat2Z.inj_sub, Nat2Z.inj_mod by (pose proof (Nat.mod_upper_bound n f); lia).
  pose proof (Z.div_mod (Z.of_nat n) (Z.of_nat f) ltac:(lia)) as D.
  set (q := (Z.of_nat n / Z.of_nat f)%Z) in *. set (r := (Z.of_nat n mod Z.of_nat f)%Z) in *.
  rewrite D. replace (Z.of_nat f - (Z.of_nat f * q + r - Z.of_nat f))%Z with (Z.of_nat f - r + (1 - q) * Z.of_nat f)%Z by ring.
  apply Z.mod_add. lia.
Qed.
Lemma vq_padded_eq f x b c h w : 1 <= f -> tshape x = [b; c; h; w] ->
  vq_padded f false x = bind (pad_image_to_factor x f) (fun p => Ok (fst p)).
Proof.
  intros F H. unfold vq_padded, pad_image_to_factor. rewrite H, !vq_pad_eq by exact F.
  destruct (_ || _); [|reflexivity]. now destruct (pad2 _ _ _ _ _ _ _).
Qed.

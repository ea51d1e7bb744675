(** C37: the VQ-VAE autoencoder preserves the image's size. *)
From Coq Require Import ZArith Arith List Bool Reals Lia ZifyNat.
From Verif Require Import Base Tensor Net_Model Net_Proofs Vq_Model Vq_Spec Vq_Proofs.
Import ListNotations.
Open Scope nat_scope.

Section Vq.
(** Any weights, channel numbers, attention resolutions and kind of resampling. *)
Variables (WE WD : nat -> nat -> nat -> nat -> vals) (ch nres ci co e resolution : nat) (attn : list nat) (wc : bool).
(** Any non-empty list of channel multipliers: one level per entry. *)
Variables (m : nat) (ms : list nat).
Hypothesis N : 1 <= nres.
Notation mults := (m :: ms).
Notation f := (2 ^ (length mults - 1)).
Notation encoder := (vq_encoder ch nres attn wc WE ci e resolution mults).
Notation decoder := (vq_decoder ch nres attn wc WD co e resolution mults).
Notation forward op training := (vq_forward encoder decoder op (vq_factor mults) training).

Lemma factor_pos : 1 <= 2 ^ length ms.
Proof. pose proof (Nat.pow_nonzero 2 (length ms)). lia. Qed.
Lemma run_shape op x b h w : keeps_shape op -> tshape x = [b; ci; h; w] -> 2 ^ length ms <= h -> 2 ^ length ms <= w ->
  exists y, (do latent <- encoder x; do latent <- match op with Some g => g latent | None => Ok latent end; decoder latent) = Ok y /\
    tshape y = [b; co; 2 ^ length ms * (h / 2 ^ length ms); 2 ^ length ms * (w / 2 ^ length ms)].
Proof.
  intros O Hx H K. pose proof factor_pos as P.
  destruct (encoder_maps ch nres attn wc N WE ci e resolution b ms m h w H K x Hx) as (y & -> & Hy). cbn [bind].
  assert (G : exists z, match op with Some g => g y | None => Ok y end = Ok z /\ tshape z = tshape y).
  { destruct op as [g|]; [exact (O y)|now exists y]. }
  destruct G as (z & -> & Hz). cbn [bind]. rewrite Hy in Hz.
  apply (decoder_maps ch nres attn wc N WD co e resolution b ms m); [apply Nat.div_le_lower_bound; lia|apply Nat.div_le_lower_bound; lia|exact Hz].
Qed.

(** C37: in evaluation mode the output has exactly the input's height and width, for every
    size above half the downsampling factor; the encoder sees the image, extended to the
    smallest multiples of the factor. *)
Theorem vqvae_eval_size op x b h w : keeps_shape op -> tshape x = [b; ci; h; w] -> f < 2 * h -> f < 2 * w ->
  (exists y, forward op false x = Ok y /\ tshape y = [b; co; h; w]) /\
  exists xp H W, vq_padded (vq_factor mults) false x = Ok xp /\ extends x xp b ci h w H W /\
    Nat.divide f H /\ Nat.divide f W /\ H < h + f /\ W < w + f.
Proof.
  intros O Hx Hh Hw. replace (length mults - 1) with (length ms) in * by (cbn; lia).
  pose proof factor_pos as P.
  destruct (pad_to_ok (2 ^ length ms) x b ci h w P Hx) as (xp & PX & SX & VX); [apply reflectable_iff; lia|apply reflectable_iff; lia|].
  assert (PE : vq_padded (vq_factor mults) false x = Ok xp).
  { unfold vq_factor. replace (length mults - 1) with (length ms) by (cbn; lia). rewrite (vq_padded_eq _ x b ci h w P Hx), PX. reflexivity. }
  destruct (up_to_least (2 ^ length ms) h P) as (DH & LH & MH). destruct (up_to_least (2 ^ length ms) w P) as (DW & LW & MW).
  assert (BH : 2 ^ length ms <= up_to (2 ^ length ms) h) by (destruct DH as [k K]; destruct k; [lia|]; rewrite K; lia).
  assert (BW : 2 ^ length ms <= up_to (2 ^ length ms) w) by (destruct DW as [k K]; destruct k; [lia|]; rewrite K; lia).
  split.
  - destruct (run_shape op xp b _ _ O SX BH BW) as (y & Y & Sy).
    unfold vq_forward. rewrite PE, Hx. cbn [bind nth].
    assert (ER : forall q, Nat.divide (2 ^ length ms) q -> 2 ^ length ms * (q / 2 ^ length ms) = q).
    { intros q [k ->]. rewrite Nat.div_mul by lia. lia. }
    rewrite (ER _ DH), (ER _ DW) in Sy.
    destruct (encoder xp) as [la|]; [|discriminate]. cbn [bind] in Y |- *.
    destruct (match op with Some g => g la | None => Ok la end) as [lb|]; [|discriminate]. cbn [bind] in Y |- *. rewrite Y. cbn [bind].
    rewrite (crop_ok y b co _ _ h w Sy) by lia. eexists. now split.
  - exists xp, (up_to (2 ^ length ms) h), (up_to (2 ^ length ms) w).
    split; [exact PE|]. split; [repeat split; assumption|]. split; [exact DH|]. split; [exact DW|]. unfold up_to.
    pose proof (Nat.mod_upper_bound (2 ^ length ms - h mod 2 ^ length ms) (2 ^ length ms)).
    pose proof (Nat.mod_upper_bound (2 ^ length ms - w mod 2 ^ length ms) (2 ^ length ms)). lia.
Qed.

(** ... and for smaller images it raises, because torch refuses the reflection padding. *)
Theorem vqvae_small_image_refuted op x b h w : tshape x = [b; ci; h; w] -> 1 <= h -> 1 <= w -> 2 * h <= f \/ 2 * w <= f ->
  forward op false x = Raise RuntimeError.
Proof.
  intros Hx Hh Hw F. replace (length mults - 1) with (length ms) in * by (cbn; lia). pose proof factor_pos as P.
  unfold vq_forward. unfold vq_factor. replace (length mults - 1) with (length ms) by (cbn; lia).
  rewrite (vq_padded_eq _ x b ci h w P Hx), (pad_to_fail _ x b ci h w P Hh Hw Hx); [reflexivity|].
  rewrite !reflectable_iff by lia. lia.
Qed.

(** In training mode nothing is padded: the output is cut down to multiples of the factor,
    and an image smaller than the factor raises. *)
Theorem vqvae_train_size op x b h w : keeps_shape op -> tshape x = [b; ci; h; w] -> 1 <= h -> 1 <= w ->
  (f <= h /\ f <= w -> exists y, forward op true x = Ok y /\ tshape y = [b; co; f * (h / f); f * (w / f)]) /\
  (h < f \/ w < f -> forward op true x = Raise RuntimeError).
Proof.
  intros O Hx Hh Hw. replace (length mults - 1) with (length ms) in * by (cbn; lia). pose proof factor_pos as P.
  unfold vq_forward, vq_padded. rewrite Hx. cbn [bind nth]. split.
  - intros [A B]. destruct (run_shape op x b h w O Hx A B) as (y & Y & Sy).
    destruct (encoder x) as [la|]; [|discriminate]. cbn [bind] in Y |- *.
    destruct (match op with Some g => g la | None => Ok la end) as [lb|]; [|discriminate]. cbn [bind] in Y |- *. rewrite Y. cbn [bind].
    unfold crop. rewrite Sy. eexists. split; [reflexivity|]. cbn [tshape].
    pose proof (Nat.mul_div_le h (2 ^ length ms) ltac:(lia)). pose proof (Nat.mul_div_le w (2 ^ length ms) ltac:(lia)).
    now rewrite !Nat.min_r by lia.
  - intro F. rewrite (encoder_fail ch nres attn wc N WE ci e resolution b ms m h w x Hh Hw F Hx). reflexivity.
Qed.
End Vq.

(** The default model (five levels, factor 16) on a 100 by 17 image: 100 by 17 in
    evaluation mode, 96 by 16 in training mode; a 100 by 8 image raises. *)
Example vqvae_ex (W : nat -> nat -> nat -> nat -> vals) x z :
  tshape x = [1; 3; 100; 17] -> tshape z = [1; 3; 100; 8] ->
  let enc := vq_encoder 128 2 [16] true W 3 256 256 [1; 1; 2; 2; 4] in
  let dec := vq_decoder 128 2 [16] true W 3 256 256 [1; 1; 2; 2; 4] in
  (exists y, vq_forward enc dec None 16 false x = Ok y /\ tshape y = [1; 3; 100; 17]) /\
  (exists y, vq_forward enc dec None 16 true x = Ok y /\ tshape y = [1; 3; 96; 16]) /\
  vq_forward enc dec None 16 false z = Raise RuntimeError.
Proof.
  intros Hx Hz enc dec. split; [|split].
  - apply (vqvae_eval_size W W 128 2 3 3 256 256 [16] true 1 [1; 2; 2; 4] ltac:(lia) None x 1 100 17 I Hx); cbn; lia.
  - apply (vqvae_train_size W W 128 2 3 3 256 256 [16] true 1 [1; 2; 2; 4] ltac:(lia) None x 1 100 17 I Hx); cbn; lia.
  - apply (vqvae_small_image_refuted W W 128 2 3 3 256 256 [16] true 1 [1; 2; 2; 4] ltac:(lia) None z 1 100 8 Hz); cbn; lia.
Qed.

Print Assumptions vqvae_eval_size.
Print Assumptions vqvae_small_image_refuted.
Print Assumptions vqvae_train_size.

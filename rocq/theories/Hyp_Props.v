(** C35, C36, C56, C57: the hyperprior autoencoder (HiFiC). *)
From Coq Require Import String ZArith Arith List Bool Reals Lia Lra ZifyNat.
From Verif Require Import Base RBase Tensor Net_Model Net_Proofs Hyp_Model Hyp_Spec Hyp_Proofs.
Import ListNotations.
Open Scope nat_scope.

Lemma check_devices_spec force s : check_devices force s = Ok tt <-> may_compress force s.
Proof.
  unfold check_devices, may_compress. destruct (on_cpu s) eqn:C.
  - split; [|reflexivity]. intros _. left. now apply on_cpu_spec.
  - assert (N : ~ forall p, In p (params s) -> pdevice p = 0) by (intro X; apply on_cpu_spec in X; congruence).
    destruct force; [split; intro H; [discriminate|destruct H as [H|[H _]]; [tauto|discriminate]]|].
    destruct (check_compress_devices s) eqn:D.
    + split; [|reflexivity]. intros _. right. split; [reflexivity|]. now apply check_compress_spec.
    + split; [discriminate|]. intros [H|[_ H]]; [tauto|]. apply check_compress_spec in H. congruence.
Qed.
Lemma check_devices_fail force s : ~ may_compress force s -> check_devices force s = Raise ValueError.
Proof.
  intro N. assert (H : check_devices force s <> Ok tt) by (intro X; now apply check_devices_spec in X).
  unfold check_devices in *. destruct (on_cpu s); [easy|]. destruct force; [reflexivity|]. now destruct (check_compress_devices s).
Qed.

Section Hific.
(** Any weights. *)
Variables (WE WD WA WM WS : nat -> vals) (V : nat -> nat -> vals).
(** Any numbers of channels and residual blocks. *)
Variables (ci lat hyp n : nat).
Notation encoder := (hific_encoder WE ci lat).
Notation decoder := (hific_generator WD V ci lat n).
Notation analysis := (hyper_analysis_net WA lat hyp).
Notation synth_mean := (hyper_synthesis_net WM lat hyp).
Notation synth_scale := (hyper_synthesis_net WS lat hyp).
(** Any bottlenecks. *)
Context {B B' I : Type}.
Variables (hb_compress : tensor R -> res B) (hb_decompress : B -> nat * nat -> res (tensor R)) (hq : tensor R -> tensor R).
Variables (build : tensor R -> I) (lb_compress : tensor R -> I -> tensor R -> res B') (lb_decompress : B' -> I -> tensor R -> res (tensor R)).
Notation comp := (compress encoder analysis synth_mean synth_scale hb_compress hb_decompress build lb_compress).
Notation decomp := (decompress decoder synth_mean synth_scale hb_decompress build lb_decompress).

Lemma up_to_64 h : exists k, up_to 64 h = 64 * k /\ h <= 64 * k.
Proof.
  destruct (up_to_least 64 h) as ([k K] & L & _); [lia|]. exists k. lia.
Qed.
Lemma sixteenths_64 k : sixteenths (64 * k) = 4 * k.
Proof. unfold sixteenths. dlia. Qed.

Lemma roundtrip_all s force x b h w :
  hyper_lossless hb_compress hb_decompress hq hyp -> latent_lossless build lb_compress lb_decompress ->
  may_compress force s -> tables s <> None ->
  tshape x = [b; ci; h; w] -> 1 <= b -> 33 <= h -> 33 <= w ->
  exists d xp latent hyper_latent means img,
    comp s force x = Ok d /\ image_size d = (h, w) /\ padded_size d = (up_to 64 h, up_to 64 w) /\
    (forall i j k l, k < h -> l < w -> tat xp [i; j; k; l] = tat x [i; j; k; l]) /\
    tshape xp = [b; ci; up_to 64 h; up_to 64 w] /\
    encoder xp = Ok latent /\ tshape latent = [b; lat; up_to 64 h / 16; up_to 64 w / 16] /\
    analysis latent = Ok hyper_latent /\ tshape hyper_latent = [b; hyp; up_to 64 h / 64; up_to 64 w / 64] /\
    synth_mean (hq hyper_latent) = Ok means /\ tshape means = tshape latent /\
    decoder (quantised latent means) = Ok img /\
    decomp s force d = Ok (mkT [b; ci; h; w] (fun i => Rmax 0 (Rmin 1 (tat img i)))).
Proof.
  intros HL LL MC TB Hx Hb Hh Hw.
  apply check_devices_spec in MC.
  destruct (pad_to_ok 64 x b ci h w) as (xp & PX & SX & VX); [lia|exact Hx|apply reflectable_iff; lia|apply reflectable_iff; lia|].
  assert (WT : forall A (m : res A), with_tables s m = m) by (intros A m; unfold with_tables; destruct (tables s); [reflexivity|congruence]).
  destruct (up_to_64 h) as (kh & Kh & Lh). destruct (up_to_64 w) as (kw & Kw & Lw). rewrite Kh, Kw in *.
  destruct (encoder_maps WE ci lat b (64 * kh) (64 * kw) ltac:(lia) ltac:(lia) xp SX) as (y & Y & Hy).
  rewrite !sixteenths_64 in Hy.
  destruct (analysis_maps WA lat hyp b (4 * kh) (4 * kw) ltac:(lia) ltac:(lia) y Hy) as (z & Z & Hz).
  replace ((4 * kh + 3) / 4) with kh in Hz by dlia. replace ((4 * kw + 3) / 4) with kw in Hz by dlia.
  destruct (HL z b kh kw Hz ltac:(lia) ltac:(lia) ltac:(lia)) as (hs & C1 & D1 & Q1).
  rewrite Hz in Q1.
  destruct (synthesis_maps WM lat hyp b kh kw ltac:(lia) ltac:(lia) (hq z) Q1) as (m & M & Hm).
  destruct (synthesis_maps WS lat hyp b kh kw ltac:(lia) ltac:(lia) (hq z) Q1) as (sc & S & Hs).
  destruct (LL y sc m) as (ls & C2 & D2); [congruence|congruence|].
  destruct (generator_maps WD V ci lat n b (4 * kh) (4 * kw) ltac:(lia) ltac:(lia) (quantised y m) Hy) as (img & G & Hg).
  exists (mkC ls hs (h, w) (64 * kh, 64 * kw)), xp, y, z, m, img.
  split. { unfold compress. rewrite MC. cbn [bind]. unfold factor. rewrite PX. cbn [bind]. rewrite Y. cbn [bind]. rewrite Z. cbn [bind].
    rewrite WT, C1. cbn [bind]. rewrite WT, Hz. cbn [nth]. rewrite D1. cbn [bind]. rewrite M. cbn [bind]. rewrite S. cbn [bind].
    rewrite WT, C2. cbn [bind]. rewrite SX. reflexivity. }
  split; [reflexivity|]. split; [reflexivity|]. split; [exact VX|]. split; [exact SX|]. split; [exact Y|].
  split; [rewrite Hy; replace (64 * kh / 16) with (4 * kh) by dlia; now replace (64 * kw / 16) with (4 * kw) by dlia|]. split; [exact Z|].
  split; [rewrite Hz; replace (64 * kh / 64) with kh by dlia; now replace (64 * kw / 64) with kw by dlia|]. split; [exact M|]. split; [congruence|]. split; [exact G|].
  unfold decompress. rewrite MC. cbn [bind padded_size fst snd hyper_latent_strings latent_strings image_size].
  replace (64 * kh / 2 ^ 4 / 2 ^ 2) with kh by (change (2 ^ 4) with 16; change (2 ^ 2) with 4; dlia).
  replace (64 * kw / 2 ^ 4 / 2 ^ 2) with kw by (change (2 ^ 4) with 16; change (2 ^ 2) with 4; dlia).
  rewrite WT, D1. cbn [bind]. rewrite M. cbn [bind]. rewrite S. cbn [bind]. rewrite WT, D2. cbn [bind]. rewrite G. cbn [bind].
  rewrite (crop_ok img b ci (16 * (4 * kh)) (16 * (4 * kw)) h w Hg) by lia. reflexivity.
Qed.

(** C35: every image of at least 33 by 33 pixels comes back with its own size and with
    values in [0, 1]; what is coded is the image padded to the next multiples of 64. *)
Theorem hific_roundtrip s force x b h w :
  hyper_lossless hb_compress hb_decompress hq hyp -> latent_lossless build lb_compress lb_decompress ->
  may_compress force s -> tables s <> None ->
  tshape x = [b; ci; h; w] -> 1 <= b -> 33 <= h -> 33 <= w ->
  exists d y,
    comp s force x = Ok d /\ image_size d = (h, w) /\
    least_multiple 64 h (fst (padded_size d)) /\ least_multiple 64 w (snd (padded_size d)) /\
    decomp s force d = Ok y /\ tshape y = [b; ci; h; w] /\ (forall i, 0 <= tat y i <= 1)%R.
Proof.
  intros HL LL MC TB Hx Hb Hh Hw.
  destruct (roundtrip_all s force x b h w HL LL MC TB Hx Hb Hh Hw) as (d & xp & y & z & m & img & C & IS & PS & _ & _ & _ & _ & _ & _ & _ & _ & _ & D).
  exists d, (mkT [b; ci; h; w] (fun i => Rmax 0 (Rmin 1 (tat img i)))). rewrite PS. cbn [fst snd].
  repeat split; try assumption; try (apply (up_to_least 64); lia).
  - cbn. unfold Rmax. destruct (Rle_dec _ _); lra.
  - cbn. unfold Rmax, Rmin. destruct (Rle_dec 1 (tat img i)), (Rle_dec 0 _); lra.
Qed.

(** C35: the decoder's network runs on exactly the latent the encoder coded, quantised
    around the means both sides compute; latent and hyper-latent have a 16th and a 64th of
    the padded size; padding does not change the image itself. *)
Theorem hific_decoded_latent s force x b h w :
  hyper_lossless hb_compress hb_decompress hq hyp -> latent_lossless build lb_compress lb_decompress ->
  may_compress force s -> tables s <> None ->
  tshape x = [b; ci; h; w] -> 1 <= b -> 33 <= h -> 33 <= w ->
  exists d H W xp latent hyper_latent means img y,
    comp s force x = Ok d /\ decomp s force d = Ok y /\
    least_multiple 64 h H /\ least_multiple 64 w W /\
    tshape xp = [b; ci; H; W] /\
    (forall i j k l, k < h -> l < w -> tat xp [i; j; k; l] = tat x [i; j; k; l]) /\
    encoder xp = Ok latent /\ tshape latent = [b; lat; H / 16; W / 16] /\
    analysis latent = Ok hyper_latent /\ tshape hyper_latent = [b; hyp; H / 64; W / 64] /\
    synth_mean (hq hyper_latent) = Ok means /\ tshape means = tshape latent /\
    decoder (quantised latent means) = Ok img /\
    forall i, tat y i = Rmax 0 (Rmin 1 (tat img i)).
Proof.
  intros HL LL MC TB Hx Hb Hh Hw.
  destruct (roundtrip_all s force x b h w HL LL MC TB Hx Hb Hh Hw) as (d & xp & y & z & m & img & C & IS & PS & VX & SX & A1 & A2 & A3 & A4 & A5 & A6 & A7 & D).
  exists d, (up_to 64 h), (up_to 64 w), xp, y, z, m, img, (mkT [b; ci; h; w] (fun i => Rmax 0 (Rmin 1 (tat img i)))).
  repeat split; try assumption; apply (up_to_least 64); lia.
Qed.

(** C35, the exception: below 33 pixels in either direction compress raises, because the
    reflection padding to 64 would be at least as large as the image. *)
Theorem hific_small_image_refuted s force x b h w :
  may_compress force s -> tshape x = [b; ci; h; w] -> 1 <= h -> 1 <= w -> h <= 32 \/ w <= 32 ->
  comp s force x = Raise RuntimeError.
Proof.
  intros MC Hx Hh Hw K. apply check_devices_spec in MC. unfold compress. rewrite MC. cbn [bind]. unfold factor.
  rewrite (pad_to_fail 64 x b ci h w); [reflexivity|lia|assumption|assumption|exact Hx|].
  rewrite !reflectable_iff by lia. lia.
Qed.

(** C36: with parameters elsewhere than allowed, or without tables, nothing is coded. *)
Theorem hific_compress_devices s force x d :
  ~ may_compress force s -> comp s force x = Raise ValueError /\ decomp s force d = Raise ValueError.
Proof. intro N. apply check_devices_fail in N. unfold compress, decompress. now rewrite N. Qed.
Theorem hific_compress_needs_tables s force x b h w :
  may_compress force s -> tables s = None -> tshape x = [b; ci; h; w] -> 33 <= h -> 33 <= w ->
  comp s force x = Raise ValueError.
Proof.
  intros MC TB Hx Hh Hw. apply check_devices_spec in MC.
  destruct (pad_to_ok 64 x b ci h w) as (xp & PX & SX & VX); [lia|exact Hx|apply reflectable_iff; lia|apply reflectable_iff; lia|].
  destruct (up_to_64 h) as (kh & Kh & Lh). destruct (up_to_64 w) as (kw & Kw & Lw). rewrite Kh, Kw in *.
  destruct (encoder_maps WE ci lat b (64 * kh) (64 * kw) ltac:(lia) ltac:(lia) xp SX) as (y & Y & Hy).
  rewrite !sixteenths_64 in Hy.
  destruct (analysis_maps WA lat hyp b (4 * kh) (4 * kw) ltac:(lia) ltac:(lia) y Hy) as (z & Z & Hz).
  unfold compress. rewrite MC. cbn [bind]. unfold factor. rewrite PX. cbn [bind]. rewrite Y. cbn [bind]. rewrite Z. cbn [bind].
  unfold with_tables. rewrite TB. reflexivity.
Qed.

(** C56: forward in evaluation mode does not pad.  It succeeds exactly if the latent's
    height and width, the image's divided by 16 and rounded up, are multiples of 4, and
    returns an image of 16 times the latent's size. *)
Theorem hific_forward_size s x b h w :
  (forall y, tshape (hq y) = tshape y) ->
  device_setting s = "forward"%string -> tshape x = [b; ci; h; w] -> 1 <= h -> 1 <= w ->
  (Nat.divide 4 (sixteenths h) /\ Nat.divide 4 (sixteenths w) ->
   exists y, forward_eval encoder decoder analysis synth_mean synth_scale hq s x = Ok y /\
     tshape y = [b; ci; 16 * sixteenths h; 16 * sixteenths w]) /\
  (~ (Nat.divide 4 (sixteenths h) /\ Nat.divide 4 (sixteenths w)) ->
   forward_eval encoder decoder analysis synth_mean synth_scale hq s x = Raise RuntimeError).
Proof.
  intros Q DS Hx Hh Hw. unfold forward_eval. rewrite DS, String.eqb_refl. cbn [negb].
  destruct (encoder_maps WE ci lat b h w Hh Hw x Hx) as (y & Y & Hy). rewrite Y. cbn [bind].
  pose proof (sixteenths_pos h Hh) as Ph. pose proof (sixteenths_pos w Hw) as Pw.
  set (a := sixteenths h) in *. set (c := sixteenths w) in *. clearbody a c.
  destruct (analysis_maps WA lat hyp b a c Ph Pw y Hy) as (z & Z & Hz). rewrite Z. cbn [bind].
  rewrite <- Q in Hz.
  assert (P1 : 1 <= (a + 3) / 4) by dlia. assert (P2 : 1 <= (c + 3) / 4) by dlia.
  destruct (synthesis_maps WM lat hyp b _ _ P1 P2 (hq z) Hz) as (m & M & Hm). rewrite M. cbn [bind].
  destruct (synthesis_maps WS lat hyp b _ _ P1 P2 (hq z) Hz) as (sc & S & Hs). rewrite S. cbn [bind].
  assert (E4 : forall q, Nat.divide 4 q <-> q = 4 * ((q + 3) / 4)).
  { intro q. split; [intros [k ->]; dlia|]. intro E. exists ((q + 3) / 4). lia. }
  rewrite !E4. set (a4 := 4 * ((a + 3) / 4)) in *. set (c4 := 4 * ((c + 3) / 4)) in *.
  split.
  - intros [Ea Ec]. unfold lb_quantize. rewrite Hy, Hm, <- Ea, <- Ec, bshape_refl.
    destruct (list_eq_dec _ _ _) as [_|N]; [|congruence]. cbn [bind].
    apply (generator_maps WD V ci lat n b a c Ph Pw). reflexivity.
  - intro N. unfold lb_quantize. rewrite Hy, Hm. cbn [bshape]. rewrite !Nat.eqb_refl.
    assert (A4 : 4 <= a4) by lia. assert (C4 : 4 <= c4) by lia. clearbody a4 c4.
    destruct (Nat.eqb_spec c c4) as [Ec|Ec].
    + destruct (Nat.eqb_spec a a4) as [Ea|Ea]; [tauto|]. destruct (Nat.eqb_spec a 1).
      * destruct (list_eq_dec _ _ _) as [X|_]; [|reflexivity]. injection X. lia.
      * now replace (a4 =? 1) with false by (symmetry; apply Nat.eqb_neq; lia).
    + destruct (Nat.eqb_spec c 1) as [C1|C1].
      * destruct (Nat.eqb_spec a a4) as [Ea|Ea].
        -- destruct (list_eq_dec _ _ _) as [X|_]; [|reflexivity]. injection X. lia.
        -- destruct (Nat.eqb_spec a 1).
           ++ destruct (list_eq_dec _ _ _) as [X|_]; [|reflexivity]. injection X. lia.
           ++ now replace (a4 =? 1) with false by (symmetry; apply Nat.eqb_neq; lia).
      * now replace (c4 =? 1) with false by (symmetry; apply Nat.eqb_neq; lia).
Qed.
(** C56: so the output has the image's size exactly for multiples of 64. *)
Theorem hific_forward_same_size s x b h w :
  (forall y, tshape (hq y) = tshape y) ->
  device_setting s = "forward"%string -> tshape x = [b; ci; h; w] -> 1 <= h -> 1 <= w ->
  (exists y, forward_eval encoder decoder analysis synth_mean synth_scale hq s x = Ok y /\ tshape y = tshape x) <->
  Nat.divide 64 h /\ Nat.divide 64 w.
Proof.
  intros Q DS Hx Hh Hw. destruct (hific_forward_size s x b h w Q DS Hx Hh Hw) as [F1 F2].
  assert (E : forall q, Nat.divide 4 (sixteenths q) /\ 16 * sixteenths q = q <-> Nat.divide 64 q).
  { intro q. split.
    - intros [[k K] L]. exists k. lia.
    - intros [k ->]. replace (sixteenths (k * 64)) with (k * 4) by (unfold sixteenths; dlia). split; [now exists k|lia]. }
  rewrite <- !E. split.
  - intros (y & Y & S). destruct (E 0) as [_ _].
    assert (D : Nat.divide 4 (sixteenths h) /\ Nat.divide 4 (sixteenths w)).
    { destruct (Nat.eq_dec (sixteenths h mod 4) 0) as [A|A]; [destruct (Nat.eq_dec (sixteenths w mod 4) 0) as [C|C]|].
      - split; apply Nat.mod_divide; lia.
      - exfalso. rewrite F2 in Y; [discriminate|]. intros [_ D]. apply Nat.mod_divide in D; lia.
      - exfalso. rewrite F2 in Y; [discriminate|]. intros [D _]. apply Nat.mod_divide in D; lia. }
    destruct (F1 D) as (y' & Y' & S'). rewrite Y' in Y. injection Y as <-. rewrite S', Hx in S. injection S as S1 S2. tauto.
  - intros [[A1 A2] [B1 B2]]. destruct (F1 (conj A1 B1)) as (y & Y & S). exists y. split; [exact Y|]. now rewrite S, Hx, A2, B2.
Qed.

(** C56: the decoder's network then runs on the same quantised latent as in decompress
    (hific_decoded_latent), in every entry. *)
Theorem hific_forward_latent s x b h w :
  (forall y, tshape (hq y) = tshape y) ->
  device_setting s = "forward"%string -> tshape x = [b; ci; h; w] -> 1 <= h -> 1 <= w -> Nat.divide 64 h -> Nat.divide 64 w ->
  exists latent hyper_latent means q img,
    encoder x = Ok latent /\ tshape latent = [b; lat; h / 16; w / 16] /\ analysis latent = Ok hyper_latent /\
    synth_mean (hq hyper_latent) = Ok means /\ tshape means = tshape latent /\
    tshape q = tshape latent /\
    (forall i j k l, i < b -> j < lat -> k < h / 16 -> l < w / 16 -> tat q [i; j; k; l] = tat (quantised latent means) [i; j; k; l]) /\
    decoder q = Ok img /\ forward_eval encoder decoder analysis synth_mean synth_scale hq s x = Ok img.
Proof.
  intros Q DS Hx Hh Hw [kh Kh] [kw Kw]. unfold forward_eval. rewrite DS, String.eqb_refl. cbn [negb].
  rewrite (Nat.mul_comm kh) in Kh. rewrite (Nat.mul_comm kw) in Kw. subst h w.
  destruct (encoder_maps WE ci lat b (64 * kh) (64 * kw) Hh Hw x Hx) as (y & Y & Hy). rewrite !sixteenths_64 in Hy.
  destruct (analysis_maps WA lat hyp b (4 * kh) (4 * kw) ltac:(lia) ltac:(lia) y Hy) as (z & Z & Hz).
  replace ((4 * kh + 3) / 4) with kh in Hz by dlia. replace ((4 * kw + 3) / 4) with kw in Hz by dlia. rewrite <- Q in Hz.
  destruct (synthesis_maps WM lat hyp b kh kw ltac:(lia) ltac:(lia) (hq z) Hz) as (m & M & Hm).
  destruct (synthesis_maps WS lat hyp b kh kw ltac:(lia) ltac:(lia) (hq z) Hz) as (sc & S & Hs).
  replace (64 * kh / 16) with (4 * kh) by dlia. replace (64 * kw / 16) with (4 * kw) by dlia.
  destruct (lb_quantize y m) as [q|] eqn:E; unfold lb_quantize in E; rewrite Hy, Hm, bshape_refl in E;
    (destruct (list_eq_dec _ _ _) as [_|N]; [|congruence]); [|discriminate].
  assert (Sq : tshape q = [b; lat; 4 * kh; 4 * kw]) by (injection E as <-; reflexivity).
  destruct (generator_maps WD V ci lat n b (4 * kh) (4 * kw) ltac:(lia) ltac:(lia) q Sq) as (img & G & _).
  exists y, z, m, q, img. repeat split; try assumption; try congruence.
  - intros i j k l Hi Hj Hk Hl. injection E as <-. unfold quantised. cbn [tat bidx].
    assert (K : forall d u, u < d -> (if d =? 1 then 0 else u) = u) by (intros d u U; destruct (Nat.eqb_spec d 1); lia).
    now rewrite !K by assumption.
  - rewrite Y. cbn [bind]. rewrite Z. cbn [bind]. rewrite M. cbn [bind]. rewrite S. cbn [bind].
    unfold lb_quantize. rewrite Hy, Hm, bshape_refl. destruct (list_eq_dec _ _ _) as [_|N]; [|congruence]. rewrite E. exact G.
Qed.

(** C36: forward works only under the setting "forward". *)
Theorem hific_forward_setting s x : device_setting s <> "forward"%string ->
  forward_eval encoder decoder analysis synth_mean synth_scale hq s x = Raise RuntimeError.
Proof. intro H. unfold forward_eval. apply String.eqb_neq in H. now rewrite H. Qed.
End Hific.

(** The hypotheses are met: a bottleneck that stores the rounded tensor. *)
Definition ex_hq (y : tensor R) : tensor R := mkT (tshape y) (fun i => IZR (round_even (tat y i))).
Definition ex_hb_decompress (s : tensor R) (size : nat * nat) : res (tensor R) :=
  match tshape s with
  | [b; c; h; w] => if (h =? fst size) && (w =? snd size) then Ok s else Raise ValueError
  | _ => Raise ValueError
  end.
Definition ex_state : hstate :=
  mkH [mkP "encoder.blocks.0.0.weight" Encoder true 1; mkP "decoder.blocks.4.weight" Decoder true 1;
       mkP "hyper_bottleneck._matrix0" HyperBottleneck true 0; mkP "hyper_bottleneck.quantiles" HyperBottleneck true 0]
      (fun _ => true) true false false "compress" 0 (Some 0).
Example hific_bottlenecks_ex :
  hyper_lossless (fun y => Ok (ex_hq y)) ex_hb_decompress ex_hq 320 /\
  latent_lossless (fun _ : tensor R => tt) (fun y _ m => Ok (quantised y m)) (fun s _ _ => Ok s) /\
  may_compress false ex_state /\ ~ may_compress true ex_state /\ tables ex_state <> None.
Proof.
  split; [|split; [|split; [|split]]].
  - intros y b h w H A1 A2 A3. exists (ex_hq y). split; [reflexivity|]. split; [|reflexivity].
    unfold ex_hb_decompress. cbn [tshape ex_hq]. rewrite H. cbn [fst snd]. now rewrite !Nat.eqb_refl.
  - intros y sc m A1 A2. now exists (quantised y m).
  - right. split; [reflexivity|]. intros p [<-|[<-|[<-|[<-|[]]]]] [A1 A2]; cbn in *; congruence.
  - intros [A|[A _]]; [|discriminate]. specialize (A _ (or_introl eq_refl)). discriminate.
  - discriminate.
Qed.

Lemma fresh_flags s : fresh s -> flags_ok s.
Proof. intros [A B]. split; intro; congruence. Qed.
(** C36: after freeze_encoder, no sequence of train, eval, freeze, device and optimiser
    calls puts the encoder in training mode or gives one of its parameters to an optimiser. *)
Theorem hific_frozen_encoder s l0 l : fresh s ->
  let s' := calls l (freeze_encoder (calls l0 s)) in
  is_frozen s' Encoder /\ frozen_encoder s' = true /\
  forall m q, collect_parameters s' = Ok (m, q) -> forall p, In p (m ++ q) -> pchild p <> Encoder.
Proof.
  intros F s'. assert (FE : frozen_encoder s' = true) by now apply frozen_encoder_calls.
  assert (FO : flags_ok s') by (apply flags_calls; apply (flags_call FreezeEncoder); apply flags_calls; now apply fresh_flags).
  destruct FO as [A _]. specialize (A FE). split; [exact A|]. split; [exact FE|].
  intros m q C p I E. destruct A as [_ A].
  assert (G : In p (params s') /\ prequires p = true).
  { unfold collect_parameters in C. cbv zeta in C. destruct (_ || _) in C; [discriminate|]. injection C as <- <-.
    assert (D : forall f p, In p (map snd (dict_of (filter f (map (fun p => (pname p, p)) (params s'))))) ->
      In p (params s') /\ f (pname p, p) = true).
    { intros f p0 I0. apply in_map_iff in I0. destruct I0 as ([n p1] & <- & I0). cbn [snd].
      assert (G : forall (l d : list (string * param)), In (n, p1) (fold_left (fun d p => dict_set (fst p) (snd p) d) l d) -> In (n, p1) (l ++ d)).
      { intro ll. induction ll as [|[k v] ll IH]; intros d H; [exact H|]. cbn [fold_left fst snd] in H. apply IH in H.
        apply in_app_iff in H. destruct H as [H|H]; [right; apply in_app_iff; now left|].
        assert (X : In (n, p1) ((k, v) :: d)).
        { clear - H. induction d as [|[k' v'] d IH]; cbn in H; [destruct H as [H|[]]; now left|].
          destruct (String.eqb k k'); destruct H as [H|H]; [now left|right; now right|right; now left|].
          destruct (IH H) as [E|E]; [now left|right; now right]. }
        destruct X as [X|X]; [now left|right; apply in_app_iff; now right]. }
      apply G in I0. rewrite app_nil_r in I0. apply filter_In in I0. destruct I0 as [I0 F0]. apply in_map_iff in I0.
      destruct I0 as (q & Q & I0). injection Q as <- <-. now split. }
    apply in_app_iff in I. destruct I as [I|I]; apply D in I; destruct I as [I J]; apply andb_true_iff in J; cbn [fst snd] in J; tauto. }
  destruct G as [G1 G2]. specialize (A p G1 E). congruence.
Qed.
(** ... and the same for the five bottleneck children after freeze_bottleneck. *)
Theorem hific_frozen_bottleneck s l0 l : fresh s ->
  let s' := calls l (freeze_bottleneck (calls l0 s)) in
  frozen_bottleneck s' = true /\ forall c, bottleneck_side c -> is_frozen s' c.
Proof.
  intros F s'. assert (FB : frozen_bottleneck s' = true) by now apply frozen_bottleneck_calls.
  assert (FO : flags_ok s') by (apply flags_calls; apply (flags_call FreezeBottleneck); apply flags_calls; now apply fresh_flags).
  destruct FO as [_ A]. split; [exact FB|]. now apply A.
Qed.
Example hific_frozen_ex : fresh ex_state /\
  ptrain (calls [Train true] ex_state) Encoder = true /\
  ptrain (calls [FreezeEncoder; Train true] ex_state) Encoder = false /\
  ptrain (calls [FreezeEncoder; Train true] ex_state) Decoder = true.
Proof. repeat split. Qed.
(** Freezing is exact: train(mode) puts every child that is not frozen into [mode], and no
    call but a freeze takes a parameter of another child away from the optimiser. *)
Theorem hific_train_exact s mode :
  mtrain (train mode s) = mode /\
  ptrain (train mode s) Decoder = mode /\
  ptrain (train mode s) Encoder = (if frozen_encoder s then false else mode) /\
  (forall c, bottleneck_side c -> ptrain (train mode s) c = if frozen_bottleneck s then false else mode) /\
  forall p, In p (params (train mode s)) -> prequires p = false ->
    (exists q, In q (params s) /\ pname q = pname p /\ prequires q = false) \/
    (pchild p = Encoder /\ frozen_encoder s = true) \/ (bottleneck_side (pchild p) /\ frozen_bottleneck s = true).
Proof.
  assert (G : forall s0, ptrain s0 = (fun _ => mode) -> mtrain s0 = mode -> frozen_encoder s0 = frozen_encoder s -> frozen_bottleneck s0 = frozen_bottleneck s ->
     params s0 = params s ->
     let s1 := (let s := if frozen_encoder s0 then freeze_encoder s0 else s0 in if frozen_bottleneck s then freeze_bottleneck s else s) in
     mtrain s1 = mode /\ ptrain s1 Decoder = mode /\ ptrain s1 Encoder = (if frozen_encoder s then false else mode) /\
     (forall c, bottleneck_side c -> ptrain s1 c = if frozen_bottleneck s then false else mode) /\
     forall p, In p (params s1) -> prequires p = false ->
    (exists q, In q (params s) /\ pname q = pname p /\ prequires q = false) \/
    (pchild p = Encoder /\ frozen_encoder s = true) \/ (bottleneck_side (pchild p) /\ frozen_bottleneck s = true)).
  { intros s0 A1 A2 A3 A4 A5. cbv zeta. rewrite A3.
    assert (NG : forall P l p, In p (map (fun p => if (P (pchild p) : bool) then mkP (pname p) (pchild p) false (pdevice p) else p) l) ->
       (exists q, In q l /\ pname q = pname p /\ pchild q = pchild p /\ (prequires q = prequires p \/ P (pchild p) = true))).
    { intros P l p I. apply in_map_iff in I. destruct I as (q & E & I). exists q. subst p. destruct (P (pchild q)) eqn:PQ; cbn; tauto. }
    destruct (frozen_encoder s) eqn:FE.
    - change (frozen_bottleneck (freeze_encoder s0)) with (frozen_bottleneck s0). rewrite A4. destruct (frozen_bottleneck s) eqn:FB.
      + cbn -[is_bottleneck]. rewrite A1, A2. cbn -[is_bottleneck]. repeat split.
        * intros c C. apply is_bottleneck_spec in C. now rewrite C.
        * intros p I Q. rewrite A5 in I. apply NG in I. destruct I as (q & I & N1 & N2 & R1). apply (NG (child_eqb Encoder)) in I. destruct I as (r & I & N3 & N4 & R2).
          destruct R1 as [R1|R1]; [|right; right; split; [now apply is_bottleneck_spec|reflexivity]].
          destruct R2 as [R2|R2]; [left; exists r; repeat split; congruence|]. right; left. apply child_eqb_spec in R2. split; congruence.
      + cbn. rewrite A1, A2. cbn. repeat split.
        * intros c [C1 C2]. destruct (child_eqb Encoder c) eqn:X; [apply child_eqb_spec in X; congruence|].
          destruct c; try congruence; reflexivity.
        * intros p I Q. rewrite A5 in I. apply (NG (child_eqb Encoder)) in I. destruct I as (r & I & N3 & N4 & R2).
          destruct R2 as [R2|R2]; [left; exists r; repeat split; congruence|]. right; left. apply child_eqb_spec in R2. split; congruence.
    - rewrite A4. destruct (frozen_bottleneck s) eqn:FB.
      + cbn -[is_bottleneck]. rewrite A1, A2. cbn -[is_bottleneck]. repeat split.
        * intros c C. apply is_bottleneck_spec in C. now rewrite C.
        * intros p I Q. rewrite A5 in I. apply NG in I. destruct I as (q & I & N1 & N2 & R1).
          destruct R1 as [R1|R1]; [left; exists q; repeat split; congruence|]. right; right. split; [now apply is_bottleneck_spec|reflexivity].
      + rewrite A1, A2. repeat split. intros p I Q. left. exists p. rewrite A5 in I. tauto. }
  unfold train. apply G; reflexivity.
Qed.

(** C36: under the setting "forward" all parameters are on one device, whatever was called,
    so forward never mixes devices. *)
Theorem hific_forward_one_device s l :
  same_device s -> device_setting (calls l s) = "forward"%string -> same_device (calls l s).
Proof. intros H X. apply (uniform_calls l s); [intros _; exact H|exact X]. Qed.
(** update_tensor_devices("compress") allows compress with force_cpu=False at once, and with
    force_cpu=True exactly if the encoder and decoder were on the CPU. *)
Theorem hific_compress_mode s : exists s',
  update_tensor_devices "compress" s = Ok s' /\ device_setting s' = "compress"%string /\ tables s' <> None /\
  may_compress false s' /\
  (may_compress true s' <-> forall p, In p (params s) -> pchild p = Encoder \/ pchild p = Decoder -> pdevice p = 0).
Proof.
  eexists. split; [reflexivity|]. split; [reflexivity|]. split; [cbn; now destruct (tables s)|].
  assert (A : forall p, In p (map (fun p => if is_bottleneck (pchild p) then mkP (pname p) (pchild p) (prequires p) 0 else p) (params s)) ->
     bottleneck_side (pchild p) -> pdevice p = 0).
  { intros p I B. apply in_map_iff in I. destruct I as (q & E & I). destruct (is_bottleneck (pchild q)) eqn:Q; [now subst p|].
    subst p. apply is_bottleneck_spec in B. congruence. }
  split; [right; split; [reflexivity|exact A]|]. split.
  - intros [H|[H _]]; [|discriminate]. intros p I C. apply (H p). cbn -[is_bottleneck]. apply in_map_iff. exists p. split; [|exact I].
    now destruct C as [->| ->].
  - intro H. left. intros p I. destruct (is_bottleneck (pchild p)) eqn:Q; [apply A; [exact I|now apply is_bottleneck_spec]|].
    cbn -[is_bottleneck] in I. apply in_map_iff in I. destruct I as (q & E & I). destruct (is_bottleneck (pchild q)) eqn:Q'; [subst p; cbn -[is_bottleneck] in Q; congruence|].
    subst p. apply H; [exact I|]. destruct (pchild q); cbn in Q; try discriminate; tauto.
Qed.
(** Any other target is refused. *)
Theorem hific_device_targets t s : t <> "forward"%string -> t <> "compress"%string ->
  update_tensor_devices t s = Raise ValueError.
Proof.
  intros A B. apply String.eqb_neq in A, B. unfold update_tensor_devices. now rewrite A, B.
Qed.
(** Even an unused call sequence: from a GPU model, the default force_cpu=True always fails
    after update_tensor_devices("compress"). *)
Theorem hific_force_cpu_refuted : exists s s',
  same_device s /\ update_tensor_devices "compress" s = Ok s' /\ ~ may_compress true s'.
Proof.
  exists (to_device (fun _ => true) 1 ex_state). eexists. split; [apply same_to|]. split; [reflexivity|].
  intros [A|[A _]]; [|discriminate]. specialize (A _ (or_introl eq_refl)). discriminate.
Qed.

(** C36: collect_parameters never fails and splits the trainable parameters into those
    whose name does not end in ".quantiles" and those whose name does. *)
Theorem hific_collect_parameters s : NoDup (map pname (params s)) ->
  exists m q, collect_parameters s = Ok (m, q) /\
  (forall p, In p m <-> In p (params s) /\ prequires p = true /\ ~ ends_in_quantiles (pname p)) /\
  (forall p, In p q <-> In p (params s) /\ prequires p = true /\ ends_in_quantiles (pname p)) /\
  NoDup (m ++ q).
Proof.
  intro N. do 2 eexists. split; [now apply collect_ok|].
  assert (E : forall n, ends_with ".quantiles" n = true <-> ends_in_quantiles n) by (intro; apply ends_with_spec).
  assert (E' : forall n, negb (ends_with ".quantiles" n) = true <-> ~ ends_in_quantiles n).
  { intro n0. rewrite <- E. destruct (ends_with ".quantiles" n0); cbn; split; congruence || tauto. }
  split; [intro p; rewrite filter_In, andb_true_iff, E'; tauto|].
  split; [intro p; rewrite filter_In, andb_true_iff, E; tauto|].
  assert (ND : NoDup (params s)) by now apply NoDup_map_inv in N.
  assert (NDapp : forall (a b : list param), NoDup a -> NoDup b -> (forall p, In p a -> ~ In p b) -> NoDup (a ++ b)).
  { induction a as [|x a IH]; intros b A B D; [exact B|]. inversion A; subst. cbn. constructor.
    - intro I. apply in_app_iff in I. destruct I as [I|I]; [tauto|]. apply (D x); [now left|exact I].
    - apply IH; [assumption|exact B|]. intros p I. apply D. now right. }
  apply NDapp; [now apply NoDup_filter|now apply NoDup_filter|].
  intros p I J. apply filter_In in I, J. destruct I as [_ I], J as [_ J]. apply andb_true_iff in I, J.
  destruct I as [I _], J as [J _]. rewrite J in I. discriminate.
Qed.
Example hific_collect_ex : exists m q, collect_parameters ex_state = Ok (m, q) /\ length m = 3 /\ length q = 1.
Proof. do 2 eexists. split; [reflexivity|]. now split. Qed.

(** C57: the coder's tables are computed once: whatever happens between, a later
    update_tensor_devices("compress") keeps the tables of the weights of the first one. *)
Theorem hific_tables_first s l t : tables s = Some t -> tables (calls l s) = Some t.
Proof.
  revert s. induction l as [|o l IH]; intros s H; [exact H|]. cbn [calls fold_left]. apply IH.
  destruct o as [m| | |tg|d|]; cbn [call]; try exact H.
  - unfold train. cbn [frozen_encoder]. destruct (frozen_encoder s); cbn; destruct (frozen_bottleneck s); exact H.
  - unfold update_tensor_devices. destruct (negb _); [exact H|]. destruct (String.eqb tg "forward").
    + destruct (encoder_device s); exact H.
    + cbn. now rewrite H.
Qed.
(** So after more training the tables are stale: they are not those of the weights in use. *)
Theorem hific_tables_fresh_refuted : exists s s',
  s = calls [Devices "compress"%string] (mkH (params ex_state) (fun _ => true) true false false "forward" 0 None) /\
  s' = calls [Devices "forward"%string; Step; Devices "compress"%string] s /\
  tables s = Some (weights s) /\ tables s' <> Some (weights s').
Proof. do 2 eexists. split; [reflexivity|]. split; [reflexivity|]. split; [reflexivity|]. discriminate. Qed.

Print Assumptions hific_roundtrip.
Print Assumptions hific_decoded_latent.
Print Assumptions hific_small_image_refuted.
Print Assumptions hific_forward_size.
Print Assumptions hific_frozen_encoder.
Print Assumptions hific_train_exact.
Print Assumptions hific_forward_one_device.
Print Assumptions hific_compress_mode.
Print Assumptions hific_collect_parameters.
Print Assumptions hific_tables_first.

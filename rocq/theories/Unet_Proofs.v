(** Sizes in the U-Net discriminator. *)
From Coq Require Import String ZArith Arith List Bool Reals Lia ZifyNat ZifyBool.
From Verif Require Import Base Tensor Net_Model Net_Proofs Unet_Model Unet_Spec.
Import ListNotations.
Open Scope nat_scope.

Definition nok (t : norm_type) (h w : nat) : Prop := t = Instance -> 1 < h * w.
Lemma nok_mono t h w h' w' : nok t h w -> h <= h' -> w <= w' -> nok t h' w'.
Proof. intros N A B T. specialize (N T). nia. Qed.

Lemma maps_nl t c f b h w : nok t h w -> maps (norm_layer t c f) [b; c; h; w] [b; c; h; w].
Proof.
  intros N x H. destruct t; cbn [norm_layer]; try (now exists x).
  - now apply maps_norm.
  - rewrite H. specialize (N eq_refl). destruct (Nat.eqb_spec (h * w) 1); [lia|]. eexists. now split.
Qed.
Lemma maps_c3 ci co f b h w : 1 <= h -> 1 <= w -> maps (conv3 ci co f) [b; ci; h; w] [b; co; h; w].
Proof. intros. unfold conv3. apply maps_conv; try lia; rewrite Nat.div_1_r; lia. Qed.
Lemma maps_c1 ci co f b h w : 1 <= h -> 1 <= w -> maps (conv1 ci co f) [b; ci; h; w] [b; co; h; w].
Proof. intros. unfold conv1. apply maps_conv; try lia; rewrite Nat.div_1_r; lia. Qed.

Section Level.
Variables (t : norm_type) (W : nat -> vals) (b i dn : nat) (top : bool).
Notation left_block := (sequential ((if top then [] else [norm_layer t i (W 0); act (W 1)])
                ++ [conv3 i dn (W 2); norm_layer t dn (W 3); act (W 4); conv3 dn dn (W 5); avg_pool2])).
Notation left_shortcut := (sequential ((if i =? dn then [] else [conv1 i dn (W 6)]) ++ [avg_pool2])).
Lemma left_maps h w : 2 <= h -> 2 <= w -> maps left_block [b; i; h; w] [b; dn; h / 2; w / 2].
Proof.
  intros Hh Hw. assert (N : nok t h w) by (intro; nia).
  eapply maps_app.
  - destruct top; [apply maps_nil|]. eapply maps_cons; [now apply maps_nl|]. eapply maps_cons; [apply maps_act|apply maps_nil].
  - eapply maps_cons; [apply maps_c3; lia|]. eapply maps_cons; [now apply maps_nl|]. eapply maps_cons; [apply maps_act|].
    eapply maps_cons; [apply maps_c3; lia|]. eapply maps_cons; [now apply maps_pool|apply maps_nil].
Qed.
Lemma shortcut_maps h w : 2 <= h -> 2 <= w -> maps left_shortcut [b; i; h; w] [b; dn; h / 2; w / 2].
Proof.
  intros Hh Hw. eapply maps_app.
  - destruct (Nat.eqb_spec i dn) as [->|]; [apply maps_nil|]. eapply maps_cons; [apply maps_c1; lia|apply maps_nil].
  - eapply maps_cons; [now apply maps_pool|apply maps_nil].
Qed.
Lemma left_ok h w x out child clip : 2 <= h -> 2 <= w -> tshape x = [b; i; h; w] ->
  exists z, tshape z = [b; dn; h / 2; w / 2] /\
  unet_level t W i dn out child top clip x =
  do x <- child z;
  if clip then Ok (mkT (tshape x) (fun idx => (tat x idx + 0)%R))
  else
    do r <- sequential [norm_layer t dn (W 7); act (W 8); upsample2; conv3 dn out (W 9);
                norm_layer t out (W 10); act (W 11); conv3 out out (W 12)] x;
    do x <- (if norm_is_identity t then act (W 8) x else Ok x);
    do s <- sequential ((if dn =? out then [] else [conv1 dn out (W 13)]) ++ [upsample2]) x;
    add r s.
Proof.
  intros Hh Hw H. unfold unet_level. cbv zeta.
  destruct (left_maps h w Hh Hw x H) as (l & -> & Hl). cbn [bind].
  assert (G : exists x', (if negb top && norm_is_identity t then act (W 1) x else Ok x) = Ok x' /\ tshape x' = [b; i; h; w]).
  { destruct (negb top && norm_is_identity t); [now apply maps_act|now exists x]. }
  destruct G as (x' & -> & Hx'). cbn [bind].
  destruct (shortcut_maps h w Hh Hw x' Hx') as (s & -> & Hs). cbn [bind].
  destruct (add_ok l s) as (z & -> & Hz); [congruence|]. cbn [bind]. exists z. split; [congruence|reflexivity].
Qed.
Lemma level_clipped h w out child c h' w' : 2 <= h -> 2 <= w -> maps child [b; dn; h / 2; w / 2] [b; c; h'; w'] ->
  maps (unet_level t W i dn out child top true) [b; i; h; w] [b; c; h'; w'].
Proof.
  intros Hh Hw C x H. destruct (left_ok h w x out child true Hh Hw H) as (z & Hz & ->).
  destruct (C z Hz) as (y & -> & Hy). cbn [bind]. eexists. split; [reflexivity|exact Hy].
Qed.
Lemma level_open h w out child h' w' : 2 <= h -> 2 <= w -> 1 <= h' -> 1 <= w' -> nok t h' w' ->
  maps child [b; dn; h / 2; w / 2] [b; dn; h'; w'] ->
  maps (unet_level t W i dn out child top false) [b; i; h; w] [b; out; 2 * h'; 2 * w'].
Proof.
  intros Hh Hw Hh' Hw' N C x H. destruct (left_ok h w x out child false Hh Hw H) as (z & Hz & ->).
  destruct (C z Hz) as (y & -> & Hy). cbn [bind].
  assert (R : maps (sequential [norm_layer t dn (W 7); act (W 8); upsample2; conv3 dn out (W 9);
                norm_layer t out (W 10); act (W 11); conv3 out out (W 12)]) [b; dn; h'; w'] [b; out; 2 * h'; 2 * w']).
  { eapply maps_cons; [now apply maps_nl|]. eapply maps_cons; [apply maps_act|]. eapply maps_cons; [now apply maps_up|].
    eapply maps_cons; [apply maps_c3; lia|]. eapply maps_cons; [apply maps_nl; eapply nok_mono; [exact N|lia|lia]|]. eapply maps_cons; [apply maps_act|].
    eapply maps_cons; [apply maps_c3; lia|]. apply maps_nil. }
  destruct (R y Hy) as (r & -> & Hr). cbn [bind].
  assert (G : exists x', (if norm_is_identity t then act (W 8) y else Ok y) = Ok x' /\ tshape x' = [b; dn; h'; w']).
  { destruct (norm_is_identity t); [now apply maps_act|now exists y]. }
  destruct G as (x' & -> & Hx'). cbn [bind].
  assert (S1 : maps (sequential ((if dn =? out then [] else [conv1 dn out (W 13)]) ++ [upsample2])) [b; dn; h'; w'] [b; out; 2 * h'; 2 * w']).
  { eapply maps_app.
    - destruct (Nat.eqb_spec dn out) as [->|]; [apply maps_nil|]. eapply maps_cons; [now apply maps_c1|apply maps_nil].
    - eapply maps_cons; [now apply maps_up|apply maps_nil]. }
  destruct (S1 x' Hx') as (s & -> & Hs). cbn [bind].
  destruct (add_ok r s) as (o & -> & Ho); [congruence|]. exists o. split; [reflexivity|congruence].
Qed.
(** The right block refuses another number of channels. *)
Lemma level_mismatch h w out child c h' w' x : 2 <= h -> 2 <= w -> c <> dn -> 1 <= h' -> 1 <= w' ->
  maps child [b; dn; h / 2; w / 2] [b; c; h'; w'] -> tshape x = [b; i; h; w] ->
  exists e, unet_level t W i dn out child top false x = Raise e.
Proof.
  intros Hh Hw N Hh' Hw' C H. destruct (left_ok h w x out child false Hh Hw H) as (z & Hz & ->).
  destruct (C z Hz) as (y & -> & Hy). cbn [bind].
  assert (G : exists e, sequential [norm_layer t dn (W 7); act (W 8); upsample2; conv3 dn out (W 9);
                norm_layer t out (W 10); act (W 11); conv3 out out (W 12)] y = Raise e).
  { assert (F : forall v, tshape v = [b; c; h'; w'] -> exists e, sequential [act (W 8); upsample2; conv3 dn out (W 9);
                norm_layer t out (W 10); act (W 11); conv3 out out (W 12)] v = Raise e).
    { intros v Hv. cbn [sequential]. destruct (maps_act (W 8) _ v Hv) as (v1 & -> & H1). cbn [bind].
      destruct (maps_up b c h' w' Hh' Hw' v1 H1) as (v2 & -> & H2). cbn [bind].
      unfold conv3 at 1, conv at 1. rewrite H2. rewrite (proj2 (Nat.eqb_neq c dn) N). cbn [andb bind]. now eexists. }
    cbn [sequential] in F |- *. destruct (norm_layer t dn (W 7) y) as [v|e] eqn:E; cbn [bind]; [|now exists e].
    apply F. destruct t; cbn [norm_layer] in E.
    - unfold norm in E. rewrite Hy in E. rewrite (proj2 (Nat.eqb_neq c dn) N) in E. discriminate.
    - injection E as <-. exact Hy.
    - rewrite Hy in E. destruct (h' * w' =? 1); [discriminate|]. injection E as <-. reflexivity.
    - injection E as <-. exact Hy. }
  destruct G as (e & ->). now exists e.
Qed.
(** Too small to pool. *)
Lemma level_small h w out child clip x : 1 <= h -> 1 <= w -> h < 2 \/ w < 2 -> tshape x = [b; i; h; w] ->
  exists e, unet_level t W i dn out child top clip x = Raise e.
Proof.
  intros Hh Hw S H. unfold unet_level. cbv zeta.
  assert (G : exists e, left_block x = Raise e).
  { assert (P : forall v c, tshape v = [b; c; h; w] -> exists e, sequential [avg_pool2] v = Raise e).
    { intros v c Hv. cbn [sequential]. unfold avg_pool2. rewrite Hv.
      destruct S as [S|S]; apply Nat.leb_gt in S; rewrite S, ?andb_false_r; cbn [bind]; now eexists. }
    assert (NL : forall c f v, tshape v = [b; c; h; w] -> (exists e, norm_layer t c f v = Raise e) \/ exists v', norm_layer t c f v = Ok v' /\ tshape v' = [b; c; h; w]).
    { intros c f v Hv. destruct t; cbn [norm_layer].
      - right. now apply maps_norm.
      - right. now exists v.
      - rewrite Hv. destruct (h * w =? 1); [left; now eexists|right; eexists; now split].
      - right. now exists v. }
    assert (F : forall v, tshape v = [b; i; h; w] -> exists e, sequential [conv3 i dn (W 2); norm_layer t dn (W 3); act (W 4); conv3 dn dn (W 5); avg_pool2] v = Raise e).
    { intros v Hv. change (exists e, (do y <- conv3 i dn (W 2) v; do y <- norm_layer t dn (W 3) y; do y <- act (W 4) y; do y <- conv3 dn dn (W 5) y; sequential [avg_pool2] y) = Raise e).
      destruct (maps_c3 i dn (W 2) b h w Hh Hw v Hv) as (v1 & -> & H1). cbn [bind].
      destruct (NL dn (W 3) v1 H1) as [(e & ->)|(v2 & -> & H2)]; cbn [bind]; [now exists e|].
      destruct (maps_act (W 4) _ v2 H2) as (v3 & -> & H3). cbn [bind].
      destruct (maps_c3 dn dn (W 5) b h w Hh Hw v3 H3) as (v4 & -> & H4). cbn [bind]. exact (P v4 dn H4). }
    destruct top; [exact (F x H)|]. rewrite sequential_app. cbn [sequential].
    destruct (NL i (W 0) x H) as [(e & ->)|(v & -> & Hv)]; cbn [bind]; [now exists e|].
    destruct (maps_act (W 1) _ v Hv) as (v1 & -> & H1). cbn [bind]. exact (F v1 H1). }
  destruct G as (e & ->). now exists e.
Qed.
Lemma level_child_fails h w out child clip x : 2 <= h -> 2 <= w -> tshape x = [b; i; h; w] ->
  (forall z, tshape z = [b; dn; h / 2; w / 2] -> exists e, child z = Raise e) ->
  exists e, unet_level t W i dn out child top clip x = Raise e.
Proof.
  intros Hh Hw H C. destruct (left_ok h w x out child clip Hh Hw H) as (z & Hz & ->).
  destruct (C z Hz) as (e & ->). now exists e.
Qed.
End Level.

Section Inner.
Variables (t : norm_type) (W : nat -> nat -> vals) (u : Z) (bottom : nat).
Definition clipped (n : nat) : bool := (0 <=? u)%Z && (u <? Z.of_nat n)%Z.
Definition ups (n : nat) : nat := if clipped n then Z.to_nat u else n.
Definition outc (n lastchan : nat) : nat :=
  if (1 <=? u)%Z && (u <=? Z.of_nat n)%Z then 64 else if (u =? 0)%Z then bottom else lastchan.
Definition inner_inv (n lastchan : nat) (clip : bool) (model : net) : Prop :=
  clip = clipped n /\
  (forall b h w, 2 ^ n <= h -> 2 ^ n <= w -> nok t (h / 2 ^ n) (w / 2 ^ n) ->
    maps model [b; lastchan; h; w] [b; outc n lastchan; h / 2 ^ n * 2 ^ ups n; w / 2 ^ n * 2 ^ ups n]) /\
  (forall b h w x, 1 <= h -> 1 <= w -> h < 2 ^ n \/ w < 2 ^ n -> tshape x = [b; lastchan; h; w] -> exists e, model x = Raise e).

Lemma inner_step n lastchan clip model chan : inner_inv n lastchan clip model ->
  let clip' := if (Z.of_nat n =? u)%Z then true else clip in
  let out := if (Z.of_nat n =? u - 1)%Z then 64 else chan in
  inner_inv (n + 1) chan clip' (unet_level t (W (n + 1)) chan lastchan out model false clip').
Proof.
  intros (C & M & F). cbv zeta.
  assert (C' : (if (Z.of_nat n =? u)%Z then true else clip) = clipped (n + 1)).
  { rewrite C. unfold clipped. destruct (Z.eqb_spec (Z.of_nat n) u); lia. }
  rewrite C'. assert (P : 1 <= 2 ^ n) by (pose proof (Nat.pow_nonzero 2 n); lia).
  assert (E2 : 2 ^ (n + 1) = 2 * 2 ^ n) by (rewrite Nat.add_1_r; reflexivity).
  split; [reflexivity|]. split.
  - intros b h w Hh Hw N. rewrite E2 in Hh, Hw.
    assert (D : forall q, q / 2 ^ (n + 1) = q / 2 / 2 ^ n) by (intro q; rewrite E2, Nat.div_div by lia; reflexivity).
    assert (Hh2 : 2 ^ n <= h / 2) by (apply Nat.div_le_lower_bound; lia).
    assert (Hw2 : 2 ^ n <= w / 2) by (apply Nat.div_le_lower_bound; lia).
    rewrite !D in N |- *. specialize (M b (h / 2) (w / 2) Hh2 Hw2 N).
    destruct (clipped (n + 1)) eqn:CL.
    + assert (UE : ups (n + 1) = ups n) by (unfold ups; rewrite CL; unfold clipped in *; destruct ((0 <=? u)%Z && (u <? Z.of_nat n)%Z) eqn:X; lia).
      assert (OE : outc (n + 1) chan = outc n lastchan).
      { unfold outc. unfold clipped in CL. destruct (Z.eqb_spec u 0).
        - replace (1 <=? u)%Z with false by lia. reflexivity.
        - replace (u <=? Z.of_nat n)%Z with true by lia. replace (u <=? Z.of_nat (n + 1))%Z with true by lia. replace (1 <=? u)%Z with true by lia. reflexivity. }
      rewrite UE, OE. apply level_clipped; [lia|lia|exact M].
    + assert (UE : ups (n + 1) = n + 1 /\ ups n = n) by (unfold ups; rewrite CL; unfold clipped in *; destruct ((0 <=? u)%Z && (u <? Z.of_nat n)%Z) eqn:X; lia).
      destruct UE as [UE1 UE2]. rewrite UE1. rewrite UE2 in M.
      assert (OE : outc n lastchan = lastchan).
      { unfold outc, clipped in *. destruct (Z.eqb_spec u 0); [lia|]. now replace ((1 <=? u)%Z && (u <=? Z.of_nat n)%Z) with false by lia. }
      rewrite OE in M. rewrite E2.
      assert (Ph : 1 <= h / 2 / 2 ^ n) by (apply Nat.div_le_lower_bound; lia).
      assert (Pw : 1 <= w / 2 / 2 ^ n) by (apply Nat.div_le_lower_bound; lia).
      set (a := h / 2 / 2 ^ n) in *. set (c := w / 2 / 2 ^ n) in *.
      replace (a * (2 * 2 ^ n)) with (2 * (a * 2 ^ n)) by lia. replace (c * (2 * 2 ^ n)) with (2 * (c * 2 ^ n)) by lia.
      assert (OO : outc (n + 1) chan = if (Z.of_nat n =? u - 1)%Z then 64 else chan).
      { unfold outc, clipped in *. destruct (Z.eqb_spec (Z.of_nat n) (u - 1)).
        - now replace ((1 <=? u)%Z && (u <=? Z.of_nat (n + 1))%Z) with true by lia.
        - replace ((1 <=? u)%Z && (u <=? Z.of_nat (n + 1))%Z) with false by lia. now replace (u =? 0)%Z with false by lia. }
      rewrite OO. apply level_open; [lia|lia|nia|nia| |exact M]. eapply nok_mono; [exact N|nia|nia].
  - intros b h w x Hh Hw S H. rewrite E2 in S.
    destruct (le_lt_dec 2 h) as [A|A]; [destruct (le_lt_dec 2 w) as [B|B]|].
    + apply (level_child_fails t (W (n + 1)) b chan lastchan false h w _ model _ x A B H). intros z Hz.
      apply (F b (h / 2) (w / 2) z); [dlia|dlia| |exact Hz].
      destruct S as [S|S]; [left|right]; apply Nat.div_lt_upper_bound; lia.
    + apply (level_small t (W (n + 1)) b chan lastchan false h w _ model _ x Hh Hw ltac:(lia) H).
    + apply (level_small t (W (n + 1)) b chan lastchan false h w _ model _ x Hh Hw ltac:(lia) H).
Qed.
Lemma inner_all chans : forall n lastchan clip model, inner_inv n lastchan clip model ->
  exists model', unet_inner t W u n lastchan clip model chans = (model', last chans lastchan, clipped (n + length chans)) /\
    inner_inv (n + length chans) (last chans lastchan) (clipped (n + length chans)) model'.
Proof.
  induction chans as [|c chans IH]; intros n lastchan clip model I.
  - cbn [unet_inner last length]. rewrite Nat.add_0_r. exists model. destruct I as (C & I). subst clip. split; [reflexivity|]. now split.
  - cbn [unet_inner]. apply (inner_step n lastchan clip model c) in I. cbv zeta in I.
    destruct (IH _ _ _ _ I) as (m' & E & I').
    assert (LC : last (c :: chans) lastchan = last chans c).
    { clear. destruct chans as [|d l]; [reflexivity|]. change (last (d :: l) lastchan = last (d :: l) c). revert d. induction l as [|a l IH]; intro d; [reflexivity|]. apply IH. }
    rewrite LC. cbn [length]. replace (n + S (length chans)) with (n + 1 + length chans) by lia. exists m'. split; [exact E|exact I'].
Qed.
Lemma inner_start : inner_inv 0 bottom false (fun x => Ok x).
Proof.
  split; [unfold clipped; lia|]. split.
  - intros b h w _ _ _ x H. exists x. split; [reflexivity|]. cbn [Nat.pow]. rewrite !Nat.div_1_r.
    assert (ups 0 = 0) as -> by (unfold ups, clipped; destruct ((0 <=? u)%Z && _) eqn:X; lia).
    assert (outc 0 bottom = bottom) as -> by (unfold outc; replace ((1 <=? u)%Z && (u <=? Z.of_nat 0)%Z) with false by lia; now destruct (u =? 0)%Z).
    cbn [Nat.pow]. now rewrite !Nat.mul_1_r.
  - intros b h w x A B C. cbn in C. lia.
Qed.
End Inner.

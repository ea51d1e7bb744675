(** C25, C26: the patcher of the VCT entropy model. *)
From Coq Require Import Arith List Lia Bool Reals.
From Verif Require Import Base Tensor Patch_Model Patch_Spec Patch_Proofs.
Import ListNotations.
Open Scope nat_scope.

Lemma fill_ceil s n : 1 <= s -> fill_of s n (ceil_div n s * s - n).
Proof.
  intro H. pose proof (ceil_div_spec n s H). split; [lia|]. exists (ceil_div n s). lia.
Qed.
Lemma fill_unique s n f g : 1 <= s -> fill_of s n f -> fill_of s n g -> f = g.
Proof.
  intros Hs [A [j Hj]] [B [k Hk]].
  destruct (Nat.lt_trichotomy j k) as [L|[E|L]]; [|subst; lia|]; exfalso.
  - assert ((j + 1) * s <= k * s) by (apply Nat.mul_le_mono_r; lia). lia.
  - assert ((k + 1) * s <= j * s) by (apply Nat.mul_le_mono_r; lia). lia.
Qed.
Lemma blocks_ceil s n : 1 <= s -> blocks s n (ceil_div n s).
Proof. intro H. apply ceil_div_spec. exact H. Qed.

Lemma pad_ok_iff mode n l r : pad_ok mode n l r = true <-> extendable mode n l r.
Proof.
  unfold pad_ok, extendable. destruct mode; try rewrite !andb_true_iff;
    rewrite ?Nat.ltb_lt, ?Nat.leb_le; tauto.
Qed.
Lemma paddable_iff mode s p h w : 1 <= s ->
  paddable mode s ((p - s) / 2) h w <-> pads_ok mode s p h w = true.
Proof.
  intro Hs. unfold pads_ok. rewrite andb_true_iff, !pad_ok_iff. split.
  - intros (fh & fw & A & B & C & D).
    rewrite (fill_unique s h fh _ Hs A (fill_ceil s h Hs)) in C.
    rewrite (fill_unique s w fw _ Hs B (fill_ceil s w Hs)) in D. auto.
  - intros [A B]. exists (ceil_div h s * s - h), (ceil_div w s * s - w). auto using fill_ceil.
Qed.

(** ** C25 *)
(** Splitting an image into windows (patch_size = stride) and joining them again gives
    the image, for all sizes that the padding mode can extend to multiples of the stride. *)
Theorem patch_round_trip : forall mode s (x : tensor R) b c h w,
  1 <= s -> 1 <= c -> 1 <= h -> 1 <= w ->
  tshape x = [b; c; h; w] -> paddable mode s 0 h w ->
  exists p y, forward s mode x s = Ok p /\ unpatch s p (Some (h, w)) true = Ok y /\ teq y x.
Proof.
  intros mode s x b c h w Hs Hc Hh Hw S P. apply (round_trip mode s x b c h w Hs Hc Hh Hw S).
  apply paddable_iff; [exact Hs|]. now rewrite Nat.sub_diag.
Qed.
Print Assumptions patch_round_trip.

(** With channels second ([channels_last] false) joining needs the transposed patches. *)
Theorem patch_round_trip_channels_first : forall mode s (x : tensor R) b c h w,
  1 <= s -> 1 <= c -> 1 <= h -> 1 <= w ->
  tshape x = [b; c; h; w] -> paddable mode s 0 h w ->
  exists p n y, forward s mode x s = Ok (p, n) /\
    unpatch s (permute p [0; 2; 1], n) (Some (h, w)) false = Ok y /\ teq y x.
Proof.
  intros mode s x b c h w Hs Hc Hh Hw S P.
  destruct (patch_round_trip mode s x b c h w Hs Hc Hh Hw S P) as ([p n] & y & E1 & E2 & E3).
  exists p, n.
  destruct (forward_ok mode s x s b c h w Hs (le_n s) ltac:(exists 0; lia) S Hh Hw
    (proj1 (paddable_iff mode s s h w Hs) ltac:(now rewrite Nat.sub_diag))) as (p' & E & Sp & V).
  rewrite E in E1. injection E1 as <- <-. 
  set (nh := ceil_div h s) in *. set (nw := ceil_div w s) in *.
  set (q := permute (permute p' [0; 2; 1]) [0; 2; 1]).
  assert (Sq : tshape q = [b * nh * nw; s * s; c]) by (unfold q; cbn [tshape permute map]; rewrite Sp; reflexivity).
  pose proof (ceil_div_pos h s Hs Hh) as NH. pose proof (ceil_div_pos w s Hs Hw) as NW.
  destruct (unpatch_ok s q b c nh nw Hs Hc NH NW Sq) as (z & _ & _ & EU & VU).
  destruct (unpatch_ok s p' b c nh nw Hs Hc NH NW Sp) as (z' & _ & _ & EU' & VU').
  rewrite EU' in E2. injection E2 as <-. eexists. split; [exact E|]. split.
  { unfold unpatch in EU |- *. fold q. apply EU. }
  destruct E3 as [T1 T2]. split; [exact T1|]. cbn [tshape tat] in *. intros idx I.
  rewrite <- (T2 idx I).
  destruct idx as [|bi [|ci [|y0 [|x0 [|? ?]]]]]; try (cbn in I; tauto).
  cbn [inb] in I. destruct I as (I1 & I2 & I3 & I4 & _).
  pose proof (Nat.div_mod y0 s ltac:(lia)) as DY. pose proof (Nat.mod_upper_bound y0 s ltac:(lia)) as MY.
  pose proof (Nat.div_mod x0 s ltac:(lia)) as DX. pose proof (Nat.mod_upper_bound x0 s ltac:(lia)) as MX.
  set (i := y0 / s) in *. set (u := y0 mod s) in *. set (j := x0 / s) in *. set (v := x0 mod s) in *.
  assert (i < nh) by nia. assert (j < nw) by nia.
  replace y0 with (i * s + u) by lia. replace x0 with (j * s + v) by lia.
  rewrite VU, VU' by assumption. reflexivity.
Qed.
Print Assumptions patch_round_trip_channels_first.

(** Exactly which sizes can be split, for every window. *)
Theorem patch_forward_succeeds_iff : forall mode s p (x : tensor R) b c h w,
  1 <= s -> 1 <= h -> 1 <= w -> tshape x = [b; c; h; w] ->
  (exists r, forward s mode x p = Ok r) <->
  s <= p /\ Nat.Even (p - s) /\ paddable mode s ((p - s) / 2) h w.
Proof.
  intros mode s p x b c h w Hs Hh Hw S. destruct (forward_err mode s x p b c h w S) as (A & B & C). split.
  - intros [r E]. destruct (le_lt_dec s p) as [L|L]; [|rewrite A in E by exact L; discriminate].
    destruct (Nat.Even_or_Odd (p - s)) as [EV|OD].
    + split; [exact L|]. split; [exact EV|]. apply paddable_iff; [exact Hs|].
      destruct (pads_ok mode s p h w) eqn:PO; [reflexivity|]. rewrite C in E by auto. discriminate.
    + rewrite B in E; [discriminate|exact L|]. intro EV. exact (Nat.Even_Odd_False _ EV OD).
  - intros (L & EV & P). apply paddable_iff in P; [|exact Hs].
    destruct (forward_ok mode s x p b c h w Hs L EV S Hh Hw P) as (y & E & _). eauto.
Qed.
Print Assumptions patch_forward_succeeds_iff.

(** With reflection, the mode used by the entropy model, not every size can be split: the
    default windows (4 for the target, 8 for the context) refuse height 5, and window 4
    refuses height 1. *)
Theorem patch_reflect_refuted :
  exists x : tensor R, tshape x = [1; 1; 5; 16] /\
    (exists p, forward 4 Reflect x 4 = Ok p) /\ forward 4 Reflect x 8 = Raise RuntimeError /\
  exists z : tensor R, tshape z = [1; 1; 1; 16] /\ forward 4 Reflect z 4 = Raise RuntimeError.
Proof.
  exists (mkT [1; 1; 5; 16] (fun _ => 0%R)). split; [reflexivity|]. split; [eexists; reflexivity|].
  split; [reflexivity|]. exists (mkT [1; 1; 1; 16] (fun _ => 0%R)). split; reflexivity.
Qed.
Print Assumptions patch_reflect_refuted.

(** The entropy model's defaults accept a latent iff neither side is 1, 2, 3 or 5
    (window 8 needs the margin 2 and the fill to be smaller than the side). *)
Theorem patch_reflect_default_sizes : forall (x : tensor R) b c h w,
  1 <= h -> 1 <= w -> tshape x = [b; c; h; w] ->
  (exists p q, forward 4 Reflect x 4 = Ok p /\ forward 4 Reflect x 8 = Ok q) <->
  ~ In h [1; 2; 3; 5] /\ ~ In w [1; 2; 3; 5].
Proof.
  intros x b c h w Hh Hw S.
  assert (K : forall n, 1 <= n -> (exists f, fill_of 4 n f /\ extendable Reflect n 2 (f + 2)) <-> ~ In n [1; 2; 3; 5]).
  { intros n Hn. split.
    - intros (f & [F [k Hk]] & E1 & E2) I. cbn in I.
      destruct I as [<-|[<-|[<-|[<-|[]]]]]; lia.
    - intro I. exists (ceil_div n 4 * 4 - n). split; [apply fill_ceil; lia|].
      pose proof (ceil_div_spec n 4 ltac:(lia)). cbn [In] in I. unfold extendable.
      destruct (le_lt_dec 6 n); [lia|]. assert (n = 4) by lia. subst n. cbn. lia. }
  assert (Q : (exists q, forward 4 Reflect x 8 = Ok q) <-> ~ In h [1; 2; 3; 5] /\ ~ In w [1; 2; 3; 5]).
  { rewrite (patch_forward_succeeds_iff Reflect 4 8 x b c h w ltac:(lia) Hh Hw S). change ((8 - 4) / 2) with 2.
    unfold paddable. split.
    - intros (_ & _ & fh & fw & A & B & C & D). split; apply K; eauto.
    - intros [A B]. apply K in A; [|exact Hh]. apply K in B; [|exact Hw].
      destruct A as (fh & A1 & A2), B as (fw & B1 & B2).
      split; [lia|]. split; [exists 2; reflexivity|]. exists fh, fw. auto. }
  split.
  - intros (p & q & _ & E). apply Q. eauto.
  - intro G. destruct (proj2 Q G) as [q E].
    assert (P : exists p, forward 4 Reflect x 4 = Ok p); [|destruct P as [p P]; eauto].
    apply (patch_forward_succeeds_iff Reflect 4 4 x b c h w ltac:(lia) Hh Hw S).
    split; [lia|]. split; [exists 0; reflexivity|]. change ((4 - 4) / 2) with 0. destruct G as [A B].
    apply K in A; [|exact Hh]. apply K in B; [|exact Hw].
    destruct A as (fh & A1 & A2), B as (fw & B1 & B2). exists fh, fw. cbn in *. split; [exact A1|]. split; [exact B1|]. lia.
Qed.
Print Assumptions patch_reflect_default_sizes.

(** ** C26 *)
(** The context patches (window s + 2m) and the target patches (window s) of one image
    agree in number and order; the middle of each context patch is the target patch, and
    the context patch shows the image around it. *)
Theorem patch_windows_aligned : forall mode s m (x : tensor R) b c h w,
  1 <= s -> 1 <= h -> 1 <= w -> tshape x = [b; c; h; w] -> paddable mode s m h w ->
  exists ctx tgt nh nw,
    forward s mode x (s + 2 * m) = Ok (ctx, (nh, nw)) /\ forward s mode x s = Ok (tgt, (nh, nw)) /\
    blocks s h nh /\ blocks s w nw /\
    tshape ctx = [b * nh * nw; (s + 2 * m) * (s + 2 * m); c] /\ tshape tgt = [b * nh * nw; s * s; c] /\
    (forall bi ci i j u v, bi < b -> ci < c -> i < nh -> j < nw -> u < s -> v < s ->
       let n := (bi * nh + i) * nw + j in
       tat ctx [n; (u + m) * (s + 2 * m) + (v + m); ci] = tat tgt [n; u * s + v; ci]) /\
    (forall bi ci i j u v y0 x0, bi < b -> ci < c -> i < nh -> j < nw -> u < s + 2 * m -> v < s + 2 * m ->
       y0 < h -> x0 < w -> i * s + u = y0 + m -> j * s + v = x0 + m ->
       tat ctx [(bi * nh + i) * nw + j; u * (s + 2 * m) + v; ci] = tat x [bi; ci; y0; x0]).
Proof.
  intros mode s m x b c h w Hs Hh Hw S P.
  assert (M : (s + 2 * m - s) / 2 = m).
  { replace (s + 2 * m - s) with (m * 2) by lia. apply Nat.div_mul. lia. }
  assert (P1 : pads_ok mode s (s + 2 * m) h w = true) by (apply paddable_iff; [exact Hs|]; now rewrite M).
  assert (P2 : pads_ok mode s s h w = true).
  { apply paddable_iff; [exact Hs|]. rewrite Nat.sub_diag. change (0 / 2) with 0.
    destruct P as (fh & fw & A & B & C & D). exists fh, fw. split; [exact A|]. split; [exact B|].
    destruct mode; cbn in *; lia. }
  destruct (forward_ok mode s x (s + 2 * m) b c h w Hs ltac:(lia) ltac:(exists m; lia) S Hh Hw P1) as (ctx & E1 & S1 & V1).
  destruct (forward_ok mode s x s b c h w Hs (le_n s) ltac:(exists 0; lia) S Hh Hw P2) as (tgt & E2 & S2 & V2).
  exists ctx, tgt, (ceil_div h s), (ceil_div w s). rewrite M in V1. rewrite Nat.sub_diag in V2. change (0 / 2) with 0 in V2.
  repeat (split; [first [assumption|apply blocks_ceil; exact Hs]|]). split.
  - intros bi ci i j u v Hb Hc Hi Hj Hu Hv n. unfold n. rewrite V1, V2 by lia. unfold padded.
    assert (PS : forall d k, pad_src mode d m (k + m) = pad_src mode d 0 k).
    { intros d k. unfold pad_src. rewrite (proj2 (Nat.ltb_ge _ _)) by lia. change (k <? 0) with false. cbn match.
      rewrite Nat.add_sub, Nat.sub_0_r. reflexivity. }
    rewrite !Nat.add_assoc, !PS. reflexivity.
  - intros bi ci i j u v y0 x0 Hb Hc Hi Hj Hu Hv Hy Hx EY EX. rewrite V1 by lia. unfold padded. rewrite EY, EX.
    assert (PS : forall d k, k < d -> pad_src mode d m (k + m) = Some k).
    { intros d k L. unfold pad_src. rewrite (proj2 (Nat.ltb_ge _ _)) by lia. rewrite Nat.add_sub.
      now rewrite (proj2 (Nat.ltb_lt _ _)) by exact L. }
    rewrite !PS by assumption. reflexivity.
Qed.
Print Assumptions patch_windows_aligned.

(** The hypotheses hold for the model's defaults on a 6 x 7 latent. *)
Example patch_paddable_ex : paddable Reflect 4 2 6 7 /\ paddable Reflect 4 0 6 7.
Proof.
  split; exists 2, 1; (split; [split; [lia|exists 2; lia]|]); (split; [split; [lia|exists 2; lia]|]); cbn; lia.
Qed.

(** Patches that are not of the patcher's size are refused. *)
Theorem unpatch_wrong_size : forall s (x : tensor R) n b q c crp,
  tshape x = [b; q; c] -> q <> s * s -> unpatch s (x, n) crp true = Raise AssertionError.
Proof.
  intros s x [nh nw] b q c crp E D. unfold unpatch. rewrite E. apply Nat.eqb_neq in D. now rewrite D.
Qed.
Print Assumptions unpatch_wrong_size.
Example unpatch_wrong_size_instance : unpatch 4 (mkT [1; 64; 3] (fun _ => 1%R), (1, 1)) None true = Raise AssertionError.
Proof. apply (unpatch_wrong_size 4 _ _ 1 64 3); [reflexivity|discriminate]. Qed.

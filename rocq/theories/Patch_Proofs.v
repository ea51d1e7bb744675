(** Lemmas for the patcher. *)
From Coq Require Import Arith List Lia Bool Reals.
From Verif Require Import Base Tensor Patch_Model.
Import ListNotations.
Open Scope nat_scope.

Lemma ceil_div_spec a s : 1 <= s -> a <= ceil_div a s * s < a + s.
Proof.
  intro H. unfold ceil_div. pose proof (Nat.div_mod (a + s - 1) s ltac:(lia)) as D.
  pose proof (Nat.mod_upper_bound (a + s - 1) s ltac:(lia)). nia.
Qed.
Lemma ceil_div_pos a s : 1 <= s -> 1 <= a -> 1 <= ceil_div a s.
Proof. intros H A. pose proof (ceil_div_spec a s H). nia. Qed.

(** Values of patches: entry [u], [v] of the patch in row [i] and column [j]. *)
Definition patch_val {A} (xp : tensor A) (s nh nw : nat) (p : tensor A) (patch_size : nat) : Prop :=
  forall b c i j u v bn cn, tshape xp = [bn; cn; (nh - 1) * s + patch_size; (nw - 1) * s + patch_size] ->
    b < bn -> c < cn -> i < nh -> j < nw -> u < patch_size -> v < patch_size ->
    tat p [(b * nh + i) * nw + j; u * patch_size + v; c] = tat xp [b; c; i * s + u; j * s + v].

Lemma window_partition_ok (x : tensor R) b c nh nw p : 1 <= p -> tshape x = [b; c; nh * p; nw * p] ->
  exists y, window_partition x p = Ok y /\ tshape y = [b * nh * nw; p * p; c] /\
  forall bi ci i j u v, bi < b -> ci < c -> i < nh -> j < nw -> u < p -> v < p ->
    tat y [(bi * nh + i) * nw + j; u * p + v; ci] = tat x [bi; ci; i * p + u; j * p + v].
Proof.
  intros P S. unfold window_partition. rewrite S. rewrite (proj2 (Nat.eqb_neq p 0)) by lia.
  rewrite !Nat.mod_mul, !Nat.div_mul by lia. cbn [Nat.eqb negb orb].
  destruct (reshape_ok x [b; c; nh; p; nw; p]) as (y & E1 & S1 & V1). { rewrite S. cbn. ring. }
  rewrite E1. cbn [bind].
  destruct (reshape_ok (permute y [0; 2; 4; 3; 5; 1]) [b * nh * nw; p * p; c]) as (z & E2 & S2 & V2).
  { cbn [tshape permute map]. rewrite S1. cbn. ring. }
  exists z. split; [exact E2|]. split; [exact S2|]. intros bi ci i j u v Hb Hc Hi Hj Hu Hv.
  rewrite (V2 _ [bi; i; j; u; v; ci]).
  - cbn [tat permute map seq length pos nth Nat.eqb]. apply V1.
    + rewrite S. cbn [inb]. repeat split; nia.
    + rewrite S. cbn [ravel prod fold_right]. ring.
  - cbn [tshape permute map]. rewrite S1. cbn [nth inb]. repeat split; assumption.
  - cbn [tshape permute map]. rewrite S1. cbn [nth ravel prod fold_right]. ring.
Qed.

Lemma identity_kernel p c : exists k, reshape (eye (p * p * c)) [c * (p * p); c; p; p] = Ok k /\
  tshape k = [c * (p * p); c; p; p] /\
  forall o ci u v, o < c * (p * p) -> ci < c -> u < p -> v < p ->
    tat k [o; ci; u; v] = if o =? (ci * p + u) * p + v then 1%R else 0%R.
Proof.
  destruct (reshape_ok (eye (p * p * c)) [c * (p * p); c; p; p]) as (k & E & S & V).
  { cbn. ring. }
  exists k. split; [exact E|]. split; [exact S|]. intros o ci u v Ho Hc Hu Hv.
  rewrite (V _ [o; (ci * p + u) * p + v]); [reflexivity| |].
  - cbn [tshape eye inb].
    assert (ci * p + u < c * p) by nia. assert ((ci * p + u) * p + v < c * p * p) by nia. repeat split; nia.
  - cbn [tshape eye ravel prod fold_right]. ring.
Qed.

Lemma div_mod_unique3 p c ci u v c' u' v' : ci < c -> u < p -> v < p -> c' < c -> u' < p -> v' < p ->
  (ci * p + u) * p + v = (c' * p + u') * p + v' -> ci = c' /\ u = u' /\ v = v'.
Proof.
  intros A B C A' B' C' E.
  destruct (Nat.div_mod_unique p (ci * p + u) (c' * p + u') v v' C C' ltac:(lia)) as [E1 E2].
  destruct (Nat.div_mod_unique p ci c' u u' B B' ltac:(lia)) as [E3 E4]. auto.
Qed.

Lemma window_conv_ok (x : tensor R) b c nh nw s p : 1 <= s -> 1 <= nh -> 1 <= nw ->
  tshape x = [b; c; (nh - 1) * s + p; (nw - 1) * s + p] ->
  exists y, window_partition_conv2d s x p = Ok y /\ tshape y = [b * nh * nw; p * p; c] /\
  forall bi ci i j u v, bi < b -> ci < c -> i < nh -> j < nw -> u < p -> v < p ->
    tat y [(bi * nh + i) * nw + j; u * p + v; ci] = tat x [bi; ci; i * s + u; j * s + v].
Proof.
  intros Hs Hh Hw S. unfold window_partition_conv2d. rewrite S.
  destruct (identity_kernel p c) as (k & E1 & S1 & V1). rewrite E1. cbn [bind].
  unfold conv2d. rewrite S, S1, Nat.eqb_refl.
  rewrite (proj2 (Nat.leb_le p ((nh - 1) * s + p))) by apply Nat.le_add_l.
  rewrite (proj2 (Nat.leb_le p ((nw - 1) * s + p))) by apply Nat.le_add_l.
  rewrite (proj2 (Nat.leb_le 1 s)) by exact Hs. cbn [andb bind tshape].
  rewrite !Nat.add_sub, !Nat.div_mul by lia. rewrite !Nat.sub_add by assumption.
  match goal with |- context [reshape (mkT ?sh ?f) _] => set (t := mkT sh f) end.
  destruct (reshape_ok t [b; c; p * p; nh; nw]) as (y & E2 & S2 & V2). { cbn. ring. }
  rewrite E2. cbn [bind].
  destruct (reshape_ok (permute y [0; 3; 4; 2; 1]) [b * nh * nw; p * p; c]) as (z & E3 & S3 & V3).
  { cbn [tshape permute map]. rewrite S2. cbn. ring. }
  exists z. split; [exact E3|]. split; [exact S3|]. intros bi ci i j u v Hb Hc Hi Hj Hu Hv.
  assert (Q : u * p + v < p * p) by nia.
  rewrite (V3 _ [bi; i; j; u * p + v; ci]).
  - cbn [tat permute map seq length pos nth Nat.eqb].
    assert (O : ci * (p * p) + (u * p + v) < c * (p * p)) by nia.
    rewrite (V2 _ [bi; ci * (p * p) + (u * p + v); i; j]).
    + subst t. cbn [tat].
      rewrite (rsum_single c _ ci Hc) by
        (intros c' Hc' NE; apply rsum_zero; intros u' Hu'; apply rsum_zero; intros v' Hv';
         rewrite V1 by assumption; rewrite (proj2 (Nat.eqb_neq _ _)); [apply Rmult_0_r|];
         intro X; destruct (div_mod_unique3 p c ci u v c' u' v' Hc Hu Hv Hc' Hu' Hv' ltac:(lia)); congruence).
      rewrite (rsum_single p _ u Hu) by
        (intros u' Hu' NE; apply rsum_zero; intros v' Hv';
         rewrite V1 by assumption; rewrite (proj2 (Nat.eqb_neq _ _)); [apply Rmult_0_r|];
         intro X; destruct (div_mod_unique3 p c ci u v ci u' v' Hc Hu Hv Hc Hu' Hv' ltac:(lia)) as (_ & ? & _); congruence).
      rewrite (rsum_single p _ v Hv) by
        (intros v' Hv' NE;
         rewrite V1 by assumption; rewrite (proj2 (Nat.eqb_neq _ _)); [apply Rmult_0_r|];
         intro X; destruct (div_mod_unique3 p c ci u v ci u v' Hc Hu Hv Hc Hu Hv' ltac:(lia)) as (_ & _ & ?); congruence).
      rewrite V1 by assumption. rewrite (proj2 (Nat.eqb_eq _ _)) by ring. apply Rmult_1_r.
    + cbn [tshape t inb]. repeat split; assumption.
    + subst t. cbn [tshape ravel prod fold_right]. ring.
  - cbn [tshape permute map]. rewrite S2. cbn [nth inb]. repeat split; assumption.
  - cbn [tshape permute map]. rewrite S2. cbn [nth ravel prod fold_right]. ring.
Qed.

Definition pads_ok (mode : pad_mode) (s p h w : nat) : bool :=
  let m := (p - s) / 2 in
  pad_ok mode w m (ceil_div w s * s - w + m) && pad_ok mode h m (ceil_div h s * s - h + m).

(** Value of the padded image. *)
Definition padded (mode : pad_mode) (x : tensor R) (h w m bi ci y0 x0 : nat) : R :=
  match pad_src mode h m y0, pad_src mode w m x0 with
  | Some y', Some x' => tat x [bi; ci; y'; x']
  | _, _ => 0%R
  end.

Lemma forward_ok mode s x p b c h w : 1 <= s -> s <= p -> Nat.Even (p - s) -> tshape x = [b; c; h; w] ->
  1 <= h -> 1 <= w -> pads_ok mode s p h w = true ->
  exists y, forward s mode x p = Ok (y, (ceil_div h s, ceil_div w s)) /\
    tshape y = [b * ceil_div h s * ceil_div w s; p * p; c] /\
    forall bi ci i j u v, bi < b -> ci < c -> i < ceil_div h s -> j < ceil_div w s -> u < p -> v < p ->
      tat y [(bi * ceil_div h s + i) * ceil_div w s + j; u * p + v; ci] =
      padded mode x h w ((p - s) / 2) bi ci (i * s + u) (j * s + v).
Proof.
  intros Hs Hp [m Hm] S Hh Hw PO. unfold forward, p_pad. rewrite S.
  rewrite (proj2 (Nat.ltb_ge _ _)) by exact Hp. unfold pads_ok in PO.
  assert (M : (p - s) / 2 = m) by (rewrite Hm, Nat.mul_comm; apply Nat.div_mul; lia).
  assert (M2 : (p - s) mod 2 = 0) by (rewrite Hm, Nat.mul_comm; apply Nat.mod_mul; lia).
  rewrite M in *. rewrite M2. cbn [Nat.eqb negb]. rewrite (proj2 (Nat.eqb_neq s 0)) by lia.
  unfold pad2. rewrite S, PO. cbn [bind].
  rewrite !Nat.div_mul by lia.
  pose proof (ceil_div_spec h s Hs) as CH. pose proof (ceil_div_spec w s Hs) as CW.
  pose proof (ceil_div_pos h s Hs Hh) as NH. pose proof (ceil_div_pos w s Hs Hw) as NW.
  set (nh := ceil_div h s) in *. set (nw := ceil_div w s) in *.
  match goal with |- context [mkT ?sh ?f] => set (t := mkT sh f) end.
  destruct (Nat.eqb_spec p s) as [E|E].
  - subst p. assert (m = 0) by lia. subst m.
    assert (St : tshape t = [b; c; nh * s; nw * s]).
    { subst t. cbn [tshape]. do 2 f_equal. f_equal; [lia|]. f_equal. lia. }
    destruct (window_partition_ok t b c nh nw s Hs St) as (y & E1 & S1 & V1).
    rewrite E1. cbn [bind]. exists y. split; [reflexivity|]. split; [exact S1|].
    intros. rewrite V1 by assumption. reflexivity.
  - assert (St : tshape t = [b; c; (nh - 1) * s + p; (nw - 1) * s + p]).
    { subst t. cbn [tshape].
      assert (nh * s = (nh - 1) * s + s) by nia. assert (nw * s = (nw - 1) * s + s) by nia.
      do 2 f_equal. f_equal; [lia|]. f_equal. lia. }
    destruct (window_conv_ok t b c nh nw s p Hs NH NW St) as (y & E1 & S1 & V1).
    rewrite E1. cbn [bind]. exists y. split; [reflexivity|]. split; [exact S1|].
    intros. rewrite V1 by assumption. reflexivity.
Qed.

(** When it fails. *)
Lemma forward_err mode s x p b c h w : tshape x = [b; c; h; w] ->
  (p < s -> forward s mode x p = Raise ValueError) /\
  (s <= p -> ~ Nat.Even (p - s) -> forward s mode x p = Raise ValueError) /\
  (1 <= s -> s <= p -> Nat.Even (p - s) -> pads_ok mode s p h w = false -> forward s mode x p = Raise RuntimeError).
Proof.
  intro S. unfold forward, p_pad. rewrite S. split; [|split].
  - intro H. rewrite (proj2 (Nat.ltb_lt _ _)) by exact H. reflexivity.
  - intros H O. rewrite (proj2 (Nat.ltb_ge _ _)) by exact H.
    destruct (Nat.eqb_spec ((p - s) mod 2) 0) as [E|E]; [|reflexivity]. exfalso. apply O.
    exists ((p - s) / 2). pose proof (Nat.div_mod (p - s) 2 ltac:(lia)). lia.
  - intros Hs Hp [m Hm] PO. rewrite (proj2 (Nat.ltb_ge _ _)) by exact Hp.
    assert (M2 : (p - s) mod 2 = 0) by (rewrite Hm, Nat.mul_comm; apply Nat.mod_mul; lia).
    rewrite M2. cbn [Nat.eqb negb]. rewrite (proj2 (Nat.eqb_neq s 0)) by lia.
    unfold pad2. rewrite S. unfold pads_ok in PO. rewrite PO. reflexivity.
Qed.

Lemma unpatch_ok s (y : tensor R) b c nh nw : 1 <= s -> 1 <= c -> 1 <= nh -> 1 <= nw ->
  tshape y = [b * nh * nw; s * s; c] ->
  exists z, unpatch s (y, (nh, nw)) None true = Ok z /\ tshape z = [b; c; nh * s; nw * s] /\
    (forall h w, unpatch s (y, (nh, nw)) (Some (h, w)) true =
       Ok (mkT [b; c; Nat.min h (nh * s); Nat.min w (nw * s)] (tat z))) /\
    forall bi ci i j u v, bi < b -> ci < c -> i < nh -> j < nw -> u < s -> v < s ->
      tat z [bi; ci; i * s + u; j * s + v] = tat y [(bi * nh + i) * nw + j; u * s + v; ci].
Proof.
  intros Hs Hc Hh Hw S. unfold unpatch. rewrite S, Nat.eqb_refl. cbn [negb].
  destruct (reshape_infer_ok y b [nh; nw; s; s; c]) as (y1 & E1 & S1 & V1).
  { rewrite S. cbn. ring. }
  { cbn. assert (1 <= s * (s * (c * 1))) by nia. nia. }
  rewrite E1. cbn [bind].
  destruct (reshape_infer_ok (permute y1 [0; 5; 1; 3; 2; 4]) b [c; nh * s; nw * s]) as (z & E2 & S2 & V2).
  { cbn [tshape permute map]. rewrite S1. cbn. ring. }
  { cbn. assert (1 <= nh * s) by nia. assert (1 <= nw * s) by nia. nia. }
  rewrite E2. cbn [bind]. exists z. split; [reflexivity|]. split; [exact S2|]. split.
  { intros h w. unfold crop. rewrite S2. reflexivity. }
  intros bi ci i j u v Hb Hci Hi Hj Hu Hv. rewrite (V2 _ [bi; ci; i; u; j; v]).
  - cbn [tat permute map seq length pos nth Nat.eqb]. apply V1.
    + rewrite S. cbn [inb]. assert (bi * nh + i < b * nh) by nia. assert (u * s + v < s * s) by nia.
      repeat split; nia.
    + rewrite S. cbn [ravel prod fold_right]. ring.
  - cbn [tshape permute map]. rewrite S1. cbn [nth inb]. repeat split; assumption.
  - cbn [tshape permute map]. rewrite S1. cbn [nth ravel prod fold_right]. ring.
Qed.

Lemma pad_src_in mode n k : k < n -> pad_src mode n 0 k = Some k.
Proof.
  intro H. unfold pad_src. change (k <? 0) with false. cbn match.
  rewrite Nat.sub_0_r. now rewrite (proj2 (Nat.ltb_lt k n)) by lia.
Qed.

Lemma round_trip mode s x b c h w : 1 <= s -> 1 <= c -> 1 <= h -> 1 <= w -> tshape x = [b; c; h; w] ->
  pads_ok mode s s h w = true ->
  exists p y, forward s mode x s = Ok p /\ unpatch s p (Some (h, w)) true = Ok y /\ teq y x.
Proof.
  intros Hs Hc Hh Hw S PO.
  destruct (forward_ok mode s x s b c h w Hs (le_n s) ltac:(exists 0; lia) S Hh Hw PO) as (y & E & Sy & V).
  exists (y, (ceil_div h s, ceil_div w s)).
  destruct (unpatch_ok s y b c (ceil_div h s) (ceil_div w s) Hs Hc (ceil_div_pos h s Hs Hh) (ceil_div_pos w s Hs Hw) Sy)
    as (z & _ & _ & EU & VU).
  eexists. split; [exact E|]. split; [apply EU|].
  pose proof (ceil_div_spec h s Hs) as CH. pose proof (ceil_div_spec w s Hs) as CW.
  rewrite !Nat.min_l by lia. split; [cbn [tshape]; congruence|].
  cbn [tshape tat]. intros idx I.
  destruct idx as [|bi [|ci [|y0 [|x0 [|? ?]]]]]; try (cbn in I; tauto).
  cbn [inb] in I. destruct I as (I1 & I2 & I3 & I4 & _).
  pose proof (Nat.div_mod y0 s ltac:(lia)) as DY. pose proof (Nat.mod_upper_bound y0 s ltac:(lia)) as MY.
  pose proof (Nat.div_mod x0 s ltac:(lia)) as DX. pose proof (Nat.mod_upper_bound x0 s ltac:(lia)) as MX.
  set (i := y0 / s) in *. set (u := y0 mod s) in *. set (j := x0 / s) in *. set (v := x0 mod s) in *.
  assert (i < ceil_div h s) by nia. assert (j < ceil_div w s) by nia.
  replace y0 with (i * s + u) by lia. replace x0 with (j * s + v) by lia.
  rewrite VU, V by assumption. unfold padded. rewrite Nat.sub_diag. change (0 / 2) with 0.
  rewrite !pad_src_in by lia. reflexivity.
Qed.

(** Shapes computed by the modules of Net_Model. *)
From Coq Require Import ZArith Arith List Bool Reals Lia Lra.
From Verif Require Import Base Tensor Net_Model.
Import ListNotations.
Open Scope nat_scope.

(** The module accepts every tensor of shape [s] and returns one of shape [s']. *)
Definition maps (n : net) (s s' : list nat) : Prop :=
  forall x, tshape x = s -> exists y, n x = Ok y /\ tshape y = s'.

Lemma maps_eq n s s1 s2 : maps n s s1 -> s1 = s2 -> maps n s s2.
Proof. intros H E. now rewrite <- E. Qed.
Lemma maps_nil s : maps (sequential []) s s.
Proof. intros x H. exists x. now split. Qed.
Lemma maps_cons n l s s1 s2 : maps n s s1 -> maps (sequential l) s1 s2 -> maps (sequential (n :: l)) s s2.
Proof.
  intros A B x H. destruct (A x H) as (y & Y & Hy). destruct (B y Hy) as (z & Z & Hz).
  exists z. split; [|exact Hz]. cbn [sequential]. rewrite Y. exact Z.
Qed.
Lemma sequential_app l m x : sequential (l ++ m) x = bind (sequential l x) (sequential m).
Proof.
  revert x. induction l as [|n l IH]; intro x; [reflexivity|]. cbn [app sequential].
  destruct (n x) as [y|e]; cbn [bind]; [apply IH|reflexivity].
Qed.
Lemma maps_app l m s s1 s2 : maps (sequential l) s s1 -> maps (sequential m) s1 s2 -> maps (sequential (l ++ m)) s s2.
Proof.
  intros A B x H. destruct (A x H) as (y & Y & Hy). destruct (B y Hy) as (z & Z & Hz).
  exists z. split; [|exact Hz]. rewrite sequential_app, Y. exact Z.
Qed.

Lemma maps_conv ci co k s p f b h w h' w' : k <= h + 2 * p -> k <= w + 2 * p ->
  (h + 2 * p - k) / s + 1 = h' -> (w + 2 * p - k) / s + 1 = w' ->
  maps (conv ci co k s p f) [b; ci; h; w] [b; co; h'; w'].
Proof.
  intros A B C D x H. unfold conv. rewrite H, Nat.eqb_refl.
  apply Nat.leb_le in A, B. rewrite A, B. cbn [andb]. eexists. split; [reflexivity|]. cbn [tshape].
  now rewrite C, D.
Qed.
Lemma maps_deconv ci co k s p op f b h w h' w' : op < s -> 1 <= h -> 1 <= w ->
  (h - 1) * s + k + op - 2 * p = h' -> (w - 1) * s + k + op - 2 * p = w' ->
  maps (deconv ci co k s p op f) [b; ci; h; w] [b; co; h'; w'].
Proof.
  intros O A B C D x H. unfold deconv. rewrite H, Nat.eqb_refl.
  apply Nat.ltb_lt in O. apply Nat.leb_le in A, B. rewrite O, A, B. cbn [andb]. eexists. split; [reflexivity|]. cbn [tshape].
  now rewrite C, D.
Qed.
Lemma maps_norm c f b h w : maps (norm c f) [b; c; h; w] [b; c; h; w].
Proof. intros x H. unfold norm. rewrite H, Nat.eqb_refl. eexists. now split. Qed.
Lemma maps_act f s : maps (act f) s s.
Proof. intros x H. unfold act. eexists. split; [reflexivity|exact H]. Qed.
Lemma maps_pool b c h w : 2 <= h -> 2 <= w -> maps avg_pool2 [b; c; h; w] [b; c; h / 2; w / 2].
Proof.
  intros A B x H. unfold avg_pool2. rewrite H. apply Nat.leb_le in A, B. rewrite A, B. eexists. now split.
Qed.
Lemma maps_up b c h w : 1 <= h -> 1 <= w -> maps upsample2 [b; c; h; w] [b; c; 2 * h; 2 * w].
Proof.
  intros A B x H. unfold upsample2. rewrite H. apply Nat.leb_le in A, B. rewrite A, B. eexists. now split.
Qed.

Lemma bshape_refl s : bshape s s = Some s.
Proof. induction s as [|d s IH]; [reflexivity|]. cbn. now rewrite IH, Nat.eqb_refl. Qed.
Lemma add_ok x y : tshape x = tshape y -> exists z, add x y = Ok z /\ tshape z = tshape x.
Proof.
  intro H. unfold add, pointwise2. rewrite <- H, bshape_refl. eexists. now split.
Qed.
Lemma maps_add (n m : net) s s' : maps n s s' -> maps m s s' ->
  forall x, tshape x = s -> exists z, (do y <- n x; do z <- m x; add y z) = Ok z /\ tshape z = s'.
Proof.
  intros A B x H. destruct (A x H) as (y & -> & Hy). destruct (B x H) as (z & -> & Hz). cbn [bind].
  destruct (add_ok y z) as (t & T & Ht); [congruence|]. exists t. split; [exact T|congruence].
Qed.
Lemma maps_add_self (n : net) s : maps n s s ->
  maps (fun x => do y <- n x; add x y) s s.
Proof.
  intros A x H. destruct (A x H) as (y & -> & Hy). cbn [bind].
  destruct (add_ok x y) as (t & T & Ht); [congruence|]. exists t. split; [exact T|congruence].
Qed.

Lemma inb4 b c h w idx : inb [b; c; h; w] idx -> exists i j k l, idx = [i; j; k; l] /\ i < b /\ j < c /\ k < h /\ l < w.
Proof.
  destruct idx as [|i [|j [|k [|l [|]]]]]; cbn; try tauto. intros (A & B & C & D & _).
  exists i, j, k, l. repeat split; lia.
Qed.

(** * Padding to a multiple *)
Definition up_to (f n : nat) : nat := n + (f - n mod f) mod f.
Lemma up_to_least f n : 1 <= f ->
  Nat.divide f (up_to f n) /\ n <= up_to f n /\ forall m, Nat.divide f m -> n <= m -> up_to f n <= m.
Proof.
  intro F. unfold up_to. pose proof (Nat.div_mod n f) as D. pose proof (Nat.mod_upper_bound n f) as U.
  set (q := n / f) in *. set (r := n mod f) in *. clearbody q r.
  assert (E : (f - r) mod f = if r =? 0 then 0 else f - r).
  { destruct (Nat.eqb_spec r 0) as [->|N]; [rewrite Nat.sub_0_r; apply Nat.mod_same; lia|apply Nat.mod_small; lia]. }
  rewrite E. destruct (Nat.eqb_spec r 0) as [R0|R0].
  - split; [exists q; nia|]. split; [lia|]. intros m _ L. lia.
  - split; [exists (S q); nia|]. split; [lia|]. intros m [k ->] L.
    assert (q < k) by nia. nia.
Qed.
Lemma up_to_zero f n : 1 <= f -> (f - n mod f) mod f = 0 <-> Nat.divide f n.
Proof.
  intro F. pose proof (Nat.mod_upper_bound n f). rewrite <- Nat.mod_divide by lia. split; intro H0.
  - destruct (Nat.eq_dec (n mod f) 0) as [E|E]; [exact E|]. rewrite Nat.mod_small in H0; lia.
  - rewrite H0, Nat.sub_0_r. apply Nat.mod_same. lia.
Qed.

(** What torch's reflection padding accepts here. *)
Definition reflectable (f n : nat) : Prop := (f - n mod f) mod f < n.
Lemma reflectable_iff f n : 1 <= f -> 1 <= n -> reflectable f n <-> f < 2 * n \/ f = n.
Proof.
  intros F N. unfold reflectable. pose proof (Nat.mod_upper_bound n f) as U. pose proof (Nat.mod_upper_bound (f - n mod f) f) as V.
  destruct (le_lt_dec f n) as [L|L]; [lia|].
  rewrite (Nat.mod_small n f) by lia. rewrite Nat.mod_small by lia. lia.
Qed.

Lemma pad_to_ok f x b c h w : 1 <= f -> tshape x = [b; c; h; w] -> reflectable f h -> reflectable f w ->
  exists y, pad_image_to_factor x f = Ok (y, (h, w)) /\ tshape y = [b; c; up_to f h; up_to f w] /\
  forall i j k l, k < h -> l < w -> tat y [i; j; k; l] = tat x [i; j; k; l].
Proof.
  intros F H A B. unfold pad_image_to_factor. rewrite H. unfold reflectable in A, B. unfold up_to.
  set (ph := (f - h mod f) mod f) in *. set (pw := (f - w mod f) mod f) in *.
  destruct (negb (ph =? 0) || negb (pw =? 0)) eqn:E.
  - unfold pad2. rewrite H. unfold pad_ok. apply Nat.ltb_lt in A, B. rewrite A, B.
    assert (0 <? w = true) as -> by (apply Nat.ltb_lt; apply Nat.ltb_lt in B; lia).
    assert (0 <? h = true) as -> by (apply Nat.ltb_lt; apply Nat.ltb_lt in A; lia).
    cbn [andb bind]. eexists. split; [reflexivity|]. cbn [tshape tat]. split; [reflexivity|].
    intros i j k l K L. unfold pad_src. change (k <? 0) with false. change (l <? 0) with false. rewrite !Nat.sub_0_r.
    apply Nat.ltb_lt in K, L. now rewrite K, L.
  - apply orb_false_iff in E. destruct E as [E1 E2]. apply negb_false_iff, Nat.eqb_eq in E1, E2.
    cbn [bind]. exists x. split; [reflexivity|]. rewrite E1, E2, !Nat.add_0_r. split; [exact H|]. reflexivity.
Qed.
Lemma pad_to_fail f x b c h w : 1 <= f -> 1 <= h -> 1 <= w -> tshape x = [b; c; h; w] -> ~ (reflectable f h /\ reflectable f w) ->
  pad_image_to_factor x f = Raise RuntimeError.
Proof.
  intros F H1 W1 H A. unfold pad_image_to_factor. rewrite H. unfold reflectable in A.
  set (ph := (f - h mod f) mod f) in *. set (pw := (f - w mod f) mod f) in *.
  destruct (negb (ph =? 0) || negb (pw =? 0)) eqn:E.
  - unfold pad2. rewrite H. unfold pad_ok.
    destruct (Nat.ltb_spec pw w); destruct (Nat.ltb_spec ph h); try lia; rewrite ?andb_false_r; reflexivity.
  - apply orb_false_iff in E. destruct E as [E1 E2]. apply negb_false_iff, Nat.eqb_eq in E1, E2. lia.
Qed.

Lemma clamp01_range x idx : (0 <= tat (clamp01 x) idx <= 1)%R.
Proof. cbn. unfold Rmax, Rmin. destruct (Rle_dec 1 (tat x idx)), (Rle_dec 0 _); lra. Qed.
Lemma crop_ok {A} (x : tensor A) b c h w h' w' : tshape x = [b; c; h; w] -> h' <= h -> w' <= w ->
  crop x h' w' = Ok (mkT [b; c; h'; w'] (tat x)).
Proof. intros H A1 B1. unfold crop. rewrite H. now rewrite !Nat.min_l by lia. Qed.

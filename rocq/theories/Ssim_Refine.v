(** The MS-SSIM model computes the specification. *)
From Coq Require Import String ZArith Arith List Bool Reals Lra Lia ZifyNat.
From Verif Require Import Base Tensor RSum Net_Model Ssim_Model Ssim_Spec Ssim_Proofs.
Import ListNotations.
Open Scope nat_scope.

Lemma zip_ok f x y : tshape x = tshape y ->
  zip_with f x y = Ok (mkT (tshape x) (fun i => f (tat x i) (tat y i))).
Proof. intro H. unfold zip_with. destruct (list_eq_dec _ _ _); [reflexivity|contradiction]. Qed.

Lemma stack_ok l s : l <> [] -> Forall (fun t => tshape t = s) l ->
  exists t0, stack l = Ok (mkT (length l :: s)
                 (fun idx => match idx with
                             | k :: i => tat (nth k l t0) i
                             | [] => 0%R
                             end)).
Proof.
  intros N F. destruct l as [|t l]; [easy|]. exists t. unfold stack.
  inversion F as [|? ? T F']; subst.
  replace (forallb _ _) with true; [reflexivity|]. symmetry. apply forallb_forall. intros u U.
  rewrite Forall_forall in F. rewrite (F u U). now destruct (list_eq_dec _ _ _).
Qed.

Section P.
Variable data_range : R.
Variable r : nat.
Variables k1 k2 sd : R.
Local Notation n := (2 * r + 1).
Local Notation W := (Z.of_nat (2 * r + 1)).
Local Notation c1 := ((k1 * data_range) ^ 2)%R.
Local Notation c2 := ((k2 * data_range) ^ 2)%R.

Lemma window_ok : gaussian_window W sd =
  Ok (mkT [1; 1; n; n] (fun idx => match idx with
                                   | [_; _; u; v] => (tap sd r u * tap sd r v)%R
                                   | _ => 0%R
                                   end)).
Proof.
  unfold gaussian_window.
  replace ((W <=? 0) || (W mod 2 =? 0))%Z with false.
  2:{ symmetry. apply orb_false_iff. split; [apply Z.leb_gt; lia|apply Z.eqb_neq; dlia]. }
  rewrite Nat2Z.id. do 2 f_equal. unfold tap.
  assert (G : forall i, exp (- (1 / 2) * (IZR (Z.of_nat i - W / 2) / sd) ^ 2) = gauss sd r i).
  { intro i. unfold gauss. f_equal.
    replace (W / 2)%Z with (Z.of_nat r) by dlia. rewrite minus_IZR, <- !INR_IZR_INZ. unfold Rdiv. ring. }
  assert (S : rsum n (fun i => exp (- (1 / 2) * (IZR (Z.of_nat i - W / 2) / sd) ^ 2)) = rsum n (gauss sd r)).
  { apply rsum_ext. intros. apply G. }
  rewrite S. apply FunctionalExtensionality.functional_extensionality. intro idx.
  destruct idx as [|? [|? [|u [|v [|]]]]]; try reflexivity. now rewrite !G.
Qed.

Definition lw (b h w : nat) (x : tensor R) : tensor R :=
  mkT [b; 1; h - 2 * r; w - 2 * r]
    (fun idx => match idx with
                | [k; o; i; j] =>
                    rsum 1 (fun c => rsum n (fun u => rsum n (fun v =>
                      (tat x [k; c; i * 1 + u; j * 1 + v]%nat * (tap sd r u * tap sd r v))%R)))
                | _ => 0%R
                end).
Lemma lw_at b h w x k i j : tat (lw b h w x) [k; 0; i; j] = local sd r (plane x k 0) i j.
Proof.
  cbn [lw tat]. rewrite rsum_S, rsum_0, Rplus_0_r. apply rsum_ext. intros u _. apply rsum_ext. intros v _.
  unfold plane. rewrite !Nat.mul_1_r. ring.
Qed.
Lemma conv_ok b h w x : tshape x = [b; 1; h; w] -> n <= h -> n <= w ->
  conv2d x (mkT [1; 1; n; n] (fun idx => match idx with
                                   | [_; _; u; v] => (tap sd r u * tap sd r v)%R
                                   | _ => 0%R
                                   end)) 1 = Ok (lw b h w x).
Proof.
  intros E H L. unfold conv2d. rewrite E. cbn [tshape tat].
  rewrite (proj2 (Nat.leb_le _ _) H), (proj2 (Nat.leb_le _ _) L), !Nat.div_1_r.
  change (1 =? 1) with true. change (1 <=? 1) with true. cbn [andb]. unfold lw.
  replace (h - n + 1) with (h - 2 * r) by lia. replace (w - n + 1) with (w - 2 * r) by lia. reflexivity.
Qed.
Lemma conv_ex b h w x : tshape x = [b; 1; h; w] -> n <= h -> n <= w ->
  exists u, conv2d x (mkT [1; 1; n; n] (fun idx => match idx with
                                   | [_; _; u; v] => (tap sd r u * tap sd r v)%R
                                   | _ => 0%R
                                   end)) 1 = Ok u /\
  tshape u = [b; 1; h - 2 * r; w - 2 * r] /\
  forall k i j, tat u [k; 0; i; j] = local sd r (plane x k 0) i j.
Proof. intros. exists (lw b h w x). split; [now apply conv_ok|]. split; [reflexivity|]. intros. apply lw_at. Qed.

Lemma single_ok b h w x y : tshape x = [b; 1; h; w] -> tshape y = [b; 1; h; w] -> n <= h -> n <= w ->
  exists t, ssim_single_channel data_range W k1 k2 sd x y = Ok t /\ tshape t = [2; b] /\
  forall k, tat t [0; k] = ssim sd r c1 c2 h w (plane x k 0) (plane y k 0) /\
            tat t [1; k] = cs sd r c2 h w (plane x k 0) (plane y k 0).
Proof.
  intros X Y H L. unfold ssim_single_channel. rewrite window_ok. cbn [bind].
  destruct (conv_ex b h w x X H L) as (ux & -> & UX & VX).
  destruct (conv_ex b h w y Y H L) as (uy & -> & UY & VY). cbn [bind].
  rewrite (zip_ok Rmult x x) by reflexivity. cbn [bind].
  edestruct (conv_ex b h w) as (uxx & -> & UXX & VXX); [|exact H|exact L|]; [exact X|]. cbn [bind].
  rewrite (zip_ok Rmult y y) by reflexivity. cbn [bind].
  edestruct (conv_ex b h w) as (uyy & -> & UYY & VYY); [|exact H|exact L|]; [exact Y|]. cbn [bind].
  rewrite (zip_ok Rmult x y) by congruence. cbn [bind].
  edestruct (conv_ex b h w) as (uxy & -> & UXY & VXY); [|exact H|exact L|]; [exact X|]. cbn [bind].
  do 12 (rewrite zip_ok by (cbn [tshape]; congruence); cbn [bind tshape tat]).
  edestruct (stack_ok) as [t0 ->].
  3:{ eexists. split; [reflexivity|]. split; [reflexivity|]. intro k. split.
    - cbn [tat nth]. unfold image_mean. cbn [tshape]. rewrite UX. cbn [tat]. unfold ssim, over_windows. f_equal.
      apply rsum_ext. intros i _. apply rsum_ext. intros j _.
      unfold luminance, contrast_structure, variance. cbv zeta. rewrite !covariance_raw.
      rewrite VX, VY, VXX, VYY, VXY. reflexivity.
    - cbn [tat nth]. unfold image_mean. cbn [tshape]. rewrite UXY. cbn [tat]. unfold cs, over_windows. f_equal.
      apply rsum_ext. intros i _. apply rsum_ext. intros j _.
      unfold contrast_structure, variance. cbv zeta. rewrite !covariance_raw.
      rewrite VX, VY, VXX, VYY, VXY. reflexivity. }
  - discriminate.
  - unfold image_mean. cbn [tshape]. rewrite UX, UXY. repeat constructor.
Qed.

Lemma mapM_ok {A B} (f : A -> res B) (P : A -> B -> Prop) l :
  (forall a, In a l -> exists b, f a = Ok b /\ P a b) -> exists bs, mapM f l = Ok bs /\ Forall2 P l bs.
Proof.
  induction l as [|a l IH]; intro H; [exists []; split; [reflexivity|constructor]|].
  destruct (H a (or_introl eq_refl)) as (b & E & Q).
  destruct IH as (bs & E' & Q'); [intros; apply H; now right|]. exists (b :: bs). cbn [mapM].
  rewrite E. cbn [bind]. rewrite E'. split; [reflexivity|now constructor].
Qed.
Lemma Forall2_nth {A B} (P : A -> B -> Prop) l l' : Forall2 P l l' -> forall i a b, i < length l -> P (nth i l a) (nth i l' b).
Proof.
  induction 1 as [|a b l l' H F IH]; intros i d d' I; cbn [length] in I; [lia|]. destruct i; [exact H|].
  cbn [nth]. apply IH. lia.
Qed.
Lemma Forall2_len {A B} (P : A -> B -> Prop) l l' : Forall2 P l l' -> length l = length l'.
Proof. induction 1; cbn; congruence. Qed.

Lemma multi_ok b c cy h w x y : tshape x = [b; c; h; w] -> tshape y = [b; cy; h; w] -> 1 <= c <= cy -> n <= h -> n <= w ->
  exists t, ssim_multichannel data_range W k1 k2 sd x y = Ok t /\ tshape t = [c; 2; b] /\
  forall ch k, ch < c -> tat t [ch; 0; k] = ssim sd r c1 c2 h w (plane x k ch) (plane y k ch) /\
            tat t [ch; 1; k] = cs sd r c2 h w (plane x k ch) (plane y k ch).
Proof.
  intros X Y C H L. unfold ssim_multichannel. rewrite X. cbn [nth].
  destruct (mapM_ok (fun i => do xi <- channel x i; do yi <- channel y i;
      ssim_single_channel data_range W k1 k2 sd xi yi)
    (fun ch t => tshape t = [2; b] /\ forall k,
       tat t [0; k] = ssim sd r c1 c2 h w (plane x k ch) (plane y k ch) /\
       tat t [1; k] = cs sd r c2 h w (plane x k ch) (plane y k ch)) (seq 0 c)) as (l & -> & F).
  { intros ch I. apply in_seq in I. unfold channel. rewrite X, Y. cbn [bind].
    replace (Nat.min 1 (c - ch)) with 1 by lia. replace (Nat.min 1 (cy - ch)) with 1 by lia.
    match goal with |- context [ssim_single_channel _ _ _ _ _ ?p ?q] =>
      destruct (single_ok b h w p q eq_refl eq_refl H L) as (t & E & T & V) end.
    exists t. split; [exact E|]. split; [exact T|]. intro k. destruct (V k) as [V0 V1].
    rewrite V0, V1. unfold plane. cbn [tat]. now rewrite Nat.add_0_r. }
  cbn [bind]. pose proof (Forall2_len _ _ _ F) as LN. rewrite seq_length in LN.
  destruct (stack_ok l [2; b]) as [t0 ->].
  - intros ->. cbn in LN. lia.
  - apply Forall_forall. intros t T. apply In_nth with (d := t) in T. destruct T as (i & I & <-).
    pose proof (Forall2_nth _ _ _ F i 0 t) as Q. rewrite seq_length in Q. apply Q. lia.
  - rewrite <- LN. eexists. split; [reflexivity|]. split; [reflexivity|]. intros ch k CH. cbn [tat].
    pose proof (Forall2_nth _ _ _ F ch 0 t0) as Q. rewrite seq_length in Q. specialize (Q CH).
    rewrite seq_nth in Q by exact CH. apply Q.
Qed.

(** Below the window size, or with an even window, every comparison fails. *)
Lemma down_ok b c h w x : tshape x = [b; c; h; w] -> 1 <= h -> 1 <= w ->
  exists t, pad_and_downsample x = Ok t /\ tshape t = [b; c; up_half h; up_half w] /\
  forall k ch i j, i < up_half h -> j < up_half w -> plane t k ch i j = halve h w (plane x k ch) i j.
Proof.
  intros X H L. unfold pad_and_downsample. rewrite X. unfold pad2. rewrite X. cbn [pad_ok].
  rewrite (proj2 (Nat.leb_le _ _) H), (proj2 (Nat.leb_le _ _) L). cbn [andb bind avg_pool2 tshape].
  unfold avg_pool2. cbn [tshape].
  replace (2 <=? 0 + h + h mod 2) with true by (symmetry; apply Nat.leb_le; dlia).
  replace (2 <=? 0 + w + w mod 2) with true by (symmetry; apply Nat.leb_le; dlia). cbn [andb].
  eexists. split; [reflexivity|]. cbn [tshape]. unfold up_half.
  split; [do 2 f_equal; f_equal; [|f_equal]; dlia|]. intros k ch i j I J.
  unfold plane, halve. cbn [tat]. cbv zeta.
  assert (SRC : forall m k, k < m + m mod 2 -> pad_src Replicate m 0 k = Some (Nat.min k (m - 1))).
  { intros m q Q. unfold pad_src. change (q <? 0) with false. cbv iota. rewrite Nat.sub_0_r.
    destruct (Nat.ltb_spec q m); f_equal; dlia. }
  rewrite !SRC by dlia.
  replace (Nat.min (2 * i) (h - 1)) with (2 * i) by dlia. replace (Nat.min (2 * j) (w - 1)) with (2 * j) by dlia.
  reflexivity.
Qed.

Lemma relu_pow_spec p x : relu_pow p x = power x p.
Proof. unfold relu_pow, power. destruct (Rlt_dec 0 x), (Rle_dec x 0); try reflexivity; lra. Qed.

(** What the loop returns: for every channel the product of the model is the specification's. *)
Definition product (l : list (tensor R)) ch k : R :=
  (tat (nth (length l - 1) l (mkT [] (fun _ => 0%R))) [ch; 0; k]%nat
   * fold_right Rmult 1 (map (fun s => tat (nth s l (mkT [] (fun _ => 0%R))) [ch; 1; k]%nat) (seq 0%nat (length l - 1)%nat)))%R.
Lemma product_cons t u l ch k : product (t :: u :: l) ch k = (tat t [ch; 1; k]%nat * product (u :: l) ch k)%R.
Proof.
  unfold product. cbn [length]. replace (S (S (length l)) - 1) with (S (length l)) by lia.
  replace (S (length l) - 1) with (length l) by lia. cbn [seq map fold_right nth].
  rewrite <- seq_shift, map_map. cbn [nth]. ring.
Qed.

Lemma down_input (first : bool) b c h w x : tshape x = [b; c; h; w] -> 1 <= h -> 1 <= w ->
  exists t, (if first then Ok x else pad_and_downsample x) = Ok t /\
  tshape t = [b; c; if first then h else up_half h; if first then w else up_half w] /\
  forall k ch i j, i < (if first then h else up_half h) -> j < (if first then w else up_half w) ->
    plane t k ch i j = (if first then plane x k ch else halve h w (plane x k ch)) i j.
Proof. intros X H L. destruct first; [exists x; auto|]. now apply down_ok. Qed.

Lemma up_half_pos m : 1 <= m -> 1 <= up_half m. Proof. unfold up_half. intro. dlia. Qed.
Lemma size_at_mono a b q : a <= b -> size_at a q <= size_at b q.
Proof. intro H. apply Nat.div_le_mono; [apply Nat.pow_nonzero; lia|]. lia. Qed.

Lemma loop_ok : forall ps (first : bool) b c cy h w x y, ps <> [] ->
  tshape x = [b; c; h; w] -> tshape y = [b; cy; h; w] -> 1 <= c <= cy -> 1 <= h -> 1 <= w ->
  let h' := if first then h else up_half h in
  let w' := if first then w else up_half w in
  n <= size_at h' (length ps - 1) -> n <= size_at w' (length ps - 1) ->
  exists l, scale_loop data_range W k1 k2 sd first x y ps = Ok l /\ length l = length ps /\
  Forall (fun t => tshape t = [c; 2; b]) l /\
  forall ch k, ch < c ->
    product l ch k = ms_ssim sd r c1 c2 h' w' (if first then plane x k ch else halve h w (plane x k ch))
                                        (if first then plane y k ch else halve h w (plane y k ch)) ps.
Proof.
  induction ps as [|p ps IH]; intros first b c cy h w x y N X Y C H L h' w' SH SW; [easy|].
  assert (LH : n <= h') by (pose proof (size_at_le h' (length (p :: ps) - 1)); lia).
  assert (LW : n <= w') by (pose proof (size_at_le w' (length (p :: ps) - 1)); lia).
  destruct (down_input first b c h w x X H L) as (x' & EX & X' & VX). fold h' w' in X', VX.
  destruct (down_input first b cy h w y Y H L) as (y' & EY & Y' & VY). fold h' w' in Y', VY.
  cbn [scale_loop]. rewrite EX. cbn [bind]. rewrite EY. cbn [bind]. rewrite X'.
  replace ((Z.of_nat h' <? W) || (Z.of_nat w' <? W))%Z with false
    by (symmetry; apply orb_false_iff; split; apply Z.ltb_ge; lia).
  destruct (multi_ok b c cy h' w' x' y' X' Y' C LH LW) as (s & -> & HS & VS). cbn [bind].
  destruct ps as [|q ps].
  - cbn [scale_loop bind]. eexists. split; [reflexivity|]. split; [reflexivity|].
    split; [constructor; [exact HS|constructor]|]. intros ch k CH.
    unfold product. cbn [length Nat.sub nth seq map fold_right tat ms_ssim].
    rewrite relu_pow_spec. destruct (VS ch k CH) as [-> _]. rewrite Rmult_1_r. f_equal.
    apply ssim_ext; intros; [now apply VX|now apply VY].
  - assert (PH : 1 <= h') by lia. assert (PW : 1 <= w') by lia.
    replace (length (p :: q :: ps) - 1)%nat with (S (length (q :: ps) - 1)) in * by (cbn; lia).
    rewrite <- !size_at_S in *.
    destruct (IH false b c cy h' w' x' y' ltac:(easy) X' Y' C PH PW SH SW) as (l & -> & LN & F & V).
    cbn [bind]. eexists. split; [reflexivity|]. split; [cbn [length] in *; lia|].
    split; [constructor; [exact HS|exact F]|]. intros ch k CH.
    destruct l as [|u l]; [cbn in LN; lia|]. rewrite product_cons, ms_cons, V by exact CH.
    cbn [tat]. rewrite relu_pow_spec. destruct (VS ch k CH) as [_ ->]. f_equal.
    + f_equal. apply cs_ext; intros; [now apply VX|now apply VY].
    + apply ms_ext; apply halve_ext; intros; [now apply VX|now apply VY].
Qed.

(** Images too small at some scale. *)
Lemma loop_small : forall ps (first : bool) b c cy h w x y, ps <> [] ->
  tshape x = [b; c; h; w] -> tshape y = [b; cy; h; w] -> 1 <= c <= cy -> 1 <= h -> 1 <= w ->
  let h' := if first then h else up_half h in
  let w' := if first then w else up_half w in
  size_at h' (length ps - 1) < n \/ size_at w' (length ps - 1) < n ->
  scale_loop data_range W k1 k2 sd first x y ps = Raise RuntimeError.
Proof.
  induction ps as [|p ps IH]; intros first b c cy h w x y N X Y C H L h' w' SM; [easy|].
  destruct (down_input first b c h w x X H L) as (x' & EX & X' & _). fold h' w' in X'.
  destruct (down_input first b cy h w y Y H L) as (y' & EY & Y' & _). fold h' w' in Y'.
  cbn [scale_loop]. rewrite EX. cbn [bind]. rewrite EY. cbn [bind]. rewrite X'.
  destruct ((Z.of_nat h' <? W) || (Z.of_nat w' <? W))%Z eqn:T; [reflexivity|].
  apply orb_false_iff in T. destruct T as [T1 T2]. apply Z.ltb_ge in T1, T2.
  destruct (multi_ok b c cy h' w' x' y' X' Y' C ltac:(lia) ltac:(lia)) as (s & -> & _). cbn [bind].
  destruct ps as [|q ps].
  - cbn [length Nat.sub] in SM. rewrite !size_at_0 in SM. lia.
  - replace (length (p :: q :: ps) - 1)%nat with (S (length (q :: ps) - 1)) in * by (cbn; lia).
    rewrite <- !size_at_S in SM.
    rewrite (IH false b c cy h' w' x' y' ltac:(easy) X' Y' C ltac:(lia) ltac:(lia) SM). reflexivity.
Qed.
End P.

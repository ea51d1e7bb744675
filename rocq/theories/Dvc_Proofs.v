(** Sizes in the DVC networks. *)
From Coq Require Import ZArith Arith List Bool Reals Lia Lra ZifyNat.
From Verif Require Import Base Tensor Net_Model Net_Proofs Dvc_Model Dvc_Spec.
Import ListNotations.
Open Scope nat_scope.

(** * Encoder and decoder *)
(** Size after one convolution with padding k/2. *)
Definition osz (k s n : nat) : nat := (n + 2 * (k / 2) - k) / s + 1.
Fixpoint down (k s m n : nat) : nat := match m with 0 => n | S m' => down k s m' (osz k s n) end.
Lemma down_S k s m n : down k s (S m) n = osz k s (down k s m n).
Proof. revert n. induction m as [|m IH]; intro n; [reflexivity|]. cbn [down] in *. apply IH. Qed.
Lemma osz_pos k s n : 1 <= osz k s n.
Proof. unfold osz. apply Nat.le_add_l. Qed.
Lemma down_pos k s m n : 1 <= n -> 1 <= down k s m n.
Proof. destruct m; [auto|]. intros _. rewrite down_S. apply osz_pos. Qed.
Lemma half_bound k n : 1 <= k -> 1 <= n -> k <= n + 2 * (k / 2).
Proof. intros. pose proof (Nat.div_mod k 2). pose proof (Nat.mod_upper_bound k 2). lia. Qed.

Fixpoint esizes (b ci fc k s m h w : nat) : list (list nat) :=
  match m with
  | 0 => []
  | S m' => [b; ci; h; w] :: esizes b fc fc k s m' (osz k s h) (osz k s w)
  end.
Lemma esizes_length b ci fc k s m h w : length (esizes b ci fc k s m h w) = m.
Proof. revert ci h w. induction m as [|m IH]; intros; [reflexivity|]. cbn. now rewrite IH. Qed.
Lemma esizes_snoc b fc k s m : forall ci h w, exists c,
  esizes b ci fc k s (S m) h w = esizes b ci fc k s m h w ++ [[b; c; down k s m h; down k s m w]].
Proof.
  induction m as [|m IH]; intros ci h w; [now exists ci|].
  destruct (IH fc (osz k s h) (osz k s w)) as [c C]. exists c.
  change (esizes b ci fc k s (S (S m)) h w) with ([b; ci; h; w] :: esizes b fc fc k s (S m) (osz k s h) (osz k s w)).
  rewrite C. reflexivity.
Qed.

Lemma others_fwd g fc (f1 f2 : vals) l x b h w : tshape x = [b; fc; h; w] ->
  exists y, tshape y = [b; fc; h; w] /\
  encoder_forward ((if g : bool then [Other (norm fc f1)] else [Other (norm fc f1); Other (act f2)]) ++ l) x = encoder_forward l y.
Proof.
  intro H. destruct (maps_norm fc f1 b h w x H) as (y & Y & Hy). destruct g; cbn [app encoder_forward]; rewrite Y; cbn [bind].
  - now exists y.
  - exists (mkT (tshape y) (f2 y)). split; [exact Hy|reflexivity].
Qed.
Lemma others_dec g fc (f1 f2 : vals) l x sz b h w : tshape x = [b; fc; h; w] ->
  exists y, tshape y = [b; fc; h; w] /\
  run_decoder ((if g : bool then [Other (norm fc f1)] else [Other (norm fc f1); Other (act f2)]) ++ l) x sz = run_decoder l y sz.
Proof.
  intro H. destruct (maps_norm fc f1 b h w x H) as (y & Y & Hy). destruct g; cbn [app run_decoder]; rewrite Y; cbn [bind].
  - now exists y.
  - exists (mkT (tshape y) (f2 y)). split; [exact Hy|reflexivity].
Qed.

Lemma enc_step W i ci fc co k s g m : enc_layers W i ci fc co k s g (S (S m)) =
  Conv2d (conv ci fc k s (k / 2) (W i 0)) :: (if g : bool then [Other (norm fc (W i 1))] else [Other (norm fc (W i 1)); Other (act (W i 2))])
  ++ enc_layers W (i + 1) fc fc co k s g (S m).
Proof. reflexivity. Qed.
Lemma dec_step W i ci fc co k s g m : dec_layers W i ci fc co k s g (S (S m)) =
  ConvTranspose2d ci fc k s (k / 2) (W i 0) :: (if g : bool then [Other (norm fc (W i 1))] else [Other (norm fc (W i 1)); Other (act (W i 2))])
  ++ dec_layers W (i + 1) fc fc co k s g (S m).
Proof. reflexivity. Qed.

Lemma encoder_ok W fc co k s g b : 1 <= k -> forall m i ci x h w,
  tshape x = [b; ci; h; w] -> 1 <= h -> 1 <= w ->
  exists y, encoder_forward (enc_layers W i ci fc co k s g (S m)) x = Ok (y, esizes b ci fc k s (S m) h w) /\
    tshape y = [b; co; down k s (S m) h; down k s (S m) w].
Proof.
  intros K m. induction m as [|m IH]; intros i ci x h w H Hh Hw.
  - cbn [enc_layers encoder_forward esizes down].
    destruct (maps_conv ci co k s (k / 2) (W i 0) b h w (osz k s h) (osz k s w) (half_bound k h K Hh) (half_bound k w K Hw) eq_refl eq_refl x H) as (y & Y & Hy).
    rewrite Y. cbn [bind encoder_forward]. exists y. now rewrite H.
  - rewrite enc_step. cbn [encoder_forward].
    destruct (maps_conv ci fc k s (k / 2) (W i 0) b h w (osz k s h) (osz k s w) (half_bound k h K Hh) (half_bound k w K Hw) eq_refl eq_refl x H) as (y & Y & Hy).
    rewrite Y. cbn [bind]. destruct (others_fwd g fc (W i 1) (W i 2) (enc_layers W (i + 1) fc fc co k s g (S m)) y b _ _ Hy) as (z & Hz & Z).
    rewrite Z. destruct (IH (i + 1) fc z _ _ Hz (osz_pos _ _ _) (osz_pos _ _ _)) as (t & T & Ht). rewrite T. cbn [bind].
    exists t. rewrite H. split; [reflexivity|exact Ht].
Qed.

Lemma range_ok k s n : 1 <= k -> 1 <= s -> 1 <= n -> deconv_range k s (k / 2) (osz k s n) n = true.
Proof.
  intros K S N. pose proof (half_bound k n K N) as B. unfold deconv_range, osz.
  set (p := k / 2) in *. clearbody p. pose proof (Nat.div_mod (n + 2 * p - k) s) as D. pose proof (Nat.mod_upper_bound (n + 2 * p - k) s) as U.
  set (q := (n + 2 * p - k) / s) in *. set (r := (n + 2 * p - k) mod s) in *. clearbody q r.
  apply andb_true_iff. rewrite Nat.leb_le, Nat.ltb_lt. nia.
Qed.
Lemma deconv_to_ok ci co k s f x b h w : 1 <= k -> 1 <= s -> 1 <= h -> 1 <= w ->
  tshape x = [b; ci; osz k s h; osz k s w] ->
  exists y, deconv_to ci co k s (k / 2) f x h w = Ok y /\ tshape y = [b; co; h; w].
Proof.
  intros K S Hh Hw H. unfold deconv_to. rewrite H, !range_ok by assumption. cbn [andb].
  rewrite Nat.eqb_refl. pose proof (osz_pos k s h) as A. pose proof (osz_pos k s w) as B. apply Nat.leb_le in A, B. rewrite A, B.
  eexists. now split.
Qed.

Lemma decoder_run_ok W fc co k s g b h w ci0 fc0 : 1 <= k -> 1 <= s -> 1 <= h -> 1 <= w -> forall m i ci x,
  tshape x = [b; ci; down k s (S m) h; down k s (S m) w] ->
  exists y, run_decoder (dec_layers W i ci fc co k s g (S m)) x (Some (esizes b ci0 fc0 k s (S m) h w)) = Ok y /\
    tshape y = [b; co; h; w].
Proof.
  intros K S1 Hh Hw m. induction m as [|m IH]; intros i ci x H.
  - cbn [dec_layers run_decoder esizes rev app nth]. cbn [down] in H.
    destruct (deconv_to_ok ci co k s (W i 0) x b h w K S1 Hh Hw H) as (y & Y & Hy). rewrite Y. cbn [bind run_decoder]. now exists y.
  - rewrite dec_step. cbn [run_decoder].
    destruct (esizes_snoc b fc0 k s (S m) ci0 h w) as [c ->]. rewrite rev_app_distr. cbn [rev app nth].
    rewrite !(down_S k s (S m)) in H.
    destruct (deconv_to_ok ci fc k s (W i 0) x b _ _ K S1 (down_pos k s (S m) h Hh) (down_pos k s (S m) w Hw) H) as (y & Y & Hy).
    rewrite Y. cbn [bind]. rewrite rev_involutive.
    destruct (others_dec g fc (W i 1) (W i 2) (dec_layers W (i + 1) fc fc co k s g (S m)) y (Some (esizes b ci0 fc0 k s (S m) h w)) b _ _ Hy) as (z & Hz & Z).
    rewrite Z. apply IH. exact Hz.
Qed.
Lemma dec_count W fc co k s g : forall m i ci, length (filter is_transpose (dec_layers W i ci fc co k s g m)) = m.
Proof.
  induction m as [|m IH]; intros i ci; [reflexivity|]. destruct m as [|m]; [reflexivity|].
  rewrite dec_step. cbn [filter is_transpose length]. f_equal. destruct g; cbn [app filter is_transpose]; apply IH.
Qed.
Lemma decoder_ok W fc co k s g b h w ci0 fc0 m i ci x : 1 <= k -> 1 <= s -> 1 <= h -> 1 <= w -> 
  tshape x = [b; ci; down k s (S m) h; down k s (S m) w] ->
  exists y, decoder_forward (dec_layers W i ci fc co k s g (S m)) x (Some (esizes b ci0 fc0 k s (S m) h w)) = Ok y /\
    tshape y = [b; co; h; w].
Proof.
  intros. unfold decoder_forward. rewrite dec_count, esizes_length, Nat.eqb_refl. now apply decoder_run_ok.
Qed.

(** Stride 2, odd kernels: halving that rounds up. *)
Lemma osz2 k n : Nat.Odd k -> 1 <= n -> osz k 2 n = (n + 1) / 2.
Proof. intros [j ->] N. unfold osz. replace ((2 * j + 1) / 2) with j by dlia. dlia. Qed.
Lemma ceil_pow2_S m n : 1 <= n -> ceil_pow2 m ((n + 1) / 2) = ceil_pow2 (S m) n.
Proof.
  intro N. unfold ceil_pow2. cbn [Nat.pow]. assert (P : 1 <= 2 ^ m) by (pose proof (Nat.pow_nonzero 2 m); lia).
  set (p := 2 ^ m) in *. clearbody p. rewrite <- Nat.div_div by lia.
  f_equal. replace (n + 2 * p - 1) with ((n + 1) + (p - 1) * 2) by lia. rewrite Nat.div_add by lia. lia.
Qed.
Lemma ceil_pow2_0 n : ceil_pow2 0 n = n.
Proof. unfold ceil_pow2. cbn [Nat.pow]. rewrite Nat.div_1_r. lia. Qed.
Lemma down2 k : Nat.Odd k -> forall m n, 1 <= n -> down k 2 m n = ceil_pow2 m n.
Proof.
  intros K m. induction m as [|m IH]; intros n N; [symmetry; apply ceil_pow2_0|].
  cbn [down]. rewrite osz2, IH by (auto; dlia). now apply ceil_pow2_S.
Qed.
Lemma ceil_pow2_pos m n : 1 <= n -> 1 <= ceil_pow2 m n.
Proof. intro N. rewrite <- (down2 1) by (auto; now exists 0). now apply down_pos. Qed.

Lemma latent_size_ok b ci fc k m h w : Nat.Odd k -> 1 <= h -> 1 <= w ->
  latent_size (esizes b ci fc k 2 (S m) h w) = Ok (ceil_pow2 m h / 2, ceil_pow2 m w / 2).
Proof.
  intros K Hh Hw. destruct (esizes_snoc b fc k 2 m ci h w) as [c ->]. unfold latent_size. rewrite rev_app_distr. cbn [rev app].
  unfold last2. cbn [length Nat.sub nth fst snd]. now rewrite !down2 by assumption.
Qed.

(** With a latent of the wrong size the first transpose convolution refuses. *)
Lemma decoder_wrong W fc co k g b h w ci0 fc0 m i ci x b' c : Nat.Odd k -> 1 <= h -> 1 <= w ->
  tshape x = [b'; c; ceil_pow2 m h / 2; ceil_pow2 m w / 2] ->
  Nat.Odd (ceil_pow2 m h) \/ Nat.Odd (ceil_pow2 m w) ->
  decoder_forward (dec_layers W i ci fc co k 2 g (S m)) x (Some (esizes b ci0 fc0 k 2 (S m) h w)) = Raise ValueError.
Proof.
  intros K Hh Hw H O. unfold decoder_forward. rewrite dec_count, esizes_length, Nat.eqb_refl.
  destruct (esizes_snoc b fc0 k 2 m ci0 h w) as [d ->].
  assert (D : exists co' l, dec_layers W i ci fc co k 2 g (S m) = ConvTranspose2d ci co' k 2 (k / 2) (W i 0) :: l).
  { destruct m; [now exists co, []|]. rewrite dec_step. now eexists _, _. }
  destruct D as (co' & l & ->). cbn [run_decoder]. rewrite rev_app_distr. cbn [rev app nth].
  rewrite !down2 by assumption.
  set (a := ceil_pow2 m h) in *. set (e := ceil_pow2 m w) in *. clearbody a e.
  unfold deconv_to. rewrite H.
  assert (R : deconv_range k 2 (k / 2) (a / 2) a && deconv_range k 2 (k / 2) (e / 2) e = false).
  { destruct K as [j ->]. replace ((2 * j + 1) / 2) with j by dlia.
    assert (F : forall n, Nat.Odd n -> deconv_range (2 * j + 1) 2 j (n / 2) n = false).
    { intros n [q ->]. replace ((2 * q + 1) / 2) with q by dlia. unfold deconv_range. apply andb_false_iff. right. apply Nat.ltb_ge. lia. }
    apply andb_false_iff. destruct O as [O|O]; [left|right]; now apply F. }
  now rewrite R.
Qed.

(** * Warping *)
Lemma warp_ok f image flow b c h w h' w' : tshape image = [b; c; h; w] -> tshape flow = [b; 2; h'; w'] -> 1 <= h -> 1 <= w ->
  exists y, dense_image_warp f image flow = Ok y /\ tshape y = [b; c; h'; w'].
Proof.
  intros A B Hh Hw. unfold dense_image_warp. rewrite A, B, !Nat.eqb_refl. apply Nat.leb_le in Hh, Hw. rewrite Hh, Hw. cbn [negb andb].
  eexists. now split.
Qed.
Lemma cat1_ok x y b c c' h w : tshape x = [b; c; h; w] -> tshape y = [b; c'; h; w] ->
  exists z, cat1 x y = Ok z /\ tshape z = [b; c + c'; h; w].
Proof. intros A B. unfold cat1. rewrite A, B, !Nat.eqb_refl. cbn [andb]. eexists. now split. Qed.
Lemma interpolate_ok f x b c h w oh ow : tshape x = [b; c; h; w] -> 1 <= h -> 1 <= w -> 1 <= oh -> 1 <= ow ->
  exists y, interpolate f x oh ow = Ok y /\ tshape y = [b; c; oh; ow].
Proof.
  intros A B C D E1. unfold interpolate. rewrite A. apply Nat.leb_le in B, C, D, E1. rewrite B, C, D, E1. cbn [andb]. eexists. now split.
Qed.

(** * Pyramid *)
Lemma maps_conv_same ci co k f b h w : Nat.Odd k -> 1 <= h -> 1 <= w ->
  maps (conv ci co k 1 (k / 2) f) [b; ci; h; w] [b; co; h; w].
Proof.
  intros [j ->] Hh Hw. replace ((2 * j + 1) / 2) with j by dlia. apply maps_conv; try lia; rewrite Nat.div_1_r; lia.
Qed.
Lemma maps_level W k b h w : Nat.Odd k -> 1 <= h -> 1 <= w -> forall fcs i ci,
  maps (sequential (level_layers W i ci k fcs)) [b; ci; h; w] [b; last fcs ci; h; w].
Proof.
  intros K Hh Hw fcs. induction fcs as [|co fcs IH]; intros i ci; [apply maps_nil|].
  cbn [level_layers]. eapply maps_cons; [now apply maps_conv_same|].
  destruct fcs as [|c2 fcs].
  - apply maps_nil.
  - cbn [app]. eapply maps_cons; [apply maps_act|]. 
    replace (last (co :: c2 :: fcs) ci) with (last (c2 :: fcs) co); [apply IH|].
    change (last (co :: c2 :: fcs) ci) with (last (c2 :: fcs) ci). clear. revert c2. induction fcs as [|a l IH]; intro c2; [reflexivity|]. apply IH.
Qed.

Lemma pyramid_ok n : forall x b c h w, tshape x = [b; c; h; w] -> 2 ^ n <= h -> 2 ^ n <= w ->
  exists l, pyramid n x = Ok l /\ map tshape l = map (fun i => [b; c; h / 2 ^ i; w / 2 ^ i]) (seq 0 (S n)).
Proof.
  induction n as [|n IH]; intros x b c h w H A B.
  - exists [x]. cbn [pyramid seq map Nat.pow]. now rewrite H, !Nat.div_1_r.
  - cbn [Nat.pow] in A, B. assert (P : 1 <= 2 ^ n) by (pose proof (Nat.pow_nonzero 2 n); lia).
    destruct (maps_pool b c h w ltac:(lia) ltac:(lia) x H) as (y & Y & Hy).
    destruct (IH y b c _ _ Hy) as (l & L & Hl); [apply Nat.div_le_lower_bound; lia|apply Nat.div_le_lower_bound; lia|].
    exists (x :: l). cbn [pyramid]. rewrite Y. cbn [bind]. rewrite L. split; [reflexivity|]. cbn [map]. rewrite Hl, H.
    change (seq 0 (S (S n))) with (0 :: seq 1 (S n)). cbn [map]. rewrite Nat.pow_0_r, !Nat.div_1_r. f_equal.
    rewrite <- (seq_shift (S n) 0), map_map. apply map_ext. intro i. cbn [Nat.pow]. now rewrite !Nat.div_div by (try apply Nat.pow_nonzero; lia).
Qed.
Lemma pyramid_small n : forall x b c h w, tshape x = [b; c; h; w] -> 1 <= h -> 1 <= w -> h < 2 ^ n \/ w < 2 ^ n ->
  pyramid n x = Raise RuntimeError.
Proof.
  induction n as [|n IH]; intros x b c h w H Hh Hw S; [cbn in S; lia|]. cbn [pyramid].
  destruct (le_lt_dec 2 h) as [A|A]; [destruct (le_lt_dec 2 w) as [B|B]|].
  - destruct (maps_pool b c h w A B x H) as (y & Y & Hy). rewrite Y. cbn [bind].
    rewrite (IH y b c _ _ Hy); [reflexivity|dlia|dlia|]. cbn [Nat.pow] in S.
    destruct S as [S|S]; [left|right]; apply Nat.div_lt_upper_bound; lia.
  - unfold avg_pool2. rewrite H. now rewrite (proj2 (Nat.leb_gt 2 w) B), andb_false_r.
  - unfold avg_pool2. rewrite H. now rewrite (proj2 (Nat.leb_gt 2 h) A).
Qed.

Section Est.
Variables (warp_vals : tensor R -> tensor R -> list nat -> R) (interp : vals).
Variables (b c : nat).
Definition level_ok (m : net) : Prop := forall h w, 1 <= h -> 1 <= w -> maps m [b; c + c + 2; h; w] [b; 2; h; w].
Definition pair_shape (p : tensor R * tensor R) (s : nat * nat) : Prop :=
  tshape (fst p) = [b; c; fst s; snd s] /\ tshape (snd p) = [b; c; fst s; snd s].
Lemma flow_levels_ok : forall ml imgs sz flow h0 w0,
  Forall level_ok ml -> Forall2 pair_shape imgs sz -> length ml = length imgs ->
  Forall (fun s => 1 <= fst s /\ 1 <= snd s) sz ->
  tshape flow = [b; 2; h0; w0] -> 1 <= h0 -> 1 <= w0 ->
  exists f pairs, flow_levels warp_vals interp ml imgs flow = Ok (f, pairs) /\
    tshape f = [b; 2; fst (last sz (h0, w0)); snd (last sz (h0, w0))] /\
    Forall2 pair_shape pairs sz.
Proof.
  induction ml as [|m ml IH]; intros imgs sz flow h0 w0 A B L P F Hh Hw.
  - destruct imgs; [|discriminate]. inversion B; subst. exists flow, []. repeat split; try constructor. exact F.
  - destruct imgs as [|[i1 i2] imgs]; [discriminate|]. inversion B as [|p s imgs' sz' [B1 B2] BB]; subst. cbn [fst snd] in *.
    inversion A as [|m' ml' A1 A2]; subst. inversion P as [|s' sz'' [P1 P2] PP]; subst. destruct s as [h w]. cbn [fst snd] in *.
    cbn [flow_levels]. rewrite B1. cbn [nth].
    destruct (interpolate_ok interp flow b 2 h0 w0 h w F Hh Hw P1 P2) as (fl & -> & Hfl). cbn [bind].
    destruct (warp_ok warp_vals i1 fl b c h w h w B1 Hfl P1 P2) as (wp & -> & Hwp). cbn [bind].
    destruct (cat1_ok wp i2 b c c h w Hwp B2) as (wi & -> & Hwi). cbn [bind].
    destruct (cat1_ok wi fl b (c + c) 2 h w Hwi Hfl) as (inp & -> & Hinp). cbn [bind].
    destruct (A1 h w P1 P2 inp Hinp) as (dl & -> & Hdl). cbn [bind].
    destruct (add_ok fl dl) as (fl' & -> & Hfl'); [congruence|]. cbn [bind]. rewrite Hfl in Hfl'.
    destruct (warp_ok warp_vals i1 fl' b c h w h w B1 Hfl' P1 P2) as (wp' & -> & Hwp'). cbn [bind].
    destruct (IH imgs sz' fl' h w A2 BB ltac:(cbn in L; lia) PP Hfl' P1 P2) as (f & pairs & -> & Hf & Hp). cbn [bind].
    exists f, ((wp', i2) :: pairs). split; [reflexivity|]. split; [|constructor; [now split|exact Hp]].
    destruct sz' as [|s2 sz']; [exact Hf|]. change (last ((h, w) :: s2 :: sz') (h0, w0)) with (last (s2 :: sz') (h0, w0)).
    replace (last (s2 :: sz') (h0, w0)) with (last (s2 :: sz') (h, w)); [exact Hf|].
    clear. revert s2. induction sz' as [|a l IH]; intro s2; [reflexivity|]. apply IH.
Qed.
End Est.

(** * Motion compensation *)
Lemma maps_mc_residual W c b h w : 1 <= h -> 1 <= w -> maps (mc_residual W c) [b; c; h; w] [b; c; h; w].
Proof.
  intros Hh Hw. apply maps_add_self.
  eapply maps_cons; [apply maps_act|]. eapply maps_cons; [apply (maps_conv_same c c 3); [now exists 1|assumption..]|].
  eapply maps_cons; [apply maps_act|]. eapply maps_cons; [apply (maps_conv_same c c 3); [now exists 1|assumption..]|]. apply maps_nil.
Qed.
Lemma maps_mc_layer W interp c b : forall n h w, 2 ^ n <= h -> 2 ^ n <= w ->
  maps (mc_layer W interp c n) [b; c; h; w] [b; c; h; w].
Proof.
  induction n as [|n IH]; intros h w A B x H.
  - cbn in A, B. cbn [mc_layer]. destruct (maps_mc_residual (W (2 * 0)) c b h w A B x H) as (y & -> & Hy). cbn [bind].
    now apply maps_mc_residual.
  - cbn [Nat.pow] in A, B. assert (P : 1 <= 2 ^ n) by (pose proof (Nat.pow_nonzero 2 n); lia).
    cbn [mc_layer]. destruct (maps_mc_residual (W (2 * S n)) c b h w ltac:(lia) ltac:(lia) x H) as (y & -> & Hy). cbn [bind].
    destruct (maps_pool b c h w ltac:(lia) ltac:(lia) y Hy) as (p & -> & Hp). cbn [bind].
    destruct (IH (h / 2) (w / 2)) with (x := p) as (q & -> & Hq); [apply Nat.div_le_lower_bound; lia|apply Nat.div_le_lower_bound; lia|exact Hp|]. cbn [bind].
    rewrite H. cbn [nth]. destruct (interpolate_ok interp q b c _ _ h w Hq) as (u & -> & Hu); [dlia|dlia|lia|lia|]. cbn [bind].
    destruct (add_ok y u) as (z & -> & Hz); [congruence|]. cbn [bind]. rewrite Hy in Hz.
    apply maps_mc_residual; [lia|lia|exact Hz].
Qed.

From Coq Require Import Arith List Bool Lia Lra Reals ZArith.
From Flocq Require Import Core.
From Verif Require Import Base RBase RFloat Gsn_Model EM_Model TF_Model TF_Spec.
Import ListNotations.
Open Scope nat_scope.

(** ** Lists *)
Lemma map2_nil_r {A B C} (f : A -> B -> C) l : map2 f l [] = [].
Proof. unfold map2. now rewrite combine_nil. Qed.
Lemma map2_cons {A B C} (f : A -> B -> C) a l b m : map2 f (a :: l) (b :: m) = f a b :: map2 f l m.
Proof. reflexivity. Qed.
Lemma map2_len {A B C} (f : A -> B -> C) l m : length (map2 f l m) = Nat.min (length l) (length m).
Proof. unfold map2. now rewrite map_length, combine_length. Qed.
Lemma map2_firstn {A B C} (f : A -> B -> C) k l m : firstn k (map2 f l m) = map2 f (firstn k l) (firstn k m).
Proof. unfold map2. now rewrite firstn_map, combine_firstn. Qed.
Lemma map2_app {A B C} (f : A -> B -> C) l l' m m' : length l = length m ->
  map2 f (l ++ l') (m ++ m') = map2 f l m ++ map2 f l' m'.
Proof.
  revert m. induction l as [|a l IH]; intros [|b m] E; try discriminate; [reflexivity|].
  cbn [app]. rewrite !map2_cons, IH by (cbn in E; lia). reflexivity.
Qed.
Lemma map2_repeat_r {A B C} (f : A -> B -> C) l b n : length l = n -> map2 f l (repeat b n) = map (fun a => f a b) l.
Proof.
  revert n. induction l as [|a l IH]; intros n E; subst n; [reflexivity|].
  cbn [length repeat map]. rewrite map2_cons, IH; reflexivity.
Qed.
Lemma map2_repeat_l {A B C} (f : A -> B -> C) a n m : length m = n -> map2 f (repeat a n) m = map (f a) m.
Proof.
  revert n. induction m as [|b m IH]; intros n E; subst n; [reflexivity|].
  cbn [length repeat map]. rewrite map2_cons, IH; reflexivity.
Qed.
Lemma sum_app a b : sum (a ++ b) = (sum a + sum b)%R.
Proof. unfold sum. induction a as [|x a IH]; cbn; [lra|]. rewrite IH. lra. Qed.
Lemma sum_zeros l : Forall (fun x => x = 0%R) l -> sum l = 0%R.
Proof. induction 1 as [|x l E F IH]; cbn; [reflexivity|]. rewrite E. unfold sum in IH. rewrite IH. lra. Qed.
Lemma firstn_nth {A} (l l' : list A) k j d : firstn k l = firstn k l' -> j < k -> nth j l d = nth j l' d.
Proof.
  intros E H. assert (K : forall m : list A, nth j m d = nth j (firstn k m) d).
  { clear -H. revert j H. induction k as [|k IH]; intros j H m; [lia|]. destruct m, j; cbn; auto. apply IH. lia. }
  rewrite K, E, <- K. reflexivity.
Qed.
Lemma firstn_le {A} (l l' : list A) k j : firstn k l = firstn k l' -> j <= k -> firstn j l = firstn j l'.
Proof.
  intros E H. assert (K : forall m : list A, firstn j m = firstn j (firstn k m)).
  { intro m. rewrite firstn_firstn, Nat.min_l by exact H. reflexivity. }
  rewrite (K l), (K l'), E. reflexivity.
Qed.

(** ** The exponential underflows *)
Lemma b32_tiny x : (0 <= x <= bpow radix2 (-151))%R -> b32 x = 0%R.
Proof.
  intros [H1 H2]. apply Rle_antisym.
  - apply b32_mono in H2. eapply Rle_trans; [exact H2|]. apply Req_le. unfold b32.
    apply (@round_N_small_pos radix2 (FLT_exp (-149) 24) (fun x => negb (Z.even x)) _ (-150)).
    + split; [apply bpow_le; lia|apply bpow_lt; lia].
    + unfold FLT_exp. lia.
  - apply b32_mono in H1. unfold b32 at 1 in H1. rewrite round_0 in H1 by apply valid_rnd_N. exact H1.
Qed.
Lemma exp32_tiny y : (y <= -200)%R -> exp32 y = 0%R.
Proof.
  intro H. apply b32_tiny. split; [left; apply exp_pos|].
  apply Rle_trans with (exp (-200)).
  - destruct H as [H|H]; [left; apply exp_increasing; exact H|rewrite H; apply Rle_refl].
  - replace (-200)%R with (- (200))%R by lra. rewrite exp_Ropp. change (-151)%Z with (Z.opp 151). rewrite (bpow_opp radix2 151). apply Rinv_le_contravar; [apply bpow_gt_0|].
    rewrite <- (IZR_Zpower radix2 151) by lia.
    apply Rle_trans with (exp 151); [|left; apply exp_increasing; lra].
    assert (E : forall n, (IZR (2 ^ Z.of_nat n) <= exp (INR n))%R).
    { induction n as [|n IH]; [cbn; rewrite exp_0; lra|].
      rewrite Nat2Z.inj_succ, Z.pow_succ_r, mult_IZR by lia. rewrite S_INR, exp_plus.
      pose proof (exp_ineq1 1 ltac:(lra)) as G. pose proof (exp_pos (INR n)).
      rewrite (Rmult_comm (exp (INR n))). apply Rmult_le_compat; [lra| |lra|exact IH].
      apply IZR_le. apply Z.pow_nonneg. lia. }
    specialize (E 151). replace (INR 151) with 151%R in E by (rewrite INR_IZR_INZ; reflexivity). exact E.
Qed.

(** ** Softmax ignores entries far below the others *)
Lemma maxl_in x l : In (maxl (x :: l)) (x :: l).
Proof.
  cbn [maxl]. induction l as [|y l IH]; [now left|]. cbn [fold_right]. unfold Rmax at 1.
  destruct (Rle_dec y (fold_right Rmax x l)); [|right; now left].
  destruct IH as [IH|IH]; [left; exact IH|right; now right].
Qed.
Lemma maxl_ge l x : In x l -> (x <= maxl l)%R.
Proof.
  destruct l as [|y l]; [easy|]. cbn. induction l as [|z l IH]; cbn.
  - intros [->|[]]. apply Rle_refl.
  - intros [->|[->|H]].
    + eapply Rle_trans; [apply IH; now left|apply Rmax_r].
    + apply Rmax_l.
    + eapply Rle_trans; [apply IH; now right|apply Rmax_r].
Qed.
Lemma maxl_unique l m : In m l -> (forall x, In x l -> (x <= m)%R) -> maxl l = m.
Proof.
  intros I H. destruct l as [|x l]; [easy|]. apply Rle_antisym; [apply H, maxl_in|apply maxl_ge, I].
Qed.
Lemma softmax_far a b : a <> [] -> (forall y, In y b -> exists x, In x a /\ (y <= x - 200)%R) ->
  softmax (a ++ b) = softmax a ++ repeat 0%R (length b).
Proof.
  intros NE F. unfold softmax.
  assert (M : maxl (a ++ b) = maxl a).
  { apply maxl_unique.
    - apply in_or_app. left. destruct a; [easy|apply maxl_in].
    - intros x Hx. apply in_app_or in Hx. destruct Hx as [Hx|Hx]; [now apply maxl_ge|].
      destruct (F x Hx) as (z & Hz & L). apply maxl_ge in Hz. lra. }
  rewrite M. rewrite map_app.
  assert (Z : map (fun x => exp32 (x - maxl a)) b = repeat 0%R (length b)).
  { clear M. induction b as [|y b IH]; [reflexivity|]. cbn [map length repeat]. f_equal.
    - apply exp32_tiny. destruct (F y (or_introl eq_refl)) as (z & Hz & L). apply maxl_ge in Hz. lra.
    - apply IH. intros z Hz. apply F. now right. }
  rewrite Z, sum_app, (sum_zeros (repeat _ _)), Rplus_0_r.
  - rewrite map_app. f_equal. clear. induction (length b) as [|n IH]; [reflexivity|]. cbn [repeat map]. f_equal; [|exact IH].
    unfold Rdiv. lra.
  - apply Forall_forall. intros x Hx. now apply repeat_spec in Hx.
Qed.

Section TF.
Variable gelu : R -> R.
Variables (d heads : nat).
Notation attend := (attend d heads).
Notation attn_scale := (attn_scale d heads).
Notation head := (head d heads).
Notation head_dim := (head_dim d heads).

(** Masked attention is attention over the prefix. *)
Lemma attend_prefix q ks vs i : i < length ks -> length vs = length ks ->
  (forall k, In k ks -> (Rabs (dot q k * attn_scale) <= 400000)%R) ->
  attend q ks vs (Some (repeat 0%R (S i) ++ repeat 1%R (length ks - S i))) =
  attend q (firstn (S i) ks) (firstn (S i) vs) None.
Proof.
  intros Hi Lv Bd. unfold TF_Model.attend. cbv zeta.
  assert (EK : map (fun k => (dot q k * attn_scale)%R) ks =
    map (fun k => (dot q k * attn_scale)%R) (firstn (S i) ks) ++ map (fun k => (dot q k * attn_scale)%R) (skipn (S i) ks))
    by (rewrite <- map_app, firstn_skipn; reflexivity).
  rewrite EK. clear EK.
  set (a := map _ (firstn (S i) ks)). set (b := map _ (skipn (S i) ks)).
  assert (La : length a = S i) by (unfold a; rewrite map_length, firstn_length; lia).
  assert (Lb : length b = length ks - S i) by (unfold b; rewrite map_length, skipn_length; lia).
  rewrite map2_app by now rewrite repeat_length.
  rewrite !map2_repeat_r by assumption.
  assert (Ea : map (fun x => (x + 0 * -1000000)%R) a = a).
  { rewrite <- (map_id a) at 2. apply map_ext. intro. lra. }
  rewrite Ea.
  assert (Ba : Forall (fun x => (Rabs x <= 400000)%R) a).
  { unfold a. apply Forall_map, Forall_forall. intros k Hk. apply Bd. rewrite <- (firstn_skipn (S i) ks). apply in_or_app. now left. }
  assert (Bb : Forall (fun x => (Rabs x <= 400000)%R) b).
  { unfold b. apply Forall_map, Forall_forall. intros k Hk. apply Bd. rewrite <- (firstn_skipn (S i) ks). apply in_or_app. now right. }
  rewrite softmax_far.
  2:{ intro Z. rewrite Z in La. discriminate. }
  2:{ intros y Hy. apply in_map_iff in Hy. destruct Hy as (z & <- & Hz).
      rewrite Forall_forall in Ba, Bb. destruct a as [|x a']; [discriminate|]. exists x. split; [now left|].
      specialize (Ba x (or_introl eq_refl)). specialize (Bb z Hz). revert Ba Bb. rabs; lra. }
  rewrite map_length, Lb.
  assert (Ls : length (softmax a) = S i) by (unfold softmax; now rewrite !map_length).
  rewrite map2_app by now rewrite repeat_length.
  rewrite (map2_repeat_r _ (softmax a)) by exact Ls. rewrite map2_repeat_l by apply repeat_length.
  assert (Es : map (fun x => (x * (1 - 0))%R) (softmax a) = softmax a).
  { rewrite <- (map_id (softmax a)) at 2. apply map_ext. intro. lra. }
  rewrite Es. apply map_ext. intro c.
  rewrite <- (firstn_skipn (S i) vs) at 1. rewrite map2_app by (rewrite firstn_length; lia).
  rewrite sum_app, (sum_zeros (map2 _ (map _ _) _)), Rplus_0_r; [reflexivity|].
  apply Forall_forall. intros x Hx. unfold map2 in Hx. apply in_map_iff in Hx. destruct Hx as ([p v] & <- & Hp).
  apply in_combine_l in Hp. apply in_map_iff in Hp. destruct Hp as (u & <- & _). cbn [fst snd]. ring.
Qed.

Lemma mask_row n i : i < n -> nth i (look_ahead_mask n) [] = repeat 0%R (S i) ++ repeat 1%R (n - S i).
Proof.
  intro H. unfold look_ahead_mask.
  rewrite (nth_indep _ [] (map (fun j => if 0 <? j then 1%R else 0%R) (seq 0 n))) by now rewrite map_length, seq_length.
  rewrite (map_nth (fun i => map (fun j => if i <? j then 1%R else 0%R) (seq 0 n))), seq_nth by exact H. cbn [Nat.add].
  replace n with (S i + (n - S i)) at 1 by lia. rewrite seq_app, map_app. f_equal.
  - assert (K : forall k s, s + k <= S i -> map (fun j => if i <? j then 1%R else 0%R) (seq s k) = repeat 0%R k).
    { induction k as [|k IH]; intros s L; [reflexivity|]. cbn [seq map repeat].
      destruct (Nat.ltb_spec i s); [lia|]. f_equal. apply IH. lia. }
    apply K. lia.
  - assert (K : forall k s, i < s -> map (fun j => if i <? j then 1%R else 0%R) (seq s k) = repeat 1%R k).
    { induction k as [|k IH]; intros s L; [reflexivity|]. cbn [seq map repeat].
      destruct (Nat.ltb_spec i s); [|lia]. f_equal. apply IH. lia. }
    apply K. lia.
Qed.
Lemma mask_ok n : (length (look_ahead_mask n) =? n) && forallb (fun r : list R => length r =? n) (look_ahead_mask n) = true.
Proof.
  apply andb_true_intro. split; [unfold look_ahead_mask; rewrite map_length, seq_length; apply Nat.eqb_refl|].
  apply forallb_forall. intros r Hr. unfold look_ahead_mask in Hr. apply in_map_iff in Hr. destruct Hr as (i & <- & _).
  rewrite map_length, seq_length. apply Nat.eqb_refl.
Qed.

(** ** Two runs that agree on the first [k] tokens *)
Definition agree (k : nat) (x y : list token) : Prop :=
  length x = length y /\ firstn k x = firstn k y /\ Forall (fun t => length t = d) x /\ Forall (fun t => length t = d) y.
Definition agree_res (k : nat) (x y : res (list token)) : Prop :=
  match x, y with
  | Ok a, Ok b => agree k a b
  | Raise e, Raise e' => e = e'
  | _, _ => False
  end.

Lemma agree_map k f x y : (forall t, length t = d -> length (f t) = d) -> agree k x y -> agree k (map f x) (map f y).
Proof.
  intros L (A1 & A2 & A3 & A4). split; [now rewrite !map_length|]. split; [now rewrite !firstn_map, A2|].
  split; apply Forall_map; eapply Forall_impl; eauto; cbn; auto.
Qed.
Lemma Forall_vadd x y : Forall (fun t : token => length t = d) x -> Forall (fun t : token => length t = d) y ->
  Forall (fun t : token => length t = d) (map2 vadd x y).
Proof.
  intro F. revert y. induction F as [|a x Ha F IH]; intros y G; [constructor|]. destruct G as [|b y Hb G]; [rewrite map2_nil_r; constructor|].
  rewrite map2_cons. constructor; [unfold vadd; rewrite map2_len, Ha, Hb; apply Nat.min_id|auto].
Qed.
Lemma agree_vadd k x y x' y' : agree k x y -> agree k x' y' -> agree k (map2 vadd x x') (map2 vadd y y').
Proof.
  intros (A1 & A2 & A3 & A4) (B1 & B2 & B3 & B4). split; [rewrite !map2_len; lia|].
  split; [now rewrite !map2_firstn, A2, B2|]. split; apply Forall_vadd; auto.
Qed.
Lemma agree_vadd_r k x y p : Forall (fun t : token => length t = d) p -> agree k x y -> agree k (map2 vadd x p) (map2 vadd y p).
Proof. intros H A. apply agree_vadd; [exact A|]. repeat split; auto. Qed.
Lemma lin_len l i o t : linear_shape l i o -> length (lin l t) = o.
Proof. intros (A & _ & B). unfold lin. rewrite map2_len, A, B. apply Nat.min_id. Qed.
Lemma norm_len n t : norm_shape n d -> length t = d -> length (layer_norm n t) = d.
Proof.
  intros [A B] H. unfold layer_norm. rewrite !map2_len, A, B. unfold standardise. rewrite map_length. lia.
Qed.
Lemma mlp_len m n t : mlp_shape m d -> norm_shape n d -> length t = d -> length (vadd t (mlp_forward gelu m (layer_norm n t))) = d.
Proof.
  intros (k & A & B) N H. unfold vadd, mlp_forward. rewrite map2_len, (lin_len _ _ _ _ B), H. apply Nat.min_id.
Qed.

Lemma firstn_seq k n : firstn k (seq 0 n) = seq 0 (Nat.min k n).
Proof.
  destruct (le_lt_dec n k) as [H|H].
  - rewrite firstn_all2 by now rewrite seq_length. now rewrite Nat.min_r.
  - rewrite Nat.min_l by lia. replace n with (k + (n - k)) by lia. rewrite seq_app, firstn_app, seq_length, Nat.sub_diag.
    rewrite firstn_all2 by (rewrite seq_length; lia). apply app_nil_r.
Qed.
Lemma nth_map_d {A B} (f : A -> B) l i da db : i < length l -> nth i (map f l) db = f (nth i l da).
Proof. intro H. rewrite (nth_indep _ db (f da)) by now rewrite map_length. apply map_nth. Qed.

Lemma agree_attention_out k n (f g : nat -> token) : (forall i, i < n -> i < k -> f i = g i) ->
  (forall i, length (f i) = d) -> (forall i, length (g i) = d) ->
  agree k (map f (seq 0 n)) (map g (seq 0 n)).
Proof.
  intros E Lf Lg. split; [now rewrite !map_length|]. split.
  - rewrite !firstn_map, firstn_seq. apply map_ext_in. intros i Hi. apply in_seq in Hi. apply E; lia.
  - split; apply Forall_map, Forall_forall; auto.
Qed.

Lemma self_attention_agree k a nm x y : attention_shape a d -> norm_shape nm d -> bounded_logits d heads nm a ->
  agree k x y ->
  agree_res k (attention_forward d heads a (map (layer_norm nm) x) (map (layer_norm nm) x) (Some (look_ahead_mask (length x))))
              (attention_forward d heads a (map (layer_norm nm) y) (map (layer_norm nm) y) (Some (look_ahead_mask (length y)))).
Proof.
  intros (SQ & SK & SV & SP) SN BL (A1 & A2 & A3 & A4). unfold attention_forward. rewrite !map_length, <- A1.
  destruct (length x =? 0) eqn:Z; [reflexivity|]. apply Nat.eqb_neq in Z.
  destruct (negb (length x mod length x =? 0)); [reflexivity|].
  rewrite mask_ok. cbn [negb]. rewrite Nat.div_same by exact Z. cbn [repeat concat].
  apply agree_attention_out; try (intro; eapply lin_len; eassumption).
  intros i Hi Hk. f_equal. f_equal. apply map_ext. intro h. rewrite app_nil_r, mask_row by exact Hi.
  assert (PRE : forall z, length z = length x -> Forall (fun t => length t = d) z ->
    attend (head h (nth i (map (lin (q_linear a)) (map (layer_norm nm) z)) []))
      (map (head h) (map (lin (k_linear a)) (map (layer_norm nm) z)))
      (map (head h) (map (lin (v_linear a)) (map (layer_norm nm) z)))
      (Some (repeat 0%R (S i) ++ repeat 1%R (length x - S i))) =
    attend (head h (lin (q_linear a) (layer_norm nm (nth i z []))))
      (map (head h) (map (lin (k_linear a)) (map (layer_norm nm) (firstn (S i) z))))
      (map (head h) (map (lin (v_linear a)) (map (layer_norm nm) (firstn (S i) z)))) None).
  { intros z Lz Fz.
    set (ks := map (head h) (map (lin (k_linear a)) (map (layer_norm nm) z))).
    set (vs := map (head h) (map (lin (v_linear a)) (map (layer_norm nm) z))).
    assert (Lk : length ks = length x) by (unfold ks; now rewrite !map_length).
    assert (Lv : length vs = length x) by (unfold vs; now rewrite !map_length).
    rewrite (nth_map_d _ _ _ (layer_norm nm [])) by (rewrite map_length; lia).
    rewrite (nth_map_d _ _ _ []) by lia.
    rewrite <- Lk at 1. rewrite attend_prefix.
    - unfold ks, vs. now rewrite !firstn_map.
    - lia.
    - lia.
    - intros kk Hkk. unfold ks in Hkk. rewrite map_map, map_map in Hkk. apply in_map_iff in Hkk.
      destruct Hkk as (t & <- & Ht). apply BL.
      + rewrite Forall_forall in Fz. apply Fz. apply nth_In. lia.
      + rewrite Forall_forall in Fz. auto. }
  rewrite (PRE x eq_refl A3), (PRE y (eq_sym A1) A4).
  rewrite (firstn_nth x y k i [] A2 Hk), (firstn_le x y k (S i) A2 Hk). reflexivity.
Qed.

Lemma cross_attention_agree k a nm x y e : attention_shape a d -> norm_shape nm d -> agree k x y ->
  agree_res k (attention_forward d heads a (map (layer_norm nm) x) e None)
              (attention_forward d heads a (map (layer_norm nm) y) e None).
Proof.
  intros (SQ & SK & SV & SP) SN (A1 & A2 & A3 & A4). unfold attention_forward. rewrite !map_length, <- A1.
  destruct (length x =? 0) eqn:Z; [reflexivity|]. apply Nat.eqb_neq in Z.
  destruct (negb (length e mod length x =? 0)); [reflexivity|].
  apply agree_attention_out; try (intro; eapply lin_len; eassumption).
  intros i Hi Hk. f_equal. f_equal. apply map_ext. intro h.
  rewrite !map_map.
  rewrite (nth_map_d _ x i [] []), (nth_map_d _ y i [] []) by lia. rewrite (firstn_nth x y k i [] A2 Hk). reflexivity.
Qed.

Lemma agree_len_res k x y n : agree_res k x y -> (forall a, x = Ok a -> length a = n) -> forall b, y = Ok b -> length b = n.
Proof.
  intros A H b ->. destruct x as [a|]; [|easy]. destruct A as (A & _). rewrite <- A. now apply H.
Qed.
Lemma attention_len a q kv m o : attention_forward d heads a q kv m = Ok o -> length o = length q.
Proof.
  unfold attention_forward. destruct (_ =? 0); [discriminate|]. destruct (negb _); [discriminate|].
  destruct (match m with Some _ => _ | None => _ end); [discriminate|]. intro E. injection E as <-. now rewrite map_length, seq_length.
Qed.

Lemma block_agree k n b x y e : block_shape b d -> bounded_logits d heads (ln_1a b) (self_attention b) ->
  length x = n -> agree k x y ->
  agree_res k (block_forward gelu d heads (Some n) b x (Some e)) (block_forward gelu d heads (Some n) b y (Some e)) /\
  (forall o, block_forward gelu d heads (Some n) b x (Some e) = Ok o -> length o = n).
Proof.
  intros (N1 & AT1 & N2 & M1 & N3 & AT2 & N4 & M2) BL Ln A. unfold block_forward. cbn [option_map].
  pose proof (self_attention_agree k _ _ x y AT1 N1 BL A) as SA.
  assert (Ly : length y = n) by (destruct A as (A & _); lia). rewrite Ln, Ly in SA.
  destruct (attention_forward d heads (self_attention b) (map (layer_norm (ln_1a b)) x) _ _) as [sx|ex] eqn:EX;
  destruct (attention_forward d heads (self_attention b) (map (layer_norm (ln_1a b)) y) _ _) as [sy|ey] eqn:EY; cbn in SA; try easy.
  all: try solve [subst; cbn; split; [reflexivity|discriminate]].
  cbn [bind]. apply attention_len in EX. rewrite map_length in EX.
  assert (X1 : agree k (map2 vadd x sx) (map2 vadd y sy)) by now apply agree_vadd.
  assert (X2 : agree k (map (fun t => vadd t (mlp_forward gelu (mlp1 b) (layer_norm (ln_1b b) t))) (map2 vadd x sx))
                       (map (fun t => vadd t (mlp_forward gelu (mlp1 b) (layer_norm (ln_1b b) t))) (map2 vadd y sy))).
  { apply agree_map; [|exact X1]. intros t Ht. now apply mlp_len. }
  revert X2. set (x2 := map _ (map2 vadd x sx)). set (y2 := map _ (map2 vadd y sy)). intro X2.
  assert (L2 : length x2 = n) by (unfold x2; rewrite map_length, map2_len; lia).
  pose proof (cross_attention_agree k _ _ x2 y2 e AT2 N3 X2) as CA.
  destruct (attention_forward d heads (cross_attention b) (map (layer_norm (ln_2a b)) x2) _ _) as [cx|ex] eqn:CX;
  destruct (attention_forward d heads (cross_attention b) (map (layer_norm (ln_2a b)) y2) _ _) as [cy|ey] eqn:CY; cbn in CA; try easy.
  all: try solve [subst; cbn; split; [reflexivity|discriminate]].
  cbn [bind]. apply attention_len in CX. rewrite map_length in CX. split.
  - cbn. apply agree_map; [intros t Ht; now apply mlp_len|]. now apply agree_vadd.
  - intros o E. injection E as <-. rewrite map_length, map2_len. lia.
Qed.

Lemma transformer_agree k n layers : forall x y e, Forall (fun b => block_shape b d) layers ->
  Forall (fun b => bounded_logits d heads (ln_1a b) (self_attention b)) layers ->
  length x = n -> agree k x y ->
  agree_res k (transformer gelu d heads (Some n) layers x (Some e)) (transformer gelu d heads (Some n) layers y (Some e)).
Proof.
  induction layers as [|b layers IH]; intros x y e S BL Ln A; [exact A|].
  inversion S as [|? ? S1 S2]; subst. inversion BL as [|? ? B1 B2]; subst. cbn [transformer].
  destruct (block_agree k (length x) b x y e S1 B1 eq_refl A) as [AB LB].
  destruct (block_forward gelu d heads (Some (length x)) b x (Some e)) as [bx|ex];
  destruct (block_forward gelu d heads (Some (length x)) b y (Some e)) as [by_|ey]; cbn in AB; try easy.
  cbn [bind]. apply IH; auto.
Qed.

Lemma start_agree P x y i : length x = length y -> firstn i x = firstn i y ->
  length (start_sym (learned_zero P) x) = length (start_sym (learned_zero P) y) /\
  (i < length x -> firstn (S i) (start_sym (learned_zero P) x) = firstn (S i) (start_sym (learned_zero P) y)).
Proof.
  intros L F.
  assert (R : forall (z : list token), removelast z = firstn (length z - 1) z).
  { intro z. destruct z as [|a z] using rev_ind; [reflexivity|]. rewrite removelast_last, app_length. cbn [length].
    rewrite Nat.add_sub, firstn_app, Nat.sub_diag, firstn_all, app_nil_r. reflexivity. }
  unfold start_sym. split.
  - cbn [length]. rewrite !R, !firstn_length. lia.
  - intro Hi. cbn [firstn]. f_equal. rewrite !R, !firstn_firstn, <- L.
    apply (firstn_le x y i); [exact F|lia].
Qed.

Lemma output_agree P C L i enc x y : em_shape P d C L ->
  Forall (fun b => bounded_logits d heads (ln_1a b) (self_attention b)) (decoder_layers P) ->
  length x = length y -> firstn i x = firstn i y -> i < length x ->
  match get_transformer_output gelu d heads P enc x, get_transformer_output gelu d heads P enc y with
  | Ok (m, s, o), Ok (m', s', o') =>
      (length m = length m' /\ length s = length s' /\ length o = length o') /\
      firstn (S i) m = firstn (S i) m' /\ firstn (S i) s = firstn (S i) s' /\ firstn (S i) o = firstn (S i) o'
  | Raise e, Raise e' => e = e'
  | _, _ => False
  end.
Proof.
  intros (SE & SN & LP & FP & SB) BL Lxy F Hi. unfold get_transformer_output, embed, learned_position.
  destruct (start_agree P x y i Lxy F) as [LS FS]. specialize (FS Hi).
  set (sx := start_sym (learned_zero P) x) in *. set (sy := start_sym (learned_zero P) y) in *.
  rewrite !map_length, <- LS. destruct (length sx =? length (dec_position P)) eqn:Q; [|reflexivity]. cbn [negb bind].
  apply Nat.eqb_eq in Q.
  destruct (length enc =? length (enc_position_joint P)); [|reflexivity]. cbn [negb bind].
  destruct (transformer gelu d heads None (encoder_joint P) (map2 vadd enc (enc_position_joint P)) None) as [e2|]; [|reflexivity].
  cbn [bind].
  assert (A : agree (S i) (map2 vadd (map (layer_norm (post_embedding_layernorm P)) (map (lin (decoder_embedding P)) (map (map (fun a : R => (a / 35)%R)) sx))) (dec_position P))
                          (map2 vadd (map (layer_norm (post_embedding_layernorm P)) (map (lin (decoder_embedding P)) (map (map (fun a : R => (a / 35)%R)) sy))) (dec_position P))).
  { apply agree_vadd_r; [exact FP|]. apply agree_map; [intros t Ht; now apply norm_len|].
    split; [now rewrite !map_length|]. split; [now rewrite !firstn_map, FS|].
    split; apply Forall_map, Forall_forall; intros t _; eapply lin_len; eassumption. }
  match type of A with agree _ ?a _ =>
    assert (LA : length a = length (dec_position P)) by (rewrite map2_len, !map_length; lia) end.
  pose proof (transformer_agree (S i) (length (dec_position P)) (decoder_layers P) _ _ e2 SB BL LA A) as T.
  match type of T with agree_res _ ?a ?b => destruct a as [ox|ex]; destruct b as [oy|ey]; cbn in T; try easy end.
  all: try solve [cbn; exact T].
  cbn [bind]. destruct T as (T1 & T2 & _). rewrite !map_length, !firstn_map, T2. repeat split; auto.
Qed.
End TF.

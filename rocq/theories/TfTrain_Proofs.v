From Coq Require Import Arith List Bool Lia Lra Reals ZArith.
From Verif Require Import Base RBase RFloat Gsn_Model EM_Model TF_Model TF_Spec TF_Proofs TfTrain_Model.
Import ListNotations.
Open Scope nat_scope.

(** ** Dropout *)
Lemma map2_mapi_len {A B} (f : A -> nat -> B) x s : length (map2 f x (seq s (length x))) = length x.
Proof. rewrite map2_len, seq_length. apply Nat.min_id. Qed.
Lemma dropout_len tr p kept x : length (dropout tr p kept x) = length x.
Proof. unfold dropout. destruct tr; [apply map2_mapi_len|reflexivity]. Qed.
Lemma mapi_shift {A B} (f : A -> nat -> B) x s : map2 f x (seq s (length x)) = map2 (fun a j => f a (s + j)) x (seq 0 (length x)).
Proof.
  revert f s. induction x as [|a x IH]; intros f s; [reflexivity|]. cbn [length seq]. rewrite !map2_cons.
  rewrite (IH f (S s)), (IH _ 1), Nat.add_0_r. f_equal. unfold map2. apply map_ext. intros [b j]. cbn [fst snd].
  f_equal. lia.
Qed.
Lemma dropout_app tr p kept x y : dropout tr p kept (x ++ y) = dropout tr p kept x ++ dropout tr p (fun j => kept (length x + j)) y.
Proof.
  unfold dropout. destruct tr; [|reflexivity]. rewrite app_length, seq_app, map2_app by now rewrite seq_length.
  f_equal. cbn [Nat.add]. apply mapi_shift.
Qed.
Lemma dropout_zeros tr p kept n : dropout tr p kept (repeat 0%R n) = repeat 0%R n.
Proof.
  unfold dropout. destruct tr; [|reflexivity]. rewrite repeat_length. generalize 0 as s.
  induction n as [|n IH]; intro s; [reflexivity|]. cbn [repeat seq]. rewrite map2_cons, IH.
  f_equal. destruct (kept s); ring.
Qed.
Lemma mapi_firstn {A B} (f : A -> nat -> B) k x : firstn k (map2 f x (seq 0 (length x))) = map2 f (firstn k x) (seq 0 (length (firstn k x))).
Proof. rewrite map2_firstn, firstn_seq, firstn_length. reflexivity. Qed.
Lemma mapi_forall {A B} (P : A -> Prop) (Q : B -> Prop) (f : A -> nat -> B) x s : (forall a j, P a -> Q (f a j)) ->
  Forall P x -> Forall Q (map2 f x (seq s (length x))).
Proof.
  intros H F. revert s. induction F as [|a x Ha F IH]; intro s; [constructor|].
  cbn [length seq]. rewrite map2_cons. constructor; auto.
Qed.
Lemma agree_mapi d k (f : token -> nat -> token) x y : (forall t i, length t = d -> length (f t i) = d) -> agree d k x y ->
  agree d k (map2 f x (seq 0 (length x))) (map2 f y (seq 0 (length y))).
Proof.
  intros L (A1 & A2 & A3 & A4). split; [now rewrite !map2_mapi_len|]. split; [now rewrite !mapi_firstn, A2|].
  split; apply (mapi_forall (fun t : token => length t = d)); auto.
Qed.
Lemma agree_drop_path d k tr p r x y : agree d k x y -> agree d k (drop_path tr p r x) (drop_path tr p r y).
Proof.
  intro A. unfold drop_path. destruct (negb tr || _); [exact A|]. apply agree_map; [|exact A]. intros t H. now rewrite map_length.
Qed.
Lemma drop_path_len tr p r x : length (drop_path tr p r x) = length x.
Proof. unfold drop_path. destruct (negb tr || _); [reflexivity|]. apply map_length. Qed.

Section TF.
Variable gelu : R -> R.
Variables (d heads : nat) (tr : bool) (p : R).
Notation agree := (agree d).
Notation agree_res := (agree_res d).

(** ** The masked weights are the weights over the prefix, then zeros *)
Lemma weights_prefix q ks i : i < length ks ->
  (forall k, In k ks -> (Rabs (dot q k * attn_scale d heads) <= 400000)%R) ->
  head_weights d heads q ks (Some (repeat 0%R (S i) ++ repeat 1%R (length ks - S i))) =
  head_weights d heads q (firstn (S i) ks) None ++ repeat 0%R (length ks - S i).
Proof.
  intros Hi Bd. unfold head_weights. cbv zeta.
  assert (EK : map (fun k => (dot q k * attn_scale d heads)%R) ks =
    map (fun k => (dot q k * attn_scale d heads)%R) (firstn (S i) ks) ++ map (fun k => (dot q k * attn_scale d heads)%R) (skipn (S i) ks))
    by (rewrite <- map_app, firstn_skipn; reflexivity).
  rewrite EK. clear EK.
  set (a := map _ (firstn (S i) ks)). set (b := map _ (skipn (S i) ks)).
  assert (La : length a = S i) by (unfold a; rewrite map_length, firstn_length; lia).
  assert (Lb : length b = length ks - S i) by (unfold b; rewrite map_length, skipn_length; lia).
  rewrite map2_app by now rewrite repeat_length.
  rewrite !map2_repeat_r by assumption.
  assert (Ea : map (fun x => (x + 0 * -1000000)%R) a = a).
  { rewrite <- (map_id a) at 2. apply map_ext. intro. lra. }
  rewrite Ea.
  assert (Ba : Forall (fun x => (Rabs x <= 400000)%R) a).
  { unfold a. apply Forall_map, Forall_forall. intros k Hk. apply Bd. rewrite <- (firstn_skipn (S i) ks). apply in_or_app. now left. }
  assert (Bb : Forall (fun x => (Rabs x <= 400000)%R) b).
  { unfold b. apply Forall_map, Forall_forall. intros k Hk. apply Bd. rewrite <- (firstn_skipn (S i) ks). apply in_or_app. now right. }
  rewrite softmax_far.
  2:{ intro Z. rewrite Z in La. discriminate. }
  2:{ intros y Hy. apply in_map_iff in Hy. destruct Hy as (z & <- & Hz).
      rewrite Forall_forall in Ba, Bb. destruct a as [|x a']; [discriminate|]. exists x. split; [now left|].
      specialize (Ba x (or_introl eq_refl)). specialize (Bb z Hz). revert Ba Bb. rabs; lra. }
  rewrite map_length, Lb.
  assert (Ls : length (softmax a) = S i) by (unfold softmax; now rewrite !map_length).
  rewrite map2_app by now rewrite repeat_length.
  rewrite (map2_repeat_r _ (softmax a)) by exact Ls. rewrite map2_repeat_l by apply repeat_length.
  assert (Es : map (fun x => (x * (1 - 0))%R) (softmax a) = softmax a).
  { rewrite <- (map_id (softmax a)) at 2. apply map_ext. intro. lra. }
  rewrite Es. f_equal. generalize (length ks - S i) as n. induction n as [|n IH]; [reflexivity|].
  cbn [repeat map]. rewrite IH. f_equal. ring.
Qed.
Lemma head_weights_len q ks : length (head_weights d heads q ks None) = length ks.
Proof. unfold head_weights. cbv zeta. unfold softmax. now rewrite !map_length. Qed.

Lemma attend_train_prefix q ks vs i kept : i < length ks -> length vs = length ks ->
  (forall k, In k ks -> (Rabs (dot q k * attn_scale d heads) <= 400000)%R) ->
  attend_train d heads tr p q ks vs (Some (repeat 0%R (S i) ++ repeat 1%R (length ks - S i))) kept =
  attend_train d heads tr p q (firstn (S i) ks) (firstn (S i) vs) None kept.
Proof.
  intros Hi Lv Bd. unfold attend_train. cbv zeta. rewrite weights_prefix by assumption.
  rewrite dropout_app, dropout_zeros. apply map_ext. intro c.
  rewrite <- (firstn_skipn (S i) vs) at 1.
  rewrite map2_app by (rewrite dropout_len, head_weights_len, !firstn_length; lia).
  rewrite sum_app, (sum_zeros (map2 _ (repeat _ _) _)), Rplus_0_r; [reflexivity|].
  apply Forall_forall. intros x Hx. unfold map2 in Hx. apply in_map_iff in Hx. destruct Hx as ([w v] & <- & Hp).
  apply in_combine_l in Hp. apply repeat_spec in Hp. subst w. cbn [fst snd]. ring.
Qed.

Lemma agree_dropout_seq k kept x y : agree k x y -> agree k (dropout_seq tr p kept x) (dropout_seq tr p kept y).
Proof. intro A. apply agree_mapi; [|exact A]. intros t i H. now rewrite dropout_len. Qed.

Lemma self_attention_train_agree k a dr nm x y : attention_shape a d -> norm_shape nm d -> bounded_logits d heads nm a ->
  agree k x y ->
  agree_res k (attention_train d heads tr p a dr (map (layer_norm nm) x) (map (layer_norm nm) x) (Some (look_ahead_mask (length x))))
              (attention_train d heads tr p a dr (map (layer_norm nm) y) (map (layer_norm nm) y) (Some (look_ahead_mask (length y)))).
Proof.
  intros (SQ & SK & SV & SP) SN BL (A1 & A2 & A3 & A4). unfold attention_train. rewrite !map_length, <- A1.
  destruct (length x =? 0) eqn:Z; [reflexivity|]. apply Nat.eqb_neq in Z.
  destruct (negb (length x mod length x =? 0)); [reflexivity|].
  rewrite mask_ok. cbn [negb]. rewrite Nat.div_same by exact Z. cbn [repeat concat].
  apply agree_dropout_seq.
  apply agree_attention_out; try (intro; eapply lin_len; eassumption).
  intros i Hi Hk. f_equal. f_equal. apply map_ext. intro h. rewrite app_nil_r, mask_row by exact Hi.
  assert (PRE : forall z, length z = length x -> Forall (fun t => length t = d) z ->
    attend_train d heads tr p (head d heads h (nth i (map (lin (q_linear a)) (map (layer_norm nm) z)) []))
      (map (head d heads h) (map (lin (k_linear a)) (map (layer_norm nm) z)))
      (map (head d heads h) (map (lin (v_linear a)) (map (layer_norm nm) z)))
      (Some (repeat 0%R (S i) ++ repeat 1%R (length x - S i))) (ad_attn dr h i) =
    attend_train d heads tr p (head d heads h (lin (q_linear a) (layer_norm nm (nth i z []))))
      (map (head d heads h) (map (lin (k_linear a)) (map (layer_norm nm) (firstn (S i) z))))
      (map (head d heads h) (map (lin (v_linear a)) (map (layer_norm nm) (firstn (S i) z)))) None (ad_attn dr h i)).
  { intros z Lz Fz.
    set (ks := map (head d heads h) (map (lin (k_linear a)) (map (layer_norm nm) z))).
    set (vs := map (head d heads h) (map (lin (v_linear a)) (map (layer_norm nm) z))).
    assert (Lk : length ks = length x) by (unfold ks; now rewrite !map_length).
    assert (Lv : length vs = length x) by (unfold vs; now rewrite !map_length).
    rewrite (nth_map_d _ _ _ (layer_norm nm [])) by (rewrite map_length; lia).
    rewrite (nth_map_d _ _ _ []) by lia.
    rewrite <- Lk at 1. rewrite attend_train_prefix.
    - unfold ks, vs. now rewrite !firstn_map.
    - lia.
    - lia.
    - intros kk Hkk. unfold ks in Hkk. rewrite map_map, map_map in Hkk. apply in_map_iff in Hkk.
      destruct Hkk as (t & <- & Ht). apply BL.
      + rewrite Forall_forall in Fz. apply Fz. apply nth_In. lia.
      + rewrite Forall_forall in Fz. auto. }
  rewrite (PRE x eq_refl A3), (PRE y (eq_sym A1) A4).
  rewrite (firstn_nth x y k i [] A2 Hk), (firstn_le x y k (S i) A2 Hk). reflexivity.
Qed.

Lemma cross_attention_train_agree k a dr nm x y e : attention_shape a d -> norm_shape nm d -> agree k x y ->
  agree_res k (attention_train d heads tr p a dr (map (layer_norm nm) x) e None)
              (attention_train d heads tr p a dr (map (layer_norm nm) y) e None).
Proof.
  intros (SQ & SK & SV & SP) SN (A1 & A2 & A3 & A4). unfold attention_train. rewrite !map_length, <- A1.
  destruct (length x =? 0) eqn:Z; [reflexivity|]. apply Nat.eqb_neq in Z.
  destruct (negb (length e mod length x =? 0)); [reflexivity|].
  apply agree_dropout_seq.
  apply agree_attention_out; try (intro; eapply lin_len; eassumption).
  intros i Hi Hk. f_equal. f_equal. apply map_ext. intro h.
  rewrite !map_map.
  rewrite (nth_map_d _ x i [] []), (nth_map_d _ y i [] []) by lia. rewrite (firstn_nth x y k i [] A2 Hk). reflexivity.
Qed.

Lemma attention_train_len a dr q kv m o : attention_train d heads tr p a dr q kv m = Ok o -> length o = length q.
Proof.
  unfold attention_train. destruct (_ =? 0); [discriminate|]. destruct (negb _); [discriminate|].
  destruct (match m with Some _ => _ | None => _ end); [discriminate|]. intro E. injection E as <-.
  unfold dropout_seq. now rewrite map2_mapi_len, map_length, seq_length.
Qed.

Lemma mlp_branch_agree k n m dr r x y : norm_shape n d -> mlp_shape m d -> agree k x y ->
  agree k (mlp_branch gelu tr p n m dr r x) (mlp_branch gelu tr p n m dr r y).
Proof.
  intros N (q & M1 & M2) A. unfold mlp_branch. apply agree_vadd; [exact A|]. apply agree_drop_path.
  apply agree_mapi; [|exact A]. intros t i H. unfold mlp_train. rewrite dropout_len. eapply lin_len; eassumption.
Qed.
Lemma mlp_branch_len n m dr r x : length (mlp_branch gelu tr p n m dr r x) = length x.
Proof. unfold mlp_branch. rewrite map2_len, drop_path_len, map2_mapi_len. apply Nat.min_id. Qed.

Lemma block_train_agree k n b dr x y e : block_shape b d -> bounded_logits d heads (ln_1a b) (self_attention b) ->
  length x = n -> agree k x y ->
  agree_res k (block_train gelu d heads tr p (Some n) b dr x (Some e)) (block_train gelu d heads tr p (Some n) b dr y (Some e)) /\
  (forall o, block_train gelu d heads tr p (Some n) b dr x (Some e) = Ok o -> length o = n).
Proof.
  intros (N1 & AT1 & N2 & M1 & N3 & AT2 & N4 & M2) BL Ln A. unfold block_train. cbn [option_map].
  pose proof (self_attention_train_agree k _ (bd_self dr) _ x y AT1 N1 BL A) as SA.
  assert (Ly : length y = n) by (destruct A as (A & _); lia). rewrite Ln, Ly in SA.
  destruct (attention_train d heads tr p (self_attention b) _ (map (layer_norm (ln_1a b)) x) _ _) as [sx|ex] eqn:EX;
  destruct (attention_train d heads tr p (self_attention b) _ (map (layer_norm (ln_1a b)) y) _ _) as [sy|ey] eqn:EY; cbn in SA; try easy.
  all: try solve [subst; cbn; split; [reflexivity|discriminate]].
  cbn [bind]. apply attention_train_len in EX. rewrite map_length in EX.
  assert (X1 : agree k (map2 vadd x (drop_path tr p (bd_path1 dr) sx)) (map2 vadd y (drop_path tr p (bd_path1 dr) sy)))
    by (apply agree_vadd; [exact A|now apply agree_drop_path]).
  pose proof (mlp_branch_agree k _ _ (bd_mlp1 dr) (bd_path2 dr) _ _ N2 M1 X1) as X2.
  revert X2. set (x2 := mlp_branch _ _ _ _ _ _ _ (map2 vadd x _)). set (y2 := mlp_branch _ _ _ _ _ _ _ (map2 vadd y _)). intro X2.
  assert (L2 : length x2 = n) by (unfold x2; rewrite mlp_branch_len, map2_len, drop_path_len; lia).
  pose proof (cross_attention_train_agree k _ (bd_cross dr) _ x2 y2 e AT2 N3 X2) as CA.
  destruct (attention_train d heads tr p (cross_attention b) _ (map (layer_norm (ln_2a b)) x2) _ _) as [cx|ex] eqn:CX;
  destruct (attention_train d heads tr p (cross_attention b) _ (map (layer_norm (ln_2a b)) y2) _ _) as [cy|ey] eqn:CY; cbn in CA; try easy.
  all: try solve [subst; cbn; split; [reflexivity|discriminate]].
  cbn [bind]. apply attention_train_len in CX. rewrite map_length in CX. split.
  - cbn. apply mlp_branch_agree; [exact N4|exact M2|]. apply agree_vadd; [exact X2|now apply agree_drop_path].
  - intros o E. injection E as <-. rewrite mlp_branch_len, map2_len, drop_path_len. lia.
Qed.

Lemma transformer_train_agree k n layers : forall draws x y e, Forall (fun b => block_shape b d) layers ->
  Forall (fun b => bounded_logits d heads (ln_1a b) (self_attention b)) layers ->
  length x = n -> agree k x y ->
  agree_res k (transformer_train gelu d heads tr p (Some n) layers draws x (Some e))
              (transformer_train gelu d heads tr p (Some n) layers draws y (Some e)).
Proof.
  induction layers as [|b layers IH]; intros draws x y e S BL Ln A; [exact A|].
  inversion S as [|? ? S1 S2]; subst. inversion BL as [|? ? B1 B2]; subst. cbn [transformer_train].
  destruct (block_train_agree k (length x) b (draws 0) x y e S1 B1 eq_refl A) as [AB LB].
  destruct (block_train gelu d heads tr p (Some (length x)) b (draws 0) x (Some e)) as [bx|ex];
  destruct (block_train gelu d heads tr p (Some (length x)) b (draws 0) y (Some e)) as [by_|ey]; cbn in AB; try easy.
  cbn [bind]. apply IH; auto.
Qed.
End TF.

Lemma output_train_agree gelu d heads tr pe pd P de dd C L i enc x y : em_shape P d C L ->
  Forall (fun b => bounded_logits d heads (ln_1a b) (self_attention b)) (decoder_layers P) ->
  length x = length y -> firstn i x = firstn i y -> i < length x ->
  match output_train gelu d heads tr pe pd P de dd enc x, output_train gelu d heads tr pe pd P de dd enc y with
  | Ok (m, s, o), Ok (m', s', o') =>
      (length m = length m' /\ length s = length s' /\ length o = length o') /\
      firstn (S i) m = firstn (S i) m' /\ firstn (S i) s = firstn (S i) s' /\ firstn (S i) o = firstn (S i) o'
  | Raise e, Raise e' => e = e'
  | _, _ => False
  end.
Proof.
  intros (SE & SN & LP & FP & SB) BL Lxy F Hi. unfold output_train, embed, learned_position.
  destruct (start_agree P x y i Lxy F) as [LS FS]. specialize (FS Hi).
  set (sx := start_sym (learned_zero P) x) in *. set (sy := start_sym (learned_zero P) y) in *.
  rewrite !map_length, <- LS. destruct (length sx =? length (dec_position P)) eqn:Q; [|reflexivity]. cbn [negb bind].
  apply Nat.eqb_eq in Q.
  destruct (length enc =? length (enc_position_joint P)); [|reflexivity]. cbn [negb bind].
  destruct (transformer_train gelu d heads tr pe None (encoder_joint P) de (map2 vadd enc (enc_position_joint P)) None) as [e2|]; [|reflexivity].
  cbn [bind].
  assert (A : agree d (S i) (map2 vadd (map (layer_norm (post_embedding_layernorm P)) (map (lin (decoder_embedding P)) (map (map (fun a : R => (a / 35)%R)) sx))) (dec_position P))
                          (map2 vadd (map (layer_norm (post_embedding_layernorm P)) (map (lin (decoder_embedding P)) (map (map (fun a : R => (a / 35)%R)) sy))) (dec_position P))).
  { apply agree_vadd_r; [exact FP|]. apply agree_map; [intros t Ht; now apply norm_len|].
    split; [now rewrite !map_length|]. split; [now rewrite !firstn_map, FS|].
    split; apply Forall_map, Forall_forall; intros t _; eapply lin_len; eassumption. }
  match type of A with agree _ _ ?a _ =>
    assert (LA : length a = length (dec_position P)) by (rewrite map2_len, !map_length; lia) end.
  pose proof (transformer_train_agree gelu d heads tr pd (S i) (length (dec_position P)) (decoder_layers P) dd _ _ e2 SB BL LA A) as T.
  match type of T with agree_res _ _ ?a ?b => destruct a as [ox|ex]; destruct b as [oy|ey]; cbn in T; try easy end.
  all: try solve [cbn; exact T].
  cbn [bind]. destruct T as (T1 & T2 & _). rewrite !map_length, !firstn_map, T2. repeat split; auto.
Qed.

(** ** Nothing dropped: evaluation, or rate 0 with everything kept *)
Definition keeps (dr : block_draws) : Prop :=
  (forall h i j, ad_attn (bd_self dr) h i j = true) /\ (forall i c, ad_proj (bd_self dr) i c = true) /\
  (forall i c, md_1 (bd_mlp1 dr) i c = true) /\ (forall i c, md_2 (bd_mlp1 dr) i c = true) /\
  (forall h i j, ad_attn (bd_cross dr) h i j = true) /\ (forall i c, ad_proj (bd_cross dr) i c = true) /\
  (forall i c, md_1 (bd_mlp2 dr) i c = true) /\ (forall i c, md_2 (bd_mlp2 dr) i c = true).
Definition inactive (tr : bool) (p : R) : Prop := tr = false \/ p = 0%R.

Lemma dropout_id tr p kept x : inactive tr p -> (tr = true -> forall j, kept j = true) -> dropout tr p kept x = x.
Proof.
  intros [E|E] K; unfold dropout; destruct tr; try reflexivity; try discriminate. specialize (K eq_refl). subst p.
  generalize 0 as s. induction x as [|a x IH]; intro s; [reflexivity|]. cbn [length seq]. rewrite map2_cons, IH, K. f_equal. field.
Qed.
Lemma drop_path_id tr p r x : inactive tr p -> drop_path tr p r x = x.
Proof.
  intros [E|E]; unfold drop_path; subst; [reflexivity|]. destruct (Req_EM_T 0 0); [|easy]. now rewrite orb_true_r.
Qed.
Lemma mapi_ext {A B} (f : A -> nat -> B) (g : A -> B) x s : (forall a j, f a j = g a) -> map2 f x (seq s (length x)) = map g x.
Proof. intro H. revert s. induction x as [|a x IH]; intro s; [reflexivity|]. cbn [length seq map]. now rewrite map2_cons, IH, H. Qed.
Lemma attention_train_id d heads tr p a dr q kv m : inactive tr p ->
  (tr = true -> (forall h i j, ad_attn dr h i j = true) /\ (forall i c, ad_proj dr i c = true)) ->
  attention_train d heads tr p a dr q kv m = attention_forward d heads a q kv m.
Proof.
  intros I K. unfold attention_train, attention_forward.
  destruct (_ =? 0); [reflexivity|]. destruct (negb _); [reflexivity|].
  destruct (match m with Some _ => _ | None => _ end); [reflexivity|]. f_equal.
  unfold dropout_seq. rewrite (mapi_ext _ (fun t => t)).
  2:{ intros t j. apply dropout_id; [exact I|]. intro T. apply (proj2 (K T)). }
  rewrite map_id. apply map_ext. intro i. do 2 f_equal. apply map_ext. intro h.
  unfold attend_train, attend. cbv zeta. unfold head_weights. cbv zeta. rewrite dropout_id; [reflexivity|exact I|].
  intro T. apply (proj1 (K T)).
Qed.
Lemma mlp_branch_id gelu tr p n m dr r x : inactive tr p ->
  (tr = true -> (forall i c, md_1 dr i c = true) /\ (forall i c, md_2 dr i c = true)) ->
  mlp_branch gelu tr p n m dr r x = map (fun t => vadd t (mlp_forward gelu m (layer_norm n t))) x.
Proof.
  intros I K. unfold mlp_branch. rewrite drop_path_id by exact I.
  rewrite (mapi_ext _ (fun t => mlp_forward gelu m (layer_norm n t))).
  - induction x as [|t x IH]; [reflexivity|]. cbn [map]. now rewrite map2_cons, IH.
  - intros t i. unfold mlp_train, mlp_forward. rewrite (dropout_id tr p (md_1 dr i)), dropout_id; try exact I; try reflexivity; intro T; apply (K T).
Qed.
Lemma block_train_id gelu d heads tr p dec b dr x e : inactive tr p -> (tr = true -> keeps dr) ->
  block_train gelu d heads tr p dec b dr x e = block_forward gelu d heads dec b x e.
Proof.
  intros I K.
  assert (Q : forall dec', match dec', e with Some _, None => True | _, _ =>
     block_train gelu d heads tr p dec' b dr x e = block_forward gelu d heads dec' b x e end).
  { intro dec'. destruct dec' as [n|], e as [e|]; try exact Logic.I; unfold block_train, block_forward;
    (rewrite attention_train_id; [|exact I|intro T; destruct (K T) as (A & B & _); now split];
     destruct (attention_forward d heads (self_attention b) _ _ _) as [sx|]; [|reflexivity]; cbn [bind];
     rewrite drop_path_id by exact I;
     rewrite (mlp_branch_id gelu tr p (ln_1b b)); [|exact I|intro T; destruct (K T) as (_ & _ & A & B & _); now split];
     rewrite attention_train_id; [|exact I|intro T; destruct (K T) as (_ & _ & _ & _ & A & B & _); now split];
     destruct (attention_forward d heads (cross_attention b) _ _ _) as [cx|]; [|reflexivity]; cbn [bind];
     rewrite drop_path_id by exact I;
     rewrite mlp_branch_id; [reflexivity|exact I|intro T; destruct (K T) as (_ & _ & _ & _ & _ & _ & A & B); now split]). }
  specialize (Q dec). destruct dec, e; try exact Q. reflexivity.
Qed.
Lemma transformer_train_id gelu d heads tr p dec layers : inactive tr p -> forall draws x e, (tr = true -> forall k, keeps (draws k)) ->
  transformer_train gelu d heads tr p dec layers draws x e = transformer gelu d heads dec layers x e.
Proof.
  intro I. induction layers as [|b layers IH]; intros draws x e K; [reflexivity|]. cbn [transformer_train transformer].
  rewrite block_train_id; [|exact I|intro T; apply (K T)]. destruct (block_forward _ _ _ _ _ _ _); [|reflexivity]. cbn [bind].
  apply IH. intros T k. apply (K T).
Qed.

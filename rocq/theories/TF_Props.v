(** C28: the transformer that predicts the distributions is causal. *)
From Coq Require Import Arith List Bool Lia Lra Reals ZArith.
From Verif Require Import Base RBase RFloat Gsn_Model EM_Model EM_Spec EM_Props TF_Model TF_Spec TF_Proofs.
Import ListNotations.
Open Scope nat_scope.

(** One masked query: the output for position [i] is that of unmasked attention over the
    positions 0..i, so later keys and values have no influence at all. *)
Theorem vct_masked_attention : forall d heads q ks vs i,
  i < length ks -> length vs = length ks ->
  (forall k, In k ks -> (Rabs (dot q k * attn_scale d heads) <= 400000)%R) ->
  attend d heads q ks vs (Some (nth i (look_ahead_mask (length ks)) [])) =
  attend d heads q (firstn (S i) ks) (firstn (S i) vs) None.
Proof. intros. rewrite mask_row by assumption. apply attend_prefix; assumption. Qed.
Print Assumptions vct_masked_attention.

Lemma firstn_nth_error {A} (l l' : list A) i : firstn (S i) l = firstn (S i) l' -> nth_error l i = nth_error l' i.
Proof.
  assert (K : forall m : list A, nth_error m i = nth_error (firstn (S i) m) i).
  { induction i as [|i IH]; intros [|a m]; cbn; auto. apply IH. }
  intro E. rewrite K, E, <- K. reflexivity.
Qed.

(** One patch: if two latents agree before position [i], the predicted mean and scale and
    the output for position [i] are the same (and either both runs fail or none does). *)
Theorem vct_decoder_causal : forall gelu d heads P C L enc x y i,
  em_shape P d C L ->
  Forall (fun b => bounded_logits d heads (ln_1a b) (self_attention b)) (decoder_layers P) ->
  length x = length y -> i < length x -> firstn i x = firstn i y ->
  match get_transformer_output gelu d heads P enc x, get_transformer_output gelu d heads P enc y with
  | Ok (m, s, o), Ok (m', s', o') => nth_error m i = nth_error m' i /\ nth_error s i = nth_error s' i /\ nth_error o i = nth_error o' i
  | Raise e, Raise e' => e = e'
  | _, _ => False
  end.
Proof.
  intros gelu d heads P C L enc x y i S BL Lxy Hi F.
  pose proof (output_agree gelu d heads P C L i enc x y S BL Lxy F Hi) as A.
  destruct (get_transformer_output gelu d heads P enc x) as [[[m s] o]|]; destruct (get_transformer_output gelu d heads P enc y) as [[[m' s'] o']|]; auto.
  destruct A as (_ & A1 & A2 & A3). auto using firstn_nth_error.
Qed.
Print Assumptions vct_decoder_causal.

Lemma firstn_nth_d {A} (l l' : list A) i d : firstn (S i) l = firstn (S i) l' -> nth i l d = nth i l' d.
Proof. intro H. apply (firstn_nth l l' (S i)); auto. Qed.

(** All patches: the whole network is causal, in the sense in which [em_causal_one_shot]
    needs it. *)
Theorem vct_network_causal : forall gelu d heads P C L,
  em_shape P d C L ->
  Forall (fun b => bounded_logits d heads (ln_1a b) (self_attention b)) (decoder_layers P) ->
  causal (tf_net gelu d heads P C) L.
Proof.
  intros gelu d heads P C L S BL e t1 t2 i L1 L2 Hi F. unfold tf_net.
  set (l := combine (seq 0 (length e)) e). clearbody l.
  set (g := patch_run gelu d heads P C).
  assert (R : match mapM (g t1) l, mapM (g t2) l with
    | Ok rs, Ok rs' => map (fun r => nth i (fst (fst r)) []) rs = map (fun r => nth i (fst (fst r)) []) rs' /\
                       map (fun r => nth i (snd (fst r)) []) rs = map (fun r => nth i (snd (fst r)) []) rs' /\
                       map (fun r => nth i (snd r) []) rs = map (fun r => nth i (snd r) []) rs'
    | Raise _, Raise _ => True
    | _, _ => False
    end).
  { induction l as [|p l IH]; [cbn; auto|]. cbn [mapM].
    assert (A := output_agree gelu d heads P C L i (snd p) (map (fun t => firstn C (skipn (fst p * C) t)) t1)
      (map (fun t => firstn C (skipn (fst p * C) t)) t2) S BL ltac:(rewrite !map_length; lia) ltac:(rewrite !firstn_map, F; reflexivity)
      ltac:(rewrite map_length; lia)). 
    change (get_transformer_output gelu d heads P (snd p) (map (fun t => firstn C (skipn (fst p * C) t)) t1)) with (g t1 p) in A.
    change (get_transformer_output gelu d heads P (snd p) (map (fun t => firstn C (skipn (fst p * C) t)) t2)) with (g t2 p) in A.
    destruct (g t1 p) as [[[m s] o]|]; destruct (g t2 p) as [[[m' s'] o']|]; try easy. destruct A as (_ & A1 & A2 & A3). cbn [bind].
    destruct (mapM (g t1) l), (mapM (g t2) l); try easy. cbn [bind map fst snd].
    destruct IH as (I1 & I2 & I3). rewrite I1, I2, I3.
    rewrite (firstn_nth_d _ _ i [] A1), (firstn_nth_d _ _ i [] A2), (firstn_nth_d _ _ i [] A3). auto. }
  destruct (mapM (g t1) l) as [rs|], (mapM (g t2) l) as [rs'|]; try easy.
  destruct R as (R1 & R2 & R3). rewrite L1, L2.
  assert (N : forall f g' : nat -> token, f i = g' i -> nth_error (map f (seq 0 L)) i = nth_error (map g' (seq 0 L)) i).
  { intros f g' E. rewrite !nth_error_map.
    assert (Q : nth_error (seq 0 L) i = Some i).
    { rewrite (nth_error_nth' _ 0) by now rewrite seq_length. now rewrite seq_nth. }
    rewrite Q. cbn. now f_equal. }
  repeat split; apply N; congruence.
Qed.
Print Assumptions vct_network_causal.

(** Consequence: the distributions used for coding token by token are those of one parallel
    run on the quantised latent, whose likelihood the forward pass reports. *)
Theorem vct_coded_distributions : forall gelu d heads P C L enc latent quant means scales j,
  em_shape P d C L ->
  Forall (fun b => bounded_logits d heads (ln_1a b) (self_attention b)) (decoder_layers P) ->
  length latent = L -> length quant = L -> j < L ->
  predicted_so_far (tf_net gelu d heads P C) enc latent quant means scales j ->
  let '(m, s, _) := tf_net gelu d heads P C enc quant in nth j means [] = nth j m [] /\ nth j scales [] = nth j s [].
Proof.
  intros gelu d heads P C L enc latent quant means scales j S BL A1 A2 A3 A4.
  apply (em_causal_one_shot (tf_net gelu d heads P C) L enc latent quant means scales j); auto.
  eapply vct_network_causal; eassumption.
Qed.
Print Assumptions vct_coded_distributions.

(** ** The bound on the logits follows from bounds on the parameters *)
Lemma sum_cons x l : sum (x :: l) = (x + sum l)%R. Proof. reflexivity. Qed.
Lemma sum_abs_nonneg l : (0 <= sum (map Rabs l))%R.
Proof. induction l as [|x l IH]; [apply Rle_refl|]. cbn [map]. rewrite sum_cons. pose proof (Rabs_pos x). lra. Qed.
Lemma dot_bound M a : (0 <= M)%R -> entries_le M a -> forall b, (Rabs (dot a b) <= M * sum (map Rabs b))%R.
Proof.
  intros HM. induction 1 as [|x a Hx F IH]; intro b.
  - unfold dot. cbn. rewrite Rabs_R0. apply Rmult_le_pos; [exact HM|apply sum_abs_nonneg].
  - destruct b as [|y b].
    + unfold dot. rewrite map2_nil_r. cbn. rewrite Rabs_R0. lra.
    + unfold dot in *. rewrite map2_cons, sum_cons. cbn [map]. rewrite sum_cons.
      eapply Rle_trans; [apply Rabs_triang|]. rewrite Rabs_mult, Rmult_plus_distr_l.
      apply Rplus_le_compat; [|apply IH]. apply Rmult_le_compat_r; [apply Rabs_pos|exact Hx].
Qed.
Lemma sum_abs_le M l : entries_le M l -> (sum (map Rabs l) <= M * INR (length l))%R.
Proof.
  induction 1 as [|x l Hx F IH]; [cbn; lra|]. cbn [map]. rewrite sum_cons. change (length (x :: l)) with (S (length l)).
  rewrite S_INR. lra.
Qed.
Lemma lin_bound W B l x : (0 <= W)%R -> Forall (entries_le W) (lin_w l) -> entries_le B (lin_b l) ->
  entries_le (W * sum (map Rabs x) + B)%R (lin l x).
Proof.
  intros HW. unfold lin. generalize (lin_b l). intros b Fw. revert b. induction Fw as [|r w Hr Fw IH]; intros b Fb; [constructor|].
  destruct Fb as [|c b Hc Fb]; [rewrite map2_nil_r; constructor|]. rewrite map2_cons. constructor; [|now apply IH].
  eapply Rle_trans; [apply Rabs_triang|]. apply Rplus_le_compat; [now apply dot_bound|exact Hc].
Qed.
Lemma sum_mult c l : sum (map (fun a => (c * a)%R) l) = (c * sum l)%R.
Proof. induction l as [|x l IH]; cbn [map]; [cbn; lra|]. rewrite !sum_cons, IH. lra. Qed.
Lemma sum_sq_nonneg (f : R -> R) l : (0 <= sum (map (fun a => (f a * f a)%R) l))%R.
Proof.
  induction l as [|x l IH]; [apply Rle_refl|]. cbn [map]. rewrite sum_cons.
  pose proof (Rle_0_sqr (f x)) as H. unfold Rsqr in H. lra.
Qed.
Lemma standardise_sum x : x <> [] -> (sum (map Rabs (standardise x)) <= INR (length x))%R.
Proof.
  intro NE. assert (N : (0 < INR (length x))%R) by (apply lt_0_INR; destruct x; [easy|cbn; lia]).
  set (m := mean x). set (v := var x). set (D := sqrt (v + / 1000000)).
  assert (V : (v * INR (length x) = sum (map (fun a => ((a - m) * (a - m))%R) x))%R).
  { unfold v, var, mean. rewrite map_length. fold (mean x). fold m. unfold Rdiv. rewrite Rmult_assoc, Rinv_l by lra. lra. }
  assert (V0 : (0 <= v)%R).
  { pose proof (sum_sq_nonneg (fun a => (a - m)%R) x) as H. cbn beta in H. rewrite <- V in H. 
    apply Rmult_le_reg_r with (INR (length x)); [exact N|lra]. }
  assert (D2 : (D * D = v + / 1000000)%R) by (apply sqrt_sqrt; lra).
  assert (D0 : (0 < D)%R) by (apply sqrt_lt_R0; lra).
  assert (Q : (sum (map Rabs (standardise x)) <= sum (map (fun a => ((1 + ((a - m) / D) * ((a - m) / D)) / 2)%R) x))%R).
  { unfold standardise. fold m v D. rewrite map_map. clearbody m v D. clear. induction x as [|a x IH]; [apply Rle_refl|]. cbn [map]. rewrite !sum_cons.
    apply Rplus_le_compat; [|exact IH]. generalize ((a - m) / D)%R. intro s.
    pose proof (Rle_0_sqr (Rabs s - 1)) as H. unfold Rsqr in H. assert (Rabs s * Rabs s = s * s)%R by (rabs; lra). nra. }
  eapply Rle_trans; [exact Q|].
  assert (E : sum (map (fun a => ((1 + ((a - m) / D) * ((a - m) / D)) / 2)%R) x) =
    ((INR (length x) + / (D * D) * sum (map (fun a => ((a - m) * (a - m))%R) x)) / 2)%R).
  { clear V Q NE N. clearbody m v D. induction x as [|a l IH]; [cbn; lra|]. cbn [map]. rewrite !sum_cons, IH. change (length (a :: l)) with (S (length l)).
    rewrite S_INR. field. lra. }
  rewrite E, <- V, D2. clear E Q D2.
  assert (K : (/ (v + / 1000000) * v <= 1)%R).
  { apply Rmult_le_reg_l with (v + / 1000000)%R; [lra|]. rewrite <- Rmult_assoc, Rinv_r by lra. lra. }
  rewrite <- Rmult_assoc. nra.
Qed.
Lemma layer_norm_sum G E d n x : (0 <= G)%R -> norm_shape n d -> entries_le G (n_gamma n) -> entries_le E (n_beta n) -> length x = d -> 1 <= d ->
  (sum (map Rabs (layer_norm n x)) <= (G + E) * INR d)%R.
Proof.
  intros HG [L1 L2] Fg Fb Lx Hd. unfold layer_norm.
  assert (S : (sum (map Rabs (standardise x)) <= INR d)%R).
  { rewrite <- Lx. apply standardise_sum. intro; subst x; cbn in Lx; lia. }
  assert (Ls : length (standardise x) = d) by (unfold standardise; now rewrite map_length).
  assert (K : (sum (map Rabs (map2 Rplus (map2 Rmult (standardise x) (n_gamma n)) (n_beta n))) <= G * sum (map Rabs (standardise x)) + E * INR d)%R).
  { clear S Lx Hd. revert d L1 L2 Ls. generalize (standardise x) as s. revert Fb. generalize (n_beta n) as b. 
    induction Fg as [|g gs Hg Fg IH]; intros b Fb s d L1 L2 Ls; cbn in L1; subst d.
    - destruct s; [|discriminate]. cbn. lra.
    - destruct s as [|a s]; [discriminate|]. destruct Fb as [|c b Hc Fb]; [discriminate|].
      rewrite !map2_cons. cbn [map]. rewrite !sum_cons, S_INR.
      specialize (IH b Fb s (length gs) eq_refl ltac:(cbn in L2; lia) ltac:(cbn in Ls; lia)).
      assert (Rabs (a * g + c) <= G * Rabs a + E)%R.
      { eapply Rle_trans; [apply Rabs_triang|]. rewrite Rabs_mult, (Rmult_comm G). apply Rplus_le_compat; [|exact Hc].
        apply Rmult_le_compat_l; [apply Rabs_pos|exact Hg]. }
      lra. }
  eapply Rle_trans; [exact K|]. nra.
Qed.
Lemma Forall_skipn {A} (P : A -> Prop) n l : Forall P l -> Forall P (skipn n l).
Proof. intro H. revert n. induction H; intros [|n]; cbn; auto. Qed.

(** If the weights and biases of the query and key projections are at most W and B, and
    those of the layer normalisation at most G and E, then every logit is bounded as
    required whenever head_dim * (W (G+E) d + B)^2 <= 400000. *)
Theorem vct_logits_bounded : forall d heads n a W B G E,
  1 <= head_dim d heads -> 1 <= d -> norm_shape n d ->
  (0 <= W)%R -> (0 <= B)%R -> (0 <= G)%R -> (0 <= E)%R ->
  Forall (entries_le W) (lin_w (q_linear a)) -> entries_le B (lin_b (q_linear a)) ->
  Forall (entries_le W) (lin_w (k_linear a)) -> entries_le B (lin_b (k_linear a)) ->
  entries_le G (n_gamma n) -> entries_le E (n_beta n) ->
  (INR (head_dim d heads) * ((W * (G + E) * INR d + B) * (W * (G + E) * INR d + B)) <= 400000)%R ->
  bounded_logits d heads n a.
Proof.
  intros d heads n a W B G E Hh Hd SN HW HB HG HE FQ BQ FK BK FG FE HB2 t t' h Lt Lt'.
  set (M := (W * (G + E) * INR d + B)%R) in *.
  assert (D0 : (0 <= INR d)%R) by apply pos_INR.
  assert (M0 : (0 <= M)%R) by (unfold M; assert (0 <= W * (G + E) * INR d)%R by (repeat apply Rmult_le_pos; lra); lra).
  assert (EN : forall l u, Forall (entries_le W) (lin_w l) -> entries_le B (lin_b l) -> length u = d -> entries_le M (lin l (layer_norm n u))).
  { intros l u Fw Fb Lu. pose proof (lin_bound W B l (layer_norm n u) HW Fw Fb) as H.
    pose proof (layer_norm_sum G E d n u HG SN FG FE Lu Hd) as S.
    unfold entries_le in *. eapply Forall_impl; [|exact H]. cbn. intros z Hz. eapply Rle_trans; [exact Hz|]. unfold M.
    apply Rplus_le_compat_r. rewrite Rmult_assoc. now apply Rmult_le_compat_l. }
  assert (HQ : entries_le M (head d heads h (lin (q_linear a) (layer_norm n t)))) by (apply Forall_firstn, Forall_skipn, EN; auto).
  assert (HK : entries_le M (head d heads h (lin (k_linear a) (layer_norm n t')))) by (apply Forall_firstn, Forall_skipn, EN; auto).
  rewrite Rabs_mult. 
  assert (DB : (Rabs (dot (head d heads h (lin (q_linear a) (layer_norm n t))) (head d heads h (lin (k_linear a) (layer_norm n t')))) <= 400000)%R).
  { eapply Rle_trans; [apply (dot_bound M); [exact M0|exact HQ]|]. eapply Rle_trans; [|exact HB2].
    rewrite (Rmult_comm (INR _)), Rmult_assoc. apply Rmult_le_compat_l; [exact M0|].
    eapply Rle_trans; [apply sum_abs_le, HK|]. apply Rmult_le_compat_l; [exact M0|]. apply le_INR.
    unfold head. rewrite firstn_length. apply Nat.le_min_l. }
  assert (SC : (0 <= attn_scale d heads <= 1)%R).
  { unfold attn_scale. assert (1 <= sqrt (INR (head_dim d heads)))%R.
    { rewrite <- sqrt_1. apply sqrt_le_1_alt. apply (le_INR 1). exact Hh. }
    split; [left; apply Rinv_0_lt_compat; lra|]. rewrite <- Rinv_1. apply Rinv_le_contravar; lra. }
  rewrite (Rabs_pos_eq (attn_scale d heads)) by lra. pose proof (Rabs_pos (dot (head d heads h (lin (q_linear a) (layer_norm n t))) (head d heads h (lin (k_linear a) (layer_norm n t'))))). nra.
Qed.
Print Assumptions vct_logits_bounded.

(** The bound for the default sizes (768 channels, 16 heads) at initialisation: weights at
    most 0.04, biases 0.01, normalisation weights 1 and biases 0. *)
Example vct_logits_bounded_ex :
  (INR (head_dim 768 16) * ((0.04 * (1 + 0) * INR 768 + 0.01) * (0.04 * (1 + 0) * INR 768 + 0.01)) <= 400000)%R.
Proof.
  replace (INR (head_dim 768 16)) with 48%R by (rewrite INR_IZR_INZ; reflexivity).
  replace (INR 768) with 768%R by (rewrite INR_IZR_INZ; reflexivity). lra.
Qed.

(** A network that meets the hypotheses (two channels, one head, one decoder block). *)
Definition ex_lin : linear := mkLin [[0.5; -1]%R; [2; 0.25]%R] [1; -1]%R.
Definition ex_norm : norm := mkNorm [1; 2]%R [0; 1]%R.
Definition ex_attn : attention := mkAttn ex_lin ex_lin ex_lin ex_lin.
Definition ex_block : block := mkBlock ex_norm ex_attn ex_norm (mkMlp ex_lin ex_lin) ex_norm ex_attn ex_norm (mkMlp ex_lin ex_lin).
Definition ex_params : em_params := mkEm [3; 1]%R ex_lin ex_norm [[0; 1]; [1; 0]; [2; 2]]%R [[1; 1]]%R [ex_block] [ex_block; ex_block]
  (mkHeads ex_lin ex_lin ex_lin) (mkHeads ex_lin ex_lin ex_lin).
Example vct_causal_ex : em_shape ex_params 2 2 3 /\
  Forall (fun b => bounded_logits 2 1 (ln_1a b) (self_attention b)) (decoder_layers ex_params).
Proof.
  assert (L : linear_shape ex_lin 2 2) by (repeat split; repeat constructor).
  assert (N : norm_shape ex_norm 2) by (split; reflexivity).
  assert (AT : attention_shape ex_attn 2) by (repeat split; apply L).
  assert (ML : mlp_shape (mkMlp ex_lin ex_lin) 2) by (exists 2; split; exact L).
  assert (BK : block_shape ex_block 2) by (repeat split; try apply L; exact ML).
  assert (BD : bounded_logits 2 1 ex_norm ex_attn).
  { apply (vct_logits_bounded 2 1 ex_norm ex_attn 2 1 2 1); try lra; try exact N; try (cbn; lia);
      unfold entries_le; try (repeat constructor; rabs; lra).
    replace (INR (head_dim 2 1)) with 2%R by (rewrite INR_IZR_INZ; reflexivity). cbn. lra. }
  split; [|apply Forall_cons; [exact BD|apply Forall_cons; [exact BD|constructor]]].
  split; [exact L|]. split; [exact N|]. split; [reflexivity|]. split; [repeat constructor|].
  apply Forall_cons; [exact BK|apply Forall_cons; [exact BK|constructor]].
Qed.

(** Without a bound on the logits the mask does not hide later positions: with one
    channel, identity projections and tokens 1, x, the output for the first position is 1
    for x = 0 but 0 for x = 2000000. *)
Theorem vct_masked_attention_refuted :
  ~ (forall d heads q ks ks' vs i, i < length ks -> length vs = length ks -> length ks' = length ks ->
       firstn (S i) ks = firstn (S i) ks' ->
       attend d heads q ks vs (Some (nth i (look_ahead_mask (length ks)) [])) =
       attend d heads q ks' vs (Some (nth i (look_ahead_mask (length ks)) []))).
Proof.
  intro H. specialize (H 1 1 [1%R] [[1%R]; [0%R]] [[1%R]; [2000000%R]] [[1%R]; [1%R]] 0 ltac:(cbn; lia) eq_refl eq_refl eq_refl).
  assert (SC : attn_scale 1 1 = 1%R) by (unfold attn_scale, head_dim; cbn; rewrite sqrt_1; apply Rinv_1).
  assert (A : attend 1 1 [1%R] [[1%R]; [0%R]] [[1%R]; [1%R]] (Some (nth 0 (look_ahead_mask (length [[1%R]; [0%R]])) [])) = [1%R]).
  { rewrite vct_masked_attention; [|cbn; lia|reflexivity|].
    - unfold attend. cbn [firstn map]. rewrite SC. unfold softmax, maxl. cbn [fold_right map].
      replace (dot [1%R] [1%R] * 1 - dot [1%R] [1%R] * 1)%R with 0%R by ring.
      assert (E0 : exp32 0 = 1%R) by (unfold exp32; rewrite exp_0; apply (b32_int 1); lia). rewrite E0.
      cbn. f_equal. field.
    - intros k [<-|[<-|[]]]; rewrite SC; unfold dot; cbn; rabs; lra. }
  assert (B : attend 1 1 [1%R] [[1%R]; [2000000%R]] [[1%R]; [1%R]] (Some (nth 0 (look_ahead_mask (length [[1%R]; [0%R]])) [])) = [0%R]).
  { unfold attend. cbn [firstn map length look_ahead_mask seq nth Nat.ltb Nat.leb]. rewrite SC. unfold dot. cbn [map2 map combine fst snd sum fold_right].
    replace ((1 * 1 + 0) * 1 + 0 * -1000000)%R with 1%R by lra.
    replace ((1 * 2000000 + 0) * 1 + 1 * -1000000)%R with 1000000%R by lra.
    unfold softmax, maxl. cbn [fold_right map]. rewrite Rmax_left by lra.
    rewrite (exp32_tiny (1 - 1000000)) by lra. cbn. f_equal. unfold Rdiv. ring. }
  rewrite A, B in H. injection H as H. lra.
Qed.
Print Assumptions vct_masked_attention_refuted.

(** ** What attention and the final heads compute *)
Lemma skipn_twice {A} a b (l : list A) : skipn a (skipn b l) = skipn (b + a) l.
Proof. revert l. induction b as [|b IH]; intros l; [reflexivity|]. destruct l as [|x l]; [now rewrite !skipn_nil|]. cbn [skipn Nat.add]. apply IH. Qed.
(** The heads of a token are its consecutive parts: together they are the token. *)
Theorem vct_heads_partition : forall d heads t, d = heads * head_dim d heads -> length t = d ->
  concat (map (fun h => head d heads h t) (seq 0 heads)) = t.
Proof.
  intros d heads t D L. unfold head. set (k := head_dim d heads) in *. clearbody k. rewrite D in L. clear D.
  revert t L. induction heads as [|n IH]; intros t L.
  - now destruct t.
  - cbn [seq map concat]. rewrite Nat.mul_0_l. cbn [skipn]. rewrite <- seq_shift, map_map.
    transitivity (firstn k t ++ skipn k t)%list; [|apply firstn_skipn]. f_equal. rewrite <- (IH (skipn k t)) at 1.
    + f_equal. apply map_ext. intro h. f_equal. now rewrite skipn_twice.
    + rewrite skipn_length. lia.
Qed.
Print Assumptions vct_heads_partition.

Lemma maxl_attained l : l <> [] -> In (maxl l) l.
Proof.
  destruct l as [|a l]; [easy|]. intros _. cbn [maxl]. induction l as [|b l IH]; [now left|]. cbn [fold_right].
  unfold Rmax at 1. destruct (Rle_dec b (fold_right Rmax a l)); [|now right; left].
  destruct IH as [E|I]; [left; exact E|right; now right].
Qed.
Lemma exp32_nonneg y : (0 <= exp32 y)%R.
Proof. unfold exp32. rewrite <- (b32_int 0) by (cbn; lia). apply b32_mono. left. apply exp_pos. Qed.
Lemma sum_nonneg l : Forall (fun x => 0 <= x)%R l -> (0 <= sum l)%R.
Proof. induction 1; cbn; [lra|]. unfold sum in *. cbn. lra. Qed.
Lemma sum_in l x : Forall (fun x => 0 <= x)%R l -> In x l -> (x <= sum l)%R.
Proof.
  induction 1 as [|a l A F IH]; [easy|]. pose proof (sum_nonneg l F). unfold sum in *. cbn [fold_right]. intros [->|I]; [lra|]. specialize (IH I). lra.
Qed.
Lemma sum_scale l s : sum (map (fun x => (x / s)%R) l) = (sum l / s)%R.
Proof. induction l as [|a l IH]; unfold sum in *; cbn [map fold_right]; [unfold Rdiv; ring|]. rewrite IH. unfold Rdiv. ring. Qed.
(** The weights of the attention are not negative, have sum one, and grow with the logit;
    the head's result is the average of the values with these weights. *)
Definition weights (d heads : nat) (q : token) (ks : list token) : list R := softmax (map (fun k => (dot q k * attn_scale d heads)%R) ks).
Theorem vct_attention_average : forall d heads q ks vs, ks <> [] ->
  exists w, length w = length ks /\ Forall (fun a => 0 <= a)%R w /\ sum w = 1%R /\
    (forall i j, i < length ks -> j < length ks -> (dot q (nth i ks []) <= dot q (nth j ks []))%R -> (nth i w 0 <= nth j w 0)%R) /\
    attend d heads q ks vs None = map (fun c => sum (map2 (fun a v => (a * nth c v 0)%R) w vs)) (seq 0 (head_dim d heads)).
Proof.
  intros d heads q ks vs N. exists (weights d heads q ks). unfold weights.
  set (l := map (fun k => (dot q k * attn_scale d heads)%R) ks).
  assert (NL : l <> []) by (unfold l; now destruct ks).
  unfold softmax. set (m := maxl l). set (e := map (fun x => exp32 (x - m)) l).
  assert (P : Forall (fun x => 0 <= x)%R e) by (apply Forall_forall; intros x I; apply in_map_iff in I; destruct I as (y & <- & _); apply exp32_nonneg).
  assert (S1 : (1 <= sum e)%R).
  { apply (sum_in e 1 P). unfold e. apply in_map_iff. exists m. split; [|apply maxl_attained; exact NL].
    unfold exp32. rewrite Rminus_diag_eq by reflexivity. rewrite exp_0. apply (b32_int 1). cbn. lia. }
  split; [unfold e, l; now rewrite !map_length|]. split.
  - apply Forall_forall. intros x I. apply in_map_iff in I. destruct I as (y & <- & I). rewrite Forall_forall in P. specialize (P y I).
    apply Rmult_le_pos; [exact P|]. left. apply Rinv_0_lt_compat. lra.
  - split; [rewrite sum_scale; field; lra|]. split; [|reflexivity].
    intros i j Hi Hj LE. set (tot := sum e) in *. clearbody tot.
    assert (NF : forall n, n < length ks -> nth n (map (fun x => (x / tot)%R) e) 0%R = (exp32 (dot q (nth n ks []) * attn_scale d heads - m) / tot)%R).
    { intros n Hn. unfold e, l. rewrite !map_map. rewrite (nth_indep _ 0%R (exp32 (dot q [] * attn_scale d heads - m) / tot)%R) by (now rewrite map_length).
      apply (map_nth (fun k => (exp32 (dot q k * attn_scale d heads - m) / tot)%R)). }
    rewrite !NF by assumption. unfold Rdiv. apply Rmult_le_compat_r; [left; apply Rinv_0_lt_compat; lra|].
    unfold exp32. apply b32_mono.
    assert (SC : (0 <= attn_scale d heads)%R).
    { unfold attn_scale. destruct (Req_dec (sqrt (INR (head_dim d heads))) 0) as [Z|Z]; [rewrite Z, Rinv_0; lra|]. left. apply Rinv_0_lt_compat. pose proof (sqrt_pos (INR (head_dim d heads))). lra. }
    assert (LL : (dot q (nth i ks []) * attn_scale d heads - m <= dot q (nth j ks []) * attn_scale d heads - m)%R).
    { assert (dot q (nth i ks []) * attn_scale d heads <= dot q (nth j ks []) * attn_scale d heads)%R by (apply Rmult_le_compat_r; assumption). lra. }
    destruct LL as [LL|LL]; [left; apply exp_increasing; exact LL|rewrite LL; lra].
Qed.
Print Assumptions vct_attention_average.

(** The final heads: three affine maps with max(a, a/100) between them. *)
Theorem vct_final_head : forall h x,
  final_head h x = lin (h3 h) (map (fun a => Rmax a (a / 100)) (lin (h2 h) (map (fun a => Rmax a (a / 100)) (lin (h1 h) x)))).
Proof.
  intros h x. unfold final_head.
  assert (E : forall a, leaky_relu a = Rmax a (a / 100)).
  { intro a. unfold leaky_relu, Rmax. destruct (Rlt_dec a 0), (Rle_dec a (a / 100)); lra. }
  now rewrite !(map_ext _ _ E).
Qed.
Print Assumptions vct_final_head.

(** A decoder without the encoder's output and a sequence of the wrong length are refused. *)
Theorem vct_transformer_errors : forall gelu d heads n b layers x emb,
  transformer gelu d heads (Some n) (b :: layers) x None = Raise ValueError /\
  (length x <> length emb -> learned_position emb x = Raise AssertionError) /\
  (length x = length emb -> exists y, learned_position emb x = Ok y /\ length y = length x).
Proof.
  intros gelu d heads n b layers x emb. split; [reflexivity|]. unfold learned_position. split; intro H.
  - apply Nat.eqb_neq in H. rewrite H. reflexivity.
  - pose proof H as H'. apply Nat.eqb_eq in H. rewrite H. cbn [negb]. eexists. split; [reflexivity|]. clear H. revert emb H'.
    induction x as [|t x IH]; intros [|e emb] L; cbn in *; try easy. f_equal. apply IH. lia.
Qed.
Print Assumptions vct_transformer_errors.

(** Attention refuses an empty query, keys that are not a multiple of the queries and a mask
    that is not square; everything else gives one token for each query. *)
Theorem vct_attention_errors : forall d heads a query kv mask,
  (query = [] -> attention_forward d heads a query kv mask = Raise ZeroDivisionError) /\
  (query <> [] -> ~ Nat.divide (length query) (length kv) -> attention_forward d heads a query kv mask = Raise AssertionError) /\
  (query <> [] -> Nat.divide (length query) (length kv) ->
   match mask with
   | Some m => (length m = length query /\ Forall (fun r => length r = length query) m -> exists y, attention_forward d heads a query kv mask = Ok y /\ length y = length query) /\
               (~ (length m = length query /\ Forall (fun r => length r = length query) m) -> attention_forward d heads a query kv mask = Raise ValueError)
   | None => exists y, attention_forward d heads a query kv mask = Ok y /\ length y = length query
   end).
Proof.
  intros d heads a query kv mask. unfold attention_forward. split; [intros ->; reflexivity|].
  assert (NZ : query <> [] -> (length query =? 0) = false) by (destruct query; easy).
  split; intros N; rewrite (NZ N).
  - intro D. destruct (Nat.eqb_spec (length kv mod length query) 0) as [E|E]; [|reflexivity].
    exfalso. apply D. apply Nat.mod_divide; [destruct query; easy|exact E].
  - intro D. apply Nat.mod_divide in D; [|destruct query; easy]. rewrite D. cbn [Nat.eqb negb].
    destruct mask as [m|]; [|eexists; split; [reflexivity|now rewrite map_length, seq_length]].
    assert (F : forallb (fun r : list R => length r =? length query) m = true <-> Forall (fun r => length r = length query) m).
    { rewrite forallb_forall, Forall_forall. split; intros H x I; apply Nat.eqb_eq; apply H; exact I. }
    split.
    + intros [E1 E2]. apply Nat.eqb_eq in E1. apply F in E2. rewrite E1, E2. eexists; split; [reflexivity|now rewrite map_length, seq_length].
    + intro B. destruct (Nat.eqb_spec (length m) (length query)) as [E|E]; [|reflexivity]. cbn [andb].
      destruct (forallb _ m) eqn:Q; [|reflexivity]. exfalso. apply B. split; [exact E|]. apply F; reflexivity.
Qed.
Print Assumptions vct_attention_errors.

(** The network's outputs for token [i] are those of its patches, one after the other: means,
    scales and hidden values, each in its place. *)
Theorem vct_network_outputs : forall gelu d heads P C encoded toks rs i,
  Forall2 (fun p r => patch_run gelu d heads P C toks p = Ok r) (combine (seq 0 (length encoded)) encoded) rs -> i < length toks ->
  let '(m, s, o) := tf_net gelu d heads P C encoded toks in
  length m = length toks /\ length s = length toks /\ length o = length toks /\
  nth i m [] = concat (map (fun r => let '(mr, _, _) := r in nth i mr []) rs) /\
  nth i s [] = concat (map (fun r => let '(_, sr, _) := r in nth i sr []) rs) /\
  nth i o [] = concat (map (fun r => let '(_, _, hr) := r in nth i hr []) rs).
Proof.
  intros gelu d heads P C encoded toks rs i F I. unfold tf_net.
  assert (M : mapM (patch_run gelu d heads P C toks) (combine (seq 0 (length encoded)) encoded) = Ok rs).
  { induction F as [|p r ps rs E F IH]; [reflexivity|]. cbn [mapM]. rewrite E. cbn [bind]. rewrite IH. reflexivity. }
  rewrite M. rewrite !map_length, !seq_length. repeat (split; [reflexivity|]).
  assert (G : forall f : nat -> list R, nth i (map f (seq 0 (length toks))) [] = f i).
  { intro f. rewrite (nth_indep _ [] (f 0)) by (now rewrite map_length, seq_length). rewrite map_nth, seq_nth by exact I. reflexivity. }
  rewrite !G. repeat split; f_equal; apply map_ext; intros [[? ?] ?]; reflexivity.
Qed.
Print Assumptions vct_network_outputs.

(** Means come from the mean head and scales from the scale head, both from the same hidden values. *)
Definition three_layers (h : TF_Model.heads) (x : token) : token :=
  lin (h3 h) (map (fun a => Rmax a (a / 100)) (lin (h2 h) (map (fun a => Rmax a (a / 100)) (lin (h1 h) x)))).
Theorem vct_heads_apart : forall gelu d heads P enc latent m s o,
  get_transformer_output gelu d heads P enc latent = Ok (m, s, o) ->
  m = map (three_layers (mean_head P)) o /\ s = map (three_layers (scale_head P)) o.
Proof.
  intros gelu d heads P enc latent m s o H. unfold get_transformer_output in H.
  destruct (embed _ _); [|discriminate]. destruct (learned_position _ _); [|discriminate]. cbn [bind] in H.
  destruct (transformer _ _ _ None _ _ _); [|discriminate]. cbn [bind] in H. destruct (transformer _ _ _ (Some _) _ _ _); [|discriminate]. cbn [bind] in H.
  injection H as <- <- <-. split; apply map_ext; intro x; apply vct_final_head.
Qed.
Print Assumptions vct_heads_apart.

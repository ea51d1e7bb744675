(** What building the video model's transformer gives (C103). *)
From Coq Require Import Arith List Bool Lia Lra Reals ZArith.
From Verif Require Import Base RBase RFloat Gsn_Model EM_Model EM_Spec TF_Model TF_Spec TF_Proofs TF_Props TfTrain_Model TfTrain_Proofs TfTrain_Props VctInit_Model.
Import ListNotations.
Open Scope nat_scope.

Lemma mapM_ok_in {A B} (f : A -> res B) l o : mapM f l = Ok o -> length o = length l /\ Forall (fun b => exists a, In a l /\ f a = Ok b) o.
Proof.
  revert o. induction l as [|a l IH]; intros o H; cbn in H; [injection H as <-; split; [reflexivity|constructor]|].
  destruct (f a) as [b|] eqn:E; [|discriminate]. cbn in H. destruct (mapM f l) as [o'|] eqn:E2; [|discriminate]. cbn in H. injection H as <-.
  destruct (IH o' eq_refl) as [L F]. split; [cbn; lia|]. constructor; [exists a; split; [now left|exact E]|].
  eapply Forall_impl; [|exact F]. intros b' (a' & I & E'). exists a'. split; [now right|exact E'].
Qed.

(** ** Shapes *)
Lemma mk_linear_shape i o w b : linear_shape (mk_linear i o w b) i o.
Proof.
  unfold linear_shape, mk_linear. cbn [lin_w lin_b]. rewrite !map_length, !seq_length. split; [reflexivity|]. split; [|reflexivity].
  apply Forall_map, Forall_forall. intros r _. now rewrite map_length, seq_length.
Qed.
Lemma fresh_norm_shape d : norm_shape (fresh_norm d) d.
Proof. split; apply repeat_length. Qed.
Lemma fresh_attention_shape d h x a : fresh_attention d h x = Ok a -> attention_shape a d.
Proof.
  unfold fresh_attention. destruct (h =? 0); [discriminate|]. destruct (negb _); [discriminate|]. destruct (_ =? 0); [discriminate|].
  intro H. injection H as <-. split; [|split; [|split]]; apply mk_linear_shape.
Qed.
Lemma fresh_block_shape d h m x b : fresh_block d h m x = Ok b ->
  block_shape b d /\ linear_shape (fc1 (mlp1 b)) d m /\ linear_shape (fc2 (mlp1 b)) m d /\
  linear_shape (fc1 (mlp2 b)) d m /\ linear_shape (fc2 (mlp2 b)) m d.
Proof.
  unfold fresh_block. destruct (fresh_attention d h x) as [a|] eqn:EA; [|discriminate]. cbn [bind].
  destruct (fresh_attention d h (fun k => x (6 + k))) as [c|] eqn:EC; [|discriminate]. cbn [bind]. intro H. injection H as <-.
  apply fresh_attention_shape in EA, EC. cbn [ln_1a self_attention ln_1b mlp1 ln_2a cross_attention ln_2b mlp2 fresh_mlp fc1 fc2].
  split; [|repeat split; try apply mk_linear_shape].
  unfold block_shape. cbn [ln_1a self_attention ln_1b mlp1 ln_2a cross_attention ln_2b mlp2].
  repeat (split; [first [apply fresh_norm_shape|assumption|exists m; split; apply mk_linear_shape]|]).
  exists m; split; apply mk_linear_shape.
Qed.
Definition blocks_built (bs : list block) (n d m : nat) : Prop :=
  length bs = n /\ Forall (fun b => block_shape b d /\ linear_shape (fc1 (mlp1 b)) d m /\ linear_shape (fc2 (mlp1 b)) m d /\
    linear_shape (fc1 (mlp2 b)) d m /\ linear_shape (fc2 (mlp2 b)) m d) bs.
Lemma fresh_transformer_built n h d e p x bs : fresh_transformer n h d e p x = Ok bs -> blocks_built bs n d (e * d).
Proof.
  unfold fresh_transformer. destruct (check_rate p); [|discriminate]. cbn [bind]. intro H. apply mapM_ok_in in H. destruct H as [L F].
  rewrite seq_length in L. split; [exact L|]. eapply Forall_impl; [|exact F]. intros b (l & _ & E). cbv beta in E. now apply fresh_block_shape in E.
Qed.
Lemma fresh_position_shape n d z : length (fresh_position n d z) = n /\ Forall (fun t => length t = d) (fresh_position n d z).
Proof.
  unfold fresh_position. split; [now rewrite map_length, seq_length|]. apply Forall_map, Forall_forall. intros i _. now rewrite map_length, seq_length.
Qed.

Lemma build_inv s a w v : build s a w = Ok v ->
  window_size_dec a <= window_size_enc a /\ (0 < num_channels a)%Z /\
  fresh_transformer (num_layers_encoder_sep a) (num_head a) (d_model a) (mlp_expansion a) (drop_out_enc a) (i_tf w 0) = Ok (v_encoder_sep v) /\
  fresh_transformer (num_layers_encoder_joint a) (num_head a) (d_model a) (mlp_expansion a) (drop_out_enc a) (i_tf w 1) = Ok (encoder_joint (v_em v)) /\
  fresh_transformer (num_layers_decoder a) (num_head a) (d_model a) (mlp_expansion a) (drop_out_dec a) (i_tf w 2) = Ok (decoder_layers (v_em v)) /\
  make_embedding (Z.to_nat (num_channels a)) (d_model a) (i_emb w 0) (i_emb_b w 0) = Ok (v_encoder_embedding v) /\
  make_embedding (Z.to_nat (num_channels a)) (d_model a) (i_emb w 1) (i_emb_b w 1) = Ok (decoder_embedding (v_em v)).
Proof.
  unfold build. destruct (Nat.ltb_spec (window_size_enc a) (window_size_dec a)); [discriminate|].
  destruct (Z.ltb_spec (num_channels a) 0); [discriminate|]. cbv zeta.
  destruct (fresh_transformer _ _ _ _ _ (i_tf w 0)) as [sep|] eqn:E0; [|discriminate]. cbn [bind].
  destruct (fresh_transformer _ _ _ _ _ (i_tf w 1)) as [jo|] eqn:E1; [|discriminate]. cbn [bind].
  destruct (make_embedding _ _ (i_emb w 0) _) as [m0|] eqn:M0; [|discriminate]. cbn [bind].
  destruct (make_embedding _ _ (i_emb w 1) _) as [m1|] eqn:M1; [|discriminate]. cbn [bind].
  destruct (fresh_transformer _ _ _ _ _ (i_tf w 2)) as [de|] eqn:E2; [|discriminate]. cbn [bind]. intro H1. injection H1 as <-.
  cbn [v_em v_encoder_sep v_encoder_embedding encoder_joint decoder_layers decoder_embedding].
  split; [lia|]. split; [|repeat split; assumption].
  unfold make_embedding in M0. destruct (Nat.eqb_spec (Z.to_nat (num_channels a)) 0); [discriminate|]. lia.
Qed.

(** The sizes of everything built are those the arguments ask for. *)
Theorem C103_shapes : forall seed42 a w v, build seed42 a w = Ok v ->
  let c := Z.to_nat (num_channels a) in
  let d := d_model a in
  em_shape (v_em v) d c (window_size_dec a ^ 2) /\
  blocks_built (v_encoder_sep v) (num_layers_encoder_sep a) d (mlp_expansion a * d) /\
  blocks_built (encoder_joint (v_em v)) (num_layers_encoder_joint a) d (mlp_expansion a * d) /\
  blocks_built (decoder_layers (v_em v)) (num_layers_decoder a) d (mlp_expansion a * d) /\
  linear_shape (v_encoder_embedding v) c d /\
  length (v_position_sep v) = window_size_enc a ^ 2 /\ Forall (fun t => length t = d) (v_position_sep v) /\
  length (enc_position_joint (v_em v)) = window_size_enc a ^ 2 * context_len a /\ Forall (fun t => length t = d) (enc_position_joint (v_em v)) /\
  length (learned_zero (v_em v)) = c /\
  (forall h, h = mean_head (v_em v) \/ h = scale_head (v_em v) -> linear_shape (h1 h) d d /\ linear_shape (h2 h) d d /\ linear_shape (h3 h) d c).
Proof.
  intros s a w v H c d. pose proof (build_inv _ _ _ _ H) as (_ & _ & T0 & T1 & T2 & M0 & M1).
  apply fresh_transformer_built in T0, T1, T2.
  assert (ML : forall u ub l, make_embedding c d u ub = Ok l -> linear_shape l c d).
  { intros u ub l E. unfold make_embedding in E. destruct (c =? 0); [discriminate|]. injection E as <-. apply mk_linear_shape. }
  assert (V : exists z p0 p1 p2 h0 h1 e n, v = mkVct (mkEm z e n (fresh_position (window_size_dec a * window_size_dec a) d p2) (fresh_position (window_size_enc a * window_size_enc a * context_len a) d p1)
     (encoder_joint (v_em v)) (decoder_layers (v_em v)) (fresh_heads d c (fst h0) (snd h0)) (fresh_heads d c (fst h1) (snd h1))) (v_encoder_sep v) (v_encoder_embedding v) (fresh_position (window_size_enc a * window_size_enc a) d p0) /\
     length z = c /\ norm_shape n d).
  { clear T0 T1 T2 M0 M1. unfold build in H. destruct (_ <? _); [discriminate|]. destruct (_ <? _)%Z; [discriminate|]. cbv zeta in H.
    destruct (fresh_transformer _ _ _ _ _ (i_tf w 0)) as [sep|] eqn:E0; [|discriminate]. cbn [bind] in H.
    destruct (fresh_transformer _ _ _ _ _ (i_tf w 1)) as [jo|] eqn:E1; [|discriminate]. cbn [bind] in H.
    destruct (make_embedding _ _ (i_emb w 0) _) as [m0|]; [|discriminate]. cbn [bind] in H.
    destruct (make_embedding _ _ (i_emb w 1) _) as [m1|]; [|discriminate]. cbn [bind] in H.
    destruct (fresh_transformer _ _ _ _ _ (i_tf w 2)) as [de|]; [|discriminate]. cbn [bind] in H. injection H as <-.
    eexists _, _, _, _, (i_head w 0, i_head_b w 0), (i_head w 1, i_head_b w 1), _, _. split; [cbn [v_em v_encoder_sep v_encoder_embedding encoder_joint decoder_layers fst snd]; reflexivity|].
    split; [now rewrite map_length, seq_length|apply fresh_norm_shape]. }
  destruct V as (z & p0 & p1 & p2 & g0 & g1 & e & n & V & Lz & Nn). apply ML in M0, M1.
  rewrite V in *. cbn [v_em v_encoder_sep v_encoder_embedding v_position_sep encoder_joint decoder_layers learned_zero decoder_embedding post_embedding_layernorm dec_position enc_position_joint mean_head scale_head] in *.
  rewrite !Nat.pow_2_r.
  split; [|split; [exact T0|split; [exact T1|split; [exact T2|split; [exact M0|]]]]].
  - split; [exact M1|]. split; [exact Nn|]. split; [apply fresh_position_shape|]. split; [apply fresh_position_shape|].
    cbn [decoder_layers]. destruct T2 as [_ F]. eapply Forall_impl; [|exact F]. cbv beta. tauto.
  - split; [apply fresh_position_shape|]. split; [apply fresh_position_shape|]. split; [apply fresh_position_shape|]. split; [apply fresh_position_shape|].
    split; [exact Lz|]. intros h [->| ->]; unfold fresh_heads; cbn [h1 h2 h3]; repeat split; apply mk_linear_shape.
Qed.
Print Assumptions C103_shapes.

(** When building fails, and with what. *)
Definition rate_ok (p : R) : Prop := (0 <= p <= 1)%R.
Definition heads_ok (a : em_args) : Prop := 1 <= num_head a /\ 1 <= d_model a /\ Nat.divide (num_head a) (d_model a).
Lemma fresh_block_ok d h m x : (1 <= h /\ 1 <= d /\ Nat.divide h d -> exists b, fresh_block d h m x = Ok b) /\
  (~ (1 <= h /\ 1 <= d /\ Nat.divide h d) -> fresh_block d h m x = Raise (if (1 <=? h) && (1 <=? d) then ValueError else ZeroDivisionError)).
Proof.
  unfold fresh_block, fresh_attention. destruct (Nat.eqb_spec h 0) as [->|Hh].
  - cbn. split; [lia|reflexivity].
  - destruct (Nat.leb_spec 1 h); [|lia]. destruct (Nat.eqb_spec (d mod h) 0) as [Hm|Hm]; cbn [negb].
    + apply Nat.mod_divide in Hm; [|exact Hh]. destruct (Nat.eqb_spec (d / h) 0) as [Hz|Hz].
      * assert (d = 0) by (destruct Hm as [q ->]; rewrite Nat.div_mul in Hz by exact Hh; subst; reflexivity). subst d. cbn. split; [lia|reflexivity].
      * assert (1 <= d) by (destruct d; [rewrite Nat.div_0_l in Hz by exact Hh; lia|lia]). split; [intros _; cbn [bind]; eauto|tauto].
    + assert (~ Nat.divide h d) by (intro D; apply Nat.mod_divide in D; [lia|exact Hh]). split; [tauto|]. intros _.
      destruct (Nat.leb_spec 1 d); [reflexivity|]. destruct d; [|lia]. rewrite Nat.mod_0_l in Hm by exact Hh. lia.
Qed.
Lemma fresh_transformer_ok n h d e p x :
  (rate_ok p -> n = 0 \/ (1 <= h /\ 1 <= d /\ Nat.divide h d) -> exists bs, fresh_transformer n h d e p x = Ok bs) /\
  (rate_ok p -> n <> 0 -> ~ (1 <= h /\ 1 <= d /\ Nat.divide h d) -> fresh_transformer n h d e p x = Raise (if (1 <=? h) && (1 <=? d) then ValueError else ZeroDivisionError)) /\
  (~ rate_ok p -> fresh_transformer n h d e p x = Raise ValueError).
Proof.
  unfold fresh_transformer, check_rate, rate_ok. destruct (Rlt_dec p 0); [repeat split; intros; try lra; reflexivity|].
  destruct (Rlt_dec 1 p); [repeat split; intros; try lra; reflexivity|]. cbn [bind]. split; [|split; [|lra]].
  - intros _ H. generalize 0 as s. assert (G : forall s, exists bs, mapM (fun l => fresh_block d h (e * d) (x l)) (seq s n) = Ok bs); [|exact G].
    induction n as [|n IH]; intro s; [exists []; reflexivity|]. destruct H as [H|H]; [discriminate|]. cbn [seq mapM].
    destruct (proj1 (fresh_block_ok d h (e * d) (x s)) H) as [b ->]. cbn [bind]. destruct (IH (or_intror H) (S s)) as [bs ->]. cbn. eauto.
  - intros _ Hn H. destruct n as [|n]; [easy|]. cbn [seq mapM]. rewrite (proj2 (fresh_block_ok d h (e * d) (x 0)) H). reflexivity.
Qed.
Theorem C103_errors : forall seed42 a w,
  let encoder_layers := num_layers_encoder_sep a + num_layers_encoder_joint a in
  let bad_heads := if (1 <=? num_head a) && (1 <=? d_model a) then ValueError else ZeroDivisionError in
  (window_size_enc a < window_size_dec a \/ (num_channels a < 0)%Z -> build seed42 a w = Raise ValueError) /\
  (window_size_dec a <= window_size_enc a -> (0 <= num_channels a)%Z ->
   (~ rate_ok (drop_out_enc a) -> build seed42 a w = Raise ValueError) /\
   (rate_ok (drop_out_enc a) -> encoder_layers <> 0 -> ~ heads_ok a -> build seed42 a w = Raise bad_heads) /\
   (rate_ok (drop_out_enc a) -> encoder_layers = 0 \/ heads_ok a ->
      (num_channels a = 0%Z -> build seed42 a w = Raise ZeroDivisionError) /\
      (num_channels a <> 0%Z ->
         (~ rate_ok (drop_out_dec a) -> build seed42 a w = Raise ValueError) /\
         (rate_ok (drop_out_dec a) -> num_layers_decoder a <> 0 -> ~ heads_ok a -> build seed42 a w = Raise bad_heads) /\
         (rate_ok (drop_out_dec a) -> num_layers_decoder a = 0 \/ heads_ok a -> exists v, build seed42 a w = Ok v)))).
Proof.
  intros s a w el bad. unfold build. split.
  - destruct (Nat.ltb_spec (window_size_enc a) (window_size_dec a)); [reflexivity|]. intros [K|K]; [lia|].
    destruct (Z.ltb_spec (num_channels a) 0); [reflexivity|lia].
  - intros W C. destruct (Nat.ltb_spec (window_size_enc a) (window_size_dec a)); [lia|]. destruct (Z.ltb_spec (num_channels a) 0); [lia|]. cbv zeta.
    pose proof (fresh_transformer_ok (num_layers_encoder_sep a) (num_head a) (d_model a) (mlp_expansion a) (drop_out_enc a) (i_tf w 0)) as (A1 & A2 & A3).
    pose proof (fresh_transformer_ok (num_layers_encoder_joint a) (num_head a) (d_model a) (mlp_expansion a) (drop_out_enc a) (i_tf w 1)) as (B1 & B2 & B3).
    pose proof (fresh_transformer_ok (num_layers_decoder a) (num_head a) (d_model a) (mlp_expansion a) (drop_out_dec a) (i_tf w 2)) as (D1 & D2 & D3).
    split; [|split].
    + intro K. rewrite (A3 K). reflexivity.
    + intros K Hn Hh. destruct (Nat.eq_dec (num_layers_encoder_sep a) 0) as [Z|Z].
      * destruct (A1 K (or_introl Z)) as [bs E]. rewrite E. cbn [bind]. rewrite (B2 K) by (unfold el in Hn; lia || exact Hh). reflexivity.
      * rewrite (A2 K Z Hh). reflexivity.
    + intros K Hh.
      assert (Q1 : num_layers_encoder_sep a = 0 \/ (1 <= num_head a /\ 1 <= d_model a /\ Nat.divide (num_head a) (d_model a))) by (destruct Hh as [Hh|Hh]; [left; unfold el in Hh; lia|right; exact Hh]).
      assert (Q2 : num_layers_encoder_joint a = 0 \/ (1 <= num_head a /\ 1 <= d_model a /\ Nat.divide (num_head a) (d_model a))) by (destruct Hh as [Hh|Hh]; [left; unfold el in Hh; lia|right; exact Hh]).
      destruct (A1 K Q1) as [bs0 E0]. destruct (B1 K Q2) as [bs1 E1]. rewrite E0, E1. cbn [bind]. unfold make_embedding.
      destruct (Nat.eqb_spec (Z.to_nat (num_channels a)) 0) as [Z|Z].
      * split; [reflexivity|lia].
      * split; [lia|]. intros _. cbn [bind]. split; [|split].
        -- intro K2. rewrite (D3 K2). reflexivity.
        -- intros K2 Hn Hh2. rewrite (D2 K2 Hn Hh2). reflexivity.
        -- intros K2 Hh2. destruct (D1 K2 Hh2) as [bs2 E2]. rewrite E2. cbn [bind]. eauto.
Qed.
Print Assumptions C103_errors.

(** ** Values *)
Lemma trunc_range x y : (0 <= y)%R -> (Rabs (trunc_normal (- y) y x) <= y)%R.
Proof. intro H. unfold trunc_normal. unfold Rmin, Rmax. destruct (Rle_dec x (-y)); match goal with |- context [Rle_dec ?a ?b] => destruct (Rle_dec a b) end; rabs; lra. Qed.
Lemma truncated_entries i o x : Forall (entries_le 0.04) (lin_w (truncated_linear i o x)) /\ Forall (fun b => b = 0.01%R) (lin_b (truncated_linear i o x)).
Proof.
  unfold truncated_linear, mk_linear. cbv zeta. cbn [lin_w lin_b]. split; apply Forall_map, Forall_forall; intros r _; [|reflexivity].
  apply Forall_map, Forall_forall. intros c _. replace (-2 * 0.02)%R with (Ropp 0.04) by lra. replace (2 * 0.02)%R with 0.04%R by lra. apply trunc_range. lra.
Qed.

(** Two blocks whose layer normalisation before the self-attention, queries and keys differ by at most [e]
    in every entry. *)
Definition within (e : R) (x y : list R) : Prop := Forall2 (fun a b => (Rabs (a - b) <= e)%R) x y.
Definition near_linear (e : R) (l l' : linear) : Prop := Forall2 (within e) (lin_w l) (lin_w l') /\ within e (lin_b l) (lin_b l').
Definition near_block (e : R) (b b' : block) : Prop :=
  within e (n_gamma (ln_1a b)) (n_gamma (ln_1a b')) /\ within e (n_beta (ln_1a b)) (n_beta (ln_1a b')) /\
  near_linear e (q_linear (self_attention b)) (q_linear (self_attention b')) /\
  near_linear e (k_linear (self_attention b)) (k_linear (self_attention b')).

Lemma within_le e m x y : Forall (fun a => (Rabs a <= m)%R) x -> within e x y -> entries_le (m + e) y.
Proof.
  intros F W. unfold entries_le. induction W as [|a b x y Hab W IH]; [constructor|]. inversion F; subst. constructor; [|auto].
  revert Hab H1. rabs; lra.
Qed.
Lemma within_rows e m x y : Forall (entries_le m) x -> Forall2 (within e) x y -> Forall (entries_le (m + e)) y.
Proof.
  intros F W. induction W as [|a b x y Hab W IH]; [constructor|]. inversion F; subst. constructor; [|auto]. eapply within_le; eassumption.
Qed.
Lemma near_bounded d heads e b b' m x : (0 <= e)%R -> 1 <= d -> 1 <= head_dim d heads ->
  (INR (head_dim d heads) * (((0.04 + e) * (1 + e + e) * INR d + (0.01 + e)) * ((0.04 + e) * (1 + e + e) * INR d + (0.01 + e))) <= 400000)%R ->
  fresh_block d heads m x = Ok b -> block_shape b' d -> near_block e b b' -> bounded_logits d heads (ln_1a b') (self_attention b').
Proof.
  intros He Hd Hh Hb E S (G1 & G2 & (Q1 & Q2) & (K1 & K2)). unfold fresh_block, fresh_attention in E. destruct (heads =? 0); [discriminate|].
  destruct (negb _); [discriminate|]. destruct (_ =? 0); [discriminate|]. cbn [bind] in E. injection E as <-.
  cbn [ln_1a self_attention q_linear k_linear] in *.
  assert (B : forall i o y, Forall (fun a => (Rabs a <= 0.01)%R) (lin_b (truncated_linear i o y))).
  { intros i o y. eapply Forall_impl; [|apply truncated_entries]. intros c ->. rabs; lra. }
  apply (vct_logits_bounded d heads _ _ (0.04 + e) (0.01 + e) (1 + e) e); try assumption; try lra.
  - destruct S as (S & _). exact S.
  - eapply within_rows; [apply truncated_entries|exact Q1].
  - eapply within_le; [apply B|exact Q2].
  - eapply within_rows; [apply truncated_entries|exact K1].
  - eapply within_le; [apply B|exact K2].
  - eapply within_le; [|exact G1]. cbn [fresh_norm n_gamma]. apply Forall_forall. intros c Hc. apply repeat_spec in Hc. subst c. rabs; lra.
  - assert (Z : entries_le (0 + e) (n_beta (ln_1a b'))).
    { eapply within_le; [|exact G2]. cbn [fresh_norm n_beta]. apply Forall_forall. intros c Hc. apply repeat_spec in Hc. subst c. rabs; lra. }
    rewrite Rplus_0_l in Z. exact Z.
Qed.

(** A freshly built model, and any model with the same sizes whose decoder's self-attention weights are all
    within [e] of a freshly built one's, hides later symbols from every prediction, in training and in
    evaluation, whatever was drawn and whatever the inputs are, as long as [e] meets the bound. *)
Definition hides_later (gelu : R -> R) (d heads : nat) (P : em_params) : Prop :=
  forall training pe pd draws_enc draws_dec enc x y i,
  length x = length y -> i < length x -> firstn i x = firstn i y ->
  match output_train gelu d heads training pe pd P draws_enc draws_dec enc x,
        output_train gelu d heads training pe pd P draws_enc draws_dec enc y with
  | Ok (m, s, o), Ok (m', s', o') =>
      forall j, j <= i -> nth_error m j = nth_error m' j /\ nth_error s j = nth_error s' j /\ nth_error o j = nth_error o' j
  | Raise e, Raise e' => e = e'
  | _, _ => False
  end.
Lemma near_all_bounded s a w v P e : build s a w = Ok v ->
  em_shape P (d_model a) (Z.to_nat (num_channels a)) (window_size_dec a ^ 2) ->
  Forall2 (near_block e) (decoder_layers (v_em v)) (decoder_layers P) -> (0 <= e)%R ->
  (let d := INR (d_model a) in
   let size := (0.04 + e) * (1 + 2 * e) * d + 0.01 + e in
   d / INR (num_head a) * (size * size) <= 400000)%R ->
  Forall (fun b => bounded_logits (d_model a) (num_head a) (ln_1a b) (self_attention b)) (decoder_layers P).
Proof.
  intros HB SH NB He Hb. cbv zeta in Hb.
  pose proof (build_inv _ _ _ _ HB) as (_ & _ & _ & _ & T2 & _). unfold fresh_transformer in T2.
  destruct (check_rate _); [|discriminate]. cbn [bind] in T2. apply mapM_ok_in in T2. destruct T2 as [_ T2].
  destruct SH as (_ & _ & _ & _ & SB). revert T2 SB NB. generalize (decoder_layers (v_em v)) as bs, (decoder_layers P) as bs'. intros bs bs' T2 SB NB.
  induction NB as [|b b' bs bs' Hn NB IH]; [constructor|]. apply Forall_cons_iff in T2, SB. destruct T2 as [T T2], SB as [S SB]. constructor; [|auto].
  destruct T as (l & _ & T). cbv beta in T. clear IH.
  assert (HO : 1 <= num_head a /\ 1 <= d_model a /\ Nat.divide (num_head a) (d_model a)).
  { destruct (fresh_block_ok (d_model a) (num_head a) (mlp_expansion a * d_model a) (i_tf w 2 l)) as [_ X].
    destruct (le_dec 1 (num_head a)); [|rewrite X in T by tauto; discriminate]. destruct (le_dec 1 (d_model a)); [|rewrite X in T by tauto; discriminate].
    destruct (Nat.eq_dec (d_model a mod num_head a) 0) as [M|M]; [apply Nat.mod_divide in M; [tauto|lia]|].
    rewrite X in T; [discriminate|]. intros (_ & _ & D). apply Nat.mod_divide in D; lia. }
  destruct HO as (H1 & H2 & [q D]).
  assert (HD : head_dim (d_model a) (num_head a) = q) by (unfold head_dim; rewrite D; apply Nat.div_mul; lia).
  assert (1 <= q) by (destruct q; [cbn in D; lia|lia]).
  eapply near_bounded; [exact He|exact H2|rewrite HD; assumption| |exact T|exact S|exact Hn].
  rewrite HD. replace (INR q) with (INR (d_model a) / INR (num_head a))%R.
  - replace ((0.04 + e) * (1 + e + e) * INR (d_model a) + (0.01 + e))%R with ((0.04 + e) * (1 + 2 * e) * INR (d_model a) + 0.01 + e)%R by ring. exact Hb.
  - rewrite D, mult_INR. field. apply not_0_INR. lia.
Qed.
Theorem C103_causal_near : forall gelu seed42 a w v P e, build seed42 a w = Ok v ->
  em_shape P (d_model a) (Z.to_nat (num_channels a)) (window_size_dec a ^ 2) ->
  Forall2 (near_block e) (decoder_layers (v_em v)) (decoder_layers P) -> (0 <= e)%R ->
  (let d := INR (d_model a) in
   let size := (0.04 + e) * (1 + 2 * e) * d + 0.01 + e in
   d / INR (num_head a) * (size * size) <= 400000)%R ->
  hides_later gelu (d_model a) (num_head a) P.
Proof.
  intros gelu s a w v P e HB SH NB He Hb training pe pd de dd enc x y i L Hi F.
  apply (C102_causal gelu (d_model a) (num_head a) training pe pd P de dd (Z.to_nat (num_channels a)) (window_size_dec a ^ 2) enc x y i SH); try assumption.
  eapply near_all_bounded; eassumption.
Qed.
Print Assumptions C103_causal_near.

(** With the default sizes every fresh model builds and is causal, and stays so while no weight of these
    layers has moved by more than 0.06. *)
Theorem C103_default_causal : forall gelu seed42 w, exists v, build seed42 default_args w = Ok v /\
  hides_later gelu 768 16 (v_em v) /\
  (forall P, em_shape P 768 192 16 -> Forall2 (near_block 0.06) (decoder_layers (v_em v)) (decoder_layers P) -> hides_later gelu 768 16 P).
Proof.
  intros gelu s w.
  assert (HO : heads_ok default_args).
  { unfold heads_ok, default_args. cbn [num_head d_model]. split; [lia|]. split; [lia|]. exists 48. reflexivity. }
  assert (RO : rate_ok 0) by (unfold rate_ok; lra).
  destruct (proj2 (C103_errors s default_args w) ltac:(cbn [window_size_dec window_size_enc default_args]; lia) ltac:(cbn [num_channels default_args]; lia)) as (_ & _ & G).
  destruct (proj2 (G RO (or_intror HO)) ltac:(cbn [num_channels default_args]; lia)) as (_ & _ & G2).
  destruct (G2 RO (or_intror HO)) as [v HB]. clear G G2. exists v. split; [exact HB|].
  assert (N : (INR 768 = 768)%R) by (rewrite INR_IZR_INZ; reflexivity).
  assert (N2 : (INR 16 = 16)%R) by (rewrite INR_IZR_INZ; reflexivity).
  split.
  - apply (C103_causal_near gelu s default_args w v (v_em v) 0 HB); [|  |lra|].
    + apply (C103_shapes s default_args w v HB).
    + assert (WI : forall x, within 0 x x).
      { induction x; constructor; [|assumption]. rewrite Rminus_diag_eq, Rabs_R0 by reflexivity. lra. }
      assert (WR : forall x, Forall2 (within 0) x x) by (induction x; constructor; auto).
      induction (decoder_layers (v_em v)); constructor; [|assumption]. repeat split; auto.
    + cbv zeta. cbn [d_model num_head default_args]. rewrite N, N2. lra.
  - intros P SH NB. apply (C103_causal_near gelu s default_args w v P 0.06 HB); [exact SH|exact NB|lra|].
    cbv zeta. cbn [d_model num_head default_args]. rewrite N, N2. lra.
Qed.
Print Assumptions C103_default_causal.

(** The values drawn: weights of the transformers in [-0.04, 0.04] and biases of 0.01, ones and zeros in
    the layer normalisations; entries of the embeddings within 1 / sqrt(num_channels); and a start symbol in
    [-3, 3) that is the same for every model of that size. *)
Definition fresh_linear (l : linear) : Prop := Forall (entries_le 0.04) (lin_w l) /\ Forall (fun b => b = 0.01%R) (lin_b l).
Definition fresh_values (b : block) : Prop :=
  (forall a, a = self_attention b \/ a = cross_attention b ->
     fresh_linear (q_linear a) /\ fresh_linear (k_linear a) /\ fresh_linear (v_linear a) /\ fresh_linear (proj a)) /\
  (forall m, m = mlp1 b \/ m = mlp2 b -> fresh_linear (fc1 m) /\ fresh_linear (fc2 m)) /\
  (forall n, n = ln_1a b \/ n = ln_1b b \/ n = ln_2a b \/ n = ln_2b b ->
     Forall (fun g => g = 1%R) (n_gamma n) /\ Forall (fun z => z = 0%R) (n_beta n)).
Definition draw01 (x : R) : Prop := (0 <= x < 1)%R.
Theorem C103_values : forall seed42 a w v, build seed42 a w = Ok v ->
  (forall i, draw01 (seed42 i)) -> (forall k r c, draw01 (i_emb w k r c)) -> (forall k r, draw01 (i_emb_b w k r)) ->
  Forall fresh_values (v_encoder_sep v) /\ Forall fresh_values (encoder_joint (v_em v)) /\ Forall fresh_values (decoder_layers (v_em v)) /\
  (forall l, l = v_encoder_embedding v \/ l = decoder_embedding (v_em v) ->
     let bound := (1 / sqrt (IZR (num_channels a)))%R in Forall (entries_le bound) (lin_w l) /\ entries_le bound (lin_b l)) /\
  Forall (fun z => (-3 <= z < 3)%R) (learned_zero (v_em v)) /\
  (forall a' w' v', build seed42 a' w' = Ok v' -> num_channels a' = num_channels a -> learned_zero (v_em v') = learned_zero (v_em v)).
Proof.
  intros s a w v H DS DE DB. pose proof (build_inv _ _ _ _ H) as (_ & HC & T0 & T1 & T2 & M0 & M1).
  assert (FB : forall d h m x b, fresh_block d h m x = Ok b -> fresh_values b).
  { intros d h m x b E. unfold fresh_block, fresh_attention in E. destruct (h =? 0); [discriminate|].
    destruct (negb _); [discriminate|]. destruct (_ =? 0); [discriminate|]. cbn [bind] in E. injection E as <-.
    split; [|split]; cbn [self_attention cross_attention mlp1 mlp2 ln_1a ln_1b ln_2a ln_2b].
    - intros a' [->| ->]; cbn [q_linear k_linear v_linear proj]; repeat split; apply truncated_entries.
    - intros m' [->| ->]; unfold fresh_mlp; cbn [fc1 fc2]; repeat split; apply truncated_entries.
    - intros n [->|[->|[->| ->]]]; cbn [fresh_norm n_gamma n_beta]; split; apply Forall_forall; intros c Hc; now apply repeat_spec in Hc. }
  assert (FT : forall n h d e p x bs, fresh_transformer n h d e p x = Ok bs -> Forall fresh_values bs).
  { intros n h d e p x bs E. unfold fresh_transformer in E. destruct (check_rate p); [|discriminate]. cbn [bind] in E. apply mapM_ok_in in E.
    eapply Forall_impl; [|exact (proj2 E)]. intros b (l & _ & Eb). exact (FB _ _ _ _ _ Eb). }
  apply FT in T0, T1, T2.
  assert (Z : learned_zero (v_em v) = map (fun i => uniform (-3) 3 (s i)) (seq 0 (Z.to_nat (num_channels a))) /\
    forall a' w' v', build s a' w' = Ok v' -> learned_zero (v_em v') = map (fun i => uniform (-3) 3 (s i)) (seq 0 (Z.to_nat (num_channels a')))).
  { assert (G : forall a' w' v', build s a' w' = Ok v' -> learned_zero (v_em v') = map (fun i => uniform (-3) 3 (s i)) (seq 0 (Z.to_nat (num_channels a')))); [|split; [apply (G a w v H)|exact G]].
    intros a' w' v' E. unfold build in E. destruct (_ <? _); [discriminate|]. destruct (_ <? _)%Z; [discriminate|]. cbv zeta in E.
    destruct (fresh_transformer _ _ _ _ _ (i_tf w' 0)); [|discriminate]. cbn [bind] in E. destruct (fresh_transformer _ _ _ _ _ (i_tf w' 1)); [|discriminate]. cbn [bind] in E.
    destruct (make_embedding _ _ (i_emb w' 0) _); [|discriminate]. cbn [bind] in E. destruct (make_embedding _ _ (i_emb w' 1) _); [|discriminate]. cbn [bind] in E.
    destruct (fresh_transformer _ _ _ _ _ (i_tf w' 2)); [|discriminate]. cbn [bind] in E. injection E as <-. reflexivity. }
  destruct Z as [Z1 Z2].
  split; [exact T0|]. split; [exact T1|]. split; [exact T2|]. split; [|split].
  - assert (ME : forall u ub l, (forall r c, draw01 (u r c)) -> (forall r, draw01 (ub r)) -> make_embedding (Z.to_nat (num_channels a)) (d_model a) u ub = Ok l ->
      let bound := (1 / sqrt (IZR (num_channels a)))%R in Forall (entries_le bound) (lin_w l) /\ entries_le bound (lin_b l)).
    { intros u ub l Du Db E bound. unfold make_embedding in E. destruct (_ =? 0); [discriminate|]. cbv zeta in E.
      rewrite INR_IZR_INZ, Z2Nat.id in E by lia. fold bound in E. injection E as <-.
      assert (B0 : (0 < bound)%R) by (apply Rdiv_lt_0_compat; [lra|]; apply sqrt_lt_R0, IZR_lt; exact HC). clearbody bound.
      assert (U : forall x, draw01 x -> (Rabs (uniform (- bound) bound x) <= bound)%R).
      { intros x [X1 X2]. unfold uniform. apply Rabs_le. split; nra. }
      unfold mk_linear, entries_le. cbn [lin_w lin_b]. split; apply Forall_map, Forall_forall; intros r _; [apply Forall_map, Forall_forall; intros c _|]; auto. }
    intros l [->| ->]; [exact (ME _ _ _ (DE 0) (DB 0) M0)|exact (ME _ _ _ (DE 1) (DB 1) M1)].
  - rewrite Z1. apply Forall_map, Forall_forall. intros i _. unfold uniform. destruct (DS i). lra.
  - intros a' w' v' E EC. rewrite (Z2 _ _ _ E), Z1, EC. reflexivity.
Qed.
Print Assumptions C103_values.

(** A draw of [0, 1) is spread evenly: entry i of the start symbol is 6 u - 3, an entry of an embedding
    (2 u - 1) / sqrt(num_channels) for the draw u made for it. *)
Theorem C103_uniform : forall seed42 a w v, build seed42 a w = Ok v ->
  let c := Z.to_nat (num_channels a) in
  let bound := (1 / sqrt (INR c))%R in
  (forall i, i < c -> nth i (learned_zero (v_em v)) 0%R = (6 * seed42 i - 3)%R) /\
  (forall r i, r < d_model a -> i < c ->
     nth i (nth r (lin_w (v_encoder_embedding v)) []) 0%R = ((2 * i_emb w 0 r i - 1) * bound)%R /\
     nth i (nth r (lin_w (decoder_embedding (v_em v))) []) 0%R = ((2 * i_emb w 1 r i - 1) * bound)%R) /\
  (forall r, r < d_model a ->
     nth r (lin_b (v_encoder_embedding v)) 0%R = ((2 * i_emb_b w 0 r - 1) * bound)%R /\
     nth r (lin_b (decoder_embedding (v_em v))) 0%R = ((2 * i_emb_b w 1 r - 1) * bound)%R).
Proof.
  intros s a w v H c bound. pose proof (build_inv _ _ _ _ H) as (_ & _ & _ & _ & _ & M0 & M1). fold c in M0, M1.
  assert (ZS : learned_zero (v_em v) = map (fun i => uniform (-3) 3 (s i)) (seq 0 c)).
  { unfold build in H. destruct (_ <? _); [discriminate|]. destruct (_ <? _)%Z; [discriminate|]. cbv zeta in H.
    destruct (fresh_transformer _ _ _ _ _ (i_tf w 0)); [|discriminate]. cbn [bind] in H. destruct (fresh_transformer _ _ _ _ _ (i_tf w 1)); [|discriminate]. cbn [bind] in H.
    destruct (make_embedding _ _ (i_emb w 0) _); [|discriminate]. cbn [bind] in H. destruct (make_embedding _ _ (i_emb w 1) _); [|discriminate]. cbn [bind] in H.
    destruct (fresh_transformer _ _ _ _ _ (i_tf w 2)); [|discriminate]. cbn [bind] in H. injection H as <-. reflexivity. }
  assert (ME : forall u ub l, make_embedding c (d_model a) u ub = Ok l ->
    (forall r i, r < d_model a -> i < c -> nth i (nth r (lin_w l) []) 0%R = ((2 * u r i - 1) * bound)%R) /\
    (forall r, r < d_model a -> nth r (lin_b l) 0%R = ((2 * ub r - 1) * bound)%R)).
  { intros u ub l E. unfold make_embedding in E. destruct (_ =? 0); [discriminate|]. cbv zeta in E. fold bound in E. injection E as <-.
    unfold mk_linear. cbn [lin_w lin_b]. clearbody bound. split.
    - intros r i Hr Hi. rewrite (nth_map_d _ _ r 0) by now rewrite seq_length. rewrite (nth_map_d _ _ i 0) by now rewrite seq_length.
      rewrite !seq_nth by assumption. cbn [Nat.add]. unfold uniform. ring.
    - intros r Hr. rewrite (nth_map_d _ _ r 0) by now rewrite seq_length. rewrite seq_nth by assumption. cbn [Nat.add]. unfold uniform. ring. }
  apply ME in M0, M1. destruct M0 as [A0 B0], M1 as [A1 B1]. split; [|split].
  - intros i Hi. rewrite ZS, (nth_map_d _ _ i 0) by now rewrite seq_length. rewrite seq_nth by exact Hi. cbn [Nat.add]. unfold uniform. ring.
  - intros r i Hr Hi. split; auto.
  - intros r Hr. split; auto.
Qed.
Print Assumptions C103_uniform.

(** The coder pays the rate that training measures: in any such model the distribution with which the coder
    codes token j, which it predicts from the tokens coded so far, is the one a single run of the network on
    the whole latent predicts, for every context and latent. *)
Theorem C103_coded_distributions : forall gelu seed42 w v P enc latent quant means scales j,
  build seed42 default_args w = Ok v ->
  em_shape P 768 192 16 -> Forall2 (near_block 0.06) (decoder_layers (v_em v)) (decoder_layers P) ->
  length latent = 16 -> length quant = 16 -> j < 16 ->
  predicted_so_far (tf_net gelu 768 16 P 192) enc latent quant means scales j ->
  let '(m, s, _) := tf_net gelu 768 16 P 192 enc quant in nth j means [] = nth j m [] /\ nth j scales [] = nth j s [].
Proof.
  intros gelu s w v P enc latent quant means scales j HB SH NB L1 L2 Hj HP.
  apply (vct_coded_distributions gelu 768 16 P 192 16 enc latent quant means scales j SH); try assumption.
  apply (near_all_bounded s default_args w v P 0.06 HB SH NB); [lra|]. cbv zeta. cbn [d_model num_head default_args].
  replace (INR 768) with 768%R by (rewrite INR_IZR_INZ; reflexivity). replace (INR 16) with 16%R by (rewrite INR_IZR_INZ; reflexivity). lra.
Qed.
Print Assumptions C103_coded_distributions.
(** A fresh model meets the hypotheses on the weights. *)
Example C103_near_ex : forall seed42 w v, build seed42 default_args w = Ok v ->
  em_shape (v_em v) 768 192 16 /\ Forall2 (near_block 0.06) (decoder_layers (v_em v)) (decoder_layers (v_em v)).
Proof.
  intros s w v HB. split; [apply (C103_shapes s default_args w v HB)|].
  assert (WI : forall x, within 0.06 x x).
  { induction x; constructor; [|assumption]. rewrite Rminus_diag_eq, Rabs_R0 by reflexivity. lra. }
  assert (WR : forall x, Forall2 (within 0.06) x x) by (induction x; constructor; auto).
  induction (decoder_layers (v_em v)); constructor; [|assumption]. repeat split; auto.
Qed.

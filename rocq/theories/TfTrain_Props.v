(** The video model's transformer while it trains, with dropout and stochastic depth (C102). *)
From Coq Require Import Arith List Bool Lia Lra Reals ZArith.
From Coquelicot Require Import Hierarchy RInt.
From Verif Require Import Base RBase RFloat Gsn_Model EM_Model TF_Model TF_Spec TF_Proofs TF_Props TfTrain_Model TfTrain_Proofs.
Import ListNotations.
Open Scope nat_scope.

(** Training sees no more than decoding will: whatever is dropped and whatever the rates, two latents
    that agree before position [i] give the same distribution and features at every position up to
    [i] (or fail alike). *)
Theorem C102_causal : forall gelu d heads training pe pd P draws_enc draws_dec C L enc x y i,
  em_shape P d C L ->
  Forall (fun b => bounded_logits d heads (ln_1a b) (self_attention b)) (decoder_layers P) ->
  length x = length y -> i < length x -> firstn i x = firstn i y ->
  match output_train gelu d heads training pe pd P draws_enc draws_dec enc x,
        output_train gelu d heads training pe pd P draws_enc draws_dec enc y with
  | Ok (m, s, o), Ok (m', s', o') =>
      forall j, j <= i -> nth_error m j = nth_error m' j /\ nth_error s j = nth_error s' j /\ nth_error o j = nth_error o' j
  | Raise e, Raise e' => e = e'
  | _, _ => False
  end.
Proof.
  intros gelu d heads tr pe pd P de dd C L enc x y i SH BL Lxy Hi F.
  pose proof (output_train_agree gelu d heads tr pe pd P de dd C L i enc x y SH BL Lxy F Hi) as H.
  destruct (output_train _ _ _ _ _ _ _ _ _ _ x) as [[[m s] o]|]; destruct (output_train _ _ _ _ _ _ _ _ _ _ y) as [[[m' s'] o']|]; try exact H.
  destruct H as (_ & H1 & H2 & H3).
  assert (K : forall (u v : list token) j, firstn (S i) u = firstn (S i) v -> j <= i -> nth_error u j = nth_error v j).
  { intros u v j E J.
    assert (G : forall (l : list token), nth_error l j = nth_error (firstn (S i) l) j).
    { intro l. rewrite <- (firstn_skipn (S i) l) at 1. destruct (le_lt_dec (length l) j) as [Q|Q].
      - rewrite firstn_skipn. rewrite (proj2 (nth_error_None l j) Q). symmetry. apply nth_error_None. rewrite firstn_length. lia.
      - apply nth_error_app1. rewrite firstn_length. lia. }
    now rewrite (G u), (G v), E. }
  intros j J. repeat split; apply K; assumption.
Qed.
Print Assumptions C102_causal.

(** In evaluation mode, and in training with the default rates of 0 (for which every entry is kept), the
    outputs are those of the transformer without any of these layers. *)
Definition nothing_dropped (dr : block_draws) : Prop :=
  let kept3 (f : nat -> nat -> nat -> bool) := forall h i j, f h i j = true in
  let kept2 (f : nat -> nat -> bool) := forall i c, f i c = true in
  kept3 (ad_attn (bd_self dr)) /\ kept2 (ad_proj (bd_self dr)) /\ kept2 (md_1 (bd_mlp1 dr)) /\ kept2 (md_2 (bd_mlp1 dr)) /\
  kept3 (ad_attn (bd_cross dr)) /\ kept2 (ad_proj (bd_cross dr)) /\ kept2 (md_1 (bd_mlp2 dr)) /\ kept2 (md_2 (bd_mlp2 dr)).
Theorem C102_evaluation : forall gelu d heads P draws_enc draws_dec enc x,
  (forall pe pd, output_train gelu d heads false pe pd P draws_enc draws_dec enc x = get_transformer_output gelu d heads P enc x) /\
  ((forall k, nothing_dropped (draws_enc k)) -> (forall k, nothing_dropped (draws_dec k)) ->
   output_train gelu d heads true 0 0 P draws_enc draws_dec enc x = get_transformer_output gelu d heads P enc x).
Proof.
  intros gelu d heads P de dd enc x.
  assert (Q : forall tr pe pd, inactive tr pe -> inactive tr pd -> (tr = true -> (forall k, keeps (de k)) /\ (forall k, keeps (dd k))) ->
     output_train gelu d heads tr pe pd P de dd enc x = get_transformer_output gelu d heads P enc x).
  { intros tr pe pd I1 I2 K. unfold output_train, get_transformer_output.
    destruct (embed P _); [|reflexivity]. destruct (learned_position _ enc); [|reflexivity]. cbn [bind].
    rewrite transformer_train_id; [|exact I1|intro T; apply (K T)].
    destruct (transformer _ _ _ None _ _ _); [|reflexivity]. cbn [bind].
    rewrite transformer_train_id; [|exact I2|intro T; apply (K T)]. reflexivity. }
  split.
  - intros pe pd. apply Q; try (now left); discriminate.
  - intros K1 K2. apply Q; try (now right). intros _. split; [exact K1|exact K2].
Qed.
Print Assumptions C102_evaluation.

(** Stochastic depth, at a rate in (0, 1) and a draw in [0, 1): the branch is zero when the draw is below
    the rate and divided by 1 - rate otherwise, as a whole; over the draw, each entry's mean is the
    entry itself. *)
Lemma floor_draw rate r : (0 < rate < 1)%R -> (0 <= r < 1)%R ->
  IZR (Rfloor (1 - rate + r)) = if Rlt_dec r rate then 0%R else 1%R.
Proof.
  intros Hp Hr. destruct (Rlt_dec r rate).
  - rewrite (Rfloor_unique _ 0); [reflexivity|]. cbn. lra.
  - rewrite (Rfloor_unique _ 1); [reflexivity|]. cbn. lra.
Qed.
Theorem C102_drop_path : forall rate x, (0 < rate < 1)%R ->
  (forall r, (0 <= r < 1)%R ->
     drop_path true rate r x = if Rlt_dec r rate then map (map (fun _ => 0%R)) x else map (map (fun a => (a / (1 - rate))%R)) x) /\
  (forall i c, is_RInt (fun r => nth c (nth i (drop_path true rate r x) []) 0%R) 0 1 (nth c (nth i x []) 0%R)).
Proof.
  intros rate x Hp.
  assert (D : forall r, (0 <= r < 1)%R -> drop_path true rate r x =
    if Rlt_dec r rate then map (map (fun _ => 0%R)) x else map (map (fun a => (a / (1 - rate))%R)) x).
  { intros r Hr. unfold drop_path. destruct (Req_EM_T rate 0); [lra|]. cbn [negb orb]. cbv zeta. rewrite floor_draw by assumption.
    destruct (Rlt_dec r rate); apply map_ext; intro t; apply map_ext; intro a; field; lra. }
  split; [exact D|]. intros i c.
  assert (N : forall f : R -> R, f 0%R = 0%R -> nth c (nth i (map (map f) x) []) 0%R = f (nth c (nth i x []) 0%R)).
  { intros f F0. change (@nil R) with (map f []) at 1. rewrite map_nth. rewrite <- F0 at 1. apply map_nth. }
  set (a := nth c (nth i x []) 0%R) in *.
  replace a with (plus (G:=R_NormedModule) (scal (V:=R_NormedModule) (rate - 0)%R 0%R) (scal (V:=R_NormedModule) (1 - rate)%R (a / (1 - rate))%R)).
  2:{ unfold plus, scal; cbn. unfold mult; cbn. field. lra. }
  apply (is_RInt_Chasles (V:=R_NormedModule) _ 0 rate 1).
  - apply (is_RInt_ext (V:=R_NormedModule) (fun _ => 0%R)); [|exact (is_RInt_const (V:=R_NormedModule) _ _ _)]. rewrite Rmin_left, Rmax_right by lra. intros r Hr.
    rewrite D by lra. destruct (Rlt_dec r rate); [|lra]. rewrite (N (fun _ => 0%R)) by reflexivity. reflexivity.
  - apply (is_RInt_ext (V:=R_NormedModule) (fun _ => (a / (1 - rate))%R)); [|exact (is_RInt_const (V:=R_NormedModule) _ _ _)]. rewrite Rmin_left, Rmax_right by lra. intros r Hr.
    rewrite D by lra. destruct (Rlt_dec r rate); [lra|]. rewrite (N (fun a => (a / (1 - rate))%R)); [reflexivity|]. field. lra.
Qed.
Print Assumptions C102_drop_path.

(** A block whose four branches are dropped hands its tokens on unchanged. *)
Theorem C102_dropped_block : forall gelu d heads rate decoder b dr x e o,
  (0 < rate < 1)%R -> block_shape b d -> Forall (fun t => length t = d) x ->
  (0 <= bd_path1 dr < rate)%R -> (0 <= bd_path2 dr < rate)%R -> (0 <= bd_path3 dr < rate)%R -> (0 <= bd_path4 dr < rate)%R ->
  block_train gelu d heads true rate decoder b dr x e = Ok o -> o = x.
Proof.
  intros gelu d heads rate dec b dr x e o Hp (N1 & AT1 & N2 & M1 & N3 & AT2 & N4 & M2) Fx P1 P2 P3 P4 H.
  assert (Z : forall r y, (0 <= r < rate)%R -> drop_path true rate r y = map (map (fun _ => 0%R)) y).
  { intros r y Hr. pose proof (proj1 (C102_drop_path rate y Hp) r ltac:(lra)) as E. rewrite E. destruct (Rlt_dec r rate); [reflexivity|lra]. }
  assert (V : forall (y z : list token), length z = length y -> Forall (fun t => length t = d) y -> Forall (fun t => length t = d) z ->
     map2 vadd y (map (map (fun _ => 0%R)) z) = y).
  { clear. induction y as [|t y IH]; intros [|u z] L Fy Fz; try discriminate; [reflexivity|]. cbn [map]. rewrite map2_cons.
    apply Forall_cons_iff in Fy, Fz. destruct Fy as [Ft Fy], Fz as [Fu Fz]. f_equal; [|apply IH; auto].
    assert (Lt : length u = length t) by lia. clear - Lt. revert u Lt. induction t as [|a t IH]; intros [|c u] E; try discriminate; [reflexivity|].
    cbn [map]. unfold vadd in *. rewrite map2_cons, IH by (cbn in E; lia). f_equal. ring. }
  assert (MB : forall n m dr' r y, (0 <= r < rate)%R -> mlp_shape m d -> Forall (fun t => length t = d) y -> mlp_branch gelu true rate n m dr' r y = y).
  { intros n m dr' r y Hr (q & S1 & S2) Fy. unfold mlp_branch. rewrite Z by exact Hr. apply V; [apply map2_mapi_len|exact Fy|].
    apply (mapi_forall (fun t : token => length t = d)); [|exact Fy]. intros t j _. unfold mlp_train. rewrite dropout_len. eapply lin_len; eassumption. }
  assert (AL : forall a dr' q kv m o, attention_shape a d -> attention_train d heads true rate a dr' q kv m = Ok o -> Forall (fun t => length t = d) o).
  { intros a dr' q kv m o' (_ & _ & _ & SP) E. unfold attention_train in E. destruct (_ =? 0); [discriminate|]. destruct (negb _); [discriminate|].
    destruct (match m with Some _ => _ | None => _ end); [discriminate|]. injection E as <-. unfold dropout_seq.
    apply (mapi_forall (fun t : token => length t = d)); [intros t j Ht; now rewrite dropout_len|].
    apply Forall_map, Forall_forall. intros i _. eapply lin_len; eassumption. }
  assert (G : exists m e', (do x1 <- attention_train d heads true rate (self_attention b) (bd_self dr) (map (layer_norm (ln_1a b)) x) (map (layer_norm (ln_1a b)) x) m;
      let x1 := map2 vadd x (drop_path true rate (bd_path1 dr) x1) in
      let x1 := mlp_branch gelu true rate (ln_1b b) (mlp1 b) (bd_mlp1 dr) (bd_path2 dr) x1 in
      let y := map (layer_norm (ln_2a b)) x1 in
      do y <- attention_train d heads true rate (cross_attention b) (bd_cross dr) y (e' y) None;
      let y := map2 vadd x1 (drop_path true rate (bd_path3 dr) y) in
      Ok (mlp_branch gelu true rate (ln_2b b) (mlp2 b) (bd_mlp2 dr) (bd_path4 dr) y)) = Ok o).
  { exists (option_map look_ahead_mask dec), (fun y => match e with Some e0 => e0 | None => y end).
    unfold block_train in H. destruct dec, e; try exact H. discriminate. }
  clear H. destruct G as (m & e' & H).
  destruct (attention_train d heads true rate (self_attention b) _ _ _ _) as [sx|] eqn:EX; [|discriminate]. cbn [bind] in H.
  pose proof (AL _ _ _ _ _ _ AT1 EX) as FS. apply attention_train_len in EX. rewrite map_length in EX.
  cbv zeta in H. rewrite Z, V, MB in H by assumption.
  destruct (attention_train d heads true rate (cross_attention b) _ _ _ _) as [cx|] eqn:CX; [|discriminate]. cbn [bind] in H.
  pose proof (AL _ _ _ _ _ _ AT2 CX) as FC. apply attention_train_len in CX. rewrite map_length in CX.
  rewrite Z, V, MB in H by assumption. now injection H as <-.
Qed.
Print Assumptions C102_dropped_block.

(** The mean of [f] over [n] independent flags, each true with probability 1 - p. *)
Fixpoint flags_mean (p : R) (n : nat) (f : list bool -> R) : R :=
  match n with
  | O => f []
  | S n => ((1 - p) * flags_mean p n (fun l => f (true :: l)) + p * flags_mean p n (fun l => f (false :: l)))%R
  end.
Lemma mean_ext p n f g : (forall l, f l = g l) -> flags_mean p n f = flags_mean p n g.
Proof. revert f g. induction n as [|n IH]; intros f g H; cbn [flags_mean]; [apply H|]. rewrite (IH (fun l => f (true :: l)) (fun l => g (true :: l))), (IH (fun l => f (false :: l)) (fun l => g (false :: l))); auto. Qed.
Lemma mean_plus p n u f : flags_mean p n (fun l => (u + f l)%R) = (u + flags_mean p n f)%R.
Proof. revert f. induction n as [|n IH]; intros f; cbn [flags_mean]; [reflexivity|]. rewrite (IH (fun l => f (true :: l))), (IH (fun l => f (false :: l))). ring. Qed.
Lemma mean_dropout p (g : R -> token -> R) (Hg : forall s a v, g (s * a)%R v = (s * g a v)%R) : (p < 1)%R ->
  forall a vs, flags_mean p (length a) (fun l => sum (map2 g (dropout true p (fun j => nth j l false) a) vs)) = sum (map2 g a vs).
Proof.
  intros Hp. induction a as [|x a IH]; intro vs; [reflexivity|]. destruct vs as [|v vs].
  - assert (Q : forall n, flags_mean p n (fun _ => 0%R) = 0%R) by (induction n as [|n I]; cbn [flags_mean]; [reflexivity|rewrite I; ring]).
    transitivity (flags_mean p (length (x :: a)) (fun _ => 0%R)); [|rewrite Q, map2_nil_r; reflexivity].
    apply mean_ext. intro l. rewrite map2_nil_r. reflexivity.
  - cbn [length flags_mean].
    assert (E : forall (k : bool) l, sum (map2 g (dropout true p (fun j => nth j (k :: l) false) (x :: a)) (v :: vs)) =
      (g (if k then x * (1 / (1 - p)) else 0) v + sum (map2 g (dropout true p (fun j => nth j l false) a) vs))%R).
    { intros k l. unfold dropout. cbn [length seq]. rewrite !map2_cons. rewrite mapi_shift. cbn [sum fold_right nth Nat.add].
      reflexivity. }
    rewrite (mean_ext p (length a) _ _ (E true)), (mean_ext p (length a) _ _ (E false)), !mean_plus, IH.
    rewrite map2_cons. cbn [sum fold_right]. unfold sum.
    replace (x * (1 / (1 - p)))%R with ((1 / (1 - p)) * x)%R by ring. rewrite Hg.
    assert (G0 : g 0%R v = 0%R) by (replace 0%R with (0 * x)%R by ring; rewrite Hg; ring). rewrite G0. field. lra.
Qed.

(** Dropping attention weights changes no feature on average: over independent draws, the mean of each
    feature a head gathers is the feature gathered in evaluation. *)
Theorem C102_attention_unbiased : forall d heads p q ks vs mask c, (0 <= p < 1)%R ->
  (match mask with Some m => length m = length ks | None => True end) ->
  flags_mean p (length ks) (fun l => nth c (attend_train d heads true p q ks vs mask (fun j => nth j l false)) 0%R) =
  nth c (attend d heads q ks vs mask) 0%R.
Proof.
  intros d heads p q ks vs mask c Hp Lm.
  assert (Lw : length (head_weights d heads q ks mask) = length ks).
  { unfold head_weights. cbv zeta. destruct mask as [m|]; unfold softmax; rewrite ?map2_len, ?map_length, ?map2_len, ?map_length; lia. }
  assert (A : attend d heads q ks vs mask = map (fun c => sum (map2 (fun a v => (a * nth c v 0)%R) (head_weights d heads q ks mask) vs)) (seq 0 (head_dim d heads)))
    by reflexivity.
  rewrite A. unfold attend_train. cbv zeta.
  destruct (le_lt_dec (head_dim d heads) c) as [Hc|Hc].
  - rewrite (nth_overflow _ _) by (rewrite map_length, seq_length; lia).
    assert (Q : forall n, flags_mean p n (fun _ => 0%R) = 0%R) by (induction n as [|n I]; cbn [flags_mean]; [reflexivity|rewrite I; ring]).
    transitivity (flags_mean p (length ks) (fun _ => 0%R)); [|apply Q]. apply mean_ext. intro l. apply nth_overflow. rewrite map_length, seq_length. lia.
  - rewrite (nth_map_d _ _ c 0) by now rewrite seq_length. rewrite seq_nth by exact Hc. cbn [Nat.add].
    rewrite <- (mean_dropout p (fun a v => (a * nth c v 0)%R)); [|intros; ring|lra]. rewrite Lw. apply mean_ext. intro l.
    rewrite (nth_map_d _ _ c 0) by now rewrite seq_length. rewrite seq_nth by exact Hc. reflexivity.
Qed.
Print Assumptions C102_attention_unbiased.

(** Dropout itself: an entry kept is divided by 1 - p, one not kept is 0, and the mean over the draw is the
    entry. *)
Theorem C102_dropout : forall p kept x j, (0 <= p < 1)%R -> j < length x ->
  length (dropout true p kept x) = length x /\
  nth j (dropout true p kept x) 0%R = (if kept j then nth j x 0 / (1 - p) else 0)%R /\
  flags_mean p 1 (fun l => nth j (dropout true p (fun _ => nth 0 l false) x) 0%R) = nth j x 0%R.
Proof.
  intros p kept x j Hp Hj.
  assert (N : forall k, nth j (dropout true p k x) 0%R = (if k j then nth j x 0 / (1 - p) else 0)%R).
  { intro k. unfold dropout. revert j Hj k. induction x as [|a x IH]; intros j Hj k; [cbn in Hj; lia|].
    cbn [length seq]. rewrite map2_cons, mapi_shift. destruct j as [|j]; cbn [nth].
    - destruct (k 0); [field; lra|reflexivity].
    - cbn [length] in Hj. exact (IH j ltac:(lia) (fun j => k (1 + j))). }
  split; [apply dropout_len|]. split; [apply N|]. cbn [flags_mean]. rewrite !N. cbn [nth]. field. lra.
Qed.
Print Assumptions C102_dropout.

(** drop_out_enc is the rate of the encoder's blocks only, drop_out_dec that of the decoder's only. *)
Theorem C102_rates : forall gelu d heads training P draws_enc draws_dec enc x pe pe' pd pd',
  (encoder_joint P = [] -> output_train gelu d heads training pe pd P draws_enc draws_dec enc x = output_train gelu d heads training pe' pd P draws_enc draws_dec enc x) /\
  (decoder_layers P = [] -> output_train gelu d heads training pe pd P draws_enc draws_dec enc x = output_train gelu d heads training pe pd' P draws_enc draws_dec enc x).
Proof. intros. split; intro H; unfold output_train; rewrite H; reflexivity. Qed.
Print Assumptions C102_rates.

(** Where the dropped entries are.  An attention whose output entries are all dropped gives zeros; one whose
    weights are all dropped gives the same whatever its queries, keys and values are.  An MLP whose output
    entries are all dropped gives zeros; one whose hidden units are all dropped gives the same whatever its
    token is. *)
Lemma dropout_none p x : dropout true p (fun _ => false) x = repeat 0%R (length x).
Proof.
  unfold dropout. generalize 0 as s. induction x as [|a x IH]; intro s; [reflexivity|]. cbn [length seq repeat]. now rewrite map2_cons, IH.
Qed.
Lemma dropout_ext tr p k k' x : (forall j, k j = k' j) -> dropout tr p k x = dropout tr p k' x.
Proof. intro H. unfold dropout. destruct tr; [|reflexivity]. unfold map2. apply map_ext. intros [a j]. cbn [fst snd]. now rewrite H. Qed.
Theorem C102_dropped_layers : forall gelu d heads p,
  (forall a dr q kv m o, (forall i c, ad_proj dr i c = false) ->
     attention_train d heads true p a dr q kv m = Ok o -> Forall (Forall (fun v => v = 0%R)) o) /\
  (forall a dr q q' kv kv' m o, (forall h i j, ad_attn dr h i j = false) -> length q = length q' -> length kv = length kv' ->
     attention_train d heads true p a dr q kv m = Ok o -> attention_train d heads true p a dr q' kv' m = Ok o) /\
  (forall m dr i x, (forall c, md_2 dr i c = false) -> Forall (fun v => v = 0%R) (mlp_train gelu true p m dr i x)) /\
  (forall m dr i x x', (forall c, md_1 dr i c = false) -> mlp_train gelu true p m dr i x = mlp_train gelu true p m dr i x').
Proof.
  intros gelu d heads p.
  assert (Z : forall k x, (forall j, k j = false) -> Forall (fun v => v = 0%R) (dropout true p k x)).
  { intros k x H. rewrite (dropout_ext _ _ k (fun _ => false)) by exact H. rewrite dropout_none. apply Forall_forall. intros v Hv. now apply repeat_spec in Hv. }
  split; [|split; [|split]].
  - intros a dr q kv m o K E. unfold attention_train in E. destruct (_ =? 0); [discriminate|]. destruct (negb _); [discriminate|].
    destruct (match m with Some _ => _ | None => _ end); [discriminate|]. injection E as <-. unfold dropout_seq.
    apply (mapi_forall (fun _ => True)); [|now apply Forall_forall]. intros t i _. apply Z. apply K.
  - intros a dr q q' kv kv' m o K Lq Lk. unfold attention_train. rewrite <- Lq, <- Lk.
    destruct (_ =? 0); [discriminate|]. destruct (negb _); [discriminate|].
    destruct (match m with Some _ => _ | None => _ end); [discriminate|]. intro E. rewrite <- E. f_equal. f_equal.
    apply map_ext. intro i. do 2 f_equal. apply map_ext. intro h.
    assert (G : forall t ks vs row, attend_train d heads true p t ks vs row (ad_attn dr h i) = map (fun _ => 0%R) (seq 0 (head_dim d heads))).
    { intros t ks vs row. unfold attend_train. cbv zeta. apply map_ext. intro c. apply sum_zeros.
      pose proof (Z (ad_attn dr h i) (head_weights d heads t ks row) (K h i)) as F. revert F. generalize (dropout true p (ad_attn dr h i) (head_weights d heads t ks row)) as w.
      intros w F. revert vs. induction F as [|u w Hu F IH]; intro vs; [constructor|]. destruct vs as [|v vs]; [rewrite map2_nil_r; constructor|].
      rewrite map2_cons. constructor; [rewrite Hu; ring|apply IH]. }
    now rewrite !G.
  - intros m dr i x K. apply Z, K.
  - intros m dr i x x' K. unfold mlp_train.
    assert (G : forall y, dropout true p (md_1 dr i) (map gelu (lin (fc1 m) y)) = repeat 0%R (Nat.min (length (lin_w (fc1 m))) (length (lin_b (fc1 m))))).
    { intro y. rewrite (dropout_ext _ _ _ (fun _ => false)) by exact K. rewrite dropout_none, map_length. unfold lin. rewrite map2_len. reflexivity. }
    now rewrite !G.
Qed.
Print Assumptions C102_dropped_layers.

(** The hypotheses of the theorems are met: the parameters [ex_params], and a block dropped at rate 1/2. *)
Example C102_ex : em_shape ex_params 2 2 3 /\
  Forall (fun b => bounded_logits 2 1 (ln_1a b) (self_attention b)) (decoder_layers ex_params).
Proof. exact vct_causal_ex. Qed.
Example C102_dropped_ex : forall gelu kept1 kept2 kept3,
  block_train gelu 2 1 true 0.5 None ex_block
    (mkBD (mkAD kept1 kept2) 0 (mkMD kept2 kept3) 0.25 (mkAD kept1 kept3) 0.25 (mkMD kept3 kept2) 0) [[1; 3]]%R None = Ok [[1; 3]]%R.
Proof.
  intros. match goal with |- ?t = _ => destruct t as [o|e] eqn:E end.
  - f_equal. refine (C102_dropped_block gelu 2 1 0.5 None ex_block _ _ _ o _ _ _ _ _ _ _ E); cbn [bd_path1 bd_path2 bd_path3 bd_path4]; try lra.
    + destruct vct_causal_ex as [(_ & _ & _ & _ & F) _]. exact (Forall_inv F).
    + repeat constructor.
  - exfalso. revert E. unfold block_train, attention_train. cbn [option_map length map Nat.eqb Nat.modulo Nat.divmod fst snd negb bind Nat.sub].
    match goal with |- context [mlp_branch gelu true 0.5 (ln_1b ex_block) ?a ?b ?c ?x] => set (x2 := mlp_branch gelu true 0.5 (ln_1b ex_block) a b c x) end.
    assert (L : length x2 = 1).
    { unfold x2. rewrite mlp_branch_len, map2_len, drop_path_len. unfold dropout_seq. rewrite map2_mapi_len. reflexivity. }
    clearbody x2. destruct x2 as [|t [|]]; discriminate.
Qed.

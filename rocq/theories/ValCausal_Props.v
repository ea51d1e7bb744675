(** What validate_causal of the video model tells (C104). *)
From Coq Require Import Arith List Bool Lia Lra Reals ZArith Classical_Prop.
From Verif Require Import Base RBase RFloat Gsn_Model EM_Model EM_Spec TF_Model TF_Spec TF_Proofs TF_Props TfTrain_Model VctInit_Model VctInit_Props ValCausal_Model.
Import ListNotations.
Open Scope nat_scope.

(** The latent with everything from position [i] on replaced by tens. *)
Definition known (c : nat) (x : list token) (i : nat) : list token := firstn i x ++ repeat (repeat 10%R c) (length x - i).
(** Within the tolerance: |a - b| <= 1e-8 + 1e-5 |b|. *)
Definition near (a b : R) : Prop := (Rabs (a - b) <= 1 / 100000000 + 1 / 100000 * Rabs b)%R.

Lemma isclose_row_spec a b : isclose_row a b = true <-> Forall2 near a b.
Proof.
  unfold isclose_row, near. revert b. induction a as [|x a IH]; intros [|y b]; cbn [length combine forallb fst snd Nat.eqb].
  - split; [constructor|reflexivity].
  - split; [discriminate|intro H; inversion H].
  - split; [discriminate|intro H; inversion H].
  - rewrite andb_true_iff, andb_true_iff. unfold isclose1 at 1. specialize (IH b). rewrite andb_true_iff in IH. split.
    + intros (L & C & F). constructor; [|apply IH; auto]. destruct (Rle_dec _ _); [assumption|discriminate].
    + intro H. inversion H; subst. apply IH in H5. destruct H5. repeat split; auto. destruct (Rle_dec _ _); [reflexivity|easy].
Qed.
Lemma isclose_spec a b : isclose a b = true <-> Forall2 (Forall2 near) a b.
Proof.
  unfold isclose. revert b. induction a as [|x a IH]; intros [|y b]; cbn [length combine forallb fst snd Nat.eqb].
  - split; [constructor|reflexivity].
  - split; [discriminate|intro H; inversion H].
  - split; [discriminate|intro H; inversion H].
  - rewrite andb_true_iff, andb_true_iff, isclose_row_spec. specialize (IH b). rewrite andb_true_iff in IH. split.
    + intros (L & C & F). constructor; [assumption|apply IH; auto].
    + intro H. inversion H; subst. apply IH in H5. tauto.
Qed.
Lemma set_row_app k (a : list token) v t n : length a = k -> set_row k v (a ++ repeat t (S n)) = (a ++ [v]) ++ repeat t n.
Proof.
  intros <-. unfold set_row. rewrite firstn_app, firstn_all, Nat.sub_diag. cbn [firstn]. rewrite app_nil_r, <- app_assoc. f_equal. cbn [app]. f_equal.
  rewrite skipn_app. rewrite (skipn_all2 a) by lia. replace (S (length a) - length a) with 1 by lia. reflexivity.
Qed.
Lemma full_like_rows c x : Forall (fun t => length t = c) x -> full_like x = repeat (repeat 10%R c) (length x).
Proof.
  induction 1 as [|t x H F IH]; [reflexivity|]. unfold full_like in *. cbn [map length repeat]. rewrite IH. f_equal.
  clear - H. subst c. induction t as [|a t IH]; [reflexivity|]. cbn. now rewrite IH.
Qed.

Section Net.
Context {E : Type}.
Variable net : E -> list token -> res (list token * list token * list token).

Lemma autoregress_run enc c x fm fs : (forall i, i < length x -> exists m s o, net enc (known c x i) = Ok (m, s, o) /\ nth i m [] = fm i /\ nth i s [] = fs i) ->
  forall n i, i + n = length x ->
  autoregress net enc x (seq i n) (known c x (i - 1)) (map fm (seq 0 i) ++ repeat (repeat 10%R c) n) (map fs (seq 0 i) ++ repeat (repeat 10%R c) n) =
  Ok (map fm (seq 0 (length x)), map fs (seq 0 (length x))).
Proof.
  intro H. induction n as [|n IH]; intros i L.
  - cbn [seq autoregress repeat]. rewrite !app_nil_r. replace i with (length x) by lia. reflexivity.
  - cbn [seq autoregress].
    assert (K : (if 0 <? i then set_row (i - 1) (nth (i - 1) x []) (known c x (i - 1)) else known c x (i - 1)) = known c x i).
    { destruct (Nat.ltb_spec 0 i) as [P|P]; [|replace i with 0 by lia; reflexivity]. unfold known.
      assert (Lf : length (firstn (i - 1) x) = i - 1) by (rewrite firstn_length; lia).
      replace (length x - (i - 1)) with (S (length x - i)) by lia.
      rewrite (set_row_app _ _ _ _ _ Lf). f_equal.
      replace i with (S (i - 1)) at 3 by lia. assert (Hi : i - 1 < length x) by lia. clear - Hi. revert x Hi. generalize (i - 1) as k.
      induction k as [|k IH]; intros [|t x] H; cbn in H; try lia; [reflexivity|]. cbn [firstn app nth]. f_equal. apply IH. lia. }
    rewrite K. destruct (H i ltac:(lia)) as (m & s & o & -> & Em & Es). cbn [bind]. rewrite Em, Es.
    assert (Li : forall f : nat -> token, length (map f (seq 0 i)) = i) by (intro f; now rewrite map_length, seq_length).
    rewrite (set_row_app _ _ _ _ _ (Li fm)), (set_row_app _ _ _ _ _ (Li fs)).
    assert (Sn : forall f : nat -> token, map f (seq 0 i) ++ [f i] = map f (seq 0 (S i))) by (intro f; rewrite seq_S, map_app; reflexivity).
    rewrite !Sn. replace (known c x i) with (known c x (S i - 1)) by (f_equal; lia). apply IH. lia.
Qed.

(** The check passes exactly if, at every position, the means and scales predicted from the latent are within
    the tolerance of those predicted when all symbols from that position on are replaced by tens; otherwise
    it raises ValueError. *)
Theorem C104_verdict : forall enc c x masked_m masked_s masked_o (means scales : nat -> list token),
  Forall (fun t => length t = c) x ->
  net enc x = Ok (masked_m, masked_s, masked_o) -> length masked_m = length x -> length masked_s = length x ->
  (forall i, i < length x -> exists o, net enc (known c x i) = Ok (means i, scales i, o)) ->
  let passes := forall i, i < length x ->
    Forall2 near (nth i (means i) []) (nth i masked_m []) /\ Forall2 near (nth i (scales i) []) (nth i masked_s []) in
  (passes -> validate_causal net (length x) x enc = Ok tt) /\
  (~ passes -> validate_causal net (length x) x enc = Raise ValueError).
Proof.
  intros enc c x mm ms mo means scales Fx HN Lm Ls HR passes. unfold validate_causal. rewrite HN. cbn [bind].
  rewrite !(full_like_rows c x Fx).
  assert (HA : autoregress net enc x (seq 0 (length x)) (repeat (repeat 10%R c) (length x)) (repeat (repeat 10%R c) (length x)) (repeat (repeat 10%R c) (length x)) =
    Ok (map (fun i => nth i (means i) []) (seq 0 (length x)), map (fun i => nth i (scales i) []) (seq 0 (length x)))).
  { pose proof (autoregress_run enc c x (fun i => nth i (means i) []) (fun i => nth i (scales i) [])) as A.
    assert (H : forall i, i < length x -> exists m s o, net enc (known c x i) = Ok (m, s, o) /\ nth i m [] = nth i (means i) [] /\ nth i s [] = nth i (scales i) []).
    { intros i Hi. destruct (HR i Hi) as [o Ho]. exists (means i), (scales i), o. auto. }
    specialize (A H (length x) 0 eq_refl). cbn [map seq app Nat.sub] in A. unfold known in A. cbn [firstn app] in A. rewrite Nat.sub_0_r in A. exact A. }
  rewrite HA. cbn [bind].
  assert (Q : forall (f : nat -> token) y, length y = length x -> (isclose (map f (seq 0 (length x))) y = true <-> forall i, i < length x -> Forall2 near (f i) (nth i y []))).
  { intros f y Ly. rewrite isclose_spec. rewrite <- Ly. clear. split.
    - intros H i Hi. assert (G : forall s, Forall2 (Forall2 near) (map f (seq s (length y))) y -> Forall2 near (f (s + i)) (nth i y [])); [|apply (G 0 H)].
      clear H. revert i Hi. induction y as [|t y IH]; intros i Hi s H; cbn [length] in *; [lia|]. cbn [seq map] in H. inversion H; subst.
      destruct i as [|i]; [now rewrite Nat.add_0_r|]. cbn [nth]. replace (s + S i) with (S s + i) by lia. apply IH; [lia|assumption].
    - intro H. assert (G : forall s, (forall i, i < length y -> Forall2 near (f (s + i)) (nth i y [])) -> Forall2 (Forall2 near) (map f (seq s (length y))) y); [|apply (G 0 H)].
      clear H. induction y as [|t y IH]; intros s H; [constructor|]. cbn [length seq map]. constructor.
      + specialize (H 0 ltac:(cbn; lia)). now rewrite Nat.add_0_r in H.
      + apply IH. intros i Hi. specialize (H (S i) ltac:(cbn; lia)). cbn [nth] in H. now replace (S s + i) with (s + S i) by lia. }
  pose proof (Q (fun i => nth i (means i) []) mm Lm) as Q1. pose proof (Q (fun i => nth i (scales i) []) ms Ls) as Q2. cbv beta in Q1, Q2.
  split; intro P.
  - rewrite (proj2 Q1) by (intros i Hi; apply (P i Hi)). rewrite (proj2 Q2) by (intros i Hi; apply (P i Hi)). reflexivity.
  - destruct (isclose (map (fun i => nth i (means i) []) _) mm) eqn:C1; [|reflexivity].
    destruct (isclose (map (fun i => nth i (scales i) []) _) ms) eqn:C2; [|reflexivity].
    exfalso. apply P. intros i Hi. split; [apply (proj1 Q1 eq_refl i Hi)|apply (proj1 Q2 eq_refl i Hi)].
Qed.
End Net.
Print Assumptions C104_verdict.

(** No false alarm: if the logits are bounded, the check of the transformer passes for every latent and every
    context the network accepts; for others it raises what the network raises. *)
Lemma transformer_len gelu d heads dec layers : forall x e o, transformer gelu d heads dec layers x e = Ok o -> length o = length x.
Proof.
  induction layers as [|b layers IH]; intros x e o H; cbn [transformer] in H; [now injection H as <-|].
  destruct (block_forward gelu d heads dec b x e) as [y|] eqn:B; [|discriminate]. cbn [bind] in H. apply IH in H. rewrite H.
  unfold block_forward in B.
  assert (G : exists m e', (do x1 <- attention_forward d heads (self_attention b) (map (layer_norm (ln_1a b)) x) (map (layer_norm (ln_1a b)) x) m;
      let x1 := map2 vadd x x1 in
      let x1 := map (fun t => vadd t (mlp_forward gelu (mlp1 b) (layer_norm (ln_1b b) t))) x1 in
      let y := map (layer_norm (ln_2a b)) x1 in
      do y <- attention_forward d heads (cross_attention b) y (e' y) None;
      let y := map2 vadd x1 y in
      Ok (map (fun t => vadd t (mlp_forward gelu (mlp2 b) (layer_norm (ln_2b b) t))) y)) = Ok y).
  { exists (option_map look_ahead_mask dec), (fun y => match e with Some e0 => e0 | None => y end). destruct dec, e; try exact B. discriminate. }
  clear B. destruct G as (m & e' & G). destruct (attention_forward d heads (self_attention b) _ _ _) as [sx|] eqn:A1; [|discriminate]. cbn [bind] in G. cbv zeta in G.
  destruct (attention_forward d heads (cross_attention b) _ _ _) as [cx|] eqn:A2; [|discriminate]. cbn [bind] in G. injection G as <-.
  apply attention_len in A1, A2. rewrite !map_length in A1. rewrite !map_length, map2_len in A2. rewrite map_length, map2_len, map_length, map2_len. lia.
Qed.
Theorem C104_no_false_alarm : forall gelu d heads P C L enc x,
  em_shape P d C L -> Forall (fun b => bounded_logits d heads (ln_1a b) (self_attention b)) (decoder_layers P) ->
  length x = L -> Forall (fun t => length t = C) x ->
  validate_causal (get_transformer_output gelu d heads P) L x enc =
  match get_transformer_output gelu d heads P enc x with Ok _ => Ok tt | Raise e => Raise e end.
Proof.
  intros gelu d heads P C L enc x SH BL Lx Fx.
  destruct (get_transformer_output gelu d heads P enc x) as [[[m s] o]|e] eqn:HN; [|unfold validate_causal; now rewrite HN].
  pose proof SH as (_ & _ & LP & _).
  assert (Lms : length m = L /\ length s = L).
  { pose proof HN as H. unfold get_transformer_output, embed, learned_position in H. rewrite !map_length in H.
    destruct (Nat.eqb_spec (length (start_sym (learned_zero P) x)) (length (dec_position P))) as [Q|]; [|discriminate]. cbn [negb bind] in H.
    destruct (_ =? _); [|discriminate]. cbn [negb bind] in H. destruct (transformer _ _ _ None _ _ _); [|discriminate]. cbn [bind] in H.
    match type of H with bind ?t _ = _ => destruct t as [o'|] eqn:T end; [|discriminate]. cbn [bind] in H. injection H as <- <- _.
    apply transformer_len in T. rewrite !map_length, T, map2_len, !map_length. lia. }
  destruct Lms as [Lm Ls].
  { rewrite <- Lx.
    assert (HR : forall i, i < length x -> exists m' s' o', get_transformer_output gelu d heads P enc (known C x i) = Ok (m', s', o') /\ nth i m' [] = nth i m [] /\ nth i s' [] = nth i s []).
    { intros i Hi.
      assert (Lk : length x = length (known C x i)) by (unfold known; rewrite app_length, firstn_length, repeat_length; lia).
      assert (Fk : firstn i x = firstn i (known C x i)).
      { unfold known. rewrite firstn_app, firstn_firstn, Nat.min_id. replace (i - length (firstn i x)) with 0 by (rewrite firstn_length; lia). cbn [firstn]. now rewrite app_nil_r. }
      pose proof (output_agree gelu d heads P C L i enc x (known C x i) SH BL Lk Fk Hi) as A. rewrite HN in A.
      destruct (get_transformer_output gelu d heads P enc (known C x i)) as [[[m' s'] o']|]; [|easy]. destruct A as (_ & A1 & A2 & _).
      exists m', s', o'. split; [reflexivity|]. split; symmetry; eapply firstn_nth; try eassumption; lia. }
    assert (Ch : exists means scales, forall i, i < length x -> (exists o', get_transformer_output gelu d heads P enc (known C x i) = Ok (means i, scales i, o')) /\ nth i (means i) [] = nth i m [] /\ nth i (scales i) [] = nth i s []).
    { exists (fun i => match get_transformer_output gelu d heads P enc (known C x i) with Ok (m', _, _) => m' | Raise _ => [] end),
             (fun i => match get_transformer_output gelu d heads P enc (known C x i) with Ok (_, s', _) => s' | Raise _ => [] end).
      intros i Hi. destruct (HR i Hi) as (m' & s' & o' & -> & A & B). split; [exists o'; reflexivity|]. split; assumption. }
    destruct Ch as (means & scales & Ch).
    apply (proj1 (C104_verdict (get_transformer_output gelu d heads P) enc C x m s o means scales Fx HN ltac:(lia) ltac:(lia) (fun i Hi => proj1 (Ch i Hi)))).
    assert (Rf : forall t : token, Forall2 near t t).
    { induction t; constructor; [|assumption]. unfold near. rewrite Rminus_diag_eq, Rabs_R0 by reflexivity. pose proof (Rabs_pos a). lra. }
    intros i Hi. destruct (Ch i Hi) as (_ & -> & ->). split; apply Rf. }
Qed.
Print Assumptions C104_no_false_alarm.

(** In particular for every fresh model of the default sizes, and every model near one. *)
Theorem C104_fresh_passes : forall gelu seed42 w v P enc x,
  build seed42 default_args w = Ok v -> em_shape P 768 192 16 -> Forall2 (near_block 0.06) (decoder_layers (v_em v)) (decoder_layers P) ->
  length x = 16 -> Forall (fun t => length t = 192) x ->
  validate_causal (get_transformer_output gelu 768 16 P) 16 x enc =
  match get_transformer_output gelu 768 16 P enc x with Ok _ => Ok tt | Raise e => Raise e end.
Proof.
  intros gelu s w v P enc x HB SH NB Lx Fx. apply (C104_no_false_alarm gelu 768 16 P 192 16 enc x SH); [|exact Lx|exact Fx].
  apply (near_all_bounded s default_args w v P 0.06 HB SH NB); [lra|]. cbv zeta. cbn [d_model num_head default_args].
  replace (INR 768) with 768%R by (rewrite INR_IZR_INZ; reflexivity). replace (INR 16) with 16%R by (rewrite INR_IZR_INZ; reflexivity). lra.
Qed.
Print Assumptions C104_fresh_passes.

(** Contexts and latents of the sizes the model is built for are accepted, so for them the check passes. *)
Lemma attention_runs d heads a q kv m : length q <> 0 -> length kv mod length q = 0 ->
  (m = None \/ m = Some (look_ahead_mask (length q))) -> exists o, attention_forward d heads a q kv m = Ok o.
Proof.
  intros Hq Hm M. unfold attention_forward. destruct (Nat.eqb_spec (length q) 0); [easy|]. rewrite Hm. cbn [Nat.eqb negb].
  destruct M as [->| ->]; [|rewrite mask_ok; cbn [negb]]; eexists; reflexivity.
Qed.
Lemma transformer_runs gelu d heads dec : forall layers x e, length x <> 0 ->
  ((dec = None /\ e = None) \/ (dec = Some (length x) /\ exists e', e = Some e' /\ length e' mod length x = 0)) ->
  exists o, transformer gelu d heads dec layers x e = Ok o.
Proof.
  induction layers as [|b layers IH]; intros x e Hx HD; [eexists; reflexivity|].
  assert (B : exists y, block_forward gelu d heads dec b x e = Ok y /\ length y = length x).
  { unfold block_forward.
    set (x1 := map (layer_norm (ln_1a b)) x). assert (L1 : length x1 = length x) by apply map_length.
    assert (A1 : exists o, attention_forward d heads (self_attention b) x1 x1 (option_map look_ahead_mask dec) = Ok o).
    { apply attention_runs; [lia|apply Nat.mod_same; lia|]. destruct HD as [[-> _]|[-> _]]; [now left|right]. cbn [option_map]. now rewrite L1. }
    destruct A1 as [o1 A1]. rewrite A1. cbn [bind]. apply attention_len in A1.
    set (x2 := map _ (map2 vadd x o1)). assert (L2 : length x2 = length x) by (unfold x2; rewrite map_length, map2_len; lia).
    set (x3 := map (layer_norm (ln_2a b)) x2). assert (L3 : length x3 = length x) by (unfold x3; rewrite map_length; exact L2).
    assert (A2 : exists o, attention_forward d heads (cross_attention b) x3 (match e with Some e0 => e0 | None => x3 end) None = Ok o).
    { apply attention_runs; [lia| |now left]. destruct HD as [[_ ->]|[_ (e' & -> & Hm)]]; [apply Nat.mod_same; lia|now rewrite L3]. }
    destruct A2 as [o2 A2]. rewrite A2. cbn [bind]. apply attention_len in A2.
    destruct HD as [[-> ->]|[-> (e' & -> & Hm)]]; (eexists; split; [reflexivity|]; rewrite map_length, map2_len; lia). }
  destruct B as (y & B & Ly). cbn [transformer]. rewrite B. cbn [bind]. apply IH; [lia|]. rewrite Ly. exact HD.
Qed.
Theorem C104_accepted : forall gelu d heads P enc x,
  length x = length (dec_position P) -> length enc = length (enc_position_joint P) ->
  length x <> 0 -> length enc <> 0 -> length enc mod length x = 0 ->
  exists r, get_transformer_output gelu d heads P enc x = Ok r.
Proof.
  intros gelu d heads P enc x Hx He Nx Ne Hm.
  assert (Lsx : length (start_sym (learned_zero P) x) = length x).
  { destruct x as [|t x]; [easy|]. unfold start_sym. clear. cbn [length]. f_equal. revert t. induction x as [|u x IH]; intro t; [reflexivity|].
    change (removelast (t :: u :: x)) with (t :: removelast (u :: x)). cbn [length]. now rewrite IH. }
  unfold get_transformer_output, embed, learned_position. rewrite !map_length, Lsx, Hx, He, !Nat.eqb_refl. cbn [negb bind].
  destruct (transformer_runs gelu d heads None (encoder_joint P) (map2 vadd enc (enc_position_joint P)) None) as [o1 T1];
    [rewrite map2_len; lia|left; auto|]. rewrite T1. cbn [bind]. apply transformer_len in T1. rewrite map2_len in T1.
  set (emb := map2 vadd _ (dec_position P)). assert (Le : length emb = length x) by (unfold emb; rewrite map2_len, !map_length; lia).
  destruct (transformer_runs gelu d heads (Some (length (dec_position P))) (decoder_layers P) emb (Some o1)) as [o2 T2];
    [lia| |rewrite T2; eexists; reflexivity].
  right. split; [f_equal; lia|]. exists o1. split; [reflexivity|]. rewrite Le. replace (length o1) with (length enc) by lia. exact Hm.
Qed.
Print Assumptions C104_accepted.
Theorem C104_fresh_ok : forall gelu seed42 w v enc x,
  build seed42 default_args w = Ok v -> length enc = 128 -> length x = 16 -> Forall (fun t => length t = 192) x ->
  validate_causal (get_transformer_output gelu 768 16 (v_em v)) 16 x enc = Ok tt.
Proof.
  intros gelu s w v enc x HB He Hx Fx. destruct (C103_near_ex s w v HB) as [SH NB].
  rewrite (C104_fresh_passes gelu s w v (v_em v) enc x HB SH NB Hx Fx).
  pose proof SH as (_ & _ & LP & _).
  assert (LE : length (enc_position_joint (v_em v)) = 128).
  { pose proof (C103_shapes s default_args w v HB) as H. cbv zeta in H. destruct H as (_ & _ & _ & _ & _ & _ & _ & H & _). exact H. }
  destruct (C104_accepted gelu 768 16 (v_em v) enc x ltac:(lia) ltac:(lia) ltac:(lia) ltac:(lia) ltac:(rewrite He, Hx; reflexivity)) as [r ->].
  reflexivity.
Qed.
Print Assumptions C104_fresh_ok.

(** The converse fails: passing for one latent does not make a network causal.  This one, with one channel and
    two positions, lets the first prediction see whether the second symbol is above 20. *)
Definition peeking (_ : unit) (x : list token) : res (list token * list token * list token) :=
  let v := if Rlt_dec 20 (nth 0 (nth 1 x []) 0%R) then 1%R else 0%R in Ok ([[v]; [0%R]], [[1%R]; [1%R]], []).
Theorem C104_one_run_is_not_enough_refuted :
  ~ (forall (net : unit -> list token -> res (list token * list token * list token)),
       (exists x, length x = 2 /\ validate_causal net 2 x tt = Ok tt) ->
       forall x y m s o m' s' o', length x = 2 -> length y = 2 -> firstn 1 x = firstn 1 y ->
         net tt x = Ok (m, s, o) -> net tt y = Ok (m', s', o') -> nth 0 m [] = nth 0 m' []).
Proof.
  intro H. specialize (H peeking).
  assert (P : exists x, length x = 2 /\ validate_causal peeking 2 x tt = Ok tt).
  { exists [[3%R]; [4%R]]. split; [reflexivity|].
    refine (proj1 (C104_verdict peeking tt 1 [[3%R]; [4%R]] [[0%R]; [0%R]] [[1%R]; [1%R]] [] (fun _ => [[0%R]; [0%R]]) (fun _ => [[1%R]; [1%R]]) _ _ eq_refl eq_refl _) _).
    - repeat constructor.
    - unfold peeking. cbn [nth]. destruct (Rlt_dec 20 4); [lra|reflexivity].
    - intros i Hi. exists []. unfold peeking, known. destruct i as [|[|i]]; cbn [length firstn app Nat.sub repeat nth] in *; [| |lia]; destruct (Rlt_dec 20 10); try lra; reflexivity.
    - intros i Hi. cbn [length] in Hi. destruct i as [|[|i]]; [| |lia]; cbn [nth]; split; repeat constructor; unfold near; rabs; lra. }
  specialize (H P [[3%R]; [4%R]] [[3%R]; [30%R]] [[0%R]; [0%R]] [[1%R]; [1%R]] [] [[1%R]; [0%R]] [[1%R]; [1%R]] [] eq_refl eq_refl eq_refl).
  assert (Z : [0%R] = [1%R]); [|injection Z; lra]. apply H.
  - unfold peeking. cbn [nth]. destruct (Rlt_dec 20 4); [lra|reflexivity].
  - unfold peeking. cbn [nth]. destruct (Rlt_dec 20 30); [reflexivity|lra].
Qed.
Print Assumptions C104_one_run_is_not_enough_refuted.

(** The parameters of the example of C27 with a context of three tokens. *)
Definition ex_params3 : em_params := mkEm (learned_zero ex_params) (decoder_embedding ex_params) (post_embedding_layernorm ex_params)
  (dec_position ex_params) [[1; 1]; [0; 1]; [2; 1]]%R (encoder_joint ex_params) (decoder_layers ex_params) (mean_head ex_params) (scale_head ex_params).
(** Passing for every latent does: then what is predicted for a symbol can depend on it and on later ones only
    within twice the tolerance. *)
Definition near2 (a b : R) : Prop := (Rabs (a - b) <= 2 / 100000000 + 1 / 100000 * (Rabs a + Rabs b))%R.
Lemma near_both a : forall b b', Forall2 near a b -> Forall2 near a b' -> Forall2 near2 b b'.
Proof.
  induction a as [|x a IH]; intros b b' H H'; inversion H; inversion H'; subst; constructor; [|now apply IH].
  match goal with A : near x ?u, B : near x ?v |- _ => revert A B; unfold near, near2; generalize u v end.
  intros u v A B. replace (u - v)%R with ((x - v) - (x - u))%R by ring.
  pose proof (Rabs_triang (x - v) (- (x - u))) as T. rewrite Rabs_Ropp in T. unfold Rminus at 1. lra.
Qed.
Lemma known_shape c x i : Forall (fun t : token => length t = c) x -> i <= length x ->
  length (known c x i) = length x /\ Forall (fun t : token => length t = c) (known c x i).
Proof.
  intros F Hi. unfold known. rewrite app_length, firstn_length, repeat_length. split; [lia|]. apply Forall_app. split.
  - revert i Hi. induction F as [|t x Ht F IH]; intros [|i] Hi; cbn [firstn length] in *; constructor; [assumption|apply IH; lia].
  - apply Forall_forall. intros t Ht. apply repeat_spec in Ht. subst t. apply repeat_length.
Qed.
Theorem C104_passing_everywhere : forall E (net : E -> list token -> res (list token * list token * list token)) enc c L,
  (forall x, length x = L -> Forall (fun t => length t = c) x ->
     exists m s o, net enc x = Ok (m, s, o) /\ length m = L /\ length s = L) ->
  (forall x, length x = L -> Forall (fun t => length t = c) x -> validate_causal net L x enc = Ok tt) ->
  forall x y i m s o m' s' o',
    length x = L -> Forall (fun t => length t = c) x -> length y = L -> Forall (fun t => length t = c) y ->
    i < L -> firstn i x = firstn i y -> net enc x = Ok (m, s, o) -> net enc y = Ok (m', s', o') ->
    Forall2 near2 (nth i m []) (nth i m' []) /\ Forall2 near2 (nth i s []) (nth i s' []).
Proof.
  intros E net enc c L Runs Pass.
  assert (K : forall x i m s o, length x = L -> Forall (fun t => length t = c) x -> i < L -> net enc x = Ok (m, s, o) ->
    forall m0 s0 o0, net enc (known c x i) = Ok (m0, s0, o0) -> Forall2 near (nth i m0 []) (nth i m []) /\ Forall2 near (nth i s0 []) (nth i s [])).
  { intros x i m s o Lx Fx Hi HN m0 s0 o0 H0.
    set (means := fun j => match net enc (known c x j) with Ok (a, _, _) => a | Raise _ => [] end).
    set (scales := fun j => match net enc (known c x j) with Ok (_, b, _) => b | Raise _ => [] end).
    destruct (Runs x Lx Fx) as (m1 & s1 & o1 & H1 & Lm & Ls). rewrite HN in H1. injection H1 as <- <- <-.
    assert (HR : forall j, j < length x -> exists oj, net enc (known c x j) = Ok (means j, scales j, oj)).
    { intros j Hj. destruct (known_shape c x j Fx ltac:(lia)) as [Lk Fk]. destruct (Runs _ (eq_trans Lk Lx) Fk) as (a & b & q & Hk & _).
      exists q. unfold means, scales. now rewrite Hk. }
    pose proof (C104_verdict net enc c x m s o means scales Fx HN ltac:(lia) ltac:(lia) HR) as V. cbv zeta in V. destruct V as [_ V].
    apply NNPP. intro N. rewrite Lx in V. rewrite (Pass x Lx Fx) in V. discriminate V. intro A. apply N.
    specialize (A i Hi). unfold means, scales in A. now rewrite H0 in A. }
  intros x y i m s o m' s' o' Lx Fx Ly Fy Hi F Hx Hy.
  assert (Ek : known c x i = known c y i) by (unfold known; now rewrite F, Lx, Ly).
  destruct (known_shape c x i Fx ltac:(lia)) as [Lk Fk]. destruct (Runs _ (eq_trans Lk Lx) Fk) as (m0 & s0 & o0 & H0 & _).
  destruct (K x i m s o Lx Fx Hi Hx _ _ _ H0) as [A1 A2]. rewrite Ek in H0. destruct (K y i m' s' o' Ly Fy Hi Hy _ _ _ H0) as [B1 B2].
  split; eapply near_both; eassumption.
Qed.
Print Assumptions C104_passing_everywhere.
(** The transformers of C104_accepted with bounded logits meet the hypotheses: their outputs have one row for each position. *)
Example C104_passing_ex : forall enc, length enc = 3 -> 
  (forall x, length x = 3 -> Forall (fun t => length t = 2) x ->
     exists m s o, get_transformer_output (fun a => a) 2 1 ex_params3 enc x = Ok (m, s, o) /\ length m = 3 /\ length s = 3) /\
  (forall x, length x = 3 -> Forall (fun t => length t = 2) x -> validate_causal (get_transformer_output (fun a => a) 2 1 ex_params3) 3 x enc = Ok tt).
Proof.
  intros enc He. destruct vct_causal_ex as [S B].
  assert (A : forall x, length x = 3 -> exists m s o, get_transformer_output (fun a => a) 2 1 ex_params3 enc x = Ok (m, s, o)).
  { intros x Hx. destruct (C104_accepted (fun a => a) 2 1 ex_params3 enc x) as [[[m s] o] H]; try (rewrite ?Hx, ?He; reflexivity || lia); eauto. }
  split; intros x Hx Fx; destruct (A x Hx) as (m & s & o & H).
  - exists m, s, o. split; [exact H|]. unfold get_transformer_output, embed, learned_position in H. rewrite !map_length in H.
    destruct (negb _) in H; [discriminate|]. cbn [bind] in H.
    destruct (negb _) in H; [discriminate|]. cbn [bind] in H. destruct (transformer _ _ _ None _ _ _); [|discriminate]. cbn [bind] in H.
    match type of H with bind ?t _ = _ => destruct t as [o'|] eqn:T end; [|discriminate]. cbn [bind] in H. injection H as <- <- _.
    apply transformer_len in T. rewrite !map_length, T, map2_len, !map_length. destruct x as [|? [|? [|? [|]]]]; try discriminate. now cbn.
  - rewrite (C104_no_false_alarm (fun a => a) 2 1 ex_params3 2 3 enc x S B Hx Fx). now rewrite H.
Qed.

(** And it does catch that network when the latent shows the difference. *)
Example C104_caught : validate_causal peeking 2 [[3%R]; [30%R]] tt = Raise ValueError.
Proof.
  refine (proj2 (C104_verdict peeking tt 1 [[3%R]; [30%R]] [[1%R]; [0%R]] [[1%R]; [1%R]] [] (fun _ => [[0%R]; [0%R]]) (fun _ => [[1%R]; [1%R]]) _ _ eq_refl eq_refl _) _).
  - repeat constructor.
  - unfold peeking. cbn [nth]. destruct (Rlt_dec 20 30); [reflexivity|lra].
  - intros i Hi. exists []. unfold peeking, known. destruct i as [|[|i]]; cbn [length firstn app Nat.sub repeat nth] in *; [| |lia]; destruct (Rlt_dec 20 10); try lra; reflexivity.
  - intro P. destruct (P 0 ltac:(cbn; lia)) as [A _]. cbn [nth] in A. inversion A; subst. revert H2. unfold near. rabs; lra.
Qed.
(** The transformer of the examples, with a context of three tokens, accepts a latent of three symbols, so the
    check passes. *)
Example C104_passes_ex : validate_causal (get_transformer_output (fun x => x) 2 1 ex_params3) 3 [[1; 2]; [3; 4]; [5; 6]]%R [[1; 0]; [0; 2]; [1; 3]]%R = Ok tt.
Proof.
  destruct vct_causal_ex as [S B].
  rewrite (C104_no_false_alarm (fun x => x) 2 1 ex_params3 2 3 [[1; 0]; [0; 2]; [1; 3]]%R [[1; 2]; [3; 4]; [5; 6]]%R S B eq_refl ltac:(repeat constructor)). lazy. reflexivity.
Qed.

(** On a batch the check is the conjunction over its patches. *)
Section Batch.
Context {E : Type}.
Variable net : E -> list token -> res (list token * list token * list token).
Definition one (positions : list nat) (p : patch) := autoregress net (p_encoded p) (p_latent p) positions (p_current p) (p_means p) (p_scales p).
Lemma mapM_all {A B} (f : A -> res B) l g : (forall a, In a l -> f a = Ok (g a)) -> mapM f l = Ok (map g l).
Proof.
  induction l as [|a l IH]; intro H; [reflexivity|]. cbn [mapM map]. rewrite (H a (or_introl eq_refl)). cbn [bind].
  rewrite IH; [reflexivity|]. intros b Hb. apply H. now right.
Qed.
Lemma combine_map_r {A B} (g : A -> B) l : combine l (map g l) = map (fun a => (a, g a)) l.
Proof. induction l as [|a l IH]; [reflexivity|]. cbn [map combine]. now rewrite IH. Qed.
Definition runs (positions : list nat) (p : patch) : Prop := exists r, one positions p = Ok r.
Lemma batch_run positions : forall ps : list (@patch E), Forall (runs positions) ps ->
  exists qs, autoregress_batch net positions ps = Ok qs /\ Forall2 (fun p q => one positions p = Ok (p_means q, p_scales q)) ps qs.
Proof.
  induction positions as [|i rest IH]; intros ps H; cbn [autoregress_batch].
  - exists ps. split; [reflexivity|]. clear H. induction ps; constructor; [reflexivity|assumption].
  - set (g := fun p => match net (p_encoded p) (p_current p) with Ok r => r | Raise _ => ([], [], []) end).
    rewrite (mapM_all _ (map (fill_in i) ps) g).
    2:{ intros a Ha. apply in_map_iff in Ha. destruct Ha as (p & <- & Hp). rewrite Forall_forall in H. destruct (H p Hp) as [r Hr].
        unfold one in Hr. cbn [autoregress] in Hr. unfold g, fill_in. cbn [p_encoded p_current].
        match type of Hr with bind ?t _ = _ => destruct t eqn:N end; [reflexivity|discriminate]. }
    cbn [bind]. rewrite combine_map_r, !map_map.
    assert (S : forall p, runs (i :: rest) p -> one (i :: rest) p = one rest (store i (fill_in i p, g (fill_in i p)))).
    { intros p [r Hr]. unfold one in *. cbn [autoregress] in *. unfold g, fill_in. cbn [p_encoded p_current].
      match type of Hr with bind ?t _ = _ => destruct t as [[[a b] c]|] eqn:N end; [|discriminate]. reflexivity. }
    destruct (IH (map (fun p => store i (fill_in i p, g (fill_in i p))) ps)) as (qs & Hq & F).
    { apply Forall_forall. intros q Hq. apply in_map_iff in Hq. destruct Hq as (p & <- & Hp). rewrite Forall_forall in H.
      destruct (H p Hp) as [r Hr]. exists r. rewrite <- S; [exact Hr|exists r; exact Hr]. }
    exists qs. split; [exact Hq|]. clear IH Hq. revert qs F. induction H as [|p ps Hp H IH2]; intros qs F; cbn [map] in F; inversion F; subst; constructor.
    + rewrite S by exact Hp. assumption.
    + now apply IH2.
Qed.
Theorem C104_batch : forall L (batch : list (E * list token)),
  (forall enc x, In (enc, x) batch -> length x = L) ->
  (forall enc x y, In (enc, x) batch -> length y = L -> exists r, net enc y = Ok r) ->
  ((forall enc x, In (enc, x) batch -> validate_causal net L x enc = Ok tt) -> validate_causal_batch net L batch = Ok tt) /\
  ((exists enc x, In (enc, x) batch /\ validate_causal net L x enc = Raise ValueError) -> validate_causal_batch net L batch = Raise ValueError).
Proof.
  intros L batch Len Runs. unfold validate_causal_batch.
  set (g := fun b : E * list token => match net (fst b) (snd b) with Ok r => r | Raise _ => ([], [], []) end).
  assert (G : forall b, In b batch -> net (fst b) (snd b) = Ok (g b)).
  { intros [e x] Hb. destruct (Runs e x x Hb (Len e x Hb)) as [r Hr]. unfold g. cbn [fst snd]. now rewrite Hr. }
  rewrite (mapM_all _ batch g G). cbn [bind].
  set (start := fun b : E * list token => mkPatch (fst b) (snd b) (full_like (snd b)) (full_like (snd b)) (full_like (snd b))).
  assert (RR : forall positions e x c m s, (forall i, In i positions -> i < L) -> length c = L -> (forall y, length y = L -> exists r, net e y = Ok r) ->
    exists r, autoregress net e x positions c m s = Ok r).
  { induction positions as [|i rest IH]; intros e x c m s HI Lc H; cbn [autoregress]; [eexists; reflexivity|].
    assert (Lf : length (if 0 <? i then set_row (i - 1) (nth (i - 1) x []) c else c) = L).
    { pose proof (HI i (or_introl eq_refl)). destruct (0 <? i); [|exact Lc]. unfold set_row. rewrite app_length, firstn_length. cbn [length]. rewrite skipn_length. lia. }
    destruct (H _ Lf) as [[[a b] q] Hr]. rewrite Hr. cbn [bind]. apply IH; [|exact Lf|exact H]. intros j Hj. apply HI. now right. }
  destruct (batch_run (seq 0 L) (map start batch)) as (qs & Hq & F).
  { apply Forall_forall. intros p Hp. apply in_map_iff in Hp. destruct Hp as ([e x] & <- & Hb). apply RR.
    - intros i Hi. apply in_seq in Hi. lia.
    - cbn [start p_current fst snd]. unfold full_like. rewrite map_length. exact (Len e x Hb).
    - intros y Ly. exact (Runs e x y Hb Ly). }
  rewrite Hq. cbn [bind].
  set (ok := fun (b : E * list token) (q : @patch E) => isclose (p_means q) (fst (fst (g b))) && isclose (p_scales q) (snd (fst (g b)))).
  assert (V : Forall2 (fun b q => validate_causal net L (snd b) (fst b) = if ok b q then Ok tt else Raise ValueError) batch qs).
  { clear Hq Runs Len. revert qs F. induction batch as [|b batch IH]; intros qs F; cbn [map] in F; inversion F; subst; constructor.
    - unfold validate_causal. rewrite (G b (or_introl eq_refl)). cbn [bind]. unfold ok. destruct (g b) as [[mm ms] mo]. 
      match goal with H : one _ (start b) = _ |- _ => unfold one, start in H; cbn [p_encoded p_latent p_current p_means p_scales] in H; rewrite H end.
      reflexivity.
    - apply IH; [|assumption]. intros c Hc. apply G. now right. }
  assert (Fo : forallb (fun q => isclose (p_means (fst q)) (fst (fst (snd q)))) (combine qs (map g batch)) &&
               forallb (fun q => isclose (p_scales (fst q)) (snd (fst (snd q)))) (combine qs (map g batch)) =
               forallb (fun bq => ok (fst bq) (snd bq)) (combine batch qs)).
  { clear. revert qs. induction batch as [|b batch IH]; intros [|q qs]; try reflexivity. cbn [map combine forallb fst snd]. rewrite <- IH. unfold ok.
    destruct (isclose (p_means q) _), (isclose (p_scales q) _); cbn [andb]; try reflexivity. now rewrite andb_false_r. }
  rewrite Fo. clear Fo Hq F Runs Len G. split.
  - intro A. assert (T : forallb (fun bq => ok (fst bq) (snd bq)) (combine batch qs) = true); [|now rewrite T].
    induction V as [|b q bs qs Hb V IH]; [reflexivity|]. cbn [combine forallb fst snd]. apply andb_true_iff. split.
    + rewrite (surjective_pairing b) in A. rewrite (A _ _ (or_introl eq_refl)) in Hb. destruct (ok b q); [reflexivity|discriminate].
    + apply IH. intros e x H. apply A. now right.
  - intros (e & x & Hin & Hv). assert (T : forallb (fun bq => ok (fst bq) (snd bq)) (combine batch qs) = false); [|now rewrite T].
    induction V as [|b q bs qs Hb V IH]; [easy|]. cbn [combine forallb fst snd]. apply andb_false_iff. destruct Hin as [->|Hin].
    + left. cbn [fst snd] in Hb. rewrite Hv in Hb. destruct (ok (e, x) q); [discriminate|reflexivity].
    + right. now apply IH.
Qed.
End Batch.
Print Assumptions C104_batch.
(** Two patches, of which the second shows that the network peeks. *)
Example C104_batch_ex : validate_causal_batch peeking 2 [(tt, [[3%R]; [4%R]]); (tt, [[3%R]; [30%R]])] = Raise ValueError.
Proof.
  apply (C104_batch peeking 2).
  - intros [] x [H|[H|[]]]; injection H as <-; reflexivity.
  - intros e x y _ _. eexists. reflexivity.
  - exists tt, [[3%R]; [30%R]]. split; [right; left; reflexivity|exact C104_caught].
Qed.
(** So a fresh default model passes on every batch of patches of its sizes. *)
Theorem C104_fresh_batch : forall gelu seed42 w v batch,
  build seed42 default_args w = Ok v ->
  (forall enc x, In (enc, x) batch -> length enc = 128 /\ length x = 16 /\ Forall (fun t => length t = 192) x) ->
  validate_causal_batch (get_transformer_output gelu 768 16 (v_em v)) 16 batch = Ok tt.
Proof.
  intros gelu s w v batch HB H. apply C104_batch.
  - intros enc x Hin. apply (H enc x Hin).
  - intros enc x y Hin Hy. destruct (H enc x Hin) as (He & Hx & _). destruct (C103_near_ex s w v HB) as [(_ & _ & LP & _) _].
    assert (LE : length (enc_position_joint (v_em v)) = 128).
    { pose proof (C103_shapes s default_args w v HB) as S. cbv zeta in S. destruct S as (_ & _ & _ & _ & _ & _ & _ & S & _). exact S. }
    apply C104_accepted; try lia. rewrite He, Hy. reflexivity.
  - intros enc x Hin. destruct (H enc x Hin) as (He & Hx & Fx). exact (C104_fresh_ok gelu s w v enc x HB He Hx Fx).
Qed.
Print Assumptions C104_fresh_batch.

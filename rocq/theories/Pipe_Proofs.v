From Coq Require Import Arith List Bool Lia Lra Reals ZArith.
From Verif Require Import Base RBase RFloat Tensor Patch_Model Patch_Spec Gsn_Model Gsn_Spec Gsn_Proofs Gsn_Props EM_Model EM_Spec EM_Proofs EM_Props
  Pipe_Model Pipe_Spec.
Import ListNotations.
Open Scope nat_scope.

Lemma last_n_skipn {A} n (l : list A) : last_n n l = skipn (length l - n) l.
Proof.
  unfold last_n. rewrite firstn_rev, rev_involutive. reflexivity.
Qed.
Lemma from_minus_last {A} n (l : list A) : 1 <= n -> from_minus n l = last_n n l.
Proof. intro H. unfold from_minus. destruct (Nat.eqb_spec n 0); [lia|]. symmetry. apply last_n_skipn. Qed.
Lemma last_n_all {A} n (l : list A) : length l <= n -> last_n n l = l.
Proof. intro H. rewrite last_n_skipn. replace (length l - n) with 0 by lia. reflexivity. Qed.
Lemma last_n_len {A} n (l : list A) : length (last_n n l) = Nat.min n (length l).
Proof. rewrite last_n_skipn, skipn_length. lia. Qed.
Lemma last_n_snoc {A} n (l : list A) a : 1 <= n -> last_n n (last_n n l ++ [a]) = last_n n (l ++ [a]).
Proof.
  intro H. unfold last_n. rewrite !rev_app_distr, !rev_involutive. cbn [rev app].
  destruct n as [|n]; [lia|]. rewrite !(firstn_cons n a), firstn_firstn, Nat.min_l by lia. reflexivity.
Qed.
Lemma map_last_n {A B} (f : A -> B) n l : map f (last_n n l) = last_n n (map f l).
Proof. unfold last_n. now rewrite map_rev, <- firstn_map, map_rev. Qed.

Section P.
Context {X S F O : Type}.
Variable process : tensor R -> res X.
Variable code : nat -> tensor R -> list X -> res (tensor R * S * F).
Variable context_len : nat.
Variable dequantize : tensor R -> F -> O.
Variable fake : list nat -> tensor R.
Notation encP := (encode_P process code context_len dequantize).
Notation enc := (encode_scenes process code context_len dequantize fake).

Lemma decode_P_states scenes : forall i state es, encP scenes i state = Ok es ->
  decode_P process context_len dequantize (map snd es) state =
  Ok (map (fun p => (dequantize (latent_q (snd p)) (features (snd p)), fst p)) es).
Proof.
  induction scenes as [|x scenes IH]; intros i state es H; cbn [encode_P] in H.
  - injection H as <-. reflexivity.
  - unfold encode_Pscene in H.
    destruct (context state) as [ctx|]; [|discriminate]. cbn [bind] in H.
    destruct (code i x ctx) as [[[lat s] f]|]; [|discriminate]. cbn [bind] in H.
    destruct (decode_Pscene process context_len dequantize (mkBn lat s f) state) as [[r st]|] eqn:DP; [|discriminate]. cbn [bind] in H.
    destruct (encP scenes (i + 1) st) as [es'|] eqn:EP; [|discriminate]. injection H as <-.
    cbn [map snd fst decode_P]. rewrite DP. cbn [bind]. rewrite (IH _ _ _ EP). cbn [bind].
    unfold decode_Pscene in DP. destruct (process (latent_q (mkBn lat s f))); [|discriminate]. injection DP as <- _. reflexivity.
Qed.
Lemma decode_states scenes es : enc scenes = Ok es ->
  decode_scenes process context_len dequantize (map snd es) =
  Ok (map (fun p => (dequantize (latent_q (snd p)) (features (snd p)), fst p)) es).
Proof.
  destruct scenes as [|x scenes]; cbn [encode_scenes]; intro H.
  - injection H as <-. reflexivity.
  - unfold encode_Iscene in H.
    destruct (process (fake (tshape x))) as [p|]; [|discriminate]. cbn [bind] in H.
    destruct (context _) as [ctx|]; [|discriminate]. cbn [bind] in H.
    destruct (code 0 x ctx) as [[[lat s] f]|]; [|discriminate]. cbn [bind] in H.
    destruct (decode_Iscene process dequantize (mkBn lat s f)) as [[r st]|] eqn:DI; [|discriminate]. cbn [bind] in H.
    destruct (encP scenes 1 st) as [es'|] eqn:EP; [|discriminate]. injection H as <-.
    cbn [map snd fst decode_scenes]. rewrite DI. cbn [bind]. rewrite (decode_P_states _ _ _ _ EP). cbn [bind].
    unfold decode_Iscene in DI. destruct (process (latent_q (mkBn lat s f))); [|discriminate]. injection DI as <- _. reflexivity.
Qed.

(** The state after each scene: every latent so far with its processed form, cut to the
    last [context_len]. *)
Definition window_state (hist : list (tensor R)) (state : list (tensor R * X)) : Prop :=
  map fst state = (if context_len =? 0 then hist else last_n context_len hist) /\
  Forall (fun p => process (fst p) = Ok (snd p)) state.

Lemma Forall_last_n {A} (P : A -> Prop) n l : Forall P l -> Forall P (last_n n l).
Proof. intro H. unfold last_n. apply Forall_rev, Forall_firstn, Forall_rev, H. Qed.
Lemma window_step hist state lat p : window_state hist state -> process lat = Ok p ->
  window_state (hist ++ [lat]) (from_minus context_len (state ++ [(lat, p)])).
Proof.
  intros [W1 W2] E. unfold window_state. destruct (Nat.eqb_spec context_len 0) as [Z|Z].
  - unfold from_minus. rewrite Z. cbn [Nat.eqb]. rewrite map_app, W1. split; [reflexivity|].
    apply Forall_app. split; [exact W2|]. constructor; [exact E|constructor].
  - rewrite from_minus_last by lia. split.
    + rewrite map_last_n, map_app, W1. cbn [map fst]. apply last_n_snoc. lia.
    + apply Forall_last_n, Forall_app. split; [exact W2|]. constructor; [exact E|constructor].
Qed.
Definition lats (es : list (list (tensor R * X) * @bottleneck S F)) : list (tensor R) := map (fun p => latent_q (snd p)) es.
Lemma encP_window scenes : forall i state es hist, encP scenes i state = Ok es -> window_state hist state ->
  length es = length scenes /\
  forall t st b, nth_error es t = Some (st, b) -> window_state (hist ++ firstn (t + 1) (lats es)) st.
Proof.
  induction scenes as [|x scenes IH]; intros i state es hist H W; cbn [encode_P] in H.
  - injection H as <-. split; [reflexivity|]. intros [|t] st b N; discriminate.
  - unfold encode_Pscene in H.
    destruct (context state) as [ctx|]; [|discriminate]. cbn [bind] in H.
    destruct (code i x ctx) as [[[lat s] f]|]; [|discriminate]. cbn [bind] in H.
    unfold decode_Pscene in H. cbn [latent_q features] in H. destruct (process lat) as [p|] eqn:PL; [|discriminate]. cbn [bind] in H.
    destruct (encP scenes (i + 1) _) as [es'|] eqn:EP; [|discriminate]. injection H as <-.
    pose proof (window_step hist state lat p W PL) as W'.
    destruct (IH _ _ _ _ EP W') as [L IHt]. split; [cbn; lia|].
    intros [|t] st b N; cbn in N.
    + injection N as <- <-. cbn. exact W'.
    + specialize (IHt t st b N). cbn [Nat.add lats map snd latent_q firstn]. rewrite <- app_assoc in IHt. exact IHt.
Qed.
Lemma enc_window scenes es : enc scenes = Ok es ->
  length es = length scenes /\
  forall t st b, nth_error es t = Some (st, b) -> window_state (firstn (t + 1) (lats es)) st.
Proof.
  destruct scenes as [|x scenes]; cbn [encode_scenes]; intro H.
  - injection H as <-. split; [reflexivity|]. intros [|t] st b N; discriminate.
  - unfold encode_Iscene in H.
    destruct (process (fake (tshape x))) as [p|]; [|discriminate]. cbn [bind] in H.
    destruct (context _) as [ctx|]; [|discriminate]. cbn [bind] in H.
    destruct (code 0 x ctx) as [[[lat s] f]|]; [|discriminate]. cbn [bind] in H.
    unfold decode_Iscene in H. cbn [latent_q features] in H. destruct (process lat) as [p'|] eqn:PL; [|discriminate]. cbn [bind] in H.
    destruct (encP scenes 1 _) as [es'|] eqn:EP; [|discriminate]. injection H as <-.
    assert (W : window_state [lat] [(lat, p')]).
    { split; [|repeat constructor; exact PL]. cbn [map fst]. destruct (Nat.eqb_spec context_len 0); [reflexivity|].
      symmetry. apply last_n_all. cbn. lia. }
    destruct (encP_window _ _ _ _ _ EP W) as [L WT]. split; [cbn; lia|].
    intros [|t] st b N; cbn in N.
    + injection N as <- <-. cbn. exact W.
    + specialize (WT t st b N). cbn [Nat.add lats map snd latent_q firstn]. exact WT.
Qed.

(** Success depends on the number of latents in the context only. *)
Hypothesis process_total : forall t, exists p, process t = Ok p.
Hypothesis code_total : forall i t ctx, exists r, code i t ctx = Ok r.

Lemma context_ok (state : list (tensor R * X)) : (length state = 1 \/ length state = 2) -> exists ctx, context state = Ok ctx.
Proof.
  intros [H|H]; unfold context, em_context_len, get_encoded_seqs; rewrite map_length, H; cbn [Nat.ltb Nat.leb Nat.eqb bind].
  - rewrite app_length, map_length, H. cbn. eauto.
  - rewrite map_length, H. cbn. eauto.
Qed.
Lemma context_bad (state : list (tensor R * X)) : 3 <= length state -> context state = Raise AssertionError.
Proof.
  intro H. unfold context, em_context_len, get_encoded_seqs. rewrite map_length.
  destruct (Nat.ltb_spec (length state) 2); [lia|]. cbn [bind]. rewrite map_length.
  destruct (Nat.eqb_spec (length state) 2); [lia|reflexivity].
Qed.
Lemma encP_success scenes : forall i state, 1 <= length state ->
  (1 <= context_len <= 2 /\ length state <= 2) \/ (length state + length scenes <= 3) ->
  exists es, encP scenes i state = Ok es.
Proof.
  induction scenes as [|x scenes IH]; intros i state L1 H; [cbn; eauto|]. cbn [encode_P length] in *. unfold encode_Pscene.
  destruct (context_ok state ltac:(lia)) as [ctx ->]. cbn [bind].
  destruct (code_total i x ctx) as [[[lat s] f] ->]. cbn [bind]. unfold decode_Pscene. cbn [latent_q features].
  destruct (process_total lat) as [p ->]. cbn [bind].
  assert (LS : length (from_minus context_len (state ++ [(lat, p)])) =
    if context_len =? 0 then length state + 1 else Nat.min context_len (length state + 1)).
  { unfold from_minus. destruct (context_len =? 0); rewrite ?skipn_length, app_length; cbn [length]; lia. }
  destruct (IH (i + 1) (from_minus context_len (state ++ [(lat, p)]))) as [es ->].
  - rewrite LS. destruct (Nat.eqb_spec context_len 0); lia.
  - rewrite LS. destruct (Nat.eqb_spec context_len 0); lia.
  - cbn [bind]. eauto.
Qed.
Lemma encP_failure scenes : forall i state, 1 <= length state -> (context_len = 0 \/ 3 <= context_len) ->
  3 < length state + length scenes -> length state <= 3 -> encP scenes i state = Raise AssertionError.
Proof.
  induction scenes as [|x scenes IH]; intros i state L1 C H L3; [cbn in H; lia|]. cbn [encode_P length] in *. unfold encode_Pscene.
  destruct (Nat.eq_dec (length state) 3) as [E|E].
  - rewrite context_bad by lia. reflexivity.
  - destruct (context_ok state ltac:(lia)) as [ctx ->]. cbn [bind].
    destruct (code_total i x ctx) as [[[lat s] f] ->]. cbn [bind]. unfold decode_Pscene. cbn [latent_q features].
    destruct (process_total lat) as [p ->]. cbn [bind].
    assert (LS : length (from_minus context_len (state ++ [(lat, p)])) =
      if context_len =? 0 then length state + 1 else Nat.min context_len (length state + 1)).
    { unfold from_minus. destruct (context_len =? 0); rewrite ?skipn_length, app_length; cbn [length]; lia. }
    rewrite IH; [reflexivity| | | |]; rewrite ?LS; destruct (Nat.eqb_spec context_len 0); lia.
Qed.
Lemma enc_success_iff scenes : (exists es, enc scenes = Ok es) <-> (1 <= context_len <= 2 \/ length scenes <= 3).
Proof.
  destruct scenes as [|x scenes]; [cbn; split; [lia|eauto]|].
  assert (EQ : exists lat p' s f, enc (x :: scenes) =
    do rest <- encP scenes 1 [(lat, p')]; Ok (([(lat, p')], mkBn lat s f) :: rest)).
  { cbn [encode_scenes]. unfold encode_Iscene. destruct (process_total (fake (tshape x))) as [p ->]. cbn [bind].
    destruct (context_ok [(fake (tshape x), p)] ltac:(left; reflexivity)) as [ctx ->]. cbn [bind].
    destruct (code_total 0 x ctx) as [[[lat s] f] ->]. cbn [bind]. unfold decode_Iscene. cbn [latent_q features].
    destruct (process_total lat) as [p' ->]. cbn [bind]. exists lat, p', s, f. reflexivity. }
  destruct EQ as (lat & p' & s & f & ->). cbn [length].
  destruct (le_lt_dec (length scenes + 1) 3) as [G|G].
  - split; [intro; right; lia|]. intros _. destruct (encP_success scenes 1 [(lat, p')]) as [es ->]; cbn; eauto; right; lia.
  - destruct (le_lt_dec 1 context_len) as [C1|C1]; [destruct (le_lt_dec context_len 2) as [C2|C2]|].
    + split; [intro; left; lia|]. intros _. destruct (encP_success scenes 1 [(lat, p')]) as [es ->]; cbn; eauto; left; lia.
    + rewrite encP_failure by (cbn; lia). cbn. split; [intros [es E]; discriminate|lia].
    + rewrite encP_failure by (cbn; lia). cbn. split; [intros [es E]; discriminate|lia].
Qed.
End P.

(** ** The receiver *)
Lemma compress_skip {B E D} nm ns ms ecc ecd (net : @net_type E D) fo win ctx lat d (strings : list B) x :
  em_compress nm ns ms ecc ecd net fo win ctx lat true = Ok (d, strings, x) ->
  em_compress nm ns ms ecc ecd net fo win ctx lat false = Ok (mkT (tshape lat) (fun i => skip_decode (tat lat i)), strings, x).
Proof.
  unfold em_compress. destruct (tshape lat) as [|b [|c [|h [|w [|]]]]]; try discriminate.
  destruct (negb (b =? 1)); [discriminate|]. destruct (forward win Reflect lat win) as [[p n]|]; [|discriminate]. cbn [bind].
  destruct (em_encode _ _ _ _ _ _ _ _ _) as [st|]; [|discriminate]. cbn [bind].
  destruct (em_decode_latent _ _ _ _ _ _ _ _ _ _ _ _ _ _) as [dd|]; [|discriminate]. cbn [bind].
  destruct (unpatch _ _ _ _) as [q|]; [|discriminate]. cbn [bind]. destruct (all_equal dd q); [|discriminate].
  intro H. injection H as _ <- <-. reflexivity.
Qed.

Lemma settled_ok M t i m : (0 <= M <= 4194304)%R -> settled M t -> (Rabs m <= M)%R -> skip_decode (tat t i) = quantised (tat t i) m.
Proof.
  intros HM S Hm. destruct (S i) as [B D]. apply vct_skip_decode_away.
  - intro n. eapply Rle_lt_trans; [|apply D].
    assert (K : (Rabs (tat t i - IZR (round_even m)) <= 2 * M + 1/2)%R).
    { pose proof (round_even_bounds m). revert B Hm. rabs; lra. }
    assert (Rmax 1 (Rabs (tat t i - IZR (round_even m))) <= 2 * M + 2)%R by (apply Rmax_lub; lra). lra.
  - assert (K : (- 4194304 <= round_even (tat t i) <= 4194304)%Z).
    { apply round_even_range. revert B. rabs; lra. }
    lia.
Qed.

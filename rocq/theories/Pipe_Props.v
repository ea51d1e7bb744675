(** C29, C30: the VCT pipeline. *)
From Coq Require Import Arith List Bool Lia Lra Reals ZArith.
From Verif Require Import Base RBase RFloat Tensor Patch_Model Patch_Spec Patch_Proofs Patch_Props Gsn_Model Gsn_Spec Gsn_Proofs Gsn_Props
  EM_Model EM_Spec EM_Proofs EM_Props Pipe_Model Pipe_Spec Pipe_Proofs.
Import ListNotations.
Open Scope nat_scope.

(** C29: whenever encoding succeeds, decoding the bottlenecks succeeds, gives one
    reconstruction per scene, and the decoder's state after every scene is the encoder's;
    for every entropy model, number of scenes and context length. *)
Theorem vct_decoder_states : forall {X S F O} process code context_len (dequantize : tensor R -> F -> O) fake scenes
    (es : list (list (tensor R * X) * @bottleneck S F)),
  encode_scenes process code context_len dequantize fake scenes = Ok es ->
  length es = length scenes /\
  exists ds, decode_scenes process context_len dequantize (map snd es) = Ok ds /\
    map snd ds = map fst es /\
    map fst ds = map (fun p => dequantize (latent_q (snd p)) (features (snd p))) es /\
    encode_and_decode_scenes process code context_len dequantize fake scenes =
      Ok (combine (map fst ds) (map (fun p => likelihood (snd p)) es)).
Proof.
  intros X S F O process code cl dq fake scenes es H. split; [eapply enc_window; eassumption|].
  pose proof (decode_states _ _ _ _ _ _ _ H) as D. eexists. split; [exact D|]. rewrite !map_map. cbn [fst snd].
  split; [reflexivity|]. split; [reflexivity|]. unfold encode_and_decode_scenes. rewrite H. cbn [bind]. rewrite D. cbn [bind].
  f_equal. clear. induction es as [|e es IH]; [reflexivity|]. cbn. f_equal. exact IH.
Qed.
Print Assumptions vct_decoder_states.

(** ** A receiver with the strings only *)
Definition synced {X} (a b : tensor R * X) : Prop := teq (fst a) (fst b) /\ snd a = snd b.
Lemma Forall2_skipn {A B} (P : A -> B -> Prop) n l m : Forall2 P l m -> Forall2 P (skipn n l) (skipn n m).
Proof. intro H. revert n. induction H; intros [|n]; cbn; auto. Qed.
Lemma Forall2_len {A B} (P : A -> B -> Prop) l m : Forall2 P l m -> length l = length m.
Proof. induction 1; cbn; congruence. Qed.
Lemma synced_snd {X} (st rst : list (tensor R * X)) : Forall2 synced st rst -> map snd st = map snd rst.
Proof. induction 1 as [|a b st rst [_ E] _ IH]; [reflexivity|]. cbn. now f_equal. Qed.
Lemma teq_refl (t : tensor R) : teq t t. Proof. split; [reflexivity|]. intros. reflexivity. Qed.

(** C29: the receiver, which conditions every scene on its own decoded latents, recovers
    exactly the latents that the encoder conditioned on, for every scene.  From scene 3 on
    the encoder skips the decoding and uses the rounded latent, so there the entries must
    be [settled]. *)
Theorem vct_receiver_in_sync : forall nm ns ms {B X D O} (ec_compress : list Z -> list Z -> res B) ec_decompress
    (net : @net_type (list X) D) fo s c h w nh nw process M context_len (dequantize : tensor R -> unit -> O) fake scenes first es,
  (1 <= nm)%Z -> (1 <= ns)%Z ->
  lossless_coder ec_compress ec_decompress (nm * ns) (fun z => (Z.abs z <= 2 ^ 24)%Z) ->
  1 <= s -> 1 <= c -> 1 <= h -> 1 <= w -> paddable Reflect s 0 h w -> blocks s h nh -> blocks s w nw ->
  net_shape net (s * s) (nh * nw * c) -> (0 <= M <= 4194304)%R -> means_le M net -> respects_entries process ->
  1 <= context_len ->
  Forall (fun t => tshape t = [1; c; h; w] /\ bounded_tensor t) scenes ->
  (forall t x, 3 <= t -> nth_error scenes t = Some x -> settled M x) ->
  encode_scenes process (code_strings nm ns ms ec_compress ec_decompress net fo s) context_len dequantize fake scenes = Ok (first :: es) ->
  exists lats,
    receive nm ns ms ec_decompress net process context_len s h w c (latent_q (snd first)) (map (fun e => likelihood (snd e)) es) = Ok lats /\
    Forall2 teq (map (fun e => latent_q (snd e)) (first :: es)) lats.
Proof.
  intros nm ns ms B X D O ecc ecd net fo s c h w nh nw process M cl dq fake scenes first es
    A1 A2 A3 Hs Hc Hh Hw PA BH BW NS HM ML RE CL SC ST H.
  assert (BM : bounded_means net).
  { intros e toks m sc o E. specialize (ML _ _ _ _ _ E). eapply Forall_impl; [|exact ML]. cbn. intros l Hl.
    eapply Forall_impl; [|exact Hl]. cbn. intros x Hx. lra. }
  assert (STEP : forall i x ctx lat strings, 1 <= i -> tshape x = [1; c; h; w] -> bounded_tensor x -> (3 <= i -> settled M x) ->
    code_strings nm ns ms ecc ecd net fo s i x ctx = Ok (lat, strings, tt) ->
    exists lat', (forall m' s', length m' = s * s -> length s' = s * s ->
       em_decode_latent nm ns ms ecd net s ctx false m' s' strings h w c = Ok lat') /\ teq lat lat').
  { intros i x ctx lat strings Hi Sx Bx Sett CS. unfold code_strings in CS.
    destruct (Nat.eqb_spec i 0); [lia|].
    destruct (em_latent_round_trip nm ns ms ecc ecd net ctx fo s c h w nh nw x A1 A2 A3 Hs Hc Hh Hw Sx PA BH BW NS Bx BM)
      as (dec & str & means & scales & patches & quant & E1 & E2 & E3 & E4 & E5 & E6 & E7 & E8 & E9).
    destruct (Nat.ltb_spec i 3) as [L|L].
    - rewrite E1 in CS. cbn [bind] in CS. injection CS as <- <-. exists dec. split; [exact E8|apply teq_refl].
    - rewrite (compress_skip _ _ _ _ _ _ _ _ _ _ _ _ _ E1) in CS. cbn [bind] in CS. injection CS as <- <-. exists dec. split; [exact E8|].
      split; [cbn [tshape]; rewrite Sx, E3; reflexivity|]. cbn [tshape tat]. rewrite Sx. intros idx IN.
      destruct idx as [|b0 [|ci [|y [|x0 [|]]]]]; cbn in IN; try tauto.
      destruct IN as (I0 & I1 & I2 & I3 & _). assert (b0 = 0) by lia. subst b0.
      rewrite E4 by assumption. apply (settled_ok M); [exact HM|apply Sett; lia|].
      assert (P : (y mod s) * s + x0 mod s < s * s).
      { pose proof (Nat.mod_upper_bound y s ltac:(lia)). pose proof (Nat.mod_upper_bound x0 s ltac:(lia)). nia. }
      specialize (E6 _ P). unfold predicted_so_far in E6.
      destruct (net ctx _) as [[mm sc0] oo] eqn:EN. destruct E6 as [-> _]. apply ML in EN.
      set (k := ((y / s) * nw + x0 / s) * c + ci). set (j := (y mod s) * s + x0 mod s) in *.
      destruct (le_lt_dec (length mm) j) as [G|G]; [rewrite (nth_overflow mm) by exact G; destruct k; cbn; rewrite Rabs_R0; lra|].
      rewrite Forall_forall in EN. specialize (EN (nth j mm []) (nth_In _ _ G)).
      destruct (le_lt_dec (length (nth j mm [])) k) as [G'|G']; [rewrite (nth_overflow (nth j mm [])) by exact G'; rewrite Rabs_R0; lra|].
      rewrite Forall_forall in EN. apply EN. now apply nth_In. }
  assert (SYNC : forall scs i st rst es0, 1 <= i -> Forall (fun t => tshape t = [1; c; h; w] /\ bounded_tensor t) scs ->
    (forall t x, 3 <= i + t -> nth_error scs t = Some x -> settled M x) ->
    Forall2 synced st rst ->
    encode_P process (code_strings nm ns ms ecc ecd net fo s) cl dq scs i st = Ok es0 ->
    exists lats, receive_P nm ns ms ecd net process cl s h w c (map (fun e => likelihood (snd e)) es0) rst = Ok lats /\
      Forall2 teq (map (fun e => latent_q (snd e)) es0) lats).
  { induction scs as [|x scs IH]; intros i st rst es0 Hi FS STT SY EP; cbn [encode_P] in EP.
    - injection EP as <-. exists []. split; [reflexivity|constructor].
    - inversion FS as [|? ? [Sx Bx] FS']; subst. unfold encode_Pscene in EP.
      destruct (context st) as [ctx|] eqn:CX; [|discriminate]. cbn [bind] in EP.
      destruct (code_strings nm ns ms ecc ecd net fo s i x ctx) as [[[lat str] []]|] eqn:CS; [|discriminate]. cbn [bind] in EP.
      unfold decode_Pscene in EP. cbn [latent_q features] in EP. destruct (process lat) as [p|] eqn:PL; [|discriminate]. cbn [bind] in EP.
      destruct (encode_P process _ cl dq scs (i + 1) _) as [es'|] eqn:EP'; [|discriminate]. injection EP as <-.
      destruct (STEP i x ctx lat str Hi Sx Bx ltac:(intro; apply (STT 0); [lia|reflexivity]) CS) as (lat' & DL & TE).
      assert (PL' : process lat' = Ok p) by (rewrite <- (RE _ _ TE); exact PL).
      assert (CX' : context rst = Ok ctx) by (unfold context in *; rewrite <- (synced_snd _ _ SY); exact CX).
      assert (SY' : Forall2 synced (from_minus cl (st ++ [(lat, p)])) (last_n cl (rst ++ [(lat', p)]))).
      { rewrite from_minus_last, !last_n_skipn by exact CL.
        assert (F2 : Forall2 synced (st ++ [(lat, p)]) (rst ++ [(lat', p)])).
        { apply Forall2_app; [exact SY|]. constructor; [split; [exact TE|reflexivity]|constructor]. }
        rewrite (Forall2_len _ _ _ F2). now apply Forall2_skipn. }
      destruct (IH (i + 1) _ _ es' ltac:(lia) FS' ltac:(intros t y Ht Ny; apply (STT (S t) y); [lia|exact Ny]) SY' EP') as (lats & RP & F2).
      cbn [map snd likelihood latent_q receive_P]. rewrite CX'. cbn [bind].
      rewrite DL by apply repeat_length. cbn [bind]. rewrite PL'. cbn [bind]. rewrite RP. cbn [bind].
      eexists. split; [reflexivity|]. constructor; assumption. }
  destruct scenes as [|x scenes]; [discriminate|]. cbn [encode_scenes] in H. unfold encode_Iscene in H.
  destruct (process (fake (tshape x))) as [p|]; [|discriminate]. cbn [bind] in H.
  destruct (context _) as [ctx|]; [|discriminate]. cbn [bind] in H.
  destruct (code_strings nm ns ms ecc ecd net fo s 0 x ctx) as [[[lat str] []]|]; [|discriminate]. cbn [bind] in H.
  unfold decode_Iscene in H. cbn [latent_q features] in H. destruct (process lat) as [p'|] eqn:PL; [|discriminate]. cbn [bind] in H.
  destruct (encode_P process _ cl dq scenes 1 _) as [es'|] eqn:EP; [|discriminate]. injection H as <- <-.
  inversion SC as [|? ? _ SC']; subst.
  destruct (SYNC scenes 1 _ [(lat, p')] es' (le_n 1) SC' ltac:(intros t y Ht Ny; apply (ST (S t) y); [lia|exact Ny])
    ltac:(constructor; [split; [apply teq_refl|reflexivity]|constructor]) EP) as (lats & RP & F2).
  unfold receive. cbn [snd latent_q]. rewrite PL. cbn [bind]. rewrite RP. cbn [bind]. eexists. split; [reflexivity|].
  cbn [map snd latent_q]. constructor; [apply teq_refl|exact F2].
Qed.
Print Assumptions vct_receiver_in_sync.

(** Encoding succeeds for latents of the right shape, with a context of 1 or 2. *)
Lemma em_forward_ok {X D} (net : @net_type (list X) D) s c h w (x : tensor R) (ctx : list X) :
  1 <= s -> 1 <= c -> 1 <= h -> 1 <= w -> tshape x = [1; c; h; w] -> paddable Reflect s 0 h w ->
  exists lat, em_forward net s x ctx = Ok lat /\ tshape lat = [1; c; h; w].
Proof.
  intros Hs Hc Hh Hw S PA. unfold em_forward. rewrite S.
  assert (PO : pads_ok Reflect s s h w = true) by (apply paddable_iff; [exact Hs|]; now rewrite Nat.sub_diag).
  destruct (forward_ok Reflect s (mkT [1; c; h; w] (fun i => round_st (tat x i))) s 1 c h w Hs (le_n s) ltac:(exists 0; lia) eq_refl Hh Hw PO) as (p1 & -> & _).
  cbn [bind]. destruct (net ctx (tokens_of p1)) as [[m sc] o].
  destruct (forward_ok Reflect s x s 1 c h w Hs (le_n s) ltac:(exists 0; lia) S Hh Hw PO) as (p2 & -> & S2 & _).
  cbn [bind]. rewrite S2. cbn [nth].
  set (q := of_tokens _ _ _ _).
  destruct (unpatch_ok s q 1 c (ceil_div h s) (ceil_div w s) Hs Hc (ceil_div_pos h s Hs Hh) (ceil_div_pos w s Hs Hw) eq_refl) as (z & _ & _ & -> & _).
  eexists. split; [reflexivity|]. cbn [tshape].
  pose proof (ceil_div_spec h s Hs). pose proof (ceil_div_spec w s Hs). now rewrite !Nat.min_l by lia.
Qed.

Theorem vct_encoding_succeeds : forall nm ns ms {B X D O} (ec_compress : list Z -> list Z -> res B) ec_decompress
    (net : @net_type (list X) D) fo s c h w nh nw process context_len (dequantize : tensor R -> unit -> O) fake scenes,
  (1 <= nm)%Z -> (1 <= ns)%Z ->
  lossless_coder ec_compress ec_decompress (nm * ns) (fun z => (Z.abs z <= 2 ^ 24)%Z) ->
  1 <= s -> 1 <= c -> 1 <= h -> 1 <= w -> paddable Reflect s 0 h w -> blocks s h nh -> blocks s w nw ->
  net_shape net (s * s) (nh * nw * c) -> bounded_means net ->
  (forall t, tshape t = [1; c; h; w] -> exists p, process t = Ok p) -> (forall sh, tshape (fake sh) = sh) ->
  1 <= context_len <= 2 ->
  Forall (fun t => tshape t = [1; c; h; w] /\ bounded_tensor t) scenes ->
  exists es, encode_scenes process (code_strings nm ns ms ec_compress ec_decompress net fo s) context_len dequantize fake scenes = Ok es /\
    length es = length scenes.
Proof.
  intros nm ns ms B X D O ecc ecd net fo s c h w nh nw process cl dq fake scenes
    A1 A2 A3 Hs Hc Hh Hw PA BH BW NS BM PT FK CL SC.
  enough (K : exists es, encode_scenes process (code_strings nm ns ms ecc ecd net fo s) cl dq fake scenes = Ok es).
  { destruct K as [es E]. exists es. split; [exact E|]. eapply enc_window; eassumption. }
  assert (STEP : forall i x ctx, tshape x = [1; c; h; w] -> bounded_tensor x ->
    exists lat str, code_strings nm ns ms ecc ecd net fo s i x ctx = Ok (lat, str, tt) /\ tshape lat = [1; c; h; w]).
  { intros i x ctx Sx Bx. unfold code_strings.
    destruct (Nat.eqb_spec i 0).
    - destruct (em_forward_ok net s c h w x ctx Hs Hc Hh Hw Sx PA) as (lat & -> & SL). cbn [bind]. eauto.
    - destruct (em_latent_round_trip nm ns ms ecc ecd net ctx fo s c h w nh nw x A1 A2 A3 Hs Hc Hh Hw Sx PA BH BW NS Bx BM)
        as (dec & str & means & scales & patches & quant & E1 & E2 & E3 & _).
      destruct (i <? 3).
      + rewrite E1. cbn [bind]. eauto.
      + rewrite (compress_skip _ _ _ _ _ _ _ _ _ _ _ _ _ E1). cbn [bind]. eexists _, _. split; [reflexivity|exact Sx]. }
  assert (REST : forall scs i st, Forall (fun t => tshape t = [1; c; h; w] /\ bounded_tensor t) scs -> 1 <= length st <= 2 ->
    exists es, encode_P process (code_strings nm ns ms ecc ecd net fo s) cl dq scs i st = Ok es).
  { induction scs as [|x scs IH]; intros i st FS L; cbn [encode_P]; [eauto|]. inversion FS as [|? ? [Sx Bx] FS']; subst.
    unfold encode_Pscene. destruct (context_ok st ltac:(lia)) as [ctx ->]. cbn [bind].
    destruct (STEP i x ctx Sx Bx) as (lat & str & -> & SL). cbn [bind]. unfold decode_Pscene. cbn [latent_q features].
    destruct (PT _ SL) as [p ->]. cbn [bind].
    destruct (IH (i + 1) (from_minus cl (st ++ [(lat, p)])) FS') as [es ->]; [|cbn [bind]; eauto].
    rewrite from_minus_last by lia. rewrite last_n_len, app_length. cbn [length]. lia. }
  destruct scenes as [|x scenes]; [cbn; eauto|]. inversion SC as [|? ? [Sx Bx] SC']; subst. cbn [encode_scenes]. unfold encode_Iscene.
  destruct (PT (fake (tshape x)) ltac:(rewrite FK; exact Sx)) as [p ->]. cbn [bind].
  destruct (context_ok [(fake (tshape x), p)] ltac:(left; reflexivity)) as [ctx ->]. cbn [bind].
  destruct (STEP 0 x ctx Sx Bx) as (lat & str & -> & SL). cbn [bind]. unfold decode_Iscene. cbn [latent_q features].
  destruct (PT _ SL) as [p' ->]. cbn [bind].
  destruct (REST scenes 1 [(lat, p')] SC' ltac:(cbn; lia)) as [es ->]. cbn [bind]. eauto.
Qed.
Print Assumptions vct_encoding_succeeds.

(** A network, coder, processing and scenes that meet the hypotheses of both theorems:
    five scenes, windows of 4, a mean of 3 everywhere. *)
Definition pipe_ex_net : @net_type (list R) R := fun _ toks =>
  (repeat (repeat 3%R 8) (length toks), repeat (repeat 0%R 8) (length toks), repeat 0%R (length toks)).
Definition pipe_ex_process (t : tensor R) : res R :=
  if list_eq_dec Nat.eq_dec (tshape t) [1; 2; 6; 7] then Ok (tat t [0; 1; 5; 6]) else Raise ValueError.
Definition pipe_ex_scene (k : Z) : tensor R := mkT [1; 2; 6; 7] (fun _ => IZR k).
Example pipe_ex :
  let scenes := map pipe_ex_scene [1; -2; 3; 40; -5]%Z in
  let coder := fun (z _ : list Z) => Ok z in
  net_shape pipe_ex_net (4 * 4) (2 * 2 * 2) /\ means_le 100 pipe_ex_net /\ bounded_means pipe_ex_net /\
  respects_entries pipe_ex_process /\ (forall t, tshape t = [1; 2; 6; 7] -> exists p, pipe_ex_process t = Ok p) /\
  Forall (fun t => tshape t = [1; 2; 6; 7] /\ bounded_tensor t) scenes /\
  (forall t x, 3 <= t -> nth_error scenes t = Some x -> settled 100 x) /\
  exists first es,
    encode_scenes pipe_ex_process (code_strings 100 256 0 coder coder pipe_ex_net 0%R 4) 2 (fun t (_ : unit) => t)
      (fun s => mkT s (fun _ => 10%R)) scenes = Ok (first :: es).
Proof.
  intros scenes coder.
  assert (N1 : net_shape pipe_ex_net (4 * 4) (2 * 2 * 2)).
  { intros e toks L _. cbn [pipe_ex_net]. unfold pipe_ex_net. rewrite !repeat_length.
    repeat split; auto; apply Forall_repeat, repeat_length. }
  assert (N2 : means_le 100 pipe_ex_net).
  { intros e toks m s o E. injection E as <- _ _. apply Forall_repeat. repeat constructor; rabs; lra. }
  assert (N3 : bounded_means pipe_ex_net).
  { intros e toks m s o E. injection E as <- _ _. apply Forall_repeat. repeat constructor; rabs; lra. }
  assert (P1 : forall t, tshape t = [1; 2; 6; 7] -> exists p, pipe_ex_process t = Ok p).
  { intros t E. unfold pipe_ex_process. destruct list_eq_dec; [eauto|contradiction]. }
  assert (KB : forall k, In k [1; -2; 3; 40; -5]%Z -> (-100 <= k <= 100)%Z) by (intros k H; cbn in H; lia).
  assert (SB : Forall (fun t => tshape t = [1; 2; 6; 7] /\ bounded_tensor t) scenes).
  { apply Forall_forall. intros t Ht. apply in_map_iff in Ht. destruct Ht as (k & <- & Hk). split; [reflexivity|].
    apply KB in Hk. destruct Hk as [H1 H2]. apply IZR_le in H1, H2. intro i. cbn [pipe_ex_scene tat]. revert H1 H2. rabs; lra. }
  split; [exact N1|]. split; [exact N2|]. split; [exact N3|]. split.
  { intros t u [ES EV]. unfold pipe_ex_process. rewrite <- ES. destruct list_eq_dec as [E|]; [|reflexivity].
    rewrite EV; [reflexivity|]. rewrite E. cbn. lia. }
  split; [exact P1|]. split; [exact SB|]. split.
  { intros t x _ N. apply nth_error_In in N. apply in_map_iff in N. destruct N as (k & <- & Hk).
    apply KB in Hk. destruct Hk as [H1 H2]. apply IZR_le in H1, H2. intro i. cbn [pipe_ex_scene tat].
    split; [revert H1 H2; rabs; lra|]. intro n.
    assert (G : (k <= n)%Z \/ (n + 1 <= k)%Z) by lia.
    destruct G as [G|G]; apply IZR_le in G; rewrite ?plus_IZR in G; rabs; lra. }
  destruct (vct_encoding_succeeds 100 256 0 coder coder pipe_ex_net 0%R 4 2 6 7 2 2 pipe_ex_process 2 (fun t (_ : unit) => t)
    (fun s => mkT s (fun _ => 10%R)) scenes) as (es & E & L); try assumption; try lia; try reflexivity.
  - exact (proj1 em_ex_coder).
  - apply patch_paddable_ex.
  - unfold blocks; lia.
  - unfold blocks; lia.
  - destruct es as [|f es]; [discriminate|]. exists f, es. exact E.
Qed.

(** Without that condition the receiver drifts: four scenes of one entry 0.5, predicted
    to be 1; the encoder goes on with 0 after the fourth scene, the receiver with 1. *)
Theorem vct_receiver_in_sync_refuted :
  let coder := fun (z _ : list Z) => Ok z in
  let net : @net_type (list unit) R := fun _ _ => ([[1%R]], [[0%R]], [0%R]) in
  let process := fun _ : tensor R => Ok tt in
  let scenes := repeat (mkT [1; 1; 1; 1] (fun _ => / 2)%R) 4 in
  exists first es lats,
    encode_scenes process (code_strings 100 256 0 coder coder net 0%R 1) 2 (fun t (_ : unit) => t) (fun s => mkT s (fun _ => 10%R)) scenes = Ok (first :: es) /\
    receive 100 256 0 coder net process 2 1 1 1 1 (latent_q (snd first)) (map (fun e => likelihood (snd e)) es) = Ok lats /\
    (exists e l, nth_error (first :: es) 3 = Some e /\ nth_error lats 3 = Some l /\
       tat (latent_q (snd e)) [0; 0; 0; 0] = 0%R /\ tat l [0; 0; 0; 0] = 1%R) /\
    ~ Forall2 teq (map (fun e => latent_q (snd e)) (first :: es)) lats.
Proof.
  intros coder net process scenes. set (x := mkT [1; 1; 1; 1] (fun _ => / 2)%R) in *.
  assert (PA : paddable Reflect 1 0 1 1).
  { apply (paddable_iff Reflect 1 1 1 1 (le_n 1)). reflexivity. }
  assert (NS : net_shape net (1 * 1) (1 * 1 * 1)).
  { intros e toks L _. cbn. repeat split; repeat constructor. }
  assert (BM : bounded_means net).
  { intros e toks m s o E. injection E as <- _ _. repeat constructor. rabs; lra. }
  assert (BT : bounded_tensor x) by (intro i; cbn [x tat]; rabs; lra).
  destruct (em_latent_round_trip 100 256 0 coder coder net [tt; tt] 0%R 1 1 1 1 1 1 x ltac:(lia) ltac:(lia) (proj1 em_ex_coder)
    (le_n 1) (le_n 1) (le_n 1) (le_n 1) eq_refl PA ltac:(unfold blocks; lia) ltac:(unfold blocks; lia) NS BT BM)
    as (dec & str & means & scales & patches & quant & E1 & E2 & E3 & E4 & E5 & E6 & E7 & E8 & _).
  destruct (em_forward_ok net 1 1 1 1 x [tt; tt] (le_n 1) (le_n 1) (le_n 1) (le_n 1) eq_refl PA) as (lat0 & F0 & _).
  pose proof (compress_skip _ _ _ _ _ _ _ _ _ _ _ _ _ E1) as E1'. cbn [tshape x] in E1'.
  destruct vct_skip_decode_refuted as [[SK QU] _].
  assert (V : tat dec [0; 0; 0; 0] = 1%R).
  { rewrite E4 by lia. specialize (E6 0 ltac:(cbn; lia)). unfold predicted_so_far in E6. cbn [net] in E6.
    destruct E6 as [E6 _]. cbn [nth Nat.modulo Nat.div Nat.divmod Nat.mul Nat.add fst snd Nat.sub] in *. rewrite E6. exact QU. }
  assert (C1 : forall a : tensor R * unit, context [a] = Ok [tt; tt]) by (intros [? []]; reflexivity).
  assert (C2 : forall a b : tensor R * unit, context [a; b] = Ok [tt; tt]) by (intros [? []] [? []]; reflexivity).
  eexists _, _, _. split; [|split; [|split]].
  - unfold scenes. cbn [repeat encode_scenes encode_P]. unfold encode_Iscene, decode_Iscene, process. cbn [bind]. rewrite C1. cbn [bind].
    unfold code_strings at 1. cbn [Nat.eqb]. rewrite F0. cbn [bind latent_q features].
    unfold encode_Pscene, decode_Pscene. cbn [bind latent_q features].
    rewrite C1. cbn [bind]. unfold code_strings at 1. cbn [Nat.eqb Nat.ltb Nat.leb]. rewrite E1. cbn [bind latent_q features].
    cbn [from_minus Nat.eqb app length Nat.sub skipn]. rewrite C2. cbn [bind]. unfold code_strings at 1. cbn [Nat.add Nat.eqb Nat.ltb Nat.leb]. rewrite E1. cbn [bind latent_q features].
    cbn [from_minus Nat.eqb app length Nat.sub skipn]. rewrite C2. cbn [bind]. unfold code_strings at 1. cbn [Nat.add Nat.eqb Nat.ltb Nat.leb]. rewrite E1'. cbn [bind latent_q features].
    cbn [from_minus Nat.eqb app length Nat.sub skipn]. reflexivity.
  - unfold receive, process. cbn [bind map snd likelihood latent_q receive_P].
    rewrite C1. cbn [bind]. rewrite E8 by reflexivity. cbn [bind].
    cbn [last_n rev firstn app]. rewrite C2. cbn [bind]. rewrite E8 by reflexivity. cbn [bind].
    cbn [last_n rev firstn app]. rewrite C2. cbn [bind]. rewrite E8 by reflexivity. cbn [bind]. reflexivity.
  - eexists _, _. split; [reflexivity|]. split; [reflexivity|]. split; [exact SK|exact V].
  - intro F. cbn [map snd latent_q] in F.
    inversion F as [|? ? ? ? _ F1]; subst. inversion F1 as [|? ? ? ? _ F2]; subst. inversion F2 as [|? ? ? ? _ F3]; subst.
    inversion F3 as [|? ? ? ? [_ T] _]; subst. cbn [tshape tat] in T.
    specialize (T [0; 0; 0; 0] ltac:(cbn; lia)). rewrite V in T. change (skip_decode (/ 2) = 1%R) in T. rewrite SK in T. lra.
Qed.
Print Assumptions vct_receiver_in_sync_refuted.

(** ** C30 *)
(** The state after scene [t] holds the last [context_len] latents, or all if there are
    fewer, in order and each with its own processing; with [context_len] 0 it holds all. *)
Theorem vct_state_window : forall {X S F O} process code context_len (dequantize : tensor R -> F -> O) fake scenes
    (es : list (list (tensor R * X) * @bottleneck S F)) t st b,
  encode_scenes process code context_len dequantize fake scenes = Ok es -> nth_error es t = Some (st, b) ->
  let so_far := firstn (t + 1) (map (fun e => latent_q (snd e)) es) in
  map fst st = (if context_len =? 0 then so_far else last_n context_len so_far) /\
  Forall (fun p => process (fst p) = Ok (snd p)) st.
Proof.
  intros X S F O process code cl dq fake scenes es t st b H N. cbn zeta.
  exact (proj2 (enc_window _ _ _ _ _ _ _ H) t st b N).
Qed.
Print Assumptions vct_state_window.

(** The entropy model, also reporting the context that it was given. *)
Definition reporting {X S F} (code : nat -> tensor R -> list X -> res (tensor R * S * F)) (i : nat) (x : tensor R) (ctx : list X) :
    res (tensor R * (list X * S) * F) :=
  do (lat, s, f) <- code i x ctx; Ok (lat, (ctx, s), f).

Lemma encP_reported {X S F O} process (code : nat -> tensor R -> list X -> res (tensor R * S * F)) cl (dq : tensor R -> F -> O) scenes :
  forall i state es, encode_P process (reporting code) cl dq scenes i state = Ok es ->
  forall t st b, nth_error es t = Some (st, b) ->
    context (nth t (state :: map fst es) []) = Ok (fst (likelihood b)).
Proof.
  induction scenes as [|x scenes IH]; intros i state es H t st b N; cbn [encode_P] in H.
  - injection H as <-. destruct t; discriminate.
  - unfold encode_Pscene, reporting in H.
    destruct (context state) as [ctx|] eqn:C; [|discriminate]. cbn [bind] in H.
    destruct (code i x ctx) as [[[lat s] f]|]; [|discriminate]. cbn [bind] in H.
    unfold decode_Pscene in H. cbn [latent_q features] in H. destruct (process lat) as [p|]; [|discriminate]. cbn [bind] in H.
    fold (reporting code) in H.
    destruct (encode_P process (reporting code) cl dq scenes (i + 1) _) as [es'|] eqn:E; [|discriminate]. injection H as <-.
    destruct t as [|t].
    + injection N as <- <-. exact C.
    + cbn [nth_error] in N. cbn [map nth fst]. exact (IH _ _ _ E t st b N).
Qed.

(** Scene [t] is coded given the processed latents of the previous two scenes, oldest
    first; given the previous one twice if there is only one or [context_len] is 1. *)
Theorem vct_context_sequences : forall {X S F O} process (code : nat -> tensor R -> list X -> res (tensor R * S * F)) context_len
    (dequantize : tensor R -> F -> O) fake scenes es t st b,
  1 <= context_len <= 2 -> 1 <= t ->
  encode_scenes process (reporting code) context_len dequantize fake scenes = Ok es -> nth_error es t = Some (st, b) ->
  let latent k := nth_error (map (fun e => latent_q (snd e)) es) k in
  exists older newer lat_older lat_newer,
    fst (likelihood b) = [older; newer] /\ process lat_older = Ok older /\ process lat_newer = Ok newer /\
    latent (t - 1) = Some lat_newer /\
    latent (if (t =? 1) || (context_len =? 1) then t - 1 else t - 2) = Some lat_older.
Proof.
  intros X T F O process code cl dq fake scenes es t st b CL Ht H N latent.
  pose proof (proj2 (enc_window _ _ _ _ _ _ _ H)) as W.
  destruct t as [|t]; [lia|]. clear Ht.
  assert (C : exists st' b', nth_error es t = Some (st', b') /\ context st' = Ok (fst (likelihood b))).
  { destruct scenes as [|x scenes]; cbn [encode_scenes] in H; [injection H as <-; discriminate|].
    unfold encode_Iscene in H.
    destruct (process (fake (tshape x))) as [p0|]; [|discriminate]. cbn [bind] in H.
    destruct (context _) as [ctx|]; [|discriminate]. cbn [bind] in H.
    destruct (reporting code 0 x ctx) as [[[lat s] f]|]; [|discriminate]. cbn [bind] in H.
    unfold decode_Iscene in H. cbn [latent_q features] in H. destruct (process lat) as [p|]; [|discriminate]. cbn [bind] in H.
    destruct (encode_P process (reporting code) cl dq scenes 1 _) as [es'|] eqn:E; [|discriminate]. injection H as <-.
    cbn [nth_error] in N. pose proof (encP_reported _ _ _ _ _ _ _ _ E t st b N) as R0.
    assert (L : t < length es') by (apply nth_error_Some; congruence).
    destruct t as [|t]; [cbn [nth nth_error] in *; eauto|]. cbn [nth_error]. cbn [nth] in R0.
    destruct (nth_error es' t) as [[st' b']|] eqn:N'; [|apply nth_error_None in N'; lia].
    exists st', b'. split; [reflexivity|].
    rewrite (nth_indep _ [] (fst (st', b'))) in R0 by (rewrite map_length; lia). rewrite map_nth in R0.
    rewrite (nth_error_nth _ _ _ N') in R0. exact R0. }
  destruct C as (st' & b' & N' & C). specialize (W t st' b' N').
  destruct W as [W1 W2]. set (lats := map (fun e => latent_q (snd e)) es) in *.
  destruct (Nat.eqb_spec cl 0); [lia|]. change (Pipe_Proofs.lats es) with lats in W1.
  assert (LT : t < length lats).
  { unfold lats. rewrite map_length. apply nth_error_Some. congruence. }
  assert (LL : forall k, k <= t -> nth_error (firstn (t + 1) lats) k = nth_error lats k).
  { intros k Hk. rewrite <- (firstn_skipn (t + 1) lats) at 2. rewrite nth_error_app1; [reflexivity|]. rewrite firstn_length. lia. }
  assert (LH : length (firstn (t + 1) lats) = t + 1) by (rewrite firstn_length; lia).
  set (hist := firstn (t + 1) lats) in *. clearbody hist.
  replace (S t - 1) with t by lia. replace (S t - 2) with (t - 1) by lia.
  assert (LN : length st' = Nat.min cl (t + 1)) by (rewrite <- (map_length fst), W1, last_n_len; lia).
  assert (NTH : forall k, nth_error (map fst st') k = nth_error hist (t + 1 - Nat.min cl (t + 1) + k)).
  { intro k. rewrite W1, last_n_skipn, LH. replace (t + 1 - cl) with (t + 1 - Nat.min cl (t + 1)) by lia.
    generalize (t + 1 - Nat.min cl (t + 1)). clear. intro n. revert hist. induction n as [|n IH]; intro hist; [reflexivity|].
    destruct hist; [now destruct k|]. cbn. apply IH. }
  destruct st' as [|[l1 p1] [|[l2 p2] [|]]]; cbn [length] in LN; try lia.
  - assert (K : (S t =? 1) || (cl =? 1) = true) by (destruct (Nat.eqb_spec (S t) 1), (Nat.eqb_spec cl 1); cbn; try reflexivity; lia).
    rewrite K. cbn in C. injection C as <-. inversion W2 as [|? ? W2a _]; subst. cbn in W2a.
    specialize (NTH 0). cbn [nth_error map fst] in NTH. rewrite LL in NTH by lia. replace (t + 1 - Nat.min cl (t + 1) + 0) with t in NTH by lia.
    exists p1, p1, l1, l1. repeat split; auto.
  - assert (K : (S t =? 1) || (cl =? 1) = false) by (destruct (Nat.eqb_spec (S t) 1), (Nat.eqb_spec cl 1); cbn; try reflexivity; lia).
    rewrite K. cbn in C. injection C as <-. inversion W2 as [|? ? W2a W2']; subst. inversion W2' as [|? ? W2b _]; subst. cbn in W2a, W2b.
    pose proof (NTH 0) as N0. pose proof (NTH 1) as N1. cbn [nth_error map fst] in N0, N1. rewrite LL in N0, N1 by lia.
    replace (t + 1 - Nat.min cl (t + 1) + 0) with (t - 1) in N0 by lia.
    replace (t + 1 - Nat.min cl (t + 1) + 1) with t in N1 by lia.
    exists p1, p2, l1, l2. repeat split; auto.
Qed.
Print Assumptions vct_context_sequences.

(** If the entropy model and the processing never fail, encoding works iff [context_len]
    is 1 or 2, or there are at most three scenes. *)
Theorem vct_context_works_iff : forall {X S F O} process (code : nat -> tensor R -> list X -> res (tensor R * S * F)) context_len
    (dequantize : tensor R -> F -> O) fake scenes,
  (forall t, exists p, process t = Ok p) -> (forall i x ctx, exists r, code i x ctx = Ok r) ->
  (exists es, encode_scenes process code context_len dequantize fake scenes = Ok es) <->
  1 <= context_len <= 2 \/ length scenes <= 3.
Proof. intros X S F O process code cl dq fake scenes PT CT. now apply enc_success_iff. Qed.
Print Assumptions vct_context_works_iff.

(** A supported [context_len] of 3 fails at the fourth scene. *)
Theorem vct_context_works_refuted :
  let scene := mkT [1; 1; 1; 1] (fun _ => 0%R) in
  forall cl, cl = 0 \/ cl = 3 ->
  encode_scenes (fun _ => Ok tt) (fun _ x _ => Ok (x, tt, tt)) cl (fun t (_ : unit) => t) (fun s => mkT s (fun _ => 10%R))
    (repeat scene 4) = Raise AssertionError.
Proof. intros scene cl [->| ->]; reflexivity. Qed.
Print Assumptions vct_context_works_refuted.
Example vct_context_ex :
  let code := fun (_ : nat) x (ctx : list R) => Ok (x, tt, tt) in
  let process := fun t : tensor R => Ok (tat t []) in
  let scene := fun k => mkT [] (fun _ => IZR k) in
  exists es, encode_scenes process (reporting code) 2 (fun t (_ : unit) => t) (fun s => mkT s (fun _ => 10%R)) (map scene [1; 2; 3; 4]%Z) = Ok es /\
    map (fun e => fst (likelihood (snd e))) es = [[10; 10]; [1; 1]; [1; 2]; [2; 3]]%R.
Proof. eexists. split; reflexivity. Qed.

(** C27: autoregressive coding of a latent. *)
From Coq Require Import Arith List Bool Lia Lra Reals.
From Verif Require Import Base RBase RFloat Tensor Patch_Model Patch_Spec Patch_Proofs Patch_Props
  Gsn_Model Gsn_Spec Gsn_Proofs EM_Model EM_Spec EM_Proofs.
Import ListNotations.
Open Scope nat_scope.

Lemma predicted_iff {B E D} (net : @net_type E D) L w enc latent (st : @est B D) j :
  length latent = L -> length (e_quant st) = L -> j < L -> predicted net L w enc st (fill_tokens latent 10) j ->
  predicted_so_far net enc latent (e_quant st) (e_means st) (e_scales st) j.
Proof.
  intros LL LQ Hj (toks & m & s & o & E1 & E2 & E3 & E4 & E5 & E6 & E7). unfold predicted_so_far.
  assert (T : firstn j (e_quant st) ++ map (map (fun _ => 10%R)) (skipn j latent) = toks).
  { apply (nth_ext _ _ [] []).
    - rewrite app_length, firstn_length, map_length, skipn_length. lia.
    - intros k Hk. rewrite app_length, firstn_length, map_length, skipn_length in Hk. destruct (le_lt_dec j k) as [G|G].
      + rewrite app_nth2; rewrite firstn_length, Nat.min_l by lia; [|exact G].
        rewrite E7 by lia. unfold fill_tokens. rewrite <- (firstn_skipn j latent) at 2.
        rewrite map_app, app_nth2; rewrite map_length, firstn_length, Nat.min_l by lia; [reflexivity|exact G].
      + rewrite app_nth1 by (rewrite firstn_length; lia). rewrite E6 by exact G.
        rewrite <- (firstn_skipn j (e_quant st)) at 2. rewrite app_nth1 by (rewrite firstn_length; lia). reflexivity. }
  rewrite T, E1. auto.
Qed.

(** Token level: encoding succeeds with one string per token; a decoder with the same
    network (use_output_from_encode=False) or with any network but the encoder's means and
    scales (True) returns exactly the encoder's quantised tokens.  No causality is needed:
    both sides feed the same partly filled tokens to the network. *)
Theorem em_token_round_trip : forall nm ns ms {B E D} (ec_compress : list Z -> list Z -> res B) ec_decompress ok
    (net : @net_type E D) L w enc latent fo,
  (1 <= nm)%Z -> (1 <= ns)%Z -> lossless_coder ec_compress ec_decompress (nm * ns) ok -> (forall z, ok z -> in_int32 z) ->
  1 <= L -> net_shape net L w -> symbols_fit net L w enc latent ok ->
  length latent = L -> Forall (fun t => length t = w) latent ->
  exists st, em_encode nm ns ms ec_compress net fo enc latent L = Ok st /\ length (e_strings st) = L /\
    (forall j, j < L -> nth j (e_quant st) [] = map2 quantised (nth j latent []) (nth j (e_means st) [])) /\
    (forall j, j < L -> predicted_so_far net enc latent (e_quant st) (e_means st) (e_scales st) j) /\
    (forall m s, length m = L -> length s = L ->
       em_decode nm ns ms ec_decompress net enc false m s (e_strings st) latent L = Ok (e_quant st)) /\
    (forall (net' : @net_type E D) enc', net_shape net' L w ->
       em_decode nm ns ms ec_decompress net' enc' true (e_means st) (e_scales st) (e_strings st) latent L = Ok (e_quant st)).
Proof.
  intros nm ns ms B E D ecc ecd ok net L w enc latent fo A1 A2 A3 A4 A5 A6 A7 A8 A9.
  destruct (encode_decode nm ns ms ecc ecd ok A1 A2 A3 A4 net L w enc latent A5 A6 A7 A8 A9 fo)
    as (st & E1 & E2 & (W1 & W2 & W3 & W4 & W5 & W6 & W7) & E3 & EP & E4).
  exists st. split; [exact E1|]. split; [exact E2|]. split; [exact E3|].
  split; [intros j Hj; apply (predicted_iff net L w); auto|]. split.
  - intros m s Hm Hs. apply E4; [|reflexivity]. repeat split; auto; discriminate.
  - intros net' enc' NS'. apply E4; [|reflexivity]. repeat split; auto; discriminate.
Qed.
Print Assumptions em_token_round_trip.

(** Decoding succeeds only with exactly one string per token: missing or extra strings
    raise. *)
Lemma dec_loop_count {B E D} nm ns ms ecd (net : @net_type E D) enc use m s L idxs : forall prev (strings : list B) dec r d,
  Forall (fun i => i <> 0) idxs ->
  dec_loop nm ns ms ecd net enc use m s L (idxs ++ [0]) prev strings dec = Ok (r, d) -> prev <> None ->
  length strings = length idxs + 1 + length r.
Proof.
  induction idxs as [|i idxs IH]; intros prev strings dec r d F H P.
  - cbn [app dec_loop] in H. destruct prev as [[pm ps]|]; [|congruence]. destruct strings as [|s0 strings]; [discriminate|].
    destruct (gsn_decompress nm ns ms ecd s0 ps pm); [|discriminate]. cbn in H. injection H as <- _. cbn. lia.
  - inversion F as [|? ? F1 F2]; subst. cbn [app dec_loop] in H. destruct prev as [[pm ps]|]; [|congruence].
    destruct strings as [|s0 strings]; [discriminate|].
    destruct (gsn_decompress nm ns ms ecd s0 ps pm) as [dd|]; [|discriminate]. cbn [bind] in H.
    destruct (i =? 0) eqn:Z; [apply Nat.eqb_eq in Z; contradiction|].
    destruct (net enc (upd dec (prev_idx L i) dd)) as [[mm sc] oo].
    destruct (nth_res mm i); [|discriminate]. destruct (nth_res sc i); [|discriminate].
    destruct (nth_res m i); [|discriminate]. destruct (nth_res s i); [|discriminate]. cbn [bind] in H.
    apply IH in H; [cbn [length]; lia|exact F2|destruct use; discriminate].
Qed.
Theorem em_decode_string_count : forall nm ns ms {B E D} ec_decompress (net : @net_type E D) enc use m s (strings : list B) blank L d,
  1 <= L -> em_decode nm ns ms ec_decompress net enc use m s strings blank L = Ok d -> length strings = L.
Proof.
  intros nm ns ms B E D ecd net enc use m s strings blank L d HL H. unfold em_decode in H.
  destruct (dec_loop _ _ _ _ _ _ _ _ _ _ _ _ _ _) as [[r dd]|] eqn:Q; [|discriminate]. cbn [bind] in H. destruct r; [|discriminate].
  destruct L as [|L]; [lia|]. cbn [seq app dec_loop bind] in Q.
  destruct (net enc (fill_tokens blank 10)) as [[mm sc] oo].
  destruct (nth_res mm 0); [|discriminate]. destruct (nth_res sc 0); [|discriminate].
  destruct (nth_res m 0); [|discriminate]. destruct (nth_res s 0); [|discriminate]. cbn [bind] in Q.
  apply dec_loop_count in Q.
  - rewrite seq_length in Q. cbn in Q. lia.
  - apply Forall_forall. intros i Hi. apply in_seq in Hi. lia.
  - destruct use; discriminate.
Qed.
Print Assumptions em_decode_string_count.

(** ** Tensors *)
Lemma nth_map2 {X Y Z0} (f : X -> Y -> Z0) l m k dx dy d : k < length l -> length l = length m ->
  nth k (map2 f l m) d = f (nth k l dx) (nth k m dy).
Proof.
  unfold map2. revert m k. induction l as [|x l IH]; intros [|y m] k H E; try discriminate; [cbn in H; lia|].
  destruct k as [|k]; [reflexivity|]. cbn in *. apply IH; lia.
Qed.
Lemma nth_map_seq {A} (f : nat -> A) n k d : k < n -> nth k (map f (seq 0 n)) d = f k.
Proof.
  intro H. rewrite (nth_indep _ d (f 0)) by (rewrite map_length, seq_length; exact H).
  rewrite map_nth, seq_nth by exact H. reflexivity.
Qed.
Lemma tokens_len (t : tensor R) n l c : tshape t = [n; l; c] ->
  length (tokens_of t) = l /\ Forall (fun u => length u = n * c) (tokens_of t) /\
  map (@length R) (tokens_of t) = repeat (n * c) l.
Proof.
  intro H. unfold tokens_of. rewrite H. split; [now rewrite map_length, seq_length|]. split.
  - apply Forall_forall. intros u U. apply in_map_iff in U. destruct U as (i & <- & _). now rewrite map_length, seq_length.
  - rewrite map_map. clear H. generalize 0 at 2 as k. induction l as [|l IH]; intro k; [reflexivity|].
    cbn [seq map repeat]. rewrite map_length, seq_length. f_equal. apply IH.
Qed.
Lemma tokens_nth (t : tensor R) n l c a i k : tshape t = [n; l; c] -> a < n -> i < l -> k < c ->
  nth (a * c + k) (nth i (tokens_of t) []) 0%R = tat t [a; i; k].
Proof.
  intros H Ha Hi Hk. unfold tokens_of. rewrite H, nth_map_seq by exact Hi. rewrite nth_map_seq by nia.
  rewrite Nat.div_add_l, (Nat.div_small k c), Nat.add_0_r by lia.
  rewrite (Nat.add_comm (a * c)), Nat.mod_add, Nat.mod_small by lia. reflexivity.
Qed.

Lemma all_equal_refl t : all_equal t t = true.
Proof.
  unfold all_equal. destruct (list_eq_dec Nat.eq_dec (tshape t) (tshape t)); [|congruence].
  apply forallb_forall. intros k _. destruct (Req_EM_T _ _); congruence.
Qed.

Lemma symbol_bound x m : (Rabs x <= 4194304)%R -> (Rabs m <= 4194304)%R -> (Z.abs (symbol x m) <= 2 ^ 24)%Z.
Proof.
  intros Hx Hm. unfold symbol.
  assert (K : (-4194304 <= round_even m <= 4194304)%Z).
  { apply round_even_range. revert Hm. rabs; lra. }
  destruct K as [K1 K2]. apply IZR_le in K1, K2.
  assert (Y : (IZR (- 2 ^ 24) <= x - IZR (round_even m) <= IZR (2 ^ 24))%R).
  { change (IZR (- 2 ^ 24)) with (-16777216)%R. change (IZR (2 ^ 24)) with 16777216%R. revert Hx. rabs; lra. }
  destruct Y as [Y1 Y2]. apply b32_mono in Y1, Y2. rewrite b32_int in Y1, Y2 by lia.
  pose proof (round_even_range (b32 (x - IZR (round_even m))) (- 2 ^ 24) (2 ^ 24) (conj Y1 Y2)). lia.
Qed.

(** The latent [1, c, h, w] and the predicted means are below 2^22 in size, so that all
    symbols are at most 2^24. *)
Definition bounded_tensor (t : tensor R) : Prop := forall i, (Rabs (tat t i) <= 4194304)%R.
Definition bounded_means {E D} (net : @net_type E D) : Prop :=
  forall e toks means scales outs, net e toks = (means, scales, outs) ->
    Forall (Forall (fun m => (Rabs m <= 4194304)%R)) means.

Lemma Forall_map2 {X Y Z0} (P : Z0 -> Prop) (f : X -> Y -> Z0) (PX : X -> Prop) (PY : Y -> Prop) l m :
  (forall x y, PX x -> PY y -> P (f x y)) -> Forall PX l -> Forall PY m -> Forall P (map2 f l m).
Proof.
  intros H F. revert m. unfold map2. induction F as [|x l Hx F IH]; intros m G; [constructor|].
  destruct G as [|y m Hy G]; [constructor|]. cbn. constructor; auto.
Qed.
Lemma padded_bounded mode x h w m bi ci y0 x0 : bounded_tensor x -> (Rabs (padded mode x h w m bi ci y0 x0) <= 4194304)%R.
Proof.
  intro H. unfold padded. destruct (pad_src mode h m y0), (pad_src mode w m x0); try apply H; rewrite Rabs_R0; lra.
Qed.

(** compress with run_decode=True passes its assertion and returns, for every pixel, the
    value quantised around the mean that the network predicted for it from the tokens
    decoded before it; a separate
    decoder that has the strings, the context and the network recovers the same tensor
    (even without the encoder's means), and so does one with the encoder's means and any
    other network. *)
Theorem em_latent_round_trip : forall nm ns ms {B E D} (ec_compress : list Z -> list Z -> res B) ec_decompress
    (net : @net_type E D) enc fo s c h w nh nw (latent : tensor R),
  (1 <= nm)%Z -> (1 <= ns)%Z ->
  lossless_coder ec_compress ec_decompress (nm * ns) (fun z => (Z.abs z <= 2 ^ 24)%Z) ->
  1 <= s -> 1 <= c -> 1 <= h -> 1 <= w -> tshape latent = [1; c; h; w] -> paddable Reflect s 0 h w ->
  blocks s h nh -> blocks s w nw ->
  net_shape net (s * s) (nh * nw * c) -> bounded_tensor latent -> bounded_means net ->
  exists decoded strings means scales patches quant,
    em_compress nm ns ms ec_compress ec_decompress net fo s enc latent true = Ok (decoded, strings, (means, scales)) /\
    length strings = s * s /\ tshape decoded = [1; c; h; w] /\
    (forall ci y x, ci < c -> y < h -> x < w ->
       tat decoded [0; ci; y; x] = quantised (tat latent [0; ci; y; x])
         (nth (((y / s) * nw + x / s) * c + ci) (nth ((y mod s) * s + x mod s) means []) 0%R)) /\
    (exists n, forward s Reflect latent s = Ok (patches, n)) /\
    (forall j, j < s * s -> predicted_so_far net enc (tokens_of patches) quant means scales j) /\
    (forall j, j < s * s -> nth j quant [] = map2 quantised (nth j (tokens_of patches) []) (nth j means [])) /\
    (forall m' s', length m' = s * s -> length s' = s * s ->
       em_decode_latent nm ns ms ec_decompress net s enc false m' s' strings h w c = Ok decoded) /\
    (forall (net' : @net_type E D) enc', net_shape net' (s * s) (nh * nw * c) ->
       em_decode_latent nm ns ms ec_decompress net' s enc' true means scales strings h w c = Ok decoded).
Proof.
  intros nm ns ms B E D ecc ecd net enc fo s c h w nh nw latent A1 A2 A3 Hs Hc Hh Hw Sl PA BH BW NS BT BM.
  assert (nh = ceil_div h s).
  { pose proof (ceil_div_spec h s Hs). unfold blocks in BH. nia. } subst nh.
  assert (nw = ceil_div w s).
  { pose proof (ceil_div_spec w s Hs). unfold blocks in BW. nia. } subst nw.
  set (nh := ceil_div h s) in *. set (nw := ceil_div w s) in *.
  assert (PO : pads_ok Reflect s s h w = true) by (apply paddable_iff; [exact Hs|]; now rewrite Nat.sub_diag).
  destruct (forward_ok Reflect s latent s 1 c h w Hs (le_n s) ltac:(exists 0; lia) Sl Hh Hw PO) as (p & Ep & Sp & Vp).
  destruct (forward_ok Reflect s (mkT [1; c; h; w] (fun _ => 1%R)) s 1 c h w Hs (le_n s) ltac:(exists 0; lia) eq_refl Hh Hw PO)
    as (fk & Ef & Sf & _).
  fold nh nw in Ep, Sp, Vp, Ef, Sf. rewrite Nat.sub_diag in Vp. change (0 / 2) with 0 in Vp.
  pose proof (ceil_div_pos h s Hs Hh) as NH. pose proof (ceil_div_pos w s Hs Hw) as NW. fold nh in NH. fold nw in NW.
  destruct (tokens_len p _ _ _ Sp) as (Lp & Wp & Mp). destruct (tokens_len fk _ _ _ Sf) as (Lf & Wf & Mf).
  assert (N1 : 1 * nh * nw = nh * nw) by lia. 
  assert (BP : Forall (Forall (fun x => (Rabs x <= 4194304)%R)) (tokens_of p)).
  { apply Forall_forall. intros t Ht. apply Forall_forall. intros x Hx.
    apply (In_nth _ _ []) in Ht. destruct Ht as (i & Hi & <-). rewrite Lp in Hi.
    apply (In_nth _ _ 0%R) in Hx. destruct Hx as (k & Hk & <-).
    rewrite (Forall_nth_lt _ _ i [] Wp ltac:(lia)) in Hk.
    pose proof (Nat.div_mod k c ltac:(lia)) as DK. pose proof (Nat.mod_upper_bound k c ltac:(lia)) as MK.
    assert (KD : k / c < 1 * nh * nw) by (apply Nat.div_lt_upper_bound; lia).
    replace k with (k / c * c + k mod c) by lia. rewrite (tokens_nth p _ _ _ _ _ _ Sp KD Hi MK).
    pose proof (Nat.div_mod (k / c) nw ltac:(lia)) as D1. pose proof (Nat.mod_upper_bound (k / c) nw ltac:(lia)) as M1.
    pose proof (Nat.div_mod i s ltac:(lia)) as D2. pose proof (Nat.mod_upper_bound i s ltac:(lia)) as M2.
    assert (Q1 : k / c / nw < nh) by (apply Nat.div_lt_upper_bound; nia).
    assert (Q2 : i / s < s) by (apply Nat.div_lt_upper_bound; lia).
    replace (k / c) with ((0 * nh + k / c / nw) * nw + (k / c) mod nw) by lia.
    replace i with (i / s * s + i mod s) by lia.
    rewrite Vp by (assumption || lia). apply padded_bounded. exact BT. }
  assert (SF : symbols_fit net (s * s) (nh * nw * c) enc (tokens_of p) (fun z => (Z.abs z <= 2 ^ 24)%Z)).
  { intros toks means scales outs i Lt Wt EN Hi.
    pose proof (NS enc toks Lt Wt) as NN. rewrite EN in NN. destruct NN as (L1 & _ & _ & W1 & _).
    apply (Forall_map2 _ _ (fun x => (Rabs x <= 4194304)%R) (fun x => (Rabs x <= 4194304)%R)).
    - intros x y. apply symbol_bound.
    - apply (Forall_nth_lt _ _ _ _ BP). lia.
    - apply (Forall_nth_lt _ _ _ _ (BM _ _ _ _ _ EN)). lia. }
  rewrite N1 in *.
  destruct (encode_decode nm ns ms ecc ecd _ A1 A2 A3 ltac:(intros z Hz; unfold in_int32; cbn in Hz; lia) net (s * s) (nh * nw * c) enc (tokens_of p) ltac:(nia) NS SF Lp Wp fo)
    as (st & E1 & E2 & (W1 & W2 & W3 & W4 & W5 & W6 & W7) & E3 & EP & E4).
  assert (DEC : forall net2 enc2 use m s0, dec_mode net (s * s) (nh * nw * c) enc st net2 enc2 use m s0 ->
     em_decode nm ns ms ecd net2 enc2 use m s0 (e_strings st) (tokens_of fk) (s * s) = Ok (e_quant st)).
  { intros. apply E4; [assumption|]. rewrite Mf, Mp. reflexivity. }
  set (q := of_tokens (nh * nw) (s * s) c (e_quant st)).
  destruct (unpatch_ok s q 1 c nh nw Hs Hc NH NW) as (z & _ & _ & EU & VU). { unfold q. cbn [of_tokens tshape]. now rewrite N1. }
  pose proof (ceil_div_spec h s Hs) as CH. pose proof (ceil_div_spec w s Hs) as CW. fold nh in CH. fold nw in CW.
  set (dec := mkT [1; c; Nat.min h (nh * s); Nat.min w (nw * s)] (tat z)) in *.
  assert (DL : forall net2 enc2 use m s0, dec_mode net (s * s) (nh * nw * c) enc st net2 enc2 use m s0 ->
     em_decode_latent nm ns ms ecd net2 s enc2 use m s0 (e_strings st) h w c = Ok dec).
  { intros net2 enc2 use m s0 DM. unfold em_decode_latent. rewrite Ef. cbn [bind].
    rewrite (DEC _ _ _ _ _ DM). cbn [bind]. rewrite Sf. cbn [nth]. fold q. rewrite EU. reflexivity. }
  exists dec, (e_strings st), (e_means st), (e_scales st), p, (e_quant st).
  split.
  { unfold em_compress. rewrite Sl. cbn [Nat.eqb negb]. rewrite Ep. cbn [bind]. rewrite E1. cbn [bind].
    rewrite DL by (repeat split; auto; discriminate). cbn [bind]. rewrite Sp. cbn [nth]. fold q. rewrite EU. cbn [bind].
    fold dec. rewrite all_equal_refl. reflexivity. }
  split; [exact E2|]. split; [unfold dec; cbn [tshape]; rewrite !Nat.min_l by lia; reflexivity|]. split.
  - intros ci y x Hci Hy Hx.
    pose proof (Nat.div_mod y s ltac:(lia)) as DY. pose proof (Nat.mod_upper_bound y s ltac:(lia)) as MY.
    pose proof (Nat.div_mod x s ltac:(lia)) as DX. pose proof (Nat.mod_upper_bound x s ltac:(lia)) as MX.
    set (i := y / s) in *. set (u := y mod s) in *. set (j := x / s) in *. set (v := x mod s) in *.
    assert (I : i < nh) by nia. assert (J : j < nw) by nia.
    replace y with (i * s + u) by lia. replace x with (j * s + v) by lia.
    cbn [dec tat]. rewrite (VU 0 ci i j u v) by lia. unfold q. cbn [of_tokens tat].
    assert (UV : u * s + v < s * s) by nia. rewrite (E3 _ UV).
    assert (IJ : (0 * nh + i) * nw + j < nh * nw) by nia.
    assert (KK : ((0 * nh + i) * nw + j) * c + ci < nh * nw * c) by nia.
    assert (LM : length (nth (u * s + v) (e_means st) []) = nh * nw * c) by (apply (Forall_nth_lt (fun t => length t = nh * nw * c)); [exact W6|lia]).
    assert (LP : length (nth (u * s + v) (tokens_of p) []) = nh * nw * c) by (apply (Forall_nth_lt (fun t => length t = nh * nw * c)); [exact Wp|lia]).
    rewrite (nth_map2 _ _ _ _ 0%R 0%R) by (rewrite ?LP, ?LM; auto).
    rewrite (tokens_nth p _ _ _ _ _ _ Sp) by (rewrite ?N1; assumption).
    rewrite Vp by lia. unfold padded. rewrite !pad_src_in by lia.
    reflexivity.
  - split; [eauto|]. split; [intros k Hk; apply (predicted_iff net (s * s) (nh * nw * c)); auto|]. split; [exact E3|]. split.
    + intros m' s' Lm Ls. apply DL. repeat split; auto; discriminate.
    + intros net' enc' NS'. apply DL. repeat split; auto; discriminate.
Qed.
Print Assumptions em_latent_round_trip.

(** With a causal network, the means and scales used for coding are those of one run of
    the network on all quantised tokens (as the likelihood estimate does). *)
Theorem em_causal_one_shot : forall {E D} (net : @net_type E D) L enc latent quant means scales j,
  causal net L -> length latent = L -> length quant = L -> j < L ->
  predicted_so_far net enc latent quant means scales j ->
  let '(m, s, _) := net enc quant in nth j means [] = nth j m [] /\ nth j scales [] = nth j s [].
Proof.
  intros E D net L enc latent quant means scales j C LL LQ Hj P. unfold predicted_so_far in P.
  set (t := firstn j quant ++ map (map (fun _ => 10%R)) (skipn j latent)) in *.
  assert (Lt : length t = L) by (unfold t; rewrite app_length, firstn_length, map_length, skipn_length; lia).
  assert (F : firstn j t = firstn j quant).
  { unfold t. rewrite firstn_app, firstn_firstn, firstn_length, Nat.min_id, Nat.min_l by lia. rewrite Nat.sub_diag. apply app_nil_r. }
  pose proof (C enc t quant j Lt LQ Hj F) as K.
  destruct (net enc t) as [[m s] o], (net enc quant) as [[m2 s2] o2]. destruct P as [-> ->], K as (K1 & K2 & _).
  assert (N : forall (a b : list token), nth_error a j = nth_error b j -> nth j a [] = nth j b []).
  { intros a b H.  destruct (nth_error b j) as [x|] eqn:Q.
    - rewrite (nth_error_nth _ _ _ H), (nth_error_nth _ _ _ Q). reflexivity.
    - apply nth_error_None in H, Q. now rewrite !nth_overflow by assumption. }
  split; apply N; assumption.
Qed.
Print Assumptions em_causal_one_shot.

(** A coder, a network and a latent that meet the hypotheses: the network predicts, for
    every token, the previous token (cut to 2^22) as the mean, and the scale 0. *)
Definition ex_cut (x : R) : R := Rmax (-4194304) (Rmin x 4194304).
Definition ex_net (w : nat) : @net_type unit R := fun _ toks =>
  (map (map ex_cut) (firstn (length toks) (repeat 3%R w :: toks)), repeat (repeat 0%R w) (length toks), repeat 0%R (length toks)).
Lemma Forall_repeat {A} (P : A -> Prop) a n : P a -> Forall P (repeat a n).
Proof. intro H. induction n; cbn; constructor; auto. Qed.
Lemma Forall_firstn {A} (P : A -> Prop) n l : Forall P l -> Forall P (firstn n l).
Proof. intro H. revert n. induction H; intros [|n]; cbn; constructor; auto. Qed.
Example em_ex_net : forall L w, net_shape (ex_net w) L w /\ bounded_means (ex_net w) /\ causal (ex_net w) L.
Proof.
  intros L w. split; [|split].
  - intros [] toks HL HW. cbn. rewrite map_length, firstn_length, !repeat_length. cbn [length].
    split; [lia|]. split; [exact HL|]. split; [exact HL|]. split; [|apply Forall_repeat, repeat_length].
    apply Forall_map. apply Forall_firstn. constructor.
    + now rewrite map_length, repeat_length.
    + apply Forall_forall. intros t Ht. rewrite map_length. rewrite Forall_forall in HW. auto.
  - intros [] toks means scales outs E. injection E as <- _ _. apply Forall_map, Forall_forall. intros t _.
    apply Forall_map, Forall_forall. intros x _. unfold ex_cut.
    apply Rabs_le. split; [apply Rmax_l|]. apply Rmax_lub; [lra|apply Rmin_r].
  - intros [] t1 t2 i L1 L2 Hi F. cbn. rewrite L1, L2. split; [|split; reflexivity].
    rewrite !nth_error_map. f_equal.
    assert (K : forall t : list token, nth_error (firstn L (repeat 3%R w :: t)) i = nth_error (repeat 3%R w :: firstn i t) i).
    { intro t.
      assert (G : forall (A : Type) (n k : nat) (l : list A), k < n -> nth_error (firstn n l) k = nth_error l k).
      { clear. intros A n. induction n as [|n IH]; intros k l H; [lia|]. destruct l, k; cbn; try reflexivity. apply IH. lia. }
      rewrite G by exact Hi. destruct i as [|i]; [reflexivity|]. cbn [nth_error]. symmetry. apply G. lia. }
    rewrite !K, F. reflexivity.
Qed.
Example em_ex_coder : lossless_coder (fun s _ => Ok s) (fun b _ => Ok b) (100 * 256) (fun z => (Z.abs z <= 2 ^ 24)%Z) /\
  paddable Reflect 4 0 6 7 /\ blocks 4 6 2 /\ blocks 4 7 2 /\
  let latent := mkT [1; 2; 6; 7] (fun i => IZR (Z.of_nat (Nat.modulo (nth 3 i 0) 5))) in
  tshape latent = [1; 2; 6; 7] /\ bounded_tensor latent.
Proof.
  split; [intros syms idx _ _ _; exists syms; split; reflexivity|]. split; [apply patch_paddable_ex|].
  split; [unfold blocks; lia|]. split; [unfold blocks; lia|]. intro latent. split; [reflexivity|].
  intro i. cbn [latent tat]. pose proof (Nat.mod_upper_bound (nth 3 i 0) 5 ltac:(lia)) as B.
  revert B. generalize (nth 3 i 0 mod 5) as k. intros k B.
  assert (H : (0 <= Z.of_nat k <= 5)%Z) by lia. destruct H as [H1 H2]. apply IZR_le in H1, H2.
  rewrite Rabs_pos_eq by exact H1. lra.
Qed.

(** The check inside compress is sound for every entropy coder and network, faulty ones
    included: a result that is returned is what the decoder makes of the strings, and it is
    the encoder's own reconstruction in every entry. *)
Theorem em_self_check : forall nm ns ms {B E D} (ec_compress : list Z -> list Z -> res B) ec_decompress
    (net : @net_type E D) enc fo s c h w (latent decoded : tensor R) strings means scales,
  tshape latent = [1; c; h; w] ->
  em_compress nm ns ms ec_compress ec_decompress net fo s enc latent true = Ok (decoded, strings, (means, scales)) ->
  em_decode_latent nm ns ms ec_decompress net s enc true means scales strings h w c = Ok decoded /\
  exists patches n st own, forward s Reflect latent s = Ok (patches, n) /\
    em_encode nm ns ms ec_compress net fo enc (tokens_of patches) (s * s) = Ok st /\ e_strings st = strings /\
    unpatch s (of_tokens (nth 0 (tshape patches) 0) (s * s) c (e_quant st), n) (Some (h, w)) true = Ok own /\
    tshape decoded = tshape own /\ forall k, k < prod (tshape own) -> tat decoded (unravel (tshape own) k) = tat own (unravel (tshape own) k).
Proof.
  intros nm ns ms B E D ecc ecd net enc fo s c h w latent decoded strings means scales SH H.
  unfold em_compress in H. rewrite SH in H. cbn [Nat.eqb negb] in H.
  destruct (forward s Reflect latent s) as [[p n]|] eqn:EF; [|discriminate]. cbn [bind] in H.
  destruct (em_encode nm ns ms ecc net fo enc (tokens_of p) (s * s)) as [st|] eqn:EE; [|discriminate]. cbn [bind] in H.
  destruct (em_decode_latent _ _ _ _ _ _ _ _ _ _ _ _ _ _) as [d|] eqn:ED; [|discriminate]. cbn [bind] in H.
  destruct (unpatch _ _ _ _) as [o|] eqn:EU; [|discriminate]. cbn [bind] in H.
  destruct (all_equal d o) eqn:EQ; [|discriminate]. injection H as <- <- <- <-. split; [exact ED|].
  exists p, n, st, o. repeat split; try assumption; unfold all_equal in EQ.
  - destruct (list_eq_dec Nat.eq_dec (tshape d) (tshape o)); [assumption|discriminate].
  - destruct (list_eq_dec Nat.eq_dec (tshape d) (tshape o)) as [S|]; [|discriminate]. intros k K.
    rewrite forallb_forall in EQ. specialize (EQ k). rewrite S in EQ. specialize (EQ ltac:(apply in_seq; lia)).
    destruct (Req_EM_T _ _) as [R|]; [exact R|discriminate].
Qed.
Print Assumptions em_self_check.

(** Only a single latent [1, c, h, w] can be compressed. *)
Theorem em_one_latent_only : forall nm ns ms {B E D} (ec_compress : list Z -> list Z -> res B) ec_decompress
    (net : @net_type E D) enc fo s (latent : tensor R) run_decode,
  (forall c h w, tshape latent <> [1; c; h; w]) ->
  em_compress nm ns ms ec_compress ec_decompress net fo s enc latent run_decode =
    Raise (if length (tshape latent) =? 4 then AssertionError else ValueError).
Proof.
  intros nm ns ms B E D ecc ecd net enc fo s latent rd H. unfold em_compress.
  destruct (tshape latent) as [|b [|c [|h [|w [|x l]]]]]; try reflexivity. cbn [length Nat.eqb].
  destruct b as [|[|b]]; try reflexivity. exfalso. now apply (H c h w).
Qed.
Print Assumptions em_one_latent_only.

(** * The context of the entropy model *)
(** With one to [context_len] previous latents the context has [context_len] of them: the given ones in
    order, and the first of them as often as needed in front. *)
Theorem em_context : forall {E} n (a : E) l, n = 2 \/ n = 3 -> length (a :: l) <= n ->
  get_encoded_seqs n (a :: l) = Ok (repeat a (n - length (a :: l)) ++ a :: l).
Proof.
  intros E n a l [->| ->] H.
  - destruct l as [|b [|c l]]; [reflexivity|reflexivity|cbn in H; lia].
  - destruct l as [|b [|c [|d l]]]; [reflexivity|reflexivity|reflexivity|cbn in H; lia].
Qed.
(** Known deviations: another context length, for which an error is written but not raised, gets a context that
    is too short; without previous latents the context is empty (length 2) or an IndexError (length 3). *)
Theorem em_context_refuted : forall {E},
  (forall n (l : list E), 4 <= n -> length l < n -> get_encoded_seqs n l = Ok l) /\
  @get_encoded_seqs E 2 [] = Ok [] /\ @get_encoded_seqs E 3 [] = Raise IndexError.
Proof.
  intro E. split; [|split; reflexivity]. intros n l N H. unfold get_encoded_seqs.
  destruct (length l <? n); [|reflexivity]. destruct (Nat.eqb_spec n 2); [lia|]. destruct (Nat.eqb_spec n 3); [lia|reflexivity].
Qed.
Example em_context_ex : get_encoded_seqs 3 [1; 2] = Ok [1; 1; 2] /\ get_encoded_seqs 2 [7] = Ok [7; 7].
Proof. split; reflexivity. Qed.
Print Assumptions em_context.
Print Assumptions em_context_refuted.

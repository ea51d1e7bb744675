(** The default rANS codec: steps of the abstract machine, and what can be read
    off the length of an encoded buffer. *)
From Coq Require Import ZArith List Bool Lia.
From Verif Require Import Base Rans_Model Rans_Spec Rans_Sort Rans_Lane Rans_Stack
  Rans_Refine Rans_Serial Rans_Coder.
Import ListNotations.
Open Scope Z_scope.

Lemma slice_ok_clamp : slice_ok ns_clamp.
Proof. unfold slice_ok, ns_clamp. intros; lia. Qed.

Lemma slice_ok_wrap : slice_ok ns_wrap.
Proof.
  unfold slice_ok, ns_wrap, ns_clamp. intros start len size H.
  destruct (Z.ltb_spec start 0); lia.
Qed.

(** Heads and pointer, without any claim about the bytes. *)
Definition wrep (cap : Z) (m : msg) (a : abs) : Prop :=
  heads m = fst a /\ ptr m + zlen (snd a) = cap /\ zlen (data m) = cap.

Section Codec.
Variable ns : Z -> Z -> Z -> Z.
Hypothesis Hns : slice_ok ns.

Lemma push_round_weak shift freqs hs limit d fl h' l' d' :
  map2 (fun h f => f <=? shr h shift) hs freqs = fl -> length fl = length hs ->
  push_round ns shift freqs hs limit d = Ok (h', l', d') ->
  h' = map2 shift_lane fl hs /\ l' = limit - count fl /\ length d' = length d /\
  (Forall is_byte d -> Forall is_byte d').
Proof.
  intros HF HL. unfold push_round. rewrite HF. unfold tail_push, dynamic_update_slice.
  set (upd := sort_key_val (map b2z fl) (map u8 hs)).
  destruct (Nat.ltb_spec (length d) (length upd)) as [|K]; [discriminate|].
  cbn [bind]. intro E. injection E as <- <- <-.
  rewrite where_shift by lia. split; [reflexivity|]. split; [reflexivity|].
  destruct (Hns (limit - zlen (map u8 hs)) (zlen d) (zlen upd)) as [B _];
    [unfold zlen; lia|]. split.
  - unfold zlen in *. rewrite !app_length, skipn_length.
    rewrite firstn_length_le by lia. lia.
  - intro HB. rewrite !Forall_app. repeat split;
      try apply Forall_firstn; try apply Forall_skipn; try easy.
    unfold upd. rewrite sort_flags by (rewrite map_length; lia). apply Forall_app.
    assert (HU : Forall is_byte (map u8 hs)).
    { apply Forall_forall. intros x Hx. apply in_map_iff in Hx as (y & <- & _).
      apply u8_byte. }
    split; (eapply incl_Forall; [apply sel_sub | exact HU]).
Qed.

Lemma push_symbols_heads n p lo hi m a m' : heads m = fst a -> good n a ->
  intervals p lo hi -> length lo = n -> 0 <= p <= 24 ->
  push_symbols ns m lo hi p = Ok m' ->
  heads m' = fst (apush p lo hi a) /\
  ptr m' = ptr m - (zlen (snd (apush p lo hi a)) - zlen (snd a)) /\
  length (data m') = length (data m) /\
  (Forall is_byte (data m) -> Forall is_byte (data m')).
Proof.
  intros HH G Hi HL Hp.
  destruct a as [hs st]. destruct G as (G1 & G2 & G3). cbn [fst snd] in *.
  destruct (intervals_freqs _ _ _ Hi) as [FL FF].
  unfold push_symbols. rewrite (freqs_u32 p) by easy.
  set (fs := freqs_of lo hi) in *.
  destruct (stage_eq p fs hs ltac:(lia) Hp FF G2)
    as (S1 & S2 & S3 & S4 & S5 & S6 & N0 & N1 & N2).
  pose proof (mln_len ln1 p fs hs ltac:(lia)) as L1.
  pose proof (mln_len ln2 p fs hs ltac:(lia)) as L2.
  pose proof (mln_len ln3 p fs hs ltac:(lia)) as L3.
  pose proof (obytes_len (mln ln1 p fs hs) hs ltac:(lia)) as B1.
  pose proof (obytes_len (mln ln2 p fs hs) (mln ln1 p fs hs) ltac:(lia)) as B2.
  pose proof (obytes_len (mln ln3 p fs hs) (mln ln2 p fs hs) ltac:(lia)) as B3.
  rewrite HH.
  destruct (push_round ns (2 * TAIL_PRECISION + HEAD_PRECISION - p) fs hs (ptr m) (data m))
    as [[[h1 l1] d1]|] eqn:E1; [|discriminate].
  apply (push_round_weak _ _ _ _ _ (map ltN (mln ln1 p fs hs))) in E1 as (-> & -> & D1 & Y1);
    [| rewrite flags_eq by (try easy; lia); exact S1 | rewrite map_length; lia].
  cbn [bind]. rewrite S4.
  destruct (push_round ns (1 * TAIL_PRECISION + HEAD_PRECISION - p) fs _ _ d1)
    as [[[h2 l2] d2]|] eqn:E2; [|discriminate].
  apply (push_round_weak _ _ _ _ _ (map ltN (mln ln2 p fs hs))) in E2 as (-> & -> & D2 & Y2);
    [| rewrite flags_eq by (try easy; lia); exact S2 | rewrite map_length; lia].
  cbn [bind]. rewrite S5.
  destruct (push_round ns (HEAD_PRECISION - p) fs _ _ d2)
    as [[[h3 l3] d3]|] eqn:E3; [|discriminate].
  apply (push_round_weak _ _ _ _ _ (map ltN (mln ln3 p fs hs))) in E3 as (-> & -> & D3 & Y3);
    [| rewrite <- S3; rewrite <- (flags_eq p fs 0) by (try easy; lia); reflexivity
     | rewrite map_length; lia].
  cbn [bind]. rewrite S6. intro E; injection E as <-.
  cbn [heads ptr data fst snd].
  assert (EW : map3 (fun h f lo => u32 (u32 (udiv h f * 2 ^ p) + umod h f + lo))
                 (mln ln3 p fs hs) fs lo = map3 (word p) (mln ln3 p fs hs) fs lo).
  { clear - Hi HL Hp G1 G2. unfold fs. clear fs.
    unfold map3, mln, freqs_of. revert n hs G1 G2 HL.
    induction Hi as [|l h lo hi H _ IH]; intros n [|x hs] G1 G2 HL; cbn [map2];
      try easy.
    inversion G2 as [|? ? Hh1 Hh2]; subst.
    rewrite (IH (length hs)) by (cbn in HL; try easy; lia). f_equal.
    set (t := thr p (h - l)).
    assert (Ht : thr_ok t) by (apply thr_bound; lia).
    destruct (lane_push t x Ht (head_bounds _ Hh1)) as (A & _).
    destruct (word_push (h - l) p l h (ln3 t x)) as (B1 & B2 & _);
      try lia; [exact A|].
    unfold word, udiv, umod. destruct (Z.eqb_spec (h - l) 0); [lia|].
    assert (0 <= ln3 t x / (h - l) * 2 ^ p).
    { apply Z.mul_nonneg_nonneg; [apply Z.div_pos; unfold thr_ok in Ht; lia | lia]. }
    unfold u32. rewrite (Z.mod_small (ln3 t x / (h - l) * 2 ^ p)) by lia.
    apply Z.mod_small. lia. }
  split; [exact EW|]. unfold apush. fold fs. cbn [snd]. rewrite !zlen_app.
  rewrite !count_countn. unfold zlen in *. split; [lia|]. split; [lia|]. auto.
Qed.

Lemma push_symbols_weak cap n p lo hi m a m' : wrep cap m a -> good n a ->
  intervals p lo hi -> length lo = n -> 0 <= p <= 24 ->
  push_symbols ns m lo hi p = Ok m' -> wrep cap m' (apush p lo hi a).
Proof.
  intros (HH & HP & HD) G Hi HL Hp E.
  destruct (push_symbols_heads n p lo hi m a m' HH G Hi HL Hp E) as (A & B & C & _).
  unfold wrep, zlen in *. repeat split; [easy | lia | lia].
Qed.

Context {St : Type}.
Variable cdf_fun : list Z -> St -> list Z * list Z * St.
Variable inv_fun : list Z -> St -> list Z * list Z * list Z * St.
Variables (s0 : St) (p : Z) (allow : bool) (n : nat).
Hypothesis Hp : 0 <= p <= 24.

Let c := default_rans_codec ns cdf_fun inv_fun s0 p allow.

(** Push and pop of the default codec on the abstract machine. *)
Lemma default_push_rep lo hi r se se' cap m a :
  cdf_fun r se = (lo, hi, se') -> length lo = n -> intervals p lo hi -> good n a ->
  rep cap m a -> Z.of_nat n + zlen (snd (apush p lo hi a)) <= cap ->
  exists m', c_push c r m se = Ok (m', se') /\ rep cap m' (apush p lo hi a).
Proof.
  intros E HL Hi G HR HC. cbn [c c_push default_rans_codec]. rewrite E.
  destruct (push_symbols_rep ns Hns cap n p lo hi m a HR G Hi HL Hp HC) as (m' & -> & R).
  cbn [bind]. eauto.
Qed.

Lemma default_pop_rep lo hi r sd sd' cap m a b al :
  inv_fun (apeek p (fst a)) sd = (lo, hi, r, sd') -> length lo = n -> intervals p lo hi ->
  inside (apeek p (fst a)) lo hi -> apop p lo hi a = Some b -> good n a ->
  rep cap m a -> Z.of_nat n + zlen (snd a) <= cap ->
  exists m', c_pop c al m sd = Ok (m', r, sd') /\ rep cap m' b.
Proof.
  intros E HL Hi Hn HA G HR HC. cbn [c c_pop default_rans_codec].
  assert (EP : peek m p = apeek p (fst a)).
  { destruct HR as [HH _]. rewrite <- HH. apply peek_rep; [|exact Hp]. rewrite HH. apply G. }
  rewrite EP, E.
  destruct (pop_symbols_rep ns Hns cap n p lo hi m a b al HR G Hi HL Hp Hn HA HC)
    as (m' & -> & R). cbn [bind]. eauto.
Qed.

Lemma codable_step r se se' sd sd' b : codable cdf_fun inv_fun n p r se se' sd sd' ->
  good n b -> exists lo hi, cdf_fun r se = (lo, hi, se') /\ intervals p lo hi /\
  length lo = n /\ step c n r se se' sd sd' b (apush p lo hi b).
Proof.
  intros (lo & hi & E & HL & Hi & HI) G. exists lo, hi. repeat (split; [easy|]).
  destruct (apush_good n p lo hi b G Hi HL Hp) as (GA & GI & GS).
  split; [exact GA|]. intros cap C1 C2. split; intros m HR.
  - apply (default_push_rep lo hi r se se' cap m b); auto.
  - apply (default_pop_rep lo hi r sd sd' cap m (apush p lo hi b) b); auto.
    now apply (apop_apush n).
Qed.

Lemma run_mono D D' rows se se' sd sd' b a : D <= D' ->
  run c n D rows se se' sd sd' b a -> run c n D' rows se se' sd sd' b a.
Proof.
  intros HD. induction 1 as [|r rows se se1 se2 sd sd1 sd2 b m a H IH HS HD'].
  - constructor; [easy | lia].
  - econstructor; [exact IH | exact HS | lia].
Qed.

Lemma codable_run rows se se' sd sd' b :
  codable_message cdf_fun inv_fun n p rows se se' sd sd' -> good n b ->
  exists a, run c n (zlen (snd a)) rows se se' sd sd' b a /\
    (length (snd b) <= length (snd a) <= length (snd b) + 3 * n * length rows)%nat /\
    (forall cap m m' s, wrep cap m b -> push_rows c (rev rows) m se = Ok (m', s) ->
       wrep cap m' a /\ s = se').
Proof.
  induction 1 as [se sd | row rows se se1 se2 sd sd1 sd2 H IH HC]; intro G.
  - exists b. split; [|split].
    + constructor; [easy | lia].
    + lia.
    + intros cap m m' s HW E. cbn in E. injection E as <- <-. easy.
  - destruct (IH G) as (a & HR & HL & HW).
    destruct (run_good _ _ _ _ _ _ _ _ _ _ HR) as (_ & GA & _ & _).
    destruct (codable_step _ _ _ _ _ a HC GA) as (lo & hi & EC & Hi & HLo & HS).
    destruct (apush_good n p lo hi a GA Hi HLo Hp) as (GA' & _ & GS).
    exists (apush p lo hi a). split; [|split].
    + econstructor; [|exact HS | lia]. eapply run_mono; [|exact HR]. unfold zlen. lia.
    + cbn [length]. lia.
    + intros cap m m' s HW0 E. cbn [rev] in E. rewrite push_rows_app in E.
      destruct (push_rows c (rev rows) m se) as [[m1 s1]|] eqn:E1; [|discriminate].
      destruct (HW _ _ _ _ HW0 E1) as [HW1 ->]. cbn [bind push_rows] in E.
      cbn [c c_push default_rans_codec] in E. rewrite EC in E.
      destruct (push_symbols ns m1 lo hi p) as [m2|] eqn:E2; [|discriminate].
      cbn [bind] in E. injection E as <- <-. split; [|reflexivity].
      eapply push_symbols_weak; eauto.
Qed.

(** The room condition, read off the length of the result. *)
Lemma truncate_len cap m a out : wrep cap m a -> length (fst a) = n -> (1 <= n)%nat ->
  truncate_buffer (fst (craymessage_to_array m)) (n * 4) (snd (craymessage_to_array m))
    = Ok out -> zlen out = 4 * Z.of_nat n + 1 + zlen (snd a) /\ zlen (snd a) <= cap.
Proof.
  intros (H1 & H2 & H3) HL Hn. rewrite c2a_ser. cbn [fst snd]. rewrite H1.
  unfold truncate_buffer, zlen in *. pose proof (ser_len (fst a)) as SL.
  destruct (Z.ltb_spec (Z.of_nat (length (fst a)) * 4 + ptr m - Z.of_nat (n * 4)) 0);
    [discriminate|].
  intro E; injection E as <-. rewrite app_length, skipn_length, app_length.
  rewrite firstn_length_le by (rewrite app_length; lia). lia.
Qed.

End Codec.

(** The bits-back codec, with enough initial bits or with pops from an empty
    stack. *)
From Coq Require Import ZArith List Bool Lia.
From Verif Require Import Base Rans_Model Rans_Spec Rans_Sort Rans_Lane Rans_Stack
  Rans_Refine Rans_Serial Rans_Coder Rans_Codec Rans_Top Rans_SpecBB.
Import ListNotations.
Open Scope Z_scope.

(** ** Encode and decode from a simulation of the row loops *)

Section Sim.
Context {St : Type}.
Variable c : codec St.
Variable n : nat.
Hypothesis Hn : (1 <= n)%nat.

Lemma encode_sim (P : abs -> Prop) cap rnd rows se se' start : tail_filler rnd ->
  start_ok n start -> zlen (start_buffer n start) - 4 * Z.of_nat n <= cap ->
  (forall m, rep cap m (abs_of_buffer n (start_buffer n start)) ->
     exists m' a, push_rows c (rev rows) m se = Ok (m', se') /\ rep cap m' a /\ good n a /\
       zlen (snd a) + 1 <= cap /\ P a) ->
  exists a j, is_byte j /\ good n a /\ P a /\
    encode_one c n cap rnd start rows se = Ok (ser (fst a) ++ j :: snd a, se').
Proof.
  intros HF HS Hcap H.
  assert (K : exists buf lim m0, 
     match start with
     | None => Ok (fst (craymessage_to_array (empty_message n cap rnd)), cap)
     | Some b => do (b', l) <- insert_zeros b n cap; Ok (b', l - 1)
     end = Ok (buf, lim) /\ m0 = array_to_craymessage buf n lim /\
     rep cap m0 (abs_of_buffer n (start_buffer n start))).
  { destruct start as [b|]; cbn [start_buffer start_ok] in *.
    - destruct (abs_of_buffer_good n b HS) as [(G1 & G2 & G3) E].
      destruct (start_some_rep n cap _ _ G1 G2 G3) as (b' & EI & R0).
      { destruct HS as (_ & HS & _). unfold abs_of_buffer, zlen in *. cbn [snd].
        rewrite skipn_length. lia. }
      rewrite <- E in EI. rewrite EI. cbn [bind]. do 3 eexists. split; [reflexivity|].
      split; [reflexivity|]. rewrite Z.add_simpl_r. destruct (abs_of_buffer n b). exact R0.
    - assert (Hc0 : 0 <= cap).
      { unfold zlen, fresh_buffer in Hcap. rewrite app_length, !repeat_length in Hcap. lia. }
      destruct (HF cap Hc0) as [F1 F2].
      do 3 eexists. split; [reflexivity|]. split; [reflexivity|].
      rewrite fresh_abs by exact Hn. rewrite c2a_ser. cbn [fst heads data empty_message ptr].
      assert (EA : array_to_craymessage (ser (repeat HEAD_MIN n) ++ rnd cap) n cap
                   = mk_msg (repeat HEAD_MIN n) cap (rnd cap)).
      { rewrite <- (repeat_length HEAD_MIN n) at 2. apply a2c_ser. apply head_u32.
        apply head_min_good. }
      rewrite EA. split; [reflexivity|]. cbn [ptr data snd]. unfold tail_rep.
      repeat split; try easy.
      + apply skipn_all2. unfold zlen in F1. lia.
      + unfold zlen; cbn; lia. }
  destruct K as (buf & lim & m0 & E0 & -> & R0). unfold encode_one. rewrite E0. cbn [bind].
  unfold jax_encode. destruct (H _ R0) as (m' & a & EP & R1 & GA & HC & HP).
  rewrite EP. cbn [bind]. rewrite c2a_pair.
  destruct (truncate_rep n cap m' a R1) as (j & Hj & ET).
  - apply GA.
  - rewrite (rep_ptr _ _ _ R1). lia.
  - rewrite ET. cbn [bind]. eauto 10.
Qed.

Lemma decode_sim cap rows sd sd' a b j : is_byte j -> good n a -> good n b ->
  zlen (snd a) + 1 <= cap ->
  (forall m, rep cap m a ->
     exists m', pop_rows c (length rows) m sd = Ok (m', rows, sd') /\ rep cap m' b) ->
  decode_one c (length rows) n cap (ser (fst a) ++ j :: snd a) sd
  = Ok (rows, ser (fst b) ++ snd b, sd').
Proof.
  intros Hj GA GB HC H.
  destruct GA as (A1 & A2 & A3).
  destruct (start_some_rep n cap (fst a) (j :: snd a) A1 A2) as (b' & EI & R0).
  { now constructor. }
  { unfold zlen in *. cbn [length]. lia. }
  unfold decode_one. rewrite EI. cbn [bind].
  assert (R1 : rep cap (array_to_craymessage b' n (cap - zlen (j :: snd a) + 1)) a).
  { destruct R0 as [H0 (T1 & T2 & T3 & T4 & T5)]. cbn [fst snd] in *.
    unfold array_to_craymessage in *. cbn [heads ptr data] in *.
    split; cbn [heads ptr data]; [easy|]. unfold tail_rep, zlen in *. cbn [length] in *.
    repeat split; try easy; try lia.
    replace (Z.to_nat (cap - Z.of_nat (S (length (snd a))) + 1))
      with (Z.to_nat (cap - Z.of_nat (S (length (snd a)))) + 1)%nat by lia.
    rewrite skipn_add, T3. reflexivity. }
  unfold jax_decode.
  destruct (H _ R1) as (m' & -> & R2).
  cbn [bind]. rewrite c2a_ser. cbn [bind].
  destruct R2 as [H0 (T1 & T2 & T3 & T4 & T5)]. rewrite H0.
  pose proof (ser_len (fst b)) as SL. destruct GB as (B1 & B2 & B3).
  unfold zlen in *.
  f_equal. f_equal. f_equal. f_equal.
  - rewrite firstn_app. replace (n * 4 - length (ser (fst b)))%nat with 0%nat by lia.
    rewrite firstn_O, app_nil_r. apply firstn_all2. lia.
  - replace (Z.to_nat (Z.of_nat (length (fst b)) * 4 + ptr m' + 1 - 1))
      with (length (ser (fst b)) + Z.to_nat (ptr m'))%nat by lia.
    rewrite skipn_add, skipn_app, skipn_all, Nat.sub_diag. cbn [app skipn]. exact T3.
Qed.
End Sim.

(** ** Pops that may find the stack empty *)

Section Dry.
Variable ns : Z -> Z -> Z -> Z.
Hypothesis Hns : slice_ok ns.

Lemma around_count hs st hs' st' : around hs st = Some (hs', st') ->
  length st = (countn (map ltN hs) + length st')%nat.
Proof.
  unfold around. destruct (Nat.leb_spec (countn (map ltN hs)) (length st)); [|discriminate].
  intro E; injection E as <- <-. rewrite skipn_length. lia.
Qed.

(** A round on an empty stack reads the last bytes of the array. *)
Lemma pop_round_empty cap hs d : tail_rep cap cap d [] ->
  Forall (fun h => 0 <= h) hs -> zlen hs <= cap ->
  exists J hs', length J = countn (map ltN hs) /\ Forall is_byte J /\
    around hs J = Some (hs', []) /\ pop_round ns true hs cap d = Ok (hs', cap, d).
Proof.
  intros (T1 & T2 & T3 & T4 & T5) Hp HR.
  set (c := countn (map ltN hs)).
  pose proof (countn_le (map ltN hs)) as HC. rewrite map_length in HC. fold c in HC.
  set (J := skipn (Z.to_nat (cap - Z.of_nat c)) d).
  assert (LJ : length J = c) by (unfold J; rewrite skipn_length; unfold zlen in *; lia).
  assert (BJ : Forall is_byte J) by (now apply Forall_skipn).
  assert (AJ : around hs J = Some (fill hs J, [])).
  { unfold around. fold c. rewrite LJ, Nat.leb_refl. rewrite <- LJ, firstn_all, skipn_all.
    reflexivity. }
  exists J, (fill hs J). split; [easy|]. split; [easy|]. split; [easy|].
  assert (R : tail_rep cap (cap - Z.of_nat c) d J).
  { unfold tail_rep, zlen in *. repeat split; try easy; lia. }
  unfold pop_round. change (fun h => h <? HEAD_MIN) with ltN.
  assert (E1 : tail_pop ns cap d (map ltN hs) true
               = tail_pop ns (cap - Z.of_nat c) d (map ltN hs) false).
  { unfold tail_pop. cbv zeta. rewrite count_countn. fold c.
    replace (Z.min (Z.max (cap + Z.of_nat c) 0) (zlen d)) with cap by lia.
    now replace (cap - Z.of_nat c + Z.of_nat c) with cap by lia. }
  rewrite E1.
  assert (X : exists A, length A = (length (map ltN hs) - c)%nat /\
      tail_pop ns (cap - Z.of_nat c) d (map ltN hs) false = Ok (cap, merge (map ltN hs) A J)).
  { unfold tail_pop, dynamic_slice. rewrite count_countn. fold c.
    replace (cap - Z.of_nat c + Z.of_nat c) with cap by lia.
    rewrite map_length. unfold zlen in *.
    destruct (Nat.ltb_spec (length d) (length hs)) as [K|K]; [lia|].
    rewrite (ns_id ns _ _ _ Hns) by lia. cbn [bind].
    set (s := Z.to_nat (cap - Z.of_nat (length hs))).
    set (A := firstn (length hs - c) (skipn s d)).
    assert (HA : length A = (length hs - c)%nat).
    { unfold A. apply firstn_length_le. rewrite skipn_length. lia. }
    exists A. split; [easy|].
    assert (ES : skipn s d = A ++ J).
    { unfold A, J.
      replace (Z.to_nat (cap - Z.of_nat c)) with (s + (length hs - c))%nat by lia.
      now rewrite skipn_add, firstn_skipn. }
    rewrite ES. rewrite firstn_all2 by (rewrite app_length; lia).
    rewrite <- (map_length ltN hs). rewrite unsort; [reflexivity | | exact LJ].
    rewrite map_length. exact HA. }
  destruct X as (A & HA & ->). cbn [bind]. rewrite pop_fill; [reflexivity|easy|exact LJ|easy].
Qed.

(** One round with enough bytes, or on an empty stack. *)
Lemma pop_round_dry cap hs limit d st : tail_rep cap limit d st ->
  Forall (fun h => 0 <= h) hs -> zlen hs <= limit ->
  (countn (map ltN hs) <= length st)%nat \/ st = [] ->
  exists J hs' st' l', pop_round ns true hs limit d = Ok (hs', l', d) /\
    tail_rep cap l' d st' /\ limit <= l' /\ Forall is_byte J /\
    around hs (st ++ J) = Some (hs', st') /\ (length J <= length hs)%nat /\
    (st = [] -> st' = []) /\ (length st' <= length st)%nat /\ length hs' = length hs.
Proof.
  intros HT Hp HR HC. pose proof (bytes_of_rep _ _ _ _ HT) as HB.
  pose proof (countn_le (map ltN hs)) as HCL. rewrite map_length in HCL.
  destruct (Nat.leb_spec (countn (map ltN hs)) (length st)) as [K|K].
  - destruct (around hs st) as [[hs' st']|] eqn:E.
    2:{ unfold around in E. apply Nat.leb_le in K. rewrite K in E. discriminate. }
    destruct (pop_round_rep ns Hns cap hs limit d st hs' st' true HT HB Hp E HR)
      as (l' & E1 & R1 & K1).
    pose proof (around_count _ _ _ _ E) as EC.
    destruct (around_nonneg _ _ _ _ HB Hp E) as (_ & _ & LN).
    exists [], hs', st', l'. rewrite app_nil_r. do 5 (split; [easy|]).
    split; [cbn; lia|]. split; [|split; [lia | easy]].
    intros ->. destruct st'; [easy | cbn in EC; lia].
  - destruct HC as [HC|HC]; [lia|]. subst st.
    assert (EL : limit = cap) by (destruct HT as (_ & _ & _ & T4 & _); unfold zlen in T4; cbn in T4; lia).
    subst limit.
    destruct (pop_round_empty cap hs d HT Hp HR) as (J & hs' & LJ & BJ & AJ & E).
    destruct (around_nonneg _ _ _ _ BJ Hp AJ) as (_ & _ & LN).
    exists J, hs', [], cap. do 2 (split; [easy|]). split; [lia|]. do 2 (split; [easy|]).
    split; [lia|]. easy.
Qed.

Theorem pop_symbols_dry cap n p lo hi m a : rep cap m a -> good n a ->
  intervals p lo hi -> length lo = n -> 0 <= p <= 24 ->
  inside (apeek p (fst a)) lo hi -> Z.of_nat n + zlen (snd a) <= cap ->
  n = 1%nat \/ snd a = [] ->
  exists m' b J, pop_symbols ns m (apeek p (fst a)) lo hi p true = Ok m' /\ rep cap m' b /\
    Forall is_byte J /\ (length J <= 3 * n)%nat /\ (length (snd b) <= length (snd a))%nat /\
    apop p lo hi (fst a, snd a ++ J) = Some b.
Proof.
  intros [HH HT] G Hi HL Hp Hn HR HD.
  destruct a as [zs st]. destruct G as (G1 & G2 & G3). cbn [fst snd] in *.
  destruct (intervals_freqs _ _ _ Hi) as [FL FF].
  unfold pop_symbols. rewrite (freqs_u32 p) by easy. rewrite HH.
  pose proof (unword_eq n p lo hi zs G1 G2 Hi HL Hp Hn) as EH.
  destruct EH as (-> & E2 & E3).
  set (h3 := map3 (unword p) zs (freqs_of lo hi) lo) in *.
  assert (HCN : forall hs (s : list Z), length hs = n -> n = 1%nat \/ s = [] ->
     (countn (map ltN hs) <= length s)%nat \/ s = []).
  { intros hs s HLh [->|HE]; [|now right]. pose proof (countn_le (map ltN hs)) as K.
    rewrite map_length, HLh in K. destruct s; [now right|]. left. cbn. lia. }
  assert (HD' : forall s s' : list Z, (s = [] -> s' = []) -> n = 1%nat \/ s = [] -> n = 1%nat \/ s' = []).
  { intros s s' Hs [X|X]; auto. }
  pose proof HT as (T1 & T2 & T3 & T4 & T5).
  destruct (pop_round_dry cap h3 (ptr m) (data m) st HT E2) as
    (J2 & h2 & s2 & l2 & -> & R2 & K2 & B2 & A2 & LJ2 & Z2 & M2 & N2);
    [unfold zlen in *; lia | apply HCN; [lia | easy] |]. cbn [bind].
  assert (P2 : Forall (fun h => 0 <= h) h2).
  { eapply (around_nonneg h3 (st ++ J2)); [|exact E2|exact A2]. apply Forall_app; easy. }
  pose proof (HD' _ _ Z2 HD) as D2.
  destruct (pop_round_dry cap h2 l2 (data m) s2 R2 P2) as
    (J1 & h1 & s1 & l1 & -> & R1 & K1 & B1 & A1 & LJ1 & Z1 & M1 & N1);
    [unfold zlen in *; lia | apply HCN; [lia | easy] |]. cbn [bind].
  assert (P1 : Forall (fun h => 0 <= h) h1).
  { eapply (around_nonneg h2 (s2 ++ J1)); [|exact P2|exact A1]. apply Forall_app.
    split; [eapply bytes_of_rep; exact R2 | easy]. }
  pose proof (HD' _ _ Z1 D2) as D1.
  destruct (pop_round_dry cap h1 l1 (data m) s1 R1 P1) as
    (J0 & h0 & s0 & l0 & -> & R0 & K0 & B0 & A0 & LJ0 & Z0 & M0 & N0);
    [unfold zlen in *; lia | apply HCN; [lia | easy] |]. cbn [bind].
  eexists _, (h0, s0), (J2 ++ J1 ++ J0). split; [reflexivity|].
  split; [split; [reflexivity | exact R0]|].
  split; [rewrite !Forall_app; easy|].
  split; [rewrite !app_length; lia|].
  split; [cbn [snd]; lia|].
  unfold apop. fold h3. rewrite !app_assoc.
  rewrite <- (app_assoc (st ++ J2)). rewrite (around_frame _ _ _ _ (J1 ++ J0) A2).
  rewrite app_assoc. rewrite (around_frame _ _ _ _ J0 A1). exact A0.
Qed.

End Dry.

(** ** The codec *)

Section BB.
Variable ns : Z -> Z -> Z -> Z.
Hypothesis Hns : slice_ok ns.
Context {S1 S2 S3 : Type}.
Variable n : nat.
Hypothesis Hn : (1 <= n)%nat.
(* prior *)
Variable cdf1 : list Z -> S1 -> list Z * list Z * S1.
Variable inv1 : list Z -> S1 -> list Z * list Z * list Z * S1.
Variables (s1 : S1) (p1 : Z) (al1 : bool).
(* posterior, given the symbols *)
Variable cdf2 : list Z -> list Z -> S2 -> list Z * list Z * S2.
Variable inv2 : list Z -> list Z -> S2 -> list Z * list Z * list Z * S2.
Variables (s2 : list Z -> S2) (p2 : Z) (al2 : bool).
(* likelihood, given the latents *)
Variable cdf3 : list Z -> list Z -> S3 -> list Z * list Z * S3.
Variable inv3 : list Z -> list Z -> S3 -> list Z * list Z * list Z * S3.
Variables (s3 : list Z -> S3) (p3 : Z) (al3 : bool).
Hypothesis Hp1 : 0 <= p1 <= 24.
Hypothesis Hp2 : 0 <= p2 <= 24.
Hypothesis Hp3 : 0 <= p3 <= 24.


Notation bb_post := (bb_post ns cdf2 inv2 s2 p2 al2).
Notation bb_obs := (bb_obs ns cdf3 inv3 s3 p3 al3).
Notation bb_prior := (bb_prior ns cdf1 inv1 s1 p1 al1).
Notation bb := (bb ns cdf1 inv1 s1 p1 al1 cdf2 inv2 s2 p2 al2 cdf3 inv3 s3 p3 al3).
Notation bb_codable := (bb_codable n cdf1 inv1 s1 p1 cdf2 inv2 s2 p2 cdf3 inv3 s3 p3).
Notation bb_pushes := (bb_pushes ns n cdf1 inv1 s1 p1 al1 cdf2 inv2 s2 p2 al2 cdf3 inv3 s3 p3 al3).

Lemma apeek_range p hs : 0 <= p -> Forall (fun x => 0 <= x < 2 ^ p) (apeek p hs).
Proof.
  intro Hp. apply Forall_forall. intros y Hy. unfold apeek in Hy.
  apply in_map_iff in Hy as (h & <- & _). apply Z.mod_pos_bound, Z.pow_pos_nonneg; lia.
Qed.

Lemma good_app a J : good n a -> Forall is_byte J -> good n (fst a, snd a ++ J).
Proof.
  intros (A & B & C) HJ. repeat split; cbn [fst snd]; [easy..|]. now apply Forall_app.
Qed.

(** Everything after the posterior pop, and the way back. *)
Lemma bb_core cap m b x lo hi z t1 t2 J b1 m1 : rep cap m b -> good n b ->
  inv2 x (apeek p2 (fst b)) (s2 x) = (lo, hi, z, t1) ->
  cdf2 x z (s2 x) = (lo, hi, t2) -> length lo = n -> intervals p2 lo hi ->
  inside (apeek p2 (fst b)) lo hi ->
  row_codable cdf1 inv1 n p1 s1 z -> row_codable (cdf3 z) (inv3 z) n p3 (s3 z) x ->
  Forall is_byte J ->
  apop p2 lo hi (fst b, snd b ++ J) = Some b1 -> rep cap m1 b1 ->
  c_pop (bb_post x) (c_allow (bb_post x)) m (c_state (bb_post x)) = Ok (m1, z, t1) ->
  exists a, good n a /\ (length (snd b1) <= length (snd a) <= length (snd b1) + 6 * n)%nat /\
    (length (snd b1) <= length (snd b) + length J)%nat /\
    (Z.of_nat n + zlen (snd a) <= cap ->
       exists m', c_push bb x m tt = Ok (m', tt) /\ rep cap m' a) /\
    (forall m' u, c_push bb x m tt = Ok (m', u) -> wrep cap m' a) /\
    (forall cap' E m2, Forall is_byte E -> rep cap' m2 (fst a, snd a ++ E) ->
       Z.of_nat n + zlen (snd a ++ E) <= cap' ->
       Z.of_nat n + zlen (snd b ++ J ++ E) <= cap' ->
       exists m3, c_pop bb false m2 tt = Ok (m3, x, tt) /\
         rep cap' m3 (fst b, snd b ++ J ++ E)).
Proof.
  intros R G EI EC HL Hi HIn (u1 & u2 & lo1 & hi1 & C1 & L1 & I1 & V1)
    (w1 & w2 & lo3 & hi3 & C3 & L3 & I3 & V3) BJ HA R1 EP.
  pose proof (good_app b J G BJ) as GJ.
  destruct (apush_apop n p2 lo hi _ b1 GJ Hi HL Hp2 HIn HA) as (G1 & EB & LB).
  cbn [snd] in LB. rewrite app_length in LB.
  set (b2 := apush p3 lo3 hi3 b1).
  destruct (apush_good n p3 lo3 hi3 b1 G1 I3 L3 Hp3) as (G2 & IN2 & LE2). fold b2 in G2, IN2, LE2.
  set (a := apush p1 lo1 hi1 b2).
  destruct (apush_good n p1 lo1 hi1 b2 G2 I1 L1 Hp1) as (GA & INA & LEA). fold a in GA, INA, LEA.
  exists a. split; [easy|]. split; [lia|]. split; [lia|]. split; [|split].
  - intros HC. unfold Rans_SpecBB.bb. cbn [bitsback_ans_codec c_push]. rewrite EP. cbn [bind].
    destruct (default_push_rep ns Hns (cdf3 z) (inv3 z) (s3 z) p3 al3 n Hp3
                lo3 hi3 x (s3 z) w1 cap m1 b1 C3 L3 I3 G1 R1) as (m2 & E2 & R2).
    { fold b2. unfold zlen in *. lia. }
    unfold Rans_SpecBB.bb_obs. cbn [c_state default_rans_codec] in *. rewrite E2. cbn [bind].
    destruct (default_push_rep ns Hns cdf1 inv1 s1 p1 al1 n Hp1
                lo1 hi1 z s1 u1 cap m2 b2 C1 L1 I1 G2 R2) as (m3 & E3 & R3).
    { fold a. unfold zlen in *. lia. }
    unfold Rans_SpecBB.bb_prior. cbn [c_state default_rans_codec] in *. rewrite E3. cbn [bind]. eauto.
  - intros m' u. unfold Rans_SpecBB.bb. cbn [bitsback_ans_codec c_push]. rewrite EP. cbn [bind].
    unfold Rans_SpecBB.bb_obs, Rans_SpecBB.bb_prior. cbn [c_push c_state default_rans_codec]. rewrite C3.
    destruct (push_symbols ns m1 lo3 hi3 p3) as [m2|] eqn:E2; [|discriminate]. cbn [bind].
    rewrite C1. destruct (push_symbols ns m2 lo1 hi1 p1) as [m3|] eqn:E3; [|discriminate].
    cbn [bind]. intro X; injection X as <- <-.
    assert (W1 : wrep cap m1 b1).
    { destruct R1 as [HH (T1 & T2 & T3 & T4 & T5)]. repeat split; easy. }
    pose proof (push_symbols_weak ns Hns cap n p3 lo3 hi3 m1 b1 m2 W1 G1 I3 L3 Hp3 E2) as W2.
    exact (push_symbols_weak ns Hns cap n p1 lo1 hi1 m2 b2 m3 W2 G2 I1 L1 Hp1 E3).
  - intros cap' E m2 BE RM RC1 RC2. unfold Rans_SpecBB.bb. cbn [bitsback_ans_codec c_pop].
    pose proof (good_app a E GA BE) as GAE.
    destruct (default_pop_rep ns Hns cdf1 inv1 s1 p1 al1 n Hp1 lo1 hi1 z s1 u2 cap' m2
                (fst a, snd a ++ E) (fst b2, snd b2 ++ E) al1) as (m3 & E3 & R3); try easy.
    { cbn [fst]. now apply V1. }
    { apply apop_frame. now apply (apop_apush n). }
    unfold Rans_SpecBB.bb_prior. cbn [c_state c_allow default_rans_codec] in *. rewrite E3. cbn [bind].
    pose proof (good_app b2 E G2 BE) as G2E. unfold zlen in *. rewrite !app_length in *.
    destruct (default_pop_rep ns Hns (cdf3 z) (inv3 z) (s3 z) p3 al3 n Hp3 lo3 hi3 x (s3 z) w2 cap' m3
                (fst b2, snd b2 ++ E) (fst b1, snd b1 ++ E) al3) as (m4 & E4 & R4); try easy.
    { cbn [fst]. now apply V3. }
    { apply apop_frame. now apply (apop_apush n). }
    { cbn [snd]. unfold zlen. rewrite app_length. lia. }
    unfold Rans_SpecBB.bb_obs. cbn [c_state c_allow default_rans_codec] in *. rewrite E4. cbn [bind].
    pose proof (good_app b1 E G1 BE) as G1E.
    assert (EQ : apush p2 lo hi (fst b1, snd b1 ++ E) = (fst b, snd b ++ J ++ E)).
    { rewrite apush_frame, EB. cbn [fst snd]. now rewrite app_assoc. }
    destruct (default_push_rep ns Hns (cdf2 x) (inv2 x) (s2 x) p2 al2 n Hp2
                lo hi z (s2 x) t2 cap' m4 (fst b1, snd b1 ++ E) EC HL Hi G1E R4) as (m5 & E5 & R5).
    { rewrite EQ. cbn [snd]. unfold zlen. rewrite !app_length. lia. }
    unfold Rans_SpecBB.bb_post. cbn [c_state default_rans_codec] in *. rewrite E5. cbn [bind].
    rewrite EQ in R5. eauto.
Qed.

(** The posterior pop on a deep enough stack, or on demand. *)
Lemma post_pop cap m b x : rep cap m b -> good n b -> bb_codable x ->
  Z.of_nat n + zlen (snd b) <= cap ->
  (3 * n <= length (snd b))%nat \/ (al2 = true /\ (n = 1%nat \/ snd b = [])) ->
  exists lo hi z t1 t2 J b1 m1,
  inv2 x (apeek p2 (fst b)) (s2 x) = (lo, hi, z, t1) /\
  cdf2 x z (s2 x) = (lo, hi, t2) /\ length lo = n /\ intervals p2 lo hi /\
  inside (apeek p2 (fst b)) lo hi /\
  row_codable cdf1 inv1 n p1 s1 z /\ row_codable (cdf3 z) (inv3 z) n p3 (s3 z) x /\
  Forall is_byte J /\ (length J <= 3 * n)%nat /\ ((3 * n <= length (snd b))%nat -> J = []) /\
  (length (snd b1) <= length (snd b) <= length (snd b1) + 3 * n)%nat /\
  apop p2 lo hi (fst b, snd b ++ J) = Some b1 /\ rep cap m1 b1 /\
  c_pop (bb_post x) (c_allow (bb_post x)) m (c_state (bb_post x)) = Ok (m1, z, t1).
Proof.
  intros R G HB HC HD.
  destruct (HB (apeek p2 (fst b))) as (lo & hi & z & t1 & t2 & EI & HL & Hi & HIn & EC & SP1 & SP3).
  { unfold apeek. rewrite map_length. apply G. }
  { apply apeek_range. lia. }
  assert (EP : peek m p2 = apeek p2 (fst b)).
  { destruct R as [HH _]. rewrite <- HH. apply peek_rep; [|exact Hp2]. rewrite HH. apply G. }
  exists lo, hi, z, t1, t2.
  unfold Rans_SpecBB.bb_post. cbn [c_pop c_allow c_state default_rans_codec]. rewrite EP, EI.
  destruct (le_lt_dec (3 * n) (length (snd b))) as [K|K].
  - destruct (apop_total n p2 lo hi b) as (b1 & A1 & LA).
    + apply G.
    + easy.
    + rewrite <- HL. symmetry. eapply F2_len. exact Hi.
    + easy.
    + destruct (apush_apop n p2 lo hi b b1 G Hi HL Hp2 HIn A1) as (_ & _ & LB).
      destruct (pop_symbols_rep ns Hns cap n p2 lo hi m b b1 al2 R G Hi HL Hp2 HIn A1 HC)
        as (m1 & E1 & R1).
      exists [], b1, m1. rewrite E1. cbn [bind]. rewrite app_nil_r.
      replace (fst b, snd b) with b by now destruct b. cbn [length].
      do 7 (split; [easy|]). split; [constructor|]. split; [lia|]. split; [easy|].
      split; [lia|]. easy.
  - destruct HD as [HD|[HA HD]]; [lia|].
    destruct (pop_symbols_dry ns Hns cap n p2 lo hi m b R G Hi HL Hp2 HIn HC HD)
      as (m1 & b1 & J & E1 & R1 & BJ & LJ & MJ & AJ).
    exists J, b1, m1. rewrite HA, E1. cbn [bind].
    do 9 (split; [easy|]). split; [lia|]. split; [lia|]. easy.
Qed.

(** A whole message. *)
Lemma bb_rows rows : Forall bb_codable rows -> forall cap m b, rep cap m b -> good n b ->
  Z.of_nat n + zlen (snd b) + 6 * Z.of_nat n * zlen rows <= cap ->
  (3 * n * length rows <= length (snd b))%nat \/
    (al2 = true /\ (n = 1%nat \/ (snd b = [] /\ (length rows <= 1)%nat))) ->
  exists m' a J, push_rows bb (rev rows) m tt = Ok (m', tt) /\ rep cap m' a /\ good n a /\
    (length (snd a) <= length (snd b) + 6 * n * length rows)%nat /\
    (length (snd b) <= length (snd a) + 3 * n * length rows)%nat /\
    Forall is_byte J /\ (length J <= 3 * n * length rows)%nat /\
    ((3 * n * length rows <= length (snd b))%nat -> J = []) /\
    (forall cap' E m2, Forall is_byte E -> rep cap' m2 (fst a, snd a ++ E) ->
       Z.of_nat n + zlen (snd b) + 9 * Z.of_nat n * zlen rows + zlen E <= cap' ->
       exists m3, pop_rows bb (length rows) m2 tt = Ok (m3, rows, tt) /\
         rep cap' m3 (fst b, snd b ++ J ++ E)).
Proof.
  induction 1 as [|x rows HX HR IH]; intros cap m b R G HC HD.
  - exists m, b, []. cbn [rev push_rows pop_rows length]. do 3 (split; [easy|]). split; [lia|]. split; [lia|].
    split; [constructor|]. split; [lia|]. split; [easy|].
    intros cap' E m2 BE RM _. exists m2. split; [easy|]. exact RM.
  - unfold zlen in *. cbn [length] in HC.
    destruct (IH cap m b R G) as (m1 & b1 & J & EP & R1 & G1 & LU & LD & BJ & LJ & JE & HPop).
    { lia. } { cbn [length] in HD. destruct HD as [HD|[HD1 [HD2|[HD2 HD3]]]]; [left; lia | right; auto | left].
      replace (length rows) with 0%nat by lia. lia. }
    assert (HC1 : Z.of_nat n + zlen (snd b1) <= cap) by (unfold zlen; nia).
    destruct (post_pop cap m1 b1 x R1 G1 HX HC1)
      as (lo & hi & z & t1 & t2 & J' & c1 & m2 & X1 & X2 & X3 & X4 & X5 & X6 & X7 & X8 & X9 & X10 & X11 & X12 & X13 & X14).
    { cbn [length] in HD. destruct HD as [HD|[HD1 [HD2|[HD2 HD3]]]]; [left; lia | right; auto | right].
      split; [exact HD1|]. right. apply length_zero_iff_nil. rewrite HD2 in LU. cbn [length] in LU. nia. }
    destruct (bb_core cap m1 b1 x lo hi z t1 t2 J' c1 m2 R1 G1 X1 X2 X3 X4 X5 X6 X7 X8 X12 X13 X14)
      as (a & GA & LA & LB & HPush & _ & HPop').
    assert (Hcap : Z.of_nat n + zlen (snd a) <= cap) by (unfold zlen; nia).
    destruct (HPush Hcap) as (m' & EP' & R').
    exists m', a, (J ++ J'). split.
    { cbn [rev]. rewrite push_rows_app, EP. cbn [bind push_rows]. rewrite EP'. reflexivity. }
    split; [easy|]. split; [easy|]. cbn [length]. split; [nia|]. split; [nia|].
    split; [now apply Forall_app|]. split; [rewrite app_length; nia|].
    split.
    { intro K. rewrite (JE ltac:(nia)), (X10 ltac:(nia)). reflexivity. }
    intros cap' E mm BE RM RC. cbn [pop_rows].
    destruct (HPop' cap' E mm BE RM) as (m3 & E3 & R3).
    { rewrite zlen_app. unfold zlen. nia. }
    { rewrite !zlen_app. unfold zlen. nia. }
    rewrite E3. cbn [bind].
    destruct (HPop cap' (J' ++ E) m3) as (m4 & E4 & R4).
    { now apply Forall_app. }
    { exact R3. }
    { rewrite app_length. nia. }
    rewrite E4. cbn [bind]. rewrite <- app_assoc. eauto.
Qed.

(** Push and pop of one row on a concrete message. *)
Theorem bb_push_pop m x : normal n m -> bb_codable x -> 7 * Z.of_nat n <= ptr m ->
  (3 * n <= length (live m))%nat ->
  exists m' m'', c_push bb x m tt = Ok (m', tt) /\ normal n m' /\
    c_pop bb false m' tt = Ok (m'', x, tt) /\ normal n m'' /\ same m m''.
Proof.
  intros HN HX HP HD. destruct (normal_rep n m HN) as [R G].
  pose proof (live_len m n HN) as LL.
  assert (HC : Z.of_nat n + zlen (snd (abs_of m)) <= zlen (data m)) by (cbn [abs_of snd]; lia).
  destruct (post_pop _ m _ x R G HX HC (or_introl HD))
    as (lo & hi & z & t1 & t2 & J & b1 & m1 & X1 & X2 & X3 & X4 & X5 & X6 & X7 & X8 & X9 & X10 & X11 & X12 & X13 & X14).
  destruct (bb_core _ m _ x lo hi z t1 t2 J b1 m1 R G X1 X2 X3 X4 X5 X6 X7 X8 X12 X13 X14)
    as (a & GA & LA & LB & HPush & _ & HPop).
  specialize (X10 HD). subst J. cbn [abs_of snd fst] in *.
  assert (Ha : Z.of_nat n + zlen (snd a) <= zlen (data m)) by (unfold zlen in *; lia).
  destruct (HPush Ha) as (m' & E1 & R1).
  destruct (HPop (zlen (data m)) [] m') as (m'' & E2 & R2).
  { constructor. } { rewrite app_nil_r. now destruct a. } { rewrite app_nil_r. exact Ha. }
  { rewrite !app_nil_r. exact HC. }
  rewrite !app_nil_r in R2. exists m', m''. split; [easy|].
  destruct (rep_normal n _ _ _ R1 GA) as (N1 & _ & _). split; [easy|]. split; [easy|].
  destruct (rep_normal n _ _ _ R2 G) as (N2 & L2 & P2). split; [easy|]. split.
  - destruct R2 as [HH _]. now rewrite HH.
  - now rewrite L2.
Qed.

(** Encode and decode of a whole message, on a deep start buffer. *)
Theorem bb_roundtrip cap cap' rnd rows start : tail_filler rnd -> start_ok n start ->
  Forall bb_codable rows ->
  3 * Z.of_nat n * zlen rows <= zlen (start_buffer n start) - 4 * Z.of_nat n ->
  zlen (start_buffer n start) - 4 * Z.of_nat n + Z.of_nat n * (6 * zlen rows + 1) <= cap ->
  zlen (start_buffer n start) - 4 * Z.of_nat n + Z.of_nat n * (9 * zlen rows + 1) <= cap' ->
  exists out, encode_one bb n cap rnd start rows tt = Ok (out, tt) /\
    decode_one bb (length rows) n cap' out tt = Ok (rows, start_buffer n start, tt).
Proof.
  intros HF HS HX HD HC HC'.
  pose proof (start_buffer_valid n Hn start HS) as HV.
  destruct (abs_of_buffer_good n _ HV) as [G E].
  assert (LS : zlen (snd (abs_of_buffer n (start_buffer n start)))
               = zlen (start_buffer n start) - 4 * Z.of_nat n).
  { destruct HV as (_ & HV & _). unfold abs_of_buffer, zlen. cbn [snd].
    rewrite skipn_length. lia. }
  set (b := abs_of_buffer n (start_buffer n start)) in *.
  destruct (encode_sim bb n Hn (fun a => zlen (snd a) + 1 <= cap' /\
      forall m, rep cap' m a -> exists m', pop_rows bb (length rows) m tt = Ok (m', rows, tt)
         /\ rep cap' m' b) cap rnd rows tt tt start HF HS) as (a & j & Hj & GA & [C1 C2] & EO).
  - unfold zlen in *. nia.
  - intros m R. destruct (bb_rows rows HX cap m b R G) as
      (m' & a & J & E1 & R1 & GA & LU & LD & BJ & LJ & JE & HPop).
    { unfold zlen in *. nia. } { left. unfold zlen in *. lia. }
    exists m', a. split; [easy|]. split; [easy|]. split; [easy|].
    split; [unfold zlen in *; nia|]. split; [unfold zlen in *; nia|].
    intros m2 RM. destruct (HPop cap' [] m2) as (m3 & E3 & R3).
    { constructor. } { rewrite app_nil_r. now destruct a. }
    { unfold zlen in *. cbn [length]. nia. }
    exists m3. split; [easy|]. rewrite JE, !app_nil_r in R3 by (unfold zlen in *; lia).
    now destruct b.
  - eexists. split; [exact EO|].
    rewrite (decode_sim bb n Hn cap' rows tt tt a b j Hj GA G C1 C2). now rewrite <- E.
Qed.

(** One lane, or one row on an empty stack, stack allowed to run dry: the message comes back, and what is left
    is the start buffer with the borrowed bytes appended. *)
Theorem bb_roundtrip_dry cap cap' rnd rows start :
  n = 1%nat \/ (zlen (start_buffer n start) = 4 * Z.of_nat n /\ (length rows <= 1)%nat) -> al2 = true ->
  tail_filler rnd -> start_ok n start ->
  Forall bb_codable rows ->
  zlen (start_buffer n start) - 4 * Z.of_nat n + Z.of_nat n * (6 * zlen rows + 1) <= cap ->
  zlen (start_buffer n start) - 4 * Z.of_nat n + Z.of_nat n * (9 * zlen rows + 1) <= cap' ->
  exists out J, encode_one bb n cap rnd start rows tt = Ok (out, tt) /\
    decode_one bb (length rows) n cap' out tt = Ok (rows, start_buffer n start ++ J, tt) /\
    (length J <= 3 * n * length rows)%nat.
Proof.
  intros H1 Hal HF HS HX HC HC'.
  pose proof (start_buffer_valid n Hn start HS) as HV.
  destruct (abs_of_buffer_good n _ HV) as [G E].
  assert (LS : zlen (snd (abs_of_buffer n (start_buffer n start)))
               = zlen (start_buffer n start) - 4 * Z.of_nat n).
  { destruct HV as (_ & HV & _). unfold abs_of_buffer, zlen. cbn [snd].
    rewrite skipn_length. lia. }
  set (b := abs_of_buffer n (start_buffer n start)) in *.
  destruct (encode_sim bb n Hn (fun a => zlen (snd a) + 1 <= cap' /\
      exists J, Forall is_byte J /\ (length J <= 3 * n * length rows)%nat /\
      forall m, rep cap' m a -> exists m', pop_rows bb (length rows) m tt = Ok (m', rows, tt)
         /\ rep cap' m' (fst b, snd b ++ J)) cap rnd rows tt tt start HF HS)
    as (a & j & Hj & GA & (C1 & J & BJ & LJ & C2) & EO).
  - unfold zlen in *. nia.
  - intros m R. destruct (bb_rows rows HX cap m b R G) as
      (m' & a & J & E1 & R1 & GA & LU & LD & BJ & LJ & JE & HPop).
    { unfold zlen in *. nia. }
    { right. split; [easy|]. destruct H1 as [H1|[H1 H2]]; [now left|right]. split; [|easy].
      apply length_zero_iff_nil. unfold zlen in *. lia. }
    exists m', a. split; [easy|]. split; [easy|]. split; [easy|].
    split; [unfold zlen in *; nia|]. split; [unfold zlen in *; nia|].
    exists J. split; [easy|]. split; [easy|].
    intros m2 RM. destruct (HPop cap' [] m2) as (m3 & E3 & R3).
    { constructor. } { rewrite app_nil_r. now destruct a. }
    { unfold zlen in *. cbn [length]. nia. }
    exists m3. split; [easy|]. now rewrite app_nil_r in R3.
  - eexists _, J. split; [exact EO|]. split; [|easy].
    rewrite (decode_sim bb n Hn cap' rows tt tt a _ j Hj GA (good_app b J G BJ) C1 C2).
    cbn [fst snd]. now rewrite app_assoc, <- E.
Qed.

Theorem bb_pushes_pop rows m m' : al2 = false -> normal n m -> Z.of_nat n <= ptr m ->
  Forall bb_codable rows -> bb_pushes rows m m' ->
  exists m'', pop_rows bb (length rows) m' tt = Ok (m'', rev rows, tt) /\
    normal n m'' /\ same m m''.
Proof.
  intros Hal HN HR HX HP.
  destruct (normal_rep n m HN) as [R G]. pose proof (live_len m n HN) as LL.
  assert (HC : Z.of_nat n + zlen (snd (abs_of m)) <= zlen (data m)) by (cbn [abs_of snd]; lia).
  clear LL HR HN. revert R G HC. generalize (zlen (data m)) as cap. generalize (abs_of m) as b.
  intros b cap R G HC.
  assert (K : forall L ys m0, (forall mm, rep cap mm b -> exists mm', 
        pop_rows bb L mm tt = Ok (mm', ys, tt) /\ rep cap mm' m0) -> good n m0 ->
     exists m'', pop_rows bb (L + length rows) m' tt = Ok (m'', rev rows ++ ys, tt) /\ rep cap m'' m0).
  { revert b R G HC. induction HP as [m|x rows m m1 m' HPt EP HR1 HP IH]; intros b R G HC L ys m0 H G0.
    - cbn [length rev app]. rewrite Nat.add_0_r. now apply H.
    - pose proof (Forall_inv HX) as HX1. pose proof (Forall_inv_tail HX) as HX2.
      destruct (HX1 (apeek p2 (fst b))) as (lo & hi & z & t1 & t2 & EI & HL & Hi & HIn & EC & SP1 & SP3).
      { unfold apeek. rewrite map_length. apply G. }
      { apply apeek_range. lia. }
      assert (EPk : peek m p2 = apeek p2 (fst b)).
      { destruct R as [HH _]. rewrite <- HH. apply peek_rep; [|exact Hp2]. rewrite HH. apply G. }
      assert (EPo : exists m2, c_pop (bb_post x) (c_allow (bb_post x)) m (c_state (bb_post x))
                = Ok (m2, z, t1) /\ pop_symbols ns m (apeek p2 (fst b)) lo hi p2 false = Ok m2).
      { unfold Rans_SpecBB.bb in EP. cbn [bitsback_ans_codec c_push] in EP.
        unfold Rans_SpecBB.bb_post in *. cbn [c_pop c_allow c_state default_rans_codec] in *.
        rewrite EPk, EI in *. rewrite Hal in *.
        destruct (pop_symbols ns m (apeek p2 (fst b)) lo hi p2 false) as [m2|]; [|discriminate].
        cbn [bind]. eauto. }
      destruct EPo as (m2 & EPo & EPs). specialize (HPt _ _ _ EPo).
      assert (ED : zlen (data m) = cap) by apply R.
      rewrite ED in HPt.
      destruct (pop_symbols_some ns Hns cap n p2 lo hi m b m2 R G Hi HL Hp2 HIn HC EPs HPt)
        as (b1 & EB).
      destruct (pop_symbols_rep ns Hns cap n p2 lo hi m b b1 false R G Hi HL Hp2 HIn EB HC)
        as (m2' & EPs' & R1).
      rewrite EPs in EPs'. injection EPs' as <-.
      assert (EB' : apop p2 lo hi (fst b, snd b ++ []) = Some b1).
      { rewrite app_nil_r. now destruct b. }
      destruct (bb_core cap m b x lo hi z t1 t2 [] b1 m2 R G EI EC HL Hi HIn SP1 SP3
                  ltac:(constructor) EB' R1 EPo) as (a & GA & LA & LB & HPush & HW & HPop).
      destruct (HW _ _ EP) as (W1 & W2 & W3).
      assert (HCa : Z.of_nat n + zlen (snd a) <= cap) by lia.
      destruct (HPush HCa) as (m1' & EP' & R1'). rewrite EP in EP'. injection EP' as <-.
      cbn [length rev]. rewrite <- app_assoc. cbn [app].
      replace (L + S (length rows))%nat with (S L + length rows)%nat by lia.
      apply (IH HX2 a R1' GA HCa); [|exact G0].
      intros mm RM. cbn [pop_rows].
      destruct (HPop cap [] mm) as (m3 & E3 & R3).
      { constructor. } { rewrite app_nil_r. now destruct a. } { now rewrite app_nil_r. }
      { now rewrite !app_nil_r. }
      rewrite E3. cbn [bind].
      destruct (H m3) as (m4 & E4 & R4). { rewrite !app_nil_r in R3. now destruct b. }
      rewrite E4. cbn [bind]. eauto. }
  destruct (K 0%nat [] b) as (m'' & E & R'').
  { intros mm RM. exists mm. easy. } { exact G. }
  rewrite app_nil_r in E. cbn [Nat.add] in E. exists m''. split; [easy|].
  destruct (rep_normal n _ _ _ R'' G) as (N2 & L2 & P2). split; [easy|].
  destruct (rep_normal n _ _ _ R G) as (N1 & L1 & P1).
  split; [|congruence]. destruct R as [HH _], R'' as [HH' _]. congruence.
Qed.
End BB.

(** Push/pop inversion, encode/decode round trips and histories for the model's
    own entry points. *)
From Coq Require Import ZArith List Bool Lia Permutation.
From Verif Require Import Base Rans_Model Rans_Spec Rans_Sort Rans_Lane Rans_Stack
  Rans_Refine Rans_Serial Rans_Coder Rans_Codec.
Import ListNotations.
Open Scope Z_scope.

Definition abs_of (m : msg) : abs := (heads m, live m).

Lemma live_len m n : normal n m -> zlen (live m) = zlen (data m) - ptr m.
Proof. intros (_ & _ & _ & H). unfold live, zlen in *. rewrite skipn_length. lia. Qed.

Lemma normal_rep n m : normal n m -> rep (zlen (data m)) m (abs_of m) /\ good n (abs_of m).
Proof.
  intros HN. pose proof (live_len m n HN) as HL. destruct HN as (H1 & H2 & H3 & H4).
  split.
  - split; [reflexivity|]. cbn [abs_of snd]. unfold tail_rep. repeat split; try easy; lia.
  - repeat split; cbn [abs_of fst snd]; [easy..|]. now apply Forall_skipn.
Qed.

Lemma rep_normal n cap m a : rep cap m a -> good n a ->
  normal n m /\ live m = snd a /\ ptr m = cap - zlen (snd a).
Proof.
  intros [HH (T1 & T2 & T3 & T4 & T5)] (G1 & G2 & G3). repeat split; try easy; try lia.
  - now rewrite HH.
  - now rewrite HH.
  - unfold zlen in *. lia.
Qed.

Lemma normal_wrep n m : normal n m -> wrep (zlen (data m)) m (abs_of m).
Proof.
  intro H. pose proof (live_len m n H) as HL. unfold wrep, abs_of. cbn [fst snd].
  repeat split; lia.
Qed.

Section Top.
Variable ns : Z -> Z -> Z -> Z.
Hypothesis Hns : slice_ok ns.

Theorem push_then_pop n p lo hi m m' allow : normal n m -> intervals p lo hi ->
  length lo = n -> 0 <= p <= 24 ->
  push_symbols ns m lo hi p = Ok m' -> Z.of_nat n <= ptr m' ->
  normal n m' /\ inside (peek m' p) lo hi /\
  exists m'', pop_symbols ns m' (peek m' p) lo hi p allow = Ok m'' /\ normal n m'' /\
    same m m''.
Proof.
  intros HN Hi HL Hp HP HR. destruct (normal_rep n m HN) as [R G].
  pose proof (push_symbols_weak ns Hns _ n p lo hi m _ m' (normal_wrep n m HN) G Hi HL Hp HP)
    as (W1 & W2 & W3).
  destruct (push_symbols_rep ns Hns _ n p lo hi m _ R G Hi HL Hp) as (m1 & E1 & R1); [lia|].
  rewrite HP in E1. injection E1 as <-.
  destruct (apush_good n p lo hi _ G Hi HL Hp) as (GA & GI & _).
  destruct (rep_normal n _ _ _ R1 GA) as (N1 & L1 & P1).
  assert (EP : peek m' p = apeek p (fst (apush p lo hi (abs_of m)))).
  { destruct R1 as [HH _]. rewrite <- HH. apply peek_rep; [|exact Hp]. apply N1. }
  split; [easy|]. rewrite EP. split; [easy|].
  destruct (pop_symbols_rep ns Hns _ n p lo hi m' _ (abs_of m) allow R1 GA Hi HL Hp GI)
    as (m'' & E2 & R2).
  - now apply (apop_apush n).
  - lia.
  - exists m''. split; [easy|]. destruct (rep_normal n _ _ _ R2 G) as (N2 & L2 & P2).
    split; [easy|]. split.
    + destruct R2 as [HH _]. now rewrite HH.
    + now rewrite L2.
Qed.

Theorem push_total n p lo hi m : normal n m -> intervals p lo hi ->
  length lo = n -> 0 <= p <= 24 -> 4 * Z.of_nat n <= ptr m ->
  exists m', push_symbols ns m lo hi p = Ok m' /\ ptr m - 3 * Z.of_nat n <= ptr m' <= ptr m.
Proof.
  intros HN Hi HL Hp HR. destruct (normal_rep n m HN) as [R G].
  pose proof (live_len m n HN) as LL.
  destruct (apush_good n p lo hi _ G Hi HL Hp) as (GA & GI & GS).
  destruct (push_symbols_rep ns Hns _ n p lo hi m _ R G Hi HL Hp) as (m1 & E1 & R1).
  { cbn [abs_of snd] in GS. unfold zlen in *. lia. }
  exists m1. split; [easy|]. destruct (rep_normal n _ _ _ R1 GA) as (N1 & L1 & P1).
  cbn [abs_of snd] in GS. unfold zlen in *. lia.
Qed.

Lemma pop_round_ptr hs limit d h' l' d' : pop_round ns false hs limit d = Ok (h', l', d') ->
  l' = limit + count (map ltN hs) /\ d' = d.
Proof.
  unfold pop_round, tail_pop. change (fun h => h <? HEAD_MIN) with ltN.
  destruct (dynamic_slice ns d _ _); [|discriminate]. cbn [bind].
  intro E; injection E as _ <- <-. easy.
Qed.

Lemma around_none hs st : around hs st = None -> zlen st < count (map ltN hs).
Proof.
  unfold around. rewrite count_countn. unfold zlen.
  destruct (Nat.leb_spec (countn (map ltN hs)) (length st)); [discriminate | lia].
Qed.

Lemma count_nonneg fs : 0 <= count fs.
Proof. unfold count, zlen. lia. Qed.

(** If the pointer stayed within the array, the bytes were there. *)
Lemma pop_symbols_some cap n p lo hi m a m' : rep cap m a -> good n a ->
  intervals p lo hi -> length lo = n -> 0 <= p <= 24 ->
  inside (apeek p (fst a)) lo hi -> Z.of_nat n + zlen (snd a) <= cap ->
  pop_symbols ns m (apeek p (fst a)) lo hi p false = Ok m' -> ptr m' <= cap ->
  exists b, apop p lo hi a = Some b.
Proof.
  intros R G Hi HL Hp Hn HR E HC.
  destruct (apop p lo hi a) as [b|] eqn:EA; [eauto|]. exfalso.
  destruct R as [HH HT].
  destruct a as [zs st]. destruct G as (G1 & G2 & G3). cbn [fst snd] in *.
  destruct (intervals_freqs _ _ _ Hi) as [FL FF].
  unfold pop_symbols in E. rewrite (freqs_u32 p) in E by easy. rewrite HH in E.
  assert (EH : map3 (fun f h c => u32 (u32 (f * shr h p) + c)) (freqs_of lo hi) zs
                 (map2 (fun c l => c - l) (apeek p zs) lo)
               = map3 (unword p) zs (freqs_of lo hi) lo
               /\ Forall (fun h => 0 <= h) (map3 (unword p) zs (freqs_of lo hi) lo)
               /\ length (map3 (unword p) zs (freqs_of lo hi) lo) = length zs)
    by now apply (unword_eq n p lo hi zs).
  destruct EH as (EH & E2 & E3). rewrite EH in E.
  unfold apop in EA.
  pose proof HT as (T1 & T2 & T3 & T4 & T5).
  destruct (pop_round ns false (map3 (unword p) zs (freqs_of lo hi) lo) (ptr m) (data m))
    as [[[h2 l2] d2]|] eqn:P1; [|discriminate]. cbn [bind] in E.
  pose proof (pop_round_ptr _ _ _ _ _ _ P1) as [L2 D2].
  destruct (pop_round ns false h2 l2 d2) as [[[h1 l1] d1]|] eqn:P2; [|discriminate].
  cbn [bind] in E. pose proof (pop_round_ptr _ _ _ _ _ _ P2) as [L1 D1].
  destruct (pop_round ns false h1 l1 d1) as [[[h0 l0] d0]|] eqn:P3; [|discriminate].
  cbn [bind] in E. pose proof (pop_round_ptr _ _ _ _ _ _ P3) as [L0 D0].
  injection E as <-. cbn [ptr] in HC.
  pose proof (count_nonneg (map ltN h2)). pose proof (count_nonneg (map ltN h1)).
  destruct (around (map3 (unword p) zs (freqs_of lo hi) lo) st) as [[g2 s2]|] eqn:A1.
  2:{ apply around_none in A1. lia. }
  destruct (pop_round_rep ns Hns cap _ (ptr m) (data m) st g2 s2 false HT G3 E2 A1)
    as (l2' & X & R2 & K2); [unfold zlen in *; lia|].
  rewrite P1 in X. injection X as -> -> ->.
  destruct (around_nonneg _ _ _ _ G3 E2 A1) as (N2 & Q2 & M2).
  destruct (around g2 s2) as [[g1 s1]|] eqn:A2.
  2:{ apply around_none in A2. destruct R2 as (_ & _ & _ & R2 & _). lia. }
  destruct (pop_round_rep ns Hns cap g2 _ (data m) s2 g1 s1 false R2 Q2 N2 A2)
    as (l1' & X & R1 & K1); [unfold zlen in *; lia|].
  rewrite P2 in X. injection X as -> -> ->.
  apply around_none in EA. destruct R1 as (_ & _ & _ & R1 & _). lia.
Qed.

Theorem pop_then_push n p lo hi m m' : normal n m -> intervals p lo hi ->
  length lo = n -> 0 <= p <= 24 -> inside (peek m p) lo hi -> Z.of_nat n <= ptr m ->
  pop_symbols ns m (peek m p) lo hi p false = Ok m' -> ptr m' <= zlen (data m) ->
  normal n m' /\
  exists m'', push_symbols ns m' lo hi p = Ok m'' /\ normal n m'' /\ same m m''.
Proof.
  intros HN Hi HL Hp Hn HR HP HC. destruct (normal_rep n m HN) as [R G].
  pose proof (live_len m n HN) as LL.
  assert (EP : peek m p = apeek p (fst (abs_of m))) by (apply peek_rep; [apply HN | easy]).
  rewrite EP in *.
  assert (RM : Z.of_nat n + zlen (snd (abs_of m)) <= zlen (data m)) by (cbn [abs_of snd]; lia).
  destruct (pop_symbols_some _ n p lo hi m _ m' R G Hi HL Hp Hn RM HP HC) as [b EB].
  destruct (apush_apop n p lo hi _ b G Hi HL Hp Hn EB) as (GB & EB' & LB).
  destruct (pop_symbols_rep ns Hns _ n p lo hi m _ b false R G Hi HL Hp Hn EB RM)
    as (m1 & E1 & R1).
  rewrite HP in E1. injection E1 as <-.
  destruct (rep_normal n _ _ _ R1 GB) as (N1 & L1 & P1). split; [easy|].
  destruct (push_symbols_rep ns Hns _ n p lo hi m' b R1 GB Hi HL Hp) as (m'' & E2 & R2).
  { now rewrite EB'. }
  rewrite EB' in R2. exists m''. split; [easy|].
  destruct (rep_normal n _ _ _ R2 G) as (N2 & L2 & P2). split; [easy|]. split.
  - destruct R2 as [HH _]. now rewrite HH.
  - now rewrite L2.
Qed.

(** With three bytes per lane on the stack the pop stays within the array. *)
Theorem pop_total n p lo hi m : normal n m -> intervals p lo hi ->
  length lo = n -> 0 <= p <= 24 -> inside (peek m p) lo hi -> Z.of_nat n <= ptr m ->
  (3 * n <= length (live m))%nat ->
  exists m', pop_symbols ns m (peek m p) lo hi p false = Ok m' /\ ptr m' <= zlen (data m).
Proof.
  intros HN Hi HL Hp Hn HR HC. destruct (normal_rep n m HN) as [R G].
  pose proof (live_len m n HN) as LL.
  assert (EP : peek m p = apeek p (fst (abs_of m))) by (apply peek_rep; [apply HN | easy]).
  rewrite EP in *.
  assert (RM : Z.of_nat n + zlen (snd (abs_of m)) <= zlen (data m)) by (cbn [abs_of snd]; lia).
  destruct (apop_total n p lo hi (abs_of m)) as (b & EB & _).
  - apply G.
  - easy.
  - rewrite <- HL. symmetry. eapply F2_len. exact Hi.
  - exact HC.
  - destruct (pop_symbols_rep ns Hns _ n p lo hi m _ b false R G Hi HL Hp Hn EB RM)
      as (m1 & E1 & R1).
    exists m1. split; [easy|]. rewrite (rep_ptr _ _ _ R1). unfold zlen. lia.
Qed.

(** ** Encode and decode *)

Context {St : Type}.
Variable cdf_fun : list Z -> St -> list Z * list Z * St.
Variable inv_fun : list Z -> St -> list Z * list Z * list Z * St.
Variables (s0 : St) (p : Z) (allow : bool) (n : nat).
Hypothesis Hp : 0 <= p <= 24.
Hypothesis Hn : (1 <= n)%nat.

Let c := default_rans_codec ns cdf_fun inv_fun s0 p allow.

Lemma head_min_good : good n (repeat HEAD_MIN n, []).
Proof using.
  clear.
  repeat split; cbn [fst snd].
  - apply repeat_length.
  - apply Forall_forall. intros x Hx. apply repeat_spec in Hx. subst.
    unfold is_head. change HEAD_MIN with 16777216. change (2 ^ 24) with 16777216.
    change (2 ^ 32) with 4294967296. lia.
  - constructor.
Qed.

Lemma ser_fresh : ser (repeat HEAD_MIN n) ++ [] = fresh_buffer n.
Proof.
  rewrite app_nil_r. unfold ser, plane, fresh_buffer.
  assert (M : forall (f : Z -> Z) k, map f (repeat HEAD_MIN k) = repeat (f HEAD_MIN) k).
  { intros f k. induction k as [|k IH]; cbn [repeat map]; [reflexivity | now rewrite IH]. }
  rewrite !M.
  change (u8 (shr HEAD_MIN (3 * TAIL_PRECISION))) with 1.
  change (u8 (shr HEAD_MIN (2 * TAIL_PRECISION))) with 0.
  change (u8 (shr HEAD_MIN TAIL_PRECISION)) with 0.
  change (u8 HEAD_MIN) with 0. f_equal.
  rewrite <- !repeat_app. f_equal. lia.
Qed.

Lemma fresh_valid : valid_buffer n (fresh_buffer n).
Proof.
  rewrite <- ser_fresh. destruct head_min_good as (A & B & C). now apply ser_valid.
Qed.

Lemma fresh_abs : abs_of_buffer n (fresh_buffer n) = (repeat HEAD_MIN n, []).
Proof.
  rewrite <- ser_fresh. destruct head_min_good as (A & B & C). now apply ser_abs.
Qed.

Lemma start_buffer_valid start : start_ok n start -> valid_buffer n (start_buffer n start).
Proof. destruct start; cbn; [easy | intro; apply fresh_valid]. Qed.

Lemma encode_run D cap rnd rows se se' sd sd' start a : tail_filler rnd -> start_ok n start ->
  run c n D rows se se' sd sd' (abs_of_buffer n (start_buffer n start)) a ->
  Z.of_nat n + D <= cap ->
  exists j, is_byte j /\
  encode_one c n cap rnd start rows se = Ok (ser (fst a) ++ j :: snd a, se').
Proof.
  intros HF HS HR HC. destruct start as [b|]; cbn [start_buffer start_ok] in *.
  - eapply encode_some_run; eauto.
  - rewrite fresh_abs in HR. eapply encode_none_run; eauto.
Qed.

(** The length of a successful encode's result, from the final state. *)
Lemma encode_out_len cap rnd rows se se' start out s a : tail_filler rnd -> start_ok n start ->
  0 <= cap -> good n a ->
  (forall cap m m' s, wrep cap m (abs_of_buffer n (start_buffer n start)) ->
     push_rows c (rev rows) m se = Ok (m', s) -> wrep cap m' a /\ s = se') ->
  encode_one c n cap rnd start rows se = Ok (out, s) ->
  zlen out = 4 * Z.of_nat n + 1 + zlen (snd a) /\ zlen (snd a) <= cap /\ s = se'.
Proof.
  intros HF HS Hcap GA HW HE.
  pose proof (start_buffer_valid start HS) as HV.
  destruct (abs_of_buffer_good n _ HV) as [G E].
  assert (K : forall m0, wrep cap m0 (abs_of_buffer n (start_buffer n start)) ->
     bind (jax_encode c rows m0 se) (fun '(cm, lim, st') =>
        bind (truncate_buffer cm (n * 4) lim) (fun out => Ok (out, st'))) = Ok (out, s) ->
     zlen out = 4 * Z.of_nat n + 1 + zlen (snd a) /\ zlen (snd a) <= cap /\ s = se').
  { intros m0 W0. unfold jax_encode.
    destruct (push_rows c (rev rows) m0 se) as [[m' s']|] eqn:EP; [|discriminate].
    destruct (HW _ _ _ _ W0 EP) as [W1 ->]. cbn [bind]. rewrite c2a_pair. cbn [bind].
    destruct (truncate_buffer _ _ _) as [out'|] eqn:ET; [|discriminate]. cbn [bind].
    intro X; injection X as <- <-.
    apply (truncate_len n cap _ a) in ET; [easy | easy | apply GA | easy]. }
  unfold encode_one in HE. destruct start as [b|]; cbn [start_buffer start_ok] in *.
  - destruct (insert_zeros b n cap) as [[b' l]|] eqn:EI; [|discriminate].
    cbn [bind] in HE. apply (K (array_to_craymessage b' n (l - 1))); [|exact HE].
    assert (HC0 : zlen (snd (abs_of_buffer n b)) <= cap).
    { unfold insert_zeros in EI. destruct (Z.ltb_spec (cap - zlen (skipn (n * 4) b)) 0);
        [discriminate|]. unfold abs_of_buffer. cbn [snd].
      replace (4 * n)%nat with (n * 4)%nat by lia. lia. }
    destruct G as (G1 & G2 & G3).
    destruct (start_some_rep n cap _ _ G1 G2 G3 HC0) as (b'' & EI' & [H0 R0]).
    rewrite <- E in EI'. rewrite EI in EI'. injection EI' as -> ->.
    rewrite Z.add_simpl_r. destruct R0 as (T1 & T2 & T3 & T4 & T5). repeat split; easy.
  - cbn [bind] in HE. rewrite fresh_abs in K.
    rewrite c2a_ser in HE. cbn [fst heads data empty_message ptr] in HE.
    assert (EA : array_to_craymessage (ser (repeat HEAD_MIN n) ++ rnd cap) n cap
                 = mk_msg (repeat HEAD_MIN n) cap (rnd cap)).
    { rewrite <- (repeat_length HEAD_MIN n) at 2. apply a2c_ser. apply head_u32.
      apply head_min_good. }
    rewrite EA in HE. apply (K (mk_msg (repeat HEAD_MIN n) cap (rnd cap))); [|exact HE].
    unfold wrep, zlen at 1. cbn [heads ptr data fst snd length]. repeat split; [lia|].
    now apply HF.
Qed.

(** What a successful encode says about the final state. *)
Lemma encode_len cap rnd rows se se' sd sd' start out s : tail_filler rnd -> start_ok n start ->
  0 <= cap ->
  codable_message cdf_fun inv_fun n p rows se se' sd sd' ->
  encode_one c n cap rnd start rows se = Ok (out, s) ->
  exists a, run c n (zlen (snd a)) rows se se' sd sd' (abs_of_buffer n (start_buffer n start)) a /\
    zlen out = 4 * Z.of_nat n + 1 + zlen (snd a) /\ s = se' /\
    (length (snd a) <= length (start_buffer n start) - 4 * n + 3 * n * length rows)%nat.
Proof.
  intros HF HS Hcap HC HE.
  pose proof (start_buffer_valid start HS) as HV.
  destruct (abs_of_buffer_good n _ HV) as [G E].
  destruct (codable_run ns Hns cdf_fun inv_fun s0 p allow n Hp rows se se' sd sd' _ HC G)
    as (a & HR & HL & HW). fold c in HR, HW.
  exists a. split; [exact HR|].
  destruct (run_good _ _ _ _ _ _ _ _ _ _ HR) as (_ & GA & _ & _).
  destruct (encode_out_len cap rnd rows se se' start out s a HF HS Hcap GA HW HE) as (EL & _ & ->).
  assert (L0 : length (snd (abs_of_buffer n (start_buffer n start)))
               = (length (start_buffer n start) - 4 * n)%nat).
  { unfold abs_of_buffer. cbn [snd]. now rewrite skipn_length. }
  rewrite L0 in HL. repeat split; [easy|lia].
Qed.

Lemma encode_used cap rnd rows se se' sd sd' start out s : tail_filler rnd -> start_ok n start ->
  0 <= cap ->
  codable_message cdf_fun inv_fun n p rows se se' sd sd' ->
  encode_one c n cap rnd start rows se = Ok (out, s) ->
  exists a : abs, zlen out = 4 * Z.of_nat n + 1 + zlen (snd a) /\ zlen (snd a) <= cap.
Proof.
  intros HF HS Hcap HC HE.
  pose proof (start_buffer_valid start HS) as HV.
  destruct (abs_of_buffer_good n _ HV) as [G E].
  destruct (codable_run ns Hns cdf_fun inv_fun s0 p allow n Hp rows se se' sd sd' _ HC G)
    as (a & HR & HL & HW). fold c in HR, HW.
  destruct (run_good _ _ _ _ _ _ _ _ _ _ HR) as (_ & GA & _ & _).
  destruct (encode_out_len cap rnd rows se se' start out s a HF HS Hcap GA HW HE) as (EL & HU & _).
  exists a. easy.
Qed.

Theorem roundtrip_one cap cap' rnd rows se se' sd sd' start out s :
  tail_filler rnd -> start_ok n start -> 0 <= cap ->
  codable_message cdf_fun inv_fun n p rows se se' sd sd' ->
  encode_one c n cap rnd start rows se = Ok (out, s) ->
  fits n cap out -> fits n cap' out ->
  s = se' /\ valid_buffer n out /\
  decode_one c (length rows) n cap' out sd = Ok (rows, start_buffer n start, sd').
Proof.
  intros HF HS Hcap HC HE F1 F2.
  destruct (encode_len cap rnd rows se se' sd sd' start out s HF HS Hcap HC HE)
    as (a & HR & EL & -> & _).
  unfold fits in *. rewrite EL in F1, F2.
  destruct (encode_run _ cap rnd _ _ _ _ _ start a HF HS HR) as (j & Hj & E2); [lia|].
  rewrite E2 in HE. injection HE as <-. split; [reflexivity|].
  destruct (run_good _ _ _ _ _ _ _ _ _ _ HR) as (_ & GA & _ & _).
  destruct GA as (A1 & A2 & A3). split.
  - apply ser_valid; [easy | easy | now constructor].
  - rewrite (decode_run c n _ cap' _ _ _ _ _ _ _ j Hj Hn HR) by lia.
    destruct (abs_of_buffer_good n _ (start_buffer_valid start HS)) as [_ E].
    now rewrite <- E.
Qed.

Theorem encode_total cap rnd rows se se' sd sd' start :
  tail_filler rnd -> start_ok n start ->
  codable_message cdf_fun inv_fun n p rows se se' sd sd' ->
  (zlen (start_buffer n start) - 4 * Z.of_nat n)
    + 3 * Z.of_nat n * Z.of_nat (length rows) + Z.of_nat n <= cap ->
  exists out, encode_one c n cap rnd start rows se = Ok (out, se') /\ fits n cap out.
Proof.
  intros HF HS HC Hcap.
  pose proof (start_buffer_valid start HS) as HV.
  destruct (abs_of_buffer_good n _ HV) as [G E].
  destruct (codable_run ns Hns cdf_fun inv_fun s0 p allow n Hp rows se se' sd sd' _ HC G)
    as (a & HR & HL & _). fold c in HR.
  assert (L0 : length (snd (abs_of_buffer n (start_buffer n start)))
               = (length (start_buffer n start) - 4 * n)%nat).
  { unfold abs_of_buffer. cbn [snd]. now rewrite skipn_length. }
  destruct HV as (_ & HV & _). rewrite L0 in HL.
  destruct (run_good _ _ _ _ _ _ _ _ _ _ HR) as (_ & GA & _ & _).
  assert (D : Z.of_nat n + zlen (snd a) <= cap) by (unfold zlen in *; nia).
  destruct (encode_run _ cap rnd _ _ _ _ _ start a HF HS HR D) as (j & Hj & E2).
  eexists; split; [exact E2|]. unfold fits, zlen in *.
  rewrite app_length, ser_len. cbn [length]. destruct GA as (A1 & _). lia.
Qed.

End Top.

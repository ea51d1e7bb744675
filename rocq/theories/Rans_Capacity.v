(** What encode does for every capacity. *)
From Coq Require Import ZArith List Bool Lia Permutation.
From Verif Require Import Base Rans_Model Rans_Spec Rans_Sort Rans_Lane Rans_Stack
  Rans_Refine Rans_Serial Rans_Coder Rans_Codec Rans_Top.
Import ListNotations.
Open Scope Z_scope.

Section Capacity.
Variable ns : Z -> Z -> Z -> Z.
Hypothesis Hns : slice_ok ns.

Lemma sort_len_le ks vs : (length (sort_key_val ks vs) <= length vs)%nat.
Proof.
  unfold sort_key_val. rewrite map_length, (Permutation_length (sort_perm _)), combine_length. lia.
Qed.
Lemma map2_le {A B C} (f : A -> B -> C) xs : forall ys, (length (map2 f xs ys) <= length ys)%nat.
Proof. induction xs as [|x xs IH]; intros [|y ys]; cbn; try lia. specialize (IH ys). lia. Qed.

(** A push does not raise if the tail has room for one byte per lane at all. *)
Lemma push_round_total shift freqs hs limit d : (length hs <= length d)%nat ->
  exists h' l' d', push_round ns shift freqs hs limit d = Ok (h', l', d') /\ length d' = length d /\ (length h' <= length hs)%nat.
Proof.
  intro H. unfold push_round, tail_push, dynamic_update_slice.
  set (fl := map2 _ hs freqs). set (upd := sort_key_val (map b2z fl) (map u8 hs)).
  assert (U : (length upd <= length hs)%nat) by (unfold upd; etransitivity; [apply sort_len_le|now rewrite map_length]).
  rewrite (proj2 (Nat.ltb_ge _ _)) by lia. cbn [bind]. eexists _, _, _. split; [reflexivity|]. split.
  - destruct (Hns (limit - zlen (map u8 hs)) (zlen d) (zlen upd)) as [B _]; [unfold zlen; lia|].
    unfold zlen in *. rewrite !app_length, skipn_length, firstn_length_le by lia. lia.
  - unfold where_, map3. apply map2_le.
Qed.
Lemma push_symbols_never_raises m lo hi p : (length (heads m) <= length (data m))%nat ->
  exists m', push_symbols ns m lo hi p = Ok m'.
Proof.
  intro H. unfold push_symbols.
  edestruct (push_round_total (2 * TAIL_PRECISION + HEAD_PRECISION - p)) as (h1 & l1 & d1 & E1 & D1 & H1); [exact H|].
  rewrite E1. cbn [bind].
  edestruct (push_round_total (1 * TAIL_PRECISION + HEAD_PRECISION - p) (map2 (fun h l : Z => u32 (h - l)) hi lo) h1 l1 d1) as (h2 & l2 & d2 & E2 & D2 & H2); [lia|].
  rewrite E2. cbn [bind].
  edestruct (push_round_total (HEAD_PRECISION - p) (map2 (fun h l : Z => u32 (h - l)) hi lo) h2 l2 d2) as (h3 & l3 & d3 & E3 & D3 & H3); [lia|].
  rewrite E3. cbn [bind]. eexists. reflexivity.
Qed.

Context {St : Type}.
Variable cdf_fun : list Z -> St -> list Z * list Z * St.
Variable inv_fun : list Z -> St -> list Z * list Z * list Z * St.
Variables (s0 : St) (p : Z) (allow : bool) (n : nat).
Hypothesis Hp : 0 <= p <= 24.
Hypothesis Hn : (1 <= n)%nat.
Let c := default_rans_codec ns cdf_fun inv_fun s0 p allow.

Lemma push_rows_never_raises rows se se' sd sd' : codable_message cdf_fun inv_fun n p rows se se' sd sd' ->
  forall cap m b, wrep cap m b -> good n b -> Z.of_nat n <= cap ->
  exists m' a, push_rows c (rev rows) m se = Ok (m', se') /\ wrep cap m' a /\ good n a.
Proof.
  induction 1 as [se sd|row rows se se1 se2 sd sd1 sd2 HR IH HC]; intros cap m b W G C.
  - exists m, b. split; [reflexivity|]. split; assumption.
  - destruct (IH cap m b W G C) as (m1 & a1 & E1 & W1 & G1). cbn [rev]. rewrite push_rows_app, E1. cbn [bind push_rows].
    destruct HC as (lo & hi & EC & HL & HI & _). cbn [c c_push default_rans_codec]. rewrite EC.
    destruct (push_symbols_never_raises m1 lo hi p) as [m2 E2].
    { destruct W1 as (A & _ & D). destruct G1 as (L & _). rewrite A, L. unfold zlen in D. lia. }
    rewrite E2. cbn [bind]. exists m2, (apush p lo hi a1). split; [reflexivity|]. split.
    + eapply push_symbols_weak; eauto.
    + now apply apush_good.
Qed.

Theorem capacity_exact rows se se' sd sd' start : start_ok n start ->
  codable_message cdf_fun inv_fun n p rows se se' sd sd' ->
  exists needed, 0 <= needed /\ forall cap rnd, 0 <= cap -> tail_filler rnd ->
    (cap < needed -> exists e, encode_one c n cap rnd start rows se = Raise e) /\
    (needed <= cap -> Z.of_nat n <= cap -> exists out,
       encode_one c n cap rnd start rows se = Ok (out, se') /\ zlen out = 4 * Z.of_nat n + 1 + needed /\
       (needed + Z.of_nat n <= cap -> decode_one c (length rows) n cap out sd = Ok (rows, start_buffer n start, sd')) /\
       (cap = needed -> decode_one c (length rows) n cap out sd = Raise ValueError)).
Proof.
  intros HS HC.
  pose proof (start_buffer_valid n Hn start HS) as HV.
  destruct (abs_of_buffer_good n _ HV) as [G E].
  destruct (codable_run ns Hns cdf_fun inv_fun s0 p allow n Hp rows se se' sd sd' _ HC G) as (a & HR & HL & HW).
  fold c in HR, HW.
  destruct (run_good _ _ _ _ _ _ _ _ _ _ HR) as (_ & GA & DB & _).
  exists (zlen (snd a)). split; [unfold zlen; lia|]. intros cap rnd Hcap HF. split.
  - intro LT. destruct (encode_one c n cap rnd start rows se) as [[out s]|e] eqn:EN; [|now exists e]. exfalso.
    destruct (encode_out_len ns cdf_fun inv_fun s0 p allow n Hp Hn cap rnd rows se se' start out s a HF HS Hcap GA HW EN) as (_ & L & _). lia.
  - intros LE NC.
    assert (ENC : exists out, encode_one c n cap rnd start rows se = Ok (out, se')).
    { assert (K : forall m0, wrep cap m0 (abs_of_buffer n (start_buffer n start)) ->
         exists out, bind (jax_encode c rows m0 se) (fun '(cm, lim, st') =>
           bind (truncate_buffer cm (n * 4) lim) (fun out => Ok (out, st'))) = Ok (out, se')).
      { intros m0 W0. unfold jax_encode.
        destruct (push_rows_never_raises _ _ _ _ _ HC cap m0 _ W0 G NC) as (m' & a' & EP & _ & _).
        destruct (HW _ _ _ _ W0 EP) as [(A & B & D) _]. rewrite EP. cbn [bind]. rewrite c2a_pair. cbn [bind].
        rewrite c2a_ser. cbn [fst snd]. unfold truncate_buffer. destruct GA as (LA & _). unfold zlen in *.
        rewrite A, LA. rewrite (proj2 (Z.ltb_ge _ _)) by lia. cbn [bind]. eexists. reflexivity. }
      unfold encode_one. destruct start as [b|]; cbn [start_buffer start_ok] in *.
      - destruct G as (G1 & G2 & G3).
        destruct (start_some_rep n cap _ _ G1 G2 G3 ltac:(lia)) as (b'' & EI & [H0 R0]).
        rewrite <- E in EI. rewrite EI. cbn [bind]. rewrite Z.add_simpl_r. apply K.
        destruct R0 as (T1 & T2 & T3 & T4 & T5). repeat split; easy.
      - cbn [bind]. rewrite fresh_abs in K by exact Hn. rewrite c2a_ser. cbn [fst heads data empty_message ptr].
        assert (EA : array_to_craymessage (ser (repeat HEAD_MIN n) ++ rnd cap) n cap
                 = mk_msg (repeat HEAD_MIN n) cap (rnd cap)).
        { rewrite <- (repeat_length HEAD_MIN n) at 2. apply a2c_ser. apply head_u32.
          apply head_min_good. }
        rewrite EA. apply K. unfold wrep, zlen at 1. cbn [heads ptr data fst snd length]. repeat split; [lia|].
        now apply HF. }
    destruct ENC as [out EN]. exists out. split; [exact EN|].
    destruct (encode_out_len ns cdf_fun inv_fun s0 p allow n Hp Hn cap rnd rows se se' start out se' a HF HS Hcap GA HW EN) as (LO & _ & _).
    split; [exact LO|]. split.
    + intro F. assert (FT : fits n cap out) by (unfold fits; lia).
      now destruct (roundtrip_one ns Hns cdf_fun inv_fun s0 p allow n Hp Hn cap cap rnd rows
                 se se' sd sd' start out se' HF HS Hcap HC EN FT FT) as (_ & _ & D).
    + intro Q. unfold decode_one, insert_zeros. unfold zlen in *. rewrite skipn_length.
      rewrite (proj2 (Z.ltb_lt _ _)) by lia. reflexivity.
Qed.
End Capacity.

(** Code length of rANS: the potential 8 * bytes + sum of log2 head grows by at
    most the ideal length plus an overhead per lane. *)
From Coq Require Import ZArith List Bool Lia Reals Lra.
From Verif Require Import Base AC_SpecR AC_Size Rans_Model Rans_Spec Rans_SpecR Rans_Sort
  Rans_Lane Rans_Stack Rans_Refine Rans_Serial Rans_Coder Rans_Codec Rans_Top.
Import ListNotations.
Open Scope Z_scope.

Definition k3 (t x : Z) : Z := b2z (ltN (ln1 t x)) + b2z (ltN (ln2 t x)) + b2z (ltN (ln3 t x)).

Lemma lane_bytes t x : 1 <= t <= 16777216 -> 16777216 <= x < 4294967296 ->
  0 <= k3 t x /\ 256 ^ k3 t x * ln3 t x <= x /\ t <= ln3 t x.
Proof.
  intros Ht Hx. destruct (lane_push t x Ht Hx) as (B & A1 & A2 & A3).
  unfold k3, ltN. rewrite A1, A2, A3. unfold b2z.
  assert (D1 : 256 * (x / 256) <= x) by dlia.
  assert (D2 : 256 ^ 2 * (x / 256 / 256) <= x) by (change (256 ^ 2) with 65536; dlia).
  assert (D3 : 256 ^ 3 * (x / 256 / 256 / 256) <= x) by (change (256 ^ 3) with 16777216; dlia).
  unfold ln3, ln2, ln1 in *.
  destruct (fl3 t x), (fl2 t x), (fl1 t x); cbn [Z.add Pos.add Pos.succ];
    rewrite ?Z.pow_1_r, ?Z.pow_0_r; lia.
Qed.

Open Scope R_scope.

Lemma log2_le a b : 0 < a -> a <= b -> log2 a <= log2 b.
Proof.
  intros Ha Hb. unfold log2. apply Rmult_le_compat_r.
  - left. apply Rinv_0_lt_compat, ln2_pos.
  - destruct Hb as [Hb|<-]; [left; now apply ln_increasing | lra].
Qed.

Lemma log2_mult a b : 0 < a -> 0 < b -> log2 (a * b) = log2 a + log2 b.
Proof. intros. unfold log2. rewrite ln_mult by easy. lra. Qed.

Lemma log2_256 k : (0 <= k)%Z -> log2 (IZR (256 ^ k)) = 8 * IZR k.
Proof.
  intro Hk. pose proof ln2_pos. rewrite <- (Z2Nat.id k) by easy.
  rewrite IZR_pow_nat. replace 256 with (2 ^ 8) by lra. rewrite <- pow_mult.
  unfold log2. rewrite ln_pow2. rewrite mult_INR, INR_IZR_INZ, INR_IZR_INZ.
  change (Z.of_nat 8) with 8%Z. field. lra.
Qed.

Lemma log2_pow2 k : (0 <= k)%Z -> log2 (IZR (2 ^ k)) = IZR k.
Proof.
  intro Hk. pose proof ln2_pos. rewrite <- (Z2Nat.id k) by easy.
  rewrite IZR_pow_nat. unfold log2. rewrite ln_pow2, INR_IZR_INZ. field. lra.
Qed.

Lemma lane_potential p l h x : (0 <= p <= 24)%Z -> (0 <= l)%Z -> (l < h)%Z -> (h <= 2 ^ p)%Z ->
  is_head x ->
  8 * IZR (k3 (thr p (h - l)) x) + log2 (IZR (word p (ln3 (thr p (h - l)) x) (h - l) l))
  <= log2 (IZR x) + log2 (IZR (2 ^ p) / IZR (h - l)) + symbol_overhead p.
Proof.
  intros Hp Hl Hlh Hh Hx. apply head_bounds in Hx.
  set (f := (h - l)%Z). set (t := thr p f).
  assert (Ht : thr_ok t) by (apply thr_bound; unfold f; lia).
  destruct (lane_bytes t x Ht Hx) as (K0 & K1 & K2).
  set (y := ln3 t x) in *. set (k := k3 t x) in *.
  assert (P24 : (0 < 2 ^ (24 - p))%Z) by (apply Z.pow_pos_nonneg; lia).
  assert (PP : (0 < 2 ^ p)%Z) by (apply Z.pow_pos_nonneg; lia).
  assert (P256 : (0 < 256 ^ k)%Z) by (apply Z.pow_pos_nonneg; lia).
  assert (Hf : (0 < f)%Z) by (unfold f; lia).
  assert (Hy : (f * 2 ^ (24 - p) <= y)%Z) by exact K2.
  assert (Hy0 : (0 < y)%Z) by nia.
  assert (W : (0 < word p y f l)%Z /\ (f * word p y f l * 2 ^ (24 - p) <= y * 2 ^ p * (2 ^ (24 - p) + 1))%Z).
  { unfold word. pose proof (Z.div_mod y f ltac:(lia)) as DM.
    pose proof (Z.mod_pos_bound y f Hf) as MB.
    assert (0 < y / f)%Z by (apply Z.div_str_pos; nia).
    assert (y mod f + l < 2 ^ p)%Z by (unfold f in *; lia).
    set (q := (y / f)%Z) in *. set (r := (y mod f)%Z) in *.
    split; [nia|].
    assert (f * (q * 2 ^ p + r + l) <= f * ((q + 1) * 2 ^ p))%Z by nia.
    assert (f * q <= y)%Z by lia.
    assert (f * ((q + 1) * 2 ^ p) * 2 ^ (24 - p) <= (y + f) * 2 ^ p * 2 ^ (24 - p))%Z by nia.
    assert ((y + f) * 2 ^ p * 2 ^ (24 - p) <= y * 2 ^ p * (2 ^ (24 - p) + 1))%Z by nia.
    nia. }
  destruct W as [W0 W1].
  assert (Rf : 0 < IZR f) by now apply (IZR_lt 0).
  assert (Ry : 0 < IZR y) by now apply (IZR_lt 0).
  assert (Rp : 0 < IZR (2 ^ p)) by now apply (IZR_lt 0).
  assert (R24 : 0 < IZR (2 ^ (24 - p))) by now apply (IZR_lt 0).
  assert (R256 : 0 < IZR (256 ^ k)) by now apply (IZR_lt 0).
  assert (RW : 0 < IZR (word p y f l)) by now apply (IZR_lt 0).
  rewrite <- log2_256 by easy.
  rewrite <- log2_mult by easy.
  unfold symbol_overhead.
  assert (O : 0 < 1 + / IZR (2 ^ (24 - p))) by (pose proof (Rinv_0_lt_compat _ R24); lra).
  assert (Q : 0 < IZR (2 ^ p) / IZR f) by now apply Rdiv_lt_0_compat.
  assert (X : 0 < IZR x) by (apply (IZR_lt 0); lia).
  rewrite <- !log2_mult by (first [assumption | apply Rmult_lt_0_compat; assumption]).
  apply log2_le; [now apply Rmult_lt_0_compat|].
  apply IZR_le in K1. rewrite mult_IZR in K1.
  apply IZR_le in W1. rewrite !mult_IZR, plus_IZR in W1.
  apply Rle_trans with (IZR (256 ^ k) * (IZR y * (IZR (2 ^ p) / IZR f) * (1 + / IZR (2 ^ (24 - p))))).
  - apply Rmult_le_compat_l; [lra|].
    apply Rmult_le_reg_l with (IZR f * IZR (2 ^ (24 - p))); [now apply Rmult_lt_0_compat|].
    replace (IZR f * IZR (2 ^ (24 - p)) * (IZR y * (IZR (2 ^ p) / IZR f) * (1 + / IZR (2 ^ (24 - p)))))
      with (IZR y * IZR (2 ^ p) * (IZR (2 ^ (24 - p)) + 1)) by (field; lra).
    lra.
  - rewrite <- !Rmult_assoc. apply Rmult_le_compat_r; [lra|].
    apply Rmult_le_compat_r; [lra|]. exact K1.
Qed.

Definition sum_log2 (hs : list Z) : R := fold_right (fun h acc => log2 (IZR h) + acc) 0 hs.
Definition potential (a : abs) : R := 8 * IZR (zlen (snd a)) + sum_log2 (fst a).

Lemma push_potential n p lo hi a : good n a -> intervals p lo hi -> length lo = n ->
  (0 <= p <= 24)%Z ->
  potential (apush p lo hi a)
  <= potential a + (ideal_bits p (combine lo hi) + INR n * symbol_overhead p).
Proof.
  intros (G1 & G2 & _) Hi HL Hp. destruct a as [hs st]. cbn [fst] in *.
  unfold potential, apush. cbn [fst snd].
  assert (EF : length hs = length (freqs_of lo hi)).
  { destruct (intervals_freqs _ _ _ Hi). lia. }
  unfold zlen. rewrite !app_length.
  rewrite !obytes_len by (rewrite ?mln_len by easy; reflexivity).
  rewrite !Nat2Z.inj_add, !plus_IZR.
  cut (8 * (IZR (Z.of_nat (countn (map ltN (mln ln3 p (freqs_of lo hi) hs)))) +
            IZR (Z.of_nat (countn (map ltN (mln ln2 p (freqs_of lo hi) hs)))) +
            IZR (Z.of_nat (countn (map ltN (mln ln1 p (freqs_of lo hi) hs))))) +
       sum_log2 (map3 (word p) (mln ln3 p (freqs_of lo hi) hs) (freqs_of lo hi) lo)
       <= sum_log2 hs + (ideal_bits p (combine lo hi) + INR n * symbol_overhead p)); [lra|].
  unfold mln, map3, freqs_of, ideal_bits, sum_log2. clear EF st. revert n hs G1 G2 HL.
  induction Hi as [|l h lo hi H _ IH]; intros n [|x hs] G1 G2 HL; cbn [length] in *;
    try (exfalso; lia).
  - subst n. cbn. lra.
  - destruct n as [|n]; [discriminate|]. inversion G2 as [|? ? Hx G2']; subst.
    specialize (IH n hs ltac:(lia) G2' ltac:(lia)).
    cbn [map2 map combine fold_right fst snd]. rewrite !countn_cons, !Nat2Z.inj_add, !plus_IZR.
    pose proof (lane_potential p l h x Hp (proj1 H) (proj1 (proj2 H)) (proj2 (proj2 H)) Hx) as LP.
    unfold k3 in LP. rewrite !plus_IZR in LP. rewrite S_INR.
    assert (B : forall b : bool, IZR (Z.of_nat (if b then 1 else 0)) = IZR (b2z b))
      by (intros []; reflexivity).
    rewrite !B. lra.
Qed.

Lemma ideal_app p a b : ideal_bits p (a ++ b) = ideal_bits p a + ideal_bits p b.
Proof.
  unfold ideal_bits. induction a as [|i a IH]; cbn [app fold_right]; [lra|]. rewrite IH. lra.
Qed.

Lemma sum_log2_low hs : Forall is_head hs -> 24 * INR (length hs) <= sum_log2 hs.
Proof.
  induction 1 as [|h hs H _ IH]; [cbn; lra|]. unfold sum_log2 in *.
  cbn [fold_right]. change (length (h :: hs)) with (S (length hs)). rewrite S_INR.
  assert (24 <= log2 (IZR h)).
  { rewrite <- (log2_pow2 24) by lia. apply log2_le; [apply (IZR_lt 0); reflexivity|].
    apply IZR_le. apply H. }
  lra.
Qed.

Lemma sum_log2_high hs : Forall is_head hs -> sum_log2 hs <= 32 * INR (length hs).
Proof.
  induction 1 as [|h hs H _ IH]; [cbn; lra|]. unfold sum_log2 in *.
  cbn [fold_right]. change (length (h :: hs)) with (S (length hs)). rewrite S_INR.
  assert (log2 (IZR h) <= 32).
  { rewrite <- (log2_pow2 32) by lia. apply log2_le.
    - apply (IZR_lt 0). unfold is_head in H. change (2 ^ 24)%Z with 16777216%Z in H. lia.
    - apply IZR_le. unfold is_head in H. lia. }
  lra.
Qed.

Lemma sum_log2_min n : sum_log2 (repeat HEAD_MIN n) = 24 * INR n.
Proof.
  unfold sum_log2. induction n as [|n IH]; [cbn; lra|]. cbn [repeat fold_right]. rewrite IH, S_INR.
  change HEAD_MIN with (2 ^ 24)%Z. rewrite log2_pow2 by lia. lra.
Qed.

Lemma overhead_small p : (0 <= p <= 16)%Z -> 0 < symbol_overhead p < 8 / 1000.
Proof.
  intro Hp. unfold symbol_overhead, log2. pose proof ln2_pos as L2.
  assert (H256 : (256 <= 2 ^ (24 - p))%Z).
  { change 256%Z with (2 ^ 8)%Z. apply Z.pow_le_mono_r; lia. }
  apply IZR_le in H256. set (y := IZR (2 ^ (24 - p))) in *.
  assert (Hy : 0 < / y) by (apply Rinv_0_lt_compat; lra).
  assert (Hy2 : / y <= / 256) by (apply Rinv_le_contravar; lra).
  assert (A : 0 < ln (1 + / y)) by (rewrite <- ln_1; apply ln_increasing; lra).
  assert (B : ln (1 + / y) <= / y).
  { apply Rnot_lt_le. intro C. apply exp_increasing in C. rewrite exp_ln in C by lra.
    pose proof (exp_ineq1 (/ y) ltac:(lra)). lra. }
  pose proof ln_lt_2 as D.
  split; [now apply Rdiv_lt_0_compat|].
  apply Rmult_lt_reg_r with (ln 2); [lra|]. unfold Rdiv. rewrite Rmult_assoc, Rinv_l by lra. lra.
Qed.

Section Size.
Variable ns : Z -> Z -> Z -> Z.
Hypothesis Hns : slice_ok ns.
Context {St : Type}.
Variable cdf_fun : list Z -> St -> list Z * list Z * St.
Variable inv_fun : list Z -> St -> list Z * list Z * list Z * St.
Variables (s0 : St) (p : Z) (allow : bool) (n : nat).
Hypothesis Hp : (0 <= p <= 24)%Z.
Hypothesis Hn : (1 <= n)%nat.
Let c := default_rans_codec ns cdf_fun inv_fun s0 p allow.

Lemma push_intervals_app rows1 : forall rows2 se se',
  (exists sd sd', codable_message cdf_fun inv_fun n p (rev rows1) se se' sd sd') ->
  push_intervals cdf_fun (rows1 ++ rows2) se
  = push_intervals cdf_fun rows1 se ++ push_intervals cdf_fun rows2 se'.
Proof.
  induction rows1 as [|r rows1 IH] using rev_ind; intros rows2 se se' (sd & sd' & H).
  - cbn in *. inversion H; subst. reflexivity.
  - rewrite rev_app_distr in H. cbn [rev app] in H. inversion H; subst.
    rewrite <- app_assoc. cbn [app].
    rewrite (IH (r :: rows2) se se1) by (do 2 eexists; eassumption).
    rewrite (IH [r] se se1) by (do 2 eexists; eassumption).
    rewrite <- app_assoc. f_equal. cbn [push_intervals].
    match goal with K : codable _ _ _ _ r _ _ _ _ |- _ => destruct K as (lo & hi & EC & _) end.
    rewrite EC. now rewrite app_nil_r.
Qed.

(** The abstract result of pushing a message. *)
Lemma codable_apush rows se se' sd sd' b :
  codable_message cdf_fun inv_fun n p rows se se' sd sd' -> good n b ->
  exists a, good n a /\
    potential a <= potential b + (ideal_bits p (push_intervals cdf_fun (rev rows) se)
                    + INR (n * length rows) * symbol_overhead p) /\
    (forall cap m m' s, wrep cap m b -> push_rows c (rev rows) m se = Ok (m', s) ->
       wrep cap m' a /\ s = se').
Proof.
  induction 1 as [se sd | row rows se se1 se2 sd sd1 sd2 H IH HC]; intro G.
  - exists b. split; [easy|]. split.
    + cbn [rev push_intervals ideal_bits fold_right length]. rewrite Nat.mul_0_r. cbn [INR]. lra.
    + intros cap m m' s HW E. cbn in E. injection E as <- <-. easy.
  - destruct (IH G) as (a & GA & HPt & HW).
    destruct HC as (lo & hi & EC & HLo & Hi & HI).
    destruct (apush_good n p lo hi a GA Hi HLo Hp) as (GA' & _ & GS).
    exists (apush p lo hi a). split; [easy|]. split.
    + pose proof (push_potential n p lo hi a GA Hi HLo Hp) as PP.
      cbn [rev length]. rewrite (push_intervals_app (rev rows) [row] se se1).
      2:{ rewrite rev_involutive. eauto. }
      rewrite ideal_app. cbn [push_intervals]. rewrite EC, app_nil_r.
      rewrite Nat.mul_succ_r, plus_INR. lra.
    + intros cap m m' s HW0 E. cbn [rev] in E. rewrite push_rows_app in E.
      destruct (push_rows c (rev rows) m se) as [[m1 s1]|] eqn:E1; [|discriminate].
      destruct (HW _ _ _ _ HW0 E1) as [HW1 ->]. cbn [bind push_rows] in E.
      cbn [c c_push default_rans_codec] in E. rewrite EC in E.
      destruct (push_symbols ns m1 lo hi p) as [m2|] eqn:E2; [|discriminate].
      cbn [bind] in E. injection E as <- <-. split; [|reflexivity].
      eapply push_symbols_weak; eauto.
Qed.

(** Bytes of an encoded buffer against the ideal length, for any success. *)
Theorem encode_size cap rnd rows se se' sd sd' start out s :
  tail_filler rnd -> start_ok n start -> (0 <= cap)%Z ->
  codable_message cdf_fun inv_fun n p rows se se' sd sd' ->
  encode_one c n cap rnd start rows se = Ok (out, s) ->
  8 * IZR (zlen out - zlen (start_buffer n start) - 1)
  <= ideal_bits p (push_intervals cdf_fun (rev rows) se)
     + INR (n * length rows) * symbol_overhead p
     + (match start with Some _ => 8 * INR n | None => 0 end).
Proof.
  intros HF HS Hcap HC HE.
  pose proof (start_buffer_valid n Hn start HS) as HV.
  destruct (abs_of_buffer_good n _ HV) as [G E].
  destruct (codable_apush rows se se' sd sd' _ HC G) as (a & GA & HPt & HW).
  destruct (encode_out_len ns cdf_fun inv_fun s0 p allow n Hp Hn cap rnd rows se se'
              start out s a HF HS Hcap GA HW HE) as (EL & _ & _).
  destruct HV as (_ & HV & _).
  assert (PA : 8 * IZR (zlen (snd a)) + 24 * INR n <= potential a).
  { unfold potential. destruct GA as (GA1 & GA2 & _).
    pose proof (sum_log2_low _ GA2). rewrite GA1 in *. lra. }
  replace (zlen out - zlen (start_buffer n start) - 1)%Z
    with (zlen (snd a) - (zlen (start_buffer n start) - 4 * Z.of_nat n))%Z by lia.
  rewrite minus_IZR.
  assert (PB : potential (abs_of_buffer n (start_buffer n start))
     <= 8 * IZR (zlen (start_buffer n start) - 4 * Z.of_nat n) + 24 * INR n
        + match start with Some _ => 8 * INR n | None => 0 end).
  { destruct start as [b|]; cbn [start_buffer] in *.
    - unfold potential. destruct G as (G1 & G2 & _).
      pose proof (sum_log2_high _ G2) as SH. rewrite G1 in SH.
      replace (zlen (snd (abs_of_buffer n b))) with (zlen b - 4 * Z.of_nat n)%Z; [lra|].
      unfold abs_of_buffer, zlen. cbn [snd]. rewrite skipn_length. lia.
    - rewrite fresh_abs by exact Hn. unfold potential. cbn [fst snd]. rewrite sum_log2_min.
      replace (zlen (fresh_buffer n) - 4 * Z.of_nat n)%Z with 0%Z; [cbn; lra|].
      unfold zlen, fresh_buffer. rewrite app_length, !repeat_length. lia. }
  lra.
Qed.
End Size.

(** Proofs about the arithmetic coder model. *)
From Coq Require Import ZArith List Bool Lia Arith.
From Coq Require Import ZifyBool ZifyNat.
From Verif Require Import Base FDiv AC_Model.
Import ListNotations.
Open Scope Z_scope.

(* ------------------------------------------------------------------ *)
(** ** Bit streams and their 32-bit windows *)

Definition scons (b : bool) (s : nat -> bool) : nat -> bool :=
  fun i => match i with O => b | S j => s j end.
Fixpoint lapp (l : list bool) (s : nat -> bool) : nat -> bool :=
  match l with [] => s | b :: l' => scons b (lapp l' s) end.
Definition sshift (k : nat) (s : nat -> bool) : nat -> bool := fun i => s (k + i)%nat.

Fixpoint val (n : nat) (s : nat -> bool) : Z :=
  match n with O => 0 | S k => 2 * val k s + Z.b2z (s k) end.

Lemma b2z_range b : 0 <= Z.b2z b <= 1.
Proof. destruct b; cbn; lia. Qed.

Lemma pow2_S n : 2 ^ Z.of_nat (S n) = 2 * 2 ^ Z.of_nat n.
Proof. rewrite Nat2Z.inj_succ, Z.pow_succ_r by lia; reflexivity. Qed.

Lemma val_range n s : 0 <= val n s < 2 ^ Z.of_nat n.
Proof.
  induction n as [|n IH]; [cbn; lia|].
  rewrite pow2_S; cbn [val]. pose proof (b2z_range (s n)). lia.
Qed.

Lemma val_ext n s t : (forall i, (i < n)%nat -> s i = t i) -> val n s = val n t.
Proof.
  induction n as [|n IH]; intros H; [reflexivity|].
  cbn [val]. rewrite IH by (intros i Hi; apply H; lia). rewrite H by lia. reflexivity.
Qed.

Lemma val_scons n b s : val (S n) (scons b s) = Z.b2z b * 2 ^ Z.of_nat n + val n s.
Proof.
  induction n as [|n IH]; [cbn; lia|].
  change (val (S (S n)) (scons b s)) with (2 * val (S n) (scons b s) + Z.b2z (s n)).
  rewrite IH, pow2_S; cbn [val]. lia.
Qed.

Lemma lapp_app l1 l2 s i : lapp (l1 ++ l2) s i = lapp l1 (lapp l2 s) i.
Proof.
  revert i; induction l1 as [|b l1 IH]; intros i; [reflexivity|].
  destruct i; cbn; [reflexivity|apply IH].
Qed.

Lemma lapp_lt l s i : (i < length l)%nat -> lapp l s i = nth i l false.
Proof.
  revert i; induction l as [|b l IH]; intros i H; [cbn in H; lia|].
  destruct i; cbn in *; [reflexivity|apply IH; lia].
Qed.

Lemma lapp_ge l s i : lapp l s (length l + i)%nat = s i.
Proof. induction l as [|b l IH]; [reflexivity|exact IH]. Qed.

Lemma lapp_ge' l s i : (length l <= i)%nat -> lapp l s i = s (i - length l)%nat.
Proof.
  intros H. replace i with (length l + (i - length l))%nat at 1 by lia. apply lapp_ge.
Qed.

(** [ins k (b::s)] is the stream with [k] pending bits inserted after the first. *)
Definition ins (k : nat) (l : list bool) : list bool :=
  match l with [] => [] | b :: s => b :: repeat (negb b) k ++ s end.

Lemma ins_0 l : ins 0 l = l.
Proof. destruct l; reflexivity. Qed.

Lemma repeat_snoc {A} (x : A) k : repeat x k ++ [x] = x :: repeat x k.
Proof. induction k as [|k IH]; cbn; [reflexivity|rewrite IH; reflexivity]. Qed.

Lemma ins_ins1 k l : ins k (ins 1 l) = ins (S k) l.
Proof.
  destruct l as [|b s]; [reflexivity|]. cbn [ins repeat app].
  f_equal. change (negb b :: s) with ([negb b] ++ s).
  rewrite app_assoc, repeat_snoc. reflexivity.
Qed.

(** Every continuation of [l] has its 32-bit window in [lo, hi]. *)
Definition inside (lo hi : Z) (l : list bool) : Prop :=
  forall t, lo <= val 32 (lapp l t) <= hi.

Ltac pow_red :=
  repeat match goal with
  | |- context [2 ^ Z.of_nat ?n] =>
      let v := eval vm_compute in (2 ^ Z.of_nat n) in change (2 ^ Z.of_nat n) with v
  | H : context [2 ^ Z.of_nat ?n] |- _ =>
      let v := eval vm_compute in (2 ^ Z.of_nat n) in change (2 ^ Z.of_nat n) with v in H
  end.

Lemma val_S n s : val (S n) s = 2 * val n s + Z.b2z (s n).
Proof. reflexivity. Qed.
Lemma val32_S s : val 32 s = 2 * val 31 s + Z.b2z (s 31%nat).
Proof. exact (val_S 31 s). Qed.
Lemma val31_S s : val 31 s = 2 * val 30 s + Z.b2z (s 30%nat).
Proof. exact (val_S 30 s). Qed.
Lemma val32_scons b s : val 32 (scons b s) = Z.b2z b * 2147483648 + val 31 s.
Proof. exact (val_scons 31 b s). Qed.
Lemma val31_scons b s : val 31 (scons b s) = Z.b2z b * 1073741824 + val 30 s.
Proof. exact (val_scons 30 b s). Qed.
Lemma val32_range s : 0 <= val 32 s < 4294967296.
Proof. exact (val_range 32 s). Qed.
Lemma val31_range s : 0 <= val 31 s < 2147483648.
Proof. exact (val_range 31 s). Qed.
Lemma val30_range s : 0 <= val 30 s < 1073741824.
Proof. exact (val_range 30 s). Qed.

Lemma inside_zero lo hi l : inside (2 * lo) (2 * hi + 1) l -> inside lo hi (false :: l).
Proof.
  intros H t. specialize (H t). cbn [lapp]. rewrite val32_scons. cbn [Z.b2z].
  rewrite val32_S in H. pose proof (b2z_range (lapp l t 31%nat)). lia.
Qed.

Lemma inside_one lo hi l :
  inside (2 * (lo - ONE_HALF)) (2 * (hi - ONE_HALF) + 1) l -> inside lo hi (true :: l).
Proof.
  unfold ONE_HALF. intros H t. specialize (H t). cbn [lapp]. rewrite val32_scons. cbn [Z.b2z].
  rewrite val32_S in H. pose proof (b2z_range (lapp l t 31%nat)). lia.
Qed.

Lemma inside_quarter lo hi b l :
  inside (2 * (lo - ONE_FOURTH)) (2 * (hi - ONE_FOURTH) + 1) (b :: l) ->
  inside lo hi (ins 1 (b :: l)).
Proof.
  unfold ONE_FOURTH. intros H t. specialize (H t). cbn [lapp ins repeat app] in *.
  rewrite val32_scons in *. rewrite val31_scons. rewrite val31_S in H.
  pose proof (b2z_range (lapp l t 30%nat)). destruct b; cbn [Z.b2z negb] in *; lia.
Qed.

Lemma inside_sub lo hi lo' hi' l : lo <= lo' -> hi' <= hi -> inside lo' hi' l -> inside lo hi l.
Proof. intros H1 H2 H t. specialize (H t). lia. Qed.

(* ------------------------------------------------------------------ *)
(** ** Intervals *)

(** A well-formed interval of the coder. *)
Definition wf (low high : Z) : Prop := 0 <= low <= high /\ high < 2 ^ 32.
(** A normalised interval: the loop condition is false. *)
Definition norm (low high : Z) : Prop :=
  0 <= low < ONE_HALF /\ ONE_HALF <= high < 2 ^ 32 /\
  (low < ONE_FOURTH \/ THREE_FOURTHS <= high).

Lemma renorm_cond_false low high :
  wf low high -> renorm_cond high low = false -> norm low high.
Proof. unfold wf, renorm_cond, norm, ONE_HALF, ONE_FOURTH, THREE_FOURTHS; lia. Qed.

Lemma norm_cond low high : norm low high -> renorm_cond high low = false.
Proof. unfold renorm_cond, norm, ONE_HALF, ONE_FOURTH, THREE_FOURTHS; lia. Qed.

Lemma norm_span low high : norm low high -> ONE_FOURTH < high - low + 1 <= 2 ^ 32.
Proof. unfold norm, ONE_HALF, ONE_FOURTH, THREE_FOURTHS; lia. Qed.

Lemma u32_id x : 0 <= x < 2 ^ 32 -> u32 x = x.
Proof. intros H; unfold u32; apply Z.mod_small; exact H. Qed.
Lemma u64_id x : 0 <= x < 2 ^ 64 -> u64 x = x.
Proof. intros H; unfold u64; apply Z.mod_small; exact H. Qed.
Lemma u16_id x : 0 <= x < 2 ^ 16 -> u16 x = x.
Proof. intros H; unfold u16; apply Z.mod_small; exact H. Qed.
Lemma u8_id x : 0 <= x < 2 ^ 8 -> u8 x = x.
Proof. intros H; unfold u8; apply Z.mod_small; exact H. Qed.

Lemma land_max x : 0 <= x < 2 ^ 32 -> Z.land x MAX_CODE = x.
Proof.
  intros H. change MAX_CODE with (Z.ones 32). rewrite Z.land_ones by lia.
  apply Z.mod_small; exact H.
Qed.

(** The narrowed interval, in plain arithmetic. *)
Definition nlow (low high cl : Z) : Z := low + (high - low + 1) * cl / 65536.
Definition nhigh (low high ch : Z) : Z := low + (high - low + 1) * ch / 65536 - 1.

Lemma shiftr16 x : Z.shiftr x 16 = x / 65536.
Proof. rewrite Z.shiftr_div_pow2 by lia. reflexivity. Qed.

Lemma narrow_plain low high cl ch :
  norm low high -> 0 <= cl -> cl < ch -> ch <= 65536 ->
  narrow_low low (span_of low high) cl = nlow low high cl /\
  narrow_high low (span_of low high) ch = nhigh low high ch /\
  low <= nlow low high cl /\ nlow low high cl <= nhigh low high ch /\
  nhigh low high ch <= high /\
  (high - low + 1) * (ch - cl) - 65536 < 65536 * (nhigh low high ch - nlow low high cl + 1)
  /\ 65536 * (nhigh low high ch - nlow low high cl + 1) < (high - low + 1) * (ch - cl) + 65536.
Proof.
  intros Hn H0 H1 H2.
  pose proof (norm_span _ _ Hn) as Hs. unfold ONE_FOURTH in Hs.
  assert (Hlo : 0 <= low /\ high < 2 ^ 32 /\ low < high)
    by (unfold norm, ONE_HALF in Hn; lia).
  set (sp := high - low + 1) in *.
  assert (Hspan : span_of low high = sp) by (unfold span_of; fold sp; apply u64_id; lia).
  assert (Hc : 0 <= sp * cl <= sp * 65536) by nia.
  assert (Hh : 0 <= sp * ch <= sp * 65536) by nia.
  assert (Hd : sp * ch >= sp * cl + sp) by nia.
  assert (Hclt : sp * cl < sp * 65536) by nia.
  unfold narrow_low, narrow_high, nlow, nhigh. rewrite Hspan. fold sp.
  rewrite (u64_id (sp * cl)), (u64_id (sp * ch)) by lia.
  rewrite !shiftr16.
  assert (Hq : 0 <= sp * cl / 65536 < sp) by dlia.
  assert (Hq' : 0 < sp * ch / 65536 <= sp) by dlia.
  assert (Hdd : sp * ch / 65536 > sp * cl / 65536) by dlia.
  split; [|split].
  - rewrite (u32_id (sp * cl / 65536)) by lia. apply u32_id. lia.
  - destruct (Z.eq_dec (sp * ch / 65536) (2 ^ 32)) as [E|E].
    + rewrite E. unfold u32.
      assert (low = 0 /\ high = 2 ^ 32 - 1) as [-> ->] by lia.
      reflexivity.
    + rewrite (u32_id (sp * ch / 65536)) by lia. apply u32_id. lia.
  - rewrite Z.mul_sub_distr_l. dlia.
Qed.

(** The scaled value falls in the symbol's CDF slot. *)
Lemma scaled_in_slot low high cl ch v :
  norm low high -> 0 <= cl -> cl < ch -> ch <= 65536 ->
  nlow low high cl <= v <= nhigh low high ch ->
  cl <= scaled_value v low (span_of low high) < ch.
Proof.
  intros Hn H0 H1 H2 Hv.
  destruct (narrow_plain low high cl ch Hn H0 H1 H2) as (_ & _ & Ha & Hb & Hc & _ & _).
  pose proof (norm_span _ _ Hn) as Hs. unfold ONE_FOURTH in Hs.
  assert (Hlo : 0 <= low /\ high < 2 ^ 32 /\ low < high)
    by (unfold norm, ONE_HALF in Hn; lia).
  unfold nlow, nhigh in *.
  assert (Hspan : span_of low high = high - low + 1)
    by (unfold span_of; apply u64_id; lia).
  set (sp := high - low + 1) in *.
  unfold scaled_value, PREC_COUNT. rewrite Hspan.
  rewrite (u64_id (v - low + 1)) by lia.
  rewrite (u64_id ((v - low + 1) * 65536)) by lia.
  rewrite (u64_id ((v - low + 1) * 65536 - 1)) by lia.
  rewrite (true_divide_floor _ sp (((v - low + 1) * 65536 - 1) / sp) 32 16) by lia.
  set (q := ((v - low + 1) * 65536 - 1) / sp).
  assert (Hq : cl <= q < ch).
  { unfold q. split.
    - apply Z.div_le_lower_bound; [lia|].
      assert (sp * cl < 65536 * (sp * cl / 65536) + 65536) by dlia. lia.
    - apply Z.div_lt_upper_bound; [lia|].
      assert (65536 * (sp * ch / 65536) <= sp * ch) by dlia. lia. }
  rewrite u16_id by lia. exact Hq.
Qed.

(** A value inside the interval is scaled to a 16-bit number, whatever the CDF. *)
Lemma scaled_value_range low high v :
  norm low high -> low <= v <= high ->
  0 <= scaled_value v low (span_of low high) < 65536.
Proof.
  intros Hn Hv. apply (scaled_in_slot low high 0 65536 v Hn); try lia.
  unfold nlow, nhigh. dlia.
Qed.

(** Conversely the slot chosen by the scaled value contains the value. *)
Lemma slot_contains low high cl ch v :
  norm low high -> low <= v <= high -> 0 <= cl -> ch <= 65536 ->
  cl <= scaled_value v low (span_of low high) < ch ->
  nlow low high cl <= v <= nhigh low high ch.
Proof.
  intros Hn Hv H0 H2 Hsc.
  pose proof (norm_span _ _ Hn) as Hs. unfold ONE_FOURTH in Hs.
  assert (Hlo : 0 <= low /\ high < 2 ^ 32 /\ low < high)
    by (unfold norm, ONE_HALF in Hn; lia).
  assert (Hspan : span_of low high = high - low + 1)
    by (unfold span_of; apply u64_id; lia).
  set (sp := high - low + 1) in *.
  unfold scaled_value, PREC_COUNT in Hsc. rewrite Hspan in Hsc.
  rewrite (u64_id (v - low + 1)) in Hsc by lia.
  rewrite (u64_id ((v - low + 1) * 65536)) in Hsc by lia.
  rewrite (u64_id ((v - low + 1) * 65536 - 1)) in Hsc by lia.
  rewrite (true_divide_floor _ sp (((v - low + 1) * 65536 - 1) / sp) 32 16) in Hsc by lia.
  assert (Hq : 0 <= ((v - low + 1) * 65536 - 1) / sp < 65536).
  { split; [apply Z.div_pos; lia|]. apply Z.div_lt_upper_bound; lia. }
  rewrite u16_id in Hsc by lia.
  set (q := ((v - low + 1) * 65536 - 1) / sp) in *.
  assert (Hq1 : sp * q <= (v - low + 1) * 65536 - 1)
    by (unfold q; apply Z.mul_div_le; lia).
  assert (Hq2 : (v - low + 1) * 65536 - 1 < sp * (q + 1)).
  { unfold q. pose proof (Z.mul_succ_div_gt ((v - low + 1) * 65536 - 1) sp). lia. }
  unfold nlow, nhigh. fold sp.
  assert (sp * cl <= sp * q) by nia.
  assert (sp * (q + 1) <= sp * ch) by nia.
  split.
  - assert (sp * cl / 65536 < v - low + 1); [|lia].
    apply Z.div_lt_upper_bound; lia.
  - assert (v - low + 1 <= sp * ch / 65536); [|lia].
    apply Z.div_le_lower_bound; lia.
Qed.

(* ------------------------------------------------------------------ *)
(** ** One renormalisation step, in plain arithmetic *)

Definition rlow (low high : Z) : Z :=
  match choose_branch high low with
  | Bzero => 2 * low | Bone => 2 * (low - ONE_HALF) | Bquarter => 2 * (low - ONE_FOURTH) end.
Definition rhigh (low high : Z) : Z :=
  match choose_branch high low with
  | Bzero => 2 * high + 1 | Bone => 2 * (high - ONE_HALF) + 1
  | Bquarter => 2 * (high - ONE_FOURTH) + 1 end.

Lemma shiftl1 x : Z.shiftl x 1 = 2 * x.
Proof. rewrite Z.shiftl_mul_pow2 by lia. change (2 ^ 1) with 2. lia. Qed.

Lemma rstep_wf low high :
  wf low high -> renorm_cond high low = true ->
  wf (rlow low high) (rhigh low high) /\
  rhigh low high - rlow low high + 1 = 2 * (high - low + 1).
Proof.
  unfold wf, renorm_cond, rlow, rhigh, choose_branch, ONE_HALF, ONE_FOURTH, THREE_FOURTHS.
  intros H Hc.
  destruct (high <? 2147483648) eqn:E1; [lia|].
  destruct (2147483648 <=? low) eqn:E2; [lia|].
  destruct ((1073741824 <=? low) && (high <? 3221225472)) eqn:E3; [lia|].
  exfalso; lia.
Qed.

Lemma enc_step_plain s :
  wf (e_low s) (e_high s) -> renorm_cond (e_high s) (e_low s) = true ->
  e_low (enc_step s) = rlow (e_low s) (e_high s) /\
  e_high (enc_step s) = rhigh (e_low s) (e_high s) /\
  match choose_branch (e_high s) (e_low s) with
  | Bzero => e_pending (enc_step s) = O /\
             e_buf (enc_step s) = append_bit_and_pending false (e_pending s) (e_buf s)
  | Bone => e_pending (enc_step s) = O /\
             e_buf (enc_step s) = append_bit_and_pending true (e_pending s) (e_buf s)
  | Bquarter => e_pending (enc_step s) = S (e_pending s) /\ e_buf (enc_step s) = e_buf s
  end.
Proof.
  destruct s as [high low pending buf]; cbn [e_high e_low e_pending e_buf].
  unfold wf, renorm_cond, rlow, rhigh, enc_step, choose_branch; cbn [e_high e_low e_pending e_buf].
  unfold ONE_HALF, ONE_FOURTH, THREE_FOURTHS. intros H Hc.
  destruct (high <? 2147483648) eqn:E1;
    [|destruct (2147483648 <=? low) eqn:E2;
      [|destruct ((1073741824 <=? low) && (high <? 3221225472)) eqn:E3;
        [|exfalso; lia]]];
    cbn [e_high e_low e_pending e_buf]; rewrite ?shiftl1.
  - rewrite !(u32_id (2 * low)), !(u32_id (2 * high)), (u32_id (2 * high + 1)) by lia.
    rewrite !land_max by lia. auto.
  - assert (u32 (2 * low) = 2 * (low - 2147483648)) as -> by (unfold u32; dlia).
    assert (u32 (2 * high) = 2 * (high - 2147483648)) as -> by (unfold u32; dlia).
    rewrite u32_id by lia. rewrite !land_max by lia. auto.
  - rewrite !(u32_id (low - _)), !(u32_id (high - _)) by lia.
    rewrite !(u32_id (2 * (_))) by lia.
    rewrite !(u32_id (_ + 1)) by lia.
    rewrite !land_max by lia. auto.
Qed.

(** Decoder read position as a single bit index, and the bits it sees. *)
Definition dpos (s : decst) : nat := (8 * d_idx s + d_bit s)%nat.

Definition abit (a : list Z) (j : nat) : bool :=
  Z.testbit (gather a (j / 8)) (7 - Z.of_nat (j mod 8)).

(** What the decoder reads at bit [j]: the first 32 bits unmasked (the read
    clamps), later bits masked by the bound check made after the increment. *)
Definition dbit (a : list Z) (j : nat) : bool :=
  if Nat.ltb j 32 then abit a j else abit a j && Nat.ltb ((j + 1) / 8) (length a).

Lemma land1_testbit c k : 0 <= k -> Z.ltb 0 (Z.land (Z.shiftr c k) 1) = Z.testbit c k.
Proof.
  intros Hk. change 1 with (Z.ones 1). rewrite Z.land_ones by lia.
  replace (Z.testbit c k) with (Z.testbit (Z.shiftr c k) 0)
    by (rewrite Z.shiftr_spec by lia; f_equal; lia).
  rewrite Z.bit0_odd. change (2 ^ 1) with 2. rewrite Zmod_odd.
  destruct (Z.odd (Z.shiftr c k)); reflexivity.
Qed.

Lemma retrieve_bit_spec i bi a :
  (bi < 8)%nat ->
  retrieve_bit i bi a =
  (abit a (8 * i + bi), (8 * i + bi + 1) / 8, (8 * i + bi + 1) mod 8)%nat.
Proof.
  intros H. unfold retrieve_bit, abit.
  assert (((8 * i + bi) / 8 = i)%nat) as -> by dlia.
  assert (((8 * i + bi) mod 8 = bi)%nat) as -> by dlia.
  rewrite land1_testbit by lia.
  f_equal; [f_equal|]; dlia.
Qed.

Lemma pos_next n : (8 * ((n + 1) / 8) + (n + 1) mod 8)%nat = S n.
Proof. pose proof (Nat.div_mod_eq (n + 1) 8). lia. Qed.

Definition roff (low high : Z) : Z :=
  match choose_branch high low with
  | Bzero => 0 | Bone => ONE_HALF | Bquarter => ONE_FOURTH end.

Lemma b2z_and x y : Z.b2z x * Z.b2z y = Z.b2z (x && y).
Proof. destruct x, y; reflexivity. Qed.

Lemma branch_facts low high :
  wf low high -> renorm_cond high low = true ->
  match choose_branch high low with
  | Bzero => high < 2147483648
  | Bone => 2147483648 <= low
  | Bquarter => 1073741824 <= low /\ high < 3221225472
  end.
Proof.
  unfold wf, renorm_cond, choose_branch, ONE_HALF, ONE_FOURTH, THREE_FOURTHS. intros H Hc.
  destruct (high <? 2147483648) eqn:E1; [lia|].
  destruct (2147483648 <=? low) eqn:E2; [lia|].
  destruct ((1073741824 <=? low) && (high <? 3221225472)) eqn:E3; lia.
Qed.

Lemma dstep_arith off low high value bb :
  0 <= off <= low -> low <= value <= high -> high - off < 2147483648 -> 0 <= bb <= 1 ->
  high < 4294967296 ->
  u32 (Z.shiftl (u32 (low - off)) 1) = 2 * (low - off) /\
  u32 (u32 (Z.shiftl (u32 (high - off)) 1) + 1) = 2 * (high - off) + 1 /\
  u32 (u32 (Z.shiftl (u32 (value - off)) 1) + bb) = 2 * (value - off) + bb.
Proof.
  intros. rewrite !shiftl1.
  rewrite (u32_id (low - off)), (u32_id (high - off)), (u32_id (value - off)) by lia.
  rewrite (u32_id (2 * (low - off))), (u32_id (2 * (high - off))), (u32_id (2 * (value - off))) by lia.
  rewrite !u32_id by lia. auto.
Qed.

Lemma dec_step_eq a value high low i bi :
  wf low high -> renorm_cond high low = true ->
  low <= value <= high -> (bi < 8)%nat -> (32 <= 8 * i + bi)%nat ->
  dec_step a (mkdec value high low i bi) =
  mkdec (2 * (value - roff low high) + Z.b2z (dbit a (8 * i + bi)))
        (rhigh low high) (rlow low high)
        ((8 * i + bi + 1) / 8) ((8 * i + bi + 1) mod 8).
Proof.
  intros H Hc Hv Hbi Hpos.
  pose proof (branch_facts _ _ H Hc) as HB. destruct H as [H1 H2].
  unfold dec_step, rlow, rhigh, roff; cbn [d_value d_high d_low d_idx d_bit].
  rewrite retrieve_bit_spec by exact Hbi. rewrite b2z_and.
  assert (Hd : dbit a (8 * i + bi) =
    abit a (8 * i + bi) && Nat.ltb ((8 * i + bi + 1) / 8) (length a)).
  { unfold dbit. destruct (Nat.ltb_spec (8 * i + bi) 32) as [Hlt|_]; [lia|reflexivity]. }
  rewrite <- Hd. clear Hd Hpos Hbi.
  generalize (dbit a (8 * i + bi)). intros bb. pose proof (b2z_range bb) as Hr.
  destruct (choose_branch high low).
  - destruct (dstep_arith 0 low high value (Z.b2z bb)) as (E1 & E2 & E3); try lia.
    rewrite !Z.sub_0_r in *. rewrite (u32_id low) in E1 by lia.
    rewrite (u32_id high) in E2 by lia. rewrite (u32_id value) in E3 by lia.
    rewrite E1, E2, E3. reflexivity.
  - destruct (dstep_arith ONE_HALF low high value (Z.b2z bb)) as (E1 & E2 & E3);
      try (unfold ONE_HALF; lia).
    rewrite E1, E2, E3. reflexivity.
  - destruct (dstep_arith ONE_FOURTH low high value (Z.b2z bb)) as (E1 & E2 & E3);
      try (unfold ONE_FOURTH; lia).
    rewrite E1, E2, E3. reflexivity.
Qed.

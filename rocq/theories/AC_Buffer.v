(** The output buffer of the arithmetic coder as a list of emitted bits. *)
From Coq Require Import ZArith List Bool Lia Arith.
From Coq Require Import ZifyBool ZifyNat.
From Verif Require Import Base AC_Model AC_Proofs.
Import ListNotations.
Open Scope Z_scope.

Definition bval (l : list bool) : Z := fold_left (fun v b => 2 * v + Z.b2z b) l 0.

Lemma bval_snoc l b : bval (l ++ [b]) = 2 * bval l + Z.b2z b.
Proof. unfold bval. rewrite fold_left_app. reflexivity. Qed.

Lemma bval_range l : 0 <= bval l < 2 ^ Z.of_nat (length l).
Proof.
  induction l as [|b l IH] using rev_ind; [cbn; lia|].
  rewrite bval_snoc, app_length, Nat.add_comm. cbn [length Nat.add].
  rewrite pow2_S. pose proof (b2z_range b). lia.
Qed.

Lemma bval_testbit l k :
  (k < length l)%nat ->
  Z.testbit (bval l) (Z.of_nat (length l) - 1 - Z.of_nat k) = nth k l false.
Proof.
  revert k. induction l as [|b l IH] using rev_ind; intros k Hk; [cbn in Hk; lia|].
  rewrite bval_snoc. rewrite app_length in *. cbn [length] in *.
  destruct (Nat.eq_dec k (length l)) as [->|Hne].
  - rewrite app_nth2, Nat.sub_diag by lia. cbn [nth].
    replace (_ - 1 - _) with 0 by lia. apply Z.testbit_0_r.
  - rewrite app_nth1 by lia. rewrite <- IH by lia.
    replace (Z.of_nat (length l + 1) - 1 - Z.of_nat k)
      with (Z.succ (Z.of_nat (length l) - 1 - Z.of_nat k)) by lia.
    apply Z.testbit_succ_r. lia.
Qed.

Lemma index_update_length {A} (a : list A) i v : length (index_update a i v) = length a.
Proof.
  unfold index_update. destruct (Nat.ltb_spec i (length a)); [|reflexivity].
  rewrite app_length, firstn_length. cbn [length]. rewrite skipn_length. lia.
Qed.

Lemma index_update_nth (a : list Z) i v q :
  nth q (index_update a i v) 0 =
  if (Nat.eqb q i && Nat.ltb i (length a))%bool then v else nth q a 0.
Proof.
  unfold index_update. destruct (Nat.ltb_spec i (length a)) as [H|H];
    [|rewrite andb_false_r; reflexivity].
  rewrite andb_true_r. destruct (Nat.eqb_spec q i) as [->|Hne].
  - rewrite app_nth2; rewrite firstn_length; [|lia].
    rewrite Nat.min_l by lia. rewrite Nat.sub_diag. reflexivity.
  - destruct (Nat.lt_ge_cases q i).
    + rewrite app_nth1 by (rewrite firstn_length; lia).
      rewrite <- (firstn_skipn i a) at 2.
      rewrite app_nth1 by (rewrite firstn_length; lia). reflexivity.
    + rewrite app_nth2; rewrite firstn_length; [|lia].
      rewrite Nat.min_l by lia.
      replace (q - i)%nat with (S (q - S i)) by lia. cbn [nth].
      rewrite <- (firstn_skipn (S i) a) at 2.
      rewrite app_nth2; rewrite firstn_length; [|lia].
      rewrite Nat.min_l by lia. reflexivity.
Qed.

Lemma Forall_index_update {A} (P : A -> Prop) a i v :
  Forall P a -> P v -> Forall P (index_update a i v).
Proof.
  intros Ha Hv. unfold index_update. destruct (Nat.ltb i (length a)); [|exact Ha].
  rewrite Forall_forall in *.
  assert (Hs : forall n x, In x (firstn n a) \/ In x (skipn n a) -> In x a)
    by (intros n x Hx; rewrite <- (firstn_skipn n a); apply in_or_app; exact Hx).
  intros x Hx. apply in_app_or in Hx as [Hx|[<-|Hx]]; [|exact Hv|];
    apply Ha; eapply Hs; eauto.
Qed.

Definition byte (z : Z) : Prop := 0 <= z < 256.

Definition repr (cap : nat) (b : bitbuf) (out : list bool) : Prop :=
  length (arr b) = cap /\
  idx b = (length out / 8)%nat /\ bit_idx b = (length out mod 8)%nat /\
  cur b = bval (skipn (8 * (length out / 8)) out) /\
  Forall byte (arr b) /\
  forall q, (q < length out / 8)%nat -> (q < cap)%nat ->
    nth q (arr b) 0 = bval (firstn 8 (skipn (8 * q) out)).

Lemma lor_bit x bit : Z.lor (u8 (Z.shiftl x 1)) (Z.b2z bit) = u8 (2 * x + Z.b2z bit).
Proof.
  rewrite shiftl1. unfold u8.
  assert (H : (2 * x) mod 2 ^ 8 = 2 * (x mod 2 ^ 7)).
  { change (2 ^ 8) with (2 * 2 ^ 7). apply Z.mul_mod_distr_l; lia. }
  rewrite H.
  assert (H2 : (2 * x + Z.b2z bit) mod 2 ^ 8 = 2 * (x mod 2 ^ 7) + Z.b2z bit).
  { symmetry. apply (Z.mod_unique_pos _ _ (x / 2 ^ 7)).
    - pose proof (b2z_range bit). pose proof (Z.mod_pos_bound x (2 ^ 7)). lia.
    - pose proof (Z.div_mod x (2 ^ 7)). lia. }
  rewrite H2. apply Z.bits_inj'. intros n Hn. rewrite Z.lor_spec.
  destruct (Z.eq_dec n 0) as [->|Hz].
  - rewrite Z.testbit_even_0, Z.testbit_0_r.
    destruct bit; reflexivity.
  - replace n with (Z.succ (n - 1)) by lia.
    rewrite Z.testbit_succ_r, Z.testbit_even_succ by lia.
    destruct bit; cbn [Z.b2z].
    + rewrite (Z.bits_above_log2 1) by (cbn; lia). apply orb_false_r.
    + rewrite Z.bits_0. apply orb_false_r.
Qed.

Lemma rem_length (out : list bool) :
  length (skipn (8 * (length out / 8)) out) = (length out mod 8)%nat.
Proof. rewrite skipn_length. pose proof (Nat.div_mod_eq (length out) 8). lia. Qed.

Lemma skipn_app_le {A} k (l l' : list A) :
  (k <= length l)%nat -> skipn k (l ++ l') = skipn k l ++ l'.
Proof.
  intros H. rewrite skipn_app. replace (k - length l)%nat with 0%nat by lia. reflexivity.
Qed.

Lemma firstn_app_le {A} k (l l' : list A) :
  (k <= length l)%nat -> firstn k (l ++ l') = firstn k l.
Proof.
  intros H. rewrite firstn_app. replace (k - length l)%nat with 0%nat by lia.
  cbn. apply app_nil_r.
Qed.

Lemma append_bit_repr cap b out bit :
  repr cap b out -> repr cap (append_bit bit b) (out ++ [bit]).
Proof.
  intros (Hlen & Hidx & Hbi & Hcur & Hby & Harr).
  pose proof (Nat.div_mod_eq (length out) 8) as Hdm.
  pose proof (Nat.mod_upper_bound (length out) 8 ltac:(lia)) as Hm.
  pose proof (rem_length out) as Hrl.
  pose proof (bval_range (skipn (8 * (length out / 8)) out)) as Hbr.
  rewrite Hrl in Hbr.
  set (R := skipn (8 * (length out / 8)) out) in *.
  assert (Hbyte : Z.lor (u8 (Z.shiftl (cur b) 1)) (Z.b2z bit) = bval (R ++ [bit])).
  { rewrite lor_bit, bval_snoc, Hcur. apply u8_id.
    pose proof (b2z_range bit).
    assert (2 ^ Z.of_nat (length out mod 8) <= 2 ^ 7) by (apply Z.pow_le_mono_r; lia). lia. }
  pose proof (bval_range (R ++ [bit])) as Hbr2. rewrite app_length, Hrl in Hbr2.
  cbn [length] in Hbr2.
  assert (Hb8 : byte (bval (R ++ [bit]))).
  { unfold byte.
    assert (2 ^ Z.of_nat (length out mod 8 + 1) <= 2 ^ 8) by (apply Z.pow_le_mono_r; lia).
    lia. }
  unfold append_bit, repr. rewrite Hbyte, Hbi, Hidx.
  rewrite app_length. cbn [length].
  destruct (Nat.eqb_spec (S (length out mod 8)) 8) as [E|E].
  - cbn [arr cur idx bit_idx]. rewrite E.
    change (8 / 8)%nat with 1%nat. change (8 mod 8)%nat with 0%nat.
    assert (Hd : ((length out + 1) / 8 = length out / 8 + 1)%nat) by dlia.
    assert (Hmm : ((length out + 1) mod 8 = 0)%nat) by dlia.
    rewrite Hd, Hmm. rewrite index_update_length.
    repeat split; try assumption.
    + rewrite skipn_all2; [reflexivity|]. rewrite app_length; cbn [length]. lia.
    + apply Forall_index_update; assumption.
    + intros q Hq Hqc. rewrite index_update_nth.
      destruct (Nat.eqb_spec q (length out / 8)) as [->|Hne]; cbn [andb].
      * destruct (Nat.ltb_spec (length out / 8) (length (arr b))); [|lia].
        rewrite skipn_app_le by lia. fold R.
        rewrite firstn_all2 by (rewrite app_length, Hrl; cbn [length]; lia). reflexivity.
      * rewrite Harr by lia. rewrite skipn_app_le by lia.
        rewrite firstn_app_le by (rewrite skipn_length; lia). reflexivity.
  - cbn [arr cur idx bit_idx].
    assert (Hd : ((length out + 1) / 8 = length out / 8)%nat) by dlia.
    assert (Hmm : ((length out + 1) mod 8 = S (length out mod 8))%nat) by dlia.
    assert (Hd' : (S (length out mod 8) / 8 = 0)%nat) by (apply Nat.div_small; lia).
    assert (Hm' : (S (length out mod 8) mod 8 = S (length out mod 8))%nat)
      by (apply Nat.mod_small; lia).
    rewrite Hd, Hmm, Hd', Hm', Nat.add_0_r.
    repeat split; try assumption.
    + rewrite skipn_app_le by lia. reflexivity.
    + intros q Hq Hqc. rewrite Harr by lia. rewrite skipn_app_le by lia.
      rewrite firstn_app_le by (rewrite skipn_length; lia). reflexivity.
Qed.

Lemma append_bits_repr cap b out bit p :
  repr cap b out -> repr cap (append_bit_and_pending bit p b) (out ++ bit :: repeat (negb bit) p).
Proof.
  intros H. unfold append_bit_and_pending. induction p as [|p IH].
  - apply append_bit_repr; exact H.
  - cbn [Nat.iter repeat]. rewrite <- repeat_snoc.
    replace (out ++ bit :: repeat (negb bit) p ++ [negb bit])
      with ((out ++ bit :: repeat (negb bit) p) ++ [negb bit])
      by (rewrite <- app_assoc; reflexivity).
    apply append_bit_repr; exact IH.
Qed.

(** The bytes handed back by the encoder when the last byte fits. *)
Definition final_arr (b : bitbuf) : list Z :=
  index_update (arr b) (idx b) (u8 (Z.shiftl (cur b) (8 - Z.of_nat (bit_idx b)))).

Lemma final_byte cap b out :
  repr cap b out -> 
  let c := u8 (Z.shiftl (cur b) (8 - Z.of_nat (bit_idx b))) in
  byte c /\ forall k, (k < length out mod 8)%nat ->
    Z.testbit c (7 - Z.of_nat k) = nth (8 * (length out / 8) + k) out false.
Proof.
  intros (Hlen & Hidx & Hbi & Hcur & Hby & Harr) c.
  pose proof (Nat.mod_upper_bound (length out) 8 ltac:(lia)) as Hm.
  pose proof (rem_length out) as Hrl.
  split; [unfold c, u8, byte; apply Z.mod_pos_bound; lia|].
  intros k Hk. unfold c, u8. rewrite Z.mod_pow2_bits_low by lia.
  rewrite Z.shiftl_spec by lia. rewrite Hcur, Hbi.
  set (R := skipn (8 * (length out / 8)) out) in *.
  replace (7 - Z.of_nat k - (8 - Z.of_nat (length out mod 8)))
    with (Z.of_nat (length R) - 1 - Z.of_nat k) by lia.
  rewrite bval_testbit by lia. unfold R.
  rewrite <- (firstn_skipn (8 * (length out / 8)) out) at 4.
  rewrite app_nth2; rewrite firstn_length; [|lia].
  f_equal. lia.
Qed.

Lemma final_bits cap b out suf j :
  repr cap b out -> (idx b < cap)%nat -> (j < length out)%nat ->
  dbit (firstn (idx b + 1) (final_arr b) ++ suf) j = nth j out false.
Proof.
  intros HR Hfit Hj. destruct (final_byte _ _ _ HR) as [_ Hfb].
  destruct HR as (Hlen & Hidx & Hbi & Hcur & Hby & Harr).
  pose proof (Nat.div_mod_eq (length out) 8) as Hdm.
  pose proof (Nat.div_mod_eq j 8) as Hdj.
  pose proof (Nat.mod_upper_bound j 8 ltac:(lia)) as Hmj.
  assert (Hjd : (j / 8 <= length out / 8)%nat) by (apply Nat.div_le_mono; lia).
  set (bs := firstn (idx b + 1) (final_arr b)).
  assert (Hbl : length bs = (idx b + 1)%nat).
  { unfold bs, final_arr. rewrite firstn_length, index_update_length. lia. }
  assert (Hab : abit (bs ++ suf) j = nth j out false).
  { unfold abit, gather. rewrite app_length, Nat.min_l by lia.
    rewrite app_nth1 by lia. unfold bs.
    assert (Hfn : forall (l : list Z) q n, (q < n)%nat -> nth q (firstn n l) 0 = nth q l 0).
    { induction l as [|x l IH]; intros [|q] [|n] Hq; cbn; try lia; try reflexivity.
      apply IH; lia. }
    rewrite Hfn by lia. unfold final_arr. rewrite index_update_nth.
    destruct (Nat.eqb_spec (j / 8) (idx b)) as [E|E]; cbn [andb].
    - destruct (Nat.ltb_spec (idx b) (length (arr b))); [|lia].
      rewrite Hfb by lia. f_equal. lia.
    - rewrite Harr by lia.
      assert (Hl8 : length (firstn 8 (skipn (8 * (j / 8)) out)) = 8%nat)
        by (rewrite firstn_length, skipn_length; lia).
      pose proof (bval_testbit (firstn 8 (skipn (8 * (j / 8)) out)) (j mod 8)) as Ht.
      rewrite Hl8 in Ht.
      replace (7 - Z.of_nat (j mod 8)) with (Z.of_nat 8 - 1 - Z.of_nat (j mod 8)) by lia.
      rewrite Ht by lia.
      assert (Hfn' : forall (l : list bool) q n, (q < n)%nat -> nth q (firstn n l) false = nth q l false).
      { induction l as [|x l IH]; intros [|q] [|n] Hq; cbn; try lia; try reflexivity.
        apply IH; lia. }
      rewrite Hfn' by lia.
      rewrite <- (firstn_skipn (8 * (j / 8)) out) at 2.
      rewrite app_nth2; rewrite firstn_length; [|lia]. f_equal. lia. }
  unfold dbit. destruct (Nat.ltb j 32); [exact Hab|].
  rewrite Hab. destruct (Nat.ltb_spec ((j + 1) / 8) (length (bs ++ suf))) as [_|Hge];
    [apply andb_true_r|].
  exfalso. rewrite app_length in Hge.
  assert (((j + 1) / 8 <= length out / 8)%nat) by (apply Nat.div_le_mono; lia). lia.
Qed.

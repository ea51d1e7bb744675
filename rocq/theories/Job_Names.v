(** Numbers in the names of checkpoints. *)
From Coq Require Import ZArith List Bool Lia.
From Verif Require Import Base Job_Model.
Import ListNotations.
Open Scope Z_scope.

Definition value (ds : list Z) : Z := fold_left (fun a d => 10 * a + d) ds 0.

Lemma value_app ds d : value (ds ++ [d]) = 10 * value ds + d.
Proof. unfold value. now rewrite fold_left_app. Qed.
Lemma value_pad w ds : value (pad w ds) = value ds.
Proof.
  unfold pad, value. rewrite fold_left_app. f_equal. induction (w - length ds)%nat as [|k IH]; [reflexivity|].
  cbn [repeat fold_left]. exact IH.
Qed.
Lemma read_digits_value : forall ds acc,
  read_digits acc (map Dg ds) = Ok (fold_left (fun a d => 10 * a + d) ds acc).
Proof. induction ds as [|d ds IH]; intro acc; cbn; [reflexivity | apply IH]. Qed.

Lemma digits_fuel_S f n : digits_fuel (S f) n = if n <? 10 then [n] else digits_fuel f (n / 10) ++ [n mod 10].
Proof. reflexivity. Qed.

Lemma digits_spec : forall f n, 0 <= n < 2 ^ Z.of_nat f -> (1 <= f)%nat ->
  value (digits_fuel f n) = n /\ (1 <= length (digits_fuel f n))%nat /\
  forall k, (1 <= k)%nat -> n < 10 ^ Z.of_nat k <-> (length (digits_fuel f n) <= k)%nat.
Proof.
  induction f as [|f IH]; intros n Hn Hf; [lia|]. rewrite digits_fuel_S.
  destruct (Z.ltb_spec n 10) as [L|L].
  - cbn. split; [lia|]. split; [lia|]. intros k Hk. split; [lia|]. intros _.
    apply Z.lt_le_trans with (10 ^ 1); [cbn; lia|]. apply Z.pow_le_mono_r; lia.
  - rewrite Nat2Z.inj_succ, Z.pow_succ_r in Hn by lia.
    pose proof (Z.div_mod n 10 ltac:(lia)) as D. pose proof (Z.mod_pos_bound n 10 ltac:(lia)) as M.
    assert (F1 : (1 <= f)%nat) by (destruct f; [cbn in Hn; lia | lia]).
    destruct (IH (n / 10) ltac:(lia) F1) as (A & B & C).
    rewrite value_app, app_length. cbn [length]. split; [lia|]. split; [lia|].
    intros k Hk. destruct k as [|[|k]]; [lia| |].
    + split; [cbn; lia | lia].
    + specialize (C (S k) ltac:(lia)).
      replace (10 ^ Z.of_nat (S (S k))) with (10 * 10 ^ Z.of_nat (S k))
        by (rewrite <- Z.pow_succ_r by lia; f_equal; lia).
      split; intro H.
      * assert (n / 10 < 10 ^ Z.of_nat (S k)) by (apply Z.div_lt_upper_bound; lia). apply C in H0. lia.
      * assert (H0 : (length (digits_fuel f (n / 10)) <= S k)%nat) by lia. apply C in H0. lia.
Qed.

Lemma fuel_ok n : 0 <= n -> 0 <= n < 2 ^ Z.of_nat (S (Z.to_nat (Z.log2 n))).
Proof.
  intro H. split; [exact H|]. rewrite Nat2Z.inj_succ, Z2Nat.id by apply Z.log2_nonneg.
  destruct (Z.eq_dec n 0) as [->|NZ]; [reflexivity|]. apply Z.log2_spec. lia.
Qed.

Lemma digits_value n : 0 <= n -> value (digits n) = n.
Proof. intro H. apply digits_spec; [now apply fuel_ok | lia]. Qed.
Lemma digits_length n k : 0 <= n -> (1 <= k)%nat -> n < 10 ^ Z.of_nat k <-> (length (digits n) <= k)%nat.
Proof. intros H Hk. apply digits_spec; [now apply fuel_ok | lia | exact Hk]. Qed.
Lemma digits_nonempty n : 0 <= n -> (1 <= length (digits n))%nat.
Proof. intro H. apply digits_spec; [now apply fuel_ok | lia]. Qed.

(** the last [k] digits *)
Lemma last_digits : forall k f n, 0 <= n < 2 ^ Z.of_nat f -> (1 <= f)%nat ->
  (k <= length (digits_fuel f n))%nat ->
  value (skipn (length (digits_fuel f n) - k) (digits_fuel f n)) = n mod 10 ^ Z.of_nat k.
Proof.
  induction k as [|k IH]; intros f n Hn Hf HL.
  - rewrite Nat.sub_0_r, skipn_all. cbn. now rewrite Z.mod_1_r.
  - destruct f as [|f]; [lia|]. rewrite digits_fuel_S in *. destruct (Z.ltb_spec n 10) as [L|L].
    + cbn [length] in *. replace k with 0%nat by lia. cbn. rewrite Z.mod_small; lia.
    + rewrite app_length in *. cbn [length] in *.
      rewrite Nat2Z.inj_succ, Z.pow_succ_r in Hn by lia.
      pose proof (Z.div_mod n 10 ltac:(lia)) as D. pose proof (Z.mod_pos_bound n 10 ltac:(lia)) as M.
      assert (F1 : (1 <= f)%nat) by (destruct f; [cbn in Hn; lia | lia]).
      specialize (IH f (n / 10) ltac:(lia) F1 ltac:(lia)).
      set (l := digits_fuel f (n / 10)) in *.
      replace (length l + 1 - S k)%nat with (length l - k)%nat by lia.
      rewrite skipn_app. replace (length l - k - length l)%nat with 0%nat by lia. cbn [skipn].
      rewrite value_app, IH. rewrite Nat2Z.inj_succ, Z.pow_succ_r by lia.
      rewrite (Z.rem_mul_r n 10 (10 ^ Z.of_nat k)) by (try apply Z.pow_nonzero; lia). lia.
Qed.

Lemma read_int_digits ds : ds <> [] -> read_int (map Dg ds) = Ok (value ds).
Proof. intro H. destruct ds as [|d ds]; [easy|]. cbn [map read_int]. exact (read_digits_value (d :: ds) 0). Qed.

Lemma pad_length w l : length (pad w l) = Nat.max w (length l).
Proof. unfold pad. rewrite app_length, repeat_length. lia. Qed.
Lemma pad_long w l : (w <= length l)%nat -> pad w l = l.
Proof. intro H. unfold pad. replace (w - length l)%nat with 0%nat by lia. reflexivity. Qed.

(** Reading back a name gives the last six digits, without the sign if there are as
    many. *)
Theorem parse_fmt_nonneg n : 0 <= n -> parse6 (fmt06 n) = Ok (n mod 10 ^ 6).
Proof.
  intro H. unfold parse6, fmt06. rewrite (proj2 (Z.ltb_ge _ _)) by lia.
  rewrite map_length, pad_length. rewrite (skipn_map Dg).
  pose proof (digits_nonempty n H) as NE.
  destruct (Nat.le_gt_cases (length (digits n)) 6) as [L|L].
  - replace (Nat.max 6 (length (digits n)) - 6)%nat with 0%nat by lia. cbn [skipn].
    rewrite read_int_digits by (intro E; apply (f_equal (@length Z)) in E; rewrite pad_length in E; cbn [length] in E; lia).
    rewrite value_pad, digits_value by exact H. f_equal. symmetry. apply Z.mod_small. split; [exact H|].
    apply (digits_length n 6); [exact H | lia | exact L].
  - rewrite pad_long by lia. replace (Nat.max 6 (length (digits n)) - 6)%nat with (length (digits n) - 6)%nat by lia.
    rewrite read_int_digits.
    + f_equal. apply last_digits; [now apply fuel_ok | lia |].
      unfold digits in L. lia.
    + intro E. apply (f_equal (@length Z)) in E. rewrite skipn_length in E. cbn [length] in E. lia.
Qed.

Theorem parse_fmt_neg n : 0 < n -> parse6 (fmt06 (- n)) = Ok (if n <? 10 ^ 5 then - n else n mod 10 ^ 6).
Proof.
  intro H. unfold parse6, fmt06. rewrite (proj2 (Z.ltb_lt _ _)) by lia.
  rewrite Z.opp_involutive. cbn [length]. rewrite map_length, pad_length.
  pose proof (digits_nonempty n ltac:(lia)) as NE.
  pose proof (digits_length n 5 ltac:(lia) ltac:(lia)) as DL. change (Z.of_nat 5) with 5 in DL.
  destruct (Z.ltb_spec n (10 ^ 5)) as [L|L].
  - apply DL in L. replace (S (Nat.max 5 (length (digits n))) - 6)%nat with 0%nat by lia. cbn [skipn].
    unfold read_int. destruct (map Dg (pad 5 (digits n))) as [|c s] eqn:E.
    + apply (f_equal (@length ch)) in E. rewrite map_length, pad_length in E. cbn [length] in E. lia.
    + rewrite <- E, read_digits_value. cbn [bind]. change (fold_left _ ?l 0) with (value l).
      rewrite value_pad, digits_value by lia. reflexivity.
  - assert (L' : (6 <= length (digits n))%nat).
    { destruct (Nat.le_gt_cases (length (digits n)) 5) as [X|X]; [|lia]. apply DL in X. lia. }
    rewrite pad_long by lia.
    replace (S (Nat.max 5 (length (digits n))) - 6)%nat with (S (length (digits n) - 6))%nat by lia.
    cbn [skipn]. rewrite (skipn_map Dg). rewrite read_int_digits.
    + f_equal. apply last_digits; [apply fuel_ok; lia | lia | unfold digits in L'; lia].
    + intro E. apply (f_equal (@length Z)) in E. rewrite skipn_length in E. cbn [length] in E. lia.
Qed.

Corollary parse_fmt n : - 10 ^ 5 < n < 10 ^ 6 -> parse6 (fmt06 n) = Ok n.
Proof.
  intro H. destruct (Z_lt_le_dec n 0) as [N|N].
  - replace n with (- (- n)) at 1 by lia. rewrite parse_fmt_neg by lia.
    rewrite (proj2 (Z.ltb_lt _ _)) by lia. f_equal. lia.
  - rewrite parse_fmt_nonneg by lia. f_equal. apply Z.mod_small. lia.
Qed.
Corollary fmt_inj a b : - 10 ^ 5 < a < 10 ^ 6 -> - 10 ^ 5 < b < 10 ^ 6 -> fmt06 a = fmt06 b -> a = b.
Proof.
  intros A B E. pose proof (parse_fmt a A) as P. rewrite E, (parse_fmt b B) in P. now injection P.
Qed.

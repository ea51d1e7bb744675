(** IEEE-754 rounding to nearest even, without overflow, as a function on reals. *)
From Coq Require Import ZArith Reals Lia Lra.
From Flocq Require Import Core Relative.
From Verif Require Import RBase.
Open Scope Z_scope.

Definition b64 : R -> R := round radix2 (FLT_exp (-1074) 53) ZnearestE.
Definition b32 : R -> R := round radix2 (FLT_exp (-149) 24) ZnearestE.

Lemma prec53 : FLX.Prec_gt_0 53. Proof. reflexivity. Qed.
Lemma prec24 : FLX.Prec_gt_0 24. Proof. reflexivity. Qed.

Lemma b64_rel x : (1 <= Rabs x)%R -> (Rabs (b64 x - x) <= bpow radix2 (-53) * Rabs x)%R.
Proof.
  intro H. pose proof (relative_error_N_FLT radix2 (-1074) 53 prec53 (fun x => negb (Z.even x)) x) as E.
  replace (bpow radix2 (Z.opp 53 + 1)) with (2 * bpow radix2 (-53))%R in E
    by (change (Z.opp 53) with (-53); rewrite (bpow_plus radix2 (-53) 1); change (bpow radix2 1) with 2%R; ring). unfold b64.
  eapply Rle_trans; [apply E|].
  - apply Rle_trans with 1%R; [|exact H]. change 1%R with (bpow radix2 0). apply bpow_le. lia.
  - clear. generalize (Rabs x). intro a. match goal with |- context [bpow radix2 ?e] => generalize (bpow radix2 e) end. intro b. lra.
Qed.
Lemma b32_rel x : (1 <= Rabs x)%R -> (Rabs (b32 x - x) <= bpow radix2 (-24) * Rabs x)%R.
Proof.
  intro H. pose proof (relative_error_N_FLT radix2 (-149) 24 prec24 (fun x => negb (Z.even x)) x) as E.
  replace (bpow radix2 (Z.opp 24 + 1)) with (2 * bpow radix2 (-24))%R in E
    by (change (Z.opp 24) with (-24); rewrite (bpow_plus radix2 (-24) 1); change (bpow radix2 1) with 2%R; ring). unfold b32.
  eapply Rle_trans; [apply E|].
  - apply Rle_trans with 1%R; [|exact H]. change 1%R with (bpow radix2 0). apply bpow_le. lia.
  - clear. generalize (Rabs x). intro a. match goal with |- context [bpow radix2 ?e] => generalize (bpow radix2 e) end. intro b. lra.
Qed.

Lemma bpow_m53 : bpow radix2 (-53) = (/ 9007199254740992)%R.
Proof. reflexivity. Qed.
Lemma bpow_m24 : bpow radix2 (-24) = (/ 16777216)%R.
Proof. reflexivity. Qed.

Lemma format_int emin prec k : FLX.Prec_gt_0 prec -> emin <= 0 -> Z.abs k <= 2 ^ prec ->
  generic_format radix2 (FLT_exp emin prec) (IZR k).
Proof.
  intros P E H. destruct (Z.eq_dec (Z.abs k) (2 ^ prec)) as [Q|Q].
  - assert (IZR k = bpow radix2 prec \/ IZR k = (- bpow radix2 prec)%R) as [-> | ->].
    { rewrite <- (IZR_Zpower radix2 prec) by (unfold FLX.Prec_gt_0 in P; lia).
      change (radix2 ^ prec)%Z with (2 ^ prec)%Z. rewrite <- opp_IZR.
      destruct (Zabs_spec k) as [[A B]|[A B]]; [left | right]; f_equal; lia. }
    + apply generic_format_FLT_bpow; [exact P|]. unfold FLX.Prec_gt_0 in P. lia.
    + apply generic_format_opp. apply generic_format_FLT_bpow; [exact P|]. unfold FLX.Prec_gt_0 in P. lia.
  - apply generic_format_FLT. exists (Float radix2 k 0).
    + unfold F2R; cbn. ring.
    + cbn [Fnum]. change (Z.pow radix2 prec) with (2 ^ prec). lia.
    + exact E.
Qed.

Lemma b64_int k : Z.abs k <= 2 ^ 53 -> b64 (IZR k) = IZR k.
Proof.
  intro H. apply round_generic; [apply valid_rnd_N|]. apply format_int; [apply prec53 | lia | exact H].
Qed.
Lemma b32_int k : Z.abs k <= 2 ^ 24 -> b32 (IZR k) = IZR k.
Proof.
  intro H. apply round_generic; [apply valid_rnd_N|]. apply format_int; [apply prec24 | lia | exact H].
Qed.
Lemma b64_mono x y : (x <= y)%R -> (b64 x <= b64 y)%R.
Proof. apply round_le; [apply FLT_exp_valid, prec53 | apply valid_rnd_N]. Qed.
Lemma b32_mono x y : (x <= y)%R -> (b32 x <= b32 y)%R.
Proof. apply round_le; [apply FLT_exp_valid, prec24 | apply valid_rnd_N]. Qed.

(** Numbers below half the smallest subnormal round to 0; small multiples of 1/16 are
    exact. *)
Lemma b32_tiny v : (0 <= v < / 2 ^ 151)%R -> b32 v = 0%R.
Proof.
  intros [V0 V1]. unfold b32.
  destruct (Req_dec v 0) as [->|N]; [apply round_0; typeclasses eauto|].
  apply (round_N_small_pos _ _ _ v (mag radix2 v)).
  - destruct (mag radix2 v) as [e E]; simpl.
    specialize (E N). rewrite Rabs_right in E by lra. exact E.
  - assert (M : mag radix2 v <= -151).
    { apply mag_le_bpow; [exact N|]. rewrite Rabs_right by lra.
      replace (bpow radix2 (-151)) with (/ 2 ^ 151)%R; [exact V1|].
      change (-151) with (Z.opp 151). rewrite (bpow_opp radix2 151). f_equal.
      rewrite pow_IZR. reflexivity. }
    unfold FLT_exp. lia.
Qed.
Lemma b32_sixteenth k : Z.abs k < 2 ^ 24 -> b32 (IZR k / 16) = (IZR k / 16)%R.
Proof.
  intros K. unfold b32. apply round_generic; [typeclasses eauto|].
  apply generic_format_FLT.
  apply (FLT_spec _ _ _ _ (Float radix2 k (-4))); [|exact K|simpl; lia].
  unfold F2R. simpl. lra.
Qed.

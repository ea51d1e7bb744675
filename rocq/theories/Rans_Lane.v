(** Arithmetic of one lane of the rANS coder. *)
From Coq Require Import ZArith List Bool Lia.
From Verif Require Import Base Rans_Model Rans_Spec.
Import ListNotations.
Open Scope Z_scope.

(** Renormalisation of one lane against the threshold [t = f * 2^(24-p)]. *)
Definition fl3 (t x : Z) : bool := 16777216 * t <=? x.
Definition ln1 (t x : Z) : Z := if fl3 t x then x / 256 else x.
Definition fl2 (t x : Z) : bool := 65536 * t <=? ln1 t x.
Definition ln2 (t x : Z) : Z := if fl2 t x then ln1 t x / 256 else ln1 t x.
Definition fl1 (t x : Z) : bool := 256 * t <=? ln2 t x.
Definition ln3 (t x : Z) : Z := if fl1 t x then ln2 t x / 256 else ln2 t x.

Ltac flia :=
  repeat match goal with
  | |- context [?a <=? ?b] =>
      lazymatch a with context [if _ then _ else _] => fail | _ => idtac end;
      lazymatch b with context [if _ then _ else _] => fail | _ => idtac end;
      destruct (Z.leb_spec a b)
  | |- context [?a <? ?b] =>
      lazymatch a with context [if _ then _ else _] => fail | _ => idtac end;
      lazymatch b with context [if _ then _ else _] => fail | _ => idtac end;
      destruct (Z.ltb_spec a b)
  end; try reflexivity; dlia.

Lemma lane_push t x : 1 <= t <= 16777216 -> 16777216 <= x < 4294967296 ->
  t <= ln3 t x < 256 * t /\
  (ln3 t x <? 16777216) = fl1 t x /\
  (ln2 t x <? 16777216) = fl2 t x /\
  (ln1 t x <? 16777216) = fl3 t x.
Proof.
  unfold ln3, fl1, ln2, fl2, ln1, fl3. intros Ht Hx.
  repeat split; flia.
Qed.

(** Refill of one lane, with the byte to use at each stage. *)
Definition g (y b : Z) : Z := if y <? 16777216 then y * 256 + b else y.

Lemma g_shift y b : is_byte b -> (if y <? 16777216 then g y b / 256 else g y b) = y.
Proof. unfold is_byte, g. intro. flia. Qed.

Lemma lane_pop t y b1 b2 b3 : 1 <= t <= 16777216 -> t <= y < 256 * t ->
  is_byte b1 -> is_byte b2 -> is_byte b3 ->
  let y1 := g y b1 in let y2 := g y1 b2 in let y3 := g y2 b3 in
  16777216 <= y3 < 4294967296 /\
  fl3 t y3 = (y2 <? 16777216) /\ ln1 t y3 = y2 /\
  fl2 t y3 = (y1 <? 16777216) /\ ln2 t y3 = y1 /\
  fl1 t y3 = (y <? 16777216) /\ ln3 t y3 = y.
Proof.
  unfold is_byte. intros Ht Hy H1 H2 H3. cbv zeta.
  assert (A : 16777216 <= g (g (g y b1) b2) b3 < 4294967296)
    by (unfold g; flia).
  assert (B : fl3 t (g (g (g y b1) b2) b3) = (g (g y b1) b2 <? 16777216))
    by (unfold fl3, g; flia).
  assert (C : ln1 t (g (g (g y b1) b2) b3) = g (g y b1) b2).
  { unfold ln1. rewrite B. apply g_shift; easy. }
  assert (D : fl2 t (g (g (g y b1) b2) b3) = (g y b1 <? 16777216))
    by (unfold fl2; rewrite C; unfold g; flia).
  assert (E : ln2 t (g (g (g y b1) b2) b3) = g y b1).
  { unfold ln2. rewrite D, C. apply g_shift; easy. }
  assert (F : fl1 t (g (g (g y b1) b2) b3) = (y <? 16777216))
    by (unfold fl1; rewrite E; unfold g; flia).
  assert (G : ln3 t (g (g (g y b1) b2) b3) = y).
  { unfold ln3. rewrite F, E. apply g_shift; easy. }
  tauto.
Qed.

Lemma shr_flag f p j x : 0 <= p <= 24 -> 1 <= f -> 0 <= j <= 2 -> 0 <= x < 2 ^ 32 ->
  (f <=? shr x (j * 8 + 32 - p)) = (2 ^ (8 * (j + 1)) * (f * 2 ^ (24 - p)) <=? x).
Proof.
  intros Hp Hf Hj Hx.
  assert (E : 2 ^ (8 * (j + 1)) * (f * 2 ^ (24 - p)) = f * 2 ^ (j * 8 + 32 - p)).
  { replace (j * 8 + 32 - p) with (8 * (j + 1) + (24 - p)) by lia.
    rewrite Z.pow_add_r by lia. ring. }
  rewrite E. unfold shr.
  destruct (Z.ltb_spec (j * 8 + 32 - p) 0); [lia|]. cbn [orb].
  destruct (Z.leb_spec 32 (j * 8 + 32 - p)).
  - assert (2 ^ 32 <= 2 ^ (j * 8 + 32 - p)) by (apply Z.pow_le_mono_r; lia).
    destruct (Z.leb_spec f 0); [lia|].
    symmetry. apply Z.leb_gt. nia.
  - assert (0 < 2 ^ (j * 8 + 32 - p)) by (apply Z.pow_pos_nonneg; lia).
    apply Bool.eq_iff_eq_true. rewrite !Z.leb_le. split; intro.
    + etransitivity; [apply Z.mul_le_mono_nonneg_r; [lia|eassumption]|].
      rewrite Z.mul_comm. now apply Z.mul_div_le.
    + apply Z.div_le_lower_bound; lia.
Qed.

(** State word built from the quotient and remainder, and read back. *)
Lemma word_push f p lo hi y : 0 <= p <= 24 -> 0 <= lo -> hi <= 2 ^ p -> f = hi - lo ->
  1 <= f -> f * 2 ^ (24 - p) <= y < 256 * (f * 2 ^ (24 - p)) ->
  let z := y / f * 2 ^ p + y mod f + lo in
  2 ^ 24 <= z < 2 ^ 32 /\ y / f * 2 ^ p < 2 ^ 32 /\
  z / 2 ^ p = y / f /\ z mod 2 ^ p = y mod f + lo /\
  lo <= z mod 2 ^ p < hi /\
  f * (z / 2 ^ p) + (z mod 2 ^ p - lo) = y.
Proof.
  intros Hp Hlo Hhi Hf Hf1 Hy z.
  assert (HP : 0 < 2 ^ p) by (apply Z.pow_pos_nonneg; lia).
  assert (HQ : 0 < 2 ^ (24 - p)) by (apply Z.pow_pos_nonneg; lia).
  assert (E24 : 2 ^ 24 = 2 ^ (24 - p) * 2 ^ p).
  { rewrite <- Z.pow_add_r by lia. f_equal; lia. }
  assert (E32 : 2 ^ 32 = 256 * 2 ^ 24) by reflexivity.
  pose proof (Z.mod_pos_bound y f ltac:(lia)) as HM.
  pose proof (Z.div_mod y f ltac:(lia)) as HD.
  assert (L : 2 ^ (24 - p) <= y / f) by (apply Z.div_le_lower_bound; lia).
  assert (U : y / f < 256 * 2 ^ (24 - p)) by (apply Z.div_lt_upper_bound; lia).
  assert (Hz1 : z / 2 ^ p = y / f).
  { unfold z. rewrite <- Z.add_assoc, Z.add_comm, Z.div_add by lia.
    rewrite Z.div_small by lia. lia. }
  assert (Hz2 : z mod 2 ^ p = y mod f + lo).
  { unfold z. rewrite <- Z.add_assoc, Z.add_comm, Z.mod_add by lia.
    apply Z.mod_small; lia. }
  rewrite Hz1, Hz2. rewrite E32, E24. unfold z. repeat split; try lia; try nia.
Qed.

Lemma word_pop f p lo hi z : 0 <= p <= 24 -> 0 <= lo -> hi <= 2 ^ p -> f = hi - lo ->
  2 ^ 24 <= z < 2 ^ 32 -> lo <= z mod 2 ^ p < hi ->
  let y := f * (z / 2 ^ p) + (z mod 2 ^ p - lo) in
  f * 2 ^ (24 - p) <= y < 256 * (f * 2 ^ (24 - p)) /\
  f * (z / 2 ^ p) < 2 ^ 32 /\ y < 2 ^ 32 /\
  y / f * 2 ^ p + y mod f + lo = z.
Proof.
  intros Hp Hlo Hhi Hf Hz Hi y.
  assert (HP : 0 < 2 ^ p) by (apply Z.pow_pos_nonneg; lia).
  assert (HQ : 0 < 2 ^ (24 - p)) by (apply Z.pow_pos_nonneg; lia).
  assert (E24 : 2 ^ 24 = 2 ^ (24 - p) * 2 ^ p).
  { rewrite <- Z.pow_add_r by lia. f_equal; lia. }
  assert (E32 : 2 ^ 32 = 256 * 2 ^ 24) by reflexivity.
  assert (L : 2 ^ (24 - p) <= z / 2 ^ p) by (apply Z.div_le_lower_bound; lia).
  assert (U : z / 2 ^ p < 256 * 2 ^ (24 - p)) by (apply Z.div_lt_upper_bound; lia).
  assert (Y1 : y / f = z / 2 ^ p).
  { unfold y. rewrite Z.add_comm, Z.mul_comm, Z.div_add by lia.
    rewrite Z.div_small by lia. lia. }
  assert (Y2 : y mod f = z mod 2 ^ p - lo).
  { unfold y. rewrite Z.add_comm, Z.mul_comm, Z.mod_add by lia.
    apply Z.mod_small; lia. }
  pose proof (Z.div_mod z (2 ^ p) ltac:(lia)) as HD.
  rewrite Y1, Y2. rewrite E32, E24. unfold y. repeat split; try lia; try nia.
Qed.

(** Flattening and unflattening of compressed messages. *)
From Coq Require Import ZArith List Bool Lia.
From Verif Require Import Base Rans_Model Rans_Spec Rans_Sort Rans_Lane Rans_Stack Rans_Refine.
Import ListNotations.
Open Scope Z_scope.

Lemma lor_add a b k : 0 <= k -> 0 <= b < 2 ^ k -> Z.lor (a * 2 ^ k) b = a * 2 ^ k + b.
Proof.
  intros Hk Hb.
  assert (El : Z.land (a * 2 ^ k) b = 0).
  { apply Z.bits_inj'. intros i Hi. rewrite Z.land_spec, Z.bits_0.
    destruct (Z.ltb_spec i k).
    - rewrite Z.mul_pow2_bits_low by lia. reflexivity.
    - rewrite <- (Z.mod_small b (2 ^ k)) by lia.
      rewrite Z.mod_pow2_bits_high by lia. apply andb_false_r. }
  rewrite <- Z.lxor_lor by easy. now rewrite <- Z.add_nocarry_lxor.
Qed.

Definition join (b3 b2 b1 b0 : Z) : Z := b3 * 16777216 + b2 * 65536 + b1 * 256 + b0.

Lemma join_lor b3 b2 b1 b0 : is_byte b3 -> is_byte b2 -> is_byte b1 -> is_byte b0 ->
  Z.lor (Z.lor (Z.lor (u32 (b3 * 2 ^ (3 * TAIL_PRECISION))) (u32 (b2 * 2 ^ (2 * TAIL_PRECISION))))
               (u32 (b1 * 2 ^ (1 * TAIL_PRECISION)))) b0 = join b3 b2 b1 b0.
Proof.
  unfold is_byte, join, u32. intros H3 H2 H1 H0.
  change (3 * TAIL_PRECISION) with 24. change (2 * TAIL_PRECISION) with 16.
  change (1 * TAIL_PRECISION) with 8.
  rewrite !Z.mod_small by
    (change (2 ^ 24) with 16777216; change (2 ^ 16) with 65536; change (2 ^ 8) with 256;
     change (2 ^ 32) with 4294967296; lia).
  rewrite lor_add by (change (2 ^ 16) with 65536; change (2 ^ 24) with 16777216; lia).
  replace (b3 * 2 ^ 24 + b2 * 2 ^ 16) with ((b3 * 256 + b2) * 2 ^ 16)
    by (change (2 ^ 24) with 16777216; change (2 ^ 16) with 65536; lia).
  rewrite lor_add by (change (2 ^ 16) with 65536; change (2 ^ 8) with 256; lia).
  replace ((b3 * 256 + b2) * 2 ^ 16 + b1 * 2 ^ 8) with (((b3 * 256 + b2) * 256 + b1) * 2 ^ 8)
    by (change (2 ^ 16) with 65536; change (2 ^ 8) with 256; lia).
  rewrite lor_add by (change (2 ^ 8) with 256; lia).
  change (2 ^ 8) with 256. lia.
Qed.

Lemma shr24 x : shr x (3 * TAIL_PRECISION) = x / 16777216.
Proof. reflexivity. Qed.
Lemma shr16 x : shr x (2 * TAIL_PRECISION) = x / 65536.
Proof. reflexivity. Qed.
Lemma shr8 x : shr x TAIL_PRECISION = x / 256.
Proof. reflexivity. Qed.

Lemma split_join x : 0 <= x < 4294967296 ->
  join (u8 (shr x (3 * TAIL_PRECISION))) (u8 (shr x (2 * TAIL_PRECISION)))
       (u8 (shr x TAIL_PRECISION)) (u8 x) = x.
Proof.
  intro H. rewrite shr24, shr16, shr8. unfold join, u8. change (2 ^ 8) with 256. dlia.
Qed.

Lemma u8_byte x : is_byte (u8 x).
Proof. unfold is_byte, u8. change (2 ^ 8) with 256. dlia. Qed.

Lemma join_split b3 b2 b1 b0 : is_byte b3 -> is_byte b2 -> is_byte b1 -> is_byte b0 ->
  let x := join b3 b2 b1 b0 in
  u8 (shr x (3 * TAIL_PRECISION)) = b3 /\ u8 (shr x (2 * TAIL_PRECISION)) = b2 /\
  u8 (shr x TAIL_PRECISION) = b1 /\ u8 x = b0.
Proof.
  unfold is_byte. intros H3 H2 H1 H0. cbv zeta. rewrite shr24, shr16, shr8. unfold join, u8.
  change (2 ^ 8) with 256. repeat split; dlia.
Qed.

(** The four planes of head bytes. *)
Definition plane (k : Z) (hs : list Z) : list Z := map (fun x => u8 (shr x k)) hs.
Definition ser (hs : list Z) : list Z :=
  plane (3 * TAIL_PRECISION) hs ++ plane (2 * TAIL_PRECISION) hs
  ++ plane TAIL_PRECISION hs ++ map u8 hs.

Lemma ser_len hs : length (ser hs) = (4 * length hs)%nat.
Proof. unfold ser, plane. rewrite !app_length, !map_length. lia. Qed.

Lemma c2a_ser m : craymessage_to_array m = (ser (heads m) ++ data m, zlen (heads m) * 4 + ptr m).
Proof. unfold craymessage_to_array, ser, plane. now rewrite <- !app_assoc. Qed.

Lemma slice_skip {A} (a b c : list A) i j : i = length a -> j = (length a + length b)%nat ->
  slice (a ++ b ++ c) i j = b.
Proof.
  intros -> ->. unfold slice. rewrite skipn_app, skipn_all, Nat.sub_diag. cbn [app skipn].
  rewrite firstn_app. replace (length a + length b - length a)%nat with (length b) by lia.
  now rewrite firstn_all, Nat.sub_diag, firstn_O, app_nil_r.
Qed.

Lemma a2c_planes n A3 A2 A1 A0 d l :
  length A3 = n -> length A2 = n -> length A1 = n -> length A0 = n ->
  array_to_craymessage (A3 ++ A2 ++ A1 ++ A0 ++ d) n l =
  mk_msg (map2 (fun x y => Z.lor x y)
           (map2 (fun x y => Z.lor x y)
              (map2 (fun x y => Z.lor (u32 (x * 2 ^ (3 * TAIL_PRECISION)))
                                 (u32 (y * 2 ^ (2 * TAIL_PRECISION)))) A3 A2)
              (map (fun y => u32 (y * 2 ^ (1 * TAIL_PRECISION))) A1)) A0) l d.
Proof.
  intros H3 H2 H1 H0. unfold array_to_craymessage.
  assert (E3 : slice (A3 ++ A2 ++ A1 ++ A0 ++ d) 0 n = A3).
  { apply (slice_skip [] A3); cbn; lia. }
  assert (E2 : slice (A3 ++ A2 ++ A1 ++ A0 ++ d) n (2 * n) = A2).
  { apply (slice_skip A3 A2); lia. }
  assert (E1 : slice (A3 ++ A2 ++ A1 ++ A0 ++ d) (2 * n) (3 * n) = A1).
  { rewrite app_assoc. apply (slice_skip (A3 ++ A2) A1); rewrite app_length; lia. }
  assert (E0 : slice (A3 ++ A2 ++ A1 ++ A0 ++ d) (3 * n) (4 * n) = A0).
  { rewrite app_assoc, (app_assoc _ A1). apply slice_skip; rewrite !app_length; lia. }
  assert (ED : skipn (4 * n) (A3 ++ A2 ++ A1 ++ A0 ++ d) = d).
  { rewrite !app_assoc, skipn_app. rewrite skipn_all2 by (rewrite !app_length; lia).
    replace (4 * n - length (((A3 ++ A2) ++ A1) ++ A0))%nat with 0%nat
      by (rewrite !app_length; lia). reflexivity. }
  now rewrite E3, E2, E1, E0, ED.
Qed.

Definition u32_range (x : Z) : Prop := 0 <= x < 4294967296.

Theorem a2c_ser hs d l : Forall u32_range hs ->
  array_to_craymessage (ser hs ++ d) (length hs) l = mk_msg hs l d.
Proof.
  intro H. unfold ser. rewrite <- !app_assoc.
  rewrite a2c_planes by (unfold plane; now rewrite map_length). f_equal.
  unfold plane. induction H as [|x hs Hx _ IH]; cbn [map map2]; [reflexivity|].
  rewrite IH. f_equal.
  rewrite join_lor by apply u8_byte. now apply split_join.
Qed.

Lemma byte_planes (n : nat) (a : list Z) : (4 * n <= length a)%nat ->
  exists A3 A2 A1 A0 d, a = A3 ++ A2 ++ A1 ++ A0 ++ d /\
    length A3 = n /\ length A2 = n /\ length A1 = n /\ length A0 = n.
Proof.
  intro H.
  exists (firstn n a), (firstn n (skipn n a)), (firstn n (skipn n (skipn n a))),
    (firstn n (skipn n (skipn n (skipn n a)))), (skipn n (skipn n (skipn n (skipn n a)))).
  rewrite !firstn_skipn. split; [reflexivity|].
  repeat split; apply firstn_length_le; rewrite ?skipn_length; lia.
Qed.

Theorem a2c_heads n a l : Forall is_byte a -> (4 * n <= length a)%nat ->
  let m := array_to_craymessage a n l in
  length (heads m) = n /\ Forall u32_range (heads m) /\
  a = ser (heads m) ++ data m /\ ptr m = l /\ data m = skipn (4 * n) a /\
  (Forall (fun x => 1 <= x) (firstn n a) <-> Forall is_head (heads m)).
Proof.
  intros HB HL m.
  destruct (byte_planes n a HL) as (A3 & A2 & A1 & A0 & d & E & H3 & H2 & H1 & H0).
  assert (ED : skipn (4 * n) a = d).
  { rewrite E, !app_assoc, skipn_app. rewrite skipn_all2 by (rewrite !app_length; lia).
    replace (4 * n - length (((A3 ++ A2) ++ A1) ++ A0))%nat with 0%nat
      by (rewrite !app_length; lia). reflexivity. }
  assert (EF : firstn n a = A3).
  { rewrite E, firstn_app, H3, Nat.sub_diag, <- H3, firstn_all. cbn. now rewrite app_nil_r. }
  rewrite EF, ED. subst m. clear HL ED EF. subst a.
  rewrite a2c_planes by easy. cbn [heads ptr data].
  rewrite !Forall_app in HB. destruct HB as (B3 & B2 & B1 & B0 & _).
  assert (K : let hs := map2 (fun x y => Z.lor x y)
           (map2 (fun x y => Z.lor x y)
              (map2 (fun x y => Z.lor (u32 (x * 2 ^ (3 * TAIL_PRECISION)))
                                 (u32 (y * 2 ^ (2 * TAIL_PRECISION)))) A3 A2)
              (map (fun y => u32 (y * 2 ^ (1 * TAIL_PRECISION))) A1)) A0 in
     length hs = n /\ Forall u32_range hs /\
     plane (3 * TAIL_PRECISION) hs = A3 /\ plane (2 * TAIL_PRECISION) hs = A2 /\
     plane TAIL_PRECISION hs = A1 /\ map u8 hs = A0 /\
     (Forall (fun x => 1 <= x) A3 <-> Forall is_head hs)).
  { unfold plane. revert A3 A2 A1 A0 H3 H2 H1 H0 B3 B2 B1 B0.
    induction n as [|n IH]; intros [|x3 A3] [|x2 A2] [|x1 A1] [|x0 A0] H3 H2 H1 H0 B3 B2 B1 B0;
      try discriminate; cbn [map map2].
    - repeat split; constructor.
    - inversion B3; inversion B2; inversion B1; inversion B0; subst.
      destruct (IH A3 A2 A1 A0) as (I1 & I2 & I3 & I4 & I5 & I6 & I7); try easy;
        try (cbn in *; lia).
      rewrite join_lor by easy.
      destruct (join_split x3 x2 x1 x0) as (J3 & J2 & J1 & J0); try easy.
      rewrite J3, J2, J1, J0, I3, I4, I5, I6. cbn [length]. rewrite I1.
      assert (KR : u32_range (join x3 x2 x1 x0))
        by (unfold u32_range, join, is_byte in *; lia).
      assert (KH : 1 <= x3 <-> is_head (join x3 x2 x1 x0)).
      { unfold is_head. change (2 ^ 24) with 16777216. change (2 ^ 32) with 4294967296.
        unfold join, is_byte in *. lia. }
      repeat split; auto.
      + intro F; inversion F; subst. constructor; [now apply KH | now apply I7].
      + intro F; inversion F; subst. constructor; [now apply KH | now apply I7]. }
  destruct K as (K1 & K2 & K3 & K4 & K5 & K6 & K7).
  repeat split; auto.
  - unfold ser. rewrite K3, K4, K5, K6. now rewrite <- !app_assoc.
  - apply K7.
  - apply K7.
Qed.

Lemma head_u32 hs : Forall is_head hs -> Forall u32_range hs.
Proof.
  intro H. eapply Forall_impl; [|exact H]. intros x Hx. apply head_bounds in Hx.
  unfold u32_range. lia.
Qed.

Lemma ser_bytes hs : Forall is_byte (ser hs).
Proof.
  unfold ser, plane. rewrite !Forall_app. repeat split; apply Forall_forall;
    intros y Hy; apply in_map_iff in Hy as (z & <- & _); apply u8_byte.
Qed.

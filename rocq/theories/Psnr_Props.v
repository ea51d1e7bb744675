(** C58: PSNR. *)
From Coq Require Import String ZArith Arith List Bool Reals Lra Lia Psatz ZifyNat.
From Verif Require Import Base Met_Model Met_Spec.
Import ListNotations.
Open Scope R_scope.

Lemma ln10 : 0 < ln 10. Proof. rewrite <- ln_1. apply ln_increasing; lra. Qed.
Lemma ln_quot a b : 0 < a -> 0 < b -> ln (a / b) = ln a - ln b.
Proof. intros A B. unfold Rdiv. rewrite ln_mult, ln_Rinv by (try apply Rinv_0_lt_compat; assumption). ring. Qed.
Lemma decibel_code peak m : 0 < peak -> 0 < m -> 20 * log10 peak - 10 * log10 m = decibel peak m.
Proof.
  intros P M. unfold decibel, log10. pose proof ln10. rewrite ln_quot by (try apply pow_lt; assumption).
  cbn [pow]. rewrite Rmult_1_r, ln_mult by assumption. field. lra.
Qed.
Lemma sq_nonneg x y : 0 <= squared_error x y.
Proof.
  unfold squared_error. induction (combine x y) as [|p l IH]; cbn; unfold sum_of in *; cbn [fold_right]; [lra|].
  pose proof (pow2_ge_0 (fst p - snd p)). cbn in IH. lra.
Qed.
Lemma sq_zero_iff : forall x y, length x = length y -> (squared_error x y = 0 <-> x = y).
Proof.
  unfold squared_error, sum_of. induction x as [|a x IH]; intros [|b y] L; cbn in L; try discriminate; [tauto|].
  cbn [combine map fold_right fst snd]. pose proof (sq_nonneg x y) as N. unfold squared_error, sum_of in N.
  pose proof (pow2_ge_0 (a - b)) as Q. split.
  - intro H. assert ((a - b) ^ 2 = 0) by lra. assert (E : a - b = 0).
    { destruct (Req_dec (a - b) 0) as [|NE]; [assumption|]. exfalso. assert (0 < (a - b) ^ 2); [|lra].
      cbn [pow]. rewrite Rmult_1_r. now apply Rlt_0_sqr. }
    f_equal; [lra|]. apply IH; [lia|lra].
  - intros [= -> ->]. destruct (IH y ltac:(lia)) as [_ I]. rewrite I by reflexivity. ring.
Qed.
Lemma mse_spec x y : mse x y = squared_error x y / INR (length x). Proof. reflexivity. Qed.
Lemma mse_pos_iff x y : x <> [] -> length x = length y -> (0 < mse x y <-> x <> y).
Proof.
  intros N L. assert (P : 0 < INR (length x)) by (apply lt_0_INR; destruct x; [easy|cbn; lia]).
  rewrite mse_spec. pose proof (sq_nonneg x y) as Q. pose proof (sq_zero_iff x y L) as Z. split.
  - intros H E. apply Z in E. rewrite E in H. unfold Rdiv in H. rewrite Rmult_0_l in H. lra.
  - intro NE. apply Rdiv_lt_0_compat; [|exact P]. destruct (Req_dec (squared_error x y) 0) as [E|E]; [tauto|lra].
Qed.

(** The result is 10·log10(range² / mean squared error) decibels for different images and
    +infinity for equal ones; a range that is not positive is refused. *)
Theorem psnr_value x y peak : x <> [] -> length x = length y -> 0 < peak ->
  calc_psnr x y peak =
    if list_eq_dec Req_EM_T x y then Ok PInf
    else Ok (Fin (decibel peak (squared_error x y / INR (length x)))).
Proof.
  intros N L P. unfold calc_psnr, psnr_of_mse. destruct (Rlt_dec 0 peak); [|contradiction].
  pose proof (mse_pos_iff x y N L) as Q. destruct (list_eq_dec Req_EM_T x y) as [E|E], (Rlt_dec 0 (mse x y)) as [M|M]; try tauto.
  rewrite decibel_code by assumption. reflexivity.
Qed.
Theorem psnr_bad_range x y peak : peak <= 0 -> calc_psnr x y peak = Raise ValueError.
Proof. intro P. unfold calc_psnr, psnr_of_mse. destruct (Rlt_dec 0 peak); [lra|reflexivity]. Qed.

Lemma sq_sym : forall x y, squared_error x y = squared_error y x.
Proof.
  unfold squared_error, sum_of. induction x as [|a x IH]; intros [|b y]; try reflexivity.
  cbn [combine map fold_right fst snd]. rewrite IH. ring.
Qed.
Theorem psnr_symmetric x y peak : length x = length y -> calc_psnr x y peak = calc_psnr y x peak.
Proof. intro L. unfold calc_psnr. rewrite !mse_spec, sq_sym, L. reflexivity. Qed.

(** A larger error gives a strictly smaller value. *)
Theorem psnr_decreasing peak x y x' y' p p' : length x = length x' ->
  calc_psnr x y peak = Ok (Fin p) -> calc_psnr x' y' peak = Ok (Fin p') ->
  (p < p' <-> squared_error x' y' < squared_error x y).
Proof.
  intro L. unfold calc_psnr, psnr_of_mse. destruct (Rlt_dec 0 peak) as [P|]; [|discriminate].
  destruct (Rlt_dec 0 (mse x y)) as [M|]; [|discriminate]. destruct (Rlt_dec 0 (mse x' y')) as [M'|]; [|discriminate].
  intros [= <-] [= <-]. pose proof ln10 as T. unfold log10.
  assert (N : 0 < INR (length x)).
  { apply lt_0_INR. destruct x; [|cbn; lia]. rewrite mse_spec in M. unfold squared_error, sum_of in M. cbn in M. lra. }
  assert (A : ln (mse x' y') < ln (mse x y) <-> mse x' y' < mse x y).
  { split; intro H; [now apply ln_lt_inv|now apply ln_increasing]. }
  assert (B : mse x' y' < mse x y <-> squared_error x' y' < squared_error x y).
  { rewrite !mse_spec, <- L. unfold Rdiv. pose proof (Rinv_0_lt_compat _ N). split; intro H0; [eapply Rmult_lt_reg_r; eauto|apply Rmult_lt_compat_r; auto]. }
  rewrite <- B, <- A. unfold Rdiv. pose proof (Rinv_0_lt_compat _ T) as I. split; intro H.
  - apply Rmult_lt_reg_r with (/ ln 10); lra.
  - pose proof (Rmult_lt_compat_r _ _ _ I H). lra.
Qed.

(** Scaling both images and the range by the same positive factor changes nothing. *)
Lemma sq_scale k : forall x y, squared_error (map (Rmult k) x) (map (Rmult k) y) = k ^ 2 * squared_error x y.
Proof.
  unfold squared_error, sum_of. induction x as [|a x IH]; intros [|b y]; cbn [map combine fold_right fst snd]; try ring.
  rewrite IH. ring.
Qed.
Theorem psnr_scale k x y peak : 0 < k ->
  calc_psnr (map (Rmult k) x) (map (Rmult k) y) (k * peak) = calc_psnr x y peak.
Proof.
  intro K. unfold calc_psnr, psnr_of_mse.
  assert (M : mse (map (Rmult k) x) (map (Rmult k) y) = k ^ 2 * mse x y).
  { rewrite !mse_spec, sq_scale, map_length. unfold Rdiv. ring. }
  assert (K2 : 0 < k ^ 2) by now apply pow_lt.
  rewrite M. destruct (Rlt_dec 0 peak) as [P|P], (Rlt_dec 0 (k * peak)) as [P'|P']; try reflexivity.
  - destruct (Rlt_dec 0 (mse x y)) as [Q|Q], (Rlt_dec 0 (k ^ 2 * mse x y)) as [Q'|Q']; try reflexivity.
    + rewrite !decibel_code by assumption. unfold decibel. do 5 f_equal. field. lra.
    + exfalso. apply Q'. now apply Rmult_lt_0_compat.
    + exfalso. apply Q. apply Rmult_lt_reg_l with (k ^ 2); lra.
  - exfalso. apply P'. now apply Rmult_lt_0_compat.
  - exfalso. apply P. apply Rmult_lt_reg_l with k; lra.
Qed.

(** The value of a batch is not the mean of the values of its images: for two images of the
    same size it is at most the mean, with equality only for equal errors. *)
Lemma am_gm a b : 0 < a -> 0 < b -> ln a + ln b <= 2 * ln ((a + b) / 2) /\
  (ln a + ln b = 2 * ln ((a + b) / 2) -> a = b).
Proof.
  intros A B. replace (2 * ln ((a + b) / 2)) with (ln (((a + b) / 2) * ((a + b) / 2))) by (rewrite ln_mult by lra; ring).
  rewrite <- ln_mult by assumption. pose proof (pow2_ge_0 (a - b)) as Q. cbn [pow] in Q. split.
  - destruct (Req_dec (a * b) ((a + b) / 2 * ((a + b) / 2))) as [->|N]; [lra|].
    left. apply ln_increasing; [now apply Rmult_lt_0_compat|]. lra.
  - intro E. apply ln_inv in E; [|now apply Rmult_lt_0_compat|apply Rmult_lt_0_compat; lra].
    assert (Z : Rsqr (a - b) = 0) by (unfold Rsqr; lra). apply Rsqr_0_uniq in Z. lra.
Qed.
Lemma sq_app x y : forall x' y', length x = length y ->
  squared_error (x ++ x') (y ++ y') = squared_error x y + squared_error x' y'.
Proof.
  revert y. unfold squared_error, sum_of. induction x as [|a x IH]; intros [|b y] x' y' L; cbn in L; try discriminate.
  - cbn [app combine map fold_right]. ring.
  - cbn [app combine map fold_right]. rewrite IH by lia. ring.
Qed.
Theorem psnr_batch_refuted peak x y x' y' p p' q :
  length x = length y -> length x' = length y' -> length x = length x' ->
  calc_psnr x y peak = Ok (Fin p) -> calc_psnr x' y' peak = Ok (Fin p') ->
  calc_psnr (x ++ x') (y ++ y') peak = Ok (Fin q) ->
  q <= (p + p') / 2 /\ (p <> p' -> q < (p + p') / 2).
Proof.
  intros L L' LL. unfold calc_psnr, psnr_of_mse. destruct (Rlt_dec 0 peak) as [P|]; [|discriminate].
  destruct (Rlt_dec 0 (mse x y)) as [M|]; [|discriminate]. destruct (Rlt_dec 0 (mse x' y')) as [M'|]; [|discriminate].
  destruct (Rlt_dec 0 (mse (x ++ x') (y ++ y'))) as [MM|]; [|discriminate].
  intros [= <-] [= <-] [= <-].
  assert (N : 0 < INR (length x)).
  { apply lt_0_INR. destruct x; [|cbn; lia]. rewrite mse_spec in M. unfold squared_error, sum_of in M. cbn in M. lra. }
  assert (E : mse (x ++ x') (y ++ y') = (mse x y + mse x' y') / 2).
  { rewrite !mse_spec, sq_app, app_length, <- LL, plus_INR by assumption. field. lra. }
  rewrite E. pose proof ln10 as T. unfold log10. pose proof (Rinv_0_lt_compat _ T) as I.
  destruct (am_gm _ _ M M') as [Q1 Q2]. unfold Rdiv in *. set (A := ln (mse x y)) in *. set (B := ln (mse x' y')) in *.
  set (C := ln ((mse x y + mse x' y') * / 2)) in *. split.
  - pose proof (Rmult_le_compat_r _ _ _ (Rlt_le _ _ I) Q1). lra.
  - intro NE. assert (AB : A + B < 2 * C).
    { destruct Q1 as [Q1|Q1]; [exact Q1|]. exfalso. apply NE. unfold A, B. rewrite (Q2 Q1). reflexivity. }
    pose proof (Rmult_lt_compat_r _ _ _ I AB). lra.
Qed.

(** ** uint8 arrays *)
Lemma u8_square d : u8 (u8 d * u8 d) = ((d * d) mod 256)%Z.
Proof. unfold u8. change (2 ^ 8)%Z with 256%Z. now rewrite <- Z.mul_mod by lia. Qed.
Definition real_pixels (x : list Z) : list R := map IZR x.
Lemma u8_mse x y : mse_uint8 x y =
  sum_of (map (fun p => IZR ((fst p - snd p) * (fst p - snd p) mod 256)) (combine x y)) / INR (length x).
Proof.
  unfold mse_uint8, sum_of. f_equal. f_equal. apply map_ext. intro p. now rewrite u8_square.
Qed.
Lemma real_mse x y : mse (real_pixels x) (real_pixels y) =
  sum_of (map (fun p => IZR ((fst p - snd p) * (fst p - snd p))) (combine x y)) / INR (length x).
Proof.
  rewrite mse_spec. unfold real_pixels. rewrite map_length. f_equal. unfold squared_error, sum_of. revert y.
  induction x as [|a x IH]; intros [|b y]; try reflexivity. cbn [map combine fold_right fst snd]. rewrite IH.
  f_equal. rewrite mult_IZR, minus_IZR. ring.
Qed.
(** If no two pixels differ by more than 15 the result is right. *)
Theorem psnr_uint8_exact x y peak :
  (forall p, In p (combine x y) -> Z.abs (fst p - snd p) <= 15)%Z ->
  calc_psnr_numpy_uint8 x y peak = calc_psnr (real_pixels x) (real_pixels y) peak.
Proof.
  intro H. unfold calc_psnr_numpy_uint8, calc_psnr. f_equal. rewrite u8_mse, real_mse. f_equal. f_equal.
  apply map_ext_in. intros p P. f_equal. apply Z.mod_small. specialize (H p P). nia.
Qed.
(** Otherwise it can only be too good ... *)
Theorem psnr_uint8_optimistic x y peak : (0 < length x)%nat ->
  mse_uint8 x y <= mse (real_pixels x) (real_pixels y) /\
  forall p q, calc_psnr (real_pixels x) (real_pixels y) peak = Ok (Fin p) ->
              calc_psnr_numpy_uint8 x y peak = Ok (Fin q) -> p <= q.
Proof.
  intro N. assert (P : 0 < INR (length x)) by now apply lt_0_INR.
  assert (LE : mse_uint8 x y <= mse (real_pixels x) (real_pixels y)).
  { rewrite u8_mse, real_mse. unfold Rdiv. apply Rmult_le_compat_r; [apply Rlt_le, Rinv_0_lt_compat, P|].
    unfold sum_of. induction (combine x y) as [|p l IH]; cbn [map fold_right]; [lra|].
    assert (IZR ((fst p - snd p) * (fst p - snd p) mod 256) <= IZR ((fst p - snd p) * (fst p - snd p))); [|lra].
    apply IZR_le. apply Z.mod_le; [apply Z.square_nonneg|lia]. }
  split; [exact LE|]. intros p q. unfold calc_psnr, calc_psnr_numpy_uint8, psnr_of_mse.
  destruct (Rlt_dec 0 peak); [|discriminate]. destruct (Rlt_dec 0 (mse _ _)) as [A|]; [|discriminate].
  destruct (Rlt_dec 0 (mse_uint8 x y)) as [B|]; [|discriminate]. intros [= <-] [= <-]. unfold log10.
  assert (ln (mse_uint8 x y) <= ln (mse (real_pixels x) (real_pixels y))).
  { destruct LE as [LT|EQ]; [left; now apply ln_increasing|rewrite EQ; lra]. }
  pose proof (Rinv_0_lt_compat _ ln10) as I. unfold Rdiv.
  pose proof (Rmult_le_compat_r _ _ _ (Rlt_le _ _ I) H). lra.
Qed.
(** ... and is infinite for images that differ by a multiple of 16 everywhere. *)
Theorem psnr_uint8_refuted x y peak : 0 < peak ->
  (forall p, In p (combine x y) -> (fst p - snd p) mod 16 = 0)%Z ->
  calc_psnr_numpy_uint8 x y peak = Ok PInf.
Proof.
  intros P H. unfold calc_psnr_numpy_uint8, psnr_of_mse. destruct (Rlt_dec 0 peak); [|contradiction].
  destruct (Rlt_dec 0 (mse_uint8 x y)) as [M|]; [|reflexivity]. exfalso. rewrite u8_mse in M.
  replace (sum_of _) with 0 in M; [unfold Rdiv in M; rewrite Rmult_0_l in M; lra|].
  clear M. unfold sum_of. induction (combine x y) as [|p l IH]; [reflexivity|]. cbn [map fold_right].
  rewrite <- IH by (intros; apply H; now right). specialize (H p (or_introl eq_refl)).
  apply Z.div_exact in H; [|lia]. rewrite H. replace (16 * _ * _)%Z with ((fst p - snd p) / 16 * ((fst p - snd p) / 16) * 256)%Z by ring.
  rewrite Z.mod_mul by lia. ring.
Qed.

(** Black against 16 everywhere: infinite as uint8, 24 dB in truth. *)
Example psnr_uint8_ex :
  calc_psnr_numpy_uint8 [0; 0]%Z [16; 16]%Z 255 = Ok PInf /\
  calc_psnr [0; 0] [16; 16] 255 = Ok (Fin (decibel 255 256)).
Proof.
  split.
  - apply psnr_uint8_refuted; [lra|]. cbn. intros p [<-|[<-|[]]]; reflexivity.
  - rewrite psnr_value by (try discriminate; try reflexivity; lra).
    destruct (list_eq_dec Req_EM_T [0; 0] [16; 16]) as [E|_]; [exfalso; injection E; lra|].
    do 3 f_equal. unfold squared_error, sum_of. cbn [combine map fold_right fst snd length INR]. field.
Qed.

Print Assumptions psnr_value.
Print Assumptions psnr_bad_range.
Print Assumptions psnr_symmetric.
Print Assumptions psnr_decreasing.
Print Assumptions psnr_scale.
Print Assumptions psnr_batch_refuted.
Print Assumptions psnr_uint8_exact.
Print Assumptions psnr_uint8_optimistic.
Print Assumptions psnr_uint8_refuted.

(** C41 in floating point: the vector quantiser's choice and output in float32. *)
From Coq Require Import Reals List Arith ZArith Lia Lra Psatz Permutation.
From Flocq Require Import Core Relative Plus_error Sterbenz.
From Verif Require Import Base Tensor RBase RSum RFloat Vqb_Model Vqb_Spec Vqb_Props VqbFloat_Model.
Import ListNotations.
Open Scope R_scope.

#[local] Existing Instance prec24.
(** A float32 number (of any size: overflow is not modelled). *)
Definition float32 (x : R) : Prop := generic_format radix2 (FLT_exp (-149) 24) x.
Lemma b32_float x : float32 (b32 x).
Proof. apply generic_format_round; [apply FLT_exp_valid, prec24|apply valid_rnd_N]. Qed.
Lemma b32_exact x : float32 x -> b32 x = x.
Proof. intro F. apply round_generic; [apply valid_rnd_N|exact F]. Qed.
Lemma b32_0 : b32 0 = 0.
Proof. apply (b32_int 0). cbn. lia. Qed.

Definition u : R := / 2 ^ 24.
Definition tiny : R := / 2 ^ 150.
Lemma u_pos : 0 < u < / 1000000. Proof. unfold u. lra. Qed.
Lemma tiny_pos : 0 < tiny. Proof. unfold tiny. apply Rinv_0_lt_compat, pow_lt. lra. Qed.
Lemma u_ro_eq : u_ro radix2 24 = u.
Proof. unfold u_ro, u. change (-(24) + 1)%Z with (-23)%Z. cbn [bpow]. change (Z.pow_pos radix2 23) with 8388608%Z. lra. Qed.

(** Sums of floats have a relative error only; products may also underflow. *)
Lemma b32_plus x y : float32 x -> float32 y -> exists e, Rabs e <= u /\ b32 (x + y) = (x + y) * (1 + e).
Proof.
  intros Fx Fy. destruct (FLT_plus_error_N_ex radix2 (-149) 24 (fun x => negb (Z.even x)) x y Fx Fy) as (e & B & E).
  exists e. split; [|exact E]. eapply Rle_trans; [exact B|]. rewrite <- u_ro_eq. apply u_rod1pu_ro_le_u_ro.
Qed.
Lemma b32_minus x y : float32 x -> float32 y -> exists e, Rabs e <= u /\ b32 (x - y) = (x - y) * (1 + e).
Proof. intros Fx Fy. apply (b32_plus x (- y)); [exact Fx|]. apply generic_format_opp, Fy. Qed.
Lemma b32_any x : exists e t, Rabs e <= u /\ Rabs t <= tiny /\ b32 x = x * (1 + e) + t.
Proof.
  destruct (error_N_FLT radix2 (-149) 24 prec24 (fun x => negb (Z.even x)) x) as (e & t & A & B & _ & E).
  exists e, t. split; [|split; [|exact E]].
  - rewrite <- u_ro_eq. exact A.
  - eapply Rle_trans; [exact B|]. apply Req_le. unfold tiny.
    replace (bpow radix2 (-149)) with (/ 2 ^ 149); [rewrite <- Rinv_mult; f_equal; change (2 ^ 150) with (2 * 2 ^ 149); reflexivity|].
    cbn [bpow]. f_equal. rewrite (pow_IZR 2 149). reflexivity.
Qed.

Lemma bound_1e e : Rabs e <= u -> 1 - u <= 1 + e <= 1 + u.
Proof. intro H. apply Rabs_le_inv in H. lra. Qed.

(** The exact sum over the leaves. *)
Definition lsum (f : nat -> R) (l : list nat) : R := fold_right Rplus 0 (map f l).
Lemma lsum_app f a b : lsum f (a ++ b) = lsum f a + lsum f b.
Proof. unfold lsum. induction a as [|x a IH]; cbn; [lra|]. rewrite IH. lra. Qed.
Lemma lsum_perm f a b : Permutation a b -> lsum f a = lsum f b.
Proof.
  unfold lsum. induction 1 as [|x a b P IH|x y a|a b c P IH P' IH']; cbn [map fold_right]; [reflexivity|rewrite IH; reflexivity|ring|].
  rewrite IH. exact IH'.
Qed.
Lemma lsum_seq f n : lsum f (seq 0 n) = rsum n f.
Proof. reflexivity. Qed.
Lemma lsum_nonneg f l : (forall j, In j l -> 0 <= f j) -> 0 <= lsum f l.
Proof. unfold lsum. induction l as [|x l IH]; intro H; cbn; [lra|]. pose proof (H x (or_introl eq_refl)). specialize (IH (fun j I => H j (or_intror I))). lra. Qed.

Fixpoint depth (t : order) : nat := match t with One _ => 0 | Two l r => S (Nat.max (depth l) (depth r)) end.
Lemma depth_lt t : (depth t < length (summed t))%nat.
Proof. induction t as [j|l IHl r IHr]; cbn; [lia|]. rewrite app_length. lia. Qed.
Lemma fsum_float t f : (forall j, In j (summed t) -> float32 (f j)) -> float32 (fsum t f).
Proof. destruct t; intro H; cbn; [apply H; left; reflexivity|apply b32_float]. Qed.
Lemma pow1u_ge n : 1 <= (1 + u) ^ n.
Proof. apply pow_R1_Rle. pose proof u_pos. lra. Qed.
Lemma pow1m n : 0 < (1 - u) ^ n <= 1.
Proof. pose proof u_pos. split; [apply pow_lt; lra|]. induction n as [|n IH]; cbn; [lra|]. assert (0 < (1 - u) ^ n) by (apply pow_lt; lra). nra. Qed.

(** Any order of summation: a factor of (1 +- u) for every level. *)
Lemma fsum_bounds t f D : (forall j, In j (summed t) -> float32 (f j) /\ 0 <= f j) -> (depth t <= D)%nat ->
  (1 - u) ^ D * lsum f (summed t) <= fsum t f <= (1 + u) ^ D * lsum f (summed t).
Proof.
  pose proof u_pos as U. revert D. induction t as [j|l IHl r IHr]; intros D H HD.
  - cbn. destruct (H j (or_introl eq_refl)) as [_ P]. unfold lsum. cbn. rewrite Rplus_0_r. pose proof (pow1u_ge D). pose proof (pow1m D).
    split; nra.
  - cbn [summed depth fsum] in *. destruct D as [|D]; [lia|].
    assert (Hl : forall j, In j (summed l) -> float32 (f j) /\ 0 <= f j) by (intros; apply H, in_or_app; left; assumption).
    assert (Hr : forall j, In j (summed r) -> float32 (f j) /\ 0 <= f j) by (intros; apply H, in_or_app; right; assumption).
    specialize (IHl D Hl ltac:(lia)). specialize (IHr D Hr ltac:(lia)).
    destruct (b32_plus (fsum l f) (fsum r f)) as (e & E & ->); [apply fsum_float; intros; apply Hl; assumption|apply fsum_float; intros; apply Hr; assumption|].
    apply bound_1e in E. rewrite lsum_app. cbn [pow].
    assert (NL : 0 <= lsum f (summed l)) by (apply lsum_nonneg; intros; apply Hl; assumption).
    assert (NR : 0 <= lsum f (summed r)) by (apply lsum_nonneg; intros; apply Hr; assumption).
    pose proof (pow1m D) as PM. pose proof (pow1u_ge D) as PP.
    set (a := (1 - u) ^ D) in *. set (b := (1 + u) ^ D) in *. set (sl := lsum f (summed l)) in *. set (sr := lsum f (summed r)) in *.
    set (s := fsum l f + fsum r f) in *. assert (S1 : a * (sl + sr) <= s) by (unfold s; lra). assert (S2 : s <= b * (sl + sr)) by (unfold s; lra).
    assert (S0 : 0 <= a * (sl + sr)) by nra. clearbody s.
    split.
    + apply Rle_trans with (a * (sl + sr) * (1 - u)); [lra|]. apply Rmult_le_compat; lra.
    + apply Rle_trans with (b * (sl + sr) * (1 + u)); [|lra]. apply Rmult_le_compat; lra.
Qed.

(** One squared difference. *)
Lemma square_bounds a b : float32 a -> float32 b ->
  let e := b32 (a - b) in float32 (b32 (e * e)) /\ 0 <= b32 (e * e) /\
  (1 - u) ^ 3 * ((a - b) * (a - b)) - tiny <= b32 (e * e) <= (1 + u) ^ 3 * ((a - b) * (a - b)) + tiny.
Proof.
  intros Fa Fb e. split; [apply b32_float|]. split.
  - rewrite <- b32_0. apply b32_mono. apply Rle_0_sqr.
  - destruct (b32_minus a b Fa Fb) as (e1 & E1 & D). destruct (b32_any (e * e)) as (e2 & t & E2 & T & ->).
    apply bound_1e in E1, E2. apply Rabs_le_inv in T. unfold e. rewrite D. pose proof u_pos as U.
    set (q := (a - b) * (a - b)). assert (Q : 0 <= q) by apply Rle_0_sqr.
    replace ((a - b) * (1 + e1) * ((a - b) * (1 + e1)) * (1 + e2)) with ((1 + e1) * (1 + e1) * (1 + e2) * q) by (unfold q; ring).
    assert (L : (1 - u) ^ 3 <= (1 + e1) * (1 + e1) * (1 + e2)).
    { replace ((1 - u) ^ 3) with ((1 - u) * (1 - u) * (1 - u)) by ring. apply Rmult_le_compat; [nra|lra| |lra]. apply Rmult_le_compat; lra. }
    assert (H : (1 + e1) * (1 + e1) * (1 + e2) <= (1 + u) ^ 3).
    { replace ((1 + u) ^ 3) with ((1 + u) * (1 + u) * (1 + u)) by ring. apply Rmult_le_compat; [nra|lra| |lra]. apply Rmult_le_compat; lra. }
    assert ((1 - u) ^ 3 * q <= (1 + e1) * (1 + e1) * (1 + e2) * q) by (apply Rmult_le_compat_r; assumption).
    assert ((1 + e1) * (1 + e1) * (1 + e2) * q <= (1 + u) ^ 3 * q) by (apply Rmult_le_compat_r; assumption). lra.
Qed.

Lemma lsum_between (f g : nat -> R) c t l : (forall j, In j l -> c * g j - t <= f j) -> c * lsum g l - INR (length l) * t <= lsum f l.
Proof.
  unfold lsum. induction l as [|x l IH]; intro H; [cbn; lra|]. specialize (IH (fun j I => H j (or_intror I))). pose proof (H x (or_introl eq_refl)).
  change (length (x :: l)) with (S (length l)). rewrite S_INR. cbn [map fold_right]. lra.
Qed.
Lemma lsum_between2 (f g : nat -> R) c t l : (forall j, In j l -> f j <= c * g j + t) -> lsum f l <= c * lsum g l + INR (length l) * t.
Proof.
  unfold lsum. induction l as [|x l IH]; intro H; [cbn; lra|]. specialize (IH (fun j I => H j (or_intror I))). pose proof (H x (or_introl eq_refl)).
  change (length (x :: l)) with (S (length l)). rewrite S_INR. cbn [map fold_right]. lra.
Qed.

(** The computed distance of two float vectors, in any order of summation. *)
Theorem vq_distance_float : forall t d a b, Permutation (summed t) (seq 0 d) ->
  (forall j, (j < d)%nat -> float32 (a j) /\ float32 (b j)) ->
  (1 - u) ^ (d + 2) * sqdist d a b - INR d * tiny <= distance_fl t a b <= (1 + u) ^ (d + 2) * (sqdist d a b + INR d * tiny).
Proof.
  intros t d a b P F.
  assert (IN : forall j, In j (summed t) -> (j < d)%nat) by (intros j I; apply (Permutation_in _ P), in_seq in I; lia).
  assert (LEN : length (summed t) = d) by (rewrite (Permutation_length P); apply seq_length).
  set (f := fun j => let e := b32 (a j - b j) in b32 (e * e)).
  assert (SB : forall j, In j (summed t) -> float32 (f j) /\ 0 <= f j /\ (1 - u) ^ 3 * ((a j - b j) * (a j - b j)) - tiny <= f j <= (1 + u) ^ 3 * ((a j - b j) * (a j - b j)) + tiny).
  { intros j I. destruct (F j (IN j I)). apply square_bounds; assumption. }
  pose proof (depth_lt t) as DT. rewrite LEN in DT. destruct d as [|d']; [lia|].
  assert (B := fsum_bounds t f d' ltac:(intros j I; split; apply (SB j I)) ltac:(lia)).
  set (g := fun j => (a j - b j) * (a j - b j)) in *.
  assert (L1 := lsum_between f g ((1 - u) ^ 3) tiny (summed t) ltac:(intros j I; apply (SB j I))).
  assert (L2 := lsum_between2 f g ((1 + u) ^ 3) tiny (summed t) ltac:(intros j I; apply (SB j I))).
  assert (G : lsum g (summed t) = sqdist (S d') a b) by (rewrite (lsum_perm _ _ _ P), lsum_seq; reflexivity).
  rewrite G, LEN in *. unfold distance_fl. fold f.
  replace (S d' + 2)%nat with (d' + 3)%nat by lia. rewrite !pow_add.
  pose proof (pow1m d') as PM. pose proof (pow1u_ge d') as PP. pose proof (pow1u_ge 3) as P3. pose proof tiny_pos as T. pose proof (pos_INR (S d')) as N.
  set (A := (1 - u) ^ d') in *. set (A' := (1 + u) ^ d') in *. set (c := (1 - u) ^ 3) in *. set (c' := (1 + u) ^ 3) in *. set (q := sqdist (S d') a b) in *.
  set (nt := INR (S d') * tiny) in *. assert (NT : 0 <= nt) by (unfold nt; apply Rmult_le_pos; lra). set (s := lsum f (summed t)) in *. clearbody A A' c c' q nt s.
  split.
  - apply Rle_trans with (A * s); [|apply B]. assert (A * (c * q - nt) <= A * s) by (apply Rmult_le_compat_l; lra). nra.
  - apply Rle_trans with (A' * s); [apply B|]. assert (A' * s <= A' * (c' * q + nt)) by (apply Rmult_le_compat_l; lra).
    assert (nt <= c' * nt) by nra. assert (A' * (c' * q + nt) <= A' * (c' * q + c' * nt)) by (apply Rmult_le_compat_l; lra). lra.
Qed.
Print Assumptions vq_distance_float.

Lemma pick_fl_min n orders rows v k : pick_nearest_fl n orders rows v = Ok k ->
  (k < n)%nat /\ (forall i, (i < n)%nat -> distance_fl (orders k) (rows k) v <= distance_fl (orders i) (rows i) v) /\
  (forall i, (i < k)%nat -> distance_fl (orders k) (rows k) v < distance_fl (orders i) (rows i) v).
Proof. unfold pick_nearest_fl. intro H. apply argmin_spec in H. exact H. Qed.

(** The chosen codeword is nearest up to the rounding of [d] squares and their sum. *)
Theorem vq_nearest_float : forall n d orders rows v k,
  (forall i, (i < n)%nat -> Permutation (summed (orders i)) (seq 0 d)) ->
  (forall i j, (i < n)%nat -> (j < d)%nat -> float32 (rows i j)) -> (forall j, (j < d)%nat -> float32 (v j)) ->
  pick_nearest_fl n orders rows v = Ok k ->
  (k < n)%nat /\ forall i, (i < n)%nat ->
    (1 - / 2 ^ 24) ^ (d + 2) * sqdist d (rows k) v <= (1 + / 2 ^ 24) ^ (d + 2) * (sqdist d (rows i) v + INR d * / 2 ^ 149).
Proof.
  intros n d orders rows v k P FR FV H. destruct (pick_fl_min _ _ _ _ _ H) as (K & M & _). split; [exact K|]. intros i I.
  destruct (vq_distance_float (orders k) d (rows k) v (P k K) ltac:(intros; split; [apply FR|apply FV]; assumption)) as [A _].
  destruct (vq_distance_float (orders i) d (rows i) v (P i I) ltac:(intros; split; [apply FR|apply FV]; assumption)) as [_ B].
  specialize (M i I). change (/ 2 ^ 24) with u. pose proof (pow1u_ge (d + 2)) as PP. pose proof tiny_pos as T. pose proof (pos_INR d) as N.
  assert (E : / 2 ^ 149 = 2 * tiny) by (unfold tiny; lra).
  rewrite E. set (c := (1 + u) ^ (d + 2)) in *. assert (0 <= INR d * tiny) by (apply Rmult_le_pos; lra).
  assert (INR d * tiny <= c * (INR d * tiny)) by nra. lra.
Qed.
Print Assumptions vq_nearest_float.

(** ** A codeword is recognised *)
Lemma b32_pow2 k : (0 <= k <= 149)%Z -> b32 (bpow radix2 (- k)) = bpow radix2 (- k).
Proof. intro K. apply b32_exact. apply generic_format_FLT_bpow; [exact prec24|lia]. Qed.
Lemma b32_square_zero e : b32 (e * e) = 0 -> Rabs e < / 2 ^ 74.
Proof.
  intro Z. apply Rnot_le_lt. intro L.
  assert (Q : / 2 ^ 148 <= e * e).
  { replace (e * e) with (Rabs e * Rabs e) by (rewrite <- Rabs_mult; apply Rabs_pos_eq, Rle_0_sqr).
    replace (/ 2 ^ 148) with (/ 2 ^ 74 * / 2 ^ 74) by (rewrite <- Rinv_mult, <- pow_add; reflexivity).
    assert (0 < / 2 ^ 74) by (apply Rinv_0_lt_compat, pow_lt; lra). apply Rmult_le_compat; lra. }
  apply b32_mono in Q. rewrite Z in Q.
  assert (E : / 2 ^ 148 = bpow radix2 (- (148))) by (cbn [bpow]; f_equal; rewrite (pow_IZR 2 148); reflexivity).
  rewrite E, b32_pow2 in Q by lia. pose proof (bpow_gt_0 radix2 (- (148))). lra.
Qed.
Lemma fsum_zero t f : (forall j, In j (summed t) -> f j = 0) -> fsum t f = 0.
Proof.
  induction t as [j|l IHl r IHr]; intro H; cbn; [apply H; left; reflexivity|]. cbn [summed] in H.
  rewrite IHl, IHr by (intros; apply H, in_or_app; auto). rewrite Rplus_0_l. apply b32_0.
Qed.
Lemma lsum_zero f l : (forall j, In j l -> 0 <= f j) -> lsum f l <= 0 -> forall j, In j l -> f j = 0.
Proof.
  induction l as [|x l IH]; intros P Z j I; [destruct I|].
  assert (0 <= lsum f l) by (apply lsum_nonneg; intros; apply P; right; assumption).
  pose proof (P x (or_introl eq_refl)). unfold lsum in Z. cbn [map fold_right] in Z. fold (lsum f l) in Z.
  destruct I as [<-|I]; [lra|]. apply IH; [intros; apply P; right; assumption|lra|exact I].
Qed.
(** A vector that is a codeword is given a codeword that is the same up to 2^-73 in every entry. *)
Theorem vq_codeword_float : forall n d orders rows v k i,
  (forall i, (i < n)%nat -> Permutation (summed (orders i)) (seq 0 d)) ->
  (forall i j, (i < n)%nat -> (j < d)%nat -> float32 (rows i j)) ->
  (i < n)%nat -> (forall j, (j < d)%nat -> v j = rows i j) ->
  pick_nearest_fl n orders rows v = Ok k ->
  (k <= i)%nat /\ forall j, (j < d)%nat -> Rabs (rows k j - v j) < / 2 ^ 73.
Proof.
  intros n d orders rows v k i P FR I V H. destruct (pick_fl_min _ _ _ _ _ H) as (K & M & FM).
  assert (Z : distance_fl (orders i) (rows i) v = 0).
  { unfold distance_fl. apply fsum_zero. intros j J. apply (Permutation_in _ (P i I)), in_seq in J.
    rewrite V by lia. rewrite Rminus_diag_eq by reflexivity. rewrite b32_0. replace (0 * 0) with 0 by ring. apply b32_0. }
  assert (LE := M i I). rewrite Z in LE.
  assert (FL : forall j, (j < d)%nat -> float32 (rows k j) /\ float32 (v j)) by (intros j J; split; [apply FR; assumption|rewrite V by exact J; apply FR; assumption]).
  assert (SB : forall j, In j (summed (orders k)) -> float32 (let e := b32 (rows k j - v j) in b32 (e * e)) /\ 0 <= (let e := b32 (rows k j - v j) in b32 (e * e))).
  { intros j J. apply (Permutation_in _ (P k K)), in_seq in J. destruct (FL j ltac:(lia)). destruct (square_bounds (rows k j) (v j)) as (A & B & _); auto. }
  assert (FB := fsum_bounds (orders k) _ (depth (orders k)) SB (Nat.le_refl _)).
  unfold distance_fl in LE. cbv zeta in LE, FB. pose proof (pow1m (depth (orders k))) as PM.
  set (f := fun j => b32 (b32 (rows k j - v j) * b32 (rows k j - v j))) in *.
  assert (LS : lsum f (summed (orders k)) <= 0).
  { apply Rmult_le_reg_l with ((1 - u) ^ depth (orders k)); [lra|]. rewrite Rmult_0_r. lra. }
  split.
  - destruct (Nat.le_gt_cases k i) as [L|G]; [exact L|]. exfalso. specialize (FM i G). rewrite Z in FM.
    assert (0 <= distance_fl (orders k) (rows k) v); [|lra].
    unfold distance_fl. cbv zeta. fold f. assert (0 <= lsum f (summed (orders k))) by (apply lsum_nonneg; intros j J; apply (SB j J)). nra.
  - intros j J. assert (IJ : In j (summed (orders k))) by (apply (Permutation_in _ (Permutation_sym (P k K))), in_seq; lia).
    assert (E0 := lsum_zero f _ (fun j J => proj2 (SB j J)) LS j IJ). apply b32_square_zero in E0.
    destruct (FL j J) as [F1 F2]. destruct (b32_minus _ _ F1 F2) as (e & E & D). rewrite D, Rabs_mult in E0.
    apply bound_1e in E. rewrite (Rabs_pos_eq (1 + e)) in E0 by (pose proof u_pos; lra).
    assert (HH : / 2 ^ 74 = / 2 ^ 73 * / 2) by (rewrite <- Rinv_mult; f_equal; change (2 ^ 74) with (2 * 2 ^ 73); ring).
    pose proof (Rabs_pos (rows k j - v j)). pose proof u_pos. nra.
Qed.
Print Assumptions vq_codeword_float.

(** ** The output *)
(** The returned entry is the codeword's, up to two roundings. *)
Theorem vq_output_float : forall x q, float32 x -> float32 q ->
  Rabs (straight_through x q - q) <= / 2 ^ 24 * (Rabs q + 2 * Rabs (q - x)) /\
  (q / 2 <= x <= 2 * q -> straight_through x q = q).
Proof.
  intros x q Fx Fq. unfold straight_through. split.
  - destruct (b32_minus q x Fq Fx) as (e1 & E1 & D1). destruct (b32_plus x (b32 (q - x)) Fx (b32_float _)) as (e2 & E2 & ->). rewrite D1.
    replace ((x + (q - x) * (1 + e1)) * (1 + e2) - q) with (q * e2 + (q - x) * (e1 * (1 + e2))) by ring.
    eapply Rle_trans; [apply Rabs_triang|]. rewrite !Rabs_mult. change (/ 2 ^ 24) with u. pose proof u_pos as U.
    assert (E3 : Rabs (1 + e2) <= 1 + u) by (rewrite Rabs_pos_eq; apply bound_1e in E2; lra).
    pose proof (Rabs_pos q). pose proof (Rabs_pos (q - x)). pose proof (Rabs_pos e1). pose proof (Rabs_pos e2). pose proof (Rabs_pos (1 + e2)).
    assert (Rabs q * Rabs e2 <= Rabs q * u) by (apply Rmult_le_compat_l; assumption).
    assert (Rabs e1 * Rabs (1 + e2) <= u * (1 + u)) by (apply Rmult_le_compat; assumption).
    assert (Rabs (q - x) * (Rabs e1 * Rabs (1 + e2)) <= Rabs (q - x) * (u * 2)) by (apply Rmult_le_compat_l; [assumption|nra]). lra.
  - intro B. assert (F : float32 (q - x)) by (apply sterbenz; [apply FLT_exp_valid, prec24|apply FLT_exp_monotone|exact Fq|exact Fx|lra]).
    rewrite (b32_exact (q - x)) by exact F. replace (x + (q - x)) with q by ring. apply b32_exact, Fq.
Qed.
Print Assumptions vq_output_float.

Lemma b32_example : b32 (3 - 33554436) = -33554432.
Proof.
  unfold b32, round. replace (3 - 33554436) with (-33554433) by lra.
  assert (M : mag radix2 (-33554433) = 26%Z :> Z).
  { apply mag_unique. rewrite Rabs_left by lra.
    assert (E1 : bpow radix2 (26 - 1) = 33554432) by reflexivity. assert (E2 : bpow radix2 26 = 67108864) by reflexivity. rewrite E1, E2. lra. }
  unfold scaled_mantissa, cexp. rewrite M. change (FLT_exp (-149) 24 26) with 2%Z.
  change (bpow radix2 (- (2))) with (/ 4).
  rewrite (Znearest_imp _ _ (-8388608)); [unfold F2R; cbn; lra|]. rewrite Rabs_left; lra.
Qed.
(** It is not the codeword's in general: the latent that the decoder sees is not in the codebook. *)
Theorem vq_output_float_refuted : exists x q, float32 x /\ float32 q /\ straight_through x q <> q.
Proof.
  exists 33554436, 3. split; [|split].
  - apply generic_format_FLT. exists (Float radix2 8388609 2); [unfold F2R; cbn; lra|cbn; lia|cbn; lia].
  - apply (format_int (-149) 24 3); [exact prec24|lia|cbn; lia].
  - unfold straight_through. rewrite b32_example. replace (33554436 + -33554432) with (IZR 4) by (cbn; lra). rewrite b32_int by (cbn; lia). lra.
Qed.
Print Assumptions vq_output_float_refuted.

(** ** Normalised rows *)
Lemma bern_up m n : INR n * u <= m -> m <= 1 / 2 -> (1 + u) ^ n <= 1 + 2 * m.
Proof.
  intros H M. pose proof u_pos as U.
  assert (G : (1 + u) ^ n <= 1 + 2 * (INR n * u)); [|lra].
  induction n as [|n IH]; [cbn; lra|]. rewrite S_INR in *. cbn [pow]. pose proof (pos_INR n).
  specialize (IH ltac:(lra)). assert (0 <= INR n * u) by nra. assert ((1 + u) * (1 + u) ^ n <= (1 + u) * (1 + 2 * (INR n * u))) by (apply Rmult_le_compat_l; lra). nra.
Qed.
Lemma bern_low n : 1 - INR n * u <= (1 - u) ^ n.
Proof.
  pose proof u_pos as U. induction n as [|n IH]; [cbn; lra|]. rewrite S_INR. cbn [pow]. pose proof (pow1m n). pose proof (pos_INR n). nra.
Qed.
Lemma square_fl c : 0 <= b32 (c * c) /\ (1 - u) * (c * c) - tiny <= b32 (c * c) <= (1 + u) * (c * c) + tiny.
Proof.
  split; [rewrite <- b32_0; apply b32_mono, Rle_0_sqr|]. destruct (b32_any (c * c)) as (e & t & E & T & ->). apply bound_1e in E. apply Rabs_le_inv in T.
  assert (0 <= c * c) by apply Rle_0_sqr. split; nra.
Qed.
Lemma inv_up x : 0 <= x <= / 8 -> / (1 - x) <= 1 + 2 * x.
Proof. intro H. apply Rmult_le_reg_l with (1 - x); [lra|]. rewrite Rinv_r by lra. nra. Qed.
Lemma inv_low x : 0 <= x -> 1 - x <= / (1 + x).
Proof. intro H. apply Rmult_le_reg_l with (1 + x); [lra|]. rewrite Rinv_r by lra. nra. Qed.

Lemma sq_tiny t : Rabs t <= tiny -> t * t <= tiny.
Proof.
  intro H. pose proof (Rabs_pos t). pose proof tiny_pos. replace (t * t) with (Rabs t * Rabs t) by (rewrite <- Rabs_mult; apply Rabs_pos_eq, Rle_0_sqr).
  apply Rle_trans with (tiny * 1); [|lra]. apply Rmult_le_compat; try lra. assert (tiny <= 1) by (unfold tiny; lra). lra.
Qed.
Lemma sq_1e e : - u <= e <= u -> 1 - 3 * u <= (1 + e) * (1 + e) <= 1 + 3 * u.
Proof. pose proof u_pos as U. intro H. nra. Qed.
Lemma four_tiny : 2 * 2 * (1 + u) * tiny <= 5 * tiny.
Proof. pose proof tiny_pos. pose proof u_pos. apply Rmult_le_compat_r; lra. Qed.
(** A row that is not very short is given the length 1 up to [d] roundings. *)
Theorem vq_unit_rows_float : forall t d c, Permutation (summed t) (seq 0 d) -> INR d <= 2 ^ 20 ->
  / 2 ^ 60 <= sqdist d c (fun _ => 0) ->
  Rabs (sqdist d (normalize_fl t c) (fun _ => 0) - 1) <= (INR d + 10) / 2 ^ 22.
Proof.
  intros t d c P DB SB. pose proof u_pos as U. pose proof tiny_pos as TP. pose proof (pos_INR d) as ND.
  assert (LEN : length (summed t) = d) by (rewrite (Permutation_length P); apply seq_length).
  set (f := fun j => b32 (c j * c j)). set (g := fun j => c j * c j).
  assert (SE : sqdist d c (fun _ => 0) = lsum g (summed t)).
  { rewrite (lsum_perm _ _ _ P), lsum_seq. apply rsum_ext. intros. unfold g. ring. }
  rewrite SE in SB. set (s := lsum g (summed t)) in *.
  assert (L1 := lsum_between f g (1 - u) tiny (summed t) ltac:(intros; apply square_fl)).
  assert (L2 := lsum_between2 f g (1 + u) tiny (summed t) ltac:(intros; apply square_fl)). rewrite LEN in L1, L2. fold s in L1, L2.
  pose proof (depth_lt t) as DT. rewrite LEN in DT.
  assert (B := fsum_bounds t f d ltac:(intros j _; split; [apply b32_float|apply square_fl]) ltac:(lia)).
  set (m := INR d * u) in *. assert (M : 0 <= m <= / 16) by (unfold m, u in *; split; [nra|]; lra).
  assert (P1 := bern_up m d (Rle_refl _) ltac:(lra)). assert (P2 := bern_low d). fold m in P2.
  pose proof (pow1m d) as PM. pose proof (pow1u_ge d) as PP.
  assert (DT0 : 0 <= INR d * tiny <= u * s / 16).
  { split; [apply Rmult_le_pos; lra|]. apply Rle_trans with (2 ^ 20 * tiny); [apply Rmult_le_compat_r; lra|]. 
    apply Rle_trans with (u * / 2 ^ 60 / 16); [unfold u, tiny; lra|]. apply Rmult_le_compat_r; [lra|]. apply Rmult_le_compat_l; lra. }
  set (dt := INR d * tiny) in *. set (T := fsum t f) in *. set (lf := lsum f (summed t)) in *.
  assert (S0 : 0 < s) by (eapply Rlt_le_trans; [|exact SB]; apply Rinv_0_lt_compat, pow_lt; lra).
  assert (T1 : (1 - m - 2 * u) * s <= T).
  { destruct B as [B _]. eapply Rle_trans; [|exact B]. apply Rle_trans with ((1 - m) * lf); [|apply Rmult_le_compat_r; [|exact P2]].
    - apply Rle_trans with ((1 - m) * ((1 - u) * s - dt)); [|apply Rmult_le_compat_l; lra]. nra.
    - assert (0 <= (1 - u) * s - dt) by nra. lra. }
  assert (T2 : T <= (1 + 2 * m + 3 * u) * s).
  { destruct B as [_ B]. eapply Rle_trans; [exact B|]. apply Rle_trans with ((1 + 2 * m) * lf); [apply Rmult_le_compat_r; [|exact P1]|].
    - assert (0 <= (1 - u) * s - dt) by nra. lra.
    - apply Rle_trans with ((1 + 2 * m) * ((1 + u) * s + dt)); [apply Rmult_le_compat_l; lra|]. nra. }
  assert (TS : s / 2 <= T) by nra.
  (* the norm *)
  assert (R1 : / 2 ^ 31 <= sqrt T).
  { rewrite <- (sqrt_square (/ 2 ^ 31)) by (left; apply Rinv_0_lt_compat, pow_lt; lra). apply sqrt_le_1_alt. lra. }
  assert (NE : exists e, Rabs e <= 2 * u /\ norm_fl t c = sqrt T * (1 + e)).
  { unfold norm_fl. fold f. fold T. destruct (b32_any (sqrt T)) as (e & t' & E & T' & ->). 
    exists (e + t' / sqrt T). split; [|field; lra]. eapply Rle_trans; [apply Rabs_triang|].
    assert (Rabs (t' / sqrt T) <= u); [|lra]. unfold Rdiv. rewrite Rabs_mult, Rabs_inv, (Rabs_pos_eq (sqrt T)) by lra.
    apply Rmult_le_reg_r with (sqrt T); [lra|]. rewrite Rmult_assoc, Rinv_l, Rmult_1_r by lra.
    eapply Rle_trans; [exact T'|]. apply Rle_trans with (u * / 2 ^ 31); [unfold u, tiny; lra|]. apply Rmult_le_compat_l; lra. }
  destruct NE as (en & EN & NN). apply Rabs_le_inv in EN. set (n := norm_fl t c) in *.
  assert (N32 : / 2 ^ 32 <= n). { rewrite NN. nra. }
  assert (RM : Rmax n (b32 (/ 10 ^ 12)) = n).
  { apply Rmax_left. eapply Rle_trans; [|exact N32]. destruct (b32_any (/ 10 ^ 12)) as (e & t' & E & T' & ->). apply bound_1e in E. apply Rabs_le_inv in T'. unfold tiny, u in *.
    apply Rle_trans with (/ 10 ^ 12 * 2 + / 2 ^ 150); [|lra]. apply Rplus_le_compat; [|lra]. apply Rmult_le_compat_l; lra. }
  (* sum of the quotients' squares *)
  set (a := fun j => c j / n). assert (NP : 0 < n) by (eapply Rlt_le_trans; [|exact N32]; apply Rinv_0_lt_compat, pow_lt; lra).
  set (q := lsum (fun j => a j * a j) (summed t)).
  assert (QE : q = s * / (n * n)).
  { unfold q, s, lsum. generalize (summed t) as l. induction l as [|x l IH]; cbn [map fold_right]; [ring|]. rewrite IH. unfold a, g. field. lra. }
  assert (NN2 : n * n = T * ((1 + en) * (1 + en))).
  { rewrite NN. replace (sqrt T * (1 + en) * (sqrt T * (1 + en))) with (sqrt T * sqrt T * ((1 + en) * (1 + en))) by ring. rewrite sqrt_sqrt by lra. reflexivity. }
  assert (E2 : 1 - 4 * u <= (1 + en) * (1 + en) <= 1 + 5 * u) by nra.
  set (w := (1 + en) * (1 + en)) in *.
  assert (NL : (1 - m - 6 * u) * s <= n * n) by (rewrite NN2; apply Rle_trans with ((1 - m - 2 * u) * s * (1 - 4 * u)); [nra|apply Rmult_le_compat; nra]).
  assert (NU : n * n <= (1 + (2 * m + 9 * u)) * s) by (rewrite NN2; apply Rle_trans with ((1 + 2 * m + 3 * u) * s * (1 + 5 * u)); [apply Rmult_le_compat; nra|nra]).
  assert (Q1 : 1 - (2 * m + 9 * u) <= q).
  { eapply Rle_trans; [apply inv_low; lra|]. rewrite QE. apply Rmult_le_reg_r with (n * n); [nra|].
    rewrite Rmult_assoc, Rinv_l, Rmult_1_r by nra. apply Rmult_le_reg_l with (1 + (2 * m + 9 * u)); [lra|]. rewrite <- Rmult_assoc, Rinv_r by lra. lra. }
  assert (Q2 : q <= 1 + 2 * (m + 6 * u)).
  { eapply Rle_trans; [|apply inv_up; lra]. rewrite QE. apply Rmult_le_reg_r with (n * n); [nra|].
    rewrite Rmult_assoc, Rinv_l, Rmult_1_r by nra. apply Rmult_le_reg_l with (1 - (m + 6 * u)); [lra|]. rewrite <- Rmult_assoc, Rinv_r by lra. lra. }
  (* the rounded quotients *)
  assert (EL : sqdist d (normalize_fl t c) (fun _ => 0) = lsum (fun j => b32 (a j) * b32 (a j)) (summed t)).
  { rewrite (lsum_perm _ _ _ P), lsum_seq. apply rsum_ext. intros. unfold normalize_fl. fold n. rewrite RM. unfold a. ring. }
  assert (AJ : forall j, In j (summed t) -> Rabs (a j) <= 2).
  { intros j J. assert (a j * a j <= q).
    { unfold q, lsum. clear - J. induction (summed t) as [|x l IH]; [destruct J|]. cbn [map fold_right].
      assert (0 <= fold_right Rplus 0 (map (fun j => a j * a j) l)) by (apply (lsum_nonneg (fun j => a j * a j)); intros; apply Rle_0_sqr).
      destruct J as [<-|J]; [lra|]. specialize (IH J). pose proof (Rle_0_sqr (a x)) as R0. unfold Rsqr in R0. lra. }
    apply Rnot_lt_le. intro G. assert (Rabs (a j) * Rabs (a j) = a j * a j) by (rewrite <- Rabs_mult; apply Rabs_pos_eq, Rle_0_sqr). nra. }
  assert (RJ : forall j, In j (summed t) -> (1 - 3 * u) * (a j * a j) - 6 * tiny <= b32 (a j) * b32 (a j) /\ b32 (a j) * b32 (a j) <= (1 + 3 * u) * (a j * a j) + 6 * tiny).
  { intros j J. specialize (AJ j J). destruct (b32_any (a j)) as (e & t' & E & T' & ->). apply Rabs_le_inv in E.
    assert (T1' := T'). apply Rabs_le_inv in T'. set (z := a j) in *.
    assert (X : Rabs (2 * z * (1 + e) * t') <= 5 * tiny).
    { rewrite !Rabs_mult. rewrite (Rabs_pos_eq 2), (Rabs_pos_eq (1 + e)) by lra. pose proof (Rabs_pos z). pose proof (Rabs_pos t').
      apply Rle_trans with (2 * 2 * (1 + u) * tiny); [|apply four_tiny]. apply Rmult_le_compat; [nra|lra| |lra]. apply Rmult_le_compat; lra. }
    assert (Y : 0 <= t' * t' <= tiny).
    { split; [apply Rle_0_sqr|]. apply sq_tiny, T1'. }
    apply Rabs_le_inv in X. assert (Z : 0 <= z * z) by apply Rle_0_sqr.
    replace ((z * (1 + e) + t') * (z * (1 + e) + t')) with (z * z * ((1 + e) * (1 + e)) + 2 * z * (1 + e) * t' + t' * t') by ring.
    assert (1 - 3 * u <= (1 + e) * (1 + e) <= 1 + 3 * u) by (apply sq_1e; lra). set (ww := (1 + e) * (1 + e)) in *. clearbody ww.
    assert (z * z * (1 - 3 * u) <= z * z * ww) by (apply Rmult_le_compat_l; lra). assert (z * z * ww <= z * z * (1 + 3 * u)) by (apply Rmult_le_compat_l; lra). lra. }
  rewrite EL.
  assert (Z1 := lsum_between (fun j => b32 (a j) * b32 (a j)) (fun j => a j * a j) (1 - 3 * u) (6 * tiny) (summed t) ltac:(intros; apply RJ; assumption)).
  assert (Z2 := lsum_between2 (fun j => b32 (a j) * b32 (a j)) (fun j => a j * a j) (1 + 3 * u) (6 * tiny) (summed t) ltac:(intros; apply RJ; assumption)).
  rewrite LEN in Z1, Z2. fold q in Z1, Z2.
  assert (D6 : INR d * (6 * tiny) <= u / 100).
  { apply Rle_trans with (2 ^ 20 * (6 * tiny)); [apply Rmult_le_compat_r; lra|]. unfold u, tiny. lra. }
  assert (RHS : (INR d + 10) / 2 ^ 22 = 4 * m + 40 * u) by (unfold m, u; lra).
  rewrite RHS. apply Rabs_le. set (l := lsum _ _) in *. clearbody l.
  assert (Q3 : 0 <= u * q <= u * 2) by (split; [apply Rmult_le_pos; lra|apply Rmult_le_compat_l; lra]).
  replace ((1 - 3 * u) * q) with (q - 3 * (u * q)) in Z1 by ring. replace ((1 + 3 * u) * q) with (q + 3 * (u * q)) in Z2 by ring. lra.
Qed.
Print Assumptions vq_unit_rows_float.

(** Non-vacuity: three floats, summed from the right or as they come. *)
Example vq_float_ex : Permutation (summed (Two (One 1) (Two (One 2) (One 0)))) (seq 0 3) /\
  pick_nearest_fl 2 (fun _ => Two (One 1) (Two (One 2) (One 0))) (fun k j => INR (k + j)) (fun j => INR (1 + j)) = Ok 1%nat.
Proof.
  split; [cbn; apply Permutation_trans with [2; 1; 0]%nat; [apply perm_swap|]; apply (Permutation_rev [2; 1; 0]%nat)|].
  unfold pick_nearest_fl. apply argmin_unique; [lia| |].
  all: assert (B : forall k : Z, (Z.abs k <= 2 ^ 24)%Z -> b32 (IZR k) = IZR k) by apply b32_int.
  all: assert (E1 : distance_fl (Two (One 1) (Two (One 2) (One 0))) (fun j => INR (1 + j)) (fun j => INR (1 + j)) = 0)
    by (unfold distance_fl; apply fsum_zero; intros j _; rewrite Rminus_diag_eq by reflexivity; rewrite b32_0; replace (0 * 0) with 0 by ring; apply b32_0).
  all: assert (E0 : distance_fl (Two (One 1) (Two (One 2) (One 0))) (fun j => INR (0 + j)) (fun j => INR (1 + j)) = 3).
  1,3: assert (F : forall j, (let e := b32 (INR (0 + j) - INR (1 + j)) in b32 (e * e)) = 1)
    by (intro j; rewrite plus_INR, !plus_INR; cbn [INR]; replace (0 + INR j - (1 + INR j)) with (-1) by ring; cbv zeta; rewrite (B (-1)%Z) by (cbn; lia);
        replace (-1 * -1) with 1 by ring; apply (B 1%Z); cbn; lia);
    unfold distance_fl; cbn [fsum]; rewrite !F; replace (1 + 1) with 2 by ring; rewrite (B 2%Z) by (cbn; lia);
    replace (1 + 2) with 3 by ring; apply (B 3%Z); cbn; lia.
  - intros i I. destruct i as [|[|i]]; [| |lia]; cbv beta; rewrite E1, ?E0; lra.
  - intros i I. destruct i as [|i]; [|lia]. cbv beta. rewrite E1, E0. lra.
Qed.

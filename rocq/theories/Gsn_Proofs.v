(** Lemmas for the conditional bottleneck. *)
From Coq Require Import ZArith List Bool Lia Lra Reals.
From Flocq Require Import Core.
From Verif Require Import Base RBase RFloat Gsn_Model Gsn_Spec.
Import ListNotations.
Open Scope Z_scope.

(** ** Float32 *)
Lemma b32_format x : generic_format radix2 (FLT_exp (-149) 24) (b32 x).
Proof. apply generic_format_round; [apply FLT_exp_valid, prec24 | apply valid_rnd_N]. Qed.
Lemma format_b32 x : generic_format radix2 (FLT_exp (-149) 24) x -> is_b32 x.
Proof. intro H. apply round_generic; [apply valid_rnd_N | exact H]. Qed.
Lemma is_b32_format x : is_b32 x -> generic_format radix2 (FLT_exp (-149) 24) x.
Proof. intro H. rewrite <- H. apply b32_format. Qed.
Lemma b32_idem x : is_b32 (b32 x).
Proof. apply format_b32, b32_format. Qed.

Lemma big_format_int x : generic_format radix2 (FLT_exp (-149) 24) x -> (bpow radix2 23 <= Rabs x)%R ->
  exists n, x = IZR n.
Proof.
  intros F H. unfold generic_format in F.
  assert (E : 0 <= cexp radix2 (FLT_exp (-149) 24) x).
  { unfold cexp, FLT_exp. assert (23 < mag radix2 x); [|lia]. 
    apply mag_gt_bpow. exact H. }
  set (e := cexp radix2 (FLT_exp (-149) 24) x) in *.
  exists (Ztrunc (scaled_mantissa radix2 (FLT_exp (-149) 24) x) * 2 ^ e).
  rewrite F at 1. unfold F2R. cbn [Fnum Fexp]. rewrite mult_IZR. f_equal. symmetry. apply (IZR_Zpower radix2). exact E.
Qed.

Lemma round_even_b32 x : is_b32 x -> is_b32 (IZR (round_even x)).
Proof.
  intro H. destruct (Rlt_le_dec (Rabs x) (bpow radix2 23)) as [L|L].
  - apply b32_int. change (bpow radix2 23) with (IZR (2 ^ 23)) in L.
    apply Rabs_def2 in L. assert (- 2 ^ 23 <= round_even x <= 2 ^ 23); [|lia].
    apply round_even_range. rewrite opp_IZR. lra.
  - destruct (big_format_int x (is_b32_format x H) L) as [n ->]. now rewrite round_even_IZR.
Qed.

Lemma round_st_exact x : is_b32 x -> round_st x = IZR (round_even x).
Proof.
  intro H. unfold round_st.
  assert (D : is_b32 (IZR (round_even x) - x)%R).
  { destruct (Rlt_le_dec (Rabs x) (bpow radix2 23)) as [L|L].
    2:{ destruct (big_format_int x (is_b32_format x H) L) as [n ->]. rewrite round_even_IZR, Rminus_diag_eq by reflexivity.
        exact (b32_int 0 ltac:(lia)). }
    destruct (Rlt_le_dec (Rabs x) (1/2)) as [L1|L1].
    { rewrite (round_even_unique x 0) by (rewrite Rminus_0_r; exact L1).
      apply format_b32. rewrite Rminus_0_l. apply generic_format_opp. now apply is_b32_format. }
    apply format_b32. pose proof (is_b32_format x H) as F. unfold generic_format in F.
    set (e := cexp radix2 (FLT_exp (-149) 24) x) in *.
    assert (M : 0 <= mag radix2 x <= 24 /\ e = mag radix2 x - 24).
    { assert (Q1 : -1 < mag radix2 x). { apply mag_gt_bpow. change (bpow radix2 (-1)) with (/2)%R. lra. }
      assert (Q2 : mag radix2 x <= 23).
      { apply mag_le_bpow; [|exact L]. intro Z0. rewrite Z0, Rabs_R0 in L1. lra. }
      subst e. unfold cexp, FLT_exp. lia. }
    destruct M as [M1 M2].
    set (m := Ztrunc (scaled_mantissa radix2 (FLT_exp (-149) 24) x)) in *.
    assert (B : bpow radix2 (- e) = IZR (2 ^ (- e))). { symmetry. apply (IZR_Zpower radix2). lia. }
    assert (X : (IZR (round_even x) - x = F2R (Float radix2 (round_even x * 2 ^ (- e) - m) e))%R).
    { unfold F2R. cbn [Fnum Fexp]. rewrite minus_IZR, mult_IZR, <- B.
      replace ((IZR (round_even x) * bpow radix2 (- e) - IZR m) * bpow radix2 e)%R
        with (IZR (round_even x) * (bpow radix2 (- e) * bpow radix2 e) - IZR m * bpow radix2 e)%R by ring.
      rewrite <- bpow_plus. replace (- e + e) with 0 by lia. change (bpow radix2 0) with 1%R.
      rewrite F at 2. unfold F2R. cbn [Fnum Fexp]. ring. }
    apply generic_format_FLT. exists (Float radix2 (round_even x * 2 ^ (- e) - m) e); [exact X| |].
    - cbn [Fnum]. change (Z.pow radix2 24) with (2 ^ 24). apply lt_IZR. rewrite abs_IZR.
      pose proof (round_even_near x) as N. rewrite <- Rabs_Ropp in N. replace (- (x - IZR (round_even x)))%R with (IZR (round_even x) - x)%R in N by ring.
      rewrite X in N. unfold F2R in N. cbn [Fnum Fexp] in N. rewrite Rabs_mult in N.
      assert (PE : (0 < bpow radix2 e)%R) by apply bpow_gt_0. rewrite (Rabs_pos_eq (bpow radix2 e)) in N by lra.
      set (k := Rabs (IZR (round_even x * 2 ^ (- e) - m))) in *.
      assert (K : (k <= 1/2 * bpow radix2 (- e))%R).
      { apply Rmult_le_reg_r with (bpow radix2 e); [exact PE|].
        rewrite Rmult_assoc, <- bpow_plus. replace (- e + e) with 0 by lia. change (bpow radix2 0) with 1%R. lra. }
      assert (U : (bpow radix2 (- e) <= bpow radix2 24)%R) by (apply bpow_le; lia).
      change (bpow radix2 24) with (IZR (2 ^ 24)) in U. change (IZR (2 ^ 24)) with 16777216%R in *. lra.
    - cbn [Fexp]. lia. }
  rewrite D. replace (IZR (round_even x) - x + x)%R with (IZR (round_even x)) by ring.
  apply round_even_b32. exact H.
Qed.

Lemma to_int32_id z : in_int32 z -> to_int32 z = z.
Proof.
  unfold in_int32, to_int32. intro H. rewrite Z.mod_small by lia. lia.
Qed.

(** ** Rows *)
Lemma Rtrunc_floor x : (0 <= x)%R -> Rtrunc x = Rfloor x.
Proof. intro H. unfold Rtrunc. destruct (Rle_dec 0 x); [reflexivity|contradiction]. Qed.

Definition clampR (hi x : R) : R := Rmin hi (Rmax x 0).
Lemma normalize_eq nm ns i0 i1 :
  normalize_indexes nm ns i0 i1 = (clampR (IZR (nm - 1)) i0, clampR (IZR (ns - 1)) i1).
Proof.
  unfold normalize_indexes, lower_bound, clampR.
  assert (K : forall a b, (- Rmax (- a) (- b) = Rmin b a)%R).
  { intros a b. unfold Rmax, Rmin. destruct (Rle_dec (- a) (- b)), (Rle_dec b a); lra. }
  rewrite !K. reflexivity.
Qed.
Lemma clampR_range n x : 1 <= n -> (0 <= clampR (IZR (n - 1)) x <= IZR (n - 1))%R.
Proof.
  intro H. assert (0 <= IZR (n - 1))%R by (apply IZR_le; lia). unfold clampR. split.
  - apply Rmin_glb; [assumption|apply Rmax_r].
  - apply Rmin_l.
Qed.
Lemma clampR_trunc n x : 1 <= n -> 0 <= Rtrunc (clampR (IZR (n - 1)) x) < n.
Proof.
  intro H. destruct (clampR_range n x H) as [A B]. rewrite Rtrunc_floor by exact A. split.
  - apply Rfloor_ge. exact A.
  - apply Rfloor_lt. eapply Rle_lt_trans; [exact B|]. apply IZR_lt. lia.
Qed.

Lemma row_range_any nm ns i0 i1 : 1 <= nm -> 1 <= ns ->
  let '(j0, j1) := normalize_indexes nm ns i0 i1 in 0 <= cdf_index ns j0 j1 < nm * ns.
Proof.
  intros A B. rewrite normalize_eq. unfold cdf_index.
  pose proof (clampR_trunc nm i0 A). pose proof (clampR_trunc ns i1 B). nia.
Qed.

Lemma verysoftplus_pos x : (0 < verysoftplus x)%R.
Proof.
  unfold verysoftplus. destruct (Rlt_dec 0 x) as [H|H].
  - pose proof (Rmax_r x 0). lra.
  - unfold Rdiv. rewrite Rmult_1_l. apply Rinv_0_lt_compat. pose proof (Rmin_r x 0). lra.
Qed.

Definition scale_pos (ns : Z) (ms v : R) : R :=
  ((ln (v + ms) - ln ms) / ln (256 / ms + 1) * IZR (ns - 1))%R.
Lemma row_ok nm ns ms mean scale :
  row nm ns ms mean scale =
  Ok (Rtrunc (clampR (IZR (nm - 1)) ((mean - IZR (round_even mean) + 0.5) * IZR nm)) * ns +
      Rtrunc (clampR (IZR (ns - 1)) (scale_pos ns ms (verysoftplus scale)))).
Proof.
  unfold row, get_indexes, to_scale_idx. pose proof (verysoftplus_pos scale).
  destruct (Rlt_dec 0 (verysoftplus scale)); [|contradiction]. cbn [andb bind]. rewrite normalize_eq. reflexivity.
Qed.

Lemma rows_ok nm ns ms means scales : 1 <= nm -> 1 <= ns -> length means = length scales ->
  exists idx, rows nm ns ms means scales = Ok idx /\ length idx = length means /\
    Forall (fun i => 0 <= i < nm * ns) idx /\
    Forall2 (fun p i => row nm ns ms (fst p) (snd p) = Ok i) (combine means scales) idx.
Proof.
  intros A B. unfold rows. revert scales. induction means as [|m means IH]; intros [|s scales] L; try discriminate.
  - exists []. repeat split; constructor.
  - cbn in L. injection L as L. destruct (IH scales L) as (idx & E & Li & F & F2). cbn [combine mapM fst snd].
    rewrite row_ok. cbn [bind]. rewrite E. cbn [bind]. eexists. split; [reflexivity|].
    split; [cbn; congruence|]. split; [|constructor; [apply row_ok|exact F2]]. constructor; [|exact F].
    match goal with |- context [clampR _ ?x] => pose proof (clampR_trunc nm x A) end.
    match goal with |- context [Rtrunc (clampR (IZR (ns - 1)) ?x)] => pose proof (clampR_trunc ns x B) end. nia.
Qed.

Lemma map2_length {X Y Z0} (f : X -> Y -> Z0) l m : length l = length m -> length (map2 f l m) = length l.
Proof. intro H. unfold map2. rewrite map_length, combine_length. lia. Qed.

(** ** Round trip *)
Section RT.
Variables (nm ns : Z) (ms : R).
Context {B : Type}.
Variable ec_compress : list Z -> list Z -> res B.
Variable ec_decompress : B -> list Z -> res (list Z).
Variable ok : Z -> Prop.
Hypothesis Hnm : 1 <= nm.
Hypothesis Hns : 1 <= ns.
Hypothesis EC : lossless_coder ec_compress ec_decompress (nm * ns) ok.
Hypothesis OK32 : forall z, ok z -> in_int32 z.

Lemma gsn_round_trip xs scales means : length xs = length means -> length scales = length means ->
  Forall ok (map2 symbol xs means) ->
  exists b idx, Forall2 (fun p i => row nm ns ms (fst p) (snd p) = Ok i) (combine means scales) idx /\
    ec_compress (map2 symbol xs means) idx = Ok b /\
    gsn_compress nm ns ms ec_compress xs scales means = Ok (map2 quantised xs means, b) /\
    gsn_decompress nm ns ms ec_decompress b scales means = Ok (map2 quantised xs means).
Proof.
  intros L1 L2 F. destruct (rows_ok nm ns ms means scales Hnm Hns (eq_sym L2)) as (idx & E & Li & Fi & F2).
  unfold gsn_compress, gsn_decompress. rewrite E. cbn [bind].
  set (rm := map (fun m => IZR (round_even m)) means).
  assert (I : map2 (fun x k => b32 (x - k)) xs rm = map2 (fun x m => b32 (x - IZR (round_even m))) xs means).
  { subst rm. clear - L1. unfold map2. revert means L1. induction xs as [|x xs IH]; intros [|m means] L; try discriminate; [reflexivity|].
    cbn in *. injection L as L. f_equal. now apply IH. }
  rewrite I. rewrite map2_length by exact L1.
  replace (length xs) with (length idx) by congruence. rewrite Nat.eqb_refl. cbn [negb].
  assert (SY : map (fun y => to_int32 (round_even y)) (map2 (fun x m => b32 (x - IZR (round_even m))) xs means) = map2 symbol xs means).
  { clear - L1 F OK32. unfold map2 in *. revert means L1 F. induction xs as [|x xs IH]; intros [|m means] L F; try discriminate; [reflexivity|].
    cbn in *. injection L as L. inversion F as [|a b F1 F2]; subst. f_equal; [apply to_int32_id, OK32, F1 | now apply IH]. }
  rewrite SY.
  destruct (EC (map2 symbol xs means) idx) as (b & E1 & E2); [rewrite map2_length by exact L1; congruence|exact F|exact Fi|].
  rewrite E1. cbn [bind]. exists b, idx. split; [exact F2|]. split; [exact E1|]. split.
  - f_equal. f_equal. subst rm. clear - L1. unfold map2. revert means L1.
    induction xs as [|x xs IH]; intros [|m means] L; try discriminate; [reflexivity|].
    cbn in *. injection L as L. f_equal. now apply IH.
  - rewrite E2. cbn [bind]. f_equal. subst rm. clear - L1. unfold map2. revert means L1.
    induction xs as [|x xs IH]; intros [|m means] L; try discriminate; [reflexivity|].
    cbn in *. injection L as L. f_equal; [|now apply IH]. unfold quantised, symbol. rewrite (round_even_b32 _ (b32_idem _)). reflexivity.
Qed.
End RT.

Lemma forward_eval_quantised xs means : length xs = length means -> Forall is_b32 means ->
  gsn_forward_eval xs means = map2 quantised xs means /\ gsn_forward_train xs means = map2 quantised xs means.
Proof.
  unfold gsn_forward_eval, gsn_forward_train, map2. revert means.
  induction xs as [|x xs IH]; intros [|m means] L F; try discriminate; [split; reflexivity|].
  cbn in L. injection L as L. inversion F as [|a b F1 F2]; subst. destruct (IH means L F2) as [A C].
  cbn [map combine fst snd]. rewrite A, C. rewrite !(round_st_exact m F1).
  rewrite (round_st_exact _ (b32_idem _)). split; reflexivity.
Qed.

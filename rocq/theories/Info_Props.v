(** C60: information content, log_expm1 and the quantization offset. *)
From Coq Require Import String Reals List Bool Arith Lia Lra ZArith.
From Verif Require Import Base Tensor RBase RSum Dist_Model Dist_Spec Info_Model.
Import ListNotations.
Open Scope R_scope.

(** The bits (or nats, ...) of a probability: minus its logarithm in the base. *)
Definition bits (base p : R) : R := - (ln p / ln base).

Lemma log_factor_ok : forall base, 0 < base -> base <> 1 -> log_factor base = Ok (-1 / ln base).
Proof.
  intros b B N. unfold log_factor. destruct (Rlt_dec 0 b); [|lra]. destruct (Req_EM_T b 1); [lra|reflexivity].
Qed.

Lemma ln_neq0 : forall b, 0 < b -> b <> 1 -> ln b <> 0.
Proof.
  intros b B N H. apply N. rewrite <- (exp_ln b B), H, exp_0. reflexivity.
Qed.

Lemma ln_gt0 : forall b, 1 < b -> 0 < ln b.
Proof. intros b B. rewrite <- ln_1. apply ln_increasing; lra. Qed.

Lemma elog_pos' : forall x, 0 < x -> elog (Fin x) = Fin (ln x).
Proof. intros x X. unfold elog. destruct (Rlt_dec 0 x); [reflexivity|lra]. Qed.

Lemma esum_fin : forall n (f : nat -> R), esum (map (fun k => Fin (f k)) (seq 0 n)) = Fin (rsum n f).
Proof.
  intros n f. unfold rsum. induction (seq 0 n) as [|a l IH]; [reflexivity|].
  cbn [map fold_right]. unfold esum in *. cbn [fold_right]. rewrite IH. reflexivity.
Qed.

Lemma bits_scale : forall b p, ln b <> 0 -> -1 / ln b * ln p = bits b p.
Proof. intros b p H. unfold bits. field. exact H. Qed.

(** "none": the bits of each element, +infinity for probability 0 (for a base above 1). *)
Theorem info_none : forall p base, 0 < base -> base <> 1 ->
  exists t, information_content p "none" base = Ok t /\ tshape t = tshape p /\
    forall i, (0 < tat p i -> tat t i = Fin (bits base (tat p i)))
              /\ (tat p i = 0 -> 1 < base -> tat t i = PInf)
              /\ (tat p i < 0 -> tat t i = NaN).
Proof.
  intros p base B N. unfold information_content. cbn [String.eqb Ascii.eqb Bool.eqb bind].
  rewrite log_factor_ok by assumption. cbn [bind].
  eexists; split; [reflexivity|]. split; [reflexivity|]. intros i. cbn [tat tmap]. repeat split.
  - intros P. rewrite elog_pos' by exact P. cbn [escale]. rewrite bits_scale by (apply ln_neq0; assumption). reflexivity.
  - intros -> B1. unfold elog. destruct (Rlt_dec 0 0); [lra|]. destruct (Req_EM_T 0 0); [|lra].
    unfold escale. pose proof (ln_gt0 base B1).
    assert (-1 / ln base < 0) by (unfold Rdiv; pose proof (Rinv_0_lt_compat _ H); lra).
    destruct (Rlt_dec 0 (-1 / ln base)); [lra|]. destruct (Rlt_dec (-1 / ln base) 0); [reflexivity|lra].
  - intros P. unfold elog. destruct (Rlt_dec 0 (tat p i)); [lra|]. destruct (Req_EM_T (tat p i) 0); [lra|reflexivity].
Qed.

(** "sum": the total over all elements. *)
Theorem info_sum : forall p base, 0 < base -> base <> 1 ->
  (forall i, inb (tshape p) i -> 0 < tat p i) ->
  exists t, information_content p "sum" base = Ok t /\ tshape t = [] /\
    tat t [] = Fin (rsum (prod (tshape p)) (fun k => bits base (tat p (unravel (tshape p) k)))).
Proof.
  intros p base B N P. unfold information_content. cbn [String.eqb Ascii.eqb Bool.eqb bind].
  rewrite log_factor_ok by assumption. cbn [bind].
  eexists; split; [reflexivity|]. split; [reflexivity|]. cbn [tat tmap tsum].
  unfold flat. cbn [tat tshape tmap].
  replace (map (fun k => elog (Fin (tat p (unravel (tshape p) k)))) (seq 0 (prod (tshape p))))
    with (map (fun k => Fin (ln (tat p (unravel (tshape p) k)))) (seq 0 (prod (tshape p)))).
  2:{ apply map_ext_in. intros k K. apply in_seq in K. symmetry. apply elog_pos', P, unravel_inb. lia. }
  rewrite (esum_fin (prod (tshape p)) (fun k => ln (tat p (unravel (tshape p) k)))).
  cbn [escale]. rewrite <- rsum_scal. f_equal. apply rsum_ext. intros k _.
  apply bits_scale, ln_neq0; assumption.
Qed.

(** "batch_el": the total of each element of the batch. *)
Theorem info_batch : forall p base b s, 0 < base -> base <> 1 -> tshape p = b :: s -> b <> 0%nat ->
  (forall i, inb (tshape p) i -> 0 < tat p i) ->
  exists t, information_content p "batch_el" base = Ok t /\ tshape t = [b] /\
    forall k, (k < b)%nat ->
      tat t [k] = Fin (rsum (prod s) (fun j => bits base (tat p (k :: unravel s j)))).
Proof.
  intros p base b s B N S B0 P. unfold information_content. cbn [String.eqb Ascii.eqb Bool.eqb].
  unfold sum_per_batch. cbn [tshape tmap]. rewrite S.
  destruct (Nat.eqb_spec b 0); [congruence|]. cbn [bind].
  rewrite log_factor_ok by assumption. cbn [bind].
  eexists; split; [reflexivity|]. split; [reflexivity|]. intros k K. cbn [tat tmap].
  replace (map (fun j => elog (Fin (tat p (k :: unravel s j)))) (seq 0 (prod s)))
    with (map (fun j => Fin (ln (tat p (k :: unravel s j)))) (seq 0 (prod s))).
  2:{ apply map_ext_in. intros j J. apply in_seq in J. symmetry. apply elog_pos', P. rewrite S. cbn [inb].
      split; [exact K|]. apply unravel_inb. lia. }
  rewrite (esum_fin (prod s) (fun j => ln (tat p (k :: unravel s j)))).
  cbn [escale]. rewrite <- rsum_scal. f_equal. apply rsum_ext. intros j _.
  apply bits_scale, ln_neq0; assumption.
Qed.

Lemma rsum_block : forall b m (f : nat -> R),
  rsum (b * m) f = rsum b (fun k => rsum m (fun j => f (k * m + j)%nat)).
Proof.
  intros b m f. induction b as [|b IH]; [reflexivity|].
  rewrite rsum_last, <- IH. replace (S b * m)%nat with (b * m + m)%nat by lia.
  rewrite rsum_app. reflexivity.
Qed.

(** The three reductions agree: the sum is the sum of the batch totals, each of which is the
    sum of its elements' contents. *)
Theorem info_reductions_agree : forall p base b s, 0 < base -> base <> 1 ->
  tshape p = b :: s -> b <> 0%nat -> (forall i, inb (tshape p) i -> 0 < tat p i) ->
  exists total per each ptot pel,
    information_content p "sum" base = Ok total /\ tat total [] = Fin ptot /\
    information_content p "batch_el" base = Ok per /\ (forall k, (k < b)%nat -> tat per [k] = Fin (pel k)) /\
    information_content p "none" base = Ok each /\
    ptot = rsum b pel /\
    forall k, (k < b)%nat -> exists e, (forall j, (j < prod s)%nat -> tat each (k :: unravel s j) = Fin (e j))
                                       /\ pel k = rsum (prod s) e.
Proof.
  intros p base b s B N S B0 P.
  destruct (info_sum p base B N P) as (total & E1 & _ & V1).
  destruct (info_batch p base b s B N S B0 P) as (per & E2 & _ & V2).
  destruct (info_none p base B N) as (each & E3 & _ & V3).
  exists total, per, each, (rsum (prod (tshape p)) (fun k => bits base (tat p (unravel (tshape p) k)))),
    (fun k => rsum (prod s) (fun j => bits base (tat p (k :: unravel s j)))).
  repeat split; try assumption.
  - rewrite S. cbn [prod fold_right]. fold (prod s). rewrite rsum_block. apply rsum_ext. intros k K.
    apply rsum_ext. intros j J. do 2 f_equal. cbn [unravel]. f_equal.
    + rewrite Nat.div_add_l, Nat.div_small by lia. lia.
    + f_equal. rewrite Nat.add_comm, Nat.mod_add by lia. apply Nat.mod_small, J.
  - intros k K. exists (fun j => bits base (tat p (k :: unravel s j))). split; [|reflexivity].
    intros j J. apply V3, P. rewrite S. cbn [inb]. split; [exact K|]. apply unravel_inb, J.
Qed.

(** Probabilities never have negative content (base above 1); certain events have none and
    halving a probability costs one bit. *)
Theorem info_bits : forall base p q, 1 < base -> 0 < p <= 1 -> 0 < q ->
  0 <= bits base p /\ bits base 1 = 0 /\ bits base (p * q) = bits base p + bits base q
  /\ bits 2 (p / 2) = bits 2 p + 1 /\ Rpower base (- bits base p) = p.
Proof.
  intros base p q B [P0 P1] Q. pose proof (ln_gt0 base B) as L. repeat split.
  - unfold bits. assert (ln p <= 0).
    { rewrite <- ln_1. destruct (Req_dec p 1) as [->|]; [lra|]. apply Rlt_le, ln_increasing; lra. }
    assert (0 <= - ln p / ln base) by (apply Rmult_le_pos; [lra|apply Rlt_le, Rinv_0_lt_compat, L]).
    unfold Rdiv in *. lra.
  - unfold bits. rewrite ln_1. unfold Rdiv. ring.
  - unfold bits. rewrite ln_mult by assumption. field. lra.
  - unfold bits, Rdiv. rewrite ln_mult, ln_Rinv by lra. pose proof (ln_gt0 2 ltac:(lra)). field. lra.
  - unfold Rpower, bits. replace (- - (ln p / ln base) * ln base) with (ln p) by (field; lra).
    apply exp_ln, P0.
Qed.

(** Errors: exactly an unknown reduction, a base that is not positive or is 1, or a batch
    reduction of a tensor with no batch dimension or an empty batch. *)
Theorem info_raises : forall p reduction base,
  (exists t, information_content p reduction base = Ok t) <->
  0 < base /\ base <> 1 /\
  (reduction = "sum" \/ reduction = "none" \/
   (reduction = "batch_el" /\ exists b s, tshape p = b :: s /\ b <> 0%nat))%string.
Proof.
  intros p r base. unfold information_content. split.
  - intros (t & E).
    assert (LF : is_ok (log_factor base) = true).
    { destruct (if String.eqb r "sum" then _ else _); [|discriminate]. cbn [bind] in E.
      destruct (log_factor base); [reflexivity|discriminate]. }
    unfold log_factor in LF. destruct (Rlt_dec 0 base) as [B|]; [|discriminate].
    destruct (Req_EM_T base 1) as [|N]; [discriminate|]. split; [exact B|]. split; [exact N|].
    destruct (String.eqb_spec r "sum"); [auto|]. destruct (String.eqb_spec r "batch_el").
    + right; right. split; [assumption|]. unfold sum_per_batch in E. cbn [tshape tmap] in E.
      destruct (tshape p) as [|b s]; [discriminate|]. exists b, s. split; [reflexivity|].
      destruct (Nat.eqb_spec b 0); [discriminate|assumption].
    + destruct (String.eqb_spec r "none"); [auto|discriminate].
  - intros (B & N & [->|[->|(-> & b & s & S & B0)]]); cbn [String.eqb Ascii.eqb Bool.eqb bind];
      rewrite ?log_factor_ok by assumption; cbn [bind]; [eauto|eauto|].
    unfold sum_per_batch. cbn [tshape tmap]. rewrite S. destruct (Nat.eqb_spec b 0); [congruence|].
    cbn [bind]. rewrite ?log_factor_ok by assumption. cbn [bind]. eauto.
Qed.

(** Which exception: the reduction is done before the base is looked at. *)
Theorem info_exceptions : forall p reduction base, In reduction ["sum"; "batch_el"; "none"]%string ->
  (reduction = "batch_el"%string -> tshape p = [] -> information_content p reduction base = Raise IndexError) /\
  (reduction = "batch_el"%string -> forall s, tshape p = 0%nat :: s -> information_content p reduction base = Raise RuntimeError) /\
  ((reduction = "batch_el"%string -> exists b s, tshape p = S b :: s) ->
   (base = 1 -> information_content p reduction base = Raise ZeroDivisionError) /\
   (base <= 0 -> information_content p reduction base = Raise ValueError)).
Proof.
  intros p r base I. assert (L1 : base = 1 -> log_factor base = Raise ZeroDivisionError).
  { intros ->. unfold log_factor. destruct (Rlt_dec 0 1); [|lra]. now destruct (Req_EM_T 1 1). }
  assert (L2 : base <= 0 -> log_factor base = Raise ValueError). { intro B. unfold log_factor. destruct (Rlt_dec 0 base); [lra|reflexivity]. }
  unfold information_content, sum_per_batch. cbn [tshape tmap]. split; [intros -> ->; reflexivity|]. split; [intros -> s ->; reflexivity|].
  intro S. destruct I as [<-|[<-|[<-|[]]]]; cbn [String.eqb Ascii.eqb Bool.eqb bind];
    [|destruct (S eq_refl) as (b & s & ->); cbn [Nat.eqb bind]|]; (split; intro B; [rewrite L1 by exact B|rewrite L2 by exact B]; reflexivity).
Qed.

Theorem info_unknown_reduction : forall p reduction base,
  ~ In reduction ["sum"; "batch_el"; "none"]%string ->
  information_content p reduction base = Raise ValueError.
Proof.
  intros p r base N. unfold information_content.
  destruct (String.eqb_spec r "sum"); [subst; destruct N; cbn; auto|].
  destruct (String.eqb_spec r "batch_el"); [subst; destruct N; cbn; auto|].
  destruct (String.eqb_spec r "none"); [subst; destruct N; cbn; auto|]. reflexivity.
Qed.

(** ** log_expm1 *)

Lemma ln_le_sub1' : forall u, 0 < u -> ln u <= u - 1.
Proof.
  intros u U. pose proof (exp_ineq1_le (ln u)) as H. rewrite exp_ln in H by exact U. lra.
Qed.

(** ln(exp x - 1): exact below 15, off by at most 2 exp(-x) (under 10^-6) from 15 on; -infinity
    at 0 and undefined below, as the logarithm is. *)
Theorem log_expm1_value : forall x,
  (0 < x < 15 -> log_expm1 x = Fin (ln (exp x - 1))) /\
  (15 <= x -> exists v, log_expm1 x = Fin v /\ 0 < v - ln (exp x - 1) <= 2 * exp (- x)) /\
  (x = 0 -> log_expm1 x = MInf) /\ (x < 0 -> log_expm1 x = NaN).
Proof.
  intros x. unfold log_expm1. repeat split.
  - intros [X0 X1]. destruct (Rlt_dec x 15); [|lra]. rewrite Rmin_left by lra.
    apply elog_pos'. pose proof (exp_ineq1 x ltac:(lra)). lra.
  - intros X. destruct (Rlt_dec x 15); [lra|]. exists x. split; [reflexivity|].
    pose proof (exp_ineq1 x ltac:(lra)) as G.
    assert (E : exp x - 1 = exp x * (1 - exp (- x))).
    { rewrite exp_Ropp. field. pose proof (exp_pos x). lra. }
    assert (H : exp (- x) <= 1 / 15).
    { rewrite exp_Ropp. replace (1 / 15) with (/ 15) by lra. apply Rinv_le_contravar; lra. }
    pose proof (exp_pos (- x)) as P. rewrite E, ln_mult; [|apply exp_pos|lra]. rewrite ln_exp.
    replace (x - (x + ln (1 - exp (- x)))) with (- ln (1 - exp (- x))) by ring.
    split.
    + assert (ln (1 - exp (- x)) < 0) by (rewrite <- ln_1; apply ln_increasing; lra). lra.
    + rewrite <- ln_Rinv by lra.
      assert (Q : 0 < / (1 - exp (- x))) by (apply Rinv_0_lt_compat; lra).
      apply Rle_trans with (1 := ln_le_sub1' _ Q).
      assert (/ (1 - exp (- x)) <= 1 + 2 * exp (- x)); [|lra].
      set (e := exp (- x)) in *. apply Rmult_le_reg_r with (1 - e); [lra|]. rewrite Rinv_l by lra. nra.
  - intros ->. destruct (Rlt_dec 0 15); [|lra]. rewrite Rmin_left by lra. rewrite exp_0.
    unfold elog. destruct (Rlt_dec 0 (1 - 1)); [lra|]. destruct (Req_EM_T (1 - 1) 0); [reflexivity|lra].
  - intros X. destruct (Rlt_dec x 15); [|lra]. rewrite Rmin_left by lra.
    assert (exp x < 1) by (rewrite <- exp_0; apply exp_increasing; lra).
    unfold elog. destruct (Rlt_dec 0 (exp x - 1)); [lra|]. destruct (Req_EM_T (exp x - 1) 0); [lra|reflexivity].
Qed.

(** It inverts softplus, ln(1 + exp y), below 15. *)
Theorem log_expm1_softplus : forall y, ln (1 + exp y) < 15 -> log_expm1 (ln (1 + exp y)) = Fin y.
Proof.
  intros y L. pose proof (exp_pos y) as E.
  destruct (log_expm1_value (ln (1 + exp y))) as (V & _). rewrite V.
  - rewrite exp_ln by lra. f_equal. replace (1 + exp y - 1) with (exp y) by ring. apply ln_exp.
  - split; [|exact L]. rewrite <- ln_1. apply ln_increasing; lra.
Qed.

(** The switch makes the function jump up at 15, so it stays strictly increasing. *)
Theorem log_expm1_increasing : forall x y v w, log_expm1 x = Fin v -> log_expm1 y = Fin w -> x < y -> v < w.
Proof.
  intros x y v w X Y L.
  assert (X0 : 0 < x).
  { destruct (Rtotal_order x 0) as [H|[H|H]]; [| |exact H];
      destruct (log_expm1_value x) as (_ & _ & Z & N); [rewrite (N H) in X|rewrite (Z H) in X]; discriminate. }
  assert (M : ln (exp x - 1) < ln (exp y - 1)).
  { pose proof (exp_ineq1 x ltac:(lra)). pose proof (exp_increasing x y L). apply ln_increasing; lra. }
  destruct (log_expm1_value x) as (V1 & V2 & _). destruct (log_expm1_value y) as (W1 & W2 & _).
  destruct (Rlt_le_dec x 15) as [A|A]; destruct (Rlt_le_dec y 15) as [B|B].
  - rewrite V1 in X by lra. rewrite W1 in Y by lra. injection X as <-. injection Y as <-. exact M.
  - rewrite V1 in X by lra. injection X as <-. destruct (W2 B) as (w' & E & Q). rewrite E in Y. injection Y as <-. lra.
  - lra.
  - unfold log_expm1 in X, Y. destruct (Rlt_dec x 15); [lra|]. destruct (Rlt_dec y 15); [lra|].
    injection X as <-. injection Y as <-. exact L.
Qed.

(** ** quantization_offset *)

(** The offset is in [-1/2, 1/2] and differs from the mean by an integer, so that rounding
    relative to it reproduces the mean exactly; shifting the distribution by an even integer
    leaves it unchanged; without a mean it is 0. *)
Theorem offset_value : forall mean, exists o, quantization_offset (Ok mean) = Ok o /\
  Rabs o <= 1 / 2 /\ (exists k : Z, mean = o + IZR k) /\
  IZR (round_even (mean - o)) + o = mean.
Proof.
  intros mean. unfold quantization_offset. cbn [bind]. eexists; split; [reflexivity|].
  split; [apply round_even_near|]. split; [exists (round_even mean); ring|].
  replace (mean - (mean - IZR (round_even mean))) with (IZR (round_even mean)) by ring.
  rewrite round_even_IZR. ring.
Qed.

(** Quantising any value relative to the offset gives an exact fixed point on the grid
    mean + integers, at distance at most 1/2. *)
Theorem offset_quantise : forall mean o x, quantization_offset (Ok mean) = Ok o ->
  let q := IZR (round_even (x - o)) + o in
  Rabs (x - q) <= 1 / 2 /\ (exists k : Z, q = mean + IZR k) /\ IZR (round_even (q - o)) + o = q.
Proof.
  intros mean o x E q. unfold quantization_offset in E. cbn [bind] in E. injection E as <-.
  set (o := mean - IZR (round_even mean)) in *. repeat split.
  - unfold q. pose proof (round_even_near (x - o)) as H.
    replace (x - (IZR (round_even (x - o)) + o)) with (x - o - IZR (round_even (x - o))) by ring. exact H.
  - exists (round_even (x - o) - round_even mean)%Z. unfold q, o. rewrite minus_IZR. ring.
  - unfold q. replace (IZR (round_even (x - o)) + o - o) with (IZR (round_even (x - o))) by ring.
    rewrite round_even_IZR. reflexivity.
Qed.

Theorem offset_errors : quantization_offset (Raise AttributeError) = Ok 0 /\
  forall e, e <> AttributeError -> quantization_offset (Raise e) = Raise e.
Proof.
  split.
  - unfold quantization_offset. cbn [bind]. replace (round_even 0) with 0%Z; [f_equal; simpl; lra|].
    symmetry. apply (round_even_IZR 0).
  - intros e N. destruct e; try congruence; reflexivity.
Qed.

(** Distributions without a mean report NotImplementedError in torch (the base class's mean
    property raises it), which is not caught: the documented fallback to 0 never happens. *)
Theorem offset_fallback_refuted : quantization_offset (Raise NotImplementedError) = Raise NotImplementedError.
Proof. reflexivity. Qed.

Example info_example : exists t,
  information_content (mkT [2; 2]%nat (fun _ => 1 / 4)) "batch_el" 2 = Ok t /\ tat t [1%nat] = Fin 4.
Proof.
  destruct (info_batch (mkT [2; 2]%nat (fun _ => 1 / 4)) 2 2%nat [2%nat]) as (t & E & _ & V);
    try (cbn; intros; lra); try reflexivity; try lia.
  exists t. split; [exact E|]. rewrite V by lia. cbn [tat]. f_equal. unfold rsum. cbn.
  assert (H : bits 2 (1 / 4) = 2).
  { unfold bits. replace (1 / 4) with (/ (2 * 2)) by lra. rewrite ln_Rinv, ln_mult by lra.
    pose proof (ln_gt0 2 ltac:(lra)). field. lra. }
  rewrite H. lra.
Qed.

Print Assumptions info_none.
Print Assumptions info_sum.
Print Assumptions info_batch.
Print Assumptions info_reductions_agree.
Print Assumptions info_bits.
Print Assumptions info_raises.
Print Assumptions info_unknown_reduction. Print Assumptions info_exceptions.
Print Assumptions log_expm1_value.
Print Assumptions log_expm1_softplus.
Print Assumptions log_expm1_increasing.
Print Assumptions offset_value.
Print Assumptions offset_quantise.
Print Assumptions offset_errors.
Print Assumptions offset_fallback_refuted.

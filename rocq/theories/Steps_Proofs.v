(** Proofs about timestep respacing. *)
From Coq Require Import ZArith Reals List Bool Lia Lra Sorted.
From Verif Require Import Base RBase Steps_Model Steps_Spec.
Import ListNotations.
Open Scope Z_scope.

(** ** Increasing lists *)
Notation incr := (StronglySorted Z.lt).

Lemma incr_app l1 l2 : incr l1 -> incr l2 -> (forall x y, In x l1 -> In y l2 -> x < y) -> incr (l1 ++ l2).
Proof.
  induction l1 as [|a l1 IH]; intros H1 H2 H; [exact H2|]. inversion H1 as [|? ? A B]; subst. cbn.
  constructor.
  - apply IH; [exact A | exact H2 | intros; apply H; [now right | assumption]].
  - apply Forall_app. split; [exact B|]. apply Forall_forall. intros y Hy. apply H; [now left | exact Hy].
Qed.
Lemma incr_NoDup l : incr l -> NoDup l.
Proof.
  induction 1 as [|a l H IH F]; constructor; [|exact IH]. intro Hin. rewrite Forall_forall in F.
  specialize (F a Hin). lia.
Qed.
Lemma incr_map (f : nat -> Z) : forall k i, (forall j, (i <= j)%nat -> (S j < i + k)%nat -> f j < f (S j)) ->
  incr (map f (seq i k)).
Proof.
  induction k as [|k IH]; intros i H; [constructor|]. cbn. constructor.
  - apply IH. intros j A B. apply H; lia.
  - apply Forall_forall. intros y Hy. apply in_map_iff in Hy. destruct Hy as (j & <- & Hj).
    apply in_seq in Hj. clear IH. induction j as [|j IHj]; [lia|].
    destruct (Nat.eq_dec j i) as [->|N]; [apply H; lia|].
    specialize (IHj ltac:(lia)). specialize (H j ltac:(lia) ltac:(lia)). lia.
Qed.

(** ** One section *)
Section Fl.
Variable fl : R -> R.

Fixpoint cur (s : R) (j : nat) : R :=
  match j with O => 0%R | S j' => fl (cur s j' + s)%R end.

Lemma stride_steps_map start s : forall k j,
  stride_steps fl start k (cur s j) s = map (fun i => start + round_even (cur s i)) (seq j k).
Proof. induction k as [|k IH]; intro j; [reflexivity|]. cbn. f_equal. exact (IH (S j)). Qed.

Lemma stride_steps_0 start s k :
  stride_steps fl start k 0%R s = map (fun i => start + round_even (cur s i)) (seq 0 k).
Proof. exact (stride_steps_map start s k 0). Qed.

Section Sect.
Variables (n c : Z) (eps : R).
Hypothesis Hc : 2 <= c.
Hypothesis Hn : c <= n.
Hypothesis He : (0 <= eps)%R.
Hypothesis HN : (16 * eps * (IZR n * IZR n) <= 1)%R.
Hypothesis Hfl : forall x, (1 <= x)%R -> (Rabs (fl x - x) <= eps * x)%R.
Hypothesis Hint : forall k, 0 <= k <= n -> fl (IZR k) = IZR k.

Let sx : R := (IZR (n - 1) / IZR (c - 1))%R.
Let s : R := fl sx.

Lemma sx_ge1 : (1 <= sx)%R.
Proof.
  unfold sx. apply Rmult_le_reg_r with (IZR (c - 1)); [apply IZR_lt; lia|].
  unfold Rdiv. rewrite Rmult_assoc, Rinv_l, Rmult_1_l, Rmult_1_r; [apply IZR_le; lia|].
  apply not_0_IZR. lia.
Qed.
Lemma sx_mul k : 0 <= k <= c - 1 -> (IZR k * sx <= IZR n - 1)%R.
Proof.
  intro Hk. replace (IZR n - 1)%R with (IZR (c - 1) * sx)%R.
  - apply Rmult_le_compat_r; [pose proof sx_ge1; lra | apply IZR_le; lia].
  - unfold sx. rewrite (minus_IZR n). field. apply not_0_IZR. lia.
Qed.
Lemma sx_end : (IZR (c - 1) * sx = IZR n - 1)%R.
Proof. unfold sx. rewrite (minus_IZR n). field. apply not_0_IZR. lia. Qed.

Lemma n_ge2 : (2 <= IZR n)%R. Proof. apply IZR_le. lia. Qed.
Lemma en_small : (0 <= eps * IZR n)%R /\ (eps * IZR n * IZR n <= 1/16)%R.
Proof. pose proof n_ge2. split; [apply Rmult_le_pos; lra | lra]. Qed.
Lemma en_small1 : (eps * IZR n <= 1/32)%R.
Proof. pose proof n_ge2. destruct en_small as [A B]. nra. Qed.

Lemma s_close : (Rabs (s - sx) <= eps * IZR n)%R.
Proof.
  pose proof sx_ge1 as A. pose proof (sx_mul 1 ltac:(lia)) as B. unfold s.
  eapply Rle_trans; [apply Hfl; exact A|]. apply Rmult_le_compat_l; lra.
Qed.

Lemma s_ge1 : (1 <= s)%R.
Proof.
  destruct (Z.eq_dec n c) as [E|E].
  - unfold s, sx. rewrite E. unfold Rdiv. rewrite Rinv_r by (apply not_0_IZR; lia).
    rewrite (Hint 1) by lia. lra.
  - pose proof s_close as SC. destruct en_small as [E0 E1]. pose proof n_ge2 as N2.
    assert (H : (1 + / IZR n <= sx)%R).
    { unfold sx. apply Rmult_le_reg_r with (IZR (c - 1)); [apply IZR_lt; lia|].
      unfold Rdiv. rewrite Rmult_assoc, Rinv_l, Rmult_1_r by (apply not_0_IZR; lia).
      assert (A : (IZR (c - 1) <= IZR n - 2)%R) by (rewrite minus_IZR; change 2%R with (IZR 2);
        rewrite <- !minus_IZR; apply IZR_le; lia).
      rewrite (minus_IZR n). rewrite Rmult_plus_distr_r, Rmult_1_l.
      assert (B : (/ IZR n * IZR (c - 1) <= 1)%R).
      { apply Rmult_le_reg_l with (IZR n); [lra|]. rewrite <- Rmult_assoc, Rinv_r by lra. lra. }
      lra. }
    assert (A : (eps * IZR n <= / IZR n)%R).
    { apply Rmult_le_reg_r with (IZR n); [lra|]. rewrite Rinv_l by lra. lra. }
    rabs; lra.
Qed.

(** The accumulated index stays close to the exact one. *)
Lemma cur_close : forall j, Z.of_nat j <= c - 1 ->
  (Rabs (cur s j - IZR (Z.of_nat j) * sx) <= 2 * (eps * IZR n) * IZR (Z.of_nat j))%R /\
  (Z.of_nat j + 1 <= c - 1 ->
   (Rabs (cur s (S j) - (cur s j + sx)) <= 2 * (eps * IZR n))%R).
Proof.
  assert (Step : forall j, Z.of_nat j + 1 <= c - 1 ->
    (Rabs (cur s j - IZR (Z.of_nat j) * sx) <= 2 * (eps * IZR n) * IZR (Z.of_nat j))%R ->
    (Rabs (cur s (S j) - (cur s j + sx)) <= 2 * (eps * IZR n))%R).
  { intros j Hj IH. cbn [cur].
    set (k := IZR (Z.of_nat j)) in *.
    pose proof (sx_mul (Z.of_nat j + 1) ltac:(lia)) as B. rewrite plus_IZR in B. fold k in B.
    pose proof s_close as SC. pose proof s_ge1 as S1. pose proof sx_ge1 as SX1.
    destruct en_small as [E0 E1]. pose proof en_small1 as E2. pose proof n_ge2 as N2.
    pose proof (Hfl (cur s j + s)) as HF.
    assert (K0 : (0 <= k)%R) by (apply IZR_le; lia).
    assert (Kn : (k <= IZR n)%R) by (apply IZR_le; lia).
    set (e := (eps * IZR n)%R) in *.
    assert (KE : (2 * e * k <= 1/8)%R).
    { apply Rle_trans with (2 * (e * IZR n))%R; [|lra]. rewrite Rmult_assoc.
      apply Rmult_le_compat_l; [lra|]. apply Rmult_le_compat_l; lra. }
    assert (KS : (k <= k * sx)%R).
    { rewrite <- (Rmult_1_r k) at 1. apply Rmult_le_compat_l; lra. }
    assert (KK : (2 * e * k <= k)%R).
    { rewrite <- (Rmult_1_l k) at 2. apply Rmult_le_compat_r; lra. }
    assert (C0 : (0 <= cur s j)%R) by (rabs; lra).
    specialize (HF ltac:(lra)).
    assert (X : (cur s j + s <= IZR n)%R) by (rabs; lra).
    assert (EX : (eps * (cur s j + s) <= e)%R) by (unfold e; apply Rmult_le_compat_l; lra).
    clear - HF SC EX. rabs; lra. }
  intros j Hj. split.
  - induction j as [|j IH].
    + cbn. rewrite Rmult_0_l, Rmult_0_r, Rminus_0_r, Rabs_R0. lra.
    + specialize (IH ltac:(lia)). pose proof (Step j ltac:(lia) IH) as ST.
      rewrite Nat2Z.inj_succ, succ_IZR. clear - IH ST. rabs; lra.
  - intro H. apply Step; [exact H|]. revert H. clear Hj. induction j as [|j IH]; intro H.
    + cbn. rewrite Rmult_0_l, Rmult_0_r, Rminus_0_r, Rabs_R0. lra.
    + specialize (IH ltac:(lia)). pose proof (Step j ltac:(lia) IH) as ST.
      rewrite Nat2Z.inj_succ, succ_IZR. clear - IH ST. rabs; lra.
Qed.

Lemma cur_equal : n = c -> forall j, Z.of_nat j <= c - 1 -> cur s j = IZR (Z.of_nat j).
Proof.
  intro E. assert (S1 : s = 1%R).
  { unfold s, sx. rewrite E. unfold Rdiv. rewrite Rinv_r by (apply not_0_IZR; lia). apply (Hint 1). lia. }
  rewrite S1. induction j as [|j IH]; intro Hj; [reflexivity|].
  cbn [cur]. rewrite IH by lia.
  rewrite Nat2Z.inj_succ, <- plus_IZR. apply Hint. lia.
Qed.

Lemma round_incr j : Z.of_nat j + 1 <= c - 1 -> round_even (cur s j) < round_even (cur s (S j)).
Proof.
  intro Hj. destruct (Z.eq_dec n c) as [E|E].
  - rewrite (cur_equal E j), (cur_equal E (S j)), !round_even_IZR by lia. lia.
  - destruct (cur_close j ltac:(lia)) as [_ ST]. specialize (ST Hj).
    destruct en_small as [E0 E1]. pose proof n_ge2 as N2.
    assert (H : (1 + / IZR n <= sx)%R).
    { unfold sx. apply Rmult_le_reg_r with (IZR (c - 1)); [apply IZR_lt; lia|].
      unfold Rdiv. rewrite Rmult_assoc, Rinv_l, Rmult_1_r by (apply not_0_IZR; lia).
      assert (A : (IZR (c - 1) <= IZR n - 2)%R) by (rewrite minus_IZR; change 2%R with (IZR 2);
        rewrite <- !minus_IZR; apply IZR_le; lia).
      rewrite (minus_IZR n). rewrite Rmult_plus_distr_r, Rmult_1_l.
      assert (B : (/ IZR n * IZR (c - 1) <= 1)%R).
      { apply Rmult_le_reg_l with (IZR n); [lra|]. rewrite <- Rmult_assoc, Rinv_r by lra. lra. }
      lra. }
    assert (A : (eps * IZR n <= / 16 * / IZR n)%R).
    { apply Rmult_le_reg_r with (IZR n); [lra|]. rewrite (Rmult_assoc (/ 16)), Rinv_l by lra. lra. }
    assert (I0 : (0 < / IZR n)%R) by (apply Rinv_0_lt_compat; lra).
    assert (G : (cur s j + 1 < cur s (S j))%R) by (clear - ST H A I0; rabs; lra).
    pose proof (round_even_bounds (cur s j)) as B1. pose proof (round_even_bounds (cur s (S j))) as B2.
    set (x := cur s j) in *. set (y := cur s (S j)) in *.
    apply lt_IZR. 
    destruct (Z_lt_le_dec (round_even x) (round_even y)) as [L|L]; [now apply IZR_lt|].
    apply IZR_le in L. lra.
Qed.

Lemma round_bounds j : Z.of_nat j <= c - 1 -> 0 <= round_even (cur s j) <= n - 1.
Proof.
  intro Hj. destruct (cur_close j Hj) as [CL _]. pose proof (sx_mul (Z.of_nat j) ltac:(lia)) as B.
  set (k := IZR (Z.of_nat j)) in *. destruct en_small as [E0 E1]. pose proof en_small1 as E2.
  pose proof sx_ge1 as SX1. pose proof n_ge2 as N2.
  assert (K0 : (0 <= k)%R) by (apply IZR_le; lia).
  assert (Kn : (k <= IZR n)%R) by (apply IZR_le; lia).
  set (e := (eps * IZR n)%R) in *.
  assert (KE : (2 * e * k <= 1/8)%R).
  { apply Rle_trans with (2 * (e * IZR n))%R; [|lra]. rewrite Rmult_assoc.
    apply Rmult_le_compat_l; [lra|]. apply Rmult_le_compat_l; lra. }
  assert (KS : (k <= k * sx)%R).
  { rewrite <- (Rmult_1_r k) at 1. apply Rmult_le_compat_l; lra. }
  pose proof (round_even_bounds (cur s j)) as RB.
  split; apply IZR_lt_1; rewrite ?minus_IZR; clear - RB CL KE KS K0 B; rabs; lra.
Qed.

Lemma round_last : round_even (cur s (Z.to_nat (c - 1))) = n - 1.
Proof.
  destruct (cur_close (Z.to_nat (c - 1)) ltac:(lia)) as [CL _]. rewrite Z2Nat.id in CL by lia.
  rewrite sx_end in CL. apply round_even_unique. rewrite minus_IZR.
  eapply Rle_lt_trans; [exact CL|]. destruct en_small as [E0 E1]. pose proof en_small1 as E2.
  assert (Kn : (IZR (c - 1) <= IZR n)%R) by (apply IZR_le; lia).
  apply Rle_lt_trans with (2 * (eps * IZR n * IZR n))%R; [|lra].
  rewrite Rmult_assoc. apply Rmult_le_compat_l; [lra|]. apply Rmult_le_compat_l; lra.
Qed.
End Sect.

Lemma good_fl_le N n : good_fl N fl -> 0 <= n <= N -> good_fl n fl.
Proof.
  intros (eps & A & B & C & D) H. exists eps. split; [exact A|]. split.
  - eapply Rle_trans; [|exact B]. apply Rmult_le_compat_l; [lra|].
    assert ((0 <= IZR n <= IZR N)%R) as [X Y] by (split; apply IZR_le; lia).
    apply Rmult_le_compat; lra.
  - split; [exact C|]. intros k Hk. apply D. lia.
Qed.

Lemma map_last (f : nat -> Z) k : (1 <= k)%nat -> In (f (k - 1)%nat) (map f (seq 0 k)).
Proof. intro H. apply in_map. apply in_seq. lia. Qed.

Lemma section_steps_ok start n c : good_fl n fl -> 0 <= c <= n ->
  exists l, section_steps fl start n c = Ok l /\ Z.of_nat (length l) = c /\ incr l /\
    Forall (fun x => start <= x < start + n) l /\
    (1 <= c -> In start l) /\ (2 <= c -> In (start + n - 1) l) /\
    (2 <= c -> forall x, In x l -> x = start \/ start + (n - 1) / (c - 1) <= x).
Proof.
  intros (eps & He & HN & Hfl & Hint) Hc. unfold section_steps.
  rewrite (proj2 (Z.ltb_ge _ _)) by lia.
  eexists. split; [reflexivity|]. rewrite stride_steps_0. rewrite map_length, seq_length.
  split; [lia|].
  destruct (Z_le_gt_dec c 1) as [C1|C1].
  - rewrite (proj2 (Z.leb_le _ _)) by lia.
    assert (c = 0 \/ c = 1) as [->| ->] by lia.
    + cbn. repeat split; try constructor; lia.
    + change (Z.to_nat 1) with 1%nat. cbn [seq map]. change (cur 1%R 0) with 0%R.
      rewrite (round_even_IZR 0). split; [repeat constructor|].
      split; [constructor; [lia|constructor]|]. split; [left; lia|]. split; lia.
  - rewrite (proj2 (Z.leb_gt _ _)) by lia.
    assert (Hc2 : 2 <= c) by lia. assert (Hcn : c <= n) by lia.
    set (s := fl (IZR (n - 1) / IZR (c - 1))%R).
    split; [|split; [|split; [|split]]].
    + apply incr_map. intros j _ Hj. 
      pose proof (round_incr n c eps Hc2 Hcn He HN Hfl Hint j ltac:(lia)) as R. fold s in R. lia.
    + apply Forall_forall. intros x Hx. apply in_map_iff in Hx. destruct Hx as (j & <- & Hj).
      apply in_seq in Hj.
      pose proof (round_bounds n c eps Hc2 Hcn He HN Hfl Hint j ltac:(lia)) as R. fold s in R. lia.
    + intros _. apply in_map_iff. exists 0%nat. split; [|apply in_seq; lia].
      change (cur s 0) with 0%R. rewrite (round_even_IZR 0). lia.
    + intros _. apply in_map_iff. exists (Z.to_nat (c - 1)). split; [|apply in_seq; lia].
      unfold s. rewrite (round_last n c eps Hc2 Hcn He HN Hfl Hint). lia.
    + intros _ x Hx. apply in_map_iff in Hx. destruct Hx as (j & <- & Hj). apply in_seq in Hj.
      destruct j as [|j]; [left; change (cur s 0) with 0%R; rewrite (round_even_IZR 0); lia|]. right.
      (* monotone: enough for the second entry *)
      assert (M : forall i, (1 <= i)%nat -> Z.of_nat i <= c - 1 ->
                  round_even (cur s 1) <= round_even (cur s i)).
      { intros i H1. induction i as [|i IH]; intro H2; [lia|].
        destruct (Nat.eq_dec i 0) as [->|NZ]; [lia|]. specialize (IH ltac:(lia) ltac:(lia)).
        pose proof (round_incr n c eps Hc2 Hcn He HN Hfl Hint i ltac:(lia)) as R. fold s in R. lia. }
      specialize (M (S j) ltac:(lia) ltac:(lia)).
      assert (F : (n - 1) / (c - 1) <= round_even (cur s 1)); [|lia].
      destruct (cur_close n c eps Hc2 Hcn He HN Hfl Hint 1 ltac:(lia)) as [CL _]. fold s in CL.
      rewrite Rmult_1_l, Rmult_1_r in CL.
      destruct (en_small n c eps Hc2 Hcn He HN) as [E0 _].
      pose proof (en_small1 n c eps Hc2 Hcn He HN) as E2.
      pose proof (round_even_bounds (cur s 1)) as RB. apply IZR_lt_1.
      assert (Q : (IZR ((n - 1) / (c - 1)) <= IZR (n - 1) / IZR (c - 1))%R).
      { apply Rmult_le_reg_r with (IZR (c - 1)); [apply IZR_lt; lia|].
        unfold Rdiv. rewrite Rmult_assoc, Rinv_l, Rmult_1_r by (apply not_0_IZR; lia).
        rewrite <- mult_IZR. apply IZR_le. rewrite Z.mul_comm. apply Z.mul_div_le. lia. }
      clear - Q RB CL E2 E0. change (IZR (Z.of_nat 1)) with 1%R in CL. rewrite ?Rmult_1_l, ?Rmult_1_r in CL.
      rabs; lra.
Qed.

(** ** All sections *)
Lemma section_start_step N n i : section_start N n (i + 1) = section_start N n i + section_size N n i.
Proof.
  unfold section_start, section_size. destruct (Z.ltb_spec i (N mod n)); lia.
Qed.

Lemma filter_all {A} (f : A -> bool) l : Forall (fun x => f x = true) l -> filter f l = l.
Proof. induction 1 as [|x l H _ IH]; cbn; [reflexivity|]. now rewrite H, IH. Qed.
Lemma filter_none {A} (f : A -> bool) l : Forall (fun x => f x = false) l -> filter f l = [].
Proof. induction 1 as [|x l H _ IH]; cbn; [reflexivity|]. now rewrite H, IH. Qed.

Lemma count_in_all lo hi l : Forall (fun x => lo <= x < hi) l -> count_in lo hi l = Z.of_nat (length l).
Proof.
  intro H. unfold count_in. rewrite filter_all; [reflexivity|]. eapply Forall_impl; [|exact H].
  cbn beta. intros x Hx. apply andb_true_intro. split; [apply Z.leb_le | apply Z.ltb_lt]; lia.
Qed.
Lemma count_in_none lo hi l : Forall (fun x => x < lo \/ hi <= x) l -> count_in lo hi l = 0.
Proof.
  intro H. unfold count_in. rewrite filter_none; [reflexivity|]. eapply Forall_impl; [|exact H].
  cbn beta. intros x Hx. apply andb_false_iff. rewrite Z.leb_gt, Z.ltb_ge. lia.
Qed.
Lemma count_in_app lo hi l1 l2 : count_in lo hi (l1 ++ l2) = count_in lo hi l1 + count_in lo hi l2.
Proof. unfold count_in. rewrite filter_app, app_length. lia. Qed.

Lemma section_size_le N n i : 0 <= N -> 1 <= n -> 0 <= i < n -> 0 <= section_size N n i <= N.
Proof.
  intros HN Hn Hi. unfold section_size.
  pose proof (Z.div_mod N n ltac:(lia)) as D. pose proof (Z.mod_pos_bound N n ltac:(lia)) as M.
  assert (0 <= N / n) by (apply Z.div_pos; lia).
  destruct (Z.ltb_spec i (N mod n)); nia.
Qed.

Lemma section_start_mono N n i j : 0 <= N -> 1 <= n -> i <= j -> section_start N n i <= section_start N n j.
Proof.
  intros HN Hn H. unfold section_start. assert (0 <= N / n) by (apply Z.div_pos; lia).
  assert (i * (N / n) <= j * (N / n)) by (apply Z.mul_le_mono_nonneg_r; lia). lia.
Qed.
Lemma section_start_all N n : 1 <= n -> section_start N n n = N.
Proof.
  intro Hn. unfold section_start. pose proof (Z.div_mod N n ltac:(lia)) as D.
  pose proof (Z.mod_pos_bound N n ltac:(lia)) as M. lia.
Qed.
Lemma section_start_0 N n : 1 <= n -> section_start N n 0 = 0.
Proof. intro Hn. unfold section_start. pose proof (Z.mod_pos_bound N n ltac:(lia)). lia. Qed.

Section Loop.
Variables (N n : Z).
Hypothesis Hfl : good_fl N fl.
Hypothesis HN : 0 <= N.
Hypothesis Hn : 1 <= n.

Lemma sections_loop_ok : forall counts i, 0 <= i -> i + Z.of_nat (length counts) <= n ->
  (forall j, (j < length counts)%nat -> 0 <= nth j counts 0 <= section_size N n (i + Z.of_nat j)) ->
  exists l, sections_loop fl (N / n) (N mod n) i (section_start N n i) counts = Ok l /\
    Z.of_nat (length l) = total counts /\ incr l /\
    Forall (fun x => section_start N n i <= x < section_start N n (i + Z.of_nat (length counts))) l /\
    (forall j, (j < length counts)%nat ->
       count_in (section_start N n (i + Z.of_nat j)) (section_start N n (i + Z.of_nat j + 1)) l
       = nth j counts 0) /\
    (forall j, (j < length counts)%nat -> 1 <= nth j counts 0 ->
       In (section_start N n (i + Z.of_nat j)) l) /\
    (forall j, (j < length counts)%nat -> 2 <= nth j counts 0 ->
       In (section_start N n (i + Z.of_nat j + 1) - 1) l).
Proof.
  induction counts as [|c counts IH]; intros i Hi Hl Hc.
  - exists []. cbn [sections_loop length total fold_right]. split; [reflexivity|]. split; [reflexivity|].
    split; [constructor|]. split; [constructor|]. repeat split; intros; lia.
  - cbn [length] in *. cbn [sections_loop].
    change (N / n + (if i <? N mod n then 1 else 0)) with (section_size N n i).
    pose proof (Hc 0%nat ltac:(lia)) as H0. cbn [nth] in H0.
    replace (i + Z.of_nat 0) with i in H0 by lia.
    pose proof (section_size_le N n i HN Hn ltac:(lia)) as SZ.
    destruct (section_steps_ok (section_start N n i) (section_size N n i) c
               (good_fl_le N _ Hfl SZ) ltac:(lia))
      as (l1 & E1 & L1 & S1 & F1 & B1 & T1 & _).
    rewrite E1. cbn [bind].
    rewrite <- section_start_step.
    destruct (IH (i + 1) ltac:(lia) ltac:(lia)) as (l2 & E2 & L2 & S2 & F2 & C2 & B2 & T2).
    { intros j Hj. specialize (Hc (S j) ltac:(lia)). cbn [nth] in Hc.
      replace (i + 1 + Z.of_nat j) with (i + Z.of_nat (S j)) by lia. exact Hc. }
    rewrite E2. cbn [bind]. eexists. split; [reflexivity|].
    rewrite <- section_start_step in F1, T1.
    replace (i + Z.of_nat (S (length counts))) with (i + 1 + Z.of_nat (length counts)) by lia.
    pose proof (section_start_mono N n i (i + 1) HN Hn ltac:(lia)) as M1.
    pose proof (section_start_mono N n (i + 1) (i + 1 + Z.of_nat (length counts)) HN Hn ltac:(lia)) as M2.
    assert (sh : forall j, i + Z.of_nat (S j) = i + 1 + Z.of_nat j) by lia.
    split; [rewrite app_length; cbn [total fold_right]; unfold total in L2; lia|].
    split.
    { apply incr_app; [exact S1 | exact S2 |]. rewrite Forall_forall in F1, F2.
      intros x y Hx Hy. specialize (F1 x Hx). specialize (F2 y Hy). cbn beta in *. lia. }
    split.
    { apply Forall_app. split; (eapply Forall_impl; [|eassumption]); cbn beta; intros; lia. }
    split; [|split].
    + intros [|j] Hj; rewrite count_in_app.
      * cbn [nth]. replace (i + Z.of_nat 0) with i by lia.
        rewrite count_in_all by exact F1. rewrite count_in_none; [lia|].
        eapply Forall_impl; [|exact F2]. cbn beta. intros. lia.
      * cbn [nth]. rewrite sh. rewrite C2 by lia. rewrite count_in_none; [lia|].
        pose proof (section_start_mono N n (i + 1) (i + 1 + Z.of_nat j) HN Hn ltac:(lia)).
        eapply Forall_impl; [|exact F1]. cbn beta. intros. lia.
    + intros [|j] Hj Hp; apply in_or_app; cbn [nth] in Hp.
      * left. replace (i + Z.of_nat 0) with i by lia. exact (B1 Hp).
      * right. rewrite sh. apply B2; [lia | exact Hp].
    + intros [|j] Hj Hp; apply in_or_app; cbn [nth] in Hp.
      * left. replace (i + Z.of_nat 0) with i by lia. exact (T1 Hp).
      * right. rewrite sh. apply T2; [lia | exact Hp].
Qed.

Lemma sections_loop_bad : forall counts i, 0 <= i -> i + Z.of_nat (length counts) <= n ->
  (exists j, (j < length counts)%nat /\ section_size N n (i + Z.of_nat j) < nth j counts 0) ->
  sections_loop fl (N / n) (N mod n) i (section_start N n i) counts = Raise ValueError.
Proof.
  induction counts as [|c counts IH]; intros i Hi Hl (j & Hj & Hbad); cbn [length] in *; [lia|].
  cbn [sections_loop].
  change (N / n + (if i <? N mod n then 1 else 0)) with (section_size N n i).
  unfold section_steps. destruct (Z.ltb_spec (section_size N n i) c) as [LT|GE]; [reflexivity|].
  cbn [bind]. rewrite <- section_start_step. rewrite IH; [reflexivity | lia | lia |].
  destruct j as [|j]; cbn [nth] in Hbad; [replace (i + Z.of_nat 0) with i in Hbad by lia; lia|].
  exists j. split; [lia|]. replace (i + 1 + Z.of_nat j) with (i + Z.of_nat (S j)) by lia. exact Hbad.
Qed.
End Loop.

Theorem sections_ok N counts : good_fl N fl -> 0 <= N -> counts <> [] ->
  let n := Z.of_nat (length counts) in
  (forall j, (j < length counts)%nat -> 0 <= nth j counts 0 <= section_size N n (Z.of_nat j)) ->
  exists l, space_timesteps fl N (Sections counts) = Ok l /\
    incr l /\ Forall (fun x => 0 <= x < N) l /\ set_size l = total counts /\
    (forall j, (j < length counts)%nat ->
       count_in (section_start N n (Z.of_nat j)) (section_start N n (Z.of_nat j + 1)) l
       = nth j counts 0) /\
    (forall j, (j < length counts)%nat -> 1 <= nth j counts 0 ->
       In (section_start N n (Z.of_nat j)) l) /\
    (forall j, (j < length counts)%nat -> 2 <= nth j counts 0 ->
       In (section_start N n (Z.of_nat j + 1) - 1) l).
Proof.
  intros Hfl HN Hne n Hc. assert (Hn : 1 <= n) by (destruct counts; [easy | unfold n; cbn [length]; lia]).
  cbn [space_timesteps]. unfold from_sections. fold n.
  rewrite (proj2 (Z.eqb_neq _ _)) by lia.
  destruct (sections_loop_ok N n Hfl HN Hn counts 0 ltac:(lia) ltac:(unfold n; lia)) as (l & E & L & I & F & C & B & T).
  { intros j Hj. exact (Hc j Hj). }
  rewrite (section_start_0 N n Hn) in E, F. rewrite E. cbn [bind app]. exists l. split; [reflexivity|].
  split; [exact I|]. split.
  { change (0 + Z.of_nat (length counts)) with n in F. rewrite section_start_all in F by exact Hn. exact F. }
  split. { unfold set_size. rewrite nodup_fixed_point by (apply incr_NoDup; exact I). exact L. }
  split; [|split].
  - intros j Hj. exact (C j Hj).
  - intros j Hj. exact (B j Hj).
  - intros j Hj. exact (T j Hj).
Qed.

Theorem sections_bad N counts : 0 <= N -> counts <> [] ->
  let n := Z.of_nat (length counts) in
  (exists j, (j < length counts)%nat /\ section_size N n (Z.of_nat j) < nth j counts 0) ->
  space_timesteps fl N (Sections counts) = Raise ValueError.
Proof.
  intros HN Hne n Hc. assert (Hn : 1 <= n) by (destruct counts; [easy | unfold n; cbn [length]; lia]).
  cbn [space_timesteps]. unfold from_sections. fold n.
  rewrite (proj2 (Z.eqb_neq _ _)) by lia.
  pose proof (sections_loop_bad N n counts 0 ltac:(lia) ltac:(unfold n; lia) Hc) as E.
  rewrite (section_start_0 N n Hn) in E. rewrite E. reflexivity.
Qed.

(** ** vlbN *)
Lemma in_range m x : In x (range m) <-> 0 <= x < m.
Proof.
  unfold range. rewrite in_map_iff. split.
  - intros (k & <- & H). apply in_seq in H. lia.
  - intro H. exists (Z.to_nat x). split; [lia|]. apply in_seq. lia.
Qed.
Lemma range_length m : 0 <= m -> Z.of_nat (length (range m)) = m.
Proof. intro H. unfold range. rewrite map_length, seq_length. lia. Qed.
Lemma range_incr m : incr (range m).
Proof. unfold range. apply incr_map. intros. lia. Qed.

Lemma section_size_1 N : section_size N 1 0 = N.
Proof. unfold section_size. rewrite Z.div_1_r, Z.mod_1_r. cbn. lia. Qed.

Lemma NoDup_length_eq (l1 l2 : list Z) : NoDup l1 -> NoDup l2 -> (forall x, In x l1 <-> In x l2) -> length l1 = length l2.
Proof.
  intros A B H. apply Nat.le_antisymm; apply NoDup_incl_length; try assumption; intros x Hx; now apply H.
Qed.

Theorem vlb_ok N d : good_fl N fl -> 1 <= d <= N -> N / d < d ->
  exists l, space_timesteps fl N (Vlb d) = Ok l /\
    set_size l = d /\ Forall (fun x => 0 <= x < N) l /\
    (forall x, 0 <= x < N / d -> In x l) /\ In (N - 1) l.
Proof.
  intros Hfl Hd Hq. set (q := N / d) in *.
  assert (Q1 : 1 <= q) by (apply Z.div_le_lower_bound; lia).
  pose proof (Z.mul_div_le N d ltac:(lia)) as QM. fold q in QM.
  cbn [space_timesteps]. rewrite (proj2 (Z.eqb_neq _ _)) by lia. fold q.
  rewrite (proj2 (Z.ltb_lt _ _)) by lia.
  unfold from_sections. cbn [length]. change (Z.of_nat 1 =? 0) with false. cbn [sections_loop].
  change (Z.of_nat 1) with 1. rewrite Z.div_1_r, Z.mod_1_r. change (0 <? 0) with false. cbv iota.
  rewrite Z.add_0_r.
  assert (C : 2 <= d - q + 1 <= N) by nia.
  destruct (section_steps_ok 0 N (d - q + 1) Hfl ltac:(lia)) as (l & E & L & I & F & B & T & S).
  rewrite E. cbn [bind]. rewrite app_nil_r. eexists. split; [reflexivity|].
  specialize (B ltac:(lia)). specialize (T ltac:(lia)). specialize (S ltac:(lia)).
  replace (d - q + 1 - 1) with (d - q) in S by lia.
  assert (ST : q <= (N - 1) / (d - q)) by (apply Z.div_le_lower_bound; nia).
  assert (S' : forall x, In x l -> x = 0 \/ q <= x) by (intros x Hx; destruct (S x Hx); lia).
  destruct l as [|x0 l']; [easy|].
  (* the first step is 0 *)
  assert (x0 = 0).
  { destruct B as [|B]; [assumption|]. inversion I as [|? ? ? FA]; subst. rewrite Forall_forall in FA, F.
    pose proof (FA 0 B). pose proof (F x0 ltac:(now left)). lia. }
  subst x0. inversion I as [|? ? IL FA]; subst.
  assert (G : forall x, In x l' -> q <= x).
  { intros x Hx. rewrite Forall_forall in FA. specialize (FA x Hx).
    destruct (S' x ltac:(now right)); lia. }
  assert (NDs : NoDup (range q ++ l')).
  { apply incr_NoDup, incr_app; [apply range_incr | exact IL |].
    intros x y Hx Hy. apply in_range in Hx. specialize (G y Hy). lia. }
  split; [|split; [|split]].
  - unfold set_size. rewrite (NoDup_length_eq _ (range q ++ l')).
    + rewrite app_length. rewrite Nat2Z.inj_add, range_length by lia. cbn [length] in L. lia.
    + apply NoDup_nodup.
    + exact NDs.
    + intro x. rewrite nodup_In, !in_app_iff. cbn [In]. split; [intros [H|[<-|H]] | intros [H|H]]; auto.
      left. apply in_range. lia.
  - apply Forall_app. split; [|eapply Forall_impl; [|exact F]; cbn beta; intros; lia].
    apply Forall_forall. intros x Hx. apply in_range in Hx. nia.
  - intros x Hx. apply in_or_app. left. apply in_range. lia.
  - apply in_or_app. right. rewrite Z.add_0_l in T. exact T.
Qed.

Theorem vlb_few N d : 1 <= d -> d <= N / d -> space_timesteps fl N (Vlb d) = Raise ValueError.
Proof.
  intros Hd Hq. cbn [space_timesteps]. rewrite (proj2 (Z.eqb_neq _ _)) by lia.
  now rewrite (proj2 (Z.ltb_ge _ _)) by lia.
Qed.

Theorem vlb_many N d : 0 <= N -> N < d -> space_timesteps fl N (Vlb d) = Raise ValueError.
Proof.
  intros HN Hd. cbn [space_timesteps]. rewrite (proj2 (Z.eqb_neq _ _)) by lia.
  rewrite (Z.div_small N d) by lia. rewrite (proj2 (Z.ltb_lt _ _)) by lia.
  unfold from_sections. cbn [length]. change (Z.of_nat 1 =? 0) with false. cbn [sections_loop].
  unfold section_steps. rewrite (proj2 (Z.ltb_lt _ _)); [reflexivity|].
  change (Z.of_nat 1) with 1. rewrite Z.div_1_r, Z.mod_1_r. change (0 <? 0) with false. cbv iota. lia.
Qed.

(** ** ddimN *)
Lemma range_step_length N i : 0 <= N -> 1 <= i -> Z.of_nat (length (range_step N i)) = (N + i - 1) / i.
Proof.
  intros HN Hi. unfold range_step. rewrite map_length, range_length; [reflexivity|].
  apply Z.div_pos; lia.
Qed.
Lemma in_range_step N i x : 0 <= N -> 1 <= i -> In x (range_step N i) <-> (0 <= x < N /\ (i | x)).
Proof.
  intros HN Hi. unfold range_step. rewrite in_map_iff. 
  pose proof (Z.div_mod (N + i - 1) i ltac:(lia)) as D. pose proof (Z.mod_pos_bound (N + i - 1) i ltac:(lia)) as M.
  set (m := (N + i - 1) / i) in *. split.
  - intros (k & <- & H). apply in_range in H. split; [nia|]. exists k. reflexivity.
  - intros (H & k & ->). exists k. split; [reflexivity|]. apply in_range. nia.
Qed.
Lemma range_step_incr N i : 1 <= i -> incr (range_step N i).
Proof.
  intro Hi. unfold range_step, range. rewrite map_map. apply incr_map. intros. nia.
Qed.

Lemma ddim_loop_spec N d : 0 <= N -> forall is_, Forall (fun i => 1 <= i) is_ ->
  match ddim_loop N d is_ with
  | Ok l => exists i, In i is_ /\ l = range_step N i /\ (N + i - 1) / i = d
  | Raise e => e = ValueError /\ forall i, In i is_ -> (N + i - 1) / i <> d
  end.
Proof.
  intros HN. induction is_ as [|i is_ IH]; intro F; cbn [ddim_loop]; [split; [reflexivity | easy]|].
  inversion F as [|? ? Hi F']; subst. rewrite range_step_length by assumption.
  destruct (Z.eqb_spec ((N + i - 1) / i) d) as [E|E].
  - exists i. split; [now left|]. split; [reflexivity | exact E].
  - specialize (IH F'). destruct (ddim_loop N d is_) as [l|e].
    + destruct IH as (j & Hj & H). exists j. split; [now right | exact H].
    + destruct IH as (-> & H). split; [reflexivity|]. intros j [<-|Hj]; [exact E | now apply H].
Qed.

Theorem ddim_ok N d l : 1 <= N -> space_timesteps fl N (Ddim d) = Ok l ->
  set_size l = d /\ Forall (fun x => 0 <= x < N) l /\ In 0 l /\
  exists i, 1 <= i < N /\ forall x, In x l <-> (0 <= x < N /\ (i | x)).
Proof.
  intros HN H. cbn [space_timesteps] in H.
  assert (F : Forall (fun i => 1 <= i) (map (Z.add 1) (range (N - 1)))).
  { apply Forall_forall. intros i Hi. apply in_map_iff in Hi. destruct Hi as (k & <- & Hk).
    apply in_range in Hk. lia. }
  pose proof (ddim_loop_spec N d ltac:(lia) _ F) as S. rewrite H in S.
  destruct S as (i & Hi & -> & E). apply in_map_iff in Hi. destruct Hi as (k & <- & Hk).
  apply in_range in Hk. set (i := 1 + k) in *.
  split. { unfold set_size. rewrite nodup_fixed_point by (apply incr_NoDup, range_step_incr; lia).
           rewrite range_step_length by lia. exact E. }
  split. { apply Forall_forall. intros x Hx. apply in_range_step in Hx; lia. }
  split. { apply in_range_step; try lia. split; [lia | apply Z.divide_0_r]. }
  exists i. split; [lia|]. intro x. apply in_range_step; lia.
Qed.

(** It raises only when no stride below [N] has [d] multiples in [0, N). *)
Theorem ddim_raises N d e : 1 <= N -> space_timesteps fl N (Ddim d) = Raise e ->
  e = ValueError /\
  forall i l, 1 <= i < N -> NoDup l -> (forall x, In x l <-> (0 <= x < N /\ (i | x))) ->
  Z.of_nat (length l) <> d.
Proof.
  intros HN H. cbn [space_timesteps] in H.
  assert (F : Forall (fun i => 1 <= i) (map (Z.add 1) (range (N - 1)))).
  { apply Forall_forall. intros i Hi. apply in_map_iff in Hi. destruct Hi as (k & <- & Hk).
    apply in_range in Hk. lia. }
  pose proof (ddim_loop_spec N d ltac:(lia) _ F) as S. rewrite H in S. destruct S as (-> & S).
  split; [reflexivity|]. intros i l Hi ND Hl.
  specialize (S i). rewrite <- range_step_length in S by lia.
  rewrite (NoDup_length_eq l (range_step N i) ND).
  - apply S. apply in_map_iff. exists (i - 1). split; [lia|]. apply in_range. lia.
  - apply incr_NoDup, range_step_incr. lia.
  - intro x. rewrite Hl, in_range_step by lia. reflexivity.
Qed.
End Fl.

(** ** Accurate float arithmetic *)
Lemma exact_good N : good_fl N (fun x => x).
Proof.
  exists 0%R. split; [lra|]. split; [lra|]. split; [|reflexivity].
  intros x Hx. rabs; lra.
Qed.

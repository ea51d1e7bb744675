(** The arithmetic encoder with two buffer sizes: the smaller buffer holds a prefix of the
    larger one, and everything else is equal. *)
From Coq Require Import ZArith List Bool Lia Arith.
From Verif Require Import Base AC_Model AC_Spec AC_Buffer.
Import ListNotations.
Open Scope Z_scope.

Lemma index_update_firstn c (a : list Z) i v : (c <= length a)%nat ->
  index_update (firstn c a) i v = firstn c (index_update a i v).
Proof.
  intro L. apply (nth_ext _ _ 0 0).
  - rewrite index_update_length, !firstn_length, index_update_length. reflexivity.
  - intros n H. rewrite index_update_length, firstn_length in H.
    assert (F : forall l : list Z, nth n (firstn c l) 0 = nth n l 0).
    { intro l. rewrite <- (firstn_skipn c l) at 2. destruct (Nat.lt_ge_cases n (length (firstn c l))) as [K|K].
      - now rewrite app_nth1.
      - rewrite firstn_length in K. rewrite !nth_overflow; [reflexivity| |].
        + rewrite app_length, firstn_length, skipn_length. lia.
        + rewrite firstn_length. lia. }
    rewrite F, !index_update_nth, F, firstn_length, Nat.min_l by exact L.
    destruct (Nat.eqb_spec n i) as [->|N]; [|reflexivity]. cbn [andb].
    rewrite (proj2 (Nat.ltb_lt i c)), (proj2 (Nat.ltb_lt i (length a))) by lia. reflexivity.
Qed.

(** Same buffer but for the array, of which one is a prefix. *)
Definition prefix_buf (c : nat) (small big : bitbuf) : Prop :=
  (c <= length (arr big))%nat /\ arr small = firstn c (arr big) /\ cur small = cur big /\
  idx small = idx big /\ bit_idx small = bit_idx big.
Definition prefix_st (c : nat) (small big : encst) : Prop :=
  e_high small = e_high big /\ e_low small = e_low big /\ e_pending small = e_pending big /\
  prefix_buf c (e_buf small) (e_buf big).

Lemma append_bit_prefix c bit s b : prefix_buf c s b -> prefix_buf c (append_bit bit s) (append_bit bit b).
Proof.
  intros (L & A & C & I & B). unfold append_bit. rewrite C, I, B, A.
  destruct (Nat.eqb (S (bit_idx b)) 8); unfold prefix_buf; cbn [arr cur idx bit_idx];
    rewrite ?index_update_length, ?index_update_firstn by exact L; repeat split; exact L.
Qed.
Lemma append_pending_prefix c bit p s b : prefix_buf c s b ->
  prefix_buf c (append_bit_and_pending bit p s) (append_bit_and_pending bit p b).
Proof.
  intro H. unfold append_bit_and_pending. induction p as [|p IH]; cbn [Nat.iter nat_rect];
    [apply append_bit_prefix, H|apply append_bit_prefix, IH].
Qed.
Lemma enc_step_prefix c s b : prefix_st c s b -> prefix_st c (enc_step s) (enc_step b).
Proof.
  intros (H & L & P & B). unfold enc_step. rewrite H, L, P.
  destruct (choose_branch (e_high b) (e_low b)); unfold prefix_st; cbn [e_high e_low e_pending e_buf];
    repeat (split; [reflexivity|]); try apply append_pending_prefix; exact B.
Qed.
Definition same_res {A B} (P : A -> B -> Prop) (x : res A) (y : res B) : Prop :=
  match x, y with
  | Ok a, Ok b => P a b
  | Raise e, Raise e' => e = e'
  | _, _ => False
  end.
Lemma enc_loop_prefix c fuel : forall s b, prefix_st c s b -> same_res (prefix_st c) (enc_loop fuel s) (enc_loop fuel b).
Proof.
  induction fuel as [|f IH]; intros s b H; cbn [enc_loop]; destruct H as (E & L & P & B) eqn:Q; rewrite E, L; clear Q.
  - destruct (renorm_cond _ _); cbn; [reflexivity|exact H].
  - destruct (renorm_cond _ _); [|cbn; exact H]. apply IH, enc_step_prefix, H.
Qed.

Section Overrun.
Context {ST : Type}.
Variable cdf : Z -> ST -> Z * Z * ST.

Lemma enqueue_all_prefix c m : forall s b cs, prefix_st c s b ->
  same_res (fun x y => prefix_st c (fst x) (fst y) /\ snd x = snd y) (enqueue_all cdf m s cs) (enqueue_all cdf m b cs).
Proof.
  induction m as [|x m IH]; intros s b cs H; cbn [enqueue_all]; [cbn; split; [exact H|reflexivity]|].
  unfold enqueue. pose proof H as (E & L & P & B). rewrite E, L, P. destruct (cdf x cs) as [[rl rh] cs'].
  pose proof (enc_loop_prefix c RENORM_FUEL
    (mkenc (narrow_high (e_low b) (span_of (e_low b) (e_high b)) rh) (narrow_low (e_low b) (span_of (e_low b) (e_high b)) rl) (e_pending b) (e_buf s))
    (mkenc (narrow_high (e_low b) (span_of (e_low b) (e_high b)) rh) (narrow_low (e_low b) (span_of (e_low b) (e_high b)) rl) (e_pending b) (e_buf b))) as R.
  destruct (enc_loop _ (mkenc _ _ _ (e_buf s))) as [s'|e], (enc_loop _ (mkenc _ _ _ (e_buf b))) as [b'|e'];
    cbn [bind same_res] in *; unfold same_res in R; try (exfalso; apply R; repeat split; try reflexivity; exact (proj1 B) || apply B).
  - apply IH, R. repeat split; apply B.
  - apply R. repeat split; apply B.
Qed.

Lemma jax_encode_prefix m cs c1 c2 : (0 < c1 <= c2)%nat ->
  same_res (fun x y => length (fst y) = c2 /\ fst x = firstn c1 (fst y) /\ snd x = snd y)
    (jax_encode cdf m cs c1) (jax_encode cdf m cs c2).
Proof.
  intro C. unfold jax_encode. rewrite (proj2 (Nat.eqb_neq c1 0)), (proj2 (Nat.eqb_neq c2 0)) by lia.
  assert (N : forall c, nth 0 (repeat 0 c) 0 = 0) by (intros [|c]; reflexivity). rewrite !N.
  set (s0 := mkenc MAX_CODE 0 0 (mkbuf (repeat 0 c1) 0 0 0)). set (b0 := mkenc MAX_CODE 0 0 (mkbuf (repeat 0 c2) 0 0 0)).
  assert (LEN : forall s b cs', enqueue_all cdf m s cs = Ok (b, cs') -> length (arr (e_buf b)) = length (arr (e_buf s))).
  { clear. assert (AB : forall bit b, length (arr (append_bit bit b)) = length (arr b)).
    { intros bit b. unfold append_bit. destruct (Nat.eqb _ 8); cbn [arr]; [apply index_update_length|reflexivity]. }
    assert (AP : forall bit p b, length (arr (append_bit_and_pending bit p b)) = length (arr b)).
    { intros bit p b. unfold append_bit_and_pending. induction p as [|p IH]; cbn [Nat.iter nat_rect]; rewrite AB; [reflexivity|exact IH]. }
    assert (LP : forall f s s', enc_loop f s = Ok s' -> length (arr (e_buf s')) = length (arr (e_buf s))).
    { induction f as [|f IH]; intros s s' H; cbn [enc_loop] in H; destruct (renorm_cond _ _); try discriminate; try (injection H as <-; reflexivity).
      apply IH in H. rewrite H. unfold enc_step. destruct (choose_branch _ _); cbn [e_buf]; rewrite ?AP; reflexivity. }
    revert cs. induction m as [|x m IH]; intros cs s b cs' H; cbn [enqueue_all] in H; [injection H as <- _; reflexivity|].
    unfold enqueue in H. destruct (cdf x cs) as [[rl rh] cs1]. destruct (enc_loop _ _) as [s1|] eqn:E; cbn [bind] in H; [|discriminate].
    apply IH in H. rewrite H. apply LP in E. exact E. }
  assert (P0 : prefix_st c1 s0 b0).
  { unfold prefix_st, prefix_buf, s0, b0. cbn [e_high e_low e_pending e_buf arr cur idx bit_idx].
    rewrite repeat_length. repeat split; try lia. replace c2 with (c1 + (c2 - c1))%nat by lia.
    rewrite repeat_app, firstn_app, repeat_length, Nat.sub_diag, firstn_O, app_nil_r.
    symmetry. apply firstn_all2. now rewrite repeat_length. }
  pose proof (enqueue_all_prefix c1 m s0 b0 cs P0) as R.
  destruct (enqueue_all cdf m s0 cs) as [[s cs1]|], (enqueue_all cdf m b0 cs) as [[b cs2]|] eqn:EB; cbn [bind same_res fst snd] in *; try contradiction; [|exact R].
  destruct R as [(H & L & P & B) _]. rewrite L, P.
  pose proof (append_pending_prefix c1 (negb (e_low b <? ONE_FOURTH)) (S (e_pending b)) _ _ B) as (A1 & A2 & A3 & A4 & A5).
  rewrite A2, A3, A4, A5, index_update_firstn by exact A1. rewrite index_update_length. split; [|split; reflexivity].
  assert (AB : forall bit b, length (arr (append_bit bit b)) = length (arr b)).
  { intros bit b'. unfold append_bit. destruct (Nat.eqb _ 8); cbn [arr]; [apply index_update_length|reflexivity]. }
  assert (AP : forall bit p b, length (arr (append_bit_and_pending bit p b)) = length (arr b)).
  { intros bit p b'. unfold append_bit_and_pending. induction p as [|p IH]; cbn [Nat.iter nat_rect]; rewrite AB; [reflexivity|exact IH]. }
  rewrite AP, (LEN _ _ _ EB). unfold b0. cbn. apply repeat_length.
Qed.

(** What encode returns with a buffer of [cap] bytes, from the code [full] that a large enough
    buffer gives. *)
Lemma encode_overrun m cs big cap full :
  encode cdf [(m, cs)] big = Ok [full] -> (length full < big)%nat -> (0 < cap)%nat ->
  encode cdf [(m, cs)] cap =
    if (length full <=? cap)%nat then Ok [full]
    else if (length full =? cap + 1)%nat then Ok [removelast full]
    else Raise RuntimeError.
Proof.
  intros H L C. unfold encode in *. cbn [mapM] in *.
  destruct (jax_encode cdf m cs big) as [[a i]|] eqn:E; cbn [bind existsb] in H; [|discriminate].
  destruct (Nat.ltb_spec (length a) i) as [K|K]; [discriminate|]. cbn [orb map] in H. injection H as <-.
  assert (LA : length a = big /\ exists a', jax_encode cdf m cs cap = Ok (a', i) /\ length a' = cap /\
            (forall n, (n <= cap)%nat -> (n <= big)%nat -> firstn n a' = firstn n a)).
  { assert (B0 : (0 < big)%nat) by lia.
    destruct (Nat.le_ge_cases cap big) as [O|O].
    - pose proof (jax_encode_prefix m cs cap big ltac:(lia)) as R. rewrite E in R.
      destruct (jax_encode cdf m cs cap) as [[a' i']|]; cbn in R; [|contradiction]. destruct R as (R1 & R2 & R3). subst a' i'.
      split; [exact R1|]. eexists. split; [reflexivity|]. split; [rewrite firstn_length; lia|].
      intros n N _. rewrite firstn_firstn, Nat.min_l by exact N. reflexivity.
    - pose proof (jax_encode_prefix m cs big cap ltac:(lia)) as R. rewrite E in R.
      destruct (jax_encode cdf m cs cap) as [[a' i']|]; cbn in R; [|contradiction]. destruct R as (R1 & R2 & R3). subst a i'.
      split; [rewrite firstn_length; lia|]. eexists. split; [reflexivity|]. split; [exact R1|].
      intros n _ N. rewrite firstn_firstn, Nat.min_l by exact N. reflexivity. }
  destruct LA as (LA & a' & E' & LA' & PF). rewrite E'. cbn [bind existsb orb map].
  rewrite firstn_length in *. assert (IB : (i + 1 < big)%nat) by lia. rewrite Nat.min_l by lia.
  rewrite LA'. destruct (Nat.leb_spec (i + 1) cap) as [F|F].
  - rewrite (proj2 (Nat.ltb_ge cap i)) by lia. cbn [orb]. rewrite PF by lia. reflexivity.
  - destruct (Nat.eqb_spec (i + 1) (cap + 1)) as [Q|Q].
    + assert (i = cap) by lia. subst i. rewrite Nat.ltb_irrefl. cbn [orb]. do 2 f_equal.
      assert (RF : removelast (firstn (cap + 1) a) = firstn cap a).
      { rewrite Nat.add_1_r. apply removelast_firstn. lia. }
      rewrite RF, <- PF by lia. rewrite !firstn_all2 by lia. reflexivity.
    + rewrite (proj2 (Nat.ltb_lt cap i)) by lia. reflexivity.
Qed.
End Overrun.

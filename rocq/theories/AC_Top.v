(** Lemmas in the exact form of the property theorems of AC_Props. *)
From Coq Require Import ZArith List Bool Lia Arith Reals Lra.
From Verif Require Import Base AC_Model AC_Spec AC_SpecR AC_Proofs AC_Buffer AC_Loop AC_Main
  AC_Batch AC_Interval AC_Size.
Import ListNotations.
Open Scope Z_scope.

Section Top.
  Context {ST ST' : Type}.
  Variable cdf : Z -> ST -> Z * Z * ST.
  Variable inv : Z -> ST' -> Z * Z * Z * ST'.

  Lemma encode_one m cs cap b :
    encode cdf [(m, cs)] cap = Ok [b] ->
    exists arr i, jax_encode cdf m cs cap = Ok (arr, i) /\ (i <= length arr)%nat /\
      b = firstn (i + 1) arr.
  Proof. clear inv.
    intros H. apply encode_elems in H. inversion H; subst. assumption.
  Qed.

  Lemma decode_one b n cs' :
    decode inv [(b, n, cs')] =
    bind (jax_decode inv n b cs') (fun m => Ok [firstn n m]).
  Proof.
    unfold decode. cbn [map list_max fold_right mapM]. rewrite !Nat.max_0_r, Nat.sub_diag.
    cbn [repeat]. rewrite app_nil_r. destruct (jax_decode inv n b cs'); reflexivity.
  Qed.

  Lemma cap_pos m cs cap arr i : jax_encode cdf m cs cap = Ok (arr, i) -> (0 < cap)%nat.
  Proof. clear inv.
    unfold jax_encode. destruct (Nat.eqb_spec cap 0); [discriminate|lia].
  Qed.

  Lemma bytes_index m cs cap arr i b :
    good_message cdf m cs -> jax_encode cdf m cs cap = Ok (arr, i) ->
    b = firstn (i + 1) arr -> (length b < cap)%nat ->
    (i < cap)%nat /\ length b = (i + 1)%nat.
  Proof. clear inv.
    intros Hg Hj -> Hb.
    destruct (jax_encode_size cdf m cs cap arr i (cap_pos _ _ _ _ _ Hj) Hg Hj)
      as (N & _ & _ & Hlen & _).
    rewrite firstn_length in *. lia.
  Qed.

  Lemma roundtrip_suffix m cs cs' cap b suf :
    matching cdf inv m cs cs' -> encode cdf [(m, cs)] cap = Ok [b] -> (length b < cap)%nat ->
    decode inv [(b ++ suf, length m, cs')] = Ok [map u8 m] /\ Forall byte b.
  Proof.
    intros Hmat Henc Hb. destruct (encode_one _ _ _ _ Henc) as (arr & i & Hj & Hi & ->).
    destruct (bytes_index m cs cap arr i _ (matching_good _ _ _ _ _ Hmat) Hj eq_refl Hb)
      as [Hlt _].
    destruct (single_roundtrip cdf inv m cs cs' cap arr i suf Hmat Hj Hlt) as (_ & Hby & Hd & _).
    split.
    - rewrite decode_one, Hd. cbn [bind].
      rewrite firstn_all2 by (rewrite map_length; lia). reflexivity.
    - apply Forall_forall. intros x Hx. rewrite Forall_forall in Hby. apply Hby.
      rewrite <- (firstn_skipn (i + 1) arr). apply in_or_app. left; exact Hx.
  Qed.

  Lemma encode_enough m cs cap :
    m <> [] -> (3 * length m <= cap)%nat -> good_message cdf m cs ->
    exists b, encode cdf [(m, cs)] cap = Ok [b].
  Proof. clear inv.
    intros Hm Hcap Hg. destruct (enough cdf m cs cap Hm Hcap Hg) as (arr & i & Hj & Hi).
    destruct (jax_encode_size cdf m cs cap arr i (cap_pos _ _ _ _ _ Hj) Hg Hj)
      as (N & _ & _ & Hlen & _).
    exists (firstn (i + 1) arr). unfold encode. cbn [mapM]. rewrite Hj. cbn [bind existsb].
    destruct (Nat.ltb_spec (length arr) i); [lia|]. reflexivity.
  Qed.

  Lemma roundtrip_enough m cs cs' cap suf :
    m <> [] -> (3 * length m <= cap)%nat -> matching cdf inv m cs cs' ->
    exists b, encode cdf [(m, cs)] cap = Ok [b] /\
      decode inv [(b ++ suf, length m, cs')] = Ok [map u8 m].
  Proof.
    intros Hm Hcap Hmat. pose proof (matching_good _ _ _ _ _ Hmat) as Hg.
    destruct (encode_enough m cs cap Hm Hcap Hg) as (b & Hb). exists b. split; [exact Hb|].
    destruct (encode_one _ _ _ _ Hb) as (arr & i & Hj & Hi & ->).
    destruct (enough cdf m cs cap Hm Hcap Hg) as (arr' & i' & Hj' & Hi').
    rewrite Hj in Hj'. injection Hj' as <- <-.
    destruct (single_roundtrip cdf inv m cs cs' cap arr i suf Hmat Hj Hi') as (_ & _ & Hd & _).
    rewrite decode_one, Hd. cbn [bind].
    rewrite firstn_all2 by (rewrite map_length; lia). reflexivity.
  Qed.

  Lemma overrun_partial m cs cs' cap arr i :
    matching cdf inv m cs cs' -> jax_encode cdf m cs cap = Ok (arr, i) -> i <> cap ->
    (cap < i)%nat /\ encode cdf [(m, cs)] cap = Raise RuntimeError \/
    (i < cap)%nat /\ exists b, encode cdf [(m, cs)] cap = Ok [b] /\
                        decode inv [(b, length m, cs')] = Ok [map u8 m].
  Proof.
    intros Hmat Hj Hne. pose proof (matching_good _ _ _ _ _ Hmat) as Hg.
    destruct (jax_encode_size cdf m cs cap arr i (cap_pos _ _ _ _ _ Hj) Hg Hj)
      as (N & _ & _ & Hlen & _).
    unfold encode. cbn [mapM]. rewrite Hj. cbn [bind existsb].
    destruct (Nat.ltb_spec (length arr) i).
    - left. split; [lia|reflexivity].
    - right. assert (Hi : (i < cap)%nat) by lia. split; [exact Hi|].
      exists (firstn (i + 1) arr). split; [reflexivity|].
      destruct (single_roundtrip cdf inv m cs cs' cap arr i [] Hmat Hj Hi) as (_ & _ & Hd & _).
      rewrite app_nil_r in Hd. rewrite decode_one, Hd. cbn [bind].
      rewrite firstn_all2 by (rewrite map_length; lia). reflexivity.
  Qed.

  Lemma fits_of_bytes cap m cs b :
    good_message cdf m cs -> elem_bytes cdf cap m cs b -> (length b < cap)%nat -> fits cdf cap m cs.
  Proof. clear inv.
    intros Hg (arr & i & Hj & Hi & ->) Hb. exists arr, i. split; [exact Hj|].
    apply (bytes_index m cs cap arr i _ Hg Hj eq_refl Hb).
  Qed.

  Lemma batch_independent Good cap (batch : list (list Z * ST * ST')) bs :
    total_inverse inv Good ->
    Forall (fun '(m, cs, cs') =>
      Forall symbol8 m /\ matching cdf inv m cs cs' /\ Good cs') batch ->
    encode cdf (map (fun '(m, cs, _) => (m, cs)) batch) cap = Ok bs ->
    Forall (fun b => (length b < cap)%nat) bs ->
    decode inv (map (fun '(b, (m, _, cs')) => (b, length m, cs')) (combine bs batch))
      = Ok (map (fun '(m, _, _) => m) batch) /\
    Forall2 (fun b '(m, _, cs') => decode inv [(b, length m, cs')] = Ok [m]) bs batch.
  Proof.
    intros Htot Hall Henc Hlen.
    pose proof (encode_elems cdf cap _ _ Henc) as Hel.
    set (batch4 := map (fun e : list Z * ST * ST' => (e, @nil Z)) batch).
    assert (H4 : Forall (fun '(m, cs, cs', suf) =>
      matching cdf inv m cs cs' /\ Good cs' /\ fits cdf cap m cs) batch4).
    { unfold batch4. clear Henc. revert bs Hel Hlen.
      induction Hall as [|[[m cs] cs'] batch (Hs & Hm & Hg) _ IH]; intros bs Hel Hlen;
        cbn [map] in *; inversion Hel; subst; constructor.
      - inversion Hlen; subst. split; [exact Hm|]. split; [exact Hg|].
        apply (fits_of_bytes cap m cs y); try assumption.
        apply (matching_good _ _ _ _ _ Hm).
      - inversion Hlen; subst. apply (IH l'); assumption. }
    split.
    - pose proof (batch_roundtrip cdf inv Good cap batch4 bs Htot H4) as HB.
      assert (E1 : map (fun '(m, cs, _, _) => (m, cs)) batch4
              = map (fun '(m, cs, _) => (m, cs)) batch)
        by (unfold batch4; rewrite map_map; apply map_ext; intros [[m cs] cs']; reflexivity).
      rewrite E1 in HB. specialize (HB Henc).
      assert (E2 : map (fun '(m, _, _, _) => map u8 m) batch4
              = map (fun '(m, _, _) => m) batch).
      { unfold batch4. rewrite map_map. clear -Hall.
        induction Hall as [|[[m cs] cs'] batch (Hs & _) _ IH]; [reflexivity|].
        cbn [map]. rewrite map_u8_id by exact Hs. f_equal. exact IH. }
      rewrite E2 in HB. rewrite <- HB. f_equal.
      unfold batch4. clear. revert batch. induction bs as [|b bs IH]; intros [|[[m cs] cs'] batch];
        cbn [map combine]; try reflexivity. rewrite app_nil_r. f_equal. apply IH.
    - clear H4 batch4 Henc Htot. revert bs Hel Hlen.
      induction Hall as [|[[m cs] cs'] batch (Hs & Hm & Hg) _ IH]; intros bs Hel Hlen;
        cbn [map] in *; inversion Hel; subst; constructor.
      + inversion Hlen; subst. destruct H1 as (arr & i & Hj & Hi & ->).
        destruct (bytes_index m cs cap arr i _ (matching_good _ _ _ _ _ Hm) Hj eq_refl H2)
          as [Hlt _].
        destruct (single_roundtrip cdf inv m cs cs' cap arr i [] Hm Hj Hlt) as (_ & _ & Hd & _).
        rewrite app_nil_r in Hd. rewrite decode_one, Hd. cbn [bind].
        rewrite map_u8_id by exact Hs. rewrite firstn_all. reflexivity.
      + inversion Hlen; subst. apply (IH l'); assumption.
  Qed.

  Lemma code_length m cs cap b :
    good_message cdf m cs -> encode cdf [(m, cs)] cap = Ok [b] -> (length b < cap)%nat ->
    (INR (8 * (length b - 1)) <= ideal_bits cdf m cs + 2
                                 + INR (length m) * log2 (/ (1 - / 2 ^ 14)) /\
     ideal_bits cdf m cs - INR (length m) * log2 (1 + / 2 ^ 14) < INR (8 * length b))%R.
  Proof. clear inv.
    intros Hg Henc Hb. destruct (encode_one _ _ _ _ Henc) as (arr & i & Hj & Hi & ->).
    destruct (bytes_index m cs cap arr i _ Hg Hj eq_refl Hb) as [Hlt Hlb].
    destruct (jax_encode_size cdf m cs cap arr i (cap_pos _ _ _ _ _ Hj) Hg Hj)
      as (N & -> & HN & _ & Hup & Hlo).
    destruct (size_real cdf m cs N Hg HN Hup Hlo) as [H1 H2].
    rewrite Hlb. pose proof (Nat.div_mod_eq N 8) as Hdm.
    pose proof (Nat.mod_upper_bound N 8 ltac:(lia)) as Hm.
    split.
    - eapply Rle_trans; [|exact H2]. apply le_INR. lia.
    - eapply Rlt_le_trans; [exact H1|]. apply le_INR. lia.
  Qed.
End Top.

Lemma slack_small : (0 < log2 (1 + / 2 ^ 14) < 1 / 10000 /\
                     0 < log2 (/ (1 - / 2 ^ 14)) < 1 / 10000)%R.
Proof.
  assert (Hln3 : (1 <= ln 3)%R).
  { rewrite <- (ln_exp 1). destruct (Rle_lt_or_eq_dec _ _ exp_le_3) as [H|H].
    - left. apply ln_increasing; [apply exp_pos|exact H].
    - right. rewrite H. reflexivity. }
  assert (Hln2 : (5 / 8 <= ln 2)%R).
  { assert (INR 5 * ln 3 < INR 8 * ln 2)%R.
    { rewrite <- !ln_pow_nat by lra. apply ln_increasing; [apply pow_lt; lra|]. cbn; lra. }
    replace (INR 5) with 5%R in H by (cbn; lra). replace (INR 8) with 8%R in H by (cbn; lra). lra. }
  assert (Hy : forall y, (0 < y -> ln (1 + y) < y)%R).
  { intros y Hy. rewrite <- (ln_exp y) at 2. apply ln_increasing; [lra|].
    apply exp_ineq1. lra. }
  assert (Hgen : forall y, (0 < y < 1 / 16000 -> 0 < log2 (1 + y) < 1 / 10000)%R).
  { intros y [H0 H1]. unfold log2. specialize (Hy y H0).
    assert (0 < ln (1 + y))%R by (rewrite <- ln_1; apply ln_increasing; lra).
    split; [apply Rdiv_lt_0_compat; lra|].
    apply Rmult_lt_reg_r with (ln 2); [lra|]. unfold Rdiv at 1. rewrite Rmult_assoc, Rinv_l by lra.
    lra. }
  split.
  - apply Hgen. cbn; lra.
  - replace (/ (1 - / 2 ^ 14))%R with (1 + / 16383)%R by (cbn; field). apply Hgen. lra.
Qed.

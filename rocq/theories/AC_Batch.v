(** Batch-level proofs for the arithmetic coder. *)
From Coq Require Import ZArith List Bool Lia Arith.
From Coq Require Import ZifyBool ZifyNat.
From Verif Require Import Base AC_Model AC_Spec AC_Proofs AC_Buffer AC_Loop AC_Main.
Import ListNotations.
Open Scope Z_scope.

Lemma map_u8_id m : Forall symbol8 m -> map u8 m = m.
Proof.
  induction 1 as [|x m Hx _ IH]; [reflexivity|]. cbn [map]. rewrite IH, u8_id; auto.
Qed.

Lemma mapM_length {A B} (f : A -> res B) l r : mapM f l = Ok r -> length r = length l.
Proof.
  revert r. induction l as [|a l IH]; intros r H; cbn [mapM] in H.
  - injection H as <-; reflexivity.
  - destruct (f a); [|discriminate]. cbn [bind] in H.
    destruct (mapM f l); [|discriminate]. cbn [bind] in H. injection H as <-.
    cbn [length]. f_equal. apply IH; reflexivity.
Qed.

Lemma list_max_le l n : In n l -> (n <= list_max l)%nat.
Proof.
  induction l as [|x l IH]; intros Hin; [destruct Hin|].
  cbn. destruct Hin as [->|Hin]; [lia|]. specialize (IH Hin). unfold list_max in IH. lia.
Qed.

Section Batch.
  Context {ST ST' : Type}.
  Variable cdf : Z -> ST -> Z * Z * ST.
  Variable inv : Z -> ST' -> Z * Z * Z * ST'.

  Lemma matching_good m : forall cs cs', matching cdf inv m cs cs' -> good_message cdf m cs.
  Proof.
    unfold good_message.
    induction m as [|x m IH]; intros cs cs' H; cbn [intervals]; [constructor|].
    cbn [matching] in H. destruct (cdf x cs) as [[l h] cs1].
    destruct H as (Hg & cs1' & _ & H). constructor; [exact Hg|]. eapply IH; exact H.
  Qed.

  (** One message; [suf] is any suffix and [extra] any number of extra symbols. *)
  Lemma single_roundtrip m cs cs' cap arr i suf :
    matching cdf inv m cs cs' ->
    jax_encode cdf m cs cap = Ok (arr, i) -> (i < cap)%nat ->
    length arr = cap /\ Forall byte arr /\
    (jax_decode inv (length m) (firstn (i + 1) arr ++ suf) cs' = Ok (map u8 m)) /\
    forall Good extra, total_inverse inv Good -> Good cs' ->
      exists r, jax_decode inv (length m + extra) (firstn (i + 1) arr ++ suf) cs'
                = Ok (map u8 m ++ r).
  Proof.
    intros Hmat Henc Hi.
    destruct (jax_encode_ok cdf inv m cs cap ltac:(lia) (matching_good _ _ _ Hmat))
      as (buf & out & Heq & Hr & _ & _ & Hdec).
    rewrite Heq in Henc. injection Henc as <- <-.
    assert (Hm : matches (firstn (idx buf + 1) (final_arr buf) ++ suf) out)
      by (intros j Hj; apply (final_bits cap); assumption).
    destruct (Hdec _ cs' Hmat Hm) as (sd & csf' & Hdw & Hn & Hg & Hall).
    split; [unfold final_arr; rewrite index_update_length; apply Hr|].
    split.
    { unfold final_arr. apply Forall_index_update; [apply Hr|].
      apply (final_byte cap buf out Hr). }
    split.
    - specialize (Hall 0%nat). rewrite Nat.add_0_r in Hall. rewrite Hall.
      cbn [dequeue_n bind]. rewrite app_nil_r. reflexivity.
    - intros Good extra Htot HG.
      destruct (dequeue_n_total inv Good (firstn (idx buf + 1) (final_arr buf) ++ suf) extra sd csf'
                  Htot (Hg Good Htot HG) Hdw Hn) as (r & Hr' & _).
      exists r. rewrite Hall, Hr'. reflexivity.
  Qed.

  (** What [encode] returned for an element. *)
  Definition elem_bytes (cap : nat) (m : list Z) (cs : ST) (b : list Z) : Prop :=
    exists arr i, jax_encode cdf m cs cap = Ok (arr, i) /\ (i <= length arr)%nat /\
                  b = firstn (i + 1) arr.

  Lemma encode_elems cap ms bs :
    encode cdf ms cap = Ok bs ->
    Forall2 (fun '(m, cs) b => elem_bytes cap m cs b) ms bs.
  Proof. clear inv.
    unfold encode. intros H.
    destruct (mapM (fun '(m, cs) => jax_encode cdf m cs cap) ms) as [outs|] eqn:HM;
      [|discriminate]. cbn [bind] in H.
    destruct (existsb _ outs) eqn:HE; [discriminate|]. injection H as <-.
    revert outs HM HE. induction ms as [|[m cs] ms IH]; intros outs HM HE; cbn [mapM] in HM.
    - injection HM as <-. constructor.
    - destruct (jax_encode cdf m cs cap) as [[arr i]|] eqn:Hj; [|discriminate].
      cbn [bind] in HM.
      destruct (mapM (fun '(m, cs) => jax_encode cdf m cs cap) ms) as [outs'|] eqn:HM';
        [|discriminate]. cbn [bind] in HM. injection HM as <-.
      cbn [existsb] in HE. apply orb_false_iff in HE as [HE1 HE2].
      cbn [map]. constructor; [|apply IH; [reflexivity|exact HE2]].
      exists arr, i. split; [exact Hj|]. split; [|reflexivity].
      apply Nat.ltb_ge in HE1. exact HE1.
  Qed.

  Definition fits (cap : nat) (m : list Z) (cs : ST) : Prop :=
    exists arr i, jax_encode cdf m cs cap = Ok (arr, i) /\ (i < cap)%nat.

  (** Batch round trip, with arbitrary trailing bytes on each element. *)
  Lemma batch_roundtrip Good cap (batch : list (list Z * ST * ST' * list Z)) bs :
    total_inverse inv Good ->
    Forall (fun '(m, cs, cs', suf) =>
      matching cdf inv m cs cs' /\ Good cs' /\ fits cap m cs) batch ->
    encode cdf (map (fun '(m, cs, _, _) => (m, cs)) batch) cap = Ok bs ->
    decode inv (map (fun '(b, (m, _, cs', suf)) => (b ++ suf, length m, cs'))
                    (combine bs batch))
    = Ok (map (fun '(m, _, _, _) => map u8 m) batch).
  Proof.
    intros Htot Hall Henc. apply encode_elems in Henc.
    unfold decode.
    set (ds := map _ (combine bs batch)).
    set (ML := list_max (map (fun '(b, _, _) => length b) ds)).
    set (MM := list_max (map (fun '(_, ml, _) => ml) ds)).
    assert (Hlen : forall d, In d ds -> (snd (fst d) <= MM)%nat).
    { intros [[b ml] cs'] Hin. unfold MM. apply list_max_le.
      apply in_map_iff. exists (b, ml, cs'). auto. }
    clearbody ML MM. unfold ds in *. clear ds.
    revert bs Henc Hlen. induction Hall as [|[[[m cs] cs'] suf] batch (Hmat & Hg & Hfit) _ IH];
      intros bs Henc Hlen; cbn [map] in Henc; inversion Henc; subst.
    - reflexivity.
    - cbn [combine map mapM].
      destruct H1 as (arr & i & Hj & Hi & ->).
      destruct Hfit as (arr' & i' & Hj' & Hi'). rewrite Hj in Hj'. injection Hj' as <- <-.
      specialize (Hlen _ (or_introl eq_refl)) as HMM. cbn [fst snd] in HMM.
      set (pad := repeat 0 (ML - length (firstn (i + 1) arr ++ suf))).
      destruct (single_roundtrip m cs cs' cap arr i (suf ++ pad) Hmat Hj Hi')
        as (_ & _ & _ & Hx).
      destruct (Hx Good (MM - length m)%nat Htot Hg) as (r & Hr).
      replace (length m + (MM - length m))%nat with MM in Hr by lia.
      rewrite <- app_assoc. rewrite Hr. cbn [bind].
      rewrite IH; [|assumption|].
      + cbn [bind]. rewrite firstn_app, firstn_all2 by (rewrite map_length; lia).
        rewrite map_length, Nat.sub_diag. cbn [firstn]. rewrite app_nil_r. reflexivity.
      + intros d Hd. apply Hlen. right. exact Hd.
  Qed.

  (** Size of what is written, and a capacity that always suffices. *)
  Lemma freq_pos m cs : good_message cdf m cs -> 1 <= freq_product cdf m cs.
  Proof. clear inv.
    unfold good_message, freq_product. induction 1 as [|i l Hi _ IHl]; cbn [fold_right]; [lia|].
    destruct Hi. nia.
  Qed.

  Lemma jax_encode_size m cs cap arr i :
    (0 < cap)%nat -> good_message cdf m cs -> jax_encode cdf m cs cap = Ok (arr, i) ->
    exists N, i = (N / 8)%nat /\ (2 <= N)%nat /\ length arr = cap /\
      2 ^ (Z.of_nat N - 2) * freq_product cdf m cs * (2 ^ 14 - 1) ^ Z.of_nat (length m)
        <= (2 ^ 30) ^ Z.of_nat (length m) /\
      (2 ^ 30) ^ Z.of_nat (length m) <
        2 ^ (Z.of_nat N) * freq_product cdf m cs * (2 ^ 14 + 1) ^ Z.of_nat (length m).
  Proof. clear inv.
    intros Hcap Hg Henc.
    destruct (jax_encode_ok cdf (fun v (u : unit) => (0, 0, 0, u)) m cs cap Hcap Hg)
      as (buf & out & Heq & Hr & Hsz & H2 & _).
    rewrite Heq in Henc. injection Henc as <- <-.
    exists (length out). split; [apply Hr|]. split; [exact H2|].
    split; [unfold final_arr; rewrite index_update_length; apply Hr|exact Hsz].
  Qed.

  Lemma jax_encode_returns m cs cap :
    (0 < cap)%nat -> good_message cdf m cs ->
    exists arr i, jax_encode cdf m cs cap = Ok (arr, i).
  Proof. clear inv.
    intros Hcap Hg.
    destruct (jax_encode_ok cdf (fun v (u : unit) => (0, 0, 0, u)) m cs cap Hcap Hg)
      as (buf & out & Heq & _). eauto.
  Qed.

  Lemma enough m cs cap :
    m <> [] -> (3 * length m <= cap)%nat -> good_message cdf m cs -> fits cap m cs.
  Proof. clear inv.
    intros Hm Hcap Hg.
    assert (Hl : (1 <= length m)%nat) by (destruct m; [congruence|cbn; lia]).
    destruct (jax_encode_returns m cs cap ltac:(lia) Hg) as (arr & i & Henc).
    exists arr, i. split; [exact Henc|].
    destruct (jax_encode_size m cs cap arr i ltac:(lia) Hg Henc) as (N & -> & HN & _ & Hup & _).
    pose proof (freq_pos m cs Hg) as Hf.
    set (n := Z.of_nat (length m)) in *.
    assert (Hn : 1 <= n) by lia.
    assert (HA : 0 < (2 ^ 14 - 1) ^ n) by (apply Z.pow_pos_nonneg; lia).
    assert (HB : 0 < 2 ^ (Z.of_nat N - 2)) by (apply Z.pow_pos_nonneg; lia).
    assert (H17 : (2 ^ 30) ^ n <= (2 ^ 17) ^ n * (2 ^ 14 - 1) ^ n).
    { rewrite <- Z.pow_mul_l. apply Z.pow_le_mono_l. lia. }
    assert (Hle : 2 ^ (Z.of_nat N - 2) <= (2 ^ 17) ^ n).
    { set (X := 2 ^ (Z.of_nat N - 2)) in *. set (F := freq_product cdf m cs) in *.
      set (A := (2 ^ 14 - 1) ^ n) in *. set (C := (2 ^ 17) ^ n) in *.
      set (D := (2 ^ 30) ^ n) in *. clearbody X F A C D.
      assert (X * A <= X * F * A) by (apply Z.mul_le_mono_nonneg_r; nia).
      apply Z.mul_le_mono_pos_r with A; lia. }
    rewrite <- Z.pow_mul_r in Hle by lia.
    apply Z.pow_le_mono_r_iff in Hle; [|lia|lia].
    apply Nat.div_lt_upper_bound; lia.
  Qed.
End Batch.

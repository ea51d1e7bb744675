(** Message-level proofs for the arithmetic coder. *)
From Coq Require Import ZArith List Bool Lia Arith.
From Coq Require Import ZifyBool ZifyNat.
From Verif Require Import Base AC_Model AC_Spec AC_Proofs AC_Buffer AC_Loop.
Import ListNotations.
Open Scope Z_scope.

  (** The flush: two more bits identify a point of the final interval. *)
  Lemma flush_inside low high :
    norm low high ->
    let b := negb (low <? ONE_FOURTH) in inside low high [b; negb b].
  Proof.
    intros (H1 & H2 & H3) b t. cbn [lapp]. rewrite val32_scons, val31_scons.
    pose proof (val30_range t). unfold ONE_HALF, ONE_FOURTH, THREE_FOURTHS in *.
    unfold b. destruct (Z.ltb_spec low 1073741824); cbn [negb Z.b2z]; lia.
  Qed.

  Lemma init_bits a k : (k <= 32)%nat ->
    Nat.iter k (append_bit_to_value a) (0, O, O) = (val k (dbit a), (k / 8)%nat, (k mod 8)%nat).
  Proof.
    induction k as [|k IH]; intros Hk; [reflexivity|].
    change (Nat.iter (S k) (append_bit_to_value a) (0, O, O))
      with (append_bit_to_value a (Nat.iter k (append_bit_to_value a) (0, O, O))).
    rewrite IH by lia. unfold append_bit_to_value.
    rewrite retrieve_bit_spec by (apply Nat.mod_upper_bound; lia).
    rewrite <- Nat.div_mod_eq. replace (S k) with (k + 1)%nat by lia.
    rewrite shiftl1.
    pose proof (val_range k (dbit a)) as Hv.
    assert (2 ^ Z.of_nat k <= 2 ^ 31) by (apply Z.pow_le_mono_r; lia).
    pose proof (b2z_range (abit a k)).
    rewrite (u32_id (2 * val k (dbit a))) by lia. rewrite u32_id by lia.
    replace (k + 1)%nat with (S k) at 3 by lia. rewrite val_S.
    unfold dbit at 3. destruct (Nat.ltb_spec k 32); [reflexivity|lia].
  Qed.

  Definition buf0 (cap : nat) : bitbuf := mkbuf (repeat 0 cap) (nth 0 (repeat 0 cap) 0) 0 0.

  Lemma repr0 cap : repr cap (buf0 cap) [].
  Proof.
    unfold repr, buf0. cbn [arr cur idx bit_idx length].
    change (0 / 8)%nat with 0%nat. change (0 mod 8)%nat with 0%nat.
    split; [apply repeat_length|]. split; [reflexivity|]. split; [reflexivity|].
    split; [destruct cap; reflexivity|]. split; [|intros q Hq; lia].
    apply Forall_forall. intros x Hx. apply repeat_spec in Hx. subst x. unfold byte; lia.
  Qed.


Section Main.
  Context {ST ST' : Type}.
  Variable cdf : Z -> ST -> Z * Z * ST.
  Variable inv : Z -> ST' -> Z * Z * Z * ST'.

  (** One symbol. *)
  Lemma enqueue_ok cap s out x cs l h cs1 :
    norm (e_low s) (e_high s) -> repr cap (e_buf s) out ->
    cdf x cs = (l, h, cs1) -> good_interval (l, h) ->
    exists s' out', enqueue cdf x s cs = Ok (s', cs1) /\
      enc_loop 32 (mkenc (narrow_high (e_low s) (span_of (e_low s) (e_high s)) h)
                         (narrow_low (e_low s) (span_of (e_low s) (e_high s)) l)
                         (e_pending s) (e_buf s)) = Ok s' /\
      repr cap (e_buf s') out' /\ norm (e_low s') (e_high s') /\
      (exists k, (length out' + e_pending s' = length out + e_pending s + k)%nat /\
         span (e_low s') (e_high s') = 2 ^ Z.of_nat k *
           (nhigh (e_low s) (e_high s) h - nlow (e_low s) (e_high s) l + 1)) /\
      forall E, E <> [] -> inside (e_low s') (e_high s') E ->
      exists E', E' <> [] /\ inside (e_low s) (e_high s) E' /\
        out' ++ ins (e_pending s') E = out ++ ins (e_pending s) E' /\
        forall a i bi cs' cs1',
          (forall v, l <= v < h -> inv v cs' = (l, h, x, cs1')) ->
          matches a (out ++ ins (e_pending s) E') ->
          (bi < 8)%nat -> (8 * i + bi = length out + e_pending s + 32)%nat ->
          exists i' bi', (bi' < 8)%nat /\
            (8 * i' + bi' = length out' + e_pending s' + 32)%nat /\
            dequeue inv a
              (mkdec (Yval a E' (length out + e_pending s)) (e_high s) (e_low s) i bi) cs' =
            Ok (x, mkdec (Yval a E (length out' + e_pending s')) (e_high s') (e_low s') i' bi',
                cs1').
  Proof.
    intros Hn Hr Hcdf [[H0 H1] H2]. cbn [fst snd] in *.
    destruct (narrow_plain _ _ l h Hn H0 H1 H2) as (El & Eh & Ha & Hb & Hc & _ & _).
    unfold enqueue. rewrite Hcdf. rewrite El, Eh.
    set (low1 := nlow (e_low s) (e_high s) l) in *.
    set (high1 := nhigh (e_low s) (e_high s) h) in *.
    assert (Hwf : wf low1 high1) by (destruct Hn as (? & ? & _); unfold wf; lia).
    set (s1 := mkenc high1 low1 (e_pending s) (e_buf s)).
    destruct (enc_loop_ok s1 Hwf) as (s' & H32 & Hloop).
    destruct (loop_ok cap RENORM_FUEL s1 s' out Hwf Hr Hloop)
      as (out' & Hr' & Hn' & Hk & Hrest).
    exists s', out'. rewrite Hloop. cbn [bind].
    split; [reflexivity|]. split; [exact H32|]. split; [exact Hr'|]. split; [exact Hn'|]. split; [exact Hk|].
    intros E HE Hin. destruct (Hrest E HE Hin) as (E' & HE' & Hin' & Heq & Hdec).
    cbn [e_low e_high e_pending e_buf s1] in *.
    exists E'. split; [exact HE'|]. split; [apply (inside_sub _ _ _ _ _ Ha Hc Hin')|].
    split; [exact Heq|].
    intros a i bi cs' cs1' Hinv Hm Hbi Hpos.
    destruct (Hdec a i bi Hm Hbi Hpos) as (i' & bi' & Hbi' & Hpos' & Hd).
    exists i', bi'. split; [exact Hbi'|]. split; [exact Hpos'|].
    unfold dequeue. cbn [d_value d_high d_low d_idx d_bit].
    pose proof (scaled_in_slot _ _ l h (Yval a E' (length out + e_pending s))
                  Hn H0 H1 H2 (Hin' _)) as Hsc.
    rewrite (Hinv _ Hsc). rewrite El, Eh. fold low1 high1. rewrite Hd. reflexivity.
  Qed.

  (** Decoder state (and CDF state) after decoding [n] symbols. *)
  Fixpoint dec_run (n : nat) (a : list Z) (s : decst) (cs' : ST') : res (decst * ST') :=
    match n with
    | O => Ok (s, cs')
    | S n' => do (_, s1, cs1') <- dequeue inv a s cs'; dec_run n' a s1 cs1'
    end.

  (** A whole message. *)
  Lemma message_ok cap : forall m s out cs,
    norm (e_low s) (e_high s) -> repr cap (e_buf s) out ->
    good_message cdf m cs ->
    exists s' csf out', enqueue_all cdf m s cs = Ok (s', csf) /\
      repr cap (e_buf s') out' /\ norm (e_low s') (e_high s') /\
      (exists k, (length out' + e_pending s' = length out + e_pending s + k)%nat /\
         span (e_low s) (e_high s) * 2 ^ Z.of_nat k * freq_product cdf m cs
           * (2 ^ 14 - 1) ^ Z.of_nat (length m)
         <= span (e_low s') (e_high s') * (2 ^ 30) ^ Z.of_nat (length m) /\
         span (e_low s') (e_high s') * (2 ^ 30) ^ Z.of_nat (length m) <=
         span (e_low s) (e_high s) * 2 ^ Z.of_nat k * freq_product cdf m cs
           * (2 ^ 14 + 1) ^ Z.of_nat (length m)) /\
      forall E, E <> [] -> inside (e_low s') (e_high s') E ->
      exists E', E' <> [] /\ inside (e_low s) (e_high s) E' /\
        out' ++ ins (e_pending s') E = out ++ ins (e_pending s) E' /\
        forall a i bi cs',
          matching cdf inv m cs cs' ->
          matches a (out ++ ins (e_pending s) E') ->
          (bi < 8)%nat -> (8 * i + bi = length out + e_pending s + 32)%nat ->
          exists i' bi' csf', (bi' < 8)%nat /\
            (8 * i' + bi' = length out' + e_pending s' + 32)%nat /\
            (forall Good, total_inverse inv Good -> Good cs' -> Good csf') /\
            dec_run (length m) a
              (mkdec (Yval a E' (length out + e_pending s)) (e_high s) (e_low s) i bi) cs' =
            Ok (mkdec (Yval a E (length out' + e_pending s')) (e_high s') (e_low s') i' bi',
                csf') /\
            forall extra, dequeue_n inv (length m + extra) a
              (mkdec (Yval a E' (length out + e_pending s)) (e_high s) (e_low s) i bi) cs' =
            bind (dequeue_n inv extra a
              (mkdec (Yval a E (length out' + e_pending s')) (e_high s') (e_low s') i' bi')
               csf') (fun r => Ok (map u8 m ++ r)).
  Proof.
    induction m as [|x m IH]; intros s out cs Hn Hr Hgood.
    - exists s, cs, out. split; [reflexivity|]. split; [exact Hr|]. split; [exact Hn|].
      split.
      { exists 0%nat. unfold freq_product. cbn [intervals fold_right length].
        change (Z.of_nat 0) with 0. rewrite !Z.pow_0_r. lia. }
      intros E HE Hin. exists E. split; [exact HE|]. split; [exact Hin|].
      split; [reflexivity|]. intros a i bi cs' _ Hm Hbi Hpos.
      exists i, bi, cs'. split; [exact Hbi|]. split; [exact Hpos|].
      split; [auto|]. split; [reflexivity|].
      intros extra. cbn [length Nat.add map app].
      destruct (dequeue_n inv extra a _ cs'); reflexivity.
    - unfold good_message in Hgood. cbn [intervals] in Hgood.
      destruct (cdf x cs) as [[l h] cs1] eqn:Hcdf.
      apply Forall_cons_iff in Hgood as [Hgi Hgood].
      destruct (enqueue_ok cap s out x cs l h cs1 Hn Hr Hcdf Hgi)
        as (s1 & out1 & Henq & _ & Hr1 & Hn1 & (k1 & Hk1 & Hsp1) & Hsym).
      destruct (IH s1 out1 cs1 Hn1 Hr1 Hgood)
        as (s' & csf & out' & Hall & Hr' & Hn' & (k & Hk & Hup & Hlo) & Hrest).
      exists s', csf, out'. cbn [enqueue_all]. rewrite Henq. cbn [bind].
      split; [exact Hall|]. split; [exact Hr'|]. split; [exact Hn'|]. split.
      { exists (k1 + k)%nat. split; [lia|].
        assert (Hfp : freq_product cdf (x :: m) cs = (h - l) * freq_product cdf m cs1).
        { unfold freq_product. cbn [intervals]. rewrite Hcdf. reflexivity. }
        assert (Hpos : 0 <= freq_product cdf m cs1).
        { unfold freq_product. clear -Hgood. unfold good_message in Hgood.
          induction Hgood as [|i l Hi _ IHl]; cbn [fold_right]; [lia|].
          destruct Hi. apply Z.mul_nonneg_nonneg; lia. }
        rewrite Hfp. cbn [length]. rewrite !Nat2Z.inj_succ, !Z.pow_succ_r by lia.
        rewrite Nat2Z.inj_add, Z.pow_add_r by lia.
        destruct Hgi as [[H0 H1] H2]. cbn [fst snd] in *.
        destruct (narrow_plain _ _ l h Hn H0 H1 H2) as (_ & _ & _ & _ & _ & Hlb & Hub).
        set (nw := nhigh (e_low s) (e_high s) h - nlow (e_low s) (e_high s) l + 1) in *.
        pose proof (norm_span _ _ Hn) as Hsp. unfold ONE_FOURTH in Hsp.
        change (e_high s - e_low s + 1) with (span (e_low s) (e_high s)) in *.
        set (sp := span (e_low s) (e_high s)) in *.
        set (F := freq_product cdf m cs1) in *.
        set (sf := span (e_low s') (e_high s')) in *.
        rewrite Hsp1 in Hup, Hlo.
        assert (Hp1 : 0 < 2 ^ Z.of_nat k1) by (apply Z.pow_pos_nonneg; lia).
        assert (Hp2 : 0 < 2 ^ Z.of_nat k) by (apply Z.pow_pos_nonneg; lia).
        set (K1 := 2 ^ Z.of_nat k1) in *. set (K := 2 ^ Z.of_nat k) in *.
        assert (Hn1' : 0 < (2 ^ 14 - 1) ^ Z.of_nat (length m))
          by (apply Z.pow_pos_nonneg; lia).
        assert (Hn2' : 0 < (2 ^ 14 + 1) ^ Z.of_nat (length m))
          by (apply Z.pow_pos_nonneg; lia).
        set (A := (2 ^ 14 - 1) ^ Z.of_nat (length m)) in *.
        set (B := (2 ^ 14 + 1) ^ Z.of_nat (length m)) in *.
        set (C := (2 ^ 30) ^ Z.of_nat (length m)) in *.
        assert (Hsf : 2 ^ 30 <= sp * (h - l)) by nia.
        assert (Hnarrow1 : sp * (h - l) * (2 ^ 14 - 1) <= 2 ^ 30 * nw) by lia.
        assert (Hnarrow2 : 2 ^ 30 * nw <= sp * (h - l) * (2 ^ 14 + 1)) by lia.
        assert (HKFA : 0 <= K1 * K * F * A)
          by (repeat apply Z.mul_nonneg_nonneg; lia).
        assert (HKFB : 0 <= K1 * K * F * B)
          by (repeat apply Z.mul_nonneg_nonneg; lia).
        clearbody K1 K F A B C nw sp sf.
        split.
        - apply Z.le_trans with (2 ^ 30 * (K1 * nw * K * F * A)).
          + replace (sp * (K1 * K) * ((h - l) * F) * ((2 ^ 14 - 1) * A))
              with ((sp * (h - l) * (2 ^ 14 - 1)) * (K1 * K * F * A)) by ring.
            replace (2 ^ 30 * (K1 * nw * K * F * A))
              with ((2 ^ 30 * nw) * (K1 * K * F * A)) by ring.
            apply Z.mul_le_mono_nonneg_r; assumption.
          + replace (sf * (2 ^ 30 * C)) with (2 ^ 30 * (sf * C)) by ring.
            apply Z.mul_le_mono_nonneg_l; [lia|exact Hup].
        - apply Z.le_trans with (2 ^ 30 * (K1 * nw * K * F * B)).
          + replace (sf * (2 ^ 30 * C)) with (2 ^ 30 * (sf * C)) by ring.
            apply Z.mul_le_mono_nonneg_l; [lia|exact Hlo].
          + replace (sp * (K1 * K) * ((h - l) * F) * ((2 ^ 14 + 1) * B))
              with ((sp * (h - l) * (2 ^ 14 + 1)) * (K1 * K * F * B)) by ring.
            replace (2 ^ 30 * (K1 * nw * K * F * B))
              with ((2 ^ 30 * nw) * (K1 * K * F * B)) by ring.
            apply Z.mul_le_mono_nonneg_r; assumption. }
      intros E HE Hin. destruct (Hrest E HE Hin) as (E1 & HE1 & Hin1 & Heq1 & Hdec1).
      destruct (Hsym E1 HE1 Hin1) as (E0 & HE0 & Hin0 & Heq0 & Hdec0).
      exists E0. split; [exact HE0|]. split; [exact Hin0|]. split; [congruence|].
      intros a i bi cs' Hmat Hm Hbi Hpos.
      cbn [matching] in Hmat. rewrite Hcdf in Hmat.
      destruct Hmat as (_ & cs1' & Hinv & Hmat).
      destruct (Hdec0 a i bi cs' cs1' Hinv Hm Hbi Hpos) as (i1 & bi1 & Hbi1 & Hpos1 & Hd1).
      rewrite Heq0 in Hdec1.
      destruct (Hdec1 a i1 bi1 cs1' Hmat Hm Hbi1 Hpos1)
        as (i' & bi' & csf' & Hbi' & Hpos' & Hg' & Hrun' & Hd').
      exists i', bi', csf'. split; [exact Hbi'|]. split; [exact Hpos'|].
      split.
      { intros Good Htot Hg. apply (Hg' Good Htot). destruct Hgi as [[H0 H1] H2].
        cbn [fst snd] in *. specialize (Htot l cs' Hg). rewrite Hinv in Htot by lia.
        apply Htot. lia. }
      split.
      { cbn [length dec_run]. rewrite Hd1. exact Hrun'. }
      intros extra. cbn [length Nat.add dequeue_n]. rewrite Hd1. cbn [bind].
      rewrite Hd'. destruct (dequeue_n inv extra a _ csf'); reflexivity.
  Qed.

  (** Total number of bits written, as a function of the message. *)
  Lemma jax_encode_ok m cs cap :
    (0 < cap)%nat -> good_message cdf m cs ->
    exists buf out, jax_encode cdf m cs cap = Ok (final_arr buf, idx buf) /\
      repr cap buf out /\
      (2 ^ (Z.of_nat (length out) - 2) * freq_product cdf m cs
          * (2 ^ 14 - 1) ^ Z.of_nat (length m) <= (2 ^ 30) ^ Z.of_nat (length m) /\
       (2 ^ 30) ^ Z.of_nat (length m) <
          2 ^ (Z.of_nat (length out)) * freq_product cdf m cs
          * (2 ^ 14 + 1) ^ Z.of_nat (length m)) /\
      (2 <= length out)%nat /\
      forall a cs', matching cdf inv m cs cs' -> matches a out ->
        exists sd csf', dwf sd /\ norm (d_low sd) (d_high sd) /\
          (forall Good, total_inverse inv Good -> Good cs' -> Good csf') /\ forall extra,
          jax_decode inv (length m + extra) a cs' =
          bind (dequeue_n inv extra a sd csf') (fun r => Ok (map u8 m ++ r)).
  Proof.
    intros Hcap Hgood.
    assert (Hn0 : norm 0 MAX_CODE)
      by (unfold norm, MAX_CODE, ONE_HALF, ONE_FOURTH, THREE_FOURTHS; lia).
    destruct (message_ok cap m (mkenc MAX_CODE 0 0 (buf0 cap)) [] cs Hn0 (repr0 cap) Hgood)
      as (s & csf & out & Henc & Hr & Hn & (k & Hk & Hup & Hlo) & Hrest).
    cbn [e_low e_high e_pending e_buf] in *.
    unfold jax_encode. destruct (Nat.eqb_spec cap 0) as [->|_]; [lia|].
    fold (buf0 cap). rewrite Henc. cbn [bind].
    set (b := negb (e_low s <? ONE_FOURTH)).
    pose proof (append_bits_repr cap (e_buf s) out b (S (e_pending s)) Hr) as Hrf.
    set (buf := append_bit_and_pending b (S (e_pending s)) (e_buf s)) in *.
    exists buf, (out ++ b :: repeat (negb b) (S (e_pending s))).
    assert (Hins : b :: repeat (negb b) (S (e_pending s)) = ins (e_pending s) [b; negb b]).
    { cbn [ins]. rewrite repeat_snoc. reflexivity. }
    assert (HL : length (out ++ b :: repeat (negb b) (S (e_pending s))) = (k + 2)%nat).
    { rewrite app_length. cbn [length]. rewrite repeat_length. cbn [length] in Hk. lia. }
    split; [reflexivity|]. split; [exact Hrf|]. split; [|split].
    - rewrite HL. replace (Z.of_nat (k + 2) - 2) with (Z.of_nat k) by lia.
      rewrite Nat2Z.inj_add, Z.pow_add_r by lia. change (2 ^ Z.of_nat 2) with 4.
      pose proof (norm_span _ _ Hn) as Hsp. unfold ONE_FOURTH in Hsp.
      change (span 0 MAX_CODE) with (2 ^ 32) in *.
      change (e_high s - e_low s + 1) with (span (e_low s) (e_high s)) in Hsp.
      set (sf := span (e_low s) (e_high s)) in *.
      set (C := (2 ^ 30) ^ Z.of_nat (length m)) in *.
      assert (0 < C) by (apply Z.pow_pos_nonneg; lia).
      set (U := 2 ^ Z.of_nat k * freq_product cdf m cs * (2 ^ 14 - 1) ^ Z.of_nat (length m)).
      set (V := 2 ^ Z.of_nat k * freq_product cdf m cs * (2 ^ 14 + 1) ^ Z.of_nat (length m)).
      replace (2 ^ Z.of_nat k * 4 * freq_product cdf m cs * (2 ^ 14 + 1) ^ Z.of_nat (length m))
        with (4 * V) by (unfold V; ring).
      assert (HU : 2 ^ 32 * U <= sf * C).
      { unfold U. eapply Z.le_trans; [|exact Hup]. apply Z.eq_le_incl. ring. }
      assert (HV : sf * C <= 2 ^ 32 * V).
      { unfold V. eapply Z.le_trans; [exact Hlo|]. apply Z.eq_le_incl. ring. }
      clearbody U V C sf. split; [nia|].
      assert (2 ^ 30 * C < sf * C) by nia. lia.
    - rewrite HL. lia.
    - intros a cs' Hmat Hm. rewrite Hins in Hm.
      destruct (Hrest [b; negb b] ltac:(discriminate) (flush_inside _ _ Hn))
        as (E & HE & Hin & Heq & Hdec).
      rewrite app_nil_l, ins_0 in *.
      rewrite Heq in Hm.
      destruct (Hdec a 4%nat 0%nat cs' Hmat Hm ltac:(lia) ltac:(reflexivity))
        as (i' & bi' & csf' & Hbi' & Hpos' & Hg' & _ & Hd).
      exists (mkdec (Yval a [b; negb b] (length out + e_pending s)) (e_high s) (e_low s) i' bi'),
        csf'.
      split; [|split; [exact Hn|]].
      + unfold dwf. cbn [d_value d_high d_low d_idx d_bit].
        split; [destruct Hn as (? & ? & _); unfold wf, ONE_HALF in *; lia|].
        split; [apply (flush_inside _ _ Hn)|]. lia.
      + split; [exact Hg'|]. intros extra. rewrite <- Hd. unfold jax_decode. rewrite init_bits by lia.
        change (32 / 8)%nat with 4%nat. change (32 mod 8)%nat with 0%nat.
        f_equal. f_equal. unfold Yval. apply val_ext. intros j Hj.
        destruct (Nat.lt_ge_cases j (length E)) as [Hlt|Hge].
        * rewrite lapp_lt by exact Hlt. apply Hm; exact Hlt.
        * rewrite lapp_ge' by exact Hge. unfold sshift. f_equal. cbn [length]. lia.
  Qed.

  (** The decoder never fails or hangs on arbitrary data. *)
  Lemma dequeue_total Good a s cs' :
    total_inverse inv Good -> Good cs' -> dwf s -> norm (d_low s) (d_high s) ->
    exists x s' cs1', dequeue inv a s cs' = Ok (x, s', cs1') /\
      Good cs1' /\ dwf s' /\ norm (d_low s') (d_high s').
  Proof. clear cdf.
    intros Hinv Hg (Hwf & Hv & Hbi & Hpos) Hn. unfold dequeue.
    pose proof (scaled_value_range _ _ _ Hn Hv) as Hsc.
    set (v := scaled_value _ _ _) in *.
    pose proof (Hinv v cs' Hg Hsc) as Hi.
    destruct (inv v cs') as [[[l h] x] cs1']. destruct Hi as (H1 & H2 & Hg1).
    destruct (narrow_plain _ _ l h Hn) as (El & Eh & Ha & Hb & Hc & _ & _); try lia.
    rewrite El, Eh.
    pose proof (slot_contains (d_low s) (d_high s) l h (d_value s) Hn Hv
                  ltac:(lia) ltac:(lia) ltac:(unfold v in *; lia)) as Hin.
    destruct (dec_loop_ok a (mkdec (d_value s) (nhigh (d_low s) (d_high s) h)
                (nlow (d_low s) (d_high s) l) (d_idx s) (d_bit s))) as (s' & _ & Hd & Hdw & Hn').
    { unfold dwf. cbn [d_value d_high d_low d_idx d_bit]. unfold wf in *.
      split; [lia|]. split; [exact Hin|]. split; assumption. }
    rewrite Hd. cbn [bind]. exists x, s', cs1'. auto.
  Qed.

  Lemma dequeue_n_total Good a n : forall s cs',
    total_inverse inv Good -> Good cs' -> dwf s -> norm (d_low s) (d_high s) ->
    exists r, dequeue_n inv n a s cs' = Ok r /\ length r = n.
  Proof. clear cdf.
    induction n as [|n IH]; intros s cs' Hinv Hg Hd Hn; [exists []; auto|].
    destruct (dequeue_total Good a s cs' Hinv Hg Hd Hn) as (x & s' & cs1' & Hdq & Hg1 & Hd1 & Hn1).
    destruct (IH s' cs1' Hinv Hg1 Hd1 Hn1) as (r & Hr & Hlen).
    exists (u8 x :: r). cbn [dequeue_n]. rewrite Hdq. cbn [bind]. rewrite Hr. cbn [bind length].
    auto.
  Qed.

  Lemma jax_decode_total Good n a cs' :
    total_inverse inv Good -> Good cs' ->
    exists r, jax_decode inv n a cs' = Ok r /\ length r = n.
  Proof. clear cdf.
    intros Hinv Hg. unfold jax_decode. rewrite init_bits by lia.
    change (32 / 8)%nat with 4%nat. change (32 mod 8)%nat with 0%nat.
    apply (dequeue_n_total Good); try assumption.
    - unfold dwf. cbn [d_value d_high d_low d_idx d_bit].
      pose proof (val32_range (dbit a)). unfold wf, MAX_CODE. lia.
    - unfold norm, MAX_CODE, ONE_HALF, ONE_FOURTH, THREE_FOURTHS; cbn [d_low d_high]. lia.
  Qed.
End Main.

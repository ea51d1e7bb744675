(** Refinement of the renormalisation loops to unbounded integers, and
    encoder/decoder synchronisation. *)
From Coq Require Import ZArith List Bool Lia Arith.
From Coq Require Import ZifyBool ZifyNat.
From Verif Require Import Base AC_Model AC_Spec AC_Proofs AC_Buffer AC_Loop AC_Main AC_Batch.
Import ListNotations.
Open Scope Z_scope.

Lemma zoom_of_step k low high r :
  renorm_cond high low = true -> zoom k (rlow low high, rhigh low high) r ->
  zoom (S k) (low, high) r.
Proof.
  unfold renorm_cond, rlow, rhigh, choose_branch, ONE_HALF, ONE_FOURTH, THREE_FOURTHS.
  intros Hc.
  destruct (Z.ltb_spec high 2147483648).
  { intros H1. apply zoom_lower; [lia|exact H1]. }
  destruct (Z.leb_spec 2147483648 low).
  { intros H1. apply zoom_upper; [lia|exact H1]. }
  destruct ((1073741824 <=? low) && (high <? 3221225472)) eqn:E3.
  { intros H1. apply andb_true_iff in E3 as [E3 E4].
    apply Z.leb_le in E3. apply Z.ltb_lt in E4. apply zoom_middle; try lia. exact H1. }
  discriminate Hc.
Qed.

Lemma zoom_stop low high : renorm_cond high low = false -> zoom 0 (low, high) (low, high).
Proof.
  unfold renorm_cond, ONE_HALF, ONE_FOURTH, THREE_FOURTHS. intros H. apply zoom_done; lia.
Qed.

Lemma enc_loop_zoom fuel : forall s s',
  wf (e_low s) (e_high s) -> enc_loop fuel s = Ok s' ->
  exists k, (k <= fuel)%nat /\ zoom k (e_low s, e_high s) (e_low s', e_high s').
Proof.
  induction fuel as [|fuel IH]; intros s s' Hwf Hl; cbn [enc_loop] in Hl;
    destruct (renorm_cond (e_high s) (e_low s)) eqn:Hc; try discriminate Hl.
  1, 3: injection Hl as <-; exists 0%nat; split; [lia|apply zoom_stop; exact Hc].
  pose proof (enc_step_plain s Hwf Hc) as (El & Eh & _).
  pose proof (rstep_wf _ _ Hwf Hc) as [Hwf1 _].
  destruct (IH (enc_step s) s') as (k & Hk & Hz); [rewrite El, Eh; exact Hwf1|exact Hl|].
  exists (S k). split; [lia|]. apply zoom_of_step; [exact Hc|]. rewrite <- El, <- Eh. exact Hz.
Qed.

Section Interval.
  Context {ST ST' : Type}.
  Variable cdf : Z -> ST -> Z * Z * ST.
  Variable inv : Z -> ST' -> Z * Z * Z * ST'.

  Definition init_enc (cap : nat) : encst := mkenc MAX_CODE 0 0 (buf0 cap).
  (** Decoder state before the first symbol (L472-487). *)
  Definition init_dec (a : list Z) : decst :=
    let '(value, i, bi) := Nat.iter 32 (append_bit_to_value a) (0, O, O) in
    mkdec value MAX_CODE 0 i bi.

  Lemma norm0 : norm 0 MAX_CODE.
  Proof. unfold norm, MAX_CODE, ONE_HALF, ONE_FOURTH, THREE_FOURTHS; lia. Qed.

  Lemma interval_step cap m cs x :
    good_message cdf (m ++ [x]) cs ->
    exists s cs1 l h cs2 s' k,
      enqueue_all cdf m (init_enc cap) cs = Ok (s, cs1) /\
      cdf x cs1 = (l, h, cs2) /\
      enqueue cdf x s cs1 = Ok (s', cs2) /\
      norm (e_low s) (e_high s) /\ norm (e_low s') (e_high s') /\
      (k <= 32)%nat /\
      zoom k (spec_narrow (e_low s, e_high s) (l, h)) (e_low s', e_high s').
  Proof.
    intros Hg.
    assert (Hsplit : forall m cs s0, good_message cdf (m ++ [x]) cs ->
      norm (e_low s0) (e_high s0) -> forall out, repr cap (e_buf s0) out ->
      exists s cs1 l h cs2 out1, enqueue_all cdf m s0 cs = Ok (s, cs1) /\
        cdf x cs1 = (l, h, cs2) /\ good_interval (l, h) /\
        norm (e_low s) (e_high s) /\ repr cap (e_buf s) out1).
    { clear. induction m as [|y m IH]; intros cs s0 Hg Hn out Hr.
      - unfold good_message in Hg. cbn [app intervals] in Hg.
        destruct (cdf x cs) as [[l h] cs2] eqn:Hc. inversion Hg; subst.
        exists s0, cs, l, h, cs2, out. cbn [enqueue_all]. auto.
      - unfold good_message in Hg. cbn [app intervals] in Hg.
        destruct (cdf y cs) as [[l h] cs1] eqn:Hc. apply Forall_cons_iff in Hg as [Hgi Hg].
        destruct (enqueue_ok cdf (fun v (u : unit) => (0, 0, 0, u)) cap s0 out y cs l h cs1
                    Hn Hr Hc Hgi) as (s1 & out1 & He & _ & Hr1 & Hn1 & _).
        cbn [enqueue_all]. rewrite He. cbn [bind].
        apply (IH cs1 s1 Hg Hn1 out1 Hr1). }
    destruct (Hsplit m cs (init_enc cap) Hg norm0 [] (repr0 cap))
      as (s & cs1 & l & h & cs2 & out1 & Hm & Hc & Hgi & Hn & Hr).
    destruct (enqueue_ok cdf (fun v (u : unit) => (0, 0, 0, u)) cap s out1 x cs1 l h cs2
                Hn Hr Hc Hgi) as (s' & out' & He & H32 & _ & Hn' & _).
    destruct Hgi as [[H0 H1] H2]. cbn [fst snd] in *.
    destruct (narrow_plain _ _ l h Hn H0 H1 H2) as (El & Eh & Ha & Hb & Hcc & _ & _).
    rewrite El, Eh in H32.
    assert (Hwf : wf (nlow (e_low s) (e_high s) l) (nhigh (e_low s) (e_high s) h))
      by (destruct Hn as (? & ? & _); unfold wf; lia).
    destruct (enc_loop_zoom 32 (mkenc (nhigh (e_low s) (e_high s) h)
      (nlow (e_low s) (e_high s) l) (e_pending s) (e_buf s)) s' Hwf H32) as (k & Hk & Hz).
    exists s, cs1, l, h, cs2, s', k. auto 10.
  Qed.

  (** Encoder and decoder hold the same interval after every symbol. *)
  Lemma sync cap m1 m2 cs cs' arr i suf :
    matching cdf inv (m1 ++ m2) cs cs' ->
    jax_encode cdf (m1 ++ m2) cs cap = Ok (arr, i) -> (i < cap)%nat ->
    exists s cs1 sd cs1',
      enqueue_all cdf m1 (init_enc cap) cs = Ok (s, cs1) /\
      dec_run inv (length m1) (firstn (i + 1) arr ++ suf)
        (init_dec (firstn (i + 1) arr ++ suf)) cs' = Ok (sd, cs1') /\
      d_low sd = e_low s /\ d_high sd = e_high s /\
      d_low sd <= d_value sd <= d_high sd.
  Proof.
    intros Hmat Henc Hi.
    pose proof (matching_good _ _ _ _ _ Hmat) as Hg.
    assert (Hmat1 : matching cdf inv m1 cs cs' /\ good_message cdf m1 cs /\
       forall s out s1 csx, norm (e_low s) (e_high s) -> repr cap (e_buf s) out ->
       enqueue_all cdf m1 s cs = Ok (s1, csx) -> good_message cdf m2 csx /\
       enqueue_all cdf (m1 ++ m2) s cs = enqueue_all cdf m2 s1 csx).
    { clear Henc Hi. revert cs cs' Hmat Hg. induction m1 as [|x m1 IH]; intros cs cs' Hmat Hg.
      - split; [exact I|]. split; [constructor|]. intros s out s1 csx _ _ H.
        cbn [enqueue_all] in H. injection H as <- <-. auto.
      - unfold good_message in *. cbn [app matching intervals] in *.
        destruct (cdf x cs) as [[l h] cs1] eqn:Hc. destruct Hmat as (Hgi & cs1' & Hinv & Hmat).
        apply Forall_cons_iff in Hg as [_ Hg].
        destruct (IH cs1 cs1' Hmat Hg) as (Ha & Hb & Hrest).
        split; [split; [exact Hgi|]; exists cs1'; auto|].
        split; [constructor; assumption|].
        intros s out s1 csx Hn Hr H. cbn [enqueue_all] in *.
        destruct (enqueue_ok cdf inv cap s out x cs l h cs1 Hn Hr Hc Hgi)
          as (s2 & out2 & He & _ & Hr2 & Hn2 & _).
        rewrite He in *. cbn [bind] in *. apply (Hrest s2 out2 s1 csx Hn2 Hr2 H). }
    destruct Hmat1 as (Hmat1 & Hg1 & Hcont).
    destruct (message_ok cdf inv cap m1 (init_enc cap) [] cs norm0 (repr0 cap) Hg1)
      as (s & cs1 & out1 & He1 & Hr1 & Hn1 & _ & Hback1).
    destruct (Hcont (init_enc cap) [] s cs1 norm0 (repr0 cap) He1) as [Hg2 Happ].
    destruct (message_ok cdf inv cap m2 s out1 cs1 Hn1 Hr1 Hg2)
      as (s2 & cs2 & out2 & He2 & Hr2 & Hn2 & _ & Hback2).
    unfold jax_encode in Henc. destruct (Nat.eqb_spec cap 0) as [->|_]; [lia|].
    fold (buf0 cap) in Henc. fold (init_enc cap) in Henc. rewrite Happ, He2 in Henc.
    cbn [bind] in Henc.
    set (b := negb (e_low s2 <? ONE_FOURTH)) in *.
    pose proof (append_bits_repr cap (e_buf s2) out2 b (S (e_pending s2)) Hr2) as Hrf.
    set (buf := append_bit_and_pending b (S (e_pending s2)) (e_buf s2)) in *.
    injection Henc as <- <-. fold (final_arr buf).
    assert (Hins : b :: repeat (negb b) (S (e_pending s2)) = ins (e_pending s2) [b; negb b]).
    { cbn [ins]. rewrite repeat_snoc. reflexivity. }
    rewrite Hins in Hrf.
    set (a := firstn (idx buf + 1) (final_arr buf) ++ suf).
    assert (Hm : matches a (out2 ++ ins (e_pending s2) [b; negb b]))
      by (intros j Hj; apply (final_bits cap); assumption).
    destruct (Hback2 [b; negb b] ltac:(discriminate) (flush_inside _ _ Hn2))
      as (E1 & HE1 & Hin1 & Heq1 & _).
    destruct (Hback1 E1 HE1 Hin1) as (E & HE & Hin & Heq & Hdec).
    cbn [e_low e_high e_pending e_buf init_enc] in *.
    rewrite Heq1, Heq in Hm. rewrite app_nil_l, ins_0 in *.
    destruct (Hdec a 4%nat 0%nat cs' Hmat1 Hm ltac:(lia) ltac:(reflexivity))
      as (i' & bi' & csf' & Hbi' & Hpos' & _ & Hrun & _).
    exists s, cs1.
    exists (mkdec (Yval a E1 (length out1 + e_pending s)) (e_high s) (e_low s) i' bi'), csf'.
    split; [exact He1|]. cbn [d_low d_high d_value].
    split; [|split; [reflexivity|]; split; [reflexivity|apply Hin1]].
    rewrite <- Hrun. unfold init_dec. rewrite init_bits by lia.
    change (32 / 8)%nat with 4%nat. change (32 mod 8)%nat with 0%nat.
    f_equal. f_equal. unfold Yval. apply val_ext. intros j Hj.
    destruct (Nat.lt_ge_cases j (length E)) as [Hlt|Hge].
    - rewrite lapp_lt by exact Hlt. apply Hm; exact Hlt.
    - rewrite lapp_ge' by exact Hge. unfold sshift. f_equal. cbn [length]. lia.
  Qed.
End Interval.

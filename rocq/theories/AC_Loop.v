(** The renormalisation loops of encoder and decoder in lock step. *)
From Coq Require Import ZArith List Bool Lia Arith.
From Coq Require Import ZifyBool ZifyNat.
From Verif Require Import Base AC_Model AC_Proofs AC_Buffer.
Import ListNotations.
Open Scope Z_scope.

(** The decoder's window value when [E] is what the encoder will still emit
    (pending bits removed) and [P] bits precede the window. *)
Definition Yval (a : list Z) (E : list bool) (P : nat) : Z :=
  val 32 (lapp E (sshift (P + length E) (dbit a))).

Definition matches (a : list Z) (l : list bool) : Prop :=
  forall j, (j < length l)%nat -> dbit a j = nth j l false.

Lemma ins_length k l : l <> [] -> length (ins k l) = (k + length l)%nat.
Proof. destruct l; [congruence|]. intros _. cbn. rewrite app_length, repeat_length. lia. Qed.

Lemma stream_agree a out p E i :
  E <> [] -> matches a (out ++ ins p E) -> (1 <= i)%nat ->
  lapp E (sshift (length out + p + length E) (dbit a)) i = dbit a (length out + p + i).
Proof.
  intros HE Hm Hi. destruct (Nat.lt_ge_cases i (length E)) as [Hlt|Hge].
  - rewrite lapp_lt by exact Hlt. rewrite Hm by (rewrite app_length, ins_length by exact HE; lia).
    rewrite app_nth2 by lia. replace (_ + _ + i - _)%nat with (p + i)%nat by lia.
    destruct E as [|b s]; [congruence|]. cbn [ins].
    replace (p + i)%nat with (S (p + (i - 1))) by lia.
    replace i with (S (i - 1)) by lia. cbn [nth].
    replace (S (i - 1) - 1)%nat with (i - 1)%nat by lia.
    rewrite app_nth2; rewrite repeat_length; [|lia]. f_equal. lia.
  - rewrite lapp_ge' by exact Hge. unfold sshift. f_equal. lia.
Qed.

Lemma val32_shift b Y : 2 * (val 32 (scons b Y) - Z.b2z b * 2147483648) + Z.b2z (Y 31%nat) = val 32 Y.
Proof. rewrite val32_scons, (val32_S Y). lia. Qed.

Lemma val32_quarter b Y :
  2 * (val 32 (scons b (scons (negb b) Y)) - 1073741824) + Z.b2z (Y 30%nat)
  = val 32 (scons b Y).
Proof. rewrite !val32_scons, val31_scons, (val31_S Y). destruct b; cbn [Z.b2z negb]; lia. Qed.

Lemma step_ok cap s out :
  wf (e_low s) (e_high s) -> renorm_cond (e_high s) (e_low s) = true ->
  repr cap (e_buf s) out ->
  exists out1, repr cap (e_buf (enc_step s)) out1 /\
    (length out1 + e_pending (enc_step s) = length out + e_pending s + 1)%nat /\
    forall E, E <> [] -> inside (e_low (enc_step s)) (e_high (enc_step s)) E ->
    exists E', E' <> [] /\ inside (e_low s) (e_high s) E' /\
      out1 ++ ins (e_pending (enc_step s)) E = out ++ ins (e_pending s) E' /\
      forall a, matches a (out ++ ins (e_pending s) E') ->
        Yval a E (length out + e_pending s + 1) =
        2 * (Yval a E' (length out + e_pending s) - roff (e_low s) (e_high s))
        + Z.b2z (dbit a (length out + e_pending s + 32)).
Proof.
  intros Hwf Hc Hr.
  pose proof (enc_step_plain s Hwf Hc) as (Hl & Hh & Hb).
  rewrite Hl, Hh. set (s1 := enc_step s) in *.
  set (p := e_pending s) in *. set (low := e_low s) in *. set (high := e_high s) in *.
  unfold rlow, rhigh, roff.
  assert (HYcons : forall a b E,
    matches a (out ++ ins p (b :: E)) ->
    Yval a E (length out + p + 1) =
    2 * (Yval a (b :: E) (length out + p) - Z.b2z b * 2147483648)
    + Z.b2z (dbit a (length out + p + 32))).
  { intros a b E Hm.
    rewrite <- (stream_agree a out p (b :: E) 32 ltac:(discriminate) Hm) by lia.
    unfold Yval. cbn [lapp length].
    replace (length out + p + S (length E))%nat with (length out + p + 1 + length E)%nat by lia.
    rewrite <- val32_shift with (b := b). reflexivity. }
  destruct (choose_branch high low).
  - destruct Hb as [Hp Hbuf].
    exists (out ++ false :: repeat true p). rewrite Hbuf, Hp.
    split; [apply (append_bits_repr cap _ out false p Hr)|].
    split; [rewrite app_length; cbn [length]; rewrite repeat_length; lia|].
    intros E HE Hin. exists (false :: E).
    split; [discriminate|]. split; [apply inside_zero; exact Hin|].
    split; [rewrite ins_0, <- app_assoc; reflexivity|].
    intros a Hm. exact (HYcons a false E Hm).
  - destruct Hb as [Hp Hbuf].
    exists (out ++ true :: repeat false p). rewrite Hbuf, Hp.
    split; [apply (append_bits_repr cap _ out true p Hr)|].
    split; [rewrite app_length; cbn [length]; rewrite repeat_length; lia|].
    intros E HE Hin. exists (true :: E).
    split; [discriminate|]. split; [apply inside_one; exact Hin|].
    split; [rewrite ins_0, <- app_assoc; reflexivity|].
    intros a Hm. exact (HYcons a true E Hm).
  - destruct Hb as [Hp Hbuf].
    exists out. rewrite Hbuf, Hp.
    split; [exact Hr|]. split; [lia|].
    intros [|b E] HE Hin; [congruence|]. exists (ins 1 (b :: E)).
    split; [discriminate|]. split; [apply inside_quarter; exact Hin|].
    split; [rewrite ins_ins1; reflexivity|].
    intros a Hm.
    rewrite <- (stream_agree a out p (ins 1 (b :: E)) 32 ltac:(discriminate) Hm) by lia.
    unfold Yval. cbn [ins repeat app lapp length].
    replace (length out + p + S (S (length E)))%nat
      with (length out + p + 1 + S (length E))%nat by lia.
    set (Y := lapp E (sshift (length out + p + 1 + S (length E)) (dbit a))).
    change (scons b (scons (negb b) Y) 32%nat) with (Y 30%nat).
    unfold ONE_FOURTH. rewrite val32_quarter. reflexivity.
Qed.

Definition span (low high : Z) : Z := high - low + 1.

(** Encoder loop: result, counting, and lock step with the decoder loop. *)
Lemma loop_ok cap fuel : forall s s' out,
  wf (e_low s) (e_high s) -> repr cap (e_buf s) out -> enc_loop fuel s = Ok s' ->
  exists out', repr cap (e_buf s') out' /\ norm (e_low s') (e_high s') /\
    (exists k, (length out' + e_pending s' = length out + e_pending s + k)%nat /\
       span (e_low s') (e_high s') = 2 ^ Z.of_nat k * span (e_low s) (e_high s)) /\
    forall E, E <> [] -> inside (e_low s') (e_high s') E ->
    exists E', E' <> [] /\ inside (e_low s) (e_high s) E' /\
      out' ++ ins (e_pending s') E = out ++ ins (e_pending s) E' /\
      forall a i bi, matches a (out ++ ins (e_pending s) E') ->
        (bi < 8)%nat -> (8 * i + bi = length out + e_pending s + 32)%nat ->
        exists i' bi', (bi' < 8)%nat /\
          (8 * i' + bi' = length out' + e_pending s' + 32)%nat /\
          dec_loop fuel a
            (mkdec (Yval a E' (length out + e_pending s)) (e_high s) (e_low s) i bi) =
          Ok (mkdec (Yval a E (length out' + e_pending s')) (e_high s') (e_low s') i' bi').
Proof.
  induction fuel as [|fuel IH]; intros s s' out Hwf Hr Hloop; cbn [enc_loop] in Hloop;
    destruct (renorm_cond (e_high s) (e_low s)) eqn:Hc; try discriminate Hloop.
  1, 3: injection Hloop as <-; exists out; split; [exact Hr|];
    split; [apply renorm_cond_false; assumption|];
    split; [exists 0%nat; split; [lia|cbn [Z.of_nat Z.pow]; unfold span; lia]|];
    intros E HE Hin; exists E; split; [exact HE|]; split; [exact Hin|];
    split; [reflexivity|]; intros a i bi Hm Hbi Hpos; exists i, bi;
    split; [exact Hbi|]; split; [exact Hpos|]; cbn [dec_loop d_high d_low]; rewrite Hc; reflexivity.
  destruct (step_ok cap s out Hwf Hc Hr) as (out1 & Hr1 & Hcnt & Hstep).
  pose proof (enc_step_plain s Hwf Hc) as (Hl & Hh & _).
  pose proof (rstep_wf _ _ Hwf Hc) as [Hwf1 Hsp1].
  set (s1 := enc_step s) in *.
  assert (Hwf1' : wf (e_low s1) (e_high s1)) by (rewrite Hl, Hh; exact Hwf1).
  destruct (IH s1 s' out1 Hwf1' Hr1 Hloop) as (out' & Hr' & Hn' & (k & Hk & Hsp) & Hrest).
  exists out'. split; [exact Hr'|]. split; [exact Hn'|]. split.
  { exists (S k). split; [lia|]. rewrite Hsp, pow2_S. unfold span. rewrite Hl, Hh, Hsp1. lia. }
  intros E HE Hin. destruct (Hrest E HE Hin) as (E1 & HE1 & Hin1 & Heq1 & Hdec1).
  destruct (Hstep E1 HE1 Hin1) as (E0 & HE0 & Hin0 & Heq0 & Hval).
  exists E0. split; [exact HE0|]. split; [exact Hin0|]. split; [congruence|].
  intros a i bi Hm Hbi Hpos.
  rewrite Heq0 in Hdec1.
  destruct (Hdec1 a ((8 * i + bi + 1) / 8)%nat ((8 * i + bi + 1) mod 8)%nat Hm)
    as (i' & bi' & Hbi' & Hpos' & Hd).
  { apply Nat.mod_upper_bound. lia. }
  { rewrite pos_next. lia. }
  exists i', bi'. split; [exact Hbi'|]. split; [exact Hpos'|].
  cbn [dec_loop d_high d_low]. rewrite Hc.
  rewrite dec_step_eq; try assumption; [|apply Hin0|lia].
  rewrite Hpos in *. rewrite <- Hval by exact Hm.
  rewrite Hcnt in Hd. rewrite <- Hl, <- Hh. exact Hd.
Qed.

Lemma full_span low high :
  wf low high -> 2 ^ 32 <= span low high * 2 ^ Z.of_nat 0 -> renorm_cond high low = false.
Proof.
  unfold wf, span, renorm_cond, ONE_HALF, ONE_FOURTH, THREE_FOURTHS.
  change (2 ^ Z.of_nat 0) with 1. intros H1 H2. lia.
Qed.

(** At most 32 iterations. *)
Lemma enc_loop_fuel fuel : forall s,
  wf (e_low s) (e_high s) -> 2 ^ 32 <= span (e_low s) (e_high s) * 2 ^ Z.of_nat fuel ->
  exists s', forall extra, enc_loop (fuel + extra) s = Ok s'.
Proof.
  induction fuel as [|fuel IH]; intros s Hwf Hsp.
  - destruct (renorm_cond (e_high s) (e_low s)) eqn:Hc.
    + rewrite (full_span _ _ Hwf Hsp) in Hc. discriminate Hc.
    + exists s. intros [|extra]; cbn [Nat.add enc_loop]; rewrite Hc; reflexivity.
  - destruct (renorm_cond (e_high s) (e_low s)) eqn:Hc.
    + pose proof (enc_step_plain s Hwf Hc) as (Hl & Hh & _).
      pose proof (rstep_wf _ _ Hwf Hc) as [Hwf1 Hsp1].
      destruct (IH (enc_step s)) as [s' Hs'].
      * rewrite Hl, Hh; exact Hwf1.
      * rewrite Hl, Hh. unfold span in *. rewrite Hsp1. rewrite pow2_S in Hsp. lia.
      * exists s'. intros extra. cbn [Nat.add enc_loop]. rewrite Hc. apply Hs'.
    + exists s. intros extra; cbn [Nat.add enc_loop]; rewrite Hc; reflexivity.
Qed.

Lemma enc_loop_ok s :
  wf (e_low s) (e_high s) ->
  exists s', enc_loop 32 s = Ok s' /\ enc_loop RENORM_FUEL s = Ok s'.
Proof.
  intros Hwf. destruct (enc_loop_fuel 32 s Hwf) as [s' Hs'].
  - unfold wf in Hwf. unfold span. change (2 ^ Z.of_nat 32) with (2 ^ 32). nia.
  - exists s'. split; [apply (Hs' 0%nat)|apply (Hs' 32%nat)].
Qed.

(** The decoder loop on its own: any value inside the interval stays inside. *)
Definition dwf (s : decst) : Prop :=
  wf (d_low s) (d_high s) /\ d_low s <= d_value s <= d_high s /\
  (d_bit s < 8)%nat /\ (32 <= 8 * d_idx s + d_bit s)%nat.

Lemma dec_loop_fuel a fuel : forall s,
  dwf s -> 2 ^ 32 <= span (d_low s) (d_high s) * 2 ^ Z.of_nat fuel ->
  exists s', (forall extra, dec_loop (fuel + extra) a s = Ok s') /\
     dwf s' /\ norm (d_low s') (d_high s').
Proof.
  induction fuel as [|fuel IH]; intros [value high low i bi] Hd Hsp;
    pose proof Hd as (Hwf & Hv & Hbi & Hpos); cbn [d_value d_high d_low d_idx d_bit] in *.
  - destruct (renorm_cond high low) eqn:Hc.
    + rewrite (full_span _ _ Hwf Hsp) in Hc. discriminate Hc.
    + exists (mkdec value high low i bi). split; [|split].
      * intros [|extra]; cbn [Nat.add dec_loop d_high d_low]; rewrite Hc; reflexivity.
      * exact Hd.
      * apply renorm_cond_false; assumption.
  - destruct (renorm_cond high low) eqn:Hc.
    + pose proof (rstep_wf _ _ Hwf Hc) as [Hwf1 Hsp1].
      pose proof (dec_step_eq a value high low i bi Hwf Hc Hv Hbi Hpos) as Heq.
      destruct (IH (dec_step a (mkdec value high low i bi))) as [s' [Hs' Hrest]].
      * rewrite Heq. unfold dwf. cbn [d_value d_high d_low d_idx d_bit].
        split; [exact Hwf1|]. split.
        -- pose proof (b2z_range (dbit a (8 * i + bi))).
           unfold rlow, rhigh, roff. destruct (choose_branch high low); lia.
        -- split; [apply Nat.mod_upper_bound; lia|]. rewrite pos_next. lia.
      * rewrite Heq. cbn [d_low d_high]. unfold span in *. rewrite Hsp1.
        rewrite pow2_S in Hsp. lia.
      * exists s'. split; [|exact Hrest]. intros extra.
        cbn [Nat.add dec_loop d_high d_low]. rewrite Hc. apply Hs'.
    + exists (mkdec value high low i bi). split; [|split].
      * intros extra; cbn [Nat.add dec_loop d_high d_low]; rewrite Hc; reflexivity.
      * exact Hd.
      * apply renorm_cond_false; assumption.
Qed.

Lemma dec_loop_ok a s :
  dwf s ->
  exists s', dec_loop 32 a s = Ok s' /\ dec_loop RENORM_FUEL a s = Ok s' /\
     dwf s' /\ norm (d_low s') (d_high s').
Proof.
  intros Hd. destruct (dec_loop_fuel a 32 s Hd) as (s' & Hs' & Hr).
  - destruct Hd as (Hwf & _). unfold wf in Hwf. unfold span.
    change (2 ^ Z.of_nat 32) with (2 ^ 32). nia.
  - exists s'. split; [apply (Hs' 0%nat)|]. split; [apply (Hs' 32%nat)|exact Hr].
Qed.

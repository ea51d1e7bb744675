(** Property theorems for the arithmetic coder (C01-C07).
    [encode] and [decode] are the model of
    projects/jax_entropy_coders/jax_arithmetic_coder.py; [matching],
    [good_message], [total_inverse], [ideal_bits], [zoom] come from AC_Spec. *)
From Coq Require Import ZArith List Bool Lia Arith Reals.
From Verif Require Import Base AC_Model AC_Spec AC_SpecR AC_Proofs AC_Buffer AC_Loop AC_Main
  AC_Batch AC_Interval AC_Size AC_Top AC_Examples AC_Overrun.
Import ListNotations.
Open Scope Z_scope.

(* ------------------------------------------------------------------ *)
(** ** C01: round trip *)

(** Whenever the returned byte string is shorter than the buffer. *)
Theorem ac_roundtrip :
  forall (ST ST' : Type) (cdf : Z -> ST -> Z * Z * ST) (inv : Z -> ST' -> Z * Z * Z * ST')
         (m : list Z) (cs : ST) (cs' : ST') (cap : nat) (b : list Z),
    Forall symbol8 m -> matching cdf inv m cs cs' ->
    encode cdf [(m, cs)] cap = Ok [b] -> (length b < cap)%nat ->
    decode inv [(b, length m, cs')] = Ok [m] /\ Forall (fun z => 0 <= z < 256) b.
Proof.
  intros ST ST' cdf inv m cs cs' cap b Hs Hm He Hb.
  destruct (roundtrip_suffix cdf inv m cs cs' cap b [] Hm He Hb) as [H1 H2].
  rewrite app_nil_r, map_u8_id in H1 by exact Hs. split; [exact H1|exact H2].
Qed.
Print Assumptions ac_roundtrip.

(** With the write index itself: the exact condition under which the last byte
    was stored. *)
Theorem ac_roundtrip_index :
  forall (ST ST' : Type) (cdf : Z -> ST -> Z * Z * ST) (inv : Z -> ST' -> Z * Z * Z * ST')
         (m : list Z) (cs : ST) (cs' : ST') (cap : nat) (arr : list Z) (i : nat),
    Forall symbol8 m -> matching cdf inv m cs cs' ->
    jax_encode cdf m cs cap = Ok (arr, i) -> (i < cap)%nat ->
    exists b, encode cdf [(m, cs)] cap = Ok [b] /\ decode inv [(b, length m, cs')] = Ok [m].
Proof.
  intros ST ST' cdf inv m cs cs' cap arr i Hs Hm He Hi.
  destruct (overrun_partial cdf inv m cs cs' cap arr i Hm He ltac:(lia)) as [[H _]|[_ H]];
    [lia|]. rewrite (map_u8_id m Hs) in H. exact H.
Qed.
Print Assumptions ac_roundtrip_index.

(** With buffer_oversize >= 3 encoding always succeeds and is always lossless. *)
Theorem ac_roundtrip_oversize3 :
  forall (ST ST' : Type) (cdf : Z -> ST -> Z * Z * ST) (inv : Z -> ST' -> Z * Z * Z * ST')
         (m : list Z) (cs : ST) (cs' : ST') (cap : nat),
    m <> [] -> Forall symbol8 m -> matching cdf inv m cs cs' ->
    (3 * length m <= cap)%nat ->
    exists b, encode cdf [(m, cs)] cap = Ok [b] /\ decode inv [(b, length m, cs')] = Ok [m].
Proof.
  intros ST ST' cdf inv m cs cs' cap Hne Hs Hm Hcap.
  destruct (roundtrip_enough cdf inv m cs cs' cap [] Hne Hcap Hm) as (b & H1 & H2).
  rewrite app_nil_r, map_u8_id in H2 by exact Hs. exists b. split; assumption.
Qed.
Print Assumptions ac_roundtrip_oversize3.

(** Non-vacuity: an adaptive model, a message with likely and unlikely symbols. *)
Example ac_roundtrip_nonvacuous :
  let m := [2; 0; 0; 1; 2; 2; 1; 0; 2; 2; 0; 1] in
  Forall symbol8 m /\ matching ex_cdf ex_inv m 0 0 /\
  encode ex_cdf [(m, 0)] 18 = Ok [[0; 4; 0; 2; 112; 56; 99; 184]]%Z /\
  decode ex_inv [([0; 4; 0; 2; 112; 56; 99; 184], 12%nat, 0)] = Ok [m].
Proof.
  cbn zeta. split; [repeat constructor; unfold symbol8; lia|].
  split; [apply ex_matching; repeat constructor; lia|].
  split; vm_compute; reflexivity.
Qed.

(* ------------------------------------------------------------------ *)
(** ** C02: interval invariant, termination, no wrap-around, synchronisation *)

(** After coding any prefix [m], the interval straddles the middle, is wider
    than a quarter, and the next symbol's interval is exactly the one obtained
    with unbounded integers by narrowing and at most 32 zooms. *)
Theorem ac_interval_invariant :
  forall (ST : Type) (cdf : Z -> ST -> Z * Z * ST) (cap : nat) (m : list Z) (x : Z) (cs : ST),
    good_message cdf (m ++ [x]) cs ->
    exists s cs1 l h cs2 s' k,
      enqueue_all cdf m (init_enc cap) cs = Ok (s, cs1) /\
      cdf x cs1 = (l, h, cs2) /\
      enqueue cdf x s cs1 = Ok (s', cs2) /\
      (0 <= e_low s < 2 ^ 31 /\ 2 ^ 31 <= e_high s < 2 ^ 32 /\
       2 ^ 30 < e_high s - e_low s + 1) /\
      (0 <= e_low s' < 2 ^ 31 /\ 2 ^ 31 <= e_high s' < 2 ^ 32 /\
       2 ^ 30 < e_high s' - e_low s' + 1) /\
      (k <= 32)%nat /\
      zoom k (spec_narrow (e_low s, e_high s) (l, h)) (e_low s', e_high s').
Proof.
  intros ST cdf cap m x cs Hg.
  destruct (interval_step cdf (fun v (u : unit) => (0, 0, 0, u)) cap m cs x Hg)
    as (s & cs1 & l & h & cs2 & s' & k & H1 & H2 & H3 & Hn & Hn' & Hk & Hz).
  exists s, cs1, l, h, cs2, s', k.
  pose proof (norm_span _ _ Hn) as [Hsp _]. pose proof (norm_span _ _ Hn') as [Hsp' _].
  destruct Hn as (N1 & N2 & _). destruct Hn' as (N3 & N4 & _).
  unfold ONE_HALF, ONE_FOURTH in *. repeat (split; [assumption || (split; [assumption|split; assumption])|]).
  exact Hz.
Qed.
Print Assumptions ac_interval_invariant.

(** The decoder holds the same interval as the encoder after every symbol, and
    its window value is inside it; trailing bytes do not matter. *)
Theorem ac_sync :
  forall (ST ST' : Type) (cdf : Z -> ST -> Z * Z * ST) (inv : Z -> ST' -> Z * Z * Z * ST')
         (cap : nat) (m1 m2 : list Z) (cs : ST) (cs' : ST') (arr : list Z) (i : nat)
         (suffix : list Z),
    matching cdf inv (m1 ++ m2) cs cs' ->
    jax_encode cdf (m1 ++ m2) cs cap = Ok (arr, i) -> (i < cap)%nat ->
    let bytes := firstn (i + 1) arr ++ suffix in
    exists s cs1 sd cs1',
      enqueue_all cdf m1 (init_enc cap) cs = Ok (s, cs1) /\
      dec_run inv (length m1) bytes (init_dec bytes) cs' = Ok (sd, cs1') /\
      d_low sd = e_low s /\ d_high sd = e_high s /\
      d_low sd <= d_value sd <= d_high sd.
Proof.
  intros ST ST' cdf inv cap m1 m2 cs cs' arr i suffix Hm He Hi bytes.
  exact (sync cdf inv cap m1 m2 cs cs' arr i suffix Hm He Hi).
Qed.
Print Assumptions ac_sync.

(** Decoding any bytes whatsoever terminates and gives the asked number of
    symbols, for every inverse CDF that always answers. *)
Theorem ac_decode_total :
  forall (ST' : Type) (inv : Z -> ST' -> Z * Z * Z * ST') (Good : ST' -> Prop)
         (n : nat) (bytes : list Z) (cs' : ST'),
    total_inverse inv Good -> Good cs' ->
    exists r, decode inv [(bytes, n, cs')] = Ok [r] /\ length r = n.
Proof.
  intros ST' inv Good n bytes cs' Ht Hg.
  destruct (jax_decode_total inv Good n bytes cs' Ht Hg) as (r & Hr & Hl).
  exists r. rewrite decode_one, Hr. cbn [bind]. rewrite <- Hl, firstn_all. auto.
Qed.
Print Assumptions ac_decode_total.

Example ac_decode_total_nonvacuous :
  total_inverse ex_inv (fun _ => True) /\
  decode ex_inv [([7; 255; 0; 19; 3; 250], 9%nat, 0)] = Ok [[2; 0; 2; 0; 2; 0; 2; 0; 2]].
Proof. split; [exact ex_total|]. vm_compute. reflexivity. Qed.

Example ac_sync_nonvacuous :
  matching ex_cdf ex_inv ([2; 0] ++ [0; 1]) 0 0 /\
  jax_encode ex_cdf ([2; 0] ++ [0; 1]) 0 6 = Ok ([0; 4; 0; 1; 0; 0], 4%nat) /\
  good_message ex_cdf ([2; 0] ++ [0]) 0.
Proof.
  split; [apply ex_matching; repeat constructor; lia|].
  split; [vm_compute; reflexivity|].
  apply (matching_good ex_cdf ex_inv _ 0 0), ex_matching. repeat constructor; lia.
Qed.

(* ------------------------------------------------------------------ *)
(** ** C03: batch independence *)

Theorem ac_batch_independent :
  forall (ST ST' : Type) (cdf : Z -> ST -> Z * Z * ST) (inv : Z -> ST' -> Z * Z * Z * ST')
         (Good : ST' -> Prop) (cap : nat) (batch : list (list Z * ST * ST'))
         (bs : list (list Z)),
    total_inverse inv Good ->
    Forall (fun '(m, cs, cs') =>
      Forall symbol8 m /\ matching cdf inv m cs cs' /\ Good cs') batch ->
    encode cdf (map (fun '(m, cs, _) => (m, cs)) batch) cap = Ok bs ->
    Forall (fun b => (length b < cap)%nat) bs ->
    decode inv (map (fun '(b, (m, _, cs')) => (b, length m, cs')) (combine bs batch))
      = Ok (map (fun '(m, _, _) => m) batch) /\
    Forall2 (fun b '(m, _, cs') => decode inv [(b, length m, cs')] = Ok [m]) bs batch.
Proof. exact @batch_independent. Qed.
Print Assumptions ac_batch_independent.

Example ac_batch_nonvacuous :
  let batch := [([2; 0; 0; 1], 0, 0); ([2; 2; 2; 2; 2; 2; 2], 0, 0); ([1; 1], 0, 0)] in
  Forall (fun '(m, cs, cs') =>
    Forall symbol8 m /\ matching ex_cdf ex_inv m cs cs' /\ True) batch /\
  exists bs, encode ex_cdf (map (fun '(m, cs, _) => (m, cs)) batch) 12 = Ok bs /\
    Forall (fun b => (length b < 12)%nat) bs /\ map (@length Z) bs = [5; 3; 3]%nat.
Proof.
  cbn zeta. split.
  - repeat (apply Forall_cons || apply Forall_nil);
      (split; [repeat constructor; unfold symbol8; lia|]);
      (split; [apply ex_matching; repeat constructor; lia|exact I]).
  - eexists. split; [vm_compute; reflexivity|]. split; [repeat constructor|reflexivity].
Qed.

(* ------------------------------------------------------------------ *)
(** ** C04: code length *)

Theorem ac_code_length :
  forall (ST : Type) (cdf : Z -> ST -> Z * Z * ST) (m : list Z) (cs : ST) (cap : nat)
         (b : list Z),
    good_message cdf m cs -> encode cdf [(m, cs)] cap = Ok [b] -> (length b < cap)%nat ->
    (INR (8 * (length b - 1)) <= ideal_bits cdf m cs + 2
                                 + INR (length m) * log2 (/ (1 - / 2 ^ 14)) /\
     ideal_bits cdf m cs - INR (length m) * log2 (1 + / 2 ^ 14) < INR (8 * length b))%R.
Proof. exact @code_length. Qed.
Print Assumptions ac_code_length.

(** The per-symbol slack is below a ten-thousandth of a bit. *)
Theorem ac_code_length_slack :
  (0 < log2 (1 + / 2 ^ 14) < 1 / 10000 /\ 0 < log2 (/ (1 - / 2 ^ 14)) < 1 / 10000)%R.
Proof. exact slack_small. Qed.
Print Assumptions ac_code_length_slack.

Example ac_code_length_nonvacuous :
  let m := [2; 0; 0; 1; 2; 2; 1; 0; 2; 2; 0; 1] in
  good_message ex_cdf m 0 /\ is_ok (encode ex_cdf [(m, 0)] 18) = true.
Proof.
  cbn zeta. split; [|vm_compute; reflexivity].
  apply (matching_good ex_cdf ex_inv _ 0 0), ex_matching. repeat constructor; lia.
Qed.

(* ------------------------------------------------------------------ *)
(** ** C05: overrun detection *)

(** The check [i > len(b)] misses the case where exactly the last byte is lost:
    with the default buffer_oversize = 1.5 (two symbols, three bytes) encode
    returns bytes that decode to another message. *)
Theorem ac_overrun_refuted :
  exists (m m' b : list Z),
    Forall symbol8 m /\ matching st_cdf st_inv m tt tt /\ length m = 2%nat /\
    encode st_cdf [(m, tt)] 3 = Ok [b] /\
    decode st_inv [(b, length m, tt)] = Ok [m'] /\ m' <> m.
Proof.
  exists [1; 1], [1; 0], [0; 1; 0].
  split; [repeat constructor; unfold symbol8; lia|].
  split; [apply st_matching; repeat constructor; lia|].
  split; [reflexivity|]. split; [vm_compute; reflexivity|].
  split; [vm_compute; reflexivity|discriminate].
Qed.
Print Assumptions ac_overrun_refuted.

(** Full claim: encode raises or the bytes decode to the message.  Proved here
    except when the write index equals the buffer length exactly, where it is
    false (above). *)
Theorem ac_overrun_detected :
  forall (ST ST' : Type) (cdf : Z -> ST -> Z * Z * ST) (inv : Z -> ST' -> Z * Z * Z * ST')
         (m : list Z) (cs : ST) (cs' : ST') (cap : nat) (arr : list Z) (i : nat),
    Forall symbol8 m -> matching cdf inv m cs cs' ->
    jax_encode cdf m cs cap = Ok (arr, i) -> i <> cap ->
    (cap < i)%nat /\ encode cdf [(m, cs)] cap = Raise RuntimeError \/
    (i < cap)%nat /\ exists b, encode cdf [(m, cs)] cap = Ok [b] /\
                        decode inv [(b, length m, cs')] = Ok [m].
Proof.
  intros ST ST' cdf inv m cs cs' cap arr i Hs Hm He Hi.
  pose proof (overrun_partial cdf inv m cs cs' cap arr i Hm He Hi) as H.
  rewrite (map_u8_id m Hs) in H. exact H.
Qed.
Print Assumptions ac_overrun_detected.

(** Exactly what happens for every buffer size.  [full] is the code that some large enough buffer
    gives.  A buffer at least as long as the code gives the code, which decodes to the message;
    a buffer two or more bytes too short makes encode raise; a buffer one byte too short makes it
    return the code without its last byte. *)
Theorem ac_overrun_exact :
  forall (ST ST' : Type) (cdf : Z -> ST -> Z * Z * ST) (inv : Z -> ST' -> Z * Z * Z * ST')
         (m : list Z) (cs : ST) (cs' : ST') (big cap : nat) (full : list Z),
    Forall symbol8 m -> matching cdf inv m cs cs' ->
    encode cdf [(m, cs)] big = Ok [full] -> (length full < big)%nat -> (0 < cap)%nat ->
    ((length full <= cap)%nat ->
       encode cdf [(m, cs)] cap = Ok [full] /\ decode inv [(full, length m, cs')] = Ok [m]) /\
    (length full = cap + 1 -> encode cdf [(m, cs)] cap = Ok [removelast full])%nat /\
    (cap + 1 < length full -> encode cdf [(m, cs)] cap = Raise RuntimeError)%nat.
Proof.
  intros ST ST' cdf inv m cs cs' big cap full Hs Hm He Hl Hc.
  pose proof (encode_overrun cdf m cs big cap full He Hl Hc) as E.
  split; [|split]; intro H.
  - rewrite (proj2 (Nat.leb_le _ _)) in E by exact H. split; [exact E|].
    destruct (roundtrip_suffix cdf inv m cs cs' big full [] Hm He Hl) as [R _].
    rewrite app_nil_r, (map_u8_id m Hs) in R. exact R.
  - rewrite (proj2 (Nat.leb_gt _ _)), (proj2 (Nat.eqb_eq _ _)) in E by lia. exact E.
  - rewrite (proj2 (Nat.leb_gt _ _)), (proj2 (Nat.eqb_neq _ _)) in E by lia. exact E.
Qed.
Print Assumptions ac_overrun_exact.

Example ac_overrun_nonvacuous :
  matching ex_cdf ex_inv [2; 0; 0; 1] 0 0 /\
  encode ex_cdf [([2; 0; 0; 1], 0)] 2 = Raise RuntimeError /\
  encode ex_cdf [([2; 0; 0; 1], 0)] 6 = Ok [[0; 4; 0; 1; 0]].
Proof.
  split; [apply ex_matching; repeat constructor; lia|].
  split; vm_compute; reflexivity.
Qed.

(* ------------------------------------------------------------------ *)
(** ** C06: symbol range *)

(** A valid 512-symbol CDF: symbol 300 comes back as 44. *)
Theorem ac_symbol_range_refuted :
  exists (m m' b : list Z),
    matching big_cdf big_inv m tt tt /\
    encode big_cdf [(m, tt)] 9 = Ok [b] /\ (length b < 9)%nat /\
    decode big_inv [(b, length m, tt)] = Ok [m'] /\ m' <> m.
Proof.
  exists [300; 7; 511], [44; 7; 255].
  eexists. split; [apply big_matching; repeat constructor; lia|].
  split; [vm_compute; reflexivity|]. split; [cbn; lia|].
  split; [vm_compute; reflexivity|discriminate].
Qed.
Print Assumptions ac_symbol_range_refuted.

(** Exactly what comes back: every symbol modulo 256, so lossless precisely for
    messages of 8-bit symbols. *)
Theorem ac_symbol_range_exact :
  forall (ST ST' : Type) (cdf : Z -> ST -> Z * Z * ST) (inv : Z -> ST' -> Z * Z * Z * ST')
         (m : list Z) (cs : ST) (cs' : ST') (cap : nat) (b : list Z),
    matching cdf inv m cs cs' ->
    encode cdf [(m, cs)] cap = Ok [b] -> (length b < cap)%nat ->
    decode inv [(b, length m, cs')] = Ok [map (fun x => x mod 256) m] /\
    (decode inv [(b, length m, cs')] = Ok [m] <-> Forall symbol8 m).
Proof.
  intros ST ST' cdf inv m cs cs' cap b Hm He Hb.
  destruct (roundtrip_suffix cdf inv m cs cs' cap b [] Hm He Hb) as [H1 _].
  rewrite app_nil_r in H1. split; [exact H1|]. split.
  - intros H2. rewrite H2 in H1. injection H1 as H1.
    clear -H1. unfold u8 in H1. induction m as [|x m IH]; constructor.
    + cbn [map] in H1. injection H1 as H1 _. unfold symbol8.
      rewrite H1. apply Z.mod_pos_bound. reflexivity.
    + cbn [map] in H1. injection H1 as _ H1. apply IH; exact H1.
  - intros Hs. rewrite (map_u8_id m Hs) in H1. exact H1.
Qed.
Print Assumptions ac_symbol_range_exact.

(* ------------------------------------------------------------------ *)
(** ** C07: trailing bytes *)

Theorem ac_trailing_bytes :
  forall (ST ST' : Type) (cdf : Z -> ST -> Z * Z * ST) (inv : Z -> ST' -> Z * Z * Z * ST')
         (m : list Z) (cs : ST) (cs' : ST') (cap : nat) (b suffix : list Z),
    Forall symbol8 m -> matching cdf inv m cs cs' ->
    encode cdf [(m, cs)] cap = Ok [b] -> (length b < cap)%nat ->
    decode inv [(b ++ suffix, length m, cs')] = Ok [m].
Proof.
  intros ST ST' cdf inv m cs cs' cap b suffix Hs Hm He Hb.
  destruct (roundtrip_suffix cdf inv m cs cs' cap b suffix Hm He Hb) as [H1 _].
  rewrite map_u8_id in H1 by exact Hs. exact H1.
Qed.
Print Assumptions ac_trailing_bytes.

Example ac_trailing_nonvacuous :
  decode ex_inv [([0; 4; 0; 1; 0] ++ [255; 255; 1; 2; 3], 4%nat, 0)] = Ok [[2; 0; 0; 1]].
Proof. vm_compute. reflexivity. Qed.

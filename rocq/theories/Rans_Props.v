(** Property theorems for the rANS coder (C08-C17).  The model is Rans_Model, the
    vocabulary ([normal], [intervals], [inside], [same], [codable_message],
    [valid_buffer], [fits], [history], [reachable], ...) Rans_Spec, Rans_SpecR
    and Rans_SpecBB.  [ns] is any treatment of out-of-range slice starts that
    leaves in-range starts alone ([slice_ok]). *)
From Coq Require Import ZArith List Bool Lia Reals.
From Verif Require Import Base Rans_Model Rans_Spec Rans_SpecR Rans_SpecBB Rans_Stack Rans_Refine
  Rans_Serial Rans_Coder Rans_Codec Rans_Top Rans_Capacity Rans_More Rans_Size Rans_BitsBack Rans_Examples.
Import ListNotations.
Open Scope Z_scope.

(* ------------------------------------------------------------------ *)
(** ** C08: push and pop are inverse *)

(** Pop after push restores heads and stack; the value on top is inside the
    pushed interval in every lane. *)
Theorem rans_push_then_pop :
  forall (ns : Z -> Z -> Z -> Z) (n : nat) (p : Z) (lo hi : list Z) (m m' : msg) (allow : bool),
    slice_ok ns -> normal n m -> intervals p lo hi -> length lo = n -> 0 <= p <= 24 ->
    push_symbols ns m lo hi p = Ok m' -> Z.of_nat n <= ptr m' ->
    normal n m' /\ inside (peek m' p) lo hi /\
    exists m'', pop_symbols ns m' (peek m' p) lo hi p allow = Ok m'' /\ normal n m'' /\
      same m m''.
Proof. intros ns n p lo hi m m' allow Hns. now apply push_then_pop. Qed.
Print Assumptions rans_push_then_pop.

(** A push with 4 free bytes per lane succeeds and uses at most 3 per lane. *)
Theorem rans_push_total :
  forall (ns : Z -> Z -> Z -> Z) (n : nat) (p : Z) (lo hi : list Z) (m : msg),
    slice_ok ns -> normal n m -> intervals p lo hi -> length lo = n -> 0 <= p <= 24 ->
    4 * Z.of_nat n <= ptr m ->
    exists m', push_symbols ns m lo hi p = Ok m' /\ ptr m - 3 * Z.of_nat n <= ptr m' <= ptr m.
Proof. intros ns n p lo hi m Hns. now apply push_total. Qed.
Print Assumptions rans_push_total.

(** Push after pop restores heads and stack, if the bytes were there. *)
Theorem rans_pop_then_push :
  forall (ns : Z -> Z -> Z -> Z) (n : nat) (p : Z) (lo hi : list Z) (m m' : msg),
    slice_ok ns -> normal n m -> intervals p lo hi -> length lo = n -> 0 <= p <= 24 ->
    inside (peek m p) lo hi -> Z.of_nat n <= ptr m ->
    pop_symbols ns m (peek m p) lo hi p false = Ok m' -> ptr m' <= zlen (data m) ->
    normal n m' /\
    exists m'', push_symbols ns m' lo hi p = Ok m'' /\ normal n m'' /\ same m m''.
Proof. intros ns n p lo hi m m' Hns. now apply pop_then_push. Qed.
Print Assumptions rans_pop_then_push.

(** Three bytes per lane are always enough for a pop. *)
Theorem rans_pop_total :
  forall (ns : Z -> Z -> Z -> Z) (n : nat) (p : Z) (lo hi : list Z) (m : msg),
    slice_ok ns -> normal n m -> intervals p lo hi -> length lo = n -> 0 <= p <= 24 ->
    inside (peek m p) lo hi -> Z.of_nat n <= ptr m -> (3 * n <= length (live m))%nat ->
    exists m', pop_symbols ns m (peek m p) lo hi p false = Ok m' /\ ptr m' <= zlen (data m).
Proof. intros ns n p lo hi m Hns. now apply pop_total. Qed.
Print Assumptions rans_pop_total.

Example rans_push_pop_nonvacuous :
  slice_ok ns_wrap /\ normal 2 ex_m /\ intervals 12 ex_lo ex_hi /\
  (exists m', push_symbols ns_wrap ex_m ex_lo ex_hi 12 = Ok m' /\ 2 <= ptr m') /\
  intervals 12 ex_plo ex_phi /\ inside (peek ex_m 12) ex_plo ex_phi /\
  exists m', pop_symbols ns_wrap ex_m (peek ex_m 12) ex_plo ex_phi 12 false = Ok m' /\
    ptr m' <= zlen (data ex_m).
Proof.
  destruct ex_pop as (m' & P1 & P2 & _). destruct ex_pop_intervals as [I1 I2].
  split; [exact slice_ok_wrap|]. split; [exact ex_m_normal|]. split; [exact ex_intervals|].
  split; [exact ex_push|]. split; [exact I1|]. split; [exact I2|]. exists m'. split; assumption.
Qed.

(* ------------------------------------------------------------------ *)
(** ** C09: encode/decode round trip *)

(** A batch, any codec built from matching CDF functions, different capacities
    for encoder and decoder: the messages come back, and the buffers the encoder
    started from. *)
Theorem rans_roundtrip :
  forall (ns : Z -> Z -> Z -> Z) (St : Type)
         (cdf_fun : list Z -> St -> list Z * list Z * St)
         (inv_fun : list Z -> St -> list Z * list Z * list Z * St)
         (s0 : St) (p : Z) (allow : bool) (n L : nat) (cap cap' : Z) (rnd : Z -> list Z)
         (items : list (item St)) (outs : list (list Z * St)),
    let c := default_rans_codec ns cdf_fun inv_fun s0 p allow in
    slice_ok ns -> 0 <= p <= 24 -> (1 <= n)%nat -> tail_filler rnd -> 0 <= cap ->
    Forall (fun '(start, rows, se, sd) => start_ok n start /\ length rows = L /\
       exists se' sd', codable_message cdf_fun inv_fun n p rows se se' sd sd') items ->
    encode c n cap rnd (map (fun '(start, rows, se, sd) => (start, rows, se)) items) = Ok outs ->
    Forall (fun '(b, _) => fits n cap b /\ fits n cap' b) outs ->
    exists res,
      decode c L n cap' (combine (map fst outs) (map (fun '(_, _, _, sd) => sd) items)) = Ok res /\
      map (fun '(rows, _, _) => rows) res = map (fun '(_, rows, _, _) => rows) items /\
      map (fun '(_, rest, _) => rest) res
      = map (fun '(start, _, _, _) => start_buffer n start) items.
Proof. intros. now apply (roundtrip_batch ns H cdf_fun inv_fun s0 p allow n H0 H1 L cap cap' rnd). Qed.
Print Assumptions rans_roundtrip.

(** Encoding succeeds and fits if the capacity is large enough. *)
Theorem rans_encode_total :
  forall (ns : Z -> Z -> Z -> Z) (St : Type)
         (cdf_fun : list Z -> St -> list Z * list Z * St)
         (inv_fun : list Z -> St -> list Z * list Z * list Z * St)
         (s0 : St) (p : Z) (allow : bool) (n : nat) (cap : Z) (rnd : Z -> list Z)
         (rows : list (list Z)) (se se' sd sd' : St) (start : option (list Z)),
    slice_ok ns -> 0 <= p <= 24 -> (1 <= n)%nat -> tail_filler rnd -> start_ok n start ->
    codable_message cdf_fun inv_fun n p rows se se' sd sd' ->
    (zlen (start_buffer n start) - 4 * Z.of_nat n)
      + 3 * Z.of_nat n * Z.of_nat (length rows) + Z.of_nat n <= cap ->
    exists out, encode_one (default_rans_codec ns cdf_fun inv_fun s0 p allow)
                  n cap rnd start rows se = Ok (out, se') /\ fits n cap out.
Proof. intros. now apply (encode_total ns H cdf_fun inv_fun s0 p allow n H0 H1 cap rnd rows se se' sd sd'). Qed.
Print Assumptions rans_encode_total.

(** The fixed-array codec: one table per lane, symbols of positive frequency. *)
Theorem rans_fixed_array_roundtrip :
  forall (ns : Z -> Z -> Z -> Z) (wrap : Z -> Z) (cdfs : list (list Z)) (p : Z) (allow : bool)
         (cap cap' : Z) (rnd : Z -> list Z) (rows : list (list Z)) (start : option (list Z))
         (out : list Z) (s : list (list Z)),
    let n := length cdfs in
    let c := fixed_array_cdf_codec ns wrap cdfs p allow in
    slice_ok ns -> 0 <= p <= 24 -> (1 <= n)%nat -> tail_filler rnd -> start_ok n start ->
    0 <= cap -> Forall (cdf_table p) cdfs ->
    Forall (fun row => Forall2 has_freq cdfs row /\
                       Forall (fun x => wrap (x + 1) = x + 1) row) rows ->
    encode_one c n cap rnd start rows cdfs = Ok (out, s) -> fits n cap out -> fits n cap' out ->
    decode_one c (length rows) n cap' out cdfs = Ok (rows, start_buffer n start, cdfs).
Proof.
  intros ns wrap cdfs p allow cap cap' rnd rows start out s n c Hns Hp Hn HF HS Hc HT HR HE F1 F2.
  pose proof (fixed_codable_message p n wrap cdfs rows (proj1 Hp) eq_refl HT HR) as HC.
  unfold c in *. rewrite fixed_is_default in *.
  now destruct (roundtrip_one ns Hns _ _ _ p allow n Hp Hn cap cap' rnd rows _ _ _ _ start out s
                  HF HS Hc HC HE F1 F2) as (_ & _ & HD).
Qed.
Print Assumptions rans_fixed_array_roundtrip.

Example rans_roundtrip_nonvacuous :
  tail_filler ex_rnd /\ (exists outs,
  encode ex_codec 2 40 ex_rnd (map (fun '(start, rows, se, sd) => (start, rows, se)) ex_items)
    = Ok outs /\ Forall (fun '(b, _) => fits 2 40 b /\ fits 2 35 b) outs) /\
  codable_message (fa_cdf ex_id) fa_inv 2 16 ex_rows ex_cdfs ex_cdfs ex_cdfs ex_cdfs.
Proof. split; [exact ex_rnd_ok|]. split; [exact ex_batch | exact ex_codable]. Qed.

(* ------------------------------------------------------------------ *)
(** ** C10: append and peel histories *)

(** Messages stacked by successive encodes, each with its own codec, precision,
    length and capacities, come back in reverse order, then the buffer the
    history started from. *)
Theorem rans_history :
  forall (ns : Z -> Z -> Z -> Z) (St : Type) (n : nat) (rnd : Z -> list Z)
         (start : option (list Z)) (h : list (@entry St)) (b : list Z),
    slice_ok ns -> (1 <= n)%nat -> tail_filler rnd -> start_ok n start ->
    history ns n rnd start h b ->
    peel ns n h b = Ok (map e_rows h, start_buffer n start) /\ valid_buffer n b.
Proof. intros. now apply (peel_history ns H n rnd start h b). Qed.
Print Assumptions rans_history.

Example rans_history_nonvacuous : history ns_clamp 2 ex_rnd None [ex_entry; ex_entry] ex_out2.
Proof. exact ex_history. Qed.

(* ------------------------------------------------------------------ *)
(** ** C11: heads and tail stay in range *)

(** Whatever the sequence of pushes and pops, even without room. *)
Theorem rans_range_invariant :
  forall (ns : Z -> Z -> Z -> Z) (n : nat) (m : msg), slice_ok ns -> reachable ns n m ->
    length (heads m) = n /\ Forall is_head (heads m) /\ Forall is_byte (data m).
Proof. intros ns n m Hns. now apply reachable_range. Qed.
Print Assumptions rans_range_invariant.

(** A push is the textbook rANS step on unbounded integers in every lane: the
    32-bit arithmetic never wraps. *)
Theorem rans_push_no_overflow :
  forall (ns : Z -> Z -> Z -> Z) (n : nat) (p : Z) (lo hi : list Z) (m m' : msg),
    slice_ok ns -> reachable ns n m -> 0 <= p <= 24 -> length lo = n -> intervals p lo hi ->
    push_symbols ns m lo hi p = Ok m' ->
    forall i, (i < n)%nat ->
      rans_lane p (nth i lo 0) (nth i hi 0) (nth i (heads m) 0) (nth i (heads m') 0).
Proof.
  intros ns n p lo hi m m' Hns HR. destruct (reachable_range ns Hns n m HR) as (A & B & _).
  now apply push_symbols_lanes.
Qed.
Print Assumptions rans_push_no_overflow.

Example rans_reachable_nonvacuous :
  exists m1 m2, push_symbols ns_clamp (empty_message 2 9 ex_rnd) ex_lo ex_hi 12 = Ok m1 /\
  pop_symbols ns_clamp m1 (peek m1 12) ex_lo ex_hi 12 false = Ok m2 /\
  reachable ns_clamp 2 m2 /\ heads m1 <> heads m2.
Proof.
  eexists _, _. split; [vm_compute; reflexivity|]. split; [vm_compute; reflexivity|].
  split; [|vm_compute; discriminate].
  eapply reach_pop with (p := 12) (lo := ex_lo) (hi := ex_hi) (allow := false).
  - eapply reach_push with (p := 12) (lo := ex_lo) (hi := ex_hi).
    + apply (reach_empty ns_clamp 2 9 ex_rnd); [lia | exact ex_rnd_ok].
    + lia.
    + reflexivity.
    + exact ex_intervals.
    + vm_compute. reflexivity.
  - lia.
  - reflexivity.
  - exact ex_intervals.
  - repeat constructor; vm_compute; congruence.
  - vm_compute. reflexivity.
Qed.

(* ------------------------------------------------------------------ *)
(** ** C12: serialisation *)

(** Unflatten after flatten, with the pointer flatten reports. *)
Theorem rans_serialise_roundtrip :
  forall (m : msg) (a : list Z) (lim : Z),
    Forall (fun h => 0 <= h < 2 ^ 32) (heads m) ->
    craymessage_to_array m = (a, lim) ->
    array_to_craymessage a (length (heads m)) (lim - 4 * Z.of_nat (length (heads m))) = m.
Proof.
  intros m a lim H E. rewrite c2a_ser in E. injection E as <- <-.
  rewrite a2c_ser by exact H. destruct m as [h l d]. cbn [heads ptr data]. f_equal. unfold zlen. lia.
Qed.
Print Assumptions rans_serialise_roundtrip.

(** Flatten after unflatten. *)
Theorem rans_deserialise_roundtrip :
  forall (a : list Z) (n : nat) (lim : Z), Forall is_byte a -> (4 * n <= length a)%nat ->
    let m := array_to_craymessage a n lim in
    length (heads m) = n /\ Forall (fun h => 0 <= h < 2 ^ 32) (heads m) /\
    craymessage_to_array m = (a, 4 * Z.of_nat n + lim).
Proof.
  intros a n lim HB HL m. destruct (a2c_heads n a lim HB HL) as (A1 & A2 & A3 & A4 & A5 & _).
  fold m in A1, A2, A3, A4, A5. split; [exact A1|]. split; [exact A2|].
  rewrite c2a_ser, <- A3. f_equal. unfold zlen. lia.
Qed.
Print Assumptions rans_deserialise_roundtrip.

Example rans_serialise_nonvacuous :
  craymessage_to_array (mk_msg [16909060; 4278190335] 1 [9; 8])
  = ([1; 255; 2; 0; 3; 0; 4; 255; 9; 8], 9).
Proof. vm_compute. reflexivity. Qed.

(* ------------------------------------------------------------------ *)
(** ** C13: capacity errors *)

(** False as stated.  With the capacity 4 a one-lane message encodes without
    error, and decodes, with any large capacity, to another message; and with the
    same capacity decode raises.  The first witness is for clamped slice starts,
    the second for JAX's wrap-around of negative starts. *)
Theorem rans_capacity_silent_refuted :
  (exists rows out s,
     let c := fixed_array_cdf_codec ns_clamp ex_id [[0; 1; 40000; 65536]] 16 false in
     encode_one c 1 4 ex_rnd None rows [[0; 1; 40000; 65536]] = Ok (out, s) /\
     Forall (Forall2 has_freq [[0; 1; 40000; 65536]]) rows /\
     exists rows' rest s',
       decode_one c (length rows) 1 100 out [[0; 1; 40000; 65536]] = Ok (rows', rest, s') /\
       rows' <> rows) /\
  (exists rows out s,
     let c := fixed_array_cdf_codec ns_wrap ex_id [[0; 1; 40000; 65536]] 16 false in
     encode_one c 1 4 ex_rnd None rows [[0; 1; 40000; 65536]] = Ok (out, s) /\
     Forall (Forall2 has_freq [[0; 1; 40000; 65536]]) rows /\
     exists rows' rest s',
       decode_one c (length rows) 1 100 out [[0; 1; 40000; 65536]] = Ok (rows', rest, s') /\
       rows' <> rows).
Proof.
  split.
  - exists [[1]; [1]; [0]; [0]]. eexists _, _. cbv zeta. split; [vm_compute; reflexivity|].
    split; [repeat (constructor; [constructor; [apply has_freq_dec; reflexivity|constructor]|]);
            constructor|].
    eexists _, _, _. split; [vm_compute; reflexivity|]. discriminate.
  - exists [[1]; [0]; [0]; [2]]. eexists _, _. cbv zeta. split; [vm_compute; reflexivity|].
    split; [repeat (constructor; [constructor; [apply has_freq_dec; reflexivity|constructor]|]);
            constructor|].
    eexists _, _, _. split; [vm_compute; reflexivity|]. discriminate.
Qed.
Print Assumptions rans_capacity_silent_refuted.

(** Also with the default capacity, int(1.5 * number of symbols). *)
Theorem rans_default_capacity_refuted :
  exists rows out s,
    let c := fixed_array_cdf_codec ns_clamp ex_id [[0; 1; 40000; 65536]] 16 false in
    let cap := default_capacity (length rows) 1 in
    encode_one c 1 cap ex_rnd None rows [[0; 1; 40000; 65536]] = Ok (out, s) /\
    decode_one c (length rows) 1 cap out [[0; 1; 40000; 65536]] = Raise ValueError.
Proof.
  exists [[1]; [0]; [0]; [0]]. eexists _, _. cbv zeta. split; [vm_compute; reflexivity|].
  vm_compute. reflexivity.
Qed.
Print Assumptions rans_default_capacity_refuted.

(** What does hold: encode raises if the bytes needed exceed the capacity, and
    if one byte per lane of capacity is left over then decode with the same
    capacity is correct.  Only the band in between is unprotected. *)
Theorem rans_capacity_room :
  forall (ns : Z -> Z -> Z -> Z) (St : Type)
         (cdf_fun : list Z -> St -> list Z * list Z * St)
         (inv_fun : list Z -> St -> list Z * list Z * list Z * St)
         (s0 : St) (p : Z) (allow : bool) (n : nat) (cap : Z) (rnd : Z -> list Z)
         (rows : list (list Z)) (se se' sd sd' : St) (start : option (list Z)) (out : list Z) (s : St),
    let c := default_rans_codec ns cdf_fun inv_fun s0 p allow in
    slice_ok ns -> 0 <= p <= 24 -> (1 <= n)%nat -> tail_filler rnd -> start_ok n start -> 0 <= cap ->
    codable_message cdf_fun inv_fun n p rows se se' sd sd' ->
    encode_one c n cap rnd start rows se = Ok (out, s) ->
    let used := zlen out - 4 * Z.of_nat n - 1 in
    used <= cap /\
    (used + Z.of_nat n <= cap ->
     decode_one c (length rows) n cap out sd = Ok (rows, start_buffer n start, sd')).
Proof.
  intros ns St cdf_fun inv_fun s0 p allow n cap rnd rows se se' sd sd' start out s c
    Hns Hp Hn HF HS Hc HC HE used. split.
  - destruct (encode_used ns Hns cdf_fun inv_fun s0 p allow n Hp Hn cap rnd rows se se' sd sd'
                start out s HF HS Hc HC HE) as (a & E & L). unfold used. lia.
  - intro F. now destruct (roundtrip_one ns Hns cdf_fun inv_fun s0 p allow n Hp Hn cap cap rnd rows
                 se se' sd sd' start out s HF HS Hc HC HE F F) as (_ & _ & D).
Qed.
Print Assumptions rans_capacity_room.

(** Every capacity.  The message needs some number of tail bytes, whatever the capacity: with less
    encode raises; with that many and at least one byte per lane encode returns a buffer of the
    right length; with one byte per lane to spare decode with the same capacity gives the message
    back; with none to spare decode with the same capacity raises.  (In between the buffer may be
    wrong, see above.) *)
Theorem rans_capacity_exact :
  forall (ns : Z -> Z -> Z -> Z) (St : Type)
         (cdf_fun : list Z -> St -> list Z * list Z * St)
         (inv_fun : list Z -> St -> list Z * list Z * list Z * St)
         (s0 : St) (p : Z) (allow : bool) (n : nat)
         (rows : list (list Z)) (se se' sd sd' : St) (start : option (list Z)),
    let c := default_rans_codec ns cdf_fun inv_fun s0 p allow in
    slice_ok ns -> 0 <= p <= 24 -> (1 <= n)%nat -> start_ok n start ->
    codable_message cdf_fun inv_fun n p rows se se' sd sd' ->
    exists needed, 0 <= needed /\ forall cap rnd, 0 <= cap -> tail_filler rnd ->
      (cap < needed -> exists e, encode_one c n cap rnd start rows se = Raise e) /\
      (needed <= cap -> Z.of_nat n <= cap -> exists out,
         encode_one c n cap rnd start rows se = Ok (out, se') /\ zlen out = 4 * Z.of_nat n + 1 + needed /\
         (needed + Z.of_nat n <= cap -> decode_one c (length rows) n cap out sd = Ok (rows, start_buffer n start, sd')) /\
         (cap = needed -> decode_one c (length rows) n cap out sd = Raise ValueError)).
Proof.
  intros ns St cdf_fun inv_fun s0 p allow n rows se se' sd sd' start c Hns Hp Hn HS HC.
  exact (capacity_exact ns Hns cdf_fun inv_fun s0 p allow n Hp Hn rows se se' sd sd' start HS HC).
Qed.
Print Assumptions rans_capacity_exact.

(** The error is reachable. *)
Example rans_capacity_raises :
  encode_one ex_codec 2 5 ex_rnd None ex_rows ex_cdfs = Raise RuntimeError.
Proof. vm_compute. reflexivity. Qed.

(* ------------------------------------------------------------------ *)
(** ** C14: bits-back round trip *)

Section BitsBack.
Variable ns : Z -> Z -> Z -> Z.
Context {S1 S2 S3 : Type}.
Variable n : nat.
Variable cdf1 : list Z -> S1 -> list Z * list Z * S1.
Variable inv1 : list Z -> S1 -> list Z * list Z * list Z * S1.
Variables (s1 : S1) (p1 : Z) (al1 : bool).
Variable cdf2 : list Z -> list Z -> S2 -> list Z * list Z * S2.
Variable inv2 : list Z -> list Z -> S2 -> list Z * list Z * list Z * S2.
Variables (s2 : list Z -> S2) (p2 : Z) (al2 : bool).
Variable cdf3 : list Z -> list Z -> S3 -> list Z * list Z * S3.
Variable inv3 : list Z -> list Z -> S3 -> list Z * list Z * list Z * S3.
Variables (s3 : list Z -> S3) (p3 : Z) (al3 : bool).
Let codec3 := bb ns cdf1 inv1 s1 p1 al1 cdf2 inv2 s2 p2 al2 cdf3 inv3 s3 p3 al3.
Let model_codes := bb_codable n cdf1 inv1 s1 p1 cdf2 inv2 s2 p2 cdf3 inv3 s3 p3.

(** One row: pop after push returns the row and the message, when three bytes per
    lane are on the stack. *)
Theorem rans_bitsback_push_pop : forall (m : msg) (x : list Z),
  slice_ok ns -> 0 <= p1 <= 24 -> 0 <= p2 <= 24 -> 0 <= p3 <= 24 -> (1 <= n)%nat ->
  normal n m -> model_codes x -> 7 * Z.of_nat n <= ptr m -> (3 * n <= length (live m))%nat ->
  exists m' m'', c_push codec3 x m tt = Ok (m', tt) /\ normal n m' /\
    c_pop codec3 false m' tt = Ok (m'', x, tt) /\ normal n m'' /\ same m m''.
Proof. intros. now apply bb_push_pop. Qed.

(** Any number of rows, under the exact condition that no posterior pop runs past
    the bottom of the stack: everything pushed comes back in reverse order and the
    message is restored. *)
Theorem rans_bitsback_pushes : forall (rows : list (list Z)) (m m' : msg),
  slice_ok ns -> 0 <= p1 <= 24 -> 0 <= p2 <= 24 -> 0 <= p3 <= 24 -> (1 <= n)%nat ->
  al2 = false -> normal n m -> Z.of_nat n <= ptr m -> Forall model_codes rows ->
  bb_pushes ns n cdf1 inv1 s1 p1 al1 cdf2 inv2 s2 p2 al2 cdf3 inv3 s3 p3 al3 rows m m' ->
  exists m'', pop_rows codec3 (length rows) m' tt = Ok (m'', rev rows, tt) /\
    normal n m'' /\ same m m''.
Proof. intros. now apply bb_pushes_pop. Qed.

(** encode and decode of a message on a start buffer with three bytes per lane and
    row; the start buffer is given back. *)
Theorem rans_bitsback_roundtrip : forall (cap cap' : Z) (rnd : Z -> list Z) (rows : list (list Z))
    (start : option (list Z)),
  slice_ok ns -> 0 <= p1 <= 24 -> 0 <= p2 <= 24 -> 0 <= p3 <= 24 -> (1 <= n)%nat ->
  tail_filler rnd -> start_ok n start -> Forall model_codes rows ->
  3 * Z.of_nat n * zlen rows <= zlen (start_buffer n start) - 4 * Z.of_nat n ->
  zlen (start_buffer n start) - 4 * Z.of_nat n + Z.of_nat n * (6 * zlen rows + 1) <= cap ->
  zlen (start_buffer n start) - 4 * Z.of_nat n + Z.of_nat n * (9 * zlen rows + 1) <= cap' ->
  exists out, encode_one codec3 n cap rnd start rows tt = Ok (out, tt) /\
    decode_one codec3 (length rows) n cap' out tt = Ok (rows, start_buffer n start, tt).
Proof. intros. now apply bb_roundtrip. Qed.

(* ------------------------------------------------------------------ *)
(** ** C15: pops from an empty stack *)

(** One lane: lossless for every stack depth, including none.  The rest returned
    by decode is the start buffer followed by the bytes that were borrowed. *)
Theorem rans_bitsback_one_lane : forall (cap cap' : Z) (rnd : Z -> list Z)
    (rows : list (list Z)) (start : option (list Z)),
  slice_ok ns -> 0 <= p1 <= 24 -> 0 <= p2 <= 24 -> 0 <= p3 <= 24 -> n = 1%nat -> al2 = true ->
  tail_filler rnd -> start_ok n start -> Forall model_codes rows ->
  zlen (start_buffer n start) - 4 * Z.of_nat n + Z.of_nat n * (6 * zlen rows + 1) <= cap ->
  zlen (start_buffer n start) - 4 * Z.of_nat n + Z.of_nat n * (9 * zlen rows + 1) <= cap' ->
  exists out J, encode_one codec3 n cap rnd start rows tt = Ok (out, tt) /\
    decode_one codec3 (length rows) n cap' out tt = Ok (rows, start_buffer n start ++ J, tt) /\
    (length J <= 3 * n * length rows)%nat.
Proof. intros. apply bb_roundtrip_dry; try easy; [lia | now left]. Qed.

(** Any number of lanes: the first row on an empty stack. *)
Theorem rans_bitsback_first_row : forall (cap cap' : Z) (rnd : Z -> list Z) (row : list Z) (start : option (list Z)),
  slice_ok ns -> 0 <= p1 <= 24 -> 0 <= p2 <= 24 -> 0 <= p3 <= 24 -> (1 <= n)%nat -> al2 = true ->
  tail_filler rnd -> start_ok n start -> model_codes row ->
  zlen (start_buffer n start) = 4 * Z.of_nat n -> 7 * Z.of_nat n <= cap -> 10 * Z.of_nat n <= cap' ->
  exists out J, encode_one codec3 n cap rnd start [row] tt = Ok (out, tt) /\
    decode_one codec3 1 n cap' out tt = Ok ([row], start_buffer n start ++ J, tt) /\ (length J <= 3 * n)%nat.
Proof.
  intros. destruct (bb_roundtrip_dry ns H n H3 cdf1 inv1 s1 p1 al1 cdf2 inv2 s2 p2 al2 cdf3 inv3 s3 p3 al3
    H0 H1 H2 cap cap' rnd [row] start) as (out & J & A & B & C); try easy.
  - right. split; [easy|]. cbn [length]. lia.
  - now constructor.
  - change (zlen [row]) with 1. lia.
  - change (zlen [row]) with 1. lia.
  - exists out, J. cbn [length] in B, C. split; [exact A|]. split; [exact B|]. lia.
Qed.
End BitsBack.
Print Assumptions rans_bitsback_push_pop.
Print Assumptions rans_bitsback_pushes.
Print Assumptions rans_bitsback_roundtrip.
Print Assumptions rans_bitsback_one_lane.
Print Assumptions rans_bitsback_first_row.

(** Non-vacuity: a model with 256 latents whose posterior depends on the symbols
    and whose likelihood depends on the latents codes every binary row, and a
    start buffer is deep enough; the message really encodes. *)
Example rans_bitsback_nonvacuous :
  (forall n x, length x = n -> ex_bits x ->
     bb_codable n (fa_cdf ex_id) fa_inv (repeat ex_u16 n) 16
       (fun _ => fa_cdf ex_id) (fun _ => fa_inv) ex_post 16
       (fun _ => fa_cdf ex_id) (fun _ => fa_inv) ex_obs 8 x) /\
  valid_buffer 2 ex_bb_start /\ 3 * 2 * zlen ex_bb_rows <= zlen ex_bb_start - 4 * 2 /\
  Forall (fun x => length x = 2%nat /\ ex_bits x) ex_bb_rows.
Proof.
  split; [exact ex_bb_codable|]. split; [apply ex_bb_start_ok|]. split; [apply ex_bb_start_ok|].
  exact ex_bb_bits.
Qed.

(** The one-lane case does run dry: nothing on the stack to begin with. *)
Example rans_bitsback_dry_nonvacuous :
  match encode_one (ex_bb 1 true) 1 30 ex_rnd None [[0]; [1]; [0]] tt with
  | Ok (out, _) => match decode_one (ex_bb 1 true) 3 1 40 out tt with
                   | Ok (rows, rest, _) => rows = [[0]; [1]; [0]] /\ rest <> fresh_buffer 1
                   | _ => False end
  | _ => False end.
Proof. vm_compute. split; [reflexivity | discriminate]. Qed.

(** Several lanes: false.  Two lanes, a stack with one byte when two are needed;
    encode succeeds and decode returns another message. *)
Theorem rans_bitsback_empty_pops_refuted :
  forall ns, ns = ns_clamp \/ ns = ns_wrap ->
  exists out rest rows',
    encode_one (ex_dry ns) 2 30 ex_rnd None [[0; 0]; [1; 0]] tt = Ok (out, tt) /\
    decode_one (ex_dry ns) 2 2 100 out tt = Ok (rows', rest, tt) /\ rows' <> [[0; 0]; [1; 0]].
Proof.
  intros ns [-> | ->]; eexists _, _, _; (split; [vm_compute; reflexivity|]);
    (split; [vm_compute; reflexivity|]); discriminate.
Qed.
Print Assumptions rans_bitsback_empty_pops_refuted.

(* ------------------------------------------------------------------ *)
(** ** C16: fixed-array lookup *)

(** The lookup returns a symbol of positive frequency whose interval contains the
    value. *)
Theorem rans_lookup_sound :
  forall (p : Z) (cdf : list Z) (v : Z), 0 <= p -> cdf_table p cdf -> 0 <= v < 2 ^ p ->
    let s := inv_symbol cdf v in
    has_freq cdf s /\ nth (Z.to_nat s) cdf 0 <= v < nth (Z.to_nat s + 1) cdf 0.
Proof. intros p cdf v Hp HT Hv. exact (lookup_symbol p cdf v Hp HT Hv). Qed.
Print Assumptions rans_lookup_sound.

(** It is the only symbol whose interval contains the value. *)
Theorem rans_lookup_unique :
  forall (p : Z) (cdf : list Z) (v s : Z), cdf_table p cdf -> 0 <= s ->
    (Z.to_nat s + 1 < length cdf)%nat ->
    nth (Z.to_nat s) cdf 0 <= v < nth (Z.to_nat s + 1) cdf 0 -> inv_symbol cdf v = s.
Proof. exact lookup_unique. Qed.
Print Assumptions rans_lookup_unique.

Example rans_lookup_nonvacuous :
  cdf_table 16 [0; 30000; 30000; 65536] /\ inv_symbol [0; 30000; 30000; 65536] 30000 = 2 /\
  inv_symbol [0; 30000; 30000; 65536] 29999 = 0.
Proof. split; [apply cdf_table_dec; reflexivity|]. split; reflexivity. Qed.

(** The encoder's side needs [symbols + 1] not to overflow the message dtype: for
    uint8 messages over the full alphabet of 256 symbols, symbol 255 is coded
    with a wrapped-around interval and the message does not come back. *)
Theorem rans_uint8_symbol_255_refuted :
  cdf_table 8 ex_u8 /\ has_freq ex_u8 255 /\
  exists out s rows' rest s',
    let c := fixed_array_cdf_codec ns_clamp (fun x => x mod 256) [ex_u8] 8 false in
    encode_one c 1 50 ex_rnd None [[255]; [3]] [ex_u8] = Ok (out, s) /\ fits 1 50 out /\
    decode_one c 2 1 50 out [ex_u8] = Ok (rows', rest, s') /\ rows' <> [[255]; [3]].
Proof.
  split; [apply cdf_table_dec; vm_compute; reflexivity|].
  split; [apply has_freq_dec; vm_compute; reflexivity|].
  eexists _, _, _, _, _. cbv zeta. split; [vm_compute; reflexivity|].
  split; [unfold fits; vm_compute; discriminate|]. split; [vm_compute; reflexivity|]. discriminate.
Qed.
Print Assumptions rans_uint8_symbol_255_refuted.

(* ------------------------------------------------------------------ *)
(** ** C17: code length *)

(** Bytes written beyond the start buffer and the filler byte, in bits, against
    the ideal code length of the intervals pushed.  With a start buffer its heads
    may already hold up to one byte per lane. *)
Theorem rans_code_length :
  forall (ns : Z -> Z -> Z -> Z) (St : Type)
         (cdf_fun : list Z -> St -> list Z * list Z * St)
         (inv_fun : list Z -> St -> list Z * list Z * list Z * St)
         (s0 : St) (p : Z) (allow : bool) (n : nat) (cap : Z) (rnd : Z -> list Z)
         (rows : list (list Z)) (se se' sd sd' : St) (start : option (list Z)) (out : list Z) (s : St),
    slice_ok ns -> 0 <= p <= 24 -> (1 <= n)%nat -> tail_filler rnd -> start_ok n start -> 0 <= cap ->
    codable_message cdf_fun inv_fun n p rows se se' sd sd' ->
    encode_one (default_rans_codec ns cdf_fun inv_fun s0 p allow) n cap rnd start rows se
      = Ok (out, s) ->
    (8 * IZR (zlen out - zlen (start_buffer n start) - 1)
     <= ideal_bits p (push_intervals cdf_fun (rev rows) se)
        + INR (n * length rows) * symbol_overhead p
        + match start with Some _ => 8 * INR n | None => 0 end)%R.
Proof.
  intros. now apply (encode_size ns H cdf_fun inv_fun s0 p allow n H0 H1 cap rnd rows se se' sd sd' start out s).
Qed.
Print Assumptions rans_code_length.

(** The overhead per symbol is below 0.008 bits for precisions up to 16. *)
Theorem rans_overhead_small : forall p, 0 <= p <= 16 ->
  (0 < symbol_overhead p < 8 / 1000)%R.
Proof. exact overhead_small. Qed.
Print Assumptions rans_overhead_small.

(** No push writes more than three bytes per lane, room or not. *)
Theorem rans_push_bytes :
  forall (ns : Z -> Z -> Z -> Z) (n : nat) (p : Z) (lo hi : list Z) (m m' : msg),
    slice_ok ns -> reachable ns n m -> 0 <= p <= 24 -> length lo = n -> intervals p lo hi ->
    push_symbols ns m lo hi p = Ok m' ->
    ptr m - 3 * Z.of_nat n <= ptr m' <= ptr m.
Proof.
  intros ns n p lo hi m m' Hns HR. destruct (reachable_range ns Hns n m HR) as (A & B & C).
  intros Hp HL Hi E.
  now destruct (push_symbols_range ns Hns n p lo hi m m' A B C Hp HL Hi E) as (_ & _ & _ & _ & D).
Qed.
Print Assumptions rans_push_bytes.

Example rans_code_length_nonvacuous :
  codable_message (fa_cdf ex_id) fa_inv 2 16 ex_rows ex_cdfs ex_cdfs ex_cdfs ex_cdfs /\
  encode_one ex_codec 2 30 ex_rnd None ex_rows ex_cdfs = Ok (ex_out, ex_cdfs).
Proof. split; [exact ex_codable | exact ex_encodes]. Qed.

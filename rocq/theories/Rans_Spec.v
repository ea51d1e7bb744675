(** Specification vocabulary for the rANS coder, independent of how the model
    computes. *)
From Coq Require Import ZArith List Bool Lia.
From Verif Require Import Base Rans_Model.
Import ListNotations.
Open Scope Z_scope.

(** JAX leaves an in-range slice start alone, and moves an out-of-range one
    somewhere in range. *)
Definition slice_ok (ns : Z -> Z -> Z -> Z) : Prop :=
  forall start len size, 0 <= size <= len ->
    0 <= ns start len size <= len - size /\
    (0 <= start <= len - size -> ns start len size = start).

Definition is_byte (b : Z) : Prop := 0 <= b < 256.
Definition is_head (h : Z) : Prop := 2 ^ 24 <= h < 2 ^ 32.

(** The live part of the tail: the byte stack, top first. *)
Definition live (m : msg) : list Z := skipn (Z.to_nat (ptr m)) (data m).

(** A normalised compressed message with [n] lanes. *)
Definition normal (n : nat) (m : msg) : Prop :=
  length (heads m) = n /\ Forall is_head (heads m) /\ Forall is_byte (data m) /\
  0 <= ptr m <= zlen (data m).

(** Two messages hold the same information. *)
Definition same (m m' : msg) : Prop :=
  heads m = heads m' /\ live m = live m'.

(** One interval of a [p]-bit probability range per lane. *)
Definition intervals (p : Z) (lo hi : list Z) : Prop :=
  Forall2 (fun l h => 0 <= l /\ l < h /\ h <= 2 ^ p) lo hi.

(** Each value lies in the interval of its lane. *)
Definition inside (v lo hi : list Z) : Prop :=
  Forall2 (fun x '(l, h) => l <= x < h) v (combine lo hi).

(** A serialised buffer that can be extended: bytes, one four-byte head per lane
    stored in planes (all the most significant bytes first), and every head
    normalised, i.e. its most significant byte is not zero. *)
Definition valid_buffer (n : nat) (b : list Z) : Prop :=
  Forall is_byte b /\ (4 * n <= length b)%nat /\ Forall (fun x => 1 <= x) (firstn n b).

(** The random bytes an empty message is filled with. *)
Definition tail_filler (rnd : Z -> list Z) : Prop :=
  forall cap, 0 <= cap -> zlen (rnd cap) = cap /\ Forall is_byte (rnd cap).

Section Codable.
Context {St : Type}.
Variable cdf_fun : list Z -> St -> list Z * list Z * St.
Variable inverse_cdf_fun : list Z -> St -> list Z * list Z * list Z * St.

(** The encoder in CDF state [se] and the decoder in state [sd] agree on one row
    of symbols: every value of the encoder's interval makes the decoder find the
    same interval and the row; the states move to [se'] and [sd']. *)
Definition codable (n : nat) (p : Z) (row : list Z) (se se' sd sd' : St) : Prop :=
  exists lo hi,
    cdf_fun row se = (lo, hi, se') /\ length lo = n /\ intervals p lo hi /\
    forall v, inside v lo hi -> inverse_cdf_fun v sd = (lo, hi, row, sd').

(** A whole message: rows are pushed last to first and popped first to last. *)
Inductive codable_message (n : nat) (p : Z)
  : list (list Z) -> St -> St -> St -> St -> Prop :=
| codable_nil se sd : codable_message n p [] se se sd sd
| codable_cons row rows se se1 se2 sd sd1 sd2 :
    codable_message n p rows se se1 sd1 sd2 ->
    codable n p row se1 se2 sd sd1 ->
    codable_message n p (row :: rows) se se2 sd sd2.
End Codable.

(** The buffer of an empty message with [n] lanes: heads 2^24, empty tail. *)
Definition fresh_buffer (n : nat) : list Z := repeat 1 n ++ repeat 0 (3 * n).

(** An encoded buffer fits a tail capacity: with [k] the number of tail bytes it
    stands for ([length - 4 n - 1]), at least [n] bytes of capacity are left. *)
Definition fits (n : nat) (cap : Z) (b : list Z) : Prop :=
  (zlen b - 4 * Z.of_nat n - 1) + Z.of_nat n <= cap.

(** One batch element for a round trip: start buffer, message, encoder and decoder
    CDF states. *)
Definition item (St : Type) : Type := option (list Z) * list (list Z) * St * St.

(** Textbook rANS step of one lane: drop the [k] low bytes that make the state
    fit, then insert the symbol. *)
Definition rans_lane (p lo hi x x' : Z) : Prop :=
  exists k y, 0 <= k <= 3 /\ y = x / 256 ^ k /\
    (hi - lo) * 2 ^ (24 - p) <= y < (hi - lo) * 2 ^ (32 - p) /\
    x' = y / (hi - lo) * 2 ^ p + y mod (hi - lo) + lo.

(** Messages reachable from an empty one by any pushes and pops with valid
    intervals (a pop uses an interval that contains the value on top). *)
Inductive reachable (ns : Z -> Z -> Z -> Z) (n : nat) : msg -> Prop :=
| reach_empty cap rnd : 0 <= cap -> tail_filler rnd ->
    reachable ns n (empty_message n cap rnd)
| reach_push m m' p lo hi : reachable ns n m ->
    0 <= p <= 24 -> length lo = n -> intervals p lo hi ->
    push_symbols ns m lo hi p = Ok m' -> reachable ns n m'
| reach_pop m m' p lo hi allow : reachable ns n m ->
    0 <= p <= 24 -> length lo = n -> intervals p lo hi -> inside (peek m p) lo hi ->
    pop_symbols ns m (peek m p) lo hi p allow = Ok m' -> reachable ns n m'.

(** A CDF table over [p] bits: starts at 0, ends at 2^p, never decreases. *)
Definition cdf_table (p : Z) (cdf : list Z) : Prop :=
  nth 0 cdf 0 = 0 /\ last cdf 0 = 2 ^ p /\
  forall i j : nat, (i <= j)%nat -> (j < length cdf)%nat -> nth i cdf 0 <= nth j cdf 0.

(** Symbol [s] has positive frequency in the table. *)
Definition has_freq (cdf : list Z) (s : Z) : Prop :=
  0 <= s /\ (Z.to_nat s + 1 < length cdf)%nat /\
  nth (Z.to_nat s) cdf 0 < nth (Z.to_nat s + 1) cdf 0.

(** The intervals used by an encode of a message, in push order. *)
Fixpoint push_intervals {St} (cdf_fun : list Z -> St -> list Z * list Z * St)
    (rows : list (list Z)) (se : St) : list (Z * Z) :=
  match rows with
  | [] => []
  | r :: rows' =>
      let '(lo, hi, se') := cdf_fun r se in
      combine lo hi ++ push_intervals cdf_fun rows' se'
  end.

(** One row can be coded by a codec whose state is discarded. *)
Definition row_codable {St} (cdf_fun : list Z -> St -> list Z * list Z * St)
    (inverse_cdf_fun : list Z -> St -> list Z * list Z * list Z * St)
    (n : nat) (p : Z) (st : St) (row : list Z) : Prop :=
  exists s1 s2, codable cdf_fun inverse_cdf_fun n p row st s1 st s2.

(** A codec that can decode anything: every vector of [p]-bit values falls in the
    interval of some row of symbols, which the encoder maps to that interval. *)
Definition decodes_all {St} (cdf_fun : list Z -> St -> list Z * list Z * St)
    (inverse_cdf_fun : list Z -> St -> list Z * list Z * list Z * St)
    (n : nat) (p : Z) (st : St) (support : list Z -> Prop) : Prop :=
  forall v, length v = n -> Forall (fun x => 0 <= x < 2 ^ p) v ->
  exists lo hi z s1 s2,
    inverse_cdf_fun v st = (lo, hi, z, s1) /\ length lo = n /\ intervals p lo hi /\
    inside v lo hi /\ cdf_fun z st = (lo, hi, s2) /\ support z.

(** The buffer an encode starts from, and when it is well formed. *)
Definition start_buffer (n : nat) (start : option (list Z)) : list Z :=
  match start with Some b => b | None => fresh_buffer n end.

Definition start_ok (n : nat) (start : option (list Z)) : Prop :=
  match start with Some b => valid_buffer n b | None => True end.

(** Histories of appends. *)
Section History.
Variable ns : Z -> Z -> Z -> Z.
Context {St : Type}.
Variables (n : nat) (rnd : Z -> list Z).

(** One append: its codec, CDF states, message, and the decoder's capacity. *)
Record entry := mk_entry {
  e_cdf : list Z -> St -> list Z * list Z * St;
  e_inv : list Z -> St -> list Z * list Z * list Z * St;
  e_p : Z; e_s0 : St; e_enc : St; e_dec : St;
  e_rows : list (list Z); e_cap : Z }.

Definition e_codec (e : entry) : codec St :=
  default_rans_codec ns (e_cdf e) (e_inv e) (e_s0 e) (e_p e) false.

(** [history start h b]: buffer [b] results from encoding the messages of [h]
    (latest first) one after the other onto [start]. *)
Inductive history (start : option (list Z)) : list entry -> list Z -> Prop :=
| hist_one e cap out s se' sd' :
    0 <= e_p e <= 24 -> 0 <= cap ->
    codable_message (e_cdf e) (e_inv e) n (e_p e) (e_rows e) (e_enc e) se' (e_dec e) sd' ->
    encode_one (e_codec e) n cap rnd start (e_rows e) (e_enc e) = Ok (out, s) ->
    fits n cap out -> fits n (e_cap e) out ->
    history start [e] out
| hist_more e h b cap out s se' sd' :
    history start h b ->
    0 <= e_p e <= 24 -> 0 <= cap ->
    codable_message (e_cdf e) (e_inv e) n (e_p e) (e_rows e) (e_enc e) se' (e_dec e) sd' ->
    encode_one (e_codec e) n cap rnd (Some b) (e_rows e) (e_enc e) = Ok (out, s) ->
    fits n cap out -> fits n (e_cap e) out ->
    history start (e :: h) out.

(** Successive decodes, each on the bytes the previous one left. *)
Fixpoint peel (h : list entry) (b : list Z) : res (list (list (list Z)) * list Z) :=
  match h with
  | [] => Ok ([], b)
  | e :: h' =>
      do (rows, rest0, _) <-
        decode_one (e_codec e) (length (e_rows e)) n (e_cap e) b (e_dec e);
      do (rest, left1) <- peel h' rest0;
      Ok (rows :: rest, left1)
  end.

End History.

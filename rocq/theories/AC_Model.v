(** Model of projects/jax_entropy_coders/jax_arithmetic_coder.py *)
From Coq Require Import ZArith List Bool Lia.
From Verif Require Import Base FDiv.
Import ListNotations.
Open Scope Z_scope.

(* jax_arithmetic_coder.py L20-24 *)
Definition MAX_CODE : Z := 4294967295.
Definition ONE_HALF : Z := 2147483648.
Definition ONE_FOURTH : Z := 1073741824.
Definition THREE_FOURTHS : Z := 3221225472.
Definition PREC_COUNT : Z := 65536.

(** The output bit buffer: the array being filled, the byte under construction,
    the index where it will be stored and the number of bits it holds.
    Simplification: [idx], [bit_idx] (int32) are unbounded naturals. *)
Record bitbuf := mkbuf { arr : list Z; cur : Z; idx : nat; bit_idx : nat }.

(* L27-48 _append_bit *)
Definition append_bit (bit : bool) (b : bitbuf) : bitbuf :=
  let byte := Z.lor (u8 (Z.shiftl (cur b) 1)) (Z.b2z bit) in
  let bi := S (bit_idx b) in
  let '(a, byte) := if Nat.eqb bi 8 then (index_update (arr b) (idx b) byte, 0)
                    else (arr b, byte) in
  mkbuf a byte (idx b + Nat.div bi 8) (Nat.modulo bi 8).

(* L51-75 _append_bit_and_pending.
   Simplification: pending_bits (int32) is an unbounded natural. *)
Definition append_bit_and_pending (bit : bool) (pending : nat) (b : bitbuf) : bitbuf :=
  Nat.iter pending (append_bit (negb bit)) (append_bit bit b).

(* L78-85 _retrieve_bit; the array read clamps. *)
Definition retrieve_bit (i bi : nat) (a : list Z) : bool * nat * nat :=
  let c := gather a i in
  let bit := Z.ltb 0 (Z.land (Z.shiftr c (7 - Z.of_nat bi)) 1) in
  (bit, (i + Nat.div (bi + 1) 8)%nat, Nat.modulo (bi + 1) 8).

(* L201 and L321 span = uint64(high) - uint64(low) + 1 *)
Definition span_of (low high : Z) : Z := u64 (high - low + 1).

(* L207-210 and L333-336: narrow the range using the CDF values; precision 16. *)
Definition narrow_high (low span range_high : Z) : Z :=
  u32 (low + u32 (Z.shiftr (u64 (span * range_high)) 16) - 1).
Definition narrow_low (low span range_low : Z) : Z :=
  u32 (low + u32 (Z.shiftr (u64 (span * range_low)) 16)).

(* L192-198 / L312-318 condition of both while loops *)
Definition renorm_cond (high low : Z) : bool :=
  (high <? ONE_HALF) || (ONE_HALF <=? low)
  || ((ONE_FOURTH <=? low) && (high <? THREE_FOURTHS)).

(* L164-174 / L288-298: first true branch; argmax of all-false is 0 *)
Inductive branch := Bzero | Bone | Bquarter.
Definition choose_branch (high low : Z) : branch :=
  if high <? ONE_HALF then Bzero
  else if ONE_HALF <=? low then Bone
  else if (ONE_FOURTH <=? low) && (high <? THREE_FOURTHS) then Bquarter
  else Bzero.

(** Encoder interval state. *)
Record encst := mkenc { e_high : Z; e_low : Z; e_pending : nat; e_buf : bitbuf }.

(* L128-190 choose_branch_and_execute of _enqueue *)
Definition enc_step (s : encst) : encst :=
  let '(high, low, pending, buf) :=
    match choose_branch (e_high s) (e_low s) with
    | Bzero => (e_high s, e_low s, O, append_bit_and_pending false (e_pending s) (e_buf s))
    | Bone => (e_high s, e_low s, O, append_bit_and_pending true (e_pending s) (e_buf s))
    | Bquarter => (u32 (e_high s - ONE_FOURTH), u32 (e_low s - ONE_FOURTH),
                   S (e_pending s), e_buf s)
    end in
  mkenc (Z.land (u32 (u32 (Z.shiftl high 1) + 1)) MAX_CODE)
        (Z.land (u32 (Z.shiftl low 1)) MAX_CODE) pending buf.

(* L213-217 lax.while_loop; [Diverges] when the fuel is used up *)
Fixpoint enc_loop (fuel : nat) (s : encst) : res encst :=
  if renorm_cond (e_high s) (e_low s) then
    match fuel with
    | O => Raise Diverges
    | S f => enc_loop f (enc_step s)
    end
  else Ok s.

(** Fuel given to each renormalisation loop. *)
Definition RENORM_FUEL : nat := 64.

Section Coder.
  (** State types of the user's CDF callables. *)
  Context {ST ST' : Type}.
  Variable cdf_fun : Z -> ST -> Z * Z * ST.
  Variable inverse_cdf_fun : Z -> ST' -> Z * Z * Z * ST'.

  (* L88-219 _enqueue *)
  Definition enqueue (symbol : Z) (s : encst) (cs : ST) : res (encst * ST) :=
    let span := span_of (e_low s) (e_high s) in
    let '(range_low, range_high, cs') := cdf_fun symbol cs in
    let high := narrow_high (e_low s) span range_high in
    let low := narrow_low (e_low s) span range_low in
    do s' <- enc_loop RENORM_FUEL (mkenc high low (e_pending s) (e_buf s));
    Ok (s', cs').

  (* L391-405 fori_loop over the message *)
  Fixpoint enqueue_all (m : list Z) (s : encst) (cs : ST) : res (encst * ST) :=
    match m with
    | [] => Ok (s, cs)
    | x :: m' => do (s', cs') <- enqueue x s cs; enqueue_all m' s' cs'
    end.

  (* L348-433 _jax_encode; [cap] is int(buffer_oversize * len(message)).
     int_array[0] (L397) raises IndexError for an empty buffer. *)
  Definition jax_encode (m : list Z) (cs : ST) (cap : nat) : res (list Z * nat) :=
    if Nat.eqb cap 0 then Raise IndexError else
    let buf0 := mkbuf (repeat 0 cap) (nth 0 (repeat 0 cap) 0) 0 0 in
    do (s, _) <- enqueue_all m (mkenc MAX_CODE 0 0 buf0) cs;
    let pending := S (e_pending s) in
    let buf := append_bit_and_pending (negb (e_low s <? ONE_FOURTH)) pending (e_buf s) in
    Ok (index_update (arr buf) (idx buf)
          (u8 (Z.shiftl (cur buf) (8 - Z.of_nat (bit_idx buf)))), idx buf).

  (* L536-587 encode: a batch of messages with one CDF state each. *)
  Definition encode (ms : list (list Z * ST)) (cap : nat) : res (list (list Z)) :=
    do outs <- mapM (fun '(m, cs) => jax_encode m cs cap) ms;
    if existsb (fun '(b, i) => Nat.ltb (length b) i) outs then Raise RuntimeError
    else Ok (map (fun '(b, i) => firstn (i + 1) b) outs).

  (** Decoder interval state: value, high, low and read position. *)
  Record decst := mkdec { d_value : Z; d_high : Z; d_low : Z; d_idx : nat; d_bit : nat }.

  (* L283-310 choose_branch_and_execute of _dequeue *)
  Definition dec_step (a : list Z) (s : decst) : decst :=
    let '(value, high, low) :=
      match choose_branch (d_high s) (d_low s) with
      | Bzero => (d_value s, d_high s, d_low s)
      | Bone => (u32 (d_value s - ONE_HALF), u32 (d_high s - ONE_HALF),
                 u32 (d_low s - ONE_HALF))
      | Bquarter => (u32 (d_value s - ONE_FOURTH), u32 (d_high s - ONE_FOURTH),
                     u32 (d_low s - ONE_FOURTH))
      end in
    let low := u32 (Z.shiftl low 1) in
    let high := u32 (u32 (Z.shiftl high 1) + 1) in
    let value := u32 (Z.shiftl value 1) in
    let '(bit, i, bi) := retrieve_bit (d_idx s) (d_bit s) a in
    let value := u32 (value + Z.b2z bit * Z.b2z (Nat.ltb i (length a))) in
    mkdec value high low i bi.

  (* L339-343 lax.while_loop *)
  Fixpoint dec_loop (fuel : nat) (a : list Z) (s : decst) : res decst :=
    if renorm_cond (d_high s) (d_low s) then
      match fuel with
      | O => Raise Diverges
      | S f => dec_loop f a (dec_step a s)
      end
    else Ok s.

  (* L323-325 scaled_value.  The division is a float64 division, truncated.  The
     conversion of a float outside of the uint16 range, which the platform decides,
     keeps the low bits here. *)
  Definition scaled_value (value low span : Z) : Z :=
    u16 (int_of_double (true_divide (u64 (u64 (u64 (value - low + 1) * PREC_COUNT) - 1)) span)).

  (* L222-345 _dequeue *)
  Definition dequeue (a : list Z) (s : decst) (cs : ST') : res (Z * decst * ST') :=
    let span := span_of (d_low s) (d_high s) in
    let '(range_low, range_high, symbol, cs') :=
      inverse_cdf_fun (scaled_value (d_value s) (d_low s) span) cs in
    let high := narrow_high (d_low s) span range_high in
    let low := narrow_low (d_low s) span range_low in
    do s' <- dec_loop RENORM_FUEL a (mkdec (d_value s) high low (d_idx s) (d_bit s));
    Ok (symbol, s', cs').

  (* L490-505 fori_loop; the message array has dtype uint8 (L445) *)
  Fixpoint dequeue_n (n : nat) (a : list Z) (s : decst) (cs : ST') : res (list Z) :=
    match n with
    | O => Ok []
    | S n' => do (x, s', cs') <- dequeue a s cs;
              do m <- dequeue_n n' a s' cs'; Ok (u8 x :: m)
    end.

  (* L472-487 read the first 32 bits *)
  Definition append_bit_to_value (a : list Z) (v : Z * nat * nat) : Z * nat * nat :=
    let '(value, i, bi) := v in
    let '(bit, i', bi') := retrieve_bit i bi a in
    (u32 (u32 (Z.shiftl value 1) + Z.b2z bit), i', bi').

  (* L436-507 _jax_decode *)
  Definition jax_decode (n : nat) (a : list Z) (cs : ST') : res (list Z) :=
    let '(value, i, bi) := Nat.iter 32 (append_bit_to_value a) (0, O, O) in
    dequeue_n n a (mkdec value MAX_CODE 0 i bi) cs.

  Definition list_max (l : list nat) : nat := fold_right Nat.max O l.

  (* L590-656 decode: elements are (bytes, message_len, state).  All byte
     strings are zero padded to the longest (L639-648) and decoded to the
     longest message length (L629), then truncated (L653-654; truncation is
     skipped when all lengths are equal, which is the same). *)
  Definition decode (ds : list (list Z * nat * ST')) : res (list (list Z)) :=
    let max_len := list_max (map (fun '(b, _, _) => length b) ds) in
    let max_message_len := list_max (map (fun '(_, ml, _) => ml) ds) in
    mapM (fun '(b, ml, cs) =>
            do m <- jax_decode max_message_len (b ++ repeat 0 (max_len - length b)) cs;
            Ok (firstn ml m)) ds.
End Coder.

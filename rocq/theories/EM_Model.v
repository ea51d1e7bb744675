(** Model of the autoregressive coder of projects/torch_vct/neural/entropy_model.py.

    A patched latent [b', seq_len_dec, C] is a list of seq_len_dec tokens; a token is the
    list of its b' * C entries in row-major order ([tokens_of], [of_tokens]).  The
    transformer (_get_transformer_output, L257-298) is an arbitrary function [net] of the
    context and of the tokens, giving a mean, a scale and an output per token.  Not
    modelled: validate_causal=True (L422-452), the discrepancy message on stderr
    (L676-682), devices. *)
From Coq Require Import Arith List Bool Reals.
From Verif Require Import Base RFloat Tensor Patch_Model Gsn_Model.
Import ListNotations.
Open Scope nat_scope.

Notation token := (list R).

Definition nth_res {A} (l : list A) (i : nat) : res A :=
  match nth_error l i with Some a => Ok a | None => Raise IndexError end.
Fixpoint upd {A} (l : list A) (i : nat) (a : A) : list A :=
  match l, i with
  | [], _ => []
  | _ :: l', O => a :: l'
  | b :: l', S i' => b :: upd l' i' a
  end.
(** Python index i - 1: -1 is the last position. *)
Definition prev_idx (n i : nat) : nat := match i with O => n - 1 | S i' => i' end.

(** entropy_model.py L300-331 (_get_encoded_seqs).  The ValueError of L330 is built but
    not raised. *)
Definition get_encoded_seqs {E} (context_len : nat) (seqs : list E) : res (list E) :=
  if length seqs <? context_len then
    if context_len =? 2 then Ok (seqs ++ seqs)
    else if context_len =? 3 then
      match seqs with
      | [a] => Ok [a; a; a]
      | a :: b :: _ => Ok [a; a; b]
      | [] => Raise IndexError
      end
    else Ok seqs
  else Ok seqs.

Section EM.
(** The bottleneck of L125-127 (or any other parameters). *)
Variables (num_means num_scales : Z) (min_scale : R).
Context {B E D : Type}.
Variable ec_compress : list Z -> list Z -> res B.
Variable ec_decompress : B -> list Z -> res (list Z).
Notation bn_compress := (gsn_compress num_means num_scales min_scale ec_compress).
Notation bn_decompress := (gsn_decompress num_means num_scales min_scale ec_decompress).

(** Means, scales and decoder outputs per token. *)
Definition net_type : Type := E -> list token -> list token * list token * list D.

(** State of the loop of _encode: strings, quantized, autoreg_means, autoreg_scales,
    dec_output. *)
Record est := mkEst {
  e_strings : list B; e_quant : list token; e_means : list token; e_scales : list token; e_out : list D
}.

(** entropy_model.py L573-596: the loop of _encode. *)
Fixpoint enc_loop (net : net_type) (encoded : E) (latent : list token) (seq_len : nat)
    (idxs : list nat) (prev : option (token * token)) (st : est) : res est :=
  match idxs with
  | [] => Ok st
  | i :: rest =>
      do (st, stop) <-
        match prev with
        | Some (prev_mean, prev_scale) =>
            do latent_i <- nth_res latent (prev_idx seq_len i);
            do (q, s) <- bn_compress latent_i prev_scale prev_mean;
            Ok (mkEst (e_strings st ++ [s]) (upd (e_quant st) (prev_idx seq_len i) q)
                  (e_means st) (e_scales st) (e_out st), i =? 0)
        | None => Ok (st, false)
        end;
      if (stop : bool) then Ok st
      else
        let '(means, scales, outs) := net encoded (e_quant st) in
        do m <- nth_res means i;
        do s <- nth_res scales i;
        do o <- nth_res outs i;
        enc_loop net encoded latent seq_len rest (Some (m, s))
          (mkEst (e_strings st) (e_quant st) (upd (e_means st) i m) (upd (e_scales st) i s)
             (upd (e_out st) i o))
  end.

(** entropy_model.py L535-606 (_encode): tensors filled with 10 and 100. *)
Definition fill_tokens (l : list token) (v : R) : list token := map (map (fun _ => v)) l.
Definition em_encode (net : net_type) (fill_out : D) (encoded : E) (latent : list token) (seq_len : nat) : res est :=
  enc_loop net encoded latent seq_len (seq 0 seq_len ++ [0]) None
    (mkEst [] (fill_tokens latent 10) (fill_tokens latent 100) (fill_tokens latent 100)
       (map (fun _ => fill_out) latent)).

(** entropy_model.py L647-684: the loop of _decode. *)
Fixpoint dec_loop (net : net_type) (encoded : E) (use_enc : bool) (enc_means enc_scales : list token) (seq_len : nat)
    (idxs : list nat) (prev : option (token * token)) (strings : list B) (dec : list token) :
    res (list B * list token) :=
  match idxs with
  | [] => Ok (strings, dec)
  | i :: rest =>
      do (strings, dec, stop) <-
        match prev with
        | Some (prev_mean, prev_scale) =>
            match strings with
            | [] => Raise IndexError
            | s :: strings' =>
                do d <- bn_decompress s prev_scale prev_mean;
                Ok (strings', upd dec (prev_idx seq_len i) d, i =? 0)
            end
        | None => Ok (strings, dec, false)
        end;
      if (stop : bool) then Ok (strings, dec)
      else
        let '(means, scales, _) := net encoded dec in
        do am <- nth_res means i;
        do as_ <- nth_res scales i;
        do tm <- nth_res enc_means i;
        do ts <- nth_res enc_scales i;
        dec_loop net encoded use_enc enc_means enc_scales seq_len rest
          (Some (if use_enc then (tm, ts) else (am, as_))) strings dec
  end.

(** entropy_model.py L608-691 (_decode) without the patching; [blank] is the placeholder
    for the result, filled with 10. *)
Definition em_decode (net : net_type) (encoded : E) (use_enc : bool) (enc_means enc_scales : list token)
    (strings : list B) (blank : list token) (seq_len : nat) : res (list token) :=
  do (rest, dec) <- dec_loop net encoded use_enc enc_means enc_scales seq_len (seq 0 seq_len ++ [0]) None strings
                      (fill_tokens blank 10);
  match rest with [] => Ok dec | _ => Raise AssertionError end.

(** (a == b).all() *)
Definition all_equal (a b : tensor R) : bool :=
  if list_eq_dec Nat.eq_dec (tshape a) (tshape b) then
    forallb (fun k => if Req_EM_T (tat a (unravel (tshape a) k)) (tat b (unravel (tshape a) k)) then true else false)
      (seq 0 (prod (tshape a)))
  else false.

(** Tokens of a patched tensor, and back. *)
Definition tokens_of (t : tensor R) : list token :=
  match tshape t with
  | [n; l; c] => map (fun i => map (fun k => tat t [k / c; i; k mod c]) (seq 0 (n * c))) (seq 0 l)
  | _ => []
  end.
Definition of_tokens (n l c : nat) (ts : list token) : tensor R :=
  mkT [n; l; c] (fun idx => match idx with
                            | [a; i; k] => nth (a * c + k) (nth i ts []) 0%R
                            | _ => 0%R
                            end).

(** entropy_model.py L635-640, L686-691: _decode with its patching, for an output of
    shape [1, c, h, w]. *)
Definition em_decode_latent (net : net_type) (window : nat) (encoded : E) (use_enc : bool) (enc_means enc_scales : list token)
    (strings : list B) (h w c : nat) : res (tensor R) :=
  do (fake, n) <- forward window Reflect (mkT [1; c; h; w] (fun _ => 1%R)) window;
  do d <- em_decode net encoded use_enc enc_means enc_scales strings (tokens_of fake) (window * window);
  unpatch window (of_tokens (nth 0 (tshape fake) 0) (window * window) c d, n) (Some (h, w)) true.

(** entropy_model.py L454-533 (compress): the decoded latent, the strings (whose total
    length is the bits result) and the encoder's means and scales.  [window] is
    window_size_dec; [encoded] is the concatenated context of L484-486. *)
Definition em_compress (net : net_type) (fill_out : D) (window : nat) (encoded : E) (latent : tensor R) (run_decode : bool) :
    res (tensor R * list B * (list token * list token)) :=
  match tshape latent with
  | [b; c; h; w] =>
      if negb (b =? 1) then Raise AssertionError
      else
        do (p, n) <- forward window Reflect latent window;
        do st <- em_encode net fill_out encoded (tokens_of p) (window * window);
        let ret decoded := Ok (decoded, e_strings st, (e_means st, e_scales st)) in
        if run_decode then
          do decoded <- em_decode_latent net window encoded true (e_means st) (e_scales st) (e_strings st) h w c;
          do dequantized <- unpatch window (of_tokens (nth 0 (tshape p) 0) (window * window) c (e_quant st), n) (Some (h, w)) true;
          if all_equal decoded dequantized then ret decoded else Raise AssertionError
        else ret (mkT (tshape latent) (fun i => skip_decode (tat latent i)))
  | _ => Raise ValueError
  end.
End EM.

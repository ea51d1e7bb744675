(** Lemmas for the autoregressive coder. *)
From Coq Require Import Arith List Bool Lia Reals.
From Verif Require Import Base RFloat Tensor Patch_Model Gsn_Model Gsn_Spec Gsn_Proofs EM_Model EM_Spec.
Import ListNotations.
Open Scope nat_scope.

Lemma upd_length {A} (l : list A) i a : length (upd l i a) = length l.
Proof. revert i. induction l as [|b l IH]; intros [|i]; cbn; auto. Qed.
Lemma upd_nth_same {A} (l : list A) i a d : i < length l -> nth i (upd l i a) d = a.
Proof. revert i. induction l as [|b l IH]; intros [|i] H; cbn in *; try lia; auto. apply IH. lia. Qed.
Lemma upd_nth_other {A} (l : list A) i j a d : i <> j -> nth j (upd l i a) d = nth j l d.
Proof.
  revert i j. induction l as [|b l IH]; intros [|i] [|j] H; cbn; try reflexivity; try lia. apply IH. lia.
Qed.
Lemma upd_Forall {A} (P : A -> Prop) (l : list A) i a : Forall P l -> P a -> Forall P (upd l i a).
Proof.
  intros F H. revert i. induction F as [|b l Hb F IH]; intros [|i]; cbn; auto.
Qed.
Lemma nth_res_ok {A} (l : list A) i d : i < length l -> nth_res l i = Ok (nth i l d).
Proof.
  intro H. unfold nth_res. rewrite (nth_error_nth' l d H). reflexivity.
Qed.
Lemma Forall_nth_lt {A} (P : A -> Prop) l i d : Forall P l -> i < length l -> P (nth i l d).
Proof. intros F H. rewrite Forall_forall in F. apply F, nth_In, H. Qed.

Section P.
Variables (nm ns : Z) (ms : R).
Context {B E D : Type}.
Variable ec_compress : list Z -> list Z -> res B.
Variable ec_decompress : B -> list Z -> res (list Z).
Variable ok : Z -> Prop.
Hypothesis Hnm : (1 <= nm)%Z.
Hypothesis Hns : (1 <= ns)%Z.
Hypothesis EC : lossless_coder ec_compress ec_decompress (nm * ns) ok.
Hypothesis OK32 : forall z, ok z -> in_int32 z.
Variable net : @net_type E D.
Variables (L w : nat) (enc : E) (latent : list token).
Hypothesis HL : 1 <= L.
Hypothesis NS : net_shape net L w.
Hypothesis SF : symbols_fit net L w enc latent ok.
Hypothesis LL : length latent = L.
Hypothesis LW : Forall (fun t => length t = w) latent.

Notation W := (Forall (fun t : token => length t = w)).
Notation encl := (enc_loop nm ns ms ec_compress net enc latent L).
Notation decl := (dec_loop nm ns ms ec_decompress).

Definition wf (st : @est B D) : Prop :=
  length (e_quant st) = L /\ length (e_means st) = L /\ length (e_scales st) = L /\ length (e_out st) = L /\
  W (e_quant st) /\ W (e_means st) /\ W (e_scales st).

(** Modes in which the decoder must reproduce the result. *)
Definition dec_mode (fin : @est B D) (net2 : @net_type E D) (enc2 : E) (use : bool) (m s : list token) : Prop :=
  length m = L /\ length s = L /\ net_shape net2 L w /\
  (use = true -> m = e_means fin /\ s = e_scales fin) /\ (use = false -> net2 = net /\ enc2 = enc).

(** The pair held in prev_mean, prev_scale when the loop reaches position [i]. *)
Definition prev_ok (st : @est B D) (i : nat) (prev : option (token * token)) : Prop :=
  match i with
  | O => prev = None
  | S i' => prev = Some (nth i' (e_means st) [], nth i' (e_scales st) []) /\
      length (nth i' (e_means st) []) = w /\ length (nth i' (e_scales st) []) = w /\
      Forall ok (map2 symbol (nth i' latent []) (nth i' (e_means st) []))
  end.

Lemma token_step i' m s : i' < L -> length m = w -> length s = w -> Forall ok (map2 symbol (nth i' latent []) m) ->
  exists b, gsn_compress nm ns ms ec_compress (nth i' latent []) s m = Ok (map2 quantised (nth i' latent []) m, b) /\
    gsn_decompress nm ns ms ec_decompress b s m = Ok (map2 quantised (nth i' latent []) m).
Proof.
  intros Hi Hm Hs F. destruct (gsn_round_trip nm ns ms ec_compress ec_decompress ok Hnm Hns EC OK32 (nth i' latent []) s m) as (b & _ & _ & _ & H); try congruence; [|now exists b].
  rewrite Hm. apply (Forall_nth_lt (fun t => length t = w)); [exact LW|lia].
Qed.

(** Means and scales of token [j] are what the network predicts from tokens that start
    like [q] (before [j]) and continue like [q0]. *)
Definition predicted (fin : @est B D) (q0 : list token) (j : nat) : Prop :=
  exists toks means scales outs, net enc toks = (means, scales, outs) /\
    nth j (e_means fin) [] = nth j means [] /\ nth j (e_scales fin) [] = nth j scales [] /\
    length toks = L /\ W toks /\
    (forall k, k < j -> nth k toks [] = nth k (e_quant fin) []) /\
    (forall k, j <= k < L -> nth k toks [] = nth k q0 []).

Lemma loop_from k : forall i prev st, i + k = L -> wf st -> prev_ok st i prev ->
  exists fin new, encl (seq i k ++ [0]) prev st = Ok fin /\ e_strings fin = e_strings st ++ new /\
    length new = L - (i - 1) /\ wf fin /\
    (forall j, j < i -> nth j (e_means fin) [] = nth j (e_means st) [] /\ nth j (e_scales fin) [] = nth j (e_scales st) []) /\
    (forall j, j < i - 1 -> nth j (e_quant fin) [] = nth j (e_quant st) []) /\
    (forall j, i - 1 <= j < L -> nth j (e_quant fin) [] = map2 quantised (nth j latent []) (nth j (e_means fin) [])) /\
    (forall j, i <= j < L -> predicted fin (e_quant st) j) /\
    (forall net2 enc2 use m s rest, dec_mode fin net2 enc2 use m s ->
       decl net2 enc2 use m s L (seq i k ++ [0]) prev (new ++ rest) (e_quant st) = Ok (rest, e_quant fin)).
Proof.
  induction k as [|k IH]; intros i prev st Hik WF PO.
  - destruct i as [|i']; [lia|]. destruct PO as (-> & Lm & Ls & FS). assert (i' = L - 1) by lia. subst i'.
    destruct (token_step (L - 1) _ _ ltac:(lia) Lm Ls FS) as (b & EC1 & EC2).
    cbn [seq app enc_loop dec_loop]. cbn [prev_idx]. rewrite (nth_res_ok latent (L - 1) []) by lia. cbn [bind].
    rewrite EC1. cbn [bind Nat.eqb]. 
    destruct WF as (W1 & W2 & W3 & W4 & W5 & W6 & W7).
    assert (WQ : length (map2 quantised (nth (L - 1) latent []) (nth (L - 1) (e_means st) [])) = w).
    { rewrite map2_length.
      - apply (Forall_nth_lt (fun t => length t = w)); [exact LW|lia].
      - rewrite Lm. apply (Forall_nth_lt (fun t => length t = w)); [exact LW|lia]. }
    eexists. exists [b]. split; [reflexivity|]. cbn [e_strings e_quant e_means e_scales e_out].
    split; [reflexivity|]. split; [cbn; lia|]. split.
    { repeat split; cbn; try assumption; [rewrite upd_length; exact W1|]; apply upd_Forall; assumption. }
    split; [auto|]. split. { intros j Hj. apply upd_nth_other. lia. }
    split. { intros j Hj. assert (j = L - 1) by lia. subst j. rewrite upd_nth_same by lia. reflexivity. }
    split. { intros j Hj. lia. }
    intros net2 enc2 use m s rest _. cbn [app]. rewrite EC2. reflexivity.
  - assert (Hi : i < L) by lia.
    (* First half of the iteration: code the previous token. *)
    assert (FH : exists st1 new1,
      (match prev with
       | Some (prev_mean, prev_scale) =>
           do latent_i <- nth_res latent (prev_idx L i);
           do (q, s) <- gsn_compress nm ns ms ec_compress latent_i prev_scale prev_mean;
           Ok (mkEst (e_strings st ++ [s]) (upd (e_quant st) (prev_idx L i) q) (e_means st) (e_scales st) (e_out st), i =? 0)
       | None => Ok (st, false)
       end) = Ok (st1, false) /\ wf st1 /\
      e_means st1 = e_means st /\ e_scales st1 = e_scales st /\ e_strings st1 = e_strings st ++ new1 /\
      length new1 = (match i with O => 0 | _ => 1 end) /\
      (forall j, j < i - 1 -> nth j (e_quant st1) [] = nth j (e_quant st) []) /\
      (forall j, i <= j -> nth j (e_quant st1) [] = nth j (e_quant st) []) /\
      (forall j, S j = i -> nth j (e_quant st1) [] = map2 quantised (nth j latent []) (nth j (e_means st) [])) /\
      (forall rest, match prev with
        | Some (prev_mean, prev_scale) =>
            match new1 ++ rest with
            | [] => Raise IndexError
            | s :: strings' =>
                do d <- gsn_decompress nm ns ms ec_decompress s prev_scale prev_mean;
                Ok (strings', upd (e_quant st) (prev_idx L i) d, i =? 0)
            end
        | None => Ok (new1 ++ rest, e_quant st, false)
        end = Ok (rest, e_quant st1, false))).
    { destruct i as [|i'].
      - cbn in PO. subst prev. exists st, []. split; [reflexivity|]. split; [exact WF|].
        split; [reflexivity|]. split; [reflexivity|]. split; [now rewrite app_nil_r|]. split; [reflexivity|].
        split; [auto|]. split; [auto|]. split; [intros; lia|]. intro rest. reflexivity.
      - destruct PO as (-> & Lm & Ls & FS). destruct (token_step i' _ _ ltac:(lia) Lm Ls FS) as (b & EC1 & EC2).
        cbn [prev_idx Nat.eqb]. rewrite (nth_res_ok latent i' []) by lia. cbn [bind]. rewrite EC1. cbn [bind].
        destruct WF as (W1 & W2 & W3 & W4 & W5 & W6 & W7).
        assert (WQ : length (map2 quantised (nth i' latent []) (nth i' (e_means st) [])) = w).
        { rewrite map2_length.
          - apply (Forall_nth_lt (fun t => length t = w)); [exact LW|lia].
          - rewrite Lm. apply (Forall_nth_lt (fun t => length t = w)); [exact LW|lia]. }
        eexists. exists [b]. split; [reflexivity|]. cbn [e_strings e_quant e_means e_scales e_out].
        split. { repeat split; cbn; try assumption; [rewrite upd_length; exact W1|]; apply upd_Forall; assumption. }
        split; [reflexivity|]. split; [reflexivity|]. split; [reflexivity|]. split; [reflexivity|].
        split. { intros j Hj. apply upd_nth_other. lia. }
        split. { intros j Hj. apply upd_nth_other. lia. }
        split. { intros j Hj. injection Hj as ->. rewrite upd_nth_same by lia. reflexivity. }
        intro rest. cbn [app]. rewrite EC2. reflexivity. }
    destruct FH as (st1 & new1 & F1 & WF1 & Fm & Fs & Fst & Fl & Fq & Fq3 & Fq2 & Fd).
    cbn [seq app enc_loop dec_loop]. rewrite F1. cbn [bind].
    destruct (net enc (e_quant st1)) as [[means scales] outs] eqn:EN.
    assert (WF1' := WF1). destruct WF1' as (W1 & W2 & W3 & W4 & W5 & W6 & W7).
    pose proof (NS enc (e_quant st1) W1 W5) as NN. rewrite EN in NN. destruct NN as (N1 & N2 & N3 & N4 & N5).
    rewrite (nth_res_ok means i []), (nth_res_ok scales i []) by lia. cbn [bind].
    destruct outs as [|o0 outs']; [cbn in N3; lia|]. rewrite (nth_res_ok (o0 :: outs') i o0) by lia. cbn [bind].
    set (m := nth i means []). set (s := nth i scales []). set (o := nth i (o0 :: outs') o0).
    set (st2 := mkEst (e_strings st1) (e_quant st1) (upd (e_means st1) i m) (upd (e_scales st1) i s) (upd (e_out st1) i o)).
    destruct (IH (S i) (Some (m, s)) st2) as (fin & new2 & EE & Est & Ln & WFf & Km & Kq & Kq2 & Kp & Kd).
    { lia. }
    { repeat split; cbn; rewrite ?upd_length; try assumption; apply upd_Forall; try assumption;
        apply (Forall_nth_lt (fun t => length t = w)); first [assumption|lia]. }
    { cbn. rewrite !upd_nth_same by lia. split; [reflexivity|].
      split; [apply (Forall_nth_lt (fun t => length t = w)); [exact N4|lia]|].
      split; [apply (Forall_nth_lt (fun t => length t = w)); [exact N5|lia]|].
      apply (SF (e_quant st1) means scales (o0 :: outs') i); assumption. }
    exists fin, (new1 ++ new2). split; [exact EE|].
    split. { rewrite Est. cbn [e_strings st2]. rewrite Fst, app_assoc. reflexivity. }
    split. { rewrite app_length, Fl, Ln. destruct i; lia. }
    split; [exact WFf|].
    split. { intros j Hj. destruct (Km j ltac:(lia)) as [K1 K2]. cbn [e_means e_scales st2] in K1, K2.
      rewrite K1, K2, !upd_nth_other by lia. rewrite Fm, Fs. auto. }
    split. { intros j Hj. rewrite Kq by lia. cbn [e_quant st2]. apply Fq. exact Hj. }
    split. { intros j Hj. destruct (le_lt_dec i j) as [G|G].
      - apply Kq2. lia.
      - rewrite Kq by lia. cbn [e_quant st2]. rewrite (Fq2 j ltac:(lia)). f_equal.
        destruct (Km j ltac:(lia)) as [K1 _]. rewrite K1. cbn [e_means st2]. rewrite upd_nth_other by lia. now rewrite Fm. }
    split. { intros j Hj. destruct (Nat.eq_dec i j) as [<-|NE].
      - exists (e_quant st1), means, scales, (o0 :: outs'). destruct (Km i ltac:(lia)) as [K1 K2].
        cbn [e_means e_scales st2] in K1, K2. rewrite upd_nth_same in K1, K2 by lia.
        split; [exact EN|]. split; [exact K1|]. split; [exact K2|]. split; [exact W1|]. split; [exact W5|]. split.
        + intros k0 Hk0. symmetry. apply Kq. lia.
        + intros k0 Hk0. apply Fq3. lia.
      - destruct (Kp j ltac:(lia)) as (toks & mm & ss & oo & P1 & P2 & P3 & P4 & P5 & P6 & P7).
        exists toks, mm, ss, oo. repeat (split; [assumption|]). intros k0 Hk0. rewrite P7 by exact Hk0.
        cbn [e_quant st2]. apply Fq3. lia. }
    intros net2 enc2 use m' s' rest DM. assert (DM' := DM). destruct DM' as (M1 & M2 & M3 & M4 & M5).
    rewrite <- app_assoc, Fd. cbn [bind].
    pose proof (M3 enc2 (e_quant st1) W1 W5) as NN. destruct (net2 enc2 (e_quant st1)) as [[means2 scales2] outs2] eqn:EN2.
    destruct NN as (P1 & P2 & P3 & P4 & P5).
    rewrite (nth_res_ok means2 i []), (nth_res_ok scales2 i []), (nth_res_ok m' i []), (nth_res_ok s' i []) by lia. cbn [bind].
    assert (PV : (if use then (nth i m' [], nth i s' []) else (nth i means2 [], nth i scales2 [])) = (m, s)).
    { destruct use.
      - destruct (M4 eq_refl) as [-> ->]. destruct (Km i ltac:(lia)) as [K1 K2]. cbn [e_means e_scales st2] in K1, K2.
        rewrite K1, K2, !upd_nth_same by lia. reflexivity.
      - destruct (M5 eq_refl) as [-> ->]. rewrite EN in EN2. injection EN2 as <- <- _. reflexivity. }
    rewrite PV. apply (Kd net2 enc2 use m' s' rest DM).
Qed.

Lemma fill_length (l : list token) v : length (fill_tokens l v) = length l.
Proof. apply map_length. Qed.
Lemma fill_W (l : list token) v : W l -> W (fill_tokens l v).
Proof. intro H. induction H; cbn; constructor; auto. now rewrite map_length. Qed.

Lemma encode_decode fo : exists st, em_encode nm ns ms ec_compress net fo enc latent L = Ok st /\
  length (e_strings st) = L /\ wf st /\
  (forall j, j < L -> nth j (e_quant st) [] = map2 quantised (nth j latent []) (nth j (e_means st) [])) /\
  (forall j, j < L -> predicted st (fill_tokens latent 10) j) /\
  forall net2 enc2 use m s blank, dec_mode st net2 enc2 use m s -> map (@length R) blank = map (@length R) latent ->
    em_decode nm ns ms ec_decompress net2 enc2 use m s (e_strings st) blank L = Ok (e_quant st).
Proof.
  unfold em_encode, em_decode.
  set (st0 := mkEst [] (fill_tokens latent 10) (fill_tokens latent 100) (fill_tokens latent 100) (map (fun _ => fo) latent)).
  destruct (loop_from L 0 None st0) as (fin & new & E1 & E2 & E3 & E4 & E5 & E6 & E7 & EP & E8).
  { reflexivity. }
  { repeat split; cbn; rewrite ?fill_length, ?map_length; try exact LL; apply fill_W; exact LW. }
  { reflexivity. }
  exists fin. split; [exact E1|]. rewrite E2. cbn [e_strings st0 app]. split; [lia|]. split; [exact E4|].
  split; [intros j Hj; apply E7; lia|]. split; [intros j Hj; apply EP; lia|]. intros net2 enc2 use m s blank DM Hb.
  assert (FB : fill_tokens blank 10 = fill_tokens latent 10).
  { clear - Hb. unfold fill_tokens. revert latent Hb. induction blank as [|t blank IH]; intros [|u l] H; try discriminate; [reflexivity|].
    cbn in *. injection H as H1 H2. f_equal; [|now apply IH].
    clear - H1. revert u H1. induction t as [|a t IH]; intros [|b u] H; try discriminate; [reflexivity|]. cbn in *. f_equal. apply IH. lia. }
  rewrite FB. specialize (E8 net2 enc2 use m s [] DM). rewrite app_nil_r in E8. cbn [e_quant st0] in E8.
  rewrite E8. reflexivity.
Qed.
End P.

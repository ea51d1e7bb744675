(** Encode and decode of one batch element, for any codec whose push and pop are
    inverse on the abstract machine. *)
From Coq Require Import ZArith List Bool Lia.
From Verif Require Import Base Rans_Model Rans_Spec Rans_Sort Rans_Lane Rans_Stack
  Rans_Refine Rans_Serial.
Import ListNotations.
Open Scope Z_scope.

Definition abs := (list Z * list Z)%type.

Section Coder.
Variable ns : Z -> Z -> Z -> Z.
Hypothesis Hns : slice_ok ns.
Context {St : Type}.
Variable c : codec St.
Variable n : nat.

Definition step (r : list Z) (se se' sd sd' : St) (b a : abs) : Prop :=
  good n a /\
  forall cap, Z.of_nat n + zlen (snd b) <= cap -> Z.of_nat n + zlen (snd a) <= cap ->
    (forall m, rep cap m b -> exists m', c_push c r m se = Ok (m', se') /\ rep cap m' a) /\
    (forall m, rep cap m a -> exists m', c_pop c false m sd = Ok (m', r, sd') /\ rep cap m' b).

Inductive run (D : Z) : list (list Z) -> St -> St -> St -> St -> abs -> abs -> Prop :=
| run_nil se sd b : good n b -> zlen (snd b) <= D -> run D [] se se sd sd b b
| run_cons r rows se se1 se2 sd sd1 sd2 b m a :
    run D rows se se1 sd1 sd2 b m ->
    step r se1 se2 sd sd1 m a -> zlen (snd a) <= D ->
    run D (r :: rows) se se2 sd sd2 b a.

Lemma run_good D rows se se' sd sd' b a : run D rows se se' sd sd' b a ->
  good n b /\ good n a /\ zlen (snd b) <= D /\ zlen (snd a) <= D.
Proof.
  induction 1 as [|r rows se se1 se2 sd sd1 sd2 b m a H IH HS HD]; [easy|].
  destruct HS as [HG _]. easy.
Qed.

Lemma push_rows_app rows1 : forall rows2 m st,
  push_rows c (rows1 ++ rows2) m st
  = bind (push_rows c rows1 m st) (fun '(m', st') => push_rows c rows2 m' st').
Proof.
  induction rows1 as [|r rows IH]; intros; cbn [app push_rows bind]; [reflexivity|].
  destruct (c_push c r m st) as [[m' st']|e]; cbn [bind]; [apply IH | reflexivity].
Qed.

Lemma run_push D rows se se' sd sd' b a cap : run D rows se se' sd sd' b a ->
  Z.of_nat n + D <= cap -> forall m, rep cap m b ->
  exists m', push_rows c (rev rows) m se = Ok (m', se') /\ rep cap m' a.
Proof.
  intros H HC. induction H as [|r rows se se1 se2 sd sd1 sd2 b m a H IH HS HD]; intros m0 HR.
  - cbn. eauto.
  - destruct (IH _ HR) as (m1 & E & R1). cbn [rev]. rewrite push_rows_app, E. cbn [bind push_rows].
    destruct (run_good _ _ _ _ _ _ _ _ H) as (_ & _ & _ & HD').
    destruct HS as [_ HS]. destruct (HS cap) as [HP _]; [lia | lia |].
    destruct (HP _ R1) as (m2 & E2 & R2). rewrite E2. cbn [bind]. eauto.
Qed.

Lemma run_pop D rows se se' sd sd' b a cap : run D rows se se' sd sd' b a ->
  Z.of_nat n + D <= cap -> forall m, rep cap m a ->
  exists m', pop_rows c (length rows) m sd = Ok (m', rows, sd') /\ rep cap m' b.
Proof.
  intros H HC. induction H as [|r rows se se1 se2 sd sd1 sd2 b m a H IH HS HD]; intros m0 HR.
  - cbn. eauto.
  - cbn [length pop_rows].
    destruct (run_good _ _ _ _ _ _ _ _ H) as (_ & _ & _ & HD').
    destruct HS as [_ HS]. destruct (HS cap) as [_ HP]; [lia | lia |].
    destruct (HP _ HR) as (m1 & E1 & R1). rewrite E1. cbn [bind].
    destruct (IH _ R1) as (m2 & E2 & R2). rewrite E2. cbn [bind]. eauto.
Qed.

Lemma rep_ptr cap m a : rep cap m a -> ptr m = cap - zlen (snd a).
Proof. intros [_ (_ & _ & _ & H & _)]. lia. Qed.

Lemma truncate_rep cap m a : rep cap m a -> length (fst a) = n -> 1 <= ptr m ->
  exists j, is_byte j /\
  truncate_buffer (fst (craymessage_to_array m)) (n * 4) (snd (craymessage_to_array m))
  = Ok (ser (fst a) ++ j :: snd a).
Proof.
  intros [HH (T1 & T2 & T3 & T4 & T5)] HL HP.
  rewrite c2a_ser. cbn [fst snd]. rewrite HH. unfold truncate_buffer, zlen in *.
  pose proof (ser_len (fst a)) as SL.
  destruct (Z.ltb_spec (Z.of_nat (length (fst a)) * 4 + ptr m - Z.of_nat (n * 4)) 0); [lia|].
  set (k := Z.to_nat (ptr m - 1)).
  assert (Hk : (k < length (data m))%nat) by lia.
  destruct (skipn k (data m)) as [|j rest] eqn:E.
  { pose proof (skipn_length k (data m)) as K. rewrite E in K. cbn in K. lia. }
  assert (ER : rest = snd a).
  { rewrite <- T3. replace (Z.to_nat (ptr m)) with (k + 1)%nat by lia.
    rewrite skipn_add, E. reflexivity. }
  exists j. split.
  - assert (F : Forall is_byte (skipn k (data m))) by now apply Forall_skipn.
    rewrite E in F. now inversion F.
  - f_equal. f_equal.
    + rewrite firstn_app. replace (n * 4 - length (ser (fst a)))%nat with 0%nat by lia.
      rewrite firstn_O, app_nil_r. apply firstn_all2. lia.
    + replace (Z.to_nat (Z.of_nat (length (fst a)) * 4 + ptr m - 1))
        with (length (ser (fst a)) + k)%nat by lia.
      rewrite skipn_add, skipn_app, skipn_all, Nat.sub_diag. cbn [app skipn].
      rewrite E. now subst.
Qed.

Definition abs_of_buffer (b : list Z) : abs :=
  (heads (array_to_craymessage b n 0), skipn (4 * n) b).

Lemma abs_of_buffer_good b : valid_buffer n b -> good n (abs_of_buffer b) /\
  b = ser (fst (abs_of_buffer b)) ++ snd (abs_of_buffer b).
Proof.
  intros (H1 & H2 & H3).
  destruct (a2c_heads n b 0 H1 H2) as (A1 & A2 & A3 & A4 & A5 & A6).
  unfold abs_of_buffer; cbn [fst snd]. split.
  - repeat split; cbn [fst snd]; [easy | now apply A6 | now apply Forall_skipn].
  - rewrite A5 in A3. exact A3.
Qed.

Lemma start_some_rep cap hs st : length hs = n -> Forall is_head hs -> Forall is_byte st ->
  zlen st <= cap ->
  exists b', insert_zeros (ser hs ++ st) n cap = Ok (b', cap - zlen st + 1) /\
    rep cap (array_to_craymessage b' n (cap - zlen st)) (hs, st).
Proof.
  intros HL HH HB HC. unfold insert_zeros.
  pose proof (ser_len hs) as SL. unfold zlen in *.
  assert (E1 : skipn (n * 4) (ser hs ++ st) = st).
  { rewrite skipn_app. rewrite skipn_all2 by lia.
    now replace (n * 4 - length (ser hs))%nat with 0%nat by lia. }
  assert (E2 : firstn (n * 4) (ser hs ++ st) = ser hs).
  { rewrite firstn_app. replace (n * 4 - length (ser hs))%nat with 0%nat by lia.
    rewrite firstn_O, app_nil_r. apply firstn_all2. lia. }
  rewrite E1, E2. destruct (Z.ltb_spec (cap - Z.of_nat (length st)) 0); [lia|].
  eexists; split; [reflexivity|].
  rewrite <- HL at 1. rewrite a2c_ser by now apply head_u32.
  split; cbn [heads ptr data fst snd]; [reflexivity|].
  unfold tail_rep, zlen. rewrite app_length, repeat_length.
  repeat split; try lia.
  - rewrite skipn_app, repeat_length, Nat.sub_diag.
    rewrite skipn_all2 by (rewrite repeat_length; lia). reflexivity.
  - apply Forall_app; split; [|easy]. apply Forall_forall. intros x Hx.
    apply repeat_spec in Hx. subst. unfold is_byte; lia.
Qed.

Lemma c2a_pair m : craymessage_to_array m
  = (fst (craymessage_to_array m), snd (craymessage_to_array m)).
Proof. destruct (craymessage_to_array m); reflexivity. Qed.

Theorem encode_some_run D cap rnd rows se se' sd sd' b a : valid_buffer n b ->
  (1 <= n)%nat -> run D rows se se' sd sd' (abs_of_buffer b) a -> Z.of_nat n + D <= cap ->
  exists j, is_byte j /\
  encode_one c n cap rnd (Some b) rows se = Ok (ser (fst a) ++ j :: snd a, se').
Proof.
  intros HV Hn HR HC. destruct (abs_of_buffer_good b HV) as [G E].
  destruct (run_good _ _ _ _ _ _ _ _ HR) as (_ & GA & D1 & D2).
  destruct G as (G1 & G2 & G3).
  destruct (start_some_rep cap _ _ G1 G2 G3) as (b' & EI & R0); [lia|].
  rewrite <- E in EI. unfold encode_one. rewrite EI. cbn [bind].
  rewrite Z.add_simpl_r. unfold jax_encode.
  destruct (run_push D _ _ _ _ _ _ _ cap HR HC _ R0) as (m' & EP & R1).
  rewrite EP. cbn [bind]. rewrite c2a_pair.
  destruct (truncate_rep cap m' a R1) as (j & Hj & ET).
  - apply GA.
  - rewrite (rep_ptr _ _ _ R1). lia.
  - rewrite ET. cbn [bind]. eauto.
Qed.

Theorem encode_none_run D cap rnd rows se se' sd sd' a : tail_filler rnd ->
  (1 <= n)%nat -> run D rows se se' sd sd' (repeat HEAD_MIN n, []) a ->
  Z.of_nat n + D <= cap ->
  exists j, is_byte j /\
  encode_one c n cap rnd None rows se = Ok (ser (fst a) ++ j :: snd a, se').
Proof.
  intros HF Hn HR HC.
  destruct (run_good _ _ _ _ _ _ _ _ HR) as (_ & GA & D1 & D2).
  assert (Hcap : 0 <= cap) by (unfold zlen in *; cbn in D1; lia).
  destruct (HF cap Hcap) as [F1 F2].
  unfold encode_one. rewrite c2a_ser. cbn [fst bind heads data empty_message ptr].
  assert (EA : array_to_craymessage (ser (repeat HEAD_MIN n) ++ rnd cap) n cap
               = mk_msg (repeat HEAD_MIN n) cap (rnd cap)).
  { rewrite <- (repeat_length HEAD_MIN n) at 2. apply a2c_ser.
    apply Forall_forall. intros x Hx. apply repeat_spec in Hx. subst.
    unfold u32_range. change HEAD_MIN with 16777216. lia. }
  rewrite EA.
  assert (R0 : rep cap (mk_msg (repeat HEAD_MIN n) cap (rnd cap)) (repeat HEAD_MIN n, [])).
  { split; [reflexivity|]. cbn [ptr data snd]. unfold tail_rep. repeat split; try easy.
    - apply skipn_all2. unfold zlen in F1. lia.
    - unfold zlen; cbn; lia. }
  unfold jax_encode.
  destruct (run_push D _ _ _ _ _ _ _ cap HR HC _ R0) as (m' & EP & R1).
  rewrite EP. cbn [bind]. rewrite c2a_pair.
  destruct (truncate_rep cap m' a R1) as (j & Hj & ET).
  - apply GA.
  - rewrite (rep_ptr _ _ _ R1). lia.
  - rewrite ET. cbn [bind]. eauto.
Qed.

Theorem decode_run D cap rows se se' sd sd' b a j : is_byte j ->
  (1 <= n)%nat -> run D rows se se' sd sd' b a -> Z.of_nat n + D <= cap ->
  decode_one c (length rows) n cap (ser (fst a) ++ j :: snd a) sd
  = Ok (rows, ser (fst b) ++ snd b, sd').
Proof.
  intros Hj Hn HR HC.
  destruct (run_good _ _ _ _ _ _ _ _ HR) as (GB & GA & D1 & D2).
  destruct GA as (A1 & A2 & A3).
  destruct (start_some_rep cap (fst a) (j :: snd a) A1 A2) as (b' & EI & R0).
  { now constructor. }
  { unfold zlen in *. cbn [length]. lia. }
  unfold decode_one. rewrite EI. cbn [bind].
  assert (R1 : rep cap (array_to_craymessage b' n (cap - zlen (j :: snd a) + 1)) a).
  { destruct R0 as [H0 (T1 & T2 & T3 & T4 & T5)]. cbn [fst snd] in *.
    unfold array_to_craymessage in *. cbn [heads ptr data] in *.
    split; cbn [heads ptr data]; [easy|]. unfold tail_rep, zlen in *. cbn [length] in *.
    repeat split; try easy; try lia.
    replace (Z.to_nat (cap - Z.of_nat (S (length (snd a))) + 1))
      with (Z.to_nat (cap - Z.of_nat (S (length (snd a)))) + 1)%nat by lia.
    rewrite skipn_add, T3. reflexivity. }
  unfold jax_decode.
  destruct (run_pop D _ _ _ _ _ _ _ cap HR HC _ R1) as (m' & -> & R2).
  cbn [bind]. rewrite c2a_ser. cbn [bind].
  destruct R2 as [H0 (T1 & T2 & T3 & T4 & T5)]. rewrite H0.
  pose proof (ser_len (fst b)) as SL. destruct GB as (B1 & B2 & B3).
  unfold zlen in *.
  f_equal. f_equal. f_equal. f_equal.
  - rewrite firstn_app. replace (n * 4 - length (ser (fst b)))%nat with 0%nat by lia.
    rewrite firstn_O, app_nil_r. apply firstn_all2. lia.
  - replace (Z.to_nat (Z.of_nat (length (fst b)) * 4 + ptr m' + 1 - 1))
      with (length (ser (fst b)) + Z.to_nat (ptr m'))%nat by lia.
    rewrite skipn_add, skipn_app, skipn_all, Nat.sub_diag. cbn [app skipn]. exact T3.
Qed.

Lemma ser_valid hs st : length hs = n -> Forall is_head hs -> Forall is_byte st ->
  valid_buffer n (ser hs ++ st).
Proof.
  intros HL HH HB. pose proof (ser_len hs) as SL. split; [|split].
  - apply Forall_app; split; [apply ser_bytes | easy].
  - rewrite app_length. lia.
  - assert (HBB : Forall is_byte (ser hs ++ st))
      by (apply Forall_app; split; [apply ser_bytes | easy]).
    destruct (a2c_heads n (ser hs ++ st) 0 HBB) as (_ & _ & _ & _ & _ & A6).
    { rewrite app_length; lia. }
    apply A6. rewrite <- HL. rewrite a2c_ser; [exact HH | now apply head_u32].
Qed.

Lemma ser_abs hs st : length hs = n -> Forall is_head hs -> Forall is_byte st ->
  abs_of_buffer (ser hs ++ st) = (hs, st).
Proof.
  intros HL HH HB. pose proof (ser_len hs) as SL. unfold abs_of_buffer.
  rewrite <- HL at 1. rewrite a2c_ser by now apply head_u32. cbn [heads]. f_equal.
  rewrite skipn_app. rewrite skipn_all2 by lia.
  now replace (4 * n - length (ser hs))%nat with 0%nat by lia.
Qed.

End Coder.

(** The abstract rANS machine (heads and an unbounded byte stack), the fact that
    its push and pop are mutually inverse, and the refinement of it by the
    pointer-and-array implementation. *)
From Coq Require Import ZArith List Bool Lia.
From Verif Require Import Base Rans_Model Rans_Spec Rans_Sort Rans_Lane.
Import ListNotations.
Open Scope Z_scope.

Definition ltN (h : Z) : bool := h <? 16777216.

(** [h] is [h'] after one refill stage. *)
Definition Rel (h' h : Z) : Prop := exists b, is_byte b /\ h = g h' b.

Definition obytes (hs' hs : list Z) : list Z := sel true (map ltN hs') (map u8 hs).

Fixpoint fill (hs B : list Z) : list Z :=
  match hs with
  | [] => []
  | h :: hs' => if ltN h then (h * 256 + hd 0 B) :: fill hs' (tl B) else h :: fill hs' B
  end.

Definition around (hs st : list Z) : option (list Z * list Z) :=
  let c := countn (map ltN hs) in
  if Nat.leb c (length st) then Some (fill hs (firstn c st), skipn c st) else None.

Lemma rel_u8 h' h : Rel h' h -> ltN h' = true -> h = h' * 256 + u8 h /\ is_byte (u8 h).
Proof.
  unfold Rel, g, ltN, u8, is_byte. intros (b & Hb & ->) ->.
  change (2 ^ 8) with 256. split; dlia.
Qed.

Lemma rel_id h' h : Rel h' h -> ltN h' = false -> h = h'.
Proof. unfold Rel, g, ltN. intros (b & Hb & ->) ->. reflexivity. Qed.

Lemma obytes_len hs' hs : length hs' = length hs ->
  length (obytes hs' hs) = countn (map ltN hs').
Proof. intro H. unfold obytes. apply sel_true_len. now rewrite !map_length. Qed.

Lemma fill_obytes hs' hs : Forall2 Rel hs' hs -> fill hs' (obytes hs' hs) = hs.
Proof.
  unfold obytes. induction 1 as [|h' h hs' hs H _ IH]; cbn [map sel fill]; [reflexivity|].
  destruct (ltN h') eqn:E; cbn [Bool.eqb].
  - cbn [hd tl]. rewrite IH. destruct (rel_u8 _ _ H E) as [HE _]. now rewrite <- HE.
  - rewrite IH. now rewrite (rel_id _ _ H E).
Qed.

Lemma F2_len {A B} (P : A -> B -> Prop) l l' : Forall2 P l l' -> length l = length l'.
Proof. induction 1; cbn; congruence. Qed.

Lemma around_fwd hs' hs st : Forall2 Rel hs' hs ->
  around hs' (obytes hs' hs ++ st) = Some (hs, st).
Proof.
  intro H. pose proof (F2_len _ _ _ H) as HL. pose proof (obytes_len _ _ HL) as HB.
  unfold around. rewrite app_length, HB.
  destruct (Nat.leb_spec (countn (map ltN hs')) (countn (map ltN hs') + length st)); [|lia].
  rewrite <- HB. rewrite firstn_app, Nat.sub_diag, firstn_all, app_nil_r.
  rewrite skipn_app, Nat.sub_diag, skipn_all. cbn [skipn app].
  now rewrite fill_obytes.
Qed.

Lemma fill_rel hs' : forall B, length B = countn (map ltN hs') -> Forall is_byte B ->
  Forall2 Rel hs' (fill hs' B) /\ obytes hs' (fill hs' B) = B.
Proof.
  unfold obytes. induction hs' as [|h hs IH]; intros B HL HB; cbn [map] in *.
  - destruct B; [|discriminate]. cbn. auto.
  - rewrite countn_cons in HL. cbn [fill]. destruct (ltN h) eqn:E.
    + destruct B as [|b B]; [cbn in HL; lia|]. cbn [hd tl map sel Bool.eqb].
      inversion HB as [|? ? Hb HB']; subst.
      destruct (IH B) as [I1 I2]; [cbn in HL; lia | easy|].
      split.
      * constructor; [|easy]. exists b. split; [easy|].
        unfold g. unfold ltN in E. now rewrite E.
      * rewrite I2. f_equal. unfold u8, is_byte in *. change (2 ^ 8) with 256. dlia.
    + cbn [map sel Bool.eqb]. destruct (IH B) as [I1 I2]; [easy..|]. split; [|easy].
      constructor; [|easy]. exists 0. split; [unfold is_byte; lia|].
      unfold g. unfold ltN in E. now rewrite E.
Qed.

Lemma around_bwd hs' st hs st2 : Forall is_byte st -> around hs' st = Some (hs, st2) ->
  Forall2 Rel hs' hs /\ st = obytes hs' hs ++ st2 /\ Forall is_byte st2.
Proof.
  intros HB. unfold around.
  destruct (Nat.leb_spec (countn (map ltN hs')) (length st)) as [HL|]; [|discriminate].
  intro H; injection H as <- <-.
  destruct (fill_rel hs' (firstn (countn (map ltN hs')) st)) as [I1 I2].
  - apply firstn_length_le; lia.
  - rewrite <- (firstn_skipn (countn (map ltN hs')) st) in HB.
    now apply Forall_app in HB.
  - split; [easy|]. rewrite I2, firstn_skipn. split; [easy|].
    rewrite <- (firstn_skipn (countn (map ltN hs')) st) in HB.
    now apply Forall_app in HB.
Qed.

(** ** The abstract machine *)

Definition thr (p f : Z) : Z := f * 2 ^ (24 - p).
Definition freqs_of (lo hi : list Z) : list Z := map2 (fun h l => h - l) hi lo.
Definition mln (L : Z -> Z -> Z) (p : Z) (fs hs : list Z) : list Z :=
  map2 (fun h f => L (thr p f) h) hs fs.

Definition word (p h f l : Z) : Z := h / f * 2 ^ p + h mod f + l.

Definition apush (p : Z) (lo hi : list Z) (a : list Z * list Z) : list Z * list Z :=
  let '(hs, st) := a in
  let fs := freqs_of lo hi in
  let h1 := mln ln1 p fs hs in
  let h2 := mln ln2 p fs hs in
  let h3 := mln ln3 p fs hs in
  (map3 (word p) h3 fs lo, obytes h3 h2 ++ obytes h2 h1 ++ obytes h1 hs ++ st).

Definition unword (p z f l : Z) : Z := f * (z / 2 ^ p) + (z mod 2 ^ p - l).

Definition apop (p : Z) (lo hi : list Z) (a : list Z * list Z)
    : option (list Z * list Z) :=
  let '(zs, st) := a in
  let fs := freqs_of lo hi in
  match around (map3 (unword p) zs fs lo) st with
  | Some (h2, s2) =>
      match around h2 s2 with
      | Some (h1, s1) => around h1 s1
      | None => None
      end
  | None => None
  end.

(** The values decoded before a pop. *)
Definition apeek (p : Z) (zs : list Z) : list Z := map (fun z => z mod 2 ^ p) zs.

Definition good (n : nat) (a : list Z * list Z) : Prop :=
  length (fst a) = n /\ Forall is_head (fst a) /\ Forall is_byte (snd a).

Definition thr_ok (t : Z) : Prop := 1 <= t <= 16777216.

Lemma thr_bound p f : 0 <= p <= 24 -> 1 <= f <= 2 ^ p -> thr_ok (thr p f).
Proof.
  unfold thr_ok, thr. intros Hp Hf.
  assert (0 < 2 ^ (24 - p)) by (apply Z.pow_pos_nonneg; lia).
  assert (2 ^ p * 2 ^ (24 - p) = 16777216).
  { rewrite <- Z.pow_add_r by lia. replace (p + (24 - p)) with 24 by lia. reflexivity. }
  nia.
Qed.

Lemma rel_of_shift h' h fl : 0 <= h -> h' = (if fl : bool then h / 256 else h) ->
  ltN h' = fl -> Rel h' h.
Proof.
  intros Hh E Hl. unfold ltN in Hl. exists (h mod 256). split; [unfold is_byte; dlia|].
  unfold g. rewrite Hl. destruct fl; subst h'; dlia.
Qed.

Lemma head_bounds h : is_head h -> 16777216 <= h < 4294967296.
Proof. unfold is_head. change (2 ^ 24) with 16777216. change (2 ^ 32) with 4294967296. easy. Qed.

Lemma ln_nonneg t x : 0 <= x -> 0 <= ln1 t x /\ 0 <= ln2 t x /\ 0 <= ln3 t x.
Proof. unfold ln3, fl1, ln2, fl2, ln1, fl3. intro. repeat split; flia. Qed.

Lemma push_rels p fs hs : length hs = length fs ->
  0 <= p <= 24 -> Forall (fun f => 1 <= f <= 2 ^ p) fs -> Forall is_head hs ->
  Forall2 Rel (mln ln3 p fs hs) (mln ln2 p fs hs) /\
  Forall2 Rel (mln ln2 p fs hs) (mln ln1 p fs hs) /\
  Forall2 Rel (mln ln1 p fs hs) hs.
Proof.
  intros HL Hp Hf Hh. unfold mln.
  revert hs HL Hh. induction Hf as [|f fs Hf _ IH]; intros [|h hs] HL Hh;
    try discriminate; cbn [map2]; auto.
  inversion Hh as [|? ? Hh1 Hh2]; subst.
  destruct (IH hs) as (I1 & I2 & I3); [cbn in HL; lia | easy|].
  pose proof (thr_bound p f Hp Hf) as Ht.
  apply head_bounds in Hh1.
  destruct (lane_push (thr p f) h Ht Hh1) as (_ & A1 & A2 & A3).
  destruct (ln_nonneg (thr p f) h ltac:(lia)) as (N1 & N2 & N3).
  repeat split; constructor; try easy.
  - eapply rel_of_shift; [exact N2 | reflexivity | exact A1].
  - eapply rel_of_shift; [exact N1 | reflexivity | exact A2].
  - eapply rel_of_shift; [lia | reflexivity | exact A3].
Qed.

Lemma intervals_freqs p lo hi : intervals p lo hi ->
  length (freqs_of lo hi) = length lo /\ Forall (fun f => 1 <= f <= 2 ^ p) (freqs_of lo hi).
Proof.
  unfold freqs_of. induction 1 as [|l h lo hi H _ [IH1 IH2]]; cbn; [auto|].
  split; [lia|]. constructor; [lia|easy].
Qed.

Lemma push_words p lo hi hs : intervals p lo hi -> length hs = length lo ->
  0 <= p <= 24 -> Forall is_head hs ->
  let fs := freqs_of lo hi in
  let z := map3 (word p) (mln ln3 p fs hs) fs lo in
  map3 (unword p) z fs lo = mln ln3 p fs hs /\ Forall is_head z /\
  inside (apeek p z) lo hi /\ length z = length hs.
Proof.
  intros Hi HL Hp Hh. cbv zeta. unfold mln, map3, freqs_of, inside, apeek.
  revert hs HL Hh. induction Hi as [|l h lo hi H _ IH]; intros [|x hs] HL Hh;
    try discriminate; cbn [map2 map combine length]; auto.
  inversion Hh as [|? ? Hh1 Hh2]; subst.
  destruct (IH hs) as (I1 & I2 & I3 & I4); [cbn in HL; lia | easy|].
  set (t := thr p (h - l)).
  assert (Ht : thr_ok t) by (apply thr_bound; lia).
  destruct (lane_push t x Ht (head_bounds _ Hh1)) as (A & _).
  destruct (word_push (h - l) p l h (ln3 t x)) as (B1 & B2 & B3 & B4 & B5 & B6);
    try lia; [exact A|].
  rewrite I1, I4. repeat split.
  - f_equal. exact B6.
  - constructor; [exact B1 | easy].
  - constructor; [exact B5 | exact I3].
Qed.

Theorem apop_apush n p lo hi a : good n a -> intervals p lo hi -> length lo = n ->
  0 <= p <= 24 -> apop p lo hi (apush p lo hi a) = Some a.
Proof.
  destruct a as [hs st]. intros (G1 & G2 & G3) Hi HL Hp. cbn [fst snd] in *.
  destruct (intervals_freqs _ _ _ Hi) as [FL FF].
  destruct (push_words p lo hi hs Hi ltac:(lia) Hp G2) as (W1 & W2 & W3 & W4).
  destruct (push_rels p (freqs_of lo hi) hs ltac:(lia) Hp FF G2) as (R1 & R2 & R3).
  unfold apush, apop. rewrite W1.
  rewrite (around_fwd _ _ _ R1). rewrite (around_fwd _ _ _ R2). now apply around_fwd.
Qed.

Lemma obytes_bytes hs' hs : Forall is_byte (obytes hs' hs).
Proof.
  unfold obytes. apply Forall_forall. intros x Hx. apply sel_sub in Hx.
  apply in_map_iff in Hx as (h & <- & _). unfold is_byte, u8. change (2 ^ 8) with 256. dlia.
Qed.

Lemma mln_len L p fs : forall hs, length hs = length fs -> length (mln L p fs hs) = length hs.
Proof.
  unfold mln. induction fs as [|f fs IH]; intros [|h hs] H; cbn in *; try lia.
  rewrite IH; lia.
Qed.

Theorem apush_good n p lo hi a : good n a -> intervals p lo hi -> length lo = n ->
  0 <= p <= 24 ->
  good n (apush p lo hi a) /\ inside (apeek p (fst (apush p lo hi a))) lo hi /\
  (length (snd a) <= length (snd (apush p lo hi a)) <= length (snd a) + 3 * n)%nat.
Proof.
  destruct a as [hs st]. intros (G1 & G2 & G3) Hi HL Hp. cbn [fst snd] in *.
  destruct (intervals_freqs _ _ _ Hi) as [FL FF].
  destruct (push_words p lo hi hs Hi ltac:(lia) Hp G2) as (W1 & W2 & W3 & W4).
  unfold apush; cbn [fst snd]. repeat split; cbn [fst snd]; try easy; try lia.
  - rewrite !Forall_app. repeat split; try apply obytes_bytes. easy.
  - rewrite !app_length; lia.
  - rewrite !app_length. rewrite !obytes_len by (rewrite !mln_len; lia).
    repeat match goal with
    | |- context [countn (map ltN ?l)] =>
        let H := fresh in
        pose proof (countn_le (map ltN l)) as H; rewrite map_length, mln_len in H by lia;
        generalize dependent (countn (map ltN l)); intros
    end. lia.
Qed.

Lemma pop_words p lo hi zs : intervals p lo hi -> length zs = length lo ->
  0 <= p <= 24 -> Forall is_head zs -> inside (apeek p zs) lo hi ->
  let fs := freqs_of lo hi in
  let y := map3 (unword p) zs fs lo in
  length y = length zs /\
  map3 (word p) y fs lo = zs /\
  Forall2 (fun y f => thr p f <= y < 256 * thr p f) y fs.
Proof.
  intros Hi HL Hp Hh Hn. cbv zeta. unfold map3, freqs_of, inside, apeek in *.
  revert zs HL Hh Hn. induction Hi as [|l h lo hi H _ IH]; intros [|x hs] HL Hh Hn;
    try discriminate; cbn [map2 map combine length] in *; auto.
  inversion Hh as [|? ? Hh1 Hh2]; inversion Hn as [|? ? ? ? Hn1 Hn2]; subst.
  destruct (IH hs) as (I1 & I2 & I3); [cbn in HL; lia | easy | easy|].
  destruct (word_pop (h - l) p l h x) as (B1 & B2 & B3 & B4); try lia; try easy.
  rewrite I1, I2. repeat split.
  - f_equal. exact B4.
  - constructor; [exact B1 | easy].
Qed.

Lemma pop_lanes p fs : 0 <= p <= 24 -> Forall (fun f => 1 <= f <= 2 ^ p) fs ->
  forall y3 y2 y1 y0,
  Forall2 (fun y f => thr p f <= y < 256 * thr p f) y3 fs ->
  Forall2 Rel y3 y2 -> Forall2 Rel y2 y1 -> Forall2 Rel y1 y0 ->
  Forall is_head y0 /\ mln ln3 p fs y0 = y3 /\ mln ln2 p fs y0 = y2 /\
  mln ln1 p fs y0 = y1.
Proof.
  intros Hp Hf. unfold mln. induction Hf as [|f fs Hf _ IH]; intros y3 y2 y1 y0 H3 R3 R2 R1.
  - inversion H3; subst. inversion R3; subst. inversion R2; subst. inversion R1; subst.
    cbn. auto.
  - inversion H3 as [|a3 ? l3 ? B3 H3']; subst.
    inversion R3 as [|? a2 ? l2 B2 R3']; subst.
    inversion R2 as [|? a1 ? l1 B1 R2']; subst.
    inversion R1 as [|? a0 ? l0 B0 R1']; subst.
    destruct (IH _ _ _ _ H3' R3' R2' R1') as (I0 & I3 & I2 & I1).
    destruct B2 as (b2 & C2 & ->), B1 as (b1 & C1 & ->), B0 as (b0 & C0 & ->).
    pose proof (thr_bound p f Hp Hf) as Ht.
    destruct (lane_pop (thr p f) a3 b2 b1 b0 Ht B3 C2 C1 C0)
      as (D1 & D2 & D3 & D4 & D5 & D6 & D7).
    cbn [map2]. rewrite I3, I2, I1, D3, D5, D7. repeat split. constructor; [|easy].
    unfold is_head. change (2 ^ 24) with 16777216. change (2 ^ 32) with 4294967296. easy.
Qed.

Theorem apush_apop n p lo hi a b : good n a -> intervals p lo hi -> length lo = n ->
  0 <= p <= 24 -> inside (apeek p (fst a)) lo hi -> apop p lo hi a = Some b ->
  good n b /\ apush p lo hi b = a /\ (length (snd b) <= length (snd a))%nat.
Proof.
  destruct a as [zs st]. intros (G1 & G2 & G3) Hi HL Hp Hn. cbn [fst snd] in *.
  destruct (intervals_freqs _ _ _ Hi) as [FL FF].
  destruct (pop_words p lo hi zs Hi ltac:(lia) Hp G2 Hn) as (W1 & W2 & W3).
  unfold apop.
  destruct (around (map3 (unword p) zs (freqs_of lo hi) lo) st) as [[h2 s2]|] eqn:E1;
    [|discriminate].
  destruct (around h2 s2) as [[h1 s1]|] eqn:E2; [|discriminate].
  intros E3. destruct b as [h0 s0].
  apply around_bwd in E1 as (R1 & S1 & Q1); [|easy].
  apply around_bwd in E2 as (R2 & S2 & Q2); [|easy].
  apply around_bwd in E3 as (R3 & S3 & Q3); [|easy].
  destruct (pop_lanes p _ Hp FF _ _ _ _ W3 R1 R2 R3) as (L0 & L3 & L2 & L1).
  split; [|split].
  - repeat split; cbn [fst snd]; try easy.
    rewrite <- (F2_len _ _ _ R3), <- (F2_len _ _ _ R2), <- (F2_len _ _ _ R1). lia.
  - unfold apush. rewrite L1, L2, L3, W2. f_equal.
    now rewrite S1, S2, S3.
  - cbn [snd]. rewrite S1, S2, S3, !app_length. lia.
Qed.

(** Enough bytes on the stack make the pop succeed. *)
Lemma around_total hs st : (length hs <= length st)%nat ->
  exists hs' st', around hs st = Some (hs', st') /\ length hs' = length hs /\
    (length st <= length st' + length hs)%nat.
Proof.
  intro H. unfold around. pose proof (countn_le (map ltN hs)) as HC.
  rewrite map_length in HC.
  destruct (Nat.leb_spec (countn (map ltN hs)) (length st)); [|lia].
  eexists _, _; split; [reflexivity|]. rewrite skipn_length. split; [|lia].
  generalize (firstn (countn (map ltN hs)) st). clear.
  induction hs as [|h hs IH]; intros B; cbn; [reflexivity|].
  destruct (ltN h); cbn; now rewrite IH.
Qed.

Lemma map3_len {A B C D} (f : A -> B -> C -> D) xs : forall ys zs,
  length ys = length xs -> length zs = length xs -> length (map3 f xs ys zs) = length xs.
Proof.
  unfold map3. induction xs as [|x xs IH]; intros [|y ys] [|z zs] H1 H2; cbn in *; try lia.
  rewrite IH; lia.
Qed.

Lemma apop_total n p lo hi a : length (fst a) = n -> length lo = n -> length hi = n ->
  (3 * n <= length (snd a))%nat ->
  exists b, apop p lo hi a = Some b /\ (length (snd a) <= length (snd b) + 3 * n)%nat.
Proof.
  destruct a as [zs st]. cbn [fst snd]. intros H1 H2 H3 H4. unfold apop.
  assert (HF : length (freqs_of lo hi) = n).
  { unfold freqs_of. clear -H2 H3. revert lo n H2 H3.
    induction hi as [|h hi IH]; intros [|l lo] n H2 H3; cbn in *; try lia.
    destruct n; [lia|]. f_equal. apply IH; lia. }
  assert (HL : length (map3 (unword p) zs (freqs_of lo hi) lo) = n)
    by (rewrite map3_len; lia).
  destruct (around_total (map3 (unword p) zs (freqs_of lo hi) lo) st)
    as (h2 & s2 & -> & A1 & A2); [lia|].
  destruct (around_total h2 s2) as (h1 & s1 & -> & B1 & B2); [lia|].
  destruct (around_total h1 s1) as (h0 & s0 & -> & C1 & C2); [lia|].
  eexists; split; [reflexivity|]. cbn [snd]. lia.
Qed.

(** Bytes below what is popped do not matter. *)
Lemma around_frame hs st hs' st' e : around hs st = Some (hs', st') ->
  around hs (st ++ e) = Some (hs', st' ++ e).
Proof.
  unfold around. rewrite app_length.
  destruct (Nat.leb_spec (countn (map ltN hs)) (length st)); [|discriminate].
  intro E; injection E as <- <-.
  destruct (Nat.leb_spec (countn (map ltN hs)) (length st + length e)); [|lia].
  rewrite firstn_app, skipn_app.
  replace (countn (map ltN hs) - length st)%nat with 0%nat by lia.
  now rewrite firstn_O, app_nil_r.
Qed.

Lemma apop_frame p lo hi a b e : apop p lo hi a = Some b ->
  apop p lo hi (fst a, snd a ++ e) = Some (fst b, snd b ++ e).
Proof.
  destruct a as [zs st], b as [h0 s0]. unfold apop. cbn [fst snd].
  destruct (around _ st) as [[h2 s2]|] eqn:E1; [|discriminate].
  destruct (around h2 s2) as [[h1 s1]|] eqn:E2; [|discriminate]. intro E3.
  rewrite (around_frame _ _ _ _ e E1), (around_frame _ _ _ _ e E2).
  now apply around_frame.
Qed.

Lemma apush_frame p lo hi a e :
  apush p lo hi (fst a, snd a ++ e) = (fst (apush p lo hi a), snd (apush p lo hi a) ++ e).
Proof. destruct a as [hs st]. unfold apush. cbn [fst snd]. now rewrite <- !app_assoc. Qed.

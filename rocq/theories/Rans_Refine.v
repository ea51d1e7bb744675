(** The array implementation refines the abstract machine while the pointer has
    room. *)
From Coq Require Import ZArith List Bool Lia.
From Verif Require Import Base Rans_Model Rans_Spec Rans_Sort Rans_Lane Rans_Stack.
Import ListNotations.
Open Scope Z_scope.

Definition tail_rep (cap limit : Z) (d st : list Z) : Prop :=
  zlen d = cap /\ 0 <= limit /\ skipn (Z.to_nat limit) d = st /\
  limit + zlen st = cap /\ Forall is_byte d.

Definition rep (cap : Z) (m : msg) (a : list Z * list Z) : Prop :=
  heads m = fst a /\ tail_rep cap (ptr m) (data m) (snd a).

Lemma zlen_app {A} (l l' : list A) : zlen (l ++ l') = zlen l + zlen l'.
Proof. unfold zlen. rewrite app_length. lia. Qed.

Lemma Forall_firstn {A} (P : A -> Prop) k l : Forall P l -> Forall P (firstn k l).
Proof.
  intro H. rewrite <- (firstn_skipn k l) in H. now apply Forall_app in H.
Qed.
Lemma Forall_skipn {A} (P : A -> Prop) k l : Forall P l -> Forall P (skipn k l).
Proof.
  intro H. rewrite <- (firstn_skipn k l) in H. now apply Forall_app in H.
Qed.

Lemma skipn_add {A} (l : list A) : forall i j, skipn (i + j) l = skipn j (skipn i l).
Proof.
  induction l as [|x l IH]; intros [|i] j; cbn; try easy.
  all: rewrite ?skipn_nil; try reflexivity; apply IH.
Qed.

Lemma ns_id ns start len size : slice_ok ns -> 0 <= size -> 0 <= start <= len - size ->
  ns start len size = start.
Proof. intros H H1 H2. apply H; lia. Qed.

Section Refine.
Variable ns : Z -> Z -> Z -> Z.
Hypothesis Hns : slice_ok ns.

Lemma tail_push_rep cap limit d st fs bytes : tail_rep cap limit d st ->
  length bytes = length fs -> zlen fs <= limit -> Forall is_byte bytes ->
  exists d', tail_push ns limit d fs bytes = Ok (limit - count fs, d') /\
    tail_rep cap (limit - count fs) d' (sel true fs bytes ++ st).
Proof.
  intros (H1 & H2 & H3 & H4 & H5) HL HR HB.
  unfold tail_push, dynamic_update_slice. rewrite sort_flags by easy.
  pose proof (countn_le fs) as HC.
  pose proof (sel_false_len fs bytes HL) as LF. pose proof (sel_true_len fs bytes HL) as LT.
  set (upd := sel false fs bytes ++ sel true fs bytes).
  assert (HU : length upd = length fs) by (unfold upd; rewrite app_length; lia).
  unfold zlen in *.
  destruct (Nat.ltb_spec (length d) (length upd)) as [K|K]; [lia|].
  rewrite (ns_id ns _ _ _ Hns) by lia. cbn [bind]. eexists; split; [reflexivity|].
  rewrite count_countn. rewrite HU, HL.
  set (s := Z.to_nat (limit - Z.of_nat (length fs))).
  assert (Hs : Z.of_nat s = limit - Z.of_nat (length fs)) by lia.
  assert (HF : length (firstn s d) = s) by (apply firstn_length_le; lia).
  unfold tail_rep, zlen. repeat split.
  - rewrite !app_length, HF, HU, skipn_length. lia.
  - lia.
  - replace (Z.to_nat (limit - Z.of_nat (countn fs)))
      with (s + (length fs - countn fs))%nat by lia.
    rewrite skipn_app. rewrite skipn_all2 by lia. cbn [app].
    rewrite HF. replace (s + (length fs - countn fs) - s)%nat
      with (length (sel false fs bytes)) by lia.
    unfold upd. rewrite <- app_assoc, skipn_app, skipn_all, Nat.sub_diag. cbn [app skipn].
    f_equal. rewrite <- H3. f_equal. lia.
  - rewrite app_length. lia.
  - unfold upd. rewrite !Forall_app. repeat split; try apply Forall_firstn; try apply Forall_skipn; try easy.
    + eapply incl_Forall; [apply sel_sub | easy].
    + eapply incl_Forall; [apply sel_sub | easy].
Qed.

Lemma tail_pop_rep cap limit d B st fs allow : tail_rep cap limit d (B ++ st) ->
  length B = countn fs -> zlen fs <= limit ->
  exists A, length A = (length fs - countn fs)%nat /\
    tail_pop ns limit d fs allow = Ok (limit + count fs, merge fs A B) /\
    tail_rep cap (limit + count fs) d st.
Proof.
  intros (H1 & H2 & H3 & H4 & H5) HL HR.
  pose proof (countn_le fs) as HC. unfold zlen in *.
  unfold tail_pop, dynamic_slice. rewrite app_length in H4.
  assert (EL : (if allow then Z.min (Z.max (limit + count fs) 0) (zlen d)
                else limit + count fs) = limit + count fs).
  { rewrite count_countn. unfold zlen. destruct allow; lia. }
  rewrite EL. rewrite count_countn in *. unfold zlen.
  destruct (Nat.ltb_spec (length d) (length fs)) as [K|K]; [lia|].
  rewrite (ns_id ns _ _ _ Hns) by lia. cbn [bind].
  set (s := Z.to_nat (limit + Z.of_nat (countn fs) - Z.of_nat (length fs))).
  assert (Es : Z.to_nat limit = (s + (length fs - countn fs))%nat) by lia.
  set (A := firstn (length fs - countn fs) (skipn s d)).
  assert (HA : length A = (length fs - countn fs)%nat).
  { unfold A. apply firstn_length_le. rewrite skipn_length. lia. }
  exists A. split; [easy|].
  assert (ES : skipn s d = A ++ B ++ st).
  { unfold A. rewrite <- H3, Es, skipn_add. now rewrite firstn_skipn. }
  assert (EF : firstn (length fs) (skipn s d) = A ++ B).
  { rewrite ES, app_assoc, firstn_app.
    rewrite (firstn_all2 (n := length fs)) by (rewrite app_length; lia).
    replace (length fs - length (A ++ B))%nat with 0%nat by (rewrite app_length; lia).
    cbn [firstn]. now rewrite app_nil_r. }
  rewrite EF, unsort by easy. split; [reflexivity|].
  unfold tail_rep, zlen. repeat split; try easy; try lia.
  replace (Z.to_nat (limit + Z.of_nat (countn fs)))
    with (Z.to_nat limit + countn fs)%nat by lia.
  rewrite skipn_add, H3, <- HL, skipn_app, skipn_all, Nat.sub_diag. reflexivity.
Qed.

Lemma map2_len {A B C} (f : A -> B -> C) xs : forall ys, length xs = length ys ->
  length (map2 f xs ys) = length xs.
Proof. induction xs as [|x xs IH]; intros [|y ys] H; cbn in *; auto. Qed.

Definition shift_lane (b : bool) (h : Z) : Z := if b then h / 256 else h.

Lemma where_shift fs : forall hs, length hs = length fs ->
  where_ fs (map (fun h => shr h TAIL_PRECISION) hs) hs = map2 shift_lane fs hs.
Proof.
  unfold where_, map3, shift_lane. induction fs as [|f fs IH]; intros [|h hs] H;
    cbn [map map2 length] in *; try lia; [reflexivity|].
  rewrite IH by lia. f_equal.
Qed.

Lemma push_round_rep cap shift freqs hs limit d st fl : tail_rep cap limit d st ->
  map2 (fun h f => f <=? shr h shift) hs freqs = fl ->
  length fl = length hs -> zlen hs <= limit ->
  exists l' d', push_round ns shift freqs hs limit d = Ok (map2 shift_lane fl hs, l', d') /\
    tail_rep cap l' d' (sel true fl (map u8 hs) ++ st).
Proof.
  intros HT HF HL HR. unfold push_round. rewrite HF.
  destruct (tail_push_rep cap limit d st fl (map u8 hs)) as (d' & E & HT').
  - easy.
  - now rewrite map_length.
  - unfold zlen in *. lia.
  - apply Forall_forall. intros x Hx. apply in_map_iff in Hx as (y & <- & _).
    unfold is_byte, u8. change (2 ^ 8) with 256. dlia.
  - rewrite E. cbn [bind]. rewrite where_shift by lia. eauto.
Qed.

Lemma pop_fill hs : forall A B, Forall is_byte B ->
  length B = countn (map ltN hs) -> Forall (fun h => 0 <= h) hs ->
  where_ (map ltN hs)
    (map2 (fun h b => Z.lor (u32 (h * 2 ^ TAIL_PRECISION)) b) hs (merge (map ltN hs) A B)) hs
  = fill hs B.
Proof.
  unfold where_, map3. induction hs as [|h hs IH]; intros A B HB HL Hp; cbn [map]; [reflexivity|].
  cbn [map] in HL. rewrite countn_cons in HL. cbn [merge fill].
  inversion Hp as [|? ? Hp1 Hp2]; subst.
  destruct (ltN h) eqn:E; cbn [map2].
  - destruct B as [|b B]; [cbn in HL; lia|]. inversion HB as [|? ? Hb HB']; subst.
    cbn [hd tl]. rewrite IH; [|easy | cbn in HL; lia | easy]. f_equal.
    apply Z.ltb_lt in E. unfold u32, is_byte, TAIL_PRECISION in *.
    rewrite Z.mod_small by (change (2 ^ 8) with 256; change (2 ^ 32) with 4294967296; lia).
    assert (El : Z.land (h * 2 ^ 8) b = 0).
    { apply Z.bits_inj'. intros i Hi. rewrite Z.land_spec, Z.bits_0.
      destruct (Z.ltb_spec i 8).
      - rewrite Z.mul_pow2_bits_low by lia. reflexivity.
      - rewrite <- (Z.mod_small b (2 ^ 8)) by (change (2 ^ 8) with 256; lia).
        rewrite Z.mod_pow2_bits_high by lia. apply andb_false_r. }
    rewrite <- Z.lxor_lor by easy. rewrite <- Z.add_nocarry_lxor by easy.
    reflexivity.
  - rewrite IH; [reflexivity | easy | cbn in HL; lia | easy].
Qed.

Lemma pop_round_rep cap hs limit d st hs' st' allow : tail_rep cap limit d st ->
  Forall is_byte st -> Forall (fun h => 0 <= h) hs -> around hs st = Some (hs', st') ->
  zlen hs <= limit ->
  exists l', pop_round ns allow hs limit d = Ok (hs', l', d) /\
    tail_rep cap l' d st' /\ limit <= l'.
Proof.
  intros HT HB Hp HA HR. unfold around in HA.
  destruct (Nat.leb_spec (countn (map ltN hs)) (length st)) as [K|]; [|discriminate].
  injection HA as <- <-. unfold pop_round.
  change (fun h => h <? HEAD_MIN) with ltN.
  destruct (tail_pop_rep cap limit d (firstn (countn (map ltN hs)) st)
              (skipn (countn (map ltN hs)) st) (map ltN hs) allow) as (A & HA & E & HT').
  - now rewrite firstn_skipn.
  - apply firstn_length_le; lia.
  - unfold zlen in *. rewrite map_length. lia.
  - rewrite E. cbn [bind]. rewrite pop_fill.
    + eexists; split; [reflexivity|]. split; [easy|]. rewrite count_countn. lia.
    + now apply Forall_firstn.
    + apply firstn_length_le; lia.
    + easy.
Qed.

End Refine.

Lemma bytes_of_rep cap limit d st : tail_rep cap limit d st -> Forall is_byte st.
Proof. intros (_ & _ & <- & _ & H). now apply Forall_skipn. Qed.

Lemma flags_eq p freqs j : 0 <= p <= 24 -> 0 <= j <= 2 ->
  Forall (fun f => 1 <= f <= 2 ^ p) freqs -> forall xs, length xs = length freqs ->
  Forall (fun x => 0 <= x < 2 ^ 32) xs ->
  map2 (fun h f => f <=? shr h (j * TAIL_PRECISION + HEAD_PRECISION - p)) xs freqs
  = map2 (fun h f => 2 ^ (8 * (j + 1)) * thr p f <=? h) xs freqs.
Proof.
  intros Hp Hj Hf. induction Hf as [|f fs Hf _ IH]; intros [|x xs] HL HX;
    try discriminate; cbn [map2]; [reflexivity|].
  inversion HX as [|? ? Hx HX']; subst.
  rewrite IH; [|cbn in HL; lia | easy]. f_equal. unfold TAIL_PRECISION, HEAD_PRECISION, thr.
  apply shr_flag; lia.
Qed.


(** Flags and shifted heads of the three stages, as seen by the abstract
    machine. *)
Lemma stage_eq p fs hs : length hs = length fs -> 0 <= p <= 24 ->
  Forall (fun f => 1 <= f <= 2 ^ p) fs -> Forall is_head hs ->
  map2 (fun h f => 2 ^ (8 * (2 + 1)) * thr p f <=? h) hs fs = map ltN (mln ln1 p fs hs) /\
  map2 (fun h f => 2 ^ (8 * (1 + 1)) * thr p f <=? h) (mln ln1 p fs hs) fs
    = map ltN (mln ln2 p fs hs) /\
  map2 (fun h f => 2 ^ (8 * (0 + 1)) * thr p f <=? h) (mln ln2 p fs hs) fs
    = map ltN (mln ln3 p fs hs) /\
  map2 shift_lane (map ltN (mln ln1 p fs hs)) hs = mln ln1 p fs hs /\
  map2 shift_lane (map ltN (mln ln2 p fs hs)) (mln ln1 p fs hs) = mln ln2 p fs hs /\
  map2 shift_lane (map ltN (mln ln3 p fs hs)) (mln ln2 p fs hs) = mln ln3 p fs hs /\
  Forall (fun x => 0 <= x < 2 ^ 32) hs /\
  Forall (fun x => 0 <= x < 2 ^ 32) (mln ln1 p fs hs) /\
  Forall (fun x => 0 <= x < 2 ^ 32) (mln ln2 p fs hs).
Proof.
  intros HL Hp Hf Hh. unfold mln. revert hs HL Hh.
  induction Hf as [|f fs Hf _ IH]; intros [|h hs] HL Hh; try discriminate;
    cbn [map2 map].
  { repeat split; constructor. }
  inversion Hh as [|? ? Hh1 Hh2]; subst.
  destruct (IH hs) as (I1 & I2 & I3 & I4 & I5 & I6 & I7 & I8 & I9); [cbn in HL; lia|easy|].
  pose proof (thr_bound p f Hp Hf) as Ht. apply head_bounds in Hh1.
  destruct (lane_push (thr p f) h Ht Hh1) as (A0 & A1 & A2 & A3).
  rewrite I1, I2, I3, I4, I5, I6.
  assert (B1 : 0 <= ln1 (thr p f) h < 4294967296) by (unfold ln1; destruct (fl3 _ _); dlia).
  assert (B2 : 0 <= ln2 (thr p f) h < 4294967296) by (unfold ln2; destruct (fl2 _ _); dlia).
  unfold ltN. rewrite A1, A2, A3.
  repeat split; try reflexivity; constructor; try easy;
    change (2 ^ 32) with 4294967296; lia.
Qed.

Lemma freqs_u32 p lo hi : 0 <= p <= 24 -> intervals p lo hi ->
  map2 (fun h l => u32 (h - l)) hi lo = freqs_of lo hi.
Proof.
  intros Hp H. unfold freqs_of.
  assert (2 ^ p <= 2 ^ 24) by (apply Z.pow_le_mono_r; lia).
  induction H as [|l h lo hi H _ IH]; cbn [map2]; [reflexivity|].
  rewrite IH. f_equal. unfold u32. apply Z.mod_small.
  change (2 ^ 24) with 16777216 in *. change (2 ^ 32) with 4294967296. lia.
Qed.

Lemma unword_eq n p lo hi zs : length zs = n -> Forall is_head zs ->
  intervals p lo hi -> length lo = n -> 0 <= p <= 24 -> inside (apeek p zs) lo hi ->
  map3 (fun f h c => u32 (u32 (f * shr h p) + c)) (freqs_of lo hi) zs
                 (map2 (fun c l => c - l) (apeek p zs) lo)
               = map3 (unword p) zs (freqs_of lo hi) lo
               /\ Forall (fun h => 0 <= h) (map3 (unword p) zs (freqs_of lo hi) lo)
               /\ length (map3 (unword p) zs (freqs_of lo hi) lo) = length zs.
Proof.
  intros G1 G2 Hi HL Hp Hn.
    unfold map3, freqs_of, apeek, inside in *.
    revert n zs G1 G2 HL Hn.
    induction Hi as [|l h lo hi H _ IH]; intros n [|x zs] G1 G2 HL Hn;
      cbn [map2 map combine length] in *; try (cbn in *; lia); [now repeat split|].
    inversion G2 as [|? ? Hh1 Hh2]; inversion Hn as [|? ? ? ? Hn1 Hn2]; subst.
    destruct (IH (length zs) zs) as (I1 & I2 & I3); [easy | easy | lia | easy |].
    destruct (word_pop (h - l) p l h x) as (B1 & B2 & B3 & B4); try lia; try easy.
    fold (unword p x (h - l) l) in B1, B3.
    assert (0 < 2 ^ (24 - p)) by (apply Z.pow_pos_nonneg; lia).
    rewrite I1, I3. repeat split.
    - f_equal. unfold unword in *. unfold shr.
      destruct (Z.ltb_spec p 0); [lia|]. destruct (Z.leb_spec 32 p); [lia|]. cbn [orb].
      unfold is_head in Hh1.
      assert (0 <= x / 2 ^ p) by (apply Z.div_pos; lia).
      unfold u32. rewrite (Z.mod_small ((h - l) * (x / 2 ^ p))) by nia.
      apply Z.mod_small. nia.
    - constructor; [nia | easy]. 
Qed.

Section Top.
Variable ns : Z -> Z -> Z -> Z.
Hypothesis Hns : slice_ok ns.

Theorem push_symbols_rep cap n p lo hi m a : rep cap m a -> good n a ->
  intervals p lo hi -> length lo = n -> 0 <= p <= 24 ->
  Z.of_nat n + zlen (snd (apush p lo hi a)) <= cap ->
  exists m', push_symbols ns m lo hi p = Ok m' /\ rep cap m' (apush p lo hi a).
Proof.
  intros [HH HT] G Hi HL Hp HR.
  destruct (apush_good n p lo hi a G Hi HL Hp) as (_ & _ & HS).
  destruct a as [hs st]. destruct G as (G1 & G2 & G3). cbn [fst snd] in *.
  destruct (intervals_freqs _ _ _ Hi) as [FL FF].
  unfold push_symbols. rewrite (freqs_u32 p) by easy.
  set (fs := freqs_of lo hi) in *.
  destruct (stage_eq p fs hs ltac:(lia) Hp FF G2)
    as (S1 & S2 & S3 & S4 & S5 & S6 & N0 & N1 & N2).
  pose proof (mln_len ln1 p fs hs ltac:(lia)) as L1.
  pose proof (mln_len ln2 p fs hs ltac:(lia)) as L2.
  pose proof (mln_len ln3 p fs hs ltac:(lia)) as L3.
  pose proof (obytes_len (mln ln1 p fs hs) hs ltac:(lia)) as B1.
  pose proof (obytes_len (mln ln2 p fs hs) (mln ln1 p fs hs) ltac:(lia)) as B2.
  pose proof (obytes_len (mln ln3 p fs hs) (mln ln2 p fs hs) ltac:(lia)) as B3.
  unfold apush in HR. fold fs in HR. cbn [snd] in HR. rewrite !zlen_app in HR.
  unfold zlen in HR.
  rewrite HH. destruct HT as (T1 & T2 & T3 & T4 & T5).
  destruct (push_round_rep ns Hns cap (2 * TAIL_PRECISION + HEAD_PRECISION - p) fs hs
              (ptr m) (data m) st (map ltN (mln ln1 p fs hs))) as (l1 & d1 & -> & R1).
  { now repeat split. }
  { rewrite flags_eq by (try easy; lia). exact S1. }
  { rewrite map_length; lia. }
  { unfold zlen in *. lia. }
  cbn [bind]. rewrite S4.
  change (sel true (map ltN (mln ln1 p fs hs)) (map u8 hs))
    with (obytes (mln ln1 p fs hs) hs) in R1.
  destruct (push_round_rep ns Hns cap (1 * TAIL_PRECISION + HEAD_PRECISION - p) fs
              (mln ln1 p fs hs) l1 d1 (obytes (mln ln1 p fs hs) hs ++ st)
              (map ltN (mln ln2 p fs hs))) as (l2 & d2 & -> & R2).
  { easy. }
  { rewrite flags_eq by (try easy; lia). exact S2. }
  { rewrite map_length; lia. }
  { destruct R1 as (_ & _ & _ & R1 & _). rewrite zlen_app in R1. unfold zlen in *. lia. }
  cbn [bind]. rewrite S5.
  change (sel true (map ltN (mln ln2 p fs hs)) (map u8 (mln ln1 p fs hs)))
    with (obytes (mln ln2 p fs hs) (mln ln1 p fs hs)) in R2.
  destruct (push_round_rep ns Hns cap (HEAD_PRECISION - p) fs
              (mln ln2 p fs hs) l2 d2 (obytes (mln ln2 p fs hs) (mln ln1 p fs hs)
                ++ obytes (mln ln1 p fs hs) hs ++ st)
              (map ltN (mln ln3 p fs hs))) as (l3 & d3 & -> & R3).
  { easy. }
  { rewrite <- S3. rewrite <- (flags_eq p fs 0) by (try easy; lia). reflexivity. }
  { rewrite map_length; lia. }
  { destruct R2 as (_ & _ & _ & R2 & _). rewrite !zlen_app in R2. unfold zlen in *. lia. }
  cbn [bind]. rewrite S6.
  eexists; split; [reflexivity|]. split; cbn [heads ptr data]; [|exact R3].
  unfold apush. fold fs. cbn [fst].
  clear - Hi HL Hp G1 G2. unfold fs. clear fs.
  unfold map3, mln, freqs_of. revert n hs G1 G2 HL.
  induction Hi as [|l h lo hi H _ IH]; intros n [|x hs] G1 G2 HL; cbn [map2];
    try easy.
  inversion G2 as [|? ? Hh1 Hh2]; subst.
  rewrite (IH (length hs)) by (cbn in HL; try easy; lia). f_equal.
  set (t := thr p (h - l)).
  assert (Ht : thr_ok t) by (apply thr_bound; lia).
  destruct (lane_push t x Ht (head_bounds _ Hh1)) as (A & _).
  destruct (word_push (h - l) p l h (ln3 t x)) as (B1 & B2 & _);
    try lia; [exact A|].
  unfold word, udiv, umod. destruct (Z.eqb_spec (h - l) 0); [lia|].
  assert (0 <= ln3 t x / (h - l) * 2 ^ p).
  { apply Z.mul_nonneg_nonneg; [apply Z.div_pos; unfold thr_ok in Ht; lia | lia]. }
  unfold u32. rewrite (Z.mod_small (ln3 t x / (h - l) * 2 ^ p)) by lia.
  apply Z.mod_small. lia.
Qed.

Lemma around_nonneg hs st hs' st' : Forall is_byte st -> Forall (fun h => 0 <= h) hs ->
  around hs st = Some (hs', st') ->
  Forall (fun h => 0 <= h) hs' /\ Forall is_byte st' /\ length hs' = length hs.
Proof.
  intros HB Hp H. apply around_bwd in H as (R & _ & HB'); [|easy].
  split; [|split; [easy | symmetry; eapply F2_len; exact R]].
  induction R as [|a b l l' H _ IH]; constructor.
  - inversion Hp; subst. destruct H as (c & Hc & ->). unfold g, is_byte in *. flia.
  - inversion Hp; subst. now apply IH.
Qed.

Theorem pop_symbols_rep cap n p lo hi m a b allow : rep cap m a -> good n a ->
  intervals p lo hi -> length lo = n -> 0 <= p <= 24 ->
  inside (apeek p (fst a)) lo hi -> apop p lo hi a = Some b ->
  Z.of_nat n + zlen (snd a) <= cap ->
  exists m', pop_symbols ns m (apeek p (fst a)) lo hi p allow = Ok m' /\ rep cap m' b.
Proof.
  intros [HH HT] G Hi HL Hp Hn HA HR.
  destruct a as [zs st]. destruct G as (G1 & G2 & G3). cbn [fst snd] in *.
  destruct (intervals_freqs _ _ _ Hi) as [FL FF].
  unfold pop_symbols. rewrite (freqs_u32 p) by easy. rewrite HH.
  pose proof (unword_eq n p lo hi zs G1 G2 Hi HL Hp Hn) as EH.
  destruct EH as (-> & E2 & E3). revert HA. unfold apop.
  destruct (around (map3 (unword p) zs (freqs_of lo hi) lo) st) as [[h2 s2]|] eqn:A1;
    [|discriminate].
  destruct (around h2 s2) as [[h1 s1]|] eqn:A2; [|discriminate]. intro A3.
  destruct b as [h0 s0].
  pose proof HT as (T1 & T2 & T3 & T4 & T5).
  destruct (pop_round_rep ns Hns cap _ (ptr m) (data m) st h2 s2 allow HT G3 E2 A1)
    as (l2 & -> & R2 & K2); [unfold zlen in *; lia|]. cbn [bind].
  destruct (around_nonneg _ _ _ _ G3 E2 A1) as (P2 & Q2 & N2).
  destruct (pop_round_rep ns Hns cap h2 l2 (data m) s2 h1 s1 allow R2 Q2 P2 A2)
    as (l1 & -> & R1 & K1); [unfold zlen in *; lia|]. cbn [bind].
  destruct (around_nonneg _ _ _ _ Q2 P2 A2) as (P1 & Q1 & N1).
  destruct (pop_round_rep ns Hns cap h1 l1 (data m) s1 h0 s0 allow R1 Q1 P1 A3)
    as (l0 & -> & R0 & K0); [unfold zlen in *; lia|]. cbn [bind].
  eexists; split; [reflexivity|]. split; [reflexivity | exact R0].
Qed.

Lemma peek_rep m p : Forall is_head (heads m) -> 0 <= p <= 24 -> peek m p = apeek p (heads m).
Proof.
  intros H Hp. unfold peek, apeek. apply map_ext_in. intros h Hh.
  rewrite Z.sub_1_r, <- Z.ones_equiv. apply Z.land_ones. lia.
Qed.

End Top.

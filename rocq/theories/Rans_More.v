(** Batches, append/peel histories, the range invariant, table lookup and code
    length. *)
From Coq Require Import ZArith List Bool Lia Permutation.
From Verif Require Import Base Rans_Model Rans_Spec Rans_Sort Rans_Lane Rans_Stack
  Rans_Refine Rans_Serial Rans_Coder Rans_Codec Rans_Top.
Import ListNotations.
Open Scope Z_scope.

(** ** Batches *)

Lemma mapM_F2 {A B} (f : A -> res B) l : forall outs,
  mapM f l = Ok outs <-> Forall2 (fun a b => f a = Ok b) l outs.
Proof.
  induction l as [|a l IH]; intros outs; cbn [mapM].
  - split; [intro E; injection E as <-; constructor | intro H; now inversion H].
  - destruct (f a) as [b|e] eqn:E; cbn [bind].
    + destruct (mapM f l) as [bs|e] eqn:EM; cbn [bind].
      * split.
        -- intro X; injection X as <-. constructor; [easy|]. now apply IH.
        -- intro H; inversion H as [|? b' ? bs' H1 H2]; subst.
           apply IH in H2. congruence.
      * split; [discriminate|]. intro H; inversion H as [|? b' ? bs' H1 H2]; subst.
        apply IH in H2. discriminate.
    + split; [discriminate|]. intro H; inversion H; congruence.
Qed.

Section Batch.
Variable ns : Z -> Z -> Z -> Z.
Hypothesis Hns : slice_ok ns.
Context {St : Type}.
Variable cdf_fun : list Z -> St -> list Z * list Z * St.
Variable inv_fun : list Z -> St -> list Z * list Z * list Z * St.
Variables (s0 : St) (p : Z) (allow : bool) (n : nat).
Hypothesis Hp : 0 <= p <= 24.
Hypothesis Hn : (1 <= n)%nat.
Let c := default_rans_codec ns cdf_fun inv_fun s0 p allow.

Theorem roundtrip_batch L cap cap' rnd (items : list (item St)) outs :
  tail_filler rnd -> 0 <= cap ->
  Forall (fun '(start, rows, se, sd) => start_ok n start /\ length rows = L /\
     exists se' sd', codable_message cdf_fun inv_fun n p rows se se' sd sd') items ->
  encode c n cap rnd (map (fun '(start, rows, se, sd) => (start, rows, se)) items) = Ok outs ->
  Forall (fun '(b, _) => fits n cap b /\ fits n cap' b) outs ->
  exists res,
    decode c L n cap' (combine (map fst outs) (map (fun '(_, _, _, sd) => sd) items)) = Ok res /\
    map (fun '(rows, _, _) => rows) res = map (fun '(_, rows, _, _) => rows) items /\
    map (fun '(_, rest, _) => rest) res = map (fun '(start, _, _, _) => start_buffer n start) items.
Proof.
  intros HF Hcap HI HE HO. unfold encode in HE. apply mapM_F2 in HE.
  unfold decode. revert outs HE HO.
  induction HI as [|[[[start rows] se] sd] items (HS & HL & se' & sd' & HC) _ IH];
    intros outs HE HO; cbn [map] in HE.
  - inversion HE; subst. cbn. exists []. auto.
  - inversion HE as [|? [b s] ? bs HE1 HE2]; subst. inversion HO as [|? ? HO1 HO']; subst.
    cbn beta iota in HO1. destruct HO1 as [F1 F2].
    destruct (roundtrip_one ns Hns cdf_fun inv_fun s0 p allow n Hp Hn cap cap' rnd rows
                se se' sd sd' start b s HF HS Hcap HC HE1 F1 F2) as (_ & _ & ED).
    destruct (IH _ HE2 HO') as (res & ER & E1 & E2).
    cbn [map combine mapM fst]. fold c in ED. rewrite ED. cbn [bind].
    rewrite ER. cbn [bind]. eexists; split; [reflexivity|].
    cbn [map]. rewrite E1, E2. auto.
Qed.
End Batch.

(** ** Histories *)

Section History.
Variable ns : Z -> Z -> Z -> Z.
Hypothesis Hns : slice_ok ns.
Context {St : Type}.
Variables (n : nat) (rnd : Z -> list Z).

Theorem peel_history start h b : (1 <= n)%nat -> tail_filler rnd -> start_ok n start ->
  history (St:=St) ns n rnd start h b ->
  peel ns n h b = Ok (map e_rows h, start_buffer n start) /\ valid_buffer n b.
Proof.
  intros Hn HF HS. induction 1 as [e cap out s se' sd' Hp Hc HC HE F1 F2
    | e h b cap out s se' sd' H [IH IHV] Hp Hc HC HE F1 F2].
  - destruct (roundtrip_one ns Hns _ _ _ _ _ n Hp Hn cap (e_cap e) rnd _ _ _ _ _ start out s
                HF HS Hc HC HE F1 F2) as (_ & V & D).
    cbn [peel map]. unfold e_codec. rewrite D. cbn [bind]. auto.
  - destruct (roundtrip_one ns Hns _ _ _ _ _ n Hp Hn cap (e_cap e) rnd _ _ _ _ _ (Some b) out s
                HF IHV Hc HC HE F1 F2) as (_ & V & D).
    cbn [peel map]. unfold e_codec at 1. rewrite D. cbn [bind start_buffer]. rewrite IH.
    cbn [bind]. auto.
Qed.
End History.

(** ** Range invariant *)

Lemma sort_key_val_perm ks vs : length ks = length vs -> Permutation (sort_key_val ks vs) vs.
Proof.
  intro H. unfold sort_key_val. rewrite sort_perm. now rewrite map_snd_combine.
Qed.

Lemma sort_key_val_len ks vs : length ks = length vs -> length (sort_key_val ks vs) = length vs.
Proof. intro H. apply Permutation_length, sort_key_val_perm; easy. Qed.

Section Inv.
Variable ns : Z -> Z -> Z -> Z.
Hypothesis Hns : slice_ok ns.

Lemma pop_lanes_rel hs : forall bs, length bs = length hs -> Forall is_byte bs ->
  Forall (fun h => 0 <= h) hs ->
  Forall2 Rel hs
    (where_ (map ltN hs)
       (map2 (fun h b => Z.lor (u32 (h * 2 ^ TAIL_PRECISION)) b) hs bs) hs).
Proof.
  unfold where_, map3. induction hs as [|h hs IH]; intros [|b bs] HL HB HP;
    try discriminate; cbn [map map2]; [constructor|].
  inversion HB as [|? ? Hb HB']; inversion HP as [|? ? Hh HP']; subst.
  constructor; [|apply IH; [cbn in HL; lia | easy | easy]].
  exists b. split; [easy|]. unfold g, ltN. destruct (Z.ltb_spec h 16777216); [|reflexivity].
  unfold u32, TAIL_PRECISION, is_byte in *.
  rewrite Z.mod_small by (change (2 ^ 8) with 256; change (2 ^ 32) with 4294967296; lia).
  rewrite lor_add by (change (2 ^ 8) with 256; lia). reflexivity.
Qed.

Lemma pop_round_heads allow hs limit d h' l' d' : Forall is_byte d ->
  Forall (fun h => 0 <= h) hs -> pop_round ns allow hs limit d = Ok (h', l', d') ->
  d' = d /\ Forall2 Rel hs h'.
Proof.
  intros HB HP. unfold pop_round, tail_pop, dynamic_slice.
  change (fun h => h <? HEAD_MIN) with ltN. rewrite !map_length.
  set (lim := if allow then _ else _).
  destruct (Nat.ltb_spec (length d) (length hs)) as [|K]; [discriminate|].
  cbn [bind]. intro E; injection E as <- _ <-. split; [reflexivity|].
  destruct (Hns (lim - Z.of_nat (length hs)) (zlen d) (Z.of_nat (length hs))) as [B _];
    [unfold zlen; lia|].
  set (s := Z.to_nat (ns (lim - Z.of_nat (length hs)) (zlen d) (Z.of_nat (length hs)))).
  assert (LS : length (firstn (length hs) (skipn s d)) = length hs).
  { apply firstn_length_le. rewrite skipn_length. unfold zlen in *. lia. }
  assert (LK : length (sort_key_val (map b2z (map ltN hs)) (arange (length hs))) = length hs).
  { rewrite sort_key_val_len; [apply arange_len|]. now rewrite !map_length, arange_len. }
  apply pop_lanes_rel; [| |easy].
  - rewrite sort_key_val_len; lia.
  - eapply Permutation_Forall; [symmetry; apply sort_key_val_perm; lia|].
    now apply Forall_firstn, Forall_skipn.
Qed.

Lemma rel_nonneg hs hs' : Forall2 Rel hs hs' -> Forall (fun h => 0 <= h) hs ->
  Forall (fun h => 0 <= h) hs'.
Proof.
  induction 1 as [|a b l l' H _ IH]; intro Hp; constructor.
  - inversion Hp; subst. destruct H as (x & Hx & ->). unfold g, is_byte in *. flia.
  - inversion Hp; subst. now apply IH.
Qed.

Theorem pop_symbols_heads n p lo hi m m' allow : length (heads m) = n ->
  Forall is_head (heads m) -> Forall is_byte (data m) ->
  0 <= p <= 24 -> length lo = n -> intervals p lo hi -> inside (peek m p) lo hi ->
  pop_symbols ns m (peek m p) lo hi p allow = Ok m' ->
  length (heads m') = n /\ Forall is_head (heads m') /\ data m' = data m.
Proof.
  intros H1 H2 H3 Hp HL Hi Hn. rewrite peek_rep in * by easy.
  destruct (intervals_freqs _ _ _ Hi) as [FL FF].
  unfold pop_symbols. rewrite (freqs_u32 p) by easy.
  destruct (unword_eq n p lo hi (heads m) H1 H2 Hi HL Hp Hn) as (-> & E2 & E3).
  destruct (pop_words p lo hi (heads m) Hi ltac:(lia) Hp H2 Hn) as (_ & _ & W3).
  destruct (pop_round ns allow (map3 (unword p) (heads m) (freqs_of lo hi) lo) (ptr m) (data m))
    as [[[h2 l2] d2]|] eqn:P1; [|discriminate]. cbn [bind].
  destruct (pop_round_heads _ _ _ _ _ _ _ H3 E2 P1) as [-> R2].
  pose proof (rel_nonneg _ _ R2 E2) as N2.
  destruct (pop_round ns allow h2 l2 (data m)) as [[[h1 l1] d1]|] eqn:P2; [|discriminate].
  cbn [bind]. destruct (pop_round_heads _ _ _ _ _ _ _ H3 N2 P2) as [-> R1].
  pose proof (rel_nonneg _ _ R1 N2) as N1.
  destruct (pop_round ns allow h1 l1 (data m)) as [[[h0 l0] d0]|] eqn:P3; [|discriminate].
  cbn [bind]. destruct (pop_round_heads _ _ _ _ _ _ _ H3 N1 P3) as [-> R0].
  intro E; injection E as <-. cbn [heads data].
  destruct (pop_lanes p _ Hp FF _ _ _ _ W3 R2 R1 R0) as (L0 & _).
  repeat split; [|easy].
  rewrite <- (F2_len _ _ _ R0), <- (F2_len _ _ _ R1), <- (F2_len _ _ _ R2). lia.
Qed.

Theorem push_symbols_range n p lo hi m m' : length (heads m) = n ->
  Forall is_head (heads m) -> Forall is_byte (data m) ->
  0 <= p <= 24 -> length lo = n -> intervals p lo hi ->
  push_symbols ns m lo hi p = Ok m' ->
  length (heads m') = n /\ Forall is_head (heads m') /\ Forall is_byte (data m') /\
  zlen (data m') = zlen (data m) /\ ptr m - 3 * Z.of_nat n <= ptr m' <= ptr m.
Proof.
  intros H1 H2 H3 Hp HL Hi E.
  assert (G : good n (heads m, [])) by (repeat split; easy || constructor).
  destruct (push_symbols_heads ns Hns n p lo hi m (heads m, []) m' eq_refl G Hi HL Hp E)
    as (A & B & C & D).
  destruct (apush_good n p lo hi _ G Hi HL Hp) as (GA & _ & GS).
  cbn [snd length] in GS. destruct GA as (A1 & A2 & A3).
  rewrite A. repeat split; auto; unfold zlen in *; cbn [snd length] in B; lia.
Qed.

Theorem reachable_range n m : reachable ns n m ->
  length (heads m) = n /\ Forall is_head (heads m) /\ Forall is_byte (data m).
Proof.
  induction 1 as [cap rnd Hc HF | m m' p lo hi _ IH Hp HL Hi E
    | m m' p lo hi allow _ IH Hp HL Hi Hn E].
  - cbn [empty_message heads data]. destruct (head_min_good n) as (A & B & _).
    cbn [fst] in *. repeat split; [easy..|]. now apply HF.
  - destruct IH as (I1 & I2 & I3).
    destruct (push_symbols_range n p lo hi m m' I1 I2 I3 Hp HL Hi E) as (A & B & C & _). easy.
  - destruct IH as (I1 & I2 & I3).
    destruct (pop_symbols_heads n p lo hi m m' allow I1 I2 I3 Hp HL Hi Hn E) as (A & B & C).
    now rewrite C.
Qed.

(** Each head is updated by the textbook formula, without wrap-around. *)
Lemma ln3_div t x : 0 <= x -> exists k, 0 <= k <= 3 /\ ln3 t x = x / 256 ^ k.
Proof.
  intro Hx. unfold ln3, ln2, ln1.
  assert (D2 : x / 256 / 256 = x / 256 ^ 2) by (rewrite Z.div_div by lia; reflexivity).
  assert (D3 : x / 256 / 256 / 256 = x / 256 ^ 3) by (rewrite D2, Z.div_div by lia; reflexivity).
  assert (D0 : x = x / 256 ^ 0) by now rewrite Z.pow_0_r, Z.div_1_r.
  assert (D1 : x / 256 = x / 256 ^ 1) by now rewrite Z.pow_1_r.
  destruct (fl1 t x), (fl2 t x), (fl3 t x);
    first [ exists 3; split; [lia | exact D3] | exists 2; split; [lia | exact D2]
          | exists 1; split; [lia | exact D1] | exists 0; split; [lia | exact D0] ].
Qed.

Theorem push_symbols_lanes n p lo hi m m' : length (heads m) = n ->
  Forall is_head (heads m) ->
  0 <= p <= 24 -> length lo = n -> intervals p lo hi ->
  push_symbols ns m lo hi p = Ok m' ->
  forall i, (i < n)%nat ->
    rans_lane p (nth i lo 0) (nth i hi 0) (nth i (heads m) 0) (nth i (heads m') 0).
Proof.
  intros H1 H2 Hp HL Hi E.
  assert (G : good n (heads m, [])) by (repeat split; easy || constructor).
  destruct (push_symbols_heads ns Hns n p lo hi m (heads m, []) m' eq_refl G Hi HL Hp E) as (A & _).
  rewrite A. cbn [apush fst]. clear - H1 H2 Hp HL Hi.
  unfold mln, map3, freqs_of. remember (heads m) as hs. clear Heqhs m.
  revert n hs H1 H2 HL. induction Hi as [|l h lo hi H _ IH]; intros n [|x hs] H1 H2 HL i Hlt;
    cbn [length] in *; try lia.
  inversion H2 as [|? ? Hx H2']; subst. cbn [map2].
  destruct i as [|i]; cbn [nth].
  - set (t := thr p (h - l)).
    assert (Ht : thr_ok t) by (apply thr_bound; lia).
    destruct (lane_push t x Ht (head_bounds _ Hx)) as (B & _).
    apply head_bounds in Hx.
    destruct (ln3_div t x ltac:(lia)) as (k & Hk & EK).
    exists k, (ln3 t x). split; [easy|]. split; [easy|]. split; [|reflexivity].
    assert (Et : t = (h - l) * 2 ^ (24 - p)) by reflexivity.
    rewrite <- Et. replace (32 - p) with (8 + (24 - p)) by lia. rewrite Z.pow_add_r by lia.
    change (2 ^ 8) with 256.
    replace ((h - l) * (256 * 2 ^ (24 - p))) with (256 * t) by (rewrite Et; ring). lia.
  - apply (IH (length hs)); [easy | easy | lia | lia].
Qed.

End Inv.

(** ** Table lookup *)

Lemma argmin_from_spec v cdf : forall k i, argmin_from v cdf k = Some i ->
  exists j : nat, i = k + Z.of_nat j /\ (j < length cdf)%nat /\ v < nth j cdf 0 /\
    forall j', (j' < j)%nat -> nth j' cdf 0 <= v.
Proof.
  induction cdf as [|c cdf IH]; intros k i; cbn [argmin_from]; [discriminate|].
  destruct (Z.leb_spec c v) as [H|H].
  - intro E. destruct (IH _ _ E) as (j & -> & HJ & HV & HB). exists (S j).
    split; [lia|]. cbn [length nth]. split; [lia|]. split; [easy|].
    intros [|j'] Hj'; [easy|]. apply HB; lia.
  - intro E; injection E as <-. exists 0%nat. cbn [nth length]. split; [lia|].
    split; [lia|]. split; [easy|]. intros; lia.
Qed.

Lemma argmin_from_none v cdf : forall k, argmin_from v cdf k = None ->
  forall j, (j < length cdf)%nat -> nth j cdf 0 <= v.
Proof.
  induction cdf as [|c cdf IH]; intros k H j Hj; cbn in *; [lia|].
  destruct (Z.leb_spec c v) as [Hc|]; [|discriminate].
  destruct j; [easy|]. apply (IH _ H). lia.
Qed.

Theorem lookup_symbol p cdf v : 0 <= p -> cdf_table p cdf -> 0 <= v < 2 ^ p ->
  has_freq cdf (inv_symbol cdf v) /\
  nth (Z.to_nat (inv_symbol cdf v)) cdf 0 <= v < nth (Z.to_nat (inv_symbol cdf v) + 1) cdf 0.
Proof.
  intros Hp (H0 & HL & HM) Hv. unfold inv_symbol, argmin_ge.
  assert (HP : 0 < 2 ^ p) by (apply Z.pow_pos_nonneg; lia).
  assert (HN : cdf <> []) by (intros ->; cbn in HL; lia).
  assert (HLL : last cdf 0 = nth (length cdf - 1) cdf 0).
  { destruct (exists_last HN) as (l & x & ->). rewrite last_last, app_length. cbn [length].
    rewrite app_nth2 by lia. now replace (length l + 1 - 1 - length l)%nat with 0%nat by lia. }
  assert (HLen : (0 < length cdf)%nat) by (destruct cdf; [easy | cbn; lia]).
  destruct (argmin_from v cdf 0) as [i|] eqn:E.
  - destruct (argmin_from_spec _ _ _ _ E) as (j & -> & HJ & HV & HB).
    destruct j as [|j]; [rewrite H0 in HV; lia|].
    replace (0 + Z.of_nat (S j) - 1) with (Z.of_nat j) by lia. rewrite Nat2Z.id.
    replace (j + 1)%nat with (S j) by lia.
    pose proof (HB j ltac:(lia)) as HBj.
    split; [|lia]. unfold has_freq. rewrite Nat2Z.id.
    replace (j + 1)%nat with (S j) by lia. lia.
  - pose proof (argmin_from_none _ _ _ E (length cdf - 1)%nat ltac:(lia)). lia.
Qed.

Theorem lookup_unique p cdf v s : cdf_table p cdf -> 0 <= s ->
  (Z.to_nat s + 1 < length cdf)%nat ->
  nth (Z.to_nat s) cdf 0 <= v < nth (Z.to_nat s + 1) cdf 0 -> inv_symbol cdf v = s.
Proof.
  intros (H0 & HL & HM) Hs HLt Hv. unfold inv_symbol, argmin_ge.
  destruct (argmin_from v cdf 0) as [i|] eqn:E.
  - destruct (argmin_from_spec _ _ _ _ E) as (j & -> & HJ & HV & HB).
    destruct (Nat.lt_trichotomy j (Z.to_nat s + 1)) as [K|[K|K]].
    + pose proof (HM j (Z.to_nat s) ltac:(lia) ltac:(lia)). lia.
    + lia.
    + pose proof (HB (Z.to_nat s + 1)%nat K). lia.
  - pose proof (argmin_from_none _ _ _ E (Z.to_nat s + 1)%nat HLt). lia.
Qed.

Lemma lookup_nth cdf i : 0 <= i -> (Z.to_nat i < length cdf)%nat ->
  lookup cdf i = nth (Z.to_nat i) cdf 0.
Proof.
  intros H1 H2. unfold lookup, gather. destruct (Z.ltb_spec i 0); [lia|].
  f_equal. lia.
Qed.

Section Fixed.
Variables (p : Z) (n : nat) (wrap : Z -> Z).

(** The functions inside fixed_array_cdf_codec. *)
Definition fa_cdf (symbols : list Z) (st : list (list Z)) :=
  (map2 lookup st symbols, map2 (fun c s => lookup c (wrap (s + 1))) st symbols, st).
Definition fa_inv (values : list Z) (st : list (list Z)) :=
  let symbols := map2 inv_symbol st values in
  (map2 lookup st symbols, map2 (fun c s => lookup c (s + 1)) st symbols, symbols, st).

Theorem fixed_codable cdfs row : 0 <= p -> length cdfs = n ->
  Forall (cdf_table p) cdfs -> Forall2 has_freq cdfs row ->
  Forall (fun s => wrap (s + 1) = s + 1) row ->
  codable fa_cdf fa_inv n p row cdfs cdfs cdfs cdfs.
Proof.
  intros Hp HL HT HR HW.
  exists (map2 lookup cdfs row), (map2 (fun c s => lookup c (wrap (s + 1))) cdfs row).
  split; [reflexivity|]. rewrite map2_len by (eapply F2_len; exact HR). split; [easy|].
  unfold fa_inv, intervals, inside. clear HL. revert HT HW. induction HR as [|c s cdfs row H HR IH];
    intros HT HW.
  - cbn. split; [constructor|]. intros v Hv. inversion Hv; subst. reflexivity.
  - inversion HT as [|? ? HT1 HT2]; inversion HW as [|? ? HW1 HW2]; subst.
    destruct (IH HT2 HW2) as [I1 I2]. cbn [map2 combine].
    destruct H as (F1 & F2 & F3).
    assert (E1 : lookup c s = nth (Z.to_nat s) c 0) by (apply lookup_nth; lia).
    assert (E2 : lookup c (s + 1) = nth (Z.to_nat s + 1) c 0).
    { rewrite lookup_nth by lia. f_equal. lia. }
    pose proof HT1 as (T0 & TL & TM).
    split.
    + constructor; [|easy]. rewrite HW1, E1, E2.
      pose proof (TM 0%nat (Z.to_nat s) ltac:(lia) ltac:(lia)).
      assert (HN : c <> []) by (intros ->; cbn in F2; lia).
      assert (HLL : last c 0 = nth (length c - 1) c 0).
      { destruct (exists_last HN) as (l & x & ->). rewrite last_last, app_length. cbn [length].
        rewrite app_nth2 by lia. now replace (length l + 1 - 1 - length l)%nat with 0%nat by lia. }
      pose proof (TM (Z.to_nat s + 1)%nat (length c - 1)%nat ltac:(lia) ltac:(lia)). lia.
    + intros v Hv. inversion Hv as [|x ? v' ? Hx Hv']; subst.
      rewrite HW1, E1, E2 in Hx. specialize (I2 v' Hv').
      assert (ES : inv_symbol c x = s) by (eapply lookup_unique; eauto).
      cbn [map2]. rewrite ES, HW1. injection I2 as J1 J2 J3. rewrite J1, J2, J3. reflexivity.
Qed.

Theorem fixed_codable_message cdfs rows : 0 <= p -> length cdfs = n ->
  Forall (cdf_table p) cdfs -> Forall (fun row => Forall2 has_freq cdfs row /\
    Forall (fun s => wrap (s + 1) = s + 1) row) rows ->
  codable_message fa_cdf fa_inv n p rows cdfs cdfs cdfs cdfs.
Proof.
  intros Hp HL HT. induction 1 as [|row rows [H1 H2] _ IH]; [constructor|].
  econstructor; [exact IH|]. now apply fixed_codable.
Qed.

Lemma fixed_is_default ns cdfs allow :
  fixed_array_cdf_codec ns wrap cdfs p allow
  = default_rans_codec ns fa_cdf fa_inv cdfs p allow.
Proof. reflexivity. Qed.

End Fixed.

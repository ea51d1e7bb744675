(** The contract of compressai's quantiser, and that it is met. *)
From Coq Require Import Reals List Bool Arith ZArith Lia Lra.
From Verif Require Import Base RBase Quant_Model.
Import ListNotations.
Open Scope Z_scope.

(** ** Specification *)

Definition total (l : list R) : R := fold_right Rplus 0%R l.
(** Vectors that can be quantised: no negative entry, no more entries than 2^precision, one of them at least 2^-precision. *)
Definition quantisable (l : list R) (prec : Z) : Prop :=
  0 <= prec /\ Forall (fun x => 0 <= x)%R l /\ Z.of_nat (length l) <= 2 ^ prec /\ exists x, In x l /\ (/ 2 ^ Z.to_nat prec <= x)%R.
(** The result has one more entry and rises strictly from 0 to 2^precision: every symbol gets a positive frequency. *)
Definition quantiser (q : list R -> Z -> list Z) : Prop :=
  forall l prec, quantisable l prec ->
    length (q l prec) = S (length l) /\ nth 0 (q l prec) 0 = 0 /\
    (forall k, (k < length l)%nat -> nth k (q l prec) 0 < nth (S k) (q l prec) 0) /\
    nth (length l) (q l prec) 0 = 2 ^ prec.
(** It is exact when the entries are positive multiples of 2^-precision with sum 1. *)
Fixpoint partial_sums (acc : Z) (l : list Z) : list Z :=
  acc :: match l with [] => [] | z :: r => partial_sums (acc + z) r end.
Definition exact_quantiser (q : list R -> Z -> list Z) : Prop :=
  forall zs prec, 0 <= prec -> Forall (fun z => 1 <= z) zs -> fold_right Z.add 0 zs = 2 ^ prec ->
    q (map (fun z => IZR z / 2 ^ Z.to_nat prec)%R zs) prec = partial_sums 0 zs.

(** ** Lemmas *)

Lemma modify_length f l : length (modify f l) = length l.
Proof. unfold modify. now rewrite map_length, seq_length. Qed.
Lemma modify_nth f l k : (k < length l)%nat -> nth k (modify f l) 0 = f k (nth k l 0).
Proof.
  intro H. unfold modify. rewrite nth_indep with (d' := f 0%nat (nth 0%nat l 0)) by (rewrite map_length, seq_length; lia).
  rewrite (map_nth (fun k => f k (nth k l 0))). now rewrite seq_nth by lia.
Qed.
Lemma partial_length l : forall a, length (partial_sum a l) = length l.
Proof. induction l as [|z l IH]; intro a; [reflexivity|]. cbn. now rewrite IH. Qed.
Lemma partial_eq l : forall a, a :: partial_sum a l = partial_sums a l.
Proof. induction l as [|z l IH]; intro a; [reflexivity|]. cbn [partial_sum partial_sums]. now rewrite IH. Qed.
Lemma sums_step l : forall a k, (k < length l)%nat -> nth (S k) (partial_sums a l) 0 = nth k (partial_sums a l) 0 + nth k l 0.
Proof.
  induction l as [|z l IH]; intros a k K; [cbn in K; lia|]. cbn [partial_sums]. cbn [length] in K. destruct k as [|k].
  - cbn [nth]. destruct l; reflexivity.
  - change (nth (S (S k)) (a :: partial_sums (a + z) l) 0) with (nth (S k) (partial_sums (a + z) l) 0). rewrite IH by lia. reflexivity.
Qed.
Lemma sums_last l : forall a, nth (length l) (partial_sums a l) 0 = a + fold_right Z.add 0 l.
Proof. induction l as [|z l IH]; intro a; cbn [length partial_sums nth fold_right]; [lia|]. rewrite IH. lia. Qed.
Lemma sums_length l : forall a, length (partial_sums a l) = S (length l).
Proof. induction l as [|z l IH]; intro a; cbn [partial_sums length]; [reflexivity|]. now rewrite IH. Qed.

Lemma best_some cdf : forall js best b, best_steal cdf js best = Some b ->
  (exists f, best = Some (b, f)) \/ (In b js /\ 1 < entry cdf (S b) - entry cdf b).
Proof.
  induction js as [|j js IH]; intros best b H; cbn [best_steal] in H.
  - destruct best as [[b' f]|]; [|discriminate]. cbn in H. injection H as ->. left. now exists f.
  - apply IH in H. destruct H as [[f H]|[H H']]; [|right; split; [now right|exact H']].
    destruct (Z.ltb_spec 1 (entry cdf (S j) - entry cdf j)) as [L|L]; [|left; exists f; exact H]. cbn [andb] in H.
    destruct (match best with Some (_, f0) => _ | None => _ end); [|left; now exists f].
    injection H as <- _. right. split; [now left|exact L].
Qed.
Lemma best_none cdf : forall js best, best_steal cdf js best = None -> best = None /\ forall j, In j js -> entry cdf (S j) - entry cdf j <= 1.
Proof.
  induction js as [|j js IH]; intros best H; cbn [best_steal] in H.
  - destruct best as [[? ?]|]; [discriminate|]. easy.
  - apply IH in H. destruct H as [H H']. destruct (Z.ltb_spec 1 (entry cdf (S j) - entry cdf j)) as [L|L]; cbn [andb] in H.
    + destruct best as [[b f]|]; [destruct (_ <? _)|]; discriminate.
    + split; [exact H|]. intros k [<-|K]; [exact L|now apply H'].
Qed.

(** What holds after [m] rounds. *)
Definition good (n m : nat) (top : Z) (cdf : list Z) : Prop :=
  length cdf = S n /\ nth 0 cdf 0 = 0 /\ nth n cdf 0 = top /\
  (forall k, (k < n)%nat -> nth k cdf 0 <= nth (S k) cdf 0) /\ (forall k, (k < m)%nat -> nth k cdf 0 < nth (S k) cdf 0).
Lemma at_most n cdf : (forall k, (k < n)%nat -> nth (S k) cdf 0 <= nth k cdf 0 + 1) -> forall k, (k <= n)%nat -> nth k cdf 0 <= nth 0 cdf 0 + Z.of_nat k.
Proof. intros H. induction k as [|k IH]; intro K; [lia|]. specialize (H k ltac:(lia)). specialize (IH ltac:(lia)). lia. Qed.
Lemma at_most2 n i cdf : (i < n)%nat -> nth i cdf 0 = nth (S i) cdf 0 -> (forall k, (k < n)%nat -> nth (S k) cdf 0 <= nth k cdf 0 + 1) ->
  nth n cdf 0 <= nth 0 cdf 0 + Z.of_nat n - 1.
Proof.
  intros I E H. assert (G : forall k, (S i <= k <= n)%nat -> nth k cdf 0 <= nth 0 cdf 0 + Z.of_nat k - 1).
  { induction k as [|k IH]; intro K; [lia|]. destruct (Nat.eq_dec (S k) (S i)) as [X|X].
    - injection X as ->. rewrite <- E. pose proof (at_most n cdf H i ltac:(lia)). lia.
    - specialize (H k ltac:(lia)). specialize (IH ltac:(lia)). lia. }
  apply G. lia.
Qed.
Lemma steal_good n m top cdf : Z.of_nat n <= top -> (m < n)%nat -> good n m top cdf -> exists cdf', steal n cdf m = Ok cdf' /\ good n (S m) top cdf'.
Proof.
  intros T M (L & Z0 & ZN & MONO & STR). unfold steal, entry. destruct (Z.eqb_spec (nth m cdf 0) (nth (S m) cdf 0)) as [E|E].
  - destruct (best_steal cdf (seq 0 n) None) as [b|] eqn:B.
    + apply best_some in B. destruct B as [[f B]|[B F]]; [discriminate|]. apply in_seq in B. unfold entry in F.
      assert (b <> m) as NE by (intros ->; lia).
      eexists. split; [reflexivity|]. destruct (Nat.ltb_spec b m) as [BM|BM].
      * unfold good. rewrite modify_length. split; [exact L|].
        split; [rewrite modify_nth by lia; destruct (S b <=? 0)%nat eqn:X; [apply Nat.leb_le in X; lia|]; exact Z0|].
        split; [rewrite modify_nth by lia; destruct (Nat.leb_spec n m); [lia|]; rewrite andb_false_r; exact ZN|].
        assert (STEP : forall k, (k < n)%nat -> let f := (nth (S k) (modify (fun j z => if ((S b <=? j) && (j <=? m))%nat then z - 1 else z) cdf) 0 - nth k (modify (fun j z => if ((S b <=? j) && (j <=? m))%nat then z - 1 else z) cdf) 0) in
            f = nth (S k) cdf 0 - nth k cdf 0 + (if (k =? m)%nat then 1 else 0) - (if (k =? b)%nat then 1 else 0)).
        { intros k K. cbn zeta. rewrite !modify_nth by lia.
          destruct (Nat.leb_spec (S b) (S k)), (Nat.leb_spec (S k) m), (Nat.leb_spec (S b) k), (Nat.leb_spec k m), (Nat.eqb_spec k m), (Nat.eqb_spec k b); cbn [andb]; lia. }
        split; intros k K.
        -- specialize (STEP k K). specialize (MONO k K). cbn zeta in STEP. destruct (Nat.eqb_spec k m), (Nat.eqb_spec k b); subst; lia.
        -- specialize (STEP k ltac:(lia)). cbn zeta in STEP. destruct (Nat.eqb_spec k m) as [KE|KM]; [subst k; destruct (Nat.eqb_spec m b); lia|].
           specialize (STR k ltac:(lia)). destruct (Nat.eqb_spec k b); subst; lia.
      * unfold good. rewrite modify_length. split; [exact L|].
        split; [rewrite modify_nth by lia; cbn [Nat.leb andb]; exact Z0|].
        split; [rewrite modify_nth by lia; destruct (Nat.leb_spec n b); [lia|]; rewrite andb_false_r; exact ZN|].
        assert (STEP : forall k, (k < n)%nat -> let f := (nth (S k) (modify (fun j z => if ((S m <=? j) && (j <=? b))%nat then z + 1 else z) cdf) 0 - nth k (modify (fun j z => if ((S m <=? j) && (j <=? b))%nat then z + 1 else z) cdf) 0) in
            f = nth (S k) cdf 0 - nth k cdf 0 + (if (k =? m)%nat then 1 else 0) - (if (k =? b)%nat then 1 else 0)).
        { intros k K. cbn zeta. rewrite !modify_nth by lia.
          destruct (Nat.leb_spec (S m) (S k)), (Nat.leb_spec (S k) b), (Nat.leb_spec (S m) k), (Nat.leb_spec k b), (Nat.eqb_spec k m), (Nat.eqb_spec k b); cbn [andb]; lia. }
        split; intros k K.
        -- specialize (STEP k K). specialize (MONO k K). cbn zeta in STEP. destruct (Nat.eqb_spec k m), (Nat.eqb_spec k b); subst; lia.
        -- specialize (STEP k ltac:(lia)). cbn zeta in STEP. destruct (Nat.eqb_spec k m) as [KE|KM]; [subst k; destruct (Nat.eqb_spec m b); lia|].
           specialize (STR k ltac:(lia)). destruct (Nat.eqb_spec k b); subst; lia.
    + exfalso. apply best_none in B. destruct B as [_ B].
      assert (X : nth n cdf 0 <= nth 0 cdf 0 + Z.of_nat n - 1).
      { apply (at_most2 n m); [exact M|exact E|]. intros k K. specialize (B k). unfold entry in B. rewrite in_seq in B. specialize (B ltac:(lia)). lia. }
      lia.
  - exists cdf. split; [reflexivity|]. repeat (split; [assumption|]). intros k K. destruct (Nat.eq_dec k m) as [->|N]; [specialize (MONO m M); lia|apply STR; lia].
Qed.
Lemma steal_all_good n top : Z.of_nat n <= top -> forall d m cdf, (m + d = n)%nat -> good n m top cdf ->
  exists cdf', steal_all n cdf (seq m d) = Ok cdf' /\ good n n top cdf'.
Proof.
  intros T. induction d as [|d IH]; intros m cdf M G; cbn [seq steal_all].
  - exists cdf. split; [reflexivity|]. replace m with n in G by lia. exact G.
  - destruct (steal_good n m top cdf T ltac:(lia) G) as (c & -> & G'). cbn [bind]. apply IH; [lia|exact G'].
Qed.
Lemma round_nonneg x : (0 <= x)%R -> 0 <= std_round x.
Proof. intro H. unfold std_round. apply Rfloor_ge. lra. Qed.
Lemma sum_nonneg l : Forall (fun z => 0 <= z) l -> 0 <= fold_right Z.add 0 l.
Proof. induction 1; cbn; lia. Qed.
Lemma div_sum c t l : 0 < t -> 0 <= c -> Forall (fun z => 0 <= z) l ->
  fold_right Z.add 0 (map (fun f => c * f / t) l) <= c * fold_right Z.add 0 l / t.
Proof.
  intros T C. induction 1 as [|z l Hz _ IH]; [cbn; rewrite Z.mul_0_r, Z.div_0_l; lia|]. cbn [map fold_right].
  assert (c * z / t + c * fold_right Z.add 0 l / t <= c * (z + fold_right Z.add 0 l) / t); [|lia].
  apply Z.div_le_lower_bound; [lia|]. pose proof (Z.mul_div_le (c * z) t T). pose proof (Z.mul_div_le (c * fold_right Z.add 0 l) t T). nia.
Qed.
Lemma in_sum (l : list Z) z : Forall (fun z => 0 <= z) l -> In z l -> z <= fold_right Z.add 0 l.
Proof.
  induction 1 as [|a l H F IH]; intro I; [destruct I|]. cbn [fold_right]. pose proof (sum_nonneg l F). destruct I as [<-|I]; [lia|specialize (IH I); lia].
Qed.

(** ** Theorems *)

(** Every quantisable vector is accepted, and the result rises strictly from 0 to 2^precision. *)
Theorem quantiser_result : forall l prec, quantisable l prec ->
  exists cdf, pmf_to_quantized_cdf l prec = Ok cdf /\ length cdf = S (length l) /\ nth 0 cdf 0 = 0 /\
    (forall k, (k < length l)%nat -> nth k cdf 0 < nth (S k) cdf 0) /\ nth (length l) cdf 0 = 2 ^ prec.
Proof.
  intros l prec (P & NN & LEN & x & IN & X). unfold pmf_to_quantized_cdf.
  replace (existsb _ l) with false.
  2:{ symmetry. apply not_true_iff_false. intro E. apply existsb_exists in E. destruct E as (y & Y & E). rewrite Forall_forall in NN.
      specialize (NN y Y). destruct (Rlt_dec y 0); [lra|discriminate]. }
  set (freqs := map _ l). assert (FN : Forall (fun z => 0 <= z) freqs).
  { unfold freqs. apply Forall_forall. intros z Hz. apply in_map_iff in Hz. destruct Hz as (y & <- & Y). apply round_nonneg.
    rewrite Forall_forall in NN. apply Rmult_le_pos; [now apply NN|]. left. apply pow_lt. lra. }
  assert (TP : 0 < fold_right Z.add 0 freqs).
  { assert (PP : (0 < 2 ^ Z.to_nat prec)%R) by (apply pow_lt; lra).
    assert (1 <= std_round (x * 2 ^ Z.to_nat prec)).
    { unfold std_round. apply Rfloor_ge. apply (Rmult_le_compat_r (2 ^ Z.to_nat prec)) in X; [|lra]. rewrite Rinv_l in X by lra. lra. }
    assert (In (std_round (x * 2 ^ Z.to_nat prec)) freqs) as I2 by (unfold freqs; now apply (in_map (fun p => std_round (p * 2 ^ Z.to_nat prec)))).
    pose proof (in_sum freqs _ FN I2). lia. }
  set (t := fold_right Z.add 0 freqs) in *. destruct (Z.eqb_spec t 0); [lia|].
  assert (TOP : 0 < 2 ^ prec) by (apply Z.pow_pos_nonneg; lia).
  set (sc := map (fun f => 2 ^ prec * f / t) freqs). rewrite partial_eq.
  assert (LS : length sc = length l) by (unfold sc, freqs; now rewrite !map_length).
  assert (SN : Forall (fun z => 0 <= z) sc).
  { unfold sc. apply Forall_forall. intros z Hz. apply in_map_iff in Hz. destruct Hz as (y & <- & Y). rewrite Forall_forall in FN. specialize (FN y Y). apply Z.div_pos; nia. }
  assert (SS : fold_right Z.add 0 sc <= 2 ^ prec).
  { unfold sc. pose proof (div_sum (2 ^ prec) t freqs TP ltac:(lia) FN) as D. fold t in D. rewrite Z.div_mul in D by lia. exact D. }
  assert (N0 : (0 < length l)%nat) by (destruct l; [destruct IN|cbn; lia]).
  set (cdf0 := modify _ (partial_sums 0 sc)).
  assert (G : good (length l) 0 (2 ^ prec) cdf0).
  { unfold good, cdf0. rewrite modify_length, sums_length, LS. split; [reflexivity|].
    split; [rewrite modify_nth by (rewrite sums_length; lia); destruct (Nat.eqb_spec 0 (length l)); [lia|]; destruct sc; reflexivity|].
    split; [rewrite modify_nth by (rewrite sums_length; lia); now rewrite Nat.eqb_refl|].
    split; [|intros; lia]. intros k K. rewrite !modify_nth by (rewrite sums_length; lia).
    assert (MONO : forall j, (j < length sc)%nat -> nth j (partial_sums 0 sc) 0 <= nth (S j) (partial_sums 0 sc) 0).
    { intros j J. rewrite sums_step by exact J. rewrite Forall_forall in SN. specialize (SN (nth j sc 0) (nth_In sc 0 J)). lia. }
    destruct (Nat.eqb_spec k (length l)); [lia|]. destruct (Nat.eqb_spec (S k) (length l)) as [E|E]; [|apply MONO; lia].
    specialize (MONO k ltac:(lia)). rewrite E in MONO. rewrite <- LS, sums_last in MONO. lia. }
  destruct (steal_all_good (length l) (2 ^ prec) LEN (length l) 0 cdf0 eq_refl G) as (c & -> & G1 & G2 & G3 & _ & G5).
  exists c. easy.
Qed.
(** So the contract is met (a result is only asked for where there is one). *)
Definition compressai (l : list R) (prec : Z) : list Z := match pmf_to_quantized_cdf l prec with Ok c => c | Raise _ => [] end.
Theorem compressai_quantiser : quantiser compressai.
Proof. intros l prec H. unfold compressai. destruct (quantiser_result l prec H) as (c & -> & C). exact C. Qed.
(** Where the nearest frequencies are positive and fill the table, they are its frequencies. *)
Theorem compressai_nearest l zs prec : 0 <= prec -> Forall (fun p => 0 <= p)%R l -> Forall (fun z => 1 <= z) zs ->
  Forall2 (fun p z => Rabs (p * 2 ^ Z.to_nat prec - IZR z) < 1 / 2)%R l zs -> fold_right Z.add 0 zs = 2 ^ prec ->
  pmf_to_quantized_cdf l prec = Ok (partial_sums 0 zs).
Proof.
  intros P NN F NEAR T. unfold pmf_to_quantized_cdf. assert (LEN : length l = length zs) by (clear - NEAR; induction NEAR; cbn; congruence).
  replace (existsb _ _) with false.
  2:{ symmetry. apply not_true_iff_false. intro E. apply existsb_exists in E. destruct E as (y & Y & E).
      rewrite Forall_forall in NN. specialize (NN y Y). destruct (Rlt_dec _ 0) as [L|]; [lra|discriminate]. }
  replace (map _ l) with zs.
  2:{ clear - NEAR. induction NEAR as [|p z l zs A B IH]; [reflexivity|]. cbn [map]. rewrite <- IH. f_equal. symmetry. unfold std_round. apply Rfloor_unique.
      apply Rabs_def2 in A. lra. }
  rewrite T. assert (TOP : 0 < 2 ^ prec) by (apply Z.pow_pos_nonneg; lia). destruct (Z.eqb_spec (2 ^ prec) 0); [lia|].
  rewrite (map_ext _ (fun z => z)) by (intro z; rewrite Z.mul_comm, Z.div_mul; lia). rewrite map_id, partial_eq, LEN.
  replace (modify _ (partial_sums 0 zs)) with (partial_sums 0 zs).
  2:{ apply (nth_ext _ _ 0 0); [now rewrite modify_length|]. intros k K. rewrite modify_nth by exact K. rewrite sums_length in K.
      destruct (Nat.eqb_spec k (length zs)) as [->|]; [rewrite sums_last; lia|reflexivity]. }
  assert (G : forall is, (forall i, In i is -> (i < length zs)%nat) -> steal_all (length zs) (partial_sums 0 zs) is = Ok (partial_sums 0 zs)).
  { induction is as [|i is IH]; intro I; [reflexivity|]. cbn [steal_all]. unfold steal, entry. rewrite sums_step by (apply I; now left).
    rewrite Forall_forall in F. specialize (F (nth i zs 0) (nth_In zs 0 (I i (or_introl eq_refl)))).
    destruct (Z.eqb_spec (nth i (partial_sums 0 zs) 0) (nth i (partial_sums 0 zs) 0 + nth i zs 0)); [lia|]. cbn [bind]. apply IH. intros j J. apply I. now right. }
  rewrite G; [reflexivity|]. intros i I. apply in_seq in I. lia.
Qed.
Example nearest_ex : pmf_to_quantized_cdf [3 / 10; 7 / 10]%R 3 = Ok [0; 2; 8].
Proof.
  apply (compressai_nearest _ [2; 6]); [lia| | | |reflexivity]; repeat constructor; try lia; try lra;
  change (Z.to_nat 3) with 3%nat; apply Rabs_def1; lra.
Qed.
Theorem compressai_exact : exact_quantiser compressai.
Proof.
  intros zs prec P F T. unfold compressai. assert (W : (0 < 2 ^ Z.to_nat prec)%R) by (apply pow_lt; lra).
  rewrite (compressai_nearest _ zs); [reflexivity|exact P| |exact F| |exact T].
  - apply Forall_forall. intros y Y. apply in_map_iff in Y. destruct Y as (z & <- & Y). rewrite Forall_forall in F. specialize (F z Y). apply IZR_le in F.
    unfold Rdiv. apply Rmult_le_pos; [lra|left; now apply Rinv_0_lt_compat].
  - clear - W. induction zs as [|z zs IH]; cbn [map]; constructor; [|exact IH]. replace (_ - _)%R with 0%R by (field; lra). rewrite Rabs_R0. lra.
Qed.
(** Too many entries for the precision, or only tiny ones, are refused. *)
Theorem quantiser_too_small : forall l prec, 0 <= prec -> Forall (fun x => 0 <= x < / 2 ^ Z.to_nat prec / 2)%R l -> pmf_to_quantized_cdf l prec = Raise ValueError.
Proof.
  intros l prec P F. unfold pmf_to_quantized_cdf. destruct (existsb _ l); [reflexivity|].
  replace (fold_right Z.add 0 _) with 0; [reflexivity|]. symmetry. induction F as [|x l [X1 X2] F IH]; [reflexivity|]. cbn [map fold_right]. rewrite IH.
  rewrite Z.add_0_r. unfold std_round. apply Rfloor_unique. assert (W : (0 < 2 ^ Z.to_nat prec)%R) by (apply pow_lt; lra).
  assert (0 <= x * 2 ^ Z.to_nat prec)%R by (apply Rmult_le_pos; lra).
  apply (Rmult_lt_compat_r (2 ^ Z.to_nat prec)) in X2; [|exact W]. replace (/ 2 ^ Z.to_nat prec / 2 * 2 ^ Z.to_nat prec)%R with (1 / 2)%R in X2 by (field; lra). lra.
Qed.
(** A vector that sums to nearly 1 and is not too long is quantisable. *)
Lemma large_entry l n : (0 < n)%R -> (INR (length l) * n <= total l)%R -> l <> [] -> exists x, In x l /\ (n <= x)%R.
Proof.
  intros N. induction l as [|a l IH]; intros T NE; [now elim NE|].
  destruct (Rle_lt_dec n a) as [L|L]; [exists a; split; [now left|exact L]|].
  destruct l as [|b l]; [cbn in T; lra|]. destruct IH as (x & I & X); [|discriminate|exists x; split; [now right|exact X]].
  change (total (a :: b :: l)) with (a + total (b :: l))%R in T. cbn [length] in T |- *. rewrite S_INR in T. lra.
Qed.
Lemma quantisable_mass l prec : 0 <= prec -> Forall (fun x => 0 <= x)%R l -> (1 / 2 <= total l)%R -> 2 * Z.of_nat (length l) <= 2 ^ prec -> quantisable l prec.
Proof.
  intros P F T L. split; [exact P|]. split; [exact F|]. split; [lia|].
  assert (W : (0 < 2 ^ Z.to_nat prec)%R) by (apply pow_lt; lra).
  apply large_entry; [now apply Rinv_0_lt_compat| |intros ->; cbn in T; lra].
  eapply Rle_trans; [|exact T]. apply Rmult_le_reg_r with (2 ^ Z.to_nat prec)%R; [exact W|]. rewrite Rmult_assoc, Rinv_l by lra.
  rewrite <- (Z2Nat.id prec) in L by exact P. apply IZR_le in L. rewrite mult_IZR, <- INR_IZR_INZ in L. rewrite pow_IZR. rewrite <- (Z2Nat.id prec) in W by exact P.
  lra.
Qed.
Lemma quantisable_full l prec : 0 <= prec -> Forall (fun x => 0 <= x)%R l -> (1 <= total l)%R -> Z.of_nat (length l) <= 2 ^ prec -> quantisable l prec.
Proof.
  intros P F T L. split; [exact P|]. split; [exact F|]. split; [lia|].
  assert (W : (0 < 2 ^ Z.to_nat prec)%R) by (apply pow_lt; lra).
  apply large_entry; [now apply Rinv_0_lt_compat| |intros ->; cbn in T; lra].
  eapply Rle_trans; [|exact T]. apply Rmult_le_reg_r with (2 ^ Z.to_nat prec)%R; [exact W|]. rewrite Rmult_assoc, Rinv_l by lra.
  rewrite <- (Z2Nat.id prec) in L by exact P. apply IZR_le in L. rewrite <- INR_IZR_INZ in L. rewrite pow_IZR.
  lra.
Qed.
Print Assumptions quantiser_result.
Print Assumptions compressai_exact. Print Assumptions compressai_nearest.

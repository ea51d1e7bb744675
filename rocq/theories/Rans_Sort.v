(** Facts about the stable key sort as used by tail_push and tail_pop. *)
From Coq Require Import ZArith List Bool Lia Permutation Sorting.Sorted.
From Verif Require Import Base Rans_Model.
Import ListNotations.
Open Scope Z_scope.

(** The values of the lanes whose flag is [b], in lane order. *)
Fixpoint sel (b : bool) (fs : list bool) (vs : list Z) : list Z :=
  match fs, vs with
  | f :: fs', v :: vs' => if Bool.eqb f b then v :: sel b fs' vs' else sel b fs' vs'
  | _, _ => []
  end.

(** Interleave: unflagged lanes take from [A], flagged ones from [B]. *)
Fixpoint merge (fs : list bool) (A B : list Z) : list Z :=
  match fs with
  | [] => []
  | false :: fs' => hd 0 A :: merge fs' (tl A) B
  | true :: fs' => hd 0 B :: merge fs' A (tl B)
  end.

Definition countn (fs : list bool) : nat := length (filter (fun b => b) fs).

Lemma count_countn fs : count fs = Z.of_nat (countn fs).
Proof. reflexivity. Qed.

Lemma countn_le fs : (countn fs <= length fs)%nat.
Proof. unfold countn. induction fs as [|[] fs IH]; cbn; lia. Qed.

Lemma sel_true_len fs : forall vs, length vs = length fs ->
  length (sel true fs vs) = countn fs.
Proof.
  unfold countn. induction fs as [|[] fs IH]; intros [|v vs] H; cbn in *; try lia.
  - rewrite IH; lia.
  - apply IH; lia.
Qed.

Lemma countn_cons f fs : countn (f :: fs) = ((if f then 1 else 0) + countn fs)%nat.
Proof. unfold countn. destruct f; reflexivity. Qed.

Lemma sel_false_len fs : forall vs, length vs = length fs ->
  length (sel false fs vs) = (length fs - countn fs)%nat.
Proof.
  induction fs as [|f fs IH]; intros [|v vs] H; try reflexivity; try discriminate.
  rewrite countn_cons. cbn [length] in *. pose proof (countn_le fs).
  destruct f; cbn [sel Bool.eqb length]; rewrite IH; lia.
Qed.

Lemma sel_sub b fs : forall vs, incl (sel b fs vs) vs.
Proof.
  induction fs as [|f fs IH]; intros [|v vs]; cbn; try easy.
  destruct (Bool.eqb f b).
  - apply incl_cons; [now left | now apply incl_tl].
  - now apply incl_tl.
Qed.

Lemma sort_pairs_flags fs : forall vs, length vs = length fs ->
  sort_pairs (combine (map b2z fs) vs)
  = map (fun v => (0, v)) (sel false fs vs) ++ map (fun v => (1, v)) (sel true fs vs).
Proof.
  induction fs as [|f fs IH]; intros [|v vs] H; cbn in *; try easy.
  rewrite IH by lia. destruct f; cbn.
  - induction (sel false fs vs) as [|x l IHl]; cbn.
    + destruct (sel true fs vs); reflexivity.
    + now rewrite IHl.
  - destruct (sel false fs vs); cbn; [|reflexivity].
    destruct (sel true fs vs); reflexivity.
Qed.

Lemma sort_flags fs vs : length vs = length fs ->
  sort_key_val (map b2z fs) vs = sel false fs vs ++ sel true fs vs.
Proof.
  intro H. unfold sort_key_val. rewrite sort_pairs_flags by easy.
  rewrite map_app, !map_map. cbn. now rewrite !map_id.
Qed.

Lemma insert_perm k v l : Permutation (insert_kv k v l) ((k, v) :: l).
Proof.
  induction l as [|[k' v'] l IH]; cbn; [easy|].
  destruct (k <=? k'); [easy|].
  rewrite IH. apply perm_swap.
Qed.

Lemma sort_perm l : Permutation (sort_pairs l) l.
Proof.
  induction l as [|[k v] l IH]; cbn; [easy|].
  rewrite insert_perm. now constructor.
Qed.

Definition kle (a b : Z * Z) := fst a <= fst b.
Definition klt (a b : Z * Z) := fst a < fst b.

Lemma insert_sorted k v l : StronglySorted kle l -> StronglySorted kle (insert_kv k v l).
Proof.
  induction l as [|[k' v'] l IH]; cbn; intros H; [now repeat constructor|].
  inversion H as [|? ? HS HF]; subst.
  destruct (k <=? k') eqn:E.
  - apply Z.leb_le in E. constructor; [easy|]. constructor; [exact E|].
    eapply Forall_impl; [|exact HF]. unfold kle; cbn. intros; lia.
  - apply Z.leb_gt in E. constructor; [now apply IH|].
    eapply Permutation_Forall; [symmetry; apply insert_perm|].
    constructor; [unfold kle; cbn; lia | easy].
Qed.

Lemma sort_sorted l : StronglySorted kle (sort_pairs l).
Proof.
  induction l as [|[k v] l IH]; cbn; [constructor|]. now apply insert_sorted.
Qed.

Lemma sorted_unique l2 : forall l1, StronglySorted kle l1 -> StronglySorted klt l2 ->
  Permutation l1 l2 -> l1 = l2.
Proof.
  induction l2 as [|a l2 IH]; intros l1 H1 H2 HP.
  - now apply Permutation_sym, Permutation_nil in HP.
  - destruct l1 as [|b l1]; [now apply Permutation_nil in HP|].
    inversion H1 as [|? ? S1 F1]; inversion H2 as [|? ? S2 F2]; subst.
    assert (b = a) as ->.
    { assert (In b (a :: l2)) as [E|E] by (eapply Permutation_in; [exact HP | now left]);
        [easy|].
      assert (In a (b :: l1)) as [E'|E']
          by (eapply Permutation_in; [symmetry; exact HP | now left]); [easy|].
      rewrite Forall_forall in F1, F2. specialize (F1 _ E'). specialize (F2 _ E).
      unfold kle, klt in *; lia. }
    f_equal. apply IH; [easy..|]. eapply Permutation_cons_inv; exact HP.
Qed.

Lemma combine_app {A B} (l1 l2 : list A) (r1 r2 : list B) : length l1 = length r1 ->
  combine (l1 ++ l2) (r1 ++ r2) = combine l1 r1 ++ combine l2 r2.
Proof.
  revert r1; induction l1 as [|a l1 IH]; intros [|b r1] H; cbn in *; try easy.
  f_equal. apply IH; lia.
Qed.

Lemma merge_len fs : forall A B, length (merge fs A B) = length fs.
Proof. induction fs as [|[] fs IH]; intros; cbn; auto. Qed.

Lemma merge_perm fs : forall ks A B, length ks = length fs ->
  length A = (length fs - countn fs)%nat -> length B = countn fs ->
  Permutation (combine (sel false fs ks) A ++ combine (sel true fs ks) B)
              (combine ks (merge fs A B)).
Proof.
  induction fs as [|f fs IH]; intros [|k ks] A B Hk HA HB; try discriminate.
  - constructor.
  - rewrite countn_cons in *. cbn [length] in *. pose proof (countn_le fs).
    destruct f; cbn [sel Bool.eqb merge].
    + destruct B as [|b B]; cbn [length combine hd tl] in *; [lia|].
      rewrite <- Permutation_middle. constructor. apply IH; lia.
    + destruct A as [|a A]; cbn [length combine hd tl app] in *; [lia|].
      constructor. apply IH; lia.
Qed.

Lemma arange_len n : length (arange n) = n.
Proof. unfold arange. now rewrite map_length, seq_length. Qed.

Lemma combine_seq_sorted n : forall k vs,
  StronglySorted klt (combine (map Z.of_nat (seq k n)) vs).
Proof.
  induction n as [|n IH]; intros k vs; cbn; [constructor|].
  destruct vs as [|v vs]; constructor; [apply IH|].
  apply Forall_forall. intros [x y] Hin. apply in_combine_l in Hin.
  apply in_map_iff in Hin as (i & <- & Hi). apply in_seq in Hi.
  unfold klt; cbn [fst]; lia.
Qed.

Lemma map_snd_combine {A B} (l : list A) : forall (r : list B),
  length l = length r -> map snd (combine l r) = r.
Proof.
  induction l as [|a l IH]; intros [|b r] H; cbn in *; try easy.
  now rewrite IH by lia.
Qed.

(** What the double sort of tail_pop computes. *)
Lemma unsort fs A B : length A = (length fs - countn fs)%nat -> length B = countn fs ->
  sort_key_val (sort_key_val (map b2z fs) (arange (length fs))) (A ++ B)
  = merge fs A B.
Proof.
  intros HA HB. rewrite sort_flags by apply arange_len.
  unfold sort_key_val. rewrite combine_app
    by (rewrite sel_false_len by apply arange_len; easy).
  match goal with |- map snd (sort_pairs ?l) = _ =>
    assert (sort_pairs l = combine (arange (length fs)) (merge fs A B)) as ->
  end; [apply sorted_unique|].
  4: { apply map_snd_combine. now rewrite arange_len, merge_len. }
  - apply sort_sorted.
  - apply combine_seq_sorted.
  - rewrite sort_perm. apply merge_perm; [apply arange_len | easy..].
Qed.

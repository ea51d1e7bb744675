(** Lemmas for C31. *)
From Coq Require Import ZArith List Bool Arith Lia Permutation.
From Verif Require Import Base Memo_Model Memo_Spec.
Import ListNotations.
Open Scope Z_scope.

Fixpoint hash_list (l : list val) : res (list key) :=
  match l with
  | [] => Ok []
  | x :: l' => do k <- ensure_hashable x; do ks <- hash_list l'; Ok (k :: ks)
  end.
Lemma ensure_seq t l : ensure_hashable (VSeq t l) = (do ks <- hash_list l; Ok (KTup ks)).
Proof. reflexivity. Qed.

Fixpoint keys_eqb (l m : list key) : bool :=
  match l, m with
  | [], [] => true
  | x :: l', y :: m' => key_eqb x y && keys_eqb l' m'
  | _, _ => false
  end.
Lemma key_eqb_tup l m : key_eqb (KTup l) (KTup m) = keys_eqb l m.
Proof. reflexivity. Qed.

Section KeyInd.
Variable P : key -> Prop.
Hypothesis H0 : P KNone.
Hypothesis H1 : forall z, P (KNum z).
Hypothesis H2 : forall z, P (KStr z).
Hypothesis H3 : forall z, P (KObj z).
Hypothesis H4 : forall l, Forall P l -> P (KTup l).
Fixpoint key_ind' (k : key) : P k :=
  match k with
  | KNone => H0 | KNum z => H1 z | KStr z => H2 z | KObj z => H3 z
  | KTup l => H4 l ((fix go l : Forall P l := match l with [] => Forall_nil _ | x :: l' => Forall_cons _ (key_ind' x) (go l') end) l)
  end.
End KeyInd.
Lemma key_eqb_spec a : forall b, key_eqb a b = true <-> a = b.
Proof.
  induction a as [| | | |l F] using key_ind'; intros [| | | |m];
    try (cbn; split; [discriminate || reflexivity|congruence]);
    try (cbn; rewrite Z.eqb_eq; split; congruence).
  rewrite key_eqb_tup. revert m. induction F as [|x l Hx F IH]; intros [|y m]; cbn; try (split; [discriminate|congruence]); [now split|].
  rewrite andb_true_iff, Hx, IH. split; [intros [-> E]; injection E as ->; reflexivity|]. intro E. injection E as -> ->. auto.
Qed.
Lemma slot_eqb_spec a b : slot_eqb a b = true <-> a = b.
Proof.
  unfold slot_eqb. rewrite andb_true_iff, Nat.eqb_eq, key_eqb_spec. destruct a, b; cbn. split; [intros [-> ->]; reflexivity|].
  intro E. injection E as -> ->. auto.
Qed.
Lemma lookup_In {A} (l : list ((nat * key) * A)) s a : lookup l s = Some a -> In (s, a) l.
Proof.
  induction l as [|[s' a'] l IH]; [discriminate|]. cbn. destruct (slot_eqb s' s) eqn:E.
  - apply slot_eqb_spec in E. intro H. injection H as ->. subst. now left.
  - intro H. right. auto.
Qed.
Lemma lookup_None {A} (l : list ((nat * key) * A)) s : lookup l s = None <-> ~ In s (map fst l).
Proof.
  induction l as [|[s' a'] l IH]; cbn; [tauto|]. destruct (slot_eqb s' s) eqn:E.
  - apply slot_eqb_spec in E. split; [discriminate|tauto].
  - rewrite IH. assert (s' <> s) by (intro K; apply slot_eqb_spec in K; congruence). tauto.
Qed.

(** ** Keys determine well-formed arguments *)
Section FormInd.
Variable P : form -> Prop.
Hypothesis H0 : P FNone.
Hypothesis H1 : forall k, P (FNum k).
Hypothesis H2 : P FStr.
Hypothesis H3 : P FTensor.
Hypothesis H4 : P FObj.
Hypothesis H5 : forall t, P t -> P (FOpt t).
Hypothesis H6 : forall g ts, Forall P ts -> P (FFix g ts).
Hypothesis H7 : forall g t, P t -> P (FMany g t).
Fixpoint form_ind' (t : form) : P t :=
  match t with
  | FNone => H0 | FNum k => H1 k | FStr => H2 | FTensor => H3 | FObj => H4
  | FOpt t => H5 t (form_ind' t)
  | FFix g ts => H6 g ts ((fix go l : Forall P l := match l with [] => Forall_nil _ | x :: l' => Forall_cons _ (form_ind' x) (go l') end) ts)
  | FMany g t => H7 g t (form_ind' t)
  end.
End FormInd.

Fixpoint fix_forms (ts : list form) (l : list val) : Prop :=
  match ts, l with
  | [], [] => True
  | t :: ts', x :: l' => has_form t x /\ fix_forms ts' l'
  | _, _ => False
  end.
Lemma has_form_fix g ts v : has_form (FFix g ts) v <-> exists l, v = VSeq g l /\ fix_forms ts l.
Proof.
  cbn [has_form]. split; intros (l & E & H); exists l; (split; [exact E|]); clear E; revert l H;
    induction ts as [|t ts IH]; intros [|x l] H; cbn in *; try tauto; destruct H; auto.
Qed.
Lemma hash_none v : ensure_hashable v = Ok KNone -> v = VNone.
Proof.
  destruct v; cbn [ensure_hashable]; try discriminate; auto.
  intro H. match type of H with bind ?m _ = _ => destruct m end; discriminate.
Qed.
Lemma hash_list_inj_gen (Q : val -> val -> Prop) l : forall m ks,
  (forall x y k, In x l -> Q x y -> ensure_hashable x = Ok k -> ensure_hashable y = Ok k -> x = y) ->
  Forall2 Q l m -> hash_list l = Ok ks -> hash_list m = Ok ks -> l = m.
Proof.
  induction l as [|x l IH]; intros m ks H F E1 E2; inversion F; subst; [reflexivity|]. cbn in E1, E2.
  destruct (ensure_hashable x) as [k1|] eqn:K1; [|discriminate]. cbn in E1. destruct (hash_list l) as [ks1|] eqn:L1; [|discriminate]. injection E1 as <-.
  destruct (ensure_hashable y) as [k2|] eqn:K2; [|discriminate]. cbn in E2. destruct (hash_list l') as [ks2|] eqn:L2; [|discriminate]. injection E2 as -> ->.
  f_equal; [eapply (H x y); eauto; now left|]. eapply IH; eauto. intros; eapply H; eauto. now right.
Qed.
Lemma hash_list_length l ks : hash_list l = Ok ks -> length ks = length l.
Proof.
  revert ks. induction l as [|x l IH]; intros ks H; cbn in H; [injection H as <-; reflexivity|].
  destruct (ensure_hashable x); [|discriminate]. cbn in H. destruct (hash_list l); [|discriminate]. injection H as <-. cbn. now rewrite (IH _ eq_refl).
Qed.
Lemma hash_seq_inv g l k : ensure_hashable (VSeq g l) = Ok k -> exists ks, k = KTup ks /\ hash_list l = Ok ks.
Proof. rewrite ensure_seq. destruct (hash_list l) as [ks|]; [|discriminate]. intro H. injection H as <-. eauto. Qed.

Lemma key_inj t : forall v w k, has_form t v -> has_form t w -> ensure_hashable v = Ok k -> ensure_hashable w = Ok k -> v = w.
Proof.
  induction t as [|kd| | | |t IH|g ts F|g t IH] using form_ind'; intros v w k Hv Hw Ev Ew.
  - cbn in *; congruence.
  - destruct Hv as [z ->], Hw as [z' ->]. cbn in *. congruence.
  - destruct Hv as [z ->], Hw as [z' ->]. cbn in *. congruence.
  - destruct Hv as [z ->], Hw as [z' ->]. cbn in *. congruence.
  - destruct Hv as [z ->], Hw as [z' ->]. cbn in *. congruence.
  - destruct Hv as [->|Hv], Hw as [->|Hw]; [reflexivity| | |eauto].
    + injection Ev as <-. symmetry. now apply hash_none.
    + injection Ew as <-. now apply hash_none.
  - apply has_form_fix in Hv, Hw. destruct Hv as (l & -> & Hl), Hw as (m & -> & Hm). f_equal.
    apply hash_seq_inv in Ev, Ew. destruct Ev as (ks & -> & E1), Ew as (ks' & E & E2). injection E as <-.
    revert l m ks Hl Hm E1 E2. induction F as [|t ts Ht F IH]; intros [|x l] [|y m] ks Hl Hm E1 E2; cbn in Hl, Hm; try tauto.
    destruct Hl as [Hx Hl], Hm as [Hy Hm]. cbn in E1, E2.
    destruct (ensure_hashable x) as [k1|] eqn:K1; [|discriminate]. cbn in E1. destruct (hash_list l) as [ks1|] eqn:L1; [|discriminate]. injection E1 as <-.
    destruct (ensure_hashable y) as [k2|] eqn:K2; [|discriminate]. cbn in E2. destruct (hash_list m) as [ks2|] eqn:L2; [|discriminate]. injection E2 as -> ->.
    f_equal; eauto.
  - destruct Hv as (l & -> & Hl), Hw as (m & -> & Hm). f_equal.
    apply hash_seq_inv in Ev, Ew. destruct Ev as (ks & -> & E1), Ew as (ks' & E & E2). injection E as <-.
    revert m ks Hm E1 E2. induction Hl as [|x l Hx Hl IHl]; intros m ks Hm E1 E2.
    + cbn in E1. injection E1 as <-. pose proof (hash_list_length _ _ E2). now destruct m.
    + destruct Hm as [|y m Hy Hm]; [apply hash_list_length in E1, E2; cbn in *; lia|]. cbn in E1, E2.
      destruct (ensure_hashable x) as [k1|] eqn:K1; [|discriminate]. cbn in E1. destruct (hash_list l) as [ks1|] eqn:L1; [|discriminate]. injection E1 as <-.
      destruct (ensure_hashable y) as [k2|] eqn:K2; [|discriminate]. cbn in E2. destruct (hash_list m) as [ks2|] eqn:L2; [|discriminate]. injection E2 as -> ->.
      f_equal; eauto.
Qed.

Lemma has_forms_inj ts : forall l m i ks, has_forms ts i l -> has_forms ts i m -> hash_list l = Ok ks -> hash_list m = Ok ks -> l = m.
Proof.
  induction l as [|x l IH]; intros [|y m] i ks Hl Hm E1 E2; [reflexivity| | |]; try (apply hash_list_length in E1, E2; cbn in *; lia).
  destruct Hl as [Hx Hl], Hm as [Hy Hm]. cbn in E1, E2.
  destruct (ensure_hashable x) as [k1|] eqn:K1; [|discriminate]. cbn in E1. destruct (hash_list l) as [ks1|] eqn:L1; [|discriminate]. injection E1 as <-.
  destruct (ensure_hashable y) as [k2|] eqn:K2; [|discriminate]. cbn in E2. destruct (hash_list m) as [ks2|] eqn:L2; [|discriminate]. injection E2 as -> ->.
  f_equal; [eapply key_inj; eauto|]. eapply IH; eauto.
Qed.

Definition kwv (p : Z * val) : val := VSeq TTuple [VStr (fst p); snd p].
Lemma kwv_hash p k : ensure_hashable (kwv p) = Ok k -> exists kv, k = KTup [KStr (fst p); kv] /\ ensure_hashable (snd p) = Ok kv.
Proof.
  unfold kwv. intro H. apply hash_seq_inv in H. destruct H as (ks & -> & H). cbn in H.
  destruct (ensure_hashable (snd p)) as [kv|]; [|discriminate]. cbn in H. injection H as <-. eauto.
Qed.
Lemma kwargs_inj ts : forall l m ks, Forall (fun p => has_form (ts (fst p)) (snd p)) l -> Forall (fun p => has_form (ts (fst p)) (snd p)) m ->
  hash_list (map kwv l) = Ok ks -> hash_list (map kwv m) = Ok ks -> l = m.
Proof.
  induction l as [|x l IH]; intros [|y m] ks Hl Hm E1 E2; [reflexivity| | |]; try (apply hash_list_length in E1, E2; cbn in *; lia).
  inversion Hl as [|? ? Hx Hl']; inversion Hm as [|? ? Hy Hm']; subst. cbn [map hash_list] in E1, E2.
  destruct (ensure_hashable (kwv x)) as [k1|] eqn:K1; [|discriminate]. cbn in E1. destruct (hash_list (map kwv l)) as [ks1|] eqn:L1; [|discriminate]. injection E1 as <-.
  destruct (ensure_hashable (kwv y)) as [k2|] eqn:K2; [|discriminate]. cbn in E2. destruct (hash_list (map kwv m)) as [ks2|] eqn:L2; [|discriminate]. injection E2 as -> ->.
  apply kwv_hash in K1, K2. destruct K1 as (v1 & -> & K1), K2 as (v2 & E & K2). injection E as E1 E2.
  f_equal; [|eapply IH; eauto]. destruct x as [n v], y as [n' v']; cbn in *. subst n' v2. f_equal. eapply key_inj; eauto.
Qed.

Lemma visible_key_args a : key_args a = visible_args a.
Proof. unfold key_args, visible_args. apply filter_ext. now intros []. Qed.
Lemma visible_key_kwargs a : key_kwargs a = visible_kwargs a.
Proof. unfold key_kwargs, visible_kwargs. apply filter_ext. intros [n []]; reflexivity. Qed.
Lemma make_key_inv a kw k : make_key a kw = Ok k ->
  exists ks1 ks2, k = KTup [KTup ks1; KTup ks2] /\ hash_list (visible_args a) = Ok ks1 /\ hash_list (map kwv (visible_kwargs kw)) = Ok ks2.
Proof.
  unfold make_key. rewrite visible_key_args, visible_key_kwargs. intro H. apply hash_seq_inv in H. destruct H as (ks & -> & H).
  cbn [hash_list] in H. rewrite !ensure_seq in H. change (map (fun p => VSeq TTuple [VStr (fst p); snd p])) with (map kwv) in H.
  destruct (hash_list (visible_args a)) as [ks1|]; [|discriminate]. cbn [bind] in H.
  destruct (hash_list (map kwv _)) as [ks2|]; [|discriminate]. cbn [bind] in H. injection H as <-. eauto.
Qed.

(** ** Sorting the keywords *)
Inductive sorted : list (Z * val) -> Prop :=
| sorted_nil : sorted []
| sorted_cons p l : sorted l -> Forall (fun q => fst p <= fst q) l -> sorted (p :: l).
Lemma insert_perm p l : Permutation (insert_kw p l) (p :: l).
Proof.
  induction l as [|q l IH]; cbn; [reflexivity|]. destruct (fst p <=? fst q); [reflexivity|].
  rewrite IH. apply perm_swap.
Qed.
Lemma sorted_perm l : Permutation (sorted_kw l) l.
Proof. induction l as [|p l IH]; cbn; [reflexivity|]. rewrite insert_perm. now constructor. Qed.
Lemma insert_sorted p l : sorted l -> sorted (insert_kw p l).
Proof.
  induction 1 as [|q l S IH F]; cbn; [repeat constructor|]. destruct (Z.leb_spec (fst p) (fst q)).
  - constructor; [now constructor|]. constructor; [assumption|]. eapply Forall_impl; [|exact F]. cbn. lia.
  - constructor; [exact IH|]. apply (Permutation_Forall (Permutation_sym (insert_perm p l))). constructor; [lia|exact F].
Qed.
Lemma sorted_sorted l : sorted (sorted_kw l).
Proof. induction l; cbn; [constructor|]. now apply insert_sorted. Qed.
Lemma sorted_unique l : forall m, sorted l -> sorted m -> Permutation l m -> NoDup (map fst l) -> l = m.
Proof.
  induction l as [|p l IH]; intros m Sl Sm P N.
  - apply Permutation_nil in P. now subst.
  - destruct m as [|q m]; [apply Permutation_sym, Permutation_nil in P; discriminate|].
    inversion Sl as [|? ? Sl' Fl]; inversion Sm as [|? ? Sm' Fm]; subst.
    assert (p = q).
    { assert (I1 : In p (q :: m)) by (eapply Permutation_in; [exact P|now left]).
      assert (I2 : In q (p :: l)) by (eapply Permutation_in; [apply Permutation_sym, P|now left]).
      destruct I1 as [->|I1]; [reflexivity|]. destruct I2 as [->|I2]; [reflexivity|].
      rewrite Forall_forall in Fl, Fm. pose proof (Fl _ I2). pose proof (Fm _ I1).
      inversion N as [|? ? NI _]; subst. exfalso. apply NI. replace (fst p) with (fst q) by lia. apply in_map, I2. }
    subst q. f_equal. apply IH; auto; [now apply Permutation_cons_inv in P|now inversion N].
Qed.
Lemma sorted_kw_perm l m : NoDup (map fst l) -> Permutation l m -> sorted_kw l = sorted_kw m.
Proof.
  intros N P. apply sorted_unique; try apply sorted_sorted.
  - rewrite !sorted_perm. exact P.
  - eapply Permutation_NoDup; [|exact N]. apply Permutation_map, Permutation_sym, sorted_perm.
Qed.

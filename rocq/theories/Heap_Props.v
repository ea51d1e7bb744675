(** C88: networks with in-place activations compute a function of their arguments and
    never change a tensor that existed before the call. *)
From Coq Require Import List Bool Arith Lia ZArith.
From Verif Require Import Base Heap_Model.
Import ListNotations.
Open Scope list_scope.
Open Scope nat_scope.

(** * Specification *)

(** A network acts as the function [f]: for every tensor of the memory it returns a
    new tensor with the value of [f], and every old tensor keeps its value. *)
Definition acts_as {V} (m : layer V) (f : V -> V) : Prop :=
  forall h l, l < next h ->
  let '(h', l') := m l h in
  next h <= l' < next h' /\ cell h' l' = f (cell h l) /\
  forall j, j < next h -> cell h' j = cell h j.

Section Spec.
Context {V : Type}.
Variables (add : V -> V -> V) (leaky pool up relu clamp01 : V -> V) (zero : V).

(** Whether a normalisation makes a tensor of its own. *)
Definition own_copy (t : norm_type) : bool := match t with Batch | Instance => true | _ => false end.
Definition normed (t : norm_type) (f : V -> V) (x : V) : V := if own_copy t then f x else x.

(** One level as a formula: pre-activated residual branches.  [seen] is what the
    shortcut sees of a tensor. *)
Definition level_formula (seen : norm_type -> V -> V) (v : level V) (child : V -> V) (x : V) : V :=
  let n f := normed (norm v) f in
  let x1 := if top v then x else leaky (n (W v 0) x) in
  let s := if top v then x else seen (norm v) x in
  let y := child (add (pool (W v 3 (leaky (n (W v 2) (W v 1 x1)))))
                      (pool (if in_is_down v then s else W v 4 s))) in
  if clip_upsample v then add y zero
  else
    let t := seen (norm v) y in
    add (W v 8 (leaky (n (W v 7) (W v 6 (up (leaky (n (W v 5) y)))))))
        (up (if down_is_out v then t else W v 9 t)).
(** The residual U-Net of the paper: the shortcut sees the tensor itself. *)
Definition seen_doc (t : norm_type) (x : V) : V := x.
(** The code: without a normalisation of its own the activation has overwritten it. *)
Definition seen_code (t : norm_type) (x : V) : V := if own_copy t then x else leaky x.

Definition unet_formula seen (levels : list (level V)) (last_conv : V -> V) (x : V) : V :=
  last_conv (fold_left (fun child v => level_formula seen v child) levels (fun x => x) x).

Definition conditional_formula (levels : list (level V)) (last_conv context_conv interpolate : V -> V)
    (cat : V -> V -> V) (image context : V) : V :=
  unet_formula seen_code levels last_conv (cat image (interpolate (leaky (context_conv context)))).

Definition hyper_formula (C : nat -> V -> V) (x : V) : V := C 2 (relu (C 1 (relu (C 0 x)))).
Definition unit_formula (C : nat -> V -> V) (x : V) : V := relu (add (hyper_formula C x) x).
Definition encoder_formula (C : nat -> V -> V) (x : V) : V :=
  C 10 (relu (C 9 (C 8 (relu (C 7 (C 6 (relu (C 5 (C 4 (relu (C 3 (C 2 (relu (C 1 (C 0 x))))))))))))))).
Definition block_formula (C : nat -> V -> V) (x : V) : V := add x (C 3 (C 2 (relu (C 1 (C 0 x))))).
Definition generator_formula (C : nat -> V -> V) (Rs : list (nat -> V -> V)) (x : V) : V :=
  let x0 := C 2 (C 1 (C 0 x)) in
  let y := add x0 (fold_left (fun y r => block_formula r y) Rs x0) in
  C 11 (relu (C 10 (C 9 (relu (C 8 (C 7 (relu (C 6 (C 5 (relu (C 4 (C 3 y)))))))))))).
End Spec.

(** * Lemmas *)

Section Proofs.
Context {V : Type}.
Implicit Types (m : layer V) (f g : V -> V) (h : heap V).

(** A layer that returns the cell it was given, with [f] written into it. *)
Definition same m f : Prop :=
  forall h l, l < next h ->
  let '(h', l') := m l h in
  l' = l /\ next h <= next h' /\ cell h' l = f (cell h l) /\ forall j, j < next h -> j <> l -> cell h' j = cell h j.
(** A layer that returns a new cell, with [g] written into the one it was given. *)
Definition fresh m f g : Prop :=
  forall h l, l < next h ->
  let '(h', l') := m l h in
  next h <= l' < next h' /\ cell h' l' = f (cell h l) /\ cell h' l = g (cell h l) /\
  forall j, j < next h -> j <> l -> cell h' j = cell h j.

Lemma fresh_acts : forall m f, fresh m f (fun x => x) <-> acts_as m f.
Proof.
  intros m f; split; intros H h l L; specialize (H h l L); destruct (m l h) as [h' l'].
  - destruct H as [A [B [C D]]]. repeat split; try apply A; auto.
    intros j J. destruct (Nat.eq_dec j l) as [->|N]; auto.
  - destruct H as [A [B D]]. repeat split; try apply A; auto.
Qed.

Lemma fresh_ext : forall m f g f' g', fresh m f g -> (forall x, f x = f' x) -> (forall x, g x = g' x) -> fresh m f' g'.
Proof.
  intros m f g f' g' H E E' h l L; specialize (H h l L); destruct (m l h) as [h' l'].
  rewrite <- E, <- E'; exact H.
Qed.

Lemma acts_ext : forall m f f', acts_as m f -> (forall x, f x = f' x) -> acts_as m f'.
Proof. intros m f f' H E; apply fresh_acts; apply fresh_acts in H; eapply fresh_ext; eauto. Qed.

Lemma pure1_fresh : forall f, fresh (pure1 f) f (fun x => x).
Proof.
  intros f h l L; cbn. rewrite Nat.eqb_refl.
  destruct (l =? next h) eqn:E; [apply Nat.eqb_eq in E; lia|].
  repeat split; try lia. intros j J N. destruct (j =? next h) eqn:E'; [apply Nat.eqb_eq in E'; lia|reflexivity].
Qed.

Lemma identity_same : same identity (fun x => x).
Proof. intros h l L; cbn; repeat split; auto. Qed.

Lemma inplace_same : forall f, same (inplace f) f.
Proof.
  intros f h l L; cbn. rewrite Nat.eqb_refl. repeat split; auto.
  intros j J N. destruct (j =? l) eqn:E; [apply Nat.eqb_eq in E; contradiction|reflexivity].
Qed.

Lemma norm_layer_own : forall t f, own_copy t = true -> fresh (build_norm_layer t f) f (fun x => x).
Proof. intros [] f H; try discriminate; apply pure1_fresh. Qed.

Lemma norm_layer_same : forall t f, own_copy t = false -> same (build_norm_layer t f) (fun x => x).
Proof. intros [] f H; try discriminate; apply identity_same. Qed.

Lemma seq_nil : same (sequential (V := V) []) (fun x => x).
Proof. exact identity_same. Qed.

Lemma seq_ss : forall m ls f f', same m f -> same (sequential ls) f' -> same (sequential (m :: ls)) (fun x => f' (f x)).
Proof.
  intros m ls f f' H H' h l L; specialize (H h l L). cbn [sequential]; unfold andthen.
  destruct (m l h) as [h1 l1]; destruct H as [-> [A [B C]]].
  specialize (H' h1 l (Nat.lt_le_trans _ _ _ L A)). destruct (sequential ls l h1) as [h2 l2].
  destruct H' as [-> [A' [B' C']]]. repeat split; [lia|rewrite B', B; reflexivity|].
  intros j J N. rewrite C' by (auto; lia). auto.
Qed.

Lemma seq_sf : forall m ls f f' g', same m f -> fresh (sequential ls) f' g' ->
  fresh (sequential (m :: ls)) (fun x => f' (f x)) (fun x => g' (f x)).
Proof.
  intros m ls f f' g' H H' h l L; specialize (H h l L). cbn [sequential]; unfold andthen.
  destruct (m l h) as [h1 l1]; destruct H as [-> [A [B C]]].
  specialize (H' h1 l (Nat.lt_le_trans _ _ _ L A)). destruct (sequential ls l h1) as [h2 l2].
  destruct H' as [A' [B' [C' D']]]. repeat split; try lia.
  - rewrite B', B; reflexivity.
  - rewrite C', B; reflexivity.
  - intros j J N. rewrite D' by (auto; lia). auto.
Qed.

Lemma seq_fs : forall m ls f g f', fresh m f g -> same (sequential ls) f' ->
  fresh (sequential (m :: ls)) (fun x => f' (f x)) g.
Proof.
  intros m ls f g f' H H' h l L; specialize (H h l L). cbn [sequential]; unfold andthen.
  destruct (m l h) as [h1 l1]; destruct H as [A [B [C D]]].
  specialize (H' h1 l1 (proj2 A)). destruct (sequential ls l1 h1) as [h2 l2].
  destruct H' as [-> [A' [B' C']]]. repeat split; try lia.
  - rewrite B', B; reflexivity.
  - rewrite C' by lia. exact C.
  - intros j J N. rewrite C' by lia. auto.
Qed.

Lemma seq_ff : forall m ls f g f' g', fresh m f g -> fresh (sequential ls) f' g' ->
  fresh (sequential (m :: ls)) (fun x => f' (f x)) g.
Proof.
  intros m ls f g f' g' H H' h l L; specialize (H h l L). cbn [sequential]; unfold andthen.
  destruct (m l h) as [h1 l1]; destruct H as [A [B [C D]]].
  specialize (H' h1 l1 (proj2 A)). destruct (sequential ls l1 h1) as [h2 l2].
  destruct H' as [A' [B' [C' D']]]. repeat split; try lia.
  - rewrite B', B; reflexivity.
  - rewrite D' by lia. exact C.
  - intros j J N. rewrite D' by lia. auto.
Qed.

(** Sequences of networks that act as functions. *)
Lemma acts_cons : forall m ls f f', acts_as m f -> acts_as (sequential ls) f' \/ (ls = [] /\ f' = (fun x => x)) ->
  acts_as (sequential (m :: ls)) (fun x => f' (f x)).
Proof.
  intros m ls f f' H [H'|[-> ->]]; apply fresh_acts; apply fresh_acts in H.
  - apply fresh_acts in H'. eapply seq_ff; eauto.
  - exact (seq_fs m [] f _ (fun x => x) H seq_nil).
Qed.

Lemma acts_one : forall m f, acts_as m f -> acts_as (sequential [m]) f.
Proof. intros m f H; apply (acts_cons m [] f (fun x => x)); auto. Qed.

Lemma acts_pure1 : forall f, acts_as (pure1 f) f.
Proof. intros f; apply fresh_acts, pure1_fresh. Qed.

(** The operator. *)
Lemma pure2_spec : forall (f : V -> V -> V) a b h,
  pure2 f a b h = (mkH (S (next h)) (fun j => if j =? next h then f (cell h a) (cell h b) else cell h j), next h).
Proof. reflexivity. Qed.

Ltac eqb_case j n := let E := fresh "E" in destruct (j =? n) eqn:E; [apply Nat.eqb_eq in E; try lia|apply Nat.eqb_neq in E; try lia].

Section Unet.
Variables (add : V -> V -> V) (leaky pool up : V -> V) (zero : V).

Notation level_formula := (level_formula add leaky pool up zero (seen_code leaky)).

Definition touch (v : level V) (x : V) : V := if top v then x else seen_code leaky (norm v) x.

Lemma left_block_fresh : forall v,
  fresh (left_block leaky pool v)
    (fun x => pool (W v 3 (leaky (normed (norm v) (W v 2) (W v 1 (if top v then x else leaky (normed (norm v) (W v 0) x)))))))
    (touch v).
Proof.
  intros v. unfold left_block.
  assert (T : forall f, fresh (sequential [build_norm_layer (norm v) (W v 2); inplace leaky; pure1 f; pure1 pool])
                        (fun x => pool (f (leaky (normed (norm v) (W v 2) x)))) (fun x => if own_copy (norm v) then x else leaky x)).
  { intros f. destruct (own_copy (norm v)) eqn:O.
    - eapply fresh_ext.
      + eapply seq_ff; [apply norm_layer_own; exact O|]. eapply seq_sf; [apply inplace_same|].
        eapply seq_ff; [apply pure1_fresh|]. eapply seq_fs; [apply pure1_fresh|]. apply seq_nil.
      + intros x; unfold normed; rewrite O; reflexivity.
      + intros x; reflexivity.
    - eapply fresh_ext.
      + eapply seq_sf; [apply norm_layer_same; exact O|]. eapply seq_sf; [apply inplace_same|].
        eapply seq_ff; [apply pure1_fresh|]. eapply seq_fs; [apply pure1_fresh|]. apply seq_nil.
      + intros x; unfold normed; rewrite O; reflexivity.
      + intros x; reflexivity. }
  specialize (T (W v 3)).
  unfold touch, seen_code. destruct (top v) eqn:P; [|destruct (own_copy (norm v)) eqn:O].
  - eapply fresh_ext.
    + eapply seq_sf; [apply identity_same|]. eapply seq_sf; [apply identity_same|].
      eapply seq_ff; [apply pure1_fresh|]. exact T.
    + intros x; reflexivity.
    + intros x; reflexivity.
  - eapply fresh_ext.
    + eapply seq_ff; [apply norm_layer_own; exact O|]. eapply seq_sf; [apply inplace_same|].
      eapply seq_ff; [apply pure1_fresh|]. exact T.
    + intros x; unfold normed; rewrite O; reflexivity.
    + intros x; reflexivity.
  - eapply fresh_ext.
    + eapply seq_sf; [apply norm_layer_same; exact O|]. eapply seq_sf; [apply inplace_same|].
      eapply seq_ff; [apply pure1_fresh|]. exact T.
    + intros x; unfold normed; rewrite O; reflexivity.
    + intros x; reflexivity.
Qed.

Lemma left_shortcut_fresh : forall v,
  fresh (left_shortcut pool v) (fun s => pool (if in_is_down v then s else W v 4 s)) (fun x => x).
Proof.
  intros v; unfold left_shortcut; destruct (in_is_down v); eapply fresh_ext;
    try (eapply seq_sf; [apply identity_same|]; eapply seq_fs; [apply pure1_fresh|]; apply seq_nil);
    try (eapply seq_ff; [apply pure1_fresh|]; eapply seq_fs; [apply pure1_fresh|]; apply seq_nil);
    intros x; reflexivity.
Qed.

Lemma right_block_fresh : forall v, clip_upsample v = false ->
  fresh (right_block leaky up v)
    (fun y => W v 8 (leaky (normed (norm v) (W v 7) (W v 6 (up (leaky (normed (norm v) (W v 5) y)))))))
    (seen_code leaky (norm v)).
Proof.
  intros v C; unfold right_block, seen_code; rewrite C.
  destruct (own_copy (norm v)) eqn:O; eapply fresh_ext.
  - eapply seq_ff; [apply norm_layer_own; exact O|]. eapply seq_sf; [apply inplace_same|].
    eapply seq_ff; [apply pure1_fresh|]. eapply seq_ff; [apply pure1_fresh|].
    eapply seq_ff; [apply norm_layer_own; exact O|]. eapply seq_sf; [apply inplace_same|].
    eapply seq_fs; [apply pure1_fresh|]. apply seq_nil.
  - intros x; unfold normed; rewrite O; reflexivity.
  - intros x; reflexivity.
  - eapply seq_sf; [apply norm_layer_same; exact O|]. eapply seq_sf; [apply inplace_same|].
    eapply seq_ff; [apply pure1_fresh|]. eapply seq_ff; [apply pure1_fresh|].
    eapply seq_sf; [apply norm_layer_same; exact O|]. eapply seq_sf; [apply inplace_same|].
    eapply seq_fs; [apply pure1_fresh|]. apply seq_nil.
  - intros x; unfold normed; rewrite O; reflexivity.
  - intros x; reflexivity.
Qed.

Lemma right_shortcut_fresh : forall v, clip_upsample v = false ->
  fresh (right_shortcut up zero v) (fun t => up (if down_is_out v then t else W v 9 t)) (fun x => x).
Proof.
  intros v C; unfold right_shortcut; rewrite C; destruct (down_is_out v); eapply fresh_ext;
    try (eapply seq_sf; [apply identity_same|]; eapply seq_fs; [apply pure1_fresh|]; apply seq_nil);
    try (eapply seq_ff; [apply pure1_fresh|]; eapply seq_fs; [apply pure1_fresh|]; apply seq_nil);
    intros x; reflexivity.
Qed.

(** What a child of a level may be. *)
Definition child_ok m f : Prop := (exists g, fresh m f g) \/ (same m (fun x => x) /\ forall x, f x = x).

Lemma child_use : forall m f h l, child_ok m f -> l < next h ->
  let '(h', l') := m l h in
  next h <= next h' /\ l' < next h' /\ (l' = l \/ next h <= l') /\ cell h' l' = f (cell h l) /\
  forall j, j < next h -> j <> l -> cell h' j = cell h j.
Proof.
  intros m f h l [[g H]|[H E]] L; specialize (H h l L); destruct (m l h) as [h' l'].
  - destruct H as [A [B [C D]]]; repeat split; auto; lia.
  - destruct H as [-> [A [B C]]]; repeat split; auto; try lia. rewrite B, E; reflexivity.
Qed.

Lemma level_fresh : forall v m f, child_ok m f ->
  fresh (level_forward add leaky pool up zero v m) (level_formula v f) (touch v).
Proof.
  intros v m f K h l L. unfold level_forward, andthen.
  pose proof (left_block_fresh v h l L) as H1. destruct (left_block leaky pool v l h) as [h1 a].
  destruct H1 as [A1 [B1 [C1 D1]]].
  assert (L1 : l < next h1) by lia.
  pose proof (left_shortcut_fresh v h1 l L1) as H2. destruct (left_shortcut pool v l h1) as [h2 b].
  destruct H2 as [A2 [B2 [C2 D2]]].
  rewrite pure2_spec. set (h3 := mkH _ _). set (x := next h2).
  assert (X : cell h3 x = add (cell h2 a) (cell h2 b)) by (unfold h3, x; cbn; rewrite Nat.eqb_refl; reflexivity).
  assert (F3 : forall j, j < next h2 -> cell h3 j = cell h2 j).
  { intros j J; unfold h3; cbn. eqb_case j (next h2); reflexivity. }
  assert (N3 : next h3 = S (next h2)) by reflexivity.
  pose proof (child_use m f h3 x K ltac:(unfold x; lia)) as H4. destruct (m x h3) as [h4 y].
  destruct H4 as [A4 [Y4 [O4 [B4 D4]]]].
  assert (Va : cell h2 a = pool (W v 3 (leaky (normed (norm v) (W v 2) (W v 1 (if top v then cell h l else leaky (normed (norm v) (W v 0) (cell h l)))))))).
  { rewrite <- B1. destruct (Nat.eq_dec a l) as [->|NE]; [lia|]. apply D2; lia. }
  assert (Vb : cell h2 b = pool (if in_is_down v then touch v (cell h l) else W v 4 (touch v (cell h l)))).
  { rewrite B2, C1; reflexivity. }
  assert (Yv : cell h4 y = f (add (cell h2 a) (cell h2 b))) by (rewrite B4, X; reflexivity).
  rewrite Va, Vb in Yv.
  unfold Heap_Props.level_formula.
  assert (U : touch v (cell h l) = if top v then cell h l else seen_code leaky (norm v) (cell h l)) by reflexivity.
  rewrite U in Yv.
  assert (Old : forall j, j < next h -> cell h4 j = if j =? l then touch v (cell h l) else cell h j).
  { intros j J. rewrite D4 by (unfold x; lia). rewrite F3 by lia.
    destruct (j =? l) eqn:E; [apply Nat.eqb_eq in E; subst j; rewrite C2; exact C1|].
    apply Nat.eqb_neq in E. rewrite D2 by lia. apply D1; auto. }
  assert (YO : next h <= y) by (destruct O4; unfold x in *; lia).
  destruct (clip_upsample v) eqn:CL.
  - unfold right_block, right_shortcut; rewrite CL. unfold identity, ret.
    unfold alloc. rewrite pure2_spec. cbn [next cell].
    assert (E1 : (S (next h4) =? next h4) = false) by (apply Nat.eqb_neq; lia).
    repeat split; try lia.
    + rewrite Nat.eqb_refl. rewrite Nat.eqb_refl. eqb_case y (next h4). rewrite Yv; reflexivity.
    + eqb_case l (S (next h4)). eqb_case l (next h4). rewrite Old by lia. rewrite Nat.eqb_refl; reflexivity.
    + intros j J NJ. eqb_case j (S (next h4)). eqb_case j (next h4). rewrite Old by lia.
      destruct (j =? l) eqn:E'; [apply Nat.eqb_eq in E'; contradiction|reflexivity].
  - pose proof (right_block_fresh v CL h4 y Y4) as H5. destruct (right_block leaky up v y h4) as [h5 r].
    destruct H5 as [A5 [B5 [C5 D5]]].
    pose proof (right_shortcut_fresh v CL h5 y ltac:(lia)) as H6. destruct (right_shortcut up zero v y h5) as [h6 s].
    destruct H6 as [A6 [B6 [C6 D6]]].
    rewrite pure2_spec. cbn [next cell].
    assert (Old6 : forall j, j < next h -> cell h6 j = if j =? l then touch v (cell h l) else cell h j).
    { intros j J. rewrite D6 by lia. rewrite D5 by lia. apply Old; exact J. }
    assert (Vr : cell h6 r = cell h5 r) by (apply D6; lia).
    repeat split; try lia.
    + rewrite Nat.eqb_refl. rewrite Vr, B5, B6, C5, Yv. reflexivity.
    + eqb_case l (next h6). rewrite Old6 by lia. rewrite Nat.eqb_refl; reflexivity.
    + intros j J NJ. eqb_case j (next h6). rewrite Old6 by lia.
      destruct (j =? l) eqn:E'; [apply Nat.eqb_eq in E'; contradiction|reflexivity].
Qed.

Lemma fold_child : forall levels m f, child_ok m f ->
  child_ok (fold_left (fun c v => level_forward add leaky pool up zero v c) levels m)
           (fold_left (fun c v => level_formula v c) levels f).
Proof.
  intros levels; induction levels as [|v levels IH]; intros m f K; [exact K|].
  cbn. apply IH. left. exists (touch v). apply level_fresh; exact K.
Qed.

(** The discriminator, for every depth, channel numbers and normalisation: a function
    of the image, which keeps its value. *)
Theorem C88_unet : forall inner outer last_conv, top outer = true ->
  acts_as (unet_forward add leaky pool up zero (inner ++ [outer]) last_conv)
          (unet_formula add leaky pool up zero (seen_code leaky) (inner ++ [outer]) last_conv).
Proof.
  intros inner outer last_conv T. apply fresh_acts. unfold unet_forward, unet_formula.
  rewrite !fold_left_app. cbn [fold_left].
  assert (K : child_ok (fold_left (fun c v => level_forward add leaky pool up zero v c) inner identity)
                       (fold_left (fun c v => level_formula v c) inner (fun x => x))).
  { apply fold_child. right. split; [apply identity_same|reflexivity]. }
  pose proof (level_fresh outer _ _ K) as F.
  eapply fresh_ext.
  - eapply seq_ff; [exact F|]. eapply seq_fs; [apply pure1_fresh|]. apply seq_nil.
  - intros x; reflexivity.
  - intros x; unfold touch; rewrite T; reflexivity.
Qed.

(** With batch or instance normalisation it is the residual U-Net of the paper. *)
Theorem C88_unet_is_documented : forall levels last_conv x,
  (forall v, In v levels -> own_copy (norm v) = true) ->
  unet_formula add leaky pool up zero (seen_code leaky) levels last_conv x =
  unet_formula add leaky pool up zero seen_doc levels last_conv x.
Proof.
  intros levels last_conv x H. unfold unet_formula. f_equal.
  assert (A : forall levels f f' x, (forall v, In v levels -> own_copy (norm v) = true) -> (forall x, f x = f' x) ->
    fold_left (fun c v => Heap_Props.level_formula add leaky pool up zero (seen_code leaky) v c) levels f x =
    fold_left (fun c v => Heap_Props.level_formula add leaky pool up zero seen_doc v c) levels f' x).
  { clear. intros levels; induction levels as [|v levels IH]; intros f f' x H E; [apply E|].
    cbn. apply IH; [intros u U; apply H; right; exact U|].
    intros y. unfold Heap_Props.level_formula, seen_code, seen_doc.
    rewrite (H v (or_introl eq_refl)). rewrite E. reflexivity. }
  apply A; auto.
Qed.

(** The conditional discriminator changes neither the image nor the context. *)
Theorem C88_conditional_unet : forall inner outer last_conv context_conv interpolate cat h image context,
  top outer = true -> image < next h -> context < next h ->
  let '(h', l') := conditional_forward add leaky pool up zero (inner ++ [outer]) last_conv context_conv interpolate cat image context h in
  next h <= l' < next h' /\
  cell h' l' = conditional_formula add leaky pool up zero (inner ++ [outer]) last_conv context_conv interpolate cat
                 (cell h image) (cell h context) /\
  forall j, j < next h -> cell h' j = cell h j.
Proof.
  intros inner outer last_conv context_conv interpolate cat h image context T I C.
  unfold conditional_forward, conditional_formula, andthen.
  assert (A : acts_as (sequential [pure1 context_conv; inplace leaky]) (fun x => leaky (context_conv x))).
  { apply fresh_acts. eapply seq_fs; [apply pure1_fresh|].
    exact (seq_ss _ [] _ (fun x => x) (inplace_same leaky) seq_nil). }
  pose proof (A h context C) as H1. destruct (sequential _ context h) as [h1 c1]. destruct H1 as [A1 [B1 D1]].
  pose proof (acts_pure1 interpolate h1 c1 (proj2 A1)) as H2. destruct (pure1 interpolate c1 h1) as [h2 c2].
  destruct H2 as [A2 [B2 D2]].
  rewrite pure2_spec. set (h3 := mkH _ _).
  pose proof (C88_unet inner outer last_conv T h3 (next h2) ltac:(unfold h3; cbn; lia)) as H4.
  destruct (unet_forward add leaky pool up zero (inner ++ [outer]) last_conv (next h2) h3) as [h4 l4].
  destruct H4 as [A4 [B4 D4]].
  assert (N3 : next h3 = S (next h2)) by reflexivity.
  repeat split; try lia.
  - rewrite B4. unfold h3; cbn [cell]. rewrite Nat.eqb_refl. rewrite B2, B1, D2, D1 by lia. reflexivity.
  - intros j J. rewrite D4 by lia. unfold h3; cbn [cell]. eqb_case j (next h2).
    rewrite D2 by lia. apply D1; exact J.
Qed.
End Unet.

Section Nets.
Variables (add : V -> V -> V) (relu clamp01 : V -> V).

(** The hyper networks of the HiFiC autoencoder keep the latent they read. *)
Theorem C88_hyper_networks : forall C,
  acts_as (hyper_analysis relu C) (hyper_formula relu C) /\
  acts_as (hyper_synthesis relu C) (hyper_formula relu C).
Proof.
  intros C; split; apply fresh_acts; unfold hyper_analysis, hyper_synthesis;
    (eapply fresh_ext;
      [eapply seq_ff; [apply pure1_fresh|]; eapply seq_sf; [apply inplace_same|];
       eapply seq_ff; [apply pure1_fresh|]; eapply seq_sf; [apply inplace_same|];
       eapply seq_fs; [apply pure1_fresh|apply seq_nil]
      |intros x; reflexivity|intros x; reflexivity]).
Qed.

Theorem C88_hific_encoder : forall C, acts_as (hific_encoder relu C) (encoder_formula relu C).
Proof.
  intros C. unfold hific_encoder.
  assert (B : forall f g, acts_as (sequential [pure1 f; pure1 g; pure1 relu]) (fun x => relu (g (f x)))).
  { intros f g. apply (acts_cons _ _ f (fun y => relu (g y)) (acts_pure1 f)). left.
    apply (acts_cons _ _ g relu (acts_pure1 g)). left. apply acts_one, acts_pure1. }
  eapply acts_ext.
  - apply acts_cons; [apply B|left]. apply acts_cons; [apply B|left]. apply acts_cons; [apply B|left].
    apply acts_cons; [apply B|left]. apply acts_cons; [apply B|left]. apply acts_one, acts_pure1.
  - intros x; reflexivity.
Qed.

Lemma residual_block_acts : forall C, acts_as (residual_block add relu C) (block_formula add relu C).
Proof.
  intros C h l L. unfold residual_block, block_formula, andthen.
  assert (A : acts_as (sequential [pure1 (C 0); pure1 (C 1); pure1 relu; pure1 (C 2); pure1 (C 3)])
                      (fun x => C 3 (C 2 (relu (C 1 (C 0 x)))))).
  { apply (acts_cons _ _ (C 0) (fun y => C 3 (C 2 (relu (C 1 y)))) (acts_pure1 _)); left.
    apply (acts_cons _ _ (C 1) (fun y => C 3 (C 2 (relu y))) (acts_pure1 _)); left.
    apply (acts_cons _ _ relu (fun y => C 3 (C 2 y)) (acts_pure1 _)); left.
    apply (acts_cons _ _ (C 2) (C 3) (acts_pure1 _)); left. apply acts_one, acts_pure1. }
  specialize (A h l L). destruct (sequential _ l h) as [h1 y]. destruct A as [A1 [B1 D1]].
  rewrite pure2_spec; cbn [next cell]. rewrite Nat.eqb_refl.
  repeat split; try lia.
  - rewrite D1, B1 by exact L; reflexivity.
  - intros j J. eqb_case j (next h1). auto.
Qed.

(** A chain of networks, possibly none, then something reads both ends. *)
Lemma chain : forall {A} (mk : A -> layer V) (fn : A -> V -> V) (xs : list A),
  (forall a, acts_as (mk a) (fn a)) -> forall h l, l < next h ->
  let '(h', l') := sequential (map mk xs) l h in
  next h <= next h' /\ l' < next h' /\ cell h' l' = fold_left (fun y a => fn a y) xs (cell h l) /\
  forall j, j < next h -> cell h' j = cell h j.
Proof.
  intros A mk fn xs H; induction xs as [|a xs IH]; intros h l L.
  - cbn; repeat split; auto.
  - cbn [map sequential fold_left]; unfold andthen.
    pose proof (H a h l L) as H1. destruct (mk a l h) as [h1 l1]. destruct H1 as [A1 [B1 D1]].
    specialize (IH h1 l1 (proj2 A1)). destruct (sequential (map mk xs) l1 h1) as [h2 l2].
    destruct IH as [A2 [B2 [C2 D2]]]. repeat split; try lia.
    + rewrite C2, B1; reflexivity.
    + intros j J. rewrite D2 by lia. auto.
Qed.

Theorem C88_hific_generator : forall C Rs,
  acts_as (hific_generator add relu C Rs) (generator_formula add relu C Rs).
Proof.
  intros C Rs h l L. unfold hific_generator, generator_formula, andthen.
  assert (A0 : acts_as (sequential [pure1 (C 0); pure1 (C 1); pure1 (C 2)]) (fun x => C 2 (C 1 (C 0 x)))).
  { apply (acts_cons _ _ (C 0) (fun y => C 2 (C 1 y)) (acts_pure1 _)); left.
    apply (acts_cons _ _ (C 1) (C 2) (acts_pure1 _)); left. apply acts_one, acts_pure1. }
  specialize (A0 h l L). destruct (sequential [pure1 (C 0); pure1 (C 1); pure1 (C 2)] l h) as [h1 x].
  destruct A0 as [A1 [B1 D1]].
  pose proof (chain (residual_block add relu) (block_formula add relu) Rs residual_block_acts h1 x (proj2 A1)) as H2.
  destruct (sequential (map (residual_block add relu) Rs) x h1) as [h2 r]. destruct H2 as [A2 [B2 [C2 D2]]].
  rewrite pure2_spec. set (h3 := mkH _ _).
  assert (B : forall f g, acts_as (sequential [pure1 f; pure1 g; pure1 relu]) (fun x => relu (g (f x)))).
  { intros f g. apply (acts_cons _ _ f (fun y => relu (g y)) (acts_pure1 f)). left.
    apply (acts_cons _ _ g relu (acts_pure1 g)). left. apply acts_one, acts_pure1. }
  match goal with |- context [sequential ?ls (next h2) h3] => set (tail := ls) end.
  assert (T : acts_as (sequential tail) (fun y =>
     C 11 (relu (C 10 (C 9 (relu (C 8 (C 7 (relu (C 6 (C 5 (relu (C 4 (C 3 y)))))))))))))).
  { unfold tail. eapply acts_ext.
    - apply acts_cons; [apply B|left]. apply acts_cons; [apply B|left]. apply acts_cons; [apply B|left].
      apply acts_cons; [apply B|left]. apply acts_one, acts_pure1.
    - intros y; reflexivity. }
  assert (N3 : next h3 = S (next h2)) by reflexivity.
  specialize (T h3 (next h2) ltac:(lia)). destruct (sequential tail (next h2) h3) as [h4 l4].
  destruct T as [A4 [B4 D4]].
  assert (X3 : cell h3 (next h2) = add (cell h2 x) (cell h2 r)) by (unfold h3; cbn; rewrite Nat.eqb_refl; reflexivity).
  repeat split; try lia.
  - rewrite B4, X3, C2, D2, B1 by lia. reflexivity.
  - intros j J. rewrite D4 by lia. unfold h3; cbn [cell]. eqb_case j (next h2).
    rewrite D2 by lia. apply D1; exact J.
Qed.

(** The residual units of the video codec add to a tensor of their own. *)
Theorem C88_residual_unit : forall C, acts_as (residual_unit add relu C) (unit_formula add relu C).
Proof.
  intros C h l L. unfold residual_unit, unit_formula, andthen.
  destruct (C88_hyper_networks C) as [A _]. unfold hyper_analysis in A.
  specialize (A h l L). destruct (sequential _ l h) as [h1 o]. destruct A as [A1 [B1 D1]].
  unfold iadd, inplace, andthen, read, write, ret; cbn [next cell].
  repeat split; try lia.
  - rewrite !Nat.eqb_refl. rewrite B1, D1 by exact L. reflexivity.
  - intros j J. eqb_case j o. auto.
Qed.

Lemma chain_app : forall (ls ls' : list (layer V)) l h,
  sequential (ls ++ ls') l h = let '(h', l') := sequential ls l h in sequential ls' l' h'.
Proof.
  intros ls; induction ls as [|m ls IH]; intros ls' l h; [reflexivity|].
  cbn [app sequential]; unfold andthen. destruct (m l h) as [h1 l1]. apply IH.
Qed.

Definition elic_formula (C : nat -> V -> V) (Us : nat -> list (nat -> V -> V)) (x : V) : V :=
  let units k y := fold_left (fun y u => unit_formula add relu u y) (Us k) y in
  C 5 (C 4 (units 2 (C 3 (C 2 (units 1 (C 1 (units 0 (C 0 x)))))))).

Theorem C88_elic_analysis : forall C Us, acts_as (elic_analysis add relu C Us) (elic_formula C Us).
Proof.
  intros C Us h l L. unfold elic_analysis, elic_formula.
  assert (P1 : forall f h l, l < next h -> let '(h', l') := sequential [pure1 f] l h in
     next h <= l' < next h' /\ cell h' l' = f (cell h l) /\ forall j, j < next h -> cell h' j = cell h j).
  { intros f; exact (acts_one _ _ (acts_pure1 f)). }
  assert (P2 : forall f g h l, l < next h -> let '(h', l') := sequential [pure1 f; pure1 g] l h in
     next h <= l' < next h' /\ cell h' l' = g (f (cell h l)) /\ forall j, j < next h -> cell h' j = cell h j).
  { intros f g. change (acts_as (sequential [pure1 f; pure1 g]) (fun x => g (f x))).
    apply acts_cons; [apply acts_pure1|]. left. apply acts_one, acts_pure1. }
  rewrite chain_app. pose proof (P1 (C 0) h l L) as H1. destruct (sequential [pure1 (C 0)] l h) as [h1 l1]. destruct H1 as [A1 [B1 D1]].
  rewrite chain_app. pose proof (chain (residual_unit add relu) (unit_formula add relu) (Us 0) C88_residual_unit h1 l1 (proj2 A1)) as H2.
  destruct (sequential (map (residual_unit add relu) (Us 0)) l1 h1) as [h2 l2]. destruct H2 as [A2 [L2 [B2 D2]]].
  rewrite chain_app. pose proof (P1 (C 1) h2 l2 L2) as H3. destruct (sequential [pure1 (C 1)] l2 h2) as [h3 l3]. destruct H3 as [A3 [B3 D3]].
  rewrite chain_app. pose proof (chain (residual_unit add relu) (unit_formula add relu) (Us 1) C88_residual_unit h3 l3 (proj2 A3)) as H4.
  destruct (sequential (map (residual_unit add relu) (Us 1)) l3 h3) as [h4 l4]. destruct H4 as [A4 [L4 [B4 D4]]].
  rewrite chain_app. pose proof (P2 (C 2) (C 3) h4 l4 L4) as H5. destruct (sequential [pure1 (C 2); pure1 (C 3)] l4 h4) as [h5 l5]. destruct H5 as [A5 [B5 D5]].
  rewrite chain_app. pose proof (chain (residual_unit add relu) (unit_formula add relu) (Us 2) C88_residual_unit h5 l5 (proj2 A5)) as H6.
  destruct (sequential (map (residual_unit add relu) (Us 2)) l5 h5) as [h6 l6]. destruct H6 as [A6 [L6 [B6 D6]]].
  pose proof (P2 (C 4) (C 5) h6 l6 L6) as H7. destruct (sequential [pure1 (C 4); pure1 (C 5)] l6 h6) as [h7 l7]. destruct H7 as [A7 [B7 D7]].
  repeat split; try lia.
  - rewrite B7, B6, B5, B4, B3, B2, B1; reflexivity.
  - intros j J. rewrite D7, D6, D5, D4, D3, D2 by lia. auto.
Qed.

(** The last step of DVC's decoder clamps a tensor of its own. *)
Theorem C88_dvc_reconstruct : forall h a b, a < next h -> b < next h ->
  let '(h', l') := dvc_reconstruct add clamp01 a b h in
  next h <= l' < next h' /\ cell h' l' = clamp01 (add (cell h a) (cell h b)) /\
  forall j, j < next h -> cell h' j = cell h j.
Proof.
  intros h a b A B. cbn. rewrite !Nat.eqb_refl. repeat split; try lia.
  intros j J. eqb_case j (next h). reflexivity.
Qed.

(** * One forward pass of the autoencoder *)

(** The dataflow as a formula. *)
Record values := mkVals { v_image : V; v_latent : V; v_latent_lik : V; v_quantized_latent_lik : V;
  v_hyper_latent : V; v_hyper_lik : V; v_quantized_hyper_lik : V }.
Definition forward_formula (training : bool) (Enc Ha Hm Hs : nat -> V -> V) (E : entropy V)
    (Gen : nat -> V -> V) (Rs : list (nat -> V -> V)) (x : V) : values :=
  let y := encoder_formula relu Enc x in
  let z := hyper_formula relu Ha y in
  let zq := if training then z_noise E z else z_round E z in
  let means := hyper_formula relu Hm zq in
  let scales := hyper_formula relu Hs zq in
  let rounded := y_round E means y in
  let latent := if training then ste E means y else rounded in
  mkVals (generator_formula add relu Gen Rs latent) latent
    (y_lik E scales means (if training then y_noise E y else rounded))
    (y_lik E scales means rounded)
    zq (z_lik E zq) (z_lik E (z_round E zq)).

Definition get (h : heap V) (o : hyperprior_output) : values :=
  mkVals (cell h (o_image o)) (cell h (o_latent o)) (cell h (o_latent_lik o)) (cell h (o_quantized_latent_lik o))
    (cell h (o_hyper_latent o)) (cell h (o_hyper_lik o)) (cell h (o_quantized_hyper_lik o)).

Theorem C88_hific_forward : forall training Enc Ha Hm Hs E Gen Rs h image, image < next h ->
  let '(h', o) := hific_forward add relu training Enc Ha Hm Hs E Gen Rs image h in
  get h' o = forward_formula training Enc Ha Hm Hs E Gen Rs (cell h image) /\
  forall j, j < next h -> cell h' j = cell h j.
Proof.
  intros training Enc Ha Hm Hs E Gen Rs h image L.
  unfold hific_forward, andthen at 1.
  pose proof (C88_hific_encoder Enc h image L) as H1. destruct (hific_encoder relu Enc image h) as [h1 y].
  destruct H1 as [A1 [B1 D1]]. unfold andthen at 1.
  pose proof (proj1 (C88_hyper_networks Ha) h1 y (proj2 A1)) as H2. destruct (hyper_analysis relu Ha y h1) as [h2 z].
  destruct H2 as [A2 [B2 D2]].
  unfold hyper_bottleneck, andthen at 1. unfold andthen at 1. unfold andthen at 1.
  pose proof (acts_pure1 (if training then z_noise E else z_round E) h2 z (proj2 A2)) as H3.
  destruct (pure1 (if training then z_noise E else z_round E) z h2) as [h3 zq]. destruct H3 as [A3 [B3 D3]].
  try (unfold andthen at 1). try (unfold andthen at 1).
  pose proof (acts_pure1 (z_lik E) h3 zq (proj2 A3)) as H4. destruct (pure1 (z_lik E) zq h3) as [h4 zl].
  destruct H4 as [A4 [B4 D4]]. unfold ret at 1. cbn iota beta.
  try (unfold andthen at 1). try (unfold andthen at 1).
  pose proof (acts_pure1 (z_round E) h4 zq ltac:(lia)) as H5. destruct (pure1 (z_round E) zq h4) as [h5 zr].
  destruct H5 as [A5 [B5 D5]]. try (unfold andthen at 1).
  pose proof (acts_pure1 (z_lik E) h5 zr (proj2 A5)) as H6. destruct (pure1 (z_lik E) zr h5) as [h6 zrl].
  destruct H6 as [A6 [B6 D6]]. unfold ret at 1. cbn iota beta.
  try (unfold andthen at 1).
  pose proof (proj2 (C88_hyper_networks Hm) h6 zq ltac:(lia)) as H7. destruct (hyper_synthesis relu Hm zq h6) as [h7 mean].
  destruct H7 as [A7 [B7 D7]]. try (unfold andthen at 1).
  pose proof (proj2 (C88_hyper_networks Hs) h7 zq ltac:(lia)) as H8. destruct (hyper_synthesis relu Hs zq h7) as [h8 scale].
  destruct H8 as [A8 [B8 D8]].
  (* values so far *)
  assert (Vy : cell h8 y = encoder_formula relu Enc (cell h image)).
  { rewrite D8, D7, D6, D5, D4, D3, D2, B1 by lia; reflexivity. }
  assert (Vz : cell h8 zq = (if training then z_noise E else z_round E) (hyper_formula relu Ha (encoder_formula relu Enc (cell h image)))).
  { rewrite D8, D7, D6, D5, D4, B3, B2, B1 by lia; reflexivity. }
  assert (Z6 : cell h6 zq = cell h8 zq) by (rewrite D8, D7 by lia; reflexivity).
  assert (Z7 : cell h7 zq = cell h8 zq) by (rewrite D8 by lia; reflexivity).
  assert (Z3 : cell h3 zq = cell h8 zq) by (rewrite D8, D7, D6, D5, D4 by lia; reflexivity).
  assert (Z4 : cell h4 zq = cell h8 zq) by (rewrite D8, D7, D6, D5 by lia; reflexivity).
  assert (Vm : cell h8 mean = hyper_formula relu Hm (cell h8 zq)) by (rewrite D8, B7, Z6 by lia; reflexivity).
  assert (Vs : cell h8 scale = hyper_formula relu Hs (cell h8 zq)) by (rewrite B8, Z7; reflexivity).
  assert (Vzl : cell h8 zl = z_lik E (cell h8 zq)).
  { rewrite D8, D7, D6, D5, B4, Z3 by lia; reflexivity. }
  assert (Vzrl : cell h8 zrl = z_lik E (z_round E (cell h8 zq))).
  { rewrite D8, D7, B6, B5, Z4 by lia; reflexivity. }
  assert (Old8 : forall j, j < next h -> cell h8 j = cell h j).
  { intros j J. rewrite D8, D7, D6, D5, D4, D3, D2 by lia. auto. }
  (* the latent bottleneck *)
  assert (LB : forall tr k, next h8 <= next k -> (forall j, j < next h8 -> cell k j = cell h8 j) ->
    let '(k', (o, p)) := latent_bottleneck E tr y scale mean k in
    next k <= o < next k' /\ next k <= p < next k' /\
    cell k' o = (if tr then y_noise E (cell h8 y) else y_round E (cell h8 mean) (cell h8 y)) /\
    cell k' p = y_lik E (cell h8 scale) (cell h8 mean) (if tr then y_noise E (cell h8 y) else y_round E (cell h8 mean) (cell h8 y)) /\
    forall j, j < next k -> cell k' j = cell k j).
  { intros tr k NK FK. unfold latent_bottleneck, andthen at 1.
    assert (Q : forall u, u < next h8 -> (u =? next k) = false) by (intros u U; apply Nat.eqb_neq; lia).
    destruct tr; cbn -[Nat.eqb]; rewrite ?Nat.eqb_refl;
      rewrite !Q by lia;
      assert (S1 : (next k =? S (next k)) = false) by (apply Nat.eqb_neq; lia);
      rewrite S1, ?Nat.eqb_refl;
      rewrite !FK by lia; repeat split; try lia;
      intros j J; eqb_case j (S (next k)); eqb_case j (next k); reflexivity. }
  try (unfold andthen at 1).
  pose proof (LB training h8 (le_n _) (fun j _ => eq_refl)) as H9.
  destruct (latent_bottleneck E training y scale mean h8) as [h9 [yq yl]]. destruct H9 as [A9 [A9' [B9 [C9 D9]]]].
  cbn iota beta. try (unfold andthen at 1).
  pose proof (LB false h9 ltac:(lia) D9) as H10.
  destruct (latent_bottleneck E false y scale mean h9) as [h10 [yr yrl]]. destruct H10 as [A10 [A10' [B10 [C10 D10]]]].
  cbn iota beta. try (unfold andthen at 1).
  assert (Old10 : forall j, j < next h8 -> cell h10 j = cell h8 j).
  { intros j J. rewrite D10 by lia. apply D9; exact J. }
  assert (LT : let '(k, lat) := (if training then pure2 (ste E) mean y else ret yq) h10 in
     next h10 <= next k /\ lat < next k /\
     cell k lat = (if training then ste E (cell h8 mean) (cell h8 y) else y_round E (cell h8 mean) (cell h8 y)) /\
     forall j, j < next h10 -> cell k j = cell h10 j).
  { destruct training.
    - rewrite pure2_spec; cbn [next cell]. rewrite Nat.eqb_refl, !Old10 by lia. repeat split; try lia.
      intros j J. eqb_case j (next h10); reflexivity.
    - unfold ret. repeat split; auto; try lia. rewrite D10 by lia. exact B9. }
  destruct ((if training then pure2 (ste E) mean y else ret yq) h10) as [h11 lat]. destruct LT as [N11 [L11 [B11 D11]]].
  try (unfold andthen at 1).
  pose proof (C88_hific_generator Gen Rs h11 lat L11) as H12.
  destruct (hific_generator add relu Gen Rs lat h11) as [h12 rec]. destruct H12 as [A12 [B12 D12]].
  unfold ret. split.
  - unfold get, forward_formula; cbn [o_image o_latent o_latent_lik o_quantized_latent_lik o_hyper_latent o_hyper_lik o_quantized_hyper_lik].
    rewrite B12.
    assert (Q : forall j, j < next h8 -> cell h12 j = cell h8 j).
    { intros j J. rewrite D12, D11 by lia. apply Old10; exact J. }
    rewrite (D12 lat) by lia. rewrite (D12 yl), (D11 yl), (D10 yl) by lia.
    rewrite (D12 yrl), (D11 yrl) by lia. rewrite !Q by lia.
    rewrite B11, C9, C10, Vzl, Vzrl, Vm, Vs, Vy, Vz.
    destruct training; reflexivity.
  - intros j J. rewrite D12, D11 by lia. rewrite Old10 by lia. apply Old8; exact J.
Qed.

(** In evaluation mode the likelihoods of the quantised values are those of the values
    returned, if rounding twice is rounding once. *)
Theorem C88_forward_eval_consistent : forall Enc Ha Hm Hs (E : entropy V) Gen Rs x,
  (forall z, z_round E (z_round E z) = z_round E z) ->
  let v := forward_formula false Enc Ha Hm Hs E Gen Rs x in
  v_quantized_hyper_lik v = v_hyper_lik v /\ v_quantized_latent_lik v = v_latent_lik v /\
  v_hyper_lik v = z_lik E (v_hyper_latent v).
Proof. intros Enc Ha Hm Hs E Gen Rs x H; cbn. rewrite H. auto. Qed.

(** In training the generator sees the rounded latent, and the likelihoods logged for
    it are those of that latent, if the straight-through rounding is the rounding of
    the entropy model. *)
Theorem C88_forward_train_latent : forall Enc Ha Hm Hs (E : entropy V) Gen Rs x,
  (forall mu y, ste E mu y = y_round E mu y) ->
  let v := forward_formula true Enc Ha Hm Hs E Gen Rs x in
  let y := encoder_formula relu Enc x in
  let means := hyper_formula relu Hm (v_hyper_latent v) in
  let scales := hyper_formula relu Hs (v_hyper_latent v) in
  v_latent v = y_round E means y /\ v_quantized_latent_lik v = y_lik E scales means (v_latent v) /\
  v_image v = generator_formula add relu Gen Rs (v_latent v).
Proof. intros Enc Ha Hm Hs E Gen Rs x H; cbn. rewrite H. auto. Qed.

End Nets.

(** * Histories of calls *)

(** Any sequence of calls of such networks on tensors that existed at the beginning
    (the same ones again, in any order): every tensor keeps its value, and every
    result is what its call alone would give. *)
Fixpoint calls (cs : list (layer V * loc)) : M V (list loc) :=
  fun h => match cs with
           | [] => (h, [])
           | (m, l) :: cs' => let '(h1, r) := m l h in let '(h2, rs) := calls cs' h1 in (h2, r :: rs)
           end.

Lemma calls_indep : forall (cs : list (layer V * loc)) (fs : list (V -> V)) h,
  Forall2 (fun c f => acts_as (fst c) f) cs fs -> Forall (fun c => snd c < next h) cs ->
  let '(h', rs) := calls cs h in
  next h <= next h' /\ (forall j, j < next h -> cell h' j = cell h j) /\
  Forall (fun r => next h <= r < next h') rs /\
  map (cell h') rs = map (fun cf => snd cf (cell h (snd (fst cf)))) (combine cs fs).
Proof.
  intros cs fs h F. revert h. induction F as [|[m l] f cs fs H F IH]; intros h B.
  - cbn. repeat split; auto.
  - inversion B as [|? ? L B']; subst. cbn [fst snd] in *. cbn [calls].
    pose proof (H h l L) as H1. destruct (m l h) as [h1 r]. destruct H1 as [A1 [B1 D1]].
    assert (B'' : Forall (fun c => snd c < next h1) cs).
    { eapply Forall_impl; [|exact B']. intros c C; cbn in *; lia. }
    specialize (IH h1 B''). destruct (calls cs h1) as [h2 rs]. destruct IH as [N2 [D2 [R2 M2]]].
    split; [lia|]. split; [|split].
    + intros j J. rewrite D2 by lia. apply D1; exact J.
    + constructor; [lia|]. eapply Forall_impl; [|exact R2]. intros q Q; cbn in Q; lia.
    + cbn [map combine fst snd]. f_equal; [rewrite D2 by lia; exact B1|].
      rewrite M2. apply map_ext_in. intros [[m' l'] f'] I. cbn [fst snd]. f_equal. apply D1.
      apply in_combine_l in I. rewrite Forall_forall in B'. exact (B' _ I).
Qed.

Theorem C88_calls_independent : forall (cs : list (layer V * loc)) (fs : list (V -> V)) h,
  Forall2 (fun c f => acts_as (fst c) f) cs fs -> Forall (fun c => snd c < next h) cs ->
  let '(h', rs) := calls cs h in
  (forall j, j < next h -> cell h' j = cell h j) /\
  Forall (fun r => next h <= r < next h') rs /\
  map (cell h') rs = map (fun cf => snd cf (cell h (snd (fst cf)))) (combine cs fs).
Proof.
  intros cs fs h F B. pose proof (calls_indep cs fs h F B) as H. destruct (calls cs h) as [h' rs]. apply H.
Qed.

End Proofs.

(** * Deviations and non-vacuity *)

(** In training the likelihoods logged as those of the quantised hyper-latent are those
    of the rounded NOISY hyper-latent, not of the rounded hyper-latent that the encoder
    would write.  Values in tenths; the noise is 0.3 and the hyper-latent 0.4. *)
Definition tenths : entropy Z :=
  {| z_noise := fun z => (z + 3)%Z; z_round := fun z => (10 * ((z + 5) / 10))%Z; z_lik := fun z => z;
     y_noise := fun y => y; y_round := fun _ y => y; y_lik := fun _ _ y => y; ste := fun _ y => y |}.
Definition keep (_ : nat) (v : Z) : Z := v.
Theorem C88_training_hyper_rate_refuted :
  ~ (forall (E : entropy Z) Enc Ha Hm Hs Gen Rs x, (forall z, z_round E (z_round E z) = z_round E z) ->
     v_quantized_hyper_lik (forward_formula Z.add (fun v => v) true Enc Ha Hm Hs E Gen Rs x) =
     z_lik E (z_round E (hyper_formula (fun v => v) Ha (encoder_formula (fun v => v) Enc x)))).
Proof.
  intros H. specialize (H tenths keep keep keep keep keep [] 4%Z).
  assert (I : forall z, z_round tenths (z_round tenths z) = z_round tenths z).
  { intros z; cbn [z_round tenths].
    replace (10 * ((z + 5) / 10) + 5)%Z with (5 + ((z + 5) / 10) * 10)%Z by lia.
    rewrite Z.div_add by lia. cbn. lia. }
  specialize (H I). vm_compute in H. discriminate H.
Qed.

(** Without a normalisation layer of its own the U-Net is not the documented one. *)
Definition half_level (t : norm_type) (tp clip : bool) : level Z :=
  {| norm := t; top := tp; clip_upsample := clip; in_is_down := true; down_is_out := true; W := keep |}.
Definition lrelu (v : Z) : Z := if (v <? 0)%Z then (v / 2)%Z else v.
Theorem C88_unet_spectral_refuted :
  ~ (forall levels x, 
     unet_formula Z.add lrelu (fun v => v) (fun v => v) 0%Z (seen_code lrelu) levels (fun v => v) x =
     unet_formula Z.add lrelu (fun v => v) (fun v => v) 0%Z seen_doc levels (fun v => v) x).
Proof.
  intros H. specialize (H [half_level Spectral true false] (-8)%Z). vm_compute in H. discriminate H.
Qed.

(** A level that is not the outermost one does overwrite the tensor it is given: only
    the outermost level protects the image. *)
Theorem C88_inner_level_overwrites :
  exists h : heap Z, exists l,
  let '(h', l') := level_forward Z.add lrelu (fun v => v) (fun v => v) 0%Z (half_level Spectral false false) identity l h in
  l < next h /\ cell h' l <> cell h l.
Proof.
  exists (mkH 1 (fun _ => (-16)%Z)), 0. vm_compute. split; [lia|discriminate].
Qed.

(** A discriminator of three levels and a forward pass in both modes. *)
Example C88_ex_unet :
  let levels := [half_level Instance false true; half_level Spectral false false; half_level Spectral true false] in
  let '(h', l') := unet_forward Z.add lrelu (fun v => v) (fun v => v) 0%Z levels (fun v => v) 0 (mkH 1 (fun _ => (-16)%Z)) in
  cell h' 0 = (-16)%Z /\ cell h' l' = unet_formula Z.add lrelu (fun v => v) (fun v => v) 0%Z (seen_code lrelu) levels (fun v => v) (-16)%Z
  /\ cell h' l' <> (-16)%Z.
Proof. vm_compute. split; [reflexivity|split; [reflexivity|discriminate]]. Qed.

Example C88_ex_calls :
  let h := mkH 2 (fun l => if l =? 0 then (-8)%Z else 5%Z) in
  let u := residual_unit Z.add lrelu keep in
  let '(h', rs) := calls [(u, 0); (u, 1); (u, 0)] h in
  map (cell h') rs = [(-5)%Z; 10%Z; (-5)%Z] /\ cell h' 0 = (-8)%Z.
Proof. vm_compute. auto. Qed.

Print Assumptions C88_unet.
Print Assumptions C88_unet_is_documented.
Print Assumptions C88_conditional_unet.
Print Assumptions C88_hyper_networks.
Print Assumptions C88_hific_encoder.
Print Assumptions C88_hific_generator.
Print Assumptions C88_residual_unit.
Print Assumptions C88_elic_analysis.
Print Assumptions C88_dvc_reconstruct.
Print Assumptions C88_hific_forward.
Print Assumptions C88_forward_eval_consistent.
Print Assumptions C88_forward_train_latent.
Print Assumptions C88_calls_independent.
Print Assumptions C88_training_hyper_rate_refuted.
Print Assumptions C88_unet_spectral_refuted.
Print Assumptions C88_inner_level_overwrites.

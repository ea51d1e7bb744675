(** C59: sampling from a uniform-noise distribution and its shapes. *)
From Coq Require Import Reals List Bool Arith Lia Lra.
From Verif Require Import Base Tensor Dist_Model.
Import ListNotations.
Open Scope nat_scope.

Lemma bcast_rev_same : forall s, bcast_rev s s = Ok s.
Proof. induction s as [|a s IH]; [reflexivity|]. cbn. rewrite Nat.eqb_refl. cbn. rewrite IH. reflexivity. Qed.

Lemma bcast_rev_nil : forall s, bcast_rev s [] = Ok s.
Proof. destruct s; reflexivity. Qed.

Lemma inb_length : forall s i, inb s i -> length i = length s.
Proof. induction s as [|a s IH]; intros [|k i] H; cbn in *; try easy. f_equal. apply IH. tauto. Qed.

Lemma bcast_index_id : forall s i, inb s i -> bcast_index s i = i.
Proof.
  intros s i H. unfold bcast_index. rewrite (inb_length s i H), Nat.sub_diag. cbn [skipn].
  revert i H. induction s as [|a s IH]; intros [|k i] H; cbn in *; try easy.
  destruct H as [H1 H2]. f_equal; [|apply IH, H2].
  destruct (Nat.eqb_spec a 1); lia.
Qed.

(** A base distribution of a single variable: every sample has its own noise. *)
Theorem rsample_scalar : forall base u s, exists t,
  rsample (mkDS [] []) base u s = Ok t /\ tshape t = s /\
  forall i, inb s i -> tat t i = (base i + u i)%R.
Proof.
  intros base u s. unfold rsample, bcast_add, sample_dims, bcast_shape. cbn [tshape ds_batch ds_event].
  rewrite !app_nil_r, bcast_rev_same. cbn [bind].
  eexists; split; [reflexivity|]. cbn [tshape tat]. rewrite rev_involutive. split; [reflexivity|].
  intros i I. rewrite !bcast_index_id by exact I. reflexivity.
Qed.

(** sample() of a base with several variables: the shape is right, but one and the same
    noise value is added to all of them, so the noise is not independent. *)
Theorem rsample_shared_noise_refuted : forall d base u, exists t,
  rsample d base u [] = Ok t /\ tshape t = ds_batch d ++ ds_event d /\
  forall i, inb (tshape t) i -> tat t i = (base i + u [])%R.
Proof.
  intros d base u. unfold rsample, bcast_add, sample_dims, bcast_shape. cbn [tshape ds_batch ds_event].
  rewrite bcast_rev_nil. cbn [bind].
  eexists; split; [reflexivity|]. cbn [tshape tat]. rewrite rev_involutive. split; [reflexivity|].
  intros i I. rewrite bcast_index_id by exact I. reflexivity.
Qed.

(** sample((n,)) of a base whose last dimension is m, the documented shape being (n, ..., m):
    it raises unless n = m, n = 1 or m = 1; for n = m the noise goes with the last index of
    the variable instead of the sample; for m = 1 < n the result has n columns instead of 1. *)
Theorem rsample_vector_refuted : forall n lead m base u,
  let d := mkDS (lead ++ [m]) [] in
  (n <> m -> n <> 1 -> m <> 1 -> rsample d base u [n] = Raise RuntimeError) /\
  (n = m -> exists t, rsample d base u [n] = Ok t /\ tshape t = n :: lead ++ [m] /\
            forall k l j, inb (n :: lead ++ [m]) (k :: l ++ [j]) -> tat t (k :: l ++ [j]) = (base (k :: l ++ [j]) + u [j])%R) /\
  (n = 1 -> m <> 1 -> exists t, rsample d base u [n] = Ok t /\ tshape t = n :: lead ++ [m] /\
            forall k l j, inb (n :: lead ++ [m]) (k :: l ++ [j]) -> tat t (k :: l ++ [j]) = (base (k :: l ++ [j]) + u [0%nat])%R) /\
  (m = 1 -> n <> 1 -> exists t, rsample d base u [n] = Ok t /\ tshape t = n :: lead ++ [n]).
Proof.
  intros n lead m base u d.
  assert (R : rev (sample_dims d [n]) = m :: rev lead ++ [n]).
  { unfold sample_dims, d. cbn [ds_batch ds_event]. rewrite app_nil_r. cbn [app rev].
    rewrite rev_app_distr. reflexivity. }
  assert (Q : rev (sample_dims (mkDS [] []) [n]) = [n]) by reflexivity.
  assert (B : bcast_shape (sample_dims d [n]) (sample_dims (mkDS [] []) [n])
              = do e <- (if m =? n then Ok m else if m =? 1 then Ok n else if n =? 1 then Ok m
                         else Raise RuntimeError); Ok (n :: lead ++ [e])).
  { unfold bcast_shape. rewrite R, Q. cbn [bcast_rev]. rewrite bcast_rev_nil.
    destruct (m =? n); [|destruct (m =? 1); [|destruct (n =? 1)]]; cbn [bind]; try reflexivity;
      cbn [rev]; rewrite rev_app_distr, rev_involutive; reflexivity. }
  assert (L : forall (k : nat) l j, length (k :: l ++ [j]) - 1 = length (k :: l)).
  { intros. cbn [length]. rewrite app_length. cbn. lia. }
  assert (U : forall k l j, bcast_index [n] (k :: l ++ [j]) = [if n =? 1 then 0 else j]).
  { intros k l j. unfold bcast_index. cbn [length]. change (S (length (l ++ [j])) - 1) with (length (k :: l ++ [j]) - 1). rewrite L.
    change (k :: l ++ [j]) with ((k :: l) ++ [j]). rewrite skipn_app, skipn_all, Nat.sub_diag. reflexivity. }
  unfold rsample, bcast_add. cbn [tshape tat]. rewrite B.
  repeat split.
  - intros A1 A2 A3. destruct (Nat.eqb_spec m n); [congruence|].
    destruct (Nat.eqb_spec m 1); [congruence|]. destruct (Nat.eqb_spec n 1); [congruence|]. reflexivity.
  - intros ->. rewrite Nat.eqb_refl. cbn [bind]. eexists; split; [reflexivity|]. cbn [tshape tat].
    split; [reflexivity|]. intros k l j I.
    change (sample_dims (mkDS [] []) [m]) with [m]. rewrite U.
    assert (D : sample_dims d [m] = m :: lead ++ [m]).
    { unfold sample_dims, d. cbn. rewrite app_nil_r. reflexivity. }
    rewrite D, bcast_index_id by exact I. do 2 f_equal. f_equal.
    destruct (Nat.eqb_spec m 1) as [M|M]; [|reflexivity].
    assert (J : j < m).
    { clear - I. cbn [inb] in I. destruct I as [_ I].
      assert (G : forall a b x y, length b = length a -> inb (a ++ [x]) (b ++ [y]) -> y < x).
      { induction a as [|p a IH]; intros [|q b] x y E H; cbn in *; try easy. apply (IH b x y); [lia|apply H]. }
      apply (G lead l m j); [|exact I]. pose proof (inb_length _ _ I). rewrite !app_length in H. cbn in H. lia. }
    lia.
  - intros -> M. destruct (Nat.eqb_spec m 1); [congruence|]. cbn [Nat.eqb bind].
    eexists; split; [reflexivity|]. cbn [tshape tat]. split; [reflexivity|]. intros k l j I.
    change (sample_dims (mkDS [] []) [1]) with [1]. rewrite U. cbn [Nat.eqb].
    assert (D : sample_dims d [1] = 1 :: lead ++ [m]).
    { unfold sample_dims, d. cbn. rewrite app_nil_r. reflexivity. }
    rewrite D, bcast_index_id by exact I. reflexivity.
  - intros -> N. destruct (Nat.eqb_spec 1 n); [congruence|]. cbn [Nat.eqb bind].
    eexists; split; reflexivity.
Qed.

(** The reported batch and event shapes are exchanged: a batch of independent variables is
    reported as one event, so that they agree with the base only when both are empty or
    equal. *)
Theorem noise_shapes_swapped : forall d,
  ds_batch (noise_shapes d) = ds_event d /\ ds_event (noise_shapes d) = ds_batch d /\
  (noise_shapes d = d <-> ds_batch d = ds_event d).
Proof.
  intros [b e]. cbn. repeat split.
  - intros H. injection H as H _. symmetry; exact H.
  - intros ->. reflexivity.
Qed.

Example rsample_bad_shape : forall base u, exists t,
  rsample (mkDS [1] []) base u [5] = Ok t /\ tshape t = [5; 5].
Proof. intros. destruct (rsample_vector_refuted 5 [] 1 base u) as (_ & _ & _ & H). apply H; congruence. Qed.
Example rsample_error : forall base u, rsample (mkDS [3] []) base u [5] = Raise RuntimeError.
Proof. intros. apply (rsample_vector_refuted 5 [] 3 base u); congruence. Qed.

Print Assumptions rsample_scalar.
Print Assumptions rsample_shared_noise_refuted.
Print Assumptions rsample_vector_refuted.
Print Assumptions noise_shapes_swapped.

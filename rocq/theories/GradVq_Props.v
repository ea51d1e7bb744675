(** The gradients of the vector quantiser (Grad_Model.v). *)
From Coq Require Import Reals List Bool Arith ZArith Lia Lra.
From Verif Require Import Base Tensor RBase RSum Vqb_Model Grad_Model Grad_Props.
Import ListNotations.
Open Scope nat_scope.
Open Scope R_scope.

Lemma fold_from (e : nat -> expr) (f : expr -> R) (F : nat -> R) :
  forall n s, (forall k, (s <= k < s + n)%nat -> f (e k) = F k) ->
  fold_right Rplus 0 (map (fun k => f (e k)) (seq s n)) = fold_right Rplus 0 (map F (seq s n)).
Proof.
  induction n; intros s H; cbn; [reflexivity|]. rewrite H by lia. f_equal. apply IHn. intros; apply H; lia.
Qed.
Lemma eval_esum env l : eval env (esum l) = fold_right Rplus 0 (map (eval env) l).
Proof. induction l; cbn; [reflexivity|]. rewrite <- IHl. reflexivity. Qed.
Lemma back_esum env l g i : back env (esum l) g i = fold_right Rplus 0 (map (fun e => back env e g i) l).
Proof. induction l; cbn; [reflexivity|]. rewrite <- IHl. reflexivity. Qed.
Lemma eval_esum_seq env f n : eval env (esum (map f (seq 0 n))) = rsum n (fun k => eval env (f k)).
Proof. rewrite eval_esum, map_map. reflexivity. Qed.
Lemma back_esum_seq env f n g i : back env (esum (map f (seq 0 n))) g i = rsum n (fun k => back env (f k) g i).
Proof. rewrite back_esum, map_map. reflexivity. Qed.

Section VQ.
Variables (b d h w : nat) (normalize : bool).
Notation count := (count b d h w).
Notation xvar := (xvar b d h w).
Notation cvar := (cvar b d h w).
Notation shp := [b; d; h; w]%nat.
Notation code := (code b d h w normalize).
Notation latents := (latents b d h w normalize).

Lemma prod_count : prod shp = count.
Proof. unfold prod, Grad_Model.count. cbn. lia. Qed.
Lemma xvar_lt i : inb shp i -> (xvar i < count)%nat.
Proof. intro H. unfold Grad_Model.xvar. rewrite <- prod_count. apply ravel_lt, H. Qed.
Lemma xvar_unravel n : (n < count)%nat -> xvar (unravel shp n) = n.
Proof. intro H. apply ravel_unravel. rewrite prod_count. exact H. Qed.

(** The flat position of the vector that holds entry [n] of the latents, and its channel. *)
Definition vector_of (n : nat) : nat :=
  match unravel shp n with [k; c; y; z] => ravel [b; h; w]%nat [k; y; z]%nat | _ => O end.
Definition channel_of (n : nat) : nat := match unravel shp n with [k; c; y; z] => c | _ => O end.
Lemma inb4 i : inb shp i -> exists k c y z, i = [k; c; y; z] /\ (k < b /\ c < d /\ y < h /\ z < w)%nat.
Proof.
  intro H. destruct i as [|k [|c [|y [|z [|t i]]]]]; cbn in H; try tauto. exists k, c, y, z. tauto.
Qed.
Lemma latents_of idx n : (n < count)%nat ->
  latents idx (unravel shp n) = code (nth (vector_of n) idx O) (channel_of n) /\ (channel_of n < d)%nat.
Proof.
  intro H. unfold vector_of, channel_of. rewrite <- prod_count in H. apply unravel_inb in H.
  destruct (inb4 _ H) as (k & c & y & z & -> & ? & ? & ? & ?). split; [reflexivity|assumption].
Qed.

Lemma cvar_ge k j : (count <= cvar k j)%nat.
Proof. unfold Grad_Model.cvar. lia. Qed.
Lemma cvar_inj k j k' j' : (j < d)%nat -> (j' < d)%nat -> cvar k j = cvar k' j' -> k = k' /\ j = j'.
Proof.
  unfold Grad_Model.cvar. intros A B E.
  assert (E' : (k * d + j = k' * d + j')%nat) by lia. clear E.
  assert (Q : k = k').
  { assert (X : ((k * d + j) / d = k)%nat) by (rewrite Nat.div_add_l, Nat.div_small by lia; lia).
    assert (Y : ((k' * d + j') / d = k')%nat) by (rewrite Nat.div_add_l, Nat.div_small by lia; lia).
    rewrite E' in X. congruence. }
  subst. split; [reflexivity|lia].
Qed.

(** The variables hold the latents [x] and the codebook [cb]. *)
Definition holds (env : nat -> R) (x : tensor R) (cb : codebook) : Prop :=
  tshape x = shp /\ cb_dim cb = d /\ (forall i, inb shp i -> env (xvar i) = tat x i) /\
  (forall k j, (j < d)%nat -> env (cvar k j) = cb_at cb k j).

Lemma code_value env x cb k j : holds env x cb -> (j < d)%nat ->
  eval env (code k j) = cb_at (effective normalize cb) k j.
Proof.
  intros (_ & Hd & _ & HC) J. unfold Grad_Model.code, effective. destruct normalize; cbn [eval cb_at]; [|apply HC, J].
  unfold ClampMin, Sqrt. cbn [eval]. rewrite eval_esum_seq. unfold normalize_row, row_norm. rewrite Hd, HC by exact J.
  f_equal. f_equal. f_equal. apply rsum_ext. intros i L. cbn [eval]. rewrite HC by exact L. reflexivity.
Qed.

(** The expressions have the values that quantize_vectors returns. *)
Theorem C96_vq_values : forall env x cb pick out, holds env x cb -> quantize_vectors normalize pick x cb = Ok out ->
  (forall i, inb shp i -> eval env (vq_output b d h w normalize (vq_indices out) i) = tat (vq_latent out) i) /\
  eval env (commitment_loss b d h w normalize (vq_indices out)) = vq_commit out /\
  eval env (embedding_loss b d h w normalize (vq_indices out)) = vq_embed out.
Proof.
  intros env x cb pick out H Q. pose proof H as (HS & Hd & HX & HC).
  unfold quantize_vectors in Q. rewrite HS in Q.
  destruct (negb (d =? cb_dim (effective normalize cb))%nat); [discriminate|].
  destruct (mapM _ _) as [idx|e]; cbn [bind] in Q; [|discriminate]. injection Q as <-. cbn [vq_indices vq_latent vq_commit vq_embed tat].
  assert (L : forall i, inb shp i -> eval env (latents idx i) =
     match i with [k; c; y; z] => cb_at (effective normalize cb) (nth (ravel [b; h; w]%nat [k; y; z]%nat) idx 0%nat) c | _ => 0 end).
  { intros i I. destruct (inb4 i I) as (k & c & y & z & -> & ? & ? & ? & ?). apply (code_value env x cb); assumption. }
  assert (M : forall p q : list nat -> expr, (forall i, inb shp i -> eval env (p i) = eval env (latents idx i)) ->
     (forall i, inb shp i -> eval env (q i) = tat x i) ->
     eval env (mse_loss b d h w p q) = mse b d h w (mkT shp (fun i => match i with
        [k; c; y; z] => cb_at (effective normalize cb) (nth (ravel [b; h; w]%nat [k; y; z]%nat) idx 0%nat) c | _ => 0 end)) x).
  { intros p q P HQ. unfold mse_loss, mse. cbn [eval]. f_equal. rewrite eval_esum_seq. apply rsum_ext. intros n N.
    cbn zeta. unfold Square. cbn [eval tat]. change (n < count)%nat in N. rewrite <- prod_count in N. apply unravel_inb in N. rewrite P, HQ, L by exact N. reflexivity. }
  split; [|split].
  - intros i I. unfold vq_output. cbn [eval tat]. rewrite HX, L by exact I. reflexivity.
  - apply M; intros i I; cbn [eval]; auto.
  - apply M; intros i I; cbn [eval]; auto.
Qed.

(** The output's gradient goes to the same entry of the input, unchanged, and nowhere else. *)
Theorem C96_vq_straight_through : forall env idx i g v,
  back env (vq_output b d h w normalize idx i) g v = if (v =? xvar i)%nat then g else 0.
Proof. intros. cbn. destruct (v =? _)%nat; lra. Qed.

Lemma mse_back env p q g v :
  back env (mse_loss b d h w p q) g v =
  rsum count (fun n => let i := unravel shp n in
    let r := g / INR count * (2 * (eval env (p i) - eval env (q i))) in
    back env (p i) r v + back env (q i) (- r) v).
Proof.
  unfold mse_loss. cbn [back eval]. rewrite back_esum_seq. rewrite Rplus_0_r. reflexivity.
Qed.

(** The commitment loss moves the latents towards their codewords, and nothing else. *)
Theorem C96_vq_commitment : forall env idx g v, (forall k j, (j < d)%nat -> (count <= cvar k j)%nat) /\
  back env (commitment_loss b d h w normalize idx) g v =
  (if (v <? count)%nat then g * (2 / INR count) * (env v - eval env (latents idx (unravel shp v))) else 0).
Proof.
  intros env idx g v. split; [intros; apply cvar_ge|]. unfold commitment_loss. rewrite mse_back. cbn [eval back]. destruct (Nat.ltb_spec v count) as [V|V].
  - rewrite (rsum_single count _ v V).
    + cbn zeta. rewrite xvar_unravel, Nat.eqb_refl by exact V. unfold Rdiv. ring.
    + intros n N NE. cbn zeta. rewrite xvar_unravel by exact N. apply not_eq_sym, Nat.eqb_neq in NE. rewrite NE. ring.
  - apply rsum_zero. intros n N. cbn zeta. rewrite xvar_unravel by exact N.
    replace (v =? n)%nat with false by (symmetry; apply Nat.eqb_neq; lia). ring.
Qed.

Lemma code_back_other env k j g v : (j < d)%nat -> (forall j', (j' < d)%nat -> v <> cvar k j') -> back env (code k j) g v = 0.
Proof.
  intros J H. unfold Grad_Model.code. destruct normalize.
  - cbn [back ClampMin Sqrt]. rewrite back_esum_seq. rewrite rsum_zero.
    + replace (v =? cvar k j)%nat with false by (symmetry; apply Nat.eqb_neq; auto). ring.
    + intros i I. cbn [back]. replace (v =? cvar k i)%nat with false by (symmetry; apply Nat.eqb_neq; auto). ring.
  - cbn [back]. replace (v =? cvar k j)%nat with false by (symmetry; apply Nat.eqb_neq; auto). reflexivity.
Qed.

(** The embedding loss leaves the latents, and every codeword that no vector chose, alone. *)
Theorem C96_vq_embedding_reach : forall env idx g,
  (forall v, (v < count)%nat -> back env (embedding_loss b d h w normalize idx) g v = 0) /\
  (forall k j, (j < d)%nat -> (forall n, (n < count)%nat -> nth (vector_of n) idx O <> k) ->
     back env (embedding_loss b d h w normalize idx) g (cvar k j) = 0).
Proof.
  intros env idx g. split.
  - intros v V. unfold embedding_loss. rewrite mse_back. apply rsum_zero. intros n N. cbn zeta. cbn [back].
    destruct (latents_of idx n N) as [-> C]. rewrite code_back_other; [lra|exact C|].
    intros j' _ E. pose proof (cvar_ge (nth (vector_of n) idx 0%nat) j'). lia.
  - intros k j J H. unfold embedding_loss. rewrite mse_back. apply rsum_zero. intros n N. cbn zeta. cbn [back].
    destruct (latents_of idx n N) as [-> C]. rewrite code_back_other; [lra|exact C|].
    intros j' J' E. destruct (cvar_inj _ _ _ _ J J' E) as [E' _]. apply (H n N). congruence.
Qed.
End VQ.
Print Assumptions C96_vq_values.
Print Assumptions C96_vq_straight_through.
Print Assumptions C96_vq_commitment.
Print Assumptions C96_vq_embedding_reach.

(** Without normalisation the embedding loss moves each codeword towards the latents that chose
    it: the entry's gradient is the sum over those latents. *)
Theorem C96_vq_embedding : forall b d h w env idx g k j, (j < d)%nat ->
  back env (embedding_loss b d h w false idx) g (cvar b d h w k j) =
  rsum (count b d h w) (fun n =>
    if (nth (vector_of b d h w n) idx O =? k)%nat && (channel_of b d h w n =? j)%nat
    then g * (2 / INR (count b d h w)) * (env (cvar b d h w k j) - env n) else 0).
Proof.
  intros b d h w env idx g k j J. unfold embedding_loss. rewrite mse_back. apply rsum_ext. intros n N. cbn zeta. cbn [back].
  destruct (latents_of b d h w false idx n N) as [-> C]. cbn [code back eval]. rewrite xvar_unravel by exact N.
  destruct (Nat.eqb_spec (cvar b d h w k j) (cvar b d h w (nth (vector_of b d h w n) idx 0%nat) (channel_of b d h w n))) as [E|NE].
  - destruct (cvar_inj _ _ _ _ _ _ _ _ J C E) as [E1 E2]. rewrite <- E1, <- E2, !Nat.eqb_refl. cbn [andb]. unfold Rdiv. ring.
  - destruct (Nat.eqb_spec (nth (vector_of b d h w n) idx 0%nat) k), (Nat.eqb_spec (channel_of b d h w n) j); cbn [andb]; try lra.
    subst. congruence.
Qed.
Print Assumptions C96_vq_embedding.

(** With normalisation the embedding loss never changes (to first order) the length of a
    codeword: its gradient is orthogonal to it. *)
Lemma code_back_orthogonal : forall b d h w env k c g k', (c < d)%nat ->
  let norm := sqrt (rsum d (fun j => env (cvar b d h w k j) * env (cvar b d h w k j))) in
  / 10 ^ 12 <= norm ->
  rsum d (fun j => env (cvar b d h w k j) * back env (code b d h w true k' c) g (cvar b d h w k j)) = 0.
Proof.
  intros b d h w env k c g k' C. cbn zeta. set (sq := rsum d (fun j => env (cvar b d h w k j) * env (cvar b d h w k j))). intros HN.
  assert (P12 : 0 < / 10 ^ 12) by (apply Rinv_0_lt_compat, pow_lt; lra).
  destruct (Nat.eq_dec k' k) as [->|NE].
  2:{ apply rsum_zero. intros j J. rewrite code_back_other; [ring|exact C|].
      intros j' J' E. destruct (cvar_inj _ _ _ _ _ _ _ _ J J' E) as [E' _]. congruence. }
  assert (SP : 0 <= sq) by (apply rsum_nonneg; intros; nra).
  assert (SQ : eval env (esum (map (fun j => Mul (Var (cvar b d h w k j)) (Var (cvar b d h w k j))) (seq 0 d))) = sq)
    by (rewrite eval_esum_seq; reflexivity).
  set (n := sqrt sq) in *. assert (NP : 0 < n) by lra.
  assert (NN : n * n = sq) by (apply sqrt_sqrt, SP).
  set (co := - (g * env (cvar b d h w k c) / (n * n)) * / (2 * n)).
  rewrite (rsum_ext d _ (fun j => (if (j =? c)%nat then env (cvar b d h w k c) * (g / n) else 0)
      + (co * 2) * (env (cvar b d h w k j) * env (cvar b d h w k j)))).
  - rewrite rsum_plus, rsum_ind by exact C. rewrite rsum_scal. fold sq. rewrite <- NN. unfold co. field. lra.
  - intros j J. cbn [code back ClampMin Sqrt eval]. rewrite SQ. fold n.
    rewrite (Rmax_left n (/ 10 ^ 12)) by exact HN.
    destruct (Rle_dec (/ 10 ^ 12) n) as [_|Q]; [|contradiction].
    destruct (Req_EM_T sq 0) as [Z|_]; [unfold n in NP; rewrite Z, sqrt_0 in NP; lra|].
    rewrite Rmult_1_r. fold co. rewrite back_esum_seq. cbn [back].
    rewrite (rsum_ext d _ (fun i => if (i =? j)%nat then 2 * co * env (cvar b d h w k j) else 0)).
    + rewrite rsum_ind by exact J. destruct (Nat.eqb_spec (cvar b d h w k j) (cvar b d h w k c)) as [E|E].
      * destruct (cvar_inj _ _ _ _ _ _ _ _ J C E) as [_ ->]. rewrite Nat.eqb_refl. ring.
      * destruct (Nat.eqb_spec j c); [congruence|]. ring.
    + intros i I. cbn [eval]. destruct (Nat.eqb_spec (cvar b d h w k j) (cvar b d h w k i)) as [E|E].
      * destruct (cvar_inj _ _ _ _ _ _ _ _ J I E) as [_ ->]. rewrite Nat.eqb_refl. ring.
      * destruct (Nat.eqb_spec i j); [congruence|]. ring.
Qed.

Theorem C96_vq_normalized : forall b d h w env idx g k,
  / 10 ^ 12 <= sqrt (rsum d (fun j => env (cvar b d h w k j) * env (cvar b d h w k j))) ->
  rsum d (fun j => env (cvar b d h w k j) * back env (embedding_loss b d h w true idx) g (cvar b d h w k j)) = 0.
Proof.
  intros b d h w env idx g k HN. unfold embedding_loss.
  rewrite (rsum_ext d _ (fun j => rsum (count b d h w) (fun n => env (cvar b d h w k j) *
     back env (code b d h w true (nth (vector_of b d h w n) idx O) (channel_of b d h w n))
       (g / INR (count b d h w) * (2 * (eval env (code b d h w true (nth (vector_of b d h w n) idx O) (channel_of b d h w n)) - env n))) (cvar b d h w k j)))).
  - rewrite rsum_swap. apply rsum_zero. intros n N. apply (code_back_orthogonal b d h w); [|exact HN].
    apply (latents_of b d h w true idx n N).
  - intros j J. rewrite mse_back, <- rsum_scal. apply rsum_ext. intros n N. cbn zeta. cbn [back].
    rewrite (proj1 (latents_of b d h w true idx n N)). cbn [eval]. rewrite xvar_unravel by exact N. ring.
Qed.
Print Assumptions C96_vq_normalized.

(** A codeword too short to be normalised is divided by 1e-12 instead, and its entries get the
    gradient of that. *)
Theorem C96_vq_short_codeword : forall b d h w env g k c j, (c < d)%nat -> (j < d)%nat ->
  sqrt (rsum d (fun j => env (cvar b d h w k j) * env (cvar b d h w k j))) < / 10 ^ 12 ->
  eval env (code b d h w true k c) = env (cvar b d h w k c) * 10 ^ 12 /\
  back env (code b d h w true k c) g (cvar b d h w k j) = if (j =? c)%nat then g * 10 ^ 12 else 0.
Proof.
  intros b d h w env g k c j C J HN. cbn [code back eval ClampMin Sqrt].
  assert (SQ : eval env (esum (map (fun j => Mul (Var (cvar b d h w k j)) (Var (cvar b d h w k j))) (seq 0 d))) = rsum d (fun j => env (cvar b d h w k j) * env (cvar b d h w k j)))
    by (rewrite eval_esum_seq; reflexivity).
  rewrite SQ. set (n := sqrt _) in *.
  rewrite (Rmax_right n (/ 10 ^ 12)) by lra. destruct (Rle_dec (/ 10 ^ 12) n) as [Q|_]; [lra|].
  split; [unfold Rdiv; rewrite Rinv_inv; reflexivity|].
  rewrite back_esum_seq. rewrite (rsum_zero d).
  - destruct (Nat.eqb_spec (cvar b d h w k j) (cvar b d h w k c)) as [E|E].
    + destruct (cvar_inj _ _ _ _ _ _ _ _ J C E) as [_ ->]. rewrite Nat.eqb_refl. unfold Rdiv. rewrite Rinv_inv. ring.
    + destruct (Nat.eqb_spec j c); [congruence|]. ring.
  - intros i I. cbn [back]. rewrite !Rmult_0_r, !Rmult_0_l. destruct (Nat.eqb _ _); ring.
Qed.
Print Assumptions C96_vq_short_codeword.
Example short_codeword : sqrt (rsum 2 (fun j => (fun _ : nat => 0) (cvar 1 2 1 1 0 j) * (fun _ : nat => 0) (cvar 1 2 1 1 0 j))) < / 10 ^ 12.
Proof. rewrite (rsum_zero 2) by (intros; ring). rewrite sqrt_0. lra. Qed.

(** The variables can hold any latents and any codebook. *)
Lemma holds_always : forall b d h w x cb, tshape x = [b; d; h; w] -> cb_dim cb = d -> exists env, holds b d h w env x cb.
Proof.
  intros b d h w x cb HS HD.
  exists (fun v => if (v <? count b d h w)%nat then tat x (unravel [b; d; h; w] v)
                   else cb_at cb ((v - count b d h w) / d) ((v - count b d h w) mod d)).
  split; [exact HS|]. split; [exact HD|]. split.
  - intros i I. pose proof (xvar_lt b d h w i I) as L. apply Nat.ltb_lt in L. rewrite L.
    unfold xvar. rewrite unravel_ravel by exact I. reflexivity.
  - intros k j J. pose proof (cvar_ge b d h w k j) as L. apply Nat.ltb_ge in L. rewrite L.
    unfold cvar. replace (count b d h w + (k * d + j) - count b d h w)%nat with (k * d + j)%nat by lia.
    rewrite Nat.div_add_l, Nat.div_small, (Nat.add_comm (k * d)), Nat.mod_add, Nat.mod_small by lia. f_equal; lia.
Qed.
Example vq_gradient_example :
  let env := fun v => nth v [3; 1; 5; 0; 2; 2] 0 in      (* one latent (3, 1), codewords (5, 0) and (2, 2) *)
  back env (commitment_loss 1 2 1 1 false [1%nat]) 1 0 = 1 /\
  back env (embedding_loss 1 2 1 1 false [1%nat]) 1 4 = -1 /\
  back env (embedding_loss 1 2 1 1 false [1%nat]) 1 2 = 0.
Proof. cbn. lra. Qed.

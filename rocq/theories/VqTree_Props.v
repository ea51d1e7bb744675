(** C80: trees of bottleneck operations. *)
From Coq Require Import ZArith Reals List Bool Arith Lra Lia.
From Verif Require Import Base Tensor RBase RSum Vqb_Model Vqb_Spec Vqb_Props VqTree_Model.
Import ListNotations.
Open Scope R_scope.

Lemma op_ind' (P : op -> Prop) : (forall c, (forall o, c = Some o -> P o) -> P (Normalize c)) -> (forall a b c, (forall o, c = Some o -> P o) -> P (Project a b c)) -> (forall m, P (Quantize m)) -> forall o, P o.
Proof.
  intros H1 H2 H3. fix IH 1. intros [c|a b c|m]; [apply H1|apply H2|apply H3]; intros o E; destruct c as [c|]; [injection E as <-; apply IH|discriminate|injection E as <-; apply IH|discriminate].
Qed.

(** ** Objects *)
Lemma put_length : forall s id o, length (put s id o) = length s.
Proof. induction s as [|x s IH]; intros [|id] o; cbn; auto. Qed.
Lemma get_put_same : forall s id o, (id < length s)%nat -> get (put s id o) id = o.
Proof. unfold get. induction s as [|x s IH]; intros [|id] o H; cbn in *; try lia; [reflexivity|apply IH; lia]. Qed.
Lemma get_put_other : forall s id id' o, id <> id' -> get (put s id o) id' = get s id'.
Proof. unfold get. induction s as [|x s IH]; intros [|id] [|id'] o H; cbn; try reflexivity; try congruence. apply IH. congruence. Qed.
Lemma get_set : forall s id t, (id < length s)%nat -> o_latent (get (set_latent s id t) id) = Some t.
Proof. intros. unfold set_latent. rewrite get_put_same by assumption. reflexivity. Qed.
Lemma set_length : forall s id t, length (set_latent s id t) = length s.
Proof. intros. apply put_length. Qed.
Lemma get_app : forall s r id, (id < length s)%nat -> get (s ++ r) id = get s id.
Proof. intros. unfold get. apply app_nth1. exact H. Qed.
Lemma get_new : forall s o, get (s ++ [o]) (length s) = o.
Proof. intros. unfold get. rewrite app_nth2, Nat.sub_diag by lia. reflexivity. Qed.

Lemma conv_inv : forall c x y, conv c x = Ok y -> exists t b h w, x = Some t /\ tshape t = [b; c_in c; h; w]%nat /\ tshape y = [b; c_out c; h; w]%nat /\
  forall n o i j, tat y [n; o; i; j]%nat = rsum (c_in c) (fun k => c_w c o k * tat t [n; k; i; j]%nat) + c_b c o.
Proof.
  intros c [t|] y; cbn; [|discriminate]. destruct (tshape t) as [|b [|k [|h [|w [|]]]]] eqn:E; try discriminate.
  destruct (Nat.eqb_spec k (c_in c)) as [->|]; [|discriminate]. intros H. injection H as <-. exists t, b, h, w. repeat split; assumption || reflexivity.
Qed.
Lemma normalize_inv : forall x y, normalize x = Ok y -> exists b c h w, tshape x = [b; c; h; w]%nat /\ tshape y = [b; c; h; w]%nat /\
  forall n k i j, tat y [n; k; i; j]%nat = unit_row c (vector_at x n i j) k.
Proof.
  intros x y. unfold normalize. destruct (tshape x) as [|b [|c [|h [|w [|]]]]]; try discriminate. intros H. injection H as <-. exists b, c, h, w.
  split; [reflexivity|]. split; [reflexivity|]. intros n k i j. cbn [tat]. unfold normalize_row, unit_row, row_norm, vector_at, sqdist. f_equal. f_equal. f_equal. apply rsum_ext. intros; ring.
Qed.
Lemma vqb_inv : forall m x m' q n, vqb_forward m x = Ok (m', q, n) -> exists t, x = Some t /\ quantize_vectors true pick_nearest t (vb_codebook m) = Ok q /\ vb_codebook m' = vb_codebook m.
Proof.
  intros m [t|] m' q n H; [|discriminate]. unfold vqb_forward in H. destruct (_ <? _)%nat; [discriminate|]. destruct (_ =? _)%nat; [discriminate|].
  destruct (quantize_vectors true pick_nearest t (vb_codebook m)) as [r|] eqn:E; cbn [bind] in H; [|discriminate]. injection H as <- <- _. exists t. auto.
Qed.

(** An operation that quantises. *)
Fixpoint quantises (o : op) : bool :=
  match o with
  | Quantize _ => true
  | Normalize (Some c) | Project _ _ (Some c) => quantises c
  | _ => false
  end.
(** the output convolutions lead back to the dimensions of the input convolutions *)
Fixpoint square (o : op) : Prop :=
  match o with
  | Quantize _ => True
  | Normalize (Some c) => square c
  | Normalize None => True
  | Project a b c => c_out b = c_in a /\ match c with Some c => square c | None => True end
  end.

(** Whatever the tree of ProjectLatent, NormalizeLatent and VQBottleneck, a latent it accepts comes back in
    its shape; the object is the caller's own unless the tree quantises, and then a new one; no object but
    these two is touched, and of the caller's object only the latent. *)
Theorem C80_trees : forall o s id o' s' id', forward o s id = Ok (o', s', id') -> square o -> (id < length s)%nat ->
  exists x y, o_latent (get s id) = Some x /\ o_latent (get s' id') = Some y /\ tshape y = tshape x /\ length (tshape x) = 4%nat /\
  (if quantises o then id' = length s /\ length s' = S (length s) else id' = id /\ length s' = length s) /\
  (forall k, (k < length s)%nat -> k <> id -> get s' k = get s k) /\
  o_image (get s' id') = o_image (get s id) /\
  exists t, get s' id = mkOut (o_image (get s id)) (Some t) (o_preq (get s id)) (o_losses (get s id)) (o_bytes (get s id)) (o_indices (get s id)).
Proof.
  induction o as [c IH|a b c IH|m] using op_ind'; intros s id o' s' id' F SQ L.
  - cbn [forward] in F. destruct (o_latent (get s id)) as [x|] eqn:X; [|discriminate]. destruct (normalize x) as [y|] eqn:Y; cbn [bind] in F; [|discriminate].
    destruct (normalize_inv _ _ Y) as (b & k & h & w & S1 & S2 & _).
    destruct c as [c|].
    + destruct (forward c (set_latent s id y) id) as [[[c' s1] id1]|] eqn:FC; cbn [bind] in F; [|discriminate]. injection F as <- <- <-.
      destruct (IH c eq_refl _ _ _ _ _ FC SQ ltac:(rewrite set_length; exact L)) as (x1 & y1 & X1 & Y1 & T & T4 & Q & O & I & (t & G)).
      rewrite get_set in X1 by exact L. injection X1 as <-. exists x, y1. split; [reflexivity|]. split; [exact Y1|]. split; [congruence|]. split; [rewrite S1; reflexivity|].
      cbn [quantises]. rewrite set_length in Q. split; [exact Q|].
      assert (get (set_latent s id y) id = mkOut (o_image (get s id)) (Some y) (o_preq (get s id)) (o_losses (get s id)) (o_bytes (get s id)) (o_indices (get s id))) as E by (apply get_put_same; exact L).
      rewrite E in *. cbn in *. split; [|split; [exact I|exists t; exact G]].
      intros k' K N. rewrite O by (rewrite ?set_length; assumption). apply get_put_other. congruence.
    + injection F as <- <- <-. exists x, y. split; [reflexivity|]. split; [apply get_set; exact L|]. split; [congruence|]. split; [rewrite S1; reflexivity|].
      cbn [quantises]. rewrite set_length. split; [auto|]. split; [intros k' K N; apply get_put_other; congruence|].
      unfold set_latent. rewrite get_put_same by exact L. split; [reflexivity|]. exists y. reflexivity.
  - cbn [square] in SQ. destruct SQ as [SQ SQC]. cbn [forward] in F. destruct c as [c|].
    + destruct (conv a (o_latent (get s id))) as [y|] eqn:Y; cbn [bind] in F; [|discriminate].
      destruct (conv_inv _ _ _ Y) as (x & n & h & w & X & S1 & S2 & _).
      destruct (forward c (set_latent s id y) id) as [[[c' s1] id1]|] eqn:FC; cbn [bind] in F; [|discriminate].
      destruct (conv b (o_latent (get s1 id1))) as [z|] eqn:Z; cbn [bind] in F; [|discriminate]. injection F as <- <- <-.
      destruct (IH c eq_refl _ _ _ _ _ FC SQC ltac:(rewrite set_length; exact L)) as (x1 & y1 & X1 & Y1 & T & T4 & Q & O & I & (t & G)).
      rewrite get_set in X1 by exact L. injection X1 as <-.
      destruct (conv_inv _ _ _ Z) as (y2 & n2 & h2 & w2 & Y2 & S3 & S4 & _). rewrite Y1 in Y2. injection Y2 as <-.
      assert (get (set_latent s id y) id = mkOut (o_image (get s id)) (Some y) (o_preq (get s id)) (o_losses (get s id)) (o_bytes (get s id)) (o_indices (get s id))) as E by (apply get_put_same; exact L).
      rewrite set_length in Q. assert (id1 < length s1)%nat as L1 by (destruct (quantises c); lia).
      exists x, z. split; [exact X|]. split; [apply get_set; exact L1|]. split; [rewrite S4, S1, SQ; congruence|]. split; [rewrite S1; reflexivity|].
      cbn [quantises]. rewrite set_length. split; [exact Q|]. rewrite E in *. cbn in *. split; [|split].
      * intros k' K N. unfold set_latent at 1. rewrite get_put_other by (destruct (quantises c); lia). rewrite O by (rewrite ?set_length; assumption). apply get_put_other. congruence.
      * unfold set_latent. rewrite get_put_same by exact L1. exact I.
      * destruct (Nat.eq_dec id1 id) as [->|N].
        -- exists z. unfold set_latent. rewrite get_put_same by exact L1. rewrite G. reflexivity.
        -- exists t. unfold set_latent. rewrite get_put_other by exact N. exact G.
    + destruct (conv a (o_latent (get s id))) as [y|] eqn:Y; cbn [bind] in F; [|discriminate]. destruct (conv b (Some y)) as [z|] eqn:Z; cbn [bind] in F; [|discriminate].
      injection F as <- <- <-. destruct (conv_inv _ _ _ Y) as (x & n & h & w & X & S1 & S2 & _). destruct (conv_inv _ _ _ Z) as (y2 & n2 & h2 & w2 & Y2 & S3 & S4 & _). injection Y2 as <-.
      exists x, z. split; [exact X|]. split; [apply get_set; exact L|]. split; [rewrite S4, S1, SQ; congruence|]. split; [rewrite S1; reflexivity|]. cbn [quantises]. rewrite set_length.
      split; [auto|]. split; [intros k' K N; apply get_put_other; congruence|]. unfold set_latent. rewrite get_put_same by exact L. split; [reflexivity|]. exists z. reflexivity.
  - cbn [forward] in F. destruct (vqb_forward m (o_latent (get s id))) as [[[m' q] n]|] eqn:V; cbn [bind] in F; [|discriminate]. injection F as <- <- <-.
    destruct (vqb_inv _ _ _ _ _ V) as (x & X & Q & _). destruct (quantize_inv _ _ _ _ _ Q) as (b & h & w & S1 & _ & S2 & _).
    exists x, (vq_latent q). split; [exact X|]. split; [rewrite get_new; reflexivity|]. split; [congruence|]. split; [rewrite S1; reflexivity|].
    cbn [quantises]. rewrite app_length, Nat.add_comm. split; [split; reflexivity|]. split; [intros k K _; apply get_app; exact K|]. rewrite get_new, get_app by exact L.
    split; [reflexivity|]. exists x. destruct (get s id). cbn in *. rewrite X. reflexivity.
Qed.

(** ** The tree of the published models *)
Definition length_of (d : nat) (v : nat -> R) : R := sqrt (rsum d (fun k => v k ^ 2)).
Definition inner (d : nat) (u v : nat -> R) : R := rsum d (fun k => u k * v k).
Lemma unit_row_length : forall d v, 1 / 10 ^ 12 <= length_of d v -> inner d (unit_row d v) (unit_row d v) = 1 /\ forall k, unit_row d v k = v k / length_of d v.
Proof.
  intros d v H. assert (sqrt (sqdist d v (fun _ => 0)) = length_of d v) as E by (unfold sqdist, length_of; f_equal; apply rsum_ext; intros; ring).
  split.
  - pose proof (vq_unit_rows d v) as U. rewrite E in U. specialize (U ltac:(lra)). rewrite <- U. unfold inner, sqdist. apply rsum_ext. intros; ring.
  - intros k. unfold unit_row. rewrite E. rewrite Rmax_left by lra. reflexivity.
Qed.
Lemma sqdist_expand : forall d u v, sqdist d u v = inner d u u - 2 * inner d u v + inner d v v.
Proof. intros. unfold sqdist, inner. rewrite <- rsum_scal, <- rsum_minus, <- rsum_plus. apply rsum_ext. intros; ring. Qed.
(** The quantiser of the tree chooses, at each place, the code whose angle with the projected latent is the
    smallest; the new object's latent is the output convolution of the chosen unit codes, its prequantised
    latent the normalised projection; and the caller's object is left with that normalised projection instead
    of the latent that came in. *)
Theorem C80_msillm : forall cin d w1 b1 w2 b2 cb s id o' s' id' x b h w, forward (msillm_tree cin d w1 b1 w2 b2 cb) s id = Ok (o', s', id') -> (id < length s)%nat ->
  o_latent (get s id) = Some x -> tshape x = [b; cin; h; w]%nat ->
  let projected := fun n i j c => rsum cin (fun k => w1 c k * tat x [n; k; i; j]%nat) + b1 c in
  (forall k, (k < cb_size cb)%nat -> 1 / 10 ^ 12 <= length_of d (cb_at cb k)) ->
  (forall n i j, (n < b)%nat -> (i < h)%nat -> (j < w)%nat -> 1 / 10 ^ 12 <= length_of d (projected n i j)) ->
  id' = length s /\
  exists y p idx, o_latent (get s' id') = Some y /\ o_preq (get s' id') = Some p /\ o_latent (get s' id) = Some p /\ o_indices (get s' id') = Some idx /\
  tshape y = [b; cin; h; w]%nat /\ tshape p = [b; d; h; w]%nat /\ length idx = (b * h * w)%nat /\
  forall n i j, (n < b)%nat -> (i < h)%nat -> (j < w)%nat ->
    let best := nth ((n * h + i) * w + j) idx 0%nat in
    let cosine := fun k => inner d (cb_at cb k) (projected n i j) / (length_of d (cb_at cb k) * length_of d (projected n i j)) in
    (best < cb_size cb)%nat /\ (forall k, (k < cb_size cb)%nat -> cosine k <= cosine best) /\
    (forall c, (c < d)%nat -> tat p [n; c; i; j]%nat = projected n i j c / length_of d (projected n i j)) /\
    forall o, (o < cin)%nat -> tat y [n; o; i; j]%nat = rsum d (fun k => w2 o k * (cb_at cb best k / length_of d (cb_at cb best))) + b2 o.
Proof.
  intros cin d w1 b1 w2 b2 cb s id o' s' id' x b h w F L X SX projected CL PL.
  unfold msillm_tree, project_latent in F. cbn [forward] in F. rewrite X in F.
  destruct (conv _ (Some x)) as [p0|] eqn:P0; cbn [bind] in F; [|discriminate]. destruct (conv_inv _ _ _ P0) as (x' & b' & h' & w' & EX & S0 & S1 & V1). injection EX as <-.
  cbn [c_in c_out c_w c_b] in S0, S1, V1. rewrite SX in S0. injection S0 as <- <- <-. rewrite get_set in F by exact L.
  destruct (normalize p0) as [p|] eqn:P; cbn [bind] in F; [|discriminate]. destruct (normalize_inv _ _ P) as (b' & d' & h' & w' & S2 & S3 & V2). rewrite S1 in S2. injection S2 as <- <- <- <-.
  rewrite get_set in F by (rewrite set_length; exact L).
  destruct (vqb_forward (vqb_init cb) (Some p)) as [[[m' q] nb]|] eqn:V; cbn [bind] in F; [|discriminate].
  rewrite get_new in F. cbn [o_latent] in F. destruct (conv _ (Some (vq_latent q))) as [y|] eqn:Y; cbn [bind] in F; [|discriminate]. injection F as <- <- <-.
  destruct (vqb_inv _ _ _ _ _ V) as (t & ET & Q & _). injection ET as <-. cbn [vb_codebook vqb_init] in Q.
  destruct (conv_inv _ _ _ Y) as (l & b' & h' & w' & EL & S4 & S5 & V3). injection EL as <-. cbn [c_in c_out c_w c_b] in S4, S5, V3.
  destruct (vq_nearest _ _ _ _ _ _ _ _ Q S3) as (S6 & LI & NEAR). rewrite S6 in S4. injection S4 as <- <- <-.
  destruct (quantize_inv _ _ _ _ _ Q) as (b' & h' & w' & S7 & _ & _ & _ & PQ & _). rewrite S3 in S7. injection S7 as _ DD _ _.
  rewrite !set_length. split; [reflexivity|]. exists y, p, (vq_indices q).
  set (st := set_latent (set_latent s id p0) id p). match goal with |- context[st ++ [?o]] => set (ob := o) end.
  assert (length st = length s) as LS by (unfold st; rewrite !set_length; reflexivity).
  assert (length s < length (st ++ [ob]))%nat as L2 by (rewrite app_length, LS; cbn; lia).
  rewrite get_set by exact L2. split; [reflexivity|].
  assert (get (set_latent (st ++ [ob]) (length s) y) (length s) = mkOut (o_image ob) (Some y) (o_preq ob) (o_losses ob) (o_bytes ob) (o_indices ob)) as GN.
  { unfold set_latent. rewrite get_put_same by exact L2. rewrite <- LS, get_new. reflexivity. }
  unfold ob in GN at 2 3 4 5 6. cbn [o_image o_preq o_losses o_bytes o_indices] in GN. rewrite PQ in GN. rewrite GN.
  split; [reflexivity|]. split; [unfold set_latent at 1; rewrite get_put_other by lia; rewrite get_app by (rewrite LS; exact L); apply get_set; rewrite set_length; exact L|].
  split; [reflexivity|]. split; [exact S5|]. split; [exact S3|]. split; [exact LI|].
  intros n i j Hn Hi Hj best cosine.
  specialize (PL n i j Hn Hi Hj). specialize (NEAR n i j Hn Hi Hj). cbv zeta in NEAR. fold best in NEAR. destruct NEAR as [(B1 & B2 & _) B3]. cbn [used_row] in B2, B3.
  assert (forall c, vector_at p n i j c = projected n i j c / length_of d (projected n i j)) as VP.
  { intros c. unfold vector_at. rewrite V2. destruct (unit_row_length d (projected n i j) PL) as [_ U].
    rewrite <- U. unfold unit_row. unfold vector_at at 1. rewrite V1. fold (projected n i j c). f_equal. f_equal. f_equal. apply rsum_ext. intros k _. unfold vector_at. rewrite V1. reflexivity. }
  split; [exact B1|].
  assert (forall k, (k < cb_size cb)%nat -> sqdist d (unit_row d (cb_at cb k)) (vector_at p n i j) = 1 - 2 * cosine k + inner d (vector_at p n i j) (vector_at p n i j)) as SD.
  { intros k K. destruct (unit_row_length d (cb_at cb k) (CL k K)) as [U1 U2]. rewrite sqdist_expand, U1. f_equal. f_equal. f_equal. unfold cosine, inner.
    pose proof (CL k K). assert (0 < length_of d (cb_at cb k)) by lra. assert (0 < length_of d (projected n i j)) by lra.
    unfold Rdiv at 1. rewrite <- rsum_scal_r. apply rsum_ext. intros c _. rewrite U2, VP. field. lra. }
  split.
  { intros k K. specialize (B2 k K). rewrite <- DD in B2. rewrite !SD in B2 by assumption. lra. }
  split; [intros c _; apply VP|]. intros o _. rewrite V3. f_equal. apply rsum_ext. intros k K. f_equal. rewrite (B3 k K), <- DD.
  destruct (unit_row_length d (cb_at cb best) (CL best B1)) as [_ U2]. apply U2.
Qed.

(** It accepts every latent of cin channels with a codebook of at least one code of length d. *)
Theorem C80_msillm_accepts : forall cin d w1 b1 w2 b2 cb s id x b h w, (id < length s)%nat -> o_latent (get s id) = Some x -> tshape x = [b; cin; h; w]%nat ->
  cb_dim cb = d -> (1 <= cb_size cb)%nat -> exists r, forward (msillm_tree cin d w1 b1 w2 b2 cb) s id = Ok r.
Proof.
  intros cin d w1 b1 w2 b2 cb s id x b h w L X S D K. unfold msillm_tree, project_latent. cbn [forward]. rewrite X.
  unfold conv at 1. rewrite S. cbn [c_in c_out]. rewrite Nat.eqb_refl. cbn [bind]. rewrite get_set by exact L. unfold normalize at 1. cbn [tshape bind].
  rewrite get_set by (rewrite set_length; exact L).
  match goal with |- context[vqb_forward ?m (Some ?p)] => assert (exists r, vqb_forward m (Some p) = Ok r) as [[[m' q] nb] V] end.
  { unfold vqb_forward. cbn [tshape length Nat.ltb Nat.leb vb_codebook vqb_init]. destruct (Nat.eqb_spec (cb_size cb) 0); [lia|].
    match goal with |- context[quantize_vectors true pick_nearest ?p cb] => destruct (proj2 (vq_accepts true p cb)) as [q Q] end; [|rewrite Q; cbn [bind]; eexists; reflexivity].
    exists b, h, w. split; [cbn [tshape]; rewrite D; reflexivity|left; lia]. }
  rewrite V. cbn [bind]. rewrite get_new. cbn [o_latent]. destruct (vqb_inv _ _ _ _ _ V) as (t & ET & Q & _). injection ET as <-.
  destruct (quantize_inv _ _ _ _ _ Q) as (b' & h' & w' & _ & _ & S2 & _). cbn [vb_codebook vqb_init] in S2. unfold conv. rewrite S2. cbn [c_in]. rewrite D, Nat.eqb_refl. cbn [bind]. eexists. reflexivity.
Qed.

(** ** Objects without a latent *)
Theorem C80_no_latent : forall s id, o_latent (get s id) = None ->
  (forall c, forward (Normalize c) s id = Raise ValueError) /\ (forall m, forward (Quantize m) s id = Raise ValueError) /\ (forall a b c, forward (Project a b c) s id = Raise TypeError).
Proof. intros s id H. split; [|split]; intros; cbn [forward]; rewrite H; try reflexivity. destruct c; reflexivity. Qed.

(** A normalised latent has vectors of length one (at most one, where the length was below 1e-12). *)
Theorem C80_normalised : forall s id o' s' id', forward (Normalize None) s id = Ok (o', s', id') -> (id < length s)%nat -> exists x y b c h w,
  o_latent (get s id) = Some x /\ o_latent (get s' id) = Some y /\ tshape x = [b; c; h; w]%nat /\ forall n i j, (n < b)%nat -> (i < h)%nat -> (j < w)%nat ->
  length_of c (vector_at y n i j) <= 1 /\ (1 / 10 ^ 12 <= length_of c (vector_at x n i j) -> length_of c (vector_at y n i j) = 1 /\
    forall k, vector_at x n i j k = length_of c (vector_at x n i j) * vector_at y n i j k).
Proof.
  intros s id o' s' id' F L. cbn [forward] in F. destruct (o_latent (get s id)) as [x|] eqn:X; [|discriminate]. destruct (normalize x) as [y|] eqn:Y; cbn [bind] in F; [|discriminate].
  injection F as _ <- _. destruct (normalize_inv _ _ Y) as (b & c & h & w & S1 & S2 & V). exists x, y, b, c, h, w. split; [reflexivity|]. split; [apply get_set; exact L|]. split; [exact S1|].
  intros n i j _ _ _. set (v := vector_at x n i j) in *.
  assert (length_of c (vector_at y n i j) = length_of c v / Rmax (length_of c v) (1 / 10 ^ 12)) as E.
  { assert (sqrt (sqdist c v (fun _ => 0)) = length_of c v) as EL by (unfold sqdist, length_of; f_equal; apply rsum_ext; intros; ring).
    set (m := Rmax (length_of c v) (1 / 10 ^ 12)). assert (0 < m) by (pose proof (Rmax_r (length_of c v) (1 / 10 ^ 12)); unfold m; lra).
    unfold length_of at 1. rewrite (rsum_ext _ _ (fun k => v k ^ 2 * (/ m) ^ 2)).
    - rewrite rsum_scal_r, sqrt_mult_alt by (apply rsum_nonneg; intros; apply pow2_ge_0). fold (length_of c v). unfold Rdiv. f_equal. rewrite <- (Rsqr_pow2 (/ m)). apply sqrt_Rsqr. left. apply Rinv_0_lt_compat. assumption.
    - intros k _. unfold vector_at at 1. rewrite V. unfold unit_row. fold v. rewrite EL. unfold m. replace (/ 10 ^ 12) with (1 / 10 ^ 12) by lra. field. fold m. lra. }
  rewrite E. assert (0 <= length_of c v) as P by apply sqrt_pos. assert (0 < 1 / 10 ^ 12) by lra. split.
  - unfold Rmax. destruct (Rle_dec (length_of c v) (1 / 10 ^ 12)); [|replace (length_of c v / length_of c v) with 1 by (field; lra); lra].
    apply (Rmult_le_reg_r (1 / 10 ^ 12)); [lra|]. unfold Rdiv at 1. rewrite Rmult_assoc, Rinv_l by lra. lra.
  - intros H1. rewrite Rmax_left by exact H1. split; [field; lra|]. intros k. unfold vector_at. rewrite V. fold v. destruct (unit_row_length c v H1) as [_ U]. rewrite U. change (tat x [n; k; i; j]%nat) with (v k). field. lra.
Qed.

(** Two codes along the axes, a latent of two channels: projected by the identity, the code nearer in angle. *)
Example tree_case : let cb := mkCB 2 2 (fun k j => if (k =? j)%nat then 1 else 0) in
  let x := mkT [1; 2; 1; 1]%nat (fun idx => match idx with [_; k; _; _] => INR (k + 1) | _ => 0 end) in
  exists r, forward (msillm_tree 2 2 (fun o k => if (o =? k)%nat then 1 else 0) (fun _ => 0) (fun o k => if (o =? k)%nat then 1 else 0) (fun _ => 0) cb) [mkOut None (Some x) None None None None] 0 = Ok r.
Proof. intros cb x. apply (C80_msillm_accepts 2 2 _ _ _ _ cb _ 0 x 1 1 1); cbn; auto. Qed.

Print Assumptions C80_trees.
Print Assumptions C80_msillm.

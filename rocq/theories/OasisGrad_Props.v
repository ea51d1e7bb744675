(** C64: the gradients of the OASIS losses (GanLoss_Model.v). *)
From Coq Require Import Reals List Bool Arith ZArith Lia Lra.
From Verif Require Import Base Tensor RSum GanLoss_Model GanLoss_Props.
Import ListNotations.
Open Scope R_scope.

(** The gradient of the cross-entropy of one pixel in the logit of class [c], [t] being its label. *)
Definition ce_gradient (k : nat) (logits : nat -> R) (c t : nat) : R :=
  softmax k logits c - (if Nat.eq_dec c t then 1 else 0).

(** ** Lemmas *)
Lemma d_exp_at (b : bool) a v : derivable_pt_lim (fun u => exp (if b then u else a)) v (if b then exp v else 0).
Proof. destruct b; [apply derivable_pt_lim_exp|apply derivable_pt_lim_const]. Qed.
Lemma ln_softmax k x t : (0 < k)%nat -> - ln (softmax k x t) = ln (rsum k (fun j => exp (x j))) - x t.
Proof.
  intro K. unfold softmax, Rdiv. assert (P : 0 < rsum k (fun j => exp (x j))) by (apply rsum_pos; [lia|intros; apply exp_pos]).
  rewrite ln_mult, ln_exp, ln_Rinv; trivial; [ring|apply exp_pos|now apply Rinv_0_lt_compat].
Qed.
(** The logits of a pixel, that of class [c] replaced. *)
Definition put (x : nat -> R) (c : nat) (u : R) (m : nat) : R := if (m =? c)%nat then u else x m.
Lemma d_ce k x c t v : (c < k)%nat -> derivable_pt_lim (fun u => - ln (softmax k (put x c u) t)) v (ce_gradient k (put x c v) c t).
Proof.
  intro C. apply (d_ext (fun u => ln (rsum k (fun j => exp (put x c u j))) - put x c u t)); [intro u; symmetry; apply ln_softmax; lia|].
  unfold ce_gradient. apply (derivable_pt_lim_minus (fun u => ln (rsum k (fun j => exp (put x c u j)))) (fun u => put x c u t)).
  - assert (P : 0 < rsum k (fun j => exp (put x c v j))) by (apply rsum_pos; [lia|intros; apply exp_pos]).
    replace (softmax k (put x c v) c) with (/ rsum k (fun j => exp (put x c v j)) * exp v).
    2:{ unfold softmax, put at 2. rewrite Nat.eqb_refl. unfold Rdiv. ring. }
    apply (derivable_pt_lim_comp (fun u => rsum k (fun j => exp (put x c u j))) ln); [|now apply derivable_pt_lim_ln].
    replace (exp v) with (rsum k (fun j => if (j =? c)%nat then exp v else 0)).
    2:{ rewrite (rsum_single k _ c), Nat.eqb_refl; [reflexivity|exact C|]. intros i I N. apply Nat.eqb_neq in N. now rewrite N. }
    apply (d_rsum k (fun j u => exp (put x c u j))). intros j J. apply d_exp_at.
  - unfold put. destruct (Nat.eqb_spec t c) as [->|N].
    + destruct (Nat.eq_dec c c); [|easy]. apply derivable_pt_lim_id.
    + destruct (Nat.eq_dec c t); [congruence|]. apply derivable_pt_lim_const.
Qed.
(** The sum over all pixels of a loss of which one depends on the argument. *)
Lemma d_sum3 b h w (f : nat -> nat -> nat -> R -> R) i0 y0 x0 v d : (i0 < b)%nat -> (y0 < h)%nat -> (x0 < w)%nat ->
  derivable_pt_lim (f i0 y0 x0) v d -> (forall i y x, (i, y, x) <> (i0, y0, x0) -> forall u u', f i y x u = f i y x u') ->
  derivable_pt_lim (fun u => rsum b (fun i => rsum h (fun y => rsum w (fun x => f i y x u)))) v d.
Proof.
  intros I Y X D O.
  set (g := fun i y x => if (i =? i0)%nat then if (y =? y0)%nat then if (x =? x0)%nat then d else 0 else 0 else 0).
  assert (S : rsum b (fun i => rsum h (fun y => rsum w (fun x => g i y x))) = d).
  { rewrite (rsum_single b _ i0); [rewrite (rsum_single h _ y0); [rewrite (rsum_single w _ x0)|..]|..]; trivial.
    - unfold g. now rewrite !Nat.eqb_refl.
    - intros x _ N. apply Nat.eqb_neq in N. unfold g. now rewrite !Nat.eqb_refl, N.
    - intros y _ N. apply Nat.eqb_neq in N. rewrite (rsum_ext w _ (fun _ => 0)); [rewrite rsum_const; ring|]. intros x _. unfold g. now rewrite Nat.eqb_refl, N.
    - intros i _ N. apply Nat.eqb_neq in N. rewrite (rsum_ext h _ (fun _ => 0)); [rewrite rsum_const; ring|]. intros y _.
      rewrite (rsum_ext w _ (fun _ => 0)); [rewrite rsum_const; ring|]. intros x _. unfold g. now rewrite N. }
  rewrite <- S. apply (d_rsum b (fun i u => rsum h (fun y => rsum w (fun x => f i y x u)))). intros i _.
  apply (d_rsum h (fun y u => rsum w (fun x => f i y x u))). intros y _. apply (d_rsum w (f i y)). intros x _. unfold g.
  assert (Z : (i, y, x) <> (i0, y0, x0) -> derivable_pt_lim (f i y x) v 0).
  { intro N. apply (d_ext (fun _ => f i y x v)); [intro; now apply O|]. apply derivable_pt_lim_const. }
  destruct (Nat.eqb_spec i i0) as [->|]; [|apply Z; congruence]. destruct (Nat.eqb_spec y y0) as [->|]; [|apply Z; congruence].
  destruct (Nat.eqb_spec x x0) as [->|]; [exact D|apply Z; congruence].
Qed.
Lemma d_pixels b k h w (l : tensor R) (t : nat -> nat -> nat -> nat) i c y x v : (i < b)%nat -> (c < k)%nat -> (y < h)%nat -> (x < w)%nat ->
  derivable_pt_lim (fun u => rsum b (fun i' => rsum h (fun y' => rsum w (fun x' =>
      - ln (softmax k (fun m => tat (with_logit l [i; c; y; x] u) [i'; m; y'; x']) (t i' y' x'))))) / INR (b * h * w)) v
    (ce_gradient k (fun m => tat (with_logit l [i; c; y; x] v) [i; m; y; x]) c (t i y x) / INR (b * h * w)).
Proof.
  intros I C Y X. unfold Rdiv. rewrite (Rmult_comm (ce_gradient _ _ _ _)).
  set (F := fun u => rsum b (fun i' => rsum h (fun y' => rsum w (fun x' =>
      - ln (softmax k (fun m => tat (with_logit l [i; c; y; x] u) [i'; m; y'; x']) (t i' y' x')))))).
  apply (d_ext (fun u => / INR (b * h * w) * F u)); [intro; unfold F; ring|]. apply (derivable_pt_lim_scal F). unfold F.
  assert (E : forall u m, tat (with_logit l [i; c; y; x] u) [i; m; y; x] = put (fun m => tat l [i; m; y; x]) c u m).
  { intros u m. unfold with_logit, put. cbn [tat]. destruct (list_eq_dec _ _ _) as [H|H]; destruct (Nat.eqb_spec m c); try reflexivity; congruence. }
  assert (SE : forall k x x' c, (forall m, x m = x' m) -> softmax k x c = softmax k x' c).
  { intros k' z z' c' H. unfold softmax. rewrite H. f_equal. apply rsum_ext. intros j _. now rewrite H. }
  apply (d_sum3 b h w (fun i' y' x' u => - ln (softmax k (fun m => tat (with_logit l [i; c; y; x] u) [i'; m; y'; x']) (t i' y' x'))) i y x); trivial.
  - replace (ce_gradient k _ c (t i y x)) with (ce_gradient k (put (fun m => tat l [i; m; y; x]) c v) c (t i y x)).
    2:{ unfold ce_gradient. f_equal. apply SE. intro m. symmetry. apply E. }
    apply (d_ext (fun u => - ln (softmax k (put (fun m => tat l [i; m; y; x]) c u) (t i y x)))); [|now apply d_ce].
    intro u. do 2 f_equal. apply SE. intro m. symmetry. apply E.
  - intros i' y' x' N u u'. do 2 f_equal. apply SE. intro m. unfold with_logit. cbn [tat].
    destruct (list_eq_dec _ _ _) as [H|H]; [|reflexivity]. exfalso. apply N. congruence.
Qed.

(** ** The gradient in any logit is that of the cross-entropy of its pixel, over the number of pixels *)
Theorem oasis_generator_gradient : forall b k h w logits labels i c y x v, (i < b)%nat -> (c < k)%nat -> (y < h)%nat -> (x < w)%nat ->
  tshape logits = [b; k; h; w]%nat -> tshape labels = [b; h; w]%nat ->
  (forall i y x, (i < b)%nat -> (y < h)%nat -> (x < w)%nat -> (-1 <= tat labels [i; y; x] <= Z.of_nat k - 2)%Z) ->
  exists loss, (forall u, oasis_generator (with_logit logits [i; c; y; x] u) (mkLM true labels) = Ok (loss u)) /\
    derivable_pt_lim loss v (ce_gradient k (fun m => tat (with_logit logits [i; c; y; x] v) [i; m; y; x]) c
                               (Z.to_nat (tat labels [i; y; x] + 1)) / INR (b * h * w)).
Proof.
  intros b k h w l t i c y x v I C Y X L T H. eexists. split; [intro u; apply (oasis_generator_value b k h w); trivial; lia|].
  apply (d_pixels b k h w l (fun i y x => Z.to_nat (tat t [i; y; x] + 1))); trivial.
Qed.
Theorem oasis_discriminator_gradient : forall b k h w real fake labels i c y x v, (i < b)%nat -> (c < k)%nat -> (y < h)%nat -> (x < w)%nat ->
  tshape real = [b; k; h; w]%nat -> tshape fake = [b; k; h; w]%nat -> tshape labels = [b; h; w]%nat ->
  (forall i y x, (i < b)%nat -> (y < h)%nat -> (x < w)%nat -> (-1 <= tat labels [i; y; x] <= Z.of_nat k - 2)%Z) ->
  (exists loss, (forall u, oasis_discriminator (with_logit real [i; c; y; x] u) fake (mkLM true labels) = Ok (loss u)) /\
    derivable_pt_lim loss v (ce_gradient k (fun m => tat (with_logit real [i; c; y; x] v) [i; m; y; x]) c
                               (Z.to_nat (tat labels [i; y; x] + 1)) / (2 * INR (b * h * w)))) /\
  (exists loss, (forall u, oasis_discriminator real (with_logit fake [i; c; y; x] u) (mkLM true labels) = Ok (loss u)) /\
    derivable_pt_lim loss v (ce_gradient k (fun m => tat (with_logit fake [i; c; y; x] v) [i; m; y; x]) c 0 / (2 * INR (b * h * w)))).
Proof.
  intros b k h w r f t i c y x v I C Y X R F T H. assert (BH : (0 < b * h)%nat) by (destruct b, h; cbn; lia).
  assert (NZ : INR (b * h * w) <> 0) by (apply not_0_INR; destruct w; [lia|]; rewrite Nat.mul_succ_r; lia).
  assert (E : forall g, g / (2 * INR (b * h * w)) = 1 / 2 * (g / INR (b * h * w) + 0)) by (intro g; field; exact NZ).
  assert (E' : forall g, g / (2 * INR (b * h * w)) = 1 / 2 * (0 + g / INR (b * h * w))) by (intro g; field; exact NZ).
  split; eexists; (split; [intro u; apply (oasis_discriminator_value b k h w); trivial; lia|]).
  - rewrite E.
    set (A := fun u => rsum b (fun i' => rsum h (fun y' => rsum w (fun x' =>
      - ln (softmax k (fun m => tat (with_logit r [i; c; y; x] u) [i'; m; y'; x']) (Z.to_nat (tat t [i'; y'; x'] + 1)))))) / INR (b * h * w)).
    set (B := rsum b (fun i' => rsum h (fun y' => rsum w (fun x' => - ln (softmax k (fun m => tat f [i'; m; y'; x']) 0)))) / INR (b * h * w)).
    apply (derivable_pt_lim_scal (fun u => A u + B)). apply (derivable_pt_lim_plus A (fun _ => B)); [|apply derivable_pt_lim_const].
    exact (d_pixels b k h w r (fun i y x => Z.to_nat (tat t [i; y; x] + 1)) i c y x v I C Y X).
  - rewrite E'.
    set (A := rsum b (fun i' => rsum h (fun y' => rsum w (fun x' =>
      - ln (softmax k (fun m => tat r [i'; m; y'; x']) (Z.to_nat (tat t [i'; y'; x'] + 1)))))) / INR (b * h * w)).
    set (B := fun u => rsum b (fun i' => rsum h (fun y' => rsum w (fun x' => - ln (softmax k (fun m => tat (with_logit f [i; c; y; x] u) [i'; m; y'; x']) 0)))) / INR (b * h * w)).
    apply (derivable_pt_lim_scal (fun u => A + B u)). apply (derivable_pt_lim_plus (fun _ => A) B); [apply derivable_pt_lim_const|].
    exact (d_pixels b k h w f (fun _ _ _ => 0%nat) i c y x v I C Y X).
Qed.
(** It is negative at the label and positive at the other classes, of size below 1, and 0 in sum: a
    step against it moves the pixel towards its label. *)
Theorem oasis_gradient_direction : forall k logits t, (2 <= k)%nat -> (t < k)%nat ->
  -1 < ce_gradient k logits t t < 0 /\ (forall c, (c < k)%nat -> c <> t -> 0 < ce_gradient k logits c t < 1) /\
  rsum k (fun c => ce_gradient k logits c t) = 0.
Proof.
  intros k x t K T. unfold ce_gradient. split; [|split].
  - destruct (Nat.eq_dec t t); [|easy]. pose proof (softmax_lt_1 k x t K T). lra.
  - intros c C N. destruct (Nat.eq_dec c t); [easy|]. pose proof (softmax_lt_1 k x c K C). lra.
  - rewrite rsum_minus. rewrite (rsum_single k (fun c => if Nat.eq_dec c t then 1 else 0) t); [|exact T|intros i _ N; now destruct (Nat.eq_dec i t)].
    destruct (Nat.eq_dec t t); [|easy]. unfold softmax, Rdiv. rewrite rsum_scal_r.
    assert (P : 0 < rsum k (fun j => exp (x j))) by (apply rsum_pos; [lia|intros; apply exp_pos]). rewrite Rinv_r; lra.
Qed.
(** Two classes and 'fake', one pixel with undecided logits and label 0: the gradients are 1/3, -2/3, 1/3. *)
Example gradient_ex : map (fun c => ce_gradient 3 (fun _ => 0) c 1) [0; 1; 2]%nat = [1 / 3; - (2 / 3); 1 / 3].
Proof. unfold ce_gradient, softmax. cbn [map Nat.eq_dec]. rewrite rsum_const, exp_0. cbn. apply f_equal2; [field|]. apply f_equal2; [field|]. apply f_equal2; [field|reflexivity]. Qed.
Example labels_ex : exists loss,
  (forall u, oasis_generator (with_logit (mkT [1; 3; 1; 1]%nat (fun _ => 0)) [0; 1; 0; 0]%nat u) (mkLM true (mkT [1; 1; 1]%nat (fun _ => 0%Z))) = Ok (loss u)) /\
  derivable_pt_lim loss 0 (- (2 / 3)).
Proof.
  destruct (oasis_generator_gradient 1 3 1 1 (mkT [1; 3; 1; 1]%nat (fun _ => 0)) (mkT [1; 1; 1]%nat (fun _ => 0%Z)) 0 1 0 0 0) as (loss & H & D);
    [lia..|reflexivity|reflexivity|cbn; lia|]. exists loss. split; [exact H|].
  replace (- (2 / 3)) with (ce_gradient 3 (fun m => tat (with_logit (mkT [1; 3; 1; 1]%nat (fun _ => 0)) [0; 1; 0; 0]%nat 0) [0; m; 0; 0]%nat) 1
     (Z.to_nat (tat (mkT [1; 1; 1]%nat (fun _ => 0%Z)) [0; 0; 0]%nat + 1)) / INR (1 * 1 * 1)); [exact D|].
  unfold ce_gradient. change (Z.to_nat _) with 1%nat. destruct (Nat.eq_dec 1 1); [|easy]. unfold softmax, rsum. cbn. rewrite exp_0. field.
Qed.
Print Assumptions oasis_generator_gradient. Print Assumptions oasis_discriminator_gradient. Print Assumptions oasis_gradient_direction.

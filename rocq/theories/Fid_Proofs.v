(** Proofs about 8-bit conversion and patch extraction. *)
From Coq Require Import ZArith Arith List Bool Reals Lra Lia Psatz ZifyNat.
From Flocq Require Import Core Relative.
From Verif Require Import Base RBase RFloat Tensor Fid_Model Fid_Spec.
Import ListNotations.
Open Scope nat_scope.

Lemma b32_error x : (Rabs (b32 x - x) <= Rabs x * / 2 ^ 24 + / 2 ^ 150)%R.
Proof.
  destruct (error_N_FLT radix2 (-149) 24 ltac:(reflexivity) (fun x => negb (Z.even x)) x)
    as (eps & eta & E1 & E2 & _ & E). unfold b32. rewrite E.
  replace (x * (1 + eps) + eta - x)%R with (x * eps + eta)%R by ring.
  eapply Rle_trans; [apply Rabs_triang|]. rewrite Rabs_mult. apply Rplus_le_compat.
  - apply Rmult_le_compat_l; [apply Rabs_pos|]. eapply Rle_trans; [exact E1|]. right.
    change (- (24) + 1)%Z with (-23)%Z.
    replace (bpow radix2 (-23)) with (/ 8388608)%R by reflexivity. lra.
  - eapply Rle_trans; [exact E2|]. right.
    change (-149)%Z with (- (149))%Z. rewrite (bpow_opp radix2 149).
    replace (bpow radix2 149) with (2 ^ 149)%R.
    + change 150%nat with (S 149). rewrite <- (tech_pow_Rmult 2 149). field.
    + rewrite bpow_powerRZ. change 149%Z with (Z.of_nat 149). rewrite <- pow_powerRZ. reflexivity.
Qed.
Lemma p16 : (/ 2 ^ 16 = / 65536)%R. Proof. f_equal. cbn [pow]. ring. Qed.
Lemma p24 : (/ 2 ^ 24 = / 16777216)%R. Proof. f_equal. cbn [pow]. ring. Qed.
Lemma small_150 : (/ 2 ^ 150 <= / 1073741824)%R.
Proof. replace 1073741824%R with (2 ^ 30)%R by (cbn [pow]; ring). apply Rinv_le_contravar; [apply pow_lt; lra|]. apply Rle_pow; [lra|lia]. Qed.

Lemma b32_255 x : (0 <= x <= 1)%R -> (0 <= b32 (x * 255) <= 255)%R.
Proof.
  intros [A B]. split.
  - apply Rle_trans with (b32 (IZR 0)); [rewrite b32_int; [lra|cbn; lia]|]. apply b32_mono. lra.
  - apply Rle_trans with (b32 (IZR 255)); [|rewrite b32_int; [lra|cbn; lia]]. apply b32_mono. lra.
Qed.
Lemma to_255_ok x : (0 <= x <= 1)%R -> to_255 x = round_even (b32 (x * 255)) /\ (0 <= to_255 x <= 255)%Z.
Proof.
  intro H. pose proof (b32_255 x H) as B. unfold to_255.
  assert (R : (0 <= round_even (b32 (x * 255)) <= 255)%Z) by (apply round_even_range; exact B).
  unfold u8. rewrite Z.mod_small by lia. auto.
Qed.

Lemma tany_spec {A} (p : A -> bool) t : tany p t = true <-> exists i, inb (tshape t) i /\ p (tat t i) = true.
Proof.
  unfold tany. rewrite existsb_exists. split.
  - intros (q & Q & P). apply in_seq in Q. exists (unravel (tshape t) q). split; [apply unravel_inb; lia|exact P].
  - intros (i & I & P). exists (ravel (tshape t) i). split; [apply in_seq; pose proof (ravel_lt _ _ I); lia|].
    now rewrite unravel_ravel.
Qed.
Lemma Rgtb_spec a b : Rgtb a b = true <-> (b < a)%R.
Proof. unfold Rgtb. destruct (Rlt_dec b a); split; easy. Qed.

Lemma scale_ok t : 0 < prod (tshape t) -> in_unit t ->
  image_to_255_scale t = Ok (mkT (tshape t) (fun i => to_255 (tat t i))).
Proof.
  intros P U. unfold image_to_255_scale. rewrite (proj2 (Nat.eqb_neq _ _)) by lia.
  destruct (tany (fun v => Rgtb v 1) t) eqn:A.
  { apply tany_spec in A. destruct A as (i & I & A). apply Rgtb_spec in A. specialize (U i I). lra. }
  destruct (tany (fun v => Rgtb 0 v) t) eqn:B.
  { apply tany_spec in B. destruct B as (i & I & B). apply Rgtb_spec in B. specialize (U i I). lra. }
  reflexivity.
Qed.
Lemma scale_bad t i : 0 < prod (tshape t) -> inb (tshape t) i -> ~ (0 <= tat t i <= 1)%R ->
  image_to_255_scale t = Raise ValueError.
Proof.
  intros P I N. unfold image_to_255_scale. rewrite (proj2 (Nat.eqb_neq _ _)) by lia.
  destruct (tany (fun v => Rgtb v 1) t) eqn:A; [reflexivity|].
  destruct (tany (fun v => Rgtb 0 v) t) eqn:B; [reflexivity|]. exfalso. apply N. split.
  - destruct (Rle_lt_dec 0 (tat t i)) as [|L]; [assumption|].
    assert (tany (fun v => Rgtb 0 v) t = true) by (apply tany_spec; exists i; split; [exact I|now apply Rgtb_spec]). congruence.
  - destruct (Rle_lt_dec (tat t i) 1) as [|L]; [assumption|].
    assert (tany (fun v => Rgtb v 1) t = true) by (apply tany_spec; exists i; split; [exact I|now apply Rgtb_spec]). congruence.
Qed.

Lemma grid p h : 1 <= p -> p <= h -> (h - p) / p + 1 = h / p.
Proof.
  intros P H. replace h with (h - p + 1 * p) at 2 by lia. rewrite Nat.div_add by lia. reflexivity.
Qed.

Lemma flat_lt k i j b ny nx : k < b -> i < ny -> j < nx -> k * (ny * nx) + i * nx + j < b * (ny * nx).
Proof.
  intros K I J. assert (i * nx + j < ny * nx) by nia. generalize dependent (ny * nx). intros q Q.
  assert (S k * q <= b * q) by (apply Nat.mul_le_mono_r; lia). lia.
Qed.

(** The patches before conversion. *)
Lemma cut_raw x b c h w p : tshape x = [b; c; h; w] -> 1 <= p -> p <= h -> p <= w ->
  exists u, unfold_patches x p = Ok u /\ tshape (permute u [0; 2; 1]) = [b; h / p * (w / p); c * (p * p)] /\
  forall k l d, tat (permute u [0; 2; 1]) [k; l; d]
    = tat x [k; d / (p * p); l / (w / p) * p + (d mod (p * p)) / p; (l mod (w / p)) * p + d mod p].
Proof.
  intros X P H W. unfold unfold_patches. rewrite X.
  rewrite (proj2 (Nat.leb_le _ _) P), (proj2 (Nat.leb_le _ _) H), (proj2 (Nat.leb_le _ _) W). cbn [andb].
  rewrite !grid by assumption. eexists. split; [reflexivity|]. split; reflexivity.
Qed.

Lemma cut_grid x b h w p : tshape x = [b; 3; h; w] -> 1 <= p -> p <= h -> p <= w ->
  exists r, (do u <- unfold_patches x p; reshape_infer (permute u [0; 2; 1]) [3; p; p]) = Ok r /\
  tshape r = [b * (h / p * (w / p)); 3; p; p] /\
  forall k i j, k < b -> i < h / p -> j < w / p -> forall c u v, c < 3 -> u < p -> v < p ->
    tat r [k * (h / p * (w / p)) + i * (w / p) + j; c; u; v] = tat x [k; c; i * p + u; j * p + v].
Proof.
  intros X P H W. destruct (cut_raw x b 3 h w p X P H W) as (q & -> & S & V). cbn [bind].
  set (ny := h / p) in *. set (nx := w / p) in *.
  destruct (reshape_infer_ok (permute q [0; 2; 1]) (b * (ny * nx)) [3; p; p]) as (t & -> & T & VT).
  - rewrite S. unfold prod. cbn [fold_right]. ring.
  - unfold prod. cbn [fold_right]. nia.
  - exists t. split; [reflexivity|]. split; [exact T|]. intros k i j K I J c u v C U VV.
    assert (D1 : u * p + v < p * p) by nia.
    assert (D2 : c * (p * p) + (u * p + v) < 3 * (p * p)) by nia.
    assert (LJ : i * nx + j < ny * nx) by nia.
    rewrite (VT _ [k; i * nx + j; c * (p * p) + (u * p + v)]).
    + rewrite V. f_equal. f_equal. f_equal; [|f_equal; [|f_equal]].
      * rewrite Nat.div_add_l, Nat.div_small by nia. lia.
      * f_equal; [|].
        -- rewrite Nat.div_add_l, (Nat.div_small j) by lia. f_equal. lia.
        -- rewrite (Nat.add_comm (c * (p * p))), Nat.mod_add, Nat.mod_small by nia.
           rewrite Nat.div_add_l, Nat.div_small by lia. lia.
      * f_equal; [|].
        -- rewrite Nat.add_comm, Nat.mod_add, Nat.mod_small by lia. reflexivity.
        -- replace (c * (p * p) + (u * p + v)) with (v + (c * p + u) * p) by ring.
           rewrite Nat.mod_add, Nat.mod_small by lia. reflexivity.
    + rewrite S. cbn [inb]. auto.
    + rewrite S. unfold prod. cbn [ravel]. unfold prod. cbn [fold_right]. ring.
Qed.

Definition grid_unit (x : tensor R) (b h w p : nat) : Prop :=
  forall k c y z, k < b -> c < 3 -> y < h / p * p -> z < w / p * p -> (0 <= tat x [k; c; y; z] <= 1)%R.
Lemma cut_ok x b h w p : tshape x = [b; 3; h; w] -> grid_unit x b h w p -> 1 <= b -> 1 <= p -> p <= h -> p <= w ->
  exists P, cut x p = Ok P /\ patches_of to_255 x b h w p 0 P.
Proof.
  intros X U B P H W. destruct (cut_grid x b h w p X P H W) as (r & E & S & V).
  unfold cut. destruct (unfold_patches x p) as [u|]; [|discriminate]. cbn [bind] in *. rewrite E. cbn [bind].
  assert (NY : 1 <= h / p) by (apply Nat.div_le_lower_bound; lia).
  assert (NX : 1 <= w / p) by (apply Nat.div_le_lower_bound; lia).
  assert (HB : forall i u, i < h / p -> u < p -> i * p + u < h / p * p) by (intros; nia).
  assert (WB : forall i u, i < w / p -> u < p -> i * p + u < w / p * p) by (intros; nia).
  rewrite scale_ok.
  - eexists. split; [reflexivity|]. unfold patches_of. rewrite !Nat.sub_0_r. split; [exact S|].
    intros k i j K I J c u' v C Q QV. cbn [tat]. now rewrite V.
  - rewrite S. unfold prod. cbn [fold_right]. nia.
  - intros idx I. rewrite S in I. destruct idx as [|q [|c [|u' [|v [|]]]]]; cbn [inb] in I; try tauto.
    destruct I as (Q & C & QU & QV & _).
    set (ny := h / p) in *. set (nx := w / p) in *.
    assert (N0 : ny * nx <> 0) by nia.
    assert (EQ : q = q / (ny * nx) * (ny * nx) + (q mod (ny * nx)) / nx * nx + (q mod (ny * nx)) mod nx).
    { pose proof (Nat.div_mod q (ny * nx) N0). pose proof (Nat.div_mod (q mod (ny * nx)) nx ltac:(lia)). lia. }
    assert (L : q mod (ny * nx) < ny * nx) by (now apply Nat.mod_upper_bound).
    assert (K : q / (ny * nx) < b) by (apply Nat.div_lt_upper_bound; [exact N0|nia]).
    assert (I1 : (q mod (ny * nx)) / nx < ny) by (apply Nat.div_lt_upper_bound; nia).
    assert (J1 : (q mod (ny * nx)) mod nx < nx) by (apply Nat.mod_upper_bound; lia).
    rewrite EQ, V by assumption. apply U; auto.
Qed.
Lemma unit_grid x b h w p : tshape x = [b; 3; h; w] -> 1 <= p -> in_unit x -> grid_unit x b h w p.
Proof.
  intros X P U k c y z K C Y Z. apply U. rewrite X. cbn [inb].
  pose proof (Nat.mul_div_le h p ltac:(lia)). pose proof (Nat.mul_div_le w p ltac:(lia)). lia.
Qed.
(** A pixel out of range on the grid is noticed. *)
Lemma cut_bad x b h w p k c y z : tshape x = [b; 3; h; w] -> 1 <= p -> p <= h -> p <= w ->
  k < b -> c < 3 -> y < h / p * p -> z < w / p * p -> ~ (0 <= tat x [k; c; y; z] <= 1)%R ->
  cut x p = Raise ValueError.
Proof.
  intros X P H W K C Y Z N. destruct (cut_grid x b h w p X P H W) as (r & E & S & V).
  unfold cut. destruct (unfold_patches x p) as [u|]; [|discriminate]. cbn [bind] in *. rewrite E. cbn [bind].
  assert (I : y / p < h / p) by (apply Nat.div_lt_upper_bound; lia).
  assert (J : z / p < w / p) by (apply Nat.div_lt_upper_bound; lia).
  assert (MU : y mod p < p) by (apply Nat.mod_upper_bound; lia).
  assert (MV : z mod p < p) by (apply Nat.mod_upper_bound; lia).
  apply (scale_bad r [k * (h / p * (w / p)) + y / p * (w / p) + z / p; c; y mod p; z mod p]).
  - rewrite S. unfold prod. cbn [fold_right]. repeat apply Nat.mul_pos_pos; lia.
  - rewrite S. cbn [inb]. repeat split; auto. now apply flat_lt.
  - rewrite V by assumption.
    replace (y / p * p + y mod p) with y by (pose proof (Nat.div_mod y p ltac:(lia)); lia).
    replace (z / p * p + z mod p) with z by (pose proof (Nat.div_mod z p ltac:(lia)); lia). exact N.
Qed.
Lemma cut_small x b c h w p : tshape x = [b; c; h; w] -> p = 0 \/ h < p \/ w < p -> cut x p = Raise RuntimeError.
Proof.
  intros X H. unfold cut, unfold_patches. rewrite X.
  destruct (Nat.leb_spec 1 p), (Nat.leb_spec p h), (Nat.leb_spec p w); try reflexivity; lia.
Qed.

Lemma shift_ok x b h w s : tshape x = [b; 3; h; w] -> in_unit x -> 
  exists y, shift_image x s = Ok y /\ tshape y = [b; 3; h - s; w - s] /\ in_unit y /\
  forall k c i j, tat y [k; c; i; j] = tat x [k; c; s + i; s + j].
Proof.
  intros X U. unfold shift_image. rewrite X. eexists. split; [reflexivity|]. split; [reflexivity|]. split; [|reflexivity].
  intros idx I. cbn [tshape] in I. destruct idx as [|k [|c [|i [|j [|]]]]]; cbn [inb] in I; try tauto.
  cbn [tat]. apply U. rewrite X. cbn [inb]. lia.
Qed.

(** C49 and C50: 8-bit images and patch-based FID. *)
From Coq Require Import ZArith Arith List Bool Reals Lra Lia Psatz ZifyNat.
From Verif Require Import Base RBase RFloat Tensor Fid_Model Fid_Spec Fid_Proofs.
Import ListNotations.
Open Scope nat_scope.

(** C49.  Exactly the images with all values in [0, 1] are converted, each pixel to the
    nearest integer in 0..255. *)
Theorem image255_value image : 0 < prod (tshape image) -> in_unit image ->
  exists t, image_to_255_scale image = Ok t /\ tshape t = tshape image /\
  forall i, inb (tshape image) i -> nearest_255 (tat image i) (tat t i).
Proof.
  intros P U. rewrite (scale_ok image P U). eexists. split; [reflexivity|]. split; [reflexivity|].
  intros i I. cbn [tat]. specialize (U i I). set (x := tat image i) in *.
  destruct (to_255_ok x U) as [E R]. split; [exact R|]. rewrite E.
  pose proof (round_even_near (b32 (x * 255))) as A. pose proof (b32_error (x * 255)) as B.
  pose proof small_150 as S. rewrite p24 in *. generalize dependent (/ 2 ^ 150)%R. intros tiny. set (v := b32 (x * 255)) in *. set (z := IZR (round_even v)) in *.
  intros B S. rewrite p16. rewrite (Rabs_pos_eq (x * 255)) in B by lra.
  replace (z - 255 * x)%R with (- (v - z) + (v - x * 255))%R by ring.
  eapply Rle_trans; [apply Rabs_triang|]. rewrite Rabs_Ropp.
  lra.
Qed.
Theorem image255_rejects image : 0 < prod (tshape image) ->
  (image_to_255_scale image = Raise ValueError <->
   exists i, inb (tshape image) i /\ (tat image i < 0 \/ 1 < tat image i)%R).
Proof.
  intro P. split.
  - intro H. destruct (tany (fun v => Rgtb v 1) image) eqn:A.
    { apply tany_spec in A. destruct A as (i & I & A). apply Rgtb_spec in A. eauto. }
    destruct (tany (fun v => Rgtb 0 v) image) eqn:B.
    { apply tany_spec in B. destruct B as (i & I & B). apply Rgtb_spec in B. eauto. }
    unfold image_to_255_scale in H. rewrite A, B, (proj2 (Nat.eqb_neq _ _)) in H by lia. discriminate.
  - intros (i & I & H). apply (scale_bad image i P I). lra.
Qed.
Theorem image255_monotone image t i j : image_to_255_scale image = Ok t ->
  inb (tshape image) i -> inb (tshape image) j -> (tat image i <= tat image j)%R ->
  (tat t i <= tat t j)%Z.
Proof.
  intros H I J L. assert (P : 0 < prod (tshape image)).
  { unfold image_to_255_scale in H. destruct (Nat.eqb_spec (prod (tshape image)) 0); [discriminate|lia]. }
  assert (Q : forall i, inb (tshape image) i -> (0 <= tat image i <= 1)%R).
  { intros k K. destruct (Rle_lt_dec 0 (tat image k)), (Rle_lt_dec (tat image k) 1); auto;
      rewrite (scale_bad image k P K) in H by lra; discriminate. }
  rewrite (scale_ok image P Q) in H. injection H as <-. cbn [tat].
  destruct (to_255_ok _ (Q i I)) as [-> _]. destruct (to_255_ok _ (Q j J)) as [-> _].
  apply round_even_mono, b32_mono. lra.
Qed.
(** An 8-bit image divided by 255 in float32 comes back unchanged. *)
Theorem image255_roundtrip (pixels : tensor Z) : 0 < prod (tshape pixels) ->
  (forall i, inb (tshape pixels) i -> (0 <= tat pixels i <= 255)%Z) ->
  exists t, image_to_255_scale (mkT (tshape pixels) (fun i => b32 (IZR (tat pixels i) / 255))) = Ok t /\
  teq t pixels.
Proof.
  intros P U.
  assert (Q : forall k, (0 <= k <= 255)%Z -> (0 <= b32 (IZR k / 255) <= 1)%R).
  { intros k [A B]. apply IZR_le in A, B. split.
    - apply Rle_trans with (b32 (IZR 0)); [rewrite b32_int; [lra|cbn; lia]|]. apply b32_mono.
      apply Rmult_le_pos; lra.
    - apply Rle_trans with (b32 (IZR 1)); [|rewrite b32_int; [lra|cbn; lia]]. apply b32_mono.
      apply Rmult_le_reg_r with 255%R; [lra|]. unfold Rdiv. rewrite Rmult_assoc, Rinv_l by lra. lra. }
  rewrite scale_ok; [|exact P|intros i I; cbn [tat]; apply Q, U, I].
  eexists. split; [reflexivity|]. split; [reflexivity|]. intros i I. cbn [tat tshape] in *. specialize (U i I).
  set (k := tat pixels i) in *. destruct (to_255_ok _ (Q k U)) as [-> _].
  apply round_even_unique. pose proof (Q k U) as R01.
  pose proof (b32_error (IZR k / 255)) as A. pose proof (b32_error (b32 (IZR k / 255) * 255)) as B.
  pose proof small_150 as S. rewrite p24 in *. generalize dependent (/ 2 ^ 150)%R. intros tiny. set (v := b32 (IZR k / 255)) in *. set (z := b32 (v * 255)) in *.
  assert (K : (0 <= IZR k / 255 <= 1)%R).
  { destruct U as [U1 U2]. apply IZR_le in U1, U2. split; [apply Rmult_le_pos; lra|].
    apply Rmult_le_reg_r with 255%R; [lra|]. unfold Rdiv. rewrite Rmult_assoc, Rinv_l by lra. lra. }
  intros A B S. rewrite (Rabs_pos_eq (IZR k / 255)) in A by lra. rewrite (Rabs_pos_eq (v * 255)) in B by lra.
  replace (z - IZR k)%R with ((z - v * 255) + 255 * (v - IZR k / 255))%R by field.
  eapply Rle_lt_trans; [apply Rabs_triang|]. rewrite Rabs_mult, (Rabs_pos_eq 255) by lra.
  lra.
Qed.
Example image255_ex :
  exists t, image_to_255_scale (mkT [2] (fun i => match i with [0] => 1 | _ => 0 end)%R) = Ok t /\
  tat t [0] = 255%Z /\ tat t [1] = 0%Z.
Proof.
  eexists. rewrite scale_ok; [|cbn; lia|intros [|[|] [|]] I; cbn in *; try tauto; lra]. split; [reflexivity|].
  cbn [tat]. unfold to_255. replace (1 * 255)%R with (IZR 255) by lra. replace (0 * 255)%R with (IZR 0) by lra.
  rewrite !b32_int, !round_even_IZR by (cbn; lia). split; reflexivity.
Qed.

(** C50. *)
Definition has_metric (m : metrics) : Prop := fid m <> None \/ fid_swav m <> None \/ kid m <> None.
(** Every metric present receives the real patches and then the predicted ones; nothing
    else about it changes, and absent metrics stay absent. *)
Definition received (before after : metrics) (calls : metric) : Prop :=
  let ext b a := a = match b with Some l => Some (l ++ calls) | None => None end in
  ext (fid before) (fid after) /\ ext (fid_swav before) (fid_swav after) /\ ext (kid before) (kid after).

Lemma feed_received real fake m : received m (feed_all real fake m) [(real, true); (fake, false)].
Proof. unfold received, feed_all, feed. cbn. destruct (fid m), (fid_swav m), (kid m); auto. Qed.
Lemma received_trans a b c l l' : received a b l -> received b c l' -> received a c (l ++ l').
Proof.
  unfold received. intros (A1 & A2 & A3) (B1 & B2 & B3). rewrite B1, B2, B3, A1, A2, A3.
  destruct (fid a), (fid_swav a), (kid a); rewrite ?app_assoc; auto.
Qed.
Lemma update_unfold x y m p : has_metric m -> update_patch_fid x y m p =
  match (do real <- cut x p; do fake <- cut y p; Ok (real, fake)) with
  | Raise e => (m, Raise e)
  | Ok (real, fake) =>
      let n := nth 0 (tshape real) 0 in
      let m := feed_all real fake m in
      if (3 * p <=? 2 * nth 2 (tshape x) 0) && (3 * p <=? 2 * nth 3 (tshape x) 0) then
        match (do i <- shift_image x (p / 2); do real <- cut i p;
               do j <- shift_image y (p / 2); do fake <- cut j p; Ok (real, fake)) with
        | Raise e => (m, Raise e)
        | Ok (real, fake) => (feed_all real fake m, Ok (n + nth 0 (tshape real) 0))
        end
      else (m, Ok n)
  end.
Proof.
  intro H. unfold update_patch_fid. destruct m as [f s k]. unfold has_metric in H. cbn [fid fid_swav kid] in *.
  destruct f, s, k; try reflexivity. exfalso. tauto.
Qed.

(** Two batches of one shape with at least one patch: the plain grid, and, exactly if both
    sides are at least one and a half patches, the grid shifted by half a patch.  The
    number returned is the number of patches of one batch. *)
Theorem patch_fid_updates x y m b h w p : has_metric m ->
  tshape x = [b; 3; h; w] -> tshape y = [b; 3; h; w] -> in_unit x -> in_unit y ->
  1 <= b -> 1 <= p -> p <= h -> p <= w ->
  exists R F, patches_of to_255 x b h w p 0 R /\ patches_of to_255 y b h w p 0 F /\
  (2 * h < 3 * p \/ 2 * w < 3 * p ->
     snd (update_patch_fid x y m p) = Ok (b * ((h / p) * (w / p))) /\
     received m (fst (update_patch_fid x y m p)) [(R, true); (F, false)]) /\
  (3 * p <= 2 * h -> 3 * p <= 2 * w ->
     exists R' F', patches_of to_255 x b h w p (p / 2) R' /\ patches_of to_255 y b h w p (p / 2) F' /\
     snd (update_patch_fid x y m p)
       = Ok (b * ((h / p) * (w / p)) + b * (((h - p / 2) / p) * ((w - p / 2) / p))) /\
     received m (fst (update_patch_fid x y m p)) [(R, true); (F, false); (R', true); (F', false)]).
Proof.
  intros M X Y UX UY B P H W. rewrite update_unfold by exact M.
  destruct (cut_ok x b h w p X (unit_grid _ _ _ _ _ X P UX) B P H W) as (R & -> & PR).
  destruct (cut_ok y b h w p Y (unit_grid _ _ _ _ _ Y P UY) B P H W) as (F & -> & PF). cbn [bind].
  rewrite X. cbn [nth]. exists R, F. split; [exact PR|]. split; [exact PF|].
  assert (NR : nth 0 (tshape R) 0 = b * (h / p * (w / p))).
  { destruct PR as [S _]. rewrite S. cbn [nth]. now rewrite !Nat.sub_0_r. }
  cbv zeta. rewrite NR. split.
  - intro S. replace ((3 * p <=? 2 * h) && (3 * p <=? 2 * w)) with false.
    + cbn [fst snd]. split; [reflexivity|apply feed_received].
    + symmetry. apply andb_false_iff. destruct S; [left|right]; apply Nat.leb_gt; lia.
  - intros SH SW. rewrite (proj2 (Nat.leb_le _ _) SH), (proj2 (Nat.leb_le _ _) SW). cbn [andb].
    assert (D : 2 * (p / 2) <= p) by dlia.
    destruct (shift_ok x b h w (p / 2) X UX) as (x' & -> & X' & UX' & VX).
    destruct (shift_ok y b h w (p / 2) Y UY) as (y' & -> & Y' & UY' & VY).
    destruct (cut_ok x' b (h - p / 2) (w - p / 2) p X' (unit_grid _ _ _ _ _ X' P UX') B P ltac:(lia) ltac:(lia)) as (R' & E1 & PR').
    destruct (cut_ok y' b (h - p / 2) (w - p / 2) p Y' (unit_grid _ _ _ _ _ Y' P UY') B P ltac:(lia) ltac:(lia)) as (F' & E2 & PF').
    cbn [bind]. rewrite E1. cbn [bind]. rewrite E2. cbn [bind fst snd]. exists R', F'.
    assert (G : forall z z' Q, (forall k c i j, tat z' [k; c; i; j] = tat z [k; c; p / 2 + i; p / 2 + j]) ->
       patches_of to_255 z' b (h - p / 2) (w - p / 2) p 0 Q -> patches_of to_255 z b h w p (p / 2) Q).
    { intros z z' Q VZ [S V]. unfold patches_of. rewrite !Nat.sub_0_r in *. split; [exact S|].
      intros k i j K I J c u v C U VV. rewrite V by assumption. rewrite VZ, !Nat.add_assoc, !Nat.add_0_r. reflexivity. }
    split; [now apply (G x x')|]. split; [now apply (G y y')|]. split.
    + destruct PR' as [S _]. rewrite S. cbn [nth]. now rewrite !Nat.sub_0_r.
    + apply (received_trans _ _ _ _ _ (feed_received R F m) (feed_received R' F' _)).
Qed.

(** Every pixel of the part of the image that the grid covers occurs in a patch, and each
    patch lies inside the image. *)
Theorem patch_fid_covers q x b h w p s P : 1 <= p -> patches_of q x b h w p s P ->
  (forall k c y z, k < b -> c < 3 -> s <= y < s + (h - s) / p * p -> s <= z < s + (w - s) / p * p ->
     exists n u v, n < nth 0 (tshape P) 0 /\ u < p /\ v < p /\ tat P [n; c; u; v] = q (tat x [k; c; y; z])) /\
  (forall i j u v, i < (h - s) / p -> j < (w - s) / p -> u < p -> v < p -> s + i * p + u < h /\ s + j * p + v < w).
Proof.
  intros P1 [S V]. split.
  - intros k c y z K C [Y1 Y2] [Z1 Z2]. set (ny := (h - s) / p) in *. set (nx := (w - s) / p) in *.
    assert (I : (y - s) / p < ny) by (apply Nat.div_lt_upper_bound; lia).
    assert (J : (z - s) / p < nx) by (apply Nat.div_lt_upper_bound; lia).
    assert (MU : (y - s) mod p < p) by (apply Nat.mod_upper_bound; lia).
    assert (MV : (z - s) mod p < p) by (apply Nat.mod_upper_bound; lia).
    exists (k * (ny * nx) + (y - s) / p * nx + (z - s) / p), ((y - s) mod p), ((z - s) mod p).
    split; [rewrite S; cbn [nth]; now apply flat_lt|]. split; [exact MU|]. split; [exact MV|].
    rewrite V by assumption. do 2 f_equal. f_equal. f_equal.
    pose proof (Nat.div_mod (y - s) p ltac:(lia)). pose proof (Nat.div_mod (z - s) p ltac:(lia)).
    f_equal; [lia|]. f_equal. lia.
  - intros i j u v I J U VV. pose proof (Nat.mul_div_le (h - s) p ltac:(lia)). pose proof (Nat.mul_div_le (w - s) p ltac:(lia)).
    assert (i * p + u < (h - s) / p * p) by nia. assert (j * p + v < (w - s) / p * p) by nia. lia.
Qed.

(** Refusals leave the metrics alone: no metric, an image smaller than a patch, or a value
    out of range on the plain grid of the first batch. *)
Theorem patch_fid_refusals x y m b c h w p : tshape x = [b; c; h; w] ->
  (~ has_metric m -> update_patch_fid x y m p = (m, Raise ValueError)) /\
  (has_metric m -> p = 0 \/ h < p \/ w < p -> update_patch_fid x y m p = (m, Raise RuntimeError)) /\
  (has_metric m -> c = 3 -> 1 <= p -> p <= h -> p <= w ->
   (exists k c y z, k < b /\ c < 3 /\ y < h / p * p /\ z < w / p * p /\ ~ (0 <= tat x [k; c; y; z] <= 1)%R) ->
   update_patch_fid x y m p = (m, Raise ValueError)).
Proof.
  intro X. split; [|split].
  - intro N. unfold update_patch_fid. destruct m as [f s k]. unfold has_metric in N. cbn [fid fid_swav kid] in *.
    destruct f; [exfalso; apply N; left; discriminate|]. destruct k; [exfalso; apply N; right; right; discriminate|].
    destruct s; [exfalso; apply N; right; left; discriminate|]. reflexivity.
  - intros M S. rewrite update_unfold by exact M. rewrite (cut_small x b c h w p X S). reflexivity.
  - intros M C P H W (k & ch & i & j & K & CH & I & J & N). subst c. rewrite update_unfold by exact M.
    rewrite (cut_bad x b h w p k ch i j); auto.
Qed.

(** A failing call can still have changed the metrics: a bad pixel that only the shifted
    grid covers raises after the plain grid was counted. *)
Theorem patch_fid_atomic_refuted :
  exists x y m p, has_metric m /\ snd (update_patch_fid x y m p) = Raise ValueError /\
  fid (fst (update_patch_fid x y m p)) <> fid m.
Proof.
  exists (mkT [1; 3; 3; 3] (fun i => match i with [_; _; 2; 2] => 2 | _ => 0 end)%R),
         (mkT [1; 3; 3; 3] (fun _ => 0%R)), (mkMetrics (Some []) None None), 2.
  assert (M : has_metric (mkMetrics (Some []) None None)) by (left; discriminate).
  split; [exact M|].
  set (x := mkT [1; 3; 3; 3] (fun i => match i with [_; _; 2; 2] => 2 | _ => 0 end)%R).
  set (y := mkT [1; 3; 3; 3] (fun _ => 0%R)).
  assert (GX : grid_unit x 1 3 3 2).
  { intros k c i j K C I J. change (3 / 2 * 2) with 2 in *. unfold x. cbn [tat].
    destruct i as [|[|]], j as [|[|]]; try lia; lra. }
  assert (GY : in_unit y) by (intros i _; cbn [y tat]; lra).
  destruct (cut_ok x 1 3 3 2 eq_refl GX) as (R & ER & PR); try lia.
  destruct (cut_ok y 1 3 3 2 eq_refl (unit_grid y 1 3 3 2 eq_refl ltac:(lia) GY)) as (F & EF & PF); try lia.
  assert (E : update_patch_fid x y (mkMetrics (Some []) None None) 2
              = (feed_all R F (mkMetrics (Some []) None None), Raise ValueError)).
  { rewrite update_unfold by exact M. rewrite ER, EF. cbn [bind]. change (tshape x) with [1; 3; 3; 3]. cbn [nth].
    change ((3 * 2 <=? 2 * 3) && (3 * 2 <=? 2 * 3)) with true. cbv iota zeta.
    change (2 / 2) with 1. unfold shift_image at 1. change (tshape x) with [1; 3; 3; 3]. cbn [bind].
    rewrite (cut_bad _ 1 2 2 2 0 0 1 1); [reflexivity|reflexivity|cbn; lia..|cbn [tat x Nat.add]; lra]. }
  rewrite E. cbn [fst snd fid feed_all feed app]. split; [reflexivity|]. intro Q. discriminate Q.
Qed.

(** For an odd patch size the shifted grid can fit without being used. *)
Theorem patch_fid_shift_refuted x y m b : has_metric m ->
  tshape x = [b; 3; 4; 4] -> tshape y = [b; 3; 4; 4] -> in_unit x -> in_unit y -> 1 <= b ->
  (4 - 3 / 2) / 3 = 1 /\ snd (update_patch_fid x y m 3) = Ok (b * 1).
Proof.
  intros M X Y UX UY B. split; [reflexivity|].
  destruct (patch_fid_updates x y m b 4 4 3 M X Y UX UY B) as (R & F & _ & _ & S & _); try lia.
  destruct S as [S _]; [lia|exact S].
Qed.
(** Grey images: three neighbouring patches are packed as the three channels of one. *)
Theorem patch_fid_grey_refuted x p : tshape x = [1; 1; p; 3 * p] -> in_unit x -> 1 <= p ->
  exists P, cut x p = Ok P /\ tshape P = [1; 3; p; p] /\
  forall c u v, c < 3 -> u < p -> v < p -> tat P [0; c; u; v] = to_255 (tat x [0; 0; u; c * p + v]).
Proof.
  intros X U P. destruct (cut_raw x 1 1 p (3 * p) p X P (le_n _) ltac:(lia)) as (q & E & S & V).
  unfold cut. rewrite E. cbn [bind]. rewrite Nat.div_same, Nat.div_mul in * by lia.
  destruct (reshape_infer_ok (permute q [0; 2; 1]) 1 [3; p; p]) as (t & -> & T & VT).
  - rewrite S. unfold prod. cbn [fold_right]. ring.
  - unfold prod. cbn [fold_right]. nia.
  - cbn [bind].
    assert (A : forall c u v, c < 3 -> u < p -> v < p -> tat t [0; c; u; v] = tat x [0; 0; u; c * p + v]).
    { intros c u v C HU HV. assert (D1 : u * p + v < p * p) by nia.
      rewrite (VT _ [0; c; u * p + v]).
      - rewrite V. f_equal. f_equal. f_equal; [now rewrite Nat.div_small by lia|].
        f_equal; [|f_equal].
        + rewrite (Nat.div_small c 3), Nat.mod_small by lia. rewrite Nat.div_add_l, Nat.div_small by lia. lia.
        + rewrite (Nat.mod_small c 3) by lia. f_equal. rewrite Nat.add_comm, Nat.mod_add, Nat.mod_small by lia. reflexivity.
      - rewrite S. cbn [inb]. lia.
      - rewrite S. unfold prod. cbn [ravel]. unfold prod. cbn [fold_right]. ring. }
    rewrite scale_ok.
    + eexists. split; [reflexivity|]. split; [exact T|]. intros c u v C HU HV. cbn [tat]. now rewrite A.
    + rewrite T. unfold prod. cbn [fold_right]. nia.
    + intros i I. rewrite T in I. destruct i as [|k [|c [|u [|v [|]]]]]; cbn [inb] in I; try tauto.
      destruct I as (K & C & HU & HV & _). assert (k = 0) by lia. subst. rewrite A by assumption.
      apply U. rewrite X. cbn [inb]. repeat split; try lia; nia.
Qed.

(** CLIC-sized example: 2 images of 768 x 512 with 256-patches: 12 plain and 4 shifted. *)
Example patch_fid_ex x y m : has_metric m ->
  tshape x = [2; 3; 512; 768] -> tshape y = [2; 3; 512; 768] -> in_unit x -> in_unit y ->
  snd (update_patch_fid x y m 256) = Ok 16.
Proof.
  intros M X Y UX UY.
  destruct (patch_fid_updates x y m 2 512 768 256 M X Y UX UY) as (R & F & _ & _ & _ & S);
    [lia|lia|apply Nat.leb_le; vm_compute; reflexivity|apply Nat.leb_le; vm_compute; reflexivity|].
  destruct S as (R' & F' & _ & _ & S & _); [apply Nat.leb_le; vm_compute; reflexivity|apply Nat.leb_le; vm_compute; reflexivity|].
  rewrite S. reflexivity.
Qed.

Print Assumptions image255_value.
Print Assumptions image255_rejects.
Print Assumptions image255_monotone.
Print Assumptions image255_roundtrip.
Print Assumptions patch_fid_updates.
Print Assumptions patch_fid_covers.
Print Assumptions patch_fid_refusals.
Print Assumptions patch_fid_atomic_refuted.
Print Assumptions patch_fid_shift_refuted.
Print Assumptions patch_fid_grey_refuted.

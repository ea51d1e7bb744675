(** C62, C63: the tables and the arguments of ContinuousEntropy. *)
From Coq Require Import Reals List Bool Arith ZArith Lia Lra.
From Verif Require Import Base Tensor RBase Gsn_Model CE_Model Quant_Props.
Import ListNotations.
Open Scope Z_scope.

(** ** Specification *)

(** The contract of compressai's quantiser is [quantiser] of Quant_Props.v; it is exact where exactness is possible ([exact_quantiser]). *)

(** A row of the table that a range coder can use: [size] entries that rise strictly from 0 to 2^prec. *)
Definition usable (prec size : Z) (row : nat -> Z) : Prop :=
  row 0%nat = 0 /\ (forall k, Z.of_nat k + 1 < size -> row k < row (S k)) /\
  row (Z.to_nat (size - 1)) = 2 ^ prec.

Definition entry1 (t : tensor Z) (i : nat) : Z := tat t [i].
Definition entry2 (t : tensor Z) (i k : nat) : Z := tat t [i; k].
(** The fractional part of a mean that rounding removes. *)
Definition frac (p : prior) (j : nat) : R := (pr_mean p j - IZR (round_even (pr_mean p j)))%R.

(** A family of [n] scalar distributions with densities. *)
Definition family (p : prior) (n : nat) : Prop :=
  pr_noise p = false /\ pr_dims p = [n] /\ (2 <= n)%nat /\ (forall j x, 0 <= pr_prob p j x)%R /\
  (forall tm j, pr_lower p tm j <= pr_upper p tm j)%R.

Definition given {A} (o : option A) : Prop := o <> None.
(** The documented requirements on the arguments. *)
Definition documented (a : args) : Prop :=
  (given (a_prior a) \/ (given (a_shape a) /\ given (a_dtype a))) /\
  (a_compressible a = true ->
     ((given (a_cdfs a) /\ given (a_sizes a) /\ given (a_offsets a)) \/
      (~ given (a_cdfs a) /\ ~ given (a_sizes a) /\ ~ given (a_offsets a))) /\
     ((given (a_prior a) /\ ~ given (a_cdfs a) /\ ~ given (a_maximum a)) \/
      (~ given (a_prior a) /\ given (a_cdfs a) /\ ~ given (a_maximum a)) \/
      (~ given (a_prior a) /\ ~ given (a_cdfs a) /\ given (a_maximum a))) /\
     ~ (a_stateless a = true /\ given (a_maximum a))) /\
  (a_compressible a = false ->
     ~ given (a_cdfs a) /\ ~ given (a_sizes a) /\ ~ given (a_offsets a) /\ ~ given (a_maximum a)).

(** ** Lemmas *)

Lemma max_size_ge p tm n i : (i < n)%nat -> pmf_size p tm i <= max_size p tm n.
Proof.
  intro H. unfold max_size. assert (I : In (pmf_size p tm i) (map (pmf_size p tm) (seq 0 n))).
  { apply in_map. apply in_seq. lia. }
  induction (map (pmf_size p tm) (seq 0 n)) as [|z l IH]; [destruct I|]. cbn [fold_right].
  destruct I as [->|I]; [lia|]. specialize (IH I). lia.
Qed.
Lemma Rfloor_ceil x y : (x <= y)%R -> Rfloor x <= Rceil y.
Proof.
  intro H. apply IZR_lt_1. pose proof (Rfloor_spec x). pose proof (Rceil_spec y). lra.
Qed.
Lemma pmf_size_pos p tm j : (pr_lower p tm j <= pr_upper p tm j)%R -> 1 <= pmf_size p tm j.
Proof.
  intro H. unfold pmf_size, minimum_of, maximum_of.
  pose proof (Rfloor_ceil (pr_lower p tm j - offset_of p j) (pr_upper p tm j - offset_of p j)). lra || idtac.
  assert (K : Rfloor (pr_lower p tm j - offset_of p j) <= Rceil (pr_upper p tm j - offset_of p j)) by (apply Rfloor_ceil; lra).
  lia.
Qed.
Lemma update_not_value q p tm prec : update q p tm prec <> Raise ValueError.
Proof.
  unfold update. destruct (prod (pr_dims p) =? 0)%nat; [discriminate|].
  destruct (batch_shape p) as [|n [|]]; try discriminate. destruct (n =? 1)%nat; discriminate.
Qed.
Lemma update_family q p n tm prec : family p n ->
  update q p tm prec = Ok (mat n (Z.to_nat (max_size p tm n) + 2) (cdf_entry q p tm prec n),
                    vec n (fun j => pmf_size p tm j + 2), vec n (fun j => minimum_of p tm j)).
Proof.
  intros (A & B & C & _). unfold update, batch_shape. rewrite A, B. cbn [prod fold_right].
  destruct (Nat.eqb_spec (n * 1) 0); [lia|]. destruct (Nat.eqb_spec n 1); [lia|reflexivity].
Qed.
Lemma update_shapes q p tm prec c s o : update q p tm prec = Ok (c, s, o) ->
  exists n, pr_noise p = false /\ pr_dims p = [n] /\ (2 <= n)%nat /\
    tshape c = [n; Z.to_nat (max_size p tm n) + 2]%nat /\ tshape s = [n] /\ tshape o = [n].
Proof.
  unfold update. destruct (Nat.eqb_spec (prod (pr_dims p)) 0) as [E|E]; [discriminate|].
  unfold batch_shape. destruct (pr_noise p) eqn:N; [discriminate|].
  destruct (pr_dims p) as [|n [|? ?]] eqn:D; try discriminate.
  destruct (Nat.eqb_spec n 1); [discriminate|]. intro H. injection H as <- <- <-.
  exists n. repeat split; try reflexivity. cbn in E. lia.
Qed.

(** ** C62 *)

(** A layer made from a prior: only non-noise priors over a vector of at least two distributions
    give tables, one row per distribution, as wide as the largest alphabet plus two. *)
Theorem ce_tables_exist : forall q a p, a_prior a = Some p -> a_compressible a = true -> documented a ->
  ((exists l, create q a = Ok l) <-> pr_noise p = false /\ exists n, pr_dims p = [n] /\ (2 <= n)%nat).
Proof.
  intros q a p HP HC HD. unfold create, prior_shape. rewrite HP, HC. cbn [bind].
  destruct HD as (_ & HD & _). destruct (HD HC) as (_ & HE & _).
  assert (HD' : a_cdfs a = None /\ a_maximum a = None).
  { unfold given in HE. rewrite HP in HE. destruct HE as [(_ & X & Y)|[(X & _)|(X & _)]].
    - split; [destruct (a_cdfs a)|destruct (a_maximum a)]; try reflexivity; exfalso; [apply X|apply Y]; discriminate.
    - exfalso; apply X; discriminate.
    - exfalso; apply X; discriminate. }
  destruct HD' as [X Y]. destruct (HD HC) as (HF & _ & _). unfold given in HF. rewrite X in HF.
  assert (HF' : a_sizes a = None /\ a_offsets a = None).
  { destruct HF as [(Z & _)|(_ & Z1 & Z2)]; [now elim Z|].
    split; [destruct (a_sizes a)|destruct (a_offsets a)]; try reflexivity; exfalso; [apply Z1|apply Z2]; discriminate. }
  destruct HF' as [-> ->]. rewrite X, Y. cbn [isNone Bool.eqb negb andb b2n Nat.add Nat.eqb].
  split.
  - intros [l E]. destruct (update q p (a_tail_mass a) (a_precision a)) as [[[c s] o]|e] eqn:U; [|discriminate].
    apply update_shapes in U. destruct U as (n & A & B & C & _). split; [exact A|]. now exists n.
  - intros (A & n & B & C). unfold update, batch_shape. rewrite A, B. cbn [prod fold_right].
    destruct (Nat.eqb_spec (n * 1) 0); [lia|]. destruct (Nat.eqb_spec n 1); [lia|]. cbn [bind]. eexists. reflexivity.
Qed.
Print Assumptions ce_tables_exist.

(** Known deviation: no uniform-noise prior, which the class is documented for, can be used. *)
Theorem ce_noise_prior_refuted : forall q a p, a_prior a = Some p -> a_compressible a = true ->
  pr_noise p = true -> exists e, create q a = Raise e.
Proof.
  intros q a p HP HC HN. unfold create, prior_shape. rewrite HP, HC. cbn [bind].
  destruct (negb (_ && _)); [eexists; reflexivity|]. destruct (negb (Nat.eqb _ _)); [eexists; reflexivity|].
  unfold update, batch_shape. rewrite HN. destruct (_ =? 0)%nat; eexists; reflexivity.
Qed.
Print Assumptions ce_noise_prior_refuted.

(** Sizes and offsets: the alphabet of distribution j runs from floor(lower tail - frac) to
    ceil(upper tail - frac), both raised to at least 0. *)
Theorem ce_sizes_and_offsets : forall q p n tm prec c s o j, family p n -> (j < n)%nat ->
  update q p tm prec = Ok (c, s, o) ->
  let lo := Z.max 0 (Rfloor (pr_lower p tm j - frac p j)) in
  let hi := Z.max 0 (Rceil (pr_upper p tm j - frac p j)) in
  entry1 o j = lo /\ entry1 s j = hi - lo + 3 /\ 0 <= entry1 o j /\ 3 <= entry1 s j /\
  entry1 s j <= Z.of_nat (nth 1 (tshape c) 0%nat) /\ tshape c = [n; nth 1 (tshape c) 0%nat] /\ tshape s = [n] /\ tshape o = [n].
Proof.
  intros q p n tm prec c s o j F J U lo hi. rewrite (update_family q p n tm prec F) in U. injection U as <- <- <-.
  pose proof (max_size_ge p tm n j J) as M. pose proof (pmf_size_pos p tm j) as P.
  destruct F as (_ & _ & _ & _ & L). specialize (P (L tm j)).
  unfold entry1, vec, mat. cbn [tat tshape hd nth].
  subst lo hi. unfold pmf_size, minimum_of, maximum_of, offset_of in *. fold (frac p j) in *.
  repeat split; try reflexivity; try lia.
Qed.
Print Assumptions ce_sizes_and_offsets.

(** Known deviation: values below zero have no symbol; if the whole distribution lies at or below
    its offset, only the value 0 has one. *)
Theorem ce_negative_values_refuted : forall q p n tm prec c s o j, family p n -> (j < n)%nat ->
  update q p tm prec = Ok (c, s, o) -> (pr_upper p tm j <= frac p j)%R ->
  entry1 o j = 0 /\ entry1 s j = 3.
Proof.
  intros q p n tm prec c s o j F J U H.
  destruct (ce_sizes_and_offsets q p n tm prec c s o j F J U) as (A & B & _).
  destruct F as (_ & _ & _ & _ & L). specialize (L tm j).
  assert (X : Rceil (pr_upper p tm j - frac p j) <= 0).
  { apply IZR_lt_1. pose proof (Rceil_spec (pr_upper p tm j - frac p j)). lra. }
  assert (Y : Rfloor (pr_lower p tm j - frac p j) <= 0).
  { apply IZR_lt_1. pose proof (Rfloor_spec (pr_lower p tm j - frac p j)). lra. }
  lia.
Qed.
Print Assumptions ce_negative_values_refuted.

(** What a row holds: the quantised vector of the densities of the first distributions (not of
    distribution i), each at its i-th sample point, with the missing mass appended. *)
Theorem ce_row_contents : forall q p n tm prec c s o i k, family p n -> (i < n)%nat ->
  update q p tm prec = Ok (c, s, o) ->
  let width := Z.to_nat (entry1 s i - 2) in
  let start j := Rtrunc (IZR (entry1 o j) + frac p j) in
  let v := firstn width (map (fun j => pr_prob p j (INR i + IZR (start j)))%R (seq 0 n)) in
  let largest := (nth 1 (tshape c) 0 - 2)%nat in
  ((i < largest)%nat -> entry2 c i k = nth k (q (v ++ [Rmax (1 - fold_right Rplus 0 v) 0])%R prec) 0) /\
  ((largest <= i)%nat -> entry2 c i k = 0).
Proof.
  intros q p n tm prec c s o i k F I U width start v largest.
  pose proof (max_size_ge p tm n i I) as M. pose proof (pmf_size_pos p tm i) as P.
  rewrite (update_family q p n tm prec F) in U. injection U as <- <- <-.
  destruct F as (_ & _ & _ & _ & L). specialize (P (L tm i)).
  unfold largest, entry2, mat. cbn [tat tshape hd tl nth]. unfold cdf_entry.
  split; intro H.
  - destruct (Z.ltb_spec (Z.of_nat i) (max_size p tm n)); [|lia]. unfold table_row.
    assert (W : Z.to_nat (pmf_size p tm i) = width).
    { unfold width, entry1, vec. cbn [tat hd]. f_equal. lia. }
    rewrite W. reflexivity.
  - destruct (Z.ltb_spec (Z.of_nat i) (max_size p tm n)); [lia|reflexivity].
Qed.
Print Assumptions ce_row_contents.

(** A row is usable, at its declared size, exactly when the alphabet of that distribution is no
    larger than the number of distributions and its index is below the largest alphabet. *)
Theorem ce_row_usable_iff : forall q p n tm prec c s o i, quantiser q -> family p n -> (i < n)%nat -> 0 <= prec -> Z.of_nat n < 2 ^ prec ->
  update q p tm prec = Ok (c, s, o) ->
  (usable prec (entry1 s i) (entry2 c i) <->
   Z.of_nat i < Z.of_nat (nth 1 (tshape c) 0%nat) - 2 /\ entry1 s i - 2 <= Z.of_nat n).
Proof.
  intros q p n tm prec c s o i Q F I HP HN U.
  destruct (ce_sizes_and_offsets q p n tm prec c s o i F I U) as (_ & _ & _ & S3 & SW & _).
  pose proof (fun k => ce_row_contents q p n tm prec c s o i k F I U) as RC. cbv zeta in RC.
  set (W := nth 1 (tshape c) 0%nat) in *. set (w := entry1 s i) in *.
  set (v := firstn (Z.to_nat (w - 2)) (map (fun j => pr_prob p j (INR i + IZR (Rtrunc (IZR (entry1 o j) + frac p j)))) (seq 0 n))) in *.
  assert (LV : length v = Nat.min (Z.to_nat (w - 2)) n) by (unfold v; now rewrite firstn_length, map_length, seq_length).
  assert (P2 : 0 < 2 ^ prec) by (apply Z.pow_pos_nonneg; lia).
  set (l := (v ++ [Rmax (1 - fold_right Rplus 0 v) 0])%R) in *.
  assert (LL : length l = S (length v)) by (unfold l; rewrite app_length; cbn; lia).
  destruct (Q l prec) as (Q1 & Q2 & Q3 & Q4).
  { apply quantisable_full; [exact HP| | |rewrite LL, LV; lia].
    2:{ unfold l, total. rewrite fold_right_app. cbn [fold_right]. rewrite Rplus_0_r.
        assert (G : forall u a, fold_right Rplus a u = (fold_right Rplus 0 u + a)%R) by (induction u as [|y u IH]; intro a; cbn [fold_right]; [lra|rewrite IH; lra]).
        rewrite G. pose proof (Rmax_l (1 - fold_right Rplus 0%R v)%R 0%R). lra. }
    unfold l. apply Forall_app. split.
    - destruct F as (_ & _ & _ & G & _). unfold v. apply Forall_forall. intros x X.
      assert (X' := X). rewrite <- (firstn_skipn (Z.to_nat (w - 2)) (map (fun j => pr_prob p j (INR i + IZR (Rtrunc (IZR (entry1 o j) + frac p j)))) (seq 0 n))) in X'.
      assert (X2 : In x (map (fun j => pr_prob p j (INR i + IZR (Rtrunc (IZR (entry1 o j) + frac p j)))) (seq 0 n))).
      { rewrite <- (firstn_skipn (Z.to_nat (w - 2))). apply in_or_app. now left. }
      apply in_map_iff in X2. destruct X2 as (j & <- & _). apply G.
    - constructor; [apply Rmax_r|constructor]. }
  destruct (Nat.lt_ge_cases i (W - 2)) as [H|H].
  - assert (RC1 : forall k, entry2 c i k = nth k (q l prec) 0) by (intro k; exact (proj1 (RC k) H)).
    split.
    + intros (U1 & U2 & U3). split; [lia|]. destruct (Z.le_gt_cases (w - 2) (Z.of_nat n)) as [K|K]; [exact K|exfalso].
      rewrite RC1 in U3. rewrite nth_overflow in U3; [lia|]. rewrite Q1, LL, LV. lia.
    + intros (_ & K). repeat split.
      * rewrite RC1. exact Q2.
      * intros k HK. rewrite !RC1. apply Q3. rewrite LL, LV. lia.
      * rewrite RC1. rewrite <- Q4. f_equal. rewrite LL, LV. lia.
  - assert (RC1 : forall k, entry2 c i k = 0) by (intro k; exact (proj2 (RC k) H)).
    split; [|lia]. intros (_ & _ & U3). rewrite RC1 in U3. lia.
Qed.
Print Assumptions ce_row_usable_iff.

(** A family that meets the hypotheses, with densities 1/2, 1/4, ... and 1/8, 1/8, ... *)
Definition ex_prior : prior := mkP false [2%nat] (fun _ => 0%R) (fun _ _ => (-1)%R) (fun _ _ => 1%R)
  (fun j x => if Nat.eqb j 0 then (if Rle_dec x (1/2) then 1/2 else 1/4) else 1/8)%R.
Lemma ex_prior_family : family ex_prior 2.
Proof.
  repeat split; try reflexivity; try lia.
  - intros j x. cbn. destruct (j =? 0)%nat; [destruct (Rle_dec x (1/2))|]; lra.
  - intros. cbn. lra.
Qed.
Lemma ex_round0 : round_even 0 = 0.
Proof. change 0%R with (IZR 0). apply round_even_IZR. Qed.
Lemma ex_vals j : minimum_of ex_prior (1/256) j = 0 /\ pmf_size ex_prior (1/256) j = 2 /\ pmf_start ex_prior (1/256) j = 0.
Proof.
  assert (O : offset_of ex_prior j = 0%R) by (unfold offset_of; cbn; rewrite ex_round0; lra).
  assert (M : minimum_of ex_prior (1/256) j = 0).
  { unfold minimum_of. rewrite O. cbn. rewrite (Rfloor_unique _ (-1)) by lra. reflexivity. }
  assert (X : maximum_of ex_prior (1/256) j = 1).
  { unfold maximum_of. rewrite O. cbn. rewrite (Rceil_unique _ 1) by lra. reflexivity. }
  split; [exact M|]. split; [unfold pmf_size; now rewrite M, X|].
  unfold pmf_start. rewrite M, O. unfold Rtrunc. destruct (Rle_dec 0 (0 + 0)) as [_|N]; [|lra].
  apply Rfloor_unique. lra.
Qed.

(** The quantiser of compressai meets both contracts. *)
Example quantiser_ex : quantiser compressai. Proof. exact compressai_quantiser. Qed.
Example exact_quantiser_ex : exact_quantiser compressai. Proof. exact compressai_exact. Qed.

(** Known deviation: a row is not the CDF of its distribution.  Row 0 of the example differs from
    the quantised probabilities of distribution 0, for every quantiser that is exact where
    exactness is possible. *)
Theorem ce_wrong_distribution_refuted : forall q, exact_quantiser q ->
  exists c s o, update q ex_prior (1/256) 12 = Ok (c, s, o) /\
    let probs := map (fun k => pr_prob ex_prior 0 (INR k)) [0; 1]%nat in
    exists k, (k < 4)%nat /\ entry2 c 0 k <> nth k (q (probs ++ [1 - fold_right Rplus 0 probs])%R 12) 0.
Proof.
  intros q E. rewrite (update_family q ex_prior 2 (1/256) 12 ex_prior_family). eexists _, _, _. split; [reflexivity|].
  exists 2%nat. split; [lia|]. unfold entry2, mat. cbn [tat hd tl].
  unfold cdf_entry. destruct (Z.ltb_spec (Z.of_nat 0) (max_size ex_prior (1/256) 2)) as [_|H].
  2:{ pose proof (max_size_ge ex_prior (1/256) 2 0 ltac:(lia)). destruct (ex_vals 0) as (_ & S & _). lia. }
  unfold table_row, pmfs_at. rewrite (proj1 (proj2 (ex_vals 0))). cbn [seq map].
  rewrite (proj2 (proj2 (ex_vals 0))), (proj2 (proj2 (ex_vals 1))).
  change (Z.to_nat 2) with 2%nat. cbn [firstn fold_right app pr_prob ex_prior Nat.eqb INR].
  destruct (Rle_dec (0 + 0) (1 / 2)) as [_|N]; [|lra]. destruct (Rle_dec 0 (1/2)) as [_|N]; [|lra].
  destruct (Rle_dec 1 (1/2)) as [N|_]; [lra|].
  rewrite (Rmax_left _ 0) by lra.
  assert (P : (2 ^ Z.to_nat 12 = 4096)%R) by (change (Z.to_nat 12) with 12%nat; lra).
  pose proof (E [2048; 512; 1536] 12 ltac:(lia) ltac:(repeat constructor; lia) eq_refl) as E1.
  pose proof (E [2048; 1024; 1024] 12 ltac:(lia) ltac:(repeat constructor; lia) eq_refl) as E2.
  cbn [map] in E1, E2. rewrite P in E1, E2.
  replace [1 / 2; 1 / 8; 1 - (1 / 2 + (1 / 8 + 0))]%R with [2048 / 4096; 512 / 4096; 1536 / 4096]%R by (apply f_equal2; [lra|apply f_equal2; [lra|apply f_equal2; [lra|reflexivity]]]).
  replace [1 / 2; 1 / 4; 1 - (1 / 2 + (1 / 4 + 0))]%R with [2048 / 4096; 1024 / 4096; 1024 / 4096]%R by (apply f_equal2; [lra|apply f_equal2; [lra|apply f_equal2; [lra|reflexivity]]]).
  rewrite E1, E2. cbn. discriminate.
Qed.
Print Assumptions ce_wrong_distribution_refuted.

(** ** C63 *)

(** The constructor raises ValueError exactly when the documented requirements are not met. *)
Theorem ce_arguments : forall q a, create q a = Raise ValueError <-> ~ documented a.
Proof.
  intros q a. unfold documented, create, prior_shape, given.
  pose proof (fun p => update_not_value q p (a_tail_mass a) (a_precision a)) as NV.
  assert (G : forall A (x : A), Some x <> None) by discriminate.
  destruct (a_prior a) as [p|]; [|destruct (a_shape a) as [sh|]; [destruct (a_dtype a) as [dt|]|]]; cbn [bind].
  3,4: split; [intros _ ([X|[X Y]] & _); now contradiction X + contradiction Y | reflexivity].
  all: destruct (a_compressible a), (a_stateless a), (a_cdfs a), (a_sizes a), (a_offsets a), (a_maximum a);
    cbn [isNone negb Bool.eqb andb b2n Nat.add Nat.eqb].
  all: try (specialize (NV p)); try (destruct (update q p (a_tail_mass a) (a_precision a)) as [[[? ?] ?]|]); cbn [bind].
  all: try (destruct (length _ =? 0)%nat).
  all: split; intro H; try reflexivity; try discriminate; try congruence.
  all: try (exfalso; apply H; clear - G; repeat split; intros; try discriminate; try (now auto 6); intuition congruence).
  all: intros (X & Y & Z); clear - X Y Z G; try specialize (Y eq_refl); try specialize (Z eq_refl); intuition congruence.
Qed.
Print Assumptions ce_arguments.

(** Arguments that meet the requirements. *)
Example ce_arguments_ex : documented (mkA true false (Some ex_prior) (1/256) None None None None None None 12).
Proof. repeat split; cbn; try discriminate; [now left | | |]; try (intros; unfold given; intuition discriminate). Qed.

(** A layer that was not made compressible refuses its tables. *)
Theorem ce_not_compressible : forall q a l, create q a = Ok l -> a_compressible a = false ->
  get_cdfs l = Raise RuntimeError /\ get_sizes l = Raise RuntimeError /\ get_offsets l = Raise RuntimeError.
Proof.
  intros q a l H C. unfold create in H. destruct (prior_shape a) as [shp|]; [|discriminate]. cbn [bind] in H. rewrite C in H.
  destruct (_ && _ && _ && _); [|discriminate]. injection H as <-. repeat split.
Qed.
Print Assumptions ce_not_compressible.

(** Tables that are passed in are the tables of the layer. *)
Theorem ce_given_tables : forall q a c s o, documented a -> a_compressible a = true ->
  a_cdfs a = Some c -> a_sizes a = Some s -> a_offsets a = Some o ->
  exists l, create q a = Ok l /\ get_cdfs l = Ok (Some c) /\ get_sizes l = Ok (Some s) /\ get_offsets l = Ok (Some o).
Proof.
  intros q a c s o (D1 & D2 & _) C E1 E2 E3. destruct (D2 C) as (_ & D & _). unfold given in *. rewrite E1 in D.
  assert (P : a_prior a = None) by (destruct (a_prior a); [exfalso; intuition discriminate|reflexivity]).
  assert (M : a_maximum a = None) by (destruct (a_maximum a); [exfalso; intuition discriminate|reflexivity]).
  unfold create, prior_shape. rewrite P in *. destruct D1 as [D1|[DA DB]]; [now elim D1|].
  destruct (a_shape a); [|now elim DA]. destruct (a_dtype a); [|now elim DB]. cbn [bind].
  rewrite C, E1, E2, E3, M. cbn. eexists. repeat split.
Qed.
Print Assumptions ce_given_tables.

(** The prior can be read back exactly from a compressible layer made from a prior; otherwise,
    and unlike what is documented, reading it is an AttributeError; after deletion it is a
    RuntimeError, as documented. *)
Theorem ce_prior_access : forall q a l, create q a = Ok l ->
  get_prior l = match a_prior a with
                | Some p => if a_compressible a then Ok p else Raise AttributeError
                | None => Raise AttributeError
                end /\
  get_prior (del_prior l) = Raise RuntimeError /\ state_dict (del_prior l) = state_dict l.
Proof.
  intros q a l H. split; [|split; reflexivity]. unfold create in H.
  destruct (prior_shape a) as [shp|]; [|discriminate]. cbn [bind] in H.
  destruct (a_compressible a).
  - destruct (negb (_ && _)); [discriminate|]. destruct (negb (Nat.eqb _ _)); [discriminate|].
    destruct (a_prior a) as [p|].
    + destruct (update _ _ _ _) as [[[? ?] ?]|]; [|discriminate]. injection H as <-. reflexivity.
    + destruct (a_maximum a).
      * destruct (a_stateless a); [discriminate|]. destruct (_ =? 0)%nat; [discriminate|]. injection H as <-. reflexivity.
      * injection H as <-. reflexivity.
  - destruct (_ && _ && _ && _); [|discriminate]. injection H as <-. destruct (a_prior a); reflexivity.
Qed.
Print Assumptions ce_prior_access.

(** The state of a layer made from a prior can be loaded into another layer made from a prior
    with tables of the same shape, which then has the same tables. *)
Theorem ce_restore : forall q a b la lb c s o, create q a = Ok la -> create q b = Ok lb ->
  state_dict la = (Some c, Some s, Some o) ->
  (exists c' s' o', state_dict lb = (Some c', Some s', Some o') /\ tshape c' = tshape c /\ tshape s' = tshape s /\ tshape o' = tshape o) ->
  exists l, load_state lb (state_dict la) = Ok l /\ state_dict l = state_dict la.
Proof.
  intros q a b la lb c s o HA HB SA (c' & s' & o' & SB & X & Y & Z). rewrite SA. unfold state_dict in SB.
  unfold load_state. injection SB as -> -> ->. unfold load_entry.
  destruct (list_eq_dec _ _ _) as [_|N]; [|now elim N]. cbn [bind].
  destruct (list_eq_dec _ _ _) as [_|N]; [|now elim N]. cbn [bind].
  destruct (list_eq_dec _ _ _) as [_|N]; [|now elim N]. eexists. split; reflexivity.
Qed.
Print Assumptions ce_restore.

(** In general the state is accepted exactly if the same tables are there with the same shapes, and refused
    with a RuntimeError otherwise. *)
Theorem ce_restore_exactly : forall lb sd,
  let agree (mine saved : option (tensor Z)) :=
    match mine, saved with None, None => True | Some t, Some u => tshape t = tshape u | _, _ => False end in
  let '(c, s, o) := sd in let '(c', s', o') := state_dict lb in
  (agree c' c /\ agree s' s /\ agree o' o -> exists l, load_state lb sd = Ok l /\ state_dict l = sd) /\
  (~ (agree c' c /\ agree s' s /\ agree o' o) -> load_state lb sd = Raise RuntimeError).
Proof.
  intros lb [[c s] o] agree. unfold state_dict.
  assert (X : forall mine saved, (agree mine saved /\ load_entry mine saved = Ok saved) \/ (~ agree mine saved /\ load_entry mine saved = Raise RuntimeError)).
  { intros [t|] [u|]; unfold agree, load_entry; try (right; tauto); [|left; tauto].
    destruct (list_eq_dec _ _ _) as [E|N]; [left|right]; auto. }
  unfold load_state.
  destruct (X (l_cdfs lb) c) as [[A1 ->]|[A1 ->]], (X (l_sizes lb) s) as [[A2 ->]|[A2 ->]], (X (l_offsets lb) o) as [[A3 ->]|[A3 ->]];
    cbn [bind]; (split; [intros (? & ? & ?); try tauto; eexists; split; reflexivity|intro; try tauto; reflexivity]).
Qed.
Print Assumptions ce_restore_exactly.

(** Known deviation: a layer with empty tables (maximum_cdf_size), which is documented to be
    restored later, accepts the tables of no prior of the same shape, whatever size is given. *)
Theorem ce_restore_empty_refuted : forall q a b la lb p m,
  create q a = Ok la -> a_compressible a = true -> a_prior a = Some p ->
  create q b = Ok lb -> a_compressible b = true -> a_maximum b = Some m ->
  a_shape b = Some (pr_dims p) ->
  load_state lb (state_dict la) = Raise RuntimeError.
Proof.
  intros q a b la lb p m HA CA PA HB CB MB SB.
  unfold create in HA. destruct (prior_shape a) as [sa|]; [|discriminate]. cbn [bind] in HA. rewrite CA in HA.
  destruct (negb (_ && _)); [discriminate|]. destruct (negb (Nat.eqb _ _)); [discriminate|]. rewrite PA in HA.
  destruct (update q p (a_tail_mass a) (a_precision a)) as [[[c s] o]|] eqn:U; [|discriminate]. cbn [bind] in HA. injection HA as <-.
  apply update_shapes in U. destruct U as (n & _ & DP & N & S1 & S2 & S3).
  unfold create in HB. destruct (prior_shape b) as [sb|] eqn:PS; [|discriminate]. cbn [bind] in HB. rewrite CB in HB.
  destruct (negb (_ && _)); [discriminate|]. destruct (negb (Nat.eqb _ _)) eqn:K; [discriminate|].
  destruct (a_prior b) as [pb|] eqn:PB.
  { rewrite MB in K. destruct (isNone (a_cdfs b)); discriminate K. }
  rewrite MB in HB. destruct (a_stateless b); [discriminate|]. destruct (_ =? 0)%nat; [discriminate|]. injection HB as <-.
  unfold state_dict, load_state. cbn [l_cdfs l_sizes l_offsets load_entry mat vec tshape].
  unfold prior_shape in PS. rewrite PB, SB in PS. destruct (a_dtype b); [|discriminate]. injection PS as <-.
  rewrite S1, DP. destruct (list_eq_dec _ _ _) as [E|_]; [|reflexivity]. exfalso. injection E as E _. cbn in E. lia.
Qed.
Print Assumptions ce_restore_empty_refuted.

(** Two such layers exist. *)
Example ce_restore_empty_ex : forall q,
  (exists la, create q (mkA true false (Some ex_prior) (1/256) None None None None None None 12) = Ok la) /\
  (exists lb, create q (mkA true false None (1/256) (Some [2%nat]) (Some 0%nat) None None None (Some 6%nat) 12) = Ok lb).
Proof.
  intro q. split.
  - unfold create, prior_shape. cbn [a_prior a_compressible a_cdfs a_sizes a_offsets a_maximum a_tail_mass a_precision bind isNone Bool.eqb negb andb b2n Nat.add Nat.eqb].
    rewrite (update_family q ex_prior 2 _ _ ex_prior_family). cbn [bind]. eexists. reflexivity.
  - eexists. reflexivity.
Qed.

(** Known deviation: quantize, documented for floating-point tensors, refuses every one of them;
    on integers it subtracts the offsets. *)
Definition count (d : data) : nat := match d with Floats l => length l | Ints l => length l end.
Theorem ce_quantize_refuted : forall l o, quantize (Floats l) None = Raise TypeError /\
  (count o = length l -> quantize (Floats l) (Some o) = Raise TypeError) /\
  (count o <> length l -> quantize (Floats l) (Some o) = Raise RuntimeError) /\
  (forall z, quantize (Ints z) (Some (Floats l)) = Raise (if Nat.eqb (length z) (length l) then TypeError else RuntimeError)) /\
  (forall z w, length z <> length w -> quantize (Ints z) (Some (Ints w)) = Raise RuntimeError).
Proof.
  intros l o. split; [reflexivity|]. split; [|split; [|split]].
  - intro E. unfold quantize, subtract. destruct o; cbn [count] in E; rewrite E, Nat.eqb_refl; reflexivity.
  - intro E. unfold quantize, subtract. destruct o; cbn [count] in E; apply not_eq_sym, Nat.eqb_neq in E; rewrite E; reflexivity.
  - intro z. unfold quantize, subtract. destruct (_ =? _)%nat; reflexivity.
  - intros z w E. unfold quantize, subtract. apply Nat.eqb_neq in E. rewrite E. reflexivity.
Qed.
Theorem ce_quantize_ints : forall z o, quantize (Ints z) None = Ok z /\
  (length o = length z -> exists r, quantize (Ints z) (Some (Ints o)) = Ok r /\ length r = length z /\
     forall i, (i < length z)%nat -> nth i r 0 = nth i z 0 - nth i o 0).
Proof.
  intros z o. split; [reflexivity|]. intro L. unfold quantize, subtract. rewrite L, Nat.eqb_refl. cbn [bind round_data int_tensor].
  eexists. split; [reflexivity|]. split; [rewrite map_length, combine_length; lia|].
  intros i I. change 0 with (fst (0, 0) - snd (0, 0)) at 1.
  rewrite (map_nth (fun p => fst p - snd p)). rewrite combine_nth by lia. reflexivity.
Qed.
Print Assumptions ce_quantize_refuted.
Print Assumptions ce_quantize_ints.

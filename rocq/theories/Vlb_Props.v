(** C84: the distributed evaluation of the variational bound of a diffusion model. *)
From Coq Require Import List Arith Lia Bool Reals Lra Permutation.
From Verif Require Import Base Vlb_Model.
Import ListNotations.
Open Scope nat_scope.

(** * Specification *)
(** The average of a quantity over a list of samples. *)
Definition average {A} (f : A -> R) (l : list A) : R := (fold_right Rplus 0%R (map f l) / INR (length l))%R.
(** The bits per dimension of one sample: all its terms and the prior's. *)
Definition bits {A} (T : nat) (vb : A -> nat -> R) (prior : A -> R) (a : A) : R :=
  (fold_right Rplus 0%R (map (vb a) (seq 0 T)) + prior a)%R.
(** The samples that W processes saw in their first K rounds. *)
Definition seen {A} (W : nat) (next : nat -> nat -> option (list A)) (K : nat) : list A :=
  flat_map (fun k => flat_map (fun r => match next r k with Some b => b | None => [] end) (seq 0 W)) (seq 0 K).
(** Rounds needed for N samples. *)
Definition rounds (N B W : nat) : nat := (N + B * W - 1) / (B * W).
(** Every process always gets a batch of B samples. *)
Definition steady {A} (W B : nat) (next : nat -> nat -> option (list A)) : Prop :=
  forall r k, r < W -> exists b, next r k = Some b /\ length b = B.

(** * Sums *)
Lemma total_fold : forall l, total l = fold_right Rplus 0%R l.
Proof. induction l; cbn; congruence. Qed.
Lemma total_app : forall a b, total (a ++ b) = (total a + total b)%R.
Proof. induction a; intros; cbn; [lra|]. rewrite IHa. lra. Qed.
Lemma total_rev : forall l, total (rev l) = total l.
Proof. induction l; cbn; [reflexivity|]. rewrite total_app, IHl. cbn. lra. Qed.
Lemma total_scal : forall {B} (f : B -> R) c l, total (map (fun x => f x / c)%R l) = (total (map f l) / c)%R.
Proof. induction l; cbn; [unfold Rdiv; lra|]. rewrite IHl. unfold Rdiv. lra. Qed.
Lemma total_ext : forall {B} (f g : B -> R) l, (forall x, In x l -> f x = g x) -> total (map f l) = total (map g l).
Proof. intros. f_equal. now apply map_ext_in. Qed.
Lemma total_flat : forall {B C} (g : B -> list C) (f : C -> R) l, total (map f (flat_map g l)) = total (map (fun b => total (map f (g b))) l).
Proof. induction l; cbn; [reflexivity|]. rewrite map_app, total_app, IHl. reflexivity. Qed.
Lemma total_const : forall {B} c (l : list B), total (map (fun _ => c) l) = (INR (length l) * c)%R.
Proof. induction l; cbn [map total length]; [cbn; lra|]. rewrite IHl, S_INR. lra. Qed.
Lemma INR_pos : forall n, 0 < n -> (0 < INR n)%R. Proof. intros. apply lt_0_INR. lia. Qed.

Section Run.
Context {A : Type}.
Variables (T : nat) (vb mse xstart : A -> nat -> R) (prior : A -> R).
Variables (W B N : nat) (next : nat -> nat -> option (list A)).
Notation bt := (batch_terms T vb mse xstart prior).
Notation red := (reduced_bpd T vb mse xstart prior).
Notation tm := (term vb mse xstart).

Definition row (k : key) (a : A) : list R := map (tm k a) (seq 0 T) ++ (if is_vb k then [prior a] else []).

Lemma rev_map_seq : forall (f : nat -> R), rev (map f (rev (seq 0 T))) = map f (seq 0 T).
Proof. intros. rewrite <- map_rev, rev_involutive. reflexivity. Qed.
Lemma bt_rows : forall b k, map (@rev R) (bt b k) = map (row k) b.
Proof.
  intros b k. unfold batch_terms, row. destruct k; cbn [is_vb].
  - cbn [calc_bpd_loop prior_bpd columns]. induction b; cbn; [reflexivity|]. rewrite rev_map_seq. f_equal. exact IHb.
  - cbn [calc_bpd_loop columns]. rewrite map_map. apply map_ext. intros. now rewrite rev_map_seq, app_nil_r.
  - cbn [calc_bpd_loop columns]. rewrite map_map. apply map_ext. intros. now rewrite rev_map_seq, app_nil_r.
Qed.
Lemma bt_length : forall b k, length (bt b k) = length b.
Proof. intros. rewrite <- (map_length (@rev R)), bt_rows, map_length. reflexivity. Qed.
Lemma tb_bits : forall b, total_bpd (calc_bpd_loop T vb mse xstart prior b) = map (bits T vb prior) b.
Proof.
  unfold calc_bpd_loop. cbn [total_bpd term]. induction b; cbn [map combine fst snd]; [reflexivity|]. f_equal; [|exact IHb]. unfold bits.
  now rewrite map_rev, total_rev, total_fold.
Qed.

Definition stepf (bs : list (list A)) (p : proc) : proc :=
  let bp := bpds p ++ [red bs] in
  let nc := num_complete p + B * W in
  mkP nc bp (fun k => terms p k ++ match k with Vb => map (fun b => bt b Vb) bs | Mse => map (fun b => bt b Mse) bs | Xstart => map (fun b => bt b Xstart) bs end) (logged p ++ [(mean bp, nc)]).
Definition even (bs : list (list A)) : Prop := length bs = W /\ Forall (fun b => length b = B) bs.

Lemma gather_ok : forall bs b k, even bs -> length b = B -> all_gather (bt b k) (map (fun b' => bt b' k) bs) = Ok (map (fun b' => bt b' k) bs).
Proof.
  intros bs b k [_ F] L. unfold all_gather.
  replace (forallb _ _) with true; [reflexivity|]. symmetry. apply forallb_forall. intros t I.
  apply in_map_iff in I. destruct I as [b' [<- I]]. rewrite Forall_forall in F. apply Nat.eqb_eq. rewrite !bt_length, L. apply F, I.
Qed.
Lemma pass_ok : forall bs p b, even bs -> length b = B -> pass T vb mse xstart prior bs p b = Ok (stepf bs p).
Proof.
  intros bs p b E L. unfold pass, keys. cbn [mapM]. rewrite !gather_ok by assumption. cbn [bind nth].
  destruct E as [E _]. unfold stepf. rewrite E, L. reflexivity.
Qed.
Lemma passes_ok : forall bs p l, even bs -> Forall (fun b => length b = B) l ->
  mapM (fun pb : proc * list A => pass T vb mse xstart prior bs (fst pb) (snd pb)) (combine (repeat p (length l)) l) = Ok (repeat (stepf bs p) (length l)).
Proof.
  induction l; intros E F; cbn; [reflexivity|]. inversion F; subst. rewrite (pass_ok bs p a E) by assumption. cbn [bind]. rewrite IHl by assumption. reflexivity.
Qed.

Definition batch_at (k : nat) : list (list A) := map (fun r => match next r k with Some b => b | None => [] end) (seq 0 W).
Lemma fetch_ok : steady W B next -> forall k rs, (forall r, In r rs -> r < W) -> fetch next k rs = Ok (map (fun r => match next r k with Some b => b | None => [] end) rs).
Proof.
  intros S k. induction rs; intros I; cbn; [reflexivity|]. destruct (S a k) as [b [-> _]]; [apply I; now left|]. rewrite IHrs by (intros; apply I; now right). reflexivity.
Qed.
Lemma batch_even : steady W B next -> forall k, even (batch_at k).
Proof.
  intros S k. split; [unfold batch_at; now rewrite map_length, seq_length|]. apply Forall_forall. intros b I. apply in_map_iff in I.
  destruct I as [r [<- I]]. apply in_seq in I. destruct (S r k) as [b [-> L]]; [lia|exact L].
Qed.
Fixpoint st (k : nat) : proc := match k with 0 => start | S k' => stepf (batch_at k') (st k') end.
Lemma st_nc : forall k, num_complete (st k) = k * (B * W).
Proof. induction k; cbn [st]; [reflexivity|]. cbn [stepf num_complete]. rewrite IHk. lia. Qed.
Lemma st_bpds : forall k, bpds (st k) = map (fun i => red (batch_at i)) (seq 0 k).
Proof. induction k; [reflexivity|]. cbn [st stepf bpds]. rewrite IHk, seq_S, map_app. reflexivity. Qed.
Lemma st_logged : forall k, logged (st k) = map (fun i => (mean (map (fun i => red (batch_at i)) (seq 0 (S i))), S i * (B * W))) (seq 0 k).
Proof.
  induction k; [reflexivity|]. rewrite seq_S, map_app. cbn [st stepf logged]. rewrite IHk. f_equal. cbn [map Nat.add]. f_equal.
  rewrite st_bpds, st_nc, (seq_S k 0), map_app. cbn [map Nat.add]. f_equal. lia.
Qed.
Lemma st_terms : forall k key, terms (st k) key = flat_map (fun i => map (fun b => bt b key) (batch_at i)) (seq 0 k).
Proof.
  induction k; intros key; [reflexivity|]. rewrite seq_S, flat_map_app. cbn [st stepf terms]. rewrite IHk. f_equal. cbn [flat_map Nat.add]. rewrite app_nil_r. destruct key; reflexivity.
Qed.

Lemma all_repeat : forall {C} (f : C -> bool) x n, 0 < n -> forallb f (repeat x n) = f x.
Proof. intros C f x n P. induction n; [lia|]. cbn. destruct n; [cbn; apply andb_true_r|]. rewrite IHn by lia. now destruct (f x). Qed.

Lemma rounds_spec : 0 < B -> 0 < W -> 0 < N -> let K := rounds N B W in 0 < K /\ N <= K * (B * W) < N + B * W.
Proof.
  intros HB HW HN. cbv zeta. unfold rounds. assert (0 < B * W) by nia.
  pose proof (Nat.div_mod (N + B * W - 1) (B * W) ltac:(lia)). pose proof (Nat.mod_upper_bound (N + B * W - 1) (B * W) ltac:(lia)).
  set (q := (N + B * W - 1) / (B * W)) in *. split; [|nia]. destruct q; [nia|lia].
Qed.

Lemma loop_ok : steady W B next -> 0 < B -> 0 < W -> 0 < N -> forall d k fuel, k + d = rounds N B W -> d < fuel ->
  loop T vb mse xstart prior W next N fuel k (repeat (st k) W) = Ok (repeat (st (rounds N B W)) W).
Proof.
  intros S HB HW HN. destruct (rounds_spec HB HW HN) as [K0 K1].
  induction d; intros k fuel E F; (destruct fuel; [lia|]); cbn [loop].
  - rewrite all_repeat by assumption. rewrite st_nc. replace k with (rounds N B W) by lia. rewrite (proj2 (Nat.leb_le _ _)) by lia. reflexivity.
  - assert (Q : k * (B * W) < N) by nia.
    rewrite !all_repeat by assumption. rewrite st_nc. rewrite (proj2 (Nat.leb_gt _ _)) by lia. rewrite (proj2 (Nat.ltb_lt _ _)) by lia.
    rewrite (fetch_ok S k (seq 0 W)) by (intros r I; apply in_seq in I; lia). cbn [bind].
    change (map _ (seq 0 W)) with (batch_at k). pose proof (batch_even S k) as E'. destruct E' as [E1 E2].
    pose proof (passes_ok (batch_at k) (st k) (batch_at k) (conj E1 E2) E2) as P. rewrite E1 in P. rewrite P. cbn [bind].
    change (stepf (batch_at k) (st k)) with (st (1 + k)). apply IHd; lia.
Qed.

Lemma seen_flat : forall K, seen W next K = flat_map (fun i => concat (batch_at i)) (seq 0 K).
Proof. intros. unfold seen, batch_at. apply flat_map_ext. intros. apply flat_map_concat_map. Qed.
Lemma even_concat : forall bs, even bs -> length (concat bs) = B * W.
Proof. intros bs [<- F]. induction bs; cbn; [lia|]. inversion F; subst. rewrite app_length, IHbs by assumption. lia. Qed.
Lemma seen_length : steady W B next -> forall K, length (seen W next K) = K * (B * W).
Proof.
  intros S K. rewrite seen_flat. induction K; [reflexivity|]. rewrite seq_S, flat_map_app, app_length, IHK. cbn [flat_map Nat.add]. rewrite app_nil_r, even_concat by now apply batch_even. lia.
Qed.
Lemma red_even : forall bs, even bs -> 0 < B -> 0 < W -> red bs = (total (map (bits T vb prior) (concat bs)) / INR (B * W))%R.
Proof.
  intros bs [E F] HB HW. unfold reduced_bpd. rewrite (total_ext _ (fun b => total (map (bits T vb prior) b) / INR (B * W))%R).
  2:{ intros b I. rewrite Forall_forall in F. unfold mean. rewrite tb_bits, map_length, (F b I), E, mult_INR. pose proof (INR_pos B HB). pose proof (INR_pos W HW). field. lra. }
  rewrite (total_scal (fun b => total (map (bits T vb prior) b))). f_equal. clear E F. induction bs; cbn; [reflexivity|]. now rewrite map_app, total_app, IHbs.
Qed.
Lemma mean_rounds : steady W B next -> 0 < B -> 0 < W -> forall K, 0 < K -> mean (map (fun i => red (batch_at i)) (seq 0 K)) = average (bits T vb prior) (seen W next K).
Proof.
  intros S HB HW K HK. unfold mean, average. change (fold_right Rplus 0%R) with total. rewrite (seen_length S), map_length, seq_length.
  rewrite (total_ext _ (fun i => total (map (bits T vb prior) (concat (batch_at i))) / INR (B * W))%R) by (intros; apply red_even; [now apply batch_even|assumption|assumption]).
  rewrite (total_scal (fun i => total (map (bits T vb prior) (concat (batch_at i))))), seen_flat, total_flat, (mult_INR K (B * W)).
  pose proof (INR_pos (B * W) ltac:(nia)). pose proof (INR_pos K HK). field. lra.
Qed.

Lemma rows_seen : forall K k, map (@rev R) (concat (terms (st K) k)) = map (row k) (seen W next K).
Proof.
  intros. rewrite st_terms, seen_flat. generalize (seq 0 K). intros l. induction l; cbn [flat_map map concat]; [reflexivity|].
  rewrite concat_app, !map_app. f_equal; [|exact IHl]. generalize (batch_at a). intros bs. clear. induction bs; cbn; [reflexivity|]. now rewrite !map_app, IHbs, bt_rows.
Qed.
Lemma row_length : forall k a, length (row k a) = T + (if is_vb k then 1 else 0).
Proof. intros. unfold row. rewrite app_length, map_length, seq_length. now destruct k. Qed.
Lemma report_ok : steady W B next -> 0 < W -> forall K k, 0 < K -> report T (st K) k = Ok (map (row k) (seen W next K)).
Proof.
  intros S HW K k HK. unfold report. pose proof (rows_seen K k) as RS. destruct (terms (st K) k) eqn:E.
  - exfalso. rewrite st_terms in E. destruct K; [lia|]. cbn in E. apply app_eq_nil in E. destruct E as [E _]. apply map_eq_nil in E.
    destruct (batch_even S 0) as [L _]. rewrite E in L. cbn in L. lia.
  - rewrite RS, map_length, (seen_length S), st_nc, Nat.eqb_refl. replace (forallb _ _) with true; [reflexivity|]. symmetry. apply forallb_forall.
    intros r I. apply in_map_iff in I. destruct I as [a [<- _]]. rewrite row_length. apply Nat.eqb_refl.
Qed.

(** With batches of one size everywhere, the evaluation ends after the least number of rounds that
    covers the requested samples.  All processes log the same: after each round the number of
    samples seen so far, and the average bits per dimension over exactly those samples.  Process 0
    reports, for each quantity, one row per sample with the terms in order of the timestep (and the
    prior last). *)
Theorem C84_evaluation_is_exact : steady W B next -> 0 < B -> 0 < W -> 0 < N -> forall fuel, rounds N B W < fuel ->
  exists ps rows,
    main T vb mse xstart prior W next N fuel = Ok (ps, map (fun r => (r, savez r)) rows) /\
    length ps = W /\
    (forall p, In p ps -> num_complete p = length (seen W next (rounds N B W)) /\
       logged p = map (fun i => (average (bits T vb prior) (seen W next (S i)), length (seen W next (S i)))) (seq 0 (rounds N B W))) /\
    rows = [map (fun a => map (vb a) (seq 0 T) ++ [prior a]) (seen W next (rounds N B W));
            map (fun a => map (mse a) (seq 0 T)) (seen W next (rounds N B W));
            map (fun a => map (xstart a) (seq 0 T)) (seen W next (rounds N B W))].
Proof.
  intros S HB HW HN fuel HF. destruct (rounds_spec HB HW HN) as [K0 K1]. set (K := rounds N B W) in *.
  exists (repeat (st K) W), (map (fun k => map (row k) (seen W next K)) keys). split; [|split; [apply repeat_length|split]].
  - unfold main. change start with (st 0). rewrite (loop_ok S HB HW HN K 0) by (fold K; lia). fold K. cbn [bind].
    destruct W as [|w] eqn:EW; [lia|]. cbn [repeat]. rewrite <- EW in *. unfold keys. cbn [mapM]. rewrite !(report_ok S HW K) by assumption. reflexivity.
  - intros p I. apply repeat_spec in I. subst p. rewrite st_nc, (seen_length S), st_logged. split; [reflexivity|]. apply map_ext_in. intros i I.
    rewrite (seen_length S), (mean_rounds S HB HW) by lia. reflexivity.
  - unfold keys, row. cbn [map is_vb term]. do 2 f_equal; [|f_equal]; apply map_ext; intros; apply app_nil_r.
Qed.
End Run.

(** The warning of the set-up says that samples are dropped when their number is not a multiple of
    the effective batch size.  The opposite happens: the evaluation never covers fewer samples than
    requested, and whenever the warning is shown it covers more, by less than one round. *)
Theorem C84_dropping_warning_refuted : forall {A} W B N (next : nat -> nat -> option (list A)), steady W B next -> 0 < B -> 0 < W -> 0 < N ->
  let n := length (seen W next (rounds N B W)) in
  N <= n < N + B * W /\ (warns_dropping N B W = true <-> N < n).
Proof.
  intros A W B N next S HB HW HN. cbv zeta. rewrite (seen_length W B next S). destruct (rounds_spec W B N HB HW HN) as [K0 K1]. split; [exact K1|].
  unfold warns_dropping. rewrite negb_true_iff, Nat.eqb_neq. set (e := B * W) in *. assert (0 < e) by (unfold e; nia).
  pose proof (Nat.div_mod N e ltac:(lia)). pose proof (Nat.mod_upper_bound N e ltac:(lia)). set (K := rounds N B W) in *. split; intros Q.
  - destruct (Nat.eq_dec N (K * e)) as [Z|Z]; [|lia]. exfalso. apply Q. rewrite Z. now apply Nat.mod_mul; lia.
  - intros Z. rewrite Z, Nat.add_0_r in H0. set (q := N / e) in *. assert (K < q + 1) by nia. assert (K * e <= q * e) by (apply Nat.mul_le_mono_r; lia). lia.
Qed.

(** * Statistics saved per timestep *)
Lemma min_le : forall l d x, In x l -> (fold_right Rmin d l <= x)%R.
Proof.
  induction l; intros d x I; [easy|]. cbn. destruct I as [->|I]; [apply Rmin_l|].
  eapply Rle_trans; [apply Rmin_r|now apply IHl].
Qed.
Lemma max_le : forall l d x, In x l -> (x <= fold_right Rmax d l)%R.
Proof.
  induction l; intros d x I; [easy|]. cbn. destruct I as [->|I]; [apply Rmax_l|].
  eapply Rle_trans; [now apply IHl|apply Rmax_r].
Qed.
Lemma min_in : forall l d, In (fold_right Rmin d l) (d :: l).
Proof.
  induction l; intros d; cbn [fold_right]; [now left|]. unfold Rmin at 1. destruct (Rle_dec _ _); [right; now left|]. destruct (IHl d) as [E|I]; [left; exact E|right; now right].
Qed.
Lemma max_in : forall l d, In (fold_right Rmax d l) (d :: l).
Proof.
  induction l; intros d; cbn [fold_right]; [now left|]. unfold Rmax at 1. destruct (Rle_dec _ _); [|right; now left]. destruct (IHl d) as [E|I]; [left; exact E|right; now right].
Qed.
Lemma minimum_spec : forall l, l <> [] -> In (minimum l) l /\ forall x, In x l -> (minimum l <= x)%R.
Proof.
  intros [|a l] H; [easy|]. split; [|intros; now apply min_le]. unfold minimum. cbn [hd].
  destruct (min_in (a :: l) a) as [E|I]; [left; exact E|exact I].
Qed.
Lemma maximum_spec : forall l, l <> [] -> In (maximum l) l /\ forall x, In x l -> (x <= maximum l)%R.
Proof.
  intros [|a l] H; [easy|]. split; [|intros; now apply max_le]. unfold maximum. cbn [hd].
  destruct (max_in (a :: l) a) as [E|I]; [left; exact E|exact I].
Qed.
Lemma per_column_nth : forall f rows n t, rows <> [] -> Forall (fun r => length r = n) rows -> t < n -> nth t (per_column f rows) 0%R = f (column rows t).
Proof.
  intros f rows n t NE F L. unfold per_column. destruct rows as [|r0 rows]; [easy|]. inversion F; subst. cbn [hd].
  rewrite (nth_indep _ 0%R (f (column (r0 :: rows) 0))) by (rewrite map_length, seq_length; exact L).
  rewrite (map_nth (fun j => f (column (r0 :: rows) j)) (seq 0 (length r0)) 0 t), seq_nth by exact L. reflexivity.
Qed.
Lemma per_column_length : forall f rows n, rows <> [] -> Forall (fun r => length r = n) rows -> length (per_column f rows) = n.
Proof. intros f [|r rows] n NE F; [easy|]. inversion F; subst. unfold per_column. now rewrite map_length, seq_length. Qed.
Lemma mean_column : forall rows t, mean (column rows t) = average (fun r => nth t r 0%R) rows.
Proof. intros. unfold mean, average, column. now rewrite map_length, total_fold. Qed.

(** Each saved array has one entry per column of a non-empty rectangular report; the entries are the
    average, the root of the average squared deviation from it, and the smallest and largest value
    of the column, both attained; they are in order. *)
Theorem C84_saved_statistics : forall rows n, rows <> [] -> Forall (fun r => length r = n) rows ->
  let s := savez rows in
  length (s_mean s) = n /\ length (s_stdd s) = n /\ length (s_min s) = n /\ length (s_max s) = n /\
  forall t, t < n ->
    let v := fun r : list R => nth t r 0%R in
    nth t (s_mean s) 0%R = average v rows /\
    nth t (s_stdd s) 0%R = sqrt (average (fun r => (v r - average v rows) ^ 2)%R rows) /\
    (exists r, In r rows /\ nth t (s_min s) 0%R = v r) /\ (exists r, In r rows /\ nth t (s_max s) 0%R = v r) /\
    (forall r, In r rows -> nth t (s_min s) 0 <= v r <= nth t (s_max s) 0)%R /\
    (nth t (s_min s) 0 <= nth t (s_mean s) 0 <= nth t (s_max s) 0)%R.
Proof.
  intros rows n NE F. cbv zeta. unfold savez. cbn [s_mean s_stdd s_min s_max]. rewrite !(per_column_length _ rows n NE F). do 4 (split; [reflexivity|]).
  intros t L. rewrite !(per_column_nth _ rows n t NE F L). rewrite mean_column.
  assert (CN : column rows t <> []) by (unfold column; intro E; apply map_eq_nil in E; easy).
  destruct (minimum_spec _ CN) as [m1 m2]. destruct (maximum_spec _ CN) as [M1 M2].
  assert (BD : forall r, In r rows -> (minimum (column rows t) <= nth t r 0 <= maximum (column rows t))%R).
  { intros r I. split; [apply m2|apply M2]; now apply (in_map (fun r => nth t r 0%R)). }
  split; [reflexivity|]. split.
  { unfold std. rewrite mean_column. f_equal. unfold mean, column. rewrite map_map, map_length. unfold average. now rewrite total_fold. }
  split. { unfold column in m1. apply in_map_iff in m1. destruct m1 as [r [E I]]. exists r. now split. }
  split. { unfold column in M1. apply in_map_iff in M1. destruct M1 as [r [E I]]. exists r. now split. }
  split; [exact BD|]. unfold average.
  assert (LP : (0 < INR (length rows))%R) by (apply INR_pos; destruct rows; [easy|cbn; lia]).
  assert (S : forall l : list (list R), (forall r, In r l -> (minimum (column rows t) <= nth t r 0 <= maximum (column rows t))%R) ->
    (INR (length l) * minimum (column rows t) <= fold_right Rplus 0 (map (fun r => nth t r 0) l) <= INR (length l) * maximum (column rows t))%R).
  { induction l as [|r l IH]; intros H; cbn [map fold_right length]; [cbn; lra|]. rewrite S_INR. specialize (IH (fun r I => H r (or_intror I))). specialize (H r (or_introl eq_refl)). lra. }
  specialize (S rows BD). split; apply (Rmult_le_reg_l (INR (length rows))); try exact LP; unfold Rdiv; rewrite ?(Rmult_comm (fold_right _ _ _)), <- ?Rmult_assoc, Rinv_r, Rmult_1_l by lra; lra.
Qed.

(** The saved per-timestep averages of the bound add up to the reported bits per dimension. *)
Theorem C84_bound_is_sum_of_terms : forall {A} T (vb : A -> nat -> R) (prior : A -> R) samples, samples <> [] ->
  let saved := s_mean (savez (map (fun a => map (vb a) (seq 0 T) ++ [prior a]) samples)) in
  length saved = S T /\ (forall t, t < T -> nth t saved 0%R = average (fun a => vb a t) samples) /\ nth T saved 0%R = average prior samples /\
  fold_right Rplus 0%R saved = average (bits T vb prior) samples.
Proof.
  intros A T vb prior samples NE. cbv zeta. set (rows := map _ samples).
  assert (RN : rows <> []) by (unfold rows; intro E; apply map_eq_nil in E; easy).
  assert (RF : Forall (fun r => length r = S T) rows).
  { apply Forall_forall. intros r I. apply in_map_iff in I. destruct I as [a [<- _]]. rewrite app_length, map_length, seq_length. cbn. lia. }
  destruct (C84_saved_statistics rows (S T) RN RF) as [L [_ [_ [_ H]]]]. cbv zeta in H.
  assert (V : forall t, t < T -> nth t (s_mean (savez rows)) 0%R = average (fun a => vb a t) samples).
  { intros t Lt. destruct (H t ltac:(lia)) as [-> _]. unfold average, rows. rewrite map_map, map_length. f_equal. f_equal. apply map_ext. intros a.
    rewrite app_nth1 by now rewrite map_length, seq_length. rewrite (nth_indep _ 0%R (vb a 0)) by now rewrite map_length, seq_length.
    now rewrite map_nth, seq_nth. }
  assert (P : nth T (s_mean (savez rows)) 0%R = average prior samples).
  { destruct (H T ltac:(lia)) as [-> _]. unfold average, rows. rewrite map_map, map_length. f_equal. f_equal. apply map_ext. intros a.
    rewrite app_nth2 by (rewrite map_length, seq_length; lia). rewrite map_length, seq_length, Nat.sub_diag. reflexivity. }
  split; [exact L|]. split; [exact V|]. split; [exact P|].
  assert (E : s_mean (savez rows) = map (fun t => average (fun a => vb a t) samples) (seq 0 T) ++ [average prior samples]).
  { apply (nth_ext _ _ 0%R 0%R); [rewrite app_length, map_length, seq_length, L; cbn; lia|]. intros t Lt. rewrite L in Lt.
    destruct (Nat.eq_dec t T) as [->|Q].
    - rewrite P, app_nth2 by (rewrite map_length, seq_length; lia). now rewrite map_length, seq_length, Nat.sub_diag.
    - rewrite V by lia. rewrite app_nth1 by (rewrite map_length, seq_length; lia).
      rewrite (nth_indep _ 0%R (average (fun a => vb a 0) samples)) by (rewrite map_length, seq_length; lia).
      rewrite (map_nth (fun t => average (fun a => vb a t) samples)), seq_nth by lia. reflexivity. }
  rewrite E, fold_right_app. cbn [fold_right]. unfold average at 1 2. unfold average, bits. change (fold_right Rplus 0%R) with total.
  assert (G : forall c l, fold_right Rplus c l = (total l + c)%R) by (induction l; cbn; [lra|rewrite IHl; lra]). rewrite G.
  unfold average. change (fold_right Rplus 0%R) with total. rewrite (total_scal (fun t => total (map (fun a => vb a t) samples))), Rplus_0_r.
  replace (total (map (fun a : A => total (map (vb a) (seq 0 T)) + prior a) samples))%R with (total (map (fun t => total (map (fun a => vb a t) samples)) (seq 0 T)) + total (map prior samples))%R; [unfold Rdiv; lra|].
  generalize (seq 0 T). intros ts. clear. induction samples as [|a l IH]; cbn [map total].
  - rewrite (total_const 0%R ts). lra.
  - rewrite <- IH. assert (Q : total (map (fun t => vb a t + total (map (fun a0 => vb a0 t) l))%R ts) = (total (map (vb a) ts) + total (map (fun t => total (map (fun a0 => vb a0 t) l)) ts))%R).
    { clear. induction ts; cbn; [lra|]. rewrite IHts. lra. } rewrite Q. lra.
Qed.

(** * The data loader *)
Lemma flat_map_swap : forall {C D E} (f : C -> D -> list E) cs ds,
  Permutation (flat_map (fun c => flat_map (f c) ds) cs) (flat_map (fun d => flat_map (fun c => f c d) cs) ds).
Proof.
  induction cs; intros ds; cbn [flat_map].
  - induction ds; cbn; [constructor|exact IHds].
  - etransitivity; [apply Permutation_app_head, IHcs|]. clear IHcs. induction ds as [|d ds IH]; cbn [flat_map]; [constructor|].
    rewrite <- !app_assoc. apply Permutation_app_head. rewrite !app_assoc. etransitivity; [apply Permutation_app_tail, Permutation_app_comm|].
    rewrite <- !app_assoc. apply Permutation_app_head, IH.
Qed.

Definition pick {A} (W r s : nat) (l : list A) : list A := map snd (filter (fun p => fst p mod W =? r) (combine (seq s (length l)) l)).
Lemma pick_cons : forall {A} W r s (x : A) l, pick W r s (x :: l) = (if s mod W =? r then [x] else []) ++ pick W r (S s) l.
Proof. intros. unfold pick. cbn. destruct (s mod W =? r); reflexivity. Qed.
Lemma pick_app : forall {A} W r (l2 l1 : list A) s, pick W r s (l1 ++ l2) = pick W r s l1 ++ pick W r (s + length l1) l2.
Proof.
  induction l1; intros s; cbn [app length].
  - now rewrite Nat.add_0_r.
  - rewrite !pick_cons, IHl1, <- app_assoc. do 3 f_equal. lia.
Qed.
(** the position at which the first index congruent to r appears *)
Lemma pick_skip : forall {A} W (l : list A) r s, 0 < W -> s <= r -> r < W -> pick W r s l = pick W r r (skipn (r - s) l).
Proof.
  intros A W l r s HW. remember (r - s) as d. revert s l Heqd. induction d; intros s l E L1 L2.
  - replace s with r by lia. reflexivity.
  - destruct l; [reflexivity|]. rewrite pick_cons. rewrite Nat.mod_small by lia. rewrite (proj2 (Nat.eqb_neq s r)) by lia. cbn [app skipn]. apply IHd; lia.
Qed.
Lemma mod_shift : forall W r s, 0 < W -> r < W -> ((r + s) mod W =? r) = (s mod W =? 0).
Proof.
  intros W r s HW HR. rewrite <- Nat.add_mod_idemp_r by lia. pose proof (Nat.mod_upper_bound s W ltac:(lia)). set (m := s mod W) in *. clearbody m.
  destruct (Nat.eq_dec m 0) as [->|Q]; [rewrite Nat.add_0_r, Nat.mod_small by lia; now rewrite !Nat.eqb_refl|].
  rewrite (proj2 (Nat.eqb_neq m 0)) by lia. apply Nat.eqb_neq. destruct (Nat.lt_ge_cases (r + m) W) as [L|L].
  - rewrite Nat.mod_small; lia.
  - replace (r + m) with (r + m - W + 1 * W) by lia. rewrite Nat.mod_add, Nat.mod_small; lia.
Qed.
Lemma pick_zero : forall {A} W (l : list A) r s, 0 < W -> r < W -> pick W r (r + s) l = pick W 0 s l.
Proof.
  induction l; intros r s HW HR; [reflexivity|]. rewrite !pick_cons, mod_shift by assumption. rewrite <- (IHl r (S s)) by assumption. do 2 f_equal. lia.
Qed.
Lemma shard_pick : forall {A} (files : list A) W r, r < W -> shard files W r = pick W r 0 files.
Proof.
  intros A files W r L. unfold shard, stride. change (pick W 0 0 (skipn r files) = pick W r 0 files).
  rewrite (pick_skip W files r 0) by lia. rewrite Nat.sub_0_r. rewrite <- (pick_zero W _ r 0) by lia. now rewrite Nat.add_0_r.
Qed.
Lemma flat_map_app2 : forall {C D} (f g : C -> list D) l, Permutation (flat_map (fun c => f c ++ g c) l) (flat_map f l ++ flat_map g l).
Proof.
  induction l; cbn [flat_map]; [constructor|]. etransitivity; [apply Permutation_app_head, IHl|]. rewrite <- !app_assoc. apply Permutation_app_head.
  rewrite !app_assoc. apply Permutation_app_tail, Permutation_app_comm.
Qed.
Lemma one_of : forall {A} (x : A) j n a, a <= j < a + n -> flat_map (fun r => if j =? r then [x] else []) (seq a n) = [x].
Proof.
  induction n; intros a L; [lia|]. cbn [seq flat_map]. destruct (Nat.eqb_spec j a) as [->|Q].
  - cbn. f_equal. clear IHn L. generalize (S a) (Nat.lt_succ_diag_r a). intros b. revert b. induction n; intros b L; [reflexivity|]. cbn. rewrite (proj2 (Nat.eqb_neq a b)) by lia. cbn. apply IHn. lia.
  - cbn. apply IHn. lia.
Qed.
Lemma pick_perm : forall {A} W (l : list A) s, 0 < W -> Permutation (flat_map (fun r => pick W r s l) (seq 0 W)) l.
Proof.
  induction l; intros s HW.
  - assert (E : forall rs, flat_map (fun r => pick W r s (@nil A)) rs = []) by (induction rs; [reflexivity|exact IHrs]). now rewrite E.
  - rewrite (flat_map_ext _ (fun r => (if s mod W =? r then [a] else []) ++ pick W r (S s) l)) by (intros; apply pick_cons).
    etransitivity; [apply flat_map_app2|]. rewrite one_of by (pose proof (Nat.mod_upper_bound s W ltac:(lia)); lia). cbn. constructor. now apply IHl.
Qed.
Lemma flat_map_in_ext : forall {C D} (f g : C -> list D) l, (forall x, In x l -> f x = g x) -> flat_map f l = flat_map g l.
Proof. induction l; intros H; [reflexivity|]. cbn. rewrite H by now left. f_equal. apply IHl. intros. apply H. now right. Qed.
Lemma shards_perm : forall {A} (files : list A) W, 0 < W -> Permutation (flat_map (shard files W) (seq 0 W)) files.
Proof.
  intros A files W HW. rewrite (flat_map_in_ext _ (fun r => pick W r 0 files)) by (intros r I; apply in_seq in I; apply shard_pick; lia). now apply pick_perm.
Qed.
Lemma pick_in : forall {A} W r (l : list A) s d, d < length l -> (s + d) mod W = r -> 0 < length (pick W r s l).
Proof.
  induction l; intros s d L E; [cbn in L; lia|]. rewrite pick_cons, app_length. destruct d.
  - rewrite Nat.add_0_r in E. rewrite E, Nat.eqb_refl. cbn. lia.
  - cbn in L. specialize (IHl (S s) d ltac:(lia)). replace (S s + d) with (s + S d) in IHl by lia. specialize (IHl E). lia.
Qed.
Lemma pick_len : forall {A} W r, r < W -> forall q s (l : list A), W * q <= length l -> q <= length (pick W r s l).
Proof.
  intros A W r HR. induction q; intros s l L; [lia|]. rewrite <- (firstn_skipn W l), pick_app, app_length.
  assert (LF : length (firstn W l) = W) by (rewrite firstn_length; nia). rewrite LF.
  specialize (IHq (s + W) (skipn W l)). rewrite skipn_length in IHq. specialize (IHq ltac:(nia)).
  pose proof (Nat.mod_upper_bound s W ltac:(lia)) as U. 
  assert (P : 0 < length (pick W r s (firstn W l))); [|lia].
  destruct (Nat.le_gt_cases (s mod W) r) as [Q|Q].
  - apply (pick_in W r _ s (r - s mod W)); [lia|]. rewrite <- Nat.add_mod_idemp_l by lia. rewrite Nat.mod_small; lia.
  - apply (pick_in W r _ s (r + W - s mod W)); [lia|]. rewrite <- Nat.add_mod_idemp_l by lia. replace (s mod W + (r + W - s mod W)) with (r + 1 * W) by lia. rewrite Nat.mod_add, Nat.mod_small; lia.
Qed.

Lemma batch_full : forall {A} b (l : list A) i, i < length l / b -> length (firstn b (skipn (i * b) l)) = b.
Proof.
  intros A b l i L. rewrite firstn_length, skipn_length. destruct (Nat.eq_dec b 0) as [->|Q]; [lia|].
  pose proof (Nat.mul_div_le (length l) b Q). nia.
Qed.
Lemma full_length : forall {A} b (l : list A), length (full_batches b l) = length l / b.
Proof. intros. unfold full_batches. now rewrite map_length, seq_length. Qed.
Lemma full_nth : forall {A} b (l : list A) i, i < length l / b -> nth i (full_batches b l) [] = firstn b (skipn (i * b) l).
Proof.
  intros. unfold full_batches. rewrite (nth_indep _ [] (firstn b (skipn (0 * b) l))) by now rewrite map_length, seq_length.
  rewrite (map_nth (fun i => firstn b (skipn (i * b) l)) _ 0), seq_nth by assumption. reflexivity.
Qed.
Lemma load_some : forall {A} (files : list A) B W r k, 0 < B -> B <= length (shard files W r) ->
  let s := shard files W r in load_data files B W r k = Some (firstn B (skipn ((k mod (length s / B)) * B) s)) /\ length (firstn B (skipn ((k mod (length s / B)) * B) s)) = B.
Proof.
  intros A files B W r k HB L. cbv zeta. set (s := shard files W r) in *. assert (0 < length s / B) by (apply Nat.div_str_pos; lia).
  pose proof (Nat.mod_upper_bound k (length s / B) ltac:(lia)). unfold load_data. fold s. rewrite full_length.
  rewrite (proj2 (Nat.eqb_neq _ _)) by lia. rewrite full_nth by assumption. split; [reflexivity|]. now apply batch_full.
Qed.
Lemma firstn_mul : forall {A} B (l : list A) m, flat_map (fun k => firstn B (skipn (k * B) l)) (seq 0 m) = firstn (m * B) l.
Proof.
  intros A B l. induction m; [reflexivity|]. rewrite seq_S, flat_map_app, IHm. cbn [flat_map Nat.add]. rewrite app_nil_r.
  replace (S m * B) with (m * B + B) by lia. generalize (m * B). clear. intros n. revert l. induction n; intros l; [reflexivity|].
  destruct l; [cbn; now rewrite firstn_nil|]. cbn. f_equal. apply IHn.
Qed.

(** As long as the rounds fit into the data set, no image is evaluated twice: the images seen and
    some others are the data set.  When the effective batch size divides its size, one pass sees
    every image exactly once. *)
Theorem C84_images_once : forall {A} (files : list A) B W m, 0 < B -> 0 < W -> 0 < m -> m * (B * W) <= length files ->
  steady W B (load_data files B W) /\
  (exists rest, Permutation (seen W (load_data files B W) m ++ rest) files) /\
  (m * (B * W) = length files -> rounds (length files) B W = m /\ Permutation (seen W (load_data files B W) m) files).
Proof.
  intros A files B W m HB HW HM L.
  assert (SL : forall r, r < W -> m * B <= length (shard files W r)).
  { intros r HR. rewrite shard_pick by assumption. apply pick_len; [assumption|]. lia. }
  assert (ST : steady W B (load_data files B W)).
  { intros r k HR. destruct (load_some files B W r k HB) as [E1 E2]; [specialize (SL r HR); nia|]. eexists. split; [exact E1|exact E2]. }
  split; [exact ST|].
  assert (P1 : Permutation (seen W (load_data files B W) m) (flat_map (fun r => firstn (m * B) (shard files W r)) (seq 0 W))).
  { unfold seen. etransitivity; [apply flat_map_swap|]. rewrite (flat_map_in_ext _ (fun r => firstn (m * B) (shard files W r))); [reflexivity|].
    intros r I. apply in_seq in I. rewrite <- firstn_mul. apply flat_map_in_ext. intros k Ik. apply in_seq in Ik.
    specialize (SL r ltac:(lia)). destruct (load_some files B W r k HB) as [-> _]; [nia|]. do 2 f_equal. f_equal. apply Nat.mod_small.
    apply Nat.lt_le_trans with m; [lia|]. apply Nat.div_le_lower_bound; lia. }
  assert (P2 : Permutation (seen W (load_data files B W) m ++ flat_map (fun r => skipn (m * B) (shard files W r)) (seq 0 W)) files).
  { etransitivity; [apply Permutation_app_tail, P1|]. etransitivity; [symmetry; apply flat_map_app2|].
    rewrite (flat_map_ext _ (shard files W)) by (intros; apply firstn_skipn). now apply shards_perm. }
  split; [eexists; exact P2|]. intros E. split.
  - unfold rounds. rewrite <- E. replace (m * (B * W) + B * W - 1) with (B * W - 1 + m * (B * W)) by nia. rewrite Nat.div_add by nia. rewrite Nat.div_small by nia. reflexivity.
  - pose proof (Permutation_length P2) as PL. rewrite app_length, (seen_length W B _ ST), E in PL.
    destruct (flat_map (fun r => skipn (m * B) (shard files W r)) (seq 0 W)); [rewrite app_nil_r in P2; exact P2|cbn in PL; lia].
Qed.
(** Otherwise asking for as many samples as there are images evaluates some twice and others never. *)
Theorem C84_every_image_refuted : exists (files : list nat) B W, NoDup files /\ steady W B (load_data files B W) /\
  ~ In 9 (seen W (load_data files B W) (rounds (length files) B W)) /\ In 9 files /\ ~ NoDup (seen W (load_data files B W) (rounds (length files) B W)).
Proof.
  exists (seq 0 10), 3, 2. split; [apply seq_NoDup|]. split.
  { intros r k HR. destruct (load_some (seq 0 10) 3 2 r k ltac:(lia)) as [E1 E2]; [destruct r as [|[|r]]; [vm_compute; lia|vm_compute; lia|lia]|]. eexists. split; [exact E1|exact E2]. }
  set (sn := seen 2 _ _). vm_compute in sn. split; [intros H; cbn in H; lia|]. split; [apply in_seq; lia|].
  intros H. inversion H; subst. apply H2. cbn. lia.
Qed.

(** A data set with less than one round of images makes the evaluation hang. *)
Theorem C84_small_data_hangs : forall {A} T (vb mse xstart : A -> nat -> R) prior (files : list A) B W N, 0 < W -> 0 < N -> length files < B * W ->
  forall fuel, main T vb mse xstart prior W (load_data files B W) N fuel = Raise Diverges.
Proof.
  intros A T vb mse xstart prior files B W N HW HN L fuel.
  assert (X : exists r, In r (seq 0 W) /\ length (shard files W r) < B).
  { pose proof (Permutation_length (shards_perm files W HW)) as PL.
    assert (G : forall rs, (forall r, In r rs -> B <= length (shard files W r)) -> B * length rs <= length (flat_map (shard files W) rs)).
    { induction rs; intros H; cbn [flat_map length]; [lia|]. rewrite app_length. specialize (IHrs (fun r I => H r (or_intror I))). specialize (H a (or_introl eq_refl)). lia. }
    destruct (existsb (fun r => length (shard files W r) <? B) (seq 0 W)) eqn:E.
    - apply existsb_exists in E. destruct E as [r [I E]]. apply Nat.ltb_lt in E. now exists r.
    - exfalso. specialize (G (seq 0 W)). rewrite seq_length in G. rewrite PL in G. apply (Nat.lt_irrefl (B * W)). eapply Nat.le_lt_trans; [apply G|exact L].
      intros r I. destruct (Nat.le_gt_cases B (length (shard files W r))) as [Q|Q]; [exact Q|]. exfalso.
      assert (existsb (fun r => length (shard files W r) <? B) (seq 0 W) = true) by (apply existsb_exists; exists r; split; [exact I|now apply Nat.ltb_lt]). congruence. }
  destruct X as [r [I Q]].
  assert (FT : forall rs, In r rs -> fetch (load_data files B W) 0 rs = Raise Diverges).
  { induction rs; intros H; [easy|]. cbn [fetch]. destruct (load_data files B W a 0) eqn:E; [|reflexivity]. destruct H as [->|H].
    - unfold load_data in E. rewrite full_length in E. rewrite Nat.div_small in E by assumption. discriminate.
    - now rewrite IHrs. }
  unfold main. destruct fuel; [reflexivity|]. cbn [loop]. rewrite !all_repeat by assumption. cbn [start num_complete].
  rewrite (proj2 (Nat.leb_gt N 0)) by lia. rewrite (proj2 (Nat.ltb_lt 0 N)) by lia. now rewrite FT.
Qed.

(** Processes with batches of different sizes are refused in the first round, before anything is
    logged. *)
Theorem C84_uneven_batches_refused : forall {A} T (vb mse xstart : A -> nat -> R) prior W (next : nat -> nat -> option (list A)) N, 0 < N -> 0 < W ->
  (forall r, r < W -> next r 0 <> None) ->
  (exists r b b0, r < W /\ next r 0 = Some b /\ next 0 0 = Some b0 /\ length b <> length b0) ->
  forall fuel, 0 < fuel -> main T vb mse xstart prior W next N fuel = Raise RuntimeError.
Proof.
  intros A T vb mse xstart prior W next N HN HW TOT [r [b [b0 [HR [E [E0 NEQ]]]]]] fuel HF.
  assert (FT : forall rs, (forall x, In x rs -> x < W) -> fetch next 0 rs = Ok (map (fun r => match next r 0 with Some b => b | None => [] end) rs)).
  { induction rs; intros H; [reflexivity|]. cbn [fetch map]. destruct (next a 0) eqn:Q; [|exfalso; apply (TOT a); [apply H; now left|exact Q]]. rewrite IHrs by (intros; apply H; now right). reflexivity. }
  unfold main. destruct fuel; [lia|]. cbn [loop]. rewrite !all_repeat by assumption. cbn [start num_complete].
  rewrite (proj2 (Nat.leb_gt N 0)) by lia. rewrite (proj2 (Nat.ltb_lt 0 N)) by lia. rewrite FT by (intros x I; apply in_seq in I; lia). cbn [bind].
  set (bs := map _ (seq 0 W)).
  assert (IB : In b bs). { unfold bs. apply in_map_iff. exists r. rewrite E. split; [reflexivity|apply in_seq; lia]. }
  destruct W as [|w]; [lia|]. cbn [repeat]. assert (HB : exists q, bs = b0 :: q) by (unfold bs; cbn [seq map]; rewrite E0; eexists; reflexivity). destruct HB as [q HB].
  assert (PB : pass T vb mse xstart prior bs start b0 = Raise RuntimeError).
  { unfold pass, keys. cbn [mapM]. unfold all_gather at 1. replace (forallb _ _) with false; [reflexivity|]. symmetry.
    destruct (forallb _ _) eqn:FB; [|reflexivity]. exfalso. rewrite forallb_forall in FB.
    specialize (FB (batch_terms T vb mse xstart prior b Vb) (in_map (fun b' => batch_terms T vb mse xstart prior b' Vb) _ _ IB)). apply Nat.eqb_eq in FB. rewrite !bt_length in FB. exact (NEQ FB). }
  assert (CB : combine (start :: repeat start w) bs = (start, b0) :: combine (repeat start w) q) by now rewrite HB.
  rewrite CB. cbn [mapM fst snd]. rewrite PB. reflexivity.
Qed.

(** The batch size given to each of the W training processes makes up the effective one, or the
    configuration is refused. *)
Theorem C84_divide_by_n_proc : forall x W q, (divide_by_n_proc x W = Ok q <-> 0 < W /\ q * W = x).
Proof.
  intros x W q. unfold divide_by_n_proc. destruct (Nat.eqb_spec W 0) as [->|Z]; [split; [discriminate|lia]|].
  destruct (Nat.eqb_spec (x mod W) 0) as [M|M]; split.
  - intros [= <-]. split; [lia|]. pose proof (Nat.div_mod x W Z). lia.
  - intros [_ <-]. now rewrite Nat.div_mul.
  - discriminate.
  - intros [_ <-]. exfalso. apply M. now apply Nat.mod_mul.
Qed.

(** * The plot *)
Lemma combine_app : forall {C D} (a1 : list C) (b1 : list D) a2 b2, length a1 = length b1 -> combine (a1 ++ a2) (b1 ++ b2) = combine a1 b1 ++ combine a2 b2.
Proof. induction a1; intros [|y b1] a2 b2 L; try discriminate; [reflexivity|]. cbn. f_equal. apply IHa1. now injection L. Qed.
Lemma combine_rev : forall {C D} (a : list C) (b : list D), length a = length b -> combine (rev a) (rev b) = rev (combine a b).
Proof.
  induction a; intros [|y b] L; try discriminate; [reflexivity|]. cbn in *. injection L as L. rewrite combine_app by now rewrite !rev_length. cbn. now rewrite IHa.
Qed.
Lemma combine_maps : forall {C D E} (f : C -> D) (g : C -> E) l, combine (map f l) (map g l) = map (fun x => (f x, g x)) l.
Proof. induction l; cbn; congruence. Qed.

(** The plot shows, over the columns from left to right, the mean; a band from mean + deviation
    forwards to mean - deviation backwards; and a band from the maximum to the minimum. *)
Theorem C84_plot : forall rows n, rows <> [] -> Forall (fun r => length r = n) rows ->
  let s := savez rows in
  let at_ := fun (l : list R) t => nth t l 0%R in
  let xs := seq 0 n in
  plot_evolution rows =
    (map (fun t => (t, at_ (s_mean s) t)) xs,
     map (fun t => (t, (at_ (s_mean s) t + at_ (s_stdd s) t)%R)) xs ++ rev (map (fun t => (t, (at_ (s_mean s) t - at_ (s_stdd s) t)%R)) xs),
     map (fun t => (t, at_ (s_max s) t)) xs ++ rev (map (fun t => (t, at_ (s_min s) t)) xs)).
Proof.
  intros rows n NE F. cbv zeta.
  assert (PC : forall f, per_column f rows = map (fun t => nth t (per_column f rows) 0%R) (seq 0 n)).
  { intros f. apply (nth_ext _ _ 0%R 0%R); [rewrite map_length, seq_length; now apply per_column_length|]. intros t L. rewrite (per_column_length f rows n NE F) in L.
    rewrite (nth_indep (map _ _) 0%R (nth 0 (per_column f rows) 0%R)) by now rewrite map_length, seq_length.
    now rewrite (map_nth (fun t => nth t (per_column f rows) 0%R) _ 0), seq_nth by assumption. }
  unfold plot_evolution, append, savez. cbn [s_mean s_stdd s_min s_max]. rewrite (per_column_length _ rows n NE F).
  rewrite !combine_app by (rewrite ?map_length, ?combine_length, ?seq_length, ?(per_column_length _ rows n NE F); lia).
  rewrite !combine_rev by (rewrite ?map_length, ?combine_length, ?seq_length, ?(per_column_length _ rows n NE F); lia).
  assert (ID : forall g : nat -> R, combine (seq 0 n) (map g (seq 0 n)) = map (fun t => (t, g t)) (seq 0 n)) by (intros g; rewrite <- (map_id (seq 0 n)) at 1; apply combine_maps).
  assert (CM : forall f, combine (seq 0 n) (per_column f rows) = map (fun t => (t, nth t (per_column f rows) 0%R)) (seq 0 n)) by (intros f; rewrite (PC f) at 1; apply ID).
  assert (MS : combine (per_column mean rows) (per_column std rows) = map (fun t => (nth t (per_column mean rows) 0%R, nth t (per_column std rows) 0%R)) (seq 0 n)).
  { rewrite (PC mean) at 1. rewrite (PC std) at 1. apply combine_maps. }
  rewrite !CM, MS, !map_map, !ID. reflexivity.
Qed.

(** * Non-vacuity *)
(** Two processes, batches of one image, ten images of which four are asked for. *)
Example evaluates : steady 2 1 (load_data (seq 0 10) 1 2) /\ rounds 4 1 2 = 2 /\ seen 2 (load_data (seq 0 10) 1 2) 2 = [0; 1; 2; 3] /\
  warns_dropping 4 1 2 = false /\ warns_dropping 3 1 2 = true.
Proof.
  split; [|repeat split; reflexivity]. destruct (C84_images_once (seq 0 10) 1 2 5) as [H _]; [lia|lia|lia|cbn; lia|exact H].
Qed.

Print Assumptions C84_evaluation_is_exact.
Print Assumptions C84_saved_statistics.
Print Assumptions C84_bound_is_sum_of_terms.
Print Assumptions C84_images_once.
Print Assumptions C84_plot.

(** C76: the UVG test videos, loading of VCT checkpoints, and what a launch starts from. *)
From Coq Require Import String Ascii List Bool ZArith Lia Permutation Sorted Arith.
From Verif Require Import Base ClicImg_Model ClicImg_Props OpenImg_Model OpenImg_Props VctEval_Model.
Import ListNotations.
Open Scope string_scope.
Open Scope list_scope.
Open Scope nat_scope.

(** * UVG *)
Theorem C76_uvg_init : forall n, n <> Some 0%Z ->
  match uvg_init n with
  | Ok u => u_batch u = match n with Some k => k | None => 300%Z end /\ (u_batch u | 300)%Z /\ (u_total u * u_batch u = 3900)%Z
  | Raise e => e = AssertionError /\ exists k, n = Some k /\ ~ (k | 300)%Z
  end.
Proof.
  intros n N. unfold uvg_init. set (b := match n with Some k => k | None => 300%Z end).
  assert (b <> 0%Z) as B0. { unfold b. destruct n as [k|]; [|lia]. intros ->. contradiction. }
  destruct (Z.eqb_spec b 0); [contradiction|]. destruct (Z.eqb_spec (300 mod b) 0) as [E|E]; cbn [negb u_batch u_total].
  - split; [reflexivity|]. apply Z.mod_divide in E; [|assumption]. split; [exact E|]. destruct E as [q E].
    change (300 * 13)%Z with (13 * 300)%Z. rewrite E. rewrite Z.mul_assoc, Z.div_mul by assumption. lia.
  - split; [reflexivity|]. destruct n as [k|]; [|exfalso; apply E; reflexivity]. exists k. split; [reflexivity|].
    intros D. apply E. apply Z.mod_divide; assumption.
Qed.
Theorem C76_uvg_zero : uvg_init (Some 0%Z) = Raise ZeroDivisionError.
Proof. reflexivity. Qed.

(** The folders in the order of their names, each with its frames in the order of theirs. *)
Definition videos (t : tree) : list (list (string * string)) := map (fun c => map (pair c) (class_images t c)) (sort (map fst t)).
Definition good_tree (t : tree) := t <> [] /\ NoDup (map fst t) /\ forall c fs, In (c, fs) t -> exists f, In f fs /\ is_image f = true.

Lemma assoc_in : forall {A} (l : list (string * A)) k v, NoDup (map fst l) -> In (k, v) l -> assoc k l = Some v.
Proof.
  induction l as [|[k' v'] l IH]; intros k v N I; [destruct I|]. cbn in *. inversion N; subst. destruct I as [E|I].
  - injection E as -> ->. rewrite String.eqb_refl. reflexivity.
  - destruct (String.eqb_spec k k') as [->|]; [exfalso; apply H1; apply in_map_iff; exists (k', v); auto|]. apply IH; assumption.
Qed.
Lemma assoc_some : forall {A} (l : list (string * A)) k v, assoc k l = Some v -> In (k, v) l.
Proof. induction l as [|[k' v'] l IH]; cbn; intros k v E; [discriminate|]. destruct (String.eqb_spec k k') as [->|]; [injection E as ->; auto|right; auto]. Qed.
Lemma assoc_none : forall {A} (l : list (string * A)) k, assoc k l = None <-> ~ In k (map fst l).
Proof. induction l as [|[k' v'] l IH]; cbn; intros k; [tauto|]. destruct (String.eqb_spec k k') as [->|]; [split; [discriminate|tauto]|]. rewrite IH. intuition congruence. Qed.

Lemma sort_nil : forall l, sort l = [] -> l = [].
Proof. intros l E. apply Permutation_nil. rewrite <- E. apply Permutation_sym, sort_perm. Qed.
Lemma class_nonempty : forall t c, good_tree t -> In c (map fst t) -> class_images t c <> [].
Proof.
  intros t c (_ & N & G) I. apply in_map_iff in I as [[c' fs] [E I]]. cbn in E. subst c'. unfold class_images. rewrite (assoc_in t c fs N I).
  intros E. apply sort_nil in E. destruct (G c fs I) as (f & If & Ef). assert (In f (filter is_image fs)) by (apply filter_In; auto). rewrite E in H. destruct H.
Qed.
Lemma image_folder_ok : forall t, good_tree t -> image_folder t = Ok (samples_from 0 t (sort (map fst t))).
Proof.
  intros t G. unfold image_folder. destruct (sort (map fst t)) as [|c cs] eqn:E.
  - apply sort_nil in E. destruct G as (G & _). apply map_eq_nil in E. contradiction.
  - rewrite <- E. match goal with |- (if ?x then _ else _) = _ => destruct x eqn:X end; [|reflexivity].
    exfalso. apply existsb_exists in X as (c' & I & X). assert (In c' (map fst t)) as I'. { eapply Permutation_in; [apply Permutation_sym, sort_perm|exact I]. }
    pose proof (class_nonempty t c' G I'). destruct (class_images t c'); [contradiction|discriminate].
Qed.

(** ** Cutting groups into batches *)
Lemma batches_fuel : forall {A} b (B : 0 < b) k k' (l : list A), length l <= k -> length l <= k' -> batches k b l = batches k' b l.
Proof.
  intros A b B. induction k as [|k IH]; intros k' l L L'.
  - destruct l; [destruct k'; reflexivity|cbn in L; lia].
  - destruct k' as [|k']; [destruct l; [reflexivity|cbn in L'; lia]|]. destruct l as [|x l]; [reflexivity|]. cbn [batches]. f_equal.
    apply IH; rewrite skipn_length; cbn [length] in *; lia.
Qed.
Definition cut {A} (b : nat) (l : list A) := batches (length l) b l.
Lemma cut_cons : forall {A} b (l : list A), 0 < b -> l <> [] -> cut b l = firstn b l :: cut b (skipn b l).
Proof. intros A b [|x l] B N; [contradiction|]. unfold cut. cbn [length batches]. f_equal. apply batches_fuel; [exact B| |]; rewrite skipn_length; cbn [length]; lia. Qed.
Lemma cut_app : forall {A} b q (g rest : list A), 0 < b -> length g = q * b -> cut b (g ++ rest) = cut b g ++ cut b rest.
Proof.
  intros A b. induction q as [|q IH]; intros g rest B L; [destruct g; [reflexivity|discriminate]|].
  assert (g <> []) by (intros ->; cbn in L; lia). rewrite (cut_cons b (g ++ rest)) by (first [assumption | destruct g; [contradiction|discriminate]]). rewrite (cut_cons b g) by assumption.
  cbn [app]. rewrite firstn_app, skipn_app. replace (b - length g) with 0 by nia. cbn [firstn skipn]. rewrite app_nil_r.
  f_equal. apply IH; [exact B|]. rewrite skipn_length. nia.
Qed.
Definition one_label (b : list ((string * string) * nat)) := forall x y, In x b -> In y b -> snd x = snd y.
Lemma collate_ok : forall b, b <> [] -> one_label b -> collate b = Ok (map fst b).
Proof. intros [|[p l] b] N O; [contradiction|]. unfold collate. assert (forallb (fun s => snd s =? l) ((p, l) :: b) = true) as ->; [|reflexivity].
  apply forallb_forall. intros x I. apply Nat.eqb_eq. exact (O x (p, l) I (or_introl eq_refl)). Qed.
Lemma collate_bad : forall b x y, In x b -> In y b -> snd x <> snd y -> collate b = Raise AssertionError.
Proof. intros [|[p l] b] x y Ix Iy N; [destruct Ix|]. unfold collate. destruct (forallb (fun s => snd s =? l) ((p, l) :: b)) eqn:E; [|reflexivity].
  rewrite forallb_forall in E. pose proof (E x Ix). pose proof (E y Iy). apply Nat.eqb_eq in H, H0. congruence. Qed.

(** labelled groups *)
Fixpoint flat (i : nat) (gs : list (list (string * string))) : list ((string * string) * nat) :=
  match gs with [] => [] | g :: r => map (fun p => (p, i)) g ++ flat (S i) r end.
Lemma samples_flat : forall t cs i, samples_from i t cs = flat i (map (fun c => map (pair c) (class_images t c)) cs).
Proof. induction cs as [|c cs IH]; intros i; [reflexivity|]. cbn. rewrite map_map, IH. reflexivity. Qed.
Lemma flat_labels : forall gs i x, In x (flat i gs) -> i <= snd x.
Proof. induction gs as [|g gs IH]; intros i x I; [destruct I|]. cbn in I. apply in_app_or in I as [I|I]; [apply in_map_iff in I as (p & <- & _); cbn; lia|]. apply IH in I. lia. Qed.

Lemma mapM_app : forall {X Y} (f : X -> res Y) a b, mapM f (a ++ b) = do u <- mapM f a; do v <- mapM f b; Ok (u ++ v).
Proof.
  induction a as [|x a IH]; intros b; cbn [mapM app bind]; [destruct (mapM f b); reflexivity|]. destruct (f x); cbn [bind]; [|reflexivity].
  rewrite IH. destruct (mapM f a); cbn [bind]; [|reflexivity]. destruct (mapM f b); reflexivity.
Qed.
Lemma cut_single : forall b i (g : list (string * string)), 0 < b -> mapM collate (cut b (map (fun p => (p, i)) g)) = Ok (cut b g).
Proof.
  intros b i g B. remember (length g) as n eqn:L. revert g L. induction n as [n IH] using lt_wf_ind. intros g L.
  destruct g as [|p g]; [reflexivity|]. rewrite (cut_cons b (map _ (p :: g))), (cut_cons b (p :: g)) by (assumption || discriminate). cbn [mapM].
  rewrite collate_ok.
  - cbn [bind]. rewrite skipn_map, (IH (length (skipn b (p :: g)))); [|rewrite skipn_length; subst n; cbn [length]; lia|reflexivity]. cbn [bind].
    rewrite firstn_map, map_map. cbn [fst]. rewrite map_id. reflexivity.
  - destruct b; [lia|]. discriminate.
  - rewrite firstn_map. intros x y Ix Iy. apply in_map_iff in Ix as (? & <- & _). apply in_map_iff in Iy as (? & <- & _). reflexivity.
Qed.

(** All but the last video have a multiple of b frames. *)
Fixpoint even_but_last {A} (b : nat) (gs : list (list A)) : Prop :=
  match gs with [] => True | g :: r => (r <> [] -> exists q, length g = q * b) /\ even_but_last b r end.
Lemma groups_ok : forall gs b i, 0 < b -> even_but_last b gs -> mapM collate (cut b (flat i gs)) = Ok (concat (map (cut b) gs)).
Proof.
  induction gs as [|g gs IH]; intros b i B E; [reflexivity|]. cbn [flat map concat]. destruct E as [E1 E2].
  destruct gs as [|g' gs].
  - cbn [flat map concat]. rewrite !app_nil_r. apply cut_single. exact B.
  - destruct E1 as [q E1]; [discriminate|]. rewrite (cut_app b q) by (rewrite ?map_length; assumption).
    rewrite mapM_app, cut_single by exact B. cbn [bind]. rewrite (IH b (S i) B E2). reflexivity.
Qed.
Lemma in_mapM_bad : forall {X Y} (f : X -> res Y) l x e, In x l -> f x = Raise e -> exists e', mapM f l = Raise e'.
Proof. induction l as [|z l IH]; intros x e I E; [destruct I|]. cbn [mapM]. destruct I as [->|I]; [rewrite E; eexists; reflexivity|].
  destruct (f z); cbn [bind]; [|eexists; reflexivity]. destruct (IH x e I E) as [e' ->]. eexists; reflexivity. Qed.
Lemma collate_exn : forall b e, b <> [] -> collate b = Raise e -> e = AssertionError.
Proof. intros [|[p l] b] e N; [contradiction|]. unfold collate. destruct (forallb _ _); congruence. Qed.
Lemma mapM_exn : forall {X Y} (f : X -> res Y) l e e0, (forall x e, In x l -> f x = Raise e -> e = e0) -> mapM f l = Raise e -> e = e0.
Proof. induction l as [|z l IH]; intros e e0 H E; [discriminate|]. cbn [mapM] in E. destruct (f z) eqn:F; cbn [bind] in E.
  - destruct (mapM f l) eqn:M; cbn [bind] in E; [discriminate|]. injection E as ->. apply (IH e e0); [intros; apply (H x); [right|]; assumption|exact eq_refl].
  - injection E as ->. apply (H z); [left; reflexivity|exact F]. Qed.
Lemma cut_nonempty : forall {A} b (l : list A) x, 0 < b -> In x (cut b l) -> x <> [].
Proof. intros A b l x B I. destruct (In_nth_error _ _ I) as [k E]. destruct (batches_sizes (length l) b l B (le_n _)) as [_ S]. apply S in E as [_ E]. intros ->. cbn in E. lia. Qed.
(** the batch that crosses the end of a group *)
Lemma cut_crossing : forall {A} b (g rest : list A) x y g0 r0, 0 < b -> (forall q, length g <> q * b) -> g = g0 ++ [x] -> rest = y :: r0 ->
  exists bt, In bt (cut b (g ++ rest)) /\ In x bt /\ In y bt.
Proof.
  intros A b g rest x y g0 r0 B. remember (length g) as n eqn:L. revert g g0 L. induction n as [n IH] using lt_wf_ind. intros g g0 L D Eg Er.
  rewrite cut_cons by (try assumption; subst; destruct g0; discriminate).
  destruct (Nat.lt_ge_cases n b) as [C|C].
  - exists (firstn b (g ++ rest)). split; [left; reflexivity|]. rewrite firstn_app, firstn_all2 by lia. split; apply in_or_app; [left; subst; apply in_or_app; right; left; reflexivity|].
    right. subst rest. rewrite <- L. destruct (b - n) eqn:X; [lia|]. left. reflexivity.
  - assert (n <> b) by (intros ->; apply (D 1); lia).
    assert (length g = length g0 + 1) as LG by (subst g; rewrite app_length; reflexivity).
    rewrite skipn_app. replace (b - length g) with 0 by lia. cbn [skipn].
    assert (skipn b g = skipn b g0 ++ [x]) as ES. { subst g. rewrite skipn_app. replace (b - length g0) with 0 by lia. reflexivity. }
    destruct (IH (n - b)) with (g := skipn b g) (g0 := skipn b g0) as (bt & I & X); try assumption; try lia.
    + rewrite skipn_length. lia.
    + intros q Q. apply (D (S q)). lia.
    + exists bt. split; [right; exact I|exact X].
Qed.
Lemma groups_bad : forall gs b i, 0 < b -> Forall (fun g => g <> []) gs -> ~ even_but_last b gs -> mapM collate (cut b (flat i gs)) = Raise AssertionError.
Proof.
  intros gs b i B F N. assert (exists e, mapM collate (cut b (flat i gs)) = Raise e) as [e E].
  { revert i N. induction gs as [|g gs IH]; intros i N; [exfalso; apply N; exact I|]. inversion F as [|? ? G0 F']; subst. cbn [flat].
    destruct (Nat.eq_dec (length g mod b) 0) as [M|M].
    - apply Nat.mod_divides in M as [q M]; [|lia]. rewrite (cut_app b q) by (rewrite ?map_length; lia). rewrite mapM_app, cut_single by exact B. cbn [bind].
      destruct (IH F' (S i)) as [e E].
      + intros E2. apply N. split; [intros _; exists q; lia|exact E2].
      + rewrite E. eexists; reflexivity.
    - destruct gs as [|g' gs]; [exfalso; apply N; split; [intros X; contradiction|exact I]|].
      inversion F' as [|? ? G1 _]; subst. destruct g' as [|y g']; [contradiction|].
      destruct (exists_last G0) as (g0 & x & ->).
      destruct (cut_crossing b (map (fun p => (p, i)) (g0 ++ [x])) (flat (S i) ((y :: g') :: gs)) (x, i) (y, S i) (map (fun p => (p, i)) g0) (map (fun p => (p, S i)) g' ++ flat (S (S i)) gs))
        as (bt & I & Ix & Iy); [exact B| | |reflexivity|].
      + rewrite map_length. intros q Q. apply M. rewrite Q. apply Nat.mod_mul. lia.
      + rewrite map_app. reflexivity.
      + apply (in_mapM_bad collate _ bt AssertionError I). apply (collate_bad bt (x, i) (y, S i)); [assumption|assumption|cbn; lia]. }
  rewrite E. f_equal. apply (mapM_exn collate (cut b (flat i gs)) e AssertionError); [|exact E].
  intros x e' I X. apply (collate_exn x e'); [|exact X]. apply (cut_nonempty b _ x B I).
Qed.

(** Going through the test videos succeeds exactly if every folder but the last has a multiple of the
    batch size; then the batches are the frames of each folder in turn, cut into pieces. *)
Theorem C76_uvg_iff : forall u t, good_tree t -> (0 < u_batch u)%Z ->
  let b := Z.to_nat (u_batch u) in
  (even_but_last b (videos t) -> test_videos u t = Ok (concat (map (cut b) (videos t)))) /\
  (~ even_but_last b (videos t) -> test_videos u t = Raise AssertionError).
Proof.
  intros u t G B b. unfold test_videos. rewrite (image_folder_ok t G). cbn [bind]. destruct (Z.leb_spec (u_batch u) 0); [lia|].
  assert (0 < b) by (unfold b; lia). fold b. rewrite samples_flat. fold (videos t). change (batches (length (flat 0 (videos t))) b (flat 0 (videos t))) with (cut b (flat 0 (videos t))).
  split; intros E; [apply groups_ok; assumption|apply groups_bad; try assumption].
  unfold videos. apply Forall_forall. intros g I. apply in_map_iff in I as (c & <- & I). intros X. apply map_eq_nil in X.
  apply (class_nonempty t c G); [|exact X]. eapply Permutation_in; [apply Permutation_sym, sort_perm|exact I].
Qed.
Theorem C76_uvg_negative : forall u t, good_tree t -> (u_batch u < 0)%Z -> test_videos u t = Raise ValueError.
Proof. intros u t G B. unfold test_videos. rewrite (image_folder_ok t G). cbn [bind]. destruct (Z.leb_spec (u_batch u) 0); [reflexivity|lia]. Qed.

(** What the batches of a success are: all frames once, in order; each of one folder and of the batch size,
    except perhaps the very last. *)
Lemma cut_concat : forall {A} b (l : list A), 0 < b -> concat (cut b l) = l.
Proof. intros. apply batches_concat; [assumption|apply le_n]. Qed.
Lemma cut_full : forall {A} b q (l : list A), 0 < b -> length l = q * b -> Forall (fun x => length x = b) (cut b l) /\ length (cut b l) = q.
Proof.
  intros A b. induction q as [|q IH]; intros l B L; [destruct l; [split; [constructor|reflexivity]|discriminate]|].
  assert (l <> []) by (intros ->; cbn in L; lia). rewrite cut_cons by assumption. destruct (IH (skipn b l) B) as [I1 I2]; [rewrite skipn_length; nia|].
  split; [constructor; [rewrite firstn_length; nia|exact I1]|cbn [length]; rewrite I2; reflexivity].
Qed.
Theorem C76_uvg_frames : forall u t bs, good_tree t -> (0 < u_batch u)%Z -> test_videos u t = Ok bs ->
  concat bs = concat (videos t) /\
  Forall (fun b => exists c, In c (map fst t) /\ Forall (fun f => fst f = c) b) bs /\
  Forall (fun b => 0 < length b <= Z.to_nat (u_batch u)) bs.
Proof.
  intros u t bs G B E. set (b := Z.to_nat (u_batch u)). assert (0 < b) as Hb by (unfold b; lia).
  destruct (C76_uvg_iff u t G B) as [H1 H2]. fold b in H1, H2.
  assert (bs = concat (map (cut b) (videos t))) as ->.
  { assert (forall (gs : list (list (string * string))), even_but_last b gs \/ ~ even_but_last b gs) as DEC.
    { clear - Hb. induction gs as [|g gs IH]; [left; exact I|]. destruct IH as [IH|IH]; [|right; intros [_ X]; contradiction].
      destruct (Nat.eq_dec (length g mod b) 0) as [M|M].
      - left. split; [|exact IH]. intros _. apply Nat.mod_divides in M as [q M]; [|lia]. exists q. lia.
      - destruct gs; [left; split; [intros X; contradiction|exact IH]|right]. intros [X _]. destruct X as [q X]; [discriminate|].
        apply M. rewrite X. apply Nat.mod_mul. lia. }
    destruct (DEC (videos t)) as [D|D]; [rewrite (H1 D) in E; congruence|rewrite (H2 D) in E; discriminate]. }
  split; [|split].
  - generalize (videos t). induction l as [|g l IH]; [reflexivity|]. cbn [map concat]. rewrite concat_app, IH, cut_concat by exact Hb. reflexivity.
  - apply Forall_forall. intros x I. apply in_concat in I as (l & Il & I). apply in_map_iff in Il as (g & <- & Ig).
    unfold videos in Ig. apply in_map_iff in Ig as (c & <- & Ic). exists c. split; [eapply Permutation_in; [apply Permutation_sym, sort_perm|exact Ic]|].
    apply Forall_forall. intros f If. assert (In f (concat (cut b (map (pair c) (class_images t c))))) as J by (apply in_concat; eauto).
    rewrite cut_concat in J by exact Hb. apply in_map_iff in J as (? & <- & _). reflexivity.
  - apply Forall_forall. intros x I. apply in_concat in I as (l & Il & I). apply in_map_iff in Il as (g & <- & Ig).
    destruct (In_nth_error _ _ I) as [k Ek]. destruct (batches_sizes (length g) b g Hb (le_n _)) as [_ S]. apply S in Ek as [_ Ek]. exact Ek.
Qed.

(** The data set itself: folders of multiples of 300 frames, 3900 in all, with any accepted num_frames. *)
Lemma groups_full : forall {A} b (gs : list (list A)), 0 < b -> Forall (fun g => exists q, length g = q * b) gs ->
  even_but_last b gs /\ Forall (fun x => length x = b) (concat (map (cut b) gs)) /\ length (concat (map (cut b) gs)) * b = length (concat gs).
Proof.
  intros A b gs B F. induction F as [|g gs [q Q] F (E & F1 & L)]; [repeat split; constructor|]. split; [split; [intros _; exists q; exact Q|exact E]|].
  destruct (cut_full b q g B Q) as [C1 C2]. cbn [map concat]. split; [apply Forall_app; split; assumption|]. rewrite !app_length, C2. lia.
Qed.
Theorem C76_uvg_dataset : forall n u t, uvg_init n = Ok u -> (0 < u_batch u)%Z -> good_tree t ->
  Forall (fun v => exists k, length v = k * 300) (videos t) -> length (concat (videos t)) = 3900 ->
  exists bs, test_videos u t = Ok bs /\ Z.of_nat (length bs) = u_total u /\ Forall (fun b => Z.of_nat (length b) = u_batch u) bs /\ concat bs = concat (videos t).
Proof.
  intros n u t U B G F L. assert (n <> Some 0%Z) as N by (intros ->; discriminate). pose proof (C76_uvg_init n N) as S. rewrite U in S.
  destruct S as (_ & [q Q] & T). set (b := Z.to_nat (u_batch u)). assert (0 < b) as Hb by (unfold b; lia).
  assert (Z.of_nat b = u_batch u) as EB by (unfold b; rewrite Z2Nat.id; lia).
  assert (300 = Z.to_nat q * b) as E3. { apply Nat2Z.inj. rewrite Nat2Z.inj_mul, EB, Z2Nat.id; [exact Q|]. assert (0 < q)%Z by nia. lia. }
  destruct (groups_full b (videos t) Hb) as (E & FB & LB).
  { eapply Forall_impl; [|exact F]. intros v [k K]. exists (k * Z.to_nat q). rewrite K, E3 at 1. lia. }
  destruct (C76_uvg_iff u t G B) as [H1 _]. fold b in H1. specialize (H1 E). exists (concat (map (cut b) (videos t))).
  split; [exact H1|]. split; [|split].
  - rewrite L in LB. assert (Z.of_nat (length (concat (map (cut b) (videos t)))) * u_batch u = 3900)%Z by (rewrite <- EB, <- Nat2Z.inj_mul, LB; reflexivity).
    rewrite <- T in H. apply Z.mul_reg_r in H; [exact H|lia].
  - eapply Forall_impl; [|exact FB]. cbn. intros a Ha. rewrite Ha. exact EB.
  - exact (proj1 (C76_uvg_frames u t _ G B H1)).
Qed.

(** ** The order of frames: temporal if their numbers are padded with zeros, otherwise not *)
Definition digit (k : nat) : ascii := ascii_of_nat (48 + k).
Fixpoint padded (w k : nat) : string := match w with 0 => "" | S w' => String (digit (k / 10 ^ w' mod 10)) (padded w' (k mod 10 ^ w')) end.
Example padded_7 : padded 3 27 = "027". Proof. reflexivity. Qed.
Lemma digit_n : forall k, k < 10 -> nat_of_ascii (digit k) = 48 + k.
Proof. intros k H. unfold digit. apply nat_ascii_embedding. lia. Qed.
Lemma compare_digit : forall a b, a < 10 -> b < 10 -> Ascii.compare (digit a) (digit b) = Nat.compare a b.
Proof.
  intros a b Ha Hb. do 10 (destruct a as [|a]; [do 10 (destruct b as [|b]; [reflexivity|]); lia|]). lia.
Qed.
Lemma padded_leb : forall w a b s, a < 10 ^ w -> b < 10 ^ w -> a <= b -> String.leb (padded w a ++ s) (padded w b ++ s) = true.
Proof.
  induction w as [|w IH]; intros a b s La Lb L; cbn [padded].
  - cbn [append]. pose proof (String.leb_total s s). tauto.
  - cbn [append]. unfold String.leb. cbn [String.compare]. cbn [Nat.pow] in La, Lb. set (p := 10 ^ w) in *.
    assert (p <> 0) by (unfold p; apply Nat.pow_nonzero; lia).
    assert (a / p < 10) by (apply Nat.div_lt_upper_bound; lia). assert (b / p < 10) by (apply Nat.div_lt_upper_bound; lia).
    rewrite (Nat.mod_small (a / p)), (Nat.mod_small (b / p)) by assumption. rewrite compare_digit by assumption.
    pose proof (Nat.div_le_mono a b p H L). destruct (Nat.compare_spec (a / p) (b / p)) as [E|E|E]; [|reflexivity|lia].
    pose proof (Nat.div_mod a p H). pose proof (Nat.div_mod b p H). apply (IH (a mod p) (b mod p) s); [apply Nat.mod_upper_bound; exact H|apply Nat.mod_upper_bound; exact H|].
    rewrite E in H3. lia.
Qed.
Lemma leb_prefix : forall p a b, String.leb a b = true -> String.leb (p ++ a) (p ++ b) = true.
Proof. induction p as [|c p IH]; intros a b L; [exact L|]. cbn [append]. unfold String.leb in *. cbn [String.compare].
  replace (Ascii.compare c c) with Eq; [apply IH; exact L|]. unfold Ascii.compare. rewrite N.compare_refl. reflexivity. Qed.
Theorem C76_uvg_order : forall pre w suf n names, n <= 10 ^ w -> Permutation names (map (fun k => pre ++ padded w k ++ suf)%string (seq 0 n)) ->
  sort names = map (fun k => pre ++ padded w k ++ suf)%string (seq 0 n).
Proof.
  intros pre w suf n names L P. rewrite (sort_permuted _ _ P). symmetry. apply sorted_unique; [|apply sort_sorted|apply sort_perm].
  assert (forall m a, a + m <= 10 ^ w -> ssorted (map (fun k => pre ++ padded w k ++ suf)%string (seq a m))) as G; [|apply G; exact L].
  induction m as [|m IH]; intros a La; [constructor|]. cbn [seq map]. constructor; [apply IH; lia|].
  apply Forall_forall. intros x I. apply in_map_iff in I as (k & <- & I). apply in_seq in I. apply leb_prefix. apply padded_leb; lia.
Qed.
Theorem C76_uvg_order_refuted : class_images [("v", ["9.png"; "10.png"])] "v" = ["10.png"; "9.png"].
Proof. reflexivity. Qed.

(** * Loading *)
Section LoadProps.
Context {A : Type} (shape : A -> list nat).
Notation ckpt := (file A).

Lemma sub0 : forall s, substring 0 (String.length s) s = s. Proof. apply substring_full. Qed.
Lemma strip_in : forall (f : ckpt) k v, In (k, v) (strip f) <-> In (("model." ++ k)%string, v) f.
Proof.
  intros f k v. unfold strip. rewrite in_map_iff. split.
  - intros ([k' v'] & E & I). apply filter_In in I as [I P]. cbn [fst snd] in *. injection E as E1 ->. apply String.eqb_eq in P.
    assert (6 <= String.length k') as L. { do 6 (destruct k' as [|? k']; [discriminate|]). cbn. lia. }
    rewrite (substring_suffix 6 k' L), P, E1 in I. exact I.
  - intros I. exists (("model." ++ k)%string, v). split.
    + cbn [fst snd]. f_equal. rewrite str_app_length. replace (String.length "model." + String.length k - 6) with (String.length k) by (cbn; lia). apply (substring_app_r "model." k).
    + apply filter_In. split; [exact I|]. cbn [fst]. apply String.eqb_eq. apply (substring_app_l "model." k).
Qed.
Lemma app_inj_l : forall p a b, (p ++ a)%string = (p ++ b)%string -> a = b.
Proof. induction p; cbn; intros; [assumption|]. injection H as H. auto. Qed.
Lemma strip_nodup : forall (f : ckpt), NoDup (map fst f) -> NoDup (map fst (strip f)).
Proof.
  intros f N. unfold strip. rewrite map_map. cbn [fst].
  induction f as [|[k v] f IH]; [constructor|]. cbn [map fst] in N. inversion N as [|? ? N1 N2]; subst. cbn [filter fst].
  destruct (String.eqb (substring 0 6 k) "model.") eqn:P; [|exact (IH N2)]. cbn [map fst]. constructor; [|exact (IH N2)].
  intros I. apply in_map_iff in I as ([k' v'] & E & I). apply filter_In in I as [I P']. cbn [fst] in *. apply String.eqb_eq in P, P'.
  assert (forall k, substring 0 6 k = "model." -> k = ("model." ++ substring 6 (String.length k - 6) k)%string) as R.
  { intros x Px. assert (6 <= String.length x) as L. { do 6 (destruct x as [|? x]; [discriminate|]). cbn. lia. } rewrite (substring_suffix 6 x L) at 1. rewrite Px. reflexivity. }
  apply N1. apply in_map_iff. exists (k', v'). split; [|exact I]. cbn [fst]. rewrite (R k P), (R k' P'), E. reflexivity.
Qed.

(** The state dictionary of a file: the entries under "state_dict", or the file itself. *)
Definition holds (f : ckpt) (sd : ckpt) :=
  (exists d, assoc "state_dict" f = Some (Dict d) /\ sd = map (fun kv => (fst kv, Tensor (snd kv))) d) \/
  (assoc "state_dict" f = None /\ sd = f).
(** It gives the model's parameters: one tensor of the right shape per parameter under "model.<name>",
    and no other entry of that form. *)
Definition matches (fresh : list (string * A)) (sd : ckpt) :=
  (forall k p, In (k, p) fresh -> exists a, In (("model." ++ k)%string, Tensor a) sd /\ shape a = shape p) /\
  (forall k v, In (("model." ++ k)%string, v) sd -> In k (map fst fresh)).

Lemma load_sd : forall fresh sd, NoDup (map fst fresh) -> NoDup (map fst sd) ->
  match load_state_dict shape fresh (strip sd) with
  | Ok ps => matches fresh sd /\ map fst ps = map fst fresh /\ forall k a, In (k, a) ps -> In (("model." ++ k)%string, Tensor a) sd
  | Raise e => e = RuntimeError /\ ~ matches fresh sd
  end.
Proof.
  intros fresh sd NF NS. pose proof (strip_nodup sd NS) as NT. unfold load_state_dict.
  destruct (forallb (fits shape (strip sd)) fresh) eqn:E1; cbn [andb].
  - rewrite forallb_forall in E1. destruct (forallb _ (strip sd)) eqn:E2.
    + rewrite forallb_forall in E2.
      assert (forall k p, In (k, p) fresh -> exists a, assoc k (strip sd) = Some (Tensor a) /\ shape a = shape p) as FI.
      { intros k p I. specialize (E1 (k, p) I). unfold fits in E1. cbn [fst snd] in E1. destruct (assoc k (strip sd)) as [[a|d|]|]; try discriminate.
        exists a. split; [reflexivity|]. destruct (list_eq_dec Nat.eq_dec (shape a) (shape p)); [assumption|discriminate]. }
      split; [split|split].
      * intros k p I. destruct (FI k p I) as (a & Ea & Es). exists a. split; [|exact Es]. apply strip_in. apply assoc_some. exact Ea.
      * intros k v I. apply strip_in in I. specialize (E2 (k, v) I). cbn [fst] in E2. destruct (assoc k fresh) eqn:X; [|discriminate].
        apply assoc_some in X. apply in_map_iff. exists (k, a). auto.
      * rewrite map_map. reflexivity.
      * intros k a I. apply in_map_iff in I as ([k' p] & E & I). cbn [fst snd] in E. injection E as <- E. destruct (FI k' p I) as (b & Eb & _). rewrite Eb in E. subst b.
        apply strip_in. apply assoc_some. exact Eb.
    + split; [reflexivity|]. intros [_ M]. apply not_true_iff_false in E2. apply E2. apply forallb_forall. intros [k v] I. cbn [fst].
      apply strip_in in I. apply M in I. destruct (assoc k fresh) eqn:X; [reflexivity|]. apply assoc_none in X. contradiction.
  - split; [reflexivity|]. intros [M _]. apply not_true_iff_false in E1. apply E1. apply forallb_forall. intros [k p] I. unfold fits. cbn [fst snd].
    destruct (M k p I) as (a & Ia & Sa). apply strip_in in Ia. rewrite (assoc_in _ _ _ NT Ia). destruct (list_eq_dec Nat.eq_dec (shape a) (shape p)); [reflexivity|contradiction].
Qed.

(** Loading succeeds exactly if the file gives the model's parameters; the result has exactly the stored
    tensors, is in evaluation mode and its coding tables are those of the loaded parameters. *)
Theorem C76_load : forall fresh name save_copy stamp d f sd, NoDup (map fst fresh) -> NoDup (map fst sd) ->
  d name = Some f -> holds f sd ->
  match fst (load shape true fresh name save_copy stamp d) with
  | Ok p => matches fresh sd /\ map fst (p_params p) = map fst fresh /\ (forall k a, In (k, a) (p_params p) -> In (("model." ++ k)%string, Tensor a) sd) /\
            p_training p = false /\ p_tables p = Some (p_params p)
  | Raise e => e = RuntimeError /\ ~ matches fresh sd
  end.
Proof.
  intros fresh name save_copy stamp d f sd NF NS D H. unfold load. cbn [negb]. rewrite D.
  assert (state_dict f = Ok sd) as ->. { unfold state_dict. destruct H as [(x & -> & ->)|[-> ->]]; reflexivity. }
  cbn [fst]. pose proof (load_sd fresh sd NF NS) as L. destruct (load_state_dict shape fresh (strip sd)); cbn [bind]; [|exact L].
  destruct L as (M & K & V). split; [exact M|]. split; [exact K|]. split; [exact V|]. split; reflexivity.
Qed.

(** The saved copy loads to the same model, and nothing else on the disk changes. *)
Theorem C76_load_copy : forall fresh name stamp d f sd sc st', d name = Some f -> holds f sd -> assoc "state_dict" sd = None ->
  let d' := snd (load shape true fresh name true stamp d) in
  fst (load shape true fresh (copy_name stamp) sc st' d') = fst (load shape true fresh name sc st' d) /\
  (forall m, m <> copy_name stamp -> d' m = d m) /\
  snd (load shape true fresh name false stamp d) = d.
Proof.
  intros fresh name stamp d f sd sc st' D H N. unfold load. cbn [negb]. rewrite D.
  assert (state_dict f = Ok sd) as ->. { unfold state_dict. destruct H as [(x & -> & ->)|[-> ->]]; reflexivity. }
  cbv zeta. cbn [snd fst]. split; [|split].
  - unfold write_file at 1. rewrite String.eqb_refl. unfold state_dict. rewrite N. reflexivity.
  - intros m M. unfold write_file. destruct (String.eqb_spec m (copy_name stamp)); [contradiction|reflexivity].
  - reflexivity.
Qed.

(** A file of the bare model's parameters is refused, and a second copy in the same hour replaces the first. *)
Theorem C76_load_bare_refuted : forall fresh name sc stamp (d : disk) params, fresh <> [] -> NoDup (map fst fresh) -> NoDup (map fst params) ->
  (forall k, In k (map fst params) -> substring 0 6 k <> "model.") -> ~ In "state_dict" (map fst params) ->
  d name = Some (map (fun kv => (fst kv, Tensor (snd kv))) params) ->
  fst (load shape true fresh name sc stamp d) = Raise RuntimeError.
Proof.
  intros fresh name sc stamp d params F NF NP M S D.
  assert (map fst (map (fun kv : string * A => (fst kv, Tensor (snd kv))) params) = map fst params) as EK by (rewrite map_map; reflexivity).
  pose proof (C76_load fresh name sc stamp d (map (fun kv => (fst kv, Tensor (snd kv))) params) (map (fun kv => (fst kv, Tensor (snd kv))) params) NF) as L. rewrite EK in L. specialize (L NP D).
  assert (holds (map (fun kv : string * A => (fst kv, Tensor (snd kv))) params) (map (fun kv => (fst kv, Tensor (snd kv))) params)) as H.
  { right. split; [|reflexivity]. apply assoc_none. rewrite EK. exact S. }
  specialize (L H). destruct (fst (load shape true fresh name sc stamp d)) as [p|e]; [|destruct L as [-> _]; reflexivity].
  destruct L as ((M1 & _) & _). destruct fresh as [|[k p0] fresh]; [contradiction|]. destruct (M1 k p0 (or_introl eq_refl)) as (a & I & _).
  exfalso. apply (M ("model." ++ k)%string).
  - rewrite <- EK. apply in_map_iff. eexists. split; [|exact I]. reflexivity.
  - apply (substring_app_l "model." k).
Qed.
Theorem C76_copy_replaced_refuted : forall fresh n1 n2 stamp d f1 f2 sd1 sd2, d n1 = Some f1 -> d n2 = Some f2 -> holds f1 sd1 -> holds f2 sd2 -> n2 <> copy_name stamp ->
  let d' := snd (load shape true fresh n1 true stamp d) in
  snd (load shape true fresh n2 true stamp d') (copy_name stamp) = Some sd2.
Proof.
  intros fresh n1 n2 stamp d f1 f2 sd1 sd2 D1 D2 H1 H2 N. unfold load. cbn [negb]. rewrite D1.
  assert (state_dict f1 = Ok sd1) as ->. { unfold state_dict. destruct H1 as [(x & -> & ->)|[-> ->]]; reflexivity. }
  cbv zeta. cbn [snd]. unfold write_file at 1. destruct (String.eqb_spec n2 (copy_name stamp)); [contradiction|]. rewrite D2.
  assert (state_dict f2 = Ok sd2) as ->. { unfold state_dict. destruct H2 as [(x & -> & ->)|[-> ->]]; reflexivity. }
  cbn [snd]. unfold write_file at 1. rewrite String.eqb_refl. reflexivity.
Qed.
End LoadProps.

(** * Launching *)
Definition has_ckpt (d : ckpts) := exists n c, In (n, c) d /\ ends_with ".ckpt" n = true.
Theorem C76_launch : forall o r d,
  (launch o r d = Refused <-> o = false /\ r = false /\ has_ckpt d) /\
  (forall c, launch o r d = From c <-> r = true /\ assoc "last.ckpt" d = Some c).
Proof.
  intros o r d. unfold launch.
  assert (existsb (fun kv : string * nat => ends_with ".ckpt" (fst kv)) d = true <-> has_ckpt d) as E.
  { rewrite existsb_exists. split; [intros ([n c] & I & X); exists n, c; auto|intros (n & c & I & X); exists (n, c); auto]. }
  split.
  - destruct o, r; cbn [negb andb]; try (split; [destruct (assoc "last.ckpt" d); discriminate|intuition discriminate]).
    destruct (existsb _ d) eqn:X; [tauto|]. split; [destruct (assoc "last.ckpt" d); discriminate|]. intros (_ & _ & H). apply E in H. discriminate.
  - intros c. destruct r; [|split; [|intuition discriminate]].
    + rewrite andb_false_r. cbn [andb]. destruct (assoc "last.ckpt" d); split; [intros H; injection H as ->; auto|intros [_ H]; injection H as ->; reflexivity|discriminate|intuition discriminate].
    + destruct (negb o && negb false && _); [discriminate|]. destruct (assoc "last.ckpt" d); discriminate.
Qed.
Theorem C76_refused_untouched : forall d r, fst (run_launch d r) = Refused -> snd (run_launch d r) = d.
Proof. intros d r. unfold run_launch. destruct (launch _ _ d); cbn; congruence. Qed.

(** Over histories: the last "last.ckpt" that was saved by a launch that was not refused. *)
Fixpoint last_saved (acc : option nat) (ss : list save) : option nat :=
  match ss with
  | [] => acc
  | Save n c :: r => last_saved (if String.eqb n "last.ckpt" then Some c else acc) r
  | Remove n :: r => last_saved (if String.eqb n "last.ckpt" then None else acc) r
  end.
Definition accepted_saves (rs : list run_) : list save := flat_map r_saves rs.
Lemma assoc_remove : forall n m d, assoc m (remove_file n d) = if String.eqb m n then None else assoc m d.
Proof.
  induction d as [|[k v] d IH]; cbn; [destruct (String.eqb m n); reflexivity|]. destruct (String.eqb_spec k n) as [->|K].
  - rewrite IH. destruct (String.eqb_spec m n) as [->|]; reflexivity.
  - cbn. rewrite IH. destruct (String.eqb_spec m k) as [->|]; [destruct (String.eqb_spec k n); [contradiction|reflexivity]|reflexivity].
Qed.
Lemma saves_last : forall ss d, assoc "last.ckpt" (fold_left do_save ss d) = last_saved (assoc "last.ckpt" d) ss.
Proof.
  induction ss as [|s ss IH]; intros d; [reflexivity|]. cbn [fold_left]. rewrite IH. destruct s as [n c|n]; cbn [do_save last_saved assoc].
  - rewrite assoc_remove, (String.eqb_sym "last.ckpt" n). destruct (String.eqb n "last.ckpt"); reflexivity.
  - rewrite assoc_remove, (String.eqb_sym "last.ckpt" n). destruct (String.eqb n "last.ckpt"); reflexivity.
Qed.
Lemma last_saved_app : forall a b acc, last_saved acc (a ++ b) = last_saved (last_saved acc a) b.
Proof. induction a as [|[n c|n] a IH]; intros b acc; [reflexivity| |]; cbn; apply IH. Qed.
(** With resume_training (the default) in every launch, none is refused and each goes on from the newest
    "last.ckpt" of all before it, however they ended. *)
Theorem C76_resume : forall rs o, Forall (fun r => r_resume r = true) rs ->
  launch o true (run_launches [] rs) = match last_saved None (accepted_saves rs) with Some c => From c | None => Fresh end.
Proof.
  intros rs o F. assert (assoc "last.ckpt" (run_launches [] rs) = last_saved None (accepted_saves rs)) as E.
  { induction rs as [|r rs IH] using rev_ind; [reflexivity|]. apply Forall_app in F as [F1 F2]. inversion F2 as [|? ? R _]; subst.
    unfold run_launches, accepted_saves in *. rewrite fold_left_app, flat_map_app, last_saved_app, <- (IH F1). cbn [fold_left flat_map]. rewrite app_nil_r.
    unfold run_launch. destruct (launch (r_overwrite r) (r_resume r) _) eqn:L; [|apply saves_last|apply saves_last].
    apply C76_launch in L as (_ & L & _). congruence. }
  unfold launch. rewrite andb_false_r. cbn [andb]. rewrite E. reflexivity.
Qed.
(** overwrite=True does not ignore the checkpoint while resume_training is set. *)
Theorem C76_overwrite_resumes_refuted : forall d c, assoc "last.ckpt" d = Some c -> launch true true d = From c.
Proof. intros d c E. unfold launch. cbn. rewrite E. reflexivity. Qed.

(** ** Instances *)
Definition small_tree : tree := [("b", ["1.png"; "0.png"; "note.txt"]); ("a", ["0.PNG"; "1.png"; "2.png"; "3.png"])].
Example small_ok : good_tree small_tree /\ even_but_last 2 (videos small_tree) /\
  test_videos (mkU 2 0) small_tree = Ok [[("a", "0.PNG"); ("a", "1.png")]; [("a", "2.png"); ("a", "3.png")]; [("b", "0.png"); ("b", "1.png")]] /\
  test_videos (mkU 3 0) small_tree = Raise AssertionError.
Proof.
  split; [|split; [|split; reflexivity]].
  - split; [discriminate|]. split; [repeat constructor; cbn; intuition discriminate|]. intros c fs [E|[E|[]]]; injection E as <- <-; [exists "1.png"|exists "1.png"]; split; cbn; auto.
  - cbn. split; [intros _; exists 2; reflexivity|]. split; [intros X; contradiction X; reflexivity|exact I].
Qed.
Definition demo_disk : disk := fun n => if String.eqb n "last.ckpt" then
  Some [("epoch", Other); ("state_dict", Dict [("model.w", 7); ("metric.total", 1)])] else None.
Example demo_load : fst (load (fun _ : nat => []) true [("w", 0)] "last.ckpt" true "2023-01-01_5" demo_disk) = Ok (mkP [("w", 7)] false (Some [("w", 7)])) /\
  fst (load (fun _ : nat => []) true [("w", 0)] "eval_last_2023-01-01_5h.pt" false "" (snd (load (fun _ : nat => []) true [("w", 0)] "last.ckpt" true "2023-01-01_5" demo_disk)))
   = Ok (mkP [("w", 7)] false (Some [("w", 7)])).
Proof. split; reflexivity. Qed.
Example demo_launch : launch false true (run_launches [] [mkRun false true [Save "last.ckpt" 1; Save "best.ckpt" 1; Save "last.ckpt" 2]; mkRun true true [Remove "best.ckpt"]]) = From 2.
Proof. reflexivity. Qed.

Print Assumptions C76_uvg_iff.
Print Assumptions C76_load.
Print Assumptions C76_resume.

(** ** Which files of a video are frames *)
(** The same letter, in lower or upper case. *)
Definition same_letter (lo c : ascii) : Prop :=
  c = lo \/ (65 <= nat_of_ascii c <= 90 /\ nat_of_ascii lo = nat_of_ascii c + 32).
Definition image_endings : list string := [".jpg"; ".jpeg"; ".png"; ".ppm"; ".bmp"; ".pgm"; ".tif"; ".tiff"; ".webp"].
Lemma lower_app a b : lower (a ++ b)%string = (lower a ++ lower b)%string.
Proof. induction a as [|c a IH]; cbn; [reflexivity|now rewrite IH]. Qed.
Lemma lower_char_same lo c : (nat_of_ascii lo < 65 \/ 90 < nat_of_ascii lo) -> (lower_char c = lo <-> same_letter lo c).
Proof.
  intro H. unfold lower_char, same_letter. pose proof (nat_ascii_bounded c) as B.
  destruct ((65 <=? nat_of_ascii c) && (nat_of_ascii c <=? 90)) eqn:E.
  - apply andb_true_iff in E. rewrite !Nat.leb_le in E. split.
    + intros <-. right. rewrite nat_ascii_embedding by lia. lia.
    + intros [-> | [_ X]]; [lia|]. rewrite <- X. apply ascii_nat_embedding.
  - apply andb_false_iff in E. rewrite !Nat.leb_gt in E. split; [tauto|]. intros [X | [X _]]; [exact X|lia].
Qed.
Lemma lower_same : forall e s, (forall c, In c (list_ascii_of_string e) -> nat_of_ascii c < 65 \/ 90 < nat_of_ascii c) ->
  (lower s = e <-> Forall2 same_letter (list_ascii_of_string e) (list_ascii_of_string s)).
Proof.
  induction e as [|x e IH]; intros s H; destruct s as [|c s]; cbn [lower list_ascii_of_string].
  - split; constructor.
  - split; [discriminate|intro F; inversion F].
  - split; [discriminate|intro F; inversion F].
  - split.
    + intro E. injection E as E1 E2. constructor; [apply lower_char_same; [apply H; now left|exact E1]|]. apply IH; [intros d I; apply H; now right|exact E2].
    + intro F. inversion F; subst. f_equal; [apply lower_char_same; [apply H; now left|assumption]|]. apply IH; [intros d I; apply H; now right|assumption].
Qed.
Lemma ends_with_app suf s : ends_with suf s = true <-> exists stem, s = (stem ++ suf)%string.
Proof.
  unfold ends_with. rewrite andb_true_iff, Nat.leb_le, String.eqb_eq. split.
  - intros [L E]. exists (substring 0 (String.length s - String.length suf) s).
    pose proof (substring_suffix (String.length s - String.length suf) s ltac:(lia)) as H.
    replace (String.length s - (String.length s - String.length suf)) with (String.length suf) in H by lia.
    rewrite E in H. exact H.
  - intros [stem ->]. rewrite str_app_length. split; [lia|].
    replace (String.length stem + String.length suf - String.length suf) with (String.length stem) by lia. apply substring_app_r.
Qed.
Lemma lower_split : forall s a b, lower s = (a ++ b)%string -> exists x y, s = (x ++ y)%string /\ lower x = a /\ lower y = b.
Proof.
  intros s a. revert s. induction a as [|c a IH]; intros s b E.
  - exists "", s. now split.
  - destruct s as [|d s]; [discriminate|]. cbn [lower String.append] in E. injection E as E1 E2. destruct (IH s b E2) as (x & y & -> & X & Y).
    exists (String d x), y. split; [reflexivity|]. split; [cbn [lower]; now rewrite X, E1|exact Y].
Qed.
(** A file is a frame if and only if its name ends in one of the nine endings, in any case. *)
Theorem C76_frames : forall name, is_image name = true <->
  exists stem ending lowercase, name = (stem ++ ending)%string /\ In lowercase image_endings /\
    Forall2 same_letter (list_ascii_of_string lowercase) (list_ascii_of_string ending).
Proof.
  intros name. unfold is_image. fold image_endings. rewrite existsb_exists.
  assert (LC : forall e, In e image_endings -> forall c, In c (list_ascii_of_string e) -> nat_of_ascii c < 65 \/ 90 < nat_of_ascii c).
  { assert (K : forallb (fun e => forallb (fun c => (nat_of_ascii c <? 65) || (90 <? nat_of_ascii c)) (list_ascii_of_string e)) image_endings = true) by (vm_compute; reflexivity).
    rewrite forallb_forall in K. intros e I c J. specialize (K e I). rewrite forallb_forall in K. specialize (K c J). apply orb_true_iff in K.
    rewrite !Nat.ltb_lt in K. exact K. }
  split.
  - intros (e & I & E). apply ends_with_app in E. destruct E as [st E]. destruct (lower_split name st e E) as (x & y & -> & X & Y).
    exists x, y, e. split; [reflexivity|]. split; [exact I|]. apply lower_same; [now apply LC|exact Y].
  - intros (st & en & lo & -> & I & F). exists lo. split; [exact I|]. apply ends_with_app. exists (lower st). rewrite lower_app. f_equal.
    apply lower_same; [now apply LC|exact F].
Qed.
Example C76_frames_instance : is_image "f001.PnG" = true /\ is_image "f001.png~" = false.
Proof. split; vm_compute; reflexivity. Qed.
Print Assumptions C76_frames.

(** C70: the CLIC 2020 image data set under interrupted downloads. *)
From Coq Require Import String ZArith List Bool Arith Lia Sorted Permutation.
From Verif Require Import Base ClicImg_Model.
Import ListNotations.
Open Scope string_scope.
Open Scope nat_scope.

(** * Specification *)
(** What is known of the archives: images in the directory of the split (called "valid" in the
    archive of the validation split), the rest in __MACOSX, both there, no name twice. *)
Definition archive_dir (s : split) : dir := match s with Train => DTrain | Val => DValid | Test => DTest end.
Definition mac_dir (s : split) : dir := match s with Test => DTestMac | _ => DMac end.
Record archives (members : split -> list (dir * string * bytes)) : Prop := {
  a_dirs : forall s d n b, In (d, n, b) (members s) -> d = archive_dir s \/ d = mac_dir s;
  a_image : forall s, exists n b, In (archive_dir s, n, b) (members s);
  a_mac : forall s, exists n b, In (mac_dir s, n, b) (members s);
  a_nodup : forall s, NoDup (map fst (members s))
}.
(** The directory holds exactly the images of the archive. *)
Definition complete (members : split -> list (dir * string * bytes)) (s : split) (f : fs) (d : dir) : Prop :=
  exists l, dirs f d = Some l /\ NoDup (map fst l) /\ forall n b, In (n, b) l <-> In (archive_dir s, n, b) (members s).
(** A list of paths: sorted, and each png file of the archive once. *)
Definition is_png (n : string) : Prop := exists stem, n = stem ++ ".png".
Definition all_pngs (members : split -> list (dir * string * bytes)) (s : split) (paths : list string) : Prop :=
  StronglySorted (fun x y => String.leb x y = true) paths /\ NoDup paths /\
  forall n, In n paths <-> is_png n /\ exists b, In (archive_dir s, n, b) (members s).
Definition split_name (s : split) : string := match s with Train => "train" | Val => "val" | Test => "test" end.

(** * Sorting *)
Lemma leb_total x y : String.leb x y = true \/ String.leb y x = true.
Proof. apply String.leb_total. Qed.
Lemma ascii_compare_trans a b c r : Ascii.compare a b = r -> Ascii.compare b c = r -> Ascii.compare a c = r.
Proof.
  unfold Ascii.compare. destruct r; rewrite ?N.compare_eq_iff, ?N.compare_lt_iff, ?N.compare_gt_iff; try congruence.
  - apply N.lt_trans.
  - intros H1 H2. now apply N.lt_trans with (Ascii.N_of_ascii b).
Qed.
Lemma leb_trans x y z : String.leb x y = true -> String.leb y z = true -> String.leb x z = true.
Proof.
  revert y z. induction x as [|a x IH]; intros [|b y] [|c z]; unfold String.leb; cbn [String.compare]; try congruence.
  unfold String.leb in IH.
  destruct (Ascii.compare a b) eqn:AB; [| |congruence]; destruct (Ascii.compare b c) eqn:BC; [| |congruence| | |congruence].
  - rewrite (ascii_compare_trans a b c Eq AB BC). apply IH.
  - apply Ascii.compare_eq_iff in AB. subst b. rewrite BC. reflexivity.
  - apply Ascii.compare_eq_iff in BC. subst c. rewrite AB. reflexivity.
  - rewrite (ascii_compare_trans a b c Lt AB BC). reflexivity.
Qed.
Lemma insert_in x l n : In n (insert x l) <-> n = x \/ In n l.
Proof.
  induction l as [|y r IH]; cbn; [intuition congruence|]. destruct (String.leb x y); cbn; [intuition congruence|]. rewrite IH. intuition congruence.
Qed.
Lemma insert_perm x l : Permutation (x :: l) (insert x l).
Proof.
  induction l as [|y r IH]; cbn; [apply Permutation_refl|]. destruct (String.leb x y); [apply Permutation_refl|].
  eapply perm_trans; [apply perm_swap|]. now constructor.
Qed.
Lemma sort_perm l : Permutation l (sort l).
Proof. induction l as [|x l IH]; cbn; [constructor|]. eapply perm_trans; [|apply insert_perm]. now constructor. Qed.
Lemma insert_sorted x l : StronglySorted (fun x y => String.leb x y = true) l -> StronglySorted (fun x y => String.leb x y = true) (insert x l).
Proof.
  induction l as [|y r IH]; intro S; cbn; [repeat constructor|]. inversion_clear S as [|? ? S' F]. destruct (String.leb x y) eqn:E.
  - constructor; [now constructor|]. constructor; [exact E|]. eapply Forall_impl; [|exact F]. intros z H. cbn in H. now apply leb_trans with y.
  - constructor; [now apply IH|]. apply Forall_forall. intros z I. apply insert_in in I. destruct I as [->|I].
    + destruct (leb_total x y) as [H|H]; [congruence|exact H].
    + rewrite Forall_forall in F. now apply F.
Qed.
Lemma sort_sorted l : StronglySorted (fun x y => String.leb x y = true) (sort l).
Proof. induction l as [|x l IH]; cbn; [constructor|]. now apply insert_sorted. Qed.

Lemma str_app_length a b : String.length (a ++ b) = String.length a + String.length b.
Proof. induction a as [|x a IH]; cbn; [reflexivity|now rewrite IH]. Qed.
Lemma substring_app_r a b : substring (String.length a) (String.length b) (a ++ b) = b.
Proof.
  induction a as [|x a IH]; cbn; [|exact IH]. induction b as [|y b IH]; cbn; [reflexivity|now rewrite IH].
Qed.
Lemma substring_full b : substring 0 (String.length b) b = b.
Proof. induction b as [|y b IH]; cbn; [reflexivity|now rewrite IH]. Qed.
Lemma substring_suffix : forall n s, n <= String.length s -> s = (substring 0 n s ++ substring n (String.length s - n) s)%string.
Proof.
  induction n as [|n IH]; intros s L.
  - rewrite Nat.sub_0_r, substring_full. now destruct s.
  - destruct s as [|c s]; cbn in L; [lia|]. cbn [substring String.length Nat.sub append]. f_equal. apply IH. lia.
Qed.
Lemma ends_with_png s : ends_with ".png" s = true <-> is_png s.
Proof.
  unfold ends_with, is_png. set (suf := ".png"). rewrite andb_true_iff, Nat.leb_le, String.eqb_eq. split.
  - intros [L E]. exists (substring 0 (String.length s - String.length suf) s).
    pose proof (substring_suffix (String.length s - String.length suf) s ltac:(lia)) as H.
    replace (String.length s - (String.length s - String.length suf)) with (String.length suf) in H by lia.
    rewrite E in H. exact H.
  - intros [stem ->]. rewrite str_app_length. split; [lia|].
    replace (String.length stem + String.length suf - String.length suf) with (String.length stem) by lia. apply substring_app_r.
Qed.

Section Props.
Variable members : split -> list (dir * string * bytes).
Hypothesis ar : archives members.

Lemma complete_paths s f : complete members s f (dir_of s) -> all_pngs members s (png_paths s f).
Proof.
  intros [l [D [N M]]]. unfold png_paths. rewrite D. split; [apply sort_sorted|]. split.
  - eapply Permutation_NoDup; [apply sort_perm|]. now apply NoDup_filter.
  - intro n. split.
    + intro I. eapply Permutation_in in I; [|apply Permutation_sym, sort_perm]. apply filter_In in I. destruct I as [I E].
      split; [now apply ends_with_png|]. apply in_map_iff in I. destruct I as [[n' b] [<- I]]. exists b. now apply M.
    + intros [P [b I]]. eapply Permutation_in; [apply sort_perm|]. apply filter_In. split; [|now apply ends_with_png].
      apply in_map_iff. exists (n, b). split; [reflexivity|]. now apply M.
Qed.

(** * Files *)
Fixpoint lookup (n : string) (l : files) : option bytes :=
  match l with [] => None | (m, b) :: r => if String.eqb m n then Some b else lookup n r end.
Lemma lookup_put n b l m : lookup m (put_file n b l) = if String.eqb n m then Some b else lookup m l.
Proof.
  induction l as [|[k c] r IH]; cbn [put_file lookup]; [reflexivity|].
  destruct (String.eqb_spec k n) as [->|NE]; cbn [lookup].
  - destruct (String.eqb n m); reflexivity.
  - rewrite IH. destruct (String.eqb_spec k m) as [->|]; [|reflexivity]. destruct (String.eqb_spec n m); [congruence|reflexivity].
Qed.
Lemma names_put n b l m : In m (map fst (put_file n b l)) <-> m = n \/ In m (map fst l).
Proof.
  induction l as [|[k c] r IH]; cbn [put_file map fst In]; [intuition congruence|].
  destruct (String.eqb_spec k n) as [->|NE]; cbn [map fst In]; [intuition congruence|]. rewrite IH. intuition congruence.
Qed.
Lemma nodup_put n b l : NoDup (map fst l) -> NoDup (map fst (put_file n b l)).
Proof.
  induction l as [|[k c] r IH]; intro N; cbn [put_file]; [repeat constructor; auto|].
  cbn [map fst] in N. inversion_clear N as [|? ? NI N']. destruct (String.eqb_spec k n) as [->|NE]; cbn [map fst]; constructor; trivial.
  - rewrite names_put. intros [->|I]; [now apply NE|contradiction].
  - now apply IH.
Qed.
Lemma lookup_in n b l : NoDup (map fst l) -> (lookup n l = Some b <-> In (n, b) l).
Proof.
  induction l as [|[k c] r IH]; intro N; cbn [lookup In]; [split; [discriminate|easy]|].
  cbn [map fst] in N. inversion_clear N as [|? ? NI N']. destruct (String.eqb_spec k n) as [->|NE].
  - split; [intro H; injection H as ->; now left|]. intros [H|H]; [now injection H as ->|]. exfalso. apply NI. apply in_map_iff. now exists (n, b).
  - rewrite (IH N'). split; [now right|]. intros [H|H]; [congruence|exact H].
Qed.
Lemma dir_eqb_spec a b : reflect (a = b) (dir_eqb a b).
Proof. destruct a, b; cbn; constructor; congruence. Qed.
Lemma dirs_set d v f x : dirs (set_dir d v f) x = if dir_eqb x d then v else dirs f x.
Proof. reflexivity. Qed.

(** * The invariant of every history *)
(** The directories written by extraction only have names of their archive; "val" is complete. *)
Definition names_ok (s : split) (f : fs) : Prop :=
  forall l, dirs f (archive_dir s) = Some l -> NoDup (map fst l) /\ forall n, In n (map fst l) -> exists b, In (archive_dir s, n, b) (members s).
Definition good (f : fs) : Prop :=
  (forall s, names_ok s f) /\ (dirs f DVal = None \/ complete members Val f DVal).
Definition keeps {A} (m : act A) : Prop := forall f n, good f -> good (fs_after (m f n)).
Lemma keeps_then {A B} (m : act A) (k : A -> act B) : keeps m -> (forall a, keeps (k a)) -> keeps (andthen m k).
Proof.
  intros M K f n G. unfold andthen. specialize (M f n G). destruct (m f n) as [a f' n'|e f' n'|f']; cbn [fs_after] in *; trivial. now apply K.
Qed.
Lemma keeps_op g : (forall f f', good f -> g f = Ok f' -> good f') -> keeps (op g).
Proof. intros K f n G. unfold op. destruct n as [|n]; [exact G|]. destruct (g f) as [f'|e] eqn:E; cbn [fs_after]; trivial. now apply (K f). Qed.
Lemma good_zip s z f : good f -> good (set_zip s z f).
Proof. intro G. exact G. Qed.
Lemma good_write s d n b c f f' : good f -> In (d, n, c) (members s) -> write d n b f = Ok f' -> good f'.
Proof.
  intros [G V] I H. unfold write in H. injection H as <-. pose proof (a_dirs _ ar s d n c I) as D. split.
  - intros s' l. rewrite dirs_set. destruct (dir_eqb_spec (archive_dir s') d) as [E|E]; [|apply G].
    assert (s' = s) by (subst d; destruct D as [D|D]; destruct s', s; cbn in D; congruence). subst s'.
    intro H. injection H as <-. pose proof (G s) as Gs. unfold names_ok in Gs. rewrite E in Gs.
    destruct (dirs f d) as [l0|].
    + destruct (Gs l0 eq_refl) as [N M]. split; [now apply nodup_put|]. intros m Im. apply names_put in Im. destruct Im as [->|Im].
      * exists c. now rewrite E.
      * destruct (M m Im) as [b' Hb]. exists b'. now rewrite E.
    + cbn [put_file map fst]. split; [repeat constructor; easy|]. intros m [<-|[]]. exists c. now rewrite E.
  - assert (NV : d <> DVal) by (destruct D as [->| ->]; destruct s; discriminate).
    unfold complete. rewrite dirs_set. destruct (dir_eqb_spec DVal d); [congruence|exact V].
Qed.
Lemma keeps_extract s : forall ms, incl ms (members s) -> keeps (extract ms).
Proof.
  induction ms as [|[[d n] b] r IH]; intro I; cbn [extract]; [intros f k G; exact G|].
  assert (M : In (d, n, b) (members s)) by (apply I; now left).
  apply keeps_then; [apply keeps_op; intros f f' G; now apply (good_write s d n [] b)|]. intros _.
  apply keeps_then; [apply keeps_op; intros f f' G; now apply (good_write s d n b b)|]. intros _. apply IH. intros x J. apply I. now right.
Qed.
Lemma good_clear d v f : (forall s, d <> archive_dir s) -> d <> DVal -> good f -> good (set_dir d v f).
Proof.
  intros A V [G C]. split.
  - intros s l. rewrite dirs_set. destruct (dir_eqb_spec (archive_dir s) d) as [E|E]; [now destruct (A s)|apply G].
  - unfold complete. rewrite dirs_set. destruct (dir_eqb_spec DVal d); [congruence|exact C].
Qed.
Lemma mac_not_archive s s' : mac_dir s <> archive_dir s'.
Proof. destruct s, s'; discriminate. Qed.
Lemma mac_not_val s : mac_dir s <> DVal.
Proof. destruct s; discriminate. Qed.
Lemma keeps_rmtree s : keeps (rmtree (mac_dir s)).
Proof.
  intros f n G. unfold rmtree. destruct (dirs f (mac_dir s)) as [l|]; [|exact G].
  assert (K : keeps (unlink_all (mac_dir s) l)).
  { induction l as [|x l IH]; cbn [unlink_all].
    - apply keeps_op. intros f0 f' G0 H. injection H as <-. apply good_clear; trivial; [intro; apply mac_not_archive|apply mac_not_val].
    - apply keeps_then; [|intros _; exact IH]. apply keeps_op. intros f0 f' G0 H. injection H as <-.
      apply good_clear; trivial; [intro; apply mac_not_archive|apply mac_not_val]. }
  now apply K.
Qed.
Lemma keeps_download_url srv s : keeps (download_url srv s).
Proof.
  intros f n G. unfold download_url.
  assert (Z : forall z, keeps (op (fun f => Ok (set_zip s z f)))) by (intro z; apply keeps_op; intros f0 f' G0 H; injection H as <-; exact G0).
  assert (R : forall e, keeps (@raise unit e)) by (intros e f0 n0 G0; exact G0).
  destruct (zips f s); trivial; destruct srv; trivial;
    match goal with |- good (fs_after (?m f n)) => assert (K : keeps m); [|now apply K] end;
    repeat (apply keeps_then; [apply Z|intros _]); try apply Z; apply R.
Qed.

(** What complete runs do. *)
Lemma extract_done : forall ms f n, NoDup (map fst ms) -> 2 * length ms <= n ->
  exists f' n', extract ms f n = Done tt f' n' /\ n <= n' + 2 * length ms /\ zips f' = zips f /\
    (forall d m b, In (d, m, b) ms -> exists l, dirs f' d = Some l /\ lookup m l = Some b) /\
    (forall d, (forall m b, ~ In (d, m, b) ms) -> dirs f' d = dirs f d) /\
    (forall d m, ~ In (d, m) (map fst ms) -> forall l, dirs f' d = Some l -> lookup m l = match dirs f d with Some l0 => lookup m l0 | None => None end).
Proof.
  induction ms as [|[[d0 m0] b0] r IH]; intros f n N L.
  - exists f, n. cbn. repeat split; try lia; try easy. intros d m _ l ->. reflexivity.
  - cbn [map fst] in N. inversion_clear N as [|? ? NI N']. cbn [length] in L. destruct n as [|[|n]]; try lia.
    cbn [extract]. unfold andthen, op, write.
    match goal with |- context [extract r ?f1 n] => destruct (IH f1 n N' ltac:(lia)) as [f' [n' [E [B [Z [IN [OUT OTH]]]]]]]; set (f1' := f1) in * end.
    exists f', n'. split; [exact E|]. cbn [length]. split; [lia|]. split; [exact Z|].
    assert (D0 : dirs f1' d0 = Some (put_file m0 b0 (put_file m0 [] (match dirs f d0 with Some l => l | None => [] end)))).
    { unfold f1'. rewrite !dirs_set. destruct (dir_eqb_spec d0 d0); [reflexivity|congruence]. }
    assert (DX : forall d, d <> d0 -> dirs f1' d = dirs f d).
    { intros d ND. unfold f1'. rewrite !dirs_set. destruct (dir_eqb_spec d d0); [congruence|reflexivity]. }
    split; [|split].
    + intros d m b [H|H]; [|now apply IN]. injection H as <- <- <-.
      assert (X : dirs f' d0 <> None).
      { destruct (in_dec (fun a b : dir => match dir_eqb_spec a b with ReflectT _ p => left p | ReflectF _ p => right p end) d0 (map (fun x => fst (fst x)) r)) as [J|J].
        - apply in_map_iff in J. destruct J as [[[d1 m1] b1] [<- J]]. cbn [fst] in *. destruct (IN d1 m1 b1 J) as [l [-> _]]. discriminate.
        - rewrite OUT, D0; [discriminate|]. intros m b H. apply J. apply in_map_iff. now exists (d0, m, b). }
      destruct (dirs f' d0) as [l|] eqn:DL; [|easy]. exists l. split; [reflexivity|].
      rewrite (OTH d0 m0 NI l DL), D0, lookup_put, String.eqb_refl. reflexivity.
    + intros d H. rewrite OUT; [apply DX; intros ->; apply (H m0 b0); now left|]. intros m b J. apply (H m b). now right.
    + intros d m H l DL. cbn [map fst] in H. rewrite (OTH d m (fun J => H (or_intror J)) l DL).
      destruct (dir_eqb_spec d d0) as [->|ND]; [|now rewrite DX].
      rewrite D0, !lookup_put. destruct (String.eqb_spec m0 m) as [->|]; [exfalso; apply H; now left|]. destruct (dirs f d0); reflexivity.
Qed.
Lemma extract_finished : forall ms f n f' n', extract ms f n = Done tt f' n' -> 2 * length ms <= n.
Proof.
  induction ms as [|[[d0 m0] b0] r IH]; intros f n f' n' H; [cbn; lia|]. cbn [extract] in H. unfold andthen, op, write in H.
  destruct n as [|[|n]]; try discriminate. apply IH in H. cbn [length]. lia.
Qed.
Lemma extract_complete s f n f' n' : good f -> extract (members s) f n = Done tt f' n' ->
  good f' /\ complete members s f' (archive_dir s) /\ zips f' = zips f /\ (exists l, dirs f' (mac_dir s) = Some l) /\
  (forall d, d <> archive_dir s -> d <> mac_dir s -> dirs f' d = dirs f d).
Proof.
  intros G E. pose proof (extract_finished _ _ _ _ _ E) as L.
  destruct (extract_done (members s) f n (a_nodup _ ar s) L) as [f1 [n1 [E1 [_ [Z [IN [OUT _]]]]]]].
  rewrite E in E1. injection E1 as <- <-.
  assert (G' : good f').
  { pose proof (keeps_extract s (members s) (incl_refl _) f n G) as K. rewrite E in K. exact K. }
  split; [exact G'|]. split; [|split; [exact Z|split]].
  - destruct (a_image _ ar s) as [m [b I]]. destruct (IN _ _ _ I) as [l [D _]]. exists l. split; [exact D|].
    destruct G' as [G' _]. destruct (G' s l D) as [N M]. split; [exact N|]. intros k c. split.
    + intro J. destruct (M k) as [c' J']; [apply in_map_iff; now exists (k, c)|]. destruct (IN _ _ _ J') as [l' [D' LK]].
      rewrite D in D'. injection D' as <-. apply (lookup_in k c' l N) in LK.
      apply (lookup_in k c' l N) in LK. apply (lookup_in k c l N) in J. rewrite LK in J. injection J as ->. exact J'.
    + intro J. destruct (IN _ _ _ J) as [l' [D' LK]]. rewrite D in D'. injection D' as <-. now apply (lookup_in k c l N).
  - destruct (a_mac _ ar s) as [m [b I]]. destruct (IN _ _ _ I) as [l [D _]]. now exists l.
  - intros d D1 D2. apply OUT. intros m b I. destruct (a_dirs _ ar s d m b I); contradiction.
Qed.
Lemma good_renamed f l : good f -> complete members Val f DValid -> dirs f DValid = Some l ->
  good (set_dir DVal (Some l) (set_dir DValid None f)) /\
  complete members Val (set_dir DVal (Some l) (set_dir DValid None f)) DVal.
Proof.
  intros [G V] C D. assert (CC : complete members Val (set_dir DVal (Some l) (set_dir DValid None f)) DVal).
  { destruct C as [l' [D' H]]. rewrite D in D'. injection D' as <-. exists l. split; [reflexivity|exact H]. }
  split; [|exact CC]. split; [|now right]. intros s l'. rewrite !dirs_set. destruct s; cbn [archive_dir dir_eqb]; [apply (G Train)|discriminate|apply (G Test)].
Qed.
Lemma keeps_download srv s : keeps (download members srv s).
Proof.
  intros f n G. unfold download. unfold andthen at 1. pose proof (keeps_download_url srv s f n G) as G1.
  destruct (download_url srv s f n) as [u f1 n1|e f1 n1|f1]; cbn [fs_after] in *; trivial.
  unfold andthen at 1. pose proof (keeps_extract s (members s) (incl_refl _) f1 n1 G1) as G2.
  destruct (extract (members s) f1 n1) as [[] f2 n2|e f2 n2|f2] eqn:E; cbn [fs_after] in *; trivial.
  destruct (extract_complete s f1 n1 f2 n2 G1 E) as [_ [C [_ [_ _]]]].
  assert (R : forall s, keeps (match s with Train | Val => rmtree DMac | Test => rmtree DTestMac end)) by (intros []; [apply (keeps_rmtree Train)|apply (keeps_rmtree Train)|apply (keeps_rmtree Test)]).
  destruct s; cbn [split_eqb].
  - apply (R Train). exact G2.
  - unfold andthen, op. destruct n2 as [|n2]; [exact G2|]. unfold rename. cbn [archive_dir] in C.
    destruct (dirs f2 DValid) as [l|] eqn:D; [|exact G2].
    destruct (dirs f2 DVal) as [[|x r]|]; [|exact G2|]; apply (R Val); now apply good_renamed.
  - apply (R Test). exact G2.
Qed.
Lemma keeps_construct srv s dl : keeps (construct members srv s dl).
Proof.
  intros f n G. unfold construct. destruct (verify_split s) as [sp|e]; [|exact G]. destruct dl; [|exact G].
  pose proof (keeps_download srv sp f n G) as K. unfold andthen. destruct (download members srv sp f n); exact K.
Qed.
Lemma good_runs cs : good (run_calls members fresh cs).
Proof.
  assert (F : good fresh) by (split; [intros s l; discriminate|now left]).
  unfold run_calls. revert F. generalize fresh. induction cs as [|c cs IH]; intros f F; [exact F|]. cbn [fold_left]. apply IH.
  unfold run_call. now apply keeps_construct.
Qed.

(** rmtree with enough budget *)
Lemma unlink_done d : forall l f n, length l < n -> exists f', unlink_all d l f n = Done tt f' (n - length l - 1) /\
  dirs f' d = None /\ (forall x, x <> d -> dirs f' x = dirs f x) /\ zips f' = zips f.
Proof.
  induction l as [|x l IH]; intros f n L; cbn [length] in L; (destruct n as [|n]; [lia|]).
  - cbn [unlink_all op length]. eexists. split; [f_equal; lia|]. split; [|split; [|reflexivity]].
    + rewrite dirs_set. now destruct (dir_eqb_spec d d).
    + intros y N. rewrite dirs_set. now destruct (dir_eqb_spec y d).
  - cbn [unlink_all]. unfold andthen, op. destruct (IH (set_dir d (Some l) f) n ltac:(lia)) as [f' [E [A [B Z]]]].
    exists f'. split; [rewrite E; f_equal; cbn [length]; lia|]. split; [exact A|]. split; [|exact Z].
    intros y N. rewrite (B y N), dirs_set. now destruct (dir_eqb_spec y d).
Qed.
Lemma download_url_done srv s f n : zips f s = Right \/ srv = SendsRight -> 2 <= n ->
  exists f' n', download_url srv s f n = Done tt f' n' /\ dirs f' = dirs f /\ zips f' s = Right /\ n <= n' + 2.
Proof.
  intros H N. destruct n as [|[|n]]; try lia. unfold download_url.
  assert (X : srv = SendsRight -> exists f' n', (match srv with NoAnswer => Failed OSError f (S (S n))
    | SendsRight => (op (fun f => Ok (set_zip s CutOff f)) ;; op (fun f => Ok (set_zip s Right f))) f (S (S n))
    | SendsWrong => (op (fun f => Ok (set_zip s CutOff f)) ;; op (fun f => Ok (set_zip s Wrong f)) ;; raise RuntimeError) f (S (S n))
    | BreaksOff => (op (fun f => Ok (set_zip s CutOff f)) ;; raise OSError) f (S (S n)) end) = Done tt f' n' /\ dirs f' = dirs f /\ zips f' s = Right /\ S (S n) <= n' + 2).
  { intros ->. unfold andthen, op. eexists. eexists. split; [reflexivity|]. cbn. split; [reflexivity|]. split; [|lia]. now destruct s. }
  destruct (zips f s) eqn:Z; try (apply X; destruct H; congruence). exists f, (S (S n)). repeat split; trivial. lia.
Qed.

(** * Theorems *)
(** In every history, "val" is missing or complete: the images appear at once. *)
Theorem clic_val_atomic : forall cs, let f := run_calls members fresh cs in
  dirs f DVal = None \/ complete members Val f DVal.
Proof. intros cs f. exact (proj2 (good_runs cs)). Qed.
Theorem clic_val_dataset : forall cs srv n, exists paths, let f := run_calls members fresh cs in
  construct members srv "val" false f n = Done paths f n /\ (paths = [] \/ all_pngs members Val paths).
Proof.
  intros cs srv n. exists (png_paths Val (run_calls members fresh cs)). split; [reflexivity|].
  destruct (clic_val_atomic cs) as [H|H]; [left; unfold png_paths; cbn [dir_of]; now rewrite H|right]. now apply complete_paths.
Qed.
(** After any history, a download that is not interrupted repairs train and test, and val if it was never
    finished: the archive is right and all images are there, and nothing else. *)
Theorem clic_repairs : forall cs s, let f := run_calls members fresh cs in
  s <> Val \/ dirs f DVal = None ->
  exists N, forall srv n, zips f s = Right \/ srv = SendsRight -> N <= n ->
  exists paths f' n', construct members srv (split_name s) true f n = Done paths f' n' /\
    all_pngs members s paths /\ complete members s f' (dir_of s) /\ zips f' s = Right /\ dirs f' (mac_dir s) = None.
Proof.
  intros cs s f V. pose proof (good_runs cs) as G. fold f in G.
  (* the length of __MACOSX after extraction *)
  destruct (extract_done (members s) f (2 * length (members s)) (a_nodup _ ar s) (le_n _)) as [fx [nx [EX [_ [_ [INX [_ _]]]]]]].
  destruct (a_mac _ ar s) as [mm [mb MI]]. destruct (INX _ _ _ MI) as [ml [MD _]].
  exists (2 + 2 * length (members s) + 1 + length ml + 1). intros srv n H L.
  destruct (download_url_done srv s f n H ltac:(lia)) as [f1 [n1 [E1 [D1 [Z1 L1]]]]].
  assert (G1 : good f1) by (pose proof (keeps_download_url srv s f n G) as K; rewrite E1 in K; exact K).
  destruct (extract_done (members s) f1 n1 (a_nodup _ ar s) ltac:(lia)) as [f2 [n2 [E2 [B2 _]]]].
  destruct (extract_complete s f1 n1 f2 n2 G1 E2) as [G2 [C2 [Z2 [[ml2 M2] O2]]]].
  assert (ML : ml2 = ml).
  { (* extraction does the same to both file systems *)
    assert (S : forall ms g h k j g' k' h' j', dirs g = dirs h -> extract ms g k = Done tt g' k' -> extract ms h j = Done tt h' j' -> dirs g' = dirs h').
    { induction ms as [|[[d m] b] r IH]; intros g h k j g' k' h' j' DD X Y; [cbn in X, Y; injection X as <- <-; injection Y as <- <-; exact DD|].
      cbn [extract] in X, Y. unfold andthen, op, write in X, Y. destruct k as [|[|k]]; try discriminate. destruct j as [|[|j]]; try discriminate.
      refine (IH _ _ k j g' k' h' j' _ X Y). unfold set_dir. cbn [dirs]. now rewrite DD. }
    pose proof (S (members s) f1 f _ _ _ _ _ _ D1 E2 EX) as SD. rewrite SD in M2. congruence. }
  subst ml2.
  assert (NAME : verify_split (split_name s) = Ok s) by (destruct s; reflexivity).
  assert (FIN : forall g k, complete members s g (dir_of s) -> dirs g (mac_dir s) = Some ml -> zips g s = Right -> length ml < k ->
    exists g' k', rmtree (mac_dir s) g k = Done tt g' k' /\ complete members s g' (dir_of s) /\ zips g' s = Right /\ dirs g' (mac_dir s) = None).
  { intros g k C M Z K. unfold rmtree. rewrite M. destruct (unlink_done (mac_dir s) ml g k K) as [g' [E [A [O ZZ]]]].
    exists g', (k - length ml - 1). split; [exact E|]. split; [|split; [congruence|exact A]].
    destruct C as [l [D X]]. exists l. split; [|exact X]. rewrite O; [exact D|]. destruct s; discriminate. }
  assert (MAC : (match s with Train | Val => rmtree DMac | Test => rmtree DTestMac end) = rmtree (mac_dir s)) by (destruct s; reflexivity).
  unfold construct. rewrite NAME. unfold download. rewrite MAC.
  destruct (split_eqb s Val) eqn:SV.
  - assert (s = Val) by (destruct s; [discriminate|reflexivity|discriminate]). subst s. destruct V as [V|V]; [congruence|].
    cbn [archive_dir mac_dir dir_of] in *. destruct C2 as [l [DL CL]].
    assert (V2 : dirs f2 DVal = None) by (rewrite O2 by discriminate; rewrite D1; exact V).
    destruct n2 as [|n2]; [lia|].
    destruct (FIN (set_dir DVal (Some l) (set_dir DValid None f2)) n2) as [g' [k' [E [C' [Z' M']]]]].
    + exists l. split; [reflexivity|exact CL].
    + exact M2.
    + cbn [zips set_dir]. rewrite Z2. exact Z1.
    + lia.
    + exists (png_paths Val g'), g', k'. split; [|split; [now apply complete_paths|auto]].
      unfold andthen. rewrite E1, E2. unfold op, rename. rewrite DL, V2. rewrite E. reflexivity.
  - assert (DO : dir_of s = archive_dir s) by (destruct s; [reflexivity|discriminate|reflexivity]).
    destruct (FIN f2 n2) as [g' [k' [E [C' [Z' M']]]]].
    + now rewrite DO.
    + exact M2.
    + rewrite Z2. exact Z1.
    + lia.
    + exists (png_paths s g'), g', k'. split; [|split; [now apply complete_paths|auto]].
      unfold andthen. rewrite E1, E2. unfold ret. rewrite E. reflexivity.
Qed.
(** What is downloaded is not downloaded again. *)
Theorem clic_not_again : forall s f n srv srv', zips f s = Right ->
  construct members srv (split_name s) true f n = construct members srv' (split_name s) true f n.
Proof.
  intros s f n srv srv' Z. unfold construct. replace (verify_split (split_name s)) with (@Ok split s) by (destruct s; reflexivity).
  assert (E : forall v, download_url v s f n = Done tt f n) by (intro v; unfold download_url; now rewrite Z).
  unfold download. unfold andthen. now rewrite !E.
Qed.
(** But for "val", once there, every further call with download=True fails, with OSError unless the server
    or a kill intervenes, and leaves "valid" behind; the images stay. *)
Theorem clic_val_again_refuted : forall cs, let f := run_calls members fresh cs in
  dirs f DVal <> None ->
  (forall srv n paths f' n', construct members srv "val" true f n <> Done paths f' n') /\
  (exists N, forall srv n, zips f Val = Right \/ srv = SendsRight -> N <= n ->
     exists f' n', construct members srv "val" true f n = Failed OSError f' n' /\
       complete members Val f' DVal /\ complete members Val f' DValid /\ dirs f' DMac <> None).
Proof.
  intros cs f V. pose proof (good_runs cs) as G. fold f in G.
  assert (NE : forall g, dirs g DVal = dirs f DVal -> exists x r, dirs g DVal = Some (x :: r)).
  { intros g E. destruct G as [_ [C|C]]; [contradiction|]. destruct C as [l [D [_ M]]]. rewrite E, D.
    destruct (a_image _ ar Val) as [m [b I]]. apply M in I. destruct l as [|x r]; [destruct I|]. now exists x, r. }
  assert (U : forall srv n f1 n1, download_url srv Val f n = Done tt f1 n1 -> dirs f1 = dirs f).
  { intros srv n f1 n1 H. unfold download_url in H. destruct (zips f Val); try (injection H as <- <-; reflexivity);
      destruct srv; try discriminate; unfold andthen, op in H; destruct n as [|[|n]]; try discriminate; injection H as <- <-; reflexivity. }
  split.
  - intros srv n paths f' n' H. unfold construct in H. cbn [verify_split String.eqb Ascii.eqb Bool.eqb] in H. unfold download in H. unfold andthen in H.
    destruct (download_url srv Val f n) as [[] f1 n1|e f1 n1|f1] eqn:E1; try discriminate.
    assert (G1 : good f1) by (pose proof (keeps_download_url srv Val f n G) as K; rewrite E1 in K; exact K).
    destruct (extract (members Val) f1 n1) as [[] f2 n2|e f2 n2|f2] eqn:E2; try discriminate.
    destruct (extract_complete Val f1 n1 f2 n2 G1 E2) as [G2 [[l [DL _]] [_ [_ O2]]]]. cbn [split_eqb archive_dir] in *.
    destruct (NE f2) as [x [r NV]]; [rewrite O2 by discriminate; now rewrite (U _ _ _ _ E1)|].
    unfold op, rename in H. rewrite DL, NV in H. destruct n2; discriminate.
  - exists (2 + 2 * length (members Val) + 1). intros srv n H L.
    destruct (download_url_done srv Val f n H ltac:(lia)) as [f1 [n1 [E1 [D1 [Z1 L1]]]]].
    assert (G1 : good f1) by (pose proof (keeps_download_url srv Val f n G) as K; rewrite E1 in K; exact K).
    destruct (extract_done (members Val) f1 n1 (a_nodup _ ar Val) ltac:(lia)) as [f2 [n2 [E2 [B2 _]]]].
    destruct (extract_complete Val f1 n1 f2 n2 G1 E2) as [G2 [C2 [Z2 [[ml M2] O2]]]]. destruct n2 as [|n2]; [lia|].
    exists f2, n2. split.
    + unfold construct. cbn [verify_split String.eqb Ascii.eqb Bool.eqb]. unfold download, andthen. rewrite E1, E2. cbn [split_eqb].
      destruct (NE f2) as [x [r NV]]; [rewrite O2 by discriminate; now rewrite D1|]. destruct C2 as [l [DL _]]. cbn [archive_dir] in DL.
      unfold op, rename. rewrite DL, NV. reflexivity.
    + split; [|split; [exact C2|cbn [mac_dir] in M2; congruence]].
      destruct G2 as [_ [C|C]]; [|exact C]. exfalso. destruct (NE f2) as [x [r NV]]; [rewrite O2 by discriminate; now rewrite D1|]. congruence.
Qed.
(** An archive that is not right is never unpacked: the call fails and no directory changes. *)
Theorem clic_bad_archive : forall s srv f n, zips f s <> Right -> srv <> SendsRight ->
  (forall paths f' n', construct members srv (split_name s) true f n <> Done paths f' n') /\
  dirs (fs_after (construct members srv (split_name s) true f n)) = dirs f /\
  zips (fs_after (construct members srv (split_name s) true f n)) s <> Right.
Proof.
  intros s srv f n Z S. unfold construct. replace (verify_split (split_name s)) with (@Ok split s) by (destruct s; reflexivity).
  assert (E : (exists e f' n', download_url srv s f n = Failed e f' n' /\ dirs f' = dirs f /\ zips f' s <> Right) \/
              (exists f', download_url srv s f n = Killed f' /\ dirs f' = dirs f /\ zips f' s <> Right)).
  { unfold download_url. destruct (zips f s) eqn:Zs; try contradiction; destruct srv; try contradiction;
      try (left; exists OSError, f, n; repeat split; congruence); unfold andthen, op, raise;
      destruct n as [|[|n]]; try (right; eexists; split; [reflexivity|]; split; [reflexivity|]; cbn; destruct s; cbn; congruence);
      left; eexists; eexists; eexists; (split; [reflexivity|]; split; [reflexivity|]; cbn; destruct s; cbn; congruence). }
  unfold download. unfold andthen. destruct E as [[e [f' [n' [-> [D N]]]]]|[f' [-> [D N]]]]; cbn [fs_after]; split; auto; intros; discriminate.
Qed.
(** Other names of splits. *)
Theorem clic_bad_split : forall s srv dl f n, s <> "train" -> s <> "val" -> s <> "test" ->
  construct members srv s dl f n = Failed ValueError f n.
Proof.
  intros s srv dl f n A B C. unfold construct, verify_split. apply String.eqb_neq in A, B, C. now rewrite A, B, C.
Qed.
End Props.

(** Train and test can be accepted half-way: killed after the first image, a later call without download
    returns one image. *)
Theorem clic_partial_refuted : forall members n b rest, members Train = (DTrain, n ++ ".png", b) :: rest ->
  let f := run_calls members fresh [mkC SendsRight "train" true 4] in
  forall srv k, construct members srv "train" false f k = Done [n ++ ".png"] f k.
Proof.
  intros members n b rest E f srv k. assert (F : dirs f DTrain = Some [(n ++ ".png", b)%string]).
  { unfold f, run_calls, run_call. cbn [fold_left c_server c_split c_download c_budget]. unfold construct. cbn [verify_split String.eqb Ascii.eqb Bool.eqb].
    unfold download. rewrite E. unfold andthen, download_url. cbn [zips fresh]. unfold andthen, op. cbn [extract]. unfold andthen, op, write.
    cbn [dirs set_dir set_zip fresh dir_eqb put_file]. rewrite String.eqb_refl.
    destruct rest as [|[[d' n'] b'] rest]; [|cbn [fs_after dirs dir_eqb]; reflexivity]. cbn [extract ret split_eqb].
    unfold rmtree. cbn [dirs set_dir set_zip fresh dir_eqb fs_after]. reflexivity. }
  unfold construct. cbn [verify_split String.eqb Ascii.eqb Bool.eqb]. unfold andthen, ret, png_paths. cbn [dir_of]. rewrite F. cbn [map fst filter].
  rewrite (proj2 (ends_with_png _) (ex_intro _ n eq_refl)). reflexivity.
Qed.

(** A case. *)
Definition small : split -> list (dir * string * bytes) := fun s =>
  [(archive_dir s, "b.png", [1%Z]); (archive_dir s, "a.png", [2%Z]); (mac_dir s, "._a.png", [])].
Example small_archives : archives small.
Proof.
  constructor.
  - intros s d n b [H|[H|[H|[]]]]; injection H as <- _ _; auto.
  - intro s. exists "b.png", [1%Z]. now left.
  - intro s. exists "._a.png", []. right. right. now left.
  - intro s. destruct s; repeat constructor; cbn; intuition discriminate.
Qed.
Example clic_instance : exists f n, construct small SendsRight "val" true fresh 20 = Done ["a.png"; "b.png"] f n.
Proof. eexists. eexists. reflexivity. Qed.
Print Assumptions clic_val_atomic.
Print Assumptions clic_repairs.
Print Assumptions clic_val_again_refuted.

(** C66: the Kodak data set under interrupted downloads. *)
From Coq Require Import String ZArith List Bool Arith Lia.
From Verif Require Import Base Kodak_Model.
Import ListNotations.
Open Scope nat_scope.
Open Scope string_scope.

(** * Specification *)
Definition kodak_files : list string :=
  ["kodim01.png"; "kodim02.png"; "kodim03.png"; "kodim04.png"; "kodim05.png"; "kodim06.png"; "kodim07.png"; "kodim08.png";
   "kodim09.png"; "kodim10.png"; "kodim11.png"; "kodim12.png"; "kodim13.png"; "kodim14.png"; "kodim15.png"; "kodim16.png";
   "kodim17.png"; "kodim18.png"; "kodim19.png"; "kodim20.png"; "kodim21.png"; "kodim22.png"; "kodim23.png"; "kodim24.png"].
Definition published_hash : string := "076e2a5fd4515b5fda677f15fe63dd112d266bc5".
(** The directory holds the 24 files with these contents. *)
Definition holds (f : fs) (contents : list bytes) : Prop :=
  exists d, root f = Some d /\ map d kodak_files = map Some contents.
(** The files are those with the published hash. *)
Definition intact (sha1 : bytes -> string) (f : fs) : Prop :=
  exists contents, holds f contents /\ sha1 (concat contents) = published_hash.

(** * Lemmas *)
Lemma im_list_files : im_list = kodak_files. Proof. reflexivity. Qed.
Lemma files_nodup : NoDup kodak_files.
Proof. repeat constructor; cbn; intuition discriminate. Qed.

Lemma read_all_ok names f b : read_all names f = Ok b ->
  exists cs, b = concat cs /\ length cs = length names /\
    forall d, root f = Some d -> map d names = map Some cs.
Proof.
  revert b. induction names as [|n r IH]; intros b H; cbn [read_all] in H.
  - injection H as <-. exists []. auto.
  - destruct (read n f) as [c|e] eqn:R; cbn [bind] in H; [|discriminate].
    destruct (read_all r f) as [bs|e] eqn:RA; cbn [bind] in H; [|discriminate]. injection H as <-.
    destruct (IH bs eq_refl) as [cs [-> [L M]]]. exists (c :: cs). split; [reflexivity|]. split; [cbn; congruence|].
    intros d D. cbn [map]. rewrite (M d D). f_equal. unfold read in R. rewrite D in R. destruct (d n) as [c0|] eqn:Dn; [injection R as ->; reflexivity|discriminate].
Qed.
Lemma read_all_map names f d cs : root f = Some d -> map d names = map Some cs -> read_all names f = Ok (concat cs).
Proof.
  intro D. revert cs. induction names as [|n r IH]; intros [|c cs] H; cbn in H; try discriminate; [reflexivity|].
  injection H as H1 H2. cbn [read_all]. unfold read at 1. rewrite D, H1. cbn [bind]. rewrite (IH cs H2). reflexivity.
Qed.
Lemma read_all_root names f b : names <> [] -> read_all names f = Ok b -> root f <> None.
Proof.
  destruct names as [|n r]; [easy|]. intros _ H E. cbn [read_all] in H. unfold read in H. rewrite E in H. discriminate.
Qed.
Lemma check_cases sha1 f n : 
  (intact sha1 f /\ check_integrity sha1 f n = Done tt f n) \/
  (~ intact sha1 f /\ exists e, check_integrity sha1 f n = Failed e f n).
Proof.
  unfold check_integrity, andthen, get. rewrite im_list_files. destruct (read_all kodak_files f) as [b|e] eqn:R.
  - destruct (read_all_ok _ _ _ R) as [cs [-> [L M]]]. destruct (root f) as [d|] eqn:D; [|now apply read_all_root in R].
    specialize (M d eq_refl). destruct (String.eqb_spec (sha1 (concat cs)) SHA_HASH) as [E|E].
    + left. split; [|reflexivity]. exists cs. split; [|exact E]. exists d. now split.
    + right. split; [|now exists RuntimeError]. intros [cs' [[d' [D' M']] H]]. rewrite D in D'. injection D' as <-.
      apply E. rewrite M in M'. assert (cs = cs').
      { clear - M'. revert cs' M'. induction cs as [|c cs IH]; intros [|c' cs'] M; cbn in M; try discriminate; [reflexivity|].
        injection M as -> M. f_equal. now apply IH. }
      subst cs'. exact H.
  - right. split; [|now exists e]. intros [cs [[d [D M]] H]]. rewrite (read_all_map _ _ _ _ D M) in R. discriminate.
Qed.

(** * Theorems *)
(** Whatever happened before: a checked construction that returns has the intact files, and it
    does return exactly then, if nothing is to be downloaded. *)
Theorem kodak_checked_intact : forall sha1 srv a f n f' n', a_check a = true ->
  construct sha1 srv a f n = Done tt f' n' -> intact sha1 f'.
Proof.
  intros sha1 srv a f n f' n' C H. unfold construct in H. unfold andthen at 1 in H.
  match type of H with match ?x with _ => _ end = _ => destruct x as [u f1 n1|e f1 n1|f1]; try discriminate end.
  rewrite C in H. destruct (check_cases sha1 f1 n1) as [[I E]|[_ [e E]]]; rewrite E in H; [injection H as <- <-; exact I|discriminate].
Qed.
Theorem kodak_local_iff : forall sha1 srv a f n, a_check a = true -> a_download a = false ->
  (intact sha1 f <-> construct sha1 srv a f n = Done tt f n).
Proof.
  intros sha1 srv a f n C D. unfold construct. rewrite D, C. unfold andthen, get, ret, raise. split.
  - intros I. destruct (root f) eqn:R; [|destruct I as [? [[? [X _]] _]]; congruence].
    destruct (check_cases sha1 f n) as [[_ E]|[N _]]; [exact E|contradiction].
  - destruct (root f); [|discriminate]. intro H. destruct (check_cases sha1 f n) as [[I _]|[_ [e E]]]; [exact I|congruence].
Qed.
(** Then the items are the 24 files in order, from both ends, and no others. *)
Theorem kodak_items : forall f contents i, holds f contents ->
  len = 24 /\ length contents = 24 /\
  getitem i f = if ((-24 <=? i) && (i <? 24))%Z
                then Ok (nth (Z.to_nat (if (i <? 0)%Z then i + 24 else i)) contents [])
                else Raise IndexError.
Proof.
  intros f cs i [d [D M]].
  assert (L : length cs = 24) by (apply (f_equal (@length _)) in M; rewrite !map_length in M; now rewrite <- M).
  split; [reflexivity|]. split; [exact L|]. unfold getitem. rewrite im_list_files. change (Z.of_nat len) with 24%Z. cbv zeta.
  set (j := if (i <? 0)%Z then (i + 24)%Z else i).
  replace ((0 <=? j) && (j <? 24))%Z with ((-24 <=? i) && (i <? 24))%Z.
  2:{ unfold j. destruct (Z.ltb_spec i 0).
      - destruct (Z.leb_spec (-24) i), (Z.leb_spec 0 (i + 24)), (Z.ltb_spec i 24), (Z.ltb_spec (i + 24) 24); cbn; try reflexivity; lia.
      - destruct (Z.leb_spec (-24) i), (Z.leb_spec 0 i), (Z.ltb_spec i 24); cbn; try reflexivity; lia. }
  destruct ((-24 <=? i) && (i <? 24))%Z eqn:B; [|reflexivity].
  apply andb_true_iff in B. destruct B as [B1 B2]. apply Z.leb_le in B1. apply Z.ltb_lt in B2.
  assert (J : (0 <= j < 24)%Z) by (unfold j; destruct (Z.ltb_spec i 0); lia).
  set (k := Z.to_nat j). assert (K : k < 24) by (unfold k; lia).
  assert (N : nth_error kodak_files k = Some (nth k kodak_files "")).
  { apply nth_error_nth'. exact K. }
  rewrite N. unfold read. rewrite D.
  assert (X : nth k (map d kodak_files) None = nth k (map Some cs) None) by now rewrite M.
  rewrite (nth_indep (map d kodak_files) None (d "")) in X by (rewrite map_length; exact K). rewrite map_nth in X.
  rewrite X. rewrite (nth_indep (map Some cs) None (Some [])) by (rewrite map_length; lia). rewrite map_nth. reflexivity.
Qed.

(** No call changes a root directory that exists: neither with force_download nor when killed. *)
Theorem kodak_existing_unchanged : forall sha1 f cs, root f <> None -> run_calls sha1 f cs = f.
Proof.
  intros sha1 f cs R. unfold run_calls. induction cs as [|c cs IH]; [reflexivity|]. cbn [fold_left].
  replace (run_call sha1 f c) with f; [exact IH|]. clear IH.
  assert (CK : forall n, fs_after ((if a_check (c_args c) then check_integrity sha1 else ret tt) f n) = f).
  { intro n. destruct (a_check (c_args c)); [|reflexivity]. destruct (check_cases sha1 f n) as [[_ E]|[_ [e E]]]; rewrite E; reflexivity. }
  unfold run_call, construct. unfold andthen at 1. destruct (a_download (c_args c)).
  - unfold download, andthen at 1, get. destruct (root f) as [d|] eqn:D; [|easy]. destruct (a_force (c_args c)); cbn [andb negb].
    + unfold andthen at 1, op. destruct (c_budget c); [reflexivity|]. unfold mkdir. rewrite D. reflexivity.
    + reflexivity.
  - unfold andthen at 1, get. destruct (root f) as [d|] eqn:D; [|easy]. unfold ret. symmetry. apply CK.
Qed.

(** The documented force_download: an existing directory is never downloaded into. *)
Theorem kodak_force_refuted : forall sha1 srv a f n, a_download a = true -> root f <> None ->
  construct sha1 srv a f (S n) = Failed (if a_force a then FileExistsError else RuntimeError) f
    (if a_force a then n else S n).
Proof.
  intros sha1 srv a f n D R. unfold construct. rewrite D. unfold download, andthen, get. destruct (root f) as [d|] eqn:E; [|easy].
  destruct (a_force a); cbn [andb negb]; [|reflexivity]. unfold op, mkdir. rewrite E. reflexivity.
Qed.
(** So a directory that is not intact can never be used or repaired through the class: every
    later checked construction fails, whatever happens in between. *)
Theorem kodak_damaged_forever_refuted : forall sha1 f cs srv a n, root f <> None -> ~ intact sha1 f ->
  a_check a = true -> forall f' n', construct sha1 srv a (run_calls sha1 f cs) n <> Done tt f' n'.
Proof.
  intros sha1 f cs srv a n R N C f' n' H. rewrite (kodak_existing_unchanged sha1 f cs R) in H.
  pose proof (kodak_checked_intact sha1 srv a f n f' n' C H) as I. apply N.
  replace f with f'; [exact I|].
  pose proof (kodak_existing_unchanged sha1 f [mkC srv a n] R) as U. unfold run_calls in U. cbn [fold_left] in U.
  unfold run_call in U. cbn [c_server c_args c_budget] in U. rewrite H in U. exact U.
Qed.

(** Downloading: bookkeeping. *)
Definition with_file (f : fs) (name : string) (b : bytes) : fs :=
  match root f with
  | Some d => mkFS (parent f) (Some (fun m => if String.eqb m name then Some b else d m))
  | None => f
  end.
Lemma put_ok name b f : root f <> None -> put name b f = Ok (with_file f name b).
Proof. intro R. unfold put, with_file. now destruct (root f). Qed.
Lemma with_file_root f name b : root f <> None -> root (with_file f name b) <> None.
Proof. intro R. unfold with_file. now destruct (root f). Qed.
(** The contents of a file of the directory. *)
Definition file (f : fs) (name : string) : option bytes :=
  match root f with Some d => d name | None => None end.
Lemma file_with f name b m : root f <> None -> file (with_file f name b) m = if String.eqb m name then Some b else file f m.
Proof. intro R. unfold with_file, file. destruct (root f); [reflexivity|easy]. Qed.
Lemma copy_runs name : forall todo done f n, root f <> None -> file f name = Some done -> length todo <= n ->
  exists f', copy name done todo f n = Done tt f' (n - length todo) /\ root f' <> None /\
    file f' name = Some (done ++ todo)%list /\ forall m, m <> name -> file f' m = file f m.
Proof.
  induction todo as [|c r IH]; intros done f n R F N.
  - exists f. cbn. rewrite app_nil_r, Nat.sub_0_r. auto.
  - destruct n as [|n]; [cbn in N; lia|]. cbn [copy]. unfold andthen, op. rewrite put_ok by exact R.
    destruct (IH (done ++ [c])%list (with_file f name (done ++ [c])%list) n) as [f' [E [R' [F' O]]]].
    + now apply with_file_root.
    + rewrite file_with by exact R. now rewrite String.eqb_refl.
    + cbn in N. lia.
    + exists f'. cbn [length Nat.sub]. split; [exact E|]. split; [exact R'|]. split; [rewrite F', <- app_assoc; reflexivity|].
      intros m M. rewrite O by exact M. rewrite file_with by exact R. apply String.eqb_neq in M. now rewrite M.
Qed.
Lemma fetch_runs srv url name b f n : srv (url ++ name) = Some (b, false) -> root f <> None -> length b + 1 <= n ->
  exists f', fetch srv url name f n = Done tt f' (n - (length b + 1)) /\ root f' <> None /\
    file f' name = Some b /\ forall m, m <> name -> file f' m = file f m.
Proof.
  intros S R N. unfold fetch. rewrite S. destruct n as [|n]; [lia|]. unfold andthen at 1, op. rewrite put_ok by exact R.
  destruct (copy_runs name b [] (with_file f name []) n) as [f' [E [R' [F' O]]]].
  - now apply with_file_root.
  - rewrite file_with by exact R. now rewrite String.eqb_refl.
  - lia.
  - exists f'. unfold andthen. rewrite E. unfold ret. split; [f_equal; lia|]. split; [exact R'|]. split; [exact F'|].
    intros m M. rewrite O by exact M. rewrite file_with by exact R. apply String.eqb_neq in M. now rewrite M.
Qed.
Lemma fetch_all_runs srv url (content : string -> bytes) : forall names f n, NoDup names ->
  (forall m, In m names -> srv (url ++ m) = Some (content m, false)) -> root f <> None ->
  list_sum (map (fun m => length (content m) + 1) names) <= n ->
  exists f' n', fetch_all srv url names f n = Done tt f' n' /\ root f' <> None /\
    (forall m, In m names -> file f' m = Some (content m)) /\ (forall m, ~ In m names -> file f' m = file f m).
Proof.
  induction names as [|x r IH]; intros f n ND SV R N.
  - exists f, n. split; [reflexivity|]. split; [exact R|]. split; [intros m []|reflexivity].
  - inversion_clear ND as [|? ? NI ND']. cbn [map list_sum fold_right] in N. fold (list_sum (map (fun m => length (content m) + 1) r)) in N.
    destruct (fetch_runs srv url x (content x) f n) as [f1 [E1 [R1 [F1 O1]]]]; [apply SV; now left|exact R|lia|].
    destruct (IH f1 (n - (length (content x) + 1))) as [f' [n' [E [R' [F' O']]]]]; trivial.
    + intros m M. apply SV. now right.
    + unfold list_sum in *. lia.
    + exists f', n'. cbn [fetch_all]. unfold andthen. rewrite E1. split; [exact E|]. split; [exact R'|]. split.
      * intros m [<-|M]; [|now apply F']. rewrite O' by exact NI. exact F1.
      * intros m M. rewrite O'; [|intro; apply M; now right]. apply O1. intro; subst; apply M; now left.
Qed.
Lemma download_fresh srv url force f n : parent f = true -> root f = None ->
  download srv url force f (S n) = fetch_all srv url kodak_files (mkFS true (Some (fun _ => None))) n.
Proof. intros P R. unfold download, andthen, get. rewrite R. cbn [andb]. unfold op, mkdir. rewrite R, P. reflexivity. Qed.
(** A download into a new directory that is not interrupted, from a server with the right files,
    succeeds and leaves exactly the files of the server. *)
Theorem kodak_fresh_download : forall sha1 srv a f (content : string -> bytes),
  a_download a = true -> parent f = true -> root f = None ->
  (forall m, In m kodak_files -> srv (a_url a ++ m) = Some (content m, false)) ->
  sha1 (concat (map content kodak_files)) = published_hash ->
  forall n, 1 + list_sum (map (fun m => length (content m) + 1) kodak_files) <= n ->
  exists f' n', construct sha1 srv a f n = Done tt f' n' /\
    forall m, file f' m = if in_dec string_dec m kodak_files then Some (content m) else None.
Proof.
  intros sha1 srv a f content D P R SV H n N. unfold construct. rewrite D. destruct n as [|n]; [lia|].
  destruct (fetch_all_runs srv (a_url a) content kodak_files (mkFS true (Some (fun _ => None))) n files_nodup SV) as [f' [n' [E [R' [F' O']]]]].
  - discriminate.
  - lia.
  - exists f', n'. split.
    + unfold andthen at 1. rewrite (download_fresh _ _ _ _ _ P R), E. destruct (a_check a); [|reflexivity].
      destruct (check_cases sha1 f' n') as [[_ C]|[NI _]]; [exact C|]. exfalso. apply NI. exists (map content kodak_files).
      split; [|exact H]. destruct (root f') as [d|] eqn:D'; [|easy]. exists d. split; [exact D'|]. rewrite map_map.
      apply map_ext_in. intros m M. specialize (F' m M). unfold file in F'. now rewrite D' in F'.
    + intro m. destruct (in_dec _ m kodak_files) as [M|M]; [now apply F'|]. now rewrite (O' m M).
Qed.

(** Every call with download into a new directory that is killed or fails after the directory
    was made leaves a directory; and a kill right after mkdir leaves an empty one.  This is how the
    state of [kodak_damaged_forever_refuted] arises. *)
Theorem kodak_killed_download : forall sha1 srv a f, a_download a = true -> parent f = true -> root f = None ->
  srv (a_url a ++ "kodim01.png") <> None ->
  exists f', construct sha1 srv a f 1 = Killed f' /\ root f' <> None /\ (forall m, file f' m = None) /\ ~ intact sha1 f'.
Proof.
  intros sha1 srv a f D P R S. unfold construct. rewrite D. unfold andthen at 1. rewrite (download_fresh _ _ _ _ _ P R).
  exists (mkFS true (Some (fun _ => None))). split.
  - unfold kodak_files. cbn [fetch_all]. unfold andthen at 1, fetch at 1.
    destruct (srv (a_url a ++ "kodim01.png")) as [[b fl]|]; [reflexivity|easy].
  - split; [discriminate|]. split; [reflexivity|]. intros [cs [[d [E M]] _]]. cbn in E. injection E as <-. destruct cs; discriminate.
Qed.

(** Without the check every existing directory is accepted. *)
Theorem kodak_unchecked_refuted : forall sha1 srv a f n, a_check a = false -> a_download a = false -> root f <> None ->
  construct sha1 srv a f n = Done tt f n.
Proof.
  intros sha1 srv a f n C D R. unfold construct. rewrite C, D. unfold andthen, get, ret. destruct (root f); [reflexivity|easy].
Qed.
(** The hash does not see where one file ends and the next begins: moving bytes from the end of
    a file to the beginning of the next goes unnoticed. *)
Theorem kodak_boundaries_refuted : forall sha1 f x y z rest, holds f ((x ++ y) :: z :: rest)%list ->
  intact sha1 f ->
  let f' := with_file (with_file f "kodim01.png" x) "kodim02.png" (y ++ z)%list in
  holds f' (x :: (y ++ z) :: rest)%list /\ intact sha1 f'.
Proof.
  intros sha1 f x y z rest [d [D M]] [cs [[d' [D' M']] H]] f'. rewrite D in D'. injection D' as <-.
  assert (CS : cs = ((x ++ y) :: z :: rest)%list).
  { rewrite M in M'. clear - M'. revert cs M'. generalize ((x ++ y) :: z :: rest)%list. intro l.
    induction l as [|c l IH]; intros [|c' cs] M; cbn in M; try discriminate; [reflexivity|]. injection M as -> M. f_equal. now apply IH. }
  assert (HO : holds f' (x :: (y ++ z)%list :: rest)).
  { unfold f', with_file. rewrite D. cbn [root]. eexists. split; [reflexivity|]. cbn [map] in M |- *.
    injection M as M1 M2 M3. cbn [String.eqb Ascii.eqb Bool.eqb]. rewrite <- M3. reflexivity. }
  split; [exact HO|]. exists (x :: (y ++ z)%list :: rest). split; [exact HO|]. rewrite <- H, CS. f_equal.
  cbn [concat]. now rewrite <- !app_assoc.
Qed.
(** No parent directory. *)
Theorem kodak_no_parent : forall sha1 srv a f n, a_download a = true -> parent f = false -> root f = None ->
  construct sha1 srv a f (S n) = Failed FileNotFoundError f n.
Proof.
  intros sha1 srv a f n D P R. unfold construct. rewrite D. unfold download, andthen, get. rewrite R. cbn [andb].
  unfold op, mkdir. rewrite R, P. reflexivity.
Qed.

(** A case: every file holds one byte, and the hash accepts them. *)
Example kodak_instance : exists f' n', 
  construct (fun _ => published_hash) (fun _ => Some ([1%Z], false)) (mkA true true false "http://x/") (mkFS true None) 60 = Done tt f' n' /\
  getitem (-1) f' = Ok [1%Z].
Proof.
  destruct (kodak_fresh_download (fun _ => published_hash) (fun _ => Some ([1%Z], false)) (mkA true true false "http://x/") (mkFS true None)
    (fun _ => [1%Z]) eq_refl eq_refl eq_refl (fun _ _ => eq_refl) eq_refl 60 ltac:(vm_compute; lia)) as [f' [n' [E F]]].
  exists f', n'. split; [exact E|]. specialize (F "kodim24.png"). cbn in F.
  change (getitem (-1) f') with (read "kodim24.png" f'). unfold read. unfold file in F. destruct (root f') as [d|]; [|discriminate]. now rewrite F.
Qed.
Print Assumptions kodak_checked_intact.
Print Assumptions kodak_damaged_forever_refuted.
Print Assumptions kodak_fresh_download.
Print Assumptions kodak_boundaries_refuted.

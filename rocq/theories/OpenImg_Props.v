(** C71: the Open Images V6 and DIV2K data sets and the data module of the illm project. *)
From Coq Require Import String Ascii ZArith List Bool Arith Lia Sorted Permutation.
From Verif Require Import Base ClicImg_Model OpenImg_Model ClicImg_Props.
Import ListNotations.
Open Scope string_scope.
Open Scope nat_scope.

(** * Specification *)
Fixpoint chars (P : ascii -> Prop) (s : string) : Prop :=
  match s with EmptyString => True | String c r => P c /\ chars P r end.
(** Printable, no dot and no slash. *)
Definition plain_char (c : ascii) : Prop := 32 < nat_of_ascii c /\ c <> "."%char /\ c <> "/"%char.
(** An image of the list: its name, and its extension with the dot, or nothing. *)
Definition item := (string * string)%type.
Definition full (i : item) : string := fst i ++ snd i.
Definition ok_item (i : item) : Prop :=
  fst i <> "" /\ chars plain_char (fst i) /\ (snd i = "" \/ exists e, snd i = String "." e /\ chars plain_char e).
(** The list file: an end of line after each name, but perhaps not after the last. *)
Definition lf : string := String (ascii_of_nat 10) "".
Definition crlf : string := String (ascii_of_nat 13) (String (ascii_of_nat 10) "").
Fixpoint listing (eol : string) (final : bool) (l : list item) : string :=
  match l with
  | [] => ""
  | [i] => full i ++ (if final then eol else "")
  | i :: r => full i ++ eol ++ listing eol final r
  end.
(** The names of broken train images, sorted. *)
Definition broken : list string :=
  [
   "0248001275c71dc8"; "0364f5c6f964e1bc"; "0a866d6fd1ea9317"; "0b76aafb249fc5b7"; "0c616f7947875acc";
   "0df79dea97961a10"; "0efa17ee62d7caf9"; "14098132e2032aaf"; "16f199c310a1b7ac"; "193edd6c8ef39251";
   "1b564e7e54361fc2"; "235f7b87aa67461e"; "23e5990f0ed037a7"; "24b77bff6bfd736c"; "24d76ef27ba41f38";
   "2e58f4a0d31e9be1"; "2e7f9bc07e7bd4d8"; "2ff06b2f1ba0cc51"; "31968a4b02d9981b"; "33bbb7e2c767c773";
   "36a83a554ef21da2"; "39a876a07f18f837"; "39af00cf7013519c"; "3dfceab39d674168"; "3e260ed1bfd6509e";
   "42a6df3ac3bf2d33"; "439e232d7531027e"; "48212be4d45c5c1a"; "4ce068dcc2ae3cc9"; "4ddbede0f1bdc602";
   "50eb15613b100675"; "59847832eb83aaa1"; "5cbd57fd38a45852"; "5ef177f1391765d3"; "61db1e0c8174b3c3";
   "61efc69916e8fa1e"; "62a1bbca8a844225"; "62be906e5077bffa"; "646605f070b9883f"; "659c55b26b92c5ab";
   "67b1dfe383f92dcf"; "6a5bdb01a0f99891"; "6b1efb7bf49e27be"; "6bba1f25a1ee68e8"; "723a41acf8804460";
   "73497cedb79d23a4"; "73f886b2ab2f5bd9"; "752cf54040dc80d7"; "7996ed8f1f35ce83"; "79bcae5f044a69fb";
   "8075443714f28729"; "80d19062a39df158"; "83c0499d3e8fdb06"; "8604fd077594d226"; "88161ed23f3379b4";
   "895ef7a64e2858c1"; "8b1f16626a5bbc82"; "8d7efba30eeca417"; "91d66b5ddcb4f5a3"; "93fd5f0899065d78";
   "965b4dccff47fa5d"; "97e9a3774468eb35"; "9f860289e93d11fc"; "a7adff7aede82670"; "adcd441c940a8832";
   "add170ca187afcd7"; "ae811292e322abe1"; "b146377ed3af77ec"; "b6474a1a69bbbe49"; "b840cb6cca32d756";
   "b8543f9c563bad6a"; "b9511a25bf6aa6d9"; "b9e6642fc707d78f"; "bcd2dfa3750ea055"; "bebf5b2470a3955c";
   "bf8844bdf5fcded4"; "c100f8bda2d56a6d"; "c18b0a385e0d8257"; "c2ffdc701a70e9a1"; "c57eb29e74376b15";
   "c5ad20115f79cc66"; "c977b4fd166e908b"; "cbcdc984e6f0d41d"; "cf81b04e3baf23d8"; "d1fdbbb705bb6016";
   "d45776312fb97ff6"; "d5af6277007b6001"; "d66352405f0385e3"; "da1267b1196c8e79"; "daa2fa027bd35189";
   "de2ea1f167b03dab"; "dfc42b77003e55d3"; "e752e43deb95c51c"; "ea15e23587edc562"; "eb8fab01d113dc3b";
   "ec1a5e86a7d570c8"; "ec40941f60fbc594"; "ecd25d7e90027c89"; "f0508277b718aa55"; "fb6574ec2e4e4bb8"].
Definition by_name (x y : item) : Prop := String.leb (full x) (full y) = true.

(** * Sorting *)
Notation ssorted := (StronglySorted (fun x y => String.leb x y = true)).
Lemma sorted_unique : forall l1 l2, ssorted l1 -> ssorted l2 -> Permutation l1 l2 -> l1 = l2.
Proof.
  induction l1 as [|x l1 IH]; intros l2 S1 S2 P.
  - now apply Permutation_nil in P.
  - destruct l2 as [|y l2]; [apply Permutation_sym, Permutation_nil in P; discriminate|].
    inversion_clear S1 as [|? ? S1' F1]. inversion_clear S2 as [|? ? S2' F2]. rewrite Forall_forall in F1, F2.
    assert (x = y).
    { assert (X : In x (y :: l2)) by (eapply Permutation_in; [exact P|now left]).
      assert (Y : In y (x :: l1)) by (eapply Permutation_in; [apply Permutation_sym; exact P|now left]).
      destruct X as [->|X]; [reflexivity|]. destruct Y as [->|Y]; [reflexivity|].
      apply String.leb_antisym; [now apply F1|now apply F2]. }
    subst y. f_equal. apply IH; trivial. now apply Permutation_cons_inv in P.
Qed.
Lemma sort_permuted l1 l2 : Permutation l1 l2 -> sort l1 = sort l2.
Proof.
  intro P. apply sorted_unique; try apply sort_sorted. eapply perm_trans; [apply Permutation_sym, sort_perm|]. eapply perm_trans; [exact P|apply sort_perm].
Qed.
Lemma sort_map f l : (forall x y, In x l -> In y l -> String.leb x y = true -> String.leb (f x) (f y) = true) ->
  map f (sort l) = sort (map f l).
Proof.
  intro M. apply sorted_unique; [|apply sort_sorted|].
  - assert (I : forall x, In x (sort l) -> In x l) by (intros x; apply Permutation_in, Permutation_sym, sort_perm).
    pose proof (sort_sorted l) as S. induction S as [|x r S IH F]; cbn [map]; constructor.
    + apply IH. intros y J. apply I. now right.
    + apply Forall_forall. intros y J. apply in_map_iff in J. destruct J as [z [<- J]]. rewrite Forall_forall in F.
      apply M; [apply I; now left|apply I; now right|now apply F].
  - eapply perm_trans; [apply Permutation_map, Permutation_sym, sort_perm|apply sort_perm].
Qed.

(** * Lines *)
Lemma app_assoc_s a b c : ((a ++ b) ++ c)%string = (a ++ (b ++ c))%string.
Proof. induction a as [|x a IH]; cbn; [reflexivity|now rewrite IH]. Qed.
Lemma app_nil_s a : (a ++ "")%string = a.
Proof. induction a as [|x a IH]; cbn; [reflexivity|now rewrite IH]. Qed.
Lemma chars_app P a b : chars P (a ++ b) <-> chars P a /\ chars P b.
Proof. induction a as [|x a IH]; cbn; [tauto|]. rewrite IH. tauto. Qed.
Definition printable (c : ascii) : Prop := 32 < nat_of_ascii c.
Lemma chars_impl (P Q : ascii -> Prop) s : (forall c, P c -> Q c) -> chars P s -> chars Q s.
Proof. intro H. induction s as [|c s IH]; cbn; [trivial|]. intros [A B]. auto. Qed.
Lemma full_printable i : ok_item i -> chars printable (full i) /\ full i <> "".
Proof.
  intros [N [P E]]. split.
  - unfold full. apply chars_app. split; [eapply chars_impl; [|exact P]; intros c [H _]; exact H|].
    destruct E as [->|[e [-> E]]]; [exact I|]. split; [unfold printable; vm_compute; lia|]. eapply chars_impl; [|exact E]. intros c [H _]. exact H.
  - unfold full. destruct (fst i); [easy|discriminate].
Qed.
Lemma printable_not_newline c : printable c -> Ascii.eqb c newline = false /\ Ascii.eqb c return_char = false /\ is_space c = false.
Proof.
  unfold printable. intro H. split; [|split].
  - apply Ascii.eqb_neq. intros ->. vm_compute in H. lia.
  - apply Ascii.eqb_neq. intros ->. vm_compute in H. lia.
  - unfold is_space. set (n := nat_of_ascii c) in *. replace (Nat.leb n 13) with false by (symmetry; apply Nat.leb_gt; lia).
    replace (Nat.leb n 32) with false by (symmetry; apply Nat.leb_gt; lia). now rewrite !andb_false_r.
Qed.
Lemma universal_app s r : chars printable s -> universal (s ++ r) = (s ++ universal r)%string.
Proof.
  induction s as [|c s IH]; cbn [append universal chars]; [reflexivity|]. intros [P C]. destruct (printable_not_newline c P) as [_ [-> _]]. now rewrite IH.
Qed.
Lemma universal_eol eol r : eol = lf \/ eol = crlf -> universal (eol ++ r) = (lf ++ universal r)%string.
Proof. intros [->| ->]; reflexivity. Qed.
Lemma readlines_line s r : chars printable s -> readlines (s ++ lf ++ r) = (s ++ lf)%string :: readlines r.
Proof.
  induction s as [|c s IH]; [reflexivity|]. intros [P C]. cbn [append readlines]. destruct (printable_not_newline c P) as [-> _].
  now rewrite (IH C).
Qed.
Lemma readlines_last s : chars printable s -> s <> "" -> readlines s = [s].
Proof.
  induction s as [|c s IH]; [easy|]. intros [P C] _. cbn [readlines]. destruct (printable_not_newline c P) as [-> _].
  destruct s as [|d s]; [reflexivity|]. now rewrite (IH C).
Qed.
Lemma rstrip_printable s : chars printable s -> rstrip s = s.
Proof.
  induction s as [|c s IH]; [reflexivity|]. intros [P C]. cbn [rstrip]. rewrite (IH C). destruct (printable_not_newline c P) as [_ [_ ->]]. now destruct s.
Qed.
Lemma rstrip_line s : chars printable s -> rstrip (s ++ lf) = s.
Proof.
  induction s as [|c s IH]; [reflexivity|]. intros [P C]. cbn [append rstrip]. rewrite (IH C). destruct (printable_not_newline c P) as [_ [_ ->]]. now destruct s.
Qed.
(** The lines read from a listing. *)
Definition line_of (s l : string) : Prop := l = s \/ l = (s ++ lf)%string.
Lemma listing_lines eol final : eol = lf \/ eol = crlf -> forall l, Forall ok_item l ->
  Forall2 (fun i => line_of (full i)) l (readlines (universal (listing eol final l))).
Proof.
  intros E l F. induction F as [|i r O F IH]; [constructor|]. destruct (full_printable i O) as [P N].
  destruct r as [|j r].
  - cbn [listing]. destruct final.
    + replace (full i ++ eol)%string with (full i ++ eol ++ "")%string by (now rewrite app_nil_s).
      rewrite universal_app, universal_eol by assumption. cbn [universal].
      rewrite readlines_line by assumption. constructor; [now right|constructor].
    + rewrite universal_app by assumption. cbn [universal]. rewrite app_nil_s. rewrite readlines_last by assumption. repeat constructor.
  - change (listing eol final (i :: j :: r)) with (full i ++ eol ++ listing eol final (j :: r))%string.
    rewrite universal_app, universal_eol by assumption. rewrite readlines_line by assumption. constructor; [now right|exact IH].
Qed.
Lemma line_mono s t l m : chars printable s -> chars printable t -> line_of s l -> line_of t m -> String.leb l m = true -> String.leb s t = true.
Proof.
  intros Ps Pt L M.
  assert (X : exists e1 e2, (e1 = "" \/ e1 = lf) /\ (e2 = "" \/ e2 = lf) /\ l = (s ++ e1)%string /\ m = (t ++ e2)%string).
  { destruct L as [->| ->], M as [->| ->]; [exists "", ""|exists "", lf|exists lf, ""|exists lf, lf]; rewrite ?app_nil_s; auto. }
  clear L M. destruct X as [e1 [e2 [E1 [E2 [-> ->]]]]]. revert t Pt. induction s as [|c s IH]; intros t Pt.
  - intros _. unfold String.leb. destruct t; reflexivity.
  - destruct Ps as [P Ps]. destruct t as [|d t].
    + cbn [append]. intro H. exfalso. destruct E2 as [->| ->]; [discriminate|]. unfold lf, String.leb in H. cbn [String.compare] in H.
      assert (G : Ascii.compare c (ascii_of_nat 10) = Gt).
      { unfold Ascii.compare. apply N.compare_gt_iff. unfold printable, nat_of_ascii in P. change (N_of_ascii (ascii_of_nat 10)) with 10%N. lia. }
      rewrite G in H. discriminate.
    + destruct Pt as [Q Pt]. unfold String.leb. cbn [append String.compare]. destruct (Ascii.compare c d); [|trivial|trivial].
      intro H. now apply (IH Ps t Pt).
Qed.

(** * Names *)
Lemma rfind_none c s : chars (fun d => d <> c) s -> rfind c s = None.
Proof. induction s as [|d s IH]; [reflexivity|]. intros [N C]. cbn [rfind]. rewrite (IH C). apply Ascii.eqb_neq in N. now rewrite N. Qed.
Lemma rfind_app c s r : rfind c (s ++ r) = match rfind c r with Some i => Some (String.length s + i) | None => rfind c s end.
Proof.
  induction s as [|d s IH]; cbn [append rfind String.length plus]; [now destruct (rfind c r)|]. rewrite IH. destruct (rfind c r); reflexivity.
Qed.
Lemma substring_app_l a b : substring 0 (String.length a) (a ++ b) = a.
Proof. induction a as [|x a IH]; cbn; [now destruct b|now rewrite IH]. Qed.
Lemma splitext_item i : ok_item i -> splitext_root (full i) = fst i.
Proof.
  intros [N [P E]]. unfold splitext_root, full. destruct i as [n e]. cbn [fst snd] in *.
  assert (D : rfind "." n = None) by (apply rfind_none; eapply chars_impl; [|exact P]; intros c [_ [H _]]; exact H).
  assert (S : chars (fun c => c <> "/"%char) n) by (eapply chars_impl; [|exact P]; intros c [_ [_ H]]; exact H).
  destruct E as [->|[x [-> X]]].
  - rewrite app_nil_s, D. reflexivity.
  - assert (DX : rfind "." (String "." x) = Some 0).
    { cbn [rfind]. rewrite (rfind_none "." x); [reflexivity|]. eapply chars_impl; [|exact X]. intros c [_ [H _]]. exact H. }
    rewrite rfind_app, DX, Nat.add_0_r. rewrite (rfind_none "/" (n ++ String "." x)).
    + cbn [Nat.ltb Nat.leb]. rewrite Nat.sub_0_r, substring_app_l.
      destruct n as [|c n]; [easy|]. destruct P as [[_ [H _]] _]. apply Ascii.eqb_neq in H. cbn [all_dots]. now rewrite H.
    + apply chars_app. split; [exact S|]. split; [discriminate|]. eapply chars_impl; [|exact X]. intros c [_ [_ H]]. exact H.
Qed.
Lemma existsb_in x l : existsb (String.eqb x) l = true <-> In x l.
Proof.
  rewrite existsb_exists. split; [intros [y [I E]]; apply String.eqb_eq in E; now subst|]. intro I. exists x. split; [exact I|apply String.eqb_refl].
Qed.
(** The names that are left out are those of the specification. *)
Definition same_names (a b : list string) : bool :=
  forallb (fun x => existsb (String.eqb x) b) a && forallb (fun x => existsb (String.eqb x) a) b.
Lemma broken_names x : In x invalid_image_names <-> In x broken.
Proof.
  assert (H : same_names invalid_image_names broken = true) by (vm_compute; reflexivity).
  apply andb_true_iff in H. destruct H as [A B]. rewrite forallb_forall in A, B. split; intro I; apply existsb_in; auto.
Qed.

(** The data set is the names of the list file, in the order of the file names, without the broken ones
    in train: whatever the ends of lines, and with or without one after the last line. *)
Theorem oi_items : forall eol final split items, (eol = lf \/ eol = crlf) -> Forall ok_item items ->
  exists ordered, Permutation items ordered /\ StronglySorted by_name ordered /\
    load_indices (listing eol final items) split =
      if String.eqb split "train" then filter (fun n => if in_dec string_dec n broken then false else true) (map fst ordered)
      else map fst ordered.
Proof.
  intros eol final split items E F. pose proof (listing_lines eol final E items F) as L.
  set (lines := readlines (universal (listing eol final items))) in *.
  assert (R : map rstrip lines = map full items).
  { clear - L F. induction L as [|i l is ls H L IH]; [reflexivity|]. inversion_clear F as [|? ? O F']. cbn [map]. rewrite (IH F'). f_equal.
    destruct (full_printable i O) as [P _]. destruct H as [->| ->]; [now apply rstrip_printable|now apply rstrip_line]. }
  assert (S : map rstrip (sort lines) = sort (map full items)).
  { rewrite <- R. apply sort_map. intros x y Ix Iy. 
    assert (W : forall z, In z lines -> exists i, chars printable (full i) /\ line_of (full i) z /\ rstrip z = full i).
    { clear - L F. intros z I. induction L as [|i l is ls H L IH]; [destruct I|]. inversion_clear F as [|? ? O F'].
      destruct I as [<-|I]; [|now apply IH]. exists i. destruct (full_printable i O) as [P _]. split; [exact P|]. split; [exact H|].
      destruct H as [->| ->]; [now apply rstrip_printable|now apply rstrip_line]. }
    destruct (W x Ix) as [i [Pi [Li ->]]]. destruct (W y Iy) as [j [Pj [Lj ->]]]. now apply (line_mono (full i) (full j) x y). }
  destruct (Permutation_map_inv full items (Permutation_sym (sort_perm (map full items)))) as [ordered [EQ P]].
  exists ordered. split; [exact P|].
  assert (SO : StronglySorted by_name ordered).
  { pose proof (sort_sorted (map full items)) as SS. rewrite EQ in SS. clear - SS. induction ordered as [|x r IH]; [constructor|].
    cbn [map] in SS. inversion_clear SS as [|? ? SS' FF]. constructor; [now apply IH|]. apply Forall_forall. intros y I. rewrite Forall_forall in FF.
    apply FF. now apply in_map. }
  split; [exact SO|].
  assert (M : map (fun el => splitext_root (rstrip el)) (sort lines) = map fst ordered).
  { rewrite <- (map_map rstrip splitext_root), S, EQ, map_map.
    assert (FO : Forall ok_item ordered) by (rewrite Forall_forall in *; intros x I; apply F; eapply Permutation_in; [apply Permutation_sym; exact P|exact I]).
    clear - FO. induction FO as [|i r O FO IH]; [reflexivity|]. cbn [map]. now rewrite IH, splitext_item. }
  unfold load_indices. fold lines. rewrite M. destruct (String.eqb split "train"); [|reflexivity].
  apply filter_ext. intro n. destruct (in_dec string_dec n broken) as [I|I].
  - apply broken_names in I. apply existsb_in in I. now rewrite I.
  - destruct (existsb (String.eqb n) invalid_image_names) eqn:X; [|reflexivity]. apply existsb_in in X. apply broken_names in X. contradiction.
Qed.
(** So every listed image is there as often as it is listed, unless it is a broken train image. *)
Theorem oi_count : forall eol final split items n, (eol = lf \/ eol = crlf) -> Forall ok_item items ->
  count_occ string_dec (load_indices (listing eol final items) split) n =
    if String.eqb split "train" && (if in_dec string_dec n broken then true else false) then 0
    else count_occ string_dec (map fst items) n.
Proof.
  intros eol final split items n E F. destruct (oi_items eol final split items E F) as [o [P [_ ->]]].
  assert (C : count_occ string_dec (map fst o) n = count_occ string_dec (map fst items) n).
  { symmetry. apply Permutation_count_occ. now apply Permutation_map. }
  destruct (String.eqb split "train"); cbn [andb]; [|exact C]. rewrite <- C. clear.
  induction (map fst o) as [|x r IH]; cbn [filter count_occ].
  - now destruct (in_dec string_dec n broken).
  - destruct (in_dec string_dec x broken) as [B|B]; cbn [count_occ]; destruct (string_dec x n) as [->|NE]; rewrite IH;
      destruct (in_dec string_dec n broken); try reflexivity; contradiction.
Qed.
(** The order of the lines in the file does not matter, whatever they contain. *)
Fixpoint text (ls : list string) : string := match ls with [] => "" | l :: r => l ++ lf ++ text r end.
Definition one_line (l : string) : Prop := chars (fun c => c <> newline /\ c <> return_char) l.
Lemma text_lines ls : Forall one_line ls -> readlines (universal (text ls)) = map (fun l => (l ++ lf)%string) ls.
Proof.
  intro F. induction F as [|l r O F IH]; [reflexivity|]. cbn [text map]. rewrite <- IH. clear - O.
  induction l as [|c l IHl]; [reflexivity|]. destruct O as [[A B] O]. apply Ascii.eqb_neq in A, B. cbn [append universal readlines]. rewrite B. cbn [readlines]. rewrite A.
  now rewrite (IHl O).
Qed.
Theorem oi_order_free : forall ls ls' split, Forall one_line ls -> Permutation ls ls' ->
  load_indices (text ls) split = load_indices (text ls') split.
Proof.
  intros ls ls' split F P. assert (F' : Forall one_line ls') by (rewrite Forall_forall in *; intros x I; apply F; eapply Permutation_in; [apply Permutation_sym; exact P|exact I]).
  unfold load_indices. rewrite !text_lines by assumption. now rewrite (sort_permuted (map (fun l => (l ++ lf)%string) ls) (map (fun l => (l ++ lf)%string) ls')) by now apply Permutation_map.
Qed.
(** Blank lines are images too, named ".jpg". *)
Theorem oi_blank_refuted : forall ls split, Forall one_line ls -> In "" ls -> In "" (load_indices (text ls) split).
Proof.
  intros ls split F I. unfold load_indices. rewrite text_lines by assumption.
  assert (J : In "" (map (fun el => splitext_root (rstrip el)) (sort (map (fun l => (l ++ lf)%string) ls)))).
  { apply in_map_iff. exists lf. split; [reflexivity|]. eapply Permutation_in; [apply sort_perm|]. apply in_map_iff. now exists "". }
  destruct (String.eqb split "train"); [|exact J]. apply filter_In. split; [exact J|reflexivity].
Qed.
(** Broken images listed with their directory are not left out. *)
Theorem oi_directory_refuted : forall n, In n broken -> load_indices ("train/" ++ n ++ ".jpg") "train" = ["train/" ++ n].
Proof.
  assert (H : forallb (fun n => match load_indices ("train/" ++ n ++ ".jpg") "train" with [m] => String.eqb m ("train/" ++ n) | _ => false end) broken = true) by (vm_compute; reflexivity).
  intros n I. rewrite forallb_forall in H. specialize (H n I). destruct (load_indices ("train/" ++ n ++ ".jpg") "train") as [|m [|? ?]]; try discriminate.
  apply String.eqb_eq in H. now rewrite H.
Qed.

(** * The constructor and access *)
Definition folder (split : string) : string := if String.eqb split "val" then "validation" else split.
Definition known_split (s : string) : Prop := s = "train" \/ s = "val" \/ s = "test".
Definition list_path (root split : string) (listfile : option string) : string :=
  match listfile with Some p => p | None => root ++ "/list-" ++ folder split ++ "-files.txt" end.
(** Unknown splits are refused, whatever the files. *)
Theorem oi_bad_split : forall files root split listfile t, ~ known_split split -> open_images files root split listfile t = Raise ValueError.
Proof.
  intros files root split listfile t H. unfold open_images. cbn [existsb].
  destruct (String.eqb_spec split "train"); [destruct H; left; assumption|]. destruct (String.eqb_spec split "val"); [destruct H; right; left; assumption|].
  destruct (String.eqb_spec split "test"); [destruct H; right; right; assumption|]. reflexivity.
Qed.
(** Otherwise the list file is that given, or the default one of the folder of the split. *)
Theorem oi_construct : forall files root split listfile t, known_split split ->
  match files (list_path root split listfile) with
  | None => open_images files root split listfile t = Raise FileNotFoundError
  | Some content => exists d, open_images files root split listfile t = Ok d /\ d_transform d = t /\
      d_indices d = load_indices content split /\
      forall i, i < len d -> let n := nth i (load_indices content split) "" in
        (forall r, n <> String "/" r) ->
        get_image_path d (Z.of_nat i) = Ok (root ++ "/" ++ folder split ++ "/" ++ n ++ ".jpg")
  end.
Proof.
  intros files root split listfile t K. unfold open_images.
  replace (existsb (String.eqb split) ["train"; "val"; "test"]) with true by (destruct K as [->|[->| ->]]; reflexivity). cbn [negb].
  change (match listfile with Some p => p | None => join root ("list-" ++ split_map split ++ "-files.txt") end) with (list_path root split listfile).
  destruct (files (list_path root split listfile)) as [content|]; [|reflexivity].
  eexists. split; [reflexivity|]. cbn [d_transform d_indices]. split; [reflexivity|]. split; [reflexivity|].
  intros i Hi A. set (n := nth i (load_indices content split) "") in *. unfold len in Hi. cbn [d_indices] in Hi. unfold get_image_path, py_index. cbn [d_indices d_root d_split].
  replace (Z.ltb (Z.of_nat i) 0) with false by (symmetry; apply Z.ltb_ge; lia). cbv zeta.
  replace (Z.ltb (Z.of_nat i) 0) with false by (symmetry; apply Z.ltb_ge; lia).
  rewrite Nat2Z.id, (nth_error_nth' _ "" Hi). fold n. cbn [bind].
  assert (J : forall b m, (forall r, m <> String "/" r) -> join b m = (b ++ "/" ++ m)%string).
  { intros b [|c m] H; [reflexivity|]. unfold join. destruct c as [[] [] [] [] [] [] [] []]; try reflexivity. now destruct (H m). }
  rewrite J; [rewrite J; [|destruct K as [->|[->| ->]]; intros r; discriminate]|].
  - rewrite !app_assoc_s. reflexivity.
  - intros r. destruct n as [|c n']; [discriminate|]. cbn [append]. intro E. injection E as -> _. now apply (A n').
Qed.
(** Indices from -len to len - 1 are accepted. *)
Theorem oi_index : forall d i,
  ((0 <= i < Z.of_nat (len d))%Z -> exists p, get_image_path d i = Ok p) /\
  ((- Z.of_nat (len d) <= i < 0)%Z -> get_image_path d i = get_image_path d (i + Z.of_nat (len d))) /\
  ((i < - Z.of_nat (len d) \/ Z.of_nat (len d) <= i)%Z -> get_image_path d i = Raise IndexError).
Proof.
  intros d i. unfold get_image_path, py_index, len. set (l := d_indices d). split; [|split].
  - intro H. replace (Z.ltb i 0) with false by (symmetry; apply Z.ltb_ge; lia). cbv zeta. replace (Z.ltb i 0) with false by (symmetry; apply Z.ltb_ge; lia).
    destruct (nth_error l (Z.to_nat i)) eqn:E; [eexists; reflexivity|]. apply nth_error_None in E. lia.
  - intro H. replace (Z.ltb i 0) with true by (symmetry; apply Z.ltb_lt; lia).
    replace (Z.ltb (i + Z.of_nat (length l)) 0) with false by (symmetry; apply Z.ltb_ge; lia). cbv zeta.
    replace (Z.ltb (i + Z.of_nat (length l)) 0) with false by (symmetry; apply Z.ltb_ge; lia). reflexivity.
  - intro H. cbv zeta. destruct (Z.ltb_spec i 0) as [N|N].
    + replace (Z.ltb (i + Z.of_nat (length l)) 0) with true by (symmetry; apply Z.ltb_lt; lia). reflexivity.
    + replace (Z.ltb i 0) with false by (symmetry; apply Z.ltb_ge; lia).
      replace (nth_error l (Z.to_nat i)) with (@None string); [reflexivity|]. symmetry. apply nth_error_None. lia.
Qed.

(** * DIV2K *)
(** Only "val"; the png files of its directory, sorted; [entries] are names without slash. *)
Theorem div2k_paths : forall entries root split,
  (forall n, In n (entries (root ++ "/DIV2K_valid_HR")) -> forall r, n <> String "/" r) ->
  (split <> "val" -> div2k entries root split = Raise ValueError) /\
  exists names, div2k entries root "val" = Ok (map (fun n => root ++ "/DIV2K_valid_HR/" ++ n) names) /\
    ssorted names /\
    forall n, count_occ string_dec names n =
      if ends_with ".png" n then count_occ string_dec (entries (root ++ "/DIV2K_valid_HR")) n else 0.
Proof.
  intros entries root split H. split.
  - intro N. unfold div2k. apply String.eqb_neq in N. now rewrite N.
  - set (es := entries (root ++ "/DIV2K_valid_HR")) in *. exists (sort (filter (ends_with ".png") es)). split; [|split].
    + unfold div2k. cbn [String.eqb Ascii.eqb Bool.eqb negb]. f_equal. apply map_ext_in. intros n I.
      assert (J : In n es) by (eapply Permutation_in in I; [|apply Permutation_sym, sort_perm]; now apply filter_In in I).
      specialize (H n J). change (join root "DIV2K_valid_HR") with (root ++ "/DIV2K_valid_HR")%string.
      unfold join. destruct n as [|c n]; [now rewrite !app_assoc_s|]. destruct c as [[] [] [] [] [] [] [] []]; try now rewrite !app_assoc_s. now destruct (H n).
    + apply sort_sorted.
    + intro n. rewrite <- (proj1 (Permutation_count_occ string_dec _ _) (sort_perm (filter (ends_with ".png") es)) n).
      induction es as [|x r IH]; cbn [filter count_occ]; [now destruct (ends_with ".png" n)|].
      assert (IH' := IH (fun n I => H n (or_intror I))). destruct (ends_with ".png" x) eqn:E; cbn [count_occ]; destruct (string_dec x n) as [->|NE]; rewrite IH'; rewrite ?E; reflexivity.
Qed.

(** * The data module *)
Lemma skipn_twice {A} a : forall b (l : list A), skipn a (skipn b l) = skipn (b + a) l.
Proof. induction b as [|b IH]; intro l; [reflexivity|]. destruct l as [|x l]; [now rewrite !skipn_nil|]. cbn [skipn plus]. apply IH. Qed.
Lemma batches_concat {A} : forall fuel b (l : list A), 0 < b -> length l <= fuel -> concat (batches fuel b l) = l.
Proof.
  induction fuel as [|k IH]; intros b l B L; [destruct l; [reflexivity|cbn in L; lia]|].
  destruct l as [|x l]; [reflexivity|]. cbn [batches concat]. rewrite IH; [apply firstn_skipn|exact B|]. rewrite skipn_length. cbn [length] in *. lia.
Qed.
Lemma batches_sizes {A} : forall fuel b (l : list A), 0 < b -> length l <= fuel ->
  length (batches fuel b l) = (length l + b - 1) / b /\
  forall k bt, nth_error (batches fuel b l) k = Some bt -> bt = firstn b (skipn (k * b) l) /\ 0 < length bt <= b.
Proof.
  induction fuel as [|f IH]; intros b l B L.
  - destruct l; [|cbn in L; lia]. cbn [batches length]. split; [rewrite Nat.div_small; lia|]. intros [|k] bt; discriminate.
  - destruct l as [|x l].
    + cbn [batches length]. split; [rewrite Nat.div_small; lia|]. intros [|k] bt; discriminate.
    + cbn [batches]. set (l' := x :: l) in *. assert (LL : 0 < length l') by (cbn; lia).
      destruct (IH b (skipn b l') B) as [N M]; [rewrite skipn_length; cbn [length] in *; lia|]. split.
      * cbn [length]. rewrite N, skipn_length. destruct (Nat.le_gt_cases (length l') b) as [H|H].
        -- replace (length l' - b) with 0 by lia. rewrite (Nat.div_small (0 + b - 1)) by lia.
           replace (length l' + b - 1) with (1 * b + (length l' - 1)) by lia. rewrite Nat.div_add_l by lia. rewrite Nat.div_small by lia. lia.
        -- replace (length l' + b - 1) with (1 * b + (length l' - b + b - 1)) by lia. rewrite Nat.div_add_l by lia. lia.
      * intros [|k] bt H; cbn [nth_error] in H.
        -- injection H as <-. cbn [mult skipn]. split; [reflexivity|]. rewrite firstn_length. lia.
        -- destruct (M k bt H) as [-> S]. split; [|exact S]. f_equal. rewrite skipn_twice. f_equal.
Qed.
Lemma mapM_paths d : forall n k, k + n = len d -> exists l, mapM (fun i => get_image_path d (Z.of_nat i)) (seq k n) = Ok l /\ length l = n /\
  forall i, i < n -> get_image_path d (Z.of_nat (k + i)) = Ok (nth i l "").
Proof.
  induction n as [|n IH]; intros k E; [exists []; cbn; repeat split; lia|].
  destruct (IH (S k) ltac:(lia)) as [l [M [LL P]]]. destruct (proj1 (oi_index d (Z.of_nat k)) ltac:(lia)) as [p Hp].
  exists (p :: l). cbn [seq mapM]. rewrite Hp. cbn [bind]. rewrite M. cbn [bind]. split; [reflexivity|]. split; [cbn; lia|].
  intros [|i] Hi; [now rewrite Nat.add_0_r|]. replace (k + S i) with (S k + i) by lia. rewrite P by lia. reflexivity.
Qed.
(** The constructor needs an image size exactly if a transform is missing. *)
Theorem dm_construct : forall dt dv root b w size t v vb,
  match datamodule dt dv root b w size t v vb with
  | Ok m => m = mkM root b vb w (match t, size with Some t, _ => t | None, Some s => dt s | None, None => 0 end)
                               (match v, size with Some v, _ => v | None, Some s => dv s | None, None => 0 end) /\
            (size <> None \/ t <> None /\ v <> None)
  | Raise e => e = ValueError /\ size = None /\ (t = None \/ v = None)
  end.
Proof.
  intros dt dv root b w size t v vb. unfold datamodule. destruct t as [t|], v as [v|], size as [s|]; cbn [bind]; repeat split; auto;
    try (left; discriminate); right; split; discriminate.
Qed.
(** Validation goes through the images of the "validation" folder once, in order, with the size and
    transform given for it; test does the same. *)
Theorem dm_validation : forall files m tr ev, setup files m = Ok (tr, ev) ->
  let b := match m_val_batch m with Some b => b | None => m_batch m end in
  (exists content, files (m_root m ++ "/list-validation-files.txt") = Some content /\ d_indices ev = load_indices content "val") /\
  d_split ev = "validation" /\ d_root ev = m_root m /\ d_transform ev = Some (m_val_t m) /\
  ((b <= 0)%Z -> val_dataloader m (tr, ev) = Raise ValueError) /\
  ((0 < b)%Z -> exists bs, val_dataloader m (tr, ev) = Ok bs /\ test_dataloader m (tr, ev) = Ok bs /\
     length (concat bs) = len ev /\ (forall i, i < len ev -> get_image_path ev (Z.of_nat i) = Ok (nth i (concat bs) "")) /\
     (forall k bt, nth_error bs k = Some bt -> bt = firstn (Z.to_nat b) (skipn (k * Z.to_nat b) (concat bs)) /\ bt <> [])).
Proof.
  intros files m tr ev H b. unfold setup in H.
  destruct (open_images files (m_root m) "train" None (Some (m_train_t m))) as [tr'|] eqn:ET; [|discriminate]. cbn [bind] in H.
  destruct (open_images files (m_root m) "val" None (Some (m_val_t m))) as [ev'|] eqn:EV; [|discriminate]. cbn [bind] in H. injection H as -> ->.
  unfold open_images in EV. cbn [existsb String.eqb Ascii.eqb Bool.eqb orb negb] in EV.
  change (join (m_root m) ("list-" ++ split_map "val" ++ "-files.txt")) with (m_root m ++ "/list-validation-files.txt")%string in EV.
  destruct (files (m_root m ++ "/list-validation-files.txt")) as [content|]; [|discriminate]. injection EV as <-. set (ev := mkD _ _ _ _).
  split; [exists content; split; reflexivity|]. split; [reflexivity|]. split; [reflexivity|]. split; [reflexivity|]. split.
  - intro B. unfold val_dataloader, data_loader. fold b. cbn [snd]. rewrite andb_false_r. now rewrite (proj2 (Z.leb_le b 0) B).
  - intro B. destruct (mapM_paths ev (len ev) 0 eq_refl) as [l [M [LL P]]].
    assert (E : val_dataloader m (tr, ev) = Ok (batches (length l) (Z.to_nat b) l)).
    { unfold val_dataloader, data_loader. fold b. cbn [snd]. rewrite andb_false_r, (proj2 (Z.leb_gt b 0) B), M. reflexivity. }
    exists (batches (length l) (Z.to_nat b) l). split; [exact E|]. split; [exact E|]. rewrite batches_concat by lia. split; [exact LL|]. split.
    + intros i Hi. exact (P i Hi).
    + intros k bt HN. destruct (batches_sizes (length l) (Z.to_nat b) l ltac:(lia) (le_n _)) as [_ S]. destruct (S k bt HN) as [-> X]. split; [reflexivity|].
      intro C. rewrite C in X. cbn in X. lia.
Qed.
(** Training: batches of the given size cover the train images; but with the default of no workers
    the loader is refused. *)
Theorem dm_training : forall files m tr ev, setup files m = Ok (tr, ev) -> m_workers m <> 0 -> (0 < m_batch m)%Z ->
  (exists content, files (m_root m ++ "/list-train-files.txt") = Some content /\ d_indices tr = load_indices content "train") /\
  d_transform tr = Some (m_train_t m) /\
  exists bs, train_dataloader m (tr, ev) = Ok bs /\
     length (concat bs) = len tr /\ (forall i, i < len tr -> get_image_path tr (Z.of_nat i) = Ok (nth i (concat bs) "")) /\
     length bs = (len tr + Z.to_nat (m_batch m) - 1) / Z.to_nat (m_batch m).
Proof.
  intros files m tr ev H W B. unfold setup in H.
  destruct (open_images files (m_root m) "train" None (Some (m_train_t m))) as [tr'|] eqn:ET; [|discriminate]. cbn [bind] in H.
  destruct (open_images files (m_root m) "val" None (Some (m_val_t m))) as [ev'|] eqn:EV; [|discriminate]. cbn [bind] in H. injection H as -> ->.
  unfold open_images in ET. cbn [existsb String.eqb Ascii.eqb Bool.eqb orb negb] in ET.
  change (join (m_root m) ("list-" ++ split_map "train" ++ "-files.txt")) with (m_root m ++ "/list-train-files.txt")%string in ET.
  destruct (files (m_root m ++ "/list-train-files.txt")) as [content|]; [|discriminate]. injection ET as <-. set (tr := mkD _ _ _ _).
  split; [exists content; split; reflexivity|]. split; [reflexivity|].
  destruct (mapM_paths tr (len tr) 0 eq_refl) as [l [M [LL P]]].
  exists (batches (length l) (Z.to_nat (m_batch m)) l). split.
  - unfold train_dataloader, data_loader. cbn [fst]. apply Nat.eqb_neq in W. rewrite W, (proj2 (Z.leb_gt _ 0) B), M. reflexivity.
  - rewrite batches_concat by lia. split; [exact LL|]. split; [intros i Hi; exact (P i Hi)|].
    rewrite <- LL. now apply (batches_sizes (length l)); try lia.
Qed.
Theorem dm_no_workers_refuted : forall m ds, m_workers m = 0 -> train_dataloader m ds = Raise ValueError.
Proof. intros m ds W. unfold train_dataloader, data_loader. now rewrite W. Qed.

(** Cases. *)
Example oi_instance : load_indices (listing crlf false [("ff", ".jpg"); ("0a866d6fd1ea9317", ".jpg"); ("0b", "")]) "train" = ["0b"; "ff"].
Proof. vm_compute. reflexivity. Qed.
Example ok_items : Forall ok_item [("ff", ".jpg"); ("0b", "")].
Proof.
  assert (C : forall c, 32 < nat_of_ascii c -> Ascii.eqb c "." = false -> Ascii.eqb c "/" = false -> plain_char c).
  { intros c H A B. split; [exact H|]. split; now apply Ascii.eqb_neq. }
  constructor; [|constructor; [|constructor]]; (split; [discriminate|]); cbn [fst snd chars];
    (split; [repeat (split; [apply C; [vm_compute; lia|reflexivity|reflexivity]|]); exact I|]).
  - right. exists "jpg". split; [reflexivity|]. cbn [chars]. repeat (split; [apply C; [vm_compute; lia|reflexivity|reflexivity]|]). exact I.
  - now left.
Qed.
Example dm_instance : exists tr ev bs,
  let files := fun p => if String.eqb p "r/list-train-files.txt" then Some "a.jpg" else if String.eqb p "r/list-validation-files.txt" then Some ("c.jpg" ++ lf ++ "b.jpg" ++ lf ++ "d.jpg") else None in
  setup files (mkM "r" 2%Z None 1 7 8) = Ok (tr, ev) /\ val_dataloader (mkM "r" 2%Z None 1 7 8) (tr, ev) = Ok bs /\
  bs = [["r/validation/b.jpg"; "r/validation/c.jpg"]; ["r/validation/d.jpg"]].
Proof. eexists. eexists. eexists. split; [reflexivity|]. split; [vm_compute; reflexivity|reflexivity]. Qed.
Print Assumptions oi_items.
Print Assumptions dm_validation.
Print Assumptions div2k_paths.

(** ** White space after a name, and hidden files *)
Definition white (c : ascii) : Prop := In (nat_of_ascii c) [9; 10; 11; 12; 13; 28; 29; 30; 31; 32].
Lemma white_space c : white c -> is_space c = true.
Proof.
  unfold white, is_space. set (n := nat_of_ascii c). clearbody n. cbn [In]. intro H.
  repeat (destruct H as [<-|H]; [reflexivity|]). destruct H.
Qed.
Lemma rstrip_white s w : chars printable s -> chars white w -> rstrip (s ++ w) = s.
Proof.
  induction s as [|c s IH]; intros P W; cbn [append].
  - induction w as [|c w IHw]; [reflexivity|]. destruct W as [C W]. cbn [rstrip]. rewrite (IHw W), (white_space c C). reflexivity.
  - destruct P as [P C]. cbn [rstrip]. rewrite (IH C W). destruct (printable_not_newline c P) as [_ [_ ->]]. now destruct s.
Qed.
Lemma one_line_text l : one_line l -> load_indices (text [l]) "val" = [splitext_root (rstrip (l ++ lf))].
Proof. intro O. unfold load_indices. rewrite text_lines by (repeat constructor; exact O). reflexivity. Qed.
Lemma printable_one_line s : chars printable s -> one_line s.
Proof.
  apply chars_impl. intros c P. destruct (printable_not_newline c P) as [A [B _]]. split; apply Ascii.eqb_neq; assumption.
Qed.
(** White space after the name is ignored. *)
Theorem oi_trailing_white : forall i w, ok_item i -> chars white w -> one_line w ->
  load_indices (text [(full i ++ w)%string]) "val" = [fst i].
Proof.
  intros i w O W L. destruct (full_printable i O) as [P _]. rewrite one_line_text by (apply chars_app; split; [now apply printable_one_line|exact L]).
  rewrite app_assoc_s, rstrip_white; [|exact P|apply chars_app; split; [exact W|split; [vm_compute; tauto|exact I]]].
  now rewrite splitext_item.
Qed.
(** The dots at the beginning of a name are not the beginning of an extension; later ones are. *)
Fixpoint dots (n : nat) : string := match n with 0 => "" | S n => String "." (dots n) end.
Lemma dots_printable n : chars printable (dots n).
Proof. induction n; [exact I|]. split; [unfold printable; vm_compute; lia|exact IHn]. Qed.
Theorem oi_hidden_files : forall k i, 1 <= k -> ok_item i ->
  load_indices (text [(dots k ++ full i)%string]) "val" = [(dots k ++ fst i)%string].
Proof.
  intros k i K O. destruct (full_printable i O) as [P _].
  assert (PP : chars printable (dots k ++ full i)) by (apply chars_app; split; [apply dots_printable|exact P]).
  rewrite one_line_text by (now apply printable_one_line). rewrite rstrip_line by exact PP. f_equal.
  destruct O as [N [C E]]. destruct i as [n e]. unfold full in *. cbn [fst snd] in *.
  assert (NS : forall m, chars (fun c => c <> "/"%char) (dots m)) by (induction m; [exact I|split; [discriminate|exact IHm]]).
  assert (S : chars (fun c => c <> "/"%char) n) by (eapply chars_impl; [|exact C]; intros c [_ [_ H]]; exact H).
  assert (D : rfind "." n = None) by (apply rfind_none; eapply chars_impl; [|exact C]; intros c [_ [H _]]; exact H).
  destruct E as [->|[x [-> X]]].
  - rewrite app_nil_s. unfold splitext_root. rewrite rfind_app, D.
    assert (R : forall m, rfind "." (dots (Datatypes.S m)) = Some m).
    { induction m; [reflexivity|]. cbn [dots rfind] in *. rewrite IHm. reflexivity. }
    destruct k as [|k]; [lia|]. rewrite R. rewrite (rfind_none "/" (dots (Datatypes.S k) ++ n)) by (apply chars_app; split; [apply NS|exact S]).
    cbn [Nat.ltb Nat.leb]. rewrite Nat.sub_0_r.
    assert (A : forall m r, all_dots (substring 0 m (dots (Datatypes.S m) ++ r)) = true).
    { induction m; intros r; [reflexivity|]. cbn [dots append substring all_dots] in *. rewrite IHm. reflexivity. }
    now rewrite A.
  - assert (DX : rfind "." (String "." x) = Some 0).
    { cbn [rfind]. rewrite (rfind_none "." x); [reflexivity|]. eapply chars_impl; [|exact X]. intros c [_ [H _]]. exact H. }
    unfold splitext_root. rewrite <- app_assoc_s, rfind_app, DX, Nat.add_0_r. rewrite (rfind_none "/" ((dots k ++ n) ++ String "." x)).
    + cbn [Nat.ltb Nat.leb]. rewrite Nat.sub_0_r, substring_app_l.
      assert (A : forall m, all_dots (dots m ++ n) = false).
      { induction m; [|cbn [dots append all_dots]; rewrite IHm; reflexivity]. destruct n as [|c n]; [easy|]. destruct C as [[_ [H _]] _]. apply Ascii.eqb_neq in H. cbn [dots append all_dots]. now rewrite H. }
      now rewrite A.
    + apply chars_app. split; [apply chars_app; split; [apply NS|exact S]|]. split; [discriminate|]. eapply chars_impl; [|exact X]. intros c [_ [_ H]]. exact H.
Qed.
Example oi_white_instance : load_indices (text ["..a.jpg  "; ".b"]) "val" = ["..a"; ".b"].
Proof. vm_compute. reflexivity. Qed.
Print Assumptions oi_trailing_white.
Print Assumptions oi_hidden_files.
(** The same holds in a folder, whatever its name. *)
Lemma length_app_s a b : String.length (a ++ b) = String.length a + String.length b.
Proof. induction a as [|c a IH]; cbn [append String.length plus]; [reflexivity|now rewrite IH]. Qed.
Lemma substring_skip a b m : substring (String.length a) m (a ++ b) = substring 0 m b.
Proof. induction a as [|c a IH]; [reflexivity|exact IH]. Qed.
Theorem oi_hidden_files_in_folder : forall d k i, chars printable d -> ok_item i ->
  load_indices (text [(d ++ "/" ++ dots k ++ full i)%string]) "val" = [(d ++ "/" ++ dots k ++ fst i)%string].
Proof.
  intros d k i PD O. destruct (full_printable i O) as [P _].
  assert (PP : chars printable (d ++ "/" ++ dots k ++ full i)).
  { apply chars_app. split; [exact PD|]. apply chars_app. split; [split; [unfold printable; vm_compute; lia|exact I]|]. apply chars_app; split; [apply dots_printable|exact P]. }
  rewrite one_line_text by (now apply printable_one_line). rewrite rstrip_line by exact PP. f_equal.
  destruct O as [N [C E]]. destruct i as [n e]. unfold full in *. cbn [fst snd] in *.
  assert (NS : forall m, chars (fun c => c <> "/"%char) (dots m)) by (induction m; [exact I|split; [discriminate|exact IHm]]).
  assert (S : chars (fun c => c <> "/"%char) n) by (eapply chars_impl; [|exact C]; intros c [_ [_ H]]; exact H).
  assert (D : rfind "." n = None) by (apply rfind_none; eapply chars_impl; [|exact C]; intros c [_ [H _]]; exact H).
  set (p := (d ++ "/")%string).
  assert (LP : String.length p = Datatypes.S (String.length d)) by (unfold p; rewrite length_app_s; cbn; lia).
  assert (RP : forall s, chars (fun c => c <> "/"%char) s -> rfind "/" (p ++ s) = Some (String.length d)).
  { intros s H. unfold p. rewrite app_assoc_s, !rfind_app, (rfind_none "/" s H). cbn. now rewrite Nat.add_0_r. }
  replace (d ++ "/" ++ dots k ++ n ++ e)%string with (p ++ dots k ++ n ++ e)%string by (unfold p; now rewrite app_assoc_s).
  replace (d ++ "/" ++ dots k ++ n)%string with (p ++ dots k ++ n)%string by (unfold p; now rewrite app_assoc_s).
  destruct E as [->|[x [-> X]]].
  - rewrite app_nil_s. unfold splitext_root. rewrite RP by (apply chars_app; split; [apply NS|exact S]).
    rewrite !rfind_app, D. destruct k as [|k].
    + cbn [dots rfind]. destruct (rfind "." p) as [dot|] eqn:R; [|reflexivity].
      assert (L : dot < String.length p).
      { clear - R. revert dot R. induction p as [|c q IH]; intros dot R; [discriminate|]. cbn [rfind] in R. cbn [String.length].
        destruct (rfind "." q) as [j|]; [specialize (IH j eq_refl); injection R as <-; lia|]. destruct (Ascii.eqb c "."); [injection R as <-; lia|discriminate]. }
      rewrite (proj2 (Nat.ltb_lt _ _)) by lia. reflexivity.
    + assert (R : forall m, rfind "." (dots (Datatypes.S m)) = Some m).
      { induction m; [reflexivity|]. cbn [dots rfind] in *. rewrite IHm. reflexivity. }
      rewrite R. rewrite LP. rewrite (proj2 (Nat.ltb_ge _ _)) by lia.
      replace (Datatypes.S (String.length d) + k - Datatypes.S (String.length d)) with k by lia. rewrite <- LP, substring_skip.
      assert (A : forall m r, all_dots (substring 0 m (dots (Datatypes.S m) ++ r)) = true).
      { induction m; intros r; [reflexivity|]. cbn [dots append substring all_dots] in *. rewrite IHm. reflexivity. }
      now rewrite A.
  - assert (DX : rfind "." (String "." x) = Some 0).
    { cbn [rfind]. rewrite (rfind_none "." x); [reflexivity|]. eapply chars_impl; [|exact X]. intros c [_ [H _]]. exact H. }
    unfold splitext_root. rewrite RP.
    + rewrite <- !app_assoc_s. rewrite rfind_app, DX, Nat.add_0_r. rewrite !length_app_s, LP. rewrite (proj2 (Nat.ltb_ge _ _)) by lia.
      replace (Datatypes.S (String.length d) + String.length (dots k) + String.length n - Datatypes.S (String.length d)) with (String.length (dots k ++ n)) by (rewrite length_app_s; lia).
      rewrite <- LP, <- !length_app_s. rewrite substring_app_l. rewrite (app_assoc_s p (dots k) n), (app_assoc_s p (dots k ++ n)), substring_skip, substring_app_l.
      assert (A : forall m, all_dots (dots m ++ n) = false).
      { induction m; [|cbn [dots append all_dots]; rewrite IHm; reflexivity]. destruct n as [|c n]; [easy|]. destruct C as [[_ [H _]] _]. apply Ascii.eqb_neq in H. cbn [dots append all_dots]. now rewrite H. }
      rewrite A. reflexivity.
    + apply chars_app. split; [apply NS|]. apply chars_app. split; [exact S|]. split; [discriminate|]. eapply chars_impl; [|exact X]. intros c [_ [_ H]]. exact H.
Qed.
Example oi_folder_instance : load_indices (text ["a.b/..c.jpg"; "d/.e"; "f.g/h"]) "val" = ["a.b/..c"; "d/.e"; "f.g/h"].
Proof. vm_compute. reflexivity. Qed.
Print Assumptions oi_hidden_files_in_folder.

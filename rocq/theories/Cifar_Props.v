(** C85: preparing CIFAR-10 under kills and failing downloads, and the classes of its files. *)
From Coq Require Import String Ascii ZArith List Bool Arith Lia Permutation Sorting.Sorted.
From Verif Require Import Base Job_Model Job_Names ClicImg_Model ClicImg_Props OpenImg_Props Cifar_Model.
Import ListNotations.
Open Scope string_scope.
Open Scope list_scope.
Open Scope nat_scope.

(** * Specification *)
(** The data set has the documented size and labels below ten. *)
Definition good {Img} (ds : part -> list (Img * nat)) : Prop :=
  forall s, Z.of_nat (length (ds s)) = match s with PTrain => 50000%Z | PValid => 10000%Z end /\ Forall (fun e => snd e < 10) (ds s).
(** The split's directory holds the i-th image under its name, for every i, and nothing else. *)
Definition complete {Img} (ds : part -> list (Img * nat)) (f : @fs Img) (s : part) : Prop :=
  exists d, f s = Some d /\
  forall n c, d n = Some c <-> exists i x label, nth_error (ds s) i = Some (x, label) /\ n = filename label i /\ c = Whole x.
(** Whatever is there is an image of the split under its own name, perhaps cut off. *)
Definition sane {Img} (ds : part -> list (Img * nat)) (f : @fs Img) (s : part) : Prop :=
  forall d n c, f s = Some d -> d n = Some c ->
  exists i x label, nth_error (ds s) i = Some (x, label) /\ n = filename label i /\ (c = Whole x \/ c = CutOff).

(** * Names *)
Lemma digits_range : forall f n, (0 <= n)%Z -> Forall (fun d => (0 <= d < 10)%Z) (digits_fuel f n).
Proof.
  induction f; intros n H; [constructor|]. cbn [digits_fuel]. destruct (Z.ltb_spec n 10).
  - constructor; [lia|constructor].
  - apply Forall_app. split; [apply IHf; apply Z.div_pos; lia|]. constructor; [|constructor]. apply Z.mod_pos_bound. lia.
Qed.
Lemma pad_range : forall w l, Forall (fun d => (0 <= d < 10)%Z) l -> Forall (fun d => (0 <= d < 10)%Z) (pad w l).
Proof. intros. unfold pad. apply Forall_app. split; [|assumption]. apply Forall_forall. intros d I. apply repeat_spec in I. lia. Qed.
Lemma digit_char_inj : forall d e, (0 <= d < 10)%Z -> (0 <= e < 10)%Z -> digit_char d = digit_char e -> d = e.
Proof.
  intros d e D E H. unfold digit_char in H. apply (f_equal nat_of_ascii) in H. rewrite !nat_ascii_embedding in H by lia. lia.
Qed.
Lemma of_digits_inj : forall a b, Forall (fun d => (0 <= d < 10)%Z) a -> Forall (fun d => (0 <= d < 10)%Z) b -> of_digits a = of_digits b -> a = b.
Proof.
  induction a; intros [|e b] A B H; try discriminate; [reflexivity|]. cbn [of_digits] in H. injection H as H1 H2. inversion A; inversion B; subst.
  f_equal; [now apply digit_char_inj|now apply IHa].
Qed.
Lemma append_inj_r : forall t a b, (a ++ t = b ++ t)%string -> a = b.
Proof.
  intros t a. assert (L : forall a b : string, String.length (a ++ b) = String.length a + String.length b) by (induction a0; intros; cbn; [reflexivity|now rewrite IHa0]).
  induction a; intros [|y b] H; cbn in H.
  - reflexivity.
  - exfalso. apply (f_equal String.length) in H. cbn in H. rewrite L in H. lia.
  - exfalso. apply (f_equal String.length) in H. cbn in H. rewrite L in H. lia.
  - injection H as -> H. f_equal. now apply IHa.
Qed.
Lemma class_prefix : forall label rest, label < 10 -> before_underscore (nth label classes "" ++ "_" ++ rest) = nth label classes "".
Proof. intros label rest H. do 10 (destruct label as [|label]; [reflexivity|]). lia. Qed.
Lemma class_nodup : NoDup classes.
Proof.
  unfold classes. repeat (apply NoDup_cons; [cbn; intuition discriminate|]). apply NoDup_nil.
Qed.
Lemma strip_class : forall label a b, label < 10 -> (nth label classes "" ++ "_" ++ a = nth label classes "" ++ "_" ++ b)%string -> a = b.
Proof. intros label a b H E. do 10 (destruct label as [|label]; [cbn in E; injection E; auto|]). lia. Qed.

(** The name of a file tells the class and the number of its image, whatever its number of digits. *)
Theorem C85_names : forall label i, label < 10 ->
  before_underscore (filename label i) = nth label classes "" /\
  forall label' i', label' < 10 -> filename label i = filename label' i' -> label = label' /\ i = i'.
Proof.
  intros label i H. split; [unfold filename; now apply class_prefix|]. intros label' i' H' E.
  assert (C : label = label').
  { pose proof (f_equal before_underscore E) as P. unfold filename in P. rewrite !class_prefix in P by assumption.
    apply (proj1 (NoDup_nth classes "") class_nodup); [exact H|exact H'|exact P]. }
  subst label'. split; [reflexivity|]. unfold filename in E. apply strip_class in E; [|assumption]. apply append_inj_r in E.
  apply of_digits_inj in E; [|apply pad_range, digits_range; lia|apply pad_range, digits_range; lia].
  apply (f_equal value) in E. rewrite !value_pad, !digits_value in E by lia. lia.
Qed.

Section Histories.
Context {Img : Type}.
Variable ds : part -> list (Img * nat).
Hypothesis G : good ds.

Definition names_from (i : nat) (l : list (Img * nat)) (n : string) (x : Img) : Prop :=
  exists j label, nth_error l j = Some (x, label) /\ n = filename label (i + j).

Lemma part_eqb_spec : forall a b, part_eqb a b = true <-> a = b.
Proof. intros [] []; cbn; split; intros; congruence. Qed.
Lemma set_same : forall (f : @fs Img) s d, set_dir f s d s = Some d.
Proof. intros. unfold set_dir. now destruct s. Qed.
Lemma set_other : forall (f : @fs Img) s s' d, s' <> s -> set_dir f s d s' = f s'.
Proof. intros. unfold set_dir. destruct s, s'; cbn; congruence. Qed.

Lemma dump_ok : forall s l i, Forall (fun e => snd e < 10) l -> snd (dump s i l) = Ok tt /\
  fst (dump s i l) = map (fun p : nat * (Img * nat) => Save s (filename (snd (snd p)) (fst p)) (fst (snd p))) (combine (seq i (length l)) l).
Proof.
  induction l as [|[x label] l IH]; intros i F; [now split|]. cbn [dump]. inversion F as [|? ? F1 F2]; subst. cbn [snd] in F1.
  rewrite (proj2 (Nat.ltb_lt label (length classes))) by exact F1. destruct (IH (S i) F2) as [A B]. cbn [fst snd length seq combine map]. split; [exact A|]. now rewrite B.
Qed.

(** The effect of a sequence of saves. *)
Lemma dump_performs : forall s l i f d, f s = Some d -> Forall (fun e => snd e < 10) l ->
  let f' := performs (fst (dump s i l)) f in
  (forall s', s' <> s -> f' s' = f s') /\
  exists d', f' s = Some d' /\ (forall n x, names_from i l n x -> d' n = Some (Whole x)) /\ (forall n, (forall x, ~ names_from i l n x) -> d' n = d n).
Proof.
  induction l as [|[x label] l IH]; intros i f d E F; cbv zeta.
  - cbn. split; [reflexivity|]. exists d. split; [exact E|]. split; [|reflexivity]. intros n x (j & label & N & _). destruct j; discriminate.
  - cbn [dump]. inversion F as [|? ? F1 F2]; subst. cbn [snd] in F1. rewrite (proj2 (Nat.ltb_lt label (length classes))) by exact F1. cbn [fst].
    unfold performs. cbn [fold_left perform]. rewrite E. fold (performs (fst (dump s (S i) l)) (set_dir f s (put d (filename label i) (Whole x)))).
    destruct (IH (S i) (set_dir f s (put d (filename label i) (Whole x))) _ (set_same _ _ _) F2) as [O (d' & D1 & D2 & D3)]. cbv zeta in *.
    split; [intros s' Q; rewrite O by assumption; now apply set_other|]. exists d'. split; [exact D1|].
    assert (FRESH : forall y, ~ names_from (S i) l (filename label i) y).
    { intros y (j & lb & N & Q). apply nth_error_In in N. rewrite Forall_forall in F2. specialize (F2 _ N). cbn in F2. destruct (C85_names label i F1) as [_ Z]. destruct (Z lb (S i + j) F2 Q) as [_ Y]. lia. }
    split.
    + intros n y (j & lb & N & Q). destruct j as [|j]; cbn in N.
      * injection N as -> ->. rewrite Nat.add_0_r in Q. subst n. rewrite D3 by exact FRESH. unfold put. now rewrite String.eqb_refl.
      * apply D2. exists j, lb. split; [exact N|]. rewrite Q. f_equal. lia.
    + intros n NN. rewrite D3.
      * unfold put. destruct (String.eqb_spec n (filename label i)) as [->|]; [|reflexivity]. exfalso. apply (NN x). exists 0, label. split; [reflexivity|]. f_equal. lia.
      * intros y (j & lb & N & Q). apply (NN y). exists (S j), lb. split; [exact N|]. rewrite Q. f_equal. lia.
Qed.

Lemma performs_app : forall a b (f : @fs Img), performs (a ++ b) f = performs b (performs a f).
Proof. intros. unfold performs. apply fold_left_app. Qed.

(** Operations of a launch: each belongs to a split and saves one of its images. *)
Definition op_ok (o : @op Img) : Prop :=
  match o with Mkdir _ => True | Save s n x => exists i label, nth_error (ds s) i = Some (x, label) /\ n = filename label i end.
Lemma dump_ops : forall s l i k, (forall j, nth_error l j = nth_error (ds s) (k + j)) -> i = k -> Forall op_ok (fst (dump s i l)).
Proof.
  induction l as [|[x label] l IH]; intros i k N ->; [constructor|]. cbn [dump]. destruct (label <? length classes); [|constructor]. cbn [fst]. constructor.
  - cbn. exists k, label. split; [|reflexivity]. specialize (N 0). rewrite Nat.add_0_r in N. now rewrite <- N.
  - apply (IH (S k) (S k)); [|reflexivity]. intros j. specialize (N (S j)). cbn in N. rewrite N. f_equal. lia.
Qed.
Lemma launch_ops : forall ow net f ss, Forall op_ok (fst (launch ds ow net f ss)).
Proof.
  induction ss as [|s ss IH]; [constructor|]. cbn [launch]. destruct (_ && _); [exact IH|]. destruct (negb (net s)); [constructor|].
  destruct (negb _); [constructor|]. assert (D : Forall op_ok (fst (dump s 0 (ds s)))) by (apply (dump_ops s _ 0 0); [reflexivity|reflexivity]).
  destruct (snd (dump s 0 (ds s))); cbn [fst]; (constructor; [exact I|]); [apply Forall_app; split; assumption|exact D].
Qed.
Lemma perform_sane : forall cut o f, op_ok o -> (forall s, sane ds f s) -> forall s, sane ds (perform cut o f) s.
Proof.
  intros cut o f K H s d n c E1 E2. destruct o as [s0|s0 m x]; cbn [perform] in E1.
  - destruct (f s0) eqn:E0; [eapply H; eauto|]. unfold set_dir in E1. destruct (part_eqb s s0); [|eapply H; eauto]. injection E1 as <-. discriminate.
  - destruct (f s0) eqn:E0; [|eapply H; eauto]. unfold set_dir in E1. destruct (part_eqb s s0) eqn:PE; [|eapply H; eauto]. apply part_eqb_spec in PE. subst s0.
    injection E1 as <-. unfold put in E2. destruct (String.eqb_spec n m) as [->|]; [|eapply H; eauto]. injection E2 as <-.
    destruct K as (i & label & N & ->). exists i, x, label. split; [exact N|]. split; [reflexivity|]. destruct cut; auto.
Qed.
Lemma performs_sane : forall ops f, Forall op_ok ops -> (forall s, sane ds f s) -> forall s, sane ds (performs ops f) s.
Proof.
  induction ops; intros f F H s; [apply H|]. inversion F; subst. unfold performs. cbn [fold_left]. apply IHops; [assumption|]. intros. now apply perform_sane.
Qed.
Lemma run_sane : forall j f, (forall s, sane ds f s) -> forall s, sane ds (fst (run ds j f)) s.
Proof.
  intros [ow net kill] f H s. unfold run. cbn [j_over j_net j_kill]. pose proof (launch_ops ow net f splits) as L. set (a := fst (launch ds ow net f splits)) in *.
  destruct kill as [[n cut]|]; cbn [fst]; [|now apply performs_sane].
  assert (LF : Forall op_ok (firstn n a)) by (apply Forall_forall; intros o Io; rewrite Forall_forall in L; apply L; rewrite <- (firstn_skipn n a); apply in_or_app; now left).
  destruct cut; [|now apply performs_sane]. destruct (nth_error a n) eqn:E; [|now apply performs_sane].
  apply perform_sane; [|intros; now apply performs_sane]. apply nth_error_In in E. rewrite Forall_forall in L. now apply L.
Qed.

(** After any history of launches, killed anywhere and with downloads failing at will, every file is
    an image of its split under its own name, complete or cut off. *)
Theorem C85_histories_are_sane : forall js s, sane ds (history ds js nothing) s.
Proof.
  intros js. unfold history. assert (H : forall s, sane ds (@nothing Img) s) by (intros s d n c E; discriminate). revert H. generalize (@nothing Img).
  induction js; intros f H s; [apply H|]. cbn [fold_left]. apply IHjs. intros. now apply run_sane.
Qed.

(** What a completed dump leaves behind. *)
Lemma dump_complete : forall s f, (forall d n c, f s = Some d -> d n = Some c -> exists i x label, nth_error (ds s) i = Some (x, label) /\ n = filename label i) ->
  let f' := performs (Mkdir s :: fst (dump s 0 (ds s))) f in complete ds f' s /\ forall s', s' <> s -> f' s' = f s'.
Proof.
  intros s f H. cbv zeta. destruct (G s) as [_ F]. unfold performs. cbn [fold_left].
  assert (E : exists d, perform false (Mkdir s) f s = Some d /\ (forall n c, d n = Some c -> exists i x label, nth_error (ds s) i = Some (x, label) /\ n = filename label i) /\ forall s', s' <> s -> perform false (Mkdir s) f s' = f s').
  { cbn [perform]. destruct (f s) as [d|] eqn:E0.
    - exists d. split; [exact E0|]. split; [intros n c Q; eapply H; [reflexivity|exact Q]|reflexivity].
    - exists empty. split; [apply set_same|]. split; [discriminate|]. intros. now apply set_other. }
  destruct E as (d & E1 & E2 & E3). set (f1 := perform false (Mkdir s) f) in *. fold (performs (fst (dump s 0 (ds s))) f1).
  destruct (dump_performs s (ds s) 0 f1 d E1 F) as [O (d' & D1 & D2 & D3)]. cbv zeta in *. split; [|intros; now rewrite O, E3].
  exists d'. split; [exact D1|]. intros n c. split.
  - intros Q. destruct (d n) as [c0|] eqn:DN.
    + destruct (E2 n c0 DN) as (i & x & label & N & ->). rewrite (D2 (filename label i) x) in Q by (exists i, label; split; [exact N|reflexivity]). injection Q as <-. exists i, x, label. now split.
    + assert (X : (exists x, names_from 0 (ds s) n x) \/ forall x, ~ names_from 0 (ds s) n x).
      { assert (DEC : forall l k, (exists x, names_from k l n x) \/ forall x, ~ names_from k l n x).
        { induction l as [|[y lb] l IH]; intros k; [right; intros x (j & label & N & _); destruct j; discriminate|].
          destruct (string_dec n (filename lb k)) as [->|NE]; [left; exists y, 0, lb; split; [reflexivity|f_equal; lia]|].
          destruct (IH (S k)) as [(x & j & label & N & Q')|NN]; [left; exists x, (S j), label; split; [exact N|rewrite Q'; f_equal; lia]|].
          right. intros x (j & label & N & Q'). destruct j as [|j]; [cbn in N; injection N as -> ->; apply NE; rewrite Q'; f_equal; lia|].
          apply (NN x). exists j, label. split; [exact N|]. rewrite Q'. f_equal. lia. }
        apply DEC. }
      destruct X as [(x & NF)|NN]; [|rewrite D3, DN in Q by exact NN; discriminate]. rewrite (D2 n x NF) in Q. injection Q as <-. destruct NF as (j & label & N & ->). exists j, x, label. now split.
  - intros (i & x & label & N & -> & ->). apply D2. exists i, label. now split.
Qed.

Lemma weaken : forall f s, sane ds f s -> forall d n c, f s = Some d -> d n = Some c -> exists i x label, nth_error (ds s) i = Some (x, label) /\ n = filename label i.
Proof. intros f s H d n c E1 E2. destruct (H d n c E1 E2) as (i & x & label & A & B & _). now exists i, x, label. Qed.
Lemma complete_ext : forall f g s, f s = g s -> complete ds f s -> complete ds g s.
Proof. intros f g s E (d & A & B). exists d. split; [now rewrite <- E|exact B]. Qed.

Lemma launch_step : forall ow net f s q, net s = true -> (f s = None \/ ow = true) ->
  launch ds ow net f (s :: q) = (Mkdir s :: fst (dump s 0 (ds s)) ++ fst (launch ds ow net f q), snd (launch ds ow net f q)).
Proof.
  intros ow net f s q N K. cbn [launch]. replace ((match f s with Some _ => true | None => false end) && negb ow) with false by (destruct K as [-> | ->]; [reflexivity|now rewrite andb_false_r]).
  rewrite N. destruct (G s) as [L F]. rewrite L, Z.eqb_refl. destruct (dump_ok s (ds s) 0 F) as [-> _]. reflexivity.
Qed.
Lemma launch_skip : forall net f s q, f s <> None -> launch ds false net f (s :: q) = launch ds false net f q.
Proof. intros. cbn [launch]. destruct (f s); [reflexivity|easy]. Qed.

(** Whatever happened before, a launch that may overwrite and is not killed ends without an error and
    leaves both splits complete. *)
Theorem C85_overwriting_repairs : forall js net, (forall s, net s = true) ->
  exists f, run ds (mkJ true net None) (history ds js nothing) = (f, Some (Ok tt)) /\ forall s, complete ds f s.
Proof.
  intros js net N. pose proof (C85_histories_are_sane js) as S. set (f0 := history ds js nothing) in *. unfold run, splits. cbn [j_over j_net j_kill].
  rewrite !launch_step by auto. cbn [launch fst snd]. eexists. split; [reflexivity|].
  rewrite app_nil_r, (app_comm_cons _ _ (Mkdir PTrain)), performs_app.
  destruct (dump_complete PTrain f0 (weaken _ _ (S PTrain))) as [C1 O1]. cbv zeta in *. set (f1 := performs (Mkdir PTrain :: _) f0) in *.
  destruct (dump_complete PValid f1) as [C2 O2].
  { intros d n c E. rewrite O1 in E by discriminate. eapply weaken; [apply S|exact E]. }
  intros []; [|exact C2]. eapply complete_ext; [|exact C1]. symmetry. apply O2. discriminate.
Qed.
(** So does the first launch, without overwriting; and one that continues after a failed download. *)
Theorem C85_first_launch_completes : forall net, (forall s, net s = true) ->
  (exists f, run ds (mkJ false net None) nothing = (f, Some (Ok tt)) /\ forall s, complete ds f s) /\
  (forall net', net' PTrain = true -> net' PValid = false ->
     snd (run ds (mkJ false net' None) nothing) = Some (Raise OSError) /\ complete ds (fst (run ds (mkJ false net' None) nothing)) PTrain /\
     exists f, run ds (mkJ false net None) (history ds [mkJ false net' None] nothing) = (f, Some (Ok tt)) /\ forall s, complete ds f s).
Proof.
  intros net N. split.
  - unfold run, splits. cbn [j_over j_net j_kill]. rewrite !launch_step by auto. cbn [launch fst snd]. eexists. split; [reflexivity|].
    rewrite app_nil_r, (app_comm_cons _ _ (Mkdir PTrain)), performs_app.
    destruct (dump_complete PTrain nothing) as [C1 O1]; [intros d n c E; discriminate|]. cbv zeta in *. set (f1 := performs (Mkdir PTrain :: _) nothing) in *.
    destruct (dump_complete PValid f1) as [C2 O2]. { intros d n c E. rewrite O1 in E by discriminate. discriminate. }
    intros []; [|exact C2]. eapply complete_ext; [|exact C1]. symmetry. apply O2. discriminate.
  - intros net' N1 N2. unfold history. cbn [fold_left].
    assert (R : run ds (mkJ false net' None) nothing = (performs (Mkdir PTrain :: fst (dump PTrain 0 (ds PTrain))) nothing, Some (Raise OSError))).
    { unfold run, splits. cbn [j_over j_net j_kill]. rewrite launch_step by auto. cbn [launch nothing]. cbn [andb]. rewrite N2. cbn [negb fst snd]. now rewrite app_nil_r. }
    rewrite R. cbn [fst snd]. destruct (dump_complete PTrain nothing) as [C1 O1]; [intros d n c E; discriminate|]. cbv zeta in *. set (f1 := performs (Mkdir PTrain :: _) nothing) in *.
    split; [reflexivity|]. split; [exact C1|].
    assert (E1 : f1 PTrain <> None) by (destruct C1 as (d & -> & _); discriminate). assert (E2 : f1 PValid = None) by (apply O1; discriminate).
    unfold run, splits. cbn [j_over j_net j_kill]. rewrite launch_skip by exact E1. rewrite launch_step by auto. cbn [launch fst snd]. eexists. split; [reflexivity|].
    rewrite app_nil_r. destruct (dump_complete PValid f1) as [C2 O2]. { intros d n c E. rewrite E2 in E. discriminate. }
    cbv zeta in *. intros []; [|exact C2]. eapply complete_ext; [|exact C1]. symmetry. apply O2. discriminate.
Qed.
(** When both directories exist, a launch that may not overwrite does nothing, even offline. *)
Theorem C85_relaunch_does_nothing : forall net kill f, f PTrain <> None -> f PValid <> None ->
  fst (run ds (mkJ false net kill) f) = f /\ (kill = None -> snd (run ds (mkJ false net kill) f) = Some (Ok tt)).
Proof.
  intros net kill f A B. unfold run, splits. cbn [j_over j_net j_kill]. rewrite !launch_skip by assumption. cbn [launch fst snd].
  destruct kill as [[n cut]|]; cbn [fst snd]; [|split; reflexivity]. split; [|discriminate]. rewrite firstn_nil. cbn. destruct cut; [|reflexivity]. now destruct n.
Qed.
(** Offline, nothing is lost: a launch that has to download raises before it touches the split. *)
Theorem C85_offline_keeps_files : forall f kill, fst (run ds (mkJ true (fun _ => false) kill) f) = f /\
  snd (run ds (mkJ true (fun _ => false) None) f) = Some (Raise OSError).
Proof.
  intros f kill. unfold run, splits. cbn [j_over j_net j_kill launch negb]. rewrite andb_false_r. cbn [fst snd]. split; [|reflexivity].
  destruct kill as [[n cut]|]; [|reflexivity]. rewrite firstn_nil. cbn. destruct cut; [|reflexivity]. now destruct n.
Qed.

(** Known deviation: a dump that was killed between creating the directory and its last image is
    taken for complete by every later launch without --overwrite, which reports no error. *)
Theorem C85_killed_dump_refuted : forall net k, (forall s, net s = true) -> 1 <= k -> (Z.of_nat k <= 50000)%Z ->
  let f := history ds [mkJ false net (Some (k, false))] nothing in
  ~ complete ds f PTrain /\
  exists g, run ds (mkJ false net None) f = (g, Some (Ok tt)) /\ ~ complete ds g PTrain.
Proof.
  intros net k N K1 K2. cbv zeta. unfold history. cbn [fold_left]. destruct k as [|k]; [lia|].
  destruct (G PTrain) as [L F]. destruct (dump_ok PTrain (ds PTrain) 0 F) as [_ DO].
  assert (LD : length (fst (dump PTrain 0 (ds PTrain))) = length (ds PTrain)) by (rewrite DO, map_length, combine_length, seq_length; lia).
  assert (KL : k < length (ds PTrain)) by (unfold size in L; lia).
  assert (DF : forall (l : list (Img * nat)) i n, Forall (fun e => snd e < 10) l -> firstn n (fst (dump PTrain i l)) = fst (dump PTrain i (firstn n l))).
  { clear. induction l as [|[x label] l IH]; intros i n Q; [cbn; now rewrite !firstn_nil|]. destruct n; [reflexivity|]. inversion Q as [|? ? Q1 Q2]; subst. cbn [firstn dump]. cbn [snd] in Q1.
    rewrite (proj2 (Nat.ltb_lt label (length classes))) by exact Q1. cbn [fst firstn]. f_equal. now apply IH. }
  assert (R : fst (run ds (mkJ false net (Some (S k, false))) nothing) = performs (fst (dump PTrain 0 (firstn k (ds PTrain)))) (set_dir (@nothing Img) PTrain empty)).
  { unfold run, splits. cbn [j_over j_net j_kill]. rewrite !launch_step by auto. cbn [launch fst snd firstn].
    rewrite firstn_app. replace (k - length (fst (dump PTrain 0 (ds PTrain)))) with 0 by lia. rewrite firstn_O, app_nil_r, DF by exact F. reflexivity. }
  rewrite R. clear R.
  assert (FF : Forall (fun e => snd e < 10) (firstn k (ds PTrain))) by (apply Forall_forall; intros o Io; rewrite Forall_forall in F; apply F; rewrite <- (firstn_skipn k (ds PTrain)); apply in_or_app; now left).
  destruct (dump_performs PTrain (firstn k (ds PTrain)) 0 _ _ (set_same (@nothing Img) PTrain empty) FF) as [O (d' & D1 & D2 & D3)]. cbv zeta in *.
  set (f := performs _ _) in *.
  assert (NC : ~ complete ds f PTrain).
  { intros (d & E & H). rewrite D1 in E. injection E as <-.
    destruct (nth_error (ds PTrain) k) as [[x label]|] eqn:NE; [|apply nth_error_None in NE; lia].
    assert (Q : d' (filename label k) = Some (Whole x)) by (apply H; exists k, x, label; split; [exact NE|now split]).
    rewrite D3 in Q; [discriminate|]. intros y (j & lb & N1 & N2).
    assert (JK : j < k) by (assert (j < length (firstn k (ds PTrain))) by (apply nth_error_Some; congruence); rewrite firstn_length in *; lia).
    apply nth_error_In in N1. rewrite Forall_forall in FF, F. specialize (FF _ N1). cbn in FF. apply nth_error_In in NE. specialize (F _ NE). cbn in F.
    destruct (C85_names label k F) as [_ Z]. destruct (Z lb (0 + j) FF N2) as [_ Y]. lia. }
  split; [exact NC|].
  assert (E1 : f PTrain <> None) by (rewrite D1; discriminate). assert (E2 : f PValid = None) by (apply O; discriminate).
  unfold run, splits. cbn [j_over j_net j_kill]. rewrite launch_skip by exact E1. rewrite launch_step by auto. cbn [launch fst snd]. eexists. split; [reflexivity|].
  rewrite app_nil_r. destruct (dump_complete PValid f) as [C2 O2]. { intros d n c E. rewrite E2 in E. discriminate. }
  cbv zeta in O2. intros C. apply NC. eapply complete_ext; [|exact C]. apply O2. discriminate.
Qed.
End Histories.

(** * Class labels *)
Definition alphabetical : list string := ["bird"; "car"; "cat"; "deer"; "dog"; "frog"; "horse"; "plane"; "ship"; "truck"].
(** The label that conditional training uses for each of CIFAR-10's labels. *)
Definition relabel (label : nat) : nat := nth label [7; 1; 0; 2; 3; 4; 5; 6; 8; 9] 0.
Lemma alphabetical_sorted : StronglySorted (fun x y => String.leb x y = true) alphabetical.
Proof. unfold alphabetical. repeat (constructor; [|repeat constructor]). constructor. Qed.

(** When every class occurs among the files, an image of CIFAR-10's label l gets the position of its
    class name in the alphabet, in the train and the valid split alike; different labels stay
    different. *)
Theorem C85_class_labels : forall (labelled : list (nat * nat)), Forall (fun p => fst p < 10) labelled ->
  (forall l, l < 10 -> In l (map fst labelled)) ->
  class_labels (map (fun p => filename (fst p) (snd p)) labelled) = map (fun p => relabel (fst p)) labelled /\
  (forall l l', l < 10 -> l' < 10 -> relabel l = relabel l' -> l = l') /\
  (forall l, l < 10 -> nth (relabel l) alphabetical "" = nth l classes "").
Proof.
  intros labelled F A. split; [|split].
  - assert (NM : map before_underscore (map (fun p : nat * nat => filename (fst p) (snd p)) labelled) = map (fun p => nth (fst p) classes "") labelled).
    { rewrite map_map. apply map_ext_in. intros p I. rewrite Forall_forall in F. apply (C85_names (fst p) (snd p)). now apply F. }
    unfold class_labels. cbv zeta. rewrite NM.
    assert (S : ClicImg_Model.sort (nodup string_dec (map (fun p : nat * nat => nth (fst p) classes "") labelled)) = alphabetical).
    { apply sorted_unique; [apply sort_sorted|exact alphabetical_sorted|]. etransitivity; [symmetry; apply sort_perm|]. apply NoDup_Permutation.
      - apply NoDup_nodup.
      - unfold alphabetical. repeat (apply NoDup_cons; [cbn; intuition discriminate|]). apply NoDup_nil.
      - intros x. rewrite nodup_In, in_map_iff. split.
        + intros (p & <- & I). rewrite Forall_forall in F. specialize (F p I). generalize dependent (fst p). intros l L. do 10 (destruct l as [|l]; [cbn; tauto|]). lia.
        + intros I. assert (E : exists l, l < 10 /\ x = nth l classes "").
          { cbn in I. repeat (destruct I as [<-|I]; [|]); [exists 2|exists 1|exists 3|exists 4|exists 5|exists 6|exists 7|exists 0|exists 8|exists 9|easy]; (split; [lia|reflexivity]). }
          destruct E as (l & L & ->). specialize (A l L). apply in_map_iff in A. destruct A as (p & <- & I'). now exists p. }
    rewrite S, map_map. apply map_ext_in. intros p I. rewrite Forall_forall in F. specialize (F p I). generalize dependent (fst p). intros l L. do 10 (destruct l as [|l]; [reflexivity|]). lia.
  - intros l l' L L' E. unfold relabel in E. assert (ND : NoDup [7; 1; 0; 2; 3; 4; 5; 6; 8; 9]) by (repeat (apply NoDup_cons; [cbn; intuition discriminate|]); apply NoDup_nil).
    exact (proj1 (NoDup_nth _ 0) ND l l' L L' E).
  - intros l L. do 10 (destruct l as [|l]; [reflexivity|]). lia.
Qed.
(** From a dump that was killed early, with a class missing, the same image gets another label. *)
Theorem C85_partial_labels_refuted : exists full killed file, 
  In file full /\ In file killed /\ (forall l, l < 10 -> In (filename l l) full) /\
  (exists k1 k2, nth_error full k1 = Some file /\ nth_error killed k2 = Some file /\
     nth k1 (class_labels full) 99 <> nth k2 (class_labels killed) 99).
Proof.
  exists (map (fun l => filename l l) (seq 0 10)), (map (fun l => filename l l) (seq 0 2)), (filename 0 0).
  split; [now left|]. split; [now left|]. split; [intros l L; apply in_map_iff; exists l; split; [reflexivity|apply in_seq; lia]|].
  exists 0, 0. split; [reflexivity|]. split; [reflexivity|]. vm_compute. discriminate.
Qed.

(** * Non-vacuity *)
Example a_data_set : good (fun s => map (fun i => (i, i mod 10)) (seq 0 (Z.to_nat (size s)))).
Proof.
  intros s. split; [rewrite map_length, seq_length; destruct s; cbn [size]; lia|]. apply Forall_forall. intros e I. apply in_map_iff in I. destruct I as (i & <- & _).
  cbn [snd]. apply Nat.mod_upper_bound. lia.
Qed.
Example a_name : filename 6 123 = "frog_00123.png". Proof. reflexivity. Qed.

Print Assumptions C85_names.
Print Assumptions C85_histories_are_sane.
Print Assumptions C85_overwriting_repairs.
Print Assumptions C85_killed_dump_refuted.
Print Assumptions C85_class_labels.

(** A data set of another size is refused, before anything is written. *)
Theorem C85_wrong_size_refused : forall Img (ds : part -> list (Img * nat)) net f over,
  (forall s, net s = true) -> (f PTrain = None \/ over = true) -> Z.of_nat (length (ds PTrain)) <> 50000%Z ->
  run ds (mkJ over net None) f = (f, Some (Raise AssertionError)).
Proof.
  intros Img ds net f over N O H. unfold run, splits. cbn [j_over j_net j_kill launch].
  replace (match f PTrain with Some _ => true | None => false end && negb over) with false.
  - rewrite N. cbn [negb]. destruct (Z.eqb_spec (Z.of_nat (length (ds PTrain))) (size PTrain)) as [E|E]; [exfalso; apply H; exact E|]. reflexivity.
  - destruct O as [-> | ->]; [reflexivity|]. cbn. now rewrite andb_false_r.
Qed.
Print Assumptions C85_wrong_size_refused.

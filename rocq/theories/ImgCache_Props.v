(** C68: the cache of logged images. *)
From Coq Require Import Ascii String ZArith List Bool Arith Lia DecimalString DecimalZ.
From Verif Require Import Base ImgCache_Model.
Import ListNotations.
Open Scope string_scope.
Open Scope nat_scope.

(** * Specification *)
(** The images of the data sets at the given indices. *)
Definition images_at {Img} (data : Z -> res Img) (idx : list Z) (ims : list Img) : Prop :=
  Forall2 (fun i im => data i = Ok im) idx ims.
Fixpoint no_bracket (s : string) : Prop :=
  match s with EmptyString => True | String c r => c <> "["%char /\ no_bracket r end.
Definition collision_free (sha256 : string -> string) : Prop := forall x y, sha256 x = sha256 y -> x = y.
Definition same_request {Img} (c c' : conf Img) : Prop :=
  target c = target c' /\ train_idx c = train_idx c' /\ val_idx c = val_idx c'.

(** * The key determines the request *)
Definition numeral (c : ascii) : bool :=
  match c with
  | "0"%char | "1"%char | "2"%char | "3"%char | "4"%char | "5"%char | "6"%char | "7"%char | "8"%char | "9"%char | "-"%char => true
  | _ => false
  end.
Fixpoint all_numeral (s : string) : Prop :=
  match s with EmptyString => True | String c r => numeral c = true /\ all_numeral r end.
Lemma str_uint_numeral d : all_numeral (NilEmpty.string_of_uint d).
Proof. induction d; cbn; auto. Qed.
Lemma str_int_numeral z : all_numeral (str_int z).
Proof. unfold str_int, NilEmpty.string_of_int. destruct (Z.to_int z); [apply str_uint_numeral|]. split; [reflexivity|apply str_uint_numeral]. Qed.
Lemma str_int_inj a b : str_int a = str_int b -> a = b.
Proof.
  intro H. apply DecimalZ.to_int_inj.
  assert (NilEmpty.int_of_string (str_int a) = NilEmpty.int_of_string (str_int b)) as E by now rewrite H.
  unfold str_int in E. rewrite !NilEmpty.isi in E. now injection E.
Qed.
Lemma str_int_nonempty z : str_int z <> "".
Proof.
  intro H. assert (E : NilEmpty.int_of_string (str_int z) = NilEmpty.int_of_string "") by now rewrite H.
  unfold str_int in E. rewrite NilEmpty.isi in E. cbn in E. injection E as E.
  pose proof (DecimalZ.of_to z) as O. rewrite E in O. cbn in O. subst z. discriminate.
Qed.
Lemma str_app_assoc a b c : (a ++ b) ++ c = a ++ b ++ c.
Proof. induction a as [|x a IH]; cbn; [reflexivity|now rewrite IH]. Qed.
(** Two numerals followed by something that is not one. *)
Lemma numeral_split : forall a b x y p q, all_numeral a -> all_numeral b -> numeral x = false -> numeral y = false ->
  a ++ String x p = b ++ String y q -> a = b /\ x = y /\ p = q.
Proof.
  induction a as [|c a IH]; intros [|e b] x y p q A B X Y H; cbn in H.
  - injection H as -> ->. auto.
  - injection H as -> _. destruct B as [B _]. congruence.
  - injection H as -> _. destruct A as [A _]. congruence.
  - injection H as -> H. destruct A as [_ A], B as [_ B]. destruct (IH b x y p q A B X Y H) as [-> [-> ->]]. auto.
Qed.
Lemma join_cons x l tail : join ", " (x :: l) ++ String "]" tail =
  x ++ (match l with [] => String "]" tail | _ => String "," (String " " (join ", " l ++ String "]" tail)) end).
Proof. destruct l as [|y l]; cbn [join]; [reflexivity|]. now rewrite !str_app_assoc. Qed.
Lemma str_tail c d p q : String c p = String d q -> p = q.
Proof. intro H. now injection H. Qed.
Lemma join_inj : forall l m p q,
  join ", " (map str_int l) ++ String "]" p = join ", " (map str_int m) ++ String "]" q -> l = m /\ p = q.
Proof.
  induction l as [|a l IH]; intros [|b m] p q H.
  - cbn in H. injection H as ->. auto.
  - exfalso. cbn [map] in H. rewrite join_cons in H. cbn [join append] in H.
    pose proof (str_int_numeral b). destruct (str_int b) eqn:E; [now apply (str_int_nonempty b)|]. cbn in H. injection H as <- _. destruct H0. discriminate.
  - exfalso. cbn [map] in H. rewrite join_cons in H. cbn [join append] in H.
    pose proof (str_int_numeral a). destruct (str_int a) eqn:E; [now apply (str_int_nonempty a)|]. cbn in H. injection H as -> _. destruct H0. discriminate.
  - cbn [map] in H. rewrite !join_cons in H. destruct (map str_int l) as [|x lx] eqn:L, (map str_int m) as [|y my] eqn:M.
    + apply numeral_split in H; try apply str_int_numeral; try reflexivity. destruct H as [E [_ ->]]. apply str_int_inj in E. subst b.
      apply map_eq_nil in L, M. subst. auto.
    + apply numeral_split in H; try apply str_int_numeral; try reflexivity. destruct H as [_ [H _]]. discriminate.
    + apply numeral_split in H; try apply str_int_numeral; try reflexivity. destruct H as [_ [H _]]. discriminate.
    + apply numeral_split in H; try apply str_int_numeral; try reflexivity. destruct H as [E [_ H]]. apply str_tail in H.
      apply str_int_inj in E. subst b. rewrite <- M in H. apply IH in H. destruct H as [-> ->]. auto.
Qed.
Lemma bracket_split : forall a b p q, no_bracket a -> no_bracket b -> a ++ String "[" p = b ++ String "[" q -> a = b /\ p = q.
Proof.
  induction a as [|c a IH]; intros [|e b] p q A B H; cbn in H.
  - now injection H as ->.
  - injection H as <- _. destruct B as [B _]. now destruct B.
  - injection H as -> _. destruct A as [A _]. now destruct A.
  - injection H as -> H. destruct A as [_ A], B as [_ B]. destruct (IH b p q A B H) as [-> ->]. auto.
Qed.
Lemma app_suffix_inj : forall a b s, a ++ s = b ++ s -> a = b.
Proof.
  assert (L : forall a b, String.length (a ++ b) = String.length a + String.length b)
    by (intros a b; induction a as [|x a IH]; cbn; [reflexivity|now rewrite IH]).
  induction a as [|c a IH]; intros [|e b] s H; cbn in H; trivial.
  - exfalso. apply (f_equal String.length) in H. cbn in H. rewrite L in H. lia.
  - exfalso. apply (f_equal String.length) in H. cbn in H. rewrite L in H. lia.
  - injection H as -> H. f_equal. now apply IH with s.
Qed.
(** Two requests have the same file only if they ask for the same. *)
Theorem image_key_injective : forall Img sha256 (c c' : conf Img), collision_free sha256 ->
  no_bracket (target c) -> no_bracket (target c') ->
  key sha256 c = key sha256 c' -> same_request c c'.
Proof.
  intros Img sha c c' CF B B' H. unfold key in H. apply app_suffix_inj in H. apply CF in H. unfold str_list in H.
  change ("[" ++ join ", " (map str_int (train_idx c)) ++ "]") with (String "[" (join ", " (map str_int (train_idx c)) ++ "]")) in H.
  change ("[" ++ join ", " (map str_int (train_idx c')) ++ "]") with (String "[" (join ", " (map str_int (train_idx c')) ++ "]")) in H.
  cbn [append] in H. apply bracket_split in H; trivial. destruct H as [T H]. rewrite !str_app_assoc in H. cbn [append] in H.
  apply join_inj in H. destruct H as [TR H]. injection H as H. apply join_inj in H. destruct H as [VA _]. now split.
Qed.

(** * The cache over histories *)
Lemma mapM_images {Img} (data : Z -> res Img) idx ims : mapM data idx = Ok ims <-> images_at data idx ims.
Proof.
  unfold images_at. split.
  - revert ims. induction idx as [|i r IH]; intros ims H; cbn in H; [injection H as <-; constructor|].
    destruct (data i) eqn:D; cbn in H; [|discriminate]. destruct (mapM data r) eqn:M; cbn in H; [|discriminate]. injection H as <-.
    constructor; [exact D|]. now apply IH.
  - induction 1 as [|i im r ims D F IH]; [reflexivity|]. cbn. rewrite D. cbn. rewrite IH. reflexivity.
Qed.
Lemma compute_spec {Img} (c : conf Img) t v : compute c = Ok (t, v) <->
  images_at (train_data c) (train_idx c) t /\ images_at (val_data c) (val_idx c) v /\ train_idx c <> [] /\ val_idx c <> [].
Proof.
  unfold compute. split.
  - destruct (mapM (train_data c) (train_idx c)) as [t0|] eqn:T; [|discriminate]. cbn [bind]. destruct t0 as [|x t0]; [discriminate|]. cbn [stack bind].
    destruct (mapM (val_data c) (val_idx c)) as [v0|] eqn:W; [|discriminate]. cbn [bind]. destruct v0 as [|y v0]; [discriminate|]. cbn [stack bind].
    intro H. injection H as <- <-. apply mapM_images in T, W. repeat split; trivial; intro E; rewrite E in *; [inversion T|inversion W].
  - intros [T [W [NT NV]]]. apply mapM_images in T, W. rewrite T. cbn [bind]. apply mapM_images in T. apply mapM_images in W.
    inversion T as [E|]; [congruence|]. cbn [stack bind]. rewrite (proj2 (mapM_images _ _ _) W). cbn [bind].
    inversion W as [E|]; [congruence|]. reflexivity.
Qed.
(** Every complete file holds the images of some earlier launch with that key. *)
Lemma cache_origin Img sha256 : forall h s, (forall k im, s k = Some (Complete im) -> exists c n, In (c, n) h /\ key sha256 c = k /\ compute c = Ok im) ->
  forall h' , let s' := run sha256 s h' in
  forall k (im : images Img), s' k = Some (Complete im) -> exists c n, In (c, n) (h ++ h') /\ key sha256 c = k /\ compute c = Ok im.
Proof.
  intros h s A h'. revert h s A. induction h' as [|[c n] h' IH]; intros h s A s' k im H.
  - rewrite app_nil_r. now apply A.
  - cbn in s'. replace (h ++ (c, n) :: h')%list with ((h ++ [(c, n)]) ++ h')%list by now rewrite <- app_assoc.
    apply (IH (h ++ [(c, n)])%list (snd (build sha256 c n s))); [|exact H].
    assert (W : forall k im, s k = Some (Complete im) -> exists c0 n0, In (c0, n0) (h ++ [(c, n)]) /\ key sha256 c0 = k /\ compute c0 = Ok im).
    { intros k0 im0 F. destruct (A k0 im0 F) as [c0 [n0 [I J]]]. exists c0, n0. split; [apply in_or_app; now left|exact J]. }
    intros k0 im0. unfold build. destruct (s (key sha256 c)) as [[im1|]|] eqn:E; cbn [snd]; try apply W.
    destruct (compute c) as [im1|] eqn:C; cbn [snd]; [|apply W]. destruct n as [|[|n]]; cbn [snd]; try apply W.
    + destruct (String.eqb k0 (key sha256 c)); [discriminate|apply W].
    + destruct (String.eqb_spec k0 (key sha256 c)) as [->|]; [|apply W]. intro F. injection F as <-.
      exists c, (S (S n)). split; [apply in_or_app; right; now left|auto].
Qed.
(** In every history of launches, killed or not: what a launch returns are the images at its own
    indices, as they were in the data of some launch with the same data class. *)
Theorem image_cache_sound : forall Img sha256 (h : list (conf Img * nat)) c n t v s', collision_free sha256 ->
  no_bracket (target c) -> (forall c' n', In (c', n') h -> no_bracket (target c')) ->
  build sha256 c n (run sha256 empty h) = (Returned (t, v), s') ->
  exists c', (c' = c \/ exists n', In (c', n') h) /\ target c' = target c /\
    images_at (train_data c') (train_idx c) t /\ images_at (val_data c') (val_idx c) v.
Proof.
  intros Img sha h c n t v s' CF B BH H.
  assert (X : (exists c', In c' (c :: map fst h) /\ key sha c' = key sha c /\ compute c' = Ok (t, v))).
  { unfold build in H. destruct (run sha empty h (key sha c)) as [[im|]|] eqn:E; [|discriminate|].
    - injection H as -> _. destruct (cache_origin Img sha [] empty ltac:(discriminate) h (key sha c) (t, v) E) as [c' [n' [I J]]].
      exists c'. split; [right; apply in_map_iff; now exists (c', n')|exact J].
    - destruct (compute c) as [im|] eqn:C; [|discriminate]. exists c. destruct n as [|[|n]]; try discriminate. injection H as -> _. split; [now left|auto]. }
  destruct X as [c' [I [K C]]]. exists c'.
  assert (B' : no_bracket (target c')).
  { destruct I as [<-|I]; [exact B|]. apply in_map_iff in I. destruct I as [[c0 n0] [<- I]]. now apply (BH c0 n0). }
  apply image_key_injective in K; trivial. destruct K as [T [TR VA]]. apply compute_spec in C. rewrite TR, VA in C.
  split; [|split; [exact T|tauto]]. destruct I as [<-|I]; [now left|]. right. apply in_map_iff in I. destruct I as [[c0 n0] [<- I]]. now exists n0.
Qed.
(** So if the data class determines the data, the images are the right ones. *)
Theorem image_cache_exact : forall Img sha256 (h : list (conf Img * nat)) c n t v s', collision_free sha256 ->
  no_bracket (target c) -> (forall c' n', In (c', n') h -> no_bracket (target c')) ->
  (forall c' n', In (c', n') h -> target c' = target c -> train_data c' = train_data c /\ val_data c' = val_data c) ->
  build sha256 c n (run sha256 empty h) = (Returned (t, v), s') ->
  images_at (train_data c) (train_idx c) t /\ images_at (val_data c) (val_idx c) v.
Proof.
  intros Img sha h c n t v s' CF B BH D H. destruct (image_cache_sound Img sha h c n t v s' CF B BH H) as [c' [[->|[n' I]] [T X]]]; [exact X|].
  destruct (D c' n' I T) as [<- <-]. exact X.
Qed.
Lemma run_keeps Img sha256 : forall h (s : cache Img) k x, s k = Some x -> run sha256 s h k = Some x.
Proof.
  induction h as [|[c n] h IH]; intros s k x H; [exact H|]. cbn. apply IH. unfold build.
  destruct (s (key sha256 c)) as [[im|]|] eqn:E; cbn [snd]; trivial. destruct (compute c); cbn [snd]; trivial.
  destruct n as [|[|n]]; cbn [snd]; trivial; (destruct (String.eqb_spec k (key sha256 c)) as [->|]; [congruence|exact H]).
Qed.
(** Once returned, the same images are returned to every later launch with the same request,
    also if it is killed where it would write, and whatever its data: *)
Theorem image_cache_stale_refuted : forall Img sha256 (h h' : list (conf Img * nat)) c n im s' c' n',
  build sha256 c n (run sha256 empty h) = (Returned im, s') -> same_request c c' ->
  fst (build sha256 c' n' (run sha256 s' h')) = Returned im.
Proof.
  intros Img sha h h' c n im s' c' n' H [T [TR VA]].
  assert (K : s' (key sha c) = Some (Complete im)).
  { unfold build in H. destruct (run sha empty h (key sha c)) as [[im0|]|] eqn:E; [|discriminate|].
    - injection H as <- <-. exact E.
    - destruct (compute c); [|discriminate]. destruct n as [|[|n]]; try discriminate. injection H as <- <-. now rewrite String.eqb_refl. }
  assert (KE : key sha c' = key sha c) by (unfold key; now rewrite T, TR, VA).
  unfold build. rewrite KE, (run_keeps Img sha h' s' _ _ K). reflexivity.
Qed.
(** A launch killed while it writes breaks every later launch with the same request. *)
Theorem image_cache_cut_refuted : forall Img sha256 (s : cache Img) h' c im c' n',
  s (key sha256 c) = None -> compute c = Ok im -> same_request c c' ->
  fst (build sha256 c 1 s) = Killed /\
  fst (build sha256 c' n' (run sha256 (snd (build sha256 c 1 s)) h')) = Failed EOFError.
Proof.
  intros Img sha s h' c im c' n' E C [T [TR VA]].
  assert (KE : key sha c' = key sha c) by (unfold key; now rewrite T, TR, VA).
  assert (B : build sha c 1 s = (Killed, fun k' => if String.eqb k' (key sha c) then Some Cut else s k')) by (unfold build; now rewrite E, C).
  rewrite B. split; [reflexivity|]. cbn [snd]. unfold build. rewrite KE.
  rewrite (run_keeps Img sha h' _ (key sha c) Cut) by now rewrite String.eqb_refl. reflexivity.
Qed.
Print Assumptions image_cache_sound.
Print Assumptions image_cache_cut_refuted.

Example image_cache_instance :
  let data i := if (0 <=? i)%Z then Ok (Z.to_nat i) else Raise IndexError in
  let c l m := mkConf "open_images_datamodule.OpenImagesDataModule" l m data data in
  let h := [(c [1; 23]%Z [4]%Z, 2); (c [12; 3]%Z [4]%Z, 2)] in
  no_bracket (target (c [] [])) /\ collision_free (fun s => s) /\
  fst (build (fun s => s) (c [12; 3]%Z [4]%Z) 0 (run (fun s => s) empty h)) = Returned ([12; 3], [4]) /\
  str_list [0; -85411; 12]%Z = "[0, -85411, 12]".
Proof. repeat split; try discriminate. unfold collision_free. auto. Qed.

(** C52: indexing of the Vimeo-90k data set. *)
From Coq Require Import ZArith String Ascii List Bool Lia FinFun.
From Verif Require Import Base Vimeo_Model.
Import ListNotations.
Open Scope Z_scope.

Lemma pyget_ok : forall A (l : list A) j a, nth_error l j = Some a -> pyget l (Z.of_nat j) = Ok a.
Proof.
  intros A l j a H. assert (L : (j < length l)%nat) by (apply nth_error_Some; congruence). unfold pyget.
  rewrite (proj2 (Z.ltb_ge (Z.of_nat j) 0)) by lia. cbv zeta.
  rewrite (proj2 (Z.leb_le 0 (Z.of_nat j))), (proj2 (Z.ltb_lt _ _)) by lia. cbn [andb]. now rewrite Nat2Z.id, H.
Qed.
Lemma pyget_neg : forall A (l : list A) i, - Z.of_nat (length l) <= i < 0 -> pyget l i = pyget l (i + Z.of_nat (length l)).
Proof.
  intros A l i H. unfold pyget. rewrite (proj2 (Z.ltb_lt i 0)) by lia. rewrite (proj2 (Z.ltb_ge (i + _) 0)) by lia.
  reflexivity.
Qed.
Lemma pyget_out : forall A (l : list A) i, (i < - Z.of_nat (length l) \/ Z.of_nat (length l) <= i) -> pyget l i = Raise IndexError.
Proof.
  intros A l i H. unfold pyget. cbv zeta. destruct (Z.ltb_spec i 0).
  - rewrite (proj2 (Z.leb_gt 0 _)) by lia. reflexivity.
  - rewrite (proj2 (Z.ltb_ge _ (Z.of_nat (length l)))) by lia. now rewrite andb_false_r.
Qed.

Section Props.
Context {Img T : Type}.
Variable load : string -> Z -> res Img.
Variable to_tensor : Img -> res (option T).
Variable stack : list T -> res T.
Variable read_list : string -> res (list string).
Let init := @vimeo_init Img T to_tensor read_list.
Let get := @vimeo_get Img T load stack.

(** What a user expects one frame to become: the file, through the image transform, which must
    produce a tensor. *)
Definition frame_spec (pil : Img -> res (option T)) (folder : string) (n : Z) : res T :=
  match load folder n with
  | Raise e => Raise e
  | Ok img => match pil img with Raise e => Raise e | Ok None => Raise RuntimeError | Ok (Some t) => Ok t end
  end.
Definition after (tt : option (T -> res T)) (r : res T) : res T :=
  match r with Raise e => Raise e | Ok t => match tt with Some f => f t | None => Ok t end end.

(** The constructor accepts exactly 1 to 7 frames, with exactly one of a known split (whose list
    can be read) and a folder list; everything else is a ValueError. *)
Theorem vimeo_init_accepts : forall video n split folders pil tt d,
  init video n split folders pil tt = Ok d <->
  1 <= n <= 7 /\ v_video d = video /\ v_frames d = n /\ v_tensor d = tt /\
  v_pil d = match pil with Some f => Some f | None => if video then Some to_tensor else None end /\
  ((split = None /\ folders = Some (v_folders d)) \/
   (folders = None /\ exists lines, (split = Some "train"%string \/ split = Some "test"%string) /\
      (forall s, split = Some s -> read_list s = Ok lines) /\
      v_folders d = map (fun l => append "sequences/" (strip l)) lines)).
Proof.
  intros video n split folders pil tt d. unfold init, vimeo_init.
  assert (PE : forall b : bool, match pil with None => if b then Some to_tensor else None | Some f => Some f end
             = match pil with Some f => Some f | None => if b then Some to_tensor else None end) by (destruct pil; reflexivity).
  split.
  - intro H. destruct (Z.leb_spec 1 n); cbn [andb negb] in H; [|discriminate].
    destruct (Z.leb_spec n 7); cbn [negb] in H; [|discriminate].
    split; [lia|]. destruct split as [s|], folders as [l|]; try discriminate.
    + destruct (String.eqb_spec s "train") as [->|]; cbn [orb] in H.
      * destruct (read_list "train") as [lines|] eqn:R; cbn in H; [|discriminate]. injection H as <-. cbn.
        repeat (split; [reflexivity|]). right. split; [reflexivity|]. exists lines. split; [now left|].
        split; [intros s E; now injection E as <-|reflexivity].
      * destruct (String.eqb_spec s "test") as [->|]; [|discriminate].
        destruct (read_list "test") as [lines|] eqn:R; cbn in H; [|discriminate]. injection H as <-. cbn.
        repeat (split; [reflexivity|]). right. split; [reflexivity|]. exists lines. split; [now right|].
        split; [intros s E; now injection E as <-|reflexivity].
    + injection H as <-. cbn. repeat (split; [reflexivity|]). left. split; reflexivity.
  - intros [N [V [F [TT [P C]]]]]. rewrite (proj2 (Z.leb_le 1 n)), (proj2 (Z.leb_le n 7)) by lia. cbn [andb negb].
    destruct d as [dv df dl dp dt]. cbn in *. subst.
    destruct C as [[-> ->]|[-> [lines [S [R E]]]]]; [reflexivity|].
    destruct S as [-> | ->]; cbn [String.eqb orb]; rewrite (R _ eq_refl); cbn [bind]; rewrite E; reflexivity.
Qed.
Theorem vimeo_init_rejects : forall video n split folders pil tt,
  ~ (1 <= n <= 7) \/ (split = None <-> folders = None) \/
  (exists s, split = Some s /\ s <> "train"%string /\ s <> "test"%string) ->
  init video n split folders pil tt = Raise ValueError.
Proof.
  intros video n split folders pil tt H. unfold init, vimeo_init.
  destruct (Z.leb_spec 1 n); cbn [andb negb]; [|reflexivity]. destruct (Z.leb_spec n 7); cbn [negb]; [|reflexivity].
  destruct H as [H|[H|[s [-> [A B]]]]]; [lia| |].
  - destruct split, folders; try reflexivity; exfalso; [destruct H as [_ H]|destruct H as [H _]]; discriminate (H eq_refl).
  - destruct folders; [reflexivity|]. apply String.eqb_neq in A, B. now rewrite A, B.
Qed.

(** Image mode: index j*n + (k-1) is frame k of folder j, for k from 1 to n ... *)
Theorem vimeo_image_item : forall d j k folder pil, v_video d = false -> v_pil d = Some pil ->
  nth_error (v_folders d) j = Some folder -> 1 <= k <= v_frames d ->
  get d (Z.of_nat j * v_frames d + (k - 1)) = after (v_tensor d) (frame_spec pil folder k).
Proof.
  intros d j k folder pil V P N K. unfold get, vimeo_get. rewrite V.
  assert (D : (Z.of_nat j * v_frames d + (k - 1)) / v_frames d = Z.of_nat j).
  { rewrite Z.add_comm, Z.div_add by lia. rewrite Z.div_small; lia. }
  assert (M : (Z.of_nat j * v_frames d + (k - 1)) mod v_frames d + 1 = k).
  { rewrite Z.add_comm with (m := k - 1), Z.mod_add by lia. rewrite Z.mod_small; lia. }
  rewrite D, M, (pyget_ok _ _ _ _ N). cbn [bind]. unfold load_image, frame_spec, after. rewrite P.
  destruct (load folder k) as [img|]; [|reflexivity]. cbn [bind]. destruct (pil img) as [[t|]|]; reflexivity.
Qed.
(** ... and every valid index is that of exactly one (folder, frame). *)
Theorem vimeo_index_bijection : forall (d : @vimeo Img T) idx, v_video d = false -> 1 <= v_frames d ->
  0 <= idx < vimeo_len d <->
  exists j k, (j < length (v_folders d))%nat /\ 1 <= k <= v_frames d /\ idx = Z.of_nat j * v_frames d + (k - 1) /\
    forall j' k', 1 <= k' <= v_frames d -> idx = Z.of_nat j' * v_frames d + (k' - 1) -> j' = j /\ k' = k.
Proof.
  intros d idx V F. unfold vimeo_len. rewrite V. split.
  - intro H. exists (Z.to_nat (idx / v_frames d)), (idx mod v_frames d + 1).
    pose proof (Z.div_pos idx (v_frames d) ltac:(lia) ltac:(lia)) as P.
    pose proof (Z.mod_pos_bound idx (v_frames d) ltac:(lia)) as M.
    pose proof (Z.div_mod idx (v_frames d) ltac:(lia)) as DM.
    pose proof (Z.div_lt_upper_bound idx (v_frames d) (Z.of_nat (length (v_folders d))) ltac:(lia) ltac:(lia)) as U.
    split; [lia|]. split; [lia|]. rewrite Z2Nat.id by exact P. split; [lia|].
    intros j' k' K' E. assert (J : Z.of_nat j' = idx / v_frames d) by (apply Z.div_unique with (k' - 1); lia).
    split; [lia|]. rewrite J in E. lia.
  - intros [j [k [J [K [E _]]]]]. subst idx.
    assert (Z.of_nat j * v_frames d <= (Z.of_nat (length (v_folders d)) - 1) * v_frames d) by (apply Z.mul_le_mono_nonneg_r; lia).
    lia.
Qed.

(** Video mode: index j is the stack of the first n frames of folder j, in order. *)
Theorem vimeo_video_item : forall d j folder pil (img : Z -> T), v_video d = true -> v_pil d = Some pil ->
  nth_error (v_folders d) j = Some folder -> 0 <= v_frames d ->
  (forall k, 1 <= k <= v_frames d -> frame_spec pil folder k = Ok (img k)) ->
  get d (Z.of_nat j) = after (v_tensor d) (stack (map img (frame_range (v_frames d)))) /\
  length (frame_range (v_frames d)) = Z.to_nat (v_frames d) /\
  (forall i, (i < Z.to_nat (v_frames d))%nat -> nth i (frame_range (v_frames d)) 0 = Z.of_nat i + 1).
Proof.
  intros d j folder pil img V P N F I.
  assert (LN : length (frame_range (v_frames d)) = Z.to_nat (v_frames d)) by (unfold frame_range; now rewrite map_length, seq_length).
  split; [|split; [exact LN|]].
  - unfold get, vimeo_get. rewrite V, (pyget_ok _ _ _ _ N). cbn [bind].
    assert (M : forall l, (forall k, In k l -> 1 <= k <= v_frames d) -> mapM (load_image load d folder) l = Ok (map img l)).
    { induction l as [|k l IH]; intro H; [reflexivity|]. cbn [mapM map]. rewrite IH by (intros; apply H; now right).
      specialize (I k (H k (or_introl eq_refl))). unfold frame_spec in I. unfold load_image. rewrite P.
      destruct (load folder k) as [x|]; [|discriminate]. cbn [bind]. destruct (pil x) as [[t|]|]; try discriminate.
      injection I as ->. reflexivity. }
    rewrite M; [unfold after; cbn [bind]; destruct (stack _); reflexivity|].
    intros k K. unfold frame_range in K. apply in_map_iff in K. destruct K as [i [<- K]]. apply in_seq in K. lia.
  - intros i Hi. unfold frame_range. rewrite (nth_indep _ 0 (Z.of_nat 0 + 1)) by (rewrite map_length, seq_length; lia).
    rewrite (map_nth (fun k => Z.of_nat k + 1)), seq_nth by lia. reflexivity.
Qed.

(** Negative indices count from the end, and anything else is an IndexError. *)
Theorem vimeo_other_indices : forall (d : @vimeo Img T) idx, 1 <= v_frames d ->
  (- vimeo_len d <= idx < 0 -> get d idx = get d (idx + vimeo_len d)) /\
  (idx < - vimeo_len d \/ vimeo_len d <= idx -> get d idx = Raise IndexError).
Proof.
  intros d idx F. unfold get, vimeo_get, vimeo_len. set (n := Z.of_nat (length (v_folders d))). set (f := v_frames d) in *.
  destruct (v_video d).
  - split; intro H.
    + rewrite pyget_neg by exact H. reflexivity.
    + rewrite pyget_out by exact H. reflexivity.
  - pose proof (Z.mul_div_le idx f ltac:(lia)) as L. pose proof (Z.mul_succ_div_gt idx f ltac:(lia)) as G. split; intro H.
    + rewrite (Z.div_add idx n f), Z.mod_add by lia. rewrite pyget_neg; [reflexivity|]. fold n. split.
      * apply Z.div_le_lower_bound; lia.
      * apply Z.div_lt_upper_bound; lia.
    + rewrite pyget_out; [reflexivity|]. fold n. destruct H as [H|H].
      * left. apply Z.div_lt_upper_bound; lia.
      * right. apply Z.div_le_lower_bound; lia.
Qed.

(** Image mode without a transform, the default and documented to return the images, raises
    TypeError for every frame that can be read. *)
Theorem vimeo_default_image_refuted : forall n folders tt d j k folder img,
  init false n None (Some folders) None tt = Ok d ->
  nth_error folders j = Some folder -> 1 <= k <= n -> load folder k = Ok img ->
  get d (Z.of_nat j * n + (k - 1)) = Raise TypeError.
Proof.
  intros n folders tt d j k folder img H N K L. apply vimeo_init_accepts in H.
  destruct H as [R [V [F [_ [P C]]]]]. destruct C as [[_ C]|[C _]]; [|discriminate]. injection C as C.
  unfold get, vimeo_get. rewrite V, F.
  assert (D : (Z.of_nat j * n + (k - 1)) / n = Z.of_nat j).
  { rewrite Z.add_comm, Z.div_add by lia. rewrite Z.div_small; lia. }
  assert (M : (Z.of_nat j * n + (k - 1)) mod n + 1 = k).
  { rewrite Z.add_comm with (m := k - 1), Z.mod_add by lia. rewrite Z.mod_small; lia. }
  rewrite C in N. rewrite D, M, (pyget_ok _ _ _ _ N). cbn [bind]. unfold load_image. rewrite L, P. reflexivity.
Qed.
End Props.

(** Going through the whole data set, in either mode, reads the first n frames of every folder,
    each once and in order (here a tensor is the list of the files it comes from). *)
Definition trace_get := @vimeo_get (string * Z) (list (string * Z)) (fun f n => Ok (f, n)) (fun l => Ok (concat l)).
Lemma mapM_map_ok : forall A B (f : A -> res B) g l, (forall a, In a l -> f a = Ok (g a)) -> mapM f l = Ok (map g l).
Proof.
  induction l as [|a l IH]; intro H; [reflexivity|]. cbn. rewrite H by now left. rewrite IH by (intros; apply H; now right).
  reflexivity.
Qed.
Theorem vimeo_visits_every_frame_once : forall d, v_pil d = Some (fun p => Ok (Some [p])) -> v_tensor d = None ->
  1 <= v_frames d ->
  exists items, mapM (fun i => trace_get d (Z.of_nat i)) (seq 0 (Z.to_nat (vimeo_len d))) = Ok items /\
    concat items = list_prod (v_folders d) (frame_range (v_frames d)) /\
    (NoDup (v_folders d) -> NoDup (concat items)).
Proof.
  intros d P TT F.
  assert (ND : NoDup (v_folders d) -> NoDup (list_prod (v_folders d) (frame_range (v_frames d)))).
  { intro H. assert (NR : NoDup (frame_range (v_frames d))).
    { unfold frame_range. apply Injective_map_NoDup; [intros a b E; lia|apply seq_NoDup]. }
    induction H as [|f l NI H IH]; cbn; [constructor|].
    assert (AP : forall A (l1 l2 : list A), NoDup l1 -> NoDup l2 -> (forall x, In x l1 -> ~ In x l2) -> NoDup (l1 ++ l2)).
    { intros A l1 l2 H1 H2 D. induction H1 as [|a l1 Na H1 IH1]; [exact H2|]. cbn. constructor.
      - rewrite in_app_iff. intros [Q|Q]; [now apply Na|]. eapply D; [now left|exact Q].
      - apply IH1. intros x Hx. apply D. now right. }
    apply AP; [apply Injective_map_NoDup; [intros a b E; now injection E|exact NR]|exact IH|].
    intros [x y] A B. apply in_map_iff in A. destruct A as [z [E _]]. injection E as <- <-. apply in_prod_iff in B. tauto. }
  set (n := length (v_folders d)) in *. set (f := Z.to_nat (v_frames d)).
  assert (FF : v_frames d = Z.of_nat f) by (unfold f; lia).
  destruct (v_video d) eqn:V.
  - exists (map (fun i => map (fun k => (nth i (v_folders d) EmptyString, k)) (frame_range (v_frames d))) (seq 0 n)).
    assert (C : concat (map (fun i => map (fun k => (nth i (v_folders d) EmptyString, k)) (frame_range (v_frames d))) (seq 0 n))
            = list_prod (v_folders d) (frame_range (v_frames d))).
    { unfold n. clear. induction (v_folders d) as [|x l IH]; [reflexivity|]. cbn [length seq map concat list_prod nth].
      f_equal. rewrite <- IH, <- seq_shift, map_map. reflexivity. }
    split; [|split; [exact C|rewrite C; exact ND]].
    unfold vimeo_len. rewrite V, Nat2Z.id. fold n. apply mapM_map_ok. intros i I. apply in_seq in I.
    unfold trace_get. assert (NE : nth_error (v_folders d) i = Some (nth i (v_folders d) EmptyString)) by (apply nth_error_nth'; unfold n in I; lia).
    destruct (vimeo_video_item (fun f n => Ok (f, n)) (fun l => Ok (concat l)) d i _ _ (fun k => [(nth i (v_folders d) EmptyString, k)])
                V P NE ltac:(lia)) as [E _]; [intros; reflexivity|].
    rewrite E. unfold after. rewrite TT. f_equal. clear. induction (frame_range (v_frames d)) as [|k l IH]; [reflexivity|].
    cbn [map concat app]. now rewrite IH.
  - exists (map (fun i => [(nth (i / f) (v_folders d) EmptyString, Z.of_nat (i mod f) + 1)]) (seq 0 (n * f))).
    assert (C : concat (map (fun i => [(nth (i / f) (v_folders d) EmptyString, Z.of_nat (i mod f) + 1)]) (seq 0 (n * f)))
            = list_prod (v_folders d) (frame_range (v_frames d))).
    { assert (FP : (0 < f)%nat) by lia. unfold n. rewrite FF. clear -FP. induction (v_folders d) as [|x l IH]; [reflexivity|].
      cbn [length]. cbn [Nat.mul]. rewrite seq_app, map_app, concat_app. cbn [list_prod]. f_equal.
      - unfold frame_range. rewrite Nat2Z.id, map_map.
        assert (Q : forall m, (m <= f)%nat ->
          concat (map (fun i => [(nth (i / f) (x :: l) EmptyString, Z.of_nat (i mod f) + 1)]) (seq 0 m))
          = map (fun k => (x, Z.of_nat k + 1)) (seq 0 m)).
        { induction m as [|m IHm]; intro Hm; [reflexivity|]. rewrite seq_S, !map_app, concat_app, IHm by lia. f_equal.
          cbn [Nat.add map concat app]. rewrite Nat.div_small, Nat.mod_small by lia. reflexivity. }
        apply Q. lia.
      - rewrite <- IH. cbn [Nat.add]. f_equal.
        assert (Q : forall m s, map (fun i => [(nth (i / f) (x :: l) EmptyString, Z.of_nat (i mod f) + 1)]) (seq (f + s) m)
           = map (fun i => [(nth (i / f) l EmptyString, Z.of_nat (i mod f) + 1)]) (seq s m)).
        { induction m as [|m IHm]; intro s; [reflexivity|]. cbn [seq map]. f_equal.
          - replace (f + s)%nat with (s + 1 * f)%nat by lia. rewrite Nat.div_add, Nat.mod_add by lia.
            replace (s / f + 1)%nat with (S (s / f)) by lia. reflexivity.
          - rewrite <- Nat.add_succ_r. apply IHm. }
        specialize (Q (length l * f)%nat 0%nat). rewrite Nat.add_0_r in Q. exact Q. }
    split; [|split; [exact C|rewrite C; exact ND]].
    unfold vimeo_len. rewrite V. fold n. replace (Z.to_nat (Z.of_nat n * v_frames d)) with (n * f)%nat by lia.
    apply mapM_map_ok. intros i I. apply in_seq in I. unfold trace_get.
    assert (DI : (i / f < n)%nat) by (apply Nat.div_lt_upper_bound; lia).
    assert (NE : nth_error (v_folders d) (i / f) = Some (nth (i / f) (v_folders d) EmptyString)) by (apply nth_error_nth'; exact DI).
    pose proof (Nat.mod_upper_bound i f ltac:(lia)) as MI. pose proof (Nat.div_mod i f ltac:(lia)) as DM.
    pose proof (vimeo_image_item (fun f n => Ok (f, n)) (fun l => Ok (concat l)) d (i / f) (Z.of_nat (i mod f) + 1) _ _ V P NE ltac:(lia)) as E.
    replace (Z.of_nat (i / f) * v_frames d + (Z.of_nat (i mod f) + 1 - 1)) with (Z.of_nat i) in E by lia.
    rewrite E. unfold after, frame_spec. rewrite TT. reflexivity.
Qed.

(** * Cases that meet the hypotheses *)
Definition ex_vimeo (video : bool) : vimeo :=
  mkV video 3 ["sequences/00001/0001"; "sequences/00001/0002"]%string (Some (fun p : string * Z => Ok (Some [p]))) None.
Example vimeo_example_image : trace_get (ex_vimeo false) 4 = Ok [("sequences/00001/0002"%string, 2)].
Proof. reflexivity. Qed.
Example vimeo_example_video : trace_get (ex_vimeo true) (-1)
  = Ok [("sequences/00001/0002"%string, 1); ("sequences/00001/0002"%string, 2); ("sequences/00001/0002"%string, 3)].
Proof. reflexivity. Qed.
Example vimeo_example_init :
  @vimeo_init nat nat (fun x => Ok (Some x)) (fun _ => Ok ["00001/0266
"; "00001/0268
"]%string) true 7 (Some "train"%string) None None None
  = Ok (mkV true 7 ["sequences/00001/0266"; "sequences/00001/0268"]%string (Some (fun x => Ok (Some x))) None).
Proof. reflexivity. Qed.

Print Assumptions vimeo_init_accepts.
Print Assumptions vimeo_init_rejects.
Print Assumptions vimeo_image_item.
Print Assumptions vimeo_index_bijection.
Print Assumptions vimeo_video_item.
Print Assumptions vimeo_other_indices.
Print Assumptions vimeo_default_image_refuted.
Print Assumptions vimeo_visits_every_frame_once.

(** * White space around the names of folders *)
Definition white (c : ascii) : Prop := In (nat_of_ascii c) [9; 10; 11; 12; 13; 28; 29; 30; 31; 32]%nat.
Lemma white_space c : is_space c = true <-> white c.
Proof.
  unfold white, is_space. set (n := nat_of_ascii c). clearbody n. split.
  - intro H. assert (L : (9 <= n <= 13 \/ 28 <= n <= 32)%nat).
    { rewrite !orb_true_iff, !andb_true_iff, !Nat.leb_le, Nat.eqb_eq in H. lia. }
    cbn [In]. lia.
  - cbn [In]. intro H. rewrite !orb_true_iff, !andb_true_iff, !Nat.leb_le, Nat.eqb_eq. lia.
Qed.
Lemma drop_space_app w l : Forall white w -> drop_space (w ++ l) = drop_space l.
Proof. induction 1 as [|c w C W IH]; [reflexivity|]. cbn [app drop_space]. now rewrite (proj2 (white_space c) C). Qed.
Lemma drop_space_start l : (forall c r, l = c :: r -> ~ white c) -> drop_space l = l.
Proof.
  intro H. destruct l as [|c r]; [reflexivity|]. cbn [drop_space]. destruct (is_space c) eqn:E; [|reflexivity]. exfalso. apply (H c r eq_refl). now apply white_space.
Qed.
Lemma list_of_app a b : list_ascii_of_string (append a b) = (list_ascii_of_string a ++ list_ascii_of_string b)%list.
Proof. induction a as [|c a IH]; cbn; [reflexivity|]. now rewrite IH. Qed.
(** White space before and after a name is dropped; a name that neither begins nor ends with white
    space is kept as it is, also with white space inside. *)
Theorem vimeo_folder_names : forall before name last behind,
  Forall white (list_ascii_of_string before) -> Forall white (list_ascii_of_string behind) -> ~ white last ->
  (forall c r, append name (String last EmptyString) = String c r -> ~ white c) ->
  strip (append before (append (append name (String last EmptyString)) behind)) = append name (String last EmptyString).
Proof.
  intros before name last behind B E L F. unfold strip. rewrite list_of_app, drop_space_app by exact B. rewrite list_of_app.
  set (m := append name (String last EmptyString)) in *.
  assert (M : exists c r, m = String c r) by (unfold m; destruct name; cbn; eauto). destruct M as (c & r & M).
  assert (D : drop_space (list_ascii_of_string m ++ list_ascii_of_string behind) = (list_ascii_of_string m ++ list_ascii_of_string behind)%list).
  { apply drop_space_start. rewrite M. cbn [list_ascii_of_string app]. intros c' r' X. injection X as <- _. now apply (F c r). }
  rewrite D, rev_app_distr, drop_space_app by (now apply Forall_rev).
  assert (R : drop_space (rev (list_ascii_of_string m)) = rev (list_ascii_of_string m)).
  { apply drop_space_start. unfold m. rewrite list_of_app, rev_app_distr. cbn [list_ascii_of_string rev app]. intros c' r' X. injection X as <- _. exact L. }
  rewrite R, rev_involutive. apply string_of_list_ascii_of_string.
Qed.
Example vimeo_folder_name : strip " 00001/0266
"%string = "00001/0266"%string.
Proof. reflexivity. Qed.
Print Assumptions vimeo_folder_names.

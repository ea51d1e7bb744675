(** C53: which videos an iteration over the CLIC 2020 video data set shows. *)
From Coq Require Import ZArith List Bool Arith Lia.
From Verif Require Import Base Clic_Model Clic_Spec.
Import ListNotations.
Open Scope nat_scope.

Lemma shown_fuel : forall clips f1 f2 order, length order <= f1 -> length order <= f2 ->
  shown clips f1 order = shown clips f2 order.
Proof.
  intros clips. induction f1 as [|f1 IH]; intros [|f2] [|v r] A B; cbn in A, B; try lia; try reflexivity.
  cbn [shown]. f_equal. apply IH; rewrite skipn_length; lia.
Qed.

Section Props.
Context {Video Clip SS : Type}.
Variable open_video : nat -> res Video.
Variable duration : Video -> Z.
Variable get_clip : Video -> Z -> Z -> Clip.
Variable sampler : SS -> Z -> Z -> SS * clip_info.
Let loop := @clic_loop Video Clip SS open_video duration get_clip sampler.

(** The sampler's state and the start time after [j] calls for the video [v]; the answer to call
    number [j]. *)
Fixpoint after_calls (v : Video) (ss : SS) (start : Z) (j : nat) : SS * Z :=
  match j with
  | O => (ss, start)
  | S j' => let '(ss', info) := sampler ss start (duration v) in after_calls v ss' (ci_end info) j'
  end.
Definition info_at (v : Video) (ss : SS) (j : nat) : clip_info :=
  let '(s, t) := after_calls v ss 0 j in snd (sampler s t (duration v)).

(** A clip sampler that cuts video [i] into [clips i] clips, from every state [Inv] in which it
    can be when a new video starts. *)
Definition cuts (Inv : SS -> Prop) (clips : nat -> nat) : Prop :=
  forall ss i v, Inv ss -> open_video i = Ok v ->
    1 <= clips i /\ ci_aug (info_at v ss 0) = 0%Z /\
    (forall j, j < clips i - 1 -> ci_last (info_at v ss j) = false) /\
    ci_last (info_at v ss (clips i - 1)) = true /\ Inv (fst (after_calls v ss 0 (clips i))).

Lemma after_calls_S : forall v ss st j, after_calls v ss st (S j) =
  let '(s, t) := after_calls v ss st j in let '(s', info) := sampler s t (duration v) in (s', ci_end info).
Proof.
  intros v ss st j. revert ss st. induction j as [|j IH]; intros ss st.
  - cbn. destruct (sampler ss st (duration v)). reflexivity.
  - change (after_calls v ss st (S (S j))) with
      (let '(ss', info) := sampler ss st (duration v) in after_calls v ss' (ci_end info) (S j)).
    change (after_calls v ss st (S j)) with
      (let '(ss', info) := sampler ss st (duration v) in after_calls v ss' (ci_end info) j).
    destruct (sampler ss st (duration v)) as [ss' info]. apply IH.
Qed.

Lemma loop_spec : forall Inv clips, cuts Inv clips -> forall n left, length left = n ->
  (forall i, In i left -> exists v, open_video i = Ok v) ->
  (forall s fuel, c_current s = None -> c_start s = 0%Z -> Inv (c_state s) -> c_left s = left -> n < fuel ->
     exists s' l, loop fuel s = Ok (s', l) /\ c_left s' = [] /\ map s_video l = shown clips n left) /\
  (forall s fuel v i ss j c, c_current s = Some (v, i) -> open_video i = Ok v -> Inv ss -> 1 <= j < clips i ->
     (c_state s, c_start s) = after_calls v ss 0 j -> c_clip s = Some c -> c_left s = left -> n < fuel ->
     exists s' l, loop fuel s = Ok (s', l) /\ c_left s' = [] /\
       map s_video l = repeat i (min (clips i - j) n) ++ shown clips n (skipn (clips i - j) left)).
Proof.
  intros Inv clips CUT n. induction n as [|n IH]; intros left L O.
  { destruct left; [|discriminate]. split.
    - intros s [|fuel] C ST I LF F; [lia|]. exists s, []. unfold loop. cbn [clic_loop]. unfold clic_next. rewrite LF.
      repeat split; reflexivity.
    - intros s [|fuel] v i ss j c C OV I J AC CC LF F; [lia|]. exists s, []. unfold loop. cbn [clic_loop]. unfold clic_next. rewrite LF.
      split; [reflexivity|]. split; [reflexivity|]. rewrite Nat.min_0_r, skipn_nil. reflexivity. }
  destruct left as [|x rest]; [discriminate|]. cbn in L. injection L as L.
  destruct (IH rest L ltac:(intros; apply O; now right)) as [IDLE PROG].
  split.
  - intros s [|fuel] C ST I LF F; [lia|]. unfold loop. cbn [clic_loop]. unfold clic_next. rewrite LF.
    destruct (O x (or_introl eq_refl)) as [v OV]. destruct (CUT (c_state s) x v I OV) as [C1 [AU [NL [LA IV]]]].
    unfold clic_get. cbn [c_current c_state c_start c_clip c_left]. rewrite C, OV. cbn [bind]. rewrite ST.
    unfold info_at in AU. cbn [after_calls] in AU.
    destruct (sampler (c_state s) 0 (duration v)) as [ss' info] eqn:SM. cbn [snd] in AU. rewrite AU, Z.eqb_refl. cbn [bind].
    assert (I0 : info_at v (c_state s) 0 = info) by (unfold info_at; cbn; now rewrite SM).
    assert (A1 : after_calls v (c_state s) 0 1 = (ss', ci_end info)) by (cbn; now rewrite SM).
    destruct (Nat.eq_dec (clips x) 1) as [E1|E1].
    + rewrite E1 in LA, IV. cbn [Nat.sub] in LA. rewrite I0 in LA. rewrite A1 in IV. rewrite LA.
      edestruct (IDLE (mkC None (Some (get_clip v (ci_start info) (ci_end info))) 0 ss' rest) fuel) as [s' [l [R [LE M]]]];
        try reflexivity; [exact IV|lia|].
      unfold loop in R. rewrite R. eexists s', _. split; [reflexivity|]. split; [exact LE|]. cbn [map s_video shown].
      rewrite M, E1. cbn [length Nat.sub skipn Nat.min repeat app]. reflexivity.
    + specialize (NL 0 ltac:(lia)). rewrite I0 in NL. rewrite NL.
      edestruct (PROG (mkC (Some (v, x)) (Some (get_clip v (ci_start info) (ci_end info))) (ci_end info) ss' rest) fuel
                   v x (c_state s) 1) as [s' [l [R [LE M]]]]; try reflexivity; [exact OV|exact I|lia|symmetry; exact A1|lia|].
      unfold loop in R. rewrite R. eexists s', _. split; [reflexivity|]. split; [exact LE|]. cbn [map s_video shown].
      rewrite M. cbn [length]. rewrite L. destruct (clips x) as [|cx]; [lia|]. cbn [Nat.sub Nat.min repeat app].
      rewrite Nat.sub_0_r. reflexivity.
  - intros s [|fuel] v i ss j c C OV I J AC CC LF F; [lia|]. unfold loop. cbn [clic_loop]. unfold clic_next. rewrite LF.
    destruct (CUT ss i v I OV) as [C1 [_ [NL [LA IV]]]].
    unfold clic_get. cbn [c_current c_state c_start c_clip c_left]. rewrite C. cbn [bind].
    destruct (sampler (c_state s) (c_start s) (duration v)) as [ss' info] eqn:SM.
    assert (IJ : info_at v ss j = info) by (unfold info_at; rewrite <- AC, SM; reflexivity).
    assert (AJ : after_calls v ss 0 (S j) = (ss', ci_end info)) by (rewrite after_calls_S, <- AC, SM; reflexivity).
    assert (CL : exists c', (if (ci_aug info =? 0)%Z then Some (get_clip v (ci_start info) (ci_end info)) else c_clip s) = Some c').
    { destruct (ci_aug info =? 0)%Z; eexists; [reflexivity|exact CC]. }
    destruct CL as [c' CL]. rewrite CL. cbn [bind].
    destruct (Nat.eq_dec j (clips i - 1)) as [EJ|EJ].
    + rewrite EJ in IJ. rewrite IJ in LA. replace (clips i) with (S j) in IV by lia. rewrite AJ in IV. rewrite LA.
      edestruct (IDLE (mkC None (Some c') 0 ss' rest) fuel) as [s' [l [R [LE M]]]]; try reflexivity; [exact IV|lia|].
      unfold loop in R. rewrite R. eexists s', _. split; [reflexivity|]. split; [exact LE|]. cbn [map s_video].
      rewrite M. replace (clips i - j) with 1 by lia. cbn [skipn Nat.min repeat app]. f_equal. apply shown_fuel; lia.
    + specialize (NL j ltac:(lia)). rewrite IJ in NL. rewrite NL.
      edestruct (PROG (mkC (Some (v, i)) (Some c') (ci_end info) ss' rest) fuel v i ss (S j)) as [s' [l [R [LE M]]]];
        try reflexivity; [exact OV|exact I|lia|symmetry; exact AJ|lia|].
      unfold loop in R. rewrite R. eexists s', _. split; [reflexivity|]. split; [exact LE|]. cbn [map s_video].
      rewrite M. replace (clips i - j) with (S (clips i - S j)) by lia. cbn [skipn Nat.min repeat app]. do 2 f_equal.
      apply shown_fuel; rewrite skipn_length; lia.
Qed.

Lemma shown_length : forall clips, (forall v, 1 <= clips v) -> forall f order, length order <= f -> length (shown clips f order) = length order.
Proof.
  intros clips C f. induction f as [|f IH]; intros [|v r] L; cbn in L; try lia; [reflexivity|reflexivity|].
  cbn [shown]. rewrite app_length, repeat_length, IH by (rewrite skipn_length; lia). rewrite skipn_length. cbn [length].
  specialize (C v). lia.
Qed.

(** A pass shows as many samples as there are videos, all of [shown] and nothing else; then the
    sampler's iterator is empty. *)
Theorem clic_pass : forall Inv clips ss order, cuts Inv clips -> Inv ss -> (forall v, 1 <= clips v) ->
  (forall i, In i order -> exists v, open_video i = Ok v) ->
  exists s l, loop (S (length order)) (clic_init ss order) = Ok (s, l) /\
    map s_video l = shown clips (length order) order /\ length l = length order /\ c_left s = [].
Proof.
  intros Inv clips ss order CUT I C O. destruct (loop_spec Inv clips CUT (length order) order eq_refl O) as [ID _].
  destruct (ID (clic_init ss order) (S (length order))) as [s [l [R [LE M]]]]; try reflexivity; [exact I|lia|].
  exists s, l. split; [exact R|]. split; [exact M|]. split; [|exact LE].
  rewrite <- (map_length s_video), M. apply shown_length; [exact C|lia].
Qed.

(** Every later pass is empty: the data set can be iterated only once. *)
Theorem clic_second_pass_refuted : forall fuel fuel' (s s' : @clic Video Clip SS) l, loop fuel s = Ok (s', l) ->
  loop (S fuel') s' = Ok (s', []).
Proof.
  induction fuel as [|fuel IH]; intros fuel' s s' l H; [discriminate|]. unfold loop in *. cbn [clic_loop] in H.
  destruct (clic_next open_video duration get_clip sampler s) as [[[s1 x]|]|] eqn:N; cbn [bind] in H; [| |discriminate].
  - destruct (clic_loop open_video duration get_clip sampler fuel s1) as [[s2 l2]|] eqn:R; cbn in H; [|discriminate].
    injection H as <- <-. eapply IH, R.
  - injection H as <- <-. cbn [clic_loop]. rewrite N. reflexivity.
Qed.
End Props.

Lemma shown_in : forall clips f order v, In v (shown clips f order) -> In v order.
Proof.
  intros clips f. induction f as [|f IH]; intros [|x r] v H; cbn [shown] in H; try contradiction.
  apply in_app_iff in H. destruct H as [H|H]; [left; symmetry; eapply repeat_spec, H|]. right.
  apply IH in H. rewrite <- (firstn_skipn (clips x - 1) r). apply in_or_app. now right.
Qed.

(** Every video is shown exactly when every video, except perhaps the last, has only one clip;
    then every sample is a different video, in the sampler's order. *)
Theorem clic_every_video_iff : forall clips order, (forall v, 1 <= clips v) -> NoDup order ->
  (forall v, In v order -> In v (shown clips (length order) order)) <->
  (forall v, In v (removelast order) -> clips v = 1).
Proof.
  intros clips order C ND. remember (length order) as n eqn:L. revert order L ND.
  induction n as [|n IH]; intros order L ND.
  { destruct order; [|discriminate]. split; intros H v I; contradiction. }
  destruct order as [|x r]; [discriminate|]. cbn in L. injection L as L. inversion ND as [|? ? NI ND']; subst.
  cbn [shown]. split.
  - intro H. destruct r as [|y r]; [intros v I; contradiction|].
    assert (C1 : clips x = 1).
    { destruct (Nat.eq_dec (clips x) 1) as [E|E]; [exact E|]. exfalso. specialize (C x).
      specialize (H y (or_intror (or_introl eq_refl))). apply in_app_iff in H. destruct H as [H|H].
      - apply repeat_spec in H. subst y. apply NI. now left.
      - apply shown_in in H. destruct (clips x - 1) as [|k] eqn:K; [lia|]. cbn [skipn] in H.
        inversion ND' as [|? ? NI' _]; subst. apply NI'. rewrite <- (firstn_skipn k r). apply in_or_app. now right. }
    intros v I. change (removelast (x :: y :: r)) with (x :: removelast (y :: r)) in I. destruct I as [<-|I]; [exact C1|].
    apply (IH (y :: r) eq_refl ND'); [|exact I]. intros w W. specialize (H w (or_intror W)).
    rewrite C1 in H. cbn [Nat.sub skipn] in H. apply in_app_iff in H. destruct H as [H|H]; [|exact H].
    apply repeat_spec in H. subst w. contradiction.
  - intros H v [<-|I].
    + apply in_or_app. left. specialize (C x). destruct (min (clips x) (length (x :: r))) eqn:M; [cbn [length] in M; lia|].
      now left.
    + apply in_or_app. right. destruct r as [|y r]; [contradiction|].
      assert (C1 : clips x = 1) by (apply H; now left). rewrite C1. cbn [Nat.sub skipn].
      apply (IH (y :: r) eq_refl ND'); [|exact I]. intros w W. apply H. change (removelast (x :: y :: r)) with (x :: removelast (y :: r)).
      now right.
Qed.
Theorem clic_one_clip_each : forall clips order, (forall v, In v order -> clips v = 1) ->
  shown clips (length order) order = order /\ all_clips clips order = order.
Proof.
  intros clips order H. induction order as [|x r IH]; [split; reflexivity|].
  destruct IH as [A B]; [intros; apply H; now right|]. cbn [length shown all_clips flat_map].
  rewrite (H x (or_introl eq_refl)). cbn [Nat.sub skipn Nat.min repeat app].
  split; f_equal; [exact A|exact B].
Qed.

(** Sampling frames: the result has the requested length, starts with the first frame, ends with
    the last (when two or more are asked for), never goes backwards, and asking for all frames
    returns them all. *)
Theorem clic_sample_frames : forall A (frames : list A) k, frames <> [] ->
  exists l, sample_frames frames k = Ok l /\ length l = k /\
    (forall i d, i < k -> nth i l d = nth (sample_index (length frames) k i) frames d /\ sample_index (length frames) k i < length frames) /\
    (forall i j, i <= j -> sample_index (length frames) k i <= sample_index (length frames) k j) /\
    sample_index (length frames) k 0 = 0 /\ (2 <= k -> sample_index (length frames) k (k - 1) = length frames - 1) /\
    (k = length frames -> l = frames).
Proof.
  intros A frames k NE. assert (LP : 1 <= length frames) by (destruct frames; [contradiction|cbn; lia]).
  set (n := length frames) in *.
  assert (LT : forall i, i < k -> sample_index n k i < n).
  { intros i I. unfold sample_index. destruct (Nat.eqb_spec k 1); [lia|].
    apply Nat.le_lt_trans with (n - 1); [|lia]. apply Nat.div_le_upper_bound; [lia|]. nia. }
  assert (EX : forall m s, s + m <= k -> exists l, mapM (fun i => match nth_error frames (sample_index n k i) with Some a => Ok a | None => Raise IndexError end) (seq s m) = Ok l
            /\ length l = m /\ forall i d, i < m -> nth i l d = nth (sample_index n k (s + i)) frames d).
  { induction m as [|m IH]; intros s S.
    - exists []. cbn. split; [reflexivity|]. split; [reflexivity|]. intros; lia.
    - destruct (IH (Datatypes.S s) ltac:(lia)) as [l [R [L N]]]. cbn [seq mapM].
      destruct (nth_error frames (sample_index n k s)) as [a|] eqn:E.
      2:{ apply nth_error_None in E. pose proof (LT s ltac:(lia)). unfold n in *. lia. }
      cbn [bind]. rewrite R. exists (a :: l). split; [reflexivity|]. split; [cbn; lia|].
      intros [|i] d I; cbn [nth].
      + rewrite Nat.add_0_r. symmetry. apply nth_error_nth, E.
      + rewrite N by lia. now rewrite Nat.add_succ_r. }
  destruct (EX k 0 ltac:(lia)) as [l [R [L N]]]. exists l. split; [exact R|]. split; [exact L|].
  split; [intros i d I; split; [apply N, I|apply LT, I]|].
  split; [intros i j I; unfold sample_index; destruct (k =? 1); [lia|]; destruct (Nat.eq_dec (k - 1) 0) as [Z|Z];
          [rewrite Z; cbn; lia|apply Nat.div_le_mono; [exact Z|nia]]|].
  split; [unfold sample_index; destruct (k =? 1); [reflexivity|]; cbn [Nat.mul]; destruct (k - 1); [reflexivity|apply Nat.div_0_l; lia]|].
  split.
  - intro K. unfold sample_index. destruct (Nat.eqb_spec k 1); [lia|]. rewrite Nat.mul_comm. apply Nat.div_mul. lia.
  - intro K. assert (a0 : A) by (destruct frames; [contradiction|assumption]).
    apply (nth_ext _ _ a0 a0); [unfold n in K; congruence|].
    intros i I. rewrite L in I. rewrite N by lia. f_equal. cbn [Nat.add]. unfold sample_index. rewrite <- K.
    destruct (Nat.eqb_spec k 1); [lia|]. apply Nat.div_mul. lia.
Qed.
Theorem clic_sample_frames_empty : forall A k, 0 < k -> @sample_frames A [] k = Raise IndexError.
Proof. intros A [|k] H; [lia|]. unfold sample_frames. cbn [seq mapM]. destruct (sample_index _ _ _); reflexivity. Qed.

(** * Cases that meet the hypotheses *)
(** A stateless sampler of clips of length 2: video [i] of duration 2*(i+1) has i+1 clips. *)
Definition ex_sampler (_ : unit) (start dur : Z) : unit * clip_info :=
  (tt, mkCI start (start + 2) (start / 2) 0 (dur <=? start + 2)%Z).
Example clic_example_cuts :
  cuts (fun i => Ok (Z.of_nat i)) (fun v => (2 * (v + 1))%Z) ex_sampler (fun _ => True) (fun i => i + 1).
Proof.
  assert (A : forall v t j, after_calls (fun v => (2 * (v + 1))%Z) ex_sampler v tt t j = (tt, (t + 2 * Z.of_nat j)%Z)).
  { intros v t j. revert t. induction j as [|j IH]; intro t; cbn [after_calls].
    - f_equal. lia.
    - unfold ex_sampler at 1. cbn [ci_end]. rewrite IH. f_equal. lia. }
  intros [] i v _ E. injection E as <-. unfold info_at. rewrite !A. cbn [ex_sampler snd fst ci_aug ci_last].
  split; [lia|]. split; [reflexivity|]. split; [|split; [apply Z.leb_le; lia|exact Logic.I]].
  intros j J. rewrite A. cbn [ex_sampler snd ci_last]. apply Z.leb_gt. lia.
Qed.
(** Five videos of 1, 2, 3, 4 and 5 clips in the order 1, 2, 0, 3, 4: videos 2 and 4 are not shown
    at all, and of video 3 only two of four clips. *)
Example clic_example_shown : shown (fun i => i + 1) 5 [1; 2; 0; 3; 4] = [1; 1; 0; 3; 3].
Proof. reflexivity. Qed.
Theorem clic_skips_videos_refuted : exists clips order, (forall v, 1 <= clips v) /\ NoDup order /\
  exists v, In v order /\ ~ In v (shown clips (length order) order).
Proof.
  exists (fun i => i + 1), [1; 2; 0; 3; 4]. split; [intros; lia|]. split.
  - repeat constructor; cbn; lia.
  - exists 2. split; [cbn; tauto|]. cbn. lia.
Qed.

Print Assumptions clic_pass.
Print Assumptions clic_second_pass_refuted.
Print Assumptions clic_every_video_iff.
Print Assumptions clic_one_clip_each.
Print Assumptions clic_sample_frames.
Print Assumptions clic_sample_frames_empty.
Print Assumptions clic_skips_videos_refuted.

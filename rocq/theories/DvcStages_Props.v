(** C73: staged training of DVC under kills, resumption and overwriting. *)
From Coq Require Import List Bool Arith Lia.
From Verif Require Import Base DvcStages_Model.
Import ListNotations.
Open Scope nat_scope.

Section Props.
Variable W : Type.
Variable init : nat -> model W.
Variable stage_class : nat -> cls.
Variable max_steps : nat -> nat.
Variable upd : nat -> nat -> nat -> (sub -> option W) -> sub -> W.
Variable saves : nat -> nat -> bool.
Variable best : nat -> nat -> nat -> bool.
Notation model := (model W).
Notation disk := (disk W).
Notation fit := (fit W stage_class upd saves best).
Notation run_training_stage := (run_training_stage W stage_class max_steps upd saves best).
Notation run_stages := (run_stages W stage_class max_steps upd saves best).
Notation main := (main W init stage_class max_steps upd saves best).
Notation Done := (Done W).
Notation Killed := (Killed W).
Notation Refused := (Refused W).

(** * Specification *)
(** [lineage k i m]: the model m went through all steps of the stages before k, in order, and through
    the first i steps of stage k; the submodules that had no part in it are new. *)
Inductive lineage : nat -> nat -> model -> Prop :=
| lin_new m : (forall s, exists l, m s = init l s) -> lineage 0 0 m
| lin_step k i m m' l v : lineage k i m -> i < max_steps k ->
    (forall s, v s = if holds (stage_class k) s then Some (m s) else None) ->
    (forall s, m' s = if holds (stage_class k) s then upd l k i v s else m s) ->
    lineage k (S i) m'
| lin_next k m m' : lineage k (max_steps k) m ->
    (forall s, holds (stage_class k) s = true -> m' s = m s) ->
    (forall s, holds (stage_class k) s = false -> exists l, m' s = init l s) ->
    lineage (S k) 0 m'.
(** Later stages hold at least the submodules of earlier ones. *)
Definition growing : Prop := forall k s, holds (stage_class k) s = true -> holds (stage_class (S k)) s = true.
(** A checkpoint of stage k holds the submodules of a model with the right history. *)
Definition sound (k : nat) (c : ckpt W) : Prop :=
  c_step W c <= max_steps k /\
  exists m, lineage k (c_step W c) m /\ forall s, c_weights W c s = if holds (stage_class k) s then Some (m s) else None.
Definition all_sound (d : disk) : Prop := forall k c, d_last W (d k) = Some c -> sound k c.
Definition files (x : dir W) : Prop := d_last W x <> None \/ d_other W x = true.
(** Launches one after another: the flags and the moment each is killed. *)
Fixpoint history (K n : nat) (hs : list (flag * bool * nat)) (d : disk) : disk * list (ev W) :=
  match hs with
  | [] => (d, [])
  | (o, r, b) :: rest => let x := main K n o r d b in let y := history K (S n) rest (snd x) in (fst y, fst x :: snd y)
  end.
Definition nothing : disk := fun _ => mkD W None false.

(** * Lineages *)
Lemma lineage_fresh : growing -> forall k i m, lineage k i m -> forall s, holds (stage_class k) s = false -> exists l, m s = init l s.
Proof.
  intros G k i m H. induction H as [m H|k i m m' l v H IH L V M|k m m' H IH A B]; intros s F; [apply H|rewrite M, F; now apply IH|].
  apply B. destruct (holds (stage_class k) s) eqn:E; [|reflexivity]. apply G in E. congruence.
Qed.
Lemma lineage_swap : growing -> forall k i m, lineage k i m -> forall m',
  (forall s, holds (stage_class k) s = true -> m' s = m s) ->
  (forall s, holds (stage_class k) s = false -> exists l, m' s = init l s) -> lineage k i m'.
Proof.
  intros G k i m H. induction H as [m H|k i m m1 l v H IH L V M|k m m1 H IH A B]; intros m' E F.
  - apply lin_new. intro s. destruct (holds (stage_class 0) s) eqn:X; [rewrite (E s X); apply H|now apply F].
  - apply (lin_step k i (fun s => if holds (stage_class k) s then m s else m' s) m' l v).
    + apply IH; intros s X; rewrite X; [reflexivity|now apply F].
    + exact L.
    + intro s. rewrite V. now destruct (holds (stage_class k) s).
    + intro s. destruct (holds (stage_class k) s) eqn:X; [rewrite (E s X), M, X|]; reflexivity.
  - apply (lin_next k m m' H); intros s X.
    + rewrite (E s (G _ _ X)). now apply A.
    + destruct (holds (stage_class (S k)) s) eqn:Y; [rewrite (E s Y); now apply B|now apply F].
Qed.

(** * One stage *)
Lemma set_same (d : disk) k x : set W d k x k = x.
Proof. unfold set. now rewrite Nat.eqb_refl. Qed.
Lemma set_other (d : disk) k x j : j <> k -> set W d k x j = d j.
Proof. intro H. unfold set. now rewrite (proj2 (Nat.eqb_neq j k) H). Qed.
Lemma fit_sound l k : forall todo i m d b e d' b',
  lineage k i m -> i + todo = max_steps k -> all_sound d -> fit l k todo i m d b = (e, d', b') ->
  all_sound d' /\ e <> Refused /\ (forall m', e = Done m' -> lineage k (max_steps k) m').
Proof.
  induction todo as [|t IH]; intros i m d b e d' b' L N S H; cbn [DvcStages_Model.fit] in H.
  - injection H as <- <- <-. split; [exact S|split; [discriminate|]]. intros m' E. injection E as <-. now replace (max_steps k) with i by lia.
  - destruct b as [|b]; [injection H as <- <- <-; split; [exact S|split; discriminate]|].
    set (m1 := put W (stage_class k) m (upd l k i (view W (stage_class k) m))) in *.
    assert (L1 : lineage k (Datatypes.S i) m1) by (apply (lin_step k i m m1 l (view W (stage_class k) m)); [exact L|lia|reflexivity|reflexivity]).
    destruct (saves k (Datatypes.S i)); [|apply (IH (Datatypes.S i) m1 d b e d' b' L1 ltac:(lia) S H)].
    set (d1 := if best l k (Datatypes.S i) then set W d k (mkD W (d_last W (d k)) true) else d) in *.
    assert (S1 : all_sound d1).
    { unfold d1. destruct (best _ _ _); [|exact S]. intros j c E. destruct (Nat.eq_dec j k) as [->|NE]; [rewrite set_same in E|rewrite set_other in E by exact NE]; now apply S. }
    destruct (if best l k (Datatypes.S i) then b else Datatypes.S b) as [|b1]; [injection H as <- <- <-; split; [exact S|split; discriminate]|].
    destruct b1 as [|b2]; [injection H as <- <- <-; split; [exact S1|split; discriminate]|].
    refine (IH (Datatypes.S i) m1 _ b2 e d' b' L1 ltac:(lia) _ H).
    intros j c E. destruct (Nat.eq_dec j k) as [->|NE]; [|rewrite set_other in E by exact NE; now apply S1].
    rewrite set_same in E. injection E as <-. split; [cbn; lia|]. exists m1. split; [exact L1|reflexivity].
Qed.
Lemma fit_unheld l k : forall todo i m d b m' d' b', fit l k todo i m d b = (Done m', d', b') -> forall s, holds (stage_class k) s = false -> m' s = m s.
Proof.
  induction todo as [|t IH]; intros i m d b m' d' b' H s X; cbn [DvcStages_Model.fit] in H.
  - injection H as <- <- <-. reflexivity.
  - destruct b as [|b]; [discriminate|].
    assert (E : put W (stage_class k) m (upd l k i (view W (stage_class k) m)) s = m s) by (unfold put; now rewrite X).
    destruct (saves k (S i)); [|rewrite (IH _ _ _ _ _ _ _ H s X); exact E].
    destruct (if best l k (S i) then b else S b) as [|[|b2]]; [discriminate|discriminate|]. rewrite (IH _ _ _ _ _ _ _ H s X). exact E.
Qed.
Lemma load_sound k c m : sound k c -> growing -> (forall s, holds (stage_class k) s = false -> exists l, m s = init l s) -> lineage k (c_step W c) (load W m (c_weights W c)).
Proof.
  intros [B [m0 [L E]]] G F. apply (lineage_swap G k _ m0 L); intros s X; unfold load; rewrite E, X; [reflexivity|now apply F].
Qed.
Lemma stage_sound l o r k m d b e d' b' : growing -> lineage k 0 m -> all_sound d ->
  run_training_stage l o r k m d b = (e, d', b') ->
  all_sound d' /\ forall m', e = Done m' -> lineage k (max_steps k) m'.
Proof.
  intros G L S H. unfold DvcStages_Model.run_training_stage in H.
  destruct (negb (truth o) && negb r && _); [injection H as <- <- <-; split; [exact S|discriminate]|].
  destruct (d_last W (d k)) as [c|] eqn:E.
  - destruct (is_True o); cbn [orb] in H.
    + destruct (fit_sound l k _ _ _ _ _ _ _ _ L (Nat.add_0_l _) S H) as [A [_ B]]. now split.
    + assert (SC := S k c E). assert (EQ : c_step W c + (max_steps k - c_step W c) = max_steps k) by (destruct SC; lia).
      destruct (fit_sound l k _ _ _ _ _ _ _ _ (load_sound k c m SC G (lineage_fresh G _ _ _ L)) EQ S H) as [A [_ B]]. now split.
  - cbn [orb] in H. destruct (fit_sound l k _ _ _ _ _ _ _ _ L (Nat.add_0_l _) S H) as [A [_ B]]. now split.
Qed.

(** * C73, soundness *)
Lemma stages_sound l o r : growing -> forall K k m d b e d' b', lineage k 0 m -> all_sound d ->
  run_stages l o r (seq k K) m d b = (e, d', b') ->
  all_sound d' /\ forall m', e = Done m' -> match K with 0 => lineage k 0 m' | S K' => lineage (k + K') (max_steps (k + K')) m' end.
Proof.
  intro G. induction K as [|K IH]; intros k m d b e d' b' L S H; cbn [seq DvcStages_Model.run_stages] in H.
  - injection H as <- <- <-. split; [exact S|]. intros m' E. injection E as <-. exact L.
  - destruct (run_training_stage l o r k m d b) as [[e1 d1] b1] eqn:R. destruct (stage_sound _ _ _ _ _ _ _ _ _ _ G L S R) as [S1 D1].
    destruct e1 as [m1| |]; [|injection H as <- <- <-; split; [exact S1|discriminate]|injection H as <- <- <-; split; [exact S1|discriminate]].
    specialize (D1 m1 eq_refl).
    assert (L1 : lineage (Datatypes.S k) 0 m1) by (apply (lin_next k m1 m1 D1); [reflexivity|apply (lineage_fresh G _ _ _ D1)]).
    destruct (IH _ _ _ _ _ _ _ L1 S1 H) as [A B]. split; [exact A|]. intros m' E. specialize (B m' E). destruct K as [|K].
    + cbn in H. injection H as <- _ _. injection E as <-. now rewrite Nat.add_0_r.
    + now rewrite <- Nat.add_succ_comm.
Qed.
Lemma main_sound K l o r d b : growing -> all_sound d ->
  all_sound (snd (main K l o r d b)) /\ forall m, 1 <= K -> fst (main K l o r d b) = Done m -> lineage (K - 1) (max_steps (K - 1)) m.
Proof.
  intros G S. unfold DvcStages_Model.main. destruct (run_stages l o r (seq 0 K) (init l) d b) as [[e d'] b'] eqn:H. cbn [fst snd].
  destruct (stages_sound l o r G K 0 (init l) d b e d' b' ltac:(apply lin_new; intro s; now exists l) S H) as [A B]. split; [exact A|].
  intros m L E. specialize (B m E). destruct K; [lia|]. now replace (Datatypes.S K - 1) with K by lia.
Qed.
(** In every history every checkpoint on disk, and every model a launch returns, has gone through
    exactly the steps it should. *)
Theorem C73_every_history_sound K : growing -> 1 <= K -> forall hs n d, all_sound d ->
  all_sound (fst (history K n hs d)) /\
  forall m, In (Done m) (snd (history K n hs d)) -> lineage (K - 1) (max_steps (K - 1)) m.
Proof.
  intros G P. induction hs as [|[[o r] b] hs IH]; intros n d S; cbn [history fst snd]; [split; [exact S|contradiction]|].
  destruct (main_sound K n o r d b G S) as [A B]. destruct (IH (Datatypes.S n) _ A) as [C D]. split; [exact C|].
  intros m [E|I]; [now apply B|now apply D].
Qed.
Theorem C73_nothing_sound : all_sound nothing.
Proof. intros k c H. discriminate. Qed.

(** * C73, submodules outside the stage *)
Theorem C73_stage_leaves_others l o r k m d b m' d' b' : all_sound d ->
  run_training_stage l o r k m d b = (Done m', d', b') -> forall s, holds (stage_class k) s = false -> m' s = m s.
Proof.
  intros S H s X. unfold DvcStages_Model.run_training_stage in H. destruct (negb (truth o) && negb r && _); [discriminate|].
  destruct (d_last W (d k)) as [c|] eqn:E; cbn [orb] in H; [destruct (is_True o)|]; rewrite (fit_unheld _ _ _ _ _ _ _ _ _ _ H s X); try reflexivity.
  unfold load. destruct (S k c E) as [_ [m0 [_ EW]]]. now rewrite EW, X.
Qed.

(** * C73, progress is not lost *)
Definition ahead (d d' : disk) : Prop := forall k c, d_last W (d k) = Some c -> exists c', d_last W (d' k) = Some c' /\ (c' = c \/ c_step W c < c_step W c').
Lemma ahead_refl d : ahead d d.
Proof. intros k c H. exists c. split; [exact H|now left]. Qed.
Lemma ahead_trans d1 d2 d3 : ahead d1 d2 -> ahead d2 d3 -> ahead d1 d3.
Proof.
  intros A B k c H. destruct (A k c H) as [c1 [H1 [->|L1]]]; [now apply B|]. destruct (B k c1 H1) as [c2 [H2 [->|L2]]]; exists c2 || exists c1; (split; [assumption|right; lia]).
Qed.
Lemma fit_ahead l k : forall todo i m d b e d' b', (forall c, d_last W (d k) = Some c -> c_step W c <= i) -> fit l k todo i m d b = (e, d', b') -> ahead d d'.
Proof.
  induction todo as [|t IH]; intros i m d b e d' b' L H; cbn [DvcStages_Model.fit] in H.
  - injection H as <- <- <-. apply ahead_refl.
  - destruct b as [|b]; [injection H as <- <- <-; apply ahead_refl|].
    set (m1 := put W (stage_class k) m (upd l k i (view W (stage_class k) m))) in *.
    destruct (saves k (S i)); [|apply (IH (S i) m1 d b e d' b'); [intros c E; specialize (L c E); lia|exact H]].
    set (d1 := if best l k (S i) then set W d k (mkD W (d_last W (d k)) true) else d) in *.
    assert (E1 : forall j, d_last W (d1 j) = d_last W (d j)).
    { intro j. unfold d1. destruct (best _ _ _); [|reflexivity]. destruct (Nat.eq_dec j k) as [->|NE]; [now rewrite set_same|now rewrite set_other]. }
    assert (A1 : ahead d d1) by (intros j c E; exists c; split; [now rewrite E1|now left]).
    destruct (if best l k (S i) then b else S b) as [|b1]; [injection H as <- <- <-; apply ahead_refl|].
    destruct b1 as [|b2]; [injection H as <- <- <-; exact A1|].
    refine (ahead_trans _ _ _ _ (IH (S i) m1 _ b2 e d' b' _ H)).
    + intros j c E. destruct (Nat.eq_dec j k) as [->|NE].
      * rewrite set_same. eexists. split; [reflexivity|]. right. cbn. specialize (L c E). lia.
      * rewrite set_other by exact NE. exists c. split; [now rewrite E1|now left].
    + intros c E. rewrite set_same in E. injection E as <-. reflexivity.
Qed.
Lemma stages_ahead l o r : o <> Yes -> forall ks m d b e d' b', run_stages l o r ks m d b = (e, d', b') -> ahead d d'.
Proof.
  intro O. induction ks as [|k ks IH]; intros m d b e d' b' H; cbn [DvcStages_Model.run_stages] in H; [injection H as <- <- <-; apply ahead_refl|].
  destruct (run_training_stage l o r k m d b) as [[e1 d1] b1] eqn:R.
  assert (A : ahead d d1).
  { unfold DvcStages_Model.run_training_stage in R. destruct (negb (truth o) && negb r && _); [injection R as <- <- <-; apply ahead_refl|].
    replace (is_True o) with false in R by (now destruct o). destruct (d_last W (d k)) as [c|] eqn:E; cbn [orb] in R; apply (fit_ahead _ _ _ _ _ _ _ _ _ _ ltac:(intros c0 E0; rewrite E in E0; try discriminate; injection E0 as <-; reflexivity) R). }
  destruct e1; [apply (ahead_trans _ _ _ A (IH _ _ _ _ _ _ H))|injection H as <- <- <-; exact A|injection H as <- <- <-; exact A].
Qed.
(** Unless a launch overwrites, what last.ckpt holds stays or is replaced by a later one. *)
Theorem C73_progress_kept K : forall hs n d, (forall o r b, In (o, r, b) hs -> o <> Yes) -> ahead d (fst (history K n hs d)).
Proof.
  induction hs as [|[[o r] b] hs IH]; intros n d O; cbn [history fst]; [apply ahead_refl|].
  apply (ahead_trans _ (snd (main K n o r d b))); [|apply IH; intros o' r' b' I; apply (O o' r' b'); now right].
  unfold DvcStages_Model.main. destruct (run_stages n o r (seq 0 K) (init n) d b) as [[e d'] b'] eqn:H. cbn [fst snd]. apply (stages_ahead n o r (O o r b (or_introl eq_refl)) _ _ _ _ _ _ _ H).
Qed.

(** * C73, a finished run *)
(** Resuming when every stage is finished does no work and gives the saved weights. *)
Theorem C73_finished_run_is_reused K l o r d b :
  o <> Yes -> (r = true \/ o = Truthy) -> all_sound d ->
  (forall k, k < K -> exists c, d_last W (d k) = Some c /\ c_step W c = max_steps k) ->
  exists m, run_stages l o r (seq 0 K) (init l) d b = (Done m, d, b) /\
  forall k c s, k < K -> d_last W (d k) = Some c ->
    holds (stage_class k) s = true -> (forall j, k < j < K -> holds (stage_class j) s = false) -> c_weights W c s = Some (m s).
Proof.
  intros O RR S F.
  assert (G : forall n k m0, k + n = K -> exists m, run_stages l o r (seq k n) m0 d b = (Done m, d, b) /\
     (forall s, (forall j, k <= j < K -> holds (stage_class j) s = false) -> m s = m0 s) /\
     forall k' c s, k <= k' < K -> d_last W (d k') = Some c ->
       holds (stage_class k') s = true -> (forall j, k' < j < K -> holds (stage_class j) s = false) -> c_weights W c s = Some (m s)).
  { induction n as [|n IH]; intros k m0 E; [exists m0; repeat split; intros; lia|].
    destruct (F k ltac:(lia)) as [c [EC EM]].
    destruct (IH (Datatypes.S k) (load W m0 (c_weights W c)) ltac:(lia)) as [m [R [U V]]]. exists m. split; [|split].
    - cbn [seq DvcStages_Model.run_stages]. unfold DvcStages_Model.run_training_stage at 1. rewrite EC.
      replace (negb (truth o) && negb r && true) with false by (destruct RR as [-> | ->]; cbn; now rewrite ?andb_false_r).
      replace (is_True o) with false by (now destruct o). cbn [orb]. rewrite EM, Nat.sub_diag. cbn [DvcStages_Model.fit]. exact R.
    - intros s X. rewrite (U s) by (intros j J; apply X; lia). unfold load. destruct (S k c EC) as [_ [m1 [_ EW]]]. now rewrite EW, (X k ltac:(lia)).
    - intros k' c' s J EC' X D. destruct (Nat.eq_dec k' k) as [->|NE]; [|apply (V k' c'); trivial; lia].
      rewrite EC in EC'. injection EC' as <-. rewrite (U s).
      + unfold load. destruct (S k c EC) as [_ [m1 [_ EW]]]. now rewrite EW, X.
      + intros j J'. apply D. lia. }
  destruct (G K 0 (init l) eq_refl) as [m [R [_ V]]]. exists m. split; [exact R|]. intros k c s L. apply V. lia.
Qed.

(** * C73, refusing *)
Fixpoint cost (ks : list nat) : nat := match ks with [] => 0 | k :: r => 3 * max_steps k + cost r end.
Lemma fit_time l k : forall todo i m d b, 3 * todo <= b -> exists m' d' b', fit l k todo i m d b = (Done m', d', b') /\ b - 3 * todo <= b' /\
  (forall j, j <> k -> d' j = d j) /\ (forall t, todo = S t -> saves k (i + todo) = true -> exists c, d_last W (d' k) = Some c /\ c_step W c = i + todo) /\ (todo = 0 -> d' = d).
Proof.
  induction todo as [|t IH]; intros i m d b B; cbn [DvcStages_Model.fit].
  - exists m, d, b. repeat split; trivial; try lia; discriminate.
  - destruct b as [|b]; [lia|].
    set (m1 := put W (stage_class k) m (upd l k i (view W (stage_class k) m))).
    destruct (saves k (S i)) eqn:SV.
    + set (d1 := if best l k (S i) then set W d k (mkD W (d_last W (d k)) true) else d).
      assert (D1 : forall j, j <> k -> d1 j = d j) by (intros j NE; unfold d1; destruct (best _ _ _); [now apply set_other|reflexivity]).
      destruct (if best l k (S i) then b else S b) as [|[|b2]] eqn:EB; [destruct (best _ _ _); lia|destruct (best _ _ _); lia|].
      set (d2 := set W d1 k (mkD W (Some (mkC W (S i) (view W (stage_class k) m1))) (d_other W (d1 k)))).
      destruct (IH (S i) m1 d2 b2 ltac:(destruct (best _ _ _); lia)) as [m' [d' [b' [F [BB [D [C Z]]]]]]].
      exists m', d', b'. split; [exact F|]. split; [destruct (best _ _ _); lia|]. split; [|split; [|discriminate]].
      * intros j NE. rewrite (D j NE). unfold d2. rewrite set_other by exact NE. now apply D1.
      * intros t0 _ SF. destruct t as [|t].
        -- rewrite (Z eq_refl). unfold d2. rewrite set_same. eexists. split; [reflexivity|]. cbn. lia.
        -- rewrite <- Nat.add_succ_comm in SF. destruct (C t eq_refl SF) as [c [C1 C2]]. exists c. split; [exact C1|]. lia.
    + destruct (IH (S i) m1 d b ltac:(lia)) as [m' [d' [b' [F [BB [D [C Z]]]]]]]. exists m', d', b'. split; [exact F|]. split; [lia|]. split; [exact D|]. split; [|discriminate].
      intros t0 _ SF. destruct t as [|t]; [replace (i + 1) with (S i) in SF by lia; congruence|].
      rewrite <- Nat.add_succ_comm in SF. destruct (C t eq_refl SF) as [c [C1 C2]]. exists c. split; [exact C1|]. lia.
Qed.
Lemma files_bool (x : dir W) : (match d_last W x with Some _ => true | None => d_other W x end) = true <-> files x.
Proof. unfold files. destruct (d_last W x), (d_other W x); split; intro H; try (left; discriminate); try (right; reflexivity); try reflexivity; try discriminate. destruct H as [H|H]; [now elim H|discriminate]. Qed.
Lemma stage_time l o r k m d b : 3 * max_steps k <= b -> (truth o = true \/ r = true \/ ~ files (d k)) ->
  exists m' d' b', run_training_stage l o r k m d b = (Done m', d', b') /\ b - 3 * max_steps k <= b' /\ (forall j, j <> k -> d' j = d j) /\
   (d_last W (d k) = None -> 1 <= max_steps k -> saves k (max_steps k) = true -> exists c, d_last W (d' k) = Some c /\ c_step W c = max_steps k).
Proof.
  intros B OK. unfold DvcStages_Model.run_training_stage.
  replace (negb (truth o) && negb r && _) with false.
  2:{ symmetry. destruct OK as [-> |[-> |NF]]; [reflexivity|cbn; now rewrite andb_false_r|]. destruct (match d_last W (d k) with Some _ => true | None => d_other W (d k) end) eqn:X; [elim NF; now apply files_bool|apply andb_false_r]. }
  assert (R : exists todo i m0, (if match d_last W (d k) with Some _ => false | None => true end || is_True o then None else d_last W (d k)) = None /\ todo = max_steps k /\ i = 0 /\ m0 = m \/
              exists c, (if match d_last W (d k) with Some _ => false | None => true end || is_True o then None else d_last W (d k)) = Some c /\ d_last W (d k) = Some c).
  { destruct (d_last W (d k)) as [c|]; cbn [orb]; [destruct (is_True o)|]; exists (max_steps k), 0, m; [left|right; exists c|left]; repeat split. }
  destruct R as [todo [i [m0 [[-> _]|[c [-> E]]]]]].
  - destruct (fit_time l k (max_steps k) 0 m d b B) as [m' [d' [b' [F [BB [D [C _]]]]]]]. exists m', d', b'. split; [exact F|]. split; [exact BB|]. split; [exact D|].
    intros _ P SV. apply (C (max_steps k - 1)); [lia|exact SV].
  - destruct (fit_time l k (max_steps k - c_step W c) (c_step W c) (load W m (c_weights W c)) d b ltac:(lia)) as [m' [d' [b' [F [BB [D [C _]]]]]]]. exists m', d', b'. split; [exact F|]. split; [lia|]. split; [exact D|].
    intros NE. congruence.
Qed.
(** Given time, a launch with a flag set, or with no checkpoints around, finishes. *)
Theorem C73_finishes K l o r d b : cost (seq 0 K) <= b ->
  (truth o = true \/ r = true \/ forall k, k < K -> ~ files (d k)) -> exists m, fst (main K l o r d b) = Done m.
Proof.
  intros B H. unfold DvcStages_Model.main.
  assert (G : forall n k m d0 b, cost (seq k n) <= b -> (truth o = true \/ r = true \/ forall j, k <= j < k + n -> ~ files (d0 j)) -> exists m', fst (fst (run_stages l o r (seq k n) m d0 b)) = Done m').
  { clear. induction n as [|n IH]; intros k m d b B OK; [now exists m|]. cbn [seq DvcStages_Model.run_stages cost] in *.
    destruct (stage_time l o r k m d b ltac:(lia)) as [m' [d' [b' [R [BB [D _]]]]]]; [destruct OK as [A|[A|A]]; [now left|right; now left|right; right; apply A; lia]|].
    rewrite R. apply IH; [lia|]. destruct OK as [A|[A|A]]; [now left|right; now left|right; right]. intros j J. rewrite D by lia. apply A. lia. }
  apply (G K 0 (init l) d b B). destruct H as [A|[A|A]]; [now left|right; now left|right; right]. intros j J. apply A. lia.
Qed.
(** Without flags a launch never finishes if a stage has checkpoints; given time it is refused. But
    it has then trained all stages before that one. *)
Theorem C73_refuses K l d k b : k < K -> files (d k) -> (forall j, j < k -> ~ files (d j)) ->
  (forall m, fst (main K l No false d b) <> Done m) /\
  (cost (seq 0 k) <= b -> exists d', main K l No false d b = (Refused, d') /\
     (forall j, k <= j -> d' j = d j) /\
     forall j, j < k -> 1 <= max_steps j -> saves j (max_steps j) = true -> exists c, d_last W (d' j) = Some c /\ c_step W c = max_steps j).
Proof.
  intros L F NF. unfold DvcStages_Model.main. split.
  - assert (G : forall n k0 m d0 b, k0 <= k < k0 + n -> files (d0 k) -> forall m', fst (fst (run_stages l No false (seq k0 n) m d0 b)) <> Done m').
    { clear. induction n as [|n IH]; intros k0 m d b J F m'; [lia|]. cbn [seq DvcStages_Model.run_stages].
      destruct (run_training_stage l No false k0 m d b) as [[e1 d1] b1] eqn:R. destruct e1 as [m1| |]; [|discriminate|discriminate].
      assert (A : ahead d d1 /\ (k0 <> k -> d1 k = d k)).
      { unfold DvcStages_Model.run_training_stage in R. destruct (negb (truth No) && negb false && _) eqn:X; [discriminate|].
        assert (Q : forall todo i m d b e d' b', fit l k0 todo i m d b = (e, d', b') -> k0 <> k -> d' k = d k).
        { clear. induction todo as [|t IH]; intros i m d b e d' b' H NE; cbn [DvcStages_Model.fit] in H; [now injection H as <- <- <-|].
          destruct b as [|b]; [now injection H as <- <- <-|]. destruct (saves k0 (S i)); [|apply (IH _ _ _ _ _ _ _ H NE)].
          destruct (best l k0 (S i)); [destruct b as [|b]; [now injection H as <- <- <-|]|];
          (destruct b as [|b]; [injection H as <- <- <-; now rewrite ?set_other by congruence|]; rewrite (IH _ _ _ _ _ _ _ H NE); now rewrite ?set_other by congruence). }
        destruct (d_last W (d k0)) as [c|] eqn:E; cbn [orb is_True] in R; (split; [apply (fit_ahead _ _ _ _ _ _ _ _ _ _ ltac:(intros c0 E0; rewrite E in E0; try discriminate; injection E0 as <-; reflexivity) R)|apply (Q _ _ _ _ _ _ _ _ R)]). }
      destruct (Nat.eq_dec k0 k) as [->|NE].
      - exfalso. unfold DvcStages_Model.run_training_stage in R. rewrite (proj2 (files_bool (d k)) F) in R. discriminate.
      - apply IH; [lia|]. now rewrite (proj2 A NE). }
    intro m. apply G; [lia|exact F].
  - intro B.
    assert (G : forall n k0 m d0 b, k0 + n = k -> cost (seq k0 n) <= b -> files (d0 k) -> (forall j, k0 <= j < k -> ~ files (d0 j)) -> forall rest,
      exists d' b', run_stages l No false (seq k0 n ++ k :: rest) m d0 b = (Refused, d', b') /\
      (forall j, j < k0 \/ k <= j -> d' j = d0 j) /\ forall j, k0 <= j < k -> 1 <= max_steps j -> saves j (max_steps j) = true -> exists c, d_last W (d' j) = Some c /\ c_step W c = max_steps j).
    { clear. induction n as [|n IH]; intros k0 m d b E B F NF rest.
      - cbn [seq app DvcStages_Model.run_stages]. unfold DvcStages_Model.run_training_stage. rewrite (proj2 (files_bool (d k)) F). cbn. exists d, b. repeat split; intros; lia.
      - cbn [seq cost app] in *. cbn [DvcStages_Model.run_stages].
        destruct (stage_time l No false k0 m d b ltac:(lia) ltac:(right; right; apply NF; lia)) as [m' [d1 [b1 [R [BB [D C]]]]]]. rewrite R.
        destruct (IH (S k0) m' d1 b1 ltac:(lia) ltac:(lia)) with (rest := rest) as [d' [b' [R' [D' C']]]]; [rewrite D by lia; exact F|intros j J; rewrite D by lia; apply NF; lia|].
        exists d', b'. split; [exact R'|]. split.
        + intros j J. rewrite D' by lia. apply D. lia.
        + intros j J P SV. destruct (Nat.eq_dec j k0) as [->|NE]; [|apply C'; trivial; lia]. rewrite D' by lia. apply C; trivial.
          destruct (d_last W (d k0)) eqn:X; [|reflexivity]. elim (NF k0 ltac:(lia)). left. congruence. }
    destruct (G k 0 (init l) d b eq_refl B F ltac:(intros j J; apply NF; lia) (seq (S k) (K - k - 1))) as [d' [b' [R [D C]]]].
    exists d'. replace (seq 0 K) with (seq 0 k ++ k :: seq (S k) (K - k - 1)).
    2:{ replace K with (k + S (K - k - 1)) at 2 by lia. rewrite seq_app. reflexivity. }
    rewrite R. split; [reflexivity|]. split; intros j J; [apply D; lia|apply C; lia].
Qed.
(** "overwrite: 1 overwrites" is false: the checkpoints are then resumed from. *)
Theorem C73_truthy_overwrite_resumes_refuted K l r d b : main K l Truthy r d b = main K l No true d b.
Proof.
  unfold DvcStages_Model.main. f_equal.
  assert (G : forall ks m d b, run_stages l Truthy r ks m d b = run_stages l No true ks m d b).
  { induction ks as [|k ks IH]; intros m d0 b0; [reflexivity|]. cbn [DvcStages_Model.run_stages].
    replace (run_training_stage l Truthy r k m d0 b0) with (run_training_stage l No true k m d0 b0) by (unfold DvcStages_Model.run_training_stage; cbn; reflexivity).
    destruct (run_training_stage l No true k m d0 b0) as [[[m'| |] d1] b1]; [apply IH|reflexivity|reflexivity]. }
  apply G.
Qed.
(** With overwrite=True every stage starts over: what was on the disk has no influence. *)
Lemma fit_blind l k : forall todo i m d d' b, 
  fst (fst (fit l k todo i m d b)) = fst (fst (fit l k todo i m d' b)) /\ snd (fit l k todo i m d b) = snd (fit l k todo i m d' b).
Proof.
  induction todo as [|todo IH]; intros i m d d' b; [split; reflexivity|]. cbn [DvcStages_Model.fit].
  destruct b as [|b]; [split; reflexivity|]. destruct (saves k (S i)); [|apply IH].
  destruct (if best l k (S i) then b else S b) as [|b1]; [split; reflexivity|]. destruct b1 as [|b2]; [split; reflexivity|]. apply IH.
Qed.
Theorem C73_overwrite_starts_over K l r d d' b : fst (main K l Yes r d b) = fst (main K l Yes r d' b).
Proof.
  unfold DvcStages_Model.main.
  assert (G : forall ks m d d' b, fst (fst (run_stages l Yes r ks m d b)) = fst (fst (run_stages l Yes r ks m d' b))).
  { clear. induction ks as [|k ks IH]; intros m d d' b; [reflexivity|]. cbn [DvcStages_Model.run_stages].
    assert (R : forall d, run_training_stage l Yes r k m d b = fit l k (max_steps k) 0 m d b).
    { intro d0. unfold DvcStages_Model.run_training_stage. cbn [truth negb andb is_True]. now rewrite orb_true_r. }
    rewrite !R. pose proof (fit_blind l k (max_steps k) 0 m d d' b) as [A B].
    destruct (fit l k (max_steps k) 0 m d b) as [[e d1] b1], (fit l k (max_steps k) 0 m d' b) as [[e' d1'] b1']. cbn [fst snd] in A, B. subst e' b1'.
    destruct e as [m'| |]; [apply IH|reflexivity|reflexivity]. }
  apply G.
Qed.
End Props.
Print Assumptions C73_overwrite_starts_over.

(** * The configuration of the repository: stages 1, 2, 3, 4 and 5 *)
Definition default_class (k : nat) : cls := match k with 0 => DvcStage1 | 1 => DvcStage2 | 2 => DvcStage3 | _ => DvcStage4and5 end.
Theorem C73_default_growing : growing default_class.
Proof. intros k s. destruct k as [|[|[|k]]], s; cbn; congruence. Qed.
(** The submodules trained in each stage, as the DVC paper has it. *)
Theorem C73_default_submodules k s : holds (default_class k) s = true <->
  match k with
  | 0 => s = MotionEstimator
  | 1 => In s [MotionEstimator; MotionEncoder; MotionBottleneck; MotionDecoder]
  | 2 => ~ In s [ResidualEncoder; ResidualBottleneck; ResidualDecoder]
  | _ => True
  end.
Proof.
  destruct k as [|[|[|k]]], s; cbn; split; intro H; try reflexivity; try discriminate; try exact I; try tauto;
  try (repeat match goal with H : _ \/ _ |- _ => destruct H end; try discriminate; contradiction);
  try (intro X; repeat match goal with H : _ \/ _ |- _ => destruct H end; try discriminate; contradiction).
Qed.
(** A case: 2 steps per stage, checkpoints after every step, weights that record (launch, stage, step).
    The first launch is killed in stage 1, the second resumes and finishes. *)
Definition ex_init (l : nat) : model (list (nat * nat * nat)) := fun _ => [].
Definition ex_upd (l k i : nat) (v : sub -> option (list (nat * nat * nat))) (s : sub) : list (nat * nat * nat) :=
  match v s with Some w => w ++ [(l, k, i)] | None => [] end.
Definition ex_history := history _ ex_init default_class (fun _ => 2) ex_upd (fun _ _ => true) (fun _ _ i => Nat.eqb i 1) 5 0 [(No, false, 8); (No, true, 100)] (nothing _).
Example C73_example :
  exists m, snd ex_history = [Killed _; Done _ m] /\
    m MotionEstimator = [(0,0,0);(0,0,1);(0,1,0);(1,1,1);(1,2,0);(1,2,1);(1,3,0);(1,3,1);(1,4,0);(1,4,1)] /\
    m MotionCompensation = [(1,2,0);(1,2,1);(1,3,0);(1,3,1);(1,4,0);(1,4,1)].
Proof. eexists. vm_compute. repeat split. Qed.

Print Assumptions C73_every_history_sound.
Print Assumptions C73_nothing_sound.
Print Assumptions C73_stage_leaves_others.
Print Assumptions C73_progress_kept.
Print Assumptions C73_finished_run_is_reused.
Print Assumptions C73_finishes.
Print Assumptions C73_refuses.
Print Assumptions C73_truthy_overwrite_resumes_refuted.
Print Assumptions C73_default_growing.
Print Assumptions C73_default_submodules.

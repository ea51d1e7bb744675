(** A concrete instance of the diffusion codec's parameters: craystack's codecs
    replaced by exact big-integer ANS with frequency tables, and a small model with
    three steps whose distributions depend on the latents.  It meets the hypotheses
    of the theorems and shows the counterexamples. *)
From Coq Require Import ZArith List Bool Lia.
From Verif Require Import Base Diff_Model Diff_Spec.
Import ListNotations.
Open Scope Z_scope.

(** ** ANS with a table of frequencies *)
Fixpoint locate (fs : list Z) (s : Z) : nat * Z * Z :=
  match fs with
  | [] => (O, 0, 1)
  | f :: fs' => if s <? f then (O, s, f) else let '(x, r, f') := locate fs' (s - f) in (S x, r, f')
  end.
Definition tab (fs : list Z) : prim Z nat :=
  mk_prim
    (fun m x => if Nat.ltb x (length fs)
                then let f := nth x fs 1 in Ok (m / f * sum fs + (sum (firstn x fs) + m mod f))
                else Raise ValueError)
    (fun m => let '(x, r, f) := locate fs (m mod sum fs) in Ok (f * (m / sum fs) + r, x)).

Lemma locate_spec : forall fs s x r f, Forall (fun f => 0 < f) fs -> 0 <= s < sum fs ->
  locate fs s = (x, r, f) ->
  (x < length fs)%nat /\ f = nth x fs 1 /\ 0 <= r < f /\ s = sum (firstn x fs) + r.
Proof.
  induction fs as [|g fs IH]; intros s x r f F H E; cbn [sum fold_right] in H; [lia|].
  inversion F as [|? ? G F']; subst. cbn [locate] in E. destruct (Z.ltb_spec s g) as [L|L].
  - injection E as <- <- <-. cbn. repeat split; lia.
  - destruct (locate fs (s - g)) as [[x' r'] f'] eqn:E'. injection E as <- <- <-.
    destruct (IH (s - g) x' r' f' F' ltac:(unfold sum; lia) E') as (A & B & C & D).
    cbn [length nth firstn sum fold_right]. unfold sum in D. repeat split; (exact B || lia).
Qed.
Lemma locate_start : forall fs x r, Forall (fun f => 0 < f) fs -> (x < length fs)%nat ->
  0 <= r < nth x fs 1 -> locate fs (sum (firstn x fs) + r) = (x, r, nth x fs 1).
Proof.
  induction fs as [|g fs IH]; intros x r F Hx Hr; cbn [length] in Hx; [lia|].
  inversion F as [|? ? G F']; subst. destruct x as [|x]; cbn [firstn sum fold_right nth locate] in *.
  - rewrite Z.add_0_l. now rewrite (proj2 (Z.ltb_lt _ _)) by lia.
  - assert (P : forall y, 0 <= sum (firstn y fs)).
    { intro y. clear - F'. revert y. induction F' as [|a l A _ IHl]; intros [|y]; cbn; try lia.
      specialize (IHl y). unfold sum in IHl. lia. }
    specialize (P x). unfold sum in *. rewrite (proj2 (Z.ltb_ge _ _)) by lia.
    replace (g + fold_right Z.add 0 (firstn x fs) + r - g) with (fold_right Z.add 0 (firstn x fs) + r) by lia.
    rewrite IH by (assumption || lia). reflexivity.
Qed.
Lemma part_le : forall fs x, Forall (fun f => 0 < f) fs -> (x < length fs)%nat ->
  0 <= sum (firstn x fs) /\ sum (firstn x fs) + nth x fs 1 <= sum fs /\ 0 < nth x fs 1.
Proof.
  induction fs as [|g fs IH]; intros x F Hx; cbn [length] in Hx; [lia|].
  inversion F as [|? ? G F']; subst.
  assert (P : 0 <= sum fs) by (clear - F'; induction F'; cbn; unfold sum in *; lia).
  destruct x as [|x]; cbn [firstn sum fold_right nth]; unfold sum in *; [lia|].
  specialize (IH x F' ltac:(lia)). lia.
Qed.

Definition small (k : nat) (x : nat) : Prop := (x < k)%nat.
Lemma tab_push_pop fs : Forall (fun f => 0 < f) fs ->
  push_pop (fun m => 0 <= m) (small (length fs)) (tab fs).
Proof.
  intros F m x m' Hm Hx E. unfold small in Hx. cbn [tab p_push] in E.
  rewrite (proj2 (Nat.ltb_lt _ _)) in E by exact Hx. cbv zeta in E.
  destruct (part_le fs x F Hx) as (A & B & C). set (f := nth x fs 1) in *. set (c := sum (firstn x fs)) in *.
  set (T := sum fs) in *. injection E as <-.
  pose proof (Z.mod_pos_bound m f C) as Mb. assert (Q : 0 <= m / f) by (apply Z.div_pos; lia).
  split; [nia|]. cbn [tab p_pop]. fold T.
  assert (R : (m / f * T + (c + m mod f)) mod T = c + m mod f).
  { rewrite (Z.add_comm (m / f * T)), Z.mod_add by lia. apply Z.mod_small. lia. }
  rewrite R.
  rewrite Z.div_add_l by lia. rewrite (Z.div_small (c + m mod f)) by lia.
  unfold c. rewrite locate_start by (assumption || (fold f; lia)). fold f.
  rewrite Z.add_0_r. do 2 f_equal. pose proof (Z.div_mod m f ltac:(lia)). lia.
Qed.
Lemma tab_pop_push fs : Forall (fun f => 0 < f) fs -> fs <> [] ->
  pop_push (fun m => 0 <= m) (small (length fs)) (tab fs).
Proof.
  intros F Hne m m' x Hm E. cbn [tab p_pop] in E.
  assert (TP : 0 < sum fs).
  { destruct fs as [|g fs]; [easy|]. destruct (part_le (g :: fs) 0 F ltac:(cbn [length]; lia)). lia. }
  destruct (locate fs (m mod sum fs)) as [[y r] f] eqn:L.
  apply locate_spec in L; [|exact F|apply Z.mod_pos_bound; lia].
  destruct L as (A & B & C & D). injection E as <- <-.
  assert (Q : 0 <= m / sum fs) by (apply Z.div_pos; lia).
  split; [nia|]. split; [exact A|]. cbn [tab p_push].
  rewrite (proj2 (Nat.ltb_lt _ _)) by exact A. cbv zeta. rewrite <- B. f_equal.
  rewrite (Z.mul_comm f), Z.div_add_l by lia. rewrite (Z.div_small r f) by lia. rewrite Z.add_0_r.
  rewrite (Z.add_comm (m / sum fs * f)), Z.mod_add by lia. rewrite (Z.mod_small r f) by lia.
  rewrite <- D. pose proof (Z.div_mod m (sum fs) ltac:(lia)). lia.
Qed.

(** ** The instance *)
Lemma tab_push_total fs : (forall m x, 0 <= m -> small (length fs) x -> exists m', p_push (tab fs) m x = Ok m').
Proof. intros m x _ H. unfold small in H. cbn [p_push tab]. rewrite (proj2 (Nat.ltb_lt _ _) H). eauto. Qed.
Lemma tab_pop_total fs : forall m, exists r, p_pop (tab fs) m = Ok r.
Proof. intro m. cbn [p_pop tab]. destruct (locate fs (m mod sum fs)) as [[x r] f]. eauto. Qed.
Definition Sh : list Z := [1; 1; 1; 1].
Definition arr (x : Z) : array := mk_array Sh [x].
Definition lik_tab (fs : list Z) : prim Z array :=
  mk_prim (fun m a => match vals a with
                      | [x] => p_push (tab fs) m (Z.to_nat x)
                      | _ => Raise ValueError
                      end)
          (fun m => do (m', x) <- p_pop (tab fs) m; Ok (m', arr (Z.of_nat x))).

Definition ex_nbytes (m : Z) : Z := (Z.log2 m + 8) / 8.
Definition ex_prior : prim Z nat := tab [1; 1; 1; 1].
(** parameters are integers; their parity chooses a table *)
Definition ex_post (a b : Z) : prim Z nat := tab (if Z.even (a + b) then [1; 2; 3; 10] else [10; 3; 2; 1]).
Definition ex_lik (a : Z) : prim Z array := lik_tab (if Z.even a then [5; 1; 1; 1] else [2; 2; 2; 2]).
Definition ex_to_latent (l : nat * Z) : Z := Z.of_nat (fst l) + 4 * snd l.
Definition ex_infer (a : array) : Z := nth 0 (vals a) 0.
Definition ex_gen (z : Z) (step : nat) : Z := z + Z.of_nat step.
Definition ex_gen_post (z : Z) (step : nat) (a : array) : Z := z * Z.of_nat step + nth 0 (vals a) 0.

Notation ex_wf := (fun m : Z => 0 <= m).
Notation ex_encode track := (encode Z Z Z nat ex_nbytes ex_prior ex_post ex_lik 0 ex_to_latent 3 ex_infer
  ex_gen ex_gen_post track Sh 2).
Notation ex_decode track := (decode Z Z Z nat ex_nbytes ex_prior ex_post ex_lik 0 ex_to_latent 3 ex_infer
  ex_gen ex_gen_post track).
Definition ex_new : obj Z := new_codec Z ex_nbytes 3 (2 ^ 40 + 12345).

Lemma ex_prior_push_pop : push_pop ex_wf (small 4) ex_prior.
Proof. apply (tab_push_pop [1; 1; 1; 1]). repeat constructor. Qed.
Lemma ex_prior_pop_push : pop_push ex_wf (small 4) ex_prior.
Proof. apply (tab_pop_push [1; 1; 1; 1]); [repeat constructor | easy]. Qed.
Lemma ex_post_push_pop a b : push_pop ex_wf (small 4) (ex_post a b).
Proof. unfold ex_post. destruct (Z.even (a + b)); [apply (tab_push_pop [1; 2; 3; 10]) | apply (tab_push_pop [10; 3; 2; 1])]; repeat constructor. Qed.
Lemma ex_post_pop_push a b : pop_push ex_wf (small 4) (ex_post a b).
Proof. unfold ex_post. destruct (Z.even (a + b)); [apply (tab_pop_push [1; 2; 3; 10]) | apply (tab_pop_push [10; 3; 2; 1])]; (easy || (repeat constructor)). Qed.

Lemma lik_tab_push_pop fs : Forall (fun f => 0 < f) fs -> length fs = 4%nat ->
  push_pop ex_wf (valid_data Sh 2) (lik_tab fs).
Proof.
  intros F L m a m' Hm (S1 & _ & V & _) E. destruct a as [sh vs]; cbn [shape vals] in *. subst sh.
  cbn [lik_tab p_push vals] in E. destruct vs as [|x [|? ?]]; try easy.
  inversion V as [|? ? Hx _]; subst. change (2 ^ 2) with 4 in Hx.
  destruct (tab_push_pop fs F m (Z.to_nat x) m' Hm ltac:(unfold small; rewrite L; lia) E) as (A & B).
  split; [exact A|]. cbn [lik_tab p_pop]. rewrite B. cbn [bind]. unfold arr. rewrite Z2Nat.id by lia. reflexivity.
Qed.
Lemma lik_tab_pop_push fs : Forall (fun f => 0 < f) fs -> length fs = 4%nat ->
  pop_push ex_wf (valid_data Sh 2) (lik_tab fs).
Proof.
  intros F L m m' a Hm E. cbn [lik_tab p_pop] in E.
  destruct (p_pop (tab fs) m) as [[m1 x]|] eqn:P; cbn [bind] in E; [|easy]. injection E as <- <-.
  destruct (tab_pop_push fs F ltac:(destruct fs; easy) m m1 x Hm P) as (A & B & C). unfold small in B.
  split; [exact A|]. split.
  - split; [reflexivity|]. cbn [vals arr]. split; [easy|]. split; [|reflexivity]. repeat constructor; change (2 ^ 2) with 4; lia.
  - cbn [lik_tab p_push vals arr]. rewrite Nat2Z.id. exact C.
Qed.
Lemma ex_lik_push_pop a : push_pop ex_wf (valid_data Sh 2) (ex_lik a).
Proof. unfold ex_lik. destruct (Z.even a); apply lik_tab_push_pop; (reflexivity || (repeat constructor)). Qed.
Lemma ex_lik_pop_push a : pop_push ex_wf (valid_data Sh 2) (ex_lik a).
Proof. unfold ex_lik. destruct (Z.even a); apply lik_tab_pop_push; (reflexivity || (repeat constructor)). Qed.

(** A posterior codec that runs out of bits below 2^39: a failing call. *)
Definition low_post (a b : Z) : prim Z nat :=
  mk_prim (p_push (ex_post a b))
    (fun m => if m <? 2 ^ 39 then Raise IndexError else p_pop (ex_post a b) m).
Notation low_encode := (encode Z Z Z nat ex_nbytes ex_prior low_post ex_lik 0 ex_to_latent 3 ex_infer
  ex_gen ex_gen_post true Sh 2).

Lemma ex_prior_total m x : 0 <= m -> small 4 x -> exists m', p_push ex_prior m x = Ok m'.
Proof. apply (tab_push_total [1; 1; 1; 1]). Qed.
Lemma ex_post_total a b m : 0 <= m -> exists r, p_pop (ex_post a b) m = Ok r.
Proof. intros _. unfold ex_post. destruct (Z.even (a + b)); apply tab_pop_total. Qed.
Lemma ex_lik_total a m d : 0 <= m -> valid_data Sh 2 d -> exists m', p_push (ex_lik a) m d = Ok m'.
Proof.
  intros Hm (S1 & N1 & V1 & L1). unfold ex_lik, lik_tab. cbn [p_push].
  destruct (vals d) as [|x [|y l]]; [easy| |cbn [length] in L1; change (fold_right Z.mul 1 Sh) with 1 in L1; lia].
  inversion V1 as [|? ? V2 _]; subst. change (2 ^ 2) with 4 in V2.
  destruct (Z.even a); eapply tab_push_total; try exact Hm; unfold small; cbn [length]; lia.
Qed.

(** The encode job under crashes. *)
From Coq Require Import ZArith List Bool Lia Permutation Sorted.
From Verif Require Import Base Job_Model Job_Spec Job_Names.
Import ListNotations.
Open Scope Z_scope.

Section P.
Context {St F B : Type}.
Variable enc : St -> B -> res St.
Variable dec : St -> res (St * B).
Variable count : St -> Z.
Variable save : St -> F.
Variable load : St -> F -> St.
Variable batches : nat -> B.
Variable eqB : B -> B -> bool.
Variables (bsz world interval : Z).
Variable check : bool.
Variable listing : list (list ch * file F) -> list (list ch * file F).
Hypothesis listing_perm : forall l, Permutation (listing l) l.
Hypothesis eqB_refl : forall b, eqB b b = true.
Hypothesis bsz_pos : 1 <= bsz.
Hypothesis world_pos : 1 <= world.
Hypothesis interval_pos : 1 <= interval.

Notation file := (file F).
Notation disk := (disk F B).
Notation proc := (proc St).
Notation latest := (latest F listing).
Notation max_file := (max_file F).
Notation tick := (tick St F B enc dec count save load batches eqB bsz world interval check listing).
Notation start := (start St F B count load listing).
Notation step := (step St F B enc dec count save load batches eqB bsz world interval check listing).
Notation run := (run St F B enc dec count save load batches eqB bsz world interval check listing).
Notation compare := (compare B batches eqB).
Notation sort := (sort B).
Notation ef := (enc_files F B).
Notation df := (dec_files F B).
Notation bf := (batch_files F B).
Notation PEnc := (PEnc St). Notation PSave := (PSave St). Notation PFind := (PFind St).
Notation PDec := (PDec St). Notation PDSave := (PDSave St). Notation PCmp := (PCmp St).
Notation PDone := (PDone St). Notation PFail := (PFail St).

(** ** Writing files *)
Lemma name_eqb_spec a b : name_eqb a b = true <-> a = b.
Proof. unfold name_eqb. destruct (list_eq_dec ch_eq_dec a b); split; congruence. Qed.
Lemma in_write n x l n' x' : In (n', x') (write F n x l) <-> (n' = n /\ x' = x) \/ (n' <> n /\ In (n', x') l).
Proof.
  unfold write. cbn [In]. rewrite filter_In. cbn [fst]. rewrite negb_true_iff.
  assert (E : name_eqb n n' = false <-> n' <> n).
  { destruct (name_eqb n n') eqn:Q; [apply name_eqb_spec in Q; subst; split; congruence|].
    split; [|reflexivity]. intros _ ->. assert (name_eqb n n = true) by now apply name_eqb_spec. congruence. }
  rewrite E. split; [intros [H|H]; [left; inversion H; auto | right; tauto] | intros [[-> ->]|H]; [now left | right; tauto]].
Qed.
Lemma in_write_batch i x (l : list (Z * option B)) i' x' :
  In (i', x') (write_batch B i x l) <-> (i' = i /\ x' = x) \/ (i' <> i /\ In (i', x') l).
Proof.
  unfold write_batch. cbn [In]. rewrite filter_In. cbn [fst]. rewrite negb_true_iff, Z.eqb_neq.
  split; [intros [H|H]; [left; inversion H; auto | right; split; [intro; subst; tauto | tauto]]
         |intros [[-> ->]|H]; [now left | right; split; [tauto | intro; subst; tauto]]].
Qed.
Lemma write_batch_nodup i x (l : list (Z * option B)) : NoDup (map fst l) -> NoDup (map fst (write_batch B i x l)).
Proof.
  intro H. unfold write_batch. cbn [map fst]. constructor.
  - rewrite in_map_iff. intros ((i' & x') & E & I). cbn [fst] in E. subst i'. apply filter_In in I.
    destruct I as [_ I]. cbn [fst] in I. rewrite Z.eqb_refl in I. discriminate.
  - induction l as [|[a b] l IH]; [constructor|]. cbn [map fst] in H. inversion H as [|? ? N1 N2]; subst.
    cbn [filter fst]. destruct (i =? a); cbn [negb]; [now apply IH|]. cbn [map fst]. constructor; [|now apply IH].
    intro I. apply N1. apply in_map_iff in I. destruct I as (e & E & I). apply filter_In in I.
    apply in_map_iff. exists e. tauto.
Qed.

(** ** The latest checkpoint *)
Lemma max_file_spec : forall l k0 x0, (forall n x, In (n, x) l -> exists k, parse6 n = Ok k) ->
  exists k x, max_file (k0, x0) l = Ok (k, x) /\
    ((k = k0 /\ x = x0) \/ exists n, In (n, x) l /\ parse6 n = Ok k) /\ k0 <= k /\
    forall n' x' k', In (n', x') l -> parse6 n' = Ok k' -> k' <= k.
Proof.
  induction l as [|[n x] l IH]; intros k0 x0 H.
  - exists k0, x0. cbn. repeat split; auto; [lia | easy].
  - cbn [Job_Model.max_file]. destruct (H n x ltac:(now left)) as (k & E). rewrite E. cbn [bind fst].
    assert (H' : forall n x, In (n, x) l -> exists k, parse6 n = Ok k) by (intros; eapply H; right; eassumption).
    destruct (Z.ltb_spec k0 k) as [L|L].
    + destruct (IH k x H') as (k1 & x1 & A & C & D & G). exists k1, x1. split; [exact A|].
      split. { destruct C as [[-> ->]|(n1 & C1 & C2)]; right; [exists n; split; [now left | exact E]|].
               exists n1. split; [now right | exact C2]. }
      split; [lia|]. intros n' x' k' [I|I] P; [|eapply G; eassumption].
      injection I as <- <-. rewrite E in P. injection P as <-. lia.
    + destruct (IH k0 x0 H') as (k1 & x1 & A & C & D & G). exists k1, x1. split; [exact A|].
      split. { destruct C as [C|(n1 & C1 & C2)]; [now left | right]. exists n1. split; [now right | exact C2]. }
      split; [lia|]. intros n' x' k' [I|I] P; [|eapply G; eassumption].
      injection I as <- <-. rewrite E in P. injection P as <-. lia.
Qed.

Lemma latest_spec l : (forall n x, In (n, x) l -> exists k, parse6 n = Ok k) ->
  (l = [] /\ latest l = Ok None) \/
  exists n x k, In (n, x) l /\ parse6 n = Ok k /\ latest l = Ok (Some x) /\
    forall n' x' k', In (n', x') l -> parse6 n' = Ok k' -> k' <= k.
Proof.
  intro H. unfold Job_Model.latest. pose proof (listing_perm l) as P.
  destruct (listing l) as [|[n x] l'].
  - left. apply Permutation_nil in P. auto.
  - right. assert (H' : forall n1 x1, In (n1, x1) ((n, x) :: l') -> exists k, parse6 n1 = Ok k).
    { intros n1 x1 I. eapply H. eapply Permutation_in; [exact P | exact I]. }
    destruct (H' n x ltac:(now left)) as (k & E). rewrite E. cbn [bind].
    destruct (max_file_spec l' k x ltac:(intros; eapply H'; right; eassumption)) as (k1 & x1 & A & C & D & G).
    rewrite A. cbn [bind snd].
    assert (X : exists n1, In (n1, x1) ((n, x) :: l') /\ parse6 n1 = Ok k1).
    { destruct C as [[-> ->]|(n1 & C1 & C2)]; [exists n; split; [now left | exact E] | exists n1; split; [now right | exact C2]]. }
    destruct X as (n1 & X1 & X2). exists n1, x1, k1.
    split; [eapply Permutation_in; [exact P | exact X1]|]. split; [exact X2|]. split; [reflexivity|].
    intros n' x' k' I Q. apply (Permutation_in _ (Permutation_sym P)) in I. destruct I as [I|I].
    + injection I as <- <-. rewrite E in Q. injection Q as <-. exact D.
    + eapply G; eassumption.
Qed.

(** ** The comparison of the batches *)
Lemma insert_perm e l : Permutation (insert B e l) (e :: l).
Proof.
  induction l as [|e' l IH]; [reflexivity|]. cbn [insert]. destruct (fst e <=? fst e'); [reflexivity|].
  rewrite IH. apply perm_swap.
Qed.
Lemma sort_perm l : Permutation (sort l) l.
Proof. induction l as [|e l IH]; [reflexivity|]. cbn. rewrite insert_perm. now constructor. Qed.
Lemma insert_sorted e l : StronglySorted Z.le (map fst l) -> StronglySorted Z.le (map fst (insert B e l)).
Proof.
  induction l as [|e' l IH]; intro S.
  - cbn. repeat constructor.
  - cbn [insert]. destruct (Z.leb_spec (fst e) (fst e')) as [L|L].
    + cbn [map] in *. constructor; [exact S|]. inversion S as [|? ? S' FA]; subst. constructor; [exact L|].
      eapply Forall_impl; [|exact FA]. cbn beta. intros; lia.
    + cbn [map] in *. inversion S as [|? ? S' FA]; subst. constructor; [now apply IH|].
      apply Forall_forall. intros y Hy. apply (Permutation_in _ (Permutation_map fst (insert_perm e l))) in Hy.
      cbn [map In] in Hy. destruct Hy as [<-|Hy]; [lia|]. rewrite Forall_forall in FA. now apply FA.
Qed.
Lemma sort_sorted l : StronglySorted Z.le (map fst (sort l)).
Proof. induction l as [|e l IH]; [constructor|]. cbn. now apply insert_sorted. Qed.

Lemma keys_seq : forall m (l : list Z) a, StronglySorted Z.le l -> NoDup l ->
  (forall x, In x l <-> a <= x < a + Z.of_nat m) -> l = map (fun i => a + Z.of_nat i) (seq 0 m).
Proof.
  induction m as [|m IH]; intros l a SS ND H.
  - destruct l as [|x l]; [reflexivity|]. assert (a <= x < a + Z.of_nat 0) by (apply H; now left). lia.
  - destruct l as [|x l]; [assert (In a []) by (apply H; lia); easy|].
    inversion SS as [|? ? S' FA]; subst. inversion ND as [|? ? N1 N2]; subst. rewrite Forall_forall in FA.
    assert (x = a).
    { assert (In a (x :: l)) as [E|I] by (apply H; lia); [exact E|]. specialize (FA a I).
      assert (a <= x) by (apply H; now left). lia. }
    subst x. cbn [seq map]. f_equal; [lia|]. rewrite <- seq_shift, map_map.
    rewrite (IH l (a + 1) S' N2).
    + apply map_ext. intro i. lia.
    + intro x. split.
      * intro I. assert (a <= x < a + Z.of_nat (S m)) by (apply H; now right).
        assert (x <> a) by (intro; subst; easy). lia.
      * intro I. assert (In x (a :: l)) as [E|J] by (apply H; lia); [lia | exact J].
Qed.

Lemma compare_ok : forall m (l : list (Z * option B)) i,
  map fst l = map (fun j => Z.of_nat i + Z.of_nat j) (seq 0 m) ->
  (forall k x, In (k, x) l -> x = Some (batches (Z.to_nat k))) -> compare i l = Ok tt.
Proof.
  induction m as [|m IH]; intros l i E H.
  - destruct l; [reflexivity | discriminate].
  - destruct l as [|[k x] l]; [discriminate|]. cbn [seq map fst] in E. injection E as E1 E2.
    cbn [Job_Model.compare]. rewrite (H k x ltac:(now left)).
    replace (Z.to_nat k) with i by lia. rewrite eqB_refl.
    apply IH; [|intros; apply H; now right].
    rewrite E2, <- seq_shift, map_map. apply map_ext. intro j. lia.
Qed.

(** ** The invariant *)
Variable at_ : St -> nat -> St -> Prop.
Variable fresh : St -> Prop.
Hypothesis at_fresh : forall s0, fresh s0 -> at_ s0 0 s0.
Hypothesis at_count : forall s0 k s, at_ s0 k s -> count s = Z.of_nat k.
Hypothesis at_enc : forall s0 k s, fresh s0 -> at_ s0 k s -> exists s', enc s (batches k) = Ok s' /\ at_ s0 (S k) s'.
Hypothesis at_dec : forall s0 k s, fresh s0 -> at_ s0 (S k) s -> exists s', dec s = Ok (s', batches k) /\ at_ s0 k s'.
Hypothesis at_load : forall s0 k s s1, at_ s0 k s -> at_ s0 k (load s1 (save s)).

Variable num : Z.
Notation N := (batches_needed num bsz world).
Hypothesis small : bsz * Z.of_nat N < 10 ^ 6.
Hypothesis small_dec : check = true -> bsz * Z.of_nat N <= 10 ^ 5.

Lemma needed k : bsz * Z.of_nat k * world < num <-> (k < N)%nat.
Proof.
  unfold batches_needed. set (q := bsz * world). assert (Q : 1 <= q) by (unfold q; nia).
  replace (bsz * Z.of_nat k * world) with (q * Z.of_nat k) by (unfold q; lia).
  pose proof (Z.div_mod (num + q - 1) q ltac:(lia)) as D. pose proof (Z.mod_pos_bound (num + q - 1) q ltac:(lia)) as M.
  set (c := (num + q - 1) / q) in *. split; intro H.
  - assert (Z.of_nat k < c) by nia. lia.
  - assert (Z.of_nat k + 1 <= c) by lia. nia.
Qed.

Definition EF (s0 : St) (d : disk) : Prop := forall n x, In (n, x) (ef d) ->
  exists k s, (1 <= k <= N)%nat /\ n = fmt06 (bsz * Z.of_nat k) /\ x = Whole F (save s) /\ at_ s0 k s.
Definition written (d : disk) (k : nat) : Prop := forall i, (k <= i < N)%nat -> In (Z.of_nat i, Some (batches i)) (bf d).
Definition DF (s0 : St) (lo : nat) (d : disk) : Prop := forall n x, In (n, x) (df d) ->
  exists k s, (lo <= k < N)%nat /\ n = fmt06 (- (bsz * Z.of_nat k)) /\ x = Whole F (save s) /\ at_ s0 k s /\ written d k.
Definition BF (d : disk) : Prop := NoDup (map fst (bf d)) /\ forall i x, In (i, x) (bf d) ->
  exists j, (j < N)%nat /\ i = Z.of_nat j /\ (x = None \/ x = Some (batches j)).
Definition full (s0 : St) (d : disk) : Prop :=
  N = 0%nat \/ exists s, at_ s0 N s /\ In (fmt06 (bsz * Z.of_nat N), Whole F (save s)) (ef d).
Definition nodec (d : disk) : Prop := df d = [] /\ bf d = [].

Definition pinv (s0 : St) (d : disk) (p : option proc) : Prop :=
  match p with
  | None => DF s0 0 d /\ (nodec d \/ (full s0 d /\ N <> 0%nat))
  | Some (Job_Model.PEnc _ n s pos) =>
      n = num /\ (pos <= N)%nat /\ at_ s0 pos s /\ DF s0 0 d /\
      ((nodec d /\ (pos < N)%nat) \/ (full s0 d /\ pos = N /\ (nodec d \/ N <> 0%nat)))
  | Some (Job_Model.PSave _ n s pos) => n = num /\ (1 <= pos <= N)%nat /\ at_ s0 pos s /\ nodec d
  | Some (Job_Model.PFind _ s) => at_ s0 N s /\ full s0 d /\ DF s0 0 d /\ (nodec d \/ N <> 0%nat) /\ check = true
  | Some (Job_Model.PDec _ s) => exists k, (k <= N)%nat /\ at_ s0 k s /\ full s0 d /\ DF s0 k d /\ written d k /\
                                 (nodec d \/ N <> 0%nat) /\ check = true
  | Some (Job_Model.PDSave _ s) => exists k, (k < N)%nat /\ at_ s0 k s /\ full s0 d /\ DF s0 k d /\ written d k /\ check = true
  | Some (Job_Model.PCmp _ s) => at_ s0 0 s /\ full s0 d /\ DF s0 0 d /\ written d 0 /\ (nodec d \/ N <> 0%nat) /\ check = true
  | Some (Job_Model.PDone _ s) => full s0 d /\ DF s0 0 d /\ (nodec d \/ N <> 0%nat) /\
      (if check then at_ s0 0 s /\ written d 0 else at_ s0 N s)
  | Some (Job_Model.PFail _ _) => False
  end.
Definition inv (c : config St F B) : Prop :=
  exists s0, fresh s0 /\ EF s0 (fst c) /\ BF (fst c) /\ pinv s0 (fst c) (snd c).

Lemma name_range k : (k <= N)%nat -> - 10 ^ 5 < bsz * Z.of_nat k < 10 ^ 6.
Proof.
  intro H. assert (bsz * Z.of_nat k <= bsz * Z.of_nat N) by (apply Z.mul_le_mono_nonneg_l; lia). nia.
Qed.
Lemma name_range' k : check = true -> (k < N)%nat -> - 10 ^ 5 < - (bsz * Z.of_nat k) < 10 ^ 6.
Proof.
  intros CK H. specialize (small_dec CK). assert (bsz * Z.of_nat k < bsz * Z.of_nat N) by (apply Z.mul_lt_mono_pos_l; lia). nia.
Qed.

Lemma EF_parse s0 d : EF s0 d -> forall n x, In (n, x) (ef d) -> exists k, parse6 n = Ok k.
Proof.
  intros E n x I. destruct (E n x I) as (k & s & Hk & -> & _). eexists. apply parse_fmt, name_range. lia.
Qed.
Lemma DF_parse s0 lo d : check = true -> DF s0 lo d -> forall n x, In (n, x) (df d) -> exists k, parse6 n = Ok k.
Proof.
  intros CK E n x I. destruct (E n x I) as (k & s & Hk & -> & _). eexists. apply parse_fmt, name_range'; [exact CK | lia].
Qed.

(** A new process takes up the most advanced checkpoint. *)
Lemma start_spec s0 d f : fresh s0 -> fresh f -> EF s0 d -> (ef d = [] -> s0 = f) ->
  exists k s, start num f d = PEnc num s k /\ (k <= N)%nat /\ at_ s0 k s /\
    (forall j x, In (fmt06 (bsz * Z.of_nat j), x) (ef d) -> (j <= N)%nat -> (j <= k)%nat) /\
    (k = 0%nat \/ exists x, In (fmt06 (bsz * Z.of_nat k), x) (ef d)).
Proof.
  intros Hf Hf' E0 HE. unfold Job_Model.start.
  destruct (latest_spec (ef d) (EF_parse s0 d E0)) as [[A1 A2]|(n & x & k & A1 & A2 & A3 & A4)].
  - rewrite A2. cbn [bind resume]. rewrite (HE A1) in *. pose proof (at_fresh f Hf') as A.
    exists 0%nat, f. rewrite (at_count _ _ _ A). split; [reflexivity|]. split; [lia|]. split; [exact A|].
    split; [rewrite A1; easy | now left].
  - rewrite A3. cbn [bind]. destruct (E0 n x A1) as (j & s & Hj & En & -> & A). cbn [resume].
    pose proof (at_load _ _ _ f A) as AL. exists j, (load f (save s)).
    rewrite (at_count _ _ _ AL), Nat2Z.id. split; [reflexivity|]. split; [lia|]. split; [exact AL|]. split.
    + intros i y I Hi. specialize (A4 _ _ _ I (parse_fmt _ (name_range i Hi))).
      rewrite En, (parse_fmt _ (name_range j ltac:(lia))) in A2. injection A2 as <-.
      assert (Z.of_nat i <= Z.of_nat j) by nia. lia.
    + right. eexists. rewrite <- En. exact A1.
Qed.

Lemma inv_empty f : fresh f -> inv (empty_dir St F B).
Proof.
  intro Hf. exists f. split; [exact Hf|]. split; [easy|]. split; [split; [constructor | easy]|].
  cbn. split; [easy|]. left. split; reflexivity.
Qed.

Lemma inv_start c f : inv c -> fresh f -> inv (step c (Start St num f)).
Proof.
  intros (s0 & Hs & E0 & B0 & P0) Hf. destruct c as [d [p|]]; [exists s0; destruct p; exact (conj Hs (conj E0 (conj B0 P0)))|]. cbn [fst snd] in *.
  cbn [Job_Model.step]. cbn [pinv] in P0. destruct P0 as [D0 FL].
  assert (X : exists s1, fresh s1 /\ EF s1 d /\ (ef d = [] -> s1 = f) /\ DF s1 0 d /\
             (nodec d \/ (full s1 d /\ N <> 0%nat))).
  { destruct (ef d) as [|e l] eqn:EE.
    - exists f. split; [exact Hf|]. split; [intros n x I; rewrite EE in I; easy|]. split; [reflexivity|].
      destruct FL as [[F1 F2]|[[F1|(s & F1 & F2)] F3]]; [|easy|rewrite EE in F2; easy].
      split; [intros n x I; rewrite F1 in I; easy|]. left. split; assumption.
    - exists s0. split; [exact Hs|]. split; [exact E0|]. split; [discriminate|]. split; assumption. }
  clear s0 Hs E0 D0 FL. destruct X as (s0 & Hs & E0 & HE & D0 & FL).
  destruct (start_spec s0 d f Hs Hf E0 HE) as (k & s & S1 & S2 & S3 & S4 & S5). rewrite S1.
  exists s0. cbn [fst snd]. split; [exact Hs|]. split; [exact E0|]. split; [exact B0|]. cbn [pinv].
  split; [reflexivity|]. split; [exact S2|]. split; [exact S3|]. split; [exact D0|].
  destruct (Nat.eq_dec k N) as [->|NK].
  - right. split; [|split; [reflexivity | destruct FL; tauto]].
    destruct S5 as [Z0|(x & I)]; [left; exact Z0|]. right.
    destruct (E0 _ _ I) as (j & s' & Hj & En & -> & A). apply fmt_inj in En; [|apply name_range; lia..].
    assert (j = N) by nia. subst j. exists s'. auto.
  - left. split; [|lia]. destruct FL as [FL|[[F1|(s' & F1 & F2)] F3]]; [exact FL | easy |].
    specialize (S4 _ _ F2 ltac:(lia)). lia.
Qed.

Lemma pinv_crash s0 d p : pinv s0 d (Some p) -> pinv s0 d None.
Proof.
  destruct p as [n s pos|n s pos|s|s|s|s|s|e]; cbn [pinv]; intro H.
  - destruct H as (_ & _ & _ & D & [(X & _)|(X & _ & Y)]); split; auto. destruct Y; auto.
  - destruct H as (_ & _ & _ & X). split; [|now left]. destruct X as [X _]. intros n' x' I. rewrite X in I. easy.
  - destruct H as (_ & X & D & Y & _). split; [exact D|]. destruct Y; auto.
  - destruct H as (k & _ & _ & X & D & _ & Y & _). split; [|destruct Y; auto].
    intros n' x' I. destruct (D _ _ I) as (j & t & Hj & R). exists j, t. split; [lia | exact R].
  - destruct H as (k & Hk & _ & X & D & _). split; [|right; split; [exact X | lia]].
    intros n' x' I. destruct (D _ _ I) as (j & t & Hj & R). exists j, t. split; [lia | exact R].
  - destruct H as (_ & X & D & _ & Y & _). split; [exact D|]. destruct Y; auto.
  - destruct H as (X & D & Y & _). split; [exact D|]. destruct Y; auto.
  - easy.
Qed.

Definition rank (p : proc) : nat :=
  match p with
  | Job_Model.PEnc _ _ s _ => 2 * N + 4 + 2 * (N - Z.to_nat (count s))
  | Job_Model.PSave _ _ s _ => 2 * N + 5 + 2 * (N - Z.to_nat (count s))
  | Job_Model.PFind _ _ => 2 * N + 3
  | Job_Model.PDec _ s => 2 + 2 * Z.to_nat (count s)
  | Job_Model.PDSave _ s => 3 + 2 * Z.to_nat (count s)
  | Job_Model.PCmp _ _ => 1
  | Job_Model.PDone _ _ => 0
  | Job_Model.PFail _ _ => 0
  end.

Lemma written_write d k b : written d (S k) -> b = batches k ->
  forall e1 e2, written (mk_disk F B e1 e2 (write_batch B (Z.of_nat k) (Some b) (bf d))) k.
Proof.
  intros W -> e1 e2 i Hi. cbn [batch_files]. apply in_write_batch.
  destruct (Nat.eq_dec i k) as [->|NE]; [now left|]. right. split; [lia|]. apply W. lia.
Qed.
Lemma BF_write d k x : BF d -> (k < N)%nat -> x = None \/ x = Some (batches k) ->
  forall e1 e2, BF (mk_disk F B e1 e2 (write_batch B (Z.of_nat k) x (bf d))).
Proof.
  intros [B1 B2] Hk Hx e1 e2. split; cbn [batch_files]; [now apply write_batch_nodup|].
  intros i y I. apply in_write_batch in I. destruct I as [[-> ->]|[_ I]]; [|now apply B2]. exists k. auto.
Qed.
Lemma DF_write_batch s0 k d x : DF s0 (S k) d -> 
  DF s0 (S k) (mk_disk F B (ef d) (df d) (write_batch B (Z.of_nat k) x (bf d))).
Proof.
  intros D n y I. destruct (D n y I) as (j & s & Hj & En & Ey & A & W). exists j, s.
  repeat (split; [assumption|]). intros i Hi. cbn [batch_files]. apply in_write_batch. right. split; [lia|]. now apply W.
Qed.
Lemma DF_weak s0 a b d : (a <= b)%nat -> DF s0 b d -> DF s0 a d.
Proof.
  intros H D n x I. destruct (D n x I) as (j & s & Hj & R). exists j, s. split; [lia | exact R].
Qed.

(** One operation keeps the invariant and gets the process nearer to its end. *)
Lemma inv_tick d p : inv (d, Some p) -> inv (step (d, Some p) (Tick St)) /\
  ((exists s, p = PDone s) \/ match snd (step (d, Some p) (Tick St)) with Some p' => (rank p' < rank p)%nat | None => False end).
Proof.
  intros (s0 & Hs & E0 & B0 & P0). cbn [fst snd] in *.
  destruct p as [n s pos|n s pos|s|s|s|s|s|e]; cbn [Job_Model.step Job_Model.tick]; cbn [pinv] in P0.
  - (* PEnc *)
    destruct P0 as (-> & Hp & A & D & FL). rewrite (at_count _ _ _ A).
    destruct (Z.ltb_spec (bsz * Z.of_nat pos * world) num) as [L|L].
    + apply needed in L. destruct FL as [[ND _]|(_ & X & _)]; [|lia].
      destruct (at_enc _ _ _ Hs A) as (s' & E1 & A1). rewrite E1.
      pose proof (at_count _ _ _ A1) as C1. pose proof (at_count _ _ _ A) as C0.
      destruct ((num <=? bsz * count s' * world) || ((bsz * count s') mod interval <? bsz)) eqn:SV.
      * split; [|right; cbn [snd rank]; rewrite C1, C0; lia]. exists s0. cbn [fst snd pinv].
        repeat (split; [assumption|]). split; [reflexivity|]. split; [lia|]. split; assumption.
      * split; [|right; cbn [snd rank]; rewrite C1, C0; lia]. exists s0. cbn [fst snd pinv].
        repeat (split; [assumption|]). split; [reflexivity|]. split; [lia|]. split; [assumption|].
        split; [exact D|]. left. split; [exact ND|]. apply needed. rewrite C1 in SV.
        apply orb_false_iff in SV. destruct SV as [SV _]. apply Z.leb_gt in SV. exact SV.
    + assert (pos = N).
      { destruct (Nat.lt_ge_cases pos N) as [X|X]; [apply needed in X; lia | lia]. }
      subst pos. destruct FL as [[_ X]|(FL & _ & Y)]; [lia|]. destruct check eqn:CK.
      * split; [|right; cbn [snd rank]; lia]. exists s0. cbn [fst snd pinv]. repeat (split; [assumption|]). exact CK.
      * split; [|right; cbn [snd rank]; lia]. exists s0. cbn [fst snd pinv]. repeat (split; [assumption|]).
        rewrite CK. exact A.
  - (* PSave *)
    destruct P0 as (-> & Hp & A & ND). pose proof (at_count _ _ _ A) as C0. rewrite C0.
    split; [|right; cbn [snd rank]; rewrite C0; lia]. exists s0. cbn [fst snd]. split; [exact Hs|]. split.
    { intros n x I. cbn [enc_files] in I. apply in_write in I. destruct I as [[-> ->]|[_ I]]; [|now apply E0].
      exists pos, s. auto. }
    split; [exact B0|]. cbn [pinv]. split; [reflexivity|]. split; [lia|]. split; [exact A|].
    destruct ND as [N1 N2]. split; [intros n x I; cbn [dec_files] in I; rewrite N1 in I; easy|].
    destruct (Nat.eq_dec pos N) as [->|NE].
    + right. split; [|split; [reflexivity | left; split; assumption]]. right. exists s. split; [exact A|].
      cbn [enc_files]. apply in_write. now left.
    + left. split; [split; assumption | lia].
  - (* PFind *)
    destruct P0 as (A & FL & D & Y & CK).
    destruct (latest_spec (df d) (DF_parse s0 0 d CK D)) as [[A1 A2]|(n & x & k & A1 & A2 & A3 & A4)].
    + rewrite A2. cbn [bind resume]. split; [|right; cbn [snd rank]; rewrite (at_count _ _ _ A); lia].
      exists s0. cbn [fst snd pinv]. repeat (split; [assumption|]). exists N.
      split; [lia|]. repeat (split; [assumption|]).
      split; [intros n x I; rewrite A1 in I; easy|]. split; [intros i Hi; lia|]. auto.
    + rewrite A3. cbn [bind]. destruct (D n x A1) as (j & t & Hj & En & -> & At & W). cbn [resume].
      pose proof (at_load _ _ _ s At) as AL.
      split; [|right; cbn [snd rank]; rewrite (at_count _ _ _ AL); lia].
      exists s0. cbn [fst snd pinv]. repeat (split; [assumption|]). exists j.
      split; [lia|]. split; [exact AL|]. split; [exact FL|]. split.
      * intros n' x' I. destruct (D n' x' I) as (j' & t' & Hj' & En' & R). exists j', t'.
        split; [|split; [exact En' | exact R]]. split; [|lia].
        rewrite En, (parse_fmt _ (name_range' j CK ltac:(lia))) in A2. injection A2 as <-.
        pose proof (A4 n' x' _ I (eq_trans (f_equal parse6 En') (parse_fmt _ (name_range' j' CK ltac:(lia))))) as Q.
        assert (Z.of_nat j <= Z.of_nat j') by nia. lia.
      * split; [exact W|]. split; [exact Y | exact CK].
  - (* PDec *)
    destruct P0 as (k & Hk & A & FL & D & W & Y & CK). pose proof (at_count _ _ _ A) as C0. rewrite C0.
    destruct k as [|k].
    + cbn [Z.of_nat]. rewrite Z.ltb_irrefl. split; [|right; cbn [snd rank]; lia].
      exists s0. cbn [fst snd pinv]. repeat (split; [assumption|]). exact CK.
    + rewrite (proj2 (Z.ltb_lt _ _)) by lia. destruct (at_dec _ _ _ Hs A) as (s' & E1 & A1). rewrite E1.
      pose proof (at_count _ _ _ A1) as C1. rewrite C1.
      set (d' := mk_disk F B (ef d) (df d) (write_batch B (Z.of_nat k) (Some (batches k)) (bf d))).
      assert (W' : written d' k) by (apply written_write; [exact W | reflexivity]).
      assert (D' : DF s0 k d') by (apply (DF_weak s0 k (S k)); [lia | apply DF_write_batch; exact D]).
      assert (BB : BF d') by (apply BF_write; [exact B0 | lia | now right]).
      assert (FL' : full s0 d') by exact FL.
      destruct ((bsz * Z.of_nat k) mod interval <? bsz).
      * split; [|right; cbn [snd rank]; rewrite C1, C0; lia]. exists s0. cbn [fst snd pinv].
        split; [exact Hs|]. split; [exact E0|]. split; [exact BB|]. exists k.
        split; [lia|]. repeat (split; [assumption|]). exact CK.
      * split; [|right; cbn [snd rank]; rewrite C1, C0; lia]. exists s0. cbn [fst snd pinv].
        split; [exact Hs|]. split; [exact E0|]. split; [exact BB|]. exists k.
        split; [lia|]. repeat (split; [assumption|]). split; [right; lia | exact CK].
  - (* PDSave *)
    destruct P0 as (k & Hk & A & FL & D & W & CK). pose proof (at_count _ _ _ A) as C0. rewrite C0.
    split; [|right; cbn [snd rank]; rewrite C0; lia]. exists s0. cbn [fst snd pinv].
    split; [exact Hs|]. split; [exact E0|]. split; [exact B0|]. exists k.
    split; [lia|]. split; [exact A|]. split; [exact FL|]. split.
    + intros n x I. cbn [dec_files] in I. apply in_write in I. destruct I as [[-> ->]|[_ I]].
      * exists k, s. split; [lia|]. repeat (split; [reflexivity|]). split; [exact A | exact W].
      * exact (D n x I).
    + split; [exact W|]. split; [right; lia | exact CK].
  - (* PCmp *)
    destruct P0 as (A & FL & D & W & Y & CK).
    assert (CO : compare 0 (sort (bf d)) = Ok tt).
    { destruct B0 as [B1 B2]. pose proof (sort_perm (bf d)) as SP.
      apply (compare_ok N).
      - apply keys_seq.
        + apply sort_sorted.
        + eapply Permutation_NoDup; [apply Permutation_map, Permutation_sym, SP | exact B1].
        + intro x. split.
          * intro I. apply (Permutation_in _ (Permutation_map fst SP)) in I. apply in_map_iff in I.
            destruct I as ([i y] & <- & I). destruct (B2 i y I) as (j & Hj & -> & _). cbn [fst]. lia.
          * intro I. apply (Permutation_in _ (Permutation_sym (Permutation_map fst SP))). apply in_map_iff.
            exists (Z.of_nat (Z.to_nat x), Some (batches (Z.to_nat x))). split; [cbn [fst]; lia|]. apply W. lia.
      - intros k x I. apply (Permutation_in _ SP) in I. destruct (B2 k x I) as (j & Hj & -> & Hx).
        rewrite Nat2Z.id. pose proof (W j ltac:(lia)) as I'.
        assert (U : forall (l : list (Z * option B)), NoDup (map fst l) -> forall i a b, In (i, a) l -> In (i, b) l -> a = b).
        { clear. induction l as [|[i0 x0] l IH]; intros ND i a b Ia Ib; [easy|].
          cbn [map fst] in ND. inversion ND as [|? ? N1 N2]; subst.
          destruct Ia as [Ea|Ia], Ib as [Eb|Ib].
          - congruence.
          - injection Ea as -> ->. exfalso. apply N1. apply in_map_iff. exists (i, b). auto.
          - injection Eb as -> ->. exfalso. apply N1. apply in_map_iff. exists (i, a). auto.
          - eapply IH; eassumption. }
        exact (U _ B1 _ _ _ I I'). }
    rewrite CO. split; [|right; cbn [snd rank]; lia]. exists s0. cbn [fst snd pinv].
    repeat (split; [assumption|]). rewrite CK. split; [exact A | exact W].
  - (* PDone *) split; [|left; eexists; reflexivity]. exists s0. cbn [fst snd]. auto.
  - easy.
Qed.

Lemma inv_step c e : inv c -> same_job num fresh e -> inv (step c e).
Proof.
  intros I SJ. destruct e as [n f| | | |]; cbn [same_job] in SJ; [destruct SJ as [-> SJ]; now apply inv_start| | | |easy].
  - destruct c as [d [p|]]; [|exact I]. apply inv_tick. exact I.
  - destruct c as [d [p|]]; [|exact I]. destruct I as (s0 & Hs & E0 & B0 & P0). exists s0.
    cbn [fst snd] in *.
    assert (X : step (d, Some p) (Crash St) = (d, None)) by (destruct p; reflexivity). rewrite X.
    cbn [fst snd]. repeat (split; [assumption|]). apply (pinv_crash s0 d p). exact P0.
  - destruct c as [d [p|]]; [|exact I]. destruct I as (s0 & Hs & E0 & B0 & P0). exists s0. cbn [fst snd] in *.
    assert (Z0 : step (d, Some p) (CrashBatch St) = (d, None) \/ exists s, p = PDec s) by (destruct p; eauto).
    destruct Z0 as [X|(s & ->)].
    + rewrite X. cbn [fst snd]. repeat (split; [assumption|]). apply (pinv_crash s0 d p). exact P0.
    + pose proof (pinv_crash s0 d _ P0) as PC. cbn [Job_Model.step]. cbn [pinv] in P0.
      destruct P0 as (k & Hk & A & FL & D & W & Y & CK). pose proof (at_count _ _ _ A) as C0. rewrite C0.
      destruct k as [|k].
      * cbn [Z.of_nat]. rewrite Z.ltb_irrefl. destruct (dec s) as [[? ?]|]; cbn [fst snd]; auto.
      * rewrite (proj2 (Z.ltb_lt _ _)) by lia. destruct (at_dec _ _ _ Hs A) as (s' & E1 & A1). rewrite E1.
        rewrite (at_count _ _ _ A1). cbn [fst snd]. split; [exact Hs|]. split; [exact E0|].
        split; [apply BF_write; [exact B0 | lia | now left]|]. cbn [pinv]. split.
        -- apply (DF_weak s0 0 (S k)); [lia|]. apply DF_write_batch. exact D.
        -- right. split; [exact FL | lia].
Qed.

Lemma inv_run : forall es c, inv c -> Forall (same_job num fresh) es -> inv (run c es).
Proof.
  induction es as [|e es IH]; intros c I FA; [exact I|]. inversion FA as [|? ? SJ FA']; subst.
  cbn [Job_Model.run fold_left]. apply IH; [|exact FA']. now apply inv_step.
Qed.

Lemma completes : forall r d p, inv (d, Some p) -> (rank p <= r)%nat ->
  exists n d' s, run (d, Some p) (repeat (Tick St) n) = (d', Some (PDone s)).
Proof.
  induction r as [|r IH]; intros d p I R.
  - destruct (inv_tick d p I) as [_ [(s & ->)|X]]; [exists 0%nat, d, s; reflexivity|].
    destruct (snd (step (d, Some p) (Tick St))); [lia | easy].
  - destruct (inv_tick d p I) as [I' [(s & ->)|X]]; [exists 0%nat, d, s; reflexivity|].
    destruct (step (d, Some p) (Tick St)) as [d1 [p1|]] eqn:E; cbn [snd] in X; [|easy].
    destruct (IH d1 p1 I' ltac:(lia)) as (n & d' & s & Q). exists (S n), d', s.
    cbn [repeat Job_Model.run fold_left]. rewrite E. exact Q.
Qed.
End P.

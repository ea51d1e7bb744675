(** Property theorems for the encode job and its checkpoints (C24).  The model is
    Job_Model, the vocabulary Job_Spec.  Job_Diff shows that the diffusion codec meets
    what is asked of the codec. *)
From Coq Require Import ZArith List Bool Lia Permutation.
From Verif Require Import Base Job_Model Job_Spec Job_Names Job_Proofs.
Import ListNotations.
Open Scope Z_scope.

(** A checkpoint's name gives its progress back, up to six characters. *)
Theorem job_name_round_trip n : - 10 ^ 5 < n < 10 ^ 6 -> parse6 (fmt06 n) = Ok n.
Proof. apply parse_fmt. Qed.
Print Assumptions job_name_round_trip.

Section Job.
Context {St F B O : Type}.
Variable enc : St -> B -> res St.
Variable dec : St -> res (St * B).
Variable count : St -> Z.
Variable save : St -> F.
Variable load : St -> F -> St.
Variable batches : nat -> B.
Variable eqB : B -> B -> bool.
Variables (bsz world interval : Z).
Variable check : bool.
Variable listing : list (list ch * file F) -> list (list ch * file F).
Variable obs : St -> O.
Variable fresh : St -> Prop.
Variable num : Z.
Notation run := (run St F B enc dec count save load batches eqB bsz world interval check listing).
Notation empty_dir := (empty_dir St F B).
Notation N := (batches_needed num bsz world).
Notation uninterrupted := (uninterrupted enc batches).

(** Files are listed in any order; the sizes fit the six characters of the names. *)
Definition job_setup : Prop :=
  (forall l, Permutation (listing l) l) /\ (forall b, eqB b b = true) /\
  1 <= bsz /\ 1 <= world /\ 1 <= interval /\
  bsz * Z.of_nat N < 10 ^ 6 /\ (check = true -> bsz * Z.of_nat N <= 10 ^ 5) /\
  good_codec enc dec count save load batches obs fresh /\ (exists s, fresh s).

Definition at_ (s0 : St) (k : nat) (s : St) : Prop :=
  exists sk, uninterrupted s0 k = Ok sk /\ obs s = obs sk.

Section Laws.
Hypothesis G : good_codec enc dec count save load batches obs fresh.
Lemma count_run s0 : fresh s0 -> forall k s, uninterrupted s0 k = Ok s -> count s = Z.of_nat k.
Proof.
  destruct G as (G1 & G2 & G3 & G4 & G5 & G6). intros Hf. induction k as [|k IH]; intros s E; cbn in E.
  - injection E as <-. now apply G1.
  - destruct (uninterrupted s0 k) as [t|] eqn:E1; [|discriminate]. cbn [bind] in E.
    destruct (G6 s0 k t Hf E1) as (s' & A & C & _). rewrite (IH t eq_refl) in C.
    assert (s' = s) by congruence. subst. lia.
Qed.
Lemma at_count' s0 k s : fresh s0 -> at_ s0 k s -> count s = Z.of_nat k.
Proof.
  intros Hf (sk & E & Q). destruct G as (_ & G2 & _). rewrite (G2 _ _ Q). now apply (count_run s0).
Qed.
Lemma at_enc' s0 k s : fresh s0 -> at_ s0 k s -> exists s', enc s (batches k) = Ok s' /\ at_ s0 (S k) s'.
Proof.
  intros Hf (sk & E & Q). destruct G as (_ & _ & G3 & _ & _ & G6).
  destruct (G6 s0 k sk Hf E) as (s' & A & _). destruct (G3 sk s (batches k) s' (eq_sym Q) A) as (t & T1 & T2).
  exists t. split; [exact T1|]. exists s'. cbn. rewrite E. auto.
Qed.
Lemma at_dec' s0 k s : fresh s0 -> at_ s0 (S k) s -> exists s', dec s = Ok (s', batches k) /\ at_ s0 k s'.
Proof.
  intros Hf (sk & E & Q). cbn in E. destruct (uninterrupted s0 k) as [t|] eqn:E1; [|discriminate].
  cbn [bind] in E. destruct G as (_ & _ & _ & G4 & _ & G6).
  destruct (G6 s0 k t Hf E1) as (s' & A & _ & t' & D1 & D2). assert (s' = sk) by congruence. subst s'.
  destruct (G4 sk s t' (batches k) (eq_sym Q) D1) as (u & U1 & U2). exists u. split; [exact U1|].
  exists t. split; [exact E1 | congruence].
Qed.
Lemma at_load' s0 k s s1 : at_ s0 k s -> at_ s0 k (load s1 (save s)).
Proof.
  intros (sk & E & Q). destruct G as (_ & _ & _ & _ & G5 & _). exists sk. split; [exact E|]. rewrite G5. exact Q.
Qed.
End Laws.

Definition atf (s0 : St) (k : nat) (s : St) : Prop := fresh s0 /\ at_ s0 k s.

Lemma job_inv : job_setup -> forall es, Forall (same_job num fresh) es ->
  inv save batches bsz world check atf fresh num (run empty_dir es).
Proof.
  intros (L & EQ & B1 & W1 & I1 & S1 & S2 & G & (f & Hf)) es FA.
  apply (inv_run enc dec count save load batches eqB bsz world interval check listing L EQ B1 W1 atf fresh).
  - intros s0 H. split; [exact H|]. exists s0. split; reflexivity.
  - intros s0 k s [H A]. now apply (at_count' G s0).
  - intros s0 k s H [_ A]. destruct (at_enc' G s0 k s H A) as (s' & E & A'). exists s'. split; [exact E | now split].
  - intros s0 k s H [_ A]. destruct (at_dec' G s0 k s H A) as (s' & E & A'). exists s'. split; [exact E | now split].
  - intros s0 k s s1 [H A]. split; [exact H | now apply (at_load' G)].
  - exact S1.
  - exact S2.
  - now apply (inv_empty save batches bsz world check atf fresh num f).
  - exact FA.
Qed.

(** Whatever the crashes between operations or while a batch file is written, and
    however often the job is started again: no process dies; every checkpoint is a
    state of one uninterrupted run; a process that finishes has left the checkpoint
    of the whole run and, with [check], every decoded batch, and its codec is back
    at the initial message. *)
Theorem job_crash_safe : job_setup -> forall es d p, Forall (same_job num fresh) es ->
  run empty_dir es = (d, p) ->
  (forall e, p <> Some (PFail St e)) /\
  exists s0, fresh s0 /\
  (forall n x, In (n, x) (enc_files F B d) -> exists k s sk, (1 <= k <= N)%nat /\
     n = fmt06 (bsz * Z.of_nat k) /\ x = Whole F (save s) /\ uninterrupted s0 k = Ok sk /\ obs s = obs sk) /\
  (forall s, p = Some (PDone St s) -> exists sN, uninterrupted s0 N = Ok sN /\
     (N = 0%nat \/ exists t, obs t = obs sN /\ In (fmt06 (bsz * Z.of_nat N), Whole F (save t)) (enc_files F B d)) /\
     (check = false -> obs s = obs sN) /\
     (check = true -> obs s = obs s0 /\
        forall i, (i < N)%nat -> In (Z.of_nat i, Some (batches i)) (batch_files F B d))).
Proof.
  intros HJ es d p FA E. pose proof (job_inv HJ es FA) as I. rewrite E in I.
  destruct I as (s0 & Hs & E0 & B0 & P0). cbn [fst snd] in *. split.
  { intros e ->. exact P0. }
  exists s0. split; [exact Hs|]. split.
  - intros n x H. destruct (E0 n x H) as (k & s & Hk & En & Ex & _ & sk & A & Q). exists k, s, sk. auto.
  - intros s ->. cbn [pinv] in P0. destruct P0 as (FL & _ & _ & P0).
    assert (X : exists sN, uninterrupted s0 N = Ok sN).
    { destruct FL as [->|(t & (_ & sN & A & _) & _)]; [exists s0; reflexivity | eauto]. }
    destruct X as (sN & A). exists sN. split; [exact A|]. split.
    + destruct FL as [FL|(t & (_ & sN' & A' & Q) & I)]; [now left | right]. exists t. split; [congruence | exact I].
    + destruct check.
      * destruct P0 as [(_ & s0' & A0 & Q) W]. cbn in A0. injection A0 as <-. split; [discriminate|].
        intros _. split; [exact Q|]. intros i Hi. apply W. lia.
      * destruct P0 as (_ & sN' & A' & Q). split; [intros _; congruence | discriminate].
Qed.

(** After any such history a new process takes up the most advanced checkpoint: no
    saved progress is lost, and the next batch it encodes is the one after. *)
Theorem job_resumes_latest : job_setup -> forall es d f, Forall (same_job num fresh) es -> fresh f ->
  run empty_dir es = (d, None) ->
  exists s0 k s sk, fresh s0 /\ run empty_dir (es ++ [Start St num f]) = (d, Some (PEnc St num s k)) /\
    uninterrupted s0 k = Ok sk /\ obs s = obs sk /\
    (forall j x, (j <= N)%nat -> In (fmt06 (bsz * Z.of_nat j), x) (enc_files F B d) -> (j <= k)%nat) /\
    (k = 0%nat \/ exists x, In (fmt06 (bsz * Z.of_nat k), x) (enc_files F B d)).
Proof.
  intros HJ es d f FA Hf E. pose proof (job_inv HJ es FA) as I. rewrite E in I.
  destruct I as (s0 & Hs & E0 & B0 & P0). cbn [fst snd] in *.
  destruct HJ as (L & EQ & B1 & W1 & I1 & S1 & S2 & G & _).
  assert (X : exists s1, fresh s1 /\ EF save bsz world atf num s1 d /\ (enc_files F B d = [] -> s1 = f)).
  { destruct (enc_files F B d) as [|e l] eqn:EE.
    - exists f. split; [exact Hf|]. split; [intros n x I; rewrite EE in I; easy | reflexivity].
    - exists s0. split; [exact Hs|]. split; [exact E0 | discriminate]. }
  destruct X as (s1 & H1 & E1 & HE).
  destruct (@start_spec St F B count save load bsz world listing L B1 atf fresh) with (num := num) (s0 := s1) (d := d) (f := f)
    as (k & s & A1 & A2 & (_ & sk & A3 & A4) & A5 & A6); try assumption.
  - intros t H. split; [exact H|]. exists t. split; reflexivity.
  - intros t j s [H A]. now apply (at_count' G t).
  - intros t j s u [H A]. split; [exact H | now apply (at_load' G)].
  - exists s1, k, s, sk. split; [exact H1|]. split.
    + unfold Job_Model.run. rewrite fold_left_app. change (fold_left _ es _) with (run empty_dir es). rewrite E.
      cbn [fold_left step]. rewrite A1. reflexivity.
    + split; [exact A3|]. split; [exact A4|]. split; [|exact A6]. intros j x Hj I. exact (A5 j x I Hj).
Qed.

(** Left alone, a process finishes, from every reachable situation. *)
Theorem job_finishes : job_setup -> forall es d p, Forall (same_job num fresh) es ->
  run empty_dir es = (d, Some p) ->
  exists n d' s, run empty_dir (es ++ repeat (Tick St) n) = (d', Some (PDone St s)).
Proof.
  intros HJ es d p FA E. pose proof (job_inv HJ es FA) as I. rewrite E in I.
  destruct HJ as (L & EQ & B1 & W1 & I1 & S1 & S2 & G & _).
  destruct (completes enc dec count save load batches eqB bsz world interval check listing L EQ B1 W1 atf fresh)
    with (num := num) (r := rank count bsz world num p) (d := d) (p := p) as (n & d' & s & Q); try assumption.
  - intros t j s [H A]. now apply (at_count' G t).
  - intros t j s H [_ A]. destruct (at_enc' G t j s H A) as (s' & E' & A'). exists s'. split; [exact E' | now split].
  - intros t j s H [_ A]. destruct (at_dec' G t j s H A) as (s' & E' & A'). exists s'. split; [exact E' | now split].
  - intros t j s u [H A]. split; [exact H | now apply (at_load' G)].
  - lia.
  - exists n, d', s. unfold Job_Model.run in *. rewrite fold_left_app, E. exact Q.
Qed.
End Job.
Print Assumptions job_crash_safe.
Print Assumptions job_resumes_latest.
Print Assumptions job_finishes.

(** ** A concrete job: a stack of numbers, batches 0, 1, 2, ... of [bsz] samples *)
Definition x_enc (s : list Z) (b : Z) : res (list Z) := Ok (b :: s).
Definition x_dec (s : list Z) : res (list Z * Z) := match s with [] => Raise IndexError | b :: s' => Ok (s', b) end.
Definition x_count (s : list Z) : Z := Z.of_nat (length s).
Definition x_run (bsz interval : Z) (check : bool) :=
  run (list Z) (list Z) Z x_enc x_dec x_count (fun s => s) (fun _ f => f) Z.of_nat Z.eqb bsz 1 interval check (fun l => l).
Notation x_empty := (empty_dir (list Z) (list Z) Z).
Notation x_start n := (Start (list Z) n []).
Notation x_tick := (Tick (list Z)).

Lemma x_good : good_codec x_enc x_dec x_count (fun s => s) (fun _ f => f) Z.of_nat (fun s => s) (fun s => s = []).
Proof.
  split; [now intros s ->|]. split; [now intros s s' ->|]. split; [|split; [|split; [reflexivity|]]].
  - intros s s' b t -> E. exists t. auto.
  - intros s s' t b -> E. exists t. auto.
  - intros s0 k s _ _. eexists. split; [reflexivity|]. split; [unfold x_count; cbn [length]; lia|].
    exists s. split; reflexivity.
Qed.
Example x_setup : job_setup x_enc x_dec x_count (fun s => s) (fun _ f => f) Z.of_nat Z.eqb 4 1 8 true (fun l => l)
  (fun s => s) (fun s => s = []) 19.
Proof.
  split; [intro; apply Permutation_refl|]. split; [apply Z.eqb_refl|]. do 3 (split; [lia|]).
  split; [vm_compute; reflexivity|]. split; [vm_compute; discriminate|]. split; [apply x_good | now exists []].
Qed.
(** Killed after three batches, again while it writes a decoded batch, then finished. *)
Example x_history :
  let es := x_start 19 :: repeat x_tick 5 ++ Crash _ :: x_start 19 :: repeat x_tick 9 ++ [CrashBatch _; x_start 19] in
  Forall (same_job 19 (fun s => s = [])) es /\
  snd (x_run 4 8 true x_empty (es ++ repeat x_tick 20)) = Some (PDone _ []) /\
  snd (x_run 4 8 true x_empty es) = Some (PEnc _ 19 [4; 3; 2; 1; 0] 5%nat).
Proof. vm_compute. repeat (constructor || easy). Qed.

(** ** What fails *)

(** From a million samples on the names no longer order the checkpoints: with the
    checkpoints of 500000 and 1000000 samples the older one is taken up. *)
Theorem job_long_run_refuted :
  exists es d s, Forall (same_job 1500000 (fun s => s = [])) es /\
    In (fmt06 1000000, Whole (list Z) [1; 0]) (enc_files _ _ d) /\
    x_run 500000 1 false x_empty es = (d, None) /\
    x_run 500000 1 false x_empty (es ++ [x_start 1500000]) = (d, Some (PEnc _ 1500000 s 1%nat)).
Proof.
  exists (x_start 1500000 :: repeat x_tick 4 ++ [Crash _]). do 2 eexists.
  split; [repeat (constructor || easy)|]. split; [|split; vm_compute; reflexivity]. vm_compute. now left.
Qed.

(** A decode checkpoint with at least 100000 samples left loses the sign of its
    name, so a later checkpoint is passed over for it. *)
Theorem job_long_decode_refuted :
  exists es d, Forall (same_job 150000 (fun s => s = [])) es /\
    x_run 50000 1 true x_empty es = (d, Some (PFind _ [2; 1; 0])) /\
    In (fmt06 (-50000), Whole (list Z) [0]) (dec_files _ _ d) /\
    snd (x_run 50000 1 true x_empty (es ++ [x_tick])) = Some (PDec _ [1; 0]).
Proof.
  exists (x_start 150000 :: repeat x_tick 12 ++ [Crash _; x_start 150000; x_tick]). eexists.
  split; [repeat (constructor || easy)|]. split; [vm_compute; reflexivity|].
  split; [vm_compute; now left | vm_compute; reflexivity].
Qed.

(** Checkpoints are written in place: after a crash while one is written, every
    later process dies on it. *)
Theorem job_torn_checkpoint_refuted :
  exists es d, x_run 4 8 true x_empty es = (d, None) /\ (exists s n, In (n, Whole _ s) (enc_files _ _ d)) /\
  forall n s, exists e, x_run 4 8 true (d, None) [Start _ n s] = (d, Some (PFail _ e)).
Proof.
  exists (x_start 19 :: repeat x_tick 5 ++ [CrashCkpt _]). eexists.
  split; [vm_compute; reflexivity|]. split; [do 2 eexists; vm_compute; right; left; reflexivity|].
  intros n s. eexists. reflexivity.
Qed.

(** Started again in the same directory for more samples, the job reports success
    although the new batches were never decoded: the decode checkpoint of the first
    run has most progress. *)
Theorem job_extended_check_refuted :
  exists es d s, Forall (fun e => e <> CrashCkpt _) es /\
    x_run 4 8 true x_empty es = (d, Some (PDone _ s)) /\
    In (x_start 16) es /\ (2 < batches_needed 16 4 1)%nat /\
    forall i x, 2 <= i -> ~ In (i, x) (batch_files _ _ d).
Proof.
  exists (x_start 8 :: repeat x_tick 12 ++ [Crash _; x_start 16] ++ repeat x_tick 12). do 2 eexists.
  split; [repeat constructor; discriminate|]. split; [vm_compute; reflexivity|].
  split; [repeat ((now left) || right)|]. split; [vm_compute; lia|].
  intros i x Hi I. vm_compute in I. destruct I as [I|[I|I]]; [injection I; lia..|easy].
Qed.
Print Assumptions job_long_run_refuted.
Print Assumptions job_long_decode_refuted.
Print Assumptions job_torn_checkpoint_refuted.
Print Assumptions job_extended_check_refuted.

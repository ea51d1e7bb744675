(** C23: timestep respacing (script_util.space_timesteps).  [fl] is the rounding of
    float64 operations; [b64] is IEEE binary64. *)
From Coq Require Import ZArith Reals List Sorted Lia Lra.
From Verif Require Import Base RBase RFloat Steps_Model Steps_Spec Steps_Proofs Steps_Float.
Import ListNotations.
Open Scope Z_scope.

(** A list of counts which fit in their sections: exactly the requested number of
    distinct steps, in every section and in total, all of the original process,
    with the first and last step of the sections. *)
Theorem C23_sections N counts : 0 <= N <= 2 ^ 24 -> counts <> [] ->
  let n := Z.of_nat (length counts) in
  (forall j, (j < length counts)%nat -> 0 <= nth j counts 0 <= section_size N n (Z.of_nat j)) ->
  exists l, space_timesteps b64 N (Sections counts) = Ok l /\
    StronglySorted Z.lt l /\ Forall (fun x => 0 <= x < N) l /\ set_size l = total counts /\
    (forall j, (j < length counts)%nat ->
       count_in (section_start N n (Z.of_nat j)) (section_start N n (Z.of_nat j + 1)) l
       = nth j counts 0) /\
    (forall j, (j < length counts)%nat -> 1 <= nth j counts 0 ->
       In (section_start N n (Z.of_nat j)) l) /\
    (forall j, (j < length counts)%nat -> 2 <= nth j counts 0 ->
       In (section_start N n (Z.of_nat j + 1) - 1) l).
Proof. intro H. apply sections_ok; [apply b64_good; exact H | lia]. Qed.

(** In particular the first step is kept when the first section is not empty. *)
Theorem C23_first_step N c counts l : 0 <= N <= 2 ^ 24 ->
  space_timesteps b64 N (Sections (c :: counts)) = Ok l -> Forall (fun x => 0 <= x) (c :: counts) ->
  1 <= c -> In 0 l.
Proof.
  intros HN H F Hc. set (n := Z.of_nat (length (c :: counts))).
  assert (Hn : 1 <= n) by (unfold n; cbn [length]; lia).
  assert (D : (forall j, (j < length (c :: counts))%nat ->
               nth j (c :: counts) 0 <= section_size N n (Z.of_nat j)) \/
              exists j, (j < length (c :: counts))%nat /\ section_size N n (Z.of_nat j) < nth j (c :: counts) 0).
  { assert (G : forall m, (forall j, (j < m)%nat -> nth j (c :: counts) 0 <= section_size N n (Z.of_nat j)) \/
      exists j, (j < m)%nat /\ section_size N n (Z.of_nat j) < nth j (c :: counts) 0); [|apply G].
    induction m as [|m IH]; [left; lia|].
    destruct IH as [IH|(j & Hj & B)]; [|right; exists j; split; [lia | exact B]].
    destruct (Z_le_gt_dec (nth m (c :: counts) 0) (section_size N n (Z.of_nat m))) as [L|G].
    - left. intros j Hj. destruct (Nat.eq_dec j m) as [->|]; [exact L | apply IH; lia].
    - right. exists m. split; [lia|lia]. }
  destruct D as [D|D].
  - destruct (sections_ok b64 N (c :: counts) (b64_good N HN) ltac:(lia) ltac:(easy)) as (l' & E & _ & _ & _ & _ & B & _).
    + intros j Hj. split; [|apply D; exact Hj]. apply Forall_nth; assumption.
    + rewrite H in E. injection E as <-. specialize (B 0%nat ltac:(cbn [length]; lia) Hc).
      rewrite section_start_0 in B by exact Hn. exact B.
  - rewrite (sections_bad b64 N (c :: counts)) in H; [easy | lia | easy | exact D].
Qed.

(** A count which does not fit is refused. *)
Theorem C23_sections_refused fl N counts : 0 <= N -> counts <> [] ->
  let n := Z.of_nat (length counts) in
  (exists j, (j < length counts)%nat /\ section_size N n (Z.of_nat j) < nth j counts 0) ->
  space_timesteps fl N (Sections counts) = Raise ValueError.
Proof. exact (sections_bad fl N counts). Qed.

(** vlbN: exactly N distinct steps, the first num_timesteps // N of them dense. *)
Theorem C23_vlb N d : N <= 2 ^ 24 -> 1 <= d <= N -> N / d < d ->
  exists l, space_timesteps b64 N (Vlb d) = Ok l /\
    set_size l = d /\ Forall (fun x => 0 <= x < N) l /\
    (forall x, 0 <= x < N / d -> In x l) /\ In (N - 1) l.
Proof. intros H Hd. apply vlb_ok; [apply b64_good; lia | exact Hd]. Qed.
Theorem C23_vlb_refused fl N d : 1 <= d -> 0 <= N -> d <= N / d \/ N < d ->
  space_timesteps fl N (Vlb d) = Raise ValueError.
Proof. intros Hd HN [H|H]; [now apply vlb_few | now apply vlb_many]. Qed.

(** ddimN: exactly N steps, the multiples of a stride; refused only when no stride
    below the number of timesteps gives N of them. *)
Theorem C23_ddim fl N d l : 1 <= N -> space_timesteps fl N (Ddim d) = Ok l ->
  set_size l = d /\ Forall (fun x => 0 <= x < N) l /\ In 0 l /\
  exists i, 1 <= i < N /\ forall x, In x l <-> (0 <= x < N /\ (i | x)).
Proof. exact (ddim_ok fl N d l). Qed.
Theorem C23_ddim_refused fl N d e : 1 <= N -> space_timesteps fl N (Ddim d) = Raise e ->
  e = ValueError /\
  forall i l, 1 <= i < N -> NoDup l -> (forall x, In x l <-> (0 <= x < N /\ (i | x))) ->
  Z.of_nat (length l) <> d.
Proof. exact (ddim_raises fl N d e). Qed.

(** Non-vacuity: the docstring's example, a process with unequal sections, vlb and
    ddim.  (One single step of a one-step process cannot be asked for by ddim1.) *)
Example C23_ex_sections : 0 <= 300 <= 2 ^ 24 /\
  (forall j, (j < 3)%nat -> 0 <= nth j [10; 15; 20] 0 <= section_size 300 3 (Z.of_nat j)) /\
  total [10; 15; 20] = 45.
Proof.
  split; [lia|]. split; [|reflexivity]. intros [|[|[|j]]] H; try lia; cbn; lia.
Qed.
Example C23_ex_unequal : (forall j, (j < 3)%nat -> 0 <= nth j [4; 1; 3] 0 <= section_size 10 3 (Z.of_nat j)).
Proof. intros [|[|[|j]]] H; try lia; cbn; lia. Qed.
Example C23_ex_refused : section_size 10 3 1 < nth 1 [4; 4; 3] 0.
Proof. reflexivity. Qed.
Example C23_ex_vlb : 1 <= 100 <= 1000 /\ 1000 / 100 < 100.
Proof. split; [lia | reflexivity]. Qed.
Example C23_ex_ddim fl : space_timesteps fl 10 (Ddim 4) = Ok [0; 3; 6; 9].
Proof. reflexivity. Qed.
Example C23_ex_ddim_refused fl : space_timesteps fl 10 (Ddim 6) = Raise ValueError.
Proof. reflexivity. Qed.
Example C23_ex_ddim1 fl : space_timesteps fl 1 (Ddim 1) = Raise ValueError.
Proof. reflexivity. Qed.

Print Assumptions C23_sections.
Print Assumptions C23_first_step.
Print Assumptions C23_sections_refused.
Print Assumptions C23_vlb.
Print Assumptions C23_vlb_refused.
Print Assumptions C23_ddim.
Print Assumptions C23_ddim_refused.

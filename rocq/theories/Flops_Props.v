(** C55: count_flops. *)
From Coq Require Import ZArith String List Bool Lia.
From Verif Require Import Base Flops_Model.
Import ListNotations.
Open Scope Z_scope.

Section Props.
Context {Payload : Type}.
Notation node := (@node Payload).
Notation handle := (@handle Payload).
Variable builtin : string -> option handle.
Variable ignored : string -> bool.
Let flops := @count_flops Payload builtin ignored.

(** * Specification *)
(** The handle an operator should get: the caller's if the caller gave one (None: no handle),
    otherwise one flop per output element for the listed operators, otherwise fvcore's. *)
(** The operators that count one flop for each output element, always or on request, and their
    in-place forms; the operators that are ignored. *)
Definition always_one : list string :=
  ["aten::abs"; "aten::add"; "aten::div"; "aten::mul"; "aten::neg"; "aten::rsub"; "aten::sign"; "aten::sub"]%string.
Definition one_on_request : list string :=
  ["aten::erfc"; "aten::exp"; "aten::log"; "aten::log10"; "aten::log2"; "aten::pow"; "aten::reciprocal"; "aten::rsqrt";
   "aten::sigmoid"; "aten::softplus"; "aten::sqrt"; "aten::tanh"; "aten::uniform"]%string.
Definition never_reported (kind : string) : bool :=
  String.eqb kind "aten::empty_like" || String.eqb kind "aten::numel" || ignored kind.
Definition listed (ops : list string) (kind : string) : Prop := In kind ops \/ exists n, In n ops /\ kind = append n "_".
Definition one_each (kind : string) : handle := fun n => [(kind, fold_right Z.mul 1 (n_out n))].
Definition rule (overrides : option (dict (option handle))) (estimates : bool) (kind : string) (h : option handle) : Prop :=
  match overrides with
  | Some o =>
      match lookup o kind with
      | Some x => h = x
      | None => (listed always_one kind \/ (estimates = true /\ listed one_on_request kind) -> h = Some (one_each kind)) /\
                (~ listed always_one kind -> (estimates = true -> ~ listed one_on_request kind) -> h = builtin kind)
      end
  | None => (listed always_one kind \/ (estimates = true /\ listed one_on_request kind) -> h = Some (one_each kind)) /\
            (~ listed always_one kind -> (estimates = true -> ~ listed one_on_request kind) -> h = builtin kind)
  end.

(** Value of a dictionary at a key, 0 if absent. *)
Definition value (d : dict Z) (k : string) : Z := match lookup d k with Some v => v | None => 0 end.
Definition sum_values (d : dict Z) : Z := fold_right Z.add 0 (map snd d).
(** Sum of the counts a handle reports under the name [k]. *)
Definition reported (d : dict Z) (k : string) : Z :=
  fold_right Z.add 0 (map (fun p => if String.eqb (fst p) k then snd p else 0) d).

(** * Dictionaries *)
Lemma lookup_app : forall A (d e : dict A) k, lookup (d ++ e) k = match lookup d k with Some a => Some a | None => lookup e k end.
Proof. intros A d e k. induction d as [|[n a] d IH]; [reflexivity|]. cbn. destruct (String.eqb n k); [reflexivity|exact IH]. Qed.
Lemma lookup_counters : forall ops k, (listed ops k -> lookup (@counters_of Payload ops) k = Some (Some (generic_activation k)))
  /\ (~ listed ops k -> lookup (@counters_of Payload ops) k = None).
Proof.
  intros ops k. unfold counters_of.
  assert (G : forall l, (In k l -> lookup (map (fun n => (n, Some (@generic_activation Payload n))) l) k = Some (Some (generic_activation k)))
            /\ (~ In k l -> lookup (map (fun n => (n, Some (@generic_activation Payload n))) l) k = None)).
  { induction l as [|x l [A B]]; cbn [map lookup In]; [split; [contradiction|reflexivity]|].
    destruct (String.eqb_spec x k) as [->|N]; split; intro H; try reflexivity; [tauto| |].
    - apply A. destruct H; [contradiction|assumption].
    - apply B. tauto. }
  destruct (G (ops ++ map (fun n => append n "_") ops)) as [A B].
  assert (E : In k (ops ++ map (fun n => append n "_") ops) <-> listed ops k).
  { rewrite in_app_iff, in_map_iff. unfold listed. split; (intros [H|[n [H1 H2]]]; [now left|right; exists n; split; auto]). }
  rewrite E in A, B. split; assumption.
Qed.
Lemma value_add : forall k v d k', value (count_add k v d) k' = value d k' + if String.eqb k k' then v else 0.
Proof.
  intros k v d k'. unfold value. induction d as [|[n a] d IH]; cbn.
  - destruct (String.eqb k k'); lia.
  - destruct (String.eqb_spec n k) as [->|N]; cbn.
    + destruct (String.eqb k k'); lia.
    + destruct (String.eqb_spec n k') as [->|N']; [|exact IH].
      destruct (String.eqb_spec k k'); [congruence|lia].
Qed.
Lemma sum_add : forall k v d, sum_values (count_add k v d) = sum_values d + v.
Proof.
  intros k v d. unfold sum_values. induction d as [|[n a] d IH]; cbn; [lia|].
  destruct (String.eqb n k); cbn; lia.
Qed.
Lemma value_all : forall e d k, value (count_all d e) k = value d k + reported e k.
Proof.
  unfold count_all, reported. induction e as [|[n a] e IH]; intros d k; cbn [fold_left map fold_right fst snd]; [lia|].
  rewrite IH, value_add. destruct (String.eqb n k); lia.
Qed.
Lemma sum_all : forall e d, sum_values (count_all d e) = sum_values d + sum_values e.
Proof.
  unfold count_all. induction e as [|[n a] e IH]; intro d; cbn [fold_left fst snd]; [cbn; lia|].
  rewrite IH, sum_add. unfold sum_values. cbn. lia.
Qed.

Lemma ops_eq : single_flop_ops = always_one /\ single_flop_estimates = one_on_request.
Proof. split; reflexivity. Qed.
Lemma ignored_eq : forall k, is_ignored ignored k = never_reported k.
Proof. intro k. unfold is_ignored, never_reported, ops_to_ignore. cbn [existsb]. now rewrite orb_false_r. Qed.

(** * Theorems *)
(** In every call, after any previous calls, the handle of each operator follows the rule: the
    caller's overrides come first, then the listed operators, then fvcore; every operator of the
    graph is counted by its handle, ignored, or reported as unsupported; the breakdown by
    operator and the total are the sums of the handles' reports. *)
Fixpoint calls (table : dict (option handle)) (history : list (list node * option (dict (option handle)) * bool)) : dict (option handle) :=
  match history with
  | [] => table
  | (g, o, e) :: r => calls (fst (flops table g o e)) r
  end.
Lemma calls_table : forall h table, calls table h = table.
Proof.
  induction h as [|[[g o] e] h IH]; intro table; [reflexivity|]. cbn [calls]. rewrite IH. unfold flops, count_flops.
  destruct (analyze _ _ _ _); reflexivity.
Qed.
Theorem flops_rule : forall history graph overrides estimates, exists h : string -> option handle,
  (forall kind, rule overrides estimates kind (h kind)) /\
  forall tot counts unsupported,
  snd (flops (calls op_counters history) graph overrides estimates) = (tot, counts, unsupported) ->
    tot = sum_values counts /\
    (forall k, value counts k = fold_right Z.add 0 (map (fun n => match h (n_kind n) with Some f => reported (f n) k | None => 0 end) graph)) /\
    tot = fold_right Z.add 0 (map (fun n => match h (n_kind n) with Some f => sum_values (f n) | None => 0 end) graph) /\
    (forall k, value unsupported k = Z.of_nat (length (filter (fun n => String.eqb (n_kind n) k &&
         match h (n_kind n) with Some _ => false | None => negb (never_reported k) end) graph))).
Proof.
  intros history graph overrides estimates. rewrite calls_table.
  set (c1 := if estimates then update op_counters estimate_counters else @op_counters Payload).
  set (c2 := match overrides with Some o => update c1 o | None => c1 end).
  exists (handle_for builtin c2). split.
  - intro kind.
    assert (C1 : (listed always_one kind \/ (estimates = true /\ listed one_on_request kind) -> handle_for builtin c1 kind = Some (one_each kind)) /\
       (~ listed always_one kind -> (estimates = true -> ~ listed one_on_request kind) -> handle_for builtin c1 kind = builtin kind)).
    { unfold handle_for, c1. destruct (lookup_counters always_one kind) as [A B]. destruct ops_eq as [OE1 OE2].
      destruct (lookup_counters one_on_request kind) as [A' B'].
      assert (DEC : forall ops k, listed ops k \/ ~ listed ops k).
      { intros ops k. unfold listed. destruct (in_dec string_dec k ops) as [I|I]; [left; now left|].
        destruct (in_dec string_dec k (map (fun n => append n "_") ops)) as [J|J].
        - left. right. apply in_map_iff in J. destruct J as [n [E J]]. exists n. auto.
        - right. intros [H|[n [H E]]]; [contradiction|]. apply J, in_map_iff. exists n. auto. }
      destruct estimates.
      - unfold update, op_counters, estimate_counters. rewrite OE1, OE2, lookup_app. split.
        + intros [H|[_ H]].
          * destruct (DEC one_on_request kind) as [D|D]; [now rewrite A'|]. rewrite B' by exact D. now rewrite A.
          * now rewrite A'.
        + intros H1 H2. rewrite B' by now apply H2. now rewrite B.
      - split; [intros [H|[H _]]; [|discriminate]|intros H _]; unfold op_counters; rewrite OE1; [now rewrite A|now rewrite B]. }
    unfold rule, c2. destruct overrides as [o|]; [|exact C1]. unfold handle_for at 1. unfold update. rewrite lookup_app.
    destruct (lookup o kind) as [x|] eqn:L; [reflexivity|].
    assert (HE : handle_for builtin (o ++ c1) kind = handle_for builtin c1 kind) by (unfold handle_for; rewrite lookup_app, L; reflexivity).
    rewrite HE. exact C1.
  - intros tot counts unsupported. unfold flops, count_flops. cbv zeta. fold c1. fold c2.
    assert (G : forall graph c0 u0 c u,
      fold_left (fun '(counts, unsupported) n =>
        match handle_for builtin c2 (n_kind n) with
        | Some h => (count_all counts (h n), unsupported)
        | None => if is_ignored ignored (n_kind n) then (counts, unsupported)
                  else (counts, count_add (n_kind n) 1 unsupported)
        end) graph (c0, u0) = (c, u) ->
      (forall k, value c k = value c0 k + fold_right Z.add 0 (map (fun n => match handle_for builtin c2 (n_kind n) with Some f => reported (f n) k | None => 0 end) graph)) /\
      sum_values c = sum_values c0 + fold_right Z.add 0 (map (fun n => match handle_for builtin c2 (n_kind n) with Some f => sum_values (f n) | None => 0 end) graph) /\
      (forall k, value u k = value u0 k + Z.of_nat (length (filter (fun n => String.eqb (n_kind n) k &&
         match handle_for builtin c2 (n_kind n) with Some _ => false | None => negb (never_reported k) end) graph)))).
    { clear. induction graph as [|n graph IH]; intros c0 u0 c u H; cbn [fold_left] in H.
      - injection H as <- <-. cbn. split; [intro; lia|]. split; [lia|intro; lia].
      - cbn [map fold_right filter]. destruct (handle_for builtin c2 (n_kind n)) as [f|] eqn:E.
        + destruct (IH _ _ _ _ H) as [A [B C]]. split; [|split].
          * intro k. rewrite A, value_all. lia.
          * rewrite B, sum_all. lia.
          * intro k. rewrite C, andb_false_r. reflexivity.
        + rewrite ignored_eq in H; destruct (never_reported (n_kind n)) eqn:I; destruct (IH _ _ _ _ H) as [A [B C]];
            (split; [exact A|]; split; [exact B|]); intro k; rewrite C.
          * destruct (String.eqb_spec (n_kind n) k) as [<-|N]; [rewrite I|]; reflexivity.
          * rewrite value_add. destruct (String.eqb_spec (n_kind n) k) as [<-|N]; cbn [andb].
            { rewrite I. cbn [negb length]. lia. }
            lia. }
    destruct (analyze builtin ignored c2 graph) as [c u] eqn:F. unfold analyze in F. cbn [snd]. intro H. injection H as <- <- <-.
    destruct (G _ _ _ _ _ F) as [A [B C]].
    split; [reflexivity|]. split; [exact A|]. split; [exact B|exact C].
Qed.

(** A graph of listed operators only, without overrides: one flop for each output element. *)
Theorem flops_elementwise : forall history graph,
  (forall n, In n graph -> listed always_one (n_kind n)) ->
  fst (fst (snd (flops (calls op_counters history) graph None false)))
  = fold_right Z.add 0 (map (fun n => numel (n_out n)) graph).
Proof.
  intros history graph L. destruct (flops_rule history graph None false) as [h [R T]].
  destruct (snd (flops (calls op_counters history) graph None false)) as [[tot c] u] eqn:E.
  destruct (T tot c u eq_refl) as [_ [_ [S _]]]. cbn [fst]. rewrite S. clear -L R. induction graph as [|n graph IH]; [reflexivity|].
  cbn [map fold_right]. rewrite IH by (intros; apply L; now right). f_equal.
  destruct (R (n_kind n)) as [A _]. rewrite A by (left; apply L; now left). unfold sum_values, one_each. cbn. unfold numel. lia.
Qed.
End Props.

(** Calls do not influence each other: the module-level table is never changed. *)
Theorem flops_no_leak : forall Payload builtin ignored history graph o e,
  snd (@count_flops Payload builtin ignored (calls builtin ignored op_counters history) graph o e)
  = snd (count_flops builtin ignored op_counters graph o e).
Proof. intros. now rewrite calls_table. Qed.

(** * Cases that meet the hypotheses *)
Definition ex_graph : list (@node unit) :=
  [mkN "aten::add" [2; 3] tt; mkN "aten::mul_" [4] tt; mkN "aten::exp" [5] tt; mkN "aten::numel" [] tt; mkN "aten::foo" [7] tt].
Example flops_example :
  snd (count_flops (fun _ => None) (fun _ => false) op_counters ex_graph None false)
  = (10, [("aten::add"%string, 6); ("aten::mul_"%string, 4)], [("aten::exp"%string, 1); ("aten::foo"%string, 1)]).
Proof. reflexivity. Qed.
Example flops_example_override :
  snd (count_flops (fun _ => None) (fun _ => false) op_counters ex_graph
        (Some [("aten::exp"%string, Some (fun n => [("exp"%string, 10 * numel (n_out n))])); ("aten::add"%string, None)]) true)
  = (54, [("aten::mul_"%string, 4); ("exp"%string, 50)], [("aten::add"%string, 1); ("aten::foo"%string, 1)]).
Proof. reflexivity. Qed.
Example flops_example_listed : forall n, In n (firstn 2 ex_graph) -> listed always_one (n_kind n).
Proof.
  intros n [<-|[<-|[]]]; cbn.
  - left. cbn. tauto.
  - right. exists "aten::mul"%string. split; [cbn; tauto|reflexivity].
Qed.

Print Assumptions flops_rule.
Print Assumptions flops_elementwise.
Print Assumptions flops_no_leak.

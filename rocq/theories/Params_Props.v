(** C89: every trainable parameter belongs to exactly one optimiser, and the frozen
    projector stays frozen and in evaluation mode. *)
From Coq Require Import String List Bool Arith Lia Ascii.
From Verif Require Import Base Params_Model.
Import ListNotations.
Open Scope string_scope.
Open Scope list_scope.
Open Scope nat_scope.

(** * Specification *)

(** [leads m path s]: following the attribute names of [path] from [m] one gets to [s]. *)
Inductive leads : module -> list string -> module -> Prop :=
| leads_here m : leads m [] m
| leads_kid m n k path s : In (n, k) (kids m) -> leads k path s -> leads m (n :: path) s.

(** What PyTorch demands of attribute names, and one object is one module. *)
Definition ok_name (n : string) : Prop := n <> "" /\ ~ In "."%char (list_ascii_of_string n).
Definition valid (m : module) : Prop :=
  (forall path s, leads m path s ->
     NoDup (map fst (pars s) ++ map fst (kids s)) /\ Forall ok_name (map fst (pars s) ++ map fst (kids s))) /\
  (forall path s path' s', leads m path s -> leads m path' s' -> obj s = obj s' -> s = s').

(** The parameter [p] is the attribute [n] of the module at [path]. *)
Definition param_at (m : module) (path : list string) (n : string) (p : nat) : Prop :=
  exists s, leads m path s /\ In (n, p) (pars s).
Definition dotted (path : list string) : string := String.concat "." path.

(** * Names *)

Lemma list_app : forall a b : string, list_ascii_of_string (a ++ b) = list_ascii_of_string a ++ list_ascii_of_string b.
Proof. induction a; intros; cbn; [reflexivity|now rewrite IHa]. Qed.

Definition nodot (s : string) : Prop := ~ In "."%char (list_ascii_of_string s).

Lemma first_dot : forall x y a b, nodot x -> nodot y -> (x ++ "." ++ a = y ++ "." ++ b)%string -> x = y /\ a = b.
Proof.
  induction x as [|c x IH]; intros [|d y] a b X Y H; cbn in H.
  - injection H as H; auto.
  - injection H as H1 H2. exfalso; apply Y; cbn; left; congruence.
  - injection H as H1 H2. exfalso; apply X; cbn; left; congruence.
  - injection H as -> H2. destruct (IH y a b) as [-> ->]; auto.
    + intro I; apply X; cbn; right; exact I.
    + intro I; apply Y; cbn; right; exact I.
Qed.

Lemma nodot_neq : forall x y b, nodot x -> (x <> y ++ "." ++ b)%string.
Proof.
  intros x y b X ->. apply X. rewrite list_app. apply in_or_app; right; cbn; left; reflexivity.
Qed.

Lemma dotted_cons : forall x path, path <> [] -> dotted (x :: path) = (x ++ "." ++ dotted path)%string.
Proof. intros x [|y path] H; [contradiction|reflexivity]. Qed.

Lemma dotted_inj : forall p q, Forall ok_name p -> Forall ok_name q -> dotted p = dotted q -> p = q.
Proof.
  assert (E : forall x path, ok_name x -> dotted (x :: path) <> "").
  { intros x path [N D] H. destruct path as [|y path]; [cbn in H; contradiction|].
    rewrite dotted_cons in H by discriminate. destruct x; [contradiction|discriminate]. }
  induction p as [|x p IH]; intros [|y q] P Q H.
  - reflexivity.
  - inversion Q; subst. symmetry in H; exfalso; eapply E; eauto.
  - inversion P; subst. exfalso; eapply E; eauto.
  - inversion P as [|? ? [X1 X2] P']; subst. inversion Q as [|? ? [Y1 Y2] Q']; subst.
    destruct p as [|x' p], q as [|y' q].
    + cbn in H; subst; reflexivity.
    + rewrite (dotted_cons y) in H by discriminate. change (dotted [x]) with x in H. exfalso; exact (nodot_neq _ _ _ X2 H).
    + rewrite (dotted_cons x) in H by discriminate. change (dotted [y]) with y in H. symmetry in H. exfalso; exact (nodot_neq _ _ _ Y2 H).
    + rewrite !dotted_cons in H by discriminate. apply first_dot in H; auto. destruct H as [-> H].
      f_equal. apply IH; auto.
Qed.

Lemma app_assoc_s : forall a b c, ((a ++ b) ++ c = a ++ (b ++ c))%string.
Proof. induction a; intros; cbn; [reflexivity|now rewrite IHa]. Qed.

Lemma dotted_snoc : forall path n, Forall ok_name path -> dotted (path ++ [n]) = join (dotted path) n.
Proof.
  induction path as [|x path IH]; intros n P; [reflexivity|].
  inversion P as [|? ? [X1 X2] P']; subst. destruct path as [|y path].
  - cbn. unfold join. destruct (String.eqb_spec x ""); [contradiction|reflexivity].
  - rewrite (dotted_cons x (y :: path)) by discriminate. cbn [app]. rewrite dotted_cons by (destruct path; discriminate).
    change (y :: path ++ [n]) with ((y :: path) ++ [n]). rewrite IH by exact P'.
    unfold join. destruct (String.eqb_spec (dotted (y :: path)) "") as [E|E].
    + exfalso. apply (f_equal (fun s => s)) in E. change "" with (dotted []) in E.
      apply dotted_inj in E; [discriminate|exact P'|constructor].
    + destruct (String.eqb_spec (x ++ "." ++ dotted (y :: path)) "") as [E'|E'].
      * destruct x; [contradiction|discriminate].
      * rewrite !app_assoc_s. reflexivity.
Qed.

Lemma ends_with_spec : forall suf s, ends_with suf s = true <-> exists a, s = (a ++ suf)%string.
Proof.
  intros suf s; induction s as [|c s IH]; cbn [ends_with].
  - rewrite orb_false_r. split.
    + intros E; apply String.eqb_eq in E; exists ""; auto.
    + intros [[|? a] E]; [cbn in E; rewrite <- E; apply String.eqb_refl|discriminate].
  - rewrite orb_true_iff, IH. split.
    + intros [E|[a ->]]; [apply String.eqb_eq in E; exists ""; auto|exists (String c a); reflexivity].
    + intros [[|d a] E]; [left; cbn in E; rewrite E; apply String.eqb_refl|].
      right; exists a; injection E as _ E; exact E.
Qed.

Lemma tail_dot : forall x a c, nodot x -> (a ++ ".quantiles" = x ++ "." ++ c)%string ->
  c = "quantiles" \/ exists a', c = (a' ++ ".quantiles")%string.
Proof.
  induction x as [|d x IH]; intros [|e a] c X H; cbn in H.
  - injection H as H; left; auto.
  - injection H as -> H; right; exists a; auto.
  - injection H as H1 H2. exfalso; apply X; left; congruence.
  - injection H as -> H. apply (IH a c); [|exact H]. intro I; apply X; right; exact I.
Qed.

Lemma ends_with_quantiles : forall path, Forall ok_name path ->
  (ends_with ".quantiles" (dotted path) = true <-> exists q, q <> [] /\ path = q ++ ["quantiles"]).
Proof.
  assert (OQ : ok_name "quantiles") by (split; [discriminate|cbn; intuition discriminate]).
  intros path P. rewrite ends_with_spec. split.
  - induction path as [|x path IH]; intros [a E].
    + destruct a; discriminate.
    + inversion P as [|? ? [X1 X2] P']; subst. destruct path as [|y path].
      * change (dotted [x]) with x in E. exfalso. exact (nodot_neq x a "quantiles" X2 E).
      * rewrite dotted_cons in E by discriminate. symmetry in E.
        destruct (tail_dot _ _ _ X2 E) as [C|[a' C]].
        -- exists [x]; split; [discriminate|]. change "quantiles" with (dotted ["quantiles"]) in C.
           apply dotted_inj in C; [rewrite C; reflexivity|exact P'|constructor; auto].
        -- destruct (IH P' (ex_intro _ a' C)) as [q [Q1 Q2]]. exists (x :: q); split; [discriminate|]. rewrite Q2; reflexivity.
  - intros [q [Q1 ->]]. apply Forall_app in P. destruct P as [P _].
    rewrite dotted_snoc by exact P. exists (dotted q). unfold join.
    destruct (String.eqb_spec (dotted q) "") as [E|E]; [|reflexivity].
    exfalso. change "" with (dotted []) in E. apply dotted_inj in E; auto.
Qed.

(** * Trees *)

Fixpoint size (m : module) : nat :=
  match m with
  | Node _ _ _ ks => S ((fix go (ks : list (string * module)) := match ks with [] => 0 | (_, k) :: ks' => size k + go ks' end) ks)
  end.

Lemma size_kid : forall m n k, In (n, k) (kids m) -> size k < size m.
Proof.
  intros [i pin ps ks] n k H; cbn in *.
  induction ks as [|[n' k'] ks IH]; [contradiction|].
  cbn in H. destruct H as [H|H]; [injection H as -> ->; lia|specialize (IH H); lia].
Qed.

Lemma leads_snoc : forall m path s n k, leads m path s -> In (n, k) (kids s) -> leads m (path ++ [n]) k.
Proof.
  intros m path s n k H; induction H as [m|m n' k' path s I H IH]; intros K.
  - cbn. eapply leads_kid; [exact K|constructor].
  - cbn. eapply leads_kid; [exact I|]. apply IH; exact K.
Qed.

Lemma leads_app : forall m path s q u, leads m path s -> leads s q u -> leads m (path ++ q) u.
Proof.
  intros m path s q u H; induction H; intros L; [exact L|]. cbn. eapply leads_kid; eauto.
Qed.

Lemma leads_names : forall m path s, valid m -> leads m path s -> Forall ok_name path.
Proof.
  intros m path s [V _] H. 
  assert (A : forall m path s, leads m path s -> (forall path s, leads m path s -> Forall ok_name (map fst (pars s) ++ map fst (kids s))) -> Forall ok_name path).
  { clear. intros m path s H; induction H as [m|m n k path s I H IH]; intros V; [constructor|].
    constructor.
    - specialize (V [] m (leads_here m)). apply Forall_app in V. destruct V as [_ V].
      rewrite Forall_forall in V. apply V. apply (in_map fst) in I. exact I.
    - apply IH. intros p u L. apply (V (n :: p) u). eapply leads_kid; eauto. }
  eapply A; [exact H|]. intros p u L. apply (V p u L).
Qed.

Lemma NoDup_fst_inj : forall {A} (l : list (string * A)) n a b, NoDup (map fst l) -> In (n, a) l -> In (n, b) l -> a = b.
Proof.
  intros A l n a b; induction l as [|[n' c] l IH]; intros N I J; [contradiction|].
  cbn in N; inversion N as [|? ? N1 N2]; subst. destruct I as [I|I], J as [J|J].
  - congruence.
  - injection I as -> ->. exfalso; apply N1. apply (in_map fst) in J; exact J.
  - injection J as -> ->. exfalso; apply N1. apply (in_map fst) in I; exact I.
  - auto.
Qed.

Lemma NoDup_app_l : forall {A} (l l' : list A), NoDup (l ++ l') -> NoDup l.
Proof. intros A l l'; induction l; cbn; intros H; [constructor|]. inversion H; subst. constructor; [|auto]. intro I; apply H2; apply in_or_app; auto. Qed.
Lemma NoDup_app_r : forall {A} (l l' : list A), NoDup (l ++ l') -> NoDup l'.
Proof. intros A l l'; induction l; cbn; intros H; [exact H|]. inversion H; auto. Qed.

Lemma NoDup_join : forall {A} (l l' : list A), NoDup l -> NoDup l' -> (forall x, In x l' -> ~ In x l) -> NoDup (l ++ l').
Proof.
  intros A l l' H H' D; induction l as [|a l IH]; cbn; [exact H'|].
  inversion H; subst. constructor.
  - intro J; apply in_app_or in J; destruct J as [J|J]; [contradiction|]. apply (D a J). left; reflexivity.
  - apply IH; auto. intros x X Q. apply (D x X). right; exact Q.
Qed.

(** A path leads to one module. *)
Lemma leads_fun : forall m path s s', valid m -> leads m path s -> leads m path s' -> s = s'.
Proof.
  intros m path s s' [V _] H. revert s'.
  assert (A : forall m path s, leads m path s -> (forall path s, leads m path s -> NoDup (map fst (pars s) ++ map fst (kids s))) -> forall s', leads m path s' -> s = s').
  { clear. intros m path s H; induction H as [m|m n k path s I H IH]; intros V s' L'; inversion L'; subst; [reflexivity|].
    assert (k = k0). { eapply NoDup_fst_inj; [|exact I|eassumption]. exact (NoDup_app_r _ _ (V [] m (leads_here m))). }
    subst k0. apply IH; auto. intros p u L. apply (V (n :: p) u). eapply leads_kid; eauto. }
  intros s' L'. eapply A; eauto. intros p u L; apply (V p u L).
Qed.

Lemma mem_In : forall i l, mem i l = true <-> In i l.
Proof.
  intros i l; unfold mem; rewrite existsb_exists; split.
  - intros [x [I E]]; apply Nat.eqb_eq in E; subst; exact I.
  - intros I; exists i; split; [exact I|apply Nat.eqb_refl].
Qed.

Definition go_kids (prefix : string) :=
  fix go (ks : list (string * module)) (memo : list nat) : list nat * list (string * module) :=
    match ks with
    | [] => (memo, [])
    | (n, k) :: ks' =>
        let '(m1, o1) := named_modules (join prefix n) k memo in
        let '(m2, o2) := go ks' m1 in (m2, o1 ++ o2)
    end.
Lemma named_modules_eq : forall prefix i pin ps ks memo,
  named_modules prefix (Node i pin ps ks) memo =
  if mem i memo then (memo, [])
  else let '(memo', out) := go_kids prefix ks (i :: memo) in (memo', (prefix, Node i pin ps ks) :: out).
Proof. reflexivity. Qed.

Section Walk.
Variable r : module.
Hypothesis V : valid r.

Definition objs (out : list (string * module)) : list nat := map (fun x => obj (snd x)) out.
Definition inv (memo P : list nat) : Prop :=
  forall path s, leads r path s -> In (obj s) memo -> In (obj s) P \/ forall q u, leads s q u -> In (obj u) memo.
Definition visited (path : list string) (memo memo' : list nat) (out : list (string * module)) : Prop :=
  (forall i, In i memo' <-> In i memo \/ In i (objs out)) /\
  NoDup (objs out) /\ (forall i, In i (objs out) -> ~ In i memo) /\
  forall pre s, In (pre, s) out -> exists q, leads r (path ++ q) s /\ pre = dotted (path ++ q).

Lemma walk : forall sz t path memo P, size t <= sz -> leads r path t -> inv memo P ->
  (forall p s, leads r p s -> In (obj s) P -> size t < size s) ->
  let '(memo', out) := named_modules (dotted path) t memo in
  visited path memo memo' out /\ inv memo' P /\ (forall q u, leads t q u -> In (obj u) memo').
Proof.
  induction sz as [|sz IHsz]; intros [i pin ps ks] path memo P SZ L I D; [cbn in SZ; lia|].
  set (t := Node i pin ps ks) in *. unfold t at 1. rewrite named_modules_eq. destruct (mem i memo) eqn:M.
  - apply mem_In in M. split; [|split; [exact I|]].
    + split; [intros j; cbn; tauto|]. split; [constructor|]. split; [intros j []|intros pre s []].
    + destruct (I path t L M) as [Q|Q]; [|exact Q]. specialize (D path t L Q). lia.
  - assert (NM : ~ In i memo) by (intro Q; apply mem_In in Q; congruence).
    assert (K : forall ks', incl ks' ks -> forall memo1, inv memo1 (i :: P) -> 
      let '(memo', out) := go_kids (dotted path) ks' memo1 in
      visited path memo1 memo' out /\ inv memo' (i :: P) /\ (forall n k, In (n, k) ks' -> forall q u, leads k q u -> In (obj u) memo')).
    { induction ks' as [|[n k] ks' IHk]; intros INC memo1 I1; cbn [go_kids].
      - split; [|split; [exact I1|intros n k []]].
        split; [intros j; cbn; tauto|]. split; [constructor|]. split; [intros j []|intros pre s []].
      - assert (InK : In (n, k) (kids t)) by (apply INC; left; reflexivity).
        assert (Lk : leads r (path ++ [n]) k) by (eapply leads_snoc; eauto).
        assert (Sk : size k < size t) by (eapply size_kid; eauto).
        specialize (IHsz k (path ++ [n]) memo1 (i :: P) ltac:(lia) Lk I1).
        rewrite dotted_snoc in IHsz by (eapply leads_names; eauto).
        assert (DK : forall p s, leads r p s -> In (obj s) (i :: P) -> size k < size s).
        { intros p s Ls [E|E].
          - assert (s = t) by (apply (proj2 V p s path t Ls L); cbn; congruence). subst s; exact Sk.
          - specialize (D p s Ls E). lia. }
        specialize (IHsz DK). destruct (named_modules (join (dotted path) n) k memo1) as [m1 o1].
        destruct IHsz as [[A1 [A2 [A3 A4]]] [A5 A6]].
        specialize (IHk (fun x X => INC x (or_intror X)) m1 A5).
        change ((fix go (ks : list (string * module)) (memo : list nat) : list nat * list (string * module) :=
                 match ks with
                 | [] => (memo, [])
                 | (n, k) :: ks' => let '(m1, o1) := named_modules (join (dotted path) n) k memo in
                                    let '(m2, o2) := go ks' m1 in (m2, o1 ++ o2)
                 end) ks' m1) with (go_kids (dotted path) ks' m1).
        destruct (go_kids (dotted path) ks' m1) as [m2 o2].
        destruct IHk as [[B1 [B2 [B3 B4]]] [B5 B6]].
        split; [|split; [exact B5|]].
        + split; [|split; [|split]].
          * intros j. unfold objs in *. rewrite map_app, in_app_iff, B1, A1. tauto.
          * unfold objs in *. rewrite map_app. apply NoDup_join; auto. intros j J1 J2. apply (B3 j J1). apply A1; right; exact J2.
          * intros j J. unfold objs in J. rewrite map_app, in_app_iff in J. destruct J as [J|J]; [apply A3; exact J|].
            intro Q. apply (B3 j J). apply A1; left; exact Q.
          * intros pre s J. apply in_app_or in J. destruct J as [J|J].
            -- destruct (A4 pre s J) as [q [Q1 Q2]]. exists (n :: q). rewrite <- app_assoc in Q1, Q2. auto.
            -- apply B4; exact J.
        + intros n' k' [E|E] q u Lu; [injection E as <- <-; apply B1; left; eapply A6; eauto|eapply B6; eauto]. }
    assert (I1 : inv (i :: memo) (i :: P)).
    { intros p s Ls [E|E]; [left; left; exact E|]. destruct (I p s Ls E) as [Q|Q]; [left; right; exact Q|].
      right. intros q u Lu. right. eapply Q; eauto. }
    specialize (K ks (incl_refl _) (i :: memo) I1). destruct (go_kids (dotted path) ks (i :: memo)) as [memo' out].
    destruct K as [[A1 [A2 [A3 A4]]] [A5 A6]].
    assert (All : forall q u, leads t q u -> In (obj u) memo').
    { intros q u Lu. inversion Lu; subst; [apply A1; left; left; reflexivity|]. eapply A6; eauto. }
    split; [|split; [|exact All]].
    + split; [|split; [|split]].
      * intros j. cbn. rewrite A1. cbn. tauto.
      * cbn. constructor; [|exact A2]. intro J. apply (A3 i J). left; reflexivity.
      * intros j [J|J]; [cbn in J; subst j; exact NM|]. intro Q. apply (A3 j J). right; exact Q.
      * intros pre s [J|J]; [injection J as <- <-; exists []; rewrite app_nil_r; auto|apply A4; exact J].
    + intros p s Ls J. destruct (A5 p s Ls J) as [[E|E]|E]; [|left; exact E|right; exact E].
      right. assert (s = t) by (apply (proj2 V p s path t Ls L); cbn; congruence). subst s. exact All.
Qed.

(** All modules of the tree, each once, each under a path that leads to it. *)
Lemma named_modules_all :
  let out := snd (named_modules "" r []) in
  NoDup (objs out) /\
  (forall pre s, In (pre, s) out -> exists q, leads r q s /\ pre = dotted q) /\
  (forall q u, leads r q u -> exists pre, In (pre, u) out).
Proof.
  pose proof (walk (size r) r [] [] [] (le_n _) (leads_here r)) as W.
  change (dotted []) with "" in W.
  assert (I : inv [] []) by (intros p s _ []).
  specialize (W I). assert (D : forall p s, leads r p s -> In (obj s) [] -> size r < size s) by (intros p s _ []).
  specialize (W D). destruct (named_modules "" r []) as [memo out]. cbn [snd].
  destruct W as [[A1 [A2 [A3 A4]]] [_ A6]]. split; [exact A2|]. split.
  - intros pre s J. apply (A4 pre s J).
  - intros q u L. specialize (A6 q u L). apply A1 in A6. destruct A6 as [[]|J].
    unfold objs in J. apply in_map_iff in J. destruct J as [[pre s] [E J]]. cbn in E.
    destruct (A4 pre s J) as [q' [Q _]]. cbn in Q.
    assert (s = u) by (apply (proj2 V q' s q u Q L E)). subst s. exists pre; exact J.
Qed.
End Walk.

(** * Parameters *)

Lemma fresh_pars_ok : forall prefix ps memo,
  let '(memo', out) := fresh_pars prefix ps memo in
  (forall p, In p memo' <-> In p memo \/ In p (map snd out)) /\ NoDup (map snd out) /\
  (forall p, In p (map snd out) -> ~ In p memo) /\
  (forall p, In p (map snd ps) -> In p memo') /\
  (forall x p, In (x, p) out -> exists n, In (n, p) ps /\ x = join prefix n).
Proof.
  intros prefix ps; induction ps as [|[n p] ps IH]; intros memo; cbn [fresh_pars].
  - cbn. repeat split; try tauto; try constructor; intros; try contradiction.
  - destruct (mem p memo) eqn:M.
    + apply mem_In in M. specialize (IH memo). destruct (fresh_pars prefix ps memo) as [memo' out].
      destruct IH as [A [B [C [D E]]]]. repeat split; auto; try (apply A).
      * intros q [Q|Q]; [cbn in Q; subst q; apply A; left; exact M|apply D; exact Q].
      * intros x q Q. destruct (E x q Q) as [n' [N1 N2]]. exists n'; split; [right; exact N1|exact N2].
    + assert (NM : ~ In p memo) by (intro Q; apply mem_In in Q; congruence).
      specialize (IH (p :: memo)). destruct (fresh_pars prefix ps (p :: memo)) as [memo' out].
      destruct IH as [A [B [C [D E]]]]. repeat split.
      * intros Q. apply A in Q. cbn in *. tauto.
      * intros Q. apply A. cbn in *. tauto.
      * cbn. constructor; [|exact B]. intro Q. apply (C p Q). left; reflexivity.
      * intros q [Q|Q]; [cbn in Q; subst q; exact NM|]. intro Q'. apply (C q Q). right; exact Q'.
      * intros q [Q|Q]; [cbn in Q; subst q; apply A; left; left; reflexivity|apply D; exact Q].
      * intros x q [Q|Q]; [injection Q as <- <-; exists n; split; [left; reflexivity|reflexivity]|].
        destruct (E x q Q) as [n' [N1 N2]]. exists n'; split; [right; exact N1|exact N2].
Qed.

Lemma pars_of_modules_ok : forall ms memo,
  NoDup (map snd (pars_of_modules ms memo)) /\
  (forall p, In p (map snd (pars_of_modules ms memo)) -> ~ In p memo) /\
  (forall p pre m n, In (pre, m) ms -> In (n, p) (pars m) -> In p memo \/ In p (map snd (pars_of_modules ms memo))) /\
  (forall x p, In (x, p) (pars_of_modules ms memo) -> exists pre m n, In (pre, m) ms /\ In (n, p) (pars m) /\ x = join pre n).
Proof.
  induction ms as [|[pre m] ms IH]; intros memo; cbn [pars_of_modules].
  - repeat split; try constructor; intros; contradiction.
  - pose proof (fresh_pars_ok pre (pars m) memo) as F. destruct (fresh_pars pre (pars m) memo) as [memo' out].
    destruct F as [A [B [C [D E]]]]. specialize (IH memo'). destruct IH as [I1 [I2 [I3 I4]]].
    rewrite map_app. repeat split.
    + apply NoDup_join; auto. intros p P Q. apply (I2 p P). apply A; right; exact Q.
    + intros p P. apply in_app_or in P. destruct P as [P|P]; [apply C; exact P|]. intro Q. apply (I2 p P). apply A; left; exact Q.
    + intros p pre' m' n [J|J] N.
      * injection J as <- <-. assert (In p memo') by (apply D; apply (in_map snd) in N; exact N).
        apply A in H. destruct H as [H|H]; [left; exact H|right; apply in_or_app; left; exact H].
      * destruct (I3 p pre' m' n J N) as [H|H]; [|right; apply in_or_app; right; exact H].
        apply A in H. destruct H as [H|H]; [left; exact H|right; apply in_or_app; left; exact H].
    + intros x p J. apply in_app_or in J. destruct J as [J|J].
      * destruct (E x p J) as [n [N1 N2]]. exists pre, m, n; split; [left; reflexivity|auto].
      * destruct (I4 x p J) as [pre' [m' [n [N1 N2]]]]. exists pre', m', n; split; [right; exact N1|exact N2].
Qed.

(** named_parameters lists every parameter object exactly once, under different names,
    and each name is the dotted path of a place where the parameter is. *)
Theorem C89_named_parameters : forall m, valid m ->
  NoDup (map snd (named_parameters m)) /\ NoDup (map fst (named_parameters m)) /\
  (forall p, In p (map snd (named_parameters m)) <-> exists path n, param_at m path n p) /\
  (forall x p, In (x, p) (named_parameters m) -> exists path n, param_at m path n p /\ x = dotted (path ++ [n])).
Proof.
  intros m V. destruct (named_modules_all m V) as [M1 [M2 M3]].
  unfold named_parameters. set (out := snd (named_modules "" m [])) in *.
  destruct (pars_of_modules_ok out []) as [A [_ [B C]]].
  assert (N : forall x p, In (x, p) (pars_of_modules out []) -> exists path n, param_at m path n p /\ x = dotted (path ++ [n])).
  { intros x p J. destruct (C x p J) as [pre [s [n [J1 [J2 J3]]]]]. destruct (M2 pre s J1) as [q [Q1 Q2]].
    exists q, n. split; [exists s; auto|]. rewrite dotted_snoc by (eapply leads_names; eauto). subst; reflexivity. }
  split; [exact A|]. split; [|split; [|exact N]].
  - assert (F : forall x p p', In (x, p) (pars_of_modules out []) -> In (x, p') (pars_of_modules out []) -> p = p').
    { intros x p p' J J'. destruct (N x p J) as [q [n [[s [L1 L2]] L3]]]. destruct (N x p' J') as [q' [n' [[s' [L1' L2']] L3']]].
      assert (O : forall q s n p, leads m q s -> In (n, p) (pars s) -> Forall ok_name (q ++ [n])).
      { intros q0 s0 n0 p0 L0 I0. apply Forall_app; split; [eapply leads_names; eauto|]. constructor; [|constructor].
        destruct (proj1 V q0 s0 L0) as [_ O]. rewrite Forall_forall in O. apply O. apply in_or_app; left.
        apply (in_map fst) in I0; exact I0. }
      rewrite L3 in L3'. apply dotted_inj in L3'; [|eapply O; eauto|eapply O; eauto].
      apply app_inj_tail in L3'. destruct L3' as [<- <-].
      assert (s = s') by (eapply leads_fun; eauto). subst s'.
      eapply NoDup_fst_inj; [|exact L2|exact L2']. exact (NoDup_app_l _ _ (proj1 (proj1 V q s L1))). }
    clear - A F. induction (pars_of_modules out []) as [|[x p] l IH]; cbn in *; [constructor|].
    inversion A; subst. constructor.
    + intro J. apply in_map_iff in J. destruct J as [[x' p'] [E J]]. cbn in E; subst x'.
      assert (p = p') by (eapply F; [left; reflexivity|right; exact J]). subst p'. apply H1. apply (in_map snd) in J; exact J.
    + apply IH; auto. intros y q q' J J'. eapply F; right; eauto.
  - intros p; split.
    + intros J. apply in_map_iff in J. destruct J as [[x p'] [E J]]. cbn in E; subst p'.
      destruct (N x p J) as [q [n [L _]]]. exists q, n; exact L.
    + intros [q [n [s [L1 L2]]]]. destruct (M3 q s L1) as [pre J]. destruct (B p pre s n J L2) as [[]|H]. exact H.
Qed.

(** ** Dictionaries lose nothing *)

Lemma dict_set_fresh : forall k v d, ~ In k (map fst d) -> dict_set k v d = d ++ [(k, v)].
Proof.
  intros k v d; induction d as [|[k' v'] d IH]; intros H; [reflexivity|]. cbn.
  destruct (String.eqb_spec k k') as [->|E]; [exfalso; apply H; left; reflexivity|].
  rewrite IH; [reflexivity|]. intro J; apply H; right; exact J.
Qed.

Lemma dict_of_id : forall l, NoDup (map fst l) -> dict_of l = l.
Proof.
  assert (A : forall l d, NoDup (map fst (d ++ l)) -> fold_left (fun d p => dict_set (fst p) (snd p) d) l d = d ++ l).
  { intros l; induction l as [|[k v] l IH]; intros d H; cbn [fold_left]; [rewrite app_nil_r; reflexivity|].
    cbn [fst snd]. rewrite dict_set_fresh.
    - rewrite IH; rewrite <- app_assoc; [reflexivity|exact H].
    - rewrite map_app in H. cbn in H. apply NoDup_remove_2 in H. intro J; apply H; apply in_or_app; left; exact J. }
  intros l H. apply (A l []). exact H.
Qed.

Lemma NoDup_filter_map : forall {A B} (f : A -> B) (g : A -> bool) l, NoDup (map f l) -> NoDup (map f (filter g l)).
Proof.
  intros A B f g l; induction l as [|a l IH]; cbn; intros H; [constructor|].
  inversion H; subst. destruct (g a); cbn; [|auto]. constructor; [|auto].
  intro J. apply H2. apply in_map_iff in J. destruct J as [x [E J]]. apply filter_In in J. rewrite <- E. apply in_map, J.
Qed.

Section Opt.
Variable requires_grad : nat -> bool.

(** Whether a parameter is reached under the name of a quantile. *)
Definition quantile_place (path : list string) (n : string) : Prop := path <> [] /\ n = "quantiles".

(** Every trainable parameter is in exactly one of the two groups, nothing else is, and
    no parameter is twice in a group.  Which one is decided by the attribute name. *)
Theorem C89_groups : forall m mp qp, valid m -> collect_parameters requires_grad false m = (mp, Some qp) ->
  NoDup (map snd mp ++ map snd qp) /\
  (forall p, In p (map snd mp ++ map snd qp) <-> requires_grad p = true /\ exists path n, param_at m path n p) /\
  (forall p, In p (map snd qp) -> exists path n, param_at m path n p /\ quantile_place path n) /\
  (forall p, In p (map snd mp) -> exists path n, param_at m path n p /\ ~ quantile_place path n).
Proof.
  intros m mp qp V E. destruct (C89_named_parameters m V) as [A [B [C D]]].
  unfold collect_parameters in E. rewrite !dict_of_id in E by (apply NoDup_filter_map; exact B).
  injection E as <- <-. set (l := named_parameters m) in *.
  set (f := fun np : string * nat => negb (ends_with ".quantiles" (fst np)) && requires_grad (snd np)).
  set (g := fun np : string * nat => ends_with ".quantiles" (fst np) && requires_grad (snd np)).
  assert (Names : forall x p, In (x, p) l -> exists path n, param_at m path n p /\ x = dotted (path ++ [n]) /\ Forall ok_name (path ++ [n])).
  { intros x p J. destruct (D x p J) as [q [n [[s [L1 L2]] L3]]]. exists q, n. split; [exists s; auto|]. split; [exact L3|].
    apply Forall_app; split; [eapply leads_names; eauto|]. constructor; [|constructor].
    destruct (proj1 V q s L1) as [_ O]. rewrite Forall_forall in O. apply O. apply in_or_app; left.
    apply (in_map fst) in L2; exact L2. }
  assert (Q : forall x p, In (x, p) l -> exists path n, param_at m path n p /\ (ends_with ".quantiles" x = true <-> quantile_place path n)).
  { intros x p J. destruct (Names x p J) as [q [n [P [-> O]]]]. exists q, n. split; [exact P|].
    rewrite (ends_with_quantiles _ O). unfold quantile_place. split.
    - intros [q' [N1 N2]]. apply app_inj_tail in N2. destruct N2 as [-> ->]. auto.
    - intros [N1 ->]. exists q; auto. }
  split; [|split; [|split]].
  - apply NoDup_join; try (apply NoDup_filter_map; exact A).
    intros p P P'. apply in_map_iff in P, P'. destruct P as [[x y] [E1 P]], P' as [[x' y'] [E2 P']].
    cbn in E1, E2; subst y y'. apply filter_In in P, P'. destruct P as [P1 P2], P' as [P1' P2'].
    assert (x = x').
    { clear - A P1 P1'. induction l as [|[a b] l IH]; [contradiction|]. cbn in A; inversion A; subst.
      destruct P1 as [P1|P1], P1' as [P1'|P1']; try congruence.
      - injection P1 as -> ->. exfalso; apply H1. apply (in_map snd) in P1'; exact P1'.
      - injection P1' as -> ->. exfalso; apply H1. apply (in_map snd) in P1; exact P1.
      - auto. }
    subst x'. unfold f, g in *. cbn in *. apply andb_true_iff in P2, P2'. destruct P2 as [P2 _], P2' as [P2' _].
    rewrite P2 in P2'. discriminate.
  - intros p. rewrite in_app_iff, !in_map_iff. split.
    + intros [[[x y] [E J]]|[[x y] [E J]]]; cbn in E; subst y; apply filter_In in J; destruct J as [J1 J2];
        unfold f, g in J2; cbn in J2; apply andb_true_iff in J2; destruct J2 as [_ J2]; (split; [exact J2|]);
        apply C; apply (in_map snd) in J1; exact J1.
    + intros [R P]. apply C in P. apply in_map_iff in P. destruct P as [[x y] [E J]]. cbn in E; subst y.
      destruct (ends_with ".quantiles" x) eqn:W; [right|left]; exists (x, p); (split; [reflexivity|]); apply filter_In;
        (split; [exact J|]); unfold f, g; cbn; rewrite W, R; reflexivity.
  - intros p P. apply in_map_iff in P. destruct P as [[x y] [E P]]; cbn in E; subst y.
    apply filter_In in P. destruct P as [P1 P2]. unfold g in P2; cbn in P2. apply andb_true_iff in P2.
    destruct (Q x p P1) as [q [n [L W]]]. exists q, n. split; [exact L|]. apply W, P2.
  - intros p P. apply in_map_iff in P. destruct P as [[x y] [E P]]; cbn in E; subst y.
    apply filter_In in P. destruct P as [P1 P2]. unfold f in P2; cbn in P2. apply andb_true_iff in P2. destruct P2 as [P2 _].
    destruct (Q x p P1) as [q [n [L W]]]. exists q, n. split; [exact L|]. rewrite <- W. 
    apply negb_true_iff in P2. congruence.
Qed.

(** The optimisers of a stage of DVC with quantiles: either two, that together update
    every trainable parameter exactly once, or a ValueError because there is nothing to
    train in one of the groups. *)
Theorem C89_dvc_optimizers : forall m sched, valid m ->
  (exists base aux, dvc_configure_optimizers requires_grad false sched m = Ok [base; aux] /\
     scheduled base = sched /\ scheduled aux = false /\ learning_rate_is_aux base = false /\ learning_rate_is_aux aux = true /\
     NoDup (updates base ++ updates aux) /\
     (forall p, In p (updates base ++ updates aux) <-> requires_grad p = true /\ exists path n, param_at m path n p) /\
     (forall p, In p (updates aux) -> exists path n, param_at m path n p /\ quantile_place path n) /\
     (forall p, In p (updates base) -> exists path n, param_at m path n p /\ ~ quantile_place path n))
  \/
  (dvc_configure_optimizers requires_grad false sched m = Raise ValueError /\
     ((forall p path n, param_at m path n p -> requires_grad p = true -> exists path n, param_at m path n p /\ quantile_place path n) \/
      (forall p path n, param_at m path n p -> requires_grad p = true -> exists path n, param_at m path n p /\ ~ quantile_place path n))).
Proof.
  intros m sched V. unfold dvc_configure_optimizers.
  destruct (collect_parameters requires_grad false m) as [mp [qp|]] eqn:E; [|unfold collect_parameters in E; discriminate].
  destruct (C89_groups m mp qp V E) as [A [B [C D]]].
  destruct (map snd mp) as [|a l] eqn:EM.
  - right. split; [reflexivity|]. left. intros p path n P R. apply C. apply (B p). split; [exact R|]. exists path, n; exact P.
  - cbn [adam bind]. destruct (map snd qp) as [|b l'] eqn:EQ.
    + right. split; [reflexivity|]. right. intros p path n P R. apply D. rewrite app_nil_r in B.
      apply (B p). split; [exact R|]. exists path, n; exact P.
    + left. exists (mkOpt (a :: l) sched false), (mkOpt (b :: l') false true). cbn [updates scheduled learning_rate_is_aux].
      split; [reflexivity|]. repeat (split; [reflexivity|]). split; [exact A|]. split; [exact B|]. split; [exact C|exact D].
Qed.

(** The first stage and the video transformer have one optimiser, for every trainable
    parameter that is no quantile. *)
Theorem C89_single_optimizer : forall m, valid m ->
  forall o, (exists sched, dvc_configure_optimizers requires_grad true sched m = Ok o) \/ vct_configure_optimizers requires_grad m = Ok o ->
  exists base, o = [base] /\ NoDup (updates base) /\
    (forall p, In p (updates base) -> requires_grad p = true /\ exists path n, param_at m path n p /\ ~ quantile_place path n) /\
    (forall p, requires_grad p = true -> (exists path n, param_at m path n p) ->
       (forall path n, param_at m path n p -> ~ quantile_place path n) -> In p (updates base)).
Proof.
  intros m V o H.
  destruct (collect_parameters requires_grad false m) as [mp [qp|]] eqn:E; [|unfold collect_parameters in E; discriminate].
  destruct (C89_groups m mp qp V E) as [A [B [C D]]].
  assert (M : mp = filter (fun np => negb (ends_with ".quantiles" (fst np)) && requires_grad (snd np)) (named_parameters m)).
  { unfold collect_parameters in E. injection E as E _. rewrite <- E. apply dict_of_id, NoDup_filter_map, (C89_named_parameters m V). }
  assert (F : exists base, o = [base] /\ updates base = map snd mp).
  { destruct H as [[sched H]|H].
    - unfold dvc_configure_optimizers, collect_parameters in H. unfold collect_parameters in E. injection E as E _. rewrite E in H.
      destruct (map snd mp) as [|a l]; cbn in H; [discriminate|]. injection H as <-. eexists; split; [reflexivity|reflexivity].
    - unfold vct_configure_optimizers in H. rewrite <- M in H.
      destruct (map snd mp) as [|a l]; cbn in H; [discriminate|]. injection H as <-. eexists; split; [reflexivity|reflexivity]. }
  destruct F as [base [-> U]]. exists base. split; [reflexivity|]. rewrite U. split; [exact (NoDup_app_l _ _ A)|]. split.
  - intros p P. split; [|apply D; exact P]. apply (B p). apply in_or_app; left; exact P.
  - intros p R P N. assert (J : In p (map snd mp ++ map snd qp)) by (apply B; auto).
    apply in_app_or in J. destruct J as [J|J]; [exact J|]. destruct (C p J) as [path [n [L Q]]]. exfalso; eapply N; eauto.
Qed.

(** When there is no such optimiser, there is nothing to train; and the scheduler belongs
    to it. *)
Theorem C89_single_optimizer_kind : forall m, valid m ->
  (forall sched, match dvc_configure_optimizers requires_grad true sched m with
     | Ok o => Forall (fun b => scheduled b = sched /\ learning_rate_is_aux b = false) o
     | Raise e => e = ValueError /\ forall p path n, param_at m path n p -> requires_grad p = true -> exists path n, param_at m path n p /\ quantile_place path n
     end) /\
  match vct_configure_optimizers requires_grad m with
  | Ok o => Forall (fun b => scheduled b = true /\ learning_rate_is_aux b = false) o
  | Raise e => e = ValueError /\ forall p path n, param_at m path n p -> requires_grad p = true -> exists path n, param_at m path n p /\ quantile_place path n
  end.
Proof.
  intros m V.
  destruct (collect_parameters requires_grad false m) as [mp [qp|]] eqn:E; [|unfold collect_parameters in E; discriminate].
  destruct (C89_groups m mp qp V E) as [A [B [C D]]].
  assert (M : mp = filter (fun np => negb (ends_with ".quantiles" (fst np)) && requires_grad (snd np)) (named_parameters m)).
  { unfold collect_parameters in E. injection E as E _. rewrite <- E. apply dict_of_id, NoDup_filter_map, (C89_named_parameters m V). }
  assert (X : map snd mp = [] -> forall p path n, param_at m path n p -> requires_grad p = true -> exists path n, param_at m path n p /\ quantile_place path n).
  { intros Z p path n P R. rewrite Z in B. apply C. apply (B p). split; [exact R|]. exists path, n; exact P. }
  split.
  - intros sched. unfold dvc_configure_optimizers, collect_parameters. unfold collect_parameters in E. injection E as E _. rewrite E.
    destruct (map snd mp) as [|a l]; cbn [adam bind]; [split; [reflexivity|apply X; reflexivity]|].
    constructor; [split; reflexivity|constructor].
  - unfold vct_configure_optimizers. rewrite <- M.
    destruct (map snd mp) as [|a l]; cbn [adam bind]; [split; [reflexivity|apply X; reflexivity]|].
    constructor; [split; reflexivity|constructor].
Qed.

(** So the quantiles of the video transformer's bottlenecks are trained by nobody. *)
Theorem C89_vct_quantiles_untrained : forall m o p, valid m -> vct_configure_optimizers requires_grad m = Ok o ->
  (forall path n, param_at m path n p -> quantile_place path n) -> forall opt, In opt o -> ~ In p (updates opt).
Proof.
  intros m o p V E Q opt J. destruct (C89_single_optimizer m V o (or_intror E)) as [base [-> [_ [S _]]]].
  destruct J as [->|[]]. intro P. destruct (S p P) as [_ [path [n [L N]]]]. apply N, Q, L.
Qed.
End Opt.

(** * Modes *)

(** The modules below a module, itself included. *)
Definition below (m : module) (i : nat) : Prop := exists q u, leads m q u /\ obj u = i.

Definition go_train (mode : bool) :=
  fix go (ks : list (string * module)) (memo : list nat) (tr : nat -> bool) : nat -> bool :=
    match ks with
    | [] => tr
    | (_, k) :: ks' => if mem (obj k) memo then go ks' memo tr else go ks' (obj k :: memo) (train mode k tr)
    end.
Lemma train_eq : forall mode i pin ps ks tr,
  train mode (Node i pin ps ks) tr = let mode := if pin then false else mode in go_train mode ks [] (setf tr i mode).
Proof. reflexivity. Qed.

Lemma train_false : forall sz m tr j, size m <= sz -> tr j = false -> train false m tr j = false.
Proof.
  induction sz as [|sz IH]; intros [i pin ps ks] tr j SZ T; [cbn in SZ; lia|].
  rewrite train_eq. replace (if pin then false else false) with false by (destruct pin; reflexivity). cbn zeta.
  assert (A : forall ks' memo tr, incl ks' ks -> tr j = false -> go_train false ks' memo tr j = false).
  { induction ks' as [|[n k] ks' IHk]; intros memo tr' INC T'; cbn [go_train]; [exact T'|].
    destruct (mem (obj k) memo); [apply IHk; auto; intros x X; apply INC; right; exact X|].
    apply IHk; [intros x X; apply INC; right; exact X|]. apply IH; [|exact T'].
    assert (size k < size (Node i pin ps ks)) by (eapply size_kid with (n := n); apply INC; left; reflexivity). lia. }
  apply A; [apply incl_refl|]. unfold setf. destruct (j =? i); auto.
Qed.

Lemma train_other : forall sz mode m tr j, size m <= sz -> ~ below m j -> train mode m tr j = tr j.
Proof.
  induction sz as [|sz IH]; intros mode [i pin ps ks] tr j SZ N; [cbn in SZ; lia|].
  rewrite train_eq. cbn zeta. set (md := if pin then false else mode).
  assert (A : forall ks' memo tr, incl ks' ks -> go_train md ks' memo tr j = tr j).
  { induction ks' as [|[n k] ks' IHk]; intros memo tr' INC; cbn [go_train]; [reflexivity|].
    destruct (mem (obj k) memo); [apply IHk; intros x X; apply INC; right; exact X|].
    rewrite IHk by (intros x X; apply INC; right; exact X).
    assert (InK : In (n, k) (kids (Node i pin ps ks))) by (apply INC; left; reflexivity).
    assert (size k < size (Node i pin ps ks)) by (eapply size_kid; eauto).
    apply IH; [lia|]. intros [q [u [L E]]]. apply N. exists (n :: q), u. split; [eapply leads_kid; eauto|exact E]. }
  rewrite A by apply incl_refl. unfold setf. destruct (Nat.eqb_spec j i) as [->|]; [|reflexivity].
  exfalso. apply N. exists [], (Node i pin ps ks). split; [constructor|reflexivity].
Qed.

(** eval() reaches every module below. *)
Lemma eval_all : forall sz r path m tr j, valid r -> leads r path m -> size m <= sz -> below m j -> train false m tr j = false.
Proof.
  induction sz as [|sz IH]; intros r path [i pin ps ks] tr j V Lr SZ [q [u [L E]]]; [cbn in SZ; lia|].
  rewrite train_eq. replace (if pin then false else false) with false by (destruct pin; reflexivity). cbn zeta.
  assert (Step : forall ks' memo tr, incl ks' ks -> tr j = false -> go_train false ks' memo tr j = false).
  { induction ks' as [|[n k] ks' IHk]; intros memo tr' INC T'; cbn [go_train]; [exact T'|].
    destruct (mem (obj k) memo); [apply IHk; auto; intros x X; apply INC; right; exact X|].
    apply IHk; [intros x X; apply INC; right; exact X|]. apply (train_false (size k)); auto. }
  inversion L as [|m0 n k p s InK Lk]; subst.
  - cbn [obj]. apply Step; [apply incl_refl|]. unfold setf. rewrite Nat.eqb_refl; reflexivity.
  - cbn [kids] in InK.
    assert (A : forall ks' memo tr, incl ks' ks -> In (n, k) ks' -> (In (obj k) memo -> tr (obj u) = false) ->
      go_train false ks' memo tr (obj u) = false).
    { induction ks' as [|[n' k'] ks' IHk]; intros memo tr' INC J M; [contradiction|]. cbn [go_train].
      assert (INC' : incl ks' ks) by (intros x X; apply INC; right; exact X).
      destruct (mem (obj k') memo) eqn:Q.
      - destruct J as [J|J]; [injection J as -> ->|apply IHk; auto].
        apply mem_In in Q. apply Step; auto.
      - assert (InK' : In (n', k') (kids (Node i pin ps ks))) by (apply INC; left; reflexivity).
        assert (SK : size k' < size (Node i pin ps ks)) by (eapply size_kid; eauto).
        assert (LK : leads r (path ++ [n']) k') by (eapply leads_snoc; eauto).
        destruct (Nat.eq_dec (obj k') (obj k)) as [EQ|NE].
        + apply Step; [exact INC'|]. 
          assert (LK2 : leads r (path ++ [n]) k) by (eapply leads_snoc; eauto).
          assert (k' = k) by (apply (proj2 V _ _ _ _ LK LK2 EQ)). subst k'.
          eapply (IH r (path ++ [n'])); eauto; [lia|]. exists p, u; auto.
        + destruct J as [J|J]; [injection J as -> ->; congruence|].
          apply IHk; auto. intros [M'|M']; [congruence|]. apply (train_false (size k')); auto. }
    apply A; [apply incl_refl|exact InK|intros []].
Qed.

(** Roots in which the protected modules occur only below a projector. *)
Fixpoint guarded (prot : nat -> Prop) (m : module) : Prop :=
  match m with
  | Node i pin _ ks =>
      if pin then True
      else ~ prot i /\ (fix go (ks : list (string * module)) : Prop :=
                          match ks with [] => True | (_, k) :: ks' => guarded prot k /\ go ks' end) ks
  end.

Lemma train_guarded : forall sz prot m mode tr, size m <= sz -> guarded prot m ->
  (forall j, prot j -> tr j = false) -> forall j, prot j -> train mode m tr j = false.
Proof.
  induction sz as [|sz IH]; intros prot [i pin ps ks] mode tr SZ G T j P; [cbn in SZ; lia|].
  rewrite train_eq. destruct pin; cbn zeta.
  - change (go_train false ks [] (setf tr i false) j = false).
    change (go_train false ks [] (setf tr i false) j) with (train false (Node i true ps ks) tr j).
    apply (train_false (size (Node i true ps ks))); auto.
  - cbn [guarded] in G. destruct G as [N G].
    assert (A : forall ks' memo tr, incl ks' ks -> (forall n k, In (n, k) ks' -> guarded prot k) -> (forall j, prot j -> tr j = false) ->
      forall j, prot j -> go_train mode ks' memo tr j = false).
    { induction ks' as [|[n k] ks' IHk]; intros memo tr' INC GK T' j' P'; cbn [go_train]; [auto|].
      assert (INC' : incl ks' ks) by (intros x X; apply INC; right; exact X).
      assert (GK' : forall n k, In (n, k) ks' -> guarded prot k) by (intros n' k' J; apply (GK n' k'); right; exact J).
      destruct (mem (obj k) memo); [apply IHk; auto|].
      apply IHk; auto. intros j'' P''. apply (IH prot k); auto.
      - assert (size k < size (Node i false ps ks)) by (eapply size_kid with (n := n); apply INC; left; reflexivity). lia.
      - apply (GK n k); left; reflexivity. }
    apply A; auto; [apply incl_refl| |].
    + clear - G. induction ks as [|[n k] ks IH]; intros n' k' J; [contradiction|]. destruct G as [G1 G2].
      destruct J as [J|J]; [injection J as <- <-; exact G1|eapply IH; eauto].
    + intros j' P'. unfold setf. destruct (Nat.eqb_spec j' i) as [->|]; [contradiction|auto].
Qed.

Lemma fold_req : forall (l : list (string * nat)) r j,
  fold_left (fun r p => setf r (snd p) false) l r j = if mem j (map snd l) then false else r j.
Proof.
  induction l as [|[n p] l IH]; intros r j; cbn [fold_left map]; [reflexivity|].
  rewrite IH. cbn [snd mem existsb]. change (existsb (Nat.eqb j) (map snd l)) with (mem j (map snd l)).
  unfold setf. destruct (mem j (map snd l)); [rewrite orb_true_r; reflexivity|]. rewrite orb_false_r.
  destruct (Nat.eqb_spec j p); reflexivity.
Qed.

(** Building the projector: the parameters of the encoder and the bottleneck, which the
    original model shares, are frozen and no others; they are in evaluation mode; and no
    later train or eval on modules that contain them only through the projector brings
    them back to training mode. *)
Theorem C89_projector : forall new enc bot s self s',
  valid (Node new true [] [("encoder", enc); ("bottleneck_op", bot)]) ->
  make_projector new enc (Some bot) s = Ok (self, s') ->
  let inside i := i = new \/ below enc i \/ below bot i in
  let owns p := exists path n, param_at enc path n p \/ param_at bot path n p in
  (forall p, owns p -> requires s' p = false) /\
  (forall p, ~ owns p -> requires s' p = requires s p) /\
  (forall i, ~ inside i -> training s' i = training s i) /\
  forall ops, Forall (fun op => guarded inside (fst op)) ops ->
  forall i, inside i -> run_modes ops (training s') i = false.
Proof.
  intros new enc bot s self s' V E. unfold make_projector in E.
  set (self0 := Node new true [] [("encoder", enc); ("bottleneck_op", bot)]) in *. cbv zeta in E.
  assert (E1 : self = self0) by congruence.
  assert (E2 : s' = mkS (train false self0 (setf (training s) new true))
                      (fold_left (fun r p => setf r (snd p) false) (named_parameters self0) (requires s))) by congruence.
  clear E. subst self s'. cbn [training requires]. rename self0 into self.
  set (inside := fun i => i = new \/ below enc i \/ below bot i).
  set (owns := fun p => exists path n, param_at enc path n p \/ param_at bot path n p).
  assert (Bl : forall i, below self i <-> inside i).
  { intros i; unfold inside; split.
    - intros [q [u [L E]]]. inversion L as [|m0 n k p s0 InK Lk]; subst; [left; reflexivity|right].
      cbn in InK. destruct InK as [InK|[InK|[]]]; injection InK as <- <-; [left|right]; exists p, u; auto.
    - intros [->|[[q [u [L E]]]|[q [u [L E]]]]].
      + exists [], self; split; [constructor|reflexivity].
      + exists ("encoder" :: q), u; split; [|exact E]. eapply leads_kid; [left; reflexivity|exact L].
      + exists ("bottleneck_op" :: q), u; split; [|exact E]. eapply leads_kid; [right; left; reflexivity|exact L]. }
  assert (Ow : forall p, In p (map snd (named_parameters self)) <-> owns p).
  { intros p. rewrite (proj1 (proj2 (proj2 (C89_named_parameters self V))) p). unfold owns; split.
    - intros [path [n [u [L J]]]]. inversion L as [|m0 n' k q s0 InK Lk]; subst; [contradiction|].
      cbn in InK. destruct InK as [InK|[InK|[]]]; injection InK as <- <-; exists q, n; [left|right]; exists u; auto.
    - intros [path [n [[u [L J]]|[u [L J]]]]].
      + exists ("encoder" :: path), n, u; split; [|exact J]. eapply leads_kid; [left; reflexivity|exact L].
      + exists ("bottleneck_op" :: path), n, u; split; [|exact J]. eapply leads_kid; [right; left; reflexivity|exact L]. }
  assert (Start : forall i, inside i -> train false self (setf (training s) new true) i = false).
  { intros i J. apply (eval_all (size self) self [] self); [exact V|constructor|apply le_n|apply Bl; exact J]. }
  split; [|split; [|split]].
  - intros p P. rewrite fold_req. apply Ow, mem_In in P. rewrite P; reflexivity.
  - intros p P. rewrite fold_req. destruct (mem p (map snd (named_parameters self))) eqn:M; [|reflexivity].
    apply mem_In, Ow in M. contradiction.
  - intros i N. rewrite (train_other (size self)) by (auto; rewrite Bl; exact N).
    unfold setf. destruct (Nat.eqb_spec i new) as [->|]; [|reflexivity]. exfalso; apply N; left; reflexivity.
  - intros ops F. unfold run_modes. revert Start. generalize (train false self (setf (training s) new true)) as tr.
    induction F as [|[m mode] ops G F IH]; intros tr Start i J; cbn [fold_left]; [auto|].
    apply IH; [|exact J]. cbn [fst snd] in *. intros j Q. apply (train_guarded (size m) inside m mode tr); auto.
Qed.

(** A model without a bottleneck is refused. *)
Theorem C89_projector_needs_bottleneck : forall new enc s, make_projector new enc None s = Raise AssertionError.
Proof. reflexivity. Qed.

(** * Non-vacuity and deviations *)

(** Encoder 2 with a normalisation 3, decoder 4, bottleneck 5; model 1; projector 9. *)
Definition enc0 := Node 2 false [("weight", 20)] [("norm", Node 3 false [("weight", 30)] [])].
Definition bot0 := Node 5 false [("quantiles", 50)] [].
Definition vq0 := Node 1 false [] [("encoder", enc0); ("decoder", Node 4 false [("weight", 40)] []); ("bottleneck_op", bot0)].
Definition s0 := mkS (fun _ => true) (fun _ => true).
Definition gan0 (p : module) := Node 8 false [] [("model", Node 7 false [("weight", 70)] []); ("latent_projector", p)].

Ltac ok_names := repeat constructor; cbn; try discriminate; intuition discriminate.
Ltac walk_all :=
  repeat match goal with
  | H : leads (Node _ _ _ _) _ _ |- _ => inversion H; subst; clear H
  | H : leads ?m _ _ |- _ => unfold m in H
  | H : In _ (kids _) |- _ => cbn in H
  | H : _ \/ _ |- _ => destruct H
  | H : False |- _ => contradiction
  | H : (_, _) = (_, _) |- _ => injection H as <- <-
  end.

Lemma vq0_valid : valid vq0.
Proof.
  split.
  - intros path s H. unfold vq0 in H. walk_all; split; cbn; ok_names.
  - intros path s path' s' H H' E. unfold vq0 in H, H'. walk_all; cbn in E; try discriminate; reflexivity.
Qed.

Lemma projector0_valid : valid (Node 9 true [] [("encoder", enc0); ("bottleneck_op", bot0)]).
Proof.
  split.
  - intros path s H. walk_all; split; cbn; ok_names.
  - intros path s path' s' H H' E. walk_all; cbn in E; try discriminate; reflexivity.
Qed.

(** The stage holds the model: its quantiles go to the second optimiser; the tensor that
    two places share is listed once. *)
Example C89_ex_groups :
  dvc_configure_optimizers (fun p => negb (p =? 30)) false true vq0 = Ok [mkOpt [20; 40] true false; mkOpt [50] false true] /\
  named_parameters (Node 0 false [] [("a", enc0); ("b", enc0); ("c", Node 6 false [("tied", 20)] [])]) =
    [("a.weight", 20); ("a.norm.weight", 30)].
Proof. vm_compute. auto. Qed.

(** The usual history: the GAN module that holds the projector is switched to training
    and back. *)
Example C89_ex_projector :
  match make_projector 9 enc0 (Some bot0) s0 with
  | Ok (p, s') =>
      let tr := run_modes [(gan0 p, true); (gan0 p, false); (gan0 p, true)] (training s') in
      map tr [2; 3; 5; 7; 8; 9] = [false; false; false; true; true; false] /\ map (requires s') [20; 30; 40; 50] = [false; false; true; false]
  | Raise _ => False
  end.
Proof. vm_compute. auto. Qed.

Example C89_ex_guarded :
  guarded (fun i => i = 9 \/ below enc0 i \/ below bot0 i) (gan0 (Node 9 true [] [("encoder", enc0); ("bottleneck_op", bot0)])).
Proof.
  assert (N : forall i, 6 < i < 9 -> ~ (i = 9 \/ below enc0 i \/ below bot0 i)).
  { intros i I [E|[[q [u [L E]]]|[q [u [L E]]]]]; [lia| |]; unfold enc0, bot0 in L; walk_all; cbn in I; lia. }
  cbn. repeat split; apply N; lia.
Qed.

(** Known deviation: the projector does not stay in evaluation mode when the model it was
    made from is switched to training; and that model's encoder is frozen with it. *)
Theorem C89_projector_mode_refuted :
  exists p s', make_projector 9 enc0 (Some bot0) s0 = Ok (p, s') /\
    run_modes [(vq0, true)] (training s') 3 = true /\ requires s' 20 = false.
Proof. eexists _, _. split; [reflexivity|]. vm_compute. auto. Qed.

(** Known deviation: the parameter of a bottleneck that is itself the root is not taken
    for a quantile, because its name has no dot. *)
Theorem C89_root_quantiles_refuted :
  fst (collect_parameters (fun _ => true) false bot0) = [("quantiles", 50)].
Proof. reflexivity. Qed.

Print Assumptions C89_named_parameters.
Print Assumptions C89_groups.
Print Assumptions C89_dvc_optimizers.
Print Assumptions C89_single_optimizer.
Print Assumptions C89_single_optimizer_kind.
Print Assumptions C89_vct_quantiles_untrained.
Print Assumptions C89_projector.
Print Assumptions C89_projector_needs_bottleneck.
Print Assumptions C89_projector_mode_refuted.
Print Assumptions C89_root_quantiles_refuted.

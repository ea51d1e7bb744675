(** C87: what the entry points of the model zoo and of torch.hub return, for every
    history and interleaving of calls that share the cache of torch.hub. *)
From Coq Require Import String List Bool Arith Lia Ascii.
From Verif Require Import Base Zoo_Model.
Import ListNotations.
Open Scope string_scope.
Open Scope list_scope.
Open Scope nat_scope.

(** * Specification *)

(** The documentation of the entry points (docstrings of hubconf.py and the table
    of projects/illm/README.md): the method, the network and the target rate. *)
Definition doc_method (e : entry) : string :=
  match e with
  | E_msillm_vlo1 | E_msillm_vlo2 | E_msillm_1 | E_msillm_2 | E_msillm_3
  | E_msillm_4 | E_msillm_5 | E_msillm_6 => "msillm"
  | E_noganms_1 | E_noganms_2 | E_noganms_3
  | E_noganms_4 | E_noganms_5 | E_noganms_6 => "noganms"
  | E_vqvae => "vqvae_xcit_p8_ch64_cb1024_h8"
  end.
Definition doc_arch (e : entry) : arch := match e with E_vqvae => VqVaeXCiT | _ => HiFiC end.
Definition doc_rate (e : entry) : option string :=
  match e with
  | E_msillm_vlo1 => Some "0.00218"
  | E_msillm_vlo2 => Some "0.00438"
  | E_msillm_1 | E_noganms_1 => Some "0.035"
  | E_msillm_2 | E_noganms_2 => Some "0.07"
  | E_msillm_3 | E_noganms_3 => Some "0.14"
  | E_msillm_4 | E_noganms_4 => Some "0.3"
  | E_msillm_5 | E_noganms_5 => Some "0.45"
  | E_msillm_6 | E_noganms_6 => Some "0.9"
  | E_vqvae => None
  end.

(** The checkpoint that belongs to an entry point, and where it is served. *)
Definition doc_file (e : entry) : string :=
  match doc_rate e with
  | Some r => (doc_method e ++ "_target_" ++ r ++ "bpp.ckpt")%string
  | None => (doc_method e ++ ".ckpt")%string
  end.
Definition doc_url (e : entry) : string :=
  ("https://dl.fbaipublicfiles.com/NeuralCompression/2023-muckley-msillm/" ++ doc_file e)%string.

Definition entry_of (k : call) : entry := match k with Hub e _ _ | Zoo e _ _ => e end.

(** Whether a call asks for trained weights: through the hub unless something else
    than True is passed, through the package only if True is passed. *)
Definition wants (k : call) : option entry :=
  match k with
  | Hub e None _ | Hub e (Some PTrue) _ | Zoo e (Some PTrue) _ => Some e
  | _ => None
  end.

(** * Lemmas *)

Lemma plan_of_spec : forall k,
  plan_of k = match wants k with
              | Some e => Ok (FromUrl (doc_arch e) (doc_url e))
              | None => Ok (Untrained (doc_arch (entry_of k)))
              end.
Proof.
  intros [e [[| |b]|] kw | e [[| |b]|] kw]; destruct e; reflexivity.
Qed.

Lemma wants_entry : forall k e, wants k = Some e -> entry_of k = e.
Proof. intros [e [[| |b]|] kw | e [[| |b]|] kw] e' H; cbn in *; congruence. Qed.

Lemma base_doc : forall e, basename (doc_url e) = doc_file e.
Proof. intros e; destruct e; reflexivity. Qed.

(** Two entry points never share a cache file: every checkpoint has a name of its
    own, although the cache forgets the directory of the URL. *)
Theorem C87_files_distinct : forall e e', basename (doc_url e) = basename (doc_url e') -> e = e'.
Proof.
  intros e e'; rewrite !base_doc; destruct e, e'; intros H; try reflexivity; vm_compute in H; discriminate.
Qed.

(** An unknown name of weights is refused before anything is downloaded, and the
    valid ones are the documented ones. *)
Theorem C87_unknown_weights : forall w,
  (build_msillm (Some w) = Raise ValueError \/
   exists e, doc_method e = "msillm" /\ build_msillm (Some w) = Ok (FromUrl HiFiC (doc_url e))) /\
  (build_noganms (Some w) = Raise ValueError \/
   exists e, doc_method e = "noganms" /\ build_noganms (Some w) = Ok (FromUrl HiFiC (doc_url e))) /\
  (build_vqvae (Some w) = Raise ValueError \/ build_vqvae (Some w) = Ok (FromUrl VqVaeXCiT (doc_url E_vqvae))).
Proof.
  intros w; repeat split.
  - unfold build_msillm; destruct (in_list w valid_msillm) eqn:E; [right|left; reflexivity].
    unfold in_list in E; apply existsb_exists in E; destruct E as [x [I Q]].
    apply String.eqb_eq in Q; subst x.
    cbn in I; repeat destruct I as [<-|I]; try contradiction.
    + exists E_msillm_vlo1; split; reflexivity.
    + exists E_msillm_vlo2; split; reflexivity.
    + exists E_msillm_1; split; reflexivity.
    + exists E_msillm_2; split; reflexivity.
    + exists E_msillm_3; split; reflexivity.
    + exists E_msillm_4; split; reflexivity.
    + exists E_msillm_5; split; reflexivity.
    + exists E_msillm_6; split; reflexivity.
  - unfold build_noganms; destruct (in_list w valid_noganms) eqn:E; [right|left; reflexivity].
    unfold in_list in E; apply existsb_exists in E; destruct E as [x [I Q]].
    apply String.eqb_eq in Q; subst x.
    cbn in I; repeat destruct I as [<-|I]; try contradiction.
    + exists E_noganms_1; split; reflexivity.
    + exists E_noganms_2; split; reflexivity.
    + exists E_noganms_3; split; reflexivity.
    + exists E_noganms_4; split; reflexivity.
    + exists E_noganms_5; split; reflexivity.
    + exists E_noganms_6; split; reflexivity.
  - unfold build_vqvae; destruct (in_list w valid_vqvae) eqn:E; [right|left; reflexivity].
    unfold in_list in E; apply existsb_exists in E; destruct E as [x [I Q]].
    apply String.eqb_eq in Q; subst x.
    cbn in I; repeat destruct I as [<-|I]; try contradiction. reflexivity.
Qed.

(** Further keyword arguments change nothing, and the hub and the package build the
    same thing when [pretrained] is given. *)
Theorem C87_same_through_hub_and_zoo : forall e p kw kw',
  hub_call e (Some p) kw = zoo_call e (Some p) kw' /\
  hub_call e None kw = zoo_call e (Some PTrue) kw' /\
  zoo_call e None kw = hub_call e (Some PFalse) kw'.
Proof. intros e p kw kw'; destruct e; repeat split; reflexivity. Qed.

Section Props.
Context {block weights : Type}.
Variable server : string -> option (list block).
Variable torch_load : list block -> option weights.
Variable fits : arch -> weights -> bool.

Notation step := (step server torch_load fits).
Notation run := (run server torch_load fits).
Notation sys_step := (sys_step server torch_load fits).
Notation cache := (cache block).
Notation proc := (proc block weights).

(** A file that a download left: a beginning of what the server has. *)
Definition cache_good (c : cache) : Prop :=
  forall e f, c (doc_file e) = Some f -> exists rest, server (doc_url e) = Some (f ++ rest).

(** A whole file. *)
Definition cache_whole (c : cache) : Prop :=
  forall e f, c (doc_file e) = Some f -> server (doc_url e) = Some f.

(** A file that was cut off is not a checkpoint (a torch checkpoint is an archive
    with its table of contents at the end). *)
Definition cut_is_broken : Prop :=
  forall e f b rest, server (doc_url e) = Some (f ++ b :: rest) -> torch_load f = None.

Definition calls (ks : list call) : list proc := map (fun k => Begin k) ks.

Lemma put_eq : forall (c : cache) n v, put c n v n = Some v.
Proof. intros c n v; unfold put; rewrite String.eqb_refl; reflexivity. Qed.

Lemma put_ne : forall (c : cache) n v m, m <> n -> put c n v m = c m.
Proof.
  intros c n v m H; unfold put; destruct (String.eqb m n) eqn:E; [|reflexivity].
  apply String.eqb_eq in E; contradiction.
Qed.

Lemma file_inj : forall e e', doc_file e = doc_file e' -> e = e'.
Proof. intros e e' H; apply C87_files_distinct; rewrite !base_doc; exact H. Qed.

Lemma put_good : forall c e got rest, cache_good c -> server (doc_url e) = Some (got ++ rest) ->
  cache_good (put c (doc_file e) got).
Proof.
  intros c e got rest G S e' f H.
  destruct (string_dec (doc_file e') (doc_file e)) as [E|E].
  - apply file_inj in E; subst e'. rewrite put_eq in H; injection H as <-. exists rest; exact S.
  - rewrite put_ne in H by exact E. exact (G e' f H).
Qed.

Lemma put_whole : forall c e got, cache_whole c -> server (doc_url e) = Some got ->
  cache_whole (put c (doc_file e) got).
Proof.
  intros c e got G S e' f H.
  destruct (string_dec (doc_file e') (doc_file e)) as [E|E].
  - apply file_inj in E; subst e'. rewrite put_eq in H; injection H as <-. exact S.
  - rewrite put_ne in H by exact E. exact (G e' f H).
Qed.

(** What is true of one process at any moment. *)
Definition pinv (c : cache) (k : call) (p : proc) : Prop :=
  match p with
  | Begin k' => k' = k
  | Look a url => exists e, wants k = Some e /\ a = doc_arch e /\ url = doc_url e
  | Fetch a url got rest =>
      exists e, wants k = Some e /\ a = doc_arch e /\ url = doc_url e /\ server url = Some (got ++ rest)
  | Read a url =>
      exists e, wants k = Some e /\ a = doc_arch e /\ url = doc_url e /\ c (doc_file e) <> None
  | Done (Ok (Initial a)) => wants k = None /\ a = doc_arch (entry_of k)
  | Done (Ok (Loaded a w)) =>
      exists e bs, wants k = Some e /\ a = doc_arch e /\ server (doc_url e) = Some bs /\ torch_load bs = Some w
  | Done (Raise _) => wants k <> None
  | Killed => True
  end.

Definition inv (ks : list call) (s : cache * list proc) : Prop :=
  cache_good (fst s) /\ Forall2 (pinv (fst s)) ks (snd s).

(** Files are never removed. *)
Definition grows (c c' : cache) : Prop := forall n, c n <> None -> c' n <> None.

Lemma pinv_grows : forall c c' k p, grows c c' -> pinv c k p -> pinv c' k p.
Proof.
  intros c c' k p G H; destruct p as [k'|a url|a url got rest|a url|[[a|a w]|x]|]; cbn in *; try exact H.
  destruct H as [e [A [B [C D]]]]; exists e; repeat split; auto.
Qed.

Lemma put_grows : forall c n v, grows c (put c n v).
Proof.
  intros c n v m H; unfold put; destruct (String.eqb m n); [discriminate|exact H].
Qed.

Lemma step_inv : forall ev c k p, cut_is_broken -> cache_good c -> pinv c k p ->
  cache_good (fst (step ev c p)) /\ pinv (fst (step ev c p)) k (snd (step ev c p)) /\
  grows c (fst (step ev c p)).
Proof.
  intros ev c k p CB G H.
  assert (R : grows c c) by (intros n X; exact X).
  destruct p as [k'|a url|a url got rest|a url|[[a|a w]|x]|].
  - cbn in H; subst k'.
    destruct ev; cbn [Zoo_Model.step fst snd]; try (repeat split; auto; fail);
      rewrite plan_of_spec; (split; [exact G|split; [|exact R]]);
      destruct (wants k) as [e|] eqn:W; cbn; try (exists e; auto); try (split; [exact W|reflexivity]).
  - destruct H as [e [A [B C]]]; subst a url.
    assert (K : forall q, q = Done (Raise OSError) \/ (exists bs, server (doc_url e) = Some bs /\
                 q = Fetch (doc_arch e) (doc_url e) [] bs) \/
                 (c (doc_file e) <> None /\ q = Read (doc_arch e) (doc_url e)) -> pinv c k q).
    { intros q [->|[[bs [S ->]]|[N ->]]]; cbn.
      - rewrite A; discriminate.
      - exists e; auto.
      - exists e; auto. }
    destruct ev; cbn [Zoo_Model.step fst snd]; try (repeat split; auto; fail);
      (split; [exact G|split; [|exact R]]); apply K; rewrite base_doc;
      destruct (c (doc_file e)) eqn:E;
      try (right; right; split; [discriminate|reflexivity]);
      destruct (server (doc_url e)) as [bs|] eqn:S; eauto.
  - destruct H as [e [A [B [C D]]]]; subst a url.
    assert (P : cache_good (put c (doc_file e) got)) by (eapply put_good; eauto).
    destruct ev.
    + destruct rest as [|b rest]; cbn [Zoo_Model.step fst snd].
      * rewrite base_doc. split; [exact P|]. split; [|apply put_grows].
        cbn; exists e; repeat split; auto. rewrite put_eq; discriminate.
      * split; [exact G|]. split; [|exact R]. cbn; exists e; repeat split; auto.
        rewrite <- app_assoc; exact D.
    + destruct rest; cbn; auto.
    + destruct rest; cbn; (split; [exact G|split; [rewrite A; discriminate|exact R]]).
    + assert (Q : step Close c (Fetch (doc_arch e) (doc_url e) got rest) =
                  (put c (basename (doc_url e)) got, Read (doc_arch e) (doc_url e))) by (destruct rest; reflexivity).
      rewrite Q; cbn [fst snd]. rewrite base_doc. split; [exact P|]. split; [|apply put_grows].
      cbn; exists e; repeat split; auto. rewrite put_eq; discriminate.
  - destruct H as [e [A [B [C D]]]]; subst a url.
    assert (K : pinv c k (Done (match c (basename (doc_url e)) with
                | None => Raise FileNotFoundError
                | Some f => match torch_load f with
                            | None => Raise RuntimeError
                            | Some w => if fits (doc_arch e) w then Ok (Loaded (doc_arch e) w) else Raise RuntimeError
                            end
                end))).
    { rewrite base_doc; destruct (c (doc_file e)) as [f|] eqn:F; [|contradiction].
      destruct (torch_load f) as [w|] eqn:L; [|cbn; rewrite A; discriminate].
      destruct (fits (doc_arch e) w); [|cbn; rewrite A; discriminate].
      cbn. destruct (G e f F) as [rest S]. destruct rest as [|b rest].
      - rewrite app_nil_r in S. exists e, f; auto.
      - rewrite (CB e f b rest S) in L; discriminate. }
    destruct ev; cbn [Zoo_Model.step fst snd]; (split; [exact G|split; [|exact R]]); first [exact K|exact I].
  - destruct ev; cbn; auto.
  - destruct ev; cbn; auto.
  - destruct ev; cbn; auto.
  - destruct ev; cbn; auto.
Qed.

Lemma Forall2_upd : forall (P : call -> proc -> Prop) ks ps i p,
  Forall2 P ks ps -> (forall k, nth_error ks i = Some k -> P k p) -> Forall2 P ks (upd i p ps).
Proof.
  intros P ks ps i p F; revert i; induction F as [|k q ks ps H F IH]; intros i G.
  - destruct i; constructor.
  - destruct i as [|i]; cbn.
    + constructor; [apply G; reflexivity|exact F].
    + constructor; [exact H|]. apply IH; intros k' E; apply G; exact E.
Qed.

Lemma Forall2_nth : forall (P : call -> proc -> Prop) ks ps i p,
  Forall2 P ks ps -> nth_error ps i = Some p -> exists k, nth_error ks i = Some k /\ P k p.
Proof.
  intros P ks ps i p F; revert i; induction F as [|k q ks ps H F IH]; intros [|i] E; cbn in *; try discriminate.
  - injection E as <-; exists k; auto.
  - exact (IH i E).
Qed.

Lemma sys_step_inv : forall ks s m, cut_is_broken -> inv ks s -> inv ks (sys_step s m).
Proof.
  intros ks [c ps] [i ev] CB [G F]; unfold Zoo_Model.sys_step; cbn [fst snd] in *.
  destruct (nth_error ps i) as [p|] eqn:E; [|split; assumption].
  destruct (Forall2_nth _ _ _ _ _ F E) as [k [K P]].
  destruct (step_inv ev c k p CB G P) as [G' [P' R]].
  destruct (step ev c p) as [c' p'] eqn:Q; cbn [fst snd] in *.
  split; cbn [fst snd]; [exact G'|].
  apply Forall2_upd.
  - clear - F R. induction F; constructor; auto. eapply pinv_grows; eauto.
  - intros k' K'; rewrite K in K'; injection K' as <-; exact P'.
Qed.

Lemma run_inv : forall ks tr s, cut_is_broken -> inv ks s -> inv ks (run s tr).
Proof.
  intros ks tr; induction tr as [|m tr IH]; intros s CB I; [exact I|].
  cbn. apply IH; [exact CB|]. apply sys_step_inv; assumption.
Qed.

Lemma start_inv : forall ks c, cache_good c -> inv ks (c, calls ks).
Proof.
  intros ks c G; split; cbn [fst snd]; [exact G|].
  unfold calls; induction ks; cbn; constructor; [reflexivity|assumption].
Qed.

(** Every model that a call asking for trained weights returns is the documented
    network with exactly the weights the server has for that entry point, whatever
    the other calls are, in every interleaving, with processes killed and connections
    broken or closed at any moment; and every other call that returns gives the
    documented network with its initial weights. *)
Theorem C87_right_weights : forall ks c tr i k net,
  cut_is_broken -> cache_good c ->
  nth_error ks i = Some k ->
  nth_error (snd (run (c, calls ks) tr)) i = Some (Done (Ok net)) ->
  match wants k with
  | Some e => exists bs w, server (doc_url e) = Some bs /\ torch_load bs = Some w /\
                           net = Loaded (doc_arch e) w
  | None => net = Initial (doc_arch (entry_of k))
  end.
Proof.
  intros ks c tr i k net CB G K E.
  destruct (run_inv ks tr _ CB (start_inv ks c G)) as [_ F].
  destruct (Forall2_nth _ _ _ _ _ F E) as [k' [K' P]].
  rewrite K in K'; injection K' as <-.
  destruct net as [a|a w]; cbn [pinv] in P.
  - destruct P as [W ->]; rewrite W; reflexivity.
  - destruct P as [e [bs [W [-> [S L]]]]]; rewrite W; exists bs, w; auto.
Qed.

(** No call without trained weights fails. *)
Theorem C87_untrained_never_fails : forall ks c tr i k x,
  cut_is_broken -> cache_good c -> nth_error ks i = Some k -> wants k = None ->
  nth_error (snd (run (c, calls ks) tr)) i <> Some (Done (Raise x)).
Proof.
  intros ks c tr i k x CB G K W E.
  destruct (run_inv ks tr _ CB (start_inv ks c G)) as [_ F].
  destruct (Forall2_nth _ _ _ _ _ F E) as [k' [K' P]].
  rewrite K in K'; injection K' as <-. cbn in P; contradiction.
Qed.

(** Only calls for trained weights touch the cache, and each only its own file. *)
Theorem C87_only_own_file : forall ks tr c n, cut_is_broken -> cache_good c ->
  (forall k e, In k ks -> wants k = Some e -> doc_file e <> n) ->
  fst (run (c, calls ks) tr) n = c n.
Proof.
  intros ks tr c n CB G H.
  assert (A : forall tr s, inv ks s -> fst (run s tr) n = fst s n).
  { clear tr; intros tr; induction tr as [|[i ev] tr IH]; intros s I; [reflexivity|].
    cbn [Zoo_Model.run fold_left]. fold (run (sys_step s (i, ev)) tr).
    rewrite IH by (apply sys_step_inv; assumption).
    destruct s as [d ps]; destruct I as [D F]; unfold Zoo_Model.sys_step; cbn [fst snd] in *.
    destruct (nth_error ps i) as [p|] eqn:E; [|reflexivity].
    destruct (Forall2_nth _ _ _ _ _ F E) as [k [K P]].
    apply nth_error_In in K.
    destruct p as [k'|a url|a url got rest|a url|r|]; destruct ev; try reflexivity;
      cbn [Zoo_Model.step].
    - destruct rest; [|reflexivity]. destruct P as [e [W [_ [-> _]]]].
      cbn [fst]. rewrite base_doc; apply put_ne. intros Q; exact (H k e K W (eq_sym Q)).
    - destruct rest; reflexivity.
    - destruct rest; reflexivity.
    - destruct P as [e [W [_ [-> _]]]].
      destruct rest; cbn [fst]; rewrite base_doc; apply put_ne; intros Q; exact (H k e K W (eq_sym Q)). }
  rewrite A by (apply start_inv; exact G). reflexivity.
Qed.

(** As long as no connection is closed early, only whole files are in the cache. *)
Lemma run_whole : forall ks tr s, cut_is_broken -> inv ks s -> cache_whole (fst s) ->
  (forall m, In m tr -> snd m <> Close) -> cache_whole (fst (run s tr)).
Proof.
  intros ks tr; induction tr as [|[i ev] tr IH]; intros s CB I W N; [exact W|].
  cbn [Zoo_Model.run fold_left]. fold (run (sys_step s (i, ev)) tr).
  apply IH.
  - exact CB.
  - apply sys_step_inv; assumption.
  - destruct s as [c ps]; destruct I as [G F]; unfold Zoo_Model.sys_step; cbn [fst snd] in *.
    destruct (nth_error ps i) as [p|] eqn:E; [|exact W].
    destruct (Forall2_nth _ _ _ _ _ F E) as [k [K P]].
    assert (NC : ev <> Close) by (apply (N (i, ev)); left; reflexivity).
    destruct p as [k'|a url|a url got rest|a url|r|]; destruct ev; try exact W; try contradiction;
      cbn [Zoo_Model.step].
    + destruct rest; [|exact W]. destruct P as [e [_ [_ [-> S]]]].
      rewrite app_nil_r in S. cbn [fst]; rewrite base_doc; apply put_whole; assumption.
    + destruct rest; exact W.
    + destruct rest; exact W.
  - intros m M; apply N; right; exact M.
Qed.

Theorem C87_cache_holds_whole_files : forall ks tr c, cut_is_broken -> cache_whole c ->
  (forall m, In m tr -> snd m <> Close) -> cache_whole (fst (run (c, calls ks) tr)).
Proof.
  intros ks tr c CB W N. apply (run_whole ks); auto.
  apply start_inv. intros e f H; exists []; rewrite app_nil_r; exact (W e f H).
Qed.

(** Progress of one process that is scheduled alone. *)
Lemma upd_nth : forall i (p : proc) ps, i < length ps -> nth_error (upd i p ps) i = Some p.
Proof.
  intros i p ps; revert i; induction ps as [|q ps IH]; intros [|i] H; cbn in *; try lia; [reflexivity|].
  apply IH; lia.
Qed.

Lemma upd_upd : forall i (p q : proc) ps, upd i p (upd i q ps) = upd i p ps.
Proof.
  intros i p q ps; revert i; induction ps as [|r ps IH]; intros [|i]; cbn; try reflexivity.
  rewrite IH; reflexivity.
Qed.

Lemma upd_length : forall i (p : proc) ps, length (upd i p ps) = length ps.
Proof. intros i p ps; revert i; induction ps as [|r ps IH]; intros [|i]; cbn; auto. Qed.

Fixpoint solo (n : nat) (c : cache) (p : proc) : cache * proc :=
  match n with 0 => (c, p) | S n' => let '(c', p') := step Go c p in solo n' c' p' end.

Lemma run_solo : forall n i c ps p, nth_error ps i = Some p ->
  nth_error (snd (run (c, ps) (repeat (i, Go) n))) i = Some (snd (solo n c p)).
Proof.
  intros n; induction n as [|n IH]; intros i c ps p E; [exact E|].
  cbn [repeat Zoo_Model.run fold_left solo].
  unfold Zoo_Model.sys_step at 2; cbn [fst snd]. rewrite E.
  destruct (step Go c p) as [c' p'] eqn:Q.
  apply (IH i c' (upd i p' ps) p').
  apply upd_nth. apply nth_error_Some; congruence.
Qed.

Lemma solo_done : forall n c r, solo n c (Done r) = (c, Done r).
Proof. intros n c r; induction n; [reflexivity|exact IHn]. Qed.

Lemma solo_read : forall n c a url f w, c (basename url) = Some f -> torch_load f = Some w -> fits a w = true ->
  n >= 1 -> snd (solo n c (Read a url)) = Done (Ok (Loaded a w)).
Proof.
  intros [|n] c a url f w C L F N; [lia|]. cbn. rewrite C, L, F, solo_done; reflexivity.
Qed.

Lemma solo_fetch : forall rest n c a url got w, torch_load (got ++ rest) = Some w -> fits a w = true ->
  n >= length rest + 2 -> snd (solo n c (Fetch a url got rest)) = Done (Ok (Loaded a w)).
Proof.
  intros rest; induction rest as [|b rest IH]; intros [|n] c a url got w L F N; cbn [length] in N; try lia.
  - cbn [solo Zoo_Model.step]. rewrite app_nil_r in L.
    apply (solo_read _ _ _ _ got); auto; [apply put_eq|lia].
  - cbn [solo Zoo_Model.step]. apply IH; [rewrite <- app_assoc; exact L|exact F|lia].
Qed.

Lemma solo_look : forall n c e bs w, cache_whole c -> server (doc_url e) = Some bs -> torch_load bs = Some w ->
  fits (doc_arch e) w = true -> n >= length bs + 3 ->
  snd (solo n c (Look (doc_arch e) (doc_url e))) = Done (Ok (Loaded (doc_arch e) w)).
Proof.
  intros [|n] c e bs w W S L F N; [lia|].
  cbn [solo Zoo_Model.step]. rewrite base_doc.
  destruct (c (doc_file e)) as [f|] eqn:C.
  - pose proof (W e f C) as Q; rewrite S in Q; injection Q as <-.
    apply (solo_read _ _ _ _ bs); auto; [rewrite base_doc; exact C|lia].
  - rewrite S. apply solo_fetch; auto; lia.
Qed.

(** Killed and failed calls do no harm: after any history without connections closed
    early, a call for trained weights that is neither dead nor already failed returns
    the trained model as soon as it is left to run, whatever happened to the others. *)
Theorem C87_recovers : forall ks c tr i k e bs w n,
  cut_is_broken -> cache_whole c -> (forall m, In m tr -> snd m <> Close) ->
  nth_error ks i = Some k -> wants k = Some e ->
  server (doc_url e) = Some bs -> torch_load bs = Some w -> fits (doc_arch e) w = true ->
  nth_error (snd (run (c, calls ks) tr)) i <> Some Killed ->
  (forall x, nth_error (snd (run (c, calls ks) tr)) i <> Some (Done (Raise x))) ->
  n >= length bs + 4 ->
  nth_error (snd (run (run (c, calls ks) tr) (repeat (i, Go) n))) i = Some (Done (Ok (Loaded (doc_arch e) w))).
Proof.
  intros ks c tr i k e bs w n CB W N K WK S L F NK NR B.
  pose proof (C87_cache_holds_whole_files ks tr c CB W N) as W'.
  assert (G : cache_good c) by (intros e' f H; exists []; rewrite app_nil_r; exact (W e' f H)).
  destruct (run_inv ks tr _ CB (start_inv ks c G)) as [G' I].
  destruct (run (c, calls ks) tr) as [c' ps]; cbn [fst snd] in *.
  destruct (nth_error ps i) as [p|] eqn:E.
  2:{ exfalso. assert (X : length ks = length ps) by (clear - I; induction I; cbn; auto).
      apply nth_error_None in E. assert (i < length ks) by (apply nth_error_Some; congruence). lia. }
  rewrite (run_solo n i c' ps p E). f_equal.
  destruct (Forall2_nth _ _ _ _ _ I E) as [k' [K' P]].
  rewrite K in K'; injection K' as <-.
  destruct p as [k'|a url|a url got rest|a url|[[a|a v]|x]|]; cbn [pinv] in P.
  - subst k'. destruct n as [|n]; [lia|]. cbn [solo Zoo_Model.step]. rewrite plan_of_spec, WK.
    apply (solo_look _ _ _ bs); auto; lia.
  - destruct P as [e' [A [-> ->]]]. rewrite WK in A; injection A as <-.
    apply (solo_look _ _ _ bs); auto; lia.
  - destruct P as [e' [A [-> [-> D]]]]. rewrite WK in A; injection A as <-.
    rewrite S in D; injection D as ->. apply solo_fetch; auto. rewrite app_length in B; lia.
  - destruct P as [e' [A [-> [-> D]]]]. rewrite WK in A; injection A as <-.
    destruct (c' (doc_file e)) as [f|] eqn:C; [|contradiction].
    pose proof (W' e f C) as Q; rewrite S in Q; injection Q as <-.
    apply (solo_read _ _ _ _ bs); auto; [rewrite base_doc; exact C|lia].
  - destruct P as [P _]; congruence.
  - destruct P as [e' [bs' [A [-> [D L']]]]]. rewrite WK in A; injection A as <-.
    rewrite S in D; injection D as <-. rewrite L in L'; injection L' as <-.
    rewrite solo_done; reflexivity.
  - exfalso; exact (NR x eq_refl).
  - contradiction.
Qed.

(** Known deviation: nothing checks a download.  Once a connection was closed early,
    every later call for the same entry point fails, whatever happens, until somebody
    removes the file by hand. *)
Theorem C87_cut_download_is_never_repaired : forall ks c tr i k e f r,
  cut_is_broken -> cache_good c ->
  c (doc_file e) = Some f -> server (doc_url e) <> Some f ->
  nth_error ks i = Some k -> wants k = Some e ->
  nth_error (snd (run (c, calls ks) tr)) i = Some (Done r) -> r = Raise RuntimeError.
Proof.
  intros ks c tr i k e f r CB G C S K W E.
  destruct (G e f C) as [rest R].
  assert (L : torch_load f = None).
  { destruct rest as [|b rest]; [rewrite app_nil_r in R; contradiction|]. exact (CB e f b rest R). }
  (* no process ever downloads this file *)
  set (J := fun (s : cache * list proc) =>
    fst s (doc_file e) = Some f /\
    Forall2 (fun k p => wants k = Some e ->
      p = Begin k \/ p = Look (doc_arch e) (doc_url e) \/ p = Read (doc_arch e) (doc_url e) \/
      p = Done (Raise RuntimeError) \/ p = Killed) ks (snd s)).
  assert (A : forall tr s, inv ks s -> J s -> J (run s tr)).
  { clear tr E. intros tr; induction tr as [|[j ev] tr IH]; intros s I Js; [exact Js|].
    cbn [Zoo_Model.run fold_left]. fold (run (sys_step s (j, ev)) tr).
    apply IH; [apply sys_step_inv; assumption|].
    destruct s as [d ps]; destruct I as [D F]; destruct Js as [Jc Jp]; unfold Zoo_Model.sys_step; cbn [fst snd] in *.
    destruct (nth_error ps j) as [p|] eqn:E; [|split; assumption].
    destruct (Forall2_nth _ _ _ _ _ F E) as [k' [K' P]].
    destruct (Forall2_nth _ _ _ _ _ Jp E) as [k'' [K'' Q]].
    rewrite K' in K''; injection K'' as <-.
    assert (X : fst (step ev d p) (doc_file e) = Some f).
    { destruct (string_dec (match wants k' with Some e' => doc_file e' | None => "" end) (doc_file e)) as [Y|Y].
      - destruct (wants k') as [e'|] eqn:W'.
        2:{ exfalso; clear - Y; destruct e; discriminate. }
        apply file_inj in Y; subst e'.
        destruct (Q eq_refl) as [-> | [-> | [-> | [-> | ->]]]]; destruct ev; exact Jc.
      - destruct p as [q|a url|a url got rst|a url|q|]; destruct ev; try exact Jc; cbn [Zoo_Model.step].
        + destruct rst; [|exact Jc]. destruct P as [e' [W' [_ [-> _]]]]. rewrite W' in Y.
          cbn [fst]. rewrite base_doc, put_ne; [exact Jc|congruence].
        + destruct rst; exact Jc.
        + destruct rst; exact Jc.
        + destruct P as [e' [W' [_ [-> _]]]]. rewrite W' in Y.
          destruct rst; cbn [fst]; rewrite base_doc, put_ne; try exact Jc; congruence. }
    destruct (step ev d p) as [d' p'] eqn:Z; cbn [fst] in X.
    split; cbn [fst snd]; [exact X|].
    apply Forall2_upd; [exact Jp|].
    intros k'' K'' W'. rewrite K' in K''; injection K'' as <-.
    destruct (Q W') as [-> | [-> | [-> | [-> | ->]]]]; destruct ev; cbn [Zoo_Model.step] in Z;
      rewrite ?base_doc, ?plan_of_spec, ?W', ?Jc, ?L in Z; injection Z as <- <-; auto. }
  assert (J0 : J (c, calls ks)).
  { split; [exact C|]. cbn [snd]. unfold calls. clear. induction ks; cbn; constructor; auto. }
  destruct (A tr _ (start_inv ks c G) J0) as [_ F].
  destruct (Forall2_nth _ _ _ _ _ F E) as [k' [K' P]].
  rewrite K in K'; injection K' as <-.
  destruct (P W) as [X|[X|[X|[X|X]]]]; congruence.
Qed.

End Props.

(** A whole cached file is enough without a network. *)
Theorem C87_works_offline : forall (block weights : Type) (torch_load : list block -> option weights) fits c e k f w,
  wants k = Some e -> c (doc_file e) = Some f -> torch_load f = Some w -> fits (doc_arch e) w = true ->
  snd (run (fun _ => None) torch_load fits (c, [Begin k]) (repeat (0, Go) 3)) = [Done (Ok (Loaded (doc_arch e) w))].
Proof.
  intros block weights torch_load fits c e k f w W C L F.
  cbn [repeat run fold_left sys_step fst snd nth_error step upd]. rewrite plan_of_spec, W.
  cbn [run fold_left sys_step fst snd nth_error step upd]. rewrite base_doc, C.
  cbn [run fold_left sys_step fst snd nth_error step upd]. rewrite base_doc, C, L, F. reflexivity.
Qed.

(** Known deviation: a true value other than True (1, numpy.bool_(True), a string)
    silently gives an untrained model, through the hub as well. *)
Theorem C87_true_value_refuted :
  ~ (forall e truth kw, truth = true -> hub_call e (Some (POther truth)) kw = hub_call e (Some PTrue) kw).
Proof. intros H; specialize (H E_msillm_1 true [] eq_refl); vm_compute in H; discriminate. Qed.

(** The documented rates grow with the quality. *)
Fixpoint decimal (l : list ascii) (acc k : nat) (dot : bool) : nat * nat :=
  match l with
  | [] => (acc, k)
  | "."%char :: l' => decimal l' acc k true
  | d :: l' => decimal l' (acc * 10 + (nat_of_ascii d - 48)) (if dot then S k else k) dot
  end.
(** A decimal in units of 10^-5. *)
Definition rate (e : entry) : option nat :=
  match doc_rate e with
  | None => None
  | Some s => let '(a, k) := decimal (list_ascii_of_string s) 0 0 false in Some (a * 10 ^ (5 - k))
  end.
Theorem C87_rates_grow :
  map rate [E_msillm_vlo1; E_msillm_vlo2] = [Some 218; Some 438] /\
  map rate [E_msillm_1; E_noganms_1] = [Some 3500; Some 3500] /\
  forall a b, In (a, b) [(E_msillm_vlo1, E_msillm_vlo2); (E_msillm_vlo2, E_msillm_1);
     (E_msillm_1, E_msillm_2); (E_msillm_2, E_msillm_3); (E_msillm_3, E_msillm_4);
     (E_msillm_4, E_msillm_5); (E_msillm_5, E_msillm_6);
     (E_noganms_1, E_noganms_2); (E_noganms_2, E_noganms_3); (E_noganms_3, E_noganms_4);
     (E_noganms_4, E_noganms_5); (E_noganms_5, E_noganms_6)] ->
  match rate a, rate b with Some x, Some y => x < y | _, _ => False end.
Proof.
  split; [reflexivity|]. split; [reflexivity|].
  assert (A : forallb (fun ab => match rate (fst ab), rate (snd ab) with Some x, Some y => x <? y | _, _ => false end)
    [(E_msillm_vlo1, E_msillm_vlo2); (E_msillm_vlo2, E_msillm_1);
     (E_msillm_1, E_msillm_2); (E_msillm_2, E_msillm_3); (E_msillm_3, E_msillm_4);
     (E_msillm_4, E_msillm_5); (E_msillm_5, E_msillm_6);
     (E_noganms_1, E_noganms_2); (E_noganms_2, E_noganms_3); (E_noganms_3, E_noganms_4);
     (E_noganms_4, E_noganms_5); (E_noganms_5, E_noganms_6)] = true) by (vm_compute; reflexivity).
  intros a b I. rewrite forallb_forall in A. specialize (A _ I). cbn [fst snd] in A.
  destruct (rate a) as [x|]; [|discriminate]. destruct (rate b) as [y|]; [|discriminate].
  apply Nat.ltb_lt; exact A.
Qed.

(** A history that meets the hypotheses: the server has two blocks per file, a file
    loads if it is whole; three processes ask for the same model, one is killed in
    the middle of its download, one loses its connection, the third succeeds. *)
Definition ex_server (u : string) : option (list string) := Some [u; "end"].
Definition ex_load (f : list string) : option string :=
  match f with [u; "end"] => Some u | _ => None end.
Example C87_ex_broken : cut_is_broken ex_server ex_load.
Proof.
  intros e f b rest H. unfold ex_server in H. injection H as H.
  destruct f as [|x [|y [|z f]]]; cbn in *; try reflexivity; try discriminate.
Qed.
Example C87_ex_run :
  snd (run ex_server ex_load (fun _ _ => true)
        (fun _ => None, calls [Hub E_msillm_3 None []; Hub E_msillm_3 None []; Zoo E_msillm_3 (Some PTrue) [];
                               Zoo E_noganms_3 None []])
        ([(0, Go); (1, Go); (0, Go); (2, Go); (1, Go); (2, Go); (0, Go); (0, Kill); (1, Break); (3, Go)] ++ repeat (2, Go) 4)) =
  [Killed; Done (Raise OSError);
   Done (Ok (Loaded HiFiC "https://dl.fbaipublicfiles.com/NeuralCompression/2023-muckley-msillm/msillm_target_0.14bpp.ckpt"));
   Done (Ok (Initial HiFiC))].
Proof. vm_compute. reflexivity. Qed.

Print Assumptions C87_files_distinct.
Print Assumptions C87_unknown_weights.
Print Assumptions C87_same_through_hub_and_zoo.
Print Assumptions C87_right_weights.
Print Assumptions C87_untrained_never_fails.
Print Assumptions C87_only_own_file.
Print Assumptions C87_cache_holds_whole_files.
Print Assumptions C87_recovers.
Print Assumptions C87_cut_download_is_never_repaired.
Print Assumptions C87_works_offline.
Print Assumptions C87_true_value_refuted.
Print Assumptions C87_rates_grow.

(** C31: memoisation. *)
From Coq Require Import ZArith List Bool Arith Lia Permutation.
From Verif Require Import Base Memo_Model Memo_Spec Memo_Proofs.
Import ListNotations.
Open Scope Z_scope.

Section Run.
Context {C V : Type}.
Variable f : nat -> heap C -> list val -> list (Z * val) -> res V.

Lemma run_app st h1 h2 : run f st (h1 ++ h2) =
  (fst (run f (fst (run f st h1)) h2), snd (run f st h1) ++ snd (run f (fst (run f st h1)) h2)).
Proof.
  revert st. induction h1 as [|c h1 IH]; intro st; cbn [app run].
  - cbn. destruct (run f st h2); reflexivity.
  - destruct (wrapper f st c) as [st1 o]. rewrite IH. destruct (run f st1 h1) as [st2 os]. reflexivity.
Qed.
Lemma run_length st h : length (snd (run f st h)) = length h.
Proof.
  revert st. induction h as [|c h IH]; intro st; cbn [run]; [reflexivity|]. destruct (wrapper f st c) as [st1 o].
  specialize (IH st1). destruct (run f st1 h). cbn in *. lia.
Qed.
End Run.

(** A memoised function returns what the plain one would return, result or exception,
    for every call in every history of calls, bound to the cache or not, provided that
    the arguments have the forms of the function's signature, that tensors keep their
    contents and identities, and that the function only looks at its arguments. *)
Theorem memo_transparent : forall {C V} (f : nat -> heap C -> list val -> list (Z * val) -> res V) sigs hist,
  pure f -> Forall (well_formed sigs) hist -> stable hist -> Forall (fun c => c_expect c = None) hist ->
  map fst (snd (run f create_cache hist)) = map (plain f) hist.
Proof.
  intros C V f sigs hist PU WF ST EX.
  set (inv := fun (st : cache V) (past : list (call C)) => forall fn k v, In ((fn, k), v) (results st) ->
    exists c, In c past /\ c_fn c = fn /\ make_key (c_args c) (c_kwargs c) = Ok k /\ plain f c = Ok v).
  enough (K : forall todo past st, past ++ todo = hist -> inv st past -> map fst (snd (run f st todo)) = map (plain f) todo).
  { apply (K hist [] create_cache); [reflexivity|]. intros fn k v []. }
  rewrite Forall_forall in WF, EX.
  assert (HASH : forall t v, has_form t v -> exists k, ensure_hashable v = Ok k).
  { induction t as [|kd| | | |t IH|g ts F|g t IH] using form_ind'; intros v Hv.
    - cbn in Hv. subst. cbn. eauto.
    - destruct Hv as [z ->]. cbn. eauto.
    - destruct Hv as [z ->]. cbn. eauto.
    - destruct Hv as [z ->]. cbn. eauto.
    - destruct Hv as [z ->]. cbn. eauto.
    - destruct Hv as [->|Hv]; [cbn; eauto|auto].
    - apply has_form_fix in Hv. destruct Hv as (l & -> & Hl). rewrite ensure_seq.
      enough (G : exists ks, hash_list l = Ok ks) by (destruct G as [ks ->]; cbn; eauto).
      revert l Hl. induction F as [|t ts Ht F IH]; intros [|x l] Hl; cbn in Hl; try tauto; [cbn; eauto|]. destruct Hl as [Hx Hl].
      cbn. destruct (Ht _ Hx) as [k ->]. cbn. destruct (IH _ Hl) as [ks ->]. cbn. eauto.
    - destruct Hv as (l & -> & Hl). rewrite ensure_seq.
      enough (G : exists ks, hash_list l = Ok ks) by (destruct G as [ks ->]; cbn; eauto).
      induction Hl as [|x l Hx Hl IHl]; [cbn; eauto|]. cbn. destruct (IH _ Hx) as [k ->]. cbn. destruct IHl as [ks ->]. cbn. eauto. }
  assert (KEY : forall c, In c hist -> exists k, make_key (c_args c) (c_kwargs c) = Ok k).
  { intros c Hc. destruct (WF _ Hc) as [W1 W2]. unfold make_key. rewrite visible_key_args, visible_key_kwargs, ensure_seq.
    cbn [hash_list]. rewrite !ensure_seq.
    assert (G1 : exists ks, hash_list (visible_args (c_args c)) = Ok ks).
    { revert W1. generalize 0%nat. induction (visible_args (c_args c)) as [|x l IH]; intros n W1; [cbn; eauto|]. destruct W1 as [Hx W1].
      cbn. destruct (HASH _ _ Hx) as [k ->]. cbn. destruct (IH _ W1) as [ks ->]. cbn. eauto. }
    destruct G1 as [ks1 ->]. cbn [bind].
    assert (G2 : exists ks, hash_list (map kwv (visible_kwargs (c_kwargs c))) = Ok ks).
    { induction W2 as [|p l Hp W2 IH]; [cbn; eauto|]. destruct IH as [ks E]. destruct (HASH _ _ Hp) as [k Ek].
      cbn [map hash_list]. unfold kwv at 1. rewrite ensure_seq. cbn [hash_list]. rewrite Ek. cbn [ensure_hashable bind]. rewrite E. cbn [bind]. eauto. }
    destruct G2 as [ks2 E2]. unfold kwv in E2. rewrite E2. cbn [bind]. eauto. }
  induction todo as [|c todo IH]; intros past st HP I; [reflexivity|].
  assert (Hc : In c hist) by (rewrite <- HP; apply in_or_app; right; now left).
  assert (PAST : incl past hist) by (intros x Hx; rewrite <- HP; apply in_or_app; now left).
  assert (HP' : (past ++ [c]) ++ todo = hist) by (rewrite <- app_assoc; exact HP).
  assert (STEP : fst (snd (wrapper f st c)) = plain f c /\ inv (fst (wrapper f st c)) (past ++ [c])).
  { assert (OLD : inv st (past ++ [c])).
    { intros fn k v H. destruct (I _ _ _ H) as (d & D1 & D2). exists d. split; [apply in_or_app; now left|exact D2]. }
    unfold wrapper. rewrite (EX _ Hc). destruct (negb (c_bound c)); [split; [reflexivity|exact OLD]|].
    destruct (KEY _ Hc) as [k Ek]. rewrite Ek. destruct (lookup (results st) (c_fn c, k)) as [v|] eqn:L.
    - cbn [fst snd]. split; [|exact OLD]. apply lookup_In in L. destruct (I _ _ _ L) as (d & D1 & D2 & D3 & D4).
      rewrite <- D4. unfold plain. apply PAST in D1.
      apply make_key_inv in Ek, D3. destruct Ek as (a1 & a2 & -> & A1 & A2), D3 as (b1 & b2 & E & B1 & B2). injection E as <- <-.
      destruct (WF _ Hc) as [W1 W2], (WF _ D1) as [W3 W4]. rewrite D2 in W3, W4.
      assert (VA : visible_args (c_args d) = visible_args (c_args c)) by (eapply has_forms_inj; eauto).
      assert (VK : visible_kwargs (c_kwargs d) = visible_kwargs (c_kwargs c)) by (eapply kwargs_inj; eauto).
      apply PU; [exact D2|exact VA|exact VK|].
      intros i Hi. apply (ST d c D1 Hc i Hi). unfold call_tensors in *. rewrite <- VA, <- VK. exact Hi.
    - destruct (plain f c) as [v|e] eqn:P; cbn [fst snd]; (split; [reflexivity|]); [|exact OLD].
      intros fn k' v' [H|H]; [|now apply OLD]. injection H as <- <- <-. exists c. split; [apply in_or_app; right; now left|]. auto. }
  cbn [run]. destruct (wrapper f st c) as [st1 o]. cbn [fst snd] in STEP. destruct STEP as [S1 S2].
  specialize (IH _ _ HP' S2). destruct (run f st1 todo) as [st2 os]. cbn [map snd] in *. now rewrite S1, IH.
Qed.
Print Assumptions memo_transparent.

(** ** Counting *)
Definition for_key {C V} (fn : nat) (k : key) (p : call C * (res V * bool)) : bool :=
  c_bound (fst p) && Nat.eqb (c_fn (fst p)) fn &&
  match make_key (c_args (fst p)) (c_kwargs (fst p)) with Ok k' => key_eqb k' k | Raise _ => false end.
Definition trace {C V} (f : nat -> heap C -> list val -> list (Z * val) -> res V) (hist : list (call C)) := combine hist (snd (run f create_cache hist)).
Definition succeeded {V} (o : res V * bool) : bool := is_ok (fst o).
Definition called {V} (o : res V * bool) : bool := snd o.

(** Per function and key the underlying function returns at most once, whatever the
    history; it runs again only after it raised. *)
Theorem memo_once : forall {C V} (f : nat -> heap C -> list val -> list (Z * val) -> res V) hist fn k,
  (length (filter (fun p => for_key fn k p && called (snd p) && succeeded (snd p)) (trace f hist)) <= 1)%nat.
Proof.
  intros C V f hist fn k. unfold trace.
  enough (G : forall st, let l := filter (fun p => for_key fn k p && called (snd p) && succeeded (snd p)) (combine hist (snd (run f st hist))) in
    (length l <= 1)%nat /\ (In (fn, k) (map fst (results st)) -> length l = 0%nat)) by apply G.
  induction hist as [|c hist IH]; intro st; [cbn; auto|]. cbn [run].
  destruct (wrapper f st c) as [st1 o] eqn:W. specialize (IH st1). destruct (run f st1 hist) as [st2 os]. cbn [snd combine filter] in *.
  set (rest := filter _ (combine hist os)) in *. destruct IH as [I1 I2].
  assert (MONO : forall s, In s (map fst (results st)) -> In s (map fst (results st1))).
  { intros s Hs. unfold wrapper in W. destruct (negb (c_bound c)); [destruct (c_expect c) as [[]|]; inversion W; subst; exact Hs|].
    destruct (make_key _ _) as [k'|]; [|inversion W; subst; exact Hs].
    destruct (lookup (results st) (c_fn c, k')).
    - destruct (c_expect c) as [[]|]; inversion W; subst; exact Hs.
    - destruct (c_expect c) as [[]|]; [inversion W; subst; exact Hs| |];
        (destruct (plain f c); inversion W; subst; [right|]; exact Hs). }
  destruct (for_key fn k (c, o) && called o && succeeded o) eqn:Q.
  - apply andb_true_iff in Q. destruct Q as [Q Q3]. apply andb_true_iff in Q. destruct Q as [Q Q2]. unfold for_key in Q. cbn [fst] in Q.
    apply andb_true_iff in Q. destruct Q as [Q Q4]. apply andb_true_iff in Q. destruct Q as [Q1 Q5]. apply Nat.eqb_eq in Q5.
    destruct (make_key (c_args c) (c_kwargs c)) as [k'|] eqn:K; [|discriminate]. apply key_eqb_spec in Q4. subst k' fn.
    unfold wrapper in W. rewrite Q1, K in W. cbn [negb] in W.
    destruct (lookup (results st) (c_fn c, k)) eqn:L.
    + destruct (c_expect c) as [[]|]; inversion W; subst; discriminate.
    + apply lookup_None in L.
      assert (IN : In (c_fn c, k) (map fst (results st1))).
      { destruct (c_expect c) as [[]|]; [inversion W; subst; discriminate| |];
          (destruct (plain f c); inversion W; subst; [now left|discriminate]). }
      cbn [length]. rewrite (I2 IN). split; [lia|]. intro H. contradiction.
  - split; [exact I1|]. intro H. apply I2, MONO, H.
Qed.
Print Assumptions memo_once.

(** The hit counter of a function counts exactly the bound calls of it that returned
    without running it. *)
Theorem memo_hits : forall {C V} (f : nat -> heap C -> list val -> list (Z * val) -> res V) hist fn,
  get_total_cache_hits (fst (run f create_cache hist)) fn =
  length (filter (fun p => Nat.eqb (c_fn (fst p)) fn && succeeded (snd p) && negb (called (snd p))) (trace f hist)).
Proof.
  intros C V f hist fn. unfold trace.
  enough (G : forall st, get_total_cache_hits (fst (run f st hist)) fn =
    (get_total_cache_hits st fn + length (filter (fun p => Nat.eqb (c_fn (fst p)) fn && succeeded (snd p) && negb (called (snd p))) (combine hist (snd (run f st hist)))))%nat)
    by apply G.
  assert (INC : forall l s, fold_right (fun p acc => if Nat.eqb (fst (fst p)) fn then (snd p + acc)%nat else acc) 0%nat (incr l s) =
    ((if Nat.eqb (fst s) fn then 1 else 0) + fold_right (fun p acc => if Nat.eqb (fst (fst p)) fn then (snd p + acc)%nat else acc) 0%nat l)%nat).
  { induction l as [|[s' n] l IH]; intro s; cbn [incr].
    - cbn. destruct (Nat.eqb (fst s) fn); reflexivity.
    - destruct (slot_eqb s' s) eqn:E.
      + apply slot_eqb_spec in E. subst s'. cbn [fold_right fst snd]. destruct (Nat.eqb (fst s) fn); lia.
      + cbn [fold_right fst snd]. rewrite IH. destruct (Nat.eqb (fst s') fn), (Nat.eqb (fst s) fn); lia. }
  induction hist as [|c hist IH]; intro st; [cbn; lia|]. cbn [run].
  destruct (wrapper f st c) as [st1 o] eqn:W. specialize (IH st1). destruct (run f st1 hist) as [st2 os]. cbn [fst snd combine filter] in *.
  assert (ST : get_total_cache_hits st1 fn = (get_total_cache_hits st fn + if Nat.eqb (c_fn c) fn && succeeded o && negb (called o) then 1 else 0)%nat).
  { assert (NO : forall b, b && succeeded o && negb (called o) = false -> get_total_cache_hits st fn = (get_total_cache_hits st fn + if b && succeeded o && negb (called o) then 1 else 0)%nat).
    { intros b ->. lia. }
    unfold wrapper in W. destruct (negb (c_bound c)).
    { destruct (c_expect c) as [[]|]; inversion W; subst; apply NO; rewrite ?andb_false_r; cbn; try reflexivity; apply andb_false_r. }
    destruct (make_key _ _) as [k'|]; [|inversion W; subst; apply NO; now rewrite andb_false_r].
    destruct (lookup (results st) (c_fn c, k')).
    - destruct (c_expect c) as [[]|]; inversion W; subst; try (apply NO; now rewrite andb_false_r);
        (unfold get_total_cache_hits; cbn [hits]; rewrite INC; cbn [fst succeeded is_ok called snd negb]; rewrite !andb_true_r;
         destruct (Nat.eqb (c_fn c) fn); lia).
    - destruct (c_expect c) as [[]|]; [inversion W; subst; apply NO; now rewrite andb_false_r| |];
        (destruct (plain f c); inversion W; subst; refine (NO _ _); cbn [called snd negb]; apply andb_false_r). }
  rewrite IH, ST. destruct (Nat.eqb (c_fn c) fn && succeeded o && negb (called o)); cbn [length]; lia.
Qed.
Print Assumptions memo_hits.

(** What one more call does after any history: whether it is a hit depends only on
    whether an earlier bound call of the same function with the same key ran and
    returned; and then it returns that call's result.  [expect_cache_hit] is checked
    against it. *)
Theorem memo_next_call : forall {C V} (f : nat -> heap C -> list val -> list (Z * val) -> res V) hist c k,
  c_bound c = true -> make_key (c_args c) (c_kwargs c) = Ok k ->
  let out := snd (wrapper f (fst (run f create_cache hist)) c) in
  match filter (fun p => for_key (c_fn c) k p && called (snd p) && succeeded (snd p)) (trace f hist) with
  | [] => out = (if match c_expect c with Some true => true | _ => false end then (Raise AssertionError, false) else (plain f c, true))
  | first :: _ => out = (if match c_expect c with Some false => true | _ => false end then (Raise AssertionError, false) else (plain f (fst first), false))
  end.
Proof.
  intros C V f hist c k B K. cbn zeta. unfold trace.
  set (sel := fun p : call C * (res V * bool) => for_key (c_fn c) k p && called (snd p) && succeeded (snd p)).
  assert (L : lookup (results (fst (run f create_cache hist))) (c_fn c, k) =
    match filter sel (combine hist (snd (run f create_cache hist))) with [] => None | first :: _ => match plain f (fst first) with Ok v => Some v | Raise _ => None end end /\
    Forall (fun p => is_ok (plain f (fst p)) = true) (filter sel (combine hist (snd (run f create_cache hist))))).
  { enough (G : forall st,
      lookup (results (fst (run f st hist))) (c_fn c, k) =
      match lookup (results st) (c_fn c, k) with
      | Some v => Some v
      | None => match filter sel (combine hist (snd (run f st hist))) with [] => None | first :: _ => match plain f (fst first) with Ok v => Some v | Raise _ => None end end
      end /\ Forall (fun p => is_ok (plain f (fst p)) = true) (filter sel (combine hist (snd (run f st hist))))) by apply (G create_cache).
    induction hist as [|d hist IH]; intro st; [cbn; destruct (lookup (results st) (c_fn c, k)); split; auto|]. cbn [run].
    destruct (wrapper f st d) as [st1 o] eqn:W. specialize (IH st1). destruct (run f st1 hist) as [st2 os]. cbn [fst snd combine filter] in *.
    destruct IH as [IH1 IH2]. rewrite IH1. clear IH1.
    assert (CASE : (sel (d, o) = false /\ lookup (results st1) (c_fn c, k) = lookup (results st) (c_fn c, k)) \/
      (sel (d, o) = true /\ exists v, plain f d = Ok v /\ lookup (results st) (c_fn c, k) = None /\ lookup (results st1) (c_fn c, k) = Some v)).
    { unfold sel, for_key, called, succeeded. cbn [fst snd]. unfold wrapper in W. destruct (c_bound d); cbn [negb] in W.
      2:{ left. destruct (c_expect d) as [[]|]; inversion W; subst; split; reflexivity. }
      destruct (make_key (c_args d) (c_kwargs d)) as [k'|] eqn:KD; [|left; inversion W; subst; cbn [fst snd]; rewrite andb_false_r; split; reflexivity].
      destruct (lookup (results st) (c_fn d, k')) as [v'|] eqn:LD.
      { left. destruct (c_expect d) as [[]|]; inversion W; subst; cbn [fst snd results]; rewrite ?andb_false_r; split; reflexivity. }
      assert (GO : forall r, plain f d = r -> (st1, o) = match r with Ok v => (mkCache (((c_fn d, k'), v) :: results st) (hits st), (Ok v, true)) | Raise e => (st, (Raise e, true)) end ->
        (true && Nat.eqb (c_fn d) (c_fn c) && key_eqb k' k && snd o && is_ok (fst o) = false /\ lookup (results st1) (c_fn c, k) = lookup (results st) (c_fn c, k)) \/
        (true && Nat.eqb (c_fn d) (c_fn c) && key_eqb k' k && snd o && is_ok (fst o) = true /\ exists v, plain f d = Ok v /\ lookup (results st) (c_fn c, k) = None /\ lookup (results st1) (c_fn c, k) = Some v)).
      { intros r ER E. destruct r as [v|e]; inversion E; subst; cbn [fst snd is_ok].
        - cbn [results lookup]. unfold slot_eqb. cbn [fst snd]. rewrite !andb_true_r. cbn [andb].
          destruct (Nat.eqb (c_fn d) (c_fn c) && key_eqb k' k) eqn:EQ; [|left; split; reflexivity]. right. split; [reflexivity|].
          exists v. apply andb_true_iff in EQ. destruct EQ as [Q1 Q2]. apply Nat.eqb_eq in Q1. apply key_eqb_spec in Q2. subst k'. rewrite <- Q1. auto.
        - left. rewrite andb_false_r. split; reflexivity. }
      destruct (c_expect d) as [[]|].
      - left. inversion W; subst. cbn [fst snd]. rewrite andb_false_r. split; reflexivity.
      - apply (GO _ eq_refl). now rewrite <- W.
      - apply (GO _ eq_refl). now rewrite <- W. }
    destruct CASE as [[-> ->]|[-> (v & P & -> & ->)]].
    - split; [reflexivity|exact IH2].
    - cbn [fst]. rewrite P. split; [reflexivity|]. constructor; [cbn [fst]; rewrite P; reflexivity|exact IH2]. }
  destruct L as [L OKS]. unfold wrapper. rewrite B, K. cbn [negb]. rewrite L. clear L.
  destruct (filter sel _) as [|first rest].
  - destruct (c_expect c) as [[]|]; [reflexivity| |]; destruct (plain f c); reflexivity.
  - inversion OKS as [|? ? O _]; subst. destruct (plain f (fst first)) as [v|]; [|discriminate].
    destruct (c_expect c) as [[]|]; reflexivity.
Qed.
Print Assumptions memo_next_call.

(** Without a cache every call goes through to the function, and leaves the cache alone;
    expecting a hit is refused. *)
Theorem memo_unbound : forall {C V} (f : nat -> heap C -> list val -> list (Z * val) -> res V) st c,
  c_bound c = false ->
  wrapper f st c = (st, if match c_expect c with Some true => true | _ => false end then (Raise AssertionError, false) else (plain f c, true)).
Proof. intros C V f st c H. unfold wrapper. rewrite H. destruct (c_expect c) as [[]|]; reflexivity. Qed.
Print Assumptions memo_unbound.

(** The order of keyword arguments and the cache objects passed on do not matter. *)
Theorem memo_key_ignores : forall args args' kwargs kwargs',
  NoDup (map fst kwargs) -> visible_args args = visible_args args' -> Permutation kwargs kwargs' ->
  make_key args kwargs = make_key args' kwargs' /\
  forall n i, make_key args ((n, VCache i) :: kwargs) = make_key args kwargs.
Proof.
  intros a a' kw kw' N E P.
  assert (INS : forall n i l, visible_kwargs ((n, VCache i) :: l) = visible_kwargs l).
  { intros n i l. unfold visible_kwargs. cbn [sorted_kw fold_right]. fold (sorted_kw l). generalize (sorted_kw l). clear.
    induction l as [|q l IH]; [reflexivity|]. cbn [insert_kw fst]. destruct (n <=? fst q); [reflexivity|].
    cbn [filter]. rewrite IH. reflexivity. }
  split.
  - unfold make_key. rewrite !visible_key_args, !visible_key_kwargs, E. unfold visible_kwargs. now rewrite (sorted_kw_perm _ _ N P).
  - intros n i. unfold make_key. now rewrite !visible_key_kwargs, INS.
Qed.
Print Assumptions memo_key_ignores.

(** Passing an argument by position or by name gives different keys. *)
Theorem memo_key_position : forall args kwargs args' kwargs' k k',
  make_key args kwargs = Ok k -> make_key args' kwargs' = Ok k' ->
  length (visible_args args) <> length (visible_args args') -> k <> k'.
Proof.
  intros a kw a' kw' k k' E E' L EQ. subst k'. apply make_key_inv in E, E'.
  destruct E as (x & y & -> & H1 & _), E' as (x' & y' & EQ & H2 & _). injection EQ as <- <-.
  apply hash_list_length in H1, H2. congruence.
Qed.
Print Assumptions memo_key_position.

(** ** What goes wrong otherwise *)
(** Functions returning the contents of their tensor argument, resp. their argument. *)
Definition read_tensor (_ : nat) (h : heap Z) (args : list val) (_ : list (Z * val)) : res Z :=
  match visible_args args with [VTensor i] => Ok (h i) | _ => Raise TypeError end.
Definition give_args (_ : nat) (h : heap Z) (args : list val) (_ : list (Z * val)) : res (list val) := Ok (visible_args args).
Definition simple_call (h : heap Z) (args : list val) : call Z := mkCall 0 h args [] true None.

(** A tensor changed in place between two calls, or freed and its identity reused, gives
    a stale result; as do a number equal to a tensor's identity, True for 1, a list for a
    tuple. *)
Theorem memo_transparent_refuted :
  (let hist := [simple_call (fun _ => 5) [VTensor 140]; simple_call (fun _ => 6) [VTensor 140]] in
   pure read_tensor /\ Forall (well_formed (fun _ => mkSig (fun _ => FTensor) (fun _ => FNone))) hist /\
   map fst (snd (run read_tensor create_cache hist)) = [Ok 5; Ok 5] /\ map (plain read_tensor) hist = [Ok 5; Ok 6]) /\
  pure give_args /\
  forall x y, In (x, y) [(VTensor 140, VNum NInt 140); (VNum NInt 1, VNum NBool 1); (VSeq TList [], VSeq TTuple []);
                         (VSeq TDict [], VSeq TTuple [])] ->
    let hist := [simple_call (fun _ => 0) [x]; simple_call (fun _ => 0) [y]] in
    stable hist /\ map fst (snd (run give_args create_cache hist)) = [Ok [x]; Ok [x]] /\ map (plain give_args) hist = [Ok [x]; Ok [y]].
Proof.
  split; [|split].
  - cbn zeta. split; [|split; [|split; reflexivity]].
    + intros c c' _ A _ H. unfold read_tensor. rewrite <- A. unfold call_tensors in H.
      destruct (visible_args (c_args c)) as [|[| | |i| | | |] [|]]; try reflexivity.
      f_equal. apply H. cbn. now left.
    + repeat constructor; cbn; eauto.
  - intros c c' _ A _ _. unfold give_args. now rewrite A.
  - intros x y I. cbn [In] in I.
    destruct I as [I|[I|[I|[I|[]]]]]; injection I as <- <-; (split; [|split; reflexivity]); intros c c' Hc Hc' i _ _;
      destruct Hc as [<-|[<-|[]]], Hc' as [<-|[<-|[]]]; reflexivity.
Qed.
Print Assumptions memo_transparent_refuted.

(** A history that meets the hypotheses of the theorems, with hits, misses, two functions
    and an unbound call. *)
Definition memo_ex_f (fn : nat) (h : heap Z) (args : list val) (_ : list (Z * val)) : res Z :=
  match visible_args args with
  | [VObj _; VSeq TTuple [VTensor a; VTensor b]] => if h b =? 0 then Raise ZeroDivisionError else Ok (Z.of_nat fn + h a / h b)
  | _ => Raise TypeError
  end.
Example memo_ex :
  let h : heap Z := fun i => i - 100 in
  let c fn a b bound := mkCall fn h [VObj 7; VSeq TTuple [VTensor a; VTensor b]; VCache 9] [] bound None in
  let hist := [c 0%nat 120 110 true; c 0%nat 120 110 true; c 1%nat 120 110 true; c 0%nat 120 100 true; c 0%nat 120 100 true; c 0%nat 120 110 false] in
  let sigs := fun _ : nat => mkSig (fun i => if Nat.eqb i 0 then FObj else FFix TTuple [FTensor; FTensor]) (fun _ => FNone) in
  pure memo_ex_f /\ Forall (well_formed sigs) hist /\ stable hist /\ Forall (fun c => c_expect c = None) hist /\
  snd (run memo_ex_f create_cache hist) =
    [(Ok 2, true); (Ok 2, false); (Ok 3, true); (Raise ZeroDivisionError, true); (Raise ZeroDivisionError, true); (Ok 2, true)] /\
  get_total_cache_hits (fst (run memo_ex_f create_cache hist)) 0 = 1%nat.
Proof.
  intros h c hist sigs. split; [|split; [|split; [|split; [|split; reflexivity]]]].
  - intros d d' EF A _ H. unfold memo_ex_f. rewrite <- A, <- EF. unfold call_tensors in H.
    destruct (visible_args (c_args d)) as [|[] [|[| | | | | | |g l] [|]]]; try reflexivity; destruct g; try reflexivity.
    destruct l as [|[] [|[] [|]]]; try reflexivity. rewrite <- !H by (cbn; auto). reflexivity.
  - assert (W : forall fn a b bd, well_formed sigs (c fn a b bd)).
    { intros fn a b bd. split; [|constructor]. cbn. split; [eauto|]. split; [|exact I]. exists [VTensor a; VTensor b]. split; [reflexivity|]. repeat split; eauto. }
    repeat (constructor; [apply W|]). constructor.
  - intros d d' Hd Hd' i _ _.
    assert (K : forall e, In e hist -> c_heap e = h).
    { intros e He. cbn in He. repeat (destruct He as [<-|He]; [reflexivity|]). destruct He. }
    now rewrite (K _ Hd), (K _ Hd').
  - repeat constructor.
Qed.

(** ** The pipeline's calls (model_pipeline.py L226-228, L262-264, L330-338): every scene is
    decoded once while encoding and once while decoding.  The encoder passes the bottleneck
    of a P scene by name and the decoder by position. *)
Definition name_bottleneck : Z := 0.
Definition name_cache : Z := 1.
Definition name_state : Z := 2.
Definition bottleneck_val (latent : Z) (likelihood features : val) : val := VSeq TTuple [VTensor latent; likelihood; features].
Definition call_I {C} (h : heap C) (self : Z) (b : val) : call C := mkCall 0 h [VObj self; b] [] true None.
Definition call_P_enc {C} (h : heap C) (self cache_id : Z) (b state : val) : call C :=
  mkCall 1 h [VObj self] [(name_bottleneck, b); (name_state, state); (name_cache, VCache cache_id)] true None.
Definition call_P_dec {C} (h : heap C) (self cache_id : Z) (b state : val) : call C :=
  mkCall 1 h [VObj self; b] [(name_state, state); (name_cache, VCache cache_id)] true None.
Record p_scene {C} := mkP { p_latent : Z; p_likelihood : val; p_features : val; p_state_enc : val; p_state_dec : val; p_heap : heap C }.
Arguments p_scene : clear implicits.
Definition pipeline_calls {C} (h : heap C) (self cache_id : Z) (first : val) (ps : list (p_scene C)) : list (call C) :=
  call_I h self first :: call_I h self first ::
  flat_map (fun p => let b := bottleneck_val (p_latent p) (p_likelihood p) (p_features p) in
    [call_P_enc (p_heap p) self cache_id b (p_state_enc p); call_P_dec (p_heap p) self cache_id b (p_state_dec p)]) ps.

Lemma no_hits {C V} (f : nat -> heap C -> list val -> list (Z * val) -> res V) : forall hist st slots,
  Forall (fun c => c_bound c = true /\ c_expect c = None /\ is_ok (plain f c) = true) hist ->
  Forall2 (fun c s => c_fn c = fst s /\ make_key (c_args c) (c_kwargs c) = Ok (snd s)) hist slots ->
  NoDup slots -> (forall s, In s slots -> ~ In s (map fst (results st))) ->
  hits (fst (run f st hist)) = hits st /\ Forall (fun o => called o = true) (snd (run f st hist)).
Proof.
  induction hist as [|c hist IH]; intros st slots F F2 N D; [cbn; split; [reflexivity|constructor]|].
  inversion F as [|? ? (B & E & P) F']; subst. inversion F2 as [|? [fn k] ? slots' [S1 S2] F2']; subst. inversion N as [|? ? NI N']; subst.
  cbn [run fst snd] in *. unfold wrapper. rewrite B, E, S2. cbn [negb].
  assert (L : lookup (results st) (c_fn c, k) = None) by (apply lookup_None, D; rewrite S1; now left).
  rewrite L. destruct (plain f c) as [v|]; [|discriminate].
  specialize (IH (mkCache (((c_fn c, k), v) :: results st) (hits st)) slots' F' F2' N').
  destruct (run f _ hist) as [st2 os]. cbn [fst snd results hits] in *. destruct IH as [I1 I2].
  - intros s Hs [H|H]; [subst s; rewrite S1 in Hs; contradiction|]. apply (D s); [now right|exact H].
  - split; [exact I1|]. constructor; [reflexivity|exact I2].
Qed.

Lemma eh_obj i : ensure_hashable (VObj i) = Ok (KObj i). Proof. reflexivity. Qed.
Lemma eh_str i : ensure_hashable (VStr i) = Ok (KStr i). Proof. reflexivity. Qed.

(** In every run of the pipeline over scenes with different latent tensors the cache is
    hit exactly once, for the first scene; every P scene is decoded twice. *)
Theorem memo_pipeline_hits : forall {C V} (f : nat -> heap C -> list val -> list (Z * val) -> res V) h self cache_id first ps k0,
  (forall fn h args kwargs, exists v, f fn h args kwargs = Ok v) ->
  ensure_hashable first = Ok k0 -> is_cache first = false ->
  NoDup (map p_latent ps) ->
  (forall p, In p ps -> forall v, In v [p_likelihood p; p_features p; p_state_enc p; p_state_dec p] -> is_cache v = false /\ exists k, ensure_hashable v = Ok k) ->
  let final := run f create_cache (pipeline_calls h self cache_id first ps) in
  get_total_cache_hits (fst final) 0 = 1%nat /\ get_total_cache_hits (fst final) 1 = 0%nat /\
  map called (snd final) = true :: false :: repeat true (2 * length ps).
Proof.
  intros C V f h self cid first ps k0 TOT HF NC ND HP. cbn zeta. unfold pipeline_calls. set (hist := flat_map _ ps).
  assert (MK : make_key (c_args (call_I h self first)) (c_kwargs (call_I h self first)) = Ok (KTup [KTup [KObj self; k0]; KTup []])).
  { unfold make_key, call_I, key_args, key_kwargs. cbn [c_args c_kwargs sorted_kw fold_right filter is_cache negb map]. rewrite NC. cbn [negb filter].
    rewrite ensure_seq. cbn [hash_list]. rewrite !ensure_seq. cbn [hash_list ensure_hashable bind]. rewrite HF. reflexivity. }
  set (ki := KTup [KTup [KObj self; k0]; KTup []]) in *.
  destruct (TOT 0%nat h [VObj self; first] []) as [v0 V0].
  set (st2 := mkCache [((0%nat, ki), v0)] [((0%nat, ki), 1%nat)] : cache V).
  assert (R : run f create_cache (call_I h self first :: call_I h self first :: hist) =
     (fst (run f st2 hist), (Ok v0, true) :: (Ok v0, false) :: snd (run f st2 hist))).
  { cbn [run]. unfold wrapper at 1. change (c_bound (call_I h self first)) with true. cbn [negb]. rewrite MK. cbn [results create_cache lookup].
    change (c_expect (call_I h self first)) with (@None bool). change (plain f (call_I h self first)) with (f 0%nat h [VObj self; first] []). rewrite V0.
    cbn match beta.
    unfold wrapper at 1. change (c_bound (call_I h self first)) with true. cbn [negb]. rewrite MK. cbn [results lookup].
    change (c_fn (call_I h self first)) with 0%nat. rewrite (proj2 (slot_eqb_spec _ _) eq_refl).
    change (c_expect (call_I h self first)) with (@None bool). cbn match beta. cbn [hits create_cache incr]. fold st2.
    destruct (run f st2 hist); reflexivity. }
  rewrite R. cbn [fst snd map called].
  assert (G : exists slots,
    Forall2 (fun c s => c_fn c = fst s /\ make_key (c_args c) (c_kwargs c) = Ok (snd s)) hist slots /\ NoDup slots /\
    Forall (fun s => fst s = 1%nat) slots /\
    (forall s, In s slots -> exists p kl kf kse, In p ps /\
       (snd s = KTup [KTup [KObj self]; KTup [KTup [KStr name_bottleneck; KTup [KNum (p_latent p); kl; kf]]; KTup [KStr name_state; kse]]] \/
        snd s = KTup [KTup [KObj self; KTup [KNum (p_latent p); kl; kf]]; KTup [KTup [KStr name_state; kse]]]))).
  { unfold hist. clear hist R. induction ps as [|p ps IH].
    - exists []. repeat split; try constructor. intros s [].
    - inversion ND as [|? ? NI ND']; subst. destruct (IH ND') as (slots & S1 & S2 & S3 & S4).
      { intros q Hq. apply HP. now right. }
      assert (HV : forall v, In v [p_likelihood p; p_features p; p_state_enc p; p_state_dec p] -> is_cache v = false /\ exists k, ensure_hashable v = Ok k) by (apply HP; now left).
      destruct (HV (p_likelihood p)) as [_ [kl KL]]; [cbn; auto|]. destruct (HV (p_features p)) as [_ [kf KF]]; [cbn; auto|].
      destruct (HV (p_state_enc p)) as [C1 [ks KS]]; [cbn; auto|]. destruct (HV (p_state_dec p)) as [C2 [kd KD]]; [cbn; auto 6|].
      set (kb := KTup [KNum (p_latent p); kl; kf]).
      assert (KB : ensure_hashable (bottleneck_val (p_latent p) (p_likelihood p) (p_features p)) = Ok kb).
      { unfold bottleneck_val. rewrite ensure_seq. cbn [hash_list ensure_hashable bind]. rewrite KL. cbn [bind]. rewrite KF. reflexivity. }
      set (e := (1%nat, KTup [KTup [KObj self]; KTup [KTup [KStr name_bottleneck; kb]; KTup [KStr name_state; ks]]]) : nat * key).
      set (d := (1%nat, KTup [KTup [KObj self; kb]; KTup [KTup [KStr name_state; kd]]]) : nat * key).
      assert (NEW : forall s, In s slots -> s <> e /\ s <> d).
      { intros s Hs. destruct (S4 s Hs) as (q & ql & qf & qs & Q1 & Q2).
        assert (NE : p_latent q <> p_latent p) by (intro E; apply NI; rewrite <- E; now apply in_map).
        split; intros ->; unfold e, d, kb in Q2; cbn [snd] in Q2; destruct Q2 as [Q2|Q2]; inversion Q2; congruence. }
      exists (e :: d :: slots). cbn [flat_map app]. split; [|split; [|split]].
      + constructor; [|constructor; [|exact S1]]; (split; [reflexivity|]).
        * unfold make_key, call_P_enc, key_args, key_kwargs. cbn [c_args c_kwargs sorted_kw fold_right insert_kw filter is_cache negb map fst snd name_bottleneck name_state name_cache Z.leb Z.compare Pos.compare Pos.compare_cont].
          change (is_cache (bottleneck_val (p_latent p) (p_likelihood p) (p_features p))) with false. rewrite C1. cbn [negb map fst snd].
          rewrite ensure_seq. cbn [hash_list]. rewrite !ensure_seq. cbn [hash_list]. rewrite eh_obj. cbn [bind]. rewrite !ensure_seq. cbn [hash_list]. rewrite !eh_str, KB, KS.
          reflexivity.
        * unfold make_key, call_P_dec, key_args, key_kwargs. cbn [c_args c_kwargs sorted_kw fold_right insert_kw filter is_cache negb map fst snd name_bottleneck name_state name_cache Z.leb Z.compare Pos.compare Pos.compare_cont].
          change (is_cache (bottleneck_val (p_latent p) (p_likelihood p) (p_features p))) with false. rewrite C2. cbn [negb filter map fst snd].
          rewrite ensure_seq. cbn [hash_list]. rewrite !ensure_seq. cbn [hash_list]. rewrite eh_obj, KB. cbn [bind]. rewrite !ensure_seq. cbn [hash_list]. rewrite !eh_str, KD.
          reflexivity.
      + constructor; [|constructor; [|exact S2]].
        * intros [H|H]; [discriminate|]. now apply NEW in H.
        * intro H. now apply NEW in H.
      + constructor; [reflexivity|constructor; [reflexivity|exact S3]].
      + intros s [<-|[<-|Hs]].
        * exists p, kl, kf, ks. split; [now left|left; reflexivity].
        * exists p, kl, kf, kd. split; [now left|right; reflexivity].
        * destruct (S4 s Hs) as (q & ql & qf & qs & Q1 & Q2). exists q, ql, qf, qs. split; [now right|exact Q2]. }
  destruct G as (slots & S1 & S2 & S3 & _).
  destruct (no_hits f hist st2 slots) as [H1 H2]; auto.
  - apply Forall_forall. intros c Hc. unfold hist in Hc. apply in_flat_map in Hc. destruct Hc as (p & _ & [<-|[<-|[]]]); cbn [c_bound c_expect call_P_enc call_P_dec]; (split; [reflexivity|]; split; [reflexivity|]); unfold plain.
    + match goal with |- is_ok (f ?a ?b ?c ?d) = _ => destruct (TOT a b c d) as [v ->] end. reflexivity.
    + match goal with |- is_ok (f ?a ?b ?c ?d) = _ => destruct (TOT a b c d) as [v ->] end. reflexivity.
  - intros s Hs [H|[]]. rewrite Forall_forall in S3. specialize (S3 s Hs). rewrite <- H in S3. discriminate.
  - unfold get_total_cache_hits. rewrite H1. split; [reflexivity|]. split; [reflexivity|]. do 2 f_equal.
    assert (L : length (snd (run f st2 hist)) = (2 * length ps)%nat).
    { rewrite run_length. unfold hist. clear. induction ps as [|p ps IH]; [reflexivity|]. cbn [flat_map app length]. rewrite IH. lia. }
    rewrite <- L. clear L. revert H2. generalize (snd (run f st2 hist)). clear. intros l H2.
    induction H2 as [|o os Ho H2 IH]; [reflexivity|]. cbn [map length repeat]. rewrite IH. f_equal. exact Ho.
Qed.
Print Assumptions memo_pipeline_hits.
Example memo_pipeline_ex :
  let p := fun l : Z => mkP Z l (VTensor (l + 1)) (VTensor (l + 2)) (VSeq TTuple [VSeq TTuple [VTensor (l + 3); VTensor (l + 4)]]) (VSeq TTuple []) (fun _ : Z => 0) in
  map called (snd (run (fun _ _ _ _ => Ok 0) create_cache (pipeline_calls (fun _ => 0) 7 8 (VSeq TTuple [VTensor 1; VTensor 2; VNone]) (map p [10; 20; 30])))) =
  true :: false :: repeat true 6.
Proof. reflexivity. Qed.

(** ** Arguments that cannot be part of a key *)
(** A set, say, at any depth. *)
Inductive holds_set : val -> Prop :=
| hs_here : forall i, holds_set (VUnhashable i)
| hs_in : forall t l v, In v l -> holds_set v -> holds_set (VSeq t l).
Fixpoint depth (v : val) : nat := match v with VSeq _ l => S (fold_right (fun v n => Nat.max (depth v) n) 0%nat l) | _ => 0%nat end.
Lemma depth_in l v t : In v l -> (depth v < depth (VSeq t l))%nat.
Proof.
  intro I. cbn [depth]. induction l as [|x l IH]; [destruct I|]. cbn [fold_right]. destruct I as [->|I]; [lia|]. specialize (IH I). lia.
Qed.
Lemma ensure_either : forall n v, (depth v < n)%nat -> (exists k, ensure_hashable v = Ok k) /\ ~ holds_set v \/ ensure_hashable v = Raise TypeError /\ holds_set v.
Proof.
  induction n as [|n IH]; intros v D; [lia|].
  destruct v as [| | | | |i| |t l]; try (left; split; [eexists; reflexivity|intro H; inversion H]); [right; split; [reflexivity|constructor]|].
  rewrite ensure_seq.
  assert (G : forall m, (forall v, In v m -> In v l) ->
            (exists ks, hash_list m = Ok ks) /\ (forall v, In v m -> ~ holds_set v) \/ hash_list m = Raise TypeError /\ exists v, In v m /\ holds_set v).
  { induction m as [|x m IHm]; intro SUB; [left; split; [eexists; reflexivity|intros v []]|]. cbn [hash_list].
    pose proof (depth_in l x t (SUB x (or_introl eq_refl))) as DX.
    destruct (IH x ltac:(lia)) as [[[k ->] N]|[-> S]]; cbn [bind]; [|right; split; [reflexivity|exists x; split; [now left|exact S]]].
    destruct (IHm (fun v I => SUB v (or_intror I))) as [[[ks ->] NS]|[-> [v [I S]]]]; cbn [bind].
    - left. split; [eexists; reflexivity|]. intros v [<-|I]; [exact N|now apply NS].
    - right. split; [reflexivity|]. exists v. split; [now right|exact S]. }
  destruct (G l (fun v I => I)) as [[[ks ->] NS]|[-> [v [I S]]]]; cbn [bind].
  - left. split; [eexists; reflexivity|]. intro H. inversion H as [|? ? v I S]; subst. exact (NS v I S).
  - right. split; [reflexivity|]. econstructor; eassumption.
Qed.
(** A call with a cache whose arguments, other than caches, hold a set fails with a TypeError, does not call the
    function and leaves the cache as it was; every other call has a key. *)
Theorem memo_unhashable : forall {C V} (f : nat -> heap C -> list val -> list (Z * val) -> res V) st c,
  c_bound c = true ->
  let bad := exists v, (In v (c_args c) \/ In v (map snd (c_kwargs c))) /\ holds_set v in
  (bad -> wrapper f st c = (st, (Raise TypeError, false))) /\
  (~ bad -> exists k, make_key (c_args c) (c_kwargs c) = Ok k).
Proof.
  intros C V f st c B bad.
  set (whole := VSeq TTuple [VSeq TTuple (key_args (c_args c)); VSeq TTuple (map (fun p => VSeq TTuple [VStr (fst p); snd p]) (key_kwargs (c_kwargs c)))]).
  assert (Q : holds_set whole <-> bad).
  { split.
    - intro H. inversion H as [|? ? w I S]; subst. destruct I as [<-|[<-|[]]]; inversion S as [|? ? v I T]; subst.
      + exists v. split; [left|exact T]. apply filter_In in I. apply I.
      + apply in_map_iff in I. destruct I as [[n v'] [<- I]]. inversion T as [|? ? u J U]; subst. destruct J as [<-|[<-|[]]]; [inversion U|].
        exists v'. split; [right|exact U]. apply filter_In in I. destruct I as [I _].
        apply (Permutation_in _ (sorted_perm _)) in I. apply in_map_iff. exists (n, v'). auto.
    - intros [v [I S]]. assert (NC : negb (is_cache v) = true) by (destruct S; reflexivity). destruct I as [I|I].
      + eapply hs_in; [left; reflexivity|]. eapply hs_in; [|exact S]. apply filter_In. auto.
      + apply in_map_iff in I. destruct I as [[n v'] [E I]]. cbn in E. subst v'.
        eapply hs_in; [right; left; reflexivity|]. eapply hs_in; [apply in_map_iff; exists (n, v); split; [reflexivity|apply filter_In; split; [|exact NC]]|].
        * apply (Permutation_in _ (Permutation_sym (sorted_perm _))). exact I.
        * eapply hs_in; [right; left; reflexivity|exact S]. }
  destruct (ensure_either (S (depth whole)) whole ltac:(lia)) as [[[k E] N]|[E S]].
  - split; [intro X; exfalso; apply N, Q, X|]. intros _. exists k. exact E.
  - split; [|intro X; exfalso; apply X, Q, S]. intros _. unfold wrapper. rewrite B. cbn [negb]. unfold make_key. fold whole. rewrite E. reflexivity.
Qed.
Example memo_unhashable_instance : exists v, (In v (c_args (simple_call (fun _ => 0) [VNone; VSeq TList [VNone; VUnhashable 3]])) \/ In v (map snd (c_kwargs (simple_call (fun _ => 0) [VNone; VSeq TList [VNone; VUnhashable 3]])))) /\ holds_set v.
Proof. exists (VSeq TList [VNone; VUnhashable 3]). split; [left; cbn; auto|]. eapply hs_in; [right; left; reflexivity|constructor]. Qed.
Print Assumptions memo_unhashable.

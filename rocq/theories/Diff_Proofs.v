(** Proofs about the diffusion bits-back codec. *)
From Coq Require Import ZArith List Bool Lia.
From Verif Require Import Base Diff_Model Diff_Spec.
Import ListNotations.
Open Scope Z_scope.

(** ** The value returned does not depend on the statistics *)
Definition s00 : stats := mk_stats 0 [] [].
Definition out {A} (e : eff A) : res A := snd (e s00).
Definition indep {A} (e : eff A) : Prop := forall s, snd (e s) = out e.

Lemma indep_ret A (a : A) : indep (ret a). Proof. intro s. reflexivity. Qed.
Lemma indep_raise A e : @indep A (raise e). Proof. intro s. reflexivity. Qed.
Lemma indep_lift A (r : res A) : indep (lift r). Proof. intro s. reflexivity. Qed.
Lemma ebind_snd A B (m : eff A) (f : A -> eff B) s : indep m -> (forall a, indep (f a)) ->
  snd (ebind m f s) = bind (out m) (fun a => out (f a)).
Proof.
  intros Hm Hf. unfold ebind. pose proof (Hm s) as E. destruct (m s) as [s' [a|e]]; cbn in E |- *.
  - rewrite <- E. cbn. apply Hf.
  - rewrite <- E. reflexivity.
Qed.
Lemma indep_bind A B (m : eff A) (f : A -> eff B) : indep m -> (forall a, indep (f a)) ->
  indep (ebind m f).
Proof. intros Hm Hf s. unfold out. now rewrite !ebind_snd. Qed.
Lemma out_bind A B (m : eff A) (f : A -> eff B) : indep m -> (forall a, indep (f a)) ->
  out (ebind m f) = bind (out m) (fun a => out (f a)).
Proof. intros. now apply ebind_snd. Qed.

Section P.
Context {M Par Lat Inds : Type}.
Variable nbytes : M -> Z.
Variable prior_codec : prim M Inds.
Variable post_codec : Par -> Par -> prim M Inds.
Variable lik_codec : Par -> prim M array.
Variable std_params : Par.
Variable to_latent : Inds * Par -> Lat.
Variable steps : nat.
Variable infer_fn : array -> Par.
Variable generate_fn : Lat -> nat -> Par.
Variable generate_post_fn : Lat -> nat -> array -> Par.
Variable track : bool.
Variable data_shape : list Z.
Variable data_prec : Z.

Notation track_codec := (track_codec M nbytes steps track).
Notation prior_push_loop := (prior_push_loop M Par Inds nbytes prior_codec steps track).
Notation prior_pop_loop := (prior_pop_loop M Par Lat Inds nbytes prior_codec std_params to_latent
  steps generate_fn track).
Notation post_push_loop := (post_push_loop M Par Lat Inds nbytes post_codec to_latent steps infer_fn
  generate_post_fn track).
Notation post_pop_loop := (post_pop_loop M Par Lat Inds nbytes post_codec std_params to_latent steps
  infer_fn generate_fn generate_post_fn track).
Notation prior_push := (prior_push M Par Inds nbytes prior_codec steps track).
Notation prior_pop := (prior_pop M Par Lat Inds nbytes prior_codec std_params to_latent
  steps generate_fn track).
Notation posterior_push := (posterior_push M Par Lat Inds nbytes post_codec to_latent steps infer_fn
  generate_post_fn track).
Notation posterior_pop := (posterior_pop M Par Lat Inds nbytes post_codec std_params to_latent steps
  infer_fn generate_fn generate_post_fn track).
Notation likelihood := (likelihood M Par Lat Inds nbytes lik_codec to_latent steps generate_fn track).
Notation bb_push := (bb_push M Par Lat Inds nbytes prior_codec post_codec lik_codec std_params
  to_latent steps infer_fn generate_fn generate_post_fn track).
Notation bb_pop := (bb_pop M Par Lat Inds nbytes prior_codec post_codec lik_codec std_params
  to_latent steps infer_fn generate_fn generate_post_fn track).
Notation encode := (encode M Par Lat Inds nbytes prior_codec post_codec lik_codec std_params
  to_latent steps infer_fn generate_fn generate_post_fn track data_shape data_prec).
Notation decode := (decode M Par Lat Inds nbytes prior_codec post_codec lik_codec std_params
  to_latent steps infer_fn generate_fn generate_post_fn track).
Notation check_data := (check_data data_shape data_prec).

(** ** Values of the operations *)
Lemma track_push_indep A (c : prim M A) step m x : indep (s_push (track_codec (of_prim c) step) m x).
Proof.
  unfold Diff_Model.track_codec. destruct track; cbn [negb]; [|apply indep_lift].
  destruct (Nat.ltb steps step); cbn [s_push s_pop of_prim]; [apply indep_raise|].
  apply indep_bind; [apply indep_lift|]. intros a s. reflexivity.
Qed.
Lemma track_pop_indep A (c : prim M A) step m : indep (s_pop (track_codec (of_prim c) step) m).
Proof.
  unfold Diff_Model.track_codec. destruct track; cbn [negb]; [|apply indep_lift].
  destruct (Nat.ltb steps step); cbn [s_push s_pop of_prim]; [apply indep_raise|].
  apply indep_bind; [apply indep_lift|]. intros [a b] s. reflexivity.
Qed.
Lemma track_push_out A (c : prim M A) step m x : (step <= steps)%nat ->
  out (s_push (track_codec (of_prim c) step) m x) = p_push c m x.
Proof.
  intro H. unfold Diff_Model.track_codec. destruct track; cbn [negb]; [|reflexivity].
  destruct (Nat.ltb_spec steps step) as [L|L]; [lia|]. cbn [s_push s_pop of_prim].
  rewrite out_bind; [|apply indep_lift|intros a s; reflexivity].
  unfold out, lift. cbn. destruct (p_push c m x); reflexivity.
Qed.
Lemma track_pop_out A (c : prim M A) step m : (step <= steps)%nat ->
  out (s_pop (track_codec (of_prim c) step) m) = p_pop c m.
Proof.
  intro H. unfold Diff_Model.track_codec. destruct track; cbn [negb]; [|reflexivity].
  destruct (Nat.ltb_spec steps step) as [L|L]; [lia|]. cbn [s_push s_pop of_prim].
  rewrite out_bind; [|apply indep_lift|intros [a b] s; reflexivity].
  unfold out, lift. cbn. destruct (p_pop c m) as [[? ?]|]; reflexivity.
Qed.

Ltac ind := repeat first
  [ apply indep_bind | apply indep_ret | apply indep_raise | apply indep_lift
  | apply track_push_indep | apply track_pop_indep
  | match goal with |- indep (if ?b then _ else _) => destruct b end
  | match goal with |- indep (match ?l with [] => _ | _ :: _ => _ end) => destruct l end
  | progress intros ].

Lemma prior_push_loop_indep : forall ls step m, indep (prior_push_loop step ls m).
Proof. induction ls; intros; cbn; ind. apply IHls. Qed.
Lemma prior_pop_loop_indep : forall step m acc, indep (prior_pop_loop step m acc).
Proof.
  induction step; intros m acc; cbn [Diff_Model.prior_pop_loop]; ind. destruct a0. apply IHstep.
Qed.
Lemma post_push_loop_indep data : forall ls step m, indep (post_push_loop data step ls m).
Proof. induction ls; intros; cbn [Diff_Model.post_push_loop]; ind; apply IHls. Qed.
Lemma post_pop_loop_indep data : forall step m acc, indep (post_pop_loop data step m acc).
Proof.
  induction step; intros m acc; cbn [Diff_Model.post_pop_loop]; ind; destruct a.
  ind. destruct a. apply IHstep.
Qed.
Lemma posterior_pop_indep dc ib data m : indep (posterior_pop dc ib data m).
Proof.
  unfold Diff_Model.posterior_pop. apply indep_bind; [apply post_pop_loop_indep|].
  intros [a b] s. reflexivity.
Qed.
Lemma posterior_pop_out dc ib data m : out (posterior_pop dc ib data m) = out (post_pop_loop data steps m []).
Proof.
  unfold Diff_Model.posterior_pop. rewrite out_bind; [|apply post_pop_loop_indep|intros [a b] s; reflexivity].
  destruct (out (post_pop_loop data steps m [])) as [[? ?]|]; reflexivity.
Qed.
Lemma prior_push_indep m ls : indep (prior_push m ls).
Proof. unfold Diff_Model.prior_push. ind. apply prior_push_loop_indep. Qed.
Lemma posterior_push_indep d m ls : indep (posterior_push d m ls).
Proof. unfold Diff_Model.posterior_push. ind. apply post_push_loop_indep. Qed.

(** The list of latents fits the model: each one's prior parameters come from the
    latent above. *)
Fixpoint chain (step : nat) (ls : list (Inds * Par)) : Prop :=
  match ls with
  | [] => True
  | l :: ls' =>
      snd l = match ls' with [] => std_params | l' :: _ => generate_fn (to_latent l') step end
      /\ chain (S step) ls'
  end.

Variable wf : M -> Prop.
Variable Vi : Inds -> Prop.

(** Popping the posterior is undone by pushing it. *)
Lemma post_pop_push data (HP : forall a b, pop_push wf Vi (post_codec a b)) :
  forall step m acc m' ls, wf m -> (step + length acc = steps)%nat ->
  out (post_pop_loop data step m acc) = Ok (m', ls) ->
  chain (S step) acc -> Forall (fun l => Vi (fst l)) acc ->
  wf m' /\ length ls = steps /\ chain 1 ls /\ Forall (fun l => Vi (fst l)) ls /\
  (forall mf, out (post_push_loop data (S step) acc m) = Ok mf ->
              out (post_push_loop data 1 ls m') = Ok mf).
Proof.
  induction step as [|step IH]; intros m acc m' ls Hw HL HE HC HF.
  - cbn in HE. injection HE as <- <-. cbn in HL. repeat (split; [assumption|]). auto.
  - cbn [Diff_Model.post_pop_loop] in HE.
    rewrite out_bind in HE; [|ind | intros [pp po]; ind; destruct a; apply post_pop_loop_indep].
    (* the parameters *)
    assert (HPar : exists pp po,
      out (if (S step =? steps)%nat then ret (std_params, infer_fn data)
           else match acc with
                | [] => raise IndexError
                | l :: _ => ret (generate_fn (to_latent l) (S step),
                                 generate_post_fn (to_latent l) (S step) data)
                end) = Ok (pp, po) /\
      pp = match acc with [] => std_params | l :: _ => generate_fn (to_latent l) (S step) end /\
      out (if (S step <? steps)%nat
           then match acc with
                | next :: _ => ret (generate_post_fn (to_latent next) (S step) data)
                | [] => raise IndexError end
           else ret (infer_fn data)) = Ok po).
    { destruct acc as [|l acc]; cbn [length] in HL.
      - rewrite (proj2 (Nat.eqb_eq _ _)) by lia. rewrite (proj2 (Nat.ltb_ge _ _)) by lia.
        do 2 eexists. split; [reflexivity|]. split; reflexivity.
      - rewrite (proj2 (Nat.eqb_neq _ _)) by lia. rewrite (proj2 (Nat.ltb_lt _ _)) by lia.
        do 2 eexists. split; [reflexivity|]. split; reflexivity. }
    destruct HPar as (pp & po & E1 & E2 & E3). rewrite E1 in HE. cbn [bind] in HE. clear E1.
    rewrite out_bind in HE; [|apply track_pop_indep | intros [? ?]; apply post_pop_loop_indep].
    rewrite track_pop_out in HE by lia.
    destruct (p_pop (post_codec po pp) m) as [[m1 inds]|e] eqn:EP; [|discriminate]. cbn [bind] in HE.
    destruct (HP po pp m m1 inds Hw EP) as (W1 & V1 & EQ).
    assert (HC' : chain (S step) ((inds, pp) :: acc)).
    { cbn. split; [exact E2 | exact HC]. }
    destruct (IH m1 ((inds, pp) :: acc) m' ls W1 ltac:(cbn; lia) HE HC' ltac:(constructor; assumption))
      as (R1 & R2 & R3 & R4 & R5).
    repeat (split; [assumption|]).
    intros mf HM. apply R5. cbn [Diff_Model.post_push_loop].
    rewrite out_bind; [|ind | intros; ind; apply post_push_loop_indep].
    rewrite E3. cbn [bind snd fst].
    rewrite out_bind; [|apply track_push_indep | intros; apply post_push_loop_indep].
    rewrite track_push_out by lia. rewrite EQ. exact HM.
Qed.

(** Pushing the posterior is undone by popping it. *)
Lemma post_push_pop data (HP : forall a b, push_pop wf Vi (post_codec a b)) :
  forall ls step m mf, wf m -> (step + length ls = S steps)%nat -> (1 <= step)%nat ->
  out (post_push_loop data step ls m) = Ok mf ->
  chain step ls -> Forall (fun l => Vi (fst l)) ls ->
  wf mf /\
  (forall r, out (post_pop_loop data (step - 1) m ls) = r ->
             out (post_pop_loop data steps mf []) = r).
Proof.
  induction ls as [|l ls IH]; intros step m mf Hw HL H1 HE HC HF.
  - cbn in HE. injection HE as <-. cbn in HL. split; [exact Hw|]. intros r HR.
    replace (step - 1)%nat with steps in HR by lia. exact HR.
  - cbn [Diff_Model.post_push_loop] in HE. cbn [length] in HL.
    rewrite out_bind in HE; [|ind | intros; ind; apply post_push_loop_indep].
    assert (HPar : exists po,
      out (if (step <? steps)%nat
           then match ls with
                | next :: _ => ret (generate_post_fn (to_latent next) step data)
                | [] => raise IndexError end
           else ret (infer_fn data)) = Ok po /\
      out (if (step =? steps)%nat then ret (std_params, infer_fn data)
           else match ls with
                | [] => raise IndexError
                | l :: _ => ret (generate_fn (to_latent l) step,
                                 generate_post_fn (to_latent l) step data)
                end) = Ok (snd l, po)).
    { destruct HC as [HC _]. rewrite HC. destruct ls as [|l' ls]; cbn [length] in HL.
      - rewrite (proj2 (Nat.eqb_eq _ _)) by lia. rewrite (proj2 (Nat.ltb_ge _ _)) by lia.
        eexists. split; reflexivity.
      - rewrite (proj2 (Nat.eqb_neq _ _)) by lia. rewrite (proj2 (Nat.ltb_lt _ _)) by lia.
        eexists. split; reflexivity. }
    destruct HPar as (po & E1 & E2). rewrite E1 in HE. cbn [bind] in HE.
    rewrite out_bind in HE; [|apply track_push_indep | intros; apply post_push_loop_indep].
    rewrite track_push_out in HE by lia.
    destruct (p_push (post_codec po (snd l)) m (fst l)) as [m1|e] eqn:EP; [|discriminate].
    cbn [bind] in HE.
    destruct (HP po (snd l) m (fst l) m1 Hw (Forall_inv HF) EP) as (W1 & EQ).
    destruct (IH (S step) m1 mf W1 ltac:(lia) ltac:(lia) HE (proj2 HC) (Forall_inv_tail HF))
      as (R1 & R2).
    split; [exact R1|]. intros r HR. apply R2.
    replace (S step - 1)%nat with (S (step - 1)) by lia. cbn [Diff_Model.post_pop_loop].
    replace (S (step - 1)) with step by lia.
    rewrite out_bind; [|ind | intros [pp po']; ind; destruct a; apply post_pop_loop_indep].
    rewrite E2. cbn [bind].
    rewrite out_bind; [|apply track_pop_indep | intros [? ?]; apply post_pop_loop_indep].
    rewrite track_pop_out by lia. rewrite EQ. cbn [bind]. rewrite <- surjective_pairing. exact HR.
Qed.

(** The same for the prior. *)
Lemma prior_push_pop (HP : push_pop wf Vi prior_codec) :
  forall ls step m mf, wf m -> (step + length ls = S steps)%nat -> (1 <= step)%nat ->
  out (prior_push_loop step ls m) = Ok mf ->
  chain step ls -> Forall (fun l => Vi (fst l)) ls ->
  wf mf /\
  (forall r, out (prior_pop_loop (step - 1) m ls) = r -> out (prior_pop_loop steps mf []) = r).
Proof.
  induction ls as [|l ls IH]; intros step m mf Hw HL H1 HE HC HF.
  - cbn in HE. injection HE as <-. cbn in HL. split; [exact Hw|]. intros r HR.
    replace (step - 1)%nat with steps in HR by lia. exact HR.
  - cbn [Diff_Model.prior_push_loop] in HE. cbn [length] in HL.
    rewrite out_bind in HE; [|apply track_push_indep | intros; apply prior_push_loop_indep].
    rewrite track_push_out in HE by lia.
    destruct (p_push prior_codec m (fst l)) as [m1|e] eqn:EP; [|discriminate].
    cbn [bind] in HE.
    destruct (HP m (fst l) m1 Hw (Forall_inv HF) EP) as (W1 & EQ).
    destruct (IH (S step) m1 mf W1 ltac:(lia) ltac:(lia) HE (proj2 HC) (Forall_inv_tail HF))
      as (R1 & R2).
    split; [exact R1|]. intros r HR. apply R2.
    replace (S step - 1)%nat with (S (step - 1)) by lia. cbn [Diff_Model.prior_pop_loop].
    replace (S (step - 1)) with step by lia.
    rewrite out_bind; [|ind | intros; ind; destruct a0; apply prior_pop_loop_indep].
    assert (E2 : out (if (step =? steps)%nat then ret std_params
           else match ls with
                | [] => raise IndexError
                | l :: _ => ret (generate_fn (to_latent l) step) end) = Ok (snd l)).
    { destruct HC as [HC _]. rewrite HC. destruct ls as [|l' ls]; cbn [length] in HL.
      - rewrite (proj2 (Nat.eqb_eq _ _)) by lia. reflexivity.
      - rewrite (proj2 (Nat.eqb_neq _ _)) by lia. reflexivity. }
    rewrite E2. cbn [bind].
    rewrite out_bind; [|apply track_pop_indep | intros [? ?]; apply prior_pop_loop_indep].
    rewrite track_pop_out by lia. rewrite EQ. cbn [bind]. rewrite <- surjective_pairing. exact HR.
Qed.

Lemma prior_pop_push (HP : pop_push wf Vi prior_codec) :
  forall step m acc m' ls, wf m -> (step + length acc = steps)%nat ->
  out (prior_pop_loop step m acc) = Ok (m', ls) ->
  chain (S step) acc -> Forall (fun l => Vi (fst l)) acc ->
  wf m' /\ length ls = steps /\ chain 1 ls /\ Forall (fun l => Vi (fst l)) ls /\
  (forall mf, out (prior_push_loop (S step) acc m) = Ok mf ->
              out (prior_push_loop 1 ls m') = Ok mf).
Proof.
  induction step as [|step IH]; intros m acc m' ls Hw HL HE HC HF.
  - cbn in HE. injection HE as <- <-. cbn in HL. repeat (split; [assumption|]). auto.
  - cbn [Diff_Model.prior_pop_loop] in HE.
    rewrite out_bind in HE; [|ind | intros; ind; destruct a0; apply prior_pop_loop_indep].
    assert (HPar : out (if (S step =? steps)%nat then ret std_params
           else match acc with
                | [] => raise IndexError
                | l :: _ => ret (generate_fn (to_latent l) (S step)) end)
      = Ok (match acc with [] => std_params | l :: _ => generate_fn (to_latent l) (S step) end)).
    { destruct acc as [|l acc]; cbn [length] in HL.
      - rewrite (proj2 (Nat.eqb_eq _ _)) by lia. reflexivity.
      - rewrite (proj2 (Nat.eqb_neq _ _)) by lia. reflexivity. }
    rewrite HPar in HE. cbn [bind] in HE. clear HPar.
    set (pp := match acc with [] => _ | _ => _ end) in *.
    rewrite out_bind in HE; [|apply track_pop_indep | intros [? ?]; apply prior_pop_loop_indep].
    rewrite track_pop_out in HE by lia.
    destruct (p_pop prior_codec m) as [[m1 inds]|e] eqn:EP; [|discriminate]. cbn [bind] in HE.
    destruct (HP m m1 inds Hw EP) as (W1 & V1 & EQ).
    assert (HC' : chain (S step) ((inds, pp) :: acc)).
    { cbn. split; [reflexivity | exact HC]. }
    destruct (IH m1 ((inds, pp) :: acc) m' ls W1 ltac:(cbn; lia) HE HC' ltac:(constructor; assumption))
      as (R1 & R2 & R3 & R4 & R5).
    repeat (split; [assumption|]).
    intros mf HM. apply R5. cbn [Diff_Model.prior_push_loop fst].
    rewrite out_bind; [|apply track_push_indep | intros; apply prior_push_loop_indep].
    rewrite track_push_out by lia. rewrite EQ. exact HM.
Qed.

(** ** One batch *)
Definition lik_of (ls : list (discr_latent Par Inds)) : res (prim M array) :=
  if Nat.eqb (length ls) steps then
    match ls with
    | l :: _ => Ok (lik_codec (generate_fn (to_latent l) 0))
    | [] => Raise IndexError
    end
  else Raise AssertionError.

(** encode's push on values *)
Definition push_val (m : M) (data : array) : res M :=
  do (m1, ls) <- out (post_pop_loop data steps m []);
  do lik <- lik_of ls;
  do m2 <- p_push lik m1 data;
  out (prior_push m2 ls).
Definition pop_val (m : M) : res (M * array) :=
  do (m1, ls) <- out (prior_pop_loop steps m []);
  do lik <- lik_of ls;
  do (m2, data) <- p_pop lik m1;
  do m3 <- out (posterior_push data m2 ls);
  Ok (m3, data).

Lemma likelihood_push (ls : list (discr_latent Par Inds)) m x :
  let e := run lik <- likelihood ls; s_push lik m x in
  indep e /\ out e = bind (lik_of ls) (fun lik => p_push lik m x).
Proof.
  unfold Diff_Model.likelihood, lik_of. cbv zeta. destruct (Nat.eqb (length ls) steps).
  - destruct ls as [|l ls].
    + split; [intro s; reflexivity | reflexivity].
    + split.
      * intro s. unfold ebind, ret, out. cbn -[Diff_Model.track_codec].
        apply track_push_indep.
      * unfold ebind, ret, out. cbn -[Diff_Model.track_codec]. apply track_push_out. lia.
  - split; [intro s; reflexivity | reflexivity].
Qed.
Lemma likelihood_pop (ls : list (discr_latent Par Inds)) m :
  let e := run lik <- likelihood ls; s_pop lik m in
  indep e /\ out e = bind (lik_of ls) (fun lik => p_pop lik m).
Proof.
  unfold Diff_Model.likelihood, lik_of. cbv zeta. destruct (Nat.eqb (length ls) steps).
  - destruct ls as [|l ls].
    + split; [intro s; reflexivity | reflexivity].
    + split.
      * intro s. unfold ebind, ret, out. cbn -[Diff_Model.track_codec].
        apply track_pop_indep.
      * unfold ebind, ret, out. cbn -[Diff_Model.track_codec]. apply track_pop_out. lia.
  - split; [intro s; reflexivity | reflexivity].
Qed.

Lemma ebind_assoc A B C (m : eff A) (f : A -> eff B) (g : B -> eff C) s :
  ebind m (fun a => ebind (f a) g) s = ebind (ebind m f) g s.
Proof. unfold ebind. destruct (m s) as [s' [a|e]]; reflexivity. Qed.

Lemma bind_assoc A B C (m : res A) (f : A -> res B) (g : B -> res C) :
  bind m (fun a => bind (f a) g) = bind (bind m f) g.
Proof. destruct m; reflexivity. Qed.

Lemma bb_push_val dc ib m data s : snd (bb_push dc ib m data s) = push_val m data.
Proof.
  unfold Diff_Model.bb_push, push_val.
  rewrite ebind_snd; [|apply posterior_pop_indep|].
  - rewrite posterior_pop_out. destruct (out (post_pop_loop data steps m [])) as [[m1 ls]|e]; [|reflexivity].
    cbn [bind]. rewrite bind_assoc. destruct (likelihood_push ls m1 data) as [HI HO].
    rewrite <- HO. unfold out at 1. rewrite ebind_assoc.
    rewrite ebind_snd; [|exact HI | intros; apply prior_push_indep]. reflexivity.
  - intros [m1 ls] s'. destruct (likelihood_push ls m1 data) as [HI _].
    unfold out. rewrite !ebind_assoc.
    rewrite !ebind_snd by (assumption || (intros; apply prior_push_indep)). reflexivity.
Qed.

Lemma bb_pop_val m s : snd (bb_pop m s) = pop_val m.
Proof.
  assert (I3 : forall ls p, indep (run m3 <- posterior_push (snd p) (fst p) ls; ret (m3, snd p))).
  { intros. apply indep_bind; [apply posterior_push_indep | intros; apply indep_ret]. }
  assert (I2 : forall ls m1 s', snd ((run lik <- likelihood ls;
      run (m2, data) <- s_pop lik m1; run m3 <- posterior_push data m2 ls; ret (m3, data)) s')
    = bind (bind (lik_of ls) (fun lik => p_pop lik m1)) (fun p =>
        bind (out (posterior_push (snd p) (fst p) ls)) (fun m3 => Ok (m3, snd p)))).
  { intros ls m1 s'. destruct (likelihood_pop ls m1) as [HI HO]. rewrite <- HO.
    rewrite (ebind_assoc _ _ _ (likelihood ls) (fun lik => s_pop lik m1)
      (fun '(m2, data) => run m3 <- posterior_push data m2 ls; ret (m3, data))).
    rewrite ebind_snd; [|exact HI | intros [a b]; exact (I3 ls (a, b))].
    destruct (out (run lik <- likelihood ls; s_pop lik m1)) as [[a b]|e]; [|reflexivity]. cbn.
    rewrite out_bind; [reflexivity | apply posterior_push_indep | intros; apply indep_ret]. }
  unfold Diff_Model.bb_pop, pop_val, Diff_Model.prior_pop.
  rewrite ebind_snd; [|apply prior_pop_loop_indep | intros [m1 ls] s'; unfold out; now rewrite !I2].
  destruct (out (prior_pop_loop steps m [])) as [[m1 ls]|e]; [|reflexivity].
  cbn [bind]. unfold out at 1. rewrite I2. rewrite <- bind_assoc.
  destruct (lik_of ls) as [c|]; [|reflexivity]. cbn [bind]. destruct (p_pop c m1) as [[? ?]|]; reflexivity.
Qed.

Notation Vd := (valid_data data_shape data_prec).

Lemma push_pop_val : push_pop wf Vi prior_codec -> (forall a b, pop_push wf Vi (post_codec a b)) ->
  (forall a, push_pop wf Vd (lik_codec a)) ->
  forall m data m', wf m -> Vd data -> push_val m data = Ok m' ->
    wf m' /\ pop_val m' = Ok (m, data).
Proof.
  intros H1 H2 H3 m data m' Hw HV HE. unfold push_val in HE.
  destruct (out (post_pop_loop data steps m [])) as [[m1 ls]|e] eqn:E1; [|discriminate].
  cbn [bind] in HE.
  destruct (post_pop_push data H2 steps m [] m1 ls Hw ltac:(cbn; lia) E1 I ltac:(constructor))
    as (W1 & L1 & C1 & F1 & P1).
  destruct (lik_of ls) as [lk|e] eqn:E2; [|discriminate]. cbn [bind] in HE.
  destruct (p_push lk m1 data) as [m2|e] eqn:E3; [|discriminate]. cbn [bind] in HE.
  assert (HK : exists a, lk = lik_codec a).
  { unfold lik_of in E2. destruct (Nat.eqb (length ls) steps); [|discriminate].
    destruct ls as [|l ls]; [discriminate|]. injection E2 as <-. eexists. reflexivity. }
  destruct HK as [a ->].
  destruct (H3 a m1 data m2 W1 HV E3) as [W2 P2].
  unfold Diff_Model.prior_push in HE. rewrite L1, Nat.eqb_refl in HE.
  destruct (prior_push_pop H1 ls 1 m2 m' W2 ltac:(lia) ltac:(lia) HE C1 F1) as [W3 P3].
  split; [exact W3|]. unfold pop_val. rewrite (P3 (Ok (m2, ls)) ltac:(reflexivity)). cbn [bind].
  rewrite E2. cbn [bind]. rewrite P2. cbn [bind]. unfold Diff_Model.posterior_push.
  rewrite L1, Nat.eqb_refl. rewrite (P1 m eq_refl). reflexivity.
Qed.

Lemma pop_push_val : pop_push wf Vi prior_codec -> (forall a b, push_pop wf Vi (post_codec a b)) ->
  (forall a, pop_push wf Vd (lik_codec a)) ->
  forall m data m', wf m -> pop_val m = Ok (m', data) ->
    wf m' /\ Vd data /\ push_val m' data = Ok m.
Proof.
  intros H1 H2 H3 m data m' Hw HE. unfold pop_val in HE.
  destruct (out (prior_pop_loop steps m [])) as [[m1 ls]|e] eqn:E1; [|discriminate].
  cbn [bind] in HE.
  destruct (prior_pop_push H1 steps m [] m1 ls Hw ltac:(cbn; lia) E1 I ltac:(constructor))
    as (W1 & L1 & C1 & F1 & P1).
  destruct (lik_of ls) as [lk|e] eqn:E2; [|discriminate]. cbn [bind] in HE.
  destruct (p_pop lk m1) as [[m2 d]|e] eqn:E3; [|discriminate]. cbn [bind] in HE.
  assert (HK : exists a, lk = lik_codec a).
  { unfold lik_of in E2. destruct (Nat.eqb (length ls) steps); [|discriminate].
    destruct ls as [|l ls]; [discriminate|]. injection E2 as <-. eexists. reflexivity. }
  destruct HK as [a ->].
  destruct (H3 a m1 m2 d W1 E3) as (W2 & V2 & P2).
  unfold Diff_Model.posterior_push in HE. rewrite L1, Nat.eqb_refl in HE.
  destruct (out (post_push_loop d 1 ls m2)) as [m3|e] eqn:E4; [|discriminate].
  injection HE as <- <-.
  destruct (post_push_pop d H2 ls 1 m2 m3 W2 ltac:(lia) ltac:(lia) E4 C1 F1) as [W3 P3].
  split; [exact W3|]. split; [exact V2|]. unfold push_val.
  rewrite (P3 (Ok (m2, ls)) ltac:(reflexivity)). cbn [bind].
  rewrite E2. cbn [bind]. rewrite P2. cbn [bind]. unfold Diff_Model.prior_push.
  rewrite L1, Nat.eqb_refl. exact (P1 m eq_refl).
Qed.

(** ** The object *)
Lemma fold_min_le : forall l x, fold_left Z.min l x <= x /\ Forall (fun y => fold_left Z.min l x <= y) l.
Proof.
  induction l as [|y l IH]; intro x; cbn; [split; [lia|constructor]|].
  destruct (IH (Z.min x y)) as [A B]. split; [lia|]. constructor; [lia | exact B].
Qed.
Lemma fold_max_ge : forall l x, x <= fold_left Z.max l x /\ Forall (fun y => y <= fold_left Z.max l x) l.
Proof.
  induction l as [|y l IH]; intro x; cbn; [split; [lia|constructor]|].
  destruct (IH (Z.max x y)) as [A B]. split; [lia|]. constructor; [lia | exact B].
Qed.
Lemma fold_min_in : forall l x, fold_left Z.min l x = x \/ In (fold_left Z.min l x) l.
Proof.
  induction l as [|y l IH]; intro x; cbn; [now left|].
  destruct (IH (Z.min x y)) as [A|A]; [|right; now right]. rewrite A.
  destruct (Z.min_spec x y) as [[_ ->]|[_ ->]]; [now left | right; now left].
Qed.
Lemma fold_max_in : forall l x, fold_left Z.max l x = x \/ In (fold_left Z.max l x) l.
Proof.
  induction l as [|y l IH]; intro x; cbn; [now left|].
  destruct (IH (Z.max x y)) as [A|A]; [|right; now right]. rewrite A.
  destruct (Z.max_spec x y) as [[_ ->]|[_ ->]]; [right; now left | now left].
Qed.

Lemma check_data_spec a : check_data a = true <-> valid_data data_shape data_prec a.
Proof.
  unfold Diff_Model.check_data, valid_data. destruct (vals a) as [|x l].
  - split; [discriminate | intros (_ & H & _); congruence].
  - rewrite !andb_true_iff, negb_true_iff, orb_false_iff, !Z.ltb_ge, Z.eqb_eq.
    destruct (list_eq_dec Z.eq_dec (shape a) data_shape) as [E|E].
    + rewrite E. split.
      * intros [[[A B] _] L]. split; [reflexivity|]. split; [discriminate|]. split; [|exact L].
        destruct (fold_min_le l x) as [C D]. destruct (fold_max_ge l x) as [F G].
        constructor; [lia|]. rewrite Forall_forall in *. intros y Hy.
        specialize (D y Hy). specialize (G y Hy). cbv beta in *. lia.
      * intros (_ & _ & H & L). split; [|exact L]. split; [|reflexivity]. inversion H as [|? ? Hx Hl]; subst.
        rewrite Forall_forall in Hl.
        destruct (fold_min_in l x) as [->|A]; destruct (fold_max_in l x) as [->|B];
          try specialize (Hl _ A) as A'; try specialize (Hl _ B) as B'; cbv beta in *; lia.
    + split; [intros [[_ H] _]; discriminate | intros (H & _); contradiction].
Qed.

Lemma encode_val o d : let '(o', r) := encode o d in
  (valid_data data_shape data_prec d ->
     r = push_val (message M o) d /\
     initial_bytes M o' = initial_bytes M o /\
     match r with
     | Ok m => message M o' = m /\ data_count M o' = data_count M o + 1
     | Raise _ => message M o' = message M o /\ data_count M o' = data_count M o
     end) /\
  (~ valid_data data_shape data_prec d -> o' = o /\ r = Raise ValueError).
Proof.
  unfold Diff_Model.encode. destruct (check_data d) eqn:E; cbn [negb].
  - apply check_data_spec in E.
    destruct (bb_push (data_count M o) (initial_bytes M o) (message M o) d (o_stats M o)) as [s r] eqn:EB.
    pose proof (bb_push_val (data_count M o) (initial_bytes M o) (message M o) d (o_stats M o)) as V.
    rewrite EB in V. cbn in V. subst r.
    destruct (push_val (message M o) d) as [m|e]; (split; [|contradiction]); intros _; cbn; auto.
  - split; [intro H; apply check_data_spec in H; congruence | auto].
Qed.

Lemma decode_val o : let '(o', r) := decode o in
  r = pop_val (message M o) /\ initial_bytes M o' = initial_bytes M o /\
  match r with
  | Ok (m, _) => message M o' = m /\ data_count M o' = data_count M o - 1
  | Raise _ => message M o' = message M o /\ data_count M o' = data_count M o
  end.
Proof.
  unfold Diff_Model.decode.
  destruct (bb_pop (message M o) (o_stats M o)) as [s r] eqn:EB.
  pose proof (bb_pop_val (message M o) (o_stats M o)) as V. rewrite EB in V. cbn in V. subst r.
  destruct (pop_val (message M o)) as [[m x]|e]; cbn; auto.
Qed.

Lemma decode_all_snoc : forall k o o1 ds, decode_all decode o k = Ok (o1, ds) ->
  forall o2 d m, decode o1 = (o2, Ok (m, d)) -> decode_all decode o (S k) = Ok (o2, ds ++ [d]).
Proof.
  induction k as [|k IH]; intros o o1 ds HE o2 d m HD.
  - cbn in HE. injection HE as <- <-. cbn. rewrite HD. reflexivity.
  - cbn [decode_all] in HE |- *. destruct (decode o) as [oa ra]. destruct ra as [[ma da]|e]; [|discriminate].
    cbn [bind] in HE |- *. destruct (decode_all decode oa k) as [[ob dsb]|e] eqn:EB; [|discriminate].
    injection HE as <- <-. specialize (IH oa ob dsb EB o2 d m HD). cbn [decode_all] in IH. rewrite IH.
    reflexivity.
Qed.

Theorem lossless : push_pop wf Vi prior_codec -> (forall a b, pop_push wf Vi (post_codec a b)) ->
  (forall a, push_pop wf (valid_data data_shape data_prec) (lik_codec a)) ->
  forall ds o o', wf (message M o) -> encode_all encode o ds = Ok o' ->
  wf (message M o') /\ data_count M o' = data_count M o + Z.of_nat (length ds) /\
  forall o1, message M o1 = message M o' ->
  exists o2, decode_all decode o1 (length ds) = Ok (o2, rev ds) /\
    message M o2 = message M o /\ data_count M o2 = data_count M o1 - Z.of_nat (length ds).
Proof.
  intros H1 H2 H3. induction ds as [|d ds IH]; intros o o' Hw HE.
  - cbn in HE. injection HE as <-. split; [exact Hw|]. split; [cbn; lia|].
    intros o1 Hm. exists o1. cbn. repeat split; auto; lia.
  - cbn [encode_all] in HE. destruct (encode o d) as [oa ra] eqn:EA.
    pose proof (encode_val o d) as V. rewrite EA in V. destruct V as [VV VN].
    destruct ra as [ma|e]; [|discriminate]. cbn [bind] in HE.
    assert (HV : valid_data data_shape data_prec d).
    { apply check_data_spec. destruct (check_data d) eqn:EC; [reflexivity|].
      destruct VN as [_ VN]; [|discriminate]. intro HV. apply check_data_spec in HV. congruence. }
    destruct (VV HV) as (V1 & _ & V2 & V3). symmetry in V1.
    destruct (push_pop_val H1 H2 H3 _ _ _ Hw HV V1) as [W1 P1].
    destruct (IH oa o' ltac:(congruence) HE) as (I1 & I2 & I3).
    split; [exact I1|]. split; [cbn [length]; lia|].
    intros o1 Hm. destruct (I3 o1 Hm) as (o2 & D1 & D2 & D3).
    destruct (decode o2) as [o3 r3] eqn:E3. pose proof (decode_val o2) as W. rewrite E3 in W.
    destruct W as (W2 & _ & W3). rewrite D2, V2, P1 in W2. subst r3. destruct W3 as [W3 W4].
    exists o3. split; [|split; [congruence | cbn [length]; lia]].
    cbn [length rev]. now apply (decode_all_snoc _ _ _ _ D1 _ _ _ E3).
Qed.

(** ** Success when no codec call raises *)
Lemma post_pop_total data (HP : forall a b, pop_push wf Vi (post_codec a b))
    (HT : forall a b m, wf m -> exists r, p_pop (post_codec a b) m = Ok r) :
  forall step m acc, wf m -> (step + length acc = steps)%nat ->
  exists r, out (post_pop_loop data step m acc) = Ok r.
Proof.
  induction step as [|step IH]; intros m acc Hw HL; [eexists; reflexivity|].
  cbn [Diff_Model.post_pop_loop].
  rewrite out_bind; [|ind | intros [pp po]; ind; destruct a; apply post_pop_loop_indep].
  assert (HPar : exists p,
    out (if (S step =? steps)%nat then ret (std_params, infer_fn data)
         else match acc with
              | [] => raise IndexError
              | l :: _ => ret (generate_fn (to_latent l) (S step),
                               generate_post_fn (to_latent l) (S step) data)
              end) = Ok p).
  { destruct acc as [|l acc]; cbn [length] in HL.
    - rewrite (proj2 (Nat.eqb_eq _ _)) by lia. eexists. reflexivity.
    - rewrite (proj2 (Nat.eqb_neq _ _)) by lia. eexists. reflexivity. }
  destruct HPar as ([pp po] & E1). rewrite E1. cbn [bind].
  rewrite out_bind; [|apply track_pop_indep | intros [? ?]; apply post_pop_loop_indep].
  rewrite track_pop_out by lia. destruct (HT po pp m Hw) as ([m1 x] & E). rewrite E. cbn [bind].
  destruct (HP po pp m m1 x Hw E) as (W & _). apply IH; [exact W | cbn [length]; lia].
Qed.
Lemma prior_push_total (HP : push_pop wf Vi prior_codec)
    (HT : forall m x, wf m -> Vi x -> exists m', p_push prior_codec m x = Ok m') :
  forall ls step m, wf m -> (step + length ls <= S steps)%nat -> Forall (fun l => Vi (fst l)) ls ->
  exists m', out (prior_push_loop step ls m) = Ok m'.
Proof.
  induction ls as [|l ls IH]; intros step m Hw HL HF; [eexists; reflexivity|].
  inversion HF as [|? ? HV HF']; subst. cbn [length] in HL. cbn [Diff_Model.prior_push_loop].
  rewrite out_bind; [|apply track_push_indep | intros; apply prior_push_loop_indep].
  rewrite track_push_out by lia. destruct (HT m (fst l) Hw HV) as (m1 & E). rewrite E. cbn [bind].
  destruct (HP m (fst l) m1 Hw HV E) as (W & _). apply IH; [exact W | lia | exact HF'].
Qed.

Theorem encode_succeeds : push_pop wf Vi prior_codec -> (forall a b, pop_push wf Vi (post_codec a b)) ->
  (forall a, push_pop wf (valid_data data_shape data_prec) (lik_codec a)) ->
  (forall m x, wf m -> Vi x -> exists m', p_push prior_codec m x = Ok m') ->
  (forall a b m, wf m -> exists r, p_pop (post_codec a b) m = Ok r) ->
  (forall a m d, wf m -> valid_data data_shape data_prec d -> exists m', p_push (lik_codec a) m d = Ok m') ->
  (1 <= steps)%nat ->
  forall ds o, wf (message M o) -> Forall (valid_data data_shape data_prec) ds ->
  exists o', encode_all encode o ds = Ok o'.
Proof.
  intros H1 H2 H3 T1 T2 T3 HS. induction ds as [|d ds IH]; intros o Hw HF; [eexists; reflexivity|].
  inversion HF as [|? ? HV HF']; subst. cbn [encode_all].
  destruct (encode o d) as [oa ra] eqn:EA. pose proof (encode_val o d) as V. rewrite EA in V.
  destruct V as [VV _]. destruct (VV HV) as (V1 & _ & V2).
  assert (T : exists m', push_val (message M o) d = Ok m').
  { unfold push_val.
    destruct (post_pop_total d H2 T2 steps (message M o) [] Hw ltac:(cbn; lia)) as ([m1 ls] & E1).
    rewrite E1. cbn [bind].
    destruct (post_pop_push d H2 steps (message M o) [] m1 ls Hw ltac:(cbn; lia) E1 I ltac:(constructor))
      as (W1 & L1 & C1 & F1 & _).
    unfold lik_of. rewrite L1, Nat.eqb_refl. destruct ls as [|l ls]; [cbn in L1; lia|]. cbn [bind].
    destruct (T3 (generate_fn (to_latent l) 0%nat) m1 d W1 HV) as (m2 & E2). rewrite E2. cbn [bind].
    destruct (H3 _ m1 d m2 W1 HV E2) as [W2 _].
    unfold Diff_Model.prior_push. rewrite L1, Nat.eqb_refl.
    apply (prior_push_total H1 T1); [exact W2 | exact (Nat.eq_le_incl _ _ (f_equal S L1)) | exact F1]. }
  destruct T as (m' & T). rewrite T in V1. subst ra. cbn [bind].
  destruct (push_pop_val H1 H2 H3 _ _ _ Hw HV T) as [W1 _].
  apply IH; [|exact HF']. destruct V2 as [-> _]. exact W1.
Qed.

Lemma encode_all_snoc : forall ds o o1, encode_all encode o ds = Ok o1 ->
  forall o2 d m, encode o1 d = (o2, Ok m) -> encode_all encode o (ds ++ [d]) = Ok o2.
Proof.
  induction ds as [|a ds IH]; intros o o1 HE o2 d m HD.
  - cbn in HE. injection HE as <-. cbn. rewrite HD. reflexivity.
  - cbn [encode_all app] in HE |- *. destruct (encode o a) as [oa ra]. destruct ra as [ma|e]; [|discriminate].
    cbn [bind] in HE |- *. now apply (IH oa o1 HE o2 d m).
Qed.

Theorem reencode : pop_push wf Vi prior_codec -> (forall a b, push_pop wf Vi (post_codec a b)) ->
  (forall a, pop_push wf (valid_data data_shape data_prec) (lik_codec a)) ->
  forall k o o' ds, wf (message M o) -> decode_all decode o k = Ok (o', ds) ->
  wf (message M o') /\ data_count M o' = data_count M o - Z.of_nat k /\
  Forall (valid_data data_shape data_prec) ds /\
  forall o1, message M o1 = message M o' ->
  exists o2, encode_all encode o1 (rev ds) = Ok o2 /\
    message M o2 = message M o /\ data_count M o2 = data_count M o1 + Z.of_nat k.
Proof.
  intros H1 H2 H3. induction k as [|k IH]; intros o o' ds Hw HE.
  - cbn in HE. injection HE as <- <-. split; [exact Hw|]. split; [lia|]. split; [constructor|].
    intros o1 Hm. exists o1. cbn. repeat split; auto; lia.
  - cbn [decode_all] in HE. destruct (decode o) as [oa ra] eqn:EA.
    pose proof (decode_val o) as V. rewrite EA in V. destruct V as (V1 & _ & V2).
    destruct ra as [[ma da]|e]; [|discriminate]. cbn [bind] in HE. destruct V2 as [V2 V3].
    destruct (decode_all decode oa k) as [[ob dsb]|e] eqn:EB; [|discriminate].
    injection HE as <- <-. symmetry in V1.
    destruct (pop_push_val H1 H2 H3 _ _ _ Hw V1) as (W1 & W2 & P1).
    destruct (IH oa ob dsb ltac:(congruence) EB) as (I1 & I2 & I4 & I3).
    split; [exact I1|]. split; [lia|]. split; [constructor; assumption|].
    intros o1 Hm. destruct (I3 o1 Hm) as (o2 & D1 & D2 & D3).
    destruct (encode o2 da) as [o3 r3] eqn:E3. pose proof (encode_val o2 da) as W. rewrite E3 in W.
    destruct W as [W _]. destruct (W W2) as (W3 & _ & W4). rewrite D2, V2, P1 in W3. subst r3.
    destruct W4 as [W4 W5].
    exists o3. split; [|split; [congruence | lia]].
    cbn [rev]. now apply (encode_all_snoc _ _ _ D1 _ _ _ E3).
Qed.

(** ** Accounting *)
Definition lens (s : stats) : Prop := length (push_bytes s) = S steps /\ length (pop_bytes s) = S steps.
Definition bal (s : stats) : Z := sum (push_bytes s) - sum (pop_bytes s).

Lemma add_at_length : forall l i v, length (add_at l i v) = length l.
Proof. induction l as [|x l IH]; intros [|i] v; cbn; auto. Qed.
Lemma add_at_sum : forall l i v, (i < length l)%nat -> sum (add_at l i v) = sum l + v.
Proof.
  unfold sum. induction l as [|x l IH]; intros [|i] v H; cbn in *; try lia. rewrite IH by lia. lia.
Qed.

(** [counts m m' s s']: from [s] to [s'] the balance moved like the message size. *)
Definition counts (m m' : M) (s s' : stats) : Prop :=
  bal s' - bal s = nbytes m' - nbytes m /\ lens s'.

Section Track.
Hypothesis Htrack : track = true.

Lemma track_push_counts A (c : prim M A) step m x s s' m' : (step <= steps)%nat -> lens s ->
  s_push (track_codec (of_prim c) step) m x s = (s', Ok m') -> counts m m' s s'.
Proof.
  intros Hs [L1 L2] HE. unfold Diff_Model.track_codec in HE. rewrite Htrack in HE. cbn [negb] in HE.
  destruct (Nat.ltb_spec steps step); [lia|]. cbn in HE. unfold ebind, lift in HE.
  destruct (p_push c m x) as [ma|]; [|discriminate]. injection HE as <- <-.
  unfold counts, bal, lens. cbn [push_bytes pop_bytes]. rewrite add_at_length, add_at_sum by lia. split; [lia | auto].
Qed.
Lemma track_pop_counts A (c : prim M A) step m x s s' m' : (step <= steps)%nat -> lens s ->
  s_pop (track_codec (of_prim c) step) m s = (s', Ok (m', x)) -> counts m m' s s'.
Proof.
  intros Hs [L1 L2] HE. unfold Diff_Model.track_codec in HE. rewrite Htrack in HE. cbn [negb] in HE.
  destruct (Nat.ltb_spec steps step); [lia|]. cbn in HE. unfold ebind, lift in HE.
  destruct (p_pop c m) as [[ma xa]|]; [|discriminate]. injection HE as <- <- <-.
  unfold counts, bal, lens. cbn [push_bytes pop_bytes]. rewrite add_at_length, add_at_sum by lia. split; [lia | auto].
Qed.

Lemma counts_trans m m' m'' s s' s'' : counts m m' s s' -> counts m' m'' s' s'' -> counts m m'' s s''.
Proof. unfold counts. intros [A _] [B C]. split; [lia | exact C]. Qed.
Lemma counts_refl m s : lens s -> counts m m s s.
Proof. unfold counts. split; [lia | assumption]. Qed.

Ltac bstep HE e s a := unfold ebind at 1 in HE; destruct e as [s [a|?]] eqn:?; [|discriminate].

Lemma prior_push_counts : forall ls step m m' s s', (step + length ls <= S steps)%nat -> lens s ->
  prior_push_loop step ls m s = (s', Ok m') -> counts m m' s s'.
Proof.
  induction ls as [|l ls IH]; intros step m m' s s' HL Hs HE.
  - cbn in HE. injection HE as <- <-. now apply counts_refl.
  - cbn [Diff_Model.prior_push_loop length] in HE, HL. unfold ebind at 1 in HE.
    destruct (s_push (track_codec (of_prim prior_codec) step) m (fst l) s) as [s1 [m1|e]] eqn:E1; [|discriminate].
    assert (Hst : (step <= steps)%nat) by lia.
    pose proof (track_push_counts _ _ _ _ _ _ _ _ Hst Hs E1) as C1.
    eapply counts_trans; [exact C1|]. apply (IH (S step) m1 m' s1 s'); [lia | apply C1 | exact HE].
Qed.
Lemma post_push_counts data : forall ls step m m' s s', (step + length ls <= S steps)%nat -> lens s ->
  post_push_loop data step ls m s = (s', Ok m') -> counts m m' s s'.
Proof.
  induction ls as [|l ls IH]; intros step m m' s s' HL Hs HE.
  - cbn in HE. injection HE as <- <-. now apply counts_refl.
  - cbn [Diff_Model.post_push_loop length] in HE, HL. unfold ebind at 1 in HE.
    match type of HE with (match ?e s with _ => _ end) = _ => set (e0 := e) in HE end.
    assert (Z0 : fst (e0 s) = s).
    { unfold e0. destruct (step <? steps)%nat; [destruct ls|]; reflexivity. }
    destruct (e0 s) as [s0 [pp|e]]; [|discriminate]. cbn in Z0. subst s0. unfold ebind at 1 in HE.
    destruct (s_push (track_codec (of_prim (post_codec pp (snd l))) step) m (fst l) s) as [s1 [m1|e]] eqn:E1;
      [|discriminate].
    assert (Hst : (step <= steps)%nat) by lia.
    pose proof (track_push_counts _ _ _ _ _ _ _ _ Hst Hs E1) as C1.
    eapply counts_trans; [exact C1|]. apply (IH (S step) m1 m' s1 s'); [lia | apply C1 | exact HE].
Qed.
Lemma prior_pop_counts : forall step m acc m' ls s s', (step <= steps)%nat -> lens s ->
  prior_pop_loop step m acc s = (s', Ok (m', ls)) -> counts m m' s s' /\ length ls = (step + length acc)%nat.
Proof.
  induction step as [|step IH]; intros m acc m' ls s s' HL Hs HE.
  - cbn in HE. injection HE as <- <- <-. split; [now apply counts_refl | reflexivity].
  - cbn [Diff_Model.prior_pop_loop] in HE. unfold ebind at 1 in HE.
    match type of HE with (match ?e s with _ => _ end) = _ => set (e0 := e) in HE end.
    assert (Z0 : fst (e0 s) = s).
    { unfold e0. destruct (S step =? steps)%nat; [|destruct acc]; reflexivity. }
    destruct (e0 s) as [s0 [pp|e]]; [|discriminate]. cbn in Z0. subst s0. unfold ebind at 1 in HE.
    destruct (s_pop (track_codec (of_prim prior_codec) (S step)) m s) as [s1 [[m1 x]|e]] eqn:E1; [|discriminate].
    pose proof (track_pop_counts _ _ _ _ _ _ _ _ HL Hs E1) as C1.
    destruct (IH m1 _ m' ls s1 s' ltac:(lia) (proj2 C1) HE) as [I1 I2].
    split; [eapply counts_trans; eassumption | cbn in I2; lia].
Qed.
Lemma post_pop_counts data : forall step m acc m' ls s s', (step <= steps)%nat -> lens s ->
  post_pop_loop data step m acc s = (s', Ok (m', ls)) ->
  counts m m' s s' /\ length ls = (step + length acc)%nat.
Proof.
  induction step as [|step IH]; intros m acc m' ls s s' HL Hs HE.
  - cbn in HE. injection HE as <- <- <-. split; [now apply counts_refl | reflexivity].
  - cbn [Diff_Model.post_pop_loop] in HE. unfold ebind at 1 in HE.
    match type of HE with (match ?e s with _ => _ end) = _ => set (e0 := e) in HE end.
    assert (Z0 : fst (e0 s) = s).
    { unfold e0. destruct (S step =? steps)%nat; [|destruct acc]; reflexivity. }
    destruct (e0 s) as [s0 [[pp po]|e]]; [|discriminate]. cbn in Z0. subst s0. unfold ebind at 1 in HE.
    destruct (s_pop (track_codec (of_prim (post_codec po pp)) (S step)) m s) as [s1 [[m1 x]|e]] eqn:E1;
      [|discriminate].
    pose proof (track_pop_counts _ _ _ _ _ _ _ _ HL Hs E1) as C1.
    destruct (IH m1 _ m' ls s1 s' ltac:(lia) (proj2 C1) HE) as [I1 I2].
    split; [eapply counts_trans; eassumption | cbn in I2; lia].
Qed.

Lemma bb_push_counts dc ib m data m' s s' : lens s ->
  bb_push dc ib m data s = (s', Ok m') -> counts m m' s s'.
Proof.
  intros Hs HE. unfold Diff_Model.bb_push in HE. unfold ebind at 1 in HE.
  destruct (posterior_pop dc ib data m s) as [s1 [[m1 ls]|e]] eqn:E1; [|discriminate].
  assert (C1 : counts m m1 s s1 /\ length ls = steps).
  { unfold Diff_Model.posterior_pop in E1. unfold ebind at 1 in E1.
    destruct (post_pop_loop data steps m [] s) as [s0 [[m0 l0]|e]] eqn:E0; [|discriminate].
    injection E1 as <- <- <-.
    destruct (post_pop_counts data steps m [] m0 l0 s s0 ltac:(lia) Hs E0) as [C L].
    split; [|cbn in L; lia]. destruct C as [Ca Cb]. destruct (dc =? 0); [|split; assumption].
    split; [exact Ca | exact Cb]. }
  destruct C1 as [C1 L1]. unfold ebind at 1 in HE. unfold Diff_Model.likelihood in HE.
  rewrite L1, Nat.eqb_refl in HE. destruct ls as [|l ls]; [discriminate|].
  unfold ret at 1 in HE. unfold ebind at 1 in HE.
  match type of HE with (match ?e with _ => _ end) = _ => destruct e as [s2 [m2|e0]] eqn:E2 end;
    [|discriminate].
  pose proof (track_push_counts _ _ _ _ _ _ _ _ (Nat.le_0_l _) (proj2 C1) E2) as C2.
  unfold Diff_Model.prior_push in HE. rewrite L1, Nat.eqb_refl in HE.
  assert (HL3 : (1 + length (l :: ls) <= S steps)%nat) by (rewrite L1; lia).
  pose proof (prior_push_counts _ _ _ _ _ _ HL3 (proj2 C2) HE) as C3.
  eapply counts_trans; [exact C1|]. eapply counts_trans; eassumption.
Qed.
Lemma bb_pop_counts m data m' s s' : lens s ->
  bb_pop m s = (s', Ok (m', data)) -> counts m m' s s'.
Proof.
  intros Hs HE. unfold Diff_Model.bb_pop in HE. unfold ebind at 1 in HE.
  destruct (prior_pop m s) as [s1 [[m1 ls]|e]] eqn:E1; [|discriminate].
  destruct (prior_pop_counts steps m [] m1 ls s s1 ltac:(lia) Hs E1) as [C1 L1]. cbn in L1.
  unfold ebind at 1 in HE. unfold Diff_Model.likelihood in HE.
  replace (length ls =? steps)%nat with true in HE by (symmetry; apply Nat.eqb_eq; lia).
  destruct ls as [|l ls]; [discriminate|].
  unfold ret at 1 in HE. unfold ebind at 1 in HE.
  match type of HE with (match ?e with _ => _ end) = _ => destruct e as [s2 [[m2 d]|e0]] eqn:E2 end;
    [|discriminate].
  pose proof (track_pop_counts _ _ _ _ _ _ _ _ (Nat.le_0_l _) (proj2 C1) E2) as C2.
  unfold ebind at 1 in HE. unfold Diff_Model.posterior_push in HE.
  replace (length (l :: ls) =? steps)%nat with true in HE by (symmetry; apply Nat.eqb_eq; lia).
  destruct (post_push_loop d 1 (l :: ls) m2 s2) as [s3 [m3|e0]] eqn:E3; [|discriminate].
  unfold ret in HE. injection HE as <- <- <-.
  assert (HL3 : (1 + length (l :: ls) <= S steps)%nat) by lia.
  pose proof (post_push_counts _ _ _ _ _ _ _ HL3 (proj2 C2) E3) as C3.
  eapply counts_trans; [exact C1|]. eapply counts_trans; eassumption.
Qed.
End Track.

Definition accounted (o : obj M) : Prop :=
  lens (o_stats M o) /\ bal (o_stats M o) = nbytes (message M o) - initial_bytes M o.

Lemma new_accounted m0 : accounted (new_codec M nbytes steps m0).
Proof.
  unfold accounted, lens, bal, new_codec. cbn [o_stats message initial_bytes push_bytes pop_bytes].
  rewrite repeat_length. split; [split; reflexivity | lia].
Qed.

Lemma encode_accounted o d o' m : track = true -> accounted o -> encode o d = (o', Ok m) -> accounted o'.
Proof.
  intros Ht [HL HB] HE. unfold Diff_Model.encode in HE. destruct (negb (check_data d)); [discriminate|].
  destruct (bb_push (data_count M o) (initial_bytes M o) (message M o) d (o_stats M o)) as [s [ma|e]] eqn:EB;
    [|discriminate]. injection HE as <- <-.
  destruct (bb_push_counts Ht _ _ _ _ _ _ _ HL EB) as [C L]. split; cbn [o_stats message initial_bytes]; [exact L | lia].
Qed.
Lemma decode_accounted o o' m d : track = true -> accounted o -> decode o = (o', Ok (m, d)) -> accounted o'.
Proof.
  intros Ht [HL HB] HE. unfold Diff_Model.decode in HE.
  destruct (bb_pop (message M o) (o_stats M o)) as [s [[ma da]|e]] eqn:EB; [|discriminate].
  injection HE as <- <- <-.
  destruct (bb_pop_counts Ht _ _ _ _ _ HL EB) as [C L]. split; cbn [o_stats message initial_bytes]; [exact L | lia].
Qed.

(** ** Objects that differ in extra_bytes only *)
Definition eqx (s s' : stats) : Prop := push_bytes s = push_bytes s' /\ pop_bytes s = pop_bytes s'.
Definition blind {A} (e : eff A) : Prop := forall s s', eqx s s' ->
  snd (e s) = snd (e s') /\ eqx (fst (e s)) (fst (e s')).

Lemma blind_ret A (a : A) : blind (ret a). Proof. intros s s' H. split; auto. Qed.
Lemma blind_raise A e : @blind A (raise e). Proof. intros s s' H. split; auto. Qed.
Lemma blind_lift A (r : res A) : blind (lift r). Proof. intros s s' H. split; auto. Qed.
Lemma blind_bind A B (m : eff A) (f : A -> eff B) : blind m -> (forall a, blind (f a)) -> blind (ebind m f).
Proof.
  intros Hm Hf s s' H. destruct (Hm s s' H) as [E1 E2]. unfold ebind.
  destruct (m s) as [s1 r1], (m s') as [s2 r2]. cbn in E1, E2. subst r2.
  destruct r1 as [a|e]; [exact (Hf a s1 s2 E2) | split; auto].
Qed.
Lemma blind_track_push A (c : prim M A) step m x : blind (s_push (track_codec (of_prim c) step) m x).
Proof.
  unfold Diff_Model.track_codec. destruct track; cbn [negb]; [|apply blind_lift].
  destruct (Nat.ltb steps step); cbn [s_push s_pop of_prim]; [apply blind_raise|].
  apply blind_bind; [apply blind_lift|]. intros a s s' [E1 E2]. split; cbn; [auto|].
  split; cbn; [now rewrite E1 | exact E2].
Qed.
Lemma blind_track_pop A (c : prim M A) step m : blind (s_pop (track_codec (of_prim c) step) m).
Proof.
  unfold Diff_Model.track_codec. destruct track; cbn [negb]; [|apply blind_lift].
  destruct (Nat.ltb steps step); cbn [s_push s_pop of_prim]; [apply blind_raise|].
  apply blind_bind; [apply blind_lift|]. intros [a b] s s' [E1 E2]. split; cbn; [auto|].
  split; cbn; [exact E1 | now rewrite E2].
Qed.
Ltac bl := repeat first
  [ apply blind_bind | apply blind_ret | apply blind_raise | apply blind_lift
  | apply blind_track_push | apply blind_track_pop
  | match goal with |- blind (if ?b then _ else _) => destruct b end
  | match goal with |- blind (match ?l with [] => _ | _ :: _ => _ end) => destruct l end
  | match goal with |- blind (let '(_, _) := ?a in _) => destruct a end
  | progress intros ].
Lemma blind_prior_push_loop : forall ls step m, blind (prior_push_loop step ls m).
Proof. induction ls; intros; cbn; bl. apply IHls. Qed.
Lemma blind_post_push_loop d : forall ls step m, blind (post_push_loop d step ls m).
Proof. induction ls; intros; cbn [Diff_Model.post_push_loop]; bl; apply IHls. Qed.
Lemma blind_prior_pop_loop : forall step m acc, blind (prior_pop_loop step m acc).
Proof. induction step; intros; cbn [Diff_Model.prior_pop_loop]; bl; apply IHstep. Qed.
Lemma blind_post_pop_loop d : forall step m acc, blind (post_pop_loop d step m acc).
Proof. induction step; intros; cbn [Diff_Model.post_pop_loop]; bl; apply IHstep. Qed.
Lemma blind_likelihood A ls (f : scodec M array -> eff A) :
  (forall a, blind (f (track_codec (of_prim (lik_codec a)) 0))) ->
  blind (run lik <- likelihood ls; f lik).
Proof.
  intros Hf. unfold Diff_Model.likelihood. destruct (Nat.eqb (length ls) steps).
  - destruct ls as [|l ls]; [intros s s' H; split; auto|]. intros s s' H. unfold ebind, ret. cbn. now apply Hf.
  - intros s s' H. split; auto.
Qed.
Lemma blind_bb_push dc ib m d : blind (bb_push dc ib m d).
Proof.
  unfold Diff_Model.bb_push. apply blind_bind.
  - unfold Diff_Model.posterior_pop. apply blind_bind; [apply blind_post_pop_loop|].
    intros [m' ls] s s' [E1 E2]. split; [reflexivity|]. cbn. destruct (dc =? 0); split; cbn; auto.
  - intros [m1 ls]. apply blind_likelihood. intro a. apply blind_bind; [apply blind_track_push|].
    intro m2. unfold Diff_Model.prior_push. bl. apply blind_prior_push_loop.
Qed.
Lemma blind_bb_pop m : blind (bb_pop m).
Proof.
  unfold Diff_Model.bb_pop. apply blind_bind; [apply blind_prior_pop_loop|].
  intros [m1 ls]. apply blind_likelihood. intro a. apply blind_bind; [apply blind_track_pop|].
  intros [m2 d]. unfold Diff_Model.posterior_push. bl. apply blind_post_push_loop.
Qed.

Lemma do_call_agree c o o' : agree_but_extra o o' ->
  let '(o1, r1) := do_call encode decode o c in
  let '(o2, r2) := do_call encode decode o' c in
  agree_but_extra o1 o2 /\ r1 = r2.
Proof.
  intros (E1 & E2 & E3 & E4 & E5). destruct o as [m n i s], o' as [m' n' i' s'].
  cbn in E1, E2, E3, E4, E5. subst m' n' i'.
  destruct c as [d|]; cbn [do_call].
  - unfold Diff_Model.encode. destruct (negb (check_data d)).
    + split; [|reflexivity]. repeat split; assumption.
    + cbn [data_count initial_bytes message o_stats].
      pose proof (blind_bb_push n i m d s s' (conj E4 E5)) as [B1 [B2 B3]].
      destruct (bb_push n i m d s) as [s1 r1], (bb_push n i m d s') as [s2 r2].
      cbn in B1, B2, B3. subst r2. destruct r1; (split; [repeat split; cbn; auto | reflexivity]).
  - unfold Diff_Model.decode. cbn [data_count initial_bytes message o_stats].
    pose proof (blind_bb_pop m s s' (conj E4 E5)) as [B1 [B2 B3]].
    destruct (bb_pop m s) as [s1 r1], (bb_pop m s') as [s2 r2].
    cbn in B1, B2, B3. subst r2. destruct r1 as [[? ?]|]; (split; [repeat split; cbn; auto | reflexivity]).
Qed.

Lemma calls_agree : forall cs o o', agree_but_extra o o' ->
  agree_but_extra (fst (calls encode decode o cs)) (fst (calls encode decode o' cs)) /\
  snd (calls encode decode o cs) = snd (calls encode decode o' cs).
Proof.
  induction cs as [|c cs IH]; intros o o' H; cbn [calls]; [split; auto|].
  pose proof (do_call_agree c o o' H) as D.
  destruct (do_call encode decode o c) as [o1 r1], (do_call encode decode o' c) as [o2 r2].
  destruct D as [D ->]. destruct (IH o1 o2 D) as [I1 I2].
  destruct (calls encode decode o1 cs), (calls encode decode o2 cs). cbn in *. split; [exact I1 | now rewrite I2].
Qed.

(** ** The first encode *)
Lemma first_encode o d o' m : data_count M o = 0 -> track = true \/ track = false ->
  encode o d = (o', Ok m) ->
  exists m1 ls, out (post_pop_loop d steps (message M o) []) = Ok (m1, ls) /\
    extra_bytes (o_stats M o') = initial_bytes M o - nbytes m1.
Proof.
  intros H0 _ HE. unfold Diff_Model.encode in HE. destruct (negb (check_data d)); [discriminate|].
  destruct (bb_push (data_count M o) (initial_bytes M o) (message M o) d (o_stats M o)) as [s [ma|e]] eqn:EB;
    [|discriminate]. injection HE as <- <-. rewrite H0 in EB. cbn [o_stats].
  unfold Diff_Model.bb_push in EB. unfold ebind at 1 in EB.
  destruct (posterior_pop 0 (initial_bytes M o) d (message M o) (o_stats M o)) as [s1 [[m1 ls]|e]] eqn:E1;
    [|discriminate].
  pose proof (posterior_pop_out 0 (initial_bytes M o) d (message M o)) as PO.
  pose proof (posterior_pop_indep 0 (initial_bytes M o) d (message M o) (o_stats M o)) as PI.
  rewrite E1 in PI. cbn in PI. exists m1, ls. split; [congruence|].
  assert (X1 : extra_bytes s1 = initial_bytes M o - nbytes m1).
  { unfold Diff_Model.posterior_pop in E1. unfold ebind at 1 in E1.
    destruct (post_pop_loop d steps (message M o) [] (o_stats M o)) as [s0 [[m0 l0]|e]]; [|discriminate].
    cbn in E1. injection E1 as <- <- <-. reflexivity. }
  (* nothing later writes extra_bytes *)
  assert (K : forall A (c : prim M A) step mm x st, extra_bytes (fst (s_push (track_codec (of_prim c) step) mm x st)) = extra_bytes st).
  { intros A c step mm x st. unfold Diff_Model.track_codec. destruct track; [|reflexivity]. cbn [negb].
    destruct (Nat.ltb steps step); [reflexivity|]. cbn. unfold ebind, lift. destruct (p_push c mm x); reflexivity. }
  assert (KL : forall l step mm st, extra_bytes (fst (prior_push_loop step l mm st)) = extra_bytes st).
  { induction l as [|x l IHl]; intros step mm st; [reflexivity|]. cbn [Diff_Model.prior_push_loop].
    unfold ebind. pose proof (K _ prior_codec step mm (fst x) st) as Kx.
    destruct (s_push (track_codec (of_prim prior_codec) step) mm (fst x) st) as [st1 [mm1|e]]; cbn in Kx |- *;
      [rewrite IHl; exact Kx | exact Kx]. }
  unfold ebind at 1 in EB. unfold Diff_Model.likelihood in EB.
  destruct (length ls =? steps)%nat eqn:EL; [|discriminate]. destruct ls as [|l ls]; [discriminate|].
  unfold ret at 1 in EB. unfold ebind at 1 in EB.
  pose proof (K _ (lik_codec (generate_fn (to_latent l) 0)) 0%nat m1 d s1) as K1.
  destruct (s_push (track_codec (of_prim (lik_codec (generate_fn (to_latent l) 0))) 0) m1 d s1) as [s2 [m2|e]];
    [|discriminate]. cbn in K1.
  unfold Diff_Model.prior_push in EB. rewrite EL in EB.
  pose proof (KL (l :: ls) 1%nat m2 s2) as K2. rewrite EB in K2. cbn in K2. congruence.
Qed.
End P.

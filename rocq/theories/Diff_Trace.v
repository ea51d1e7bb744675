(** The bytes counted per step are those of the step. *)
From Coq Require Import ZArith List Bool Lia.
From Verif Require Import Base Diff_Model Diff_Spec Diff_Proofs.
Import ListNotations.
Open Scope Z_scope.

Lemma nth_add_at : forall l i v k, (i < length l)%nat ->
  nth k (add_at l i v) 0 = nth k l 0 + (if Nat.eqb k i then v else 0).
Proof.
  induction l as [|x l IH]; intros i v k H; cbn [length] in H; [lia|].
  destruct i as [|i], k as [|k]; cbn [add_at nth Nat.eqb]; try lia. apply IH. lia.
Qed.

Section T.
Context {M Par Lat Inds : Type}.
Variable nbytes : M -> Z.
Variable prior_codec : prim M Inds.
Variable post_codec : Par -> Par -> prim M Inds.
Variable lik_codec : Par -> prim M array.
Variable std_params : Par.
Variable to_latent : Inds * Par -> Lat.
Variable steps : nat.
Variable infer_fn : array -> Par.
Variable generate_fn : Lat -> nat -> Par.
Variable generate_post_fn : Lat -> nat -> array -> Par.
Variable track : bool.
Variable data_shape : list Z.
Variable data_prec : Z.

Notation track_codec := (track_codec M nbytes steps track).
Notation prior_push_loop := (prior_push_loop M Par Inds nbytes prior_codec steps track).
Notation post_pop_loop := (post_pop_loop M Par Lat Inds nbytes post_codec std_params to_latent steps
  infer_fn generate_fn generate_post_fn track).
Notation encode := (encode M Par Lat Inds nbytes prior_codec post_codec lik_codec std_params
  to_latent steps infer_fn generate_fn generate_post_fn track data_shape data_prec).
Notation prior_par := (prior_par std_params to_latent generate_fn).
Notation post_par := (post_par to_latent infer_fn generate_post_fn).
Notation lens := (lens steps).

Definition booked (v : Z) : Z := if track then v else 0.

Lemma track_push A (c : prim M A) step m x s s' m' : lens s -> (step <= steps)%nat ->
  s_push (track_codec (of_prim c) step) m x s = (s', Ok m') ->
  p_push c m x = Ok m' /\ lens s' /\ pop_bytes s' = pop_bytes s /\ extra_bytes s' = extra_bytes s /\
  forall k, nth k (push_bytes s') 0 = nth k (push_bytes s) 0
    + (if Nat.eqb k step then booked (nbytes m' - nbytes m) else 0).
Proof.
  intros L Hs. unfold Diff_Model.track_codec, booked. destruct track; cbn [negb].
  - rewrite (proj2 (Nat.ltb_ge _ _)) by lia. cbn [s_push of_prim]. unfold ebind, lift.
    destruct (p_push c m x) as [m1|e]; [|discriminate]. intro E. injection E as <- <-.
    destruct L as [L1 L2]. split; [reflexivity|]. cbn [push_bytes pop_bytes extra_bytes].
    split; [split; cbn [push_bytes pop_bytes]; [rewrite add_at_length|]; assumption|].
    split; [reflexivity|]. split; [reflexivity|]. intro k. apply nth_add_at. lia.
  - cbn [s_push of_prim]. unfold lift. intro E. injection E as <- E.
    split; [exact E|]. split; [exact L|]. split; [reflexivity|]. split; [reflexivity|].
    intro k. destruct (Nat.eqb k step); lia.
Qed.
Lemma track_pop A (c : prim M A) step m s s' m' x : lens s -> (step <= steps)%nat ->
  s_pop (track_codec (of_prim c) step) m s = (s', Ok (m', x)) ->
  p_pop c m = Ok (m', x) /\ lens s' /\ push_bytes s' = push_bytes s /\ extra_bytes s' = extra_bytes s /\
  forall k, nth k (pop_bytes s') 0 = nth k (pop_bytes s) 0
    + (if Nat.eqb k step then booked (nbytes m - nbytes m') else 0).
Proof.
  intros L Hs. unfold Diff_Model.track_codec, booked. destruct track; cbn [negb].
  - rewrite (proj2 (Nat.ltb_ge _ _)) by lia. cbn [s_pop of_prim]. unfold ebind, lift.
    destruct (p_pop c m) as [[m1 x1]|e]; [|discriminate]. intro E. injection E as <- <- <-.
    destruct L as [L1 L2]. split; [reflexivity|]. cbn [push_bytes pop_bytes extra_bytes].
    split; [split; cbn [push_bytes pop_bytes]; [|rewrite add_at_length]; assumption|].
    split; [reflexivity|]. split; [reflexivity|]. intro k. apply nth_add_at. lia.
  - cbn [s_pop of_prim]. unfold lift. intro E. injection E as <- E.
    split; [exact E|]. split; [exact L|]. split; [reflexivity|]. split; [reflexivity|].
    intro k. destruct (Nat.eqb k step); lia.
Qed.

Lemma nth_error_split_at (acc pre : list (Inds * Par)) (k : nat) : length pre = k ->
  nth_error (pre ++ acc) k = nth_error acc 0.
Proof. intro H. rewrite nth_error_app2 by lia. f_equal. lia. Qed.

Lemma post_pop_trace d : forall step m (acc : list (Inds * Par)) s s' m' (ls : list (Inds * Par)), lens s -> (step + length acc = steps)%nat ->
  post_pop_loop d step m acc s = (s', Ok (m', ls)) ->
  exists pre f, ls = pre ++ acc /\ length pre = step /\ f step = m /\ f 0%nat = m' /\
    (forall k l, (1 <= k <= step)%nat -> nth_error ls (k - 1) = Some l ->
       snd l = prior_par ls k /\
       p_pop (post_codec (post_par d ls k) (snd l)) (f k) = Ok (f (k - 1)%nat, fst l)) /\
    lens s' /\ push_bytes s' = push_bytes s /\ extra_bytes s' = extra_bytes s /\
    (forall k, nth k (pop_bytes s') 0 = nth k (pop_bytes s) 0 +
       (if (Nat.leb 1 k && Nat.leb k step)%bool then booked (nbytes (f k) - nbytes (f (k - 1)%nat)) else 0)).
Proof.
  induction step as [|step IH]; intros m acc s s' m' ls L HL E.
  - cbn in E. injection E as <- <- <-. exists [], (fun _ => m). split; [reflexivity|].
    split; [reflexivity|]. split; [reflexivity|]. split; [reflexivity|]. split; [intros; lia|].
    split; [exact L|]. split; [reflexivity|]. split; [reflexivity|].
    intro k. destruct k; cbn; lia.
  - cbn [Diff_Model.post_pop_loop] in E.
    match type of E with ebind ?e0 _ _ = _ => assert (HPar : exists pp po, e0 = ret (pp, po) /\
      pp = match nth_error acc 0 with Some l => generate_fn (to_latent l) (S step) | None => std_params end /\
      po = match nth_error acc 0 with Some l => generate_post_fn (to_latent l) (S step) d | None => infer_fn d end) end.
    { destruct acc as [|l acc]; cbn [length] in HL.
      - rewrite (proj2 (Nat.eqb_eq _ _)) by lia. do 2 eexists. split; [reflexivity|]. split; reflexivity.
      - rewrite (proj2 (Nat.eqb_neq _ _)) by lia. do 2 eexists. split; [reflexivity|]. split; reflexivity. }
    destruct HPar as (pp & po & E1 & E2 & E3). rewrite E1 in E. unfold ebind at 1, ret at 1 in E.
    unfold ebind in E.
    destruct (s_pop (track_codec (of_prim (post_codec po pp)) (S step)) m s) as [s1 [[m1 x]|e]] eqn:EP;
      [|discriminate].
    apply track_pop in EP; [|exact L|lia]. destruct EP as (P1 & L1 & P2 & P3 & P4).
    destruct (IH m1 ((x, pp) :: acc) s1 s' m' ls L1 ltac:(cbn [length]; lia) E)
      as (pre & f & A1 & A2 & A3 & A4 & A5 & A6 & A7 & A8 & A9).
    exists (pre ++ [(x, pp)]), (fun k => if Nat.eqb k (S step) then m else f k).
    split; [rewrite <- app_assoc; exact A1|].
    split; [rewrite app_length; cbn; lia|].
    split; [now rewrite Nat.eqb_refl|].
    split; [exact A4|].
    assert (NE : nth_error ls (S step) = nth_error acc 0).
    { rewrite A1. rewrite nth_error_app2 by lia. replace (S step - length pre)%nat with 1%nat by lia. reflexivity. }
    split; [|split; [exact A6|split; [congruence|split; [congruence|]]]].
    + intros k l Hk Hl. destruct (Nat.eq_dec k (S step)) as [->|NK].
      * assert (Hl' : nth_error ls step = Some (x, pp)) by (rewrite A1, nth_error_split_at by exact A2; reflexivity).
        replace (S step - 1)%nat with step in * by lia. rewrite Hl' in Hl. injection Hl as <-. cbn [fst snd].
        rewrite Nat.eqb_refl. rewrite (proj2 (Nat.eqb_neq step (S step))) by lia. rewrite A3.
        unfold Diff_Spec.prior_par, Diff_Spec.post_par. rewrite NE. rewrite <- E2, <- E3. split; [reflexivity | exact P1].
      * rewrite (proj2 (Nat.eqb_neq k (S step))) by lia. rewrite (proj2 (Nat.eqb_neq (k - 1) (S step))) by lia.
        apply A5; [lia | exact Hl].
    + intro k. rewrite A9, P4. destruct (Nat.eqb_spec k (S step)) as [->|NK].
      * replace (S step - 1)%nat with step by lia. rewrite (proj2 (Nat.eqb_neq step (S step))) by lia. rewrite A3.
        rewrite (proj2 (Nat.leb_gt (S step) step)) by lia. rewrite andb_false_r.
        rewrite (proj2 (Nat.leb_le 1 (S step))) by lia. rewrite Nat.leb_refl. cbn [andb]. lia.
      * destruct (Nat.leb_spec 1 k), (Nat.leb_spec k step), (Nat.leb_spec k (S step)); cbn [andb]; try lia.
        rewrite (proj2 (Nat.eqb_neq (k - 1) (S step))) by lia. lia.
Qed.

Lemma prior_push_trace : forall (ls : list (Inds * Par)) step m s s' m', lens s -> (step + length ls = S steps)%nat -> (1 <= step)%nat ->
  prior_push_loop step ls m s = (s', Ok m') ->
  exists g, g (step - 1)%nat = m /\ g steps = m' /\
    (forall k l, (step <= k <= steps)%nat -> nth_error ls (k - step) = Some l ->
       p_push prior_codec (g (k - 1)%nat) (fst l) = Ok (g k)) /\
    lens s' /\ pop_bytes s' = pop_bytes s /\ extra_bytes s' = extra_bytes s /\
    (forall k, nth k (push_bytes s') 0 = nth k (push_bytes s) 0 +
       (if (Nat.leb step k && Nat.leb k steps)%bool then booked (nbytes (g k) - nbytes (g (k - 1)%nat)) else 0)).
Proof.
  induction ls as [|l ls IH]; intros step m s s' m' L HL H1 E; cbn [length] in HL.
  - cbn in E. injection E as <- <-. exists (fun _ => m). split; [reflexivity|]. split; [reflexivity|].
    split; [intros; lia|]. split; [exact L|]. split; [reflexivity|]. split; [reflexivity|].
    intro k. destruct (Nat.leb_spec step k), (Nat.leb_spec k steps); cbn [andb]; lia.
  - cbn [Diff_Model.prior_push_loop] in E. unfold ebind in E.
    destruct (s_push (track_codec (of_prim prior_codec) step) m (fst l) s) as [s1 [m1|e]] eqn:EP; [|discriminate].
    apply track_push in EP; [|exact L|lia]. destruct EP as (P1 & L1 & P2 & P3 & P4).
    destruct (IH (S step) m1 s1 s' m' L1 ltac:(lia) ltac:(lia) E) as (g & A1 & A2 & A3 & A4 & A5 & A6 & A7).
    replace (S step - 1)%nat with step in A1 by lia.
    exists (fun k => if Nat.ltb k step then m else g k).
    split; [rewrite (proj2 (Nat.ltb_lt _ _)) by lia; reflexivity|].
    split. { rewrite (proj2 (Nat.ltb_ge _ _)) by lia. exact A2. }
    split; [|split; [exact A4|split; [congruence|split; [congruence|]]]].
    + intros k l' Hk Hl. destruct (Nat.eq_dec k step) as [->|NK].
      * rewrite Nat.sub_diag in Hl. injection Hl as <-.
        rewrite (proj2 (Nat.ltb_lt _ _)) by lia. rewrite Nat.ltb_irrefl. now rewrite A1.
      * rewrite (proj2 (Nat.ltb_ge (k - 1) _)) by lia. rewrite (proj2 (Nat.ltb_ge k _)) by lia.
        apply A3; [lia|]. replace (k - step)%nat with (S (k - S step)) in Hl by lia. exact Hl.
    + intro k. rewrite A7, P4. destruct (Nat.eqb_spec k step) as [->|NK].
      * rewrite (proj2 (Nat.leb_gt (S step) step)) by lia. cbn [andb]. rewrite Nat.leb_refl.
        rewrite (proj2 (Nat.leb_le step steps)) by lia. cbn [andb].
        rewrite Nat.ltb_irrefl. rewrite (proj2 (Nat.ltb_lt (step - 1) _)) by lia. rewrite A1. lia.
      * destruct (Nat.leb_spec (S step) k), (Nat.leb_spec k steps), (Nat.leb_spec step k); cbn [andb]; try lia.
        rewrite (proj2 (Nat.ltb_ge (k - 1) _)) by lia. rewrite (proj2 (Nat.ltb_ge k _)) by lia. lia.
Qed.

Theorem encode_traced o d o' m' : lens (o_stats M o) -> encode o d = (o', Ok m') ->
  exists ls f g,
    encode_trace prior_codec post_codec lik_codec std_params to_latent steps infer_fn generate_fn
      generate_post_fn (message M o) d m' ls f g /\
    message M o' = m' /\
    extra_bytes (o_stats M o') = (if data_count M o =? 0 then initial_bytes M o - nbytes (f 0%nat)
                                  else extra_bytes (o_stats M o)) /\
    (track = true -> forall k, (k <= steps)%nat ->
       nth k (push_bytes (o_stats M o')) 0 = nth k (push_bytes (o_stats M o)) 0 +
         (nbytes (g k) - nbytes (if Nat.eqb k 0 then f 0%nat else g (k - 1)%nat)) /\
       nth k (pop_bytes (o_stats M o')) 0 = nth k (pop_bytes (o_stats M o)) 0 +
         (if Nat.eqb k 0 then 0 else nbytes (f k) - nbytes (f (k - 1)%nat))) /\
    (track = false -> forall k, nth k (push_bytes (o_stats M o')) 0 = nth k (push_bytes (o_stats M o)) 0 /\
                                nth k (pop_bytes (o_stats M o')) 0 = nth k (pop_bytes (o_stats M o)) 0).
Proof.
  intros L E.
  unfold Diff_Model.encode in E. destruct (negb (check_data data_shape data_prec d)); [discriminate|].
  destruct (bb_push M Par Lat Inds nbytes prior_codec post_codec lik_codec std_params to_latent steps
    infer_fn generate_fn generate_post_fn track (data_count M o) (initial_bytes M o) (message M o) d (o_stats M o))
    as [sf [mf|e]] eqn:EB; [|discriminate].
  injection E as <- <-. cbn [message o_stats] in *. unfold bb_push, posterior_pop in EB.
  unfold ebind at 1 in EB. unfold ebind at 1 in EB.
  destruct (post_pop_loop d steps (message M o) [] (o_stats M o)) as [s1 [[m1 ls]|e]] eqn:E1; [|discriminate].
  apply post_pop_trace in E1; [|exact L|cbn [length]; lia].
  destruct E1 as (pre & f & A1 & A2 & A3 & A4 & A5 & A6 & A7 & A8 & A9). rewrite app_nil_r in A1. subst pre.
  unfold likelihood in EB. change (@length (discr_latent Par Inds) ls) with (@length (Inds * Par) ls) in EB.
  rewrite A2, Nat.eqb_refl in EB. destruct ls as [|l0 ls']; [discriminate|].
  unfold ebind at 1 in EB. cbn [ret] in EB.
  set (s1' := if data_count M o =? 0 then mk_stats (initial_bytes M o - nbytes m1) (push_bytes s1) (pop_bytes s1)
              else s1) in *.
  assert (L1 : lens s1') by (unfold s1'; destruct (data_count M o =? 0); exact A6).
  assert (B1 : push_bytes s1' = push_bytes s1 /\ pop_bytes s1' = pop_bytes s1 /\
               extra_bytes s1' = if data_count M o =? 0 then initial_bytes M o - nbytes m1 else extra_bytes s1)
    by (unfold s1'; destruct (data_count M o =? 0); auto).
  destruct B1 as (B1 & B2 & B3). clearbody s1'. unfold ebind in EB.
  destruct (s_push (track_codec (of_prim (lik_codec (generate_fn (to_latent l0) 0%nat))) 0) m1 d s1')
    as [s2 [m2|e]] eqn:E2; [|discriminate].
  apply track_push in E2; [|exact L1|lia]. destruct E2 as (C1 & L2 & C2 & C3 & C4).
  unfold prior_push in EB. change (@length (discr_latent Par Inds) (l0 :: ls')) with (@length (Inds * Par) (l0 :: ls')) in EB.
  rewrite A2, Nat.eqb_refl in EB.
  apply prior_push_trace in EB; [|exact L2|lia|lia].
  destruct EB as (g & D1 & D2 & D3 & L3 & D4 & D5 & D6). cbn [Nat.sub] in D1.
  exists (l0 :: ls'), f, g. split.
  { split; [exact A2|]. split; [exact A3|]. split; [exact D2|]. split.
    - intros k l Hk Hl. destruct (A5 k l Hk Hl) as [X Y]. split; [exact X|]. split; [exact Y|].
      apply D3; [lia | exact Hl].
    - exists l0. split; [reflexivity|]. rewrite A4, D1. exact C1. }
  split; [reflexivity|]. split. { rewrite D5, C3, B3, A4, A8. reflexivity. }
  split.
  - intros HT k Hk. rewrite D4, C2, B2, A9, D6, C4, B1, A7. unfold booked. rewrite HT.
    destruct k as [|k].
    + cbn [Nat.leb Nat.eqb andb]. rewrite D1, A4. lia.
    + rewrite (proj2 (Nat.leb_le 1 (S k))) by lia. rewrite (proj2 (Nat.leb_le (S k) steps)) by lia.
      cbn [andb Nat.eqb]. lia.
  - intros HT k. rewrite D4, C2, B2, A9, D6, C4, B1, A7. unfold booked. rewrite HT.
    destruct (Nat.leb 1 k && Nat.leb k steps)%bool, (Nat.eqb k 0); lia.
Qed.
End T.

(** C81: the wiring of the VQ-VAE's networks and their frozen parts. *)
From Coq Require Import String ZArith List Bool Arith Lia.
From Verif Require Import Base VqNet_Model.
Import ListNotations.
Open Scope string_scope.
Open Scope list_scope.
Open Scope nat_scope.

Lemma run_app : forall a b c, run (a ++ b) c = bind (run a c) (run b).
Proof. induction a as [|l a IH]; intros b c; [reflexivity|]. cbn [app run]. destruct (apply l c) as [c'|]; cbn [bind]; [apply IH|reflexivity]. Qed.
Lemma run_blocks : forall k n i o a, run (blocks k n i o a) i = Ok (after n i o).
Proof.
  induction n as [|n IH]; intros i o a; [reflexivity|]. cbn [blocks run apply]. rewrite Nat.eqb_refl. cbn [bind]. rewrite run_app.
  assert (run (if a then [Attn k o] else []) o = Ok o) as -> by (destruct a; cbn; rewrite ?Nat.eqb_refl; reflexivity). cbn [bind]. rewrite IH.
  unfold after. destruct n; reflexivity.
Qed.
Lemma run_middle : forall k c, run (middle k c) c = Ok c.
Proof. intros. cbn. rewrite !Nat.eqb_refl. cbn [bind]. rewrite !Nat.eqb_refl. cbn [bind]. rewrite Nat.eqb_refl. reflexivity. Qed.
Lemma enc_run : forall k ch nres attn mults pm r, 1 <= nres -> let '(ls, b) := enc_levels k ch nres attn pm mults r in run ls (ch * pm) = Ok b.
Proof.
  intros k ch nres attn mults. induction mults as [|m rest IH]; intros pm r N; [reflexivity|]. cbn [enc_levels]. set (bl := blocks _ _ _ _ _).
  assert (run bl (ch * pm) = Ok (ch * m)) as B by (unfold bl; rewrite run_blocks; unfold after; destruct nres; [lia|reflexivity]).
  assert (after nres (ch * pm) (ch * m) = ch * m) as A by (unfold after; destruct nres; [lia|reflexivity]). rewrite A.
  destruct rest as [|m' rest']; [exact B|]. specialize (IH m (r / 2) N). destruct (enc_levels k ch nres attn m (m' :: rest') (r / 2)) as [ls b].
  rewrite run_app, B. cbn [bind run apply]. rewrite Nat.eqb_refl. cbn [bind]. exact IH.
Qed.
Lemma dec_run : forall k ch nres attn mults b r, let '(ls, b') := dec_levels k ch nres attn b mults r in run ls b = Ok b' /\ b' = match mults with [] => b | _ => ch * last mults 0 end.
Proof.
  intros k ch nres attn mults. induction mults as [|m rest IH]; intros b r; [split; reflexivity|]. cbn [dec_levels]. set (bl := blocks _ _ _ _ _).
  assert (run bl b = Ok (ch * m)) as B by (unfold bl; rewrite run_blocks; unfold after; replace (nres + 1 =? 0) with false by (symmetry; apply Nat.eqb_neq; lia); reflexivity).
  destruct rest as [|m' rest']; [split; [exact B|reflexivity]|]. specialize (IH (ch * m) (r * 2)). destruct (dec_levels k ch nres attn (ch * m) (m' :: rest') (r * 2)) as [ls b'].
  destruct IH as [IH1 IH2]. split; [|exact IH2]. rewrite run_app, B. cbn [bind run apply]. rewrite Nat.eqb_refl. cbn [bind]. exact IH1.
Qed.
(** Whatever the multipliers, resolutions and norms, every layer gets the channels it was made for: the
    encoder turns in_channels into embed_dim channels, the decoder embed_dim into out_ch; other numbers
    are refused. *)
Theorem C81_wiring : forall norm_type ch mults nres attn in_channels out_ch resolution embed_dim, 1 <= nres ->
  run (encoder norm_type ch mults nres attn in_channels resolution embed_dim) in_channels = Ok embed_dim /\
  run (decoder norm_type ch mults nres attn out_ch resolution embed_dim) embed_dim = Ok out_ch /\
  (forall c, c <> in_channels -> run (encoder norm_type ch mults nres attn in_channels resolution embed_dim) c = Raise RuntimeError) /\
  (forall c, c <> embed_dim -> run (decoder norm_type ch mults nres attn out_ch resolution embed_dim) c = Raise RuntimeError).
Proof.
  intros nt ch mults nres attn ic oc r ed N. unfold encoder, decoder. set (k := if (nt =? "channel_last")%string then "group" else nt).
  pose proof (enc_run k ch nres attn mults 1 r N) as E. destruct (enc_levels k ch nres attn 1 mults r) as [ls b]. rewrite Nat.mul_1_r in E.
  pose proof (dec_run k ch nres attn (rev mults) (ch * last mults 0) (r / 2 ^ (length mults - 1))) as D. destruct (dec_levels _ _ _ _ _ _ _) as [ls' b']. destruct D as [D _].
  split; [|split; [|split]].
  - cbn [run apply]. rewrite Nat.eqb_refl. cbn [bind]. rewrite run_app, E. cbn [bind]. rewrite run_app, run_middle. cbn [bind run apply]. rewrite !Nat.eqb_refl. cbn [bind]. rewrite Nat.eqb_refl. reflexivity.
  - cbn [run apply]. rewrite Nat.eqb_refl. cbn [bind]. rewrite run_app, run_middle. cbn [bind]. rewrite run_app, D. cbn [bind run apply]. rewrite !Nat.eqb_refl. cbn [bind]. rewrite Nat.eqb_refl. reflexivity.
  - intros c H. apply Nat.eqb_neq in H. cbn [run apply]. rewrite H. reflexivity.
  - intros c H. apply Nat.eqb_neq in H. cbn [run apply]. rewrite H. reflexivity.
Qed.
(** Without residual blocks the encoder does not fit together. *)
Theorem C81_no_blocks_refuted : run (encoder "channel" 64 [1; 2; 4] 0 [] 3 256 256) 3 = Raise RuntimeError.
Proof. reflexivity. Qed.

(** ** Norms *)
Lemma create_app : forall a b, create_all (a ++ b) = do _ <- create_all a; create_all b.
Proof. induction a as [|l a IH]; intros b; [reflexivity|]. cbn [app create_all]. destruct (create l); cbn [bind]; [apply IH|reflexivity]. Qed.
(** the norms of a list of layers *)
Definition norms (l : layer) : list (string * nat) :=
  match l with NormL k c | Attn k c => [(k, c)] | Res k i o => [(k, i); (k, o)] | _ => [] end.
Definition valid (p : string * nat) : Prop := (fst p = "group" /\ Nat.divide 16 (snd p)) \/ (fst p = "channel" /\ 2 <= snd p).
Lemma create_norm_spec : forall k c, (valid (k, c) -> create_norm k c = Ok tt) /\ (~ valid (k, c) -> create_norm k c = Raise ValueError).
Proof.
  intros k c. unfold create_norm, valid. cbn [fst snd].
  assert (forall a b : string, (a =? b)%string = true <-> a = b) as SE by apply String.eqb_eq.
  destruct (k =? "group")%string eqn:E1; [apply SE in E1; subst k|].
  - rewrite <- Nat.mod_divide by lia. destruct (Nat.eqb_spec (c mod 16) 0); split; intros H; try reflexivity; exfalso.
    + apply H. left. auto.
    + destruct H as [[_ H]|[H _]]; [lia|discriminate].
  - destruct (k =? "channel")%string eqn:E2; [apply SE in E2; subst k|].
    + destruct (Nat.leb_spec c 1); split; intros H'; try reflexivity; exfalso.
      * destruct H' as [[H' _]|[_ H']]; [discriminate|lia].
      * apply H'. right. auto.
    + split; [|reflexivity]. intros [[-> _]|[-> _]]; discriminate.
Qed.
Lemma create_spec : forall ls, (Forall valid (flat_map norms ls) -> create_all ls = Ok tt) /\ (~ Forall valid (flat_map norms ls) -> create_all ls = Raise ValueError).
Proof.
  assert (forall p, valid p \/ ~ valid p) as DEC.
  { intros [k c]. unfold valid. cbn [fst snd]. destruct (string_dec k "group"), (string_dec k "channel"), (le_dec 2 c), (Nat.eq_dec (c mod 16) 0) as [M|M];
    rewrite ?Nat.mod_divide in M by lia; subst; tauto || (right; intros [[? ?]|[? ?]]; try congruence; try contradiction; try lia). }
  assert (forall l, (Forall valid (norms l) -> create l = Ok tt) /\ (~ Forall valid (norms l) -> create l = Raise ValueError)) as ONE.
  { assert (forall k c, (Forall valid [(k, c)] -> create_norm k c = Ok tt) /\ (~ Forall valid [(k, c)] -> create_norm k c = Raise ValueError)) as K.
    { intros k c. destruct (create_norm_spec k c) as [A B]. split; intros H; [apply A; inversion H; assumption|]. apply B. intros V. apply H. constructor; [exact V|constructor]. }
    intros [i o|k c|k i o|k c|c|c]; cbn [norms create]; try (split; [reflexivity|intros H; exfalso; apply H; constructor]); try apply K.
    destruct (create_norm_spec k i) as [A B]. destruct (create_norm_spec k o) as [A' B']. split; intros H.
    - inversion H as [|? ? V1 V2]. subst. inversion V2. subst. rewrite A by assumption. cbn [bind]. apply A'. assumption.
    - destruct (DEC (k, i)) as [V|V]; [|rewrite B by exact V; reflexivity]. rewrite A by exact V. cbn [bind]. apply B'. intros V'. apply H. apply Forall_cons; [assumption|]. apply Forall_cons; [assumption|]. apply Forall_nil. }
  induction ls as [|l ls [IH1 IH2]]; [split; [reflexivity|intros H; exfalso; apply H; constructor]|]. cbn [flat_map create_all]. destruct (ONE l) as [A B]. split; intros H.
  - apply Forall_app in H as [H1 H2]. rewrite A by exact H1. cbn [bind]. apply IH1, H2.
  - assert (Forall valid (norms l) \/ ~ Forall valid (norms l)) as [V|V].
    { generalize (norms l) as q. induction q as [|p q IHq]; [left; constructor|]. destruct (DEC p), IHq; [left; constructor; assumption|right; intros V; inversion V; contradiction..]. }
    + rewrite A by exact V. cbn [bind]. apply IH2. intros W. apply H. apply Forall_app. split; assumption.
    + rewrite B by exact V. reflexivity.
Qed.
Lemma blocks_norms : forall k n i o a p, In p (flat_map norms (blocks k n i o a)) -> p = (k, i) \/ p = (k, o).
Proof.
  induction n as [|n IH]; intros i o a p H; [destruct H|]. cbn [blocks flat_map norms app] in H. destruct H as [<-|[<-|H]]; auto.
  rewrite flat_map_app in H. apply in_app_or in H as [H|H].
  - destruct a; [|destruct H]. cbn in H. destruct H as [<-|[]]. auto.
  - destruct (IH _ _ _ _ H); auto.
Qed.
Lemma blocks_first : forall k n i o a, 1 <= n -> In (k, i) (flat_map norms (blocks k n i o a)) /\ In (k, o) (flat_map norms (blocks k n i o a)).
Proof. intros k [|n] i o a N; [lia|]. cbn. auto. Qed.
Lemma enc_norms : forall k ch nres attn mults pm r, 1 <= nres -> forall p, In p (flat_map norms (fst (enc_levels k ch nres attn pm mults r))) <-> (mults <> [] /\ (p = (k, ch * pm) \/ exists m, In m mults /\ p = (k, ch * m))).
Proof.
  intros k ch nres attn mults. induction mults as [|m rest IH]; intros pm r N p.
  - cbn. split; [intros []|intros [H _]; apply H; reflexivity].
  - cbn [enc_levels]. set (bl := blocks _ _ _ _ _). assert (forall q, In q (flat_map norms bl) <-> (q = (k, ch * pm) \/ q = (k, ch * m))) as B.
    { intros q. split; [apply blocks_norms|]. destruct (blocks_first k nres (ch * pm) (ch * m) (mem r attn) N). intros [->| ->]; assumption. }
    destruct rest as [|m' rest'].
    + cbn [fst]. rewrite B. split.
      * intros [->| ->]; (split; [discriminate|]); [left; reflexivity|right; exists m; split; [left; reflexivity|reflexivity]].
      * intros [_ [->|(x & [<-|[]] & ->)]]; auto.
    + specialize (IH m (r / 2) N p). destruct (enc_levels k ch nres attn m (m' :: rest') (r / 2)) as [ls b]. cbn [fst] in *. rewrite flat_map_app, in_app_iff. cbn [flat_map norms app]. rewrite B, IH. split.
      * intros [[->| ->]|[_ [->|(x & X & ->)]]]; (split; [discriminate|]); [left; reflexivity|right; exists m; split; [left; reflexivity|reflexivity]..|right; exists x; split; [right; exact X|reflexivity]].
      * intros [_ [->|(x & [<-|X] & ->)]]; [left; auto|left; auto|]. right. split; [discriminate|]. right. exists x. auto.
Qed.
Lemma dec_norms : forall k ch nres attn mults b r p, In p (flat_map norms (fst (dec_levels k ch nres attn b mults r))) -> p = (k, b) \/ exists m, In m mults /\ p = (k, ch * m).
Proof.
  intros k ch nres attn mults. induction mults as [|m rest IH]; intros b r p H; [destruct H|]. cbn [dec_levels] in H. set (bl := blocks _ _ _ _ _) in *.
  assert (forall q, In q (flat_map norms bl) -> q = (k, b) \/ exists x, In x (m :: rest) /\ q = (k, ch * x)) as B.
  { intros q Q. destruct (blocks_norms _ _ _ _ _ _ Q); [auto|]. right. exists m. split; [left; reflexivity|assumption]. }
  destruct rest as [|m' rest']; [apply B, H|]. specialize (IH (ch * m) (r * 2) p). destruct (dec_levels k ch nres attn (ch * m) (m' :: rest') (r * 2)) as [ls b']. cbn [fst] in *.
  rewrite flat_map_app, in_app_iff in H. cbn [flat_map norms app] in H. destruct H as [H|H]; [apply B, H|]. destruct (IH H) as [->|(x & X & ->)].
  - right. exists m. split; [left; reflexivity|reflexivity].
  - right. exists x. split; [right; exact X|reflexivity].
Qed.
Lemma enc_last : forall k ch nres attn mults pm r, 1 <= nres -> snd (enc_levels k ch nres attn pm mults r) = match mults with [] => ch * pm | _ => ch * last mults 0 end.
Proof.
  intros k ch nres attn mults. induction mults as [|m rest IH]; intros pm r N; [reflexivity|]. cbn [enc_levels].
  assert (after nres (ch * pm) (ch * m) = ch * m) as A by (unfold after; destruct nres; [lia|reflexivity]).
  destruct rest as [|m' rest']; [exact A|]. specialize (IH m (r / 2) N). destruct (enc_levels k ch nres attn m (m' :: rest') (r / 2)). cbn [snd] in *. exact IH.
Qed.
(** The constructor accepts group norms ("group", or "channel_last" for the last one of the decoder) exactly
    for a multiple of 16 channels, channel norms for at least two, and no other name. *)
Theorem C81_norms : forall norm_type ch mults nres attn ic oc r ed, 1 <= nres -> mults <> [] -> (forall m, In m mults -> 1 <= m) -> 1 <= ch ->
  let ok := (norm_type = "group" /\ Nat.divide 16 ch) \/ (norm_type = "channel_last" /\ Nat.divide 16 ch) \/ (norm_type = "channel" /\ 2 <= ch) in
  (ok -> construct norm_type ch mults nres attn ic oc r ed = Ok tt) /\ (~ ok -> construct norm_type ch mults nres attn ic oc r ed = Raise ValueError).
Proof.
  intros nt ch mults nres attn ic oc r ed N NE MP CP ok. unfold construct.
  set (k := if (nt =? "channel_last")%string then "group" else nt).
  assert (forall p, In p (flat_map norms (encoder nt ch mults nres attn ic r ed)) <-> p = (k, ch) \/ exists m, In m mults /\ p = (k, ch * m)) as EN.
  { intros p. unfold encoder. fold k. pose proof (enc_norms k ch nres attn mults 1 r N p) as E. pose proof (enc_last k ch nres attn mults 1 r N) as L.
    destruct (enc_levels k ch nres attn 1 mults r) as [ls b]. cbn [fst snd] in *. rewrite Nat.mul_1_r in E.
    cbn [flat_map norms app]. rewrite !flat_map_app, !in_app_iff, E. cbn [middle flat_map norms app].
    assert (b = ch * last mults 0) as -> by (destruct mults; [contradiction|exact L]).
    assert (In (last mults 0) mults) as IL by (destruct (exists_last NE) as (q & x & ->); rewrite last_last; apply in_or_app; right; left; reflexivity).
    split.
    - intros [[_ H]|[H|H]]; [exact H| |]; right; exists (last mults 0); (split; [exact IL|]); cbn in H; intuition congruence.
    - intros H. left. split; [exact NE|exact H]. }
  assert (forall p, In p (flat_map norms (decoder nt ch mults nres attn oc r ed)) -> (exists m, In m mults /\ p = (k, ch * m)) \/ (nt = "channel_last" /\ exists m, In m mults /\ p = ("channel", ch * m))) as DN.
  { intros p. unfold decoder. fold k. pose proof (dec_norms k ch nres attn (rev mults) (ch * last mults 0) (r / 2 ^ (length mults - 1)) p) as E.
    pose proof (dec_run k ch nres attn (rev mults) (ch * last mults 0) (r / 2 ^ (length mults - 1))) as DR.
    destruct (dec_levels _ _ _ _ _ _ _) as [ls b]. destruct DR as [_ DB]. cbn [fst] in E.
    assert (In (last mults 0) mults) as IL by (destruct (exists_last NE) as (q & x & ->); rewrite last_last; apply in_or_app; right; left; reflexivity).
    assert (exists m0, In m0 mults /\ b = ch * m0) as (m0 & IM & ->).
    { assert (rev mults <> []) as RN by (intros H; apply NE; rewrite <- (rev_involutive mults), H; reflexivity). destruct (rev mults) as [|a l] eqn:RV; [contradiction|].
      exists (last (a :: l) 0). split; [|exact DB]. apply in_rev. rewrite RV. destruct (exists_last RN) as (q & x & ->). rewrite last_last. apply in_or_app. right. left. reflexivity. }
    cbn [flat_map norms app]. rewrite !flat_map_app, !in_app_iff. cbn [middle flat_map norms app]. intros [H|[H|H]].
    - left. exists (last mults 0). split; [exact IL|]. cbn in H. intuition congruence.
    - left. destruct (E H) as [->|(m & M & ->)]; [exists (last mults 0); auto|]. exists m. split; [apply in_rev; exact M|reflexivity].
    - cbn in H. destruct H as [<-|[]]. unfold k. destruct (nt =? "channel_last")%string eqn:Q.
      + right. apply String.eqb_eq in Q. split; [exact Q|]. exists m0. auto.
      + left. exists m0. auto. }
  destruct (create_spec (encoder nt ch mults nres attn ic r ed)) as [E1 E2]. destruct (create_spec (decoder nt ch mults nres attn oc r ed)) as [D1 D2].
  assert (ok <-> valid (k, ch)) as OK.
  { unfold ok, valid, k. cbn [fst snd]. destruct (nt =? "channel_last")%string eqn:Q.
    - apply String.eqb_eq in Q. subst nt. split; [intros [[H _]|[[_ H]|[H _]]]; try discriminate; auto|intros [[_ H]|[H _]]; [auto|discriminate]].
    - apply String.eqb_neq in Q. tauto. }
  split; intros H.
  - apply OK in H. assert (forall m, In m mults -> valid (k, ch * m)) as VM.
    { intros m M. specialize (MP m M). unfold valid in *. cbn [fst snd] in *. destruct H as [[H1 H2]|[H1 H2]]; [left; split; [exact H1|apply Nat.divide_mul_l; exact H2]|right; split; [exact H1|nia]]. }
    rewrite E1; [cbn [bind]; apply D1|].
    + apply Forall_forall. intros p P. destruct (DN p P) as [(m & M & ->)|(Q & m & M & ->)]; [apply VM, M|]. right. cbn [fst snd]. split; [reflexivity|].
      unfold k in H. rewrite Q in H. cbn in H. destruct H as [[_ H]|[H _]]; [|discriminate]. cbn in H. destruct H as [z H]. specialize (MP m M). assert (1 <= z) by (destruct z; lia). nia.
    + apply Forall_forall. intros p P. apply EN in P as [->|(m & M & ->)]; [exact H|apply VM, M].
  - rewrite E2; [reflexivity|]. intros F. apply H, OK. rewrite Forall_forall in F. apply F, EN. left. reflexivity.
Qed.

(** ** Where attention is *)
Lemma enc_res_nth : forall n r i, i < n -> nth i (enc_res n r) 0 = r / 2 ^ i.
Proof.
  induction n as [|n IH]; intros r i I; [lia|]. destruct i as [|i]; cbn [enc_res nth]; [change (2 ^ 0) with 1; rewrite Nat.div_1_r; reflexivity|]. rewrite IH by lia.
  rewrite Nat.div_div by (try lia; apply Nat.pow_nonzero; lia). reflexivity.
Qed.
Lemma dec_res_rev_nth : forall n r i, i < n -> nth i (dec_res_rev n r) 0 = r * 2 ^ i.
Proof. induction n as [|n IH]; intros r i I; [lia|]. destruct i as [|i]; cbn [dec_res_rev nth]; [cbn; lia|]. rewrite IH by lia. cbn [Nat.pow]. lia. Qed.
Lemma dec_res_rev_length : forall n r, length (dec_res_rev n r) = n.
Proof. induction n; intros; cbn; auto. Qed.
(** the channels of the attention layers, in order *)
Definition attns (ls : list layer) : list nat := flat_map (fun l => match l with Attn _ c => [c] | _ => [] end) ls.
Lemma attns_app : forall a b, attns (a ++ b) = attns a ++ attns b.
Proof. intros. apply flat_map_app. Qed.
Lemma attns_blocks : forall k n i o a, attns (blocks k n i o a) = if a then repeat o n else [].
Proof.
  induction n as [|n IH]; intros i o a; [destruct a; reflexivity|]. cbn [blocks].
  change (attns (Res k i o :: (if a then [Attn k o] else []) ++ blocks k n o o a)) with (attns ((if a then [Attn k o] else []) ++ blocks k n o o a)). rewrite attns_app, IH. destruct a; reflexivity.
Qed.
Lemma enc_attns : forall k ch nres attn mults pm r, attns (fst (enc_levels k ch nres attn pm mults r)) =
  flat_map (fun p => if mem (snd p) attn then repeat (ch * fst p) nres else []) (combine mults (enc_res (length mults) r)).
Proof.
  intros k ch nres attn mults. induction mults as [|m rest IH]; intros pm r; [reflexivity|]. cbn [enc_levels length enc_res combine flat_map fst snd].
  destruct rest as [|m' rest'].
  - cbn [fst length enc_res combine flat_map]. rewrite attns_blocks, app_nil_r. reflexivity.
  - specialize (IH m (r / 2)). destruct (enc_levels k ch nres attn m (m' :: rest') (r / 2)) as [ls b]. cbn [fst] in *. rewrite attns_app, attns_blocks.
    change (attns (Down (after nres (ch * pm) (ch * m)) :: ls)) with (attns ls). rewrite IH. reflexivity.
Qed.
Lemma dec_attns : forall k ch nres attn mults b r, attns (fst (dec_levels k ch nres attn b mults r)) =
  flat_map (fun p => if mem (snd p) attn then repeat (ch * fst p) (nres + 1) else []) (combine mults (dec_res_rev (length mults) r)).
Proof.
  intros k ch nres attn mults. induction mults as [|m rest IH]; intros b r; [reflexivity|]. cbn [dec_levels length dec_res_rev combine flat_map fst snd].
  destruct rest as [|m' rest'].
  - cbn [fst length dec_res_rev combine flat_map]. rewrite attns_blocks, app_nil_r. reflexivity.
  - specialize (IH (ch * m) (r * 2)). destruct (dec_levels k ch nres attn (ch * m) (m' :: rest') (r * 2)) as [ls b']. cbn [fst] in *. rewrite attns_app, attns_blocks.
    change (attns (Up (ch * m) :: ls)) with (attns ls). rewrite IH. reflexivity.
Qed.
Lemma combine_levels : forall (f : nat -> nat) (ms : list nat) l, length l = length ms -> (forall i, i < length ms -> nth i l 0 = f i) ->
  combine ms l = map (fun i => (nth i ms 0, f i)) (seq 0 (length ms)).
Proof.
  intros f ms l L H. apply (nth_ext _ _ (0, 0) (0, 0)); [rewrite combine_length, map_length, seq_length; lia|].
  intros i I. rewrite combine_length, L, Nat.min_id in I. rewrite combine_nth by (symmetry; exact L). rewrite H by exact I.
  rewrite (nth_indep _ (0, 0) ((fun i => (nth i ms 0, f i)) 0)) by (rewrite map_length, seq_length; exact I). rewrite (map_nth (fun i => (nth i ms 0, f i))), seq_nth by exact I. reflexivity.
Qed.
Lemma flat_map_map : forall (A B C : Type) (g : A -> B) (f : B -> list C) l, flat_map f (map g l) = flat_map (fun x => f (g x)) l.
Proof. intros A B C g f. induction l as [|x l IH]; [reflexivity|]. cbn. rewrite IH. reflexivity. Qed.
Lemma map_rev_seq : forall n, map (fun i => n - 1 - i) (seq 0 n) = rev (seq 0 n).
Proof.
  intros n. apply (nth_ext _ _ 0 0); [rewrite map_length, rev_length; reflexivity|]. intros i I. rewrite map_length, seq_length in I.
  rewrite (nth_indep _ 0 (n - 1 - 0)) by (rewrite map_length, seq_length; exact I). rewrite (map_nth (fun i => n - 1 - i)), seq_nth by exact I.
  rewrite rev_nth by (rewrite seq_length; exact I). rewrite seq_length, seq_nth by lia. lia.
Qed.
Lemma attention_mem : forall norm_type ch mults nres attn ic oc r ed, let n := length mults in 1 <= nres -> 1 <= n -> Nat.divide (2 ^ (n - 1)) r ->
  attns (encoder norm_type ch mults nres attn ic r ed) =
    flat_map (fun i => if mem (r / 2 ^ i) attn then repeat (ch * nth i mults 0) nres else []) (seq 0 n) ++ [ch * last mults 0] /\
  attns (decoder norm_type ch mults nres attn oc r ed) =
    ch * last mults 0 :: flat_map (fun i => if mem (r / 2 ^ i) attn then repeat (ch * nth i mults 0) (nres + 1) else []) (rev (seq 0 n)).
Proof.
  intros nt ch mults nres attn ic oc r ed n NR N D.
  assert (length (enc_res n r) = n) as LE by (clear; revert r; induction n; intros; cbn; auto).
  split.
  - unfold encoder. set (k := if (nt =? _)%string then _ else _). pose proof (enc_attns k ch nres attn mults 1 r) as C. pose proof (enc_last k ch nres attn mults 1 r NR) as L.
    destruct (enc_levels k ch nres attn 1 mults r) as [ls b]. cbn [fst snd] in C, L. assert (b = ch * last mults 0) as -> by (unfold n in N; destruct mults; [cbn in N; lia|exact L]).
    match goal with |- attns (?a :: ?x) = _ => change (attns (a :: x)) with (attns x) end. rewrite !attns_app, C. fold n.
    rewrite (combine_levels (fun i => r / 2 ^ i) mults (enc_res n r) LE) by (intros; apply enc_res_nth; assumption). rewrite flat_map_map. cbn [fst snd]. reflexivity.
  - unfold decoder. set (k := if (nt =? _)%string then "group" else nt). set (ln := if (nt =? _)%string then "channel" else nt).
    pose proof (dec_attns k ch nres attn (rev mults) (ch * last mults 0) (r / 2 ^ (length mults - 1))) as C.
    destruct (dec_levels _ _ _ _ _ _ _) as [ls b]. cbn [fst] in C.
    match goal with |- attns (?a :: ?x) = _ => change (attns (a :: x)) with (attns x) end. rewrite !attns_app, C. cbn [attns flat_map middle app]. f_equal. rewrite app_nil_r.
    rewrite (combine_levels (fun i => r / 2 ^ (n - 1 - i)) (rev mults)).
    + rewrite flat_map_map. cbn [fst snd]. rewrite rev_length. fold n. rewrite <- map_rev_seq, flat_map_map.
      rewrite !flat_map_concat_map. f_equal. apply map_ext_in. intros i I. apply in_seq in I. rewrite rev_nth by (fold n; lia). fold n. replace (n - S i) with (n - 1 - i) by lia. reflexivity.
    + apply dec_res_rev_length.
    + intros i I. rewrite rev_length in I. fold n in I. rewrite rev_length. fold n. rewrite dec_res_rev_nth by exact I.
      destruct D as [q ->]. rewrite Nat.div_mul by (apply Nat.pow_nonzero; lia). replace (n - 1) with (i + (n - 1 - i)) at 1 by lia. rewrite Nat.pow_add_r, Nat.mul_assoc, Nat.div_mul by (apply Nat.pow_nonzero; lia). reflexivity.
Qed.
Lemma mem_dec : forall (A : Type) n l (a b : A), (if mem n l then a else b) = if in_dec Nat.eq_dec n l then a else b.
Proof.
  intros A n l a b. unfold mem. destruct (in_dec Nat.eq_dec n l) as [I|I].
  - replace (existsb (Nat.eqb n) l) with true; [reflexivity|]. symmetry. apply existsb_exists. exists n. split; [exact I|apply Nat.eqb_refl].
  - destruct (existsb (Nat.eqb n) l) eqn:E; [|reflexivity]. exfalso. apply I. apply existsb_exists in E. destruct E as (x & J & K). apply Nat.eqb_eq in K. now subst.
Qed.
(** Level i of the encoder attends, after each residual block, exactly if resolution / 2^i is listed; so
    does level i of the decoder if the resolution is a multiple of 2^(levels - 1).  Both attend once in the
    middle.  (Level i has ch * ch_mult[i] channels.) *)
Theorem C81_attention : forall norm_type ch mults nres attn ic oc r ed, let n := length mults in 1 <= nres -> 1 <= n -> Nat.divide (2 ^ (n - 1)) r ->
  attns (encoder norm_type ch mults nres attn ic r ed) =
    flat_map (fun i => if in_dec Nat.eq_dec (r / 2 ^ i) attn then repeat (ch * nth i mults 0) nres else []) (seq 0 n) ++ [ch * last mults 0] /\
  attns (decoder norm_type ch mults nres attn oc r ed) =
    ch * last mults 0 :: flat_map (fun i => if in_dec Nat.eq_dec (r / 2 ^ i) attn then repeat (ch * nth i mults 0) (nres + 1) else []) (rev (seq 0 n)).
Proof.
  intros nt ch mults nres attn ic oc r ed n NR N D. destruct (attention_mem nt ch mults nres attn ic oc r ed NR N D) as [A B].
  split; [rewrite A|rewrite B]; f_equal; rewrite !flat_map_concat_map; f_equal; apply map_ext; intro i; apply mem_dec.
Qed.
(** For other resolutions the decoder's differ: 250 with five levels attends at 62 in the encoder, nowhere
    in the decoder. *)
Theorem C81_attention_refuted : attns (encoder "channel" 64 [1; 1; 2; 2; 4] 2 [62] 3 250 256) = [128; 128; 256] /\ attns (decoder "channel" 64 [1; 1; 2; 2; 4] 2 [62] 3 250 256) = [256].
Proof. split; vm_compute; reflexivity. Qed.

(** ** Frozen parts *)
(** In no history of train, eval, requires_grad_ and forward does a frozen encoder (or bottleneck) run in
    training mode or with gradients; a part that is not frozen runs as set last. *)
Definition last_train (ops : list op) : bool := fold_left (fun b o => match o with Train m => m | _ => b end) ops true.
Definition last_grad (ops : list op) : bool := fold_left (fun b o => match o with RequiresGrad g => g | _ => b end) ops true.
Theorem C81_frozen : forall fe fb ops s, In s (runs fe fb (new_state fe fb) ops) ->
  (fe = true -> enc_train s = false /\ enc_grad s = false) /\ (fb = true -> bot_train s = false /\ bot_grad s = false).
Proof.
  intros fe fb ops. generalize (new_state fe fb) as s0. induction ops as [|o ops IH]; intros s0 s H; [destruct H|]. cbn [runs] in H. apply in_app_or in H as [H|H]; [|apply (IH _ _ H)].
  destruct o; [destruct H|destruct H|]. destruct H as [<-|[]]. cbn [step]. unfold freeze. destruct fe, fb; cbn; split; intros; try discriminate; auto.
Qed.
Theorem C81_not_frozen : forall fe fb ops, exists s, runs fe fb (new_state fe fb) (ops ++ [Forward]) = runs fe fb (new_state fe fb) ops ++ [s] /\
  (fe = false -> enc_train s = last_train ops /\ enc_grad s = last_grad ops) /\ (fb = false -> bot_train s = last_train ops /\ bot_grad s = last_grad ops).
Proof.
  intros fe fb ops. unfold last_train, last_grad.
  assert (forall s0 t g, (fe = false -> enc_train s0 = t /\ enc_grad s0 = g) -> (fb = false -> bot_train s0 = t /\ bot_grad s0 = g) ->
    exists s, runs fe fb s0 (ops ++ [Forward]) = runs fe fb s0 ops ++ [s] /\
    (fe = false -> enc_train s = fold_left (fun b o => match o with Train m => m | _ => b end) ops t /\ enc_grad s = fold_left (fun b o => match o with RequiresGrad g => g | _ => b end) ops g) /\
    (fb = false -> bot_train s = fold_left (fun b o => match o with Train m => m | _ => b end) ops t /\ bot_grad s = fold_left (fun b o => match o with RequiresGrad g => g | _ => b end) ops g)) as K.
  { induction ops as [|o ops IH]; intros s0 t g E B.
    - cbn [app runs step fold_left]. eexists. split; [reflexivity|]. unfold freeze. destruct fe, fb; cbn; split; intros; try discriminate; auto.
    - cbn [app runs fold_left]. set (s1 := step fe fb s0 o).
      destruct (IH s1 (match o with Train m => m | _ => t end) (match o with RequiresGrad g' => g' | _ => g end)) as (s & R & P).
      + intros F. destruct (E F) as [<- <-]. unfold s1. destruct o; cbn; auto. unfold freeze. rewrite F. destruct fb; auto.
      + intros F. destruct (B F) as [<- <-]. unfold s1. destruct o; cbn; auto. unfold freeze. rewrite F. destruct fe; auto.
      + exists s. split; [|exact P]. rewrite R, app_assoc. reflexivity. }
  apply K; intros ->; unfold new_state, freeze; [destruct fb|destruct fe]; auto.
Qed.
(** Between calls a frozen encoder can be in training mode and its parameters collected for optimisation. *)
Theorem C81_frozen_between_refuted : let s := fold_left (step true true) [Train true; RequiresGrad true] (new_state true true) in enc_train s = true /\ enc_grad s = true.
Proof. split; reflexivity. Qed.

(** The published configuration. *)
Example published : construct "channel" 64 [1; 2; 2; 4] 2 [32] 3 3 256 256 = Ok tt /\ run (encoder "channel" 64 [1; 2; 2; 4] 2 [32] 3 256 256) 3 = Ok 256 /\
  attns (encoder "channel" 64 [1; 2; 2; 4] 2 [32] 3 256 256) = [256; 256; 256] /\ attns (decoder "channel" 64 [1; 2; 2; 4] 2 [64] 3 256 256) = [256; 128; 128; 128].
Proof. split; [|split; [|split]]; vm_compute; reflexivity. Qed.

Print Assumptions C81_wiring.
Print Assumptions C81_norms.
Print Assumptions C81_attention.
Print Assumptions C81_not_frozen.

(** C86: the processes of a distributed training start from one state, and log without loss. *)
From Coq Require Import String Ascii ZArith List Bool Arith Lia.
From Verif Require Import Base Job_Model Job_Names Cifar_Model Cifar_Props Start_Model.
Import ListNotations.
Open Scope string_scope.
Open Scope list_scope.
Open Scope nat_scope.

Lemma list_app : forall a b, list_ascii_of_string (a ++ b) = list_ascii_of_string a ++ list_ascii_of_string b.
Proof. induction a; intros; cbn; [reflexivity|now rewrite IHa]. Qed.
Lemma split_dot : forall a b, ~ In "."%char b -> split_suffix (a ++ "."%char :: b) = Some (a, "."%char :: b).
Proof.
  intros a b H. assert (N : split_suffix b = None).
  { clear a. induction b; [reflexivity|]. cbn [split_suffix]. rewrite IHb by (intro; apply H; now right). destruct (Ascii.eqb_spec a "."%char) as [->|]; [|reflexivity]. exfalso. apply H. now left. }
  induction a; cbn [app split_suffix]; [rewrite N; reflexivity|]. now rewrite IHa.
Qed.
Lemma contains_app : forall p a b, contains p b = true -> contains p (a ++ b) = true.
Proof. induction a; intros b H; [exact H|]. cbn [String.append contains]. rewrite IHa by exact H. apply orb_true_r. Qed.
Lemma to_ch_digit : forall d, (0 <= d < 10)%Z -> to_ch (digit_char d) = Some (Dg d).
Proof.
  intros d H. unfold to_ch, digit_char. rewrite nat_ascii_embedding by lia. cbv zeta.
  rewrite (proj2 (Nat.leb_le 48 _)) by lia. rewrite (proj2 (Nat.leb_le _ 57)) by lia. cbn [andb]. do 2 f_equal. lia.
Qed.
Lemma to_chs_digits : forall l, Forall (fun d => (0 <= d < 10)%Z) l -> to_chs (map digit_char l) = Some (map Dg l).
Proof. induction l; intros F; [reflexivity|]. inversion F; subst. cbn [map to_chs]. now rewrite to_ch_digit, IHl. Qed.
Lemma fmt6_digits : forall n, (0 <= n)%Z -> list_ascii_of_string (fmt6 n) = map digit_char (pad 6 (digits n)) /\ Forall (fun d => (0 <= d < 10)%Z) (pad 6 (digits n)).
Proof.
  intros n H. split; [|apply pad_range, digits_range; exact H]. unfold fmt6, fmt06. rewrite (proj2 (Z.ltb_ge n 0)) by lia. rewrite list_ascii_of_string_of_list_ascii, map_map. reflexivity.
Qed.

Lemma parse_number : forall pre n, (0 <= n)%Z -> (exists s, In s ["ema"; "model"; "encode"; "decode"] /\ contains s (pre ++ fmt6 n ++ ".pt")%string = true) ->
  parse_resume_step_from_filename (pre ++ fmt6 n ++ ".pt") = Ok (n mod 10 ^ 6)%Z.
Proof.
  intros pre n H (s & I & C). unfold parse_resume_step_from_filename, suffix, stem. cbv zeta.
  destruct (fmt6_digits n H) as [FD FR].
  assert (L : list_ascii_of_string (pre ++ fmt6 n ++ ".pt") = (list_ascii_of_string pre ++ map digit_char (pad 6 (digits n))) ++ "."%char :: ["p"%char; "t"%char]).
  { rewrite !list_app, FD, <- app_assoc. reflexivity. }
  rewrite L, split_dot by (cbn; intuition discriminate). cbn [string_of_list_ascii String.eqb Ascii.eqb Bool.eqb orb negb].
  replace (existsb _ _) with true by (symmetry; apply existsb_exists; now exists s). cbn [negb].
  set (ds := pad 6 (digits n)) in *. assert (LD : 6 <= length ds) by (unfold ds; rewrite pad_length; lia).
  rewrite app_length, map_length, skipn_app. replace (length (list_ascii_of_string pre) + length ds - 6 - length (list_ascii_of_string pre)) with (length ds - 6) by lia.
  rewrite skipn_all2 by lia. cbn [app]. rewrite skipn_map.
  unfold py_int. rewrite to_chs_digits by (apply Forall_forall; intros d Id; rewrite Forall_forall in FR; apply FR; rewrite <- (firstn_skipn (length ds - 6) ds); apply in_or_app; now right).
  pose proof (parse_fmt_nonneg n H) as PF. unfold parse6, fmt06 in PF. rewrite (proj2 (Z.ltb_ge n 0)) in PF by lia. fold ds in PF. rewrite map_length, skipn_map in PF. exact PF.
Qed.

(** The number in the name of a checkpoint of a model or of a moving average, of whatever rate, is
    read back modulo a million. *)
Theorem C86_step_of_names : forall n rate, (0 <= n)%Z ->
  parse_resume_step_from_filename ("model" ++ fmt6 n ++ ".pt") = Ok (n mod 10 ^ 6)%Z /\
  parse_resume_step_from_filename (ema_name rate n) = Ok (n mod 10 ^ 6)%Z.
Proof.
  intros n rate H. split.
  - apply parse_number; [exact H|]. exists "model". split; [cbn; tauto|]. generalize (fmt6 n ++ ".pt")%string. intros r. now destruct r.
  - unfold ema_name. replace ("ema_" ++ rate ++ "_" ++ fmt6 n ++ ".pt")%string with (("ema_" ++ rate ++ "_") ++ fmt6 n ++ ".pt")%string.
    + apply parse_number; [exact H|]. exists "ema". split; [cbn; tauto|]. generalize (fmt6 n ++ ".pt")%string. intros r. cbn. generalize (rate ++ "_")%string. intros q. destruct q; reflexivity.
    + assert (AA : forall a b c : string, ((a ++ b) ++ c = a ++ b ++ c)%string) by (induction a; intros; cbn; [reflexivity|now rewrite IHa]). now rewrite !AA.
Qed.

Section Start.
Context {P : Type}.
Notation all_equal p l := (Forall (fun q : P => q = p) l).
Lemma sync_all : forall (l : list P) p, hd_error l = Some p -> all_equal p (sync_params l) /\ length (sync_params l) = length l.
Proof.
  intros [|p0 l] p E; [discriminate|]. injection E as ->. unfold sync_params. split; [|apply map_length]. apply Forall_forall. intros q I. apply in_map_iff in I. now destruct I as (x & <- & _).
Qed.
Lemma set0_hd : forall (l : list P) p, l <> [] -> hd_error (set_rank0 p l) = Some p /\ length (set_rank0 p l) = length l.
Proof. intros [|x l] p H; [easy|]. now split. Qed.
Lemma hd_all : forall (l : list P) p, l <> [] -> all_equal p l -> hd_error l = Some p.
Proof. intros [|x l] p H F; [easy|]. inversion F; subst. reflexivity. Qed.

Lemma ema_ok : forall d main step (masters : list P) p rate l, masters <> [] -> all_equal p masters ->
  load_ema_parameters d main step masters rate = Ok l ->
  length l = length masters /\
  exists e, all_equal e l /\
    match main with
    | None => e = p
    | Some (dir, _) => match d dir (ema_name rate step) with Some (Params q) => e = q | Some TornFile => False | None => e = p end
    end.
Proof.
  intros d main step masters p rate l NE A. unfold load_ema_parameters, find_ema_checkpoint. destruct main as [[dir nm]|].
  - destruct (d dir (ema_name rate step)) as [[q|]|] eqn:E; unfold torch_load; cbn [fst snd]; rewrite ?E; cbn [bind]; intros H; try discriminate; injection H as <-.
    + destruct (set0_hd masters q NE) as [H1 H2]. destruct (sync_all _ _ H1) as [S1 S2]. split; [congruence|]. exists q. now split.
    + destruct (sync_all _ _ (hd_all _ _ NE A)) as [S1 S2]. split; [exact S2|]. exists p. now split.
  - intros H. injection H as <-. destruct (sync_all _ _ (hd_all _ _ NE A)) as [S1 S2]. split; [exact S2|]. exists p. now split.
Qed.

(** Whatever is on disk and however the processes initialised their models: if training starts at
    all, every process has the same parameters and the same moving averages, one list for each rate.
    The parameters are those of the checkpoint, or of process 0 if there is none. *)
Theorem C86_processes_agree : forall d ckpt rates (models : list P) L, models <> [] ->
  train_loop d ckpt rates models = Ok L ->
  length (l_params L) = length models /\ length (l_emas L) = length rates /\
  (exists p, all_equal p (l_params L) /\
     match ckpt with Some (dir, nm) => d dir nm = Some (Params p) /\ parse_resume_step_from_filename nm = Ok (l_step L) | None => hd_error models = Some p /\ l_step L = 0%Z end) /\
  Forall (fun l => length l = length models /\ exists e, all_equal e l) (l_emas L).
Proof.
  intros d ckpt rates models L NE E. unfold train_loop in E. destruct (load_and_sync_parameters d ckpt models) as [[ps step]|] eqn:LS; [|discriminate]. cbn [bind fst snd] in E.
  assert (PS : length ps = length models /\ exists p, all_equal p ps /\ match ckpt with Some (dir, nm) => d dir nm = Some (Params p) /\ parse_resume_step_from_filename nm = Ok step | None => hd_error models = Some p /\ step = 0%Z end).
  { unfold load_and_sync_parameters in LS. destruct ckpt as [[dir nm]|].
    - cbn [snd] in LS. destruct (parse_resume_step_from_filename nm) as [z|] eqn:Z; [|discriminate]. cbn [bind] in LS. unfold torch_load in LS. cbn [fst snd] in LS.
      destruct (d dir nm) as [[q|]|] eqn:D; try discriminate. cbn [bind] in LS. injection LS as <- <-. destruct (set0_hd models q NE) as [H1 H2]. destruct (sync_all _ _ H1) as [S1 S2].
      split; [congruence|]. exists q. split; [exact S1|]. now split.
    - injection LS as <- <-. destruct models as [|m ms]; [easy|]. destruct (sync_all (m :: ms) m eq_refl) as [S1 S2]. split; [exact S2|]. exists m. now split. }
  destruct PS as [PL (p & PA & PC)]. assert (PN : ps <> []) by (intro Q; subst; destruct models; [easy|discriminate]).
  destruct (Z.eqb_spec step 0) as [Z0|Z0].
  - injection E as <-. cbn [l_params l_step l_emas]. split; [exact PL|]. split; [apply map_length|]. split; [exists p; split; [exact PA|exact PC]|].
    apply Forall_forall. intros l I. apply in_map_iff in I. destruct I as (r & <- & _). split; [exact PL|]. now exists p.
  - destruct (mapM _ rates) as [e|] eqn:M; [|discriminate]. cbn [bind] in E. injection E as <-. cbn [l_params l_step l_emas]. split; [exact PL|].
    assert (MM : forall rs l, mapM (load_ema_parameters d ckpt step ps) rs = Ok l -> length l = length rs /\ Forall (fun l => length l = length models /\ exists e, all_equal e l) l).
    { clear - PL PA PN. induction rs as [|r rs IH]; intros l M; cbn in M; [injection M as <-; split; [reflexivity|constructor]|].
      destruct (load_ema_parameters d ckpt step ps r) as [x|] eqn:X; [|discriminate]. cbn [bind] in M. destruct (mapM _ rs) as [y|] eqn:Y; [|discriminate]. cbn [bind] in M. injection M as <-.
      destruct (IH y eq_refl) as [A B]. destruct (ema_ok _ _ _ _ _ _ _ PN PA X) as [C (e & D & _)]. cbn [length]. split; [lia|]. constructor; [split; [congruence|now exists e]|exact B]. }
    destruct (MM rates e M) as [A B]. split; [exact A|]. split; [exists p; split; [exact PA|exact PC]|exact B].
Qed.

(** Resuming from a complete checkpoint below a million steps, not the first one: all processes have
    its parameters and step, and for every rate the moving average saved with it; where that file is
    missing (the process was killed before writing it) the average restarts from the parameters. *)
Theorem C86_resume_restores : forall d dir n p rates (models : list P), models <> [] -> (0 < n < 10 ^ 6)%Z ->
  d dir ("model" ++ fmt6 n ++ ".pt")%string = Some (Params p) ->
  (forall r, In r rates -> d dir (ema_name r n) <> Some TornFile) ->
  exists L, train_loop d (Some (dir, "model" ++ fmt6 n ++ ".pt")%string) rates models = Ok L /\
    l_step L = n /\ l_params L = map (fun _ => p) models /\
    l_emas L = map (fun r => map (fun _ => match d dir (ema_name r n) with Some (Params e) => e | _ => p end) models) rates.
Proof.
  intros d dir n p rates models NE RN D TF. unfold train_loop, load_and_sync_parameters. cbn [snd].
  destruct (C86_step_of_names n "" ltac:(lia)) as [-> _]. rewrite Z.mod_small by lia. cbn [bind]. unfold torch_load. cbn [fst snd]. rewrite D. cbn [bind fst snd].
  rewrite (proj2 (Z.eqb_neq n 0)) by lia.
  assert (SY : forall q : P, sync_params (set_rank0 q models) = map (fun _ => q) models) by (destruct models; [easy|reflexivity]).
  assert (SY2 : forall q r : P, sync_params (set_rank0 q (map (fun _ => r) models)) = map (fun _ => q) models) by (intros; destruct models; [easy|]; cbn; f_equal; rewrite map_map; reflexivity).
  assert (SY3 : forall r : P, sync_params (map (fun _ => r) models) = map (fun _ => r) models) by (intros; destruct models; [easy|]; cbn; f_equal; rewrite map_map; reflexivity).
  rewrite SY.
  assert (M : mapM (load_ema_parameters d (Some (dir, ("model" ++ fmt6 n ++ ".pt")%string)) n (map (fun _ => p) models)) rates = Ok (map (fun r => map (fun _ => match d dir (ema_name r n) with Some (Params e) => e | _ => p end) models) rates)).
  { clear D. induction rates as [|r rs IH]; [reflexivity|]. cbn [mapM map]. rewrite IH by (intros; apply TF; now right). specialize (TF r (or_introl eq_refl)).
    unfold load_ema_parameters, find_ema_checkpoint. destruct (d dir (ema_name r n)) as [[e|]|] eqn:E; [|easy|].
    - unfold torch_load. cbn [fst snd]. rewrite E. cbn [bind]. now rewrite SY2.
    - cbn [bind]. now rewrite SY3. }
  rewrite M. cbn [bind]. eexists. split; [reflexivity|]. cbn [l_step l_params l_emas]. auto.
Qed.
(** A checkpoint that is gone or cut off stops the start; so does a cut-off moving average. *)
Theorem C86_bad_files_raise : forall d dir n rates (models : list P), (0 < n < 10 ^ 6)%Z ->
  (d dir ("model" ++ fmt6 n ++ ".pt")%string = None -> train_loop d (Some (dir, "model" ++ fmt6 n ++ ".pt")%string) rates models = Raise FileNotFoundError) /\
  (d dir ("model" ++ fmt6 n ++ ".pt")%string = Some TornFile -> train_loop d (Some (dir, "model" ++ fmt6 n ++ ".pt")%string) rates models = Raise RuntimeError) /\
  (forall p r, d dir ("model" ++ fmt6 n ++ ".pt")%string = Some (Params p) -> In r rates -> d dir (ema_name r n) = Some TornFile ->
     is_ok (train_loop d (Some (dir, "model" ++ fmt6 n ++ ".pt")%string) rates models) = false).
Proof.
  intros d dir n rates models RN. unfold train_loop, load_and_sync_parameters. cbn [snd].
  destruct (C86_step_of_names n "" ltac:(lia)) as [-> _]. rewrite Z.mod_small by lia. cbn [bind]. unfold torch_load at 1 2 3. cbn [fst snd].
  split; [intros ->; reflexivity|]. split; [intros ->; reflexivity|]. intros p r -> I TF. cbn [bind fst snd]. rewrite (proj2 (Z.eqb_neq n 0)) by lia.
  destruct (mapM _ rates) as [e|] eqn:M; [|reflexivity]. exfalso. revert e M. induction rates as [|r' rs IH]; intros e M; [easy|]. cbn [mapM] in M.
  destruct (load_ema_parameters d _ n _ r') as [x|] eqn:X; [|discriminate]. cbn [bind] in M. destruct I as [->|I].
  - unfold load_ema_parameters, find_ema_checkpoint in X. rewrite TF in X. unfold torch_load in X. cbn [fst snd] in X. rewrite TF in X. discriminate.
  - destruct (mapM _ rs) as [y|] eqn:Y; [|discriminate]. eapply IH; eauto.
Qed.
(** Known deviation: from the first checkpoint, and from every millionth step on, the saved moving
    averages are ignored; the averages restart from the parameters and the step count at zero. *)
Theorem C86_average_lost_refuted : forall d dir n p rates (models : list P), models <> [] -> (0 <= n)%Z -> (n mod 10 ^ 6 = 0)%Z ->
  d dir ("model" ++ fmt6 n ++ ".pt")%string = Some (Params p) ->
  exists L, train_loop d (Some (dir, "model" ++ fmt6 n ++ ".pt")%string) rates models = Ok L /\ l_step L = 0%Z /\
    l_emas L = map (fun _ => map (fun _ => p) models) rates.
Proof.
  intros d dir n p rates models NE RN M D. unfold train_loop, load_and_sync_parameters. cbn [snd]. destruct (C86_step_of_names n "" RN) as [-> _]. rewrite M. cbn [bind].
  unfold torch_load. cbn [fst snd]. rewrite D. cbn [bind fst snd Z.eqb]. eexists. split; [reflexivity|]. cbn [l_step l_emas]. split; [reflexivity|].
  apply map_ext. intros _. destruct models; [easy|reflexivity].
Qed.
End Start.

(** * Logging *)
Lemma append_inj_l : forall p a b, (p ++ a = p ++ b)%string -> a = b.
Proof. induction p; intros x y H; [exact H|]. cbn in H. injection H. apply IHp. Qed.
(** Either one process logs to Weights & Biases, or all do, each in a directory of its own. *)
Theorem C86_log_directories : forall log_dir,
  (forall r, uses_wandb false r = true <-> r = 0) /\
  (forall r, uses_wandb true r = true) /\
  (forall r r', rank_dir log_dir true r = rank_dir log_dir true r' -> r = r').
Proof.
  intros log_dir. split; [intros r; unfold uses_wandb; cbn; apply Nat.eqb_eq|]. split; [reflexivity|]. intros r r' E. unfold rank_dir in E.
  apply append_inj_l in E. apply append_inj_l in E. apply of_digits_inj in E; [|apply pad_range, digits_range; lia|apply pad_range, digits_range; lia].
  apply (f_equal value) in E. rewrite !value_pad, !digits_value in E by lia. lia.
Qed.

Section Log.
Context {V : Type}.
(** The rows given before the first close. *)
Fixpoint rows_before (cs : list (@call V)) : list (row V) :=
  match cs with WriteKvs r :: q => r :: rows_before q | _ => [] end.
Definition closed (cs : list (@call V)) : Prop := In Close cs.
(** For every history of calls: the run received exactly the rows given before it was closed, in
    order, and was finished once; writing after that raises, closing again is harmless. *)
Theorem C86_rows_reach_the_run : forall (cs : list (@call V)),
  let w := call_writers cs in
  (~ closed cs -> run w = Some (map renamed (rows_before cs)) /\ finished w = []) /\
  (closed cs -> run w = None /\ finished w = [map renamed (rows_before cs)] /\
     (forall r, call_writer (WriteKvs r) w = (w, Raise RuntimeError)) /\ call_writer Close w = (w, Ok tt)).
Proof.
  intros cs. cbv zeta. unfold call_writers, closed.
  assert (DEAD : forall cs f, fold_left (fun w c => fst (call_writer c w)) cs (@mkW V None f) = mkW None f) by (induction cs0 as [|[r|] cs' IH]; intros; cbn; auto).
  assert (X : forall cs rows, let w := fold_left (fun w c => fst (call_writer c w)) cs (@mkW V (Some rows) []) in
    (~ In Close cs -> run w = Some (rows ++ map renamed (rows_before cs)) /\ finished w = []) /\ (In Close cs -> w = mkW None [rows ++ map renamed (rows_before cs)])).
  { induction cs0 as [|[r|] cs' IH]; intros rows; cbv zeta.
    - cbn. split; [intros _; now rewrite app_nil_r|easy].
    - cbn [fold_left call_writer run finished fst rows_before map]. destruct (IH (rows ++ [renamed r])) as [A B]. cbv zeta in *. rewrite <- app_assoc in A, B. cbn [app] in A, B.
      split; [intros H; apply A; intro; apply H; now right|]. intros [Q|Q]; [discriminate|]. now apply B.
    - cbn [fold_left call_writer run finished fst rows_before map]. rewrite DEAD, app_nil_r. split; [intros H; exfalso; apply H; now left|]. reflexivity. }
  unfold new_writer. destruct (X cs []) as [A B]. cbv zeta in *. cbn [app] in *. split; [exact A|]. intros H. rewrite (B H). cbn. repeat split.
Qed.

Fixpoint has_slash (s : string) : bool := match s with EmptyString => false | String c r => Ascii.eqb c "/"%char || has_slash r end.
Lemma slashes_inj : forall a b, has_slash a = false -> has_slash b = false -> slashes a = slashes b -> a = b.
Proof.
  induction a as [|c a IH]; intros [|e b] A B H; try discriminate; [reflexivity|]. cbn in *. apply orb_false_iff in A, B. destruct A as [A1 A2], B as [B1 B2]. injection H as H1 H2.
  apply Ascii.eqb_neq in A1, B1. f_equal; [|now apply IH].
  destruct (Ascii.eqb_spec c "_"%char), (Ascii.eqb_spec e "_"%char); subst; congruence.
Qed.
Lemma dict_set_fresh : forall k (v : V) d, ~ In k (map fst d) -> dict_set k v d = d ++ [(k, v)].
Proof.
  induction d as [|[k' v'] d IH]; intros H; [reflexivity|]. cbn. destruct (String.eqb_spec k k') as [->|]; [exfalso; apply H; now left|]. f_equal. apply IH. intro. apply H. now right.
Qed.
(** Distinct keys without a slash keep all their values, under names with slashes for underscores. *)
Theorem C86_keys_kept : forall kvs : row V, NoDup (map fst kvs) -> Forall (fun p => has_slash (fst p) = false) kvs ->
  renamed kvs = map (fun p => (slashes (fst p), snd p)) kvs /\ NoDup (map fst (renamed kvs)).
Proof.
  intros kvs ND F.
  assert (NI : NoDup (map fst (map (fun p : string * V => (slashes (fst p), snd p)) kvs))).
  { rewrite map_map. cbn [fst]. clear - ND F. induction kvs as [|p l IH]; cbn [map] in *; constructor; inversion ND; inversion F; subst; [|now apply IH].
    intros I. apply in_map_iff in I. destruct I as (q & E & I). rewrite Forall_forall in H6. apply slashes_inj in E; [|now apply H6|assumption]. apply H1. rewrite <- E. now apply in_map. }
  assert (R : forall l acc, NoDup (map fst (acc ++ map (fun p : string * V => (slashes (fst p), snd p)) l)) -> fold_left (fun d p => dict_set (slashes (fst p)) (snd p) d) l acc = acc ++ map (fun p => (slashes (fst p), snd p)) l).
  { induction l as [|p l IH]; intros acc H; cbn [fold_left map]; [now rewrite app_nil_r|]. cbn [map] in H. rewrite dict_set_fresh.
    - rewrite IH; [now rewrite <- app_assoc|]. now rewrite <- app_assoc.
    - rewrite map_app in H. cbn [map fst] in H. apply NoDup_remove_2 in H. intro. apply H. apply in_or_app. now left. }
  assert (E : renamed kvs = map (fun p => (slashes (fst p), snd p)) kvs) by (unfold renamed; rewrite R by exact NI; reflexivity).
  split; [exact E|]. now rewrite E.
Qed.
End Log.
(** Known deviation: keys that differ only in an underscore and a slash lose a value. *)
Theorem C86_clashing_keys_refuted : exists kvs : row nat, NoDup (map fst kvs) /\ length (renamed kvs) < length kvs.
Proof.
  exists [("grad_norm", 1); ("grad/norm", 2)]. split; [|cbn; lia]. cbn. repeat (apply NoDup_cons; [cbn; intuition discriminate|]). apply NoDup_nil.
Qed.

(** * Non-vacuity *)
Example resumes : exists L,
  train_loop (fun dir n => if String.eqb n "model020000.pt" then Some (Params 7) else if String.eqb n "ema_0.9999_020000.pt" then Some (Params 5) else None)
    (Some ("/logs", "model020000.pt")) ["0.9999"; "0.999"] [1; 2; 3] = Ok L /\ l_step L = 20000%Z /\ l_params L = [7; 7; 7] /\ l_emas L = [[5; 5; 5]; [7; 7; 7]].
Proof. eexists. split; [reflexivity|]. repeat split. Qed.

Print Assumptions C86_step_of_names.
Print Assumptions C86_processes_agree.
Print Assumptions C86_resume_restores.
Print Assumptions C86_rows_reach_the_run.
Print Assumptions C86_keys_kept.

(** ** Names that are refused *)
Lemma contains_split p s : contains p s = true -> exists a b, s = (a ++ p ++ b)%string.
Proof.
  induction s as [|c s IH]; cbn [contains]; rewrite orb_true_iff.
  - intros [H|H]; [|discriminate]. exists "", "". destruct p; [reflexivity|discriminate].
  - intros [H|H].
    + exists "". revert H. generalize (String c s). clear. intros s. revert s. induction p as [|x p IH]; intros s H; [exists s; reflexivity|].
      destruct s as [|y s]; [discriminate|]. cbn [String.prefix] in H. destruct (ascii_dec x y); [|discriminate]. subst.
      destruct (IH s H) as [b E]. exists b. cbn [String.append] in *. now rewrite E.
    + destruct (IH H) as (a & b & ->). exists (String c a), b. reflexivity.
Qed.
Theorem C86_words_required : forall name,
  (forall w a b, In w ["ema"; "model"; "encode"; "decode"] -> name <> (a ++ w ++ b)%string) ->
  parse_resume_step_from_filename name = Raise AssertionError.
Proof.
  intros name H. unfold parse_resume_step_from_filename. destruct (negb (_ || _)); [reflexivity|].
  destruct (existsb (fun s => contains s name) _) eqn:E; [|reflexivity]. exfalso. apply existsb_exists in E. destruct E as (w & I & C).
  destruct (contains_split w name C) as (a & b & X). apply (H w a b I X).
Qed.
Definition letter (c : ascii) : Prop := 65 <= nat_of_ascii c <= 90 \/ 97 <= nat_of_ascii c <= 122.
Lemma to_ch_letter c : letter c -> to_ch c = None.
Proof.
  unfold letter, to_ch. set (n := nat_of_ascii c). clearbody n. intro H.
  replace (n <=? 57) with false by (symmetry; apply Nat.leb_gt; lia). rewrite andb_false_r.
  replace (n =? 45) with false by (symmetry; apply Nat.eqb_neq; lia). reflexivity.
Qed.
Lemma to_chs_letter l : Exists letter l -> to_chs l = None.
Proof.
  induction 1 as [c l L|c l E IH]; cbn [to_chs]; [now rewrite to_ch_letter|]. rewrite IH. now destruct (to_ch c).
Qed.
Lemma split_suffix_app a : ~ In "."%char a -> forall e, ~ In "."%char e -> split_suffix (a ++ "."%char :: e) = Some (a, "."%char :: e).
Proof.
  intros A e E. assert (N : forall l, ~ In "."%char l -> split_suffix l = None).
  { induction l as [|c l IH]; intro H; [reflexivity|]. cbn [split_suffix]. rewrite IH by (intro I; apply H; now right).
    destruct (Ascii.eqb_spec c "."%char) as [->|]; [exfalso; apply H; now left|reflexivity]. }
  induction a as [|c a IH]; cbn [app split_suffix].
  - rewrite (N e E). now rewrite Ascii.eqb_refl.
  - rewrite IH by (intro I; apply A; now right). reflexivity.
Qed.
Lemma list_of_app a b : list_ascii_of_string (a ++ b)%string = list_ascii_of_string a ++ list_ascii_of_string b.
Proof. induction a as [|c a IH]; cbn; [reflexivity|]. now rewrite IH. Qed.
(** If one of the last six characters before the extension is a letter, there is no step. *)
Theorem C86_letters_refused : forall pre six ext, (ext = ".pt" \/ ext = ".npz") -> String.length six = 6 ->
  ~ In "."%char (list_ascii_of_string (pre ++ six)) -> Exists letter (list_ascii_of_string six) ->
  (exists w a b, In w ["ema"; "model"; "encode"; "decode"] /\ pre = (a ++ w ++ b)%string) ->
  parse_resume_step_from_filename (pre ++ six ++ ext) = Raise ValueError.
Proof.
  intros pre six ext EX L6 ND LE (w & a & b & I & EP).
  assert (SP : split_suffix (list_ascii_of_string (pre ++ six ++ ext)) = Some (list_ascii_of_string (pre ++ six), list_ascii_of_string ext)).
  { rewrite !list_of_app, app_assoc, <- list_of_app. destruct EX as [-> | ->]; apply split_suffix_app; try assumption; cbn; intuition discriminate. }
  unfold parse_resume_step_from_filename, suffix, stem. rewrite SP, string_of_list_ascii_of_string.
  replace (negb (String.eqb ext ".pt" || String.eqb ext ".npz")) with false by (destruct EX as [-> | ->]; reflexivity).
  replace (existsb (fun s => contains s (pre ++ six ++ ext)%string) ["ema"; "model"; "encode"; "decode"]) with true.
  - cbn [negb]. cbv zeta. rewrite list_of_app, app_length.
    assert (LL : forall s, length (list_ascii_of_string s) = String.length s) by (induction s; cbn; congruence).
    rewrite (LL six), L6. replace (length (list_ascii_of_string pre) + 6 - 6) with (length (list_ascii_of_string pre)) by lia.
    rewrite skipn_app, skipn_all, Nat.sub_diag. cbn [app skipn]. unfold py_int. now rewrite to_chs_letter.
  - symmetry. apply existsb_exists. exists w. split; [exact I|]. subst pre. 
    assert (AS : forall x y z : string, ((x ++ y) ++ z = x ++ y ++ z)%string) by (induction x; intros; cbn; congruence).
    rewrite !AS. apply contains_app. generalize (b ++ six ++ ext)%string. intros r.
    assert (P : String.prefix w (w ++ r) = true).
    { clear. induction w as [|c w IH]; cbn; [now destruct r|]. destruct (ascii_dec c c); [exact IH|contradiction]. }
    destruct (w ++ r)%string; cbn [contains]; rewrite P; reflexivity.
Qed.
Example C86_refused_instance : parse_resume_step_from_filename ("model" ++ "latest" ++ ".pt") = Raise ValueError.
Proof.
  apply C86_letters_refused; [now left|reflexivity| |constructor; right; vm_compute; lia|].
  - cbn. intuition discriminate.
  - exists "model", "", "". split; [cbn; tauto|reflexivity].
Qed.
Print Assumptions C86_words_required.
Print Assumptions C86_letters_refused.

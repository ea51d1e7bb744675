(** C69: the metrics logged in validation and test epochs. *)
From Coq Require Import String ZArith FinFun List Bool Arith Lia.
From Verif Require Import Base ImgMod_Model.
Import ListNotations.
Open Scope string_scope.

(** * Specification: what each epoch logs, from its own batches only *)
Definition pairs_255 (out : nat -> term) (bs : list nat) : value :=
  Of (map (fun b => Pair (Scaled (Clamped (out b))) (Scaled (Image b))) bs).
Definition pairs_01 (out : nat -> term) (bs : list nat) : value :=
  Of (map (fun b => Pair (Clamped (out b)) (Image b)) bs).
Definition whole (out : nat -> term) (bs : list nat) : list update :=
  flat_map (fun b => [Real (Bytes (Image b)); Fake (Bytes (Clamped (out b)))]) bs.
Definition in_patches (out : nat -> term) (bs : list nat) : list update :=
  map (fun b => Patches (Image b) (Clamped (out b)) 256) bs.
Definition hific_mean (out : nat -> term) (bs : list nat) : value :=
  Mean (map (fun b => Hific (Clamped (out b)) (Image b)) bs).
Definition val_log (bs : list nat) : list (string * value) :=
  [("val/psnr", pairs_255 Forward bs); ("val/mse", pairs_255 Forward bs); ("val/ms_ssim", pairs_255 Forward bs);
   ("val/lpips", pairs_01 Forward bs); ("val/hific_distortion", hific_mean Forward bs)].
(** Names with "clic" or "div2k" inside use patches. *)
Definition patch_name (d : string) : Prop := exists a b, d = a ++ "clic" ++ b \/ d = a ++ "div2k" ++ b.
Definition test_log (d : string) (bs : list nat) : list (string * value) :=
  [("test/" ++ d ++ "_bpp", Mean (map Bpp bs));
   ("test/" ++ d ++ "_psnr", Mean (map (fun b => Psnr (Scaled (Clamped (Decoded b))) (Scaled (Image b))) bs));
   ("test/" ++ d ++ "_mse", pairs_255 Decoded bs); ("test/" ++ d ++ "_ms_ssim", pairs_255 Decoded bs);
   ("test/" ++ d ++ "_lpips", pairs_01 Decoded bs); ("test/" ++ d ++ "_dists", pairs_01 Decoded bs);
   ("test/" ++ d ++ "_hific_distortion", hific_mean Decoded bs)].
Definition test_fid_log (d : string) (us : list update) : list (string * value) :=
  [("test/" ++ d ++ "_kid", Of us); ("test/" ++ d ++ "_fid_swav", Of us); ("test/" ++ d ++ "_fid", Of us)].
Definition kodak_fid_log : list (string * value) :=
  [("test/kodak_kid", Zero); ("test/kodak_fid_swav", Zero); ("test/kodak_fid", Zero)].
(** The batch an update is about. *)
Fixpoint about_t (b : nat) (t : term) : Prop :=
  match t with Image c | Forward c | Decoded c => c = b | Clamped u | Scaled u | Bytes u => about_t b u end.
Definition about (b : nat) (u : update) : Prop :=
  match u with Pair p t => about_t b p /\ about_t b t | Real t | Fake t => about_t b t | Patches t p _ => about_t b t /\ about_t b p end.
Definition accepted (refuses : metric -> update -> option exn) (bs : list nat) : Prop :=
  forall b m u, In b bs -> about b u -> refuses m u = None.
(** The name in force after some commands. *)
Fixpoint last_name (acc : option string) (cs : list command) : option string :=
  match cs with [] => acc | Name n :: r => last_name (Some n) r | _ :: r => last_name acc r end.

(** * Lemmas *)
Lemma metric_eqb_refl m : metric_eqb m m = true.
Proof. now destruct m. Qed.
Lemma metric_eqb_eq m n : metric_eqb m n = true -> m = n.
Proof. destruct m, n; cbn; congruence. Qed.

(** Accumulated resets. *)
Lemma resets_spec : forall l s, exists s', resets l s = (Ok tt, s') /\
  (forall m, upd s' m = if existsb (metric_eqb m) l then [] else upd s m) /\
  test_set s' = test_set s /\ ds_name s' = ds_name s /\ pending s' = pending s /\ logged s' = logged s.
Proof.
  induction l as [|x l IH]; intro s; [exists s; repeat split|]. cbn [resets]. unfold andthen, reset at 1.
  match goal with |- context [resets l ?t] => destruct (IH t) as [s' [E [U [A [B [C D]]]]]] end.
  exists s'. split; [exact E|]. cbn [test_set ds_name pending logged upd] in *. repeat split; trivial.
  intro m. rewrite U. cbn [existsb]. destruct (metric_eqb m x), (existsb (metric_eqb m) l); reflexivity.
Qed.
Lemma reset_all_spec s : exists s', reset_all_metrics s = (Ok tt, s') /\
  (forall m, upd s' m = if is_test m && negb (test_set s) then upd s m else []) /\
  test_set s' = test_set s /\ ds_name s' = ds_name s /\ pending s' = pending s /\ logged s' = logged s.
Proof.
  unfold reset_all_metrics, andthen.
  destruct (resets_spec [TrainPsnr; TrainMse; TrainMsssim; EvalPsnr; EvalMse; EvalMsssim; EvalLpips; EvalFid] s) as [s1 [E1 [U1 [A1 [B1 [C1 D1]]]]]].
  rewrite E1. destruct (test_set s1) eqn:T.
  - destruct (resets_spec [TestMse; TestMsssim; TestLpips; TestDists; TestFid; TestFidSwav; TestKid] s1) as [s2 [E2 [U2 [A2 [B2 [C2 D2]]]]]].
    exists s2. split; [exact E2|]. repeat split; try congruence. intro m. rewrite U2, U1, <- A1, ?T. destruct m; reflexivity.
  - exists s1. split; [reflexivity|]. repeat split; trivial; try congruence. intro m. rewrite U1, <- A1, ?T. destruct m; reflexivity.
Qed.

(** What can happen to the state in a step. *)
Record grows (s s' : st) (us : metric -> list update) (ps : list (string * source)) : Prop := {
  g_upd : forall m, upd s' m = (upd s m ++ us m)%list;
  g_set : test_set s' = test_set s;
  g_name : ds_name s' = ds_name s;
  g_pend : pending s' = (pending s ++ ps)%list;
  g_log : logged s' = logged s
}.
Definition at_metric (m : metric) (u : update) : metric -> list update := fun x => if metric_eqb x m then [u] else [].
Lemma update_grows refuses m u s : refuses m u = None ->
  exists s', update_metric refuses m u s = (Ok tt, s') /\ grows s s' (at_metric m u) [].
Proof.
  intro R. unfold update_metric. rewrite R. eexists. split; [reflexivity|]. constructor; cbn; trivial; [|now rewrite app_nil_r].
  intro x. unfold at_metric. destruct (metric_eqb x m); [reflexivity|now rewrite app_nil_r].
Qed.
Lemma pend_grows l s : exists s', pend l s = (Ok tt, s') /\ grows s s' (fun _ => []) l.
Proof. unfold pend. eexists. split; [reflexivity|]. constructor; cbn; trivial. intro. now rewrite app_nil_r. Qed.
Lemma grows_then (f g : act unit) s s1 us ps us' ps' : f s = (Ok tt, s1) -> grows s s1 us ps ->
  (exists s2, g s1 = (Ok tt, s2) /\ grows s1 s2 us' ps') ->
  exists s2, andthen f (fun _ => g) s = (Ok tt, s2) /\ grows s s2 (fun m => us m ++ us' m)%list (ps ++ ps')%list.
Proof.
  intros F [U1 A1 B1 C1 D1] [s2 [G [U2 A2 B2 C2 D2]]]. exists s2. unfold andthen. rewrite F. split; [exact G|].
  constructor; try congruence.
  - intro m. now rewrite U2, U1, app_assoc.
  - now rewrite C2, C1, app_assoc.
Qed.
Ltac chain R :=
  match goal with
  | |- exists s', andthen (update_metric ?rf ?m ?u) _ ?s = _ /\ _ =>
      let s1 := fresh "s" in let E := fresh in let G := fresh in
      destruct (update_grows rf m u s) as [s1 [E G]]; [apply R; cbn; auto|refine (grows_then _ _ _ _ _ _ _ _ E G _); chain R]
  | |- exists s', update_metric ?rf ?m ?u ?s = _ /\ _ => apply update_grows; apply R; cbn; auto
  | |- exists s', pend _ _ = _ /\ _ => apply pend_grows
  end.
Lemma grows_ext s s' us us' ps ps' : (forall m, us m = us' m) -> ps = ps' -> grows s s' us ps -> grows s s' us' ps'.
Proof. intros E -> [U A B C D]. constructor; trivial. intro m. now rewrite <- E. Qed.

Definition val_us (b : nat) (m : metric) : list update :=
  match m with
  | EvalPsnr | EvalMsssim | EvalMse => [Pair (Scaled (Clamped (Forward b))) (Scaled (Image b))]
  | EvalLpips => [Pair (Clamped (Forward b)) (Image b)]
  | EvalFid => [Real (Bytes (Image b)); Fake (Bytes (Clamped (Forward b)))]
  | _ => []
  end.
Inductive entry := EObj (m : metric) | ENum (f : nat -> number).
Definition at_batch (e : entry) (b : nat) : source := match e with EObj m => Obj m | ENum f => Num (f b) end.
Definition val_entries : list (string * entry) :=
  [("psnr", EObj EvalPsnr); ("mse", EObj EvalMse); ("ms_ssim", EObj EvalMsssim); ("lpips", EObj EvalLpips);
   ("hific_distortion", ENum (fun b => Hific (Clamped (Forward b)) (Image b)))].
Definition pend_of (pre : string) (es : list (string * entry)) (b : nat) : list (string * source) :=
  map (fun e => (pre ++ fst e, at_batch (snd e) b)) es.
Lemma val_step refuses b s : accepted refuses [b] ->
  exists s', validation_step refuses b s = (Ok tt, s') /\ grows s s' (val_us b) (pend_of "val/" val_entries b).
Proof.
  intro A. unfold validation_step, log_quality_metrics. cbn [String.eqb Ascii.eqb Bool.eqb].
  assert (R : forall m u, about b u -> refuses m u = None) by (intros m u; apply A; now left).
  cbv zeta.
  match goal with |- exists s', ?t = _ /\ _ => eassert (X : exists s', t = (Ok tt, s') /\ grows s s' _ _) by chain R end.
  destruct X as [s' [E G]]. exists s'. split; [exact E|]. refine (grows_ext _ _ _ _ _ _ _ _ G); [|reflexivity].
  intro m. destruct m; reflexivity.
Qed.
Definition test_us (patch : bool) (b : nat) (m : metric) : list update :=
  match m with
  | TestMsssim | TestMse => [Pair (Scaled (Clamped (Decoded b))) (Scaled (Image b))]
  | TestLpips | TestDists => [Pair (Clamped (Decoded b)) (Image b)]
  | TestFid | TestFidSwav | TestKid =>
      if patch then [Patches (Image b) (Clamped (Decoded b)) 256] else [Real (Bytes (Image b)); Fake (Bytes (Clamped (Decoded b)))]
  | _ => []
  end.
Definition test_entries : list (string * entry) :=
  [("_bpp", ENum Bpp); ("_psnr", ENum (fun b => Psnr (Scaled (Clamped (Decoded b))) (Scaled (Image b)))); ("_mse", EObj TestMse);
   ("_ms_ssim", EObj TestMsssim); ("_lpips", EObj TestLpips); ("_dists", EObj TestDists);
   ("_hific_distortion", ENum (fun b => Hific (Clamped (Decoded b)) (Image b)))].
Lemma str_app_assoc a b c : (a ++ b) ++ c = a ++ b ++ c.
Proof. induction a as [|x a IH]; cbn; [reflexivity|now rewrite IH]. Qed.
Lemma fid_kid_grows refuses b patch s : accepted refuses [b] -> test_set s = true ->
  exists s', update_test_fid_kid refuses (Image b) (Clamped (Decoded b)) patch s = (Ok tt, s') /\
    grows s s' (fun m => match m with TestFid | TestFidSwav | TestKid => test_us patch b m | _ => [] end) [].
Proof.
  intros A T. unfold update_test_fid_kid. rewrite T. cbn [negb].
  assert (R : forall m u, about b u -> refuses m u = None) by (intros m u; apply A; now left).
  destruct patch.
  - match goal with |- exists s', ?t = _ /\ _ => eassert (X : exists s', t = (Ok tt, s') /\ grows s s' _ _) by chain R end.
    destruct X as [s' [E G]]. exists s'. split; [exact E|]. refine (grows_ext _ _ _ _ _ _ _ _ G); [|reflexivity]. now intros [].
  - match goal with |- exists s', ?t = _ /\ _ => eassert (X : exists s', t = (Ok tt, s') /\ grows s s' _ _) by chain R end.
    destruct X as [s' [E G]]. exists s'. split; [exact E|]. refine (grows_ext _ _ _ _ _ _ _ _ G); [|reflexivity]. now intros [].
Qed.
Lemma test_step_grows refuses b d s : accepted refuses [b] -> test_set s = true -> ds_name s = Some d ->
  exists s', test_step refuses b s = (Ok tt, s') /\
    grows s s' (test_us (contains "clic" d || contains "div2k" d) b) (pend_of ("test/" ++ d) test_entries b).
Proof.
  intros A T N. unfold test_step. rewrite N.
  assert (R : forall m u, about b u -> refuses m u = None) by (intros m u; apply A; now left).
  destruct (pend_grows [("test/" ++ d ++ "_bpp", Num (Bpp b))] s) as [s1 [E1 G1]].
  unfold andthen at 1. rewrite E1. unfold log_quality_metrics. cbn [String.eqb Ascii.eqb Bool.eqb].
  rewrite (g_set _ _ _ _ G1), T. cbn [negb].
  set (patch := contains "clic" d || contains "div2k" d).
  destruct (update_grows refuses TestMsssim (Pair (Scaled (Clamped (Decoded b))) (Scaled (Image b))) s1) as [s2 [E2 G2]]; [apply R; cbn; auto|].
  destruct (update_grows refuses TestMse (Pair (Scaled (Clamped (Decoded b))) (Scaled (Image b))) s2) as [s3 [E3 G3]]; [apply R; cbn; auto|].
  destruct (update_grows refuses TestLpips (Pair (Clamped (Decoded b)) (Image b)) s3) as [s4 [E4 G4]]; [apply R; cbn; auto|].
  destruct (update_grows refuses TestDists (Pair (Clamped (Decoded b)) (Image b)) s4) as [s5 [E5 G5]]; [apply R; cbn; auto|].
  destruct (fid_kid_grows refuses b patch s5 A) as [s6 [E6 G6]].
  { rewrite (g_set _ _ _ _ G5), (g_set _ _ _ _ G4), (g_set _ _ _ _ G3), (g_set _ _ _ _ G2), (g_set _ _ _ _ G1). exact T. }
  match goal with |- context [pend ?l] => destruct (pend_grows l s6) as [s7 [E7 G7]] end.
  exists s7. split.
  - unfold andthen. rewrite E2, E3, E4, E5, E6, E7. reflexivity.
  - destruct G1 as [U1 A1 B1 C1 D1], G2 as [U2 A2 B2 C2 D2], G3 as [U3 A3 B3 C3 D3], G4 as [U4 A4 B4 C4 D4], G5 as [U5 A5 B5 C5 D5],
      G6 as [U6 A6 B6 C6 D6], G7 as [U7 A7 B7 C7 D7]. constructor; try congruence.
    + intro m. rewrite U7, U6, U5, U4, U3, U2, U1, <- !app_assoc. f_equal. unfold at_metric. destruct m; cbn [metric_eqb test_us app]; rewrite ?app_nil_r; reflexivity.
    + rewrite C7, C6, C5, C4, C3, C2, C1, !app_nil_r, <- app_assoc. reflexivity.
Qed.
Lemma steps_grows (f : nat -> act unit) us ps (P : st -> Prop) : forall bs s,
  (forall b s, In b bs -> P s -> exists s', f b s = (Ok tt, s') /\ grows s s' (us b) (ps b)) ->
  (forall s s' u p, grows s s' u p -> P s -> P s') -> P s ->
  exists s', steps f bs s = (Ok tt, s') /\ grows s s' (fun m => flat_map (fun b => us b m) bs) (flat_map ps bs).
Proof.
  induction bs as [|b bs IH]; intros s F K H.
  - exists s. split; [reflexivity|]. constructor; trivial; cbn; intros; now rewrite app_nil_r.
  - cbn [steps flat_map]. destruct (F b s (or_introl eq_refl) H) as [s1 [E G]]. apply (grows_then _ _ s s1 (us b) (ps b)); trivial.
    apply IH; [|exact K|now apply (K s s1 (us b) (ps b))]. intros b' s' I. apply F. now right.
Qed.

(** Putting out the results. *)
Lemma nodup_app_incl {A} (dec : forall x y : A, {x = y} + {x <> y}) : forall k l, incl k l -> nodup dec (k ++ l) = nodup dec l.
Proof.
  induction k as [|x k IH]; intros l I; [reflexivity|]. cbn [app nodup].
  destruct (in_dec dec x (k ++ l)) as [_|N]; [apply IH; intros y J; apply I; now right|].
  exfalso. apply N. apply in_or_app. right. apply I. now left.
Qed.
Lemma nodup_repeat {A B} (dec : forall x y : A, {x = y} + {x <> y}) (k : list A) : NoDup k ->
  forall bs : list B, bs <> [] -> nodup dec (flat_map (fun _ => k) bs) = k.
Proof.
  intro N. induction bs as [|b bs IH]; [easy|]. intros _. cbn [flat_map]. destruct bs as [|b' bs].
  - cbn [flat_map]. rewrite app_nil_r. now apply nodup_fixed_point.
  - rewrite nodup_app_incl; [apply IH; discriminate|]. cbn [flat_map]. intros x I. apply in_or_app. now left.
Qed.
Lemma eqb_app a x y : String.eqb (a ++ x) (a ++ y) = String.eqb x y.
Proof. induction a as [|c a IH]; cbn; [reflexivity|]. now rewrite Ascii.eqb_refl. Qed.
Lemma app_inj a x y : a ++ x = a ++ y -> x = y.
Proof. intro H. apply String.eqb_eq. rewrite <- (eqb_app a). apply String.eqb_eq. exact H. Qed.
Lemma map_flat_map {A B C} (g : B -> C) (f : A -> list B) l : map g (flat_map f l) = flat_map (fun x => map g (f x)) l.
Proof. induction l as [|x l IH]; [reflexivity|]. cbn. now rewrite map_app, IH. Qed.
Lemma find_pend pre es b rest k e : NoDup (map fst es) -> In (k, e) es ->
  find (fun p => String.eqb (fst p) (pre ++ k)) (pend_of pre es b ++ rest) = Some (pre ++ k, at_batch e b).
Proof.
  induction es as [|[k' e'] es IH]; intros N I; [destruct I|]. cbn [pend_of map fst snd app find]. rewrite eqb_app.
  cbn [map fst] in N. inversion_clear N as [|? ? NI N']. destruct I as [E|I].
  - injection E as -> ->. now rewrite String.eqb_refl.
  - destruct (String.eqb_spec k' k) as [->|]; [exfalso; apply NI; apply in_map_iff; now exists (k, e)|]. now apply IH.
Qed.
Lemma nums_pend pre es k f b : NoDup (map fst es) -> In (k, ENum f) es ->
  flat_map (fun p => if String.eqb (fst p) (pre ++ k) then match snd p with Num n => [n] | Obj _ => [] end else []) (pend_of pre es b) = [f b].
Proof.
  intros N I.
  assert (Z : forall l, ~ In k (map fst l) -> flat_map (fun p => if String.eqb (fst p) (pre ++ k) then match snd p with Num n => [n] | Obj _ => [] end else []) (pend_of pre l b) = []).
  { induction l as [|[k' e'] l IH]; intro NI; [reflexivity|]. cbn [pend_of map fst snd flat_map]. rewrite eqb_app.
    destruct (String.eqb_spec k' k) as [->|]; [exfalso; apply NI; now left|]. apply IH. intro J. apply NI. now right. }
  induction es as [|[k' e'] es IH]; [destruct I|]. cbn [map fst] in N. inversion_clear N as [|? ? NI N'].
  cbn [pend_of map fst snd flat_map]. rewrite eqb_app. destruct I as [E|I].
  - injection E as -> ->. rewrite String.eqb_refl. cbn [at_batch app]. f_equal. now apply Z.
  - destruct (String.eqb_spec k' k) as [->|]; [exfalso; apply NI; apply in_map_iff; now exists (k, ENum f)|]. now apply IH.
Qed.
Lemma values_spec s pre es bs k e : NoDup (map fst es) -> In (k, e) es -> bs <> [] ->
  pending s = flat_map (pend_of pre es) bs ->
  values_of s (pre ++ k) = match e with EObj m => Of (upd s m) | ENum f => Mean (map f bs) end.
Proof.
  intros N I B P. unfold values_of. rewrite P. destruct bs as [|b bs]; [easy|]. cbn [flat_map]. rewrite (find_pend pre es b _ k e N I).
  destruct e as [m|f]; cbn [at_batch]; [reflexivity|]. f_equal. change (pend_of pre es b ++ flat_map (pend_of pre es) bs)%list with (flat_map (pend_of pre es) (b :: bs)).
  generalize (b :: bs). intro l. induction l as [|x l IH]; [reflexivity|]. cbn [flat_map map]. rewrite flat_map_app, IH.
  now rewrite (nums_pend pre es k f x N I).
Qed.
Lemma put_out_spec s pre es bs : NoDup (map fst es) -> bs <> [] -> pending s = flat_map (pend_of pre es) bs ->
  exists s', put_out s = (Ok tt, s') /\
    logged s' = (map (fun e => ((pre ++ fst e)%string, match snd e with EObj m => Of (upd s m) | ENum f => Mean (map f bs) end)) es ++ logged s)%list /\
    pending s' = [] /\ ds_name s' = ds_name s /\ test_set s' = test_set s.
Proof.
  intros N B P. unfold put_out, andthen. destruct (resets_spec (objects s) s) as [s1 [E [U [A [D [C L]]]]]]. rewrite E.
  eexists. split; [reflexivity|]. cbn [logged pending ds_name test_set]. repeat split; trivial. rewrite L. f_equal.
  assert (K : nodup string_dec (map fst (pending s)) = map (fun e => pre ++ fst e) es).
  { rewrite P, map_flat_map.
    replace (flat_map (fun x => map fst (pend_of pre es x)) bs) with (flat_map (fun _ : nat => map (fun e => pre ++ fst e) es) bs).
    - apply nodup_repeat; [|exact B]. rewrite <- (map_map fst (fun k => pre ++ k)). apply FinFun.Injective_map_NoDup; [|exact N].
      intros x y. apply app_inj.
    - apply flat_map_ext. intro b. unfold pend_of. now rewrite map_map. }
  rewrite K, map_map. apply map_ext_in. intros [k e] I. cbn [fst snd]. f_equal. now apply (values_spec s pre es bs k e).
Qed.
Lemma put_out_nothing s : pending s = [] -> exists s', put_out s = (Ok tt, s') /\ logged s' = logged s.
Proof. intro P. unfold put_out, andthen, objects. rewrite P. cbn. eexists. split; reflexivity. Qed.

(** * Theorems *)
Lemma flat_map_single {A B} (f : A -> B) l : flat_map (fun x => [f x]) l = map f l.
Proof. induction l as [|x l IH]; [reflexivity|]. cbn. now rewrite IH. Qed.
Lemma validation_run refuses compute bs s : accepted refuses bs ->
  exists s2, validation_epoch refuses compute bs s = andthen (on_validation_epoch_end compute) (fun _ => put_out) s2 /\
    upd s2 EvalFid = whole Forward bs /\ logged s2 = logged s /\
    (bs <> [] -> forall t, (forall m, m <> EvalFid -> upd t m = upd s2 m) -> pending t = pending s2 ->
       exists s3, put_out t = (Ok tt, s3) /\ logged s3 = (val_log bs ++ logged t)%list).
Proof.
  intro A. unfold validation_epoch, on_validation_epoch_start.
  set (s0 := mkS (upd s) (test_set s) (ds_name s) [] (logged s)).
  destruct (reset_all_spec s0) as [s1 [E1 [U1 [A1 [B1 [C1 D1]]]]]].
  destruct (steps_grows (validation_step refuses) val_us (pend_of "val/" val_entries) (fun _ => True) bs s1) as [s2 [E2 [U2 A2 B2 C2 D2]]]; trivial.
  { intros b s2 I _. apply val_step. intros b' m u [<-|[]]. now apply A. }
  exists s2. split; [|split; [|split]].
  - unfold andthen at 1, clear_pending. fold s0. unfold andthen at 1. rewrite E1. unfold andthen at 1. rewrite E2. reflexivity.
  - rewrite U2, U1. reflexivity.
  - rewrite D2, D1. reflexivity.
  - intros B t UT PT. destruct (put_out_spec t "val/" val_entries bs) as [s3 [E3 [L3 _]]]; trivial.
    { repeat constructor; cbn; intuition discriminate. }
    { rewrite PT, C2, C1. reflexivity. }
    exists s3. split; [exact E3|]. rewrite L3. cbn [map fst snd val_entries]. rewrite !UT by discriminate. rewrite !U2, !U1. cbn [is_test andb app val_us].
    unfold val_log, pairs_255, pairs_01, hific_mean. rewrite !flat_map_single. reflexivity.
Qed.
(** In any state, whatever ran before (also if it failed half-way): a validation epoch whose
    updates are accepted logs the metrics of exactly its own batches. *)
Theorem validation_epoch_exact : forall refuses compute cs bs, bs <> [] -> accepted refuses bs ->
  compute EvalFid (whole Forward bs) = None ->
  let s := run_commands refuses compute init cs in
  exists s', validation_epoch refuses compute bs s = (Ok tt, s') /\
    logged s' = (val_log bs ++ ("val/fid", Of (whole Forward bs)) :: logged s)%list.
Proof.
  intros refuses compute cs bs B A C s. destruct (validation_run refuses compute bs s A) as [s2 [-> [F [L P]]]].
  unfold andthen at 1, on_validation_epoch_end. rewrite F, C. unfold andthen, log_now, reset. cbn [upd test_set ds_name pending logged].
  match goal with |- context [put_out ?t] => destruct (P B t) as [s3 [E3 L3]] end.
  - intros m M. cbn [upd]. destruct m; try reflexivity. now destruct M.
  - reflexivity.
  - exists s3. split; [exact E3|]. rewrite L3. cbn [logged]. now rewrite L.
Qed.
(** If the FID can not be computed, IndexError and ValueError are swallowed: the epoch logs the rest
    and no FID; any other exception ends the run. *)
Definition swallowed (e : exn) : Prop := e = IndexError \/ e = ValueError.
Theorem validation_fid_failure : forall refuses compute cs bs e, bs <> [] -> accepted refuses bs ->
  compute EvalFid (whole Forward bs) = Some e ->
  let s := run_commands refuses compute init cs in
  (swallowed e -> exists s', validation_epoch refuses compute bs s = (Ok tt, s') /\ logged s' = (val_log bs ++ logged s)%list) /\
  (~ swallowed e -> exists s', validation_epoch refuses compute bs s = (Raise e, s') /\ logged s' = logged s).
Proof.
  intros refuses compute cs bs e B A C s. destruct (validation_run refuses compute bs s A) as [s2 [-> [F [L P]]]]. split.
  - intro W. destruct (P B (mkS (fun x => if metric_eqb x EvalFid then [] else upd s2 x) (test_set s2) (ds_name s2) (pending s2) (logged s2))) as [s3 [E3 L3]].
    + intros m M. cbn [upd]. destruct m; try reflexivity. now destruct M.
    + reflexivity.
    + exists s3. unfold andthen, on_validation_epoch_end. rewrite F, C. destruct W as [->| ->]; (split; [exact E3|rewrite L3; cbn [logged]; now rewrite L]).
  - intro W. exists s2. unfold andthen, on_validation_epoch_end. rewrite F, C. unfold swallowed in W.
    destruct e; (split; [reflexivity|exact L]) || (exfalso; apply W; auto).
Qed.
(** The state between commands. *)
Definition named (s : st) (n : option string) : Prop := ds_name s = n /\ test_set s = match n with Some _ => true | None => false end.
Definition stays (f : act unit) : Prop := forall s, ds_name (snd (f s)) = ds_name s /\ test_set (snd (f s)) = test_set s.
Lemma stays_then f g : stays f -> stays g -> stays (f ;; g).
Proof.
  intros F G s. unfold andthen. specialize (F s). destruct (f s) as [[u|e] s1]; [|exact F]. cbn [snd] in F. destruct F as [<- <-]. apply G.
Qed.
Lemma stays_resets l : stays (resets l).
Proof. intro s. destruct (resets_spec l s) as [s' [E [_ [A [B _]]]]]. rewrite E. auto. Qed.
Lemma stays_reset_all : stays reset_all_metrics.
Proof. intro s. destruct (reset_all_spec s) as [s' [E [_ [A [B _]]]]]. rewrite E. auto. Qed.
Lemma stays_update refuses m u : stays (update_metric refuses m u).
Proof. intro s. unfold update_metric. now destruct (refuses m u). Qed.
Lemma stays_pend l : stays (pend l). Proof. intro s. split; reflexivity. Qed.
Lemma stays_log_now k v : stays (log_now k v). Proof. intro s. split; reflexivity. Qed.
Lemma stays_steps f bs : (forall b, stays (f b)) -> stays (steps f bs).
Proof. intro F. induction bs as [|b bs IH]; [intro s; split; reflexivity|]. cbn [steps]. now apply stays_then. Qed.
Lemma stays_if (c : st -> bool) f g : stays f -> stays g -> stays (fun s => if c s then f s else g s).
Proof. intros F G s. destruct (c s); [apply F|apply G]. Qed.
Lemma stays_raise e : stays (raise e). Proof. intro s. split; reflexivity. Qed.
Lemma stays_fid_kid refuses i p c : stays (update_test_fid_kid refuses i p c).
Proof.
  intro s. unfold update_test_fid_kid. destruct (negb (test_set s)); [split; reflexivity|].
  destruct c; match goal with |- context [?f s] => assert (X : stays f) by (repeat apply stays_then; apply stays_update); apply X end.
Qed.
Lemma stays_quality refuses o i p d : stays (log_quality_metrics refuses o i p d).
Proof.
  unfold log_quality_metrics. destruct (String.eqb p "train"); [repeat apply stays_then; apply stays_update|].
  destruct (String.eqb p "val"); [repeat apply stays_then; try apply stays_update; apply stays_pend|].
  destruct (String.eqb p "test"); [|apply stays_raise]. intro s. destruct (negb (test_set s)); [split; reflexivity|].
  destruct d as [d|]; [|split; reflexivity].
  match goal with |- context [?f s] => assert (X : stays f)
    by (repeat apply stays_then; try apply stays_update; try apply stays_fid_kid; apply stays_pend); apply X end.
Qed.
Lemma stays_put_out : stays put_out.
Proof. intro s. unfold put_out, andthen. destruct (resets_spec (objects s) s) as [s' [E [_ [A [B _]]]]]. rewrite E. cbn. auto. Qed.
Lemma stays_val_end compute : stays (on_validation_epoch_end compute).
Proof. intro s. unfold on_validation_epoch_end. destruct (compute EvalFid (upd s EvalFid)) as [[]|]; split; reflexivity. Qed.
Lemma stays_test_end compute : stays (on_test_epoch_end compute).
Proof.
  intro s. unfold on_test_epoch_end. destruct (negb (test_set s)); [split; reflexivity|]. cbv zeta.
  destruct (String.eqb _ "kodak"); match goal with |- context [?f s] => assert (X : stays f); [|apply X] end.
  - repeat apply stays_then; apply stays_log_now.
  - repeat apply stays_then; intro t; match goal with |- context [compute ?m ?u] => destruct (compute m u) end; split; reflexivity.
Qed.
Theorem name_in_force : forall refuses compute cs, named (run_commands refuses compute init cs) (last_name None cs).
Proof.
  intros refuses compute cs. assert (G : forall s n, named s n -> named (run_commands refuses compute s cs) (last_name n cs)).
  { induction cs as [|c cs IH]; intros s n N; [exact N|]. unfold run_commands. cbn [fold_left].
    assert (K : stays (run_command refuses compute c) -> named (snd (run_command refuses compute c s)) n)
      by (intro S; destruct N as [N1 N2]; split; [rewrite (proj1 (S s)); exact N1|rewrite (proj2 (S s)); exact N2]).
    destruct c; cbn [last_name run_command]; apply IH.
    - unfold update_test_dataset_name. cbn [snd]. destruct (test_set s); split; reflexivity.
    - apply K. apply stays_reset_all.
    - apply K. apply stays_quality.
    - apply K. cbn [run_command]. unfold validation_epoch. apply stays_then; [intro; split; reflexivity|]. apply stays_then; [apply stays_reset_all|].
      apply stays_then; [apply stays_steps; intro; apply stays_quality|]. apply stays_then; [apply stays_val_end|apply stays_put_out].
    - apply K. cbn [run_command]. unfold test_epoch. apply stays_then; [intro; split; reflexivity|]. apply stays_then; [apply stays_reset_all|].
      apply stays_then; [|apply stays_then; [apply stays_test_end|apply stays_put_out]]. apply stays_steps. intros b t. unfold test_step.
      destruct (ds_name t) as [d|] eqn:DT; [|cbn [snd]; auto].
      match goal with |- context [?f t] => match f with andthen _ _ => assert (X : stays f) by (apply stays_then; [apply stays_pend|apply stays_quality]) end end.
      destruct (X t) as [X1 X2]. rewrite X1, X2, DT. auto.
    - apply K. apply stays_reset_all. }
  apply G. split; reflexivity.
Qed.
Lemma prefix_spec a s : String.prefix a s = true <-> exists b, s = a ++ b.
Proof.
  revert s. induction a as [|c a IH]; intro s; [split; [now exists s|now destruct s]|]. destruct s as [|x s]; [split; [discriminate|now intros [b ?]]|].
  cbn [String.prefix append].
  destruct (Ascii.ascii_dec c x) as [->|N].
  - rewrite IH. split; intros [b H]; exists b; [now rewrite H|now injection H].
  - split; [discriminate|]. intros [b H]. injection H as H _. congruence.
Qed.
Lemma contains_spec sub s : contains sub s = true <-> exists a b, s = a ++ sub ++ b.
Proof.
  revert sub. induction s as [|x s IH]; intro sub.
  - cbn [contains]. rewrite orb_false_r, prefix_spec. split; [intros [b H]; exists "", b; exact H|].
    intros [a [b H]]. exists b. destruct a; [exact H|discriminate].
  - cbn [contains]. rewrite orb_true_iff, prefix_spec, IH. split.
    + intros [[b H]|[a [b ->]]]; [exists "", b; exact H|exists (String x a), b; reflexivity].
    + intros [[|y a] [b H]]; [left; exists b; exact H|]. right. cbn in H. injection H as _ H. now exists a, b.
Qed.
Lemma patch_spec d : contains "clic" d || contains "div2k" d = true <-> patch_name d.
Proof.
  rewrite orb_true_iff, !contains_spec. unfold patch_name. split.
  - intros [[a [b H]]|[a [b H]]]; exists a, b; auto.
  - intros [a [b [H|H]]]; [left|right]; now exists a, b.
Qed.
Lemma test_epoch_run refuses compute bs d s (us := if contains "clic" d || contains "div2k" d then in_patches Decoded bs else whole Decoded bs) :
  named s (Some d) -> bs <> [] -> accepted refuses bs ->
  (forall m, compute m us = None) ->
  exists s', test_epoch refuses compute bs s = (Ok tt, s') /\
    logged s' = (test_log d bs ++ (if String.eqb d "kodak" then kodak_fid_log else test_fid_log d us) ++ logged s)%list.
Proof.
  intros [ND TS] B A C. unfold test_epoch, on_test_epoch_start. unfold andthen at 1, clear_pending.
  set (s0 := mkS (upd s) (test_set s) (ds_name s) [] (logged s)).
  destruct (reset_all_spec s0) as [s1 [E1 [U1 [A1 [B1 [C1 D1]]]]]]. unfold andthen at 1. rewrite E1. cbn in A1, B1, D1.
  destruct (steps_grows (test_step refuses) (test_us (contains "clic" d || contains "div2k" d)) (pend_of ("test/" ++ d) test_entries)
    (fun t => ds_name t = Some d /\ test_set t = true) bs s1) as [s2 [E2 [U2 A2 B2 C2 D2]]].
  { intros b t I [N T]. apply test_step_grows; trivial. intros b' m u [<-|[]]. now apply A. }
  { intros t t' u p [_ X1 X2 _ _] [N T]. split; congruence. }
  { split; congruence. }
  unfold andthen at 1. rewrite E2. unfold on_test_epoch_end.
  assert (UF : forall m, m = TestFid \/ m = TestFidSwav \/ m = TestKid -> upd s2 m = us).
  { intros m M. rewrite U2, U1. cbn [test_set s0]. rewrite TS. cbn [negb]. rewrite andb_false_r. cbn [app]. unfold us.
    destruct M as [->|[->| ->]]; cbn [test_us]; destruct (contains "clic" d || contains "div2k" d); try reflexivity; apply flat_map_single. }
  assert (FIN : forall t, (forall m, upd t m = upd s2 m) -> pending t = pending s2 -> exists s', put_out t = (Ok tt, s') /\ logged s' = (test_log d bs ++ logged t)%list).
  { intros t UT PT. destruct (put_out_spec t ("test/" ++ d) test_entries bs) as [s3 [E3 [L3 _]]]; trivial.
    { repeat constructor; cbn; intuition discriminate. }
    { rewrite PT, C2, C1. reflexivity. }
    exists s3. split; [exact E3|]. rewrite L3. cbn [map fst snd test_entries]. rewrite !UT, !U2, !U1. cbn [test_set s0]. rewrite TS. cbn [is_test negb andb app test_us].
    unfold test_log, pairs_255, pairs_01, hific_mean. rewrite !flat_map_single, !str_app_assoc. reflexivity. }
  unfold andthen at 1. rewrite A2, A1, TS. cbn [negb]. rewrite B2, B1, ND. destruct (String.eqb_spec d "kodak") as [->|ND'].
  - unfold andthen, log_now. cbn [upd test_set ds_name pending logged].
    match goal with |- context [put_out ?t] => destruct (FIN t) as [s3 [E3 L3]]; trivial end.
    exists s3. split; [exact E3|]. rewrite L3. cbn [logged]. rewrite D2, D1. reflexivity.
  - unfold andthen, log_now. rewrite !(UF TestFid), C by auto. cbn [upd test_set ds_name pending logged].
    rewrite !(UF TestFidSwav), C by auto. cbn [upd test_set ds_name pending logged]. rewrite !(UF TestKid), C by auto. cbn [upd test_set ds_name pending logged].
    match goal with |- context [put_out ?t] => destruct (FIN t) as [s3 [E3 L3]]; trivial end.
    exists s3. split; [exact E3|]. rewrite L3. cbn [logged]. rewrite D2, D1. reflexivity.
Qed.
(** A test epoch logs, under the name in force, the metrics of exactly its own batches; FID and KID
    on whole images or, for names with "clic" or "div2k" inside, on patches. *)
Theorem test_epoch_exact : forall refuses compute cs bs d us, bs <> [] -> accepted refuses bs ->
  last_name None cs = Some d -> d <> "kodak" ->
  (patch_name d /\ us = in_patches Decoded bs \/ ~ patch_name d /\ us = whole Decoded bs) ->
  (forall m, compute m us = None) ->
  let s := run_commands refuses compute init cs in
  exists s', test_epoch refuses compute bs s = (Ok tt, s') /\
    logged s' = (test_log d bs ++ test_fid_log d us ++ logged s)%list.
Proof.
  intros refuses compute cs bs d us B A L K U C s. pose proof (name_in_force refuses compute cs) as N. rewrite L in N.
  assert (E : us = if contains "clic" d || contains "div2k" d then in_patches Decoded bs else whole Decoded bs).
  { rewrite <- patch_spec in U. destruct (contains "clic" d || contains "div2k" d); destruct U as [[P ->]|[P ->]]; congruence. }
  subst us. destruct (test_epoch_run refuses compute bs d s N B A C) as [s' [H1 H2]]. exists s'. split; [exact H1|]. rewrite H2.
  apply String.eqb_neq in K. now rewrite K.
Qed.
(** For "kodak" the logged FID and KID are 0, whatever the images. *)
Theorem test_kodak_fid_refuted : forall refuses compute cs bs, bs <> [] -> accepted refuses bs ->
  last_name None cs = Some "kodak" -> (forall m, compute m (whole Decoded bs) = None) ->
  let s := run_commands refuses compute init cs in
  exists s', test_epoch refuses compute bs s = (Ok tt, s') /\
    logged s' = (test_log "kodak" bs ++ kodak_fid_log ++ logged s)%list.
Proof.
  intros refuses compute cs bs B A L C s. pose proof (name_in_force refuses compute cs) as N. rewrite L in N.
  exact (test_epoch_run refuses compute bs "kodak" s N B A C).
Qed.
(** Without a name a test epoch fails and logs nothing. *)
Theorem test_unnamed : forall refuses compute cs bs, last_name None cs = None ->
  let s := run_commands refuses compute init cs in
  fst (test_epoch refuses compute bs s) = Raise (match bs with [] => AssertionError | _ => ValueError end) /\
  logged (snd (test_epoch refuses compute bs s)) = logged s.
Proof.
  intros refuses compute cs bs L s. pose proof (name_in_force refuses compute cs) as [N T]. rewrite L in N, T. fold s in N, T.
  assert (X : exists s1, test_epoch refuses compute bs s = (Raise (match bs with [] => AssertionError | _ => ValueError end), s1) /\ logged s1 = logged s).
  { unfold test_epoch, on_test_epoch_start. unfold andthen at 1, clear_pending.
    set (s0 := mkS (upd s) (test_set s) (ds_name s) [] (logged s)).
    destruct (reset_all_spec s0) as [s1 [E1 [U1 [A1 [B1 [C1 D1]]]]]]. cbn in A1, B1, D1. exists s1. split; [|exact D1].
    unfold andthen at 1. rewrite E1. destruct bs as [|b bs].
    - cbn [steps]. unfold andthen, ret, on_test_epoch_end. rewrite A1, T. reflexivity.
    - cbn [steps]. unfold andthen, test_step. rewrite B1, N. reflexivity. }
  destruct X as [s1 [-> D]]. auto.
Qed.

(** A case: a validation epoch that fails, then tests on two data sets. *)
Example imgmod_instance :
  let ref m u := match m, u with EvalLpips, Pair (Clamped (Forward 7)) _ => Some RuntimeError | _, _ => None end in
  let cs := [TrainStart; Train 1%nat; Validate [7; 8]%nat; Name "kodak"; Test [3%nat]; Name "clic2020_test"] in
  accepted ref [4; 5]%nat /\ patch_name "clic2020_test" /\ last_name None cs = Some "clic2020_test" /\
  List.length (logged (run_commands ref (fun _ _ => None) init cs)) = 10%nat.
Proof.
  split; [|split; [|split; reflexivity]].
  - intros b m u I H. destruct m; trivial. destruct u as [p t| | |]; trivial. destruct p as [| | |p| |]; trivial. destruct p; trivial. cbn in H. destruct H as [-> _].
    destruct I as [<-|[<-|[]]]; reflexivity.
  - exists "", "2020_test". now left.
Qed.
Print Assumptions validation_epoch_exact.
Print Assumptions test_epoch_exact.

(** ** Naming the test data set, and wrong calls *)
(** The name changes nothing but the name and, the first time, makes the test metrics, without updates. *)
Theorem naming_keeps : forall n s, exists s', update_test_dataset_name n s = (Ok tt, s') /\
  test_set s' = true /\ ds_name s' = Some n /\ pending s' = pending s /\ logged s' = logged s /\
  (forall m, In m [TrainPsnr; TrainMse; TrainMsssim; EvalPsnr; EvalMse; EvalMsssim; EvalLpips; EvalFid] -> upd s' m = upd s m) /\
  (forall m, In m [TestMse; TestMsssim; TestLpips; TestDists; TestFid; TestFidSwav; TestKid] -> upd s' m = if test_set s then upd s m else []).
Proof.
  intros n s. unfold update_test_dataset_name. destruct (test_set s); eexists; (split; [reflexivity|]);
    (split; [reflexivity|]); (split; [reflexivity|]); (split; [reflexivity|]); (split; [reflexivity|]); (split; intros m I; cbn [In] in I;
    repeat (destruct I as [<-|I]; [reflexivity|]); destruct I).
Qed.
(** Quality metrics of a test need the test metrics and then the name of the data set; a phase that is not
    train, val or test is refused.  None of these changes anything. *)
Theorem quality_metrics_errors : forall refuses output images prefix d s,
  (prefix = "test" -> test_set s = false -> log_quality_metrics refuses output images prefix d s = (Raise AssertionError, s)) /\
  (prefix = "test" -> test_set s = true -> d = None -> log_quality_metrics refuses output images prefix d s = (Raise ValueError, s)) /\
  (~ In prefix ["train"; "val"; "test"] -> log_quality_metrics refuses output images prefix d s = (Raise ValueError, s)) /\
  (test_set s = false -> forall clic, update_test_fid_kid refuses images output clic s = (Raise AssertionError, s)).
Proof.
  intros refuses output images prefix d s. split; [|split; [|split]].
  - intros -> T. unfold log_quality_metrics. cbn [String.eqb Ascii.eqb Bool.eqb]. now rewrite T.
  - intros -> T ->. unfold log_quality_metrics. cbn [String.eqb Ascii.eqb Bool.eqb]. now rewrite T.
  - intro N. unfold log_quality_metrics.
    destruct (String.eqb prefix "train") eqn:A; [apply String.eqb_eq in A; subst; exfalso; apply N; cbn; auto|].
    destruct (String.eqb prefix "val") eqn:B; [apply String.eqb_eq in B; subst; exfalso; apply N; cbn; auto|].
    destruct (String.eqb prefix "test") eqn:C; [apply String.eqb_eq in C; subst; exfalso; apply N; cbn; auto|]. reflexivity.
  - intros T clic. unfold update_test_fid_kid. now rewrite T.
Qed.
Print Assumptions naming_keeps.
Print Assumptions quality_metrics_errors.

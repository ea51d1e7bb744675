(** C72: losses, references, updates and logged numbers of DVC training. *)
From Coq Require Import String Reals List Bool Arith Lia Lra.
From Verif Require Import Base DvcGop_Model.
Import ListNotations.
Open Scope string_scope.
Open Scope list_scope.
Open Scope nat_scope.

(** * Specification *)
(** Which rates a stage has: none in stage 1, that of the flow in stages 2 and 3, both in 4 and 5. *)
Inductive kind := NoRate | FlowOnly | Both.
Definition fits (k : kind) (l : losses) : Prop :=
  match k, flow_entropy l, resid_entropy l with
  | NoRate, None, None | FlowOnly, Some _, None | Both, Some _, Some _ => True
  | _, _, _ => False
  end.
Definition rate0 (o : option R) : R := match o with Some r => r | None => 0%R end.
Definition flow_rate (l : losses) : R := rate0 (flow_entropy l).
Definition resid_rate (l : losses) : R := rate0 (resid_entropy l).
Definition total (l : losses) : R := (distortion l + flow_rate l + resid_rate l)%R.
(** The sum of f 0, ..., f (n - 1). *)
Fixpoint sum (n : nat) (f : nat -> R) : R := match n with 0 => 0%R | S k => (sum k f + f k)%R end.
(** The numbers logged for P pairs with losses l 0, ..., l (P - 1), given the rate of the I-frame. *)
Definition gop_log (key : string) (k : kind) (P : nat) (l : nat -> losses) (iframe_bpp psnr : R) : logs :=
  let n := (INR P + 1)%R in
  [((key ++ "gop_loss")%string, (sum P (fun i => total (l i)) / n)%R);
   ((key ++ "gop_distortion_loss")%string, (sum P (fun i => distortion (l i)) / n)%R);
   ((key ++ "gop_bpp")%string, ((iframe_bpp + sum P (fun i => flow_rate (l i) + resid_rate (l i))) / n)%R)] ++
  (match k with NoRate => [] | _ => [((key ++ "gop_flow_bpp")%string, (sum P (fun i => flow_rate (l i)) / n)%R)] end) ++
  (match k with Both => [((key ++ "gop_residual_bpp")%string, (sum P (fun i => resid_rate (l i)) / n)%R)] | _ => [] end) ++
  [((key ++ "psnr")%string, psnr)].

Section Props.
Variables image weights quants : Type.
Variable iframe : image -> image * R.
Variable cbl : weights -> quants -> image -> image -> losses * image.
Variable quantile_loss : weights -> quants -> R.
Variable psnr : list image -> list image -> R.
Variable step1 : weights -> list (diff image weights quants) -> weights.
Variable step2 : quants -> list (diff image weights quants) -> quants.
Notation main := (Main image weights quants).
Notation aux := (Aux image weights quants).
Notation state := (state image weights quants).
Notation training_step := (training_step image weights quants iframe cbl quantile_loss psnr step1 step2).
Notation validation_step := (validation_step image weights quants iframe cbl psnr).
Notation s_w := (s_w image weights quants).
Notation s_q := (s_q image weights quants).

(** A run over frames x :: ys: e i is the reference of the i-th pair and w i the weights then. *)
Definition closed_loop (q : quants) (x : image) (ys : list image) (P : nat) (w : nat -> weights) (e : nat -> image) (l : nat -> losses) : Prop :=
  e 0 = fst (iframe x) /\
  forall i, i < P -> exists y, nth_error ys i = Some y /\ cbl (w i) q (e i) y = (l i, e (S i)).

(** * The loop *)
Lemma metrics_step k l T D B F Q : fits k l ->
  compute_loss_and_metrics l (mkG T D B (match k with NoRate => F | _ => Some (rate0 F) end) (match k with Both => Some (rate0 Q) | _ => Q end)) =
  Ok (total l, mkG (T + total l)%R (D + distortion l)%R (B + (flow_rate l + resid_rate l))%R
        (match k with NoRate => None | _ => Some (rate0 F + flow_rate l)%R end)
        (match k with Both => Some (rate0 Q + resid_rate l)%R | _ => None end)).
Proof.
  intro H. destruct l as [d f r]. unfold compute_loss_and_metrics, total, flow_rate, resid_rate. cbn [distortion flow_entropy resid_entropy g_distortion g_flow g_resid g_total g_bpp].
  destruct k, f as [f|], r as [r|]; cbn in H; try contradiction; cbn [bind rate0 g_flow g_resid g_total g_bpp]; f_equal; f_equal; try ring; f_equal; ring.
Qed.
(** The metrics after P pairs, from the first values. *)
Definition acc_metrics (k : kind) (P : nat) (l : nat -> losses) (b : R) : metrics :=
  mkG (sum P (fun i => total (l i))) (sum P (fun i => distortion (l i))) (b + sum P (fun i => flow_rate (l i) + resid_rate (l i)))%R
    (match k, P with NoRate, S _ => None | _, _ => Some (sum P (fun i => flow_rate (l i))) end)
    (match k, P with Both, _ | _, 0 => Some (sum P (fun i => resid_rate (l i))) | _, _ => None end).
Lemma acc_step k P l b : fits k (l P) ->
  compute_loss_and_metrics (l P) (acc_metrics k P l b) = Ok (total (l P), acc_metrics k (S P) l b).
Proof.
  intro H. unfold acc_metrics at 1.
  pose proof (metrics_step k (l P) (sum P (fun i => total (l i))) (sum P (fun i => distortion (l i))) (b + sum P (fun i => flow_rate (l i) + resid_rate (l i)))%R
    (match k, P with NoRate, S _ => None | _, _ => Some (sum P (fun i => flow_rate (l i))) end)
    (match k, P with Both, _ | _, 0 => Some (sum P (fun i => resid_rate (l i))) | _, _ => None end) H) as M.
  assert (E : forall f f' r r' x, f = f' -> r = r' -> compute_loss_and_metrics (l P) (mkG (sum P (fun i => total (l i))) (sum P (fun i => distortion (l i))) (b + sum P (fun i => flow_rate (l i) + resid_rate (l i)))%R f r) = x ->
     compute_loss_and_metrics (l P) (mkG (sum P (fun i => total (l i))) (sum P (fun i => distortion (l i))) (b + sum P (fun i => flow_rate (l i) + resid_rate (l i)))%R f' r') = x) by (intros; subst; reflexivity).
  refine (E _ _ _ _ _ _ _ _); [| |etransitivity; [exact M|]]; [destruct k, P; reflexivity|destruct k, P; reflexivity|].
  f_equal. f_equal. unfold acc_metrics. cbn [sum]. rewrite Rplus_assoc. destruct k, P; cbn [rate0]; reflexivity.
Qed.
Lemma loop_app {body : acc image weights quants -> nat -> res (acc image weights quants)} : forall is js a,
  loop image weights quants body a (is ++ js) = bind (loop image weights quants body a is) (fun a' => loop image weights quants body a' js).
Proof. induction is as [|i r IH]; intros js a; [reflexivity|]. cbn [app loop]. destruct (body a i) as [a'|e]; cbn [bind]; [apply IH|reflexivity]. Qed.
Lemma nth_frame {A} (x : A) ys i : i < length ys -> exists y, nth_error ys i = Some y /\ nth_error (x :: ys) (i + 1) = Some y.
Proof. intro H. rewrite Nat.add_1_r. cbn. destruct (nth_error ys i) eqn:E; [now exists a|]. apply nth_error_None in E. lia. Qed.

Lemma train_loop k q x ys s bpp : (forall w q a b, fits k (fst (cbl w q a b))) -> s_q s = q -> forall P, P <= length ys ->
  exists w e l, closed_loop q x ys P w e l /\ w 0 = s_w s /\
    (forall i y, i < P -> nth_error ys i = Some y -> w (S i) = step1 (w i) [main (w i) q (e i) y]) /\
    exists a, loop _ _ _ (train_pframe image weights quants cbl step1 (fst (iframe x) :: ys)) (mkA _ _ _ s (fst (iframe x)) (mkG 0 0 bpp (Some 0%R) (Some 0%R)) None [] []) (seq 0 P) = Ok a /\
      s_w (a_state _ _ _ a) = w P /\ s_q (a_state _ _ _ a) = q /\ a_image1 _ _ _ a = e P /\ a_metrics _ _ _ a = acc_metrics k P l bpp /\
      a_loss _ _ _ a = match P with 0 => None | S p => Some (total (l p)) end /\
      a_im2 _ _ _ a = firstn P ys /\ a_est _ _ _ a = map (fun i => e (S i)) (seq 0 P).
Proof.
  intros K Q. induction P as [|P IH]; intro L.
  - exists (fun _ => s_w s), (fun _ => fst (iframe x)), (fun _ => mkL 0 None None).
    split; [split; [reflexivity|lia]|]. split; [reflexivity|]. split; [lia|]. eexists. split; [reflexivity|]. cbn.
    repeat split; trivial. unfold acc_metrics. cbn [sum]. rewrite Rplus_0_r. destruct k; reflexivity.
  - destruct IH as [w [e [l [[E0 C] [W0 [WS [a [LP [AW [AQ [AI [AM [AL [A2 AE]]]]]]]]]]]]]]; [lia|].
    destruct (nth_frame (fst (iframe x)) ys P ltac:(lia)) as [y [NY NB]].
    set (lp := fst (cbl (w P) q (e P) y)). set (ep := snd (cbl (w P) q (e P) y)).
    exists (fun i => if Nat.leb i P then w i else step1 (w P) [main (w P) q (e P) y]), (fun i => if Nat.leb i P then e i else ep), (fun i => if Nat.ltb i P then l i else lp).
    assert (SUMEQ : forall f, sum P (fun i => f (if Nat.ltb i P then l i else lp)) = sum P (fun i => f (l i))).
    { intro f. assert (G : forall n, n <= P -> sum n (fun i => f (if Nat.ltb i P then l i else lp)) = sum n (fun i => f (l i))).
      { induction n as [|n IHn]; intro H; [reflexivity|]. cbn [sum]. rewrite IHn by lia. now rewrite (proj2 (Nat.ltb_lt n P)) by lia. } now apply G. }
    split; [split; [exact E0|]|].
    { intros i Hi. destruct (Nat.eq_dec i P) as [->|NE].
      - exists y. split; [exact NY|]. rewrite Nat.leb_refl, Nat.ltb_irrefl. rewrite (proj2 (Nat.leb_gt (S P) P)) by lia. apply surjective_pairing.
      - destruct (C i ltac:(lia)) as [yi [N1 N2]]. exists yi. split; [exact N1|]. rewrite (proj2 (Nat.leb_le i P)), (proj2 (Nat.ltb_lt i P)), (proj2 (Nat.leb_le (S i) P)) by lia. exact N2. }
    split; [exact W0|]. split.
    { intros i yi Hi N. destruct (Nat.eq_dec i P) as [->|NE].
      - rewrite Nat.leb_refl, (proj2 (Nat.leb_gt (S P) P)) by lia. congruence.
      - rewrite (proj2 (Nat.leb_le i P)), (proj2 (Nat.leb_le (S i) P)) by lia. apply WS; [lia|exact N]. }
    rewrite seq_S, loop_app, LP. cbn [bind plus loop]. unfold train_pframe at 1. unfold frame. rewrite NB. cbn [bind].
    cbn [zero_grad1 DvcGop_Model.s_w DvcGop_Model.s_q]. rewrite AW, AQ, AI. rewrite (surjective_pairing (cbl (w P) q (e P) y)). fold lp ep.
    rewrite AM. 
    assert (ST : compute_loss_and_metrics lp (acc_metrics k P l bpp) = Ok (total lp, acc_metrics k (S P) (fun i => if Nat.ltb i P then l i else lp) bpp)).
    { pose proof (acc_step k P (fun i => if Nat.ltb i P then l i else lp) bpp) as X. cbn beta in X. rewrite Nat.ltb_irrefl in X. rewrite <- X by (apply K).
      f_equal. unfold acc_metrics. rewrite !(SUMEQ total), !(SUMEQ distortion), !(SUMEQ flow_rate), !(SUMEQ resid_rate), !(SUMEQ (fun x => flow_rate x + resid_rate x)%R). reflexivity. }
    rewrite ST. cbn [bind fst snd]. eexists. split; [reflexivity|]. cbn [a_state a_image1 a_metrics a_loss a_im2 a_est opt1_step backward zero_grad1 DvcGop_Model.s_w DvcGop_Model.s_q s_g1 app].
    rewrite (proj2 (Nat.leb_gt (S P) P)) by lia. split; [now rewrite AW|]. split; [try reflexivity; exact AQ|]. split; [reflexivity|]. split; [reflexivity|]. split; [now rewrite Nat.ltb_irrefl|]. split.
    + rewrite A2. clear - NY. revert ys NY. induction P as [|P IHP]; intros [|z ys] N; try discriminate; cbn in *; [now injection N as ->|]. now rewrite IHP.
    + rewrite AE, map_app. cbn [map]. rewrite (proj2 (Nat.leb_gt (S P) P)) by lia. f_equal. apply map_ext_in. intros i I. apply in_seq in I. now rewrite (proj2 (Nat.leb_le (S i) P)) by lia.
Qed.

(** Validation is training with weights that do not move. *)
Lemma val_is_train batch : forall is s x m o i2 e s',
  s_w s' = s_w s -> s_q s' = s_q s ->
  match loop _ _ _ (train_pframe image weights quants cbl (fun w _ => w) batch) (mkA _ _ _ s' x m o i2 e) is with
  | Ok a => loop _ _ _ (val_pframe image weights quants cbl batch) (mkA _ _ _ s x m o i2 e) is =
            Ok (mkA _ _ _ s (a_image1 _ _ _ a) (a_metrics _ _ _ a) (a_loss _ _ _ a) (a_im2 _ _ _ a) (a_est _ _ _ a))
  | Raise er => loop _ _ _ (val_pframe image weights quants cbl batch) (mkA _ _ _ s x m o i2 e) is = Raise er
  end.
Proof.
  induction is as [|i r IH]; intros s x m o i2 e s' W Q; [reflexivity|]. cbn [loop].
  unfold train_pframe at 1, val_pframe at 1 3. cbn [a_state a_image1 a_metrics a_im2 a_est zero_grad1 DvcGop_Model.s_w DvcGop_Model.s_q].
  destruct (frame image batch (i + 1)) as [y|er]; cbn [bind]; [|reflexivity].
  rewrite W, Q. destruct (cbl (s_w s) (s_q s) x y) as [lv est].
  destruct (compute_loss_and_metrics lv m) as [[t m']|er]; cbn [bind fst snd]; [|reflexivity].
  apply IH; cbn; assumption.
Qed.
Lemma logs_eq key k P l b p : 1 <= P -> log_all_metrics key (INR (P + 1)) p (acc_metrics k P l b) = gop_log key k P l b p.
Proof.
  intro H. unfold log_all_metrics, gop_log, acc_metrics. cbn [g_total g_distortion g_bpp g_flow g_resid].
  replace (INR (P + 1)) with (INR P + 1)%R by (rewrite plus_INR; reflexivity).
  destruct P; [lia|]. destruct k; reflexivity.
Qed.

(** * C72, training *)
Theorem C72_training_step stage two k P x ys s :
  (forall w q a b, fits k (fst (cbl w q a b))) -> 1 <= P -> P <= length ys ->
  exists w e l, closed_loop (s_q s) x ys P w e l /\ w 0 = s_w s /\
    (forall i y, i < P -> nth_error ys i = Some y -> w (S i) = step1 (w i) [main (w i) (s_q s) (e i) y]) /\
    exists s', training_step stage two P (x :: ys) s =
      Ok (s', gop_log (stage ++ "/train_") k P l (snd (iframe x)) (psnr (firstn P ys) (map (fun i => e (S i)) (seq 0 P)))
              ++ (if two then [((stage ++ "/train_quantile_loss")%string, quantile_loss (w P) (s_q s))] else [])) /\
      s_w s' = w P /\
      s_q s' = (if two then step2 (s_q s) [aux (w P) (s_q s)] else s_q s).
Proof.
  intros K H1 H2. destruct (train_loop k (s_q s) x ys s (snd (iframe x)) K eq_refl P H2) as [w [e [l [C [W0 [WS [a [LP [AW [AQ [AI [AM [AL [A2 AE]]]]]]]]]]]]]].
  exists w, e, l. split; [exact C|]. split; [exact W0|]. split; [exact WS|].
  unfold DvcGop_Model.training_step, compress_iframe. rewrite (surjective_pairing (iframe x)). cbn [bind frame nth_error]. rewrite LP. cbn [bind]. rewrite (proj2 (Nat.eqb_neq P 0)) by lia.
  rewrite AM, A2, AE, logs_eq by exact H1. destruct two.
  - eexists. split; [cbn [zero_grad2 DvcGop_Model.s_w DvcGop_Model.s_q]; rewrite AW, AQ|].
    + f_equal. f_equal. f_equal. f_equal. f_equal. clear. induction stage as [|c r IH]; [reflexivity|]. cbn. now rewrite IH.
    + cbn [opt2_step backward zero_grad2 DvcGop_Model.s_w DvcGop_Model.s_q s_g2 app]. split; [exact AW|]. now rewrite AQ.
  - eexists. rewrite app_nil_r. split; [reflexivity|]. now split.
Qed.

End Props.

Section Validation.
Variables image weights quants : Type.
Variable iframe : image -> image * R.
Variable cbl : weights -> quants -> image -> image -> losses * image.
Variable quantile_loss : weights -> quants -> R.
Variable psnr : list image -> list image -> R.
Notation state := (state image weights quants).
Notation validation_step := (validation_step image weights quants iframe cbl psnr).
Notation s_w := (s_w image weights quants).
Notation s_q := (s_q image weights quants).
Notation closed_loop := (closed_loop image weights quants iframe cbl).
(** * C72, validation *)
Theorem C72_validation_step stage k P x ys (s : state) :
  (forall w q a b, fits k (fst (cbl w q a b))) -> 1 <= P -> P <= length ys ->
  exists e l, closed_loop (s_q s) x ys P (fun _ => s_w s) e l /\
    validation_step stage P (x :: ys) s =
      Ok (("val_loss", total (l (P - 1))) ::
          gop_log (stage ++ "/val_") k P l 0 (psnr (firstn P ys) (map (fun i => e (S i)) (seq 0 P)))).
Proof.
  intros K H1 H2.
  destruct (train_loop image weights quants iframe cbl (fun w _ => w) k (s_q s) x ys s 0%R K eq_refl P H2) as [w [e [l [[C0 C] [W0 [WS [a [LP [AW [AQ [AI [AM [AL [A2 AE]]]]]]]]]]]]]].
  assert (WC : forall i, i <= P -> w i = s_w s).
  { induction i as [|i IH]; intro L; [exact W0|]. destruct (C i ltac:(lia)) as [y [N _]]. rewrite (WS i y) by (lia || exact N). apply IH. lia. }
  exists e, l. split; [split; [exact C0|]; intros i Hi; destruct (C i Hi) as [y [N E]]; exists y; split; [exact N|]; now rewrite <- (WC i) by lia|].
  unfold DvcGop_Model.validation_step, compress_iframe. rewrite (surjective_pairing (iframe x)). cbn [bind].
  unfold frame at 1. cbn [nth_error bind].
  pose proof (val_is_train image weights quants cbl (fst (iframe x) :: ys) (seq 0 P) s (fst (iframe x)) (mkG 0 0 0 (Some 0%R) (Some 0%R)) None [] [] s eq_refl eq_refl) as V.
  rewrite LP in V. rewrite V. cbn [bind a_loss a_metrics a_im2 a_est]. rewrite AL. destruct P as [|p]; [lia|].
  rewrite AM, A2, AE, logs_eq by lia. cbn [app]. do 4 f_equal. f_equal. lia.
Qed.

(** A clip with too few frames is refused, in training and in validation. *)
Theorem C72_validation_refuses_short stage k P x ys (s : state) :
  (forall w q a b, fits k (fst (cbl w q a b))) -> length ys < P ->
  validation_step stage P (x :: ys) s = Raise IndexError.
Proof.
  intros K H.
  destruct (train_loop image weights quants iframe cbl (fun w _ => w) k (s_q s) x ys s 0%R K eq_refl (length ys) (le_n _)) as [w [e [l [[C0 C] [W0 [WS [a [LP _]]]]]]]].
  unfold DvcGop_Model.validation_step, compress_iframe. rewrite (surjective_pairing (iframe x)). cbn [bind frame nth_error].
  pose proof (val_is_train image weights quants cbl (fst (iframe x) :: ys) (seq 0 (length ys)) s (fst (iframe x)) (mkG 0 0 0 (Some 0%R) (Some 0%R)) None [] [] s eq_refl eq_refl) as V.
  rewrite LP in V. replace P with (length ys + S (P - length ys - 1)) by lia. rewrite seq_app, loop_app, V. cbn [bind seq loop plus].
  unfold val_pframe at 1. unfold frame. replace (nth_error (fst (iframe x) :: ys) (length ys + 1)) with (@None image); [reflexivity|].
  symmetry. apply nth_error_None. cbn. lia.
Qed.
Theorem C72_training_refuses_short step1 step2 stage two k P x ys (s : state) :
  (forall w q a b, fits k (fst (cbl w q a b))) -> length ys < P ->
  training_step image weights quants iframe cbl quantile_loss psnr step1 step2 stage two P (x :: ys) s = Raise IndexError.
Proof.
  intros K H.
  destruct (train_loop image weights quants iframe cbl step1 k (s_q s) x ys s (snd (iframe x)) K eq_refl (length ys) (le_n _)) as [w [e [l [[C0 C] [W0 [WS [a [LP _]]]]]]]].
  unfold DvcGop_Model.training_step, compress_iframe. rewrite (surjective_pairing (iframe x)). cbn [bind frame nth_error].
  replace P with (length ys + S (P - length ys - 1)) at 1 by lia. rewrite seq_app, loop_app, LP. cbn [bind seq loop plus].
  unfold train_pframe at 1. unfold frame. replace (nth_error (fst (iframe x) :: ys) (length ys + 1)) with (@None image); [reflexivity|].
  symmetry. apply nth_error_None. cbn. lia.
Qed.
(** Neither step works without P-frames. *)
Theorem C72_no_pframes_fails step1 step2 stage two batch (s : state) :
  is_ok (training_step image weights quants iframe cbl quantile_loss psnr step1 step2 stage two 0 batch s) = false /\
  is_ok (validation_step stage 0 batch s) = false.
Proof. destruct batch as [|x ys]; [now split|]. unfold DvcGop_Model.validation_step, training_step, compress_iframe. destruct (iframe x). now split. Qed.

(** "The bits per pixel logged in validation are those of the group of pictures, as in training" is
    false: they lack those of the I-frame, although it is counted among the frames. *)
Definition lookup (key : string) (l : logs) : option R := option_map snd (find (fun p => String.eqb (fst p) key) l).
Theorem C72_validation_bpp_lacks_iframe_refuted (k : kind) P x ys (s : state) :
  (forall w q a b, fits k (fst (cbl w q a b))) -> 1 <= P -> P <= length ys ->
  exists bt bv st lt lv,
    training_step image weights quants iframe cbl quantile_loss psnr (fun w _ => w) (fun q _ => q) "5_total" false P (x :: ys) s = Ok (st, lt) /\
    validation_step "5_total" P (x :: ys) s = Ok lv /\
    lookup "5_total/train_gop_bpp" lt = Some bt /\ lookup "5_total/val_gop_bpp" lv = Some bv /\
    (bt - bv = snd (iframe x) / (INR P + 1))%R.
Proof.
  intros K H1 H2.
  destruct (C72_training_step image weights quants iframe cbl quantile_loss psnr (fun w _ => w) (fun q _ => q) "5_total" false k P x ys s K H1 H2)
    as [w [e [l [[E0 C] [W0 [WS [st [T [SW SQ]]]]]]]]].
  destruct (C72_validation_step "5_total" k P x ys s K H1 H2) as [e' [l' [[E0' C'] V]]].
  assert (EQ : forall i, i <= P -> w i = s_w s /\ e i = e' i).
  { induction i as [|i IH]; intro L; [split; [exact W0|congruence]|].
    destruct (IH ltac:(lia)) as [Wi Ei]. destruct (C i ltac:(lia)) as [y [N E]], (C' i ltac:(lia)) as [y' [N' E']].
    rewrite N in N'. injection N' as <-. rewrite Wi, Ei in E. split; [rewrite (WS i y) by (lia || exact N); exact Wi|congruence]. }
  assert (LQ : forall i, i < P -> l i = l' i).
  { intros i L. destruct (EQ i ltac:(lia)) as [Wi Ei]. destruct (C i L) as [y [N E]], (C' i L) as [y' [N' E']].
    rewrite N in N'. injection N' as <-. rewrite Wi, Ei in E. congruence. }
  assert (SQ2 : sum P (fun i => flow_rate (l i) + resid_rate (l i))%R = sum P (fun i => flow_rate (l' i) + resid_rate (l' i))%R).
  { clear - LQ. induction P as [|p IH]; [reflexivity|]. cbn [sum]. rewrite IH by (intros; apply LQ; lia). now rewrite LQ by lia. }
  do 5 eexists. split; [exact T|]. split; [exact V|]. split; [reflexivity|]. split; [reflexivity|]. rewrite SQ2. unfold Rdiv. cbn [snd]. ring.
Qed.

(** * C72, image logger *)
Notation on_validation_end := (on_validation_end image weights quants iframe cbl).
(** The triples (reference, frame, estimate) of a clip in closed loop. *)
Fixpoint mosaic (w : weights) (q : quants) (x : image) (ys : list image) (P : nat) : list (image * image * image) :=
  match P, ys with
  | S p, y :: r => (x, y, snd (cbl w q x y)) :: mosaic w q (snd (cbl w q x y)) r p
  | _, _ => []
  end.
Lemma logged_mosaic w q : forall P x ys, P <= length ys -> logged image weights quants cbl w q x ys P = Ok (mosaic w q x ys P).
Proof. induction P as [|P IH]; intros x ys L; [now destruct ys|]. destruct ys as [|y r]; cbn in L; [lia|]. cbn [logged mosaic]. rewrite IH by lia. reflexivity. Qed.
Fixpoint validations (same : bool) (P : nat) (ss : list state) (own : list image) : res (list (list (image * image * image))) :=
  match ss with
  | [] => Ok []
  | s :: r => do lo <- on_validation_end same P s own; do ls <- validations same P r (snd lo); Ok (fst lo :: ls)
  end.
(** When the logger's batch is copied to the device, every validation logs the original clip. *)
Theorem C72_logger_original_clip P x ys (ss : list state) : P <= length ys ->
  validations false P ss (x :: ys) = Ok (map (fun s => mosaic (s_w s) (s_q s) (fst (iframe x)) ys P) ss).
Proof.
  intro L. induction ss as [|s r IH]; [reflexivity|]. cbn [validations]. unfold DvcGop_Model.on_validation_end, compress_iframe.
  rewrite (surjective_pairing (iframe x)). cbn [bind fst snd frame nth_error tl]. rewrite logged_mosaic by exact L. cbn [bind fst snd]. now rewrite IH.
Qed.
Lemma iter_comm {A} (f : A -> A) x n : Nat.iter (S n) f x = Nat.iter n f (f x).
Proof. induction n as [|n IH]; [reflexivity|]. change (f (Nat.iter (S n) f x) = f (Nat.iter n f (f x))). now rewrite IH. Qed.
(** When it is already there, the I-frame model is applied once more at every validation. *)
Theorem C72_logger_recompresses_refuted P ys (ss : list state) : P <= length ys -> forall x,
  validations true P ss (x :: ys) =
  Ok (map (fun ns => mosaic (s_w (snd ns)) (s_q (snd ns)) (Nat.iter (S (fst ns)) (fun z => fst (iframe z)) x) ys P) (combine (seq 0 (length ss)) ss)).
Proof.
  intro L. induction ss as [|s r IH]; intro x; [reflexivity|]. cbn [validations]. unfold DvcGop_Model.on_validation_end, compress_iframe.
  rewrite (surjective_pairing (iframe x)). cbn [bind fst snd frame nth_error tl]. rewrite logged_mosaic by exact L. cbn [bind fst snd]. rewrite IH. cbn [bind length seq combine map fst snd].
  f_equal. f_equal. rewrite <- seq_shift. clear IH. generalize (seq 0 (length r)) as is. induction r as [|s' r IHr]; intros [|i is]; try reflexivity.
  cbn [map combine fst snd]. rewrite IHr. f_equal.
  rewrite (iter_comm (fun z => fst (iframe z)) x (S i)). reflexivity.
Qed.
End Validation.

(** * A concrete case: frames are numbers, the second frame is estimated with an error that halves *)
Definition ex_cbl (w q x y : R) : losses * R := (mkL (w * (y - x) * (y - x)) (Some 1%R) (Some 2%R), ((x + y) / 2)%R).
Example C72_example_fits : forall w q a b, fits Both (fst (ex_cbl w q a b)).
Proof. intros. exact I. Qed.
Example C72_example :
  exists s l, training_step R R R (fun x => (x, 3%R)) ex_cbl (fun _ _ => 5%R) (fun _ _ => 7%R) (fun w _ => (w + 1)%R) (fun q g => (q + INR (length g))%R)
    "5_total" true 2 [0; 4; 6]%R (mkS R R R 1%R 0%R [] []) = Ok (s, l) /\ s_w R R R s = 3%R /\ s_q R R R s = 1%R /\
    lookup "5_total/train_gop_bpp" l = Some 3%R /\ lookup "5_total/train_gop_distortion_loss" l = Some 16%R.
Proof.
  destruct (C72_training_step R R R (fun x => (x, 3%R)) ex_cbl (fun _ _ => 5%R) (fun _ _ => 7%R) (fun w _ => (w + 1)%R) (fun q g => (q + INR (length g))%R)
    "5_total" true Both 2 0%R [4; 6]%R (mkS R R R 1%R 0%R [] []) C72_example_fits ltac:(lia) ltac:(cbn; lia)) as [w [e [l [[E0 C] [W0 [WS [s [T [SW SQ]]]]]]]]].
  destruct (C 0 ltac:(lia)) as [y0 [N0 C0]], (C 1 ltac:(lia)) as [y1 [N1 C1]]. injection N0 as <-. injection N1 as <-.
  pose proof (WS 0 _ ltac:(lia) eq_refl) as W1. pose proof (WS 1 _ ltac:(lia) eq_refl) as W2. cbn in W0, E0.
  unfold ex_cbl in C0, C1. injection C0 as L0 E1. injection C1 as L1 E2. rewrite W0 in *. rewrite E0 in *. rewrite <- E1 in *. rewrite W1 in *.
  eexists _, _. split; [exact T|]. split; [rewrite SW, W2; lra|]. split; [rewrite SQ; cbn; lra|]. split; cbn; f_equal; rewrite <- ?L0, <- ?L1; cbn; lra.
Qed.

Print Assumptions C72_training_step.
Print Assumptions C72_validation_step.
Print Assumptions C72_validation_refuses_short.
Print Assumptions C72_training_refuses_short.
Print Assumptions C72_no_pframes_fails.
Print Assumptions C72_validation_bpp_lacks_iframe_refuted.
Print Assumptions C72_logger_original_clip.
Print Assumptions C72_logger_recompresses_refuted.

(** C94: the images logged during training. *)
From Coq Require Import String Reals List Bool Arith Lia Lra.
From Verif Require Import Base Tensor Func_Model Func_Spec Func_Props Warp_Model Warp_Props DvcGop_Model Mosaic_Model.
Import ListNotations.
Open Scope string_scope.
Open Scope list_scope.
Open Scope nat_scope.

(** * Specification *)
(** The number closest to [v] in [0, 1]. *)
Definition shown (v : R) : R := if Rle_dec v 0 then 0%R else if Rle_dec 1 v then 1%R else v.
(** The mosaic of a list of batches (one per time): image [b] of time [k] is in row [b] and column [k],
    and there is nothing else. *)
Definition tiled (f : R -> R) (m : tensor R) (l : list (tensor R)) (B C H W : nat) : Prop :=
  tshape m = [C; B * H; length l * W] /\
  (forall k t b c y x, nth_error l k = Some t -> b < B -> c < C -> y < H -> x < W ->
     tat m [c; b * H + y; k * W + x] = f (tat t [b; c; y; x])) /\
  (forall i j, i < B * H -> j < length l * W -> exists b y k x, b < B /\ y < H /\ k < length l /\ x < W /\ i = b * H + y /\ j = k * W + x).
(** The grid of [n] images of size [h] x [w] in rows of at most [nrow], with [p] black pixels around
    each; a single image has no border. *)
Definition displayed (g : tensor R) (n c h w nrow p : nat) (f : nat -> nat -> nat -> nat -> R) : Prop :=
  if n =? 1 then tshape g = [c; h; w] /\ forall k i j, k < c -> i < h -> j < w -> tat g [k; i; j] = f 0 k i j
  else
    let cols := min nrow n in
    exists rows, tshape g = [c; rows * (h + p) + p; cols * (w + p) + p] /\
      (rows - 1) * cols < n <= rows * cols /\
      (forall m k y x, m < n -> k < c -> y < h -> x < w ->
         tat g [k; m / cols * (h + p) + p + y; m mod cols * (w + p) + p + x] = f m k y x) /\
      (forall k i j, k < c -> i < rows * (h + p) + p -> j < cols * (w + p) + p ->
         (forall m y x, m < n -> y < h -> x < w -> ~ (i = m / cols * (h + p) + p + y /\ j = m mod cols * (w + p) + p + x)) ->
         tat g [k; i; j] = 0%R).

(** * torch.cat *)
Lemma nth_set_nth {A} (d : nat) (v dv : A) : forall l, d < length l -> nth d (set_nth d v l) dv = v.
Proof. induction d as [|d IH]; intros [|x l] H; cbn in *; try lia; [reflexivity|]. apply IH. lia. Qed.
Lemma set_set_nth {A} (d : nat) (u v : A) : forall l, set_nth d v (set_nth d u l) = set_nth d v l.
Proof. induction d as [|d IH]; intros [|x l]; cbn; try reflexivity. now rewrite IH. Qed.
Lemma set_nth_length {A} (d : nat) (v : A) : forall l, length (set_nth d v l) = length l.
Proof. induction d as [|d IH]; intros [|x l]; cbn; try reflexivity. now rewrite IH. Qed.
Lemma cat_at_spec d n : forall ts k t i idx, Forall (fun u => nth d (tshape u) 0 = n) ts -> nth_error ts k = Some t -> i < n -> d < length idx ->
  cat_at d ts (set_nth d (k * n + i) idx) = tat t (set_nth d i idx).
Proof.
  induction ts as [|u ts IH]; intros k t i idx F N L D; [now destruct k|]. pose proof (Forall_inv F) as E; pose proof (Forall_inv_tail F) as F'; cbn beta in E. cbn [cat_at].
  rewrite E, nth_set_nth by exact D. destruct k as [|k].
  - injection N as <-. cbn [Nat.mul Nat.add]. destruct (Nat.ltb_spec i n); [reflexivity|lia].
  - destruct (Nat.ltb_spec (S k * n + i) n); [cbn in *; lia|]. rewrite set_set_nth. replace (S k * n + i - n) with (k * n + i) by (cbn; lia).
    now apply IH.
Qed.
Lemma list_eqb_refl l : list_eqb l l = true.
Proof. induction l as [|x l IH]; [reflexivity|]. cbn. now rewrite Nat.eqb_refl. Qed.
Lemma list_eqb_eq : forall a b, list_eqb a b = true -> a = b.
Proof.
  induction a as [|x a IH]; intros [|y b] H; try easy. cbn in H. apply andb_prop in H as [E H]. apply Nat.eqb_eq in E. subst. f_equal. now apply IH.
Qed.
Lemma sum_same n (l : list (tensor R)) d : Forall (fun u => nth d (tshape u) 0 = n) l -> fold_right Nat.add 0 (map (fun u => nth d (tshape u) 0) l) = length l * n.
Proof. induction 1 as [|u l E F IH]; [reflexivity|]. cbn [map fold_right length]. rewrite IH, E. reflexivity. Qed.
Lemma cat_ok k s n l : l <> [] -> Forall (fun t => tshape t = s) l -> k <= length s -> nth (length s - k) s 0 = n ->
  cat k l = Ok (mkT (set_nth (length s - k) (length l * n) s) (cat_at (length s - k) l)).
Proof.
  intros N F K E. destruct l as [|t l]; [easy|]. unfold cat. pose proof (Forall_inv F) as T. cbn beta in T. rewrite T.
  destruct (Nat.ltb_spec (length s) k); [lia|].
  assert (Forall (fun u => nth (length s - k) (tshape u) 0 = n) (t :: l)) as F2 by (eapply Forall_impl; [|exact F]; cbn beta; intros a ->; exact E).
  rewrite (sum_same n) by exact F2. replace (forallb _ (t :: l)) with true; [reflexivity|].
  symmetry. apply forallb_forall. intros u I. rewrite Forall_forall in F. rewrite (F u I). apply list_eqb_refl.
Qed.
Lemma pos_of (n H i : nat) : i < n * H -> exists b y, b < n /\ y < H /\ i = b * H + y.
Proof.
  intro L. assert (H <> 0) by (destruct H; lia). exists (i / H), (i mod H). split; [apply Nat.div_lt_upper_bound; lia|]. split; [now apply Nat.mod_upper_bound|].
  pose proof (Nat.div_mod i H ltac:(assumption)). lia.
Qed.

(** The two concatenations of log_images. *)
Definition stacked (l : list (tensor R)) : res (tensor R) := do m <- cat 1 l; do rows <- unbind m; cat 2 rows.
Lemma stacked_ok l B C H W : l <> [] -> Forall (fun t => tshape t = [B; C; H; W]) l -> 1 <= B ->
  exists m, stacked l = Ok m /\ tiled (fun v => v) m l B C H W.
Proof.
  intros N F B1. unfold stacked. rewrite (cat_ok 1 [B; C; H; W] W l N F) by (cbn; lia || reflexivity). cbn [length Nat.sub set_nth bind unbind tshape].
  set (big := mkT [B; C; H; length l * W] (cat_at 3 l)).
  assert (map (select big) (seq 0 B) <> []) as N2 by (destruct B; [lia|easy]).
  rewrite (cat_ok 2 [C; H; length l * W] H).
  2: exact N2. 3: cbn; lia. 3: reflexivity.
  2:{ apply Forall_forall. intros u I. apply in_map_iff in I as (b & <- & _). reflexivity. }
  cbn [length Nat.sub set_nth]. rewrite map_length, seq_length. eexists. split; [reflexivity|]. split; [reflexivity|]. split.
  - intros k t b c y x K Hb Hc Hy Hx. cbn [tat].
    assert (nth_error (map (select big) (seq 0 B)) b = Some (select big b)) as NE.
    { rewrite nth_error_map. rewrite (nth_error_nth' (seq 0 B) 0) by (rewrite seq_length; exact Hb). rewrite seq_nth by exact Hb. reflexivity. }
    pose proof (cat_at_spec 1 H (map (select big) (seq 0 B)) b (select big b) y [c; 0; k * W + x]) as S1. cbn [set_nth] in S1. rewrite S1; clear S1.
    + cbn [select tat big]. pose proof (cat_at_spec 3 W l k t x [b; c; y; 0]) as S2. cbn [set_nth] in S2. apply S2; [|exact K|exact Hx|cbn; lia].
      eapply Forall_impl; [|exact F]. cbn beta. now intros a ->.
    + apply Forall_forall. intros u I. apply in_map_iff in I as (b' & <- & _). reflexivity.
    + exact NE.
    + exact Hy.
    + cbn. lia.
  - intros i j Hi Hj. destruct (pos_of _ _ _ Hi) as (b & y & ? & ? & ->). destruct (pos_of _ _ _ Hj) as (k & x & ? & ? & ->). exists b, y, k, x. auto 7.
Qed.
Lemma clip_shown t idx : tat (clip01 t) idx = shown (tat t idx).
Proof. cbn [clip01 tat]. unfold shown, Rmin, Rmax. repeat destruct (Rle_dec _ _); lra. Qed.
Lemma mosaic_stacked key l : mosaic key l =
  do m <- stacked l; do m <- (if String.eqb key "flow" then do c <- optical_flow_to_color (unsqueeze0 m) eps; Ok (select c 0) else Ok m); Ok (clip01 m).
Proof. unfold mosaic, stacked. destruct (cat 1 l); [|reflexivity]. cbn [bind]. destruct (unbind a); reflexivity. Qed.

(** * C94, the mosaics of the video training *)
Theorem C94_mosaic : forall key l B C H W, key <> "flow" -> l <> [] -> Forall (fun t => tshape t = [B; C; H; W]) l -> 1 <= B ->
  exists m, mosaic key l = Ok m /\ tiled shown m l B C H W.
Proof.
  intros key l B C H W K N F B1. destruct (stacked_ok l B C H W N F B1) as (m & E & SH & P & Q). rewrite mosaic_stacked, E. cbn [bind].
  apply String.eqb_neq in K. rewrite K. cbn [bind]. eexists. split; [reflexivity|]. split; [exact SH|]. split; [|exact Q].
  intros k t b c y x NE Hb Hc Hy Hx. rewrite clip_shown. now rewrite (P k t b c y x).
Qed.
(** Flows are coloured together: black is the slowest and full brightness the fastest movement of all
    clips and times, so that colours can be compared. *)
Definition coloured (m : tensor R) (l : list (tensor R)) (B H W : nat) : Prop :=
  tshape m = [3; B * H; length l * W] /\
  exists lo hi,
    (exists k t b y x, nth_error l k = Some t /\ b < B /\ y < H /\ x < W /\ lo = speed t b y x) /\
    (exists k t b y x, nth_error l k = Some t /\ b < B /\ y < H /\ x < W /\ hi = speed t b y x) /\
    forall k t b y x, nth_error l k = Some t -> b < B -> y < H -> x < W ->
      (lo <= speed t b y x <= hi)%R /\
      exists theta, (0 <= theta < 360)%R /\
        (speed t b y x * sin (theta * PI / 180) = tat t [b; 0; y; x]%nat)%R /\ (speed t b y x * cos (theta * PI / 180) = tat t [b; 1; y; x]%nat)%R /\
        let at_ c := tat m [c; b * H + y; k * W + x] in
        (at_ 0, at_ 1, at_ 2) = hexcone theta 1 ((speed t b y x - lo) / (hi - lo + 1 / 100000)).
Lemma shown_id v : (0 <= v <= 1)%R -> shown v = v.
Proof. intro. unfold shown. destruct (Rle_dec v 0); [lra|]. destruct (Rle_dec 1 v); lra. Qed.
Theorem C94_flow_mosaic : forall l B C H W, l <> [] -> Forall (fun t => tshape t = [B; C; H; W]) l -> 2 <= C -> 1 <= B -> 1 <= H -> 1 <= W ->
  exists m, mosaic "flow" l = Ok m /\ coloured m l B H W.
Proof.
  intros l B C H W N F C2 B1 H1 W1. destruct (stacked_ok l B C H W N F B1) as (m & E & SH & P & Q). rewrite mosaic_stacked, E. cbn [bind].
  change (String.eqb "flow" "flow") with true. cbn [bind].
  assert (1 <= length l) as L1 by (destruct l; [easy|cbn; lia]).
  destruct (C77_colors (unsqueeze0 m) eps 1 C (B * H) (length l * W)) as (y & lo & hi & EY & SY & LO & HI & PX).
  { unfold eps. lra. } { cbn [unsqueeze0 tshape]. rewrite SH. reflexivity. } { exact C2. } { nia. }
  rewrite EY. cbn [bind]. eexists. split; [reflexivity|]. split; [cbn [clip01 select tshape]; rewrite SY; reflexivity|].
  assert (forall k t b yy x, nth_error l k = Some t -> b < B -> yy < H -> x < W -> speed (unsqueeze0 m) 0 (b * H + yy) (k * W + x) = speed t b yy x) as SP.
  { intros k t b yy x NE Hb Hy Hx. unfold speed. cbn [unsqueeze0 tat tl]. rewrite (P k t b 0 yy x), (P k t b 1 yy x) by (assumption || lia). reflexivity. }
  assert (forall k t b yy x, nth_error l k = Some t -> b < B -> yy < H -> x < W -> b * H + yy < B * H /\ k * W + x < length l * W) as IB.
  { intros k t b yy x NE Hb Hy Hx. assert (k < length l) by (apply nth_error_Some; rewrite NE; easy). nia. }
  assert (forall v : R, (exists n i j, (n < 1 /\ i < B * H /\ j < length l * W) /\ v = speed (unsqueeze0 m) n i j) ->
    exists k t b yy x, nth_error l k = Some t /\ b < B /\ yy < H /\ x < W /\ v = speed t b yy x) as TR.
  { intros v (n & i & j & (Hn & Hi & Hj) & ->). destruct (Q i j Hi Hj) as (b & yy & k & x & Hb & Hy & Hk & Hx & -> & ->).
    destruct (nth_error l k) as [t|] eqn:NE; [|apply nth_error_None in NE; lia]. exists k, t, b, yy, x. replace n with 0 by lia. rewrite (SP k t b yy x) by assumption. auto. }
  exists lo, hi. destruct LO as [LO1 LO2], HI as [HI1 HI2]. split; [now apply TR|]. split; [now apply TR|].
  intros k t b yy x NE Hb Hy Hx. destruct (IB k t b yy x NE Hb Hy Hx) as [I1 I2].
  split.
  { rewrite <- (SP k t b yy x NE Hb Hy Hx). split; [apply LO2; lia|apply Rge_le; apply HI2; lia]. }
  destruct (PX 0 (b * H + yy) (k * W + x) ltac:(lia) I1 I2) as [(theta & TH & S1 & S2 & HC) RG].
  exists theta. split; [exact TH|]. rewrite (SP k t b yy x NE Hb Hy Hx) in *. cbn [unsqueeze0 tat tl] in S1, S2.
  rewrite (P k t b 0 yy x) in S1 by (assumption || lia). rewrite (P k t b 1 yy x) in S2 by (assumption || lia).
  split; [exact S1|]. split; [exact S2|]. cbv beta zeta. rewrite !clip_shown. cbn [select tat]. rewrite !shown_id by (apply RG; lia). exact HC.
Qed.
(** Batches that differ in anything but their width are refused, and so are empty ones. *)
Lemma set3 : forall s : list nat, length s = 4 -> set_nth 3 0 s = firstn 3 s ++ [0].
Proof. intros [|a [|b [|c [|d [|e s]]]]] H; try discriminate H. reflexivity. Qed.
Theorem C94_mosaic_refused : forall key l, Forall (fun t => length (tshape t) = 4) l ->
  (exists u v, In u l /\ In v l /\ firstn 3 (tshape u) <> firstn 3 (tshape v)) \/ (exists t C H, In t l /\ firstn 3 (tshape t) = [0; C; H]) \/ l = [] ->
  mosaic key l = Raise RuntimeError.
Proof.
  intros key l F D. rewrite mosaic_stacked. enough (stacked l = Raise RuntimeError) as -> by reflexivity. unfold stacked.
  destruct l as [|t l]; [reflexivity|]. unfold cat at 1. pose proof (Forall_inv F) as T. cbn beta in T. rewrite T. change (4 <? 1) with false. cbn match.
  change (4 - 1) with 3. destruct (forallb _ (t :: l)) eqn:A; [|reflexivity].
  rewrite forallb_forall in A. rewrite Forall_forall in F.
  assert (forall u, In u (t :: l) -> firstn 3 (tshape u) = firstn 3 (tshape t)) as S.
  { intros u I. specialize (A u I). apply list_eqb_eq in A. rewrite (set3 (tshape u)), (set3 (tshape t)) in A by (apply F; auto; left; reflexivity).
    now apply app_inv_tail in A. }
  destruct D as [(u & v & I & J & D)|[(u & C & H & I & E)|D]]; [rewrite (S u I), (S v J) in D; easy| |easy].
  rewrite (S u I) in E. destruct (tshape t) as [|a [|b [|c [|d [|e s]]]]]; try discriminate T. cbn [firstn] in E. injection E as -> -> ->.
  cbn [bind unbind tshape set_nth seq map cat]. reflexivity.
Qed.

(** Only mosaics are logged, and an image that can not be laid out is an error, whatever else is there. *)
Theorem C94_log_images : forall base d step,
  Forall (fun r => exists key l, In key ["flow"; "image1"; "image2"; "image2_est"] /\ get key d = Some l /\ mosaic key l = Ok (r_image r) /\
    r_key r = (base ++ "/" ++ key)%string /\ r_step r = step) (fst (dvc_log_images base d step)) /\
  (snd (dvc_log_images base d step) = Ok tt <->
   forall key l, In key ["flow"; "image1"; "image2"; "image2_est"] -> get key d = Some l -> is_ok (mosaic key l) = true).
Proof.
  intros base d step. change ["flow"; "image1"; "image2"; "image2_est"] with dvc_keys. unfold dvc_log_images. generalize dvc_keys as ks.
  induction ks as [|key ks [IH1 IH2]]; [split; [constructor|split; [easy|reflexivity]]|]. cbn [dvc_log]. destruct (get key d) as [l|] eqn:G.
  - destruct (mosaic key l) as [m|e] eqn:M.
    + destruct (dvc_log base d step ks) as [rs x]. cbn [fst snd] in *. split.
      * constructor; [exists key, l; cbn [In r_image r_key r_step]; auto 7|]. eapply Forall_impl; [|exact IH1]. cbn beta. intros r (k & l' & I & R). exists k, l'. split; [right; exact I|exact R].
      * rewrite IH2. split; [|intros A k l' I; apply A; right; exact I]. intros A k l' [<-|I] G'; [|now apply (A k)]. rewrite G in G'. injection G' as <-. now rewrite M.
    + split; [constructor|]. cbn [snd]. split; [easy|]. intro A. specialize (A key l (or_introl eq_refl) G). rewrite M in A. discriminate.
  - split.
    + eapply Forall_impl; [|exact IH1]. cbn beta. intros r (k & l' & I & R). exists k, l'. split; [right; exact I|exact R].
    + rewrite IH2. split; [|intros A k l' I; apply A; right; exact I]. intros A k l' [<-|I] G'; [congruence|now apply (A k)].
Qed.

(** * C94, what the video training logs *)
Section Dvc.
Variables weights quants : Type.
Variable iframe : tensor R -> tensor R * R.
Variable cbl : weights -> quants -> tensor R -> tensor R -> losses * tensor R.
Variable flow : weights -> quants -> tensor R -> tensor R -> tensor R.
Notation state := (state (tensor R) weights quants).
Notation log := (dvc_on_validation_end weights quants iframe cbl flow).
(** The closed loop: each frame is predicted from the estimate of the frame before. *)
Fixpoint chain (w : weights) (q : quants) (x : tensor R) (ys : list (tensor R)) : list (tensor R) :=
  match ys with
  | [] => [x]
  | y :: r => x :: chain w q (snd (cbl w q x y)) r
  end.
Lemma chain_length w q : forall ys x, length (chain w q x ys) = S (length ys).
Proof. induction ys as [|y ys IH]; intro x; [reflexivity|]. cbn. now rewrite IH. Qed.
Lemma chain_hd w q ys x : nth_error (chain w q x ys) 0 = Some x.
Proof. now destruct ys. Qed.

Lemma logged_chain w q : forall P x ys, P <= length ys ->
  logged (tensor R) weights quants cbl w q x ys P =
  Ok (combine (combine (firstn P (chain w q x ys)) (firstn P ys)) (firstn P (tl (chain w q x ys)))).
Proof.
  induction P as [|P IH]; intros x ys L; [now destruct ys|]. destruct ys as [|y r]; [cbn in L; lia|].
  cbn [logged chain tl firstn combine]. rewrite IH by (cbn in L; lia). cbn [bind]. f_equal.
  destruct (chain w q (snd (cbl w q x y)) r) as [|z zs] eqn:E; [apply (f_equal (@length _)) in E; rewrite chain_length in E; discriminate|].
  pose proof (chain_hd w q r (snd (cbl w q x y))) as HD. rewrite E in HD. injection HD as ->.
  cbn [firstn combine tl]. reflexivity.
Qed.
Lemma fold_groups : forall (l : list (tensor R * tensor R * tensor R)) f d0 d1 d2 d3,
  fold_left append_images (map (fun '(x, y, est) => [Some (f x y); Some x; Some y; Some est]) l)
    [("flow", d0); ("image1", d1); ("image2", d2); ("image2_est", d3)] =
  [("flow", d0 ++ map (fun '(x, y, _) => f x y) l); ("image1", d1 ++ map (fun '(x, _, _) => x) l);
   ("image2", d2 ++ map (fun '(_, y, _) => y) l); ("image2_est", d3 ++ map (fun '(_, _, e) => e) l)].
Proof.
  induction l as [|[[x y] e] l IH]; intros f d0 d1 d2 d3; [cbn; now rewrite !app_nil_r|].
  cbn [map fold_left]. change (append_images _ [Some (f x y); Some x; Some y; Some e]) with [("flow", d0 ++ [f x y]); ("image1", d1 ++ [x]); ("image2", d2 ++ [y]); ("image2_est", d3 ++ [e])].
  rewrite IH. now rewrite <- !app_assoc.
Qed.
Lemma fold_groups_new : forall (l : list (tensor R * tensor R * tensor R)) f, l <> [] ->
  fold_left append_images (map (fun '(x, y, est) => [Some (f x y); Some x; Some y; Some est]) l) [] =
  [("flow", map (fun '(x, y, _) => f x y) l); ("image1", map (fun '(x, _, _) => x) l);
   ("image2", map (fun '(_, y, _) => y) l); ("image2_est", map (fun '(_, _, e) => e) l)].
Proof.
  intros [|[[x y] e] l] f N; [easy|]. cbn [map fold_left].
  change (append_images [] [Some (f x y); Some x; Some y; Some e]) with [("flow", [f x y]); ("image1", [x]); ("image2", [y]); ("image2_est", [e])].
  now rewrite fold_groups.
Qed.
Lemma map_combine3 {A B C} : forall (a : list A) (b : list B) (c : list C), length a = length b -> length b = length c ->
  map (fun '(x, _, _) => x) (combine (combine a b) c) = a /\ map (fun '(_, y, _) => y) (combine (combine a b) c) = b /\
  map (fun '(_, _, z) => z) (combine (combine a b) c) = c.
Proof.
  induction a as [|x a IH]; intros [|y b] [|z c] H1 H2; try discriminate; [easy|]. cbn in H1, H2. destruct (IH b c) as (E1 & E2 & E3); [lia|lia|].
  cbn [combine map]. now rewrite E1, E2, E3.
Qed.
Lemma map_combine12 {A B C D} (f : A -> B -> D) : forall (a : list A) (b : list B) (c : list C), length a = length b -> length b = length c ->
  map (fun '(x, y, _) => f x y) (combine (combine a b) c) = map (fun '(x, y) => f x y) (combine a b).
Proof. induction a as [|x a IH]; intros [|y b] [|z c] H1 H2; try discriminate; [easy|]. cbn in *. f_equal. apply IH; lia. Qed.

Variables B C H W : nat.
Notation sized := (fun t : tensor R => tshape t = [B; C; H; W]).
Definition keeps_sizes : Prop :=
  (forall x, sized x -> sized (fst (iframe x))) /\
  (forall w q x y, sized x -> sized y -> sized (snd (cbl w q x y)) /\ tshape (flow w q x y) = [B; 2; H; W]).
Lemma chain_sized (K : keeps_sizes) w q : forall ys x, sized x -> Forall sized ys -> Forall sized (chain w q x ys).
Proof.
  induction ys as [|y ys IH]; intros x X F; [now constructor|]. inversion F; subst. cbn [chain]. constructor; [exact X|]. apply IH; [now apply K|assumption].
Qed.
Lemma Forall_firstn {A} (P : A -> Prop) n : forall l, Forall P l -> Forall P (firstn n l).
Proof. induction n as [|n IH]; intros l F; [constructor|]. destruct F; cbn; [constructor|]. constructor; auto. Qed.
Lemma Forall_tl {A} (P : A -> Prop) (l : list A) : Forall P l -> Forall P (tl l).
Proof. intro F. destruct F; [constructor|assumption]. Qed.

(** One validation logs four images: the coloured flows, the references (first the decoded I-frame,
    then the estimates), the frames and their estimates, one column per P-frame. *)
Theorem C94_dvc : forall same stage P step (s : state) x ys, keeps_sizes -> 1 <= B -> 1 <= H -> 1 <= W ->
  Forall sized (x :: ys) -> 1 <= P <= length ys ->
  let est := chain (s_w _ _ _ s) (s_q _ _ _ s) (fst (iframe x)) ys in
  exists i0 i1 i2 i3,
    log same stage P step s (x :: ys) =
      (([mkRec ("log_images_stage_" ++ stage ++ "/flow") i0 "flow (y-axis: batch, x-axis: time)" step;
         mkRec ("log_images_stage_" ++ stage ++ "/image1") i1 "image1 (y-axis: batch, x-axis: time)" step;
         mkRec ("log_images_stage_" ++ stage ++ "/image2") i2 "image2 (y-axis: batch, x-axis: time)" step;
         mkRec ("log_images_stage_" ++ stage ++ "/image2_est") i3 "image2_est (y-axis: batch, x-axis: time)" step], Ok tt),
       if same then fst (iframe x) :: ys else x :: ys) /\
    coloured i0 (map (fun '(a, b) => flow (s_w _ _ _ s) (s_q _ _ _ s) a b) (combine (firstn P est) (firstn P ys))) B H W /\
    tiled shown i1 (firstn P est) B C H W /\
    tiled shown i2 (firstn P ys) B C H W /\
    tiled shown i3 (firstn P (tl est)) B C H W.
Proof.
  intros same stage P step s x ys K B1 H1 W1 F [P1 P2] est. unfold dvc_on_validation_end, DvcGop_Model.on_validation_end, compress_iframe.
  rewrite (surjective_pairing (iframe x)). cbn [bind frame nth_error fst snd tl]. rewrite logged_chain by exact P2. fold est. cbn [bind].
  assert (length est = S (length ys)) as LE by apply chain_length.
  assert (length (firstn P est) = P) as L1 by (rewrite firstn_length; lia).
  assert (length (firstn P ys) = P) as L2 by (rewrite firstn_length; lia).
  assert (length (firstn P (tl est)) = P) as L3 by (rewrite firstn_length; destruct est; cbn in *; lia).
  rewrite fold_groups_new.
  2:{ intro E. apply (f_equal (@length _)) in E. rewrite !combine_length, L1, L2, L3 in E. cbn in E. lia. }
  destruct (map_combine3 (firstn P est) (firstn P ys) (firstn P (tl est))) as (E1 & E2 & E3); [lia|lia|]. rewrite E1, E2, E3.
  rewrite (map_combine12 (fun a b => flow _ _ a b)) by lia.
  inversion F as [|? ? FX FY]; subst.
  assert (Forall sized est) as FE by (apply chain_sized; [exact K|apply K; exact FX|exact FY]).
  assert (forall l : list (tensor R), length l = P -> l <> []) as NN by (intros l L ->; cbn in L; lia).
  destruct (C94_mosaic "image1" (firstn P est) B C H W ltac:(easy) (NN _ L1) (Forall_firstn _ P est FE) B1) as (i1 & M1 & T1).
  destruct (C94_mosaic "image2" (firstn P ys) B C H W ltac:(easy) (NN _ L2) (Forall_firstn _ P ys FY) B1) as (i2 & M2 & T2).
  destruct (C94_mosaic "image2_est" (firstn P (tl est)) B C H W ltac:(easy) (NN _ L3) (Forall_firstn _ P _ (Forall_tl _ _ FE)) B1) as (i3 & M3 & T3).
  set (fl := map _ (combine (firstn P est) (firstn P ys))).
  destruct (C94_flow_mosaic fl B 2 H W) as (i0 & M0 & T0); try lia.
  { intro E. apply (f_equal (@length _)) in E. unfold fl in E. rewrite map_length, combine_length, L1, L2 in E. cbn in E. lia. }
  { apply Forall_forall. intros t I. unfold fl in I. apply in_map_iff in I as ([a b] & <- & I). apply K.
    - apply in_combine_l in I. apply (proj1 (Forall_forall _ _) (Forall_firstn _ P est FE)). exact I.
    - apply in_combine_r in I. apply (proj1 (Forall_forall _ _) (Forall_firstn _ P ys FY)). exact I. }
  exists i0, i1, i2, i3. split; [|auto]. unfold dvc_log_images, dvc_keys. cbn [dvc_log get String.eqb Ascii.eqb Bool.eqb]. rewrite M0, M1, M2, M3.
  unfold dvc_caption. cbn [append]. destruct same; reflexivity.
Qed.
(** Without P-frames nothing is logged; a clip that is too short is an IndexError, again without any
    image. *)
Theorem C94_dvc_short : forall same stage P step (s : state) x ys, (P = 0 -> fst (log same stage P step s (x :: ys)) = ([], Ok tt)) /\
  (length ys < P -> fst (log same stage P step s (x :: ys)) = ([], Raise IndexError)) /\ fst (log same stage P step s []) = ([], Raise IndexError).
Proof.
  intros same stage P step s x ys. unfold dvc_on_validation_end, DvcGop_Model.on_validation_end, compress_iframe.
  rewrite (surjective_pairing (iframe x)). cbn [bind frame nth_error fst snd tl]. split; [intros ->; now destruct ys|]. split; [|reflexivity].
  intro L. enough (forall w q P x ys, length ys < P -> logged (tensor R) weights quants cbl w q x ys P = Raise IndexError) as -> by (assumption || reflexivity).
  clear. intros w q. induction P as [|P IH]; intros x ys L; [lia|]. destruct ys as [|y r]; [reflexivity|]. cbn [logged]. rewrite IH by (cbn in L; lia). reflexivity.
Qed.
End Dvc.

(** * C94, grids of images *)
Section Grid.
Variables (t : tensor R) (n c h w p X : nat).
Hypothesis X1 : 1 <= X.
(** The state of the loop after [k] images. *)
Definition pasted (g : tensor R) (k : nat) : Prop :=
  (forall m e y x, m < k -> y < h -> x < w -> tat g [e; m / X * (h + p) + p + y; m mod X * (w + p) + p + x] = tat t [m; e; y; x]) /\
  (forall e i j, (forall m y x, m < k -> y < h -> x < w -> ~ (i = m / X * (h + p) + p + y /\ j = m mod X * (w + p) + p + x)) -> tat g [e; i; j] = 0%R).
Lemma cell_unique a r1 y1 r2 y2 : y1 < a -> y2 < a -> r1 * (a + p) + p + y1 = r2 * (a + p) + p + y2 -> r1 = r2 /\ y1 = y2.
Proof. intros. destruct (Nat.lt_trichotomy r1 r2) as [L|[E|L]]; [nia|subst; lia|nia]. Qed.
Lemma paste_step g y x : x < X -> pasted g (y * X + x) ->
  pasted (paste g (y * (h + p) + p) (x * (w + p) + p) h w (select t (y * X + x))) (y * X + x + 1).
Proof.
  intros LX [P1 P2]. set (k := y * X + x) in *.
  assert (k / X = y) as KD by (unfold k; rewrite Nat.div_add_l, (Nat.div_small x) by lia; lia).
  assert (k mod X = x) as KM by (unfold k; rewrite Nat.add_comm, Nat.mod_add, Nat.mod_small by lia; reflexivity).
  split.
  - intros m e yy xx M Hy Hx. cbn [paste tat].
    destruct (Nat.eq_dec m k) as [->|NE].
    + rewrite KD, KM. replace ((_ <=? _) && _ && _ && _) with true.
      * cbn [select tat]. repeat f_equal; lia.
      * symmetry. rewrite !andb_true_iff, !Nat.leb_le, !Nat.ltb_lt. lia.
    + replace ((_ <=? _) && _ && _ && _) with false; [apply P1; lia|]. symmetry. apply not_true_is_false.
      rewrite !andb_true_iff, !Nat.leb_le, !Nat.ltb_lt. intros [[[A1 A2] A3] A4].
      destruct (cell_unique h (m / X) yy y (m / X * (h + p) + p + yy - (y * (h + p) + p))) as [E1 _]; [exact Hy|lia|lia|].
      destruct (cell_unique w (m mod X) xx x (m mod X * (w + p) + p + xx - (x * (w + p) + p))) as [E2 _]; [exact Hx|lia|lia|].
      apply NE. rewrite (Nat.div_mod m X) by lia. rewrite E1, E2. unfold k. lia.
  - intros e i j D. cbn [paste tat]. destruct ((_ <=? _) && _ && _ && _) eqn:A.
    + exfalso. rewrite !andb_true_iff, !Nat.leb_le, !Nat.ltb_lt in A. destruct A as [[[A1 A2] A3] A4].
      apply (D k (i - (y * (h + p) + p)) (j - (x * (w + p) + p))); try lia. 
    + apply P2. intros m yy xx M Hy Hx. apply D; lia.
Qed.
Lemma row_spec y : forall r x0 g, x0 + r = X -> pasted g (min n (y * X + x0)) ->
  let gk := grid_row t n p h w y (seq x0 r) (g, min n (y * X + x0)) in
  pasted (fst gk) (snd gk) /\ snd gk = min n (y * X + X) /\ tshape (fst gk) = tshape g.
Proof.
  induction r as [|r IH]; intros x0 g E P; cbn [seq grid_row].
  - cbn [fst snd]. replace x0 with X in * by lia. auto.
  - destruct (Nat.leb_spec n (min n (y * X + x0))) as [L|L].
    + cbn [fst snd]. split; [exact P|]. split; [lia|reflexivity].
    + replace (min n (y * X + x0)) with (y * X + x0) in * by lia.
      pose proof (paste_step g y x0 ltac:(lia) P) as P'. specialize (IH (S x0)).
      replace (min n (y * X + S x0)) with (y * X + x0 + 1) in IH by lia.
      specialize (IH _ ltac:(lia) P'). cbn zeta in IH. destruct IH as (A & B & D). auto.
Qed.
Lemma rows_spec : forall r y0 g, pasted g (min n (y0 * X)) ->
  let gk := fold_left (fun gk y => grid_row t n p h w y (seq 0 X) gk) (seq y0 r) (g, min n (y0 * X)) in
  pasted (fst gk) (snd gk) /\ snd gk = min n ((y0 + r) * X) /\ tshape (fst gk) = tshape g.
Proof.
  induction r as [|r IH]; intros y0 g P; cbn [seq fold_left].
  - cbn [fst snd]. rewrite Nat.add_0_r. auto.
  - pose proof (row_spec y0 X 0 g ltac:(lia)) as RS. rewrite Nat.add_0_r in RS. specialize (RS P). cbn zeta in RS.
    destruct (grid_row t n p h w y0 (seq 0 X) (g, min n (y0 * X))) as [g' k'] eqn:E. cbn [fst snd] in RS. destruct RS as (P' & -> & SH).
    replace (y0 * X + X) with (S y0 * X) in * by lia. destruct (IH (S y0) g' P') as (A & B & D).
    cbn zeta. split; [exact A|]. split; [rewrite B; f_equal; f_equal; lia|congruence].
Qed.
End Grid.
Lemma ceil_div_spec a b : 1 <= b -> 1 <= a -> (ceil_div a b - 1) * b < a <= ceil_div a b * b.
Proof.
  intros B A. unfold ceil_div. pose proof (Nat.div_mod (a + b - 1) b ltac:(lia)) as D. pose proof (Nat.mod_upper_bound (a + b - 1) b ltac:(lia)).
  assert (1 <= (a + b - 1) / b) by (apply Nat.div_le_lower_bound; lia). nia.
Qed.
(** All images are shown, in their order, each once, on black; gray images become RGB. *)
Theorem C94_grid : forall t n c h w nrow p, tshape t = [n; c; h; w] -> 1 <= n -> 1 <= nrow ->
  exists g, make_grid t nrow p = Ok g /\
    displayed g n (if c =? 1 then 3 else c) h w nrow p (fun m e y x => tat t [m; if c =? 1 then 0 else e; y; x]).
Proof.
  intros t n c h w nrow p S N NR. unfold make_grid. rewrite S.
  set (t' := if c =? 1 then _ else t).
  assert (tshape t' = [n; if c =? 1 then 3 else c; h; w]) as S' by (unfold t'; destruct (c =? 1); [reflexivity|exact S]).
  assert (forall m e y x, tat t' [m; e; y; x] = tat t [m; if c =? 1 then 0 else e; y; x]) as V by (intros; unfold t'; destruct (c =? 1); reflexivity).
  set (c' := if c =? 1 then 3 else c) in *. unfold displayed. destruct (Nat.eqb_spec n 1) as [E|E].
  - subst n. eexists. split; [reflexivity|]. split; [cbn [select tshape]; rewrite S'; reflexivity|]. intros k i j _ _ _. cbn [select tat]. apply V.
  - assert (1 <= min nrow n) as X1 by lia. set (X := min nrow n) in *.
    destruct (Nat.eqb_spec X 0); [lia|]. eexists. split; [reflexivity|].
    pose proof (ceil_div_spec n X X1 N) as CD. set (rows := ceil_div n X) in *. exists rows.
    set (g0 := mkT _ _).
    destruct (rows_spec t' n h w p X X1 rows 0 g0) as (A & B & D).
    { split; [intros m e y x M; cbn in M; lia|]. intros e i j _. reflexivity. }
    cbn zeta in A, B, D. rewrite Nat.mul_0_l, Nat.min_0_r in A, B, D. cbn [Nat.add] in B. rewrite B in A. replace (min n (rows * X)) with n in A by lia.
    split; [rewrite D; cbn [g0 tshape]; f_equal; f_equal; [lia|f_equal; lia]|]. split; [exact CD|]. destruct A as [A1 A2]. split.
    + intros m k y x M K Hy Hx. rewrite A1 by assumption. apply V.
    + intros k i j _ _ _ Z. apply A2. exact Z.
Qed.
Theorem C94_grid_empty : forall t c h w nrow p, tshape t = [0; c; h; w] -> make_grid t nrow p = Raise ZeroDivisionError.
Proof. intros t c h w nrow p S. unfold make_grid. rewrite S. cbn [Nat.eqb]. now rewrite Nat.min_0_r. Qed.

(** * C94, what the image and transformer trainings log *)
(** The two records of one batch: inputs as they are, outputs limited to [0, 1], at the same places. *)
Definition pair_logged (rs : list record) (base : string) (step n c h w nrow : nat) (f g : nat -> nat -> nat -> nat -> R) : Prop :=
  exists a b, rs = [mkRec (base ++ "/image") a "image" step; mkRec (base ++ "/image_compressed") b "image_compressed" step] /\
    displayed a n c h w nrow 2 f /\ displayed b n c h w nrow 2 (fun m e y x => shown (g m e y x)).
Lemma displayed_ext g n c h w nrow p f f' : (forall m e y x, f m e y x = f' m e y x) -> displayed g n c h w nrow p f -> displayed g n c h w nrow p f'.
Proof.
  intros E. unfold displayed. destruct (n =? 1).
  - intros [S P]. split; [exact S|]. intros. rewrite <- E. now apply P.
  - intros (rows & S & R1 & P & Q). exists rows. split; [exact S|]. split; [exact R1|]. split; [|exact Q]. intros. rewrite <- E. now apply P.
Qed.
Lemma grid3 t n h w nrow : tshape t = [n; 3; h; w] -> 1 <= n -> 1 <= nrow ->
  exists g, make_grid t nrow 2 = Ok g /\ displayed g n 3 h w nrow 2 (fun m e y x => tat t [m; e; y; x]).
Proof. intros S N NR. exact (C94_grid t n 3 h w nrow 2 S N NR). Qed.

Section Illm.
Variable gen : Type.
Variable model : bool -> gen -> tensor R -> res (tensor R) * gen.
(** In mode [training], the model works on the batch and keeps its size. *)
Definition works (training : bool) (batch : tensor R) : Prop :=
  forall g, exists out, fst (model training g batch) = Ok out /\ tshape out = tshape batch.
Lemma illm_pair_ok training g batch n h w out : tshape batch = [n; 3; h; w] -> 1 <= n -> fst (model training g batch) = Ok out -> tshape out = tshape batch ->
  exists ab, illm_pair gen model training g batch = (Ok ab, snd (model training g batch)) /\
    displayed (fst ab) n 3 h w 8 2 (fun m e y x => tat batch [m; e; y; x]) /\
    displayed (snd ab) n 3 h w 8 2 (fun m e y x => shown (tat out [m; e; y; x])).
Proof.
  intros S N E SO. unfold illm_pair. rewrite (surjective_pairing (model training g batch)), E. cbn [bind].
  destruct (grid3 batch n h w 8 S N ltac:(lia)) as (a & EA & DA). rewrite EA. cbn [bind].
  destruct (grid3 (clip01 out) n h w 8) as (b & EB & DB); [cbn [clip01 tshape]; congruence|exact N|lia|]. rewrite EB. cbn [bind].
  exists (a, b). split; [reflexivity|]. split; [exact DA|]. cbn [snd]. eapply displayed_ext; [|exact DB]. intros. apply clip_shown.
Qed.
(** Validation and the end of an epoch log two images for each of the two batches; the random number
    generator is where the two forward passes leave it. *)
Theorem C94_illm : forall training tb eb n h w n' h' w' step g, tshape tb = [n; 3; h; w] -> tshape eb = [n'; 3; h'; w'] -> 1 <= n -> 1 <= n' ->
  works training tb -> works training eb ->
  let run := if training then illm_on_train_epoch_end gen model else illm_on_validation_end gen model in
  let prefix := if training then "model.training_" else "" in
  let g1 := snd (model training g tb) in
  exists rs1 rs2 o1 o2,
    run tb eb step g = ((rs1 ++ rs2, Ok tt), snd (model training g1 eb)) /\
    fst (model training g tb) = Ok o1 /\ fst (model training g1 eb) = Ok o2 /\
    pair_logged rs1 (prefix ++ "train_images") step n 3 h w 8 (fun m e y x => tat tb [m; e; y; x]) (fun m e y x => tat o1 [m; e; y; x]) /\
    pair_logged rs2 (prefix ++ "eval_images") step n' 3 h' w' 8 (fun m e y x => tat eb [m; e; y; x]) (fun m e y x => tat o2 [m; e; y; x]).
Proof.
  intros training tb eb n h w n' h' w' step g S S' N N' W1 W2 run prefix g1.
  destruct (W1 g) as (o1 & E1 & SO1). destruct (W2 g1) as (o2 & E2 & SO2).
  destruct (illm_pair_ok training g tb n h w o1 S N E1 SO1) as (p & EP & DP1 & DP2).
  destruct (illm_pair_ok training g1 eb n' h' w' o2 S' N' E2 SO2) as (q & EQ & DQ1 & DQ2). unfold g1 in EQ at 1.
  exists (log_pair (prefix ++ "train_images") p step), (log_pair (prefix ++ "eval_images") q step), o1, o2.
  split; [|split; [exact E1|split; [exact E2|split; (do 2 eexists; split; [reflexivity|split; assumption])]]].
  unfold run, prefix, illm_on_train_epoch_end, illm_on_validation_end. destruct training; unfold illm_log; rewrite EP; cbv beta iota zeta; rewrite EQ; reflexivity.
Qed.
(** If evaluation mode draws no random numbers, logging at validation does not influence training. *)
Theorem C94_illm_validation_quiet : forall tb eb step g, (forall g b, snd (model false g b) = g) -> snd (illm_on_validation_end gen model tb eb step g) = g.
Proof.
  intros tb eb step g Q. unfold illm_on_validation_end, illm_log, illm_pair. pose proof (Q g tb) as Q1. destruct (model false g tb) as [o g1]. cbn [snd] in Q1. subst g1.
  destruct (do out <- o; _) as [p|e]; [|reflexivity]. pose proof (Q g eb) as Q2. destruct (model false g eb) as [o' g2]. cbn [snd] in Q2. subst g2.
  destruct (do out <- o'; _); reflexivity.
Qed.
(** A batch without images is an error; what was logged before stays. *)
Theorem C94_illm_empty : forall tb eb n h w c' h' w' step g, tshape tb = [n; 3; h; w] -> 1 <= n -> works false tb -> works false eb -> tshape eb = [0; c'; h'; w'] ->
  exists rs, fst (illm_on_validation_end gen model tb eb step g) = (rs, Raise ZeroDivisionError) /\ map r_key rs = ["train_images/image"; "train_images/image_compressed"].
Proof.
  intros tb eb n h w c' h' w' step g S N W1 W2 S'. destruct (W1 g) as (o1 & E1 & SO1).
  destruct (illm_pair_ok false g tb n h w o1 S N E1 SO1) as (p & EP & _). unfold illm_on_validation_end, illm_log. rewrite EP.
  unfold illm_pair. destruct (W2 (snd (model false g tb))) as (o2 & E2 & _). rewrite (surjective_pairing (model false (snd (model false g tb)) eb)), E2. cbn [bind].
  rewrite (C94_grid_empty eb c' h' w' 8 2 S'). cbn [bind fst]. eexists. split; reflexivity.
Qed.
End Illm.
(** "Logging images does not influence training" is false at the end of an epoch: the model is in
    training mode and draws noise. *)
Definition noisy (training : bool) (g : nat) (b : tensor R) : res (tensor R) * nat := (Ok b, if training then g + 1 else g).
Theorem C94_illm_epoch_end_refuted : forall tb eb n h w n' h' w' step g, tshape tb = [n; 3; h; w] -> tshape eb = [n'; 3; h'; w'] -> 1 <= n -> 1 <= n' ->
  (forall g b, snd (noisy false g b) = g) /\ snd (illm_on_train_epoch_end nat noisy tb eb step g) = g + 2.
Proof.
  intros tb eb n h w n' h' w' step g S S' N N'. split; [reflexivity|].
  destruct (C94_illm nat noisy true tb eb n h w n' h' w' step g S S' N N') as (rs1 & rs2 & o1 & o2 & E & _).
  - intro g0. exists tb. now split.
  - intro g0. exists eb. now split.
  - cbv zeta iota in E. rewrite E. cbn. lia.
Qed.

(** The transformer training shows the frames of the first clip of each batch, seven per row. *)
Theorem C94_vct : forall model tb eb b t h w b' t' h' w' step,
  tshape tb = [b; t; 3; h; w] -> tshape eb = [b'; t'; 3; h'; w'] -> 1 <= b -> 1 <= b' -> 1 <= t -> 1 <= t' ->
  (forall v, v = tb \/ v = eb -> exists o, model v = Ok o /\ tshape o = tshape v) ->
  exists rs1 rs2 o1 o2, vct_on_validation_end model tb eb step = (rs1 ++ rs2, Ok tt) /\ model tb = Ok o1 /\ model eb = Ok o2 /\
    pair_logged rs1 "train_images" step t 3 h w 7 (fun m e y x => tat tb [0; m; e; y; x]) (fun m e y x => tat o1 [0; m; e; y; x]) /\
    pair_logged rs2 "eval_images" step t' 3 h' w' 7 (fun m e y x => tat eb [0; m; e; y; x]) (fun m e y x => tat o2 [0; m; e; y; x]).
Proof.
  assert (forall model v b t h w o, tshape v = [b; t; 3; h; w] -> 1 <= b -> 1 <= t -> model v = Ok o -> tshape o = tshape v ->
    exists p, vct_pair model v = Ok p /\ displayed (fst p) t 3 h w 7 2 (fun m e y x => tat v [0; m; e; y; x]) /\
      displayed (snd p) t 3 h w 7 2 (fun m e y x => shown (tat o [0; m; e; y; x]))) as PO.
  { intros model v b t h w o S B T E SO. unfold vct_pair. rewrite E. cbn [bind]. unfold first. cbn [clip01 tshape]. rewrite SO, S. destruct b as [|b]; [lia|]. cbn [bind].
    destruct (grid3 (select v 0) t h w 7) as (a & EA & DA); [cbn [select tshape]; now rewrite S|exact T|lia|]. rewrite EA. cbn [bind].
    destruct (grid3 (select (clip01 o) 0) t h w 7) as (a' & EA' & DA'); [cbn [select clip01 tshape]; now rewrite SO, S|exact T|lia|]. rewrite EA'. cbn [bind].
    exists (a, a'). split; [reflexivity|]. split; [exact DA|]. cbn [snd]. eapply displayed_ext; [|exact DA']. intros. cbn [select tat]. apply clip_shown. }
  intros model tb eb b t h w b' t' h' w' step S S' B B' T T' M.
  destruct (M tb (or_introl eq_refl)) as (o1 & E1 & SO1). destruct (M eb (or_intror eq_refl)) as (o2 & E2 & SO2).
  destruct (PO model tb b t h w o1 S B T E1 SO1) as (p & EP & D1 & D2). destruct (PO model eb b' t' h' w' o2 S' B' T' E2 SO2) as (q & EQ & D3 & D4).
  exists (log_pair "train_images" p step), (log_pair "eval_images" q step), o1, o2. unfold vct_on_validation_end. rewrite EP, EQ.
  split; [reflexivity|]. split; [exact E1|]. split; [exact E2|]. split; (do 2 eexists; split; [reflexivity|split; assumption]).
Qed.
(** An empty batch or clip, or a model that fails, is an error; what was logged before stays. *)
Theorem C94_vct_errors : forall model tb eb step,
  (forall e, vct_pair model tb = Raise e -> vct_on_validation_end model tb eb step = ([], Raise e)) /\
  (forall p e, vct_pair model tb = Ok p -> vct_pair model eb = Raise e ->
     exists rs, vct_on_validation_end model tb eb step = (rs, Raise e) /\ map r_key rs = ["train_images/image"; "train_images/image_compressed"]) /\
  (forall e, model tb = Raise e -> vct_pair model tb = Raise e) /\
  (forall o t h w, model tb = Ok o -> tshape tb = [0; t; 3; h; w] -> vct_pair model tb = Raise IndexError) /\
  (forall o b h w, model tb = Ok o -> tshape tb = [S b; 0; 3; h; w] -> vct_pair model tb = Raise ZeroDivisionError).
Proof.
  intros model tb eb step. unfold vct_on_validation_end. split; [intros e ->; reflexivity|]. split; [intros p e -> ->; eexists; split; reflexivity|].
  unfold vct_pair, first. split; [intros e ->; reflexivity|]. split; [intros o t h w -> ->; reflexivity|]. intros o b h w -> E. rewrite E. cbn [bind].
  rewrite (C94_grid_empty (select tb 0) 3 h w 7 2); [reflexivity|]. cbn [select tshape]. now rewrite E.
Qed.

(** * Cases *)
(** Two clips of two P-frames: a mosaic of 2 x 2 images of one row and two columns. *)
Definition ex_frame (v : R) : tensor R := mkT [2; 3; 1; 2] (fun idx => match idx with [b; c; y; x] => (v + INR (10 * b + x))%R | _ => 0%R end).
Example C94_ex_dvc : keeps_sizes unit unit (fun x => (x, 0%R)) (fun _ _ x y => (mkL 0 None None, y)) (fun _ _ x y => mkT [2; 2; 1; 2] (tat x)) 2 3 1 2 /\
  Forall (fun t => tshape t = [2; 3; 1; 2]) [ex_frame 0; ex_frame 1; ex_frame 2].
Proof. split; [split; [auto|]|repeat constructor]. intros w q x y X Y. now split. Qed.
(** Three images in rows of two: two rows, the last cell black. *)
Example C94_ex_grid : exists g, make_grid (mkT [3; 3; 2; 2] (fun idx => match idx with k :: _ => INR (k + 1) | _ => 0%R end)) 2 1 = Ok g /\
  tshape g = [3; 7; 7] /\ tat g [0; 4; 1] = 3%R /\ tat g [0; 4; 4] = 0%R /\ tat g [2; 2; 5] = 2%R.
Proof.
  eexists. split; [reflexivity|]. split; [reflexivity|]. split; [|split].
  - cbv -[INR]. cbn. lra.
  - reflexivity.
  - cbv -[INR]. cbn. lra.
Qed.
Example C94_ex_illm : works nat noisy true (mkT [3; 3; 2; 2] (fun _ => 0%R)).
Proof. intro g. eexists. split; reflexivity. Qed.

Print Assumptions C94_dvc.
Print Assumptions C94_grid.
Print Assumptions C94_illm.
Print Assumptions C94_vct.

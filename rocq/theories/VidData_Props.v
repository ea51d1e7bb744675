(** C83: the video data modules. *)
From Coq Require Import String Arith List Bool Reals Lra Lia.
From Verif Require Import Base VidData_Model.
Import ListNotations.
Open Scope string_scope.
Open Scope list_scope.
Open Scope nat_scope.

(** ** Subsampling in time *)
(** The n frames kept of a clip of T are in order, begin with the first and (two or more) end with the last,
    are different if n <= T, and all of them if n = T. *)
Theorem C83_subsample : forall T n, 1 <= T -> 1 <= n ->
  subsample_index T n 0 = 0 /\ (2 <= n -> subsample_index T n (n - 1) = T - 1) /\
  (forall j, j < n -> subsample_index T n j < T) /\ (forall i j, i <= j -> j < n -> subsample_index T n i <= subsample_index T n j) /\
  (n <= T -> forall i j, i < j -> j < n -> subsample_index T n i < subsample_index T n j) /\
  (n = T -> forall j, j < n -> subsample_index T n j = j).
Proof.
  intros T n HT HN. unfold subsample_index. destruct (Nat.eqb_spec n 1) as [->|N1].
  - split; [|split; [|split; [|split; [|split]]]]; intros; lia.
  - assert (n - 1 <> 0) as NZ by lia.
    assert (forall i j, i <= j -> i * (T - 1) / (n - 1) <= j * (T - 1) / (n - 1)) as MONO by (intros i j L; apply Nat.div_le_mono; [exact NZ|apply Nat.mul_le_mono_r; exact L]).
    assert ((n - 1) * (T - 1) / (n - 1) = T - 1) as LAST by (rewrite Nat.mul_comm; apply Nat.div_mul; exact NZ).
    split; [rewrite Nat.mul_0_l; apply Nat.div_0_l; exact NZ|]. split; [intros _; exact LAST|]. split; [|split; [|split]].
    + intros j J. pose proof (MONO j (n - 1) ltac:(lia)). lia.
    + intros i j L _. apply MONO, L.
    + intros NT i j L J. apply Nat.lt_le_trans with (S i * (T - 1) / (n - 1)); [|apply MONO; lia].
      assert (S i * (T - 1) / (n - 1) >= (i * (T - 1) + 1 * (n - 1)) / (n - 1)) as G by (apply Nat.div_le_mono; nia).
      rewrite Nat.div_add in G by exact NZ. lia.
    + intros -> j J. apply Nat.div_mul. exact NZ.
Qed.

(** ** Spatial transforms *)
Lemma clampn_lt : forall k n p, 1 <= n -> clampn k n p < n.
Proof. intros. unfold clampn. lia. Qed.
Lemma half_even_spec : forall m, m <= 2 * half_even m + 1 /\ 2 * half_even m <= m + 1 /\ half_even m <= m.
Proof.
  intros m. unfold half_even. pose proof (Nat.div_mod m 2 ltac:(lia)) as D. pose proof (Nat.mod_upper_bound m 2 ltac:(lia)) as U.
  destruct (Nat.eqb_spec (m mod 4) 3) as [E|E]; [|lia].
  pose proof (Nat.div_mod m 4 ltac:(lia)). assert (m / 2 = 2 * (m / 4) + 1) as ->; [|lia].
  symmetry. apply (Nat.div_unique m 2 _ 1); lia.
Qed.
(** Values of a transformed clip at (y, x), for all its planes: those of the clip at rows Y y and columns X x. *)
Definition window (v w : video) (f : R -> R) (T : nat -> nat) (Y X : nat -> nat) : Prop :=
  forall c t y x, y < vh w -> x < vw w -> at4 w c t y x = f (at4 v c (T t) (Y y) (X x)) /\ Y y < vh v /\ X x < vw v.
(** Rows (or columns) of a picture of n follow each other, but for the repeated first and last. *)
Definition in_order (n size : nat) (Y : nat -> nat) : Prop := forall y, S y < size -> Y (S y) = S (Y y) \/ (Y (S y) = Y y /\ n < size).
Lemma crop_order : forall c n i, 1 <= n -> i + c <= n + 2 * (c - n) -> in_order n c (fun y => clampn (y + i) n (c - n)).
Proof. intros c n i N D y Y. unfold clampn. lia. Qed.

(** the number of frames asked for *)
Definition frames (k : kinetics) (d : draws) (T : nat) : nat :=
  match k_sub k with NoSub => T | SubInt n => n | SubList ns => nth (pick d) ns 0 end.
Definition kept (k : kinetics) (d : draws) (T t : nat) : nat :=
  match k_sub k with NoSub => t | _ => subsample_index T (frames k d T) t end.
Definition value (k : kinetics) (x : R) : R := if k_normalize k then ((x / 255 - 45 / 100) / (225 / 1000))%R else (x / 255)%R.

(** For a list of numbers, validation and tests use the largest; an empty list is refused. *)
Theorem C83_new : forall ns b, (ns = [] -> kinetics_new (SubList ns) b = Raise ValueError) /\
  (ns <> [] -> exists k, kinetics_new (SubList ns) b = Ok k /\ k_sub k = SubList ns /\ k_normalize k = b /\ In (k_max k) ns /\ forall n, In n ns -> n <= k_max k).
Proof.
  intros ns b. split; [intros ->; reflexivity|]. destruct ns as [|n ns]; [contradiction|intros _]. eexists. split; [reflexivity|]. split; [reflexivity|]. split; [reflexivity|]. cbn [k_max].
  revert n. induction ns as [|m ns IH]; intros n; cbn [fold_left].
  - split; [left; reflexivity|]. intros x [->|[]]. lia.
  - destruct (IH (Nat.max n m)) as [A B]. split.
    + destruct A as [A|A]; [|right; right; exact A]. rewrite <- A. destruct (Nat.max_spec n m) as [[_ ->]|[_ ->]]; [right; left; reflexivity|left; reflexivity].
    + intros x [->|[->|I]]; [|specialize (B _ (or_introl eq_refl)); lia|apply B; right; exact I]. specialize (B _ (or_introl eq_refl)). lia.
Qed.

(** In training every clip with frames becomes one of 256 x 256 with the frames asked for; the same change
    of the picture is applied to all frames and channels; if it is a crop, it shows a part of the picture
    (its border repeated where the picture is smaller than 256), possibly mirrored. *)
Theorem C83_train : forall k d v, 1 <= d1 v -> exists w, video_transform k "train" d v = Ok w /\
  d0 w = d0 v /\ d1 w = frames k d (d1 v) /\ vh w = 256 /\ vw w = 256 /\
  (exists g : plane -> plane, forall c t, at4 w c t = g (fun y x => value k (at4 v c (kept k d (d1 v) t) y x))) /\
  (use_crop d = true -> 1 <= vh v -> 1 <= vw v -> crop_draw 256 256 (vh v) (vw v) (crop_i d) (crop_j d) ->
   exists Y X, in_order (vh v) 256 Y /\ in_order (vw v) 256 X /\
   window v w (value k) (kept k d (d1 v)) Y (fun x => X (if flip d then 255 - x else x))).
Proof.
  intros k d v T1. unfold video_transform.
  assert (exists u, temporal k "train" d v = Ok u /\ d0 u = d0 v /\ d1 u = frames k d (d1 v) /\ vh u = vh v /\ vw u = vw v /\ at4 u = fun c t y x => at4 v c (kept k d (d1 v) t) y x) as (u & -> & U0 & U1 & UH & UW & UA).
  { unfold temporal, kept, frames. assert (d1 v =? 0 = false) as NZ by (apply Nat.eqb_neq; lia). destruct (k_sub k); [exists v; repeat split; reflexivity|unfold subsample; rewrite NZ..].
    - eexists. repeat split; reflexivity.
    - eexists. repeat split; reflexivity. }
  cbn [bind]. change ("train" =? "train")%string with true. cbv iota. eexists. split; [reflexivity|].
  assert (forall x, normalization k (x / 255)%R = value k x) as NV by (intros; unfold normalization, value; destruct (k_normalize k); reflexivity).
  split; [exact U0|]. split; [exact U1|]. split; [unfold train_augmentation; destruct (use_crop d); reflexivity|]. split; [unfold train_augmentation; destruct (use_crop d); reflexivity|]. split.
  - exists (fun p => sp (hflip (flip d)) 256 256 (sp (if use_crop d then random_crop 256 256 (crop_i d) (crop_j d) else resized_crop 256 256 (resize d)) (vh v) (vw v) p)).
    intros c t. unfold train_augmentation, video_crop_size. destruct (use_crop d); cbn [apply_spatial map_values at4 vh vw sh sw sp random_crop resized_crop hflip]; rewrite ?UA, ?UH, ?UW; reflexivity.
  - intros CR H1 W1 [DI DJ]. exists (fun y => clampn (y + crop_i d) (vh v) (256 - vh v)), (fun x => clampn (x + crop_j d) (vw v) (256 - vw v)).
    split; [apply crop_order; assumption|]. split; [apply crop_order; assumption|].
    intros c t y x Hy Hx. split; [|split; apply clampn_lt; assumption].
    unfold train_augmentation, video_crop_size. rewrite CR. cbn [apply_spatial map_values at4 vh vw sh sw sp random_crop hflip]. rewrite UA, UH, UW. rewrite <- NV. destruct (flip d); reflexivity.
Qed.

(** In validation the middle 256 x 256 of every picture is kept: margins differ by at most one; smaller
    pictures are in the middle of zeros.  In tests the pictures keep their sizes. *)
Definition val_frames (k : kinetics) (T : nat) : nat := match k_sub k with NoSub => T | SubInt n => n | SubList ns => k_max k end.
Definition val_kept (k : kinetics) (T t : nat) : nat := match k_sub k with NoSub => t | _ => subsample_index T (val_frames k T) t end.
Theorem C83_val : forall k d v, 1 <= d1 v -> exists w, video_transform k "val" d v = Ok w /\
  d0 w = d0 v /\ d1 w = val_frames k (d1 v) /\ vh w = 256 /\ vw w = 256 /\
  (256 <= vh v -> 256 <= vw v -> exists oy ox, window v w (value k) (val_kept k (d1 v)) (fun y => y + oy) (fun x => x + ox) /\
     (let below := vh v - 256 - oy in below <= oy + 1 /\ oy <= below + 1) /\ (let right := vw v - 256 - ox in right <= ox + 1 /\ ox <= right + 1)) /\
  (vh v < 256 -> vw v < 256 -> forall c t y x, let py := (256 - vh v) / 2 in let px := (256 - vw v) / 2 in
     at4 w c t y x = if ((py <=? y) && (y <? py + vh v) && (px <=? x) && (x <? px + vw v))%bool then value k (at4 v c (val_kept k (d1 v) t) (y - py) (x - px)) else 0%R).
Proof.
  intros k d v T1. unfold video_transform.
  assert (exists u, temporal k "val" d v = Ok u /\ d0 u = d0 v /\ d1 u = val_frames k (d1 v) /\ vh u = vh v /\ vw u = vw v /\ at4 u = fun c t y x => at4 v c (val_kept k (d1 v) t) y x) as (u & -> & U0 & U1 & UH & UW & UA).
  { unfold temporal, val_kept, val_frames. assert (d1 v =? 0 = false) as NZ by (apply Nat.eqb_neq; lia). destruct (k_sub k); [exists v; repeat split; reflexivity|unfold subsample..].
    - rewrite NZ. eexists. repeat split; reflexivity.
    - change ("val" =? "train")%string with false. rewrite NZ. eexists. repeat split; reflexivity. }
  cbn [bind]. change ("val" =? "train")%string with false. change ("val" =? "val")%string with true. cbv iota. eexists. split; [reflexivity|].
  assert (forall x, normalization k (x / 255)%R = value k x) as NV by (intros; unfold normalization, value; destruct (k_normalize k); reflexivity).
  split; [exact U0|]. split; [exact U1|]. split; [reflexivity|]. split; [reflexivity|]. split.
  - intros H W. exists (center_offset (vh v) 256), (center_offset (vw v) 256).
    unfold center_offset. pose proof (half_even_spec (vh v - 256)) as (A1 & A2 & A3). pose proof (half_even_spec (vw v - 256)) as (B1 & B2 & B3).
    split; [|cbv zeta; lia].
    intros c t y x Hy Hx. cbn [vh vw apply_spatial sh sw center_crop video_crop_size] in Hy, Hx. unfold video_crop_size in Hy, Hx.
    split; [|lia]. cbn [apply_spatial map_values at4 vh vw sp center_crop]. rewrite UA, UH, UW. unfold video_crop_size, center_offset.
    replace (256 - vh v) with 0 by lia. replace (256 - vw v) with 0 by lia. change (0 / 2) with 0. rewrite !Nat.sub_0_r, !Nat.add_0_l.
    assert (((0 <=? y + half_even (vh v - 256)) && (y + half_even (vh v - 256) <? vh v) && (0 <=? x + half_even (vw v - 256)) && (x + half_even (vw v - 256) <? vw v))%bool = true) as ->; [|apply NV].
    rewrite !andb_true_iff, !Nat.leb_le, !Nat.ltb_lt. lia.
  - intros H W c t y x. cbn [apply_spatial map_values at4 vh vw sp center_crop]. rewrite UA, UH, UW. unfold video_crop_size, center_offset. replace (vh v - 256) with 0 by lia. replace (vw v - 256) with 0 by lia.
    change (half_even 0) with 0. rewrite !Nat.add_0_r. rewrite NV. reflexivity.
Qed.
Theorem C83_test : forall k d v, 1 <= d1 v -> exists w, video_transform k "test" d v = Ok w /\
  d0 w = d0 v /\ d1 w = val_frames k (d1 v) /\ vh w = vh v /\ vw w = vw v /\ forall c t y x, at4 w c t y x = value k (at4 v c (val_kept k (d1 v) t) y x).
Proof.
  intros k d v T1. unfold video_transform, temporal, val_kept, val_frames. assert (d1 v =? 0 = false) as NZ by (apply Nat.eqb_neq; lia).
  assert (forall x, normalization k (x / 255)%R = value k x) as NV by (intros; unfold normalization, value; destruct (k_normalize k); reflexivity).
  change ("test" =? "train")%string with false. change ("test" =? "val")%string with false. cbv iota.
  destruct (k_sub k); unfold subsample; rewrite ?NZ; cbn [bind]; eexists; (split; [reflexivity|]); repeat (split; [reflexivity|]); intros c t y x; cbn [map_values at4]; unfold val_frames; apply NV.
Qed.
(** Values are in [0, 1] and the scaling is invertible. *)
Theorem C83_values : forall k x, (k_normalize k = false -> (0 <= x <= 255)%R -> (0 <= value k x <= 1)%R) /\
  (k_normalize k = true -> x = (255 * (value k x * (225 / 1000) + 45 / 100))%R).
Proof. intros k x. unfold value. split; intros ->; [intros; lra|field]. Qed.

(** ** Batches *)
Definition shapes (l : list video) (a b h w : nat) : Prop := Forall (fun v => d0 v = a /\ d1 v = b /\ vh v = h /\ vw v = w) l.
Lemma collate_ok : forall l a b h w, l <> [] -> shapes l a b h w ->
  exists B, collate l = Ok B /\ shape_of B = [length l; a; b; h; w] /\ forall i v t c y x, nth_error l i = Some v -> at5 B i t c y x = at4 v t c y x.
Proof.
  intros l a b h w NE S. destruct l as [|v l]; [contradiction|]. inversion S as [|? ? (V0 & V1 & VH & VW) S']. subst.
  cbn [collate]. assert (forallb (same_shape v) (v :: l) = true) as ->.
  { apply forallb_forall. intros u U. unfold shapes in S. rewrite Forall_forall in S. destruct (S u U) as (Q1 & Q2 & Q3 & Q4). unfold same_shape. rewrite Q1, Q2, Q3, Q4, !Nat.eqb_refl. reflexivity. }
  eexists. split; [reflexivity|]. split; [reflexivity|]. intros i u t c y x N. cbn [at5]. rewrite (nth_error_nth _ _ v N). reflexivity.
Qed.
Lemma collate_err : forall l u v, In u l -> In v l -> same_shape u v = false -> collate l = Raise RuntimeError.
Proof.
  intros l u v U V D. destruct l as [|z l]; [destruct U|]. cbn [collate]. assert (forallb (same_shape z) (z :: l) = false) as ->; [|reflexivity].
  apply not_true_is_false. intros F. rewrite forallb_forall in F. pose proof (F u U) as F1. pose proof (F v V) as F2. unfold same_shape in *.
  rewrite !andb_true_iff, !Nat.eqb_eq in F1, F2. destruct F1 as [[[P1 P2] P3] P4]. destruct F2 as [[[Q1 Q2] Q3] Q4]. rewrite <- P1, <- P2, <- P3, <- P4, Q1, Q2, Q3, Q4, !Nat.eqb_refl in D. discriminate.
Qed.
(** Clips of one shape become a batch [B, T, C, H, W] in their order; other clips are refused. *)
Theorem C83_collate : forall l, l <> [] ->
  (forall C T H W, shapes l C T H W -> exists B, collate_val l = Ok B /\ collate_train false l = Ok B /\ shape_of B = [length l; T; C; H; W] /\
    forall i v t c y x, nth_error l i = Some v -> at5 B i t c y x = at4 v c t y x) /\
  (forall u v, In u l -> In v l -> (d0 u, d1 u, vh u, vw u) <> (d0 v, d1 v, vh v, vw v) -> collate_val l = Raise RuntimeError /\ collate_train false l = Raise RuntimeError).
Proof.
  intros l NE. unfold collate_val, collate_train. split.
  - intros C T H W S. assert (map permute l <> []) as NE' by (destruct l; [contradiction|discriminate]).
    assert (shapes (map permute l) T C H W) as S' by (unfold shapes in *; rewrite Forall_map; eapply Forall_impl; [|exact S]; cbn; tauto).
    destruct (collate_ok _ _ _ _ _ NE' S') as (B & E & SH & V). exists B. rewrite map_length in SH. split; [exact E|]. split; [exact E|]. split; [exact SH|].
    intros i v t c y x N. rewrite (V i (permute v)); [reflexivity|]. rewrite nth_error_map, N. reflexivity.
  - intros u v U V D. assert (collate (map permute l) = Raise RuntimeError) as ->; [|split; reflexivity].
    apply (collate_err _ (permute u) (permute v)); [apply in_map; assumption..|]. apply not_true_is_false. unfold same_shape. cbn. rewrite !andb_true_iff, !Nat.eqb_eq. intros [[[E1 E2] E3] E4]. apply D. congruence.
Qed.
Lemma max_ge : forall l x, In x l -> x <= fold_right Nat.max 0 l.
Proof. induction l as [|a l IH]; intros x I; [destruct I|]. destruct I as [->|I]; cbn; [lia|]. specialize (IH x I). lia. Qed.
(** Padded collation accepts clips of different lengths: shorter ones end with zeros. *)
Theorem C83_collate_padded : forall l C H W, l <> [] -> Forall (fun v => d0 v = C /\ vh v = H /\ vw v = W) l ->
  exists B, collate_train true l = Ok B /\ shape_of B = [length l; fold_right Nat.max 0 (map d1 l); C; H; W] /\
  forall i v t c y x, nth_error l i = Some v -> d1 v <= bt B /\ at5 B i t c y x = (if t <? d1 v then at4 v c t y x else 0%R).
Proof.
  intros l C H W NE S. unfold collate_train, pad_sequence. set (m := fold_right Nat.max 0 (map d0 (map permute l))).
  assert (m = fold_right Nat.max 0 (map d1 l)) as EM by (unfold m; rewrite map_map; reflexivity).
  set (l' := map (pad_to m) (map permute l)). assert (l' <> []) as NE' by (unfold l'; destruct l; [contradiction|discriminate]).
  assert (shapes l' m C H W) as S' by (unfold l', shapes in *; rewrite map_map, Forall_map; eapply Forall_impl; [|exact S]; cbn; tauto).
  destruct (collate_ok _ _ _ _ _ NE' S') as (B & E & SH & V). exists B. split; [exact E|]. split; [rewrite SH, <- EM; unfold l'; rewrite !map_length; reflexivity|].
  intros i v t c y x N. split.
  - assert (bt B = m) as -> by (unfold shape_of in SH; congruence). rewrite EM. apply max_ge, in_map. eapply nth_error_In, N.
  - rewrite (V i (pad_to m (permute v))); [reflexivity|]. unfold l'. rewrite !nth_error_map, N. reflexivity.
Qed.

(** With one number of frames, training batches of clips of any sizes and lengths are always valid. *)
Theorem C83_train_batches : forall k n clips, k_sub k = SubInt n -> clips <> [] -> Forall (fun p => 1 <= d1 (snd p) /\ d0 (snd p) = 3) clips ->
  exists ws B, mapM (fun p => video_transform k "train" (fst p) (snd p)) clips = Ok ws /\ collate_train false ws = Ok B /\ shape_of B = [length clips; n; 3; 256; 256] /\ validate_shape (shape_of B) = Ok tt.
Proof.
  intros k n clips KS NE F.
  assert (exists ws, mapM (fun p => video_transform k "train" (fst p) (snd p)) clips = Ok ws /\ length ws = length clips /\ shapes ws 3 n 256 256) as (ws & E & L & S).
  { clear NE. induction clips as [|[d v] clips IH]; [exists []; repeat split; constructor|]. inversion F as [|? ? [T1 C3] F']. subst. cbn [fst snd] in T1, C3.
    destruct (IH F') as (ws & E & L & S). destruct (C83_train k d v T1) as (w & W & W0 & W1 & WH & WW & _). exists (w :: ws). cbn [mapM fst snd]. rewrite W. cbn [bind]. rewrite E. split; [reflexivity|].
    split; [cbn; rewrite L; reflexivity|]. constructor; [|exact S]. unfold frames in W1. rewrite KS in W1. rewrite W0. auto. }
  destruct (C83_collate ws) as [OK _]; [destruct ws; [destruct clips; [contradiction|discriminate]|discriminate]|]. destruct (OK 3 n 256 256 S) as (B & _ & E2 & SH & _).
  exists ws, B. rewrite SH, L. split; [exact E|]. split; [exact E2|]. split; reflexivity.
Qed.
(** With a list of different numbers (and the data loader's collation, which does not pad), or with none and
    clips of different lengths, a training batch can be refused. *)
Theorem C83_train_batches_refuted : forall v, 1 <= d1 v -> exists k d d', kinetics_new (SubList [4; 8]) false = Ok k /\
  exists w w', video_transform k "train" d v = Ok w /\ video_transform k "train" d' v = Ok w' /\ collate_train false [w; w'] = Raise RuntimeError.
Proof.
  intros v T1. eexists. exists (mkD 0 true 0 0 (fun _ _ p => p) false), (mkD 1 true 0 0 (fun _ _ p => p) false). split; [reflexivity|]. set (k := mkK _ _ _).
  destruct (C83_train k (mkD 0 true 0 0 (fun _ _ p => p) false) v T1) as (w & W & _ & W1 & _). destruct (C83_train k (mkD 1 true 0 0 (fun _ _ p => p) false) v T1) as (w' & W' & _ & W1' & _).
  exists w, w'. split; [exact W|]. split; [exact W'|]. apply (proj2 (C83_collate [w; w'] ltac:(discriminate)) w w'); [left; reflexivity|right; left; reflexivity|].
  intros E. cbn in W1, W1'. congruence.
Qed.

(** ** Vimeo and deep video compression *)
(** Batches of Vimeo videos of any picture sizes have the crop's size, in training and validation. *)
Theorem C83_vimeo : forall mode ch cw T C items, items <> [] -> Forall (fun p : draws * video => d0 (snd p) = T /\ d1 (snd p) = C) items ->
  exists B, vimeo_collate (map (fun p => vimeo_transform mode ch cw (fst p) (snd p)) items) = Ok B /\ shape_of B = [length items; T; C; ch; cw].
Proof.
  intros mode ch cw T C items NE F. set (l := map _ items).
  destruct (collate_ok l T C ch cw) as (B & E & SH & _).
  - unfold l. destruct items; [contradiction|discriminate].
  - unfold l, shapes. rewrite Forall_map. eapply Forall_impl; [|exact F]. intros [d v] [<- <-]. cbn [fst snd]. unfold vimeo_transform, train_augmentation. destruct (mode =? "train")%string, (use_crop d); repeat split; reflexivity.
  - exists B. split; [exact E|]. rewrite SH. unfold l. rewrite map_length. reflexivity.
Qed.
(** Training shows a part of the pictures, the same in all frames; validation the middle. *)
Theorem C83_vimeo_values : forall ch cw d v, 1 <= vh v -> 1 <= vw v ->
  (use_crop d = true -> crop_draw ch cw (vh v) (vw v) (crop_i d) (crop_j d) -> exists Y X, in_order (vh v) ch Y /\ in_order (vw v) cw X /\
     window v (vimeo_transform "train" ch cw d v) (fun r => r) (fun t => t) Y (fun x => X (if flip d then cw - 1 - x else x))) /\
  (exists g : plane -> plane, forall t c, at4 (vimeo_transform "train" ch cw d v) t c = g (at4 v t c)) /\
  (ch <= vh v -> cw <= vw v -> exists oy ox, window v (vimeo_transform "test" ch cw d v) (fun r => r) (fun t => t) (fun y => y + oy) (fun x => x + ox) /\
     (let below := vh v - ch - oy in below <= oy + 1 /\ oy <= below + 1) /\ (let right := vw v - cw - ox in right <= ox + 1 /\ ox <= right + 1)).
Proof.
  intros ch cw d v H1 W1. split; [|split].
  - intros CR [DI DJ]. exists (fun y => clampn (y + crop_i d) (vh v) (ch - vh v)), (fun x => clampn (x + crop_j d) (vw v) (cw - vw v)).
    split; [apply crop_order; assumption|]. split; [apply crop_order; assumption|].
    intros c t y x Hy Hx. split; [|split; apply clampn_lt; assumption].
    unfold vimeo_transform. change ("train" =? "train")%string with true. cbv iota. unfold train_augmentation. rewrite CR. cbn [apply_spatial at4 vh vw sh sw sp random_crop hflip]. destruct (flip d); reflexivity.
  - exists (fun p => sp (hflip (flip d)) ch cw (sp (if use_crop d then random_crop ch cw (crop_i d) (crop_j d) else resized_crop ch cw (resize d)) (vh v) (vw v) (fun y x => p y x))).
    intros t c. unfold vimeo_transform. change ("train" =? "train")%string with true. cbv iota. unfold train_augmentation. destruct (use_crop d); reflexivity.
  - intros H W. exists (center_offset (vh v) ch), (center_offset (vw v) cw). unfold center_offset. pose proof (half_even_spec (vh v - ch)) as (A1 & A2 & A3). pose proof (half_even_spec (vw v - cw)) as (B1 & B2 & B3).
    split; [|cbv zeta; lia]. intros c t y x. unfold vimeo_transform. change ("test" =? "train")%string with false. cbv iota. cbn [vh vw apply_spatial sh sw center_crop]. intros Hy Hx.
    split; [|lia]. cbn [apply_spatial at4 vh vw sp center_crop]. unfold center_offset.
    replace (ch - vh v) with 0 by lia. replace (cw - vw v) with 0 by lia. change (0 / 2) with 0. rewrite !Nat.sub_0_r, !Nat.add_0_l.
    assert (((0 <=? y + half_even (vh v - ch)) && (y + half_even (vh v - ch) <? vh v) && (0 <=? x + half_even (vw v - cw)) && (x + half_even (vw v - cw) <? vw v))%bool = true) as ->; [|reflexivity].
    rewrite !andb_true_iff, !Nat.leb_le, !Nat.ltb_lt. lia.
Qed.
Theorem C83_dvc : forall n size v,
  ((1 <= n <= 7 -> dvc_new n = Ok n) /\ (~ 1 <= n <= 7 -> dvc_new n = Raise ValueError)) /\
  (vh (dvc_transform size v) = size /\ vw (dvc_transform size v) = size /\ d0 (dvc_transform size v) = d0 v /\ d1 (dvc_transform size v) = d1 v) /\
  ((forall a b y x, (0 <= at4 v a b y x <= 255)%R) -> forall a b y x, (0 <= at4 (dvc_transform size v) a b y x <= 1)%R) /\
  (size = vh v -> size = vw v -> forall a b y x, y < size -> x < size -> at4 (dvc_transform size v) a b y x = (at4 v a b y x / 255)%R).
Proof.
  intros n size v. split; [split|split; [|split]].
  - intros H. unfold dvc_new. replace (existsb (Nat.eqb n) (seq 1 7)) with true; [reflexivity|]. symmetry. apply existsb_exists. exists n. split; [apply in_seq; lia|apply Nat.eqb_refl].
  - intros H. unfold dvc_new. replace (existsb (Nat.eqb n) (seq 1 7)) with false; [reflexivity|]. symmetry. apply not_true_is_false. rewrite existsb_exists. intros (m & I & E). apply Nat.eqb_eq in E. subst m. apply in_seq in I. lia.
  - repeat split; reflexivity.
  - intros V a b y x. unfold dvc_transform. cbn [map_values apply_spatial at4 sp center_crop]. match goal with |- context [if ?c then at4 v a b ?p ?q else _] => destruct c; [specialize (V a b p q)|] end; lra.
  - intros EH EW a b y x Y X. unfold dvc_transform. cbn [map_values apply_spatial at4 sp center_crop]. unfold center_offset. rewrite <- EH, <- EW, Nat.sub_diag. change (0 / 2) with 0. change (half_even 0) with 0. rewrite !Nat.add_0_r, !Nat.sub_0_r, !Nat.add_0_l.
    replace ((0 <=? y) && (y <? size) && (0 <=? x) && (x <? size))%bool with true; [reflexivity|]. symmetry. rewrite !andb_true_iff, !Nat.leb_le, !Nat.ltb_lt. lia.
Qed.

(** ** Scenes *)
(** The latents are handed out in time order and none is lost; other types than float32 are refused. *)
Theorem C83_scenes : forall b, get_scenes_iter false b = Raise ValueError /\
  exists l, get_scenes_iter true b = Ok l /\ length l = bt b /\ forall t s, nth_error l t = Some s -> forall n c y x, at_s s n c y x = at5 b n t c y x.
Proof.
  intros b. split; [reflexivity|]. eexists. split; [reflexivity|]. split; [rewrite map_length, seq_length; reflexivity|]. intros t s N n c y x.
  rewrite nth_error_map in N. destruct (nth_error (seq 0 (bt b)) t) as [i|] eqn:E; [|discriminate]. injection N as <-. cbn [at_s].
  assert (t < bt b) by (rewrite <- (seq_length (bt b) 0); apply nth_error_Some; congruence). pose proof (nth_error_nth _ _ 0 E) as E'. rewrite seq_nth in E' by assumption. cbn in E'. subst i. reflexivity.
Qed.

(** ** Examples *)
Definition clip : video := mkV 3 10 240 320 (fun c t y x => INR ((c + t + y + x) mod 256)).
Example draw_exists : crop_draw 256 256 240 320 3 7 /\ subsample_index 10 4 0 = 0 /\ subsample_index 10 4 1 = 3 /\ subsample_index 10 4 3 = 9.
Proof. repeat split; try reflexivity; cbn; lia. Qed.
Example batch_exists : exists k, kinetics_new (SubInt 4) true = Ok k /\ k_sub k = SubInt 4 /\ 1 <= d1 clip /\ d0 clip = 3.
Proof. eexists. repeat split; try reflexivity. cbn. lia. Qed.

Print Assumptions C83_subsample.
Print Assumptions C83_train.
Print Assumptions C83_val.
Print Assumptions C83_collate_padded.
Print Assumptions C83_train_batches.
Print Assumptions C83_dvc.

(** A random crop takes, for each of its rows (columns), the row of the picture nearest to the one at
    its place in the padded picture: pictures smaller than the crop are continued by their border, and
    larger ones are cut without change. *)
Definition nearest_line (n : nat) (k : Z) (r : nat) : Prop := r < n /\ forall r', r' < n -> (Z.abs (Z.of_nat r - k) <= Z.abs (Z.of_nat r' - k))%Z.
Theorem C83_crop_edges : forall ch cw i j h w p y x, 1 <= h -> 1 <= w -> exists r c,
  sp (random_crop ch cw i j) h w p y x = p r c /\
  nearest_line h (Z.of_nat (y + i) - Z.of_nat (ch - h)) r /\ nearest_line w (Z.of_nat (x + j) - Z.of_nat (cw - w)) c.
Proof.
  intros ch cw i j h w p y x H W. exists (clampn (y + i) h (ch - h)), (clampn (x + j) w (cw - w)). split; [reflexivity|].
  unfold nearest_line, clampn. split; (split; [lia|]); intros r' R'; lia.
Qed.
(** Batches of videos have five dimensions, the third of which is three. *)
Theorem C83_validate_shape : forall shape,
  ((exists n t h w, shape = [n; t; 3; h; w]) /\ validate_shape shape = Ok tt) \/
  (~ (exists n t h w, shape = [n; t; 3; h; w]) /\ validate_shape shape = Raise ValueError).
Proof.
  intro shape. unfold validate_shape.
  destruct shape as [|n [|t [|c [|h [|w [|? ?]]]]]]; cbn [length Nat.eqb negb nth]; try (right; split; [intros (? & ? & ? & ? & Q); discriminate Q|reflexivity]).
  destruct (Nat.eqb_spec c 3) as [->|N]; [left; split; [eauto|reflexivity]|right; split; [intros (? & ? & ? & ? & Q); congruence|reflexivity]].
Qed.
(** A video without frames cannot be subsampled. *)
Theorem C83_no_frames : forall n v, d1 v = 0 -> subsample n v = Raise AssertionError.
Proof. intros n v E. unfold subsample. rewrite E. reflexivity. Qed.
Print Assumptions C83_crop_edges.

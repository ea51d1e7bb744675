(** The transforms of training and validation pictures (C100). *)
From Coq Require Import ZArith Reals List Bool Lia Lra.
From Flocq Require Import Core.
From Verif Require Import Base RBase RFloat ImgTf_Model.
Import ListNotations.
Open Scope Z_scope.

(** ** Specification *)
Definition within (k n : Z) : Prop := 0 <= k < n.
Definition proper (p : picture) : Prop := 1 <= height p /\ 1 <= width p /\
  forall c y x, within y (height p) -> within x (width p) -> 0 <= byte p c y x <= 255.
(** Resampling gives bytes, and leaves a picture of the right size as it is. *)
Definition sound (rs : resampling) : Prop := forall h w h' w' f, 1 <= h -> 1 <= w -> 1 <= h' -> 1 <= w' ->
  (forall y x, within y h -> within x w -> 0 <= f y x <= 255) ->
  forall y x, within y h' -> within x w' -> 0 <= rs h w h' w' f y x <= 255 /\ (h' = h -> w' = w -> rs h w h' w' f y x = f y x).
(** What the random generators can give for a picture. *)
Definition drawn (size H W : Z) (ch : choice) : Prop :=
  match ch with
  | Crop (i, j) => 0 <= i <= crop_range size H /\ 0 <= j <= crop_range size W
  | ResizedCrop l => Forall (fun a => let '(h, w) := window H W a in
      (1 <= h <= H -> 0 <= fst (corner a) <= H - h) /\ (1 <= w <= W -> 0 <= snd (corner a) <= W - w)) l
  end.

(** ** Cropping *)
Lemma reflect_range n k : 1 <= n -> 0 <= reflect n k < n.
Proof.
  intro H. unfold reflect. destruct (Z.eqb_spec n 1); [lia|]. pose proof (Z.mod_pos_bound k (2 * (n - 1)) ltac:(lia)).
  cbn zeta. destruct (Z.ltb_spec (k mod (2 * (n - 1))) n); lia.
Qed.
Lemma reflect_id n k : 0 <= k < n -> reflect n k = k.
Proof.
  intro H. unfold reflect. destruct (Z.eqb_spec n 1); [lia|]. rewrite Z.mod_small by lia. cbn zeta. destruct (Z.ltb_spec k n); lia.
Qed.
Lemma reflect_step n k : 1 <= n -> Z.abs (reflect n (k + 1) - reflect n k) = if n =? 1 then 0 else 1.
Proof.
  intro H. unfold reflect. destruct (Z.eqb_spec n 1) as [|N]; [reflexivity|]. set (q := 2 * (n - 1)) in *.
  pose proof (Z.mod_pos_bound k q ltac:(lia)) as B. cbn zeta.
  destruct (Z.eq_dec (k mod q) (q - 1)) as [E|E].
  - assert (Z1 : (k + 1) mod q = 0).
    { rewrite Z.add_mod by lia. rewrite E. destruct (Z.eq_dec q 1) as [Q|Q]; [lia|]. rewrite (Z.mod_small 1) by lia. replace (q - 1 + 1) with q by lia. apply Z_mod_same_full. }
    rewrite Z1, E. destruct (Z.ltb_spec 0 n), (Z.ltb_spec (q - 1) n); lia.
  - assert (Z1 : (k + 1) mod q = k mod q + 1).
    { rewrite Z.add_mod by lia. rewrite (Z.mod_small 1) by lia. apply Z.mod_small. lia. }
    rewrite Z1. destruct (Z.ltb_spec (k mod q + 1) n), (Z.ltb_spec (k mod q) n); lia.
Qed.

(** How one side of a picture of [n] rows is cropped to [size] rows. *)
Definition cropping (size n : Z) (row : Z -> Z) : Prop :=
  (forall y, within y size -> within (row y) n) /\
  (forall y, 0 <= y -> y + 1 < size -> Z.abs (row (y + 1) - row y) = if n =? 1 then 0 else 1) /\
  (size <= n -> exists i, 0 <= i <= n - size /\ forall y, row y = i + y) /\
  (n <= size -> forall r, within r n -> exists y, within y size /\ row y = r).
Lemma cropping_draw size n i : 1 <= size -> 1 <= n -> 0 <= i <= crop_range size n ->
  cropping size n (fun y => if n <? size then reflect n (i + y - (size - n)) else i + y).
Proof.
  intros S N I. unfold crop_range in I. unfold cropping, within. destruct (Z.ltb_spec n size) as [L|L].
  - split; [intros; apply reflect_range, N|]. split; [|split; [lia|]].
    + intros y _ _. replace (i + (y + 1) - (size - n)) with (i + y - (size - n) + 1) by lia. apply reflect_step, N.
    + intros _ r R. exists (r + (size - n) - i). split; [lia|]. replace (i + (r + (size - n) - i) - (size - n)) with r by lia. apply reflect_id, R.
  - split; [intros; lia|]. split; [|split].
    + intros y A B. destruct (Z.eqb_spec n 1); lia.
    + intros _. exists i. split; [lia|reflexivity].
    + intros G r R. exists r. lia.
Qed.

Lemma random_crop_spec size d p : 1 <= size -> proper p -> drawn size (height p) (width p) (Crop d) ->
  let q := random_crop size d p in
  channels q = channels p /\ height q = size /\ width q = size /\
  exists row col, cropping size (height p) row /\ cropping size (width p) col /\
    forall c y x, within y size -> within x size -> byte q c y x = byte p c (row y) (col x).
Proof.
  intros S (H & W & _) D. destruct d as [i j]. cbn [drawn] in D. destruct D as [DI DJ]. unfold random_crop.
  set (p1 := if width p <? size then _ else p).
  assert (W1 : width p1 = (if width p <? size then width p + 2 * (size - width p) else width p)) by (unfold p1; destruct (width p <? size); reflexivity).
  assert (H1 : height p1 = height p) by (unfold p1; destruct (width p <? size); cbn; lia).
  assert (C1 : channels p1 = channels p) by (unfold p1; destruct (width p <? size); reflexivity).
  assert (B1 : forall c y x, within y (height p1) -> byte p1 c y x = byte p c y (if width p <? size then reflect (width p) (x - (size - width p)) else x)).
  { intros c y x Y. rewrite H1 in Y. unfold p1. destruct (width p <? size); [|reflexivity]. cbn [pad_reflect byte]. rewrite Z.sub_0_r, reflect_id by exact Y. reflexivity. }
  clearbody p1. set (p2 := if height p1 <? size then _ else p1).
  assert (W2 : width p2 = width p1) by (unfold p2; destruct (height p1 <? size); cbn; lia).
  assert (H2 : height p2 = (if height p <? size then height p + 2 * (size - height p) else height p)) by (unfold p2; rewrite H1; destruct (height p <? size); cbn; lia).
  assert (C2 : channels p2 = channels p) by (unfold p2; rewrite <- C1; destruct (height p1 <? size); reflexivity).
  assert (B2 : forall c y x, within y (height p2) -> within x (width p2) -> byte p2 c y x =
    byte p c (if height p <? size then reflect (height p) (y - (size - height p)) else y) (if width p <? size then reflect (width p) (x - (size - width p)) else x)).
  { intros c y x Y X. unfold p2 in *. clear p2. rewrite H1 in *. destruct (height p <? size) eqn:E.
    - cbn [pad_reflect byte width] in *. rewrite Z.sub_0_r, (reflect_id (width p1) x) by (unfold within in X; lia). rewrite ?H1. rewrite B1; [reflexivity|]. rewrite ?H1. apply reflect_range. lia.
    - apply B1. rewrite H1 in *. exact Y. }
  clearbody p2. rewrite W1 in W2. unfold crop_range in *.
  assert (E : (if (width p2 =? size) && (height p2 =? size) then (0, 0) else (i, j)) = (i, j)).
  { destruct (Z.eqb_spec (width p2) size), (Z.eqb_spec (height p2) size); cbn [andb]; try reflexivity.
    rewrite W2, H2 in *. destruct (Z.ltb_spec (width p) size), (Z.ltb_spec (height p) size); f_equal; lia. }
  rewrite E. cbn [crop channels height width byte]. split; [exact C2|]. split; [reflexivity|]. split; [reflexivity|].
  exists (fun y => if height p <? size then reflect (height p) (i + y - (size - height p)) else i + y),
         (fun x => if width p <? size then reflect (width p) (j + x - (size - width p)) else j + x).
  split; [apply cropping_draw; assumption|]. split; [apply cropping_draw; assumption|].
  intros c y x Y X. unfold within in *. rewrite B2.
  - destruct (height p <? size), (width p <? size); reflexivity.
  - rewrite H2. destruct (height p <? size); lia.
  - rewrite W2. destruct (width p <? size); lia.
Qed.

(** ** The window of RandomResizedCrop *)
Definition inside (H W : Z) (win : Z * Z * Z * Z) : Prop :=
  let '(i, j, h, w) := win in 1 <= h /\ 1 <= w /\ 0 <= i /\ 0 <= j /\ i + h <= H /\ j + w <= W.
Lemma half_floor m : 0 <= m -> 0 <= m / 2 /\ m - 1 <= 2 * (m / 2) <= m.
Proof. intro H. pose proof (Z.div_mod m 2 ltac:(lia)). pose proof (Z.mod_pos_bound m 2 ltac:(lia)). lia. Qed.
Lemma central_spec H W : 1 <= H -> 1 <= W ->
  inside H W (central H W) /\
  let '(i, j, h, w) := central H W in
  Z.abs ((H - h) - 2 * i) <= 1 /\ Z.abs ((W - w) - 2 * j) <= 1 /\ (h = H \/ w = W) /\
  (3 * H <= 4 * W -> 3 * W <= 4 * H -> h = H /\ w = W) /\
  (4 * W < 3 * H -> w = W /\ Z.abs (3 * h - 4 * w) <= 1) /\ (4 * H < 3 * W -> h = H /\ Z.abs (4 * h - 3 * w) <= 1).
Proof.
  intros H1 W1. assert (HP : (1 <= IZR H)%R) by (apply IZR_le, H1). assert (WP : (1 <= IZR W)%R) by (apply IZR_le, W1).
  assert (D : (IZR W / IZR H * IZR H = IZR W)%R) by (field; lra).
  assert (RN : forall x a b, (1 <= x)%R -> (x < IZR b)%R -> (x = IZR a / 3)%R -> 1 <= round_even x <= b /\ Z.abs (3 * round_even x - a) <= 1).
  { intros x a b X1 X2 X3. split; [apply round_even_range; lra|]. pose proof (round_even_bounds x) as N.
    assert (L : (IZR (3 * round_even x - a) < 2)%R) by (rewrite minus_IZR, mult_IZR; lra).
    assert (G : (-2 < IZR (3 * round_even x - a))%R) by (rewrite minus_IZR, mult_IZR; lra).
    apply lt_IZR in L. change (-2)%R with (IZR (-2)) in G. apply lt_IZR in G. lia. }
  unfold central. destruct (Rlt_dec (IZR W / IZR H) (3 / 4)) as [A|A].
  - assert (L : (4 * IZR W < 3 * IZR H)%R) by nra.
    assert (LZ : 4 * W < 3 * H) by (apply lt_IZR; rewrite !mult_IZR; lra).
    destruct (RN (IZR W / (3 / 4))%R (4 * W) H) as [P Q]; [lra|lra|rewrite mult_IZR; lra|].
    set (h := round_even (IZR W / (3 / 4))) in *. pose proof (half_floor (H - h) ltac:(lia)). pose proof (half_floor (W - W) ltac:(lia)).
    unfold inside. repeat split; try lia.
  - assert (L : (3 * IZR H <= 4 * IZR W)%R) by nra. assert (LZ : 3 * H <= 4 * W) by (apply le_IZR; rewrite !mult_IZR; lra).
    destruct (Rlt_dec (4 / 3) (IZR W / IZR H)) as [B|B].
    + assert (G : (4 * IZR H < 3 * IZR W)%R) by nra.
      assert (GZ : 4 * H < 3 * W) by (apply lt_IZR; rewrite !mult_IZR; lra).
      destruct (RN (IZR H * (4 / 3))%R (4 * H) W) as [P Q]; [lra|lra|rewrite mult_IZR; lra|].
      set (w := round_even (IZR H * (4 / 3))) in *. pose proof (half_floor (W - w) ltac:(lia)). pose proof (half_floor (H - H) ltac:(lia)).
      unfold inside. repeat split; try lia.
    + assert (G : (3 * IZR W <= 4 * IZR H)%R) by nra. assert (GZ : 3 * W <= 4 * H) by (apply le_IZR; rewrite !mult_IZR; lra).
      pose proof (half_floor (W - W) ltac:(lia)). pose proof (half_floor (H - H) ltac:(lia)). unfold inside. repeat split; try lia.
Qed.
Lemma get_params_inside H W l : 1 <= H -> 1 <= W -> (forall size, drawn size H W (ResizedCrop l)) -> inside H W (get_params H W l).
Proof.
  intros H1 W1 D. specialize (D 1). cbn [drawn] in D. induction D as [|a l A D IH]; cbn [get_params]; [apply central_spec; assumption|].
  destruct (window H W a) as [h w] eqn:E. unfold fits. destruct (Z.ltb_spec 0 w), (Z.leb_spec w W), (Z.ltb_spec 0 h), (Z.leb_spec h H); cbn [andb]; try exact IH.
  unfold inside. destruct A as [A B]. specialize (A ltac:(lia)). specialize (B ltac:(lia)). lia.
Qed.

(** The chosen window is always a non-empty part of the picture: that of the first attempt that fits, whose area and
    aspect ratio are as drawn up to half a pixel on each side; after attempts that all fail a central one, the whole
    picture if its aspect ratio is between 3/4 and 4/3, else cut on its longer side to the nearest whole number of
    pixels. *)
Theorem C100_window : forall H W l, 1 <= H -> 1 <= W -> (forall size, drawn size H W (ResizedCrop l)) ->
  inside H W (get_params H W l) /\
  let '(i, j, h, w) := get_params H W l in
  (forall a rest failed, l = failed ++ a :: rest -> (0 < part a)%R -> (0 < aspect a)%R ->
     Forall (fun b => fits H W (fst (window H W b)) (snd (window H W b)) = false) failed ->
     fits H W (fst (window H W a)) (snd (window H W a)) = true ->
     (i, j) = corner a /\
     ((IZR h - 1 / 2) * (IZR w - 1 / 2) <= part a * (IZR H * IZR W) <= (IZR h + 1 / 2) * (IZR w + 1 / 2))%R /\
     (IZR w - 1 / 2 <= aspect a * (IZR h + 1 / 2))%R /\ (aspect a * (IZR h - 1 / 2) <= IZR w + 1 / 2)%R) /\
  (Forall (fun b => fits H W (fst (window H W b)) (snd (window H W b)) = false) l ->
     Z.abs ((H - h) - 2 * i) <= 1 /\ Z.abs ((W - w) - 2 * j) <= 1 /\
     (3 * H <= 4 * W -> 3 * W <= 4 * H -> h = H /\ w = W) /\
     (4 * W < 3 * H -> w = W /\ Z.abs (3 * h - 4 * w) <= 1) /\ (4 * H < 3 * W -> h = H /\ Z.abs (4 * h - 3 * w) <= 1)).
Proof.
  intros H W l H1 W1 D. split; [apply get_params_inside; assumption|].
  destruct (get_params H W l) as [[[i j] h] w] eqn:E. split.
  - intros a rest failed -> PA AA F Fa.
    assert (E' : get_params H W (failed ++ a :: rest) = (fst (corner a), snd (corner a), fst (window H W a), snd (window H W a))).
    { clear - F Fa. induction F as [|b failed B F IH]; cbn [app get_params].
      - destruct (window H W a) as [h w]. cbn [fst snd] in *. rewrite Fa. reflexivity.
      - destruct (window H W b) as [h w]. cbn [fst snd] in *. rewrite B. exact IH. }
    rewrite E' in E. injection E as <- <- <- <-. split; [symmetry; apply surjective_pairing|].
    assert (HP : (1 <= IZR H)%R) by (apply IZR_le, H1). assert (WP : (1 <= IZR W)%R) by (apply IZR_le, W1).
    unfold fits in Fa. apply andb_prop in Fa as [Fa F4]. apply andb_prop in Fa as [Fa F3]. apply andb_prop in Fa as [F1 F2].
    apply Z.ltb_lt in F1, F3. revert F1 F3. unfold window. cbn [fst snd]. rewrite mult_IZR. intros F1 F3.
    set (t := (IZR H * IZR W * part a)%R) in *. assert (TP : (0 < t)%R) by (unfold t; apply Rmult_lt_0_compat; [nra|exact PA]).
    replace (part a * (IZR H * IZR W))%R with t by (unfold t; ring).
    pose proof (round_even_bounds (sqrt (t / aspect a))) as RH. pose proof (round_even_bounds (sqrt (t * aspect a))) as RW.
    set (h := round_even (sqrt (t / aspect a))) in *. set (w := round_even (sqrt (t * aspect a))) in *.
    assert (TA : (0 < t / aspect a)%R) by (apply Rmult_lt_0_compat; [exact TP|apply Rinv_0_lt_compat, AA]).
    assert (TB : (0 < t * aspect a)%R) by nra.
    pose proof (sqrt_lt_R0 _ TA) as SA. pose proof (sqrt_lt_R0 _ TB) as SB.
    assert (PR : (sqrt (t / aspect a) * sqrt (t * aspect a) = t)%R).
    { rewrite <- sqrt_mult by lra. replace (t / aspect a * (t * aspect a))%R with (t * t)%R by (field; lra). apply sqrt_square. lra. }
    assert (AR : (sqrt (t * aspect a) = aspect a * sqrt (t / aspect a))%R).
    { replace (t * aspect a)%R with (aspect a * aspect a * (t / aspect a))%R by (field; lra). rewrite sqrt_mult by nra. rewrite sqrt_square by lra. reflexivity. }
    set (u := sqrt (t / aspect a)) in *. set (v := sqrt (t * aspect a)) in *.
    assert (HG : (1 <= IZR h)%R) by (apply IZR_le; lia). assert (WG : (1 <= IZR w)%R) by (apply IZR_le; lia).
    split; [rewrite <- PR; split; apply Rmult_le_compat; lra|]. split; [|].
    + apply Rle_trans with v; [lra|]. rewrite AR. apply Rmult_le_compat_l; lra.
    + apply Rle_trans with v; [|lra]. rewrite AR. apply Rmult_le_compat_l; lra.
  - intro F. assert (E' : get_params H W l = central H W).
    { clear - F. induction F as [|b l B F IH]; cbn [get_params]; [reflexivity|]. destruct (window H W b) as [h w]. cbn [fst snd] in B. rewrite B. exact IH. }
    rewrite E' in E. pose proof (central_spec H W H1 W1) as [_ C]. rewrite E in C. tauto.
Qed.
Print Assumptions C100_window.

(** ** Training pictures *)
Definition mirrored (flip : bool) (size x : Z) : Z := if flip then size - 1 - x else x.
(** A crop shows pixels of the picture at their own scale: neighbours stay neighbours; it is a window of the picture if
    the picture is large enough, and shows all of it, reflected at its borders, if it is not. *)
Theorem C100_train_crop : forall size rs d flip p, 1 <= size -> proper p -> drawn size (height p) (width p) (Crop d) ->
  let q := default_train_transform size rs (Crop d) flip p in
  exists row col, cropping size (height p) row /\ cropping size (width p) col /\
  forall c y x, within y size -> within x size ->
    value q c y x = (IZR (byte p c (row y) (col (mirrored flip size x))) / 255)%R.
Proof.
  intros size rs d flip p S P D q. destruct (random_crop_spec size d p S P D) as (C & H & W & row & col & R1 & R2 & B).
  exists row, col. split; [exact R1|]. split; [exact R2|]. intros c y x Y X. unfold q, default_train_transform, to_tensor, mirrored. cbn [value].
  unfold hflip. destruct flip; cbn [byte]; [rewrite W, B by (unfold within in *; lia)|rewrite B by assumption]; reflexivity.
Qed.
Print Assumptions C100_train_crop.
(** The other choice resamples the window, the same for every channel. *)
Theorem C100_train_resized : forall size rs l flip p,
  let '(i, j, h, w) := get_params (height p) (width p) l in
  forall c y x, value (default_train_transform size rs (ResizedCrop l) flip p) c y x =
    (IZR (rs h w size size (fun y x => byte p c (i + y) (j + x)) y (mirrored flip size x)) / 255)%R.
Proof.
  intros size rs l flip p. destruct (get_params (height p) (width p) l) as [[[i j] h] w] eqn:E. intros c y x.
  unfold default_train_transform, to_tensor, random_resized_crop, mirrored. rewrite E. cbn [value]. unfold hflip. destruct flip; reflexivity.
Qed.
(** Every training picture has the asked size and values between 0 and 1. *)
Theorem C100_train : forall size rs ch flip p, 1 <= size -> proper p -> sound rs -> drawn size (height p) (width p) ch ->
  let q := default_train_transform size rs ch flip p in
  i_channels q = channels p /\ i_height q = size /\ i_width q = size /\
  forall c y x, within y size -> within x size -> (0 <= value q c y x <= 1)%R.
Proof.
  intros size rs ch flip p S P RS D q.
  assert (V : forall b, 0 <= b <= 255 -> (0 <= IZR b / 255 <= 1)%R).
  { intros b [B1 B2]. apply IZR_le in B1, B2. lra. }
  assert (SH : i_channels q = channels p /\ i_height q = size /\ i_width q = size).
  { unfold q, default_train_transform, to_tensor. cbn [i_channels i_height i_width]. destruct ch as [d|l].
    - destruct (random_crop_spec size d p S P D) as (C & H & W & _). unfold hflip. destruct flip; cbn; auto.
    - unfold random_resized_crop, hflip. destruct (get_params _ _ _) as [[[i j] h] w]. destruct flip; cbn; auto. }
  destruct SH as (S1 & S2 & S3). split; [exact S1|]. split; [exact S2|]. split; [exact S3|]. intros c y x Y X. destruct ch as [d|l].
  - destruct (C100_train_crop size rs d flip p S P D) as (row & col & R1 & R2 & B). unfold q. rewrite B by assumption. apply V, P.
    + apply R1, Y.
    + apply R2. unfold mirrored, within in *. destruct flip; lia.
  - pose proof (C100_train_resized size rs l flip p) as B.
    assert (I : inside (height p) (width p) (get_params (height p) (width p) l)) by (apply get_params_inside; [apply P|apply P|intro; exact D]).
    destruct (get_params _ _ _) as [[[i j] h] w]. unfold inside in I. unfold q. rewrite B. apply V, RS; try lia; try (unfold mirrored, within in *; destruct flip; lia).
    intros y' x' Y' X'. apply P; unfold within in *; lia.
Qed.
Print Assumptions C100_train.

(** ** Validation pictures *)
(** Python's integer division int(a / b), in double precision, is exact for such numbers. *)
Lemma int_div a b : 1 <= b -> b <= a < 2 ^ 53 -> Rfloor (b64 (IZR a / IZR b)) = a / b.
Proof.
  intros B A. assert (BP : (1 <= IZR b)%R) by (apply IZR_le, B). assert (AP : (IZR b <= IZR a)%R) by (apply IZR_le; lia).
  assert (AL : (IZR a < 9007199254740992)%R) by (apply (IZR_lt a (2 ^ 53)); lia).
  set (x := (IZR a / IZR b)%R). assert (D : (x * IZR b = IZR a)%R) by (unfold x; field; lra).
  assert (X1 : (1 <= x)%R) by nra.
  pose proof (Z.div_mod a b ltac:(lia)) as DM. pose proof (Z.mod_pos_bound a b ltac:(lia)) as MB. set (k := a / b) in *.
  assert (K1 : 1 <= k) by (unfold k; apply Z.div_le_lower_bound; lia).
  assert (KA : k <= a) by nia.
  assert (E1 : (IZR b * IZR k <= IZR a)%R) by (rewrite <- mult_IZR; apply IZR_le; lia).
  assert (E2 : (IZR a <= IZR b * IZR k + IZR b - 1)%R) by (rewrite <- mult_IZR, <- plus_IZR, <- minus_IZR; apply IZR_le; lia).
  apply Rfloor_unique. split.
  - rewrite <- (b64_int k) by lia. apply round_le; [apply FLT_exp_valid, prec53|apply valid_rnd_N|]. nra.
  - pose proof (b64_rel x) as RE. rewrite Rabs_pos_eq in RE by lra. specialize (RE X1). rewrite bpow_m53 in RE.
    apply Rabs_le_inv in RE. apply Rle_lt_trans with (x + / 9007199254740992 * x)%R; [lra|].
    apply Rmult_lt_reg_r with (IZR b); [lra|]. rewrite Rmult_plus_distr_r, Rmult_assoc, D. 
    assert ((/ 9007199254740992) * IZR a < 1)%R by lra. nra.
Qed.
(** The shorter side gets the size, the longer one keeps the aspect ratio, rounded down. *)
Theorem C100_resize : forall size h w, 1 <= size -> 1 <= h -> 1 <= w -> size * Z.max h w < 2 ^ 53 ->
  let '(h', w') := resized_size size h w in
  Z.min h' w' = size /\ (h <= w -> h' = size /\ w' = size * w / h) /\ (w <= h -> w' = size /\ h' = size * h / w).
Proof.
  intros size h w S H W L. unfold resized_size. destruct (Z.leb_spec w h) as [G|G].
  - rewrite int_div by nia. assert (size <= size * h / w) by (apply Z.div_le_lower_bound; nia).
    split; [lia|]. split; [|auto]. intro. assert (h = w) by lia. subst. rewrite Z.div_mul by lia. auto.
  - rewrite int_div by nia. assert (size <= size * w / h) by (apply Z.div_le_lower_bound; nia).
    split; [lia|]. split; [auto|lia].
Qed.
Print Assumptions C100_resize.
Lemma half_round m : 0 <= m -> 0 <= round_even (IZR m / 2) <= m /\ Z.abs (m - 2 * round_even (IZR m / 2)) <= 1.
Proof.
  intro M. apply IZR_le in M. split; [apply round_even_range; lra|]. pose proof (round_even_bounds (IZR m / 2)) as B.
  assert (L : (IZR (m - 2 * round_even (IZR m / 2)) <= 1)%R) by (rewrite minus_IZR, mult_IZR; lra).
  assert (G : (-1 <= IZR (m - 2 * round_even (IZR m / 2)))%R) by (rewrite minus_IZR, mult_IZR; lra).
  apply le_IZR in L. apply (le_IZR (-1)) in G. lia.
Qed.
(** A validation picture is the central square of the resized picture: the whole shorter side, the same margin up to one
    pixel on both ends of the longer one, and nothing that is not in the picture. *)
Theorem C100_val : forall size rs p, 1 <= size -> proper p -> sound rs -> size * Z.max (height p) (width p) < 2 ^ 53 ->
  let q := default_val_transform size rs p in
  let '(h', w') := resized_size size (height p) (width p) in
  i_channels q = channels p /\ i_height q = size /\ i_width q = size /\
  (exists i j, 0 <= i <= h' - size /\ 0 <= j <= w' - size /\ Z.abs ((h' - size) - 2 * i) <= 1 /\ Z.abs ((w' - size) - 2 * j) <= 1 /\
     forall c y x, within y size -> within x size ->
       value q c y x = (IZR (rs (height p) (width p) h' w' (byte p c) (i + y)%Z (j + x)%Z) / 255)%R) /\
  (forall c y x, within y size -> within x size -> (0 <= value q c y x <= 1)%R).
Proof.
  intros size rs p S P RS L q. pose proof (C100_resize size (height p) (width p) S ltac:(apply P) ltac:(apply P) L) as RZ.
  unfold q, default_val_transform, resize. destruct (resized_size size (height p) (width p)) as [h' w'] eqn:E. destruct RZ as (M & _ & _).
  assert (HL : size <= h') by lia. assert (WL : size <= w') by lia.
  unfold center_crop, to_tensor, crop. cbn [resized channels height width byte value i_channels i_height i_width].
  split; [reflexivity|]. split; [reflexivity|]. split; [reflexivity|].
  destruct (Z.ltb_spec h' size) as [X|_]; [lia|]. destruct (Z.ltb_spec w' size) as [X|_]; [lia|]. rewrite !Z.add_0_r.
  pose proof (half_round (h' - size) ltac:(lia)) as [I1 I2]. pose proof (half_round (w' - size) ltac:(lia)) as [J1 J2].
  set (i := round_even (IZR (h' - size) / 2)) in *. set (j := round_even (IZR (w' - size) / 2)) in *.
  assert (V : forall c y x, within y size -> within x size ->
    (if (0 <=? i + y) && (i + y <? 0 + h') && (0 <=? j + x) && (j + x <? 0 + w') then rs (height p) (width p) h' w' (byte p c) (i + y - 0) (j + x - 0) else 0)
    = rs (height p) (width p) h' w' (byte p c) (i + y) (j + x)).
  { intros c y x Y X. unfold within in *. rewrite !Z.sub_0_r.
    destruct (Z.leb_spec 0 (i + y)), (Z.ltb_spec (i + y) (0 + h')), (Z.leb_spec 0 (j + x)), (Z.ltb_spec (j + x) (0 + w')); try lia. reflexivity. }
  split.
  - exists i, j. split; [exact I1|]. split; [exact J1|]. split; [exact I2|]. split; [exact J2|]. intros c y x Y X. rewrite V by assumption. reflexivity.
  - intros c y x Y X. rewrite V by assumption.
    assert (B : 0 <= rs (height p) (width p) h' w' (byte p c) (i + y) (j + x) <= 255).
    { destruct P as (P1 & P2 & P3). apply RS; try lia; try (unfold within in *; lia). intros; apply P3; assumption. }
    destruct B as [B1 B2]. apply IZR_le in B1, B2. lra.
Qed.
Print Assumptions C100_val.
(** A square picture of the asked size is only divided by 255. *)
Theorem C100_val_same : forall size rs p, 1 <= size -> proper p -> sound rs -> height p = size -> width p = size -> size * size < 2 ^ 53 ->
  forall c y x, within y size -> within x size -> value (default_val_transform size rs p) c y x = (IZR (byte p c y x) / 255)%R.
Proof.
  intros size rs p S P RS H W L c y x Y X. pose proof (C100_val size rs p S P RS) as V. cbn zeta in V. rewrite H, W, Z.max_id in V. specialize (V L).
  pose proof (C100_resize size size size S S S) as RZ. rewrite Z.max_id in RZ. specialize (RZ L).
  destruct (resized_size size size size) as [h' w']. destruct RZ as (_ & RZ & _). destruct (RZ ltac:(lia)) as [-> EW]. rewrite Z.div_mul in EW by lia. subst w'.
  destruct V as (_ & _ & _ & (i & j & I & J & _ & _ & V) & _). rewrite V by assumption. replace i with 0 by lia. replace j with 0 by lia.
  f_equal. f_equal. destruct P as (_ & _ & P). rewrite H, W in P. apply (RS size size size size (byte p c)); try assumption; try reflexivity. intros; apply P; assumption.
Qed.
Print Assumptions C100_val_same.

(** ** Non-vacuity *)
Definition nearest : resampling := fun h w h' w' f y x => f (y * h / h') (x * w / w').
Lemma nearest_range n n' y : 1 <= n -> 1 <= n' -> within y n' -> within (y * n / n') n.
Proof. intros N N' Y. unfold within in *. split; [apply Z.div_pos; nia|apply Z.div_lt_upper_bound; nia]. Qed.
Example nearest_sound : sound nearest.
Proof.
  intros h w h' w' f H W H' W' F y x Y X. unfold nearest. split.
  - apply F; apply nearest_range; assumption.
  - intros -> ->. rewrite !Z.div_mul by lia. reflexivity.
Qed.
Definition gradient : picture := mkPic 3 300 200 (fun c y x => (y + x) mod 256).
Example gradient_proper : proper gradient.
Proof. repeat split; cbn; try lia; pose proof (Z.mod_pos_bound (y + x) 256 ltac:(lia)); lia. Qed.
Example gradient_drawn : drawn 256 (height gradient) (width gradient) (Crop (44, 56)) /\
  drawn 256 (height gradient) (width gradient) (ResizedCrop []).
Proof. split; [cbn; lia|constructor]. Qed.
Example gradient_val : i_height (default_val_transform 256 nearest gradient) = 256 /\ resized_size 256 300 200 = (384, 256).
Proof.
  split; [reflexivity|]. pose proof (C100_resize 256 300 200) as R. destruct (resized_size 256 300 200) as [h w].
  destruct (R ltac:(lia) ltac:(lia) ltac:(lia) ltac:(cbn; lia)) as (_ & _ & G). destruct (G ltac:(lia)) as [-> ->]. reflexivity.
Qed.

(** C74: shapes of VCT reconstructions, construction and chunking of the transforms. *)
From Coq Require Import List Bool Arith Lia.
From Verif Require Import Base VctShape_Model.
Import ListNotations.
Open Scope nat_scope.

(** * Sizes *)
Definition up2 (n : nat) : nat := (n + 1) / 2. (* ceil (n / 2) *)
Lemma conv5 n : 1 <= n -> conv_size n 5 2 = Ok (up2 n).
Proof. intro H. unfold conv_size, up2. change (5 / 2) with 2. destruct (Nat.ltb_spec (n + 2 * 2) 5); [lia|]. f_equal.
  replace (n + 2 * 2 - 5) with (n - 1) by lia. replace (n + 1) with (n - 1 + 1 * 2) by lia. rewrite Nat.div_add by lia. lia. Qed.
Lemma conv1 n : 1 <= n -> conv_size n 1 1 = Ok n.
Proof. intro H. unfold conv_size. change (1 / 2) with 0. destruct (Nat.ltb_spec (n + 2 * 0) 1); [lia|]. rewrite Nat.div_1_r. f_equal. lia. Qed.
Lemma conv3 n : 1 <= n -> conv_size n 3 1 = Ok n.
Proof. intro H. unfold conv_size. change (3 / 2) with 1. destruct (Nat.ltb_spec (n + 2 * 1) 3); [lia|]. rewrite Nat.div_1_r. f_equal. lia. Qed.
Lemma deconv5 n : 1 <= n -> deconv_size n 5 2 = Ok (2 * n).
Proof. intro H. unfold deconv_size. change (2 * (5 / 2)) with 4. destruct (Nat.leb_spec ((n - 1) * 2 + 5 + (2 - 1)) 4); [lia|]. f_equal. lia. Qed.
Lemma up2_pos n : 1 <= n -> 1 <= up2 n.
Proof. intro H. unfold up2. apply (Nat.div_le_lower_bound (n + 1) 2 1); lia. Qed.
Lemma up2_ge n : n <= 2 * up2 n.
Proof. unfold up2. pose proof (Nat.div_mod (n + 1) 2 ltac:(lia)). pose proof (Nat.mod_upper_bound (n + 1) 2 ltac:(lia)). lia. Qed.
Definition lat (n : nat) : nat := up2 (up2 (up2 (up2 n))).
Lemma lat_pos n : 1 <= n -> 1 <= lat n.
Proof. intro H. unfold lat. now repeat apply up2_pos. Qed.
Lemma lat_ge n : n <= 16 * lat n.
Proof. unfold lat. pose proof (up2_ge n). pose proof (up2_ge (up2 n)). pose proof (up2_ge (up2 (up2 n))). pose proof (up2_ge (up2 (up2 (up2 n)))). lia. Qed.

Definition big (s : shape) : Prop := 1 <= hh s /\ 1 <= ww s.
Lemma l_conv cin cout h w : 1 <= h -> 1 <= w -> apply_layer (Conv cin cout 5 2) (mkSh cin h w) = Ok (mkSh cout (up2 h) (up2 w)).
Proof. intros. cbn [apply_layer]. unfold conv. cbn [ch hh ww]. rewrite Nat.eqb_refl. cbn [negb]. rewrite !conv5 by assumption. reflexivity. Qed.
Lemma l_deconv cin cout h w : 1 <= h -> 1 <= w -> apply_layer (Deconv cin cout 5 2) (mkSh cin h w) = Ok (mkSh cout (2 * h) (2 * w)).
Proof. intros. cbn [apply_layer]. unfold deconv. cbn [ch hh ww]. rewrite Nat.eqb_refl. cbn [negb]. rewrite !deconv5 by assumption. reflexivity. Qed.
Lemma l_same c h w : apply_layer (Same c) (mkSh c h w) = Ok (mkSh c h w).
Proof. cbn. now rewrite Nat.eqb_refl. Qed.
Lemma l_res c h w : 1 <= h -> 1 <= w -> apply_layer (Residual c) (mkSh c h w) = Ok (mkSh c h w).
Proof.
  intros. cbn [apply_layer]. unfold conv. cbn [ch hh ww]. rewrite Nat.eqb_refl. cbn [negb]. rewrite !conv1 by assumption. cbn [bind ch hh ww].
  rewrite Nat.eqb_refl. cbn [negb]. rewrite !conv3 by assumption. cbn [bind ch hh ww]. rewrite Nat.eqb_refl. cbn [negb]. rewrite !conv1 by assumption. cbn [bind ch hh ww].
  now rewrite !Nat.eqb_refl.
Qed.
Lemma seq_app a b s : sequential (a ++ b) s = bind (sequential a s) (sequential b).
Proof. revert s. induction a as [|l r IH]; intro s; [reflexivity|]. cbn [app sequential]. destruct (apply_layer l s); [apply IH|reflexivity]. Qed.
Lemma seq_res c h w : 1 <= h -> 1 <= w -> forall n, sequential (repeat (Residual c) n) (mkSh c h w) = Ok (mkSh c h w).
Proof. intros. induction n as [|n IH]; [reflexivity|]. cbn [repeat sequential]. rewrite l_res by assumption. exact IH. Qed.
Ltac run := repeat (first [rewrite seq_app | rewrite seq_res by (repeat (apply up2_pos || assumption || lia)) | rewrite l_conv by (repeat (apply up2_pos || assumption || lia))
   | rewrite l_deconv by lia | rewrite l_same | progress cbn [sequential bind]]).
Lemma gdn_analysis_shape n c h w : 1 <= h -> 1 <= w -> sequential (gdn_analysis n c) (mkSh 3 h w) = Ok (mkSh c (lat h) (lat w)).
Proof. intros. unfold gdn_analysis. run. reflexivity. Qed.
Lemma elic_analysis_shape b c1 c2 c3 c4 h w : 1 <= h -> 1 <= w -> sequential (elic_analysis b c1 c2 c3 c4) (mkSh 3 h w) = Ok (mkSh c4 (lat h) (lat w)).
Proof. intros. unfold elic_analysis. run. reflexivity. Qed.
Lemma gdn_synthesis_shape n c h w : 1 <= h -> 1 <= w -> sequential (gdn_synthesis n c) (mkSh c h w) = Ok (mkSh 3 (16 * h) (16 * w)).
Proof. intros. unfold gdn_synthesis. run. f_equal. f_equal; lia. Qed.
Lemma elic_synthesis_shape b c1 c2 c3 c4 h w : 1 <= h -> 1 <= w -> sequential (elic_synthesis b c1 c2 c3 c4) (mkSh c1 h w) = Ok (mkSh c4 (16 * h) (16 * w)).
Proof. intros. unfold elic_synthesis. run. f_equal. f_equal; lia. Qed.

(** * Construction *)
Definition gdn_pipeline (n n' : nat) : pipeline := mkP (mkT (gdn_analysis n 192) 192 4) (mkT (gdn_synthesis n' 192) 192 0).
(** With ConvGDN transforms the pipeline can be built exactly for 192 channels. *)
Theorem C74_gdn_construct n n' c a s : ConvGDNAnalysis n c = Ok a -> ConvGDNSynthesis n' c = Ok s ->
  VCTPipeline a s c = (if Nat.eqb c 192 then Ok (gdn_pipeline n n') else Raise AssertionError).
Proof.
  intros A S. injection A as <-. injection S as <-. unfold VCTPipeline. cbn [t_channels]. rewrite Nat.eqb_refl. cbn [negb].
  destruct (Nat.eqb_spec c 192) as [->|NE]; [reflexivity|]. now rewrite (proj2 (Nat.eqb_neq 192 c)) by congruence.
Qed.
(** ELIC transforms are refused unless there are four channels, the last of them those asked for. *)
Theorem C74_elic_refused b xs c : (length xs <> 4 \/ exists d, c = Some d /\ last xs 0 <> d) ->
  ELICAnalysis b xs c = Raise ValueError /\ ELICSynthesis b xs c = Raise ValueError.
Proof.
  intro H. destruct xs as [|c1 [|c2 [|c3 [|c4 [|]]]]]; try (split; reflexivity). destruct H as [H|(d & -> & H)]; [cbn in H; lia|].
  cbn [last] in H. unfold ELICAnalysis, ELICSynthesis. rewrite (proj2 (Nat.eqb_neq d c4)) by congruence. split; reflexivity.
Qed.
(** ELIC transforms need four channels each; the pipeline can be built exactly if the last of the
    analysis and the first of the synthesis are the compression channels. *)
Theorem C74_elic_construct b b' xs ys c p :
  (exists a s, ELICAnalysis b xs None = Ok a /\ ELICSynthesis b' ys None = Ok s /\ VCTPipeline a s c = Ok p) <->
  exists c1 c2 c3 d2 d3 d4, xs = [c1; c2; c3; c] /\ ys = [c; d2; d3; d4] /\ p = mkP (mkT (elic_analysis b c1 c2 c3 c) c 0) (mkT (elic_synthesis b' c d2 d3 d4) c 0).
Proof.
  split.
  - intros [a [s [A [S P]]]]. destruct xs as [|c1 [|c2 [|c3 [|c4 [|]]]]]; try discriminate. destruct ys as [|d1 [|d2 [|d3 [|d4 [|]]]]]; try discriminate.
    injection A as <-. injection S as <-. unfold VCTPipeline in P. cbn [t_channels] in P.
    destruct (Nat.eqb_spec c4 c) as [->|]; [|discriminate]. destruct (Nat.eqb_spec d1 c) as [->|]; [|discriminate]. injection P as <-. now exists c1, c2, c3, d2, d3, d4.
  - intros [c1 [c2 [c3 [d2 [d3 [d4 [-> [-> ->]]]]]]]]. do 2 eexists. split; [reflexivity|]. split; [reflexivity|]. unfold VCTPipeline. cbn [t_channels]. now rewrite Nat.eqb_refl.
Qed.

(** * The reconstruction has the size of the video *)
Definition elic_pipeline (b b' c1 c2 c3 c d2 d3 d4 : nat) : pipeline := mkP (mkT (elic_analysis b c1 c2 c3 c) c 0) (mkT (elic_synthesis b' c d2 d3 d4) c 0).
Lemma cropped c h w x y : h <= x -> w <= y -> crop h w (mkSh c x y) = mkSh c h w.
Proof. intros. unfold crop. cbn. now rewrite !Nat.min_l by assumption. Qed.
Theorem C74_training_size_gdn n n' h w : 1 <= h -> 1 <= w -> forward_shape (gdn_pipeline n n') true (mkSh 3 h w) = Ok (mkSh 3 h w).
Proof.
  intros H K. unfold forward_shape. cbn [ch negb Nat.eqb bind gdn_pipeline p_analysis p_synthesis t_layers]. rewrite gdn_analysis_shape by assumption. cbn [bind].
  rewrite gdn_synthesis_shape by (now apply lat_pos). cbn [bind hh ww]. rewrite cropped by apply lat_ge. reflexivity.
Qed.
Theorem C74_size_elic training b b' c1 c2 c3 c d2 d3 d4 h w : 1 <= h -> 1 <= w ->
  forward_shape (elic_pipeline b b' c1 c2 c3 c d2 d3 d4) training (mkSh 3 h w) = Ok (mkSh d4 h w).
Proof.
  intros H K. unfold forward_shape. cbn [ch negb Nat.eqb bind elic_pipeline p_analysis p_synthesis t_layers t_down].
  assert (P : (if training then Ok (mkSh 3 h w) else pad (2 ^ 0) (mkSh 3 h w)) = Ok (mkSh 3 h w)).
  { destruct training; [reflexivity|]. unfold pad, pad_amount. cbn [hh ww ch]. change (2 ^ 0) with 1. rewrite !Nat.mod_1_r.
    destruct (Nat.ltb_spec 0 h), (Nat.ltb_spec 0 w); try lia. cbn [andb]. now rewrite !Nat.add_0_r. }
  rewrite P. cbn [bind]. rewrite elic_analysis_shape by assumption. cbn [bind].
  rewrite elic_synthesis_shape by (now apply lat_pos). cbn [bind hh ww]. rewrite cropped by apply lat_ge. destruct training; [reflexivity|]. now rewrite cropped by lia.
Qed.
Lemma pad_small n : 1 <= n -> pad_amount 16 n < n <-> 8 < n.
Proof.
  intro H. unfold pad_amount. pose proof (Nat.mod_upper_bound n 16 ltac:(lia)) as U.
  destruct (Nat.lt_ge_cases n 16) as [L|G].
  - rewrite (Nat.mod_small n 16 L). rewrite Nat.mod_small by lia. lia.
  - pose proof (Nat.mod_upper_bound (16 - n mod 16) 16 ltac:(lia)). lia.
Qed.
(** In evaluation mode ConvGDN pads to a multiple of 16 by reflection: possible exactly if both sides
    are longer than 8. *)
Theorem C74_evaluation_size_gdn n n' h w : 1 <= h -> 1 <= w ->
  forward_shape (gdn_pipeline n n') false (mkSh 3 h w) = (if (8 <? h) && (8 <? w) then Ok (mkSh 3 h w) else Raise RuntimeError).
Proof.
  intros H K. unfold forward_shape. cbn [ch negb Nat.eqb bind gdn_pipeline p_analysis p_synthesis t_layers t_down]. change (2 ^ 4) with 16.
  unfold pad. cbn [hh ww ch].
  assert (EH : (pad_amount 16 h <? h) = (8 <? h)) by (apply eq_true_iff_eq; rewrite !Nat.ltb_lt; now apply pad_small).
  assert (EW : (pad_amount 16 w <? w) = (8 <? w)) by (apply eq_true_iff_eq; rewrite !Nat.ltb_lt; now apply pad_small).
  rewrite EH, EW. destruct ((8 <? h) && (8 <? w)); cbn [bind]; [|reflexivity].
  rewrite gdn_analysis_shape by lia. cbn [bind]. rewrite gdn_synthesis_shape by (apply lat_pos; lia). cbn [bind hh ww].
  rewrite !cropped; trivial; try lia; (etransitivity; [|apply lat_ge]; lia).
Qed.
(** "An image of any size can be coded in evaluation mode" is false for ConvGDN. *)
Theorem C74_small_images_refuted n n' : forward_shape (gdn_pipeline n n') false (mkSh 3 8 64) = Raise RuntimeError.
Proof. rewrite C74_evaluation_size_gdn by lia. reflexivity. Qed.
(** Videos that are not RGB are refused. *)
Theorem C74_not_rgb p training s : ch s <> 3 -> forward_shape p training s = Raise ValueError.
Proof. intro H. unfold forward_shape. now rewrite (proj2 (Nat.eqb_neq (ch s) 3) H). Qed.

(** * Compression *)
(** A compressed and decompressed video has the size that the model gives in evaluation, that is
    its own, on any device, as long as the CPU is not demanded in vain. *)
Theorem C74_codec_size p on_cpu force b t s : b = 1 -> ch s = 3 -> (force = true -> on_cpu = true) ->
  (do lat <- compress_shape p on_cpu force b s; decompress_shape p on_cpu force [b; t; ch s; hh s; ww s] lat) = forward_shape p false s.
Proof.
  intros -> H F. unfold compress_shape, decompress_shape, forward_shape. rewrite H. cbn [Nat.eqb negb length nth].
  assert (E : negb on_cpu && force = false) by (destruct force, on_cpu; cbn; try reflexivity; specialize (F eq_refl); discriminate). rewrite E.
  destruct (pad _ s) as [i|e]; cbn [bind]; [|reflexivity]. destruct (sequential _ i) as [lat|e]; cbn [bind]; [|reflexivity].
  destruct (sequential _ lat) as [out|e]; cbn [bind]; [|reflexivity]. unfold crop. cbn [ch hh ww]. f_equal. f_equal; lia.
Qed.
(** Batches of other sizes and a demanded CPU are refused, the latter by both halves. *)
Theorem C74_codec_refused p on_cpu force b s frames lat :
  (b <> 1 -> compress_shape p on_cpu force b s = Raise AssertionError) /\
  (b = 1 -> on_cpu = false -> force = true -> compress_shape p on_cpu force b s = Raise ValueError) /\
  (on_cpu = false -> force = true -> decompress_shape p on_cpu force frames lat = Raise ValueError) /\
  (length frames <> 5 -> is_ok (decompress_shape p on_cpu force frames lat) = false).
Proof.
  unfold compress_shape, decompress_shape. split; [|split; [|split]].
  - intro H. rewrite (proj2 (Nat.eqb_neq b 1) H). reflexivity.
  - intros -> -> ->. reflexivity.
  - intros -> ->. reflexivity.
  - intro H. destruct (negb on_cpu && force); [reflexivity|]. destruct (sequential _ lat); cbn [bind]; [|reflexivity].
    rewrite (proj2 (Nat.eqb_neq _ 5) H). reflexivity.
Qed.
Example C74_codec_example : (do lat <- compress_shape (gdn_pipeline 64 64) false false 1 (mkSh 3 100 50); decompress_shape (gdn_pipeline 64 64) false false [1; 7; 3; 100; 50] lat) = Ok (mkSh 3 100 50).
Proof.
  etransitivity; [refine (C74_codec_size (gdn_pipeline 64 64) false false 1 7 (mkSh 3 100 50) eq_refl eq_refl _); discriminate|].
  rewrite C74_evaluation_size_gdn by lia. reflexivity.
Qed.
Print Assumptions C74_codec_size. Print Assumptions C74_codec_refused.

(** * Chunks *)
Section Chunks.
Context {A B : Type}.
Lemma pieces_concat (f : A -> B) n : forall k l, length l = k * n -> concat (map (map f) (pieces n k l)) = map f l.
Proof.
  induction k as [|k IH]; intros l L; [destruct l; [reflexivity|discriminate]|]. cbn [pieces map concat]. rewrite IH.
  - now rewrite <- map_app, firstn_skipn.
  - rewrite skipn_length. lia.
Qed.
(** Transforms that treat each image on its own give the same result in chunks; the number of images
    must be a multiple of the chunk if there are more. *)
Theorem C74_chunks (f : A -> B) frames m :
  elic_frames (map f) m frames =
  match m with
  | None => Ok (map f frames)
  | Some m => if length frames <=? m then Ok (map f frames)
              else if m =? 0 then Raise ZeroDivisionError
              else if length frames mod m =? 0 then Ok (map f frames) else Raise AssertionError
  end.
Proof.
  unfold elic_frames. destruct m as [m|]; [|reflexivity]. rewrite (Nat.leb_antisym m). destruct (m <? length frames); [|reflexivity]. cbn [negb].
  destruct (Nat.eqb_spec m 0) as [->|NZ]; [reflexivity|]. destruct (Nat.eqb_spec (length frames mod m) 0) as [E|]; [|reflexivity]. cbn [negb].
  rewrite pieces_concat; [reflexivity|]. pose proof (Nat.div_mod (length frames) m NZ). lia.
Qed.
End Chunks.

Example C74_example_gdn : forward_shape (gdn_pipeline 128 128) false (mkSh 3 1080 1917) = Ok (mkSh 3 1080 1917).
Proof. now rewrite C74_evaluation_size_gdn by lia. Qed.
Example C74_example_elic : forward_shape (elic_pipeline 3 3 128 160 192 192 160 128 3) false (mkSh 3 5 1) = Ok (mkSh 3 5 1).
Proof. now rewrite C74_size_elic by lia. Qed.
Example C74_example_chunks : elic_frames (map S) (Some 2) [1; 2; 3; 4] = Ok [2; 3; 4; 5] /\ elic_frames (map S) (Some 3) [1; 2; 3; 4] = Raise AssertionError.
Proof. split; reflexivity. Qed.

Print Assumptions C74_gdn_construct.
Print Assumptions C74_elic_construct.
Print Assumptions C74_training_size_gdn.
Print Assumptions C74_size_elic.
Print Assumptions C74_evaluation_size_gdn.
Print Assumptions C74_small_images_refuted.
Print Assumptions C74_not_rgb.
Print Assumptions C74_chunks.
Print Assumptions C74_elic_refused.

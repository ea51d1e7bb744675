(** Concrete instances: the hypotheses of the theorems in Rans_Props are met, and
    the witnesses used by the refutations. *)
From Coq Require Import ZArith List Bool Lia.
From Verif Require Import Base Rans_Model Rans_Spec Rans_Stack Rans_Codec Rans_Top Rans_More
  Rans_SpecBB Rans_BitsBack.
Import ListNotations.
Open Scope Z_scope.

Definition ex_rnd (cap : Z) : list Z :=
  map (fun x => (Z.of_nat x * 37 + 11) mod 256) (seq 0 (Z.to_nat cap)).

Lemma ex_rnd_ok : tail_filler ex_rnd.
Proof.
  intros cap Hc. unfold ex_rnd, zlen. rewrite map_length, seq_length. split; [lia|].
  apply Forall_forall. intros y Hy. apply in_map_iff in Hy as (x & <- & _).
  unfold is_byte. apply Z.mod_pos_bound. lia.
Qed.

(** *** Two lanes, two different 16-bit tables. *)
Definition ex_cdfs : list (list Z) := [[0; 1; 40000; 65536]; [0; 30000; 30000; 65536]].
Definition ex_rows : list (list Z) := [[0; 0]; [2; 2]; [0; 2]; [0; 0]; [1; 0]].
Definition ex_id (x : Z) : Z := x.
Definition ex_codec := fixed_array_cdf_codec ns_clamp ex_id ex_cdfs 16 false.

Fixpoint mono_ok (cdf : list Z) : bool :=
  match cdf with
  | a :: ((b :: _) as cdf') => (a <=? b) && mono_ok cdf'
  | _ => true
  end.

Lemma mono_ok_spec cdf : mono_ok cdf = true -> forall i j, (i <= j)%nat ->
  (j < length cdf)%nat -> nth i cdf 0 <= nth j cdf 0.
Proof.
  induction cdf as [|a cdf IH]; intros H i j Hij Hj; [cbn in Hj; lia|].
  assert (IH' : forall i j, (i <= j)%nat -> (j < length cdf)%nat -> nth i cdf 0 <= nth j cdf 0).
  { destruct cdf; [cbn; intros; lia|]. apply IH. cbn in H. now apply andb_prop in H. }
  destruct i as [|i], j as [|j]; cbn [nth length] in *; try lia.
  - destruct cdf as [|b cdf]; [cbn in Hj; lia|].
    cbn in H. apply andb_prop in H as [H _]. apply Z.leb_le in H.
    pose proof (IH' 0%nat j ltac:(lia) ltac:(lia)). cbn [nth] in *. lia.
  - apply IH'; lia.
Qed.

Lemma cdf_table_dec p cdf : (nth 0 cdf 0 =? 0) && (last cdf 0 =? 2 ^ p) && mono_ok cdf = true ->
  cdf_table p cdf.
Proof.
  intro H. apply andb_prop in H as [H H3]. apply andb_prop in H as [H1 H2].
  apply Z.eqb_eq in H1, H2. split; [easy|]. split; [easy|]. now apply mono_ok_spec.
Qed.

Lemma has_freq_dec cdf s : (0 <=? s) && Nat.ltb (Z.to_nat s + 1) (length cdf) &&
  (nth (Z.to_nat s) cdf 0 <? nth (Z.to_nat s + 1) cdf 0) = true -> has_freq cdf s.
Proof.
  intro H. apply andb_prop in H as [H H3]. apply andb_prop in H as [H1 H2].
  apply Z.leb_le in H1. apply Nat.ltb_lt in H2. apply Z.ltb_lt in H3. easy.
Qed.

Lemma ex_tables : Forall (cdf_table 16) ex_cdfs.
Proof. repeat constructor; apply mono_ok_spec; reflexivity. Qed.

Lemma ex_message : Forall (fun row => Forall2 has_freq ex_cdfs row /\
  Forall (fun s => ex_id (s + 1) = s + 1) row) ex_rows.
Proof.
  repeat (constructor; [split; [repeat (constructor; [apply has_freq_dec; reflexivity|]);
    constructor | repeat constructor]|]). constructor.
Qed.

Lemma ex_codable : codable_message (fa_cdf ex_id) fa_inv 2 16 ex_rows
  ex_cdfs ex_cdfs ex_cdfs ex_cdfs.
Proof. apply fixed_codable_message; [lia | reflexivity | apply ex_tables | apply ex_message]. Qed.

(** The message encodes, fits, and decodes. *)
Definition ex_out : list Z := match encode_one ex_codec 2 30 ex_rnd None ex_rows ex_cdfs with
  | Ok (out, _) => out | Raise _ => [] end.
Example ex_encodes : encode_one ex_codec 2 30 ex_rnd None ex_rows ex_cdfs = Ok (ex_out, ex_cdfs).
Proof. vm_compute. reflexivity. Qed.
Example ex_fits : fits 2 30 ex_out /\ fits 2 11 ex_out.
Proof. unfold fits. vm_compute. split; discriminate. Qed.
Example ex_out_long : length ex_out = 15%nat.
Proof. vm_compute. reflexivity. Qed.
Example ex_decodes : decode_one ex_codec 5 2 11 ex_out ex_cdfs = Ok (ex_rows, fresh_buffer 2, ex_cdfs).
Proof. vm_compute. reflexivity. Qed.

(** A batch of two, one of them on top of the first result. *)
Definition ex_items : list (item (list (list Z))) :=
  [(None, ex_rows, ex_cdfs, ex_cdfs); (Some ex_out, ex_rows, ex_cdfs, ex_cdfs)].
Example ex_batch : exists outs,
  encode ex_codec 2 40 ex_rnd (map (fun '(start, rows, se, sd) => (start, rows, se)) ex_items)
    = Ok outs /\ Forall (fun '(b, _) => fits 2 40 b /\ fits 2 35 b) outs.
Proof. eexists. split; [vm_compute; reflexivity|]. repeat constructor; unfold fits; vm_compute; discriminate. Qed.

(** A two-step history. *)
Definition ex_entry : entry :=
  mk_entry (fa_cdf ex_id) fa_inv 16 ex_cdfs ex_cdfs ex_cdfs ex_rows 35.
Definition ex_out2 : list Z := match encode_one ex_codec 2 40 ex_rnd (Some ex_out) ex_rows ex_cdfs with
  | Ok (out, _) => out | Raise _ => [] end.
Example ex_history : history ns_clamp 2 ex_rnd None [ex_entry; ex_entry] ex_out2.
Proof.
  apply hist_more with (b := ex_out) (cap := 40) (s := ex_cdfs) (se' := ex_cdfs) (sd' := ex_cdfs).
  - apply hist_one with (cap := 30) (s := ex_cdfs) (se' := ex_cdfs) (sd' := ex_cdfs).
    + cbn [ex_entry e_p]. lia.
    + lia.
    + exact ex_codable.
    + vm_compute. reflexivity.
    + unfold fits. vm_compute. discriminate.
    + unfold fits. vm_compute. discriminate.
  - cbn [ex_entry e_p]. lia.
  - lia.
  - exact ex_codable.
  - vm_compute. reflexivity.
  - unfold fits. vm_compute. discriminate.
  - unfold fits. vm_compute. discriminate.
Qed.

(** A normalised message with something on the stack. *)
Definition ex_m : msg := mk_msg [20000000; 4000000000] 10 (ex_rnd 18).
Lemma ex_m_normal : normal 2 ex_m.
Proof.
  split; [reflexivity|]. split; [|split].
  - repeat constructor; vm_compute; congruence.
  - apply ex_rnd_ok; lia.
  - vm_compute. split; discriminate.
Qed.
Definition ex_lo : list Z := [5; 0].
Definition ex_hi : list Z := [6; 3].
Lemma ex_intervals : intervals 12 ex_lo ex_hi.
Proof. repeat constructor; vm_compute; congruence. Qed.
Example ex_push : exists m', push_symbols ns_wrap ex_m ex_lo ex_hi 12 = Ok m' /\ 2 <= ptr m'.
Proof. eexists. split; [vm_compute; reflexivity|]. vm_compute. discriminate. Qed.
Example ex_push_moves : match push_symbols ns_wrap ex_m ex_lo ex_hi 12 with
  | Ok m' => ptr m' | _ => -1 end = 7.
Proof. vm_compute. reflexivity. Qed.

(** Popping from it, with the intervals of the values on top. *)
Definition ex_v : list Z := peek ex_m 12.
Definition ex_plo : list Z := ex_v.
Definition ex_phi : list Z := map (fun x => x + 1) ex_v.
Lemma ex_pop_intervals : intervals 12 ex_plo ex_phi /\ inside (peek ex_m 12) ex_plo ex_phi.
Proof. split; repeat constructor; vm_compute; congruence. Qed.
Example ex_pop : exists m', pop_symbols ns_wrap ex_m (peek ex_m 12) ex_plo ex_phi 12 false = Ok m'
  /\ ptr m' <= zlen (data ex_m) /\ ptr m' = 13.
Proof. eexists. split; [vm_compute; reflexivity|]. split; vm_compute; congruence. Qed.

(** *** Bits-back: 256 latents per lane, posterior depending on the symbols and
    likelihood depending on the latents. *)
Definition ex_u8 : list Z := map Z.of_nat (seq 0 257).
Definition ex_u16 : list Z := map (fun i => 256 * Z.of_nat i) (seq 0 257).
Definition ex_w16 : list Z := 0 :: map (fun i => 65281 + Z.of_nat i) (seq 0 256).
Definition ex_bit : list Z := [0; 128; 256].

Definition ex_post (x : list Z) : list (list Z) :=
  map (fun b => if b =? 0 then ex_u16 else ex_w16) x.
Definition ex_obs (z : list Z) : list (list Z) :=
  map (fun l => if l <? 100 then [0; 1; 256] else [0; 200; 256]) z.

Lemma ex_u16_table : cdf_table 16 ex_u16.
Proof. apply cdf_table_dec. vm_compute. reflexivity. Qed.
Lemma ex_w16_table : cdf_table 16 ex_w16.
Proof. apply cdf_table_dec. vm_compute. reflexivity. Qed.

(** Fixed tables decode everything, if every symbol of positive frequency is in
    the support. *)
Lemma fa_decodes_all wrap p cdfs (support : list Z -> Prop) : 0 <= p ->
  Forall (cdf_table p) cdfs ->
  (forall z, Forall2 has_freq cdfs z -> Forall (fun s => wrap (s + 1) = s + 1) z /\ support z) ->
  decodes_all (fa_cdf wrap) fa_inv (length cdfs) p cdfs support.
Proof.
  intros Hp HT HS v HL HV.
  assert (HZ : Forall2 has_freq cdfs (map2 inv_symbol cdfs v) /\
               Forall2 (fun c '(s, x) => nth (Z.to_nat s) c 0 <= x < nth (Z.to_nat s + 1) c 0)
                 cdfs (combine (map2 inv_symbol cdfs v) v)).
  { clear HS. revert cdfs HT HL. induction HV as [|x v Hx HV IH]; intros [|c cdfs] HT HL;
      cbn [map2 combine length] in *; try discriminate; [split; constructor|].
    inversion HT as [|? ? HT1 HT2]; subst.
    destruct (lookup_symbol p c x Hp HT1 Hx) as [A B].
    destruct (IH cdfs HT2 ltac:(lia)) as [C D]. split; constructor; easy. }
  destruct HZ as [HZ HI].
  set (z := map2 inv_symbol cdfs v) in *.
  destruct (HS z HZ) as [HW HSup].
  destruct (fixed_codable p (length cdfs) wrap cdfs z Hp eq_refl HT HZ HW)
    as (lo & hi & E & EL & Hi & HD).
  assert (HIn : inside v lo hi).
  { unfold fa_cdf in E. injection E as <- <-. unfold inside. clear HD Hi EL HS.
    clear HSup. clearbody z. revert cdfs z HT HZ HI HW HL.
    induction HV as [|x v Hx HV IH]; intros [|c cdfs] [|s z] HT HZ HI HW HL;
      cbn [map2 combine length] in *; try discriminate; try constructor;
      inversion HZ as [|? ? ? ? HZ1 HZ2]; inversion HI as [|? ? ? ? HI1 HI2];
      inversion HW as [|? ? HW1 HW2]; inversion HT as [|? ? HT1 HT2]; subst.
    - destruct HZ1 as (F1 & F2 & F3). rewrite HW1, !lookup_nth by lia.
      replace (Z.to_nat (s + 1)) with (Z.to_nat s + 1)%nat by lia. exact HI1.
    - apply IH; try easy. lia. }
  exists lo, hi, z, cdfs, cdfs. split; [now apply HD|]. repeat (split; [easy|]). easy.
Qed.

Definition ex_bits (x : list Z) : Prop := Forall (fun b => b = 0 \/ b = 1) x.

Lemma ex_bb_codable n x : length x = n -> ex_bits x ->
  bb_codable n (fa_cdf ex_id) fa_inv (repeat ex_u16 n) 16
    (fun _ => fa_cdf ex_id) (fun _ => fa_inv) ex_post 16
    (fun _ => fa_cdf ex_id) (fun _ => fa_inv) ex_obs 8 x.
Proof.
  intros HL HX. unfold bb_codable.
  assert (EN : length (ex_post x) = n) by (unfold ex_post; now rewrite map_length).
  rewrite <- EN at 1. apply fa_decodes_all; [lia| |].
  { unfold ex_post. apply Forall_forall. intros c Hc. apply in_map_iff in Hc as (b & <- & _).
    destruct (b =? 0); [apply ex_u16_table | apply ex_w16_table]. }
  intros z Hz.
  assert (HZ : length z = n /\ Forall (fun s => 0 <= s < 256) z).
  { split; [rewrite <- EN; symmetry; eapply F2_len; exact Hz|].
    unfold ex_post in Hz. clear HX HL EN n. revert z Hz. induction x as [|b x IH]; intros z Hz;
      cbn [map] in Hz; inversion Hz as [|? s ? z' Hs Hz']; subst; constructor; [|now apply IH].
    destruct Hs as (S1 & S2 & _).
    assert (length (if b =? 0 then ex_u16 else ex_w16) = 257%nat) by (destruct (b =? 0); reflexivity).
    lia. }
  destruct HZ as [LZ RZ].
  split; [apply Forall_forall; reflexivity|]. split.
  - exists (repeat ex_u16 n), (repeat ex_u16 n). apply fixed_codable; try lia.
    + apply repeat_length.
    + apply Forall_forall. intros c Hc. apply repeat_spec in Hc. subst. apply ex_u16_table.
    + clear - LZ RZ. revert n LZ. induction RZ as [|s z Hs RZ IH]; intros [|n] LZ; try discriminate;
        cbn [repeat]; constructor; [|apply IH; cbn in LZ; lia].
      assert (E : forall k, (k < 257)%nat -> nth k ex_u16 0 = 256 * Z.of_nat k).
      { intros k Hk. unfold ex_u16.
        rewrite nth_indep with (d' := (fun i => 256 * Z.of_nat i) 0%nat)
          by (rewrite map_length, seq_length; exact Hk).
        rewrite (map_nth (fun i => 256 * Z.of_nat i)), seq_nth by exact Hk. reflexivity. }
      split; [lia|]. assert (L : length ex_u16 = 257%nat) by reflexivity. rewrite L.
      split; [lia|]. rewrite !E by lia. lia.
    + apply Forall_forall. reflexivity.
  - exists (ex_obs z), (ex_obs z). apply fixed_codable; try lia.
    + unfold ex_obs. now rewrite map_length.
    + unfold ex_obs. apply Forall_forall. intros c Hc. apply in_map_iff in Hc as (l & <- & _).
      apply cdf_table_dec. destruct (l <? 100); reflexivity.
    + unfold ex_obs. clear - LZ HX HL. revert x HX HL. revert n LZ. induction z as [|l z IH];
        intros [|n] LZ [|b x] HX HL; try discriminate; cbn [map]; constructor.
      * inversion HX as [|? ? Hb _]; subst. apply has_freq_dec.
        destruct Hb as [-> | ->]; destruct (l <? 100); reflexivity.
      * inversion HX; subst. apply (IH n); cbn in *; try lia. easy.
    + apply Forall_forall. reflexivity.
Qed.

Definition ex_bb (n : nat) (al : bool) : codec unit :=
  bb ns_clamp (fa_cdf ex_id) fa_inv (repeat ex_u16 n) 16 false
    (fun _ => fa_cdf ex_id) (fun _ => fa_inv) ex_post 16 al
    (fun _ => fa_cdf ex_id) (fun _ => fa_inv) ex_obs 8 false.

Definition ex_bb_rows : list (list Z) := [[0; 1]; [1; 1]; [0; 0]].
Definition ex_bb_start : list Z := fresh_buffer 2 ++ ex_rnd 18.
Example ex_bb_start_ok : valid_buffer 2 ex_bb_start /\
  3 * 2 * zlen ex_bb_rows <= zlen ex_bb_start - 4 * 2.
Proof.
  split; [|vm_compute; discriminate]. split; [|split].
  - apply Forall_app. split; [repeat constructor; vm_compute; congruence | apply ex_rnd_ok; lia].
  - apply Nat.leb_le. vm_compute. reflexivity.
  - repeat constructor; vm_compute; congruence.
Qed.
Example ex_bb_bits : Forall (fun x => length x = 2%nat /\ ex_bits x) ex_bb_rows.
Proof. repeat constructor; (right; reflexivity) || (left; reflexivity). Qed.
Example ex_bb_run : match encode_one (ex_bb 2 false) 2 60 ex_rnd (Some ex_bb_start) ex_bb_rows tt with
  | Ok (out, _) => match decode_one (ex_bb 2 false) 3 2 90 out tt with
                   | Ok (rows, rest, _) => rows = ex_bb_rows /\ rest = ex_bb_start
                   | _ => False end
  | _ => False end.
Proof. vm_compute. split; reflexivity. Qed.

(** *** Witnesses *)

(** Two-lane bits-back with pops from an empty stack. *)
Definition ex_dry (ns : Z -> Z -> Z -> Z) : codec unit :=
  bitsback_ans_codec
    (fixed_array_cdf_codec ns ex_id [ex_u16; ex_w16] 16 false)
    (fun _ => fixed_array_cdf_codec ns ex_id [ex_u8; ex_u8] 8 true)
    (fun _ => fixed_array_cdf_codec ns ex_id [ex_bit; ex_bit] 8 false).

(** Concrete CDF callables used to show that the hypotheses of the theorems in
    AC_Props are met by non-trivial cases. *)
From Coq Require Import ZArith List Bool Lia.
From Verif Require Import Base AC_Model AC_Spec AC_Batch.
Import ListNotations.
Open Scope Z_scope.

(** An adaptive three-symbol model: the table depends on the previous symbol. *)
Definition slot (prev x : Z) : Z * Z :=
  if prev =? 0 then if x =? 0 then (0, 1) else if x =? 1 then (1, 4) else (4, 65536)
  else if x =? 0 then (0, 40000) else if x =? 1 then (40000, 60000) else (60000, 65536).
Definition find_slot (prev v : Z) : Z :=
  if prev =? 0 then if v <? 1 then 0 else if v <? 4 then 1 else 2
  else if v <? 40000 then 0 else if v <? 60000 then 1 else 2.
Definition ex_cdf (x prev : Z) : Z * Z * Z := (slot prev x, x).
Definition ex_inv (v prev : Z) : Z * Z * Z * Z :=
  let x := find_slot prev v in (slot prev x, x, x).

Lemma ex_matching m prev :
  Forall (fun x => 0 <= x <= 2) m -> matching ex_cdf ex_inv m prev prev.
Proof.
  intros H. revert prev. induction H as [|x m Hx _ IH]; intros prev; [exact I|].
  cbn [matching]. unfold ex_cdf. destruct (slot prev x) as [l h] eqn:Hs.
  assert (Hslot : good_interval (l, h) /\ forall v, l <= v < h -> find_slot prev v = x).
  { unfold slot in Hs. unfold find_slot, good_interval.
    assert (x = 0 \/ x = 1 \/ x = 2) as [ -> | [ -> | -> ] ] by lia;
      destruct (prev =? 0); cbn in Hs; injection Hs as <- <-; cbn [fst snd];
      (split; [lia|]); intros v Hv;
      repeat match goal with |- context [v <? ?c] => destruct (Z.ltb_spec v c); try lia end. }
  destruct Hslot as [Hg Hf]. split; [exact Hg|].
  exists x. split; [|apply IH].
  intros v Hv. unfold ex_inv. rewrite (Hf v Hv), Hs. reflexivity.
Qed.

Lemma ex_total : total_inverse ex_inv (fun _ => True).
Proof.
  intros v prev _ Hv. unfold ex_inv, find_slot, slot.
  destruct (prev =? 0);
    repeat match goal with |- context [v <? ?c] => destruct (Z.ltb_spec v c) end; cbn; lia.
Qed.

(** A static table with symbols 0, 1, 2 (state unused). *)
Definition st_cdf (x : Z) (u : unit) : Z * Z * unit := (slot 0 x, u).
Definition st_inv (v : Z) (u : unit) : Z * Z * Z * unit :=
  let x := find_slot 0 v in (slot 0 x, x, u).

Lemma st_matching m : Forall (fun x => 0 <= x <= 2) m -> matching st_cdf st_inv m tt tt.
Proof.
  induction 1 as [|x m Hx _ IH]; [exact I|].
  cbn [matching]. unfold st_cdf. destruct (slot 0 x) as [l h] eqn:Hs.
  assert (Hslot : good_interval (l, h) /\ forall v, l <= v < h -> find_slot 0 v = x).
  { unfold slot in Hs. unfold find_slot, good_interval.
    assert (x = 0 \/ x = 1 \/ x = 2) as [ -> | [ -> | -> ] ] by lia;
      cbn in Hs; injection Hs as <- <-; cbn [fst snd];
      (split; [lia|]); intros v Hv; cbn [Z.eqb];
      repeat match goal with |- context [v <? ?c] => destruct (Z.ltb_spec v c); try lia end. }
  destruct Hslot as [Hg Hf]. split; [exact Hg|].
  exists tt. split; [|exact IH].
  intros v Hv. unfold st_inv. rewrite (Hf v Hv), Hs. reflexivity.
Qed.

(** 512 equiprobable symbols. *)
Definition big_cdf (x : Z) (u : unit) : Z * Z * unit := (128 * x, 128 * x + 128, u).
Definition big_inv (v : Z) (u : unit) : Z * Z * Z * unit :=
  (128 * (v / 128), 128 * (v / 128) + 128, v / 128, u).

Lemma big_matching m : Forall (fun x => 0 <= x < 512) m -> matching big_cdf big_inv m tt tt.
Proof.
  induction 1 as [|x m Hx _ IH]; [exact I|].
  cbn [matching]. unfold big_cdf. split; [unfold good_interval; cbn [fst snd]; lia|].
  exists tt. split; [|exact IH]. intros v Hv. unfold big_inv.
  assert (v / 128 = x) as -> by (symmetry; apply Z.div_unique with (v - 128 * x); lia).
  reflexivity.
Qed.

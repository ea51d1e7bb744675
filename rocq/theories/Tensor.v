(** Tensors as shape and function of the multi-index, with the torch operations the
    models use.  Values at indices outside the shape do not matter. *)
From Coq Require Import Arith List Lia Bool Reals.
From Verif Require Import Base.
Import ListNotations.
Open Scope nat_scope.

Record tensor (A : Type) := mkT { tshape : list nat; tat : list nat -> A }.
Arguments mkT {A}.
Arguments tshape {A}.
Arguments tat {A}.

Fixpoint inb (shp idx : list nat) : Prop :=
  match shp, idx with
  | [], [] => True
  | d :: s, i :: x => i < d /\ inb s x
  | _, _ => False
  end.
(** Equality of tensors. *)
Definition teq {A} (t u : tensor A) : Prop :=
  tshape t = tshape u /\ forall idx, inb (tshape t) idx -> tat t idx = tat u idx.

Definition prod (s : list nat) : nat := fold_right Nat.mul 1 s.

(** Row-major position of an index, and back. *)
Fixpoint ravel (shp idx : list nat) : nat :=
  match shp, idx with
  | _ :: s, i :: x => i * prod s + ravel s x
  | _, _ => 0
  end.
Fixpoint unravel (shp : list nat) (n : nat) : list nat :=
  match shp with
  | [] => []
  | _ :: s => n / prod s :: unravel s (n mod prod s)
  end.

Lemma ravel_lt : forall shp idx, inb shp idx -> ravel shp idx < prod shp.
Proof.
  induction shp as [|d s IH]; intros [|i x] H; cbn in *; try easy; [lia|].
  destruct H as [H1 H2]. specialize (IH x H2). fold (prod s). nia.
Qed.
Lemma unravel_ravel : forall shp idx, inb shp idx -> unravel shp (ravel shp idx) = idx.
Proof.
  induction shp as [|d s IH]; intros [|i x] H; cbn in *; try easy.
  destruct H as [H1 H2]. pose proof (ravel_lt s x H2) as L.
  rewrite Nat.div_add_l, Nat.div_small, Nat.add_0_r by lia. f_equal.
  rewrite Nat.add_comm, Nat.mod_add, Nat.mod_small by lia. now apply IH.
Qed.
Lemma unravel_inb : forall shp n, n < prod shp -> inb shp (unravel shp n).
Proof.
  induction shp as [|d s IH]; intros n H; cbn in *; [easy|]. fold (prod s) in H.
  assert (prod s <> 0) by nia. split; [apply Nat.div_lt_upper_bound; lia|].
  apply IH. now apply Nat.mod_upper_bound.
Qed.
Lemma ravel_unravel : forall shp n, n < prod shp -> ravel shp (unravel shp n) = n.
Proof.
  induction shp as [|d s IH]; intros n H; cbn in *; [lia|]. fold (prod s) in H.
  assert (prod s <> 0) by nia. rewrite IH by now apply Nat.mod_upper_bound.
  pose proof (Nat.div_mod n (prod s)). lia.
Qed.

(** torch.Tensor.reshape with all sizes given; RuntimeError if the numbers of
    elements differ. *)
Definition reshape {A} (t : tensor A) (shp : list nat) : res (tensor A) :=
  if prod (tshape t) =? prod shp
  then Ok (mkT shp (fun idx => tat t (unravel (tshape t) (ravel shp idx))))
  else Raise RuntimeError.
(** ... with -1 for the first size; RuntimeError also if it is not determined. *)
Definition reshape_infer {A} (t : tensor A) (shp : list nat) : res (tensor A) :=
  if (prod shp =? 0) || negb (prod (tshape t) mod prod shp =? 0) then Raise RuntimeError
  else reshape t (prod (tshape t) / prod shp :: shp).

Lemma reshape_ok {A} (t : tensor A) shp : prod (tshape t) = prod shp ->
  exists t', reshape t shp = Ok t' /\ tshape t' = shp /\
  forall i j, inb (tshape t) j -> ravel shp i = ravel (tshape t) j -> tat t' i = tat t j.
Proof.
  intro H. unfold reshape. rewrite H, Nat.eqb_refl. eexists. split; [reflexivity|].
  split; [reflexivity|]. intros i j I E. cbn [tat]. rewrite E. now rewrite unravel_ravel.
Qed.
Lemma reshape_infer_ok {A} (t : tensor A) n shp : prod (tshape t) = n * prod shp -> prod shp <> 0 ->
  exists t', reshape_infer t shp = Ok t' /\ tshape t' = n :: shp /\
  forall i j, inb (tshape t) j -> ravel (n :: shp) i = ravel (tshape t) j -> tat t' i = tat t j.
Proof.
  intros H P. unfold reshape_infer. rewrite (proj2 (Nat.eqb_neq _ _) P). cbn [orb].
  rewrite H, Nat.mod_mul, Nat.div_mul by exact P. cbn [negb Nat.eqb]. apply reshape_ok. exact H.
Qed.

(** torch.Tensor.permute: dimension [k] of the result is dimension [p k] of the input. *)
Fixpoint pos (d : nat) (p : list nat) : nat :=
  match p with
  | [] => 0
  | e :: p' => if e =? d then 0 else S (pos d p')
  end.
Definition permute {A} (t : tensor A) (p : list nat) : tensor A :=
  mkT (map (fun d => nth d (tshape t) 0) p)
      (fun idx => tat t (map (fun d => nth (pos d p) idx 0) (seq 0 (length p)))).

(** Sums over a range. *)
Definition rsum (n : nat) (f : nat -> R) : R := fold_right Rplus 0%R (map f (seq 0 n)).
Lemma rsum_ext n f g : (forall i, i < n -> f i = g i) -> rsum n f = rsum n g.
Proof.
  intro H. unfold rsum. f_equal. apply map_ext_in. intros i I. apply H. apply in_seq in I. lia.
Qed.
Lemma rsum_S n f : rsum (S n) f = (f 0%nat + rsum n (fun i => f (S i)))%R.
Proof. unfold rsum. cbn [seq map fold_right]. rewrite <- seq_shift, map_map. reflexivity. Qed.
Lemma rsum_zero n f : (forall i, i < n -> f i = 0%R) -> rsum n f = 0%R.
Proof.
  revert f. induction n as [|n IH]; intros f H; [reflexivity|]. rewrite rsum_S, H by lia. rewrite IH; [ring|].
  intros i I. apply H. lia.
Qed.
Lemma rsum_single n f k : k < n -> (forall i, i < n -> i <> k -> f i = 0%R) -> rsum n f = f k.
Proof.
  revert f k. induction n as [|n IH]; intros f k K H; [lia|]. rewrite rsum_S. destruct k as [|k].
  - rewrite rsum_zero; [ring|]. intros i I. apply H; lia.
  - rewrite (H 0) by lia. rewrite (IH (fun i => f (S i)) k) by (try lia; intros; apply H; lia). ring.
Qed.

(** torch.nn.functional.pad on the last two dimensions. *)
Inductive pad_mode := Reflect | Replicate | Circular | Constant.
(** Where position [k] of a padded dimension comes from; None is the constant 0.
    torch refuses too large paddings. *)
Definition pad_ok (mode : pad_mode) (n l r : nat) : bool :=
  match mode with
  | Reflect => (l <? n) && (r <? n)
  | Circular => (l <=? n) && (r <=? n) && (1 <=? n)
  | Replicate => 1 <=? n
  | Constant => true
  end.
Definition pad_src (mode : pad_mode) (n l k : nat) : option nat :=
  if (k <? l) then
    match mode with
    | Reflect => Some (l - k)
    | Replicate => Some 0
    | Circular => Some (k + n - l)
    | Constant => None
    end
  else if (k - l <? n) then Some (k - l)
  else
    match mode with
    | Reflect => Some (2 * (n - 1) - (k - l))
    | Replicate => Some (n - 1)
    | Circular => Some (k - l - n)
    | Constant => None
    end.
Definition pad2 {A} (zero : A) (mode : pad_mode) (t : tensor A) (l r u d : nat) : res (tensor A) :=
  match tshape t with
  | [b; c; h; w] =>
      if pad_ok mode w l r && pad_ok mode h u d then
        Ok (mkT [b; c; u + h + d; l + w + r]
              (fun idx => match idx with
                          | [b; c; y; x] =>
                              match pad_src mode h u y, pad_src mode w l x with
                              | Some y', Some x' => tat t [b; c; y'; x']
                              | _, _ => zero
                              end
                          | _ => zero
                          end))
      else Raise RuntimeError
  | _ => Raise RuntimeError
  end.

(** t[..., :h, :w] on four dimensions. *)
Definition crop {A} (t : tensor A) (h w : nat) : res (tensor A) :=
  match tshape t with
  | [b; c; h0; w0] => Ok (mkT [b; c; Nat.min h h0; Nat.min w w0] (tat t))
  | _ => Raise IndexError
  end.

(** torch.nn.functional.conv2d without padding, dilation or groups. *)
Definition conv2d (x k : tensor R) (s : nat) : res (tensor R) :=
  match tshape x, tshape k with
  | [b; c; h; w], [o; c'; kh; kw] =>
      if (c =? c') && (kh <=? h) && (kw <=? w) && (1 <=? s) then
        Ok (mkT [b; o; (h - kh) / s + 1; (w - kw) / s + 1]
              (fun idx => match idx with
                          | [b; o; i; j] =>
                              rsum c (fun c => rsum kh (fun u => rsum kw (fun v =>
                                (tat x [b; c; i * s + u; j * s + v]%nat * tat k [o; c; u; v])%R)))
                          | _ => 0%R
                          end))
      else Raise RuntimeError
  | _, _ => Raise RuntimeError
  end.

(** torch.diag(torch.ones(n)) *)
Definition eye (n : nat) : tensor R :=
  mkT [n; n] (fun idx => match idx with [i; j] => if i =? j then 1%R else 0%R | _ => 0%R end).

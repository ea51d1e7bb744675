(** Model of the adversarial losses: neuralcompression/loss_fn/_binary_crossentropy_loss.py and
    neuralcompression/loss_fn/_oasis_loss.py, with the torch functions they call.

    Simplifications: real arithmetic; tensors are contiguous (so [view] is [reshape]); the mean
    over no element, which is NaN in torch, is 0 here. *)
From Coq Require Import Reals List Bool Arith ZArith Lia.
From Verif Require Import Base Tensor.
Import ListNotations.
Open Scope R_scope.

(** torch.nn.functional.binary_cross_entropy_with_logits, one element, in the form of torch's
    kernel: max(x, 0) - x t + log(1 + exp(-|x|)). *)
Definition bce_term (x t : R) : R := Rmax x 0 - x * t + ln (1 + exp (- Rabs x)).
(** ... with reduction 'mean'; ValueError if the sizes differ. *)
Definition bce_with_logits (logits target : tensor R) : res R :=
  if list_eq_dec Nat.eq_dec (tshape target) (tshape logits) then
    let n := prod (tshape logits) in
    Ok (rsum n (fun q => bce_term (tat logits (unravel (tshape logits) q)) (tat target (unravel (tshape logits) q))) / INR n)
  else Raise ValueError.

(** _binary_crossentropy_loss.py L33-36 and L65-68 *)
Definition expand_target (target logits : tensor R) : res (tensor R) :=
  if (length (tshape target) =? 0)%nat then Ok (mkT (tshape logits) (fun _ => tat target [] * 1))
  else if negb (length (tshape target) =? length (tshape logits))%nat then Raise ValueError
  else Ok target.
(** L30-44 (BinaryCrossentropyDiscriminatorLoss.__call__) *)
Definition bce_discriminator (real_logits fake_logits target : tensor R) : res R :=
  do target <- expand_target target real_logits;
  do a <- bce_with_logits real_logits target;
  do b <- bce_with_logits fake_logits (mkT (tshape target) (fun _ => 0));
  Ok (1/2 * (a + b)).
(** L64-70 (BinaryCrossentropyGeneratorLoss.__call__) *)
Definition bce_generator (logits target : tensor R) : res R :=
  do target <- expand_target target logits;
  bce_with_logits logits target.

(** torch.nn.functional.cross_entropy of (batch, classes, positions) logits and (batch,
    positions) classes, reduction 'mean', ignore_index -100: RuntimeError if the sizes differ,
    IndexError for a class that does not exist. *)
Definition log_softmax (k : nat) (x : nat -> R) (c : nat) : R := x c - ln (rsum k (fun j => exp (x j))).
Definition ce_ignored (c : Z) : bool := (c =? -100)%Z.
Definition cross_entropy (logits : tensor R) (target : tensor Z) : res R :=
  match tshape logits, tshape target with
  | [b; k; n], [b'; n'] =>
      if negb ((b =? b') && (n =? n'))%nat then Raise RuntimeError
      else if forallb (fun i => forallb (fun j =>
                let c := tat target [i; j] in ce_ignored c || ((0 <=? c)%Z && (c <? Z.of_nat k)%Z)) (seq 0 n)) (seq 0 b)
      then
        let loss := rsum b (fun i => rsum n (fun j =>
            let c := tat target [i; j] in
            if ce_ignored c then 0 else - log_softmax k (fun m => tat logits [i; m; j]) (Z.to_nat c))) in
        let count := rsum b (fun i => rsum n (fun j => if ce_ignored (tat target [i; j]) then 0 else 1)) in
        Ok (loss / count)
      else Raise IndexError
  | _, _ => Raise RuntimeError
  end.

(** t.view(s..., -1): RuntimeError if the missing size is not determined. *)
Definition view_infer {A} (t : tensor A) (s : list nat) : res (tensor A) :=
  if (prod s =? 0)%nat || negb (prod (tshape t) mod prod s =? 0)%nat then Raise RuntimeError
  else reshape t (s ++ [prod (tshape t) / prod s])%nat.

(** A target tensor with its dtype (true: torch.long). *)
Record label_map := mkLM { lm_long : bool; lm_tensor : tensor Z }.

(** _oasis_loss.py L13-24 (_verify_logit_target_shape) *)
Definition verify_shape (logits : tensor R) (target : label_map) : res unit :=
  match tshape logits with
  | [b; _; h; w] => if (b * h * w =? prod (tshape (lm_tensor target)))%nat then Ok tt else Raise ValueError
  | _ => Raise ValueError
  end.
Definition batch_and_classes (logits : tensor R) : res (nat * nat) :=
  match tshape logits with
  | [b; k; _; _] => Ok (b, k)
  | _ => Raise ValueError
  end.
Definition add1 (t : tensor Z) : tensor Z := mkT (tshape t) (fun i => (tat t i + 1)%Z).
Definition zeros_like (t : tensor Z) : tensor Z := mkT (tshape t) (fun _ => 0%Z).
(** L42-72 (OASISDiscriminatorLoss.__call__) *)
Definition oasis_discriminator (real_logits fake_logits : tensor R) (target : label_map) : res R :=
  do u <- verify_shape real_logits target;
  do u <- verify_shape fake_logits target;
  if negb (lm_long target) then Raise ValueError else
  do bk <- batch_and_classes real_logits;
  do t <- view_infer (lm_tensor target) [fst bk];
  do r <- view_infer real_logits [fst bk; snd bk];
  do a <- cross_entropy r (add1 t);
  do f <- view_infer fake_logits [fst bk; snd bk];
  do b <- cross_entropy f (zeros_like t);
  Ok (1/2 * (a + b)).
(** L90-109 (OASISGeneratorLoss.__call__) *)
Definition oasis_generator (logits : tensor R) (target : label_map) : res R :=
  do u <- verify_shape logits target;
  if negb (lm_long target) then Raise ValueError else
  do bk <- batch_and_classes logits;
  do t <- view_infer (lm_tensor target) [fst bk];
  do r <- view_infer logits [fst bk; snd bk];
  cross_entropy r (add1 t).

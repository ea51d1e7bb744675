(** Model of projects/torch_vct/neural/patcher.py.

    Tensors hold real numbers.  Simplified: math.ceil(H / stride) divides in floating
    point; it is exact for sizes below 2^53, so the model divides integers. *)
From Coq Require Import Arith List Lia Bool Reals.
From Verif Require Import Base Tensor.
Import ListNotations.
Open Scope nat_scope.

(** patcher.py L31-41 *)
Definition patched : Type := tensor R * (nat * nat).

Definition ceil_div (a b : nat) : nat := (a + b - 1) / b.

Section Patcher.
(** patcher.py L44-57: the constructor's arguments. *)
Variable stride : nat.
Variable mode : pad_mode.

(** patcher.py L59-100 (_pad) *)
Definition p_pad (x : tensor R) (patch_size : nat) : res (tensor R * nat * nat) :=
  match tshape x with
  | [_; _; h; w] =>
      if patch_size <? stride then Raise ValueError
      else
        let missing := patch_size - stride in
        if negb (missing mod 2 =? 0) then Raise ValueError
        else
          let m := missing / 2 in
          if stride =? 0 then Raise ZeroDivisionError
          else
            let hp := ceil_div h stride * stride in
            let wp := ceil_div w stride * stride in
            do y <- pad2 0%R mode x m (wp - w + m) m (hp - h + m);
            Ok (y, hp / stride, wp / stride)
  | _ => Raise AssertionError
  end.

(** patcher.py L110-141 (_window_partition) *)
Definition window_partition (x : tensor R) (patch_size : nat) : res (tensor R) :=
  match tshape x with
  | [b; c; h; w] =>
      if patch_size =? 0 then Raise ZeroDivisionError
      else if negb (h mod patch_size =? 0) || negb (w mod patch_size =? 0) then Raise ValueError
      else
        let nh := h / patch_size in
        let nw := w / patch_size in
        do y <- reshape x [b; c; nh; patch_size; nw; patch_size];
        reshape (permute y [0; 2; 4; 3; 5; 1]) [b * nh * nw; patch_size * patch_size; c]
  | _ => Raise ValueError
  end.

(** patcher.py L143-168 (_window_partition_conv2d) *)
Definition window_partition_conv2d (x : tensor R) (patch_size : nat) : res (tensor R) :=
  match tshape x with
  | [b; c; h; w] =>
      let p2 := patch_size * patch_size in
      do kernel <- reshape (eye (p2 * c)) [c * p2; c; patch_size; patch_size];
      do patches <- conv2d x kernel stride;
      match tshape patches with
      | [_; _; nh; nw] =>
          do y <- reshape patches [b; c; p2; nh; nw];
          reshape (permute y [0; 3; 4; 2; 1]) [b * nh * nw; p2; c]
      | _ => Raise ValueError
      end
  | _ => Raise ValueError
  end.

(** patcher.py L170-190 (forward) *)
Definition forward (x : tensor R) (patch_size : nat) : res patched :=
  do (xp, nh, nw) <- p_pad x patch_size;
  do p <- (if patch_size =? stride then window_partition xp patch_size
           else window_partition_conv2d xp patch_size);
  Ok (p, (nh, nw)).

(** patcher.py L192-228 (unpatch) *)
Definition unpatch (xp : patched) (crp : option (nat * nat)) (channels_last : bool) : res (tensor R) :=
  let '(x, (nh, nw)) := xp in
  let x := if channels_last then x else permute x [0; 2; 1] in
  match tshape x with
  | [_; seq_len; c] =>
      if negb (seq_len =? stride * stride) then Raise AssertionError
      else
        do y <- reshape_infer x [nh; nw; stride; stride; c];
        do z <- reshape_infer (permute y [0; 5; 1; 3; 2; 4]) [c; nh * stride; nw * stride];
        match crp with
        | Some (h, w) => crop z h w
        | None => Ok z
        end
  | _ => Raise ValueError
  end.
End Patcher.

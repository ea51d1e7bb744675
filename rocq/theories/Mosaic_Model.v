(** Model of the images that the trainings log: WandbImageCallback of
    projects/deep_video_compression/train.py, projects/illm/train.py and
    projects/torch_vct/model_train.py, with torch.cat and torchvision.utils.make_grid.

    Simplifications: numbers are real; a tensor is a shape and a function of the index; wandb keeps
    what it is given, in order; device and dtype of the batch do not matter; the special treatment
    of empty one-dimensional tensors in torch.cat is left out. *)
From Coq Require Import String Reals List Bool Arith Lia.
From Verif Require Import Base Tensor Func_Model Warp_Model DvcGop_Model.
Import ListNotations.
Open Scope string_scope.
Open Scope list_scope.
Open Scope nat_scope.

(** l[d] = v *)
Fixpoint set_nth {A} (d : nat) (v : A) (l : list A) : list A :=
  match l, d with
  | [], _ => []
  | _ :: r, 0 => v :: r
  | x :: r, S d => x :: set_nth d v r
  end.
Fixpoint list_eqb (a b : list nat) : bool :=
  match a, b with
  | [], [] => true
  | x :: a, y :: b => (x =? y) && list_eqb a b
  | _, _ => false
  end.
(** torch.cat(ts, dim=d - len(shape)), [d] counted from the front: which tensor an index falls into *)
Fixpoint cat_at (d : nat) (ts : list (tensor R)) (idx : list nat) : R :=
  match ts with
  | [] => 0%R
  | t :: r =>
      let n := nth d (tshape t) 0 in
      let i := nth d idx 0 in
      if i <? n then tat t idx else cat_at d r (set_nth d (i - n) idx)
  end.
(** torch.cat(ts, dim=-k): RuntimeError for no tensors or sizes that differ in another dimension,
    IndexError for a dimension that does not exist *)
Definition cat (k : nat) (ts : list (tensor R)) : res (tensor R) :=
  match ts with
  | [] => Raise RuntimeError
  | t :: _ =>
      let rank := length (tshape t) in
      if rank <? k then Raise IndexError
      else
        let d := rank - k in
        if forallb (fun u => list_eqb (set_nth d 0 (tshape u)) (set_nth d 0 (tshape t))) ts
        then Ok (mkT (set_nth d (fold_right Nat.add 0 (map (fun u => nth d (tshape u) 0) ts)) (tshape t)) (cat_at d ts))
        else Raise RuntimeError
  end.
(** t[i] *)
Definition select (t : tensor R) (i : nat) : tensor R := mkT (tl (tshape t)) (fun idx => tat t (i :: idx)).
(** list(t) *)
Definition unbind (t : tensor R) : res (list (tensor R)) :=
  match tshape t with
  | [] => Raise TypeError
  | n :: _ => Ok (map (select t) (seq 0 n))
  end.
(** torch.clip(t, min=0, max=1.0) *)
Definition clip01 (t : tensor R) : tensor R := mkT (tshape t) (fun idx => Rmin (Rmax (tat t idx) 0) 1).
(** t.unsqueeze(0) *)
Definition unsqueeze0 (t : tensor R) : tensor R := mkT (1 :: tshape t) (fun idx => tat t (tl idx)).

(** One call of trainer.logger.experiment.log: key, image, caption, global_step. *)
Record record := mkRec { r_key : string; r_image : tensor R; r_caption : string; r_step : nat }.
(** What was logged, and whether an exception ended it. *)
Definition outcome := (list record * res unit)%type.

(** * projects/deep_video_compression/train.py *)
Definition dvc_keys : list string := ["flow"; "image1"; "image2"; "image2_est"].
(** image_dict: insertion order is irrelevant, as the keys are read in a fixed order *)
Definition dict := list (string * list (tensor R)).
(** image_dict.setdefault(key, []).append(t) *)
Fixpoint setdefault_append (key : string) (t : tensor R) (d : dict) : dict :=
  match d with
  | [] => [(key, [t])]
  | (k, l) :: r => if String.eqb k key then (k, l ++ [t]) :: r else (k, l) :: setdefault_append key t r
  end.
Fixpoint get (key : string) (d : dict) : option (list (tensor R)) :=
  match d with
  | [] => None
  | (k, l) :: r => if String.eqb k key then Some l else get key r
  end.
(** L38-43 (append_images); a group is an OutputTensors of _utils.py L26-30 *)
Definition append_images (d : dict) (group : list (option (tensor R))) : dict :=
  fold_left (fun d kt => match snd kt with Some t => setdefault_append (fst kt) t d | None => d end) (combine dvc_keys group) d.
(** _optical_flow_to_color.py L13: the default of eps *)
Definition eps : R := (1 / 100000)%R.
(** L51-56: the mosaic of one key *)
Definition mosaic (key : string) (l : list (tensor R)) : res (tensor R) :=
  do m <- cat 1 l;
  do rows <- unbind m;
  do m <- cat 2 rows;
  do m <- (if String.eqb key "flow" then do c <- optical_flow_to_color (unsqueeze0 m) eps; Ok (select c 0) else Ok m);
  Ok (clip01 m).
Definition dvc_caption (key : string) : string := (key ++ " (y-axis: batch, x-axis: time)")%string.
(** L45-63 (log_images) *)
Fixpoint dvc_log (base : string) (d : dict) (step : nat) (keys : list string) : outcome :=
  match keys with
  | [] => ([], Ok tt)
  | key :: r =>
      match get key d with
      | None => dvc_log base d step r
      | Some l =>
          match mosaic key l with
          | Raise e => ([], Raise e)
          | Ok m => let '(rs, x) := dvc_log base d step r in
                    (mkRec (base ++ "/" ++ key) m (dvc_caption key) step :: rs, x)
          end
      end
  end.
Definition dvc_log_images (base : string) (d : dict) (step : nat) : outcome := dvc_log base d step dvc_keys.

Section Dvc.
Variables weights quants : Type.
Variable iframe : tensor R -> tensor R * R.
Variable compute_batch_loss : weights -> quants -> tensor R -> tensor R -> losses * tensor R.
(** the flow among the images that compute_batch_loss returns *)
Variable flow : weights -> quants -> tensor R -> tensor R -> tensor R.
(** L65-82 (on_validation_end); the frames are those of DvcGop_Model.on_validation_end. The second
    component is the logger's own batch afterwards. *)
Definition dvc_on_validation_end (same : bool) (stage : string) (num_pframes step : nat)
    (s : state (tensor R) weights quants) (own : list (tensor R)) : outcome * list (tensor R) :=
  match DvcGop_Model.on_validation_end _ _ _ iframe compute_batch_loss same num_pframes s own with
  | Raise e =>          (* the frames were too few; the batch may already be changed *)
      (([], Raise e), match compress_iframe _ iframe own with Ok b => if same then fst b else own | Raise _ => own end)
  | Ok (l, own') =>
      let groups := map (fun '(x, y, est) => [Some (flow (s_w _ _ _ s) (s_q _ _ _ s) x y); Some x; Some y; Some est]) l in
      (dvc_log_images ("log_images_stage_" ++ stage) (fold_left append_images groups []) step, own')
  end.
End Dvc.

(** * torchvision.utils.make_grid *)
(** grid.narrow(1, y0, h).narrow(2, x0, w).copy_(img) *)
Definition paste (grid : tensor R) (y0 x0 h w : nat) (img : tensor R) : tensor R :=
  mkT (tshape grid) (fun idx => match idx with
    | [c; i; j] => if (y0 <=? i) && (i <? y0 + h) && (x0 <=? j) && (j <? x0 + w)
                   then tat img [c; i - y0; j - x0] else tat grid idx
    | _ => tat grid idx
    end).
(** for x in range(xmaps): if k >= nmaps: break; ...; k = k + 1 *)
Fixpoint grid_row (t : tensor R) (nmaps padding h w y : nat) (xs : list nat) (gk : tensor R * nat) : tensor R * nat :=
  match xs with
  | [] => gk
  | x :: r =>
      let '(g, k) := gk in
      if nmaps <=? k then gk
      else grid_row t nmaps padding h w y r
             (paste g (y * (h + padding) + padding) (x * (w + padding) + padding) h w (select t k), k + 1)
  end.
(** math.ceil(a / b) *)
Definition ceil_div (a b : nat) : nat := (a + b - 1) / b.
(** make_grid(t, nrow, padding) of a batch of images; one image comes back without a border, no
    image at all is a ZeroDivisionError, one channel becomes three *)
Definition make_grid (t : tensor R) (nrow padding : nat) : res (tensor R) :=
  match tshape t with
  | [n; c; h; w] =>
      let t := if c =? 1 then mkT [n; 3; h; w] (fun idx => match idx with [k; _; i; j] => tat t [k; 0; i; j] | _ => 0%R end) else t in
      let c := if c =? 1 then 3 else c in
      if n =? 1 then Ok (select t 0)
      else
        let xmaps := min nrow n in
        if xmaps =? 0 then Raise ZeroDivisionError
        else
          let ymaps := ceil_div n xmaps in
          let grid := mkT [c; (h + padding) * ymaps + padding; (w + padding) * xmaps + padding] (fun _ => 0%R) in
          Ok (fst (fold_left (fun gk y => grid_row t n padding h w y (seq 0 xmaps) gk) (seq 0 ymaps) (grid, 0)))
  | _ => Raise TypeError
  end.

(** * projects/illm/train.py *)
Section Illm.
Variable gen : Type.
(** pl_module(batch).image, in training or in evaluation mode, with the state of the random number
    generator *)
Variable model : bool -> gen -> tensor R -> res (tensor R) * gen.
(** L78-86 (_compute_input_output_batch); make_grid's defaults are nrow=8, padding=2 *)
Definition illm_pair (training : bool) (g : gen) (batch : tensor R) : res (tensor R * tensor R) * gen :=
  let '(out, g) := model training g batch in
  (do out <- out;
   do a <- make_grid batch 8 2;
   do b <- make_grid (clip01 out) 8 2;
   Ok (a, b), g).
(** L62-76 (log_images): both keys are there *)
Definition log_pair (base : string) (ab : tensor R * tensor R) (step : nat) : list record :=
  [mkRec (base ++ "/image") (fst ab) "image" step;
   mkRec (base ++ "/image_compressed") (snd ab) "image_compressed" step].
Definition illm_log (training : bool) (base1 base2 : string) (train_batch eval_batch : tensor R) (step : nat) (g : gen) : outcome * gen :=
  let '(p, g) := illm_pair training g train_batch in
  match p with
  | Raise e => (([], Raise e), g)
  | Ok p =>
      let '(q, g) := illm_pair training g eval_batch in
      match q with
      | Raise e => ((log_pair base1 p step, Raise e), g)
      | Ok q => ((log_pair base1 p step ++ log_pair base2 q step, Ok tt), g)
      end
  end.
(** L88-100 (on_validation_end): Lightning calls it in evaluation mode *)
Definition illm_on_validation_end := illm_log false "train_images" "eval_images".
(** L102-114 (on_train_epoch_end): Lightning calls it in training mode *)
Definition illm_on_train_epoch_end := illm_log true "model.training_train_images" "model.training_eval_images".
End Illm.

(** * projects/torch_vct/model_train.py *)
Section Vct.
(** pl_module(batch)[0] in evaluation mode *)
Variable model : tensor R -> res (tensor R).
(** t[0] *)
Definition first (t : tensor R) : res (tensor R) :=
  match tshape t with
  | 0 :: _ | [] => Raise IndexError
  | _ => Ok (select t 0)
  end.
(** L48-59 (_compute_input_output_batch) *)
Definition vct_pair (video : tensor R) : res (tensor R * tensor R) :=
  do out <- model video;
  do v <- first video;
  do a <- make_grid v 7 2;
  do o <- first (clip01 out);
  do b <- make_grid o 7 2;
  Ok (a, b).
(** L61-73 (on_validation_end) *)
Definition vct_on_validation_end (train_batch eval_batch : tensor R) (step : nat) : outcome :=
  match vct_pair train_batch with
  | Raise e => ([], Raise e)
  | Ok p =>
      match vct_pair eval_batch with
      | Raise e => (log_pair "train_images" p step, Raise e)
      | Ok q => (log_pair "train_images" p step ++ log_pair "eval_images" q step, Ok tt)
      end
  end.
End Vct.

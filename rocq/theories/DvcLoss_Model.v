(** Model of what a stage of the training of projects/deep_video_compression trains: the
    configuration of the stages (train.py, config/), the construction of DvcModule (dvc_module.py)
    and the losses of the stages (_utils.py), with DVC.forward
    (neuralcompression/models/deep_video_compression.py L271-314).

    Networks are arbitrary functions of the weights of their submodule; an image is its sizes and its
    pixels.

    Simplifications: numbers are real; images of different sizes are not broadcast; a configuration
    is a dictionary with interpolations resolved, whose keys are ASCII; CompressAI's models are an
    arbitrary function of name and quality; the training itself is C72 and C73. *)
From Coq Require Import String Reals QArith List Bool Arith Lia.
From Verif Require Import Base DvcStages_Model.
Import ListNotations.
Open Scope string_scope.
Open Scope list_scope.
Open Scope nat_scope.

(** * Configurations *)
Inductive value := VNone | VNum (q : Q) | VStr (s : string) | VDict (d : list (string * value)).
Definition dict := list (string * value).
Definition get (k : string) (d : dict) : option value := option_map snd (find (fun p => String.eqb (fst p) k) d).
Definition has (k : string) (d : dict) : bool := existsb (fun p => String.eqb (fst p) k) d.
(** d[k] = v: in its place, or at the end *)
Definition set_item (k : string) (v : value) (d : dict) : dict :=
  if has k d then map (fun p => if String.eqb (fst p) k then (fst p, v) else p) d else d ++ [(k, v)].
(** train.py L85-91 (merge_configs) *)
Definition merge_configs (cfg1 cfg2 : dict) : dict := fold_left (fun d p => set_item (fst p) (snd p) d) cfg2 cfg1.

(** dvc_module.py L26-32 (TRAINING_STAGES) *)
Definition TRAINING_STAGES : list (string * cls) :=
  [("1_motion_estimation", DvcStage1); ("2_motion_compression", DvcStage2); ("3_motion_compensation", DvcStage3);
   ("4_total_2frame", DvcStage4and5); ("5_total", DvcStage4and5)].
Definition stage_of (s : string) : option cls := option_map snd (find (fun p => String.eqb (fst p) s) TRAINING_STAGES).

Record module := mkM { m_stage : string; m_class : cls; m_pframes : value; m_lambda : value; m_lr : value;
                       m_aux_lr : value; m_sched : value; m_clip : value; m_iframe : value * value }.
(** dvc_module.py L71-84: the parameters, those without a default first *)
Definition required : list string := ["training_stage"; "pretrained_model_name"; "pretrained_model_quality_level"].
Definition optional : list (string * value) :=
  [("num_pframes", VNum 1); ("distortion_type", VStr "MSE"); ("distortion_lambda", VNum 256);
   ("learning_rate", VNum (1 # 10000)); ("aux_learning_rate", VNum (1 # 1000)); ("lr_scheduler_params", VNone); ("grad_clip_value", VNum 1)].
Definition known (k : string) : bool := existsb (String.eqb k) required || has k optional.
(** The value of a parameter in a call with keywords [kw]. *)
Definition arg (k : string) (kw : dict) : value :=
  match get k kw with Some v => v | None => match get k optional with Some v => v | None => VNone end end.

Section Module.
(** compressai.zoo.models[name](quality, pretrained=True) *)
Variable zoo : value -> value -> res unit.
(** dvc_module.py L71-125 (DvcModule(model, **kw)): "model" is not among the known keywords since it
    is given by position. *)
Definition new_module (kw : dict) : res module :=
  if negb (forallb (fun p => known (fst p)) kw) then Raise TypeError
  else if negb (forallb (fun k => has k kw) required) then Raise TypeError
  else
    do _ <- zoo (arg "pretrained_model_name" kw) (arg "pretrained_model_quality_level" kw);
    match arg "training_stage" kw with
    | VStr s =>
        match stage_of s with
        | None => Raise ValueError
        | Some c =>
            match arg "distortion_type" kw with
            | VStr t =>
                if String.eqb t "MSE" then
                  Ok (mkM s c (arg "num_pframes" kw) (arg "distortion_lambda" kw) (arg "learning_rate" kw) (arg "aux_learning_rate" kw)
                          (arg "lr_scheduler_params" kw) (arg "grad_clip_value" kw) (arg "pretrained_model_name" kw, arg "pretrained_model_quality_level" kw))
                else Raise ValueError
            | _ => Raise ValueError
            end
        end
    | _ => Raise ValueError
    end.

Record stage_cfg := mkSC { sc_save_dir : option string; sc_module : dict; sc_trainer : dict }.
Record config := mkCfg { cfg_root : list string; cfg_module : dict; cfg_trainer : dict; cfg_stages : list (string * stage_cfg) }.
(** sorted(cfg.training_stages.keys()), train.py L161 *)
Fixpoint insert (x : string) (l : list string) : list string :=
  match l with [] => [x] | y :: r => if String.leb x y then x :: l else y :: insert x r end.
Definition sorted (l : list string) : list string := fold_right insert [] l.

Record planned := mkPl { p_name : string; p_dir : list string; p_module : module; p_trainer : dict }.
(** train.py L94-130 (run_training_stage) up to the training: directory, module and the arguments of
    the trainer, of which logger, callbacks and resume_from_checkpoint are given already. *)
Definition plan_stage (cfg : config) (stage : string) : res planned :=
  match find (fun p => String.eqb (fst p) stage) (cfg_stages cfg) with
  | None => Raise KeyError
  | Some (_, sc) =>
      let dir := match sc_save_dir sc with None => cfg_root cfg ++ [stage] | Some d => [d] end in
      do m <- new_module (merge_configs (cfg_module cfg) (sc_module sc));
      let targs := merge_configs (cfg_trainer cfg) (sc_trainer sc) in
      if has "logger" targs || has "callbacks" targs || has "resume_from_checkpoint" targs then Raise TypeError
      else Ok (mkPl stage dir m targs)
  end.
(** train.py L161-162 *)
Definition plan (cfg : config) : res (list planned) := mapM (plan_stage cfg) (sorted (map fst (cfg_stages cfg))).
End Module.

(** config/base.yaml and config/training_stages/: the default configuration *)
Definition stage_default (pframes : Q) (stage : string) (extra : dict) (steps : Q) : stage_cfg :=
  mkSC None ([("num_pframes", VNum pframes); ("training_stage", VStr stage)] ++ extra) [("max_steps", VNum steps)].
Definition lr : string * value := ("learning_rate", VNum (1 # 10000)).
Definition default_config : config :=
  mkCfg ["."]
    [("pretrained_model_name", VStr "bmshj2018-hyperprior"); ("pretrained_model_quality_level", VNum 3);
     ("distortion_type", VStr "MSE"); ("distortion_lambda", VNum 256); ("aux_learning_rate", VNum (1 # 1000))]
    [("gpus", VNum 1); ("accelerator", VStr "ddp")]
    [("s1_motion_estimation", stage_default 1 "1_motion_estimation" [("distortion_lambda", VNum 1); lr] 2000);
     ("s2_motion_compression", stage_default 1 "2_motion_compression" [lr] 20000);
     ("s3_motion_compensation", stage_default 1 "3_motion_compensation" [lr] 20000);
     ("s4_total_2frame", stage_default 1 "4_total_2frame" [lr] 60000);
     ("s5_total", stage_default 6 "5_total" [lr; ("lr_scheduler_params", VDict [("step_size", VNum 200000); ("gamma", VNum (1 # 10))])] 500000)].

(** * Losses *)
Record image := mkI { iB : nat; iC : nat; iH : nat; iW : nat; px : list R }.
(** Broadcasting is not modelled: images of different sizes raise, also where a side of one is 1. *)
Definition same_size (a b : image) : bool :=
  (iB a =? iB b) && (iC a =? iC b) && (iH a =? iH b) && (iW a =? iW b) && (length (px a) =? length (px b)).
Definition zip (f : R -> R -> R) (a b : list R) : list R := map (fun p => f (fst p) (snd p)) (combine a b).
Definition image_op (f : R -> R -> R) (a b : image) : res image :=
  if same_size a b then Ok (mkI (iB a) (iC a) (iH a) (iW a) (zip f (px a) (px b))) else Raise RuntimeError.
Definition sum (l : list R) : R := fold_right Rplus 0%R l.
Definition mean (l : list R) : R := (sum l / INR (length l))%R.
(** torch.nn.MSELoss *)
Definition mse_loss (a b : image) : res R :=
  do d <- image_op Rminus a b; Ok (mean (map (fun x => (x * x)%R) (px d))).

Section Losses.
Variables W flow latent sizes : Type.
Notation model := (sub -> W).
(** The submodules as functions of their weights; the motion estimator gives the flow and the pairs
    of images of its levels (deep_video_compression.py L536-600). *)
Variable estimator : W -> image -> image -> flow * list (image * image).
Variable m_encoder : W -> flow -> latent * sizes.
Variable m_bottleneck : W -> latent -> latent * list R.
Variable m_decoder : W -> latent -> sizes -> flow.
Variable warp : image -> flow -> image.
Variable compensation : W -> image -> image -> flow -> image.
Variable r_encoder : W -> image -> latent * sizes.
Variable r_bottleneck : W -> latent -> latent * list R.
Variable r_decoder : W -> latent -> sizes -> image.
(** distortion_lambda *)
Variable lambda : R.

(** dvc_module.py L107-108 and L110-114, with functional/_information_content.py L43-50 *)
Definition distortion_fn (a b : image) : res R := do x <- mse_loss a b; Ok (lambda * x)%R.
Definition entropy_fn (ps : list R) (reduction_factor : nat) : R :=
  ((-1 / ln 2) * sum (map ln ps) / INR reduction_factor)%R.

(** _utils.py L15-30 *)
Record values := mkV { distortion_loss : R; flow_entropy_loss : option R; resid_entropy_loss : option R }.
Record outputs := mkOut { o_flow : flow; o_image1 : image; o_image2 : image; o_est : image }.

(** deep_video_compression.py L46-65 (DVCTrainOutput) and L271-314 (forward) *)
Record dvc_out := mkDvc { d_flow : flow; d_est : image; d_residual : image; d_flow_probs : list R; d_resid_probs : list R }.
Definition dvc_forward (m : model) (image1 image2 : image) : res dvc_out :=
  let f := fst (estimator (m MotionEstimator) image1 image2) in
  let (l, s) := m_encoder (m MotionEncoder) f in
  let (l, flow_probabilities) := m_bottleneck (m MotionBottleneck) l in
  let f := m_decoder (m MotionDecoder) l s in
  let image2_est := warp image1 f in
  let image2_est := compensation (m MotionCompensation) image1 image2_est f in
  do residual <- image_op Rminus image2 image2_est;
  let (l, s) := r_encoder (m ResidualEncoder) residual in
  let (l, resid_probabilities) := r_bottleneck (m ResidualBottleneck) l in
  let residual := r_decoder (m ResidualDecoder) l s in
  do image2_est <- image_op Rplus image2_est residual;
  Ok (mkDvc f image2_est residual flow_probabilities resid_probabilities).

(** _utils.py L82-103 (DvcStage1.compute_batch_loss) *)
Definition loss1 (m : model) (image1 image2 : image) : res (values * outputs) :=
  let (f, outs) := estimator (m MotionEstimator) image1 image2 in
  do frame_losses <- mapM (fun output => distortion_fn (snd output) (fst output)) outs;
  match frame_losses with
  | [] => Raise RuntimeError                   (* torch.stack([]) *)
  | _ => Ok (mkV (mean frame_losses) None None, mkOut f image1 image2 (warp image1 f))
  end.
(** _utils.py L127-135 (DvcStage2.forward) and L196-206 (DvcStage3.forward) *)
Definition forward2 (m : model) (image1 image2 : image) : flow * image * list R :=
  let f := fst (estimator (m MotionEstimator) image1 image2) in
  let (l, s) := m_encoder (m MotionEncoder) f in
  let (l, probabilities) := m_bottleneck (m MotionBottleneck) l in
  let f := m_decoder (m MotionDecoder) l s in
  (f, warp image1 f, probabilities).
Definition forward3 (m : model) (image1 image2 : image) : flow * image * list R :=
  let '(f, image2_est, probabilities) := forward2 m image1 image2 in
  (f, compensation (m MotionCompensation) image1 image2_est f, probabilities).
(** _utils.py L137-162 and L208-233 *)
Definition loss23 (forward : flow * image * list R) (image1 image2 : image) : res (values * outputs) :=
  let '(f, image2_est, probabilities) := forward in
  do distortion <- distortion_fn image2 image2_est;
  let num_pixels := iB image1 * iH image1 * iW image1 in
  Ok (mkV distortion (Some (entropy_fn probabilities num_pixels)) None, mkOut f image1 image2 image2_est).
(** _utils.py L262-294 *)
Definition loss45 (m : model) (image1 image2 : image) : res (values * outputs) :=
  do output <- dvc_forward m image1 image2;
  do distortion <- distortion_fn image2 (d_est output);
  let num_pixels := iB image1 * iH image1 * iW image1 in
  Ok (mkV distortion (Some (entropy_fn (d_flow_probs output) num_pixels)) (Some (entropy_fn (d_resid_probs output) num_pixels)),
      mkOut (d_flow output) image1 image2 (d_est output)).
Definition compute_batch_loss (c : cls) (m : model) (image1 image2 : image) : res (values * outputs) :=
  match c with
  | DvcStage1 => loss1 m image1 image2
  | DvcStage2 => loss23 (forward2 m image1 image2) image1 image2
  | DvcStage3 => loss23 (forward3 m image1 image2) image1 image2
  | DvcStage4and5 => loss45 m image1 image2
  end.
(** dvc_module.py L153-189: the loss that is differentiated *)
Definition total (v : values) : R :=
  (distortion_loss v + match flow_entropy_loss v with Some x => x | None => 0 end
                     + match resid_entropy_loss v with Some x => x | None => 0 end)%R.

(** _utils.py L54-55, L164-165, L235-236, L296-300: the loss of the quantiles, given those of the
    two bottlenecks, and whether there are quantiles to train (L77) *)
Variable bottleneck_loss : W -> R.
Definition quantile_loss (c : cls) (m : model) : R :=
  match c with
  | DvcStage1 => 0%R
  | DvcStage2 | DvcStage3 => bottleneck_loss (m MotionBottleneck)
  | DvcStage4and5 => (bottleneck_loss (m MotionBottleneck) + bottleneck_loss (m ResidualBottleneck))%R
  end.
(** _utils.py L57-58, L167-168, L238-239, L302-305: which bottlenecks get new tables from update,
    and its result; [upd] tells whether a bottleneck needs it. *)
Variable upd : W -> bool.
Definition update (c : cls) (m : model) : list sub * option bool :=
  match c with
  | DvcStage1 => ([], None)
  | DvcStage2 | DvcStage3 => ([MotionBottleneck], Some (upd (m MotionBottleneck)))
  | DvcStage4and5 => ([MotionBottleneck; ResidualBottleneck], Some (upd (m MotionBottleneck) || upd (m ResidualBottleneck)))
  end.
End Losses.

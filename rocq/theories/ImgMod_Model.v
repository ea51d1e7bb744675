(** Model of the metrics of projects/illm/image_module.py (ImageModule) with the steps of
    target_compression_module.py that use them.

    A metric is the list of the updates it has received since it was reset.  Images are symbolic.
    An update may raise (a parameter decides).  Lightning: values logged in the batches of an epoch
    are put out at its end, a metric object as its value at that time, after which it is reset, a
    number as the mean over the batches.

    Simplifications: losses and rates that are logged next to the metrics are left out, except the
    bits per pixel of a test; a patch update counts as one update for each metric. *)
From Coq Require Import String ZArith List Bool Arith Lia.
From Verif Require Import Base.
Import ListNotations.
Open Scope string_scope.

(** Symbolic images: batches are numbered. *)
Inductive term :=
| Image (b : nat)          (* the batch *)
| Forward (b : nat)        (* self.model(images).image *)
| Decoded (b : nat)        (* self.model.decompress(self.model.compress(images)) *)
| Clamped (t : term)       (* .clamp(0.0, 1.0) *)
| Scaled (t : term)        (* ncF.image_to_255_scale(t) *)
| Bytes (t : term).        (* ncF.image_to_255_scale(t, dtype=torch.uint8) *)

Inductive update :=
| Pair (pred target : term)
| Real (t : term)          (* metric.update(t, real=True) *)
| Fake (t : term)
| Patches (t pred : term) (size : nat).  (* through ncm.update_patch_fid *)

(** __init__ L25-54 *)
Inductive metric :=
| TrainPsnr | TrainMse | TrainMsssim
| EvalPsnr | EvalMse | EvalMsssim | EvalLpips | EvalFid
| TestMse | TestMsssim | TestLpips | TestDists | TestFid | TestFidSwav | TestKid.
Definition metric_eqb (a b : metric) : bool :=
  match a, b with
  | TrainPsnr, TrainPsnr | TrainMse, TrainMse | TrainMsssim, TrainMsssim
  | EvalPsnr, EvalPsnr | EvalMse, EvalMse | EvalMsssim, EvalMsssim | EvalLpips, EvalLpips | EvalFid, EvalFid
  | TestMse, TestMse | TestMsssim, TestMsssim | TestLpips, TestLpips | TestDists, TestDists
  | TestFid, TestFid | TestFidSwav, TestFidSwav | TestKid, TestKid => true
  | _, _ => false
  end.
Definition is_test (m : metric) : bool :=
  match m with TestMse | TestMsssim | TestLpips | TestDists | TestFid | TestFidSwav | TestKid => true | _ => false end.

(** What is passed to self.log: a metric object or a number. *)
Inductive number :=
| Psnr (pred target : term)                     (* ncm.calc_psnr *)
| Hific (pred target : term)                    (* 0.075 * 2**-5 * mse + lpips of the batch *)
| Bpp (b : nat).                                (* pickle_size_of(compressed) * 8 / pixels *)
Inductive source := Obj (m : metric) | Num (n : number).
(** What the logger gets. *)
Inductive value := Of (us : list update) | Mean (ns : list number) | Zero.

Record st := mkS {
  upd : metric -> list update;
  test_set : bool;                     (* self.test_metrics_set; the test metrics are None before *)
  ds_name : option string;             (* self.test_dataset_name *)
  pending : list (string * source);    (* Lightning's results of the running epoch *)
  logged : list (string * value)       (* newest first *)
}.
Definition act (A : Type) := st -> res A * st.
Definition ret {A} (a : A) : act A := fun s => (Ok a, s).
Definition raise {A} (e : exn) : act A := fun s => (Raise e, s).
Definition andthen {A B} (m : act A) (k : A -> act B) : act B :=
  fun s => match m s with (Ok a, s') => k a s' | (Raise e, s') => (Raise e, s') end.
Notation "m ;; k" := (andthen m (fun _ => k)) (at level 100, right associativity).
Definition get : act st := fun s => (Ok s, s).
Definition set_upd (f : metric -> list update) : act unit :=
  fun s => (Ok tt, mkS f (test_set s) (ds_name s) (pending s) (logged s)).
Definition reset (m : metric) : act unit :=
  fun s => (Ok tt, mkS (fun x => if metric_eqb x m then [] else upd s x) (test_set s) (ds_name s) (pending s) (logged s)).
Fixpoint resets (l : list metric) : act unit :=
  match l with [] => ret tt | m :: r => reset m ;; resets r end.
Definition pend (l : list (string * source)) : act unit :=
  fun s => (Ok tt, mkS (upd s) (test_set s) (ds_name s) (pending s ++ l)%list (logged s)).
Definition log_now (k : string) (v : value) : act unit :=
  fun s => (Ok tt, mkS (upd s) (test_set s) (ds_name s) (pending s) ((k, v) :: logged s)).

Section Failures.
(** Whether a metric refuses an update, and whether compute() fails. *)
Variable refuses : metric -> update -> option exn.
Variable compute : metric -> list update -> option exn.

Definition update_metric (m : metric) (u : update) : act unit :=
  fun s => match refuses m u with
           | Some e => (Raise e, s)
           | None => (Ok tt, mkS (fun x => if metric_eqb x m then (upd s x ++ [u])%list else upd s x) (test_set s) (ds_name s) (pending s) (logged s))
           end.

(** L69-73 (update_test_dataset_name) with L56-67 (set_test_metrics) *)
Definition update_test_dataset_name (n : string) : act unit :=
  fun s => (Ok tt,
    if test_set s then mkS (upd s) true (Some n) (pending s) (logged s)
    else mkS (fun m => if is_test m then [] else upd s m) true (Some n) (pending s) (logged s)).
(** L75-91 (reset_all_metrics) *)
Definition reset_all_metrics : act unit :=
  resets [TrainPsnr; TrainMse; TrainMsssim; EvalPsnr; EvalMse; EvalMsssim; EvalLpips; EvalFid] ;;
  fun s => if test_set s
           then resets [TestMse; TestMsssim; TestLpips; TestDists; TestFid; TestFidSwav; TestKid] s
           else (Ok tt, s).

(** str in str *)
Fixpoint contains (sub s : string) : bool :=
  String.prefix sub s || match s with EmptyString => false | String _ r => contains sub r end.

(** L93-127 (_update_test_fid_kid); self.patch_size = 256 *)
Definition update_test_fid_kid (images pred : term) (clic_eval : bool) : act unit :=
  fun s => if negb (test_set s) then (Raise AssertionError, s) else
  (if clic_eval then
     update_metric TestFid (Patches images pred 256) ;;
     update_metric TestFidSwav (Patches images pred 256) ;;
     update_metric TestKid (Patches images pred 256)
   else
     update_metric TestFid (Real (Bytes images)) ;;
     update_metric TestFid (Fake (Bytes pred)) ;;
     update_metric TestFidSwav (Real (Bytes images)) ;;
     update_metric TestFidSwav (Fake (Bytes pred)) ;;
     update_metric TestKid (Real (Bytes images)) ;;
     update_metric TestKid (Fake (Bytes pred))) s.

(** L129-219 (log_quality_metrics) *)
Definition log_quality_metrics (output images : term) (prefix : string) (dataset_name : option string) : act unit :=
  let pred := Clamped output in
  let p := Scaled pred in
  let i := Scaled images in
  if String.eqb prefix "train" then
    update_metric TrainPsnr (Pair p i) ;;
    update_metric TrainMsssim (Pair p i) ;;
    update_metric TrainMse (Pair p i)
  else if String.eqb prefix "val" then
    update_metric EvalPsnr (Pair p i) ;;
    update_metric EvalMsssim (Pair p i) ;;
    update_metric EvalMse (Pair p i) ;;
    update_metric EvalLpips (Pair pred images) ;;
    update_metric EvalFid (Real (Bytes images)) ;;
    update_metric EvalFid (Fake (Bytes pred)) ;;
    pend [(prefix ++ "/psnr", Obj EvalPsnr); (prefix ++ "/mse", Obj EvalMse); (prefix ++ "/ms_ssim", Obj EvalMsssim);
          (prefix ++ "/lpips", Obj EvalLpips); (prefix ++ "/hific_distortion", Num (Hific pred images))]
  else if String.eqb prefix "test" then
    fun s => if negb (test_set s) then (Raise AssertionError, s) else
    match dataset_name with
    | None => (Raise ValueError, s)
    | Some d =>
       (update_metric TestMsssim (Pair p i) ;;
        update_metric TestMse (Pair p i) ;;
        update_metric TestLpips (Pair pred images) ;;
        update_metric TestDists (Pair pred images) ;;
        update_test_fid_kid images pred (contains "clic" d || contains "div2k" d) ;;
        pend [(prefix ++ "/" ++ d ++ "_psnr", Num (Psnr p i)); (prefix ++ "/" ++ d ++ "_mse", Obj TestMse);
              (prefix ++ "/" ++ d ++ "_ms_ssim", Obj TestMsssim); (prefix ++ "/" ++ d ++ "_lpips", Obj TestLpips);
              (prefix ++ "/" ++ d ++ "_dists", Obj TestDists); (prefix ++ "/" ++ d ++ "_hific_distortion", Num (Hific pred images))]) s
    end
  else raise ValueError.

(** L221-227 (on_validation_epoch_start, on_test_epoch_start) *)
Definition on_validation_epoch_start : act unit := reset_all_metrics.
Definition on_test_epoch_start : act unit := reset_all_metrics.

(** L229-239 (on_validation_epoch_end) *)
Definition on_validation_epoch_end : act unit :=
  fun s => match compute EvalFid (upd s EvalFid) with
           | None => (log_now "val/fid" (Of (upd s EvalFid)) ;; reset EvalFid) s
           | Some IndexError => reset EvalFid s
           | Some ValueError => reset EvalFid s
           | Some e => (Raise e, s)
           end.
(** L241-254 (on_test_epoch_end) *)
Definition on_test_epoch_end : act unit :=
  fun s => if negb (test_set s) then (Raise AssertionError, s) else
  let d := match ds_name s with Some d => d | None => "None" end in
  let put m k : act unit := fun s => match compute m (upd s m) with Some e => (Raise e, s) | None => log_now k (Of (upd s m)) s end in
  if String.eqb d "kodak" then
    (log_now ("test/" ++ d ++ "_fid") Zero ;; log_now ("test/" ++ d ++ "_fid_swav") Zero ;; log_now ("test/" ++ d ++ "_kid") Zero) s
  else
    (put TestFid ("test/" ++ d ++ "_fid") ;; put TestFidSwav ("test/" ++ d ++ "_fid_swav") ;; put TestKid ("test/" ++ d ++ "_kid")) s.

(** target_compression_module.py L198-235, as far as the metrics go *)
Definition validation_step (b : nat) : act unit := log_quality_metrics (Forward b) (Image b) "val" None.
(** target_compression_module.py L180 and gan_compression_module.py L200 *)
Definition training_step (b : nat) : act unit := log_quality_metrics (Forward b) (Image b) "train" None.
(** target_compression_module.py L241-274 (test_step) *)
Definition test_step (b : nat) : act unit :=
  fun s => match ds_name s with
           | None => (Raise ValueError, s)
           | Some d => (pend [("test/" ++ d ++ "_bpp", Num (Bpp b))] ;;
                        log_quality_metrics (Decoded b) (Image b) "test" (Some d)) s
           end.

(** Lightning: at the end of an epoch. *)
Definition values_of (s : st) (k : string) : value :=
  match find (fun p => String.eqb (fst p) k) (pending s) with
  | Some (_, Obj m) => Of (upd s m)
  | _ => Mean (flat_map (fun p => if String.eqb (fst p) k then match snd p with Num n => [n] | Obj _ => [] end else []) (pending s))
  end.
Definition objects (s : st) : list metric :=
  flat_map (fun p => match snd p with Obj m => [m] | Num _ => [] end) (pending s).
Definition put_out : act unit :=
  fun s =>
    let keys := nodup string_dec (map fst (pending s)) in
    (resets (objects s) ;; fun s' => (Ok tt, mkS (upd s') (test_set s') (ds_name s') [] (map (fun k => (k, values_of s k)) keys ++ logged s')%list)) s.
Fixpoint steps (f : nat -> act unit) (bs : list nat) : act unit :=
  match bs with [] => ret tt | b :: r => f b ;; steps f r end.
(** A new epoch starts with no results. *)
Definition clear_pending : act unit := fun s => (Ok tt, mkS (upd s) (test_set s) (ds_name s) [] (logged s)).
Definition validation_epoch (bs : list nat) : act unit :=
  clear_pending ;; on_validation_epoch_start ;; steps validation_step bs ;; on_validation_epoch_end ;; put_out.
Definition test_epoch (bs : list nat) : act unit :=
  clear_pending ;; on_test_epoch_start ;; steps test_step bs ;; on_test_epoch_end ;; put_out.

(** Anything a user may do, in any order; an exception ends only the operation. *)
Inductive command := Name (n : string) | TrainStart | Train (b : nat) | Validate (bs : list nat) | Test (bs : list nat) | LoadCheckpoint.
Definition run_command (c : command) : act unit :=
  match c with
  | Name n => update_test_dataset_name n
  | TrainStart => reset_all_metrics     (* target_compression_module.py L70-72 *)
  | Train b => training_step b
  | Validate bs => validation_epoch bs
  | Test bs => test_epoch bs
  | LoadCheckpoint => reset_all_metrics (* target_compression_module.py L65-68 *)
  end.
Definition run_commands (s : st) (cs : list command) : st := fold_left (fun s c => snd (run_command c s)) cs s.
Definition init : st := mkS (fun _ => []) false None [] [].
End Failures.

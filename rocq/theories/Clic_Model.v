(** Model of the iteration of CLIC2020Video (neuralcompression/data/_clic_2020_video.py).

    Outside the model, as parameters: the clip sampler (pytorchvideo; it may keep state, and
    decides from the start time and the duration), reading a video and cutting a clip.  The
    sampler order is the list [order] that MultiProcessSampler yields for this process.  Times
    are integers in the unit of the caller. *)
From Coq Require Import ZArith List Bool Lia.
From Verif Require Import Base.
Import ListNotations.
Open Scope Z_scope.

(** pytorchvideo's ClipInfo. *)
Record clip_info := mkCI { ci_start : Z; ci_end : Z; ci_clip : Z; ci_aug : Z; ci_last : bool }.

Section Clic.
Context {Video Clip SS : Type}.
Variable open_video : nat -> res Video.              (* L101-108: FrameVideo.from_frame_paths *)
Variable duration : Video -> Z.
Variable get_clip : Video -> Z -> Z -> Clip.         (* L119-123, the "video" entry *)
Variable sampler : SS -> Z -> Z -> SS * clip_info.   (* L112-116 *)

(** What one item says (L132-140): the clip, its video and its numbers. *)
Record sample := mkS { s_clip : Clip; s_video : nat; s_clip_index : Z; s_aug : Z }.
(** _current_video, _current_video_clip (not set at first), _next_clip_start_sec, the clip
    sampler's state and what is left of the sampler's iterator. *)
Record clic := mkC { c_current : option (Video * nat); c_clip : option Clip; c_start : Z;
                     c_state : SS; c_left : list nat }.

(** L97-145 (__getitem__) without the user's transform.  AttributeError when there is no clip
    yet. *)
Definition clic_get (s : clic) (index : nat) : res (clic * sample) :=
  do (video, index) <- match c_current s with
                        | Some vi => Ok vi
                        | None => do v <- open_video index; Ok (v, index)
                        end;
  let '(ss, info) := sampler (c_state s) (c_start s) (duration video) in
  let clip := if ci_aug info =? 0 then Some (get_clip video (ci_start info) (ci_end info)) else c_clip s in
  match clip with
  | None => Raise AttributeError
  | Some c =>
      Ok (mkC (if ci_last info then None else Some (video, index)) (Some c)
              (if ci_last info then 0 else ci_end info) ss (c_left s),
          mkS c index (ci_clip info) (ci_aug info))
  end.

(** L150-160 (__next__): the iterator object is never false, so it is never made again; the next
    index is taken from it in any case.  [None] stands for StopIteration. *)
Definition clic_next (s : clic) : res (option (clic * sample)) :=
  match c_left s with
  | [] => Ok None
  | index :: remaining =>
      do r <- clic_get (mkC (c_current s) (c_clip s) (c_start s) (c_state s) remaining) index;
      Ok (Some r)
  end.

(** A for loop over the data set: [fuel] calls of next, until StopIteration.  L147-148:
    iter(dataset) is the data set itself. *)
Fixpoint clic_loop (fuel : nat) (s : clic) : res (clic * list sample) :=
  match fuel with
  | O => Raise Diverges
  | S k =>
      do r <- clic_next s;
      match r with
      | None => Ok (s, [])
      | Some (s', x) => do (s2, l) <- clic_loop k s'; Ok (s2, x :: l)
      end
  end.
(** L89-95: a new data set of [n] videos. *)
Definition clic_init (ss : SS) (order : list nat) : clic := mkC None None 0 ss order.
(** L162-163 (__len__). *)
Definition clic_len (videos : list nat) : nat := length videos.
End Clic.

(** L198-206 (_sample_frames), in exact arithmetic: entry i of linspace(0, n-1, k) is
    i*(n-1)/(k-1), or 0 for k = 1; .long() drops the fraction.  IndexError for an empty list. *)
Definition sample_index (n k i : nat) : nat := if (k =? 1)%nat then 0%nat else (i * (n - 1) / (k - 1))%nat.
Definition sample_frames {A} (frames : list A) (k : nat) : res (list A) :=
  mapM (fun i => match nth_error frames (sample_index (length frames) k i) with
                 | Some a => Ok a
                 | None => Raise IndexError
                 end) (seq 0 k).

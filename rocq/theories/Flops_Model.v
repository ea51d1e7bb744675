(** Model of count_flops (neuralcompression/functional/_count_flops.py).

    fvcore is modelled by what count_flops relies on: FlopCountAnalysis has a table of built-in
    handles and a set of ignored operators (both parameters), set_op_handle(name=handle) replaces
    an entry (None removes it), and an operator of the trace is counted by its handle if it has
    one, and otherwise recorded as unsupported unless it is ignored.  Tracing is outside the
    model: a graph is the list of its operators.  Scopes (submodules) are left out. *)
From Coq Require Import ZArith String List Bool Lia.
From Verif Require Import Base.
Import ListNotations.
Open Scope Z_scope.

(** Python dictionaries with string keys: the first entry counts. *)
Definition dict (A : Type) := list (string * A).
Fixpoint lookup {A} (d : dict A) (k : string) : option A :=
  match d with
  | [] => None
  | (n, a) :: r => if String.eqb n k then Some a else lookup r k
  end.
(** d.update(e), for an [e] without repeated keys. *)
Definition update {A} (d e : dict A) : dict A := e ++ d.

Section Flops.
Context {Payload : Type}.
(** An operator of the trace: its kind, the shape of its first output, and the rest. *)
Record node := mkN { n_kind : string; n_out : list Z; n_rest : Payload }.
(** A handle returns counts under one or more names; a bare number is counted under the
    operator's short name, which is left to the handle here. *)
Definition handle := node -> dict Z.

Definition numel (shape : list Z) : Z := fold_right Z.mul 1 shape.
(** fvcore.nn.jit_handles.generic_activation_jit(name). *)
Definition generic_activation (name : string) : handle := fun n => [(name, numel (n_out n))].

(** L16-28, L43-60. *)
Definition single_flop_ops : list string :=
  map (append "aten::") ["abs"; "add"; "div"; "mul"; "neg"; "rsub"; "sign"; "sub"]%string.
Definition single_flop_estimates : list string :=
  map (append "aten::") ["erfc"; "exp"; "log"; "log10"; "log2"; "pow"; "reciprocal"; "rsqrt"; "sigmoid";
                         "softplus"; "sqrt"; "tanh"; "uniform"]%string.
(** L65-75: the operators and their in-place forms. *)
Definition counters_of (ops : list string) : dict (option handle) :=
  map (fun n => (n, Some (generic_activation n))) (ops ++ map (fun n => append n "_") ops).
Definition op_counters : dict (option handle) := counters_of single_flop_ops.
Definition estimate_counters : dict (option handle) := counters_of single_flop_estimates.
(** L80. *)
Definition ops_to_ignore : list string := ["aten::empty_like"; "aten::numel"]%string.

Variable builtin : string -> option handle.    (* fvcore's table *)
Variable ignored : string -> bool.             (* fvcore's ignored operators *)

(** FlopCountAnalysis after set_op_handle: which handle an operator gets. *)
Definition handle_for (counters : dict (option handle)) (kind : string) : option handle :=
  match lookup counters kind with
  | Some o => o
  | None => builtin kind
  end.
Definition is_ignored (kind : string) : bool := existsb (String.eqb kind) ops_to_ignore || ignored kind.

(** Adding to a Counter. *)
Fixpoint count_add (k : string) (v : Z) (d : dict Z) : dict Z :=
  match d with
  | [] => [(k, v)]
  | (n, a) :: r => if String.eqb n k then (n, a + v) :: r else (n, a) :: count_add k v r
  end.
Definition count_all (d e : dict Z) : dict Z := fold_left (fun acc p => count_add (fst p) (snd p) acc) e d.

(** by_operator and unsupported_ops. *)
Definition analyze (counters : dict (option handle)) (graph : list node) : dict Z * dict Z :=
  fold_left (fun '(counts, unsupported) n =>
    match handle_for counters (n_kind n) with
    | Some h => (count_all counts (h n), unsupported)
    | None => if is_ignored (n_kind n) then (counts, unsupported)
              else (counts, count_add (n_kind n) 1 unsupported)
    end) graph ([], []).
Definition total (counts : dict Z) : Z := fold_right Z.add 0 (map snd counts).

(** L83-162.  [table] is the module-level dictionary _SINGLE_FLOP_OP_COUNTERS, which outlives the
    call; the copy of L149 is what the calls of update change. *)
Definition count_flops (table : dict (option handle)) (graph : list node)
  (overrides : option (dict (option handle))) (estimates : bool)
  : dict (option handle) * (Z * dict Z * dict Z) :=
  let counters := table in
  let counters := if estimates then update counters estimate_counters else counters in
  let counters := match overrides with Some o => update counters o | None => counters end in
  let '(counts, unsupported) := analyze counters graph in
  (table, (total counts, counts, unsupported)).
End Flops.

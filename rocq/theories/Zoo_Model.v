(** The model zoo and the torch.hub entry points
    (/repo/neuralcompression/zoo/_msillm.py, _noganms.py, _msillm_vqvae.py and
    /repo/hubconf.py), on top of the cache of torch.hub.

    Simplifications: a checkpoint is the list of the blocks a download writes;
    what [torch.load] makes of a file and whether a state dictionary has the keys
    and shapes of a network are parameters; the log messages and the shapes inside
    the networks are left out.  [torch.hub.load_state_dict_from_url] is not code of
    the repository: it is modelled after its documentation (cache by the file name
    of the URL, download into a temporary file of its own, rename, load). *)
From Coq Require Import String List Bool Arith Lia Ascii.
From Verif Require Import Base.
Import ListNotations.
Open Scope string_scope.
Open Scope list_scope.
Open Scope nat_scope.

(** What a caller can pass for [pretrained]: one of the two booleans, or any other
    object with its truth value (1, "yes", numpy.bool_(True), None, ...). *)
Inductive pyobj := PTrue | PFalse | POther (truth : bool).

(** [pretrained is True]: an identity test, false for every other true value. *)
Definition is_true (p : pyobj) : bool := match p with PTrue => true | _ => false end.

(** The classes the entry points build. *)
Inductive arch := HiFiC | VqVaeXCiT.

(** What a builder is left to do: return the network with its initial weights, or
    fill it from a URL. *)
Inductive plan := Untrained (a : arch) | FromUrl (a : arch) (url : string).

Definition in_list (s : string) (l : list string) : bool := existsb (String.eqb s) l.

(** _msillm.py L15-24 *)
Definition valid_msillm : list string :=
  ["target_0.00218bpp"; "target_0.00438bpp"; "target_0.035bpp"; "target_0.07bpp";
   "target_0.14bpp"; "target_0.3bpp"; "target_0.45bpp"; "target_0.9bpp"].

(** _msillm.py L27-50 *)
Definition build_msillm (weights : option string) : res plan :=
  match weights with
  | None => Ok (Untrained HiFiC)
  | Some w =>
      if negb (in_list w valid_msillm) then Raise ValueError
      else Ok (FromUrl HiFiC
             ("https://dl.fbaipublicfiles.com/NeuralCompression/2023-muckley-msillm/"
              ++ ("msillm_" ++ w ++ ".ckpt"))%string)
  end.

(** _noganms.py L15-22 *)
Definition valid_noganms : list string :=
  ["target_0.035bpp"; "target_0.07bpp"; "target_0.14bpp"; "target_0.3bpp";
   "target_0.45bpp"; "target_0.9bpp"].

(** _noganms.py L25-48 *)
Definition build_noganms (weights : option string) : res plan :=
  match weights with
  | None => Ok (Untrained HiFiC)
  | Some w =>
      if negb (in_list w valid_noganms) then Raise ValueError
      else Ok (FromUrl HiFiC
             ("https://dl.fbaipublicfiles.com/NeuralCompression/2023-muckley-msillm/"
              ++ ("noganms_" ++ w ++ ".ckpt"))%string)
  end.

(** _msillm_vqvae.py L16-18 *)
Definition valid_vqvae : list string := ["vqvae_xcit_p8_ch64_cb1024_h8"].

(** _msillm_vqvae.py L21-43 *)
Definition build_vqvae (weights : option string) : res plan :=
  match weights with
  | None => Ok (Untrained VqVaeXCiT)
  | Some w =>
      if negb (in_list w valid_vqvae) then Raise ValueError
      else Ok (FromUrl VqVaeXCiT
             ("https://dl.fbaipublicfiles.com/NeuralCompression/2023-muckley-msillm/"
              ++ (w ++ ".ckpt"))%string)
  end.

(** The entry points.  [kw] stands for the further keyword arguments, which every
    entry point accepts and drops. *)
Definition kwargs := list (string * pyobj).

(** _msillm.py L53-59 *)
Definition msillm_quality_vlo1 (pretrained : pyobj) (kw : kwargs) : res plan :=
  build_msillm (if is_true pretrained then Some "target_0.00218bpp" else None).
(** _msillm.py L62-68 *)
Definition msillm_quality_vlo2 (pretrained : pyobj) (kw : kwargs) : res plan :=
  build_msillm (if is_true pretrained then Some "target_0.00438bpp" else None).
(** _msillm.py L71-77 *)
Definition msillm_quality_1 (pretrained : pyobj) (kw : kwargs) : res plan :=
  build_msillm (if is_true pretrained then Some "target_0.035bpp" else None).
(** _msillm.py L80-86 *)
Definition msillm_quality_2 (pretrained : pyobj) (kw : kwargs) : res plan :=
  build_msillm (if is_true pretrained then Some "target_0.07bpp" else None).
(** _msillm.py L89-95 *)
Definition msillm_quality_3 (pretrained : pyobj) (kw : kwargs) : res plan :=
  build_msillm (if is_true pretrained then Some "target_0.14bpp" else None).
(** _msillm.py L98-104 *)
Definition msillm_quality_4 (pretrained : pyobj) (kw : kwargs) : res plan :=
  build_msillm (if is_true pretrained then Some "target_0.3bpp" else None).
(** _msillm.py L107-113 *)
Definition msillm_quality_5 (pretrained : pyobj) (kw : kwargs) : res plan :=
  build_msillm (if is_true pretrained then Some "target_0.45bpp" else None).
(** _msillm.py L116-122 *)
Definition msillm_quality_6 (pretrained : pyobj) (kw : kwargs) : res plan :=
  build_msillm (if is_true pretrained then Some "target_0.9bpp" else None).
(** _noganms.py L51-57 *)
Definition noganms_quality_1 (pretrained : pyobj) (kw : kwargs) : res plan :=
  build_noganms (if is_true pretrained then Some "target_0.035bpp" else None).
(** _noganms.py L60-66 *)
Definition noganms_quality_2 (pretrained : pyobj) (kw : kwargs) : res plan :=
  build_noganms (if is_true pretrained then Some "target_0.07bpp" else None).
(** _noganms.py L69-75 *)
Definition noganms_quality_3 (pretrained : pyobj) (kw : kwargs) : res plan :=
  build_noganms (if is_true pretrained then Some "target_0.14bpp" else None).
(** _noganms.py L78-84 *)
Definition noganms_quality_4 (pretrained : pyobj) (kw : kwargs) : res plan :=
  build_noganms (if is_true pretrained then Some "target_0.3bpp" else None).
(** _noganms.py L87-93 *)
Definition noganms_quality_5 (pretrained : pyobj) (kw : kwargs) : res plan :=
  build_noganms (if is_true pretrained then Some "target_0.45bpp" else None).
(** _noganms.py L96-102 *)
Definition noganms_quality_6 (pretrained : pyobj) (kw : kwargs) : res plan :=
  build_noganms (if is_true pretrained then Some "target_0.9bpp" else None).
(** _msillm_vqvae.py L46-74 *)
Definition vqvae_xcit_p8_ch64_cb1024_h8 (pretrained : pyobj) (kw : kwargs) : res plan :=
  build_vqvae (if is_true pretrained then Some "vqvae_xcit_p8_ch64_cb1024_h8" else None).

(** The names a user can load. *)
Inductive entry :=
| E_msillm_vlo1 | E_msillm_vlo2 | E_msillm_1 | E_msillm_2 | E_msillm_3 | E_msillm_4 | E_msillm_5 | E_msillm_6 | E_noganms_1 | E_noganms_2 | E_noganms_3 | E_noganms_4 | E_noganms_5 | E_noganms_6 | E_vqvae.

(** zoo/__init__.py L6-24: calling a name of the package; [None] is a call that
    leaves [pretrained] out, which means False there. *)
Definition zoo_call (e : entry) (pretrained : option pyobj) (kw : kwargs) : res plan :=
  let p := match pretrained with Some p => p | None => PFalse end in
  match e with
  | E_msillm_vlo1 => msillm_quality_vlo1 p kw
  | E_msillm_vlo2 => msillm_quality_vlo2 p kw
  | E_msillm_1 => msillm_quality_1 p kw
  | E_msillm_2 => msillm_quality_2 p kw
  | E_msillm_3 => msillm_quality_3 p kw
  | E_msillm_4 => msillm_quality_4 p kw
  | E_msillm_5 => msillm_quality_5 p kw
  | E_msillm_6 => msillm_quality_6 p kw
  | E_noganms_1 => noganms_quality_1 p kw
  | E_noganms_2 => noganms_quality_2 p kw
  | E_noganms_3 => noganms_quality_3 p kw
  | E_noganms_4 => noganms_quality_4 p kw
  | E_noganms_5 => noganms_quality_5 p kw
  | E_noganms_6 => noganms_quality_6 p kw
  | E_vqvae => vqvae_xcit_p8_ch64_cb1024_h8 p kw
  end.

(** hubconf.py L28-355: the hub functions, whose default is True. *)
Definition hub_call (e : entry) (pretrained : option pyobj) (kw : kwargs) : res plan :=
  let p := match pretrained with Some p => p | None => PTrue end in
  match e with
  | E_msillm_vlo1 => msillm_quality_vlo1 p kw
  | E_msillm_vlo2 => msillm_quality_vlo2 p kw
  | E_msillm_1 => msillm_quality_1 p kw
  | E_msillm_2 => msillm_quality_2 p kw
  | E_msillm_3 => msillm_quality_3 p kw
  | E_msillm_4 => msillm_quality_4 p kw
  | E_msillm_5 => msillm_quality_5 p kw
  | E_msillm_6 => msillm_quality_6 p kw
  | E_noganms_1 => noganms_quality_1 p kw
  | E_noganms_2 => noganms_quality_2 p kw
  | E_noganms_3 => noganms_quality_3 p kw
  | E_noganms_4 => noganms_quality_4 p kw
  | E_noganms_5 => noganms_quality_5 p kw
  | E_noganms_6 => noganms_quality_6 p kw
  | E_vqvae => vqvae_xcit_p8_ch64_cb1024_h8 p kw
  end.

Inductive call := Hub (e : entry) (p : option pyobj) (kw : kwargs)
                | Zoo (e : entry) (p : option pyobj) (kw : kwargs).
Definition plan_of (c : call) : res plan :=
  match c with Hub e p kw => hub_call e p kw | Zoo e p kw => zoo_call e p kw end.

(** os.path.basename of a URL: what follows its last slash. *)
Fixpoint basename (s : string) : string :=
  match s with
  | EmptyString => EmptyString
  | String c s' =>
      if existsb (Ascii.eqb "/"%char) (list_ascii_of_string s') then basename s'
      else if Ascii.eqb c "/"%char then s' else s
  end.

Section Hub.
Context {block weights : Type}.
Variable server : string -> option (list block).  (* what a URL serves *)
Variable torch_load : list block -> option weights.
Variable fits : arch -> weights -> bool.            (* load_state_dict, strict *)

(** What a call returns. *)
Inductive network := Initial (a : arch) | Loaded (a : arch) (w : weights).

(** A process that runs one call. *)
Inductive proc :=
| Begin (c : call)
| Look (a : arch) (url : string)                              (* is it cached? *)
| Fetch (a : arch) (url : string) (got rest : list block)     (* into a temporary file *)
| Read (a : arch) (url : string)
| Done (r : res network)
| Killed.

Definition cache := string -> option (list block).
Definition put (c : cache) (n : string) (v : list block) : cache :=
  fun m => if String.eqb m n then Some v else c m.

(** What happens next to one process: it goes on, it is killed, its connection
    breaks with an error, or the server closes the connection early and the
    download takes what it has for the whole file. *)
Inductive event := Go | Kill | Break | Close.

Definition step (ev : event) (c : cache) (p : proc) : cache * proc :=
  match p, ev with
  | Done _, _ | Killed, _ => (c, p)
  | _, Kill => (c, Killed)
  | Begin k, _ =>
      (c, match plan_of k with
          | Raise e => Done (Raise e)
          | Ok (Untrained a) => Done (Ok (Initial a))
          | Ok (FromUrl a url) => Look a url
          end)
  | Look a url, _ =>
      (c, match c (basename url) with
          | Some _ => Read a url
          | None => match server url with
                    | None => Done (Raise OSError)
                    | Some bs => match ev with Break => Done (Raise OSError) | _ => Fetch a url [] bs end
                    end
          end)
  | Fetch a url got rest, Break => (c, Done (Raise OSError))
  | Fetch a url got rest, Close => (put c (basename url) got, Read a url)
  | Fetch a url got [], _ => (put c (basename url) got, Read a url)
  | Fetch a url got (b :: rest), _ => (c, Fetch a url (got ++ [b]) rest)
  | Read a url, _ =>
      (c, Done (match c (basename url) with
                | None => Raise FileNotFoundError
                | Some f => match torch_load f with
                            | None => Raise RuntimeError
                            | Some w => if fits a w then Ok (Loaded a w) else Raise RuntimeError
                            end
                end))
  end.

(** Any number of processes that share the cache, in any interleaving. *)
Fixpoint upd (i : nat) (p : proc) (ps : list proc) : list proc :=
  match ps, i with
  | [], _ => []
  | _ :: ps', 0 => p :: ps'
  | q :: ps', S i' => q :: upd i' p ps'
  end.
Definition sys := (cache * list proc)%type.
Definition sys_step (s : sys) (m : nat * event) : sys :=
  let '(c, ps) := s in
  match nth_error ps (fst m) with
  | None => s
  | Some p => let '(c', p') := step (snd m) c p in (c', upd (fst m) p' ps)
  end.
Definition run (s : sys) (tr : list (nat * event)) : sys := fold_left sys_step tr s.

End Hub.
Arguments proc : clear implicits.
Arguments network : clear implicits.
Arguments cache : clear implicits.

(** * Model of the configuration handling: train/parse_config_flags.py, train/default_config.py
      (_copy_all_dicts) and the log-directory choice in train/runners.py *)
From Coq Require Import List String Arith Bool.
From Verif Require Import M_io.
Import ListNotations.
Local Open Scope string_scope.

(** ** Flags *)

Definition NO_NAME : string := "NONE".             (* default_config.py 8-10 *)
Definition NO_PATH : string := "NONE".
Definition NO_RELOAD_LOG_DIR : string := "NONE".

(** The fields of the final configuration that the parsing logic itself reads or writes; all other
    fields are [rest]. *)
Section Flags.
  Variable Rest : Type.
  Record config := { debug_nans : bool; distribute : bool; c_logdir : string; base_logdir : string; rest : Rest }.

  (** The [--reload] and [--presets] flags, parse_config_flags.py 84-99 and default_config.py 50-64
      (only the fields used here and by the runner). *)
  Record pre_flags := {
    reload_logdir : string; use_config_file : bool; config_relative_file_path : string;
    use_checkpoint_file : bool; same_logdir : bool;
    presets_name : string; presets_path : string }.

  Inductive source := FromReload | FromPreset (path : string) | FromDefault.
  Inductive outcome := ConfigError | LoadError | Parsed (s : source) (c : config).

  (** Environment: [load dir file] is [io.load_config_dict] (None: no such file or bad JSON);
      [update] is ConfigDict.update of the default by a preset (None: it raises); [override] applies
      the [--config...] command-line flags (None: unknown flag or wrong type);
      [choose_model] is choose_model_type_in_model_config. *)
  Variable load : string -> string -> option config.
  Variable load_preset : string -> option (config -> option config).
  Variable default : config.
  Variable override : config -> option config.
  Variable choose_model : config -> option config.

  Definition set_logdir (c : config) (d : string) : config :=
    {| debug_nans := debug_nans c; distribute := distribute c; c_logdir := d;
       base_logdir := base_logdir c; rest := rest c |}.
  Definition set_base_logdir (c : config) (d : string) : config :=
    {| debug_nans := debug_nans c; distribute := distribute c; c_logdir := c_logdir c;
       base_logdir := d; rest := rest c |}.
  Definition set_distribute (c : config) (b : bool) : config :=
    {| debug_nans := debug_nans c; distribute := b; c_logdir := c_logdir c;
       base_logdir := base_logdir c; rest := rest c |}.

  (** [_get_config_from_reload], parse_config_flags.py 17-28. *)
  Definition get_config_from_reload (f : pre_flags) : option config :=
    match load (reload_logdir f) (config_relative_file_path f) with
    | None => None
    | Some c => override (set_logdir c (base_logdir c))
    end.

  (** [_get_config_from_default_config], parse_config_flags.py 31-49. *)
  Definition get_config_from_default_config (presets : option string) : option config :=
    let base := match presets with
                | None => Some default
                | Some p => match load_preset p with None => None | Some upd => upd default end
                end in
    match base with
    | None => None
    | Some b => match override b with None => None | Some c => choose_model c end
    end.

  (** parse_config_flags.py 135-140. *)
  Definition finish_config (c : config) : config :=
    let c1 := if debug_nans c then set_distribute c false else c in
    set_base_logdir c1 (c_logdir c1).

  (** [parse_flags], parse_config_flags.py 52-142.  The value of [presets_path] is only bound when
      one of the two preset flags is given (120-125), which is modelled by the [option]. *)
  Definition parse_flags (f : pre_flags) : outcome :=
    let reload := negb (String.eqb (reload_logdir f) NO_RELOAD_LOG_DIR) && use_config_file f in  (* 105-108 *)
    let load_presets := negb (String.eqb (presets_name f) NO_NAME)
                        || negb (String.eqb (presets_path f) NO_PATH) in          (* 110-112 *)
    if negb (String.eqb (presets_path f) NO_PATH) && negb (String.eqb (presets_name f) NO_NAME)
    then ConfigError                                                               (* 113-114 *)
    else
      let path := if negb (String.eqb (presets_name f) NO_NAME)
                  then Some (path_join "preset_configs" (presets_name f ++ ".json"))  (* 116-119 *)
                  else if negb (String.eqb (presets_path f) NO_PATH)
                  then Some (presets_path f)                                       (* 120-121 *)
                  else None in
      if reload && load_presets then ConfigError                                   (* 123-124 *)
      else if reload then
        match get_config_from_reload f with                                        (* 125-126 *)
        | None => LoadError
        | Some c => Parsed FromReload (finish_config c)
        end
      else if load_presets then
        match path with
        | None => LoadError                                  (* UnboundLocalError; unreachable *)
        | Some p =>
            match get_config_from_default_config (Some p) with                     (* 127-128 *)
            | None => LoadError
            | Some c => Parsed (FromPreset p) (finish_config c)
            end
        end
      else
        match get_config_from_default_config None with                             (* 129-130 *)
        | None => LoadError
        | Some c => Parsed FromDefault (finish_config c)
        end.

  (** [_get_logdir_and_save_config], runners.py 43-54: the log directory of the run, and the
      configuration that is saved there.  [subfolder] is [config.subfolder_name], [stamp] the
      date-time sub-folder if enabled. *)
  Definition choose_logdir (exists_ : string -> bool) (fuel : nat) (f : pre_flags)
      (subfolder : string) (stamp : option string) (c : config) : option config :=
    if same_logdir f then Some (set_logdir c (reload_logdir f))                    (* 44-45 *)
    else
      let d1 := if String.eqb subfolder NO_NAME then c_logdir c else path_join (c_logdir c) subfolder in
      let d2 := match stamp with None => d1 | Some s => path_join d1 s end in
      match add_suffix_for_uniqueness exists_ fuel d2 "" "" with                   (* 53 *)
      | None => None
      | Some d => Some (set_logdir c d)
      end.
End Flags.
Arguments debug_nans {Rest}. Arguments distribute {Rest}. Arguments c_logdir {Rest}.
Arguments base_logdir {Rest}. Arguments rest {Rest}.
Arguments parse_flags {Rest}. Arguments Parsed {Rest}. Arguments ConfigError {Rest}. Arguments LoadError {Rest}.
Arguments finish_config {Rest}. Arguments set_logdir {Rest}. Arguments set_base_logdir {Rest}.
Arguments set_distribute {Rest}. Arguments choose_logdir {Rest}.
Arguments get_config_from_reload {Rest}. Arguments get_config_from_default_config {Rest}.
Arguments Build_config {Rest}.

(** ** Python dictionaries as objects with identity *)
Section Heap.
  Variable atom : Type.

  (** A value is an immutable atom or a reference to a dictionary object. *)
  Inductive val := Atom (a : atom) | Ref (addr : nat).
  (** Heap: addr -> dictionary object (key, value pairs). *)
  Definition obj := list (string * val).
  Definition heap := list obj.

  (** [_copy_all_dicts], default_config.py 16-47.  [result = {}] allocates the new dictionary
      first, sub-dictionaries are copied while iterating over the keys.  [fuel] bounds the nesting
      depth (Python's recursion); [None]: too deep (cyclic).  The loop over the keys appends to the
      new object at address [r].

      The object under construction is only visible to this call, so the model writes it once, at
      the end, into the slot reserved for it. *)
  Fixpoint set_nth (h : heap) (i : nat) (o : obj) : heap :=
    match h, i with
    | [], _ => []
    | _ :: r, O => o :: r
    | x :: r, S j => x :: set_nth r j o
    end.

  (** The loop over the keys, 42-46; [cp] is the recursive call. *)
  Fixpoint copy_items (cp : heap -> nat -> option (heap * nat)) (h : heap) (l : obj) : option (heap * obj) :=
    match l with
    | [] => Some (h, [])
    | (k, Atom x) :: l' =>                                    (* 45-46 *)
        match copy_items cp h l' with
        | Some (h1, o1) => Some (h1, (k, Atom x) :: o1)
        | None => None
        end
    | (k, Ref b) :: l' =>                                     (* 43-44 *)
        match cp h b with
        | None => None
        | Some (h1, b1) =>
            match copy_items cp h1 l' with
            | Some (h2, o1) => Some (h2, (k, Ref b1) :: o1)
            | None => None
            end
        end
    end.

  Fixpoint copy_all_dicts (fuel : nat) (h : heap) (a : nat) : option (heap * nat) :=
    match fuel with
    | O => None
    | S f =>
        match nth_error h a with
        | None => None
        | Some o =>
            match copy_items (copy_all_dicts f) (h ++ [[]])%list o with   (* 41-46 *)
            | None => None
            | Some (h', o') => Some (set_nth h' (List.length h) o', List.length h)   (* 47 *)
            end
        end
    end.

  (** Reading along a path of keys, e.g. config["vmc"]["optimizer"]. *)
  Fixpoint assoc (o : obj) (k : string) : option val :=
    match o with
    | [] => None
    | (k', v) :: r => if String.eqb k' k then Some v else assoc r k
    end.
  Fixpoint lookup (h : heap) (v : val) (path : list string) : option val :=
    match path with
    | [] => Some v
    | k :: p =>
        match v with
        | Atom _ => None
        | Ref a =>
            match nth_error h a with
            | None => None
            | Some o => match assoc o k with None => None | Some w => lookup h w p end
            end
        end
    end.

  (** Assignment d[k] = v on the object at address [a] (a command-line override). *)
  Fixpoint assoc_set (o : obj) (k : string) (v : val) : obj :=
    match o with
    | [] => [(k, v)]
    | (k', w) :: r => if String.eqb k' k then (k', v) :: r else (k', w) :: assoc_set r k v
    end.
  Definition assign (h : heap) (a : nat) (k : string) (v : val) : heap :=
    match nth_error h a with
    | None => h
    | Some o => set_nth h a (assoc_set o k v)
    end.
End Heap.
Arguments Atom {atom}. Arguments copy_items {atom}. Arguments Ref {atom}. Arguments copy_all_dicts {atom}.
Arguments lookup {atom}. Arguments assign {atom}. Arguments set_nth {atom}.
Arguments assoc {atom}. Arguments assoc_set {atom}.

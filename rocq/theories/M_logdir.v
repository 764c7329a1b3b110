(** * Model of the log directories of a sequence of jobs: train/runners.py 43-59 with the file
      system operations of utils/io.py 24-34, 68-88, 201-217 *)
From Coq Require Import String List Ascii Arith Bool.
From Verif Require Import M_io M_config.
Import ListNotations.
Local Open Scope string_scope.

(** ** Paths *)

(** The components of a POSIX path: separators repeat and "." means nothing, so that "logs/run/",
    "logs//run" and "./logs/run" name one directory.  Simplification: ".." and symbolic links are
    not resolved (".." is an ordinary name here). *)
Definition push (cur : string) (l : list string) : list string :=
  if String.eqb cur "" || String.eqb cur "." then l else cur :: l.
Fixpoint split_at_sep (cur s : string) : list string :=
  match s with
  | EmptyString => push cur []
  | String c r =>
      if Ascii.eqb c sep then push cur (split_at_sep "" r)
      else split_at_sep (cur ++ String c "") r
  end.
Definition components (p : string) : list string := split_at_sep "" p.

(** Absolute paths are resolved from the root, relative ones from the working directory. *)
Definition resolve (cwd : list string) (p : string) : list string :=
  if first_is_sep p then components p else (cwd ++ components p)%list.

Fixpoint path_eqb (p q : list string) : bool :=
  match p, q with
  | [], [] => true
  | a :: p', b :: q' => String.eqb a b && path_eqb p' q'
  | _, _ => false
  end.

(** ** The file system *)
Section Fs.
  Variable Rest : Type.

  (** What a file holds: a configuration and the reload flags as JSON, a dictionary of statistics
      as JSON, or anything else (metrics, checkpoints, git hash).  That a configuration survives
      the JSON round trip is C13. *)
  Inductive content :=
  | CfgFile (c : config Rest) | ReloadFile (f : pre_flags) | DictFile (id : nat) | OtherFile (id : nat).
  Inductive node := Dir | File (c : content).

  (** A file system is a finite list of nodes; the root always exists. *)
  Definition fs := list (list string * node).
  Fixpoint find (s : fs) (p : list string) : option node :=
    match s with
    | [] => None
    | (q, n) :: r => if path_eqb q p then Some n else find r p
    end.
  Definition node_at (s : fs) (p : list string) : option node :=
    match p with [] => Some Dir | _ => find s p end.

  Fixpoint put (s : fs) (p : list string) (n : node) : fs :=
    match s with
    | [] => [(p, n)]
    | (q, m) :: r => if path_eqb q p then (q, n) :: r else (q, m) :: put r p n
    end.

  Variable cwd : list string.

  (** [os.path.exists]; the empty string does not exist. *)
  Definition exists_ (s : fs) (p : string) : bool :=
    if String.eqb p "" then false
    else match node_at s (resolve cwd p) with Some _ => true | None => false end.

  (** [os.makedirs(path, exist_ok=True)] as called by [open_or_create], io.py 26: every missing
      directory along the path is made, a file on the way is an error ([false]; directories made so
      far stay). *)
  Fixpoint mkdirs (s : fs) (done todo : list string) : fs * bool :=
    match todo with
    | [] => (s, true)
    | c :: r =>
        let p := (done ++ [c])%list in
        match node_at s p with
        | Some Dir => mkdirs s p r
        | Some (File _) => (s, false)
        | None => mkdirs (put s p Dir) p r
        end
    end.
  Definition makedirs (s : fs) (p : string) : fs * bool :=
    if String.eqb p "" then (s, false) else mkdirs s [] (resolve cwd p).

  (** [open(os.path.join(path, filename), "w")] and writing: an existing file is replaced, an
      existing directory, or a missing parent directory, is an error.  [open_or_create], io.py 24-27. *)
  Definition write_file (s : fs) (p : list string) (c : content) : fs * bool :=
    match node_at s p, node_at s (removelast p) with
    | Some Dir, _ => (s, false)
    | _, Some Dir => (put s p (File c), true)
    | _, _ => (s, false)
    end.
  Definition open_or_create_w (s : fs) (path filename : string) (c : content) : fs * bool :=
    let (s1, ok) := makedirs s path in
    if ok then write_file s1 (resolve cwd (path_join path filename)) c else (s1, false).

  (** Fuel for the unbounded [while] of [add_suffix_for_uniqueness]: more than the number of
      existing nodes, which is always enough (lemma [suffix_terminates] in P_logdir.v). *)
  Definition enough (s : fs) : nat := List.length s + 3.

  (** [_save_to_unique_json], io.py 68-80, split where another process can intervene: first the name
      is chosen, then the file is opened for writing. *)
  Definition unique_json_name (s : fs) (logdir base : string) : option string :=
    add_suffix_for_uniqueness (exists_ s) (enough s) base logdir ".json".           (* 75-77 *)
  Definition save_to_unique_json (s : fs) (info : content) (logdir base : string) : fs * bool :=
    match unique_json_name s logdir base with
    | None => (s, false)
    | Some u => open_or_create_w s logdir (u ++ ".json") info                       (* 78-79 *)
    end.

  (** A job: its [--reload] flags, the configuration produced by parse_flags, the sub-folder name
      and the date-time stamp (None: save_to_current_datetime_subfolder=False). *)
  Record job := { flags : pre_flags; cfg : config Rest; subfolder : string; stamp : option string }.

  (** runners.py 44-53: the configuration with the log directory of the run filled in. *)
  Definition job_logdir (s : fs) (j : job) : option (config Rest) :=
    choose_logdir (exists_ s) (enough s) (flags j) (subfolder j) (stamp j) (cfg j).

  (** [_get_logdir_and_save_config], runners.py 43-59.  Result: the file system and, if the job got
      past this point, the configuration it runs with. *)
  Definition start_job (s : fs) (j : job) : fs * option (config Rest) :=
    match job_logdir s j with
    | None => (s, None)
    | Some c =>
        let (s1, ok1) := save_to_unique_json s (CfgFile c) (c_logdir c) "config" in       (* 55 *)
        if ok1 then
          let (s2, ok2) := save_to_unique_json s1 (ReloadFile (flags j)) (c_logdir c) "reload_config" in  (* 56 *)
          (s2, if ok2 then Some c else None)
        else (s1, None)
    end.

  (** [io.load_config_dict], io.py 105-116, for a file written by [save_config_dict_to_json]. *)
  Definition load_config (s : fs) (logdir file : string) : option (config Rest) :=
    match node_at s (resolve cwd (path_join logdir file)) with
    | Some (File (CfgFile c)) => Some c
    | _ => None
    end.

  (** Everything that happens to the file system: a job starts; a job saves statistics
      (save_dict_to_json, runners.py 589); a job (or anyone else) writes some other file, making its
      directories (metrics, checkpoints, git hash, local energies); a directory is made (checkpoint
      directory, checkpoint.py 217-220). *)
  Inductive event :=
  | Start (j : job)
  | SaveDict (id : nat) (logdir base : string)
  | WriteOther (path filename : string) (id : nat)
  | MakeDir (path : string).
  Definition step (s : fs) (e : event) : fs :=
    match e with
    | Start j => fst (start_job s j)
    | SaveDict id d b => fst (save_to_unique_json s (DictFile id) d b)
    | WriteOther d n id => fst (open_or_create_w s d n (OtherFile id))
    | MakeDir d => fst (makedirs s d)
    end.
  Definition run (s : fs) (h : list event) : fs := fold_left step h s.

  (** The configurations of the jobs that started during a history, in order. *)
  Fixpoint started (s : fs) (h : list event) : list (job * config Rest) :=
    match h with
    | [] => []
    | e :: r =>
        (match e with
         | Start j => match snd (start_job s j) with Some c => [(j, c)] | None => [] end
         | _ => []
         end ++ started (step s e) r)%list
    end.

  (** ** Several jobs at the same time *)
  (** The start of a job up to the saved configuration as three steps, between which other
      processes run: the directory is chosen (44-53), the file name is chosen (io.py 75-77), the file
      is written (io.py 78-79). *)
  Inductive phase :=
  | Begin (j : job) | HasDir (c : config Rest) | HasName (c : config Rest) (u : string)
  | Saved (c : config Rest) | Failed.
  Definition advance (s : fs) (ph : phase) : fs * phase :=
    match ph with
    | Begin j => match job_logdir s j with None => (s, Failed) | Some c => (s, HasDir c) end
    | HasDir c => match unique_json_name s (c_logdir c) "config" with
                  | None => (s, Failed) | Some u => (s, HasName c u) end
    | HasName c u =>
        let (s1, ok) := open_or_create_w s (c_logdir c) (u ++ ".json") (CfgFile c) in
        (s1, if ok then Saved c else Failed)
    | Saved c => (s, Saved c)
    | Failed => (s, Failed)
    end.
  (** Two processes under a schedule ([true]: the first one moves). *)
  Fixpoint interleave (s : fs) (a b : phase) (sched : list bool) : fs * phase * phase :=
    match sched with
    | [] => (s, a, b)
    | true :: r => let (s1, a1) := advance s a in interleave s1 a1 b r
    | false :: r => let (s1, b1) := advance s b in interleave s1 a b1 r
    end.
End Fs.
Arguments CfgFile {Rest}. Arguments ReloadFile {Rest}. Arguments DictFile {Rest}. Arguments OtherFile {Rest}.
Arguments Dir {Rest}. Arguments File {Rest}. Arguments find {Rest}. Arguments node_at {Rest}.
Arguments put {Rest}. Arguments exists_ {Rest}. Arguments mkdirs {Rest}. Arguments makedirs {Rest}.
Arguments write_file {Rest}. Arguments open_or_create_w {Rest}. Arguments enough {Rest}.
Arguments unique_json_name {Rest}. Arguments save_to_unique_json {Rest}. Arguments job_logdir {Rest}.
Arguments start_job {Rest}. Arguments load_config {Rest}. Arguments step {Rest}. Arguments run {Rest}.
Arguments started {Rest}. Arguments advance {Rest}. Arguments interleave {Rest}.
Arguments Start {Rest}. Arguments SaveDict {Rest}. Arguments WriteOther {Rest}. Arguments MakeDir {Rest}.
Arguments Begin {Rest}. Arguments HasDir {Rest}. Arguments HasName {Rest}. Arguments Saved {Rest}.
Arguments Failed {Rest}. Arguments flags {Rest}. Arguments cfg {Rest}. Arguments subfolder {Rest}.
Arguments stamp {Rest}.

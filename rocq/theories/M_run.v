(** * Model of [run_molecule], train/runners.py 592-747: one whole job

    Training, checkpoint reload, evaluation and the statistics file, on top of the loop of M_vmc.v.
    Not modelled here: parsing of the configuration (M_config.v), key bookkeeping (M_keys.v),
    logging, git hash.  The functions that [_setup_vmc] and [_setup_eval] build are arbitrary. *)
From Coq Require Import String List Arith Bool Reals.
From Verif Require Import XReal M_io M_vmc M_files M_optim.
Import ListNotations.
Local Open Scope string_scope.
Local Open Scope list_scope.

Section Run.
  (** Parameters and optimizer state of ONE device, walker data and keys of all devices, content of
      a statistics file. *)
  Variables P1 D S1 K J : Type.
  (** Replicated over the devices (a run with distribute=False is the case of one copy). *)
  Definition reps (A : Type) := list A.

  (** What is in a checkpoint file: io.py 118-131 keeps the first copy of parameters and optimizer
      state (that the file then comes back unchanged is C14). *)
  Definition process_for_saving (c : ckpt (reps P1) D (reps S1) K) : option (ckpt P1 D S1 K) :=
    match get_first (c_params c), get_first (c_opt c) with
    | Some p, Some o => Some {| c_epoch := c_epoch c; c_data := c_data c; c_params := p; c_opt := o; c_key := c_key c |}
    | _, _ => None
    end.

  (** A log directory: metric files of the training run, those in eval/, the rows of
      eval/local_energies.txt (the one array-valued metric), the checkpoint files in write order and
      the statistics files eval/statistics.json, eval/statistics_1.json, ... in write order. *)
  Record logfiles := { lf_train : dir xr; lf_eval : dir xr; lf_rows : list (list xr);
                       lf_ckpts : list (string * string * ckpt (reps P1) D (reps S1) K); lf_stats : list J }.
  Definition empty_logfiles : logfiles := {| lf_train := []; lf_eval := []; lf_rows := []; lf_ckpts := []; lf_stats := [] |}.

  (** What the configuration determines (runners.py 349-483): initial state, functions, numbers. *)
  Record job := {
    j_ndev : nat;
    j_init : reps P1 * reps S1 * D * K;                               (* _setup_vmc, 371-417 *)
    j_burn : reps P1 -> D -> K -> D * K;                              (* burn_data, config.vmc.nburn steps *)
    j_walk : reps P1 -> D -> K -> xr * D * K;
    j_update : reps P1 -> D -> reps S1 -> K -> reps P1 * D * reps S1 * option dict * K;
    j_has_nan : reps P1 -> bool;
    j_cfg : cfg D;                                                    (* config.vmc, log directory included *)
    j_nepochs : nat;
    j_use_training_data : bool;                                       (* config.eval.use_data_from_training *)
    j_eval_nchains : nat;
    j_new_data : reps P1 -> K -> K * D;                               (* _make_new_data_for_eval, 486-523 *)
    j_eval_burn : reps P1 -> D -> K -> D * K;
    j_eval_walk : reps P1 -> D -> K -> xr * D * K;
    j_local_energies : reps P1 -> D -> list xr;                       (* all devices' walkers, in order *)
    j_statistics : list xr -> xr * xr;                                (* get_statistics_from_local_energy *)
    j_eval_amplitudes : bool;                                         (* config.eval.record_amplitudes *)
    j_record_local_energies : bool;
    j_eval_nepochs : nat;
    j_summary : list (list xr) -> J }.                                (* get_stats_summary, M_stats *)

  (** The reload flags, and where to reload from: a checkpoint file and the log directory it is in. *)
  Record reload := { r_ckpt : ckpt P1 D S1 K; r_source : dir xr;
                     r_append : bool; r_new_optimizer_state : bool; r_reburn : bool; r_same_logdir : bool }.

  (** runners.py 663-666: metric files at the start of training.  In a new directory (which is empty:
      C12) they are copied, in the same directory they are truncated in place. *)
  Definition start_files (rl : option reload) (l : logfiles) : logfiles :=
    match rl with
    | Some r =>
        if r_append r then
          {| lf_train := if r_same_logdir r then copy_txt_stats_same (lf_train l) (Some (c_epoch (r_ckpt r)))
                         else carry_over_stats true (r_source r) (lf_train l) (c_epoch (r_ckpt r));
             lf_eval := lf_eval l; lf_rows := lf_rows l; lf_ckpts := lf_ckpts l; lf_stats := lf_stats l |}
        else l
    | None => l
    end.

  (** runners.py 640-678: state and epoch training starts from. *)
  Definition start_state (j : job) (rl : option reload) : nat * (reps P1 * reps S1 * D * K) :=
    match rl with
    | None => (0, j_init j)
    | Some r =>
        let c := r_ckpt r in
        let p := replicate_all_local_devices (j_ndev j) (c_params c) in          (* 668-676 *)
        let o := replicate_all_local_devices (j_ndev j) (c_opt c) in
        if r_new_optimizer_state r
        then (0, (p, snd (fst (fst (j_init j))), c_data c, c_key c))
        else (c_epoch c, (p, o, c_data c, c_key c))                              (* 678-680 *)
    end.

  (** runners.py 697: [skip_burn]. *)
  Definition skip_burn (rl : option reload) : bool :=
    match rl with None => false | Some r => negb (r_reburn r) end.

  (** Training: [_burn_and_run_vmc] with is_eval=False, runners.py 526-580. *)
  Definition train (j : job) (rl : option reload) : run_result (reps P1) D (reps S1) K :=
    let '(start, (p, o, d, k)) := start_state j rl in
    let '(d, k) := if skip_burn rl then (d, k) else j_burn j p d k in
    vmc_loop (j_walk j) (j_update j) (j_has_nan j) (j_cfg j) start (j_nepochs j) p o d k.

  (** The evaluation update, updates/params.py 246-266; the optimizer state is None (runners.py 715). *)
  Definition eval_update (j : job) (p : reps P1) (d : D) (s : unit) (k : K) : reps P1 * D * unit * option dict * K :=
    let '(e, v) := j_statistics j (j_local_energies j p d) in
    (p, d, s, Some [("energy", e); ("variance", v)], k).

  (** The rows written to local_energies.txt in [n] evaluation epochs (params.py 260-261): the local
      energies of the walkers after each walk.  Kept apart from the scalar metrics; both go through
      the same writer in the same order. *)
  Fixpoint eval_rows (j : job) (n : nat) (p : reps P1) (d : D) (k : K) : list (list xr) :=
    match n with
    | O => []
    | S m => let '(_, d, k) := j_eval_walk j p d k in j_local_energies j p d :: eval_rows j m p d k
    end.

  (** runners.py 717-729: walkers and key the evaluation starts from. *)
  Definition eval_start (j : job) (p : reps P1) (d : D) (k : K) : D * K :=
    if negb (j_use_training_data j) || negb (Nat.eqb (nchains (j_cfg j)) (j_eval_nchains j))
    then let '(k, d) := j_new_data j p k in (d, k)
    else (d, k).

  (** [np.loadtxt] (runners.py 586) rejects rows of different lengths, and squeezes: one row or one column gives a one-dimensional
      array, on which [get_stats_summary] fails (mean over axis -1 of a scalar, statistics.py 139); [None]: it raises. *)
  Definition load_rows (rows : list (list xr)) : option (list (list xr)) :=
    match rows with
    | [] | [_] => None
    | r :: _ => if Nat.leb (List.length r) 1 then None
                else if forallb (fun r' => Nat.eqb (List.length r') (List.length r)) rows then Some rows else None
    end.

  Inductive outcome :=
  | Crashed (l : logfiles)                                            (* an exception left run_molecule *)
  | NansDetected (l : logfiles)                                       (* runners.py 702-704 *)
  | Completed (p : reps P1) (l : logfiles).

  (** runners.py 707-747: evaluation in [eval/] and the statistics file. *)
  Definition evaluate (j : job) (p : reps P1) (d : D) (k : K) (l : logfiles) : outcome :=
    let '(d, k) := eval_start j p d k in
    let '(d, k) := j_eval_burn j p d k in
    let g := eval_run_cfg (Some (match logdir (j_cfg j) with Some ld => path_join ld "eval" | None => "eval" end))
               (j_eval_amplitudes j) (get_amplitude_fn (j_cfg j)) (j_eval_nchains j) in
    match vmc_loop (j_eval_walk j) (eval_update j) (j_has_nan j) g 0 (j_eval_nepochs j) p tt d k with
    | Raised _ _ ms => Crashed {| lf_train := lf_train l; lf_eval := write_all_metrics (lf_eval l) ms; lf_rows := lf_rows l;
                                  lf_ckpts := lf_ckpts l; lf_stats := lf_stats l |}
    | Finished _ _ _ _ _ _ ms =>
        let rows := if j_record_local_energies j then lf_rows l ++ eval_rows j (j_eval_nepochs j) p d k else lf_rows l in
        let l' := {| lf_train := lf_train l; lf_eval := write_all_metrics (lf_eval l) ms; lf_rows := rows;
                     lf_ckpts := lf_ckpts l; lf_stats := lf_stats l |} in
        if j_record_local_energies j && negb (Nat.eqb (List.length rows) 0) then          (* 738-741 *)
          match load_rows rows with
          | None => Crashed l'
          | Some loaded => Completed p {| lf_train := lf_train l'; lf_eval := lf_eval l'; lf_rows := rows;
                                          lf_ckpts := lf_ckpts l'; lf_stats := lf_stats l' ++ [j_summary j loaded] |}
          end
        else Completed p l'
    end.

  (** [run_molecule]: [l] is the content of the log directory when the job starts. *)
  Definition run_molecule (j : job) (rl : option reload) (l : logfiles) : outcome :=
    let l := start_files rl l in
    match train j rl with
    | Raised _ cks ms => Crashed {| lf_train := write_all_metrics (lf_train l) ms; lf_eval := lf_eval l; lf_rows := lf_rows l;
                                    lf_ckpts := lf_ckpts l ++ cks; lf_stats := lf_stats l |}
    | Finished p _ d k nans cks ms =>
        let l := {| lf_train := write_all_metrics (lf_train l) ms; lf_eval := lf_eval l; lf_rows := lf_rows l;
                    lf_ckpts := lf_ckpts l ++ cks; lf_stats := lf_stats l |} in
        if nans then NansDetected l else evaluate j p d k l
    end.

  (** The flags of a plain resume (default_config.py 50-64): append, keep the optimizer state, no new
      burn-in. *)
  Definition resume_flags (c : ckpt P1 D S1 K) (src : dir xr) (same : bool) : reload :=
    {| r_ckpt := c; r_source := src; r_append := true; r_new_optimizer_state := false; r_reburn := false; r_same_logdir := same |}.
End Run.
Arguments j_ndev {P1 D S1 K J}. Arguments j_init {P1 D S1 K J}. Arguments j_burn {P1 D S1 K J}. Arguments j_walk {P1 D S1 K J}.
Arguments j_update {P1 D S1 K J}. Arguments j_has_nan {P1 D S1 K J}. Arguments j_cfg {P1 D S1 K J}. Arguments j_nepochs {P1 D S1 K J}.
Arguments j_use_training_data {P1 D S1 K J}. Arguments j_eval_nchains {P1 D S1 K J}. Arguments j_new_data {P1 D S1 K J}.
Arguments j_eval_burn {P1 D S1 K J}. Arguments j_eval_walk {P1 D S1 K J}. Arguments j_local_energies {P1 D S1 K J}.
Arguments j_statistics {P1 D S1 K J}. Arguments j_eval_amplitudes {P1 D S1 K J}. Arguments j_record_local_energies {P1 D S1 K J}.
Arguments j_eval_nepochs {P1 D S1 K J}. Arguments j_summary {P1 D S1 K J}. Arguments Build_job {P1 D S1 K J}.
Arguments r_ckpt {P1 D S1 K}. Arguments r_source {P1 D S1 K}. Arguments r_append {P1 D S1 K}. Arguments r_new_optimizer_state {P1 D S1 K}.
Arguments r_reburn {P1 D S1 K}. Arguments r_same_logdir {P1 D S1 K}. Arguments Build_reload {P1 D S1 K}.
Arguments lf_train {P1 D S1 K J}. Arguments lf_eval {P1 D S1 K J}. Arguments lf_rows {P1 D S1 K J}. Arguments lf_ckpts {P1 D S1 K J}.
Arguments lf_stats {P1 D S1 K J}. Arguments Build_logfiles {P1 D S1 K J}. Arguments empty_logfiles {P1 D S1 K J}.
Arguments process_for_saving {P1 D S1 K}. Arguments start_files {P1 D S1 K J}. Arguments start_state {P1 D S1 K J}.
Arguments skip_burn {P1 D S1 K}. Arguments train {P1 D S1 K J}. Arguments eval_update {P1 D S1 K J}. Arguments eval_rows {P1 D S1 K J}.
Arguments eval_start {P1 D S1 K J}. Arguments Crashed {P1 D S1 K J}. Arguments NansDetected {P1 D S1 K J}. Arguments Completed {P1 D S1 K J}.
Arguments evaluate {P1 D S1 K J}. Arguments run_molecule {P1 D S1 K J}. Arguments resume_flags {P1 D S1 K}.

(** * Specification vocabulary for whole jobs (C65-C67) *)
From Coq Require Import String List Arith Bool.
From Verif Require Import XReal M_io M_vmc M_files M_run S_vmc S_files S_optim.
Import ListNotations.

(** All [n] devices hold the same value. *)
Definition equal_copies {A} (n : nat) (l : list A) : Prop := exists x, l = repeat x n.

Section Spec.
  Context {P1 D S1 K J : Type}.
  Notation job := (job P1 D S1 K J). Notation outcome := (outcome P1 D S1 K J). Notation logfiles := (logfiles P1 D S1 K J).

  (** The same job writing to another log directory. *)
  Definition moved_to (ld : string) (j : job) : job :=
    {| j_ndev := j_ndev j; j_init := j_init j; j_burn := j_burn j; j_walk := j_walk j; j_update := j_update j; j_has_nan := j_has_nan j;
       j_cfg := {| logdir := Some ld; checkpoint_every := checkpoint_every (j_cfg j); best_checkpoint_every := best_checkpoint_every (j_cfg j);
                   checkpoint_dir := checkpoint_dir (j_cfg j); variance_scale := variance_scale (j_cfg j); check_for_nans := check_for_nans (j_cfg j);
                   record_amplitudes := record_amplitudes (j_cfg j); get_amplitude_fn := get_amplitude_fn (j_cfg j);
                   nchains := nchains (j_cfg j); nhistory_max := nhistory_max (j_cfg j) |};
       j_nepochs := j_nepochs j; j_use_training_data := j_use_training_data j; j_eval_nchains := j_eval_nchains j; j_new_data := j_new_data j;
       j_eval_burn := j_eval_burn j; j_eval_walk := j_eval_walk j; j_local_energies := j_local_energies j; j_statistics := j_statistics j;
       j_eval_amplitudes := j_eval_amplitudes j; j_record_local_energies := j_record_local_energies j; j_eval_nepochs := j_eval_nepochs j;
       j_summary := j_summary j |}.

  (** What every job set up by run_molecule has: an accepted configuration, a log directory, an amplitude getter, an update
      function that reports the usual metrics every epoch. *)
  Definition job_ok (j : job) : Prop :=
    valid_cfg (j_cfg j) /\ logdir (j_cfg j) <> None /\ get_amplitude_fn (j_cfg j) <> None /\
    metrics_complete (j_update j) /\ dicts_only (j_update j) /\ (forall p d s k, snd (fst (j_update j p d s k)) <> None).

  (** Parameters and optimizer state start out equal on all devices and updates keep them equal. *)
  Definition keeps_replicas_equal (j : job) : Prop :=
    0 < j_ndev j /\
    (let '(p, o, _, _) := j_init j in equal_copies (j_ndev j) p /\ equal_copies (j_ndev j) o) /\
    forall p d s k, equal_copies (j_ndev j) p -> equal_copies (j_ndev j) s ->
      let '(p', _, s', _, _) := j_update j p d s k in equal_copies (j_ndev j) p' /\ equal_copies (j_ndev j) s'.

  (** Two directories with the same metric files (those in [names]), evaluation files and statistics. *)
  Definition same_files (names : string -> Prop) (l l' : logfiles) : Prop :=
    (forall name, names name -> lines_of (lf_train l) name = lines_of (lf_train l') name) /\
    lf_eval l = lf_eval l' /\ lf_rows l = lf_rows l' /\ lf_stats l = lf_stats l'.
  (** Two jobs that end in the same way, with the same parameters and the same files. *)
  Definition same_result (names : string -> Prop) (a b : outcome) : Prop :=
    match a, b with
    | Crashed l, Crashed l' => same_files names l l'
    | NansDetected l, NansDetected l' => same_files names l l'
    | Completed p l, Completed p' l' => p = p' /\ same_files names l l'
    | _, _ => False
    end.
  Definition files_of (o : outcome) : logfiles := match o with Crashed l | NansDetected l | Completed _ l => l end.

  (** File name and content of the regular checkpoints of stored epoch >= e, in the order written. *)
  Definition regular_from (e : nat) (cks : list (ckpt_write (reps P1) D (reps S1) K)) :=
    map (fun v => (snd (fst v), snd v)) (filter (fun v => Nat.leb e (c_epoch (snd v))) (writes_named is_regular_name cks)).

  (** The walkers of evaluation epoch [i] (counted from 0), for parameters [p], when training ended with walkers [d] and key [k]. *)
  Definition eval_walkers (j : job) (p : reps P1) (d : D) (k : K) (i : nat) : D :=
    let '(d, k) := if j_use_training_data j && Nat.eqb (nchains (j_cfg j)) (j_eval_nchains j) then (d, k)
                   else (snd (j_new_data j p k), fst (j_new_data j p k)) in
    let '(d, k) := j_eval_burn j p d k in
    fst (walk_only (j_eval_walk j) (i + 1) p d k).
  (** Local energies of all walkers in each of the [n] evaluation epochs. *)
  Definition eval_samples (j : job) (p : reps P1) (d : D) (k : K) : list (list xr) :=
    map (fun i => j_local_energies j p (eval_walkers j p d k i)) (seq 0 (j_eval_nepochs j)).
End Spec.

(** * Property theorem C71: the log directories and saved configurations of many jobs *)
From Coq Require Import String List Arith Bool.
From Verif Require Import M_io S_io M_config P_flags M_logdir S_logdir P_logdir P_logdir2.
Import ListNotations.
Local Open Scope string_scope.

(** C71.  Whatever jobs are started one after the other, and whatever else they write: no JSON file
    (saved configuration, reload flags, statistics) that exists at some point is ever changed or
    removed later ... *)
Theorem C71_never_overwritten :
  forall (Rest : Type) cwd (s : fs Rest) h p c,
  sound s -> no_foreign_json h -> json_path p ->
  node_at s p = Some (File c) -> node_at (run cwd s h) p = Some (File c).
Proof. intros Rest cwd s h p c Hs Hh Hp Hf. destruct (run_keeps Rest cwd h s Hs Hh) as [_ K]. apply K; assumption. Qed.
Print Assumptions C71_never_overwritten.

(** ... every job that starts has, at the end of the history, its complete configuration in a file
    "config.json" or "config_i.json" of its log directory, which no other job uses and which did not
    exist before ... *)
Theorem C71_every_configuration_kept :
  forall (Rest : Type) cwd (s : fs Rest) h,
  sound s -> no_foreign_json h ->
  exists paths,
    Forall2 (fun p jc => exists n, config_name n /\ p = (resolve cwd (c_logdir (snd jc)) ++ [n])%list /\
      node_at (run cwd s h) p = Some (File (CfgFile (snd jc))) /\
      snd jc = set_logdir (cfg (fst jc)) (c_logdir (snd jc)))
      paths (started cwd s h) /\
    NoDup paths /\ (forall p, In p paths -> node_at s p = None).
Proof. intros Rest cwd s h Hs Hh. apply configs_kept; assumption. Qed.
Print Assumptions C71_every_configuration_kept.

(** ... and all jobs that do not ask for the directory they reload from get directories that did not
    exist, pairwise different even up to spelling, from which the default reload at any later time
    gives exactly their configuration. *)
Theorem C71_own_directories :
  forall (Rest : Type) cwd (s : fs Rest) h,
  sound s -> no_foreign_json h ->
  let own := filter (fun jc => negb (same_logdir (flags (fst jc)))) (started cwd s h) in
  NoDup (map (fun jc => resolve cwd (c_logdir (snd jc))) own) /\
  Forall (fun jc => node_at s (resolve cwd (c_logdir (snd jc))) = None /\
    load_config cwd (run cwd s h) (c_logdir (snd jc)) "config.json" = Some (snd jc)) own.
Proof. intros Rest cwd s h Hs Hh. exact (fresh_directories Rest cwd h s Hs Hh). Qed.
Print Assumptions C71_own_directories.

(** Two jobs with the same settings, a metrics file and statistics in between, then a job that
    reloads from and writes into the first directory. *)
Definition c71_cfg (n : nat) : config nat :=
  {| debug_nans := false; distribute := false; c_logdir := "./logs"; base_logdir := "./logs"; rest := n |}.
Definition c71_flags (d : string) (same : bool) : pre_flags :=
  {| reload_logdir := d; use_config_file := true; config_relative_file_path := "config.json";
     use_checkpoint_file := true; same_logdir := same; presets_name := "NONE"; presets_path := "NONE" |}.
Definition c71_job (n : nat) (d : string) (same : bool) : job nat :=
  {| flags := c71_flags d same; cfg := c71_cfg n; subfolder := "H2"; stamp := None |}.
Definition c71_history : list (event nat) :=
  [Start (c71_job 1 "NONE" false); WriteOther "./logs/H2" "energy.txt" 0; Start (c71_job 2 "NONE" false);
   SaveDict 0 "logs/H2/eval" "statistics"; MakeDir "logs/H2/checkpoints"; SaveDict 1 "logs/H2/eval" "statistics";
   Start (c71_job 3 "logs//H2/" true)].
Example C71_example :
  sound ([] : fs nat) /\ no_foreign_json c71_history /\
  map (fun jc => (rest (snd jc), c_logdir (snd jc))) (started ["home"] [] c71_history) =
    [(1, "./logs/H2"); (2, "./logs/H2_1"); (3, "logs//H2/")] /\
  map fst (run ["home"] [] c71_history) =
    [["home"]; ["home"; "logs"]; ["home"; "logs"; "H2"]; ["home"; "logs"; "H2"; "config.json"];
     ["home"; "logs"; "H2"; "reload_config.json"]; ["home"; "logs"; "H2"; "energy.txt"];
     ["home"; "logs"; "H2_1"]; ["home"; "logs"; "H2_1"; "config.json"]; ["home"; "logs"; "H2_1"; "reload_config.json"];
     ["home"; "logs"; "H2"; "eval"]; ["home"; "logs"; "H2"; "eval"; "statistics.json"];
     ["home"; "logs"; "H2"; "checkpoints"]; ["home"; "logs"; "H2"; "eval"; "statistics_1.json"];
     ["home"; "logs"; "H2"; "config_1.json"]; ["home"; "logs"; "H2"; "reload_config_1.json"]].
Proof.
  split; [|split; [|split]].
  - intros [|a p] c H; [reflexivity|]. exfalso. apply H. reflexivity.
  - intros d n id [H|[H|[H|[H|[H|[H|[H|[]]]]]]]]; try discriminate H. injection H as <- <- <-. auto.
  - reflexivity.
  - reflexivity.
Qed.

(** C71, finding: for a job that writes into the directory it reloads from, the default reload from
    its own log directory gives the OLD configuration, without the job's overrides: its own is in
    "config_i.json", which the default reload does not read. *)
Theorem C71_same_logdir_reload_refuted :
  (forall (Rest : Type) cwd (s s' : fs Rest) j c c0,
     sound s -> start_job cwd s j = (s', Some c) -> same_logdir (flags j) = true ->
     load_config cwd s (reload_logdir (flags j)) "config.json" = Some c0 ->
     c_logdir c = reload_logdir (flags j) /\ load_config cwd s' (c_logdir c) "config.json" = Some c0) /\
  (exists s' c c0, start_job [] (run [] [] [Start (c71_job 1 "NONE" false)]) (c71_job 3 "logs/H2" true) = (s', Some c) /\
     rest c = 3 /\ load_config [] s' (c_logdir c) "config.json" = Some c0 /\ rest c0 = 1).
Proof.
  split.
  - intros Rest cwd s s' j c c0 Hs H1 H2 H3. exact (same_logdir_default Rest cwd s j s' c c0 Hs H1 H2 H3).
  - do 3 eexists. split; [reflexivity|]. split; [reflexivity|]. split; reflexivity.
Qed.
Print Assumptions C71_same_logdir_reload_refuted.

(** C71, jobs started at the same time.  Under every interleaving of two starting jobs the JSON files
    that existed before are untouched; and if the two jobs end up in different directories, both
    configurations are kept. *)
Theorem C71_concurrent :
  forall (Rest : Type) cwd (s s' : fs Rest) ja jb sched a b,
  sound s -> interleave cwd s (Begin ja) (Begin jb) sched = (s', a, b) ->
  (forall p c, json_path p -> node_at s p = Some (File c) -> node_at s' p = Some (File c)) /\
  (forall ca cb, a = Saved ca -> b = Saved cb -> resolve cwd (c_logdir ca) <> resolve cwd (c_logdir cb) ->
     (exists n, config_name n /\ node_at s' (resolve cwd (c_logdir ca) ++ [n]) = Some (File (CfgFile ca))) /\
     (exists n, config_name n /\ node_at s' (resolve cwd (c_logdir cb) ++ [n]) = Some (File (CfgFile cb)))).
Proof.
  intros Rest cwd s s' ja jb sched a b Hs H.
  assert (W : weak Rest s s) by (split; auto). split.
  - assert (K := interleave_weak Rest cwd sched s s (Begin ja) (Begin jb) s' a b Hs W ltac:(discriminate) ltac:(discriminate) H).
    apply K.
  - intros ca cb -> -> Hne.
    exact (interleave_both Rest cwd sched s s (Begin ja) (Begin jb) s' ca cb Hs W Logic.I Logic.I H Hne).
Qed.
Print Assumptions C71_concurrent.

(** C71, finding: the check for an existing name and the creation are separate steps, so two jobs
    with the same naming started at the same time (the date-time stamp has a resolution of one
    second) share one directory, and one configuration can be lost. *)
Theorem C71_concurrent_directories_refuted :
  exists sched s' ca cb,
    interleave [] [] (Begin (c71_job 1 "NONE" false)) (Begin (c71_job 2 "NONE" false)) sched = (s', Saved ca, Saved cb) /\
    c_logdir ca = c_logdir cb /\ rest ca = 1 /\ rest cb = 2 /\
    load_config [] s' (c_logdir ca) "config.json" = Some cb /\
    forall p, node_at s' p <> Some (File (CfgFile ca)).
Proof.
  exists [true; false; true; false; true; false]. do 3 eexists. split; [reflexivity|].
  split; [reflexivity|]. split; [reflexivity|]. split; [reflexivity|]. split; [reflexivity|].
  intros p. destruct p as [|x p]; [discriminate|]. unfold node_at.
  match goal with |- find ?t _ <> _ => let t' := eval vm_compute in t in change t with t' end.
  cbn [find].
  repeat match goal with |- context [path_eqb ?a ?b] => destruct (path_eqb a b) end;
    intros E; apply (f_equal (fun o => match o with Some (File (CfgFile c)) => rest c | _ => 0 end)) in E;
    vm_compute in E; discriminate E.
Qed.
Print Assumptions C71_concurrent_directories_refuted.

(** Without interleaving the same two jobs keep both. *)
Example C71_sequential_example :
  exists s' ca cb,
    interleave [] [] (Begin (c71_job 1 "NONE" false)) (Begin (c71_job 2 "NONE" false))
      [true; true; true; false; false; false] = (s', Saved ca, Saved cb) /\
    c_logdir ca = "./logs/H2" /\ c_logdir cb = "./logs/H2_1" /\
    load_config [] s' "logs/H2" "config.json" = Some ca /\ load_config [] s' "logs/H2_1" "config.json" = Some cb.
Proof. do 3 eexists. repeat split; reflexivity. Qed.

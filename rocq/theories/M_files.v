(** * Model of the metric text files written during a run *)
From Coq Require Import List String Arith Bool.
From Verif Require Import XReal M_io M_vmc.
Import ListNotations.

(** [MetricsWriter.write_out_data], checkpoint.py 191-198: every metric of the dictionary is
    appended to its own file.  A row is one scalar (see [dict] in M_vmc.v). *)
Definition write_out_metrics (d : dir xr) (m : dict) : dir xr :=
  fold_left (fun acc kv => append_metric_to_file acc (fst kv) (snd kv)) m d.

(** All queued metrics of a run, written in queue order to the run's log directory (that the writer
    thread does exactly this is C09). *)
Definition write_all_metrics (d : dir xr) (ms : list (string * dict)) : dir xr :=
  fold_left (fun acc m => write_out_metrics acc (snd m)) ms d.

(** The part of [run_molecule] (runners.py 663-666) that carries the text files of a reloaded run
    over to the new log directory: [if reload_config.append: copy_txt_stats(...)]. *)
Definition carry_over_stats (append : bool) (src tgt : dir xr) (reload_at_epoch : nat) : dir xr :=
  if append then copy_txt_stats src tgt (Some reload_at_epoch) else tgt.

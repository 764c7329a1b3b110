(** * The statistics file of an evaluation and the command vmc-statistics *)
From Coq Require Import Reals List Bool Arith.
From Verif Require Import XReal M_stats M_run.
Import ListNotations.

(** runners.py 587-588: [get_stats_summary] on the loaded array, whose rows are the evaluation epochs and whose columns are the walkers.
    [None] stands for the summary of an array with an infinite or NaN entry, which is not modelled further. *)
Definition summarise (rows : list (list xr)) : option stats :=
  if forallb (forallb isfin) rows
  then Some (get_stats_summary (length rows) (length (hd [] rows)) (fun t k => match nth k (nth t rows []) (Fin 0) with Fin r => r | _ => 0%R end))
  else None.
(** runners.py 583-593, 762-784: the command loads the file and writes its summary to the path it is given (path handling is not modelled); [None]: it raises. *)
Definition vmc_statistics (file : list (list xr)) : option (option stats) := option_map summarise (load_rows file).

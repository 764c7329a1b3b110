(** * Vocabulary for the checkpoint files of a whole job (C78) *)
From Coq Require Import String Reals List Arith.
From Verif Require Import XReal M_io M_vmc M_files M_mcmc M_start M_job S_vmc S_files.
Import ListNotations.

(** The score by which the best epoch is chosen: the mean energy of the last epochs (the history length less one), plus, if the variance scale is positive,
    the square root of (scale times the mean variance) / (number of samples).  [es], [vs]: energies and variances so far. *)
Definition best_score (c : job_config) (es vs : list R) : R :=
  let recent (l : list R) := lastn (jc_nhistory_max c - 1) l in
  (rmean (recent es) + (if Rle_dec (jc_checkpoint_variance_scale c) 0 then 0
     else sqrt (rmean (recent vs) / (INR (wc_nchains (jc_walk c) * length (recent es)) / jc_checkpoint_variance_scale c))))%R.
(** Directory, file name and stored epoch number of a checkpoint that was written. *)
Definition written {P D S K} (w : ckpt_write P D S K) : string * string * nat := (fst w, c_epoch (snd w)).

(** * Concrete jobs for the examples and refutations of T_run.v *)
From Coq Require Import String List Arith Bool Reals Lra Lia.
From Verif Require Import XReal Rsum M_io M_vmc M_files M_optim M_run S_vmc S_files S_optim S_run E_vmc.
Import ListNotations.
Local Open Scope string_scope.
Local Open Scope list_scope.

(** Two devices.  Parameters count the updates, the walkers count the training epochs (and move by 10 per evaluation step);
    the energy is a given stream; two local energies per evaluation epoch. *)
Definition count_job (es : nat -> xr) (every best : option nat) (nans : bool) (nepochs eval_nepochs width : nat)
  : job nat nat unit unit (list (list xr)) :=
  {| j_ndev := 2; j_init := ([0; 0], [tt; tt], 0, tt);
     j_burn := fun p d k => (d, k); j_walk := fun p d k => (Fin 1, d, k);
     j_update := fun p d s k => (map S p, S d, s, Some (toy_metrics (es d) (Fin 1)), k);
     j_has_nan := fun _ => false;
     j_cfg := {| logdir := Some "log"; checkpoint_every := every; best_checkpoint_every := best; checkpoint_dir := "checkpoints";
                 variance_scale := 0; check_for_nans := nans; record_amplitudes := false;
                 get_amplitude_fn := Some (fun _ => (Fin 0, Fin 0)); nchains := 2; nhistory_max := 2 |};
     j_nepochs := nepochs; j_use_training_data := true; j_eval_nchains := 2;
     j_new_data := fun p k => (k, 100); j_eval_burn := fun p d k => (d + 10, k);
     j_eval_walk := fun p d k => (Fin 1, d + 10, k);
     j_local_energies := fun p d => repeat (es d) width;
     j_statistics := fun _ => (Fin 0, Fin 0);
     j_eval_amplitudes := false; j_record_local_energies := true; j_eval_nepochs := eval_nepochs; j_summary := fun rows => rows |}.

Lemma count_job_ok es every best nans n m width : every <> Some 0 -> best <> Some 0 -> job_ok (count_job es every best nans n m width).
Proof.
  intros H1 H2. split; [repeat split; try assumption; discriminate|]. split; [discriminate|]. split; [discriminate|]. split; [|split; [|discriminate]].
  - intros p d s k mm H. cbn in H. injection H as <-. repeat split; eexists; reflexivity.
  - intros p d s k mm H. cbn in H. injection H as <-. unfold is_dict. cbn. repeat constructor; cbn; intuition discriminate.
Qed.
Lemma count_job_sync es every best nans n m width : keeps_replicas_equal (count_job es every best nans n m width).
Proof.
  split; [cbn; lia|]. split; [split; [exists 0 | exists tt]; reflexivity|].
  intros p d s k [a ->] [b ->]. cbn. split; [exists (S a) | exists b]; reflexivity.
Qed.

(** SPRING on two devices whose walkers have different energies: one parameter, learning rate 1, mu = 0. *)
Definition dev_dlog (i k : nat) : R := INR i.
Definition dev_energies (dev i : nat) : R := match dev with O => match i with O => -1 | _ => 1 end | _ => 0 end.
Definition spring_job : job (nat -> R) unit sgd_state unit unit :=
  let step dev (p : nat -> R) s := spring_step 2 1 1 0 0 (fun _ => 1%R) dev_dlog (dev_energies dev) p s in
  {| j_ndev := 2; j_init := ([fun _ => 0%R; fun _ => 0%R], [sgd_init; sgd_init], tt, tt);
     j_burn := fun p d k => (d, k); j_walk := fun p d k => (Fin 1, d, k);
     j_update := fun p d s k =>
       match p, s with
       | [p0; p1], [s0; s1] => ([fst (step 0 p0 s0); fst (step 1 p1 s1)], d, [snd (step 0 p0 s0); snd (step 1 p1 s1)], Some (toy_metrics (Fin 0) (Fin 1)), k)
       | _, _ => (p, d, s, Some (toy_metrics (Fin 0) (Fin 1)), k)
       end;
     j_has_nan := fun _ => false;
     j_cfg := {| logdir := Some "log"; checkpoint_every := Some 1; best_checkpoint_every := None; checkpoint_dir := "checkpoints";
                 variance_scale := 0; check_for_nans := false; record_amplitudes := false;
                 get_amplitude_fn := Some (fun _ => (Fin 0, Fin 0)); nchains := 2; nhistory_max := 2 |};
     j_nepochs := 2; j_use_training_data := true; j_eval_nchains := 2;
     j_new_data := fun p k => (k, tt); j_eval_burn := fun p d k => (d, k); j_eval_walk := fun p d k => (Fin 1, d, k);
     j_local_energies := fun p d => []; j_statistics := fun _ => (Fin 0, Fin 0);
     j_eval_amplitudes := false; j_record_local_energies := false; j_eval_nepochs := 0; j_summary := fun _ => tt |}.
Lemma spring_job_ok : job_ok spring_job.
Proof.
  assert (E : forall p d s k, snd (fst (j_update spring_job p d s k)) = Some (toy_metrics (Fin 0) (Fin 1))).
  { intros p d s k. destruct p as [|p0 [|p1 [|p2 p]]], s as [|s0 [|s1 [|s2 s]]]; reflexivity. }
  split; [repeat split; try discriminate|]. split; [discriminate|]. split; [discriminate|]. split; [|split].
  - intros p d s k mm H. rewrite E in H. injection H as <-. repeat split; eexists; reflexivity.
  - intros p d s k mm H. rewrite E in H. injection H as <-. unfold is_dict. cbn. repeat constructor; cbn; intuition discriminate.
  - intros p d s k. rewrite E. discriminate.
Qed.

(** In such a job the best-checkpoint metric of an epoch is its energy (window of one). *)
Lemma count_state es every best nans n m width i a d :
  let j := count_job es every best nans n m width in
  state_after (j_walk j) (j_update j) i ([a; a], [tt; tt], d, tt) = ([i + a; i + a], [tt; tt], i + d, tt).
Proof.
  cbv zeta. unfold state_after. induction i as [|i IH]; [reflexivity|]. cbn [Nat.iter nat_rect] in *. unfold Nat.iter in IH. rewrite IH. reflexivity.
Qed.
Lemma count_recorded es every best nans n m width a d r :
  let j := count_job es every best nans n m width in
  recorded (j_walk j) (j_update j) ([a; a], [tt; tt], d, tt) r = seq 0 r.
Proof.
  cbv zeta. unfold recorded. induction (seq 0 r) as [|i l IH]; [reflexivity|].
  cbn [filter]. rewrite IH. unfold has_metrics. rewrite count_state. reflexivity.
Qed.
Lemma count_window es every best nans n m width a d (E : nat -> R) i :
  let j := count_job es every best nans n m width in
  window_metric (j_cfg j) (map E (recorded (j_walk j) (j_update j) ([a; a], [tt; tt], d, tt) (i + 1)))
    (map (fun _ => 1%R) (recorded (j_walk j) (j_update j) ([a; a], [tt; tt], d, tt) (i + 1))) = E i.
Proof.
  cbv zeta. rewrite count_recorded. unfold window_metric. cbn [count_job j_cfg nhistory_max variance_scale].
  assert (Rleb 0 0 = true) as -> by (apply Rleb_true; lra).
  unfold lastn. rewrite map_length, seq_length, Nat.add_1_r.
  replace (S i - (2 - 1)) with i by lia.
  rewrite seq_S, map_app, skipn_app, map_length, seq_length, Nat.sub_diag.
  rewrite skipn_all2 by (rewrite map_length, seq_length; lia).
  unfold rmean, rsum. cbn. field.
Qed.
Lemma count_window_seq es every best nans n m width (E : nat -> R) i :
  window_metric (j_cfg (count_job es every best nans n m width)) (map E (seq 0 (i + 1))) (map (fun _ => 1%R) (seq 0 (i + 1))) = E i.
Proof.
  rewrite <- (count_window es every best nans n m width 0 0 E i). cbv zeta. rewrite count_recorded. reflexivity.
Qed.
Lemma count_values es every best nans n m width a d i :
  let j := count_job es every best nans n m width in
  mval (j_walk j) (j_update j) "energy" (state_after (j_walk j) (j_update j) i ([a; a], [tt; tt], d, tt)) = es (i + d) /\
  mval (j_walk j) (j_update j) "variance" (state_after (j_walk j) (j_update j) i ([a; a], [tt; tt], d, tt)) = Fin 1.
Proof. cbv zeta. rewrite count_state. split; reflexivity. Qed.

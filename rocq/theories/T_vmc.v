(** * Property theorems C01 - C08: the VMC loop and its checkpoints *)
From Coq Require Import List String Arith Bool Reals Lra Lia.
From Verif Require Import XReal M_io M_vmc M_files S_vmc S_files P_vmc P_vmc2 P_running P_vmc3 P_files E_vmc.
Import ListNotations.
Local Open Scope string_scope.
Local Open Scope list_scope.

(** C01.  With a log directory and [checkpoint_every = k], the regular checkpoint files written are,
    in order, exactly [<checkpoint_dir>/(epoch+1).npz] for those executed epochs that reported
    metrics and have [k | epoch+1]; each holds the epoch number and the state at the START of that
    epoch; no name is written twice. *)
Theorem C01_regular_checkpoints :
  forall (P D S K : Type) (walker_fn : P -> D -> K -> xr * D * K)
    (update_param_fn : P -> D -> S -> K -> P * D * S * option dict * K) (params_have_nan : P -> bool)
    (g : cfg D) ld k start nepochs p o d key,
  valid_cfg g -> metrics_complete update_param_fn -> logdir g = Some ld -> checkpoint_every g = Some k ->
  let x0 := (p, o, d, key) in
  let at_ i := state_after walker_fn update_param_fn i x0 in
  exists r b p' o' d' key' ckpts metrics,
    vmc_loop walker_fn update_param_fn params_have_nan g start nepochs p o d key
      = Finished p' o' d' key' b ckpts metrics /\
    RunsFor (fun i => check_for_nans g && nan_epoch walker_fn update_param_fn params_have_nan (at_ i))
      (nepochs - start) r b /\
    writes_named is_regular_name ckpts =
      map (fun i => (path_join ld (checkpoint_dir g), str_nat (start + i + 1) ++ ".npz",
                     ckpt_of (start + i) (at_ i)))%string
          (filter (fun i => has_metrics walker_fn update_param_fn (at_ i)
                            && Nat.eqb ((start + i + 1) mod k) 0) (seq 0 r)) /\
    NoDup (map (fun w => snd (fst w)) (writes_named is_regular_name ckpts)).
Proof. exact regular_checkpoints. Qed.
Print Assumptions C01_regular_checkpoints.

(** A run of 7 epochs with an interval of 3 writes 3.npz and 6.npz, with the states before
    epochs 2 and 5. *)
Example C01_example :
  exists p' o' d' key' b ckpts metrics,
    vmc_loop toy_walker (toy_update (fun _ => Fin 1)) toy_nan (toy_cfg (Some 3) None true 5) 0 7 tt tt 0 tt
      = Finished p' o' d' key' b ckpts metrics /\
    writes_named is_regular_name ckpts =
      [("log/checkpoints", "3.npz", {| c_epoch := 2; c_data := 2; c_params := tt; c_opt := tt; c_key := tt |});
       ("log/checkpoints", "6.npz", {| c_epoch := 5; c_data := 5; c_params := tt; c_opt := tt; c_key := tt |})].
Proof.
  destruct (C01_regular_checkpoints unit nat unit unit toy_walker (toy_update (fun _ => Fin 1)) toy_nan
    (toy_cfg (Some 3) None true 5) "log" 3 0 7 tt tt 0 tt) as (r & b & p' & o' & d' & k' & ck & me & HL & HR & HW & _).
  - apply toy_valid; discriminate.
  - apply toy_complete.
  - reflexivity.
  - reflexivity.
  - exists p', o', d', k', b, ck, me. split; [exact HL|]. rewrite HW.
    destruct HR as [(-> & -> & _)|(_ & i & _ & _ & C & _)].
    + reflexivity.
    + exfalso. unfold nan_epoch in C. rewrite toy_state in C. discriminate C.
Qed.

(** C02.  From EVERY checkpoint file written by a run (regular, best or NaN diagnostic), restarting
    with [start_epoch] = stored epoch gives the same final parameters, optimizer state, data, key
    and NaN flag, writes the same regular checkpoints (file names and contents) from there on, and
    logs the same metrics from there on.  The resumed run may use another log directory. *)
Theorem C02_resume_reproduces :
  forall (P D S K : Type) (walker_fn : P -> D -> K -> xr * D * K)
    (update_param_fn : P -> D -> S -> K -> P * D * S * option dict * K) (params_have_nan : P -> bool)
    (g g' : cfg D) ld ld' start nepochs p o d key pf of_ df kf nf cks ms w,
  valid_cfg g -> metrics_complete update_param_fn -> logdir g = Some ld ->
  valid_cfg g' -> logdir g' = Some ld' -> check_for_nans g' = check_for_nans g ->
  checkpoint_every g' = checkpoint_every g ->
  record_amplitudes g' = record_amplitudes g -> get_amplitude_fn g' = get_amplitude_fn g ->
  vmc_loop walker_fn update_param_fn params_have_nan g start nepochs p o d key
    = Finished pf of_ df kf nf cks ms ->
  In w cks ->
  let c := snd w in
  exists cks' ms' before mbefore,
    vmc_loop walker_fn update_param_fn params_have_nan g' (c_epoch c) nepochs
        (c_params c) (c_opt c) (c_data c) (c_key c)
      = Finished pf of_ df kf nf cks' ms' /\
    map (fun v => (snd (fst v), snd v)) (writes_named is_regular_name cks) =
      before ++ map (fun v => (snd (fst v), snd v)) (writes_named is_regular_name cks') /\
    (forall v, In v before -> c_epoch (snd v) < c_epoch c) /\
    (forall v, In v cks' -> c_epoch c <= c_epoch (snd v)) /\
    map snd ms = mbefore ++ map snd ms' /\
    List.length mbefore = List.length (recorded walker_fn update_param_fn (p, o, d, key) (c_epoch c - start)).
Proof. exact resume_reproduces. Qed.
Print Assumptions C02_resume_reproduces.

(** The hypotheses are met by the 7-epoch run above and its checkpoint 3.npz. *)
Example C02_example :
  exists pf of_ df kf nf cks ms,
    vmc_loop toy_walker (toy_update (fun _ => Fin 1)) toy_nan (toy_cfg (Some 3) None true 5) 0 7 tt tt 0 tt
      = Finished pf of_ df kf nf cks ms /\
    In ("log/checkpoints", "3.npz", {| c_epoch := 2; c_data := 2; c_params := tt; c_opt := tt; c_key := tt |}) cks.
Proof.
  destruct C01_example as (p' & o' & d' & k' & b & ck & me & HL & HW).
  exists p', o', d', k', b, ck, me. split; [exact HL|].
  match goal with |- In ?w _ => assert (H : In w (writes_named is_regular_name ck)) by (rewrite HW; left; reflexivity) end.
  apply filter_In in H. apply H.
Qed.

(** C03, part 1: after the run the text file of every metric has exactly one additional line per
    executed epoch that reported metrics, in epoch order, holding that epoch's value. *)
Theorem C03_one_line_per_epoch :
  forall (P D S K : Type) (walker_fn : P -> D -> K -> xr * D * K)
    (update_param_fn : P -> D -> S -> K -> P * D * S * option dict * K) (params_have_nan : P -> bool)
    (g : cfg D) ld start nepochs p o d key,
  valid_cfg g -> metrics_complete update_param_fn -> dicts_only update_param_fn -> logdir g = Some ld ->
  let x0 := (p, o, d, key) in
  let at_ i := state_after walker_fn update_param_fn i x0 in
  exists r b p' o' d' key' ckpts metrics,
    vmc_loop walker_fn update_param_fn params_have_nan g start nepochs p o d key
      = Finished p' o' d' key' b ckpts metrics /\
    RunsFor (fun i => check_for_nans g && nan_epoch walker_fn update_param_fn params_have_nan (at_ i))
      (nepochs - start) r b /\
    (forall m, In m metrics -> fst m = ld) /\
    forall name dir0,
      name <> "amplitude_min" -> name <> "amplitude_max" ->
      (forall i m, i < r -> metrics_at walker_fn update_param_fn (at_ i) = Some m -> dget m name <> None) ->
      lines_of (write_all_metrics dir0 metrics) name =
      lines_of dir0 name ++
        map (fun i => mval walker_fn update_param_fn name (at_ i)) (recorded walker_fn update_param_fn x0 r).
Proof. exact one_line_per_epoch. Qed.
Print Assumptions C03_one_line_per_epoch.

(** C03, part 2: a run crashes after its first [done] metric lines were written; it is reloaded
    from a checkpoint of it with stored epoch [e], [0 < e <= done], in append mode (into a fresh
    directory, or in place); after the resumed run each metric file equals that of the
    uninterrupted run. *)
Theorem C03_resume_append_same_file :
  forall (P D S K : Type) (walker_fn : P -> D -> K -> xr * D * K)
    (update_param_fn : P -> D -> S -> K -> P * D * S * option dict * K) (params_have_nan : P -> bool)
    (g g' : cfg D) ld ld' nepochs p o d key pf of_ df kf nf cks ms w done pf' of' df' kf' nf' cks' ms' name,
  valid_cfg g -> metrics_complete update_param_fn -> dicts_only update_param_fn -> logdir g = Some ld ->
  valid_cfg g' -> logdir g' = Some ld' -> check_for_nans g' = check_for_nans g ->
  checkpoint_every g' = checkpoint_every g ->
  record_amplitudes g' = record_amplitudes g -> get_amplitude_fn g' = get_amplitude_fn g ->
  vmc_loop walker_fn update_param_fn params_have_nan g 0 nepochs p o d key
    = Finished pf of_ df kf nf cks ms ->
  In w cks ->
  let c := snd w in
  vmc_loop walker_fn update_param_fn params_have_nan g' (c_epoch c) nepochs
      (c_params c) (c_opt c) (c_data c) (c_key c)
    = Finished pf' of' df' kf' nf' cks' ms' ->
  name <> "amplitude_min" -> name <> "amplitude_max" ->
  contains "git_hash" (name ++ ".txt")%string = false ->
  (forall x, exists m, metrics_at walker_fn update_param_fn x = Some m /\ dget m name <> None) ->
  c_epoch c <= done -> 0 < c_epoch c ->
  let crashed := write_all_metrics [] (firstn done ms) in
  lines_of (write_all_metrics (carry_over_stats true crashed [] (c_epoch c)) ms') name
    = lines_of (write_all_metrics [] ms) name /\
  lines_of (write_all_metrics (copy_txt_stats_same crashed (Some (c_epoch c))) ms') name
    = lines_of (write_all_metrics [] ms) name.
Proof. exact resume_append_same_file. Qed.
Print Assumptions C03_resume_append_same_file.

Example C03_example :
  forall es, exists pf of_ df kf nf cks ms pf' of' df' kf' nf' cks' ms' w,
    let upd := toy_update es in
    let g := toy_cfg (Some 3) None false 5 in
    vmc_loop toy_walker upd toy_nan g 0 7 tt tt 0 tt = Finished pf of_ df kf nf cks ms /\
    In w cks /\ c_epoch (snd w) = 2 /\
    vmc_loop toy_walker upd toy_nan g 2 7 tt tt (c_data (snd w)) tt = Finished pf' of' df' kf' nf' cks' ms' /\
    (forall x, exists m, metrics_at toy_walker upd x = Some m /\ dget m "energy" <> None) /\
    lines_of (write_all_metrics [] ms) "energy" = map es [0; 1; 2; 3; 4; 5; 6] /\
    lines_of (write_all_metrics (carry_over_stats true (write_all_metrics [] (firstn 4 ms)) [] 2) ms') "energy"
      = map es [0; 1; 2; 3; 4; 5; 6].
Proof.
  intros es. do 14 eexists.
  exists ("log/checkpoints", "3.npz", {| c_epoch := 2; c_data := 2; c_params := tt; c_opt := tt; c_key := tt |}).
  cbv zeta. split; [lazy; reflexivity|]. split; [left; reflexivity|]. split; [reflexivity|].
  split; [lazy; reflexivity|]. split; [|split; lazy; reflexivity].
  intros [[[p o] d] k]. eexists. split; [reflexivity|discriminate].
Qed.

(** C03, refuted part: for a checkpoint with stored epoch 0 (interval 1) the files are NOT those of
    the uninterrupted run: the lines are duplicated. *)
Theorem C03_epoch_zero_refuted :
  forall es, exists pf of_ df kf nf cks ms w pf' of' df' kf' nf' cks' ms',
    let upd := toy_update es in
    let g := toy_cfg (Some 1) None false 5 in
    vmc_loop toy_walker upd toy_nan g 0 2 tt tt 0 tt = Finished pf of_ df kf nf cks ms /\
    In w cks /\ c_epoch (snd w) = 0 /\
    vmc_loop toy_walker upd toy_nan g 0 2 tt tt (c_data (snd w)) tt = Finished pf' of' df' kf' nf' cks' ms' /\
    lines_of (write_all_metrics [] ms) "energy" = [es 0; es 1] /\
    lines_of (write_all_metrics (carry_over_stats true (write_all_metrics [] (firstn 1 ms)) [] 0) ms') "energy"
      = [es 0; es 0; es 1].
Proof.
  intros es. do 7 eexists.
  exists ("log/checkpoints", "1.npz", {| c_epoch := 0; c_data := 0; c_params := tt; c_opt := tt; c_key := tt |}).
  do 7 eexists.
  cbv zeta. split; [lazy; reflexivity|]. split; [left; reflexivity|]. split; [reflexivity|].
  split; [lazy; reflexivity|]. split; lazy; reflexivity.
Qed.
Print Assumptions C03_epoch_zero_refuted.

(** C04.  When all recorded energies and variances are finite (variances non-negative), after the
    run [best_checkpoint.npz] holds the pre-epoch state of the FIRST recorded epoch at which the
    error-adjusted running average attains its minimum, whatever [best_checkpoint_every >= 1] is;
    it is absent only if no epoch was recorded. *)
Theorem C04_best_checkpoint :
  forall (P D S K : Type) (walker_fn : P -> D -> K -> xr * D * K)
    (update_param_fn : P -> D -> S -> K -> P * D * S * option dict * K) (params_have_nan : P -> bool)
    (g : cfg D) ld start nepochs p o d key (E V : nat -> R),
  valid_cfg g -> metrics_complete update_param_fn -> logdir g = Some ld ->
  best_checkpoint_every g <> None -> 2 <= nhistory_max g ->
  let x0 := (p, o, d, key) in
  let at_ i := state_after walker_fn update_param_fn i x0 in
  let recs r := recorded walker_fn update_param_fn x0 r in
  exists r b p' o' d' key' ckpts metrics,
    vmc_loop walker_fn update_param_fn params_have_nan g start nepochs p o d key
      = Finished p' o' d' key' b ckpts metrics /\
    RunsFor (fun i => check_for_nans g && nan_epoch walker_fn update_param_fn params_have_nan (at_ i))
      (nepochs - start) r b /\
    ((forall i, In i (recs r) -> mval walker_fn update_param_fn "energy" (at_ i) = Fin (E i) /\
        mval walker_fn update_param_fn "variance" (at_ i) = Fin (V i) /\ (0 <= V i)%R) ->
     let m i := window_metric g (map E (recs (i + 1))) (map V (recs (i + 1))) in
     (last_write is_best_name ckpts = None /\ recs r = [])
     \/
     exists i, In i (recs r) /\
       last_write is_best_name ckpts = Some (ld, "best_checkpoint.npz", ckpt_of (start + i) (at_ i)) /\
       (forall j, In j (recs r) -> (m i <= m j)%R) /\
       (forall j, In j (recs r) -> j < i -> (m i < m j)%R)).
Proof. exact best_checkpoint_finite. Qed.
Print Assumptions C04_best_checkpoint.

(** Energies 3, 2, 1, 0, ...: the last epoch is best although the interval (5) is not hit. *)
Example C04_example :
  exists p' o' d' key' b ckpts metrics,
    vmc_loop toy_walker (toy_update (fun n => Fin (3 - INR n))) toy_nan (toy_cfg None (Some 5) true 2)
       0 4 tt tt 0 tt = Finished p' o' d' key' b ckpts metrics /\
    last_write is_best_name ckpts =
      Some ("log", "best_checkpoint.npz", {| c_epoch := 3; c_data := 3; c_params := tt; c_opt := tt; c_key := tt |}).
Proof.
  set (es := fun n => Fin (3 - INR n)).
  destruct (C04_best_checkpoint unit nat unit unit toy_walker (toy_update es) toy_nan
    (toy_cfg None (Some 5) true 2) "log" 0 4 tt tt 0 tt (fun n => 3 - INR n)%R (fun _ => 1%R))
    as (r & b & p' & o' & d' & k' & ck & me & HL & HR & HB).
  - apply toy_valid; discriminate.
  - apply toy_complete.
  - reflexivity.
  - discriminate.
  - simpl; lia.
  - exists p', o', d', k', b, ck, me. split; [exact HL|].
    cbv beta zeta in HR.
    assert (r = 4 /\ b = false) as [-> ->].
    { destruct HR as [(-> & -> & _)|(_ & i & _ & _ & C & _)]; [split; reflexivity|].
      exfalso. unfold nan_epoch in C. rewrite toy_state in C. discriminate C. }
    cbv beta zeta in HB. rewrite toy_recorded in HB.
    destruct HB as [[_ C]|(i & Hi & Hw & Hmin & _)]; [|discriminate C|].
    + intros i _. rewrite toy_energy, toy_variance. repeat split. lra.
    + assert (M : forall i, window_metric (toy_cfg None (Some 5) true 2)
          (map (fun n => (3 - INR n)%R) (recorded toy_walker (toy_update es) (tt, tt, 0, tt) (i + 1)))
          (map (fun _ : nat => 1%R) (recorded toy_walker (toy_update es) (tt, tt, 0, tt) (i + 1))) = (3 - INR i)%R).
      { intros j. rewrite toy_recorded. unfold window_metric. cbn [nhistory_max variance_scale toy_cfg].
        assert (Rleb 0 0 = true) as -> by (apply Rleb_true; lra).
        unfold lastn. rewrite map_length, seq_length, Nat.add_1_r.
        replace (S j - (2 - 1)) with j by lia.
        rewrite seq_S, map_app, skipn_app, map_length, seq_length, Nat.sub_diag.
        rewrite skipn_all2 by (rewrite map_length, seq_length; lia).
        unfold rmean, rsum. simpl. field. }
      assert (i = 3) as ->.
      { specialize (Hmin 3 ltac:(simpl; auto)). rewrite !M in Hmin.
        apply in_seq in Hi. destruct Hi as [_ Hi]. simpl in Hi.
        assert (Hle : (INR 3 <= INR i)%R) by lra. apply INR_le in Hle. lia. }
      rewrite Hw, toy_state. reflexivity.
Qed.

(** C05.  One NaN energy (or NaN variance, when the variance is used) disables best checkpoints for
    the rest of the run: every best checkpoint ever written is from an earlier epoch. *)
Theorem C05_nan_disables_best :
  forall (P D S K : Type) (walker_fn : P -> D -> K -> xr * D * K)
    (update_param_fn : P -> D -> S -> K -> P * D * S * option dict * K) (params_have_nan : P -> bool)
    (g : cfg D) ld start nepochs p o d key i0,
  valid_cfg g -> metrics_complete update_param_fn -> logdir g = Some ld -> 1 <= nhistory_max g ->
  let at_ i := state_after walker_fn update_param_fn i (p, o, d, key) in
  metrics_at walker_fn update_param_fn (at_ i0) <> None ->
  (mval walker_fn update_param_fn "energy" (at_ i0) = NaN \/
   (mval walker_fn update_param_fn "variance" (at_ i0) = NaN /\ (0 < variance_scale g)%R /\
    1 <= nchains g /\ 2 <= nhistory_max g)) ->
  exists p' o' d' key' b ckpts metrics,
    vmc_loop walker_fn update_param_fn params_have_nan g start nepochs p o d key
      = Finished p' o' d' key' b ckpts metrics /\
    (forall w, In w ckpts -> is_best_name (snd (fst w)) = true -> c_epoch (snd w) < start + i0).
Proof. exact nan_disables_best. Qed.
Print Assumptions C05_nan_disables_best.

(** So "the best checkpoint is the best epoch" is false without the no-NaN hypothesis, even if NaN
    epochs are ignored: energies 5, NaN, 1, 1, ... with the NaN check off.  Every best checkpoint
    is from epoch 0 although all later energies are 1. *)
Theorem C05_unconditional_best_refuted :
  exists (es : nat -> xr) (g : cfg nat),
    valid_cfg g /\ es 0 = Fin 5 /\ (forall n, 2 <= n -> es n = Fin 1) /\
    forall nepochs, exists p' o' d' key' b ckpts metrics,
      vmc_loop toy_walker (toy_update es) toy_nan g 0 nepochs tt tt 0 tt
        = Finished p' o' d' key' b ckpts metrics /\ d' = nepochs /\
      (forall w, In w ckpts -> is_best_name (snd (fst w)) = true -> c_epoch (snd w) = 0).
Proof.
  exists nan_stream, (toy_cfg None (Some 1) false 10).
  split; [apply toy_valid; discriminate|]. split; [reflexivity|].
  split; [intros [|[|n]] Hn; try lia; reflexivity|].
  intros nepochs.
  destruct (C05_nan_disables_best unit nat unit unit toy_walker (toy_update nan_stream) toy_nan
    (toy_cfg None (Some 1) false 10) "log" 0 nepochs tt tt 0 tt 1) as (p' & o' & d' & k' & b & ck & me & HL & HB).
  - apply toy_valid; discriminate.
  - apply toy_complete.
  - reflexivity.
  - simpl; lia.
  - rewrite toy_state. discriminate.
  - left. apply toy_energy.
  - exists p', o', d', k', b, ck, me. split; [exact HL|]. split.
    + destruct (no_check_runs_all unit nat unit unit toy_walker (toy_update nan_stream) toy_nan
        (toy_cfg None (Some 1) false 10) "log" 0 nepochs tt tt 0 tt) as (ck2 & me2 & HL2).
      * apply toy_valid; discriminate.
      * apply toy_complete.
      * reflexivity.
      * left; reflexivity.
      * cbv zeta in HL2. rewrite toy_state in HL2. cbv beta iota in HL2.
        pose proof (eq_trans (eq_sym HL) HL2) as HE. injection HE as _ _ Hd _ _ _ _. rewrite Hd. lia.
    + intros w Hw Hb. specialize (HB w Hw Hb). lia.
Qed.
Print Assumptions C05_unconditional_best_refuted.

(** C06.  With the NaN check on, the run stops exactly after the first epoch with a NaN (unclipped
    energy, unclipped variance or new parameters), reports it, and has written exactly one
    diagnostic file holding the pre-epoch state; otherwise all epochs run, the flag is False and
    there is no diagnostic file. *)
Theorem C06_nan_abort :
  forall (P D S K : Type) (walker_fn : P -> D -> K -> xr * D * K)
    (update_param_fn : P -> D -> S -> K -> P * D * S * option dict * K) (params_have_nan : P -> bool)
    (g : cfg D) ld start nepochs p o d key,
  valid_cfg g -> metrics_complete update_param_fn -> logdir g = Some ld -> check_for_nans g = true ->
  let x0 := (p, o, d, key) in
  let at_ i := state_after walker_fn update_param_fn i x0 in
  let bad i := nan_epoch walker_fn update_param_fn params_have_nan (at_ i) in
  exists p' o' d' key' nans ckpts metrics r,
    vmc_loop walker_fn update_param_fn params_have_nan g start nepochs p o d key
      = Finished p' o' d' key' nans ckpts metrics /\
    at_ r = (p', o', d', key') /\
    ((nans = false /\ r = nepochs - start /\ writes_named is_nans_name ckpts = [] /\
      forall i, i < nepochs - start -> bad i = false)
     \/
     (exists i, nans = true /\ r = i + 1 /\ i < nepochs - start /\
        bad i = true /\ (forall j, j < i -> bad j = false) /\
        writes_named is_nans_name ckpts =
          [(path_join ld (checkpoint_dir g), "nans_" ++ str_nat (start + i + 1) ++ ".npz",
            ckpt_of (start + i) (at_ i))]%string)).
Proof. exact nan_abort. Qed.
Print Assumptions C06_nan_abort.

(** The stream 5, NaN, ... stops after epoch 1 with diagnostic file nans_2.npz. *)
Example C06_example :
  exists p' o' d' key' ckpts metrics,
    vmc_loop toy_walker (toy_update nan_stream) toy_nan (toy_cfg (Some 1) None true 5) 0 9 tt tt 0 tt
      = Finished p' o' d' key' true ckpts metrics /\
    writes_named is_nans_name ckpts =
      [("log/checkpoints", "nans_2.npz", {| c_epoch := 1; c_data := 1; c_params := tt; c_opt := tt; c_key := tt |})].
Proof. do 6 eexists. split; reflexivity. Qed.

(** C07.  Without a log directory: no file effects, the plain trajectory, and the NaN flag is always
    False whatever [check_for_nans] says. *)
Theorem C07_no_logdir :
  forall (P D S K : Type) (walker_fn : P -> D -> K -> xr * D * K)
    (update_param_fn : P -> D -> S -> K -> P * D * S * option dict * K) (params_have_nan : P -> bool)
    (g : cfg D) start nepochs p o d key,
  logdir g = None ->
  vmc_loop walker_fn update_param_fn params_have_nan g start nepochs p o d key =
    (let '(p', o', d', key') := state_after walker_fn update_param_fn (nepochs - start) (p, o, d, key) in
     Finished p' o' d' key' false [] []).
Proof. exact no_logdir_no_effects. Qed.
Print Assumptions C07_no_logdir.

(** Logging does not influence the numbers: with a log directory and no abort, the result is the
    same trajectory. *)
Theorem C07_logging_is_passive :
  forall (P D S K : Type) (walker_fn : P -> D -> K -> xr * D * K)
    (update_param_fn : P -> D -> S -> K -> P * D * S * option dict * K) (params_have_nan : P -> bool)
    (g : cfg D) ld start nepochs p o d key,
  valid_cfg g -> metrics_complete update_param_fn -> logdir g = Some ld ->
  let x0 := (p, o, d, key) in
  (check_for_nans g = false \/
   forall i, i < nepochs - start ->
     nan_epoch walker_fn update_param_fn params_have_nan (state_after walker_fn update_param_fn i x0) = false) ->
  exists ckpts metrics,
    vmc_loop walker_fn update_param_fn params_have_nan g start nepochs p o d key =
      (let '(p', o', d', key') := state_after walker_fn update_param_fn (nepochs - start) x0 in
       Finished p' o' d' key' false ckpts metrics).
Proof. exact no_check_runs_all. Qed.
Print Assumptions C07_logging_is_passive.

(** The documented abort ("after nans are detected ... the loop will be aborted") does not happen
    without a log directory. *)
Theorem C07_nan_check_ignored_refuted :
  exists (g : cfg nat) es, check_for_nans g = true /\ logdir g = None /\
    nan_epoch toy_walker (toy_update es) toy_nan (state_after toy_walker (toy_update es) 1 (tt, tt, 0, tt)) = true /\
    vmc_loop toy_walker (toy_update es) toy_nan g 0 9 tt tt 0 tt = Finished tt tt 9 tt false [] [].
Proof.
  exists {| logdir := None; checkpoint_every := Some 1; best_checkpoint_every := None;
     checkpoint_dir := "checkpoints"; variance_scale := 0; check_for_nans := true;
     record_amplitudes := false; get_amplitude_fn := None; nchains := 10; nhistory_max := 5 |}, nan_stream.
  repeat split.
Qed.
Print Assumptions C07_nan_check_ignored_refuted.

(** C08.  After any sequence of finite updates, with [nhistory_max >= 2], the history holds the most
    recent [nhistory_max - 1] values and the running average is their arithmetic mean. *)
Theorem C08_running_average :
  forall (nh : nat) (l : list R), 2 <= nh ->
  fold_left (move_history_window nh) (map Fin l) running_init =
    {| avg := Fin (match l with [] => 0%R | _ => rmean (lastn (nh - 1) l) end);
       history := map Fin (lastn (nh - 1) l) |}.
Proof. exact tracked_fin. Qed.
Print Assumptions C08_running_average.

Example C08_example :
  avg (fold_left (move_history_window 3) (map Fin [1; 2; 4; 8]%R) running_init) = Fin 6 /\
  history (fold_left (move_history_window 3) (map Fin [1; 2; 4; 8]%R) running_init) = map Fin [4; 8]%R.
Proof.
  rewrite C08_running_average by lia. split; [|reflexivity].
  cbn [avg lastn List.length skipn Nat.sub]. unfold rmean, rsum. simpl. f_equal. lra.
Qed.

(** The documentation says that [nhistory_max] values are kept; only [nhistory_max - 1] are, for
    every [nhistory_max >= 2] and every stream that is long enough. *)
Theorem C08_window_too_short_refuted :
  forall nh (l : list xr), 2 <= nh -> nh <= List.length l ->
  List.length (history (fold_left (move_history_window nh) l running_init)) = nh - 1 /\ nh - 1 <> nh.
Proof.
  intros nh l H1 H2. split; [|lia].
  change (List.length (history (tracked nh l)) = nh - 1).
  rewrite tracked_history, lastn_length by exact H1. lia.
Qed.
Print Assumptions C08_window_too_short_refuted.

(** [nhistory_max = 1] makes the running average NaN after every non-empty finite history, and
    then no best checkpoint is ever written. *)
Theorem C08_nhistory_one_nan :
  forall l : list R, l <> [] ->
  fold_left (move_history_window 1) (map Fin l) running_init = {| avg := NaN; history := [] |}.
Proof. exact tracked_one_fin. Qed.
Print Assumptions C08_nhistory_one_nan.

Theorem C08_nhistory_one_no_best :
  forall (P D S K : Type) (walker_fn : P -> D -> K -> xr * D * K)
    (update_param_fn : P -> D -> S -> K -> P * D * S * option dict * K) (params_have_nan : P -> bool)
    (g : cfg D) ld start nepochs p o d key,
  valid_cfg g -> metrics_complete update_param_fn -> logdir g = Some ld -> nhistory_max g = 1 ->
  let x0 := (p, o, d, key) in
  (forall i, isfin (mval walker_fn update_param_fn "energy" (state_after walker_fn update_param_fn i x0)) = true) ->
  exists p' o' d' key' b ckpts metrics,
    vmc_loop walker_fn update_param_fn params_have_nan g start nepochs p o d key
      = Finished p' o' d' key' b ckpts metrics /\
    writes_named is_best_name ckpts = [].
Proof. exact nhistory_one_no_best. Qed.
Print Assumptions C08_nhistory_one_no_best.

Example C08_nhistory_one_example :
  valid_cfg (toy_cfg None (Some 1) true 1) /\ nhistory_max (toy_cfg None (Some 1) true 1) = 1 /\
  forall i, isfin (mval toy_walker (toy_update (fun n => Fin (INR n))) "energy"
     (state_after toy_walker (toy_update (fun n => Fin (INR n))) i (tt, tt, 0, tt))) = true.
Proof.
  split; [apply toy_valid; discriminate|]. split; [reflexivity|]. intros i. rewrite toy_energy. reflexivity.
Qed.

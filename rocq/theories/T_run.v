(** * Property theorems C65 - C67: whole jobs *)
From Coq Require Import String List Arith Bool Reals Lra Lia.
From Verif Require Import XReal Rsum M_io M_vmc M_files M_optim M_run S_vmc S_files S_optim S_run P_vmc3 P_run E_vmc E_run T_vmc T_optim.
Import ListNotations.
Local Open Scope string_scope.
Local Open Scope list_scope.

(** C65.  A job is interrupted at some point after checkpoint [c] was written (its metric files then hold at least the lines
    of the epochs before [c]; different files may be cut at different lines), and is resumed with the default reload options,
    in a new directory or in the same one.  If the devices' copies of the parameters stay equal, the resumed job ends like
    the uninterrupted one: same kind of ending, same parameters, the same metric files, the same evaluation files, samples and
    statistics, and it writes the same regular checkpoints from [c] on. *)
Theorem C65_resumed_job : forall (P1 D S1 K J : Type) (j : job P1 D S1 K J) ld' p o d k nans cks ms w c (crashed : logfiles P1 D S1 K J) (same : bool),
  job_ok j -> keeps_replicas_equal j ->
  train j None = Finished p o d k nans cks ms -> In w cks -> process_for_saving (snd w) = Some c -> 0 < c_epoch c ->
  let uninterrupted := run_molecule j None empty_logfiles in
  let names name := contains "git_hash" (name ++ ".txt")%string = false /\ (forall m, In m ms -> dget (snd m) name <> None) in
  NoDup (map fst (lf_train crashed)) ->
  (same = true -> lf_eval crashed = [] /\ lf_rows crashed = [] /\ lf_stats crashed = []) ->
  (forall name, names name -> exists n, c_epoch c <= n /\
     lines_of (lf_train crashed) name = firstn n (lines_of (lf_train (files_of uninterrupted)) name)) ->
  let start := if same then crashed else empty_logfiles in
  let resumed := run_molecule (moved_to ld' j) (Some (resume_flags c (lf_train crashed) same)) start in
  same_result names uninterrupted resumed /\
  regular_from (c_epoch c) (lf_ckpts (files_of uninterrupted)) =
    regular_from 0 (skipn (List.length (lf_ckpts start)) (lf_ckpts (files_of resumed))).
Proof. intros P1 D S1 K J. exact resumed_job. Qed.
Print Assumptions C65_resumed_job.

(** Seven epochs with a checkpoint every third: interrupted after four lines of one file and five of the others, resumed from 3.npz. *)
Example C65_example : forall es, 
  let j := count_job es (Some 3) None false 7 2 2 in
  exists p o d k cks ms w c, exists crashed : logfiles nat nat unit unit (list (list xr)),
    train j None = Finished p o d k false cks ms /\ In w cks /\ process_for_saving (snd w) = Some c /\ c_epoch c = 2 /\
    lf_train crashed = [("energy.txt", map es [0; 1; 2; 3]); ("variance.txt", repeat (Fin 1) 5); ("energy_noclip.txt", map es [0; 1; 2; 3; 4]);
                        ("variance_noclip.txt", repeat (Fin 1) 5); ("accept_ratio.txt", repeat (Fin 1) 5)] /\
    NoDup (map fst (lf_train crashed)) /\
    (forall name, (forall m, In m ms -> dget (snd m) name <> None) -> exists n, c_epoch c <= n /\
       lines_of (lf_train crashed) name = firstn n (lines_of (lf_train (files_of (run_molecule j None empty_logfiles))) name)) /\
    lf_rows (files_of (run_molecule j (Some (resume_flags c (lf_train crashed) false)) empty_logfiles)) = [repeat (es 27) 2; repeat (es 37) 2].
Proof.
  intros es j. do 6 eexists.
  exists ("log/checkpoints", "3.npz", {| c_epoch := 2; c_data := 2; c_params := [2; 2]; c_opt := [tt; tt]; c_key := tt |}).
  exists {| c_epoch := 2; c_data := 2; c_params := 2; c_opt := tt; c_key := tt |}.
  exists {| lf_train := [("energy.txt", map es [0; 1; 2; 3]); ("variance.txt", repeat (Fin 1) 5); ("energy_noclip.txt", map es [0; 1; 2; 3; 4]);
                        ("variance_noclip.txt", repeat (Fin 1) 5); ("accept_ratio.txt", repeat (Fin 1) 5)];
            lf_eval := []; lf_rows := []; lf_ckpts := []; lf_stats := [] |}.
  split; [lazy; reflexivity|]. split; [left; reflexivity|]. split; [reflexivity|]. split; [reflexivity|]. split; [reflexivity|].
  split; [cbn; repeat constructor; cbn; intuition discriminate|]. split; [|lazy; reflexivity].
  intros name Hn. specialize (Hn _ (or_introl eq_refl)). cbn [snd] in Hn.
  destruct (String.eqb_spec name "energy") as [->|N1]; [exists 4; split; [cbn; lia|lazy; reflexivity]|].
  destruct (String.eqb_spec name "variance") as [->|N2]; [exists 5; split; [cbn; lia|lazy; reflexivity]|].
  destruct (String.eqb_spec name "energy_noclip") as [->|N3]; [exists 5; split; [cbn; lia|lazy; reflexivity]|].
  destruct (String.eqb_spec name "variance_noclip") as [->|N4]; [exists 5; split; [cbn; lia|lazy; reflexivity]|].
  destruct (String.eqb_spec name "accept_ratio") as [->|N5]; [exists 5; split; [cbn; lia|lazy; reflexivity]|].
  exfalso. apply Hn. cbn [dget]. repeat match goal with |- context [String.eqb ?a name] => destruct (String.eqb_spec a name); [congruence|] end. reflexivity.
Qed.

(** Without equal copies the statement is false: SPRING takes a different step on every device, a checkpoint keeps the first
    device only, and the resumed job ends with other parameters (second device: -2/5 instead of 0). *)
Theorem C65_spring_refuted :
  job_ok spring_job /\
  exists p o d k cks ms w c l l' p',
    train spring_job None = Finished p o d k false cks ms /\ In w cks /\ process_for_saving (snd w) = Some c /\ c_epoch c = 1 /\
    run_molecule spring_job None empty_logfiles = Completed p l /\
    run_molecule spring_job (Some (resume_flags c (lf_train l) false)) empty_logfiles = Completed p' l' /\
    map (fun f => f 0) p = [- (4 / 5); 0]%R /\ map (fun f => f 0) p' = [- (4 / 5); - (2 / 5)]%R.
Proof.
  split; [exact spring_job_ok|].
  assert (D0 : forall prev, spring_update 2 1 1 0 0 dev_dlog (dev_energies 0) prev 0 = (2 / 5)%R).
  { intros prev. pose proof (C56_normal_equations 2 1 1 0 dev_dlog (dev_energies 0) prev ltac:(lia) ltac:(lra) 0) as N.
    cbv zeta in N. set (x := spring_update _ _ _ _ _ _ _ _) in *.
    unfold average, dev_dlog, dev_energies in N. cbn [Rsum INR] in N.
    assert (Sq : (/ sqrt (1 + 1) * / sqrt (1 + 1) = / 2)%R) by (rewrite <- Rinv_mult, sqrt_sqrt by lra; f_equal; ring).
    set (q := (/ sqrt (1 + 1))%R) in *. unfold Rdiv in N. fold q in N.
    assert (E : (x 0%nat * (/ 4 + 1) = / 2)%R) by (replace (/ 2)%R with (q * q)%R by exact Sq; nra). lra. }
  assert (D1 : forall prev, spring_update 2 1 1 0 0 dev_dlog (dev_energies 1) prev 0 = 0%R).
  { intros prev. pose proof (C56_normal_equations 2 1 1 0 dev_dlog (dev_energies 1) prev ltac:(lia) ltac:(lra) 0) as N.
    cbv zeta in N. set (x := spring_update _ _ _ _ _ _ _ _) in *.
    unfold average, dev_dlog, dev_energies in N. cbn [Rsum INR] in N.
    assert (Sq : (/ sqrt (1 + 1) * / sqrt (1 + 1) = / 2)%R) by (rewrite <- Rinv_mult, sqrt_sqrt by lra; f_equal; ring).
    set (q := (/ sqrt (1 + 1))%R) in *. unfold Rdiv in N. fold q in N.
    assert (E : (x 0%nat * (/ 4 + 1) = 0)%R) by (match type of N with ?l = ?r => assert (r = 0%R) by ring end; nra). lra. }
  assert (S0 : forall p s, fst (spring_step 2 1 1 0 0 (fun _ => 1%R) dev_dlog (dev_energies 0) p s) 0 = (p 0%nat - 2 / 5)%R).
  { intros p s. destruct (C56_remembered_direction 2 1 1 0 0 1 (fun _ => 1%R) dev_dlog (dev_energies 0) p s 0) as (_ & _ & E & _).
    cbv zeta in E. rewrite E, D0. ring. }
  assert (S1 : forall p s, fst (spring_step 2 1 1 0 0 (fun _ => 1%R) dev_dlog (dev_energies 1) p s) 0 = p 0).
  { intros p s. destruct (C56_remembered_direction 2 1 1 0 0 1 (fun _ => 1%R) dev_dlog (dev_energies 1) p s 0) as (_ & _ & E & _).
    cbv zeta in E. rewrite E, D1. ring. }
  do 6 eexists.
  eexists ("log/checkpoints", "2.npz", _). do 4 eexists.
  split; [lazy -[spring_step dev_dlog dev_energies fst snd sgd_init IZR Rplus Ropp Rdiv Rinv Rmult]; reflexivity|].
  split; [right; left; reflexivity|]. split; [reflexivity|]. split; [reflexivity|].
  split; [lazy -[spring_step dev_dlog dev_energies fst snd sgd_init IZR Rplus Ropp Rdiv Rinv Rmult]; reflexivity|].
  split; [lazy -[spring_step dev_dlog dev_energies fst snd sgd_init IZR Rplus Ropp Rdiv Rinv Rmult]; reflexivity|].
  cbn [map]. split; repeat (rewrite ?S0, ?S1); f_equal; try (f_equal; []); lra.
Qed.
Print Assumptions C65_spring_refuted.

(** Reloading with a new optimizer state starts again at epoch 0: all [nepochs] epochs are run (not the remaining ones), they
    are numbered from 0, and in append mode the metric files have [nepochs] lines more than the lines they were cut to. *)
Theorem C65_new_optimizer_state : forall (P1 D S1 K J : Type) (j : job P1 D S1 K J) r ld,
  job_ok j -> logdir (j_cfg j) = Some ld -> check_for_nans (j_cfg j) = false -> r_new_optimizer_state r = true ->
  exists p o d k cks ms, train j (Some r) = Finished p o d k false cks ms /\ List.length ms = j_nepochs j /\
    (forall e, checkpoint_every (j_cfg j) = Some e ->
       map (fun v => (snd (fst v), c_epoch (snd v))) (writes_named is_regular_name cks) =
       map (fun i => ((str_nat (i + 1) ++ ".npz")%string, i)) (filter (fun i => Nat.eqb ((i + 1) mod e) 0) (seq 0 (j_nepochs j)))) /\
    (r_append r = true -> r_same_logdir r = false -> NoDup (map fst (r_source r)) -> 0 < c_epoch (r_ckpt r) ->
     forall name, contains "git_hash" (name ++ ".txt")%string = false -> (forall m, In m ms -> dget (snd m) name <> None) ->
       List.length (lines_of (lf_train (files_of (run_molecule j (Some r) empty_logfiles))) name)
       = Nat.min (c_epoch (r_ckpt r)) (List.length (lines_of (r_source r) name)) + j_nepochs j).
Proof. intros P1 D S1 K J. exact new_optimizer_job. Qed.
Print Assumptions C65_new_optimizer_state.

(** Reloading epoch 2 of a run of 4 with a new optimizer state: 4 more epochs, so 2 + 4 lines. *)
Example C65_new_optimizer_example : forall es,
  let j := count_job es (Some 3) None false 4 2 2 in
  let r := {| r_ckpt := {| c_epoch := 2; c_data := 2; c_params := 2; c_opt := tt; c_key := tt |};
              r_source := [("energy.txt", map es [0; 1; 2; 3])]; r_append := true; r_new_optimizer_state := true; r_reburn := false; r_same_logdir := false |} in
  job_ok j /\ logdir (j_cfg j) = Some "log" /\
  lines_of (lf_train (files_of (run_molecule j (Some r) empty_logfiles))) "energy" = map es [0; 1; 2; 3; 4; 5].
Proof. intros es j r. split; [apply count_job_ok; discriminate|]. split; [reflexivity|]. lazy. reflexivity. Qed.

(** C66.  best_checkpoint.npz after a resume.  The best metric is not stored in checkpoints, so the resumed part starts
    comparing from scratch: afterwards the file holds the state before the epoch with the smallest error-adjusted running average
    among the epochs SINCE THE RESUME (averages over those epochs only), and is left as it was when the resumed part has no epochs. *)
Theorem C66_best_since_resume : forall (P1 D S1 K J : Type) (j : job P1 D S1 K J) ld c src same l (E V : nat -> R),
  job_ok j -> logdir (j_cfg j) = Some ld -> best_checkpoint_every (j_cfg j) <> None -> 2 <= nhistory_max (j_cfg j) -> check_for_nans (j_cfg j) = false ->
  let x0 := (repeat (c_params c) (j_ndev j), repeat (c_opt c) (j_ndev j), c_data c, c_key c) in
  let at_ i := state_after (j_walk j) (j_update j) i x0 in
  let n := j_nepochs j - c_epoch c in
  let m i := window_metric (j_cfg j) (map E (seq 0 (i + 1))) (map V (seq 0 (i + 1))) in
  (forall i, i < n -> mval (j_walk j) (j_update j) "energy" (at_ i) = Fin (E i) /\
     mval (j_walk j) (j_update j) "variance" (at_ i) = Fin (V i) /\ (0 <= V i)%R) ->
  let files := files_of (run_molecule j (Some (resume_flags c src same)) l) in
  (n = 0 /\ last_write is_best_name (lf_ckpts files) = last_write is_best_name (lf_ckpts l)) \/
  exists i, i < n /\ last_write is_best_name (lf_ckpts files) = Some (ld, "best_checkpoint.npz", ckpt_of (c_epoch c + i) (at_ i)) /\
    (forall i', i' < n -> (m i <= m i')%R) /\ (forall i', i' < i -> (m i < m i')%R).
Proof. intros P1 D S1 K J. exact best_since_resume. Qed.
Print Assumptions C66_best_since_resume.

(** "The best checkpoint of a resumed job is the best of the whole job" is false: energies 1, 5, 5; two epochs are run, then the job is
    resumed from 2.npz in the same directory to reach three.  The state with energy 1 is overwritten by one with energy 5, which an
    uninterrupted run of three epochs does not do. *)
Theorem C66_overall_best_refuted :
  let es n := Fin (if Nat.eqb n 0 then 1 else 5)%R in
  let j n := count_job es (Some 1) (Some 1) false n 0 2 in
  let first := files_of (run_molecule (j 2) None empty_logfiles) in
  job_ok (j 3) /\ keeps_replicas_equal (j 3) /\
  exists w c, In w (lf_ckpts first) /\ snd (fst w) = "2.npz" /\ process_for_saving (snd w) = Some c /\
    last_write is_best_name (lf_ckpts (files_of (run_molecule (j 3) None empty_logfiles))) =
      Some ("log", "best_checkpoint.npz", {| c_epoch := 0; c_data := 0; c_params := [0; 0]; c_opt := [tt; tt]; c_key := tt |}) /\
    last_write is_best_name (lf_ckpts (files_of (run_molecule (j 3) (Some (resume_flags c (lf_train first) true)) first))) =
      Some ("log", "best_checkpoint.npz", {| c_epoch := 1; c_data := 1; c_params := [1; 1]; c_opt := [tt; tt]; c_key := tt |}).
Proof.
  intros es j first. split; [apply count_job_ok; discriminate|]. split; [apply count_job_sync|].
  exists ("log/checkpoints", "2.npz", {| c_epoch := 1; c_data := 1; c_params := [1; 1]; c_opt := [tt; tt]; c_key := tt |}).
  exists {| c_epoch := 1; c_data := 1; c_params := 1; c_opt := tt; c_key := tt |}.
  assert (T : forall n, n = 2 \/ n = 3 -> exists cks ms, train (j n) None = Finished [n; n] [tt; tt] n tt false cks ms /\
    In ("log/checkpoints", "2.npz", {| c_epoch := 1; c_data := 1; c_params := [1; 1]; c_opt := [tt; tt]; c_key := tt |}) cks /\
    last_write is_best_name cks = Some ("log", "best_checkpoint.npz", {| c_epoch := 0; c_data := 0; c_params := [0; 0]; c_opt := [tt; tt]; c_key := tt |})).
  { intros n Hn.
    assert (J : job_ok (j n)) by (apply count_job_ok; discriminate). destruct J as (Hv & _ & _ & Hc & _).
    destruct (P_vmc2.run_description _ _ _ _ (j_walk (j n)) (j_update (j n)) (j_has_nan (j n)) (j_cfg (j n)) "log" 0 n [0; 0] [tt; tt] 0 tt Hv Hc eq_refl)
      as (r & b & cks & ms & p' & o' & d' & k' & HR & HX & HL & HG & _).
    destruct (C04_best_checkpoint _ _ _ _ (j_walk (j n)) (j_update (j n)) (j_has_nan (j n)) (j_cfg (j n)) "log" 0 n [0; 0] [tt; tt] 0 tt
       (fun i => if Nat.eqb i 0 then 1 else 5)%R (fun _ => 1%R) Hv Hc eq_refl ltac:(discriminate) ltac:(cbn; lia))
      as (r' & b' & p'' & o'' & d'' & k'' & cks' & ms' & HL' & HR' & HB).
    rewrite HL in HL'. injection HL' as <- <- <- <- <- <- <-.
    assert (r = n /\ b = false) as [-> ->].
    { destruct HR as [(-> & -> & _)|(_ & i & _ & _ & C & _)]; [split; [lia|reflexivity]|discriminate C]. }
    assert (r' = n) as ->.
    { destruct HR' as [(_ & HH & _)|(_ & i & _ & _ & C & _)]; [rewrite HH; apply Nat.sub_0_r|discriminate C]. }
    unfold j in HX. rewrite count_state in HX. rewrite !Nat.add_0_r in HX. injection HX as <- <- <- <-.
    exists cks, ms. split; [exact HL|]. split.
    - assert (I : In ("log/checkpoints", "2.npz", {| c_epoch := 1; c_data := 1; c_params := [1; 1]; c_opt := [tt; tt]; c_key := tt |})
        (writes_named is_regular_name cks)).
      { rewrite HG. destruct Hn as [-> | ->]; right; left; reflexivity. }
      apply filter_In in I. apply I.
    - cbv zeta in HB. unfold j in HB. rewrite count_recorded in HB.
      destruct HB as [[_ C]|(i & Hi & Hw & Hmin & _)].
      + intros i _. destruct (count_values es (Some 1) (Some 1) false n 0 2 0 0 i) as [V1 V2].
        split; [etransitivity; [exact V1|]; rewrite Nat.add_0_r; reflexivity|]. split; [exact V2|lra].
      + destruct n; [lia|discriminate C].
      + etransitivity; [exact Hw|]. specialize (Hmin 0). rewrite !count_window in Hmin.
        assert (i = 0) as ->; [|reflexivity]. destruct i as [|i]; [reflexivity|]. cbn [Nat.eqb] in Hmin.
        assert (5 <= 1)%R by (apply Hmin, in_seq; lia). lra. }
  assert (F : forall n, n = 2 \/ n = 3 -> exists cks ms, train (j n) None = Finished [n; n] [tt; tt] n tt false cks ms /\
    lf_ckpts (files_of (run_molecule (j n) None empty_logfiles)) = cks).
  { intros n Hn. destruct (T n Hn) as (cks & ms & HT & _). exists cks, ms. split; [exact HT|]. unfold run_molecule. rewrite HT.
    match goal with |- context [evaluate (j n) ?p ?d ?k ?l] => destruct (evaluate_keeps (j n) p d k l ltac:(discriminate)) as [_ ->] end. reflexivity. }
  destruct (T 2 ltac:(lia)) as (c2 & m2 & T2 & I2 & _). destruct (F 2 ltac:(lia)) as (c2' & m2' & T2' & F2).
  rewrite T2 in T2'. injection T2' as <- <-.
  destruct (T 3 ltac:(lia)) as (c3 & m3 & T3 & _ & B3). destruct (F 3 ltac:(lia)) as (c3' & m3' & T3' & F3).
  rewrite T3 in T3'. injection T3' as <- <-.
  split; [unfold first; rewrite F2; exact I2|]. split; [reflexivity|]. split; [reflexivity|]. split; [rewrite F3; exact B3|].
  destruct (C66_best_since_resume _ _ _ _ _ (j 3) "log" {| c_epoch := 1; c_data := 1; c_params := 1; c_opt := tt; c_key := tt |}
     (lf_train first) true first (fun _ => 5%R) (fun _ => 1%R)) as [[C _]|(i & Hi & Hw & _ & Hs)].
  - apply count_job_ok; discriminate.
  - reflexivity.
  - discriminate.
  - cbn; lia.
  - reflexivity.
  - intros i _. destruct (count_values es (Some 1) (Some 1) false 3 0 2 1 1 i) as [V1 V2]. split; [|split; [exact V2|lra]].
    etransitivity; [exact V1|]. unfold es. rewrite Nat.add_comm. reflexivity.
  - discriminate C.
  - rewrite Hw. assert (i = 0) as ->; [|reflexivity]. destruct i as [|i]; [reflexivity|]. specialize (Hs 0 ltac:(lia)).
    unfold j in Hs. rewrite !count_window_seq in Hs. lra.
Qed.
Print Assumptions C66_overall_best_refuted.

(** C67.  Evaluation.  After training, evaluation uses the final training parameters, leaves them unchanged and writes no checkpoint;
    eval/local_energies.txt gains one row per evaluation epoch with the local energies of that epoch's walkers (the walkers at the end
    of training, or new ones, then burned in and walked), energy.txt and variance.txt one line each with the statistics of the row, and
    the statistics file summarises ALL rows of local_energies.txt - those already there included. *)
Theorem C67_evaluation : forall (P1 D S1 K J : Type) (j : job P1 D S1 K J) rl l p o d k cks ms w,
  job_ok j -> train j rl = Finished p o d k false cks ms ->
  let samples := eval_samples j p d k in
  j_record_local_energies j = true -> 2 <= w -> Forall (fun r => List.length r = w) (lf_rows l ++ samples) -> 2 <= List.length (lf_rows l) + j_eval_nepochs j ->
  exists l', run_molecule j rl l = Completed p l' /\
    lf_rows l' = lf_rows l ++ samples /\
    lf_stats l' = lf_stats l ++ [j_summary j (lf_rows l ++ samples)] /\
    lf_ckpts l' = lf_ckpts l ++ cks /\
    lines_of (lf_eval l') "energy" = lines_of (lf_eval l) "energy" ++ map (fun r => fst (j_statistics j r)) samples /\
    lines_of (lf_eval l') "variance" = lines_of (lf_eval l) "variance" ++ map (fun r => snd (j_statistics j r)) samples.
Proof. intros P1 D S1 K J. exact evaluated_job. Qed.
Print Assumptions C67_evaluation.

(** In an empty log directory: the statistics are those of this run's samples, one row per evaluation epoch. *)
Corollary C67_fresh_directory : forall (P1 D S1 K J : Type) (j : job P1 D S1 K J) rl p o d k cks ms w,
  job_ok j -> train j rl = Finished p o d k false cks ms ->
  j_record_local_energies j = true -> 2 <= w -> Forall (fun r => List.length r = w) (eval_samples j p d k) -> 2 <= j_eval_nepochs j ->
  exists l', run_molecule j rl empty_logfiles = Completed p l' /\
    List.length (lf_rows l') = j_eval_nepochs j /\
    (forall i, i < j_eval_nepochs j -> nth_error (lf_rows l') i = Some (j_local_energies j p (eval_walkers j p d k i))) /\
    lf_stats l' = [j_summary j (lf_rows l')] /\ lf_ckpts l' = cks.
Proof.
  intros P1 D S1 K J j rl p o d k cks ms w Hj HT Hr Hw Hl Hn.
  destruct (C67_evaluation _ _ _ _ _ j rl empty_logfiles p o d k cks ms w Hj HT Hr Hw Hl Hn) as (l' & E & R1 & R2 & R3 & _).
  exists l'. cbn [empty_logfiles lf_rows lf_stats lf_ckpts app] in *. split; [exact E|]. rewrite R1, R2. split; [apply samples_length|].
  split; [|split; [reflexivity|exact R3]].
  intros i Hi. unfold eval_samples. rewrite nth_error_map, nth_error_nth' with (d := 0) by (rewrite seq_length; exact Hi).
  rewrite seq_nth by exact Hi. reflexivity.
Qed.
Print Assumptions C67_fresh_directory.

(** When training was stopped by NaNs there is no evaluation: nothing is added to the evaluation files. *)
Theorem C67_no_evaluation_after_nans : forall (P1 D S1 K J : Type) (j : job P1 D S1 K J) rl l p o d k cks ms,
  train j rl = Finished p o d k true cks ms ->
  exists l', run_molecule j rl l = NansDetected l' /\ lf_eval l' = lf_eval l /\ lf_rows l' = lf_rows l /\ lf_stats l' = lf_stats l /\ lf_ckpts l' = lf_ckpts l ++ cks.
Proof.
  intros P1 D S1 K J j rl l p o d k cks ms HT. unfold run_molecule. rewrite HT. eexists. split; [reflexivity|]. cbn.
  destruct rl as [r|]; cbn; [|auto]. destruct (r_append r); cbn; auto.
Qed.
Print Assumptions C67_no_evaluation_after_nans.

(** With a single evaluation epoch, or a single walker, the job ends with an exception after evaluation: the samples are on disk, no
    statistics file is written. *)
Theorem C67_single_sample_raises : forall (P1 D S1 K J : Type) (j : job P1 D S1 K J) rl l p o d k cks ms,
  job_ok j -> train j rl = Finished p o d k false cks ms -> j_record_local_energies j = true -> 0 < j_eval_nepochs j -> lf_rows l = [] ->
  (j_eval_nepochs j = 1 \/ forall p d, List.length (j_local_energies j p d) <= 1) ->
  exists l', run_molecule j rl l = Crashed l' /\ lf_rows l' = eval_samples j p d k /\ lf_stats l' = lf_stats l.
Proof. intros P1 D S1 K J. exact statistics_raise. Qed.
Print Assumptions C67_single_sample_raises.

(** "The statistics file summarises this run's evaluation" is false when the directory has been used before: a finished job resumed in the
    same directory (the epochs are done, only evaluation runs again) has statistics of four epochs although eval.nepochs is two. *)
Theorem C67_reused_directory_refuted : forall es,
  let j := count_job es (Some 1) None false 2 2 2 in
  job_ok j /\ (forall p d, List.length (j_local_energies j p d) = 2) /\
  exists first p l' c, run_molecule j None empty_logfiles = Completed p first /\ j_eval_nepochs j = 2 /\
    In ("log/checkpoints", "2.npz", c) (lf_ckpts first) /\
    run_molecule j (Some (resume_flags {| c_epoch := 1; c_data := 1; c_params := 1; c_opt := tt; c_key := tt |} (lf_train first) true)) first = Completed p l' /\
    lf_stats l' = [[repeat (es 22) 2; repeat (es 32) 2]; [repeat (es 22) 2; repeat (es 32) 2; repeat (es 22) 2; repeat (es 32) 2]].
Proof.
  intros es j. split; [apply count_job_ok; discriminate|]. split; [intros; reflexivity|]. do 4 eexists.
  split; [lazy; reflexivity|]. split; [reflexivity|]. split; [right; left; reflexivity|]. split; lazy; reflexivity.
Qed.
Print Assumptions C67_reused_directory_refuted.

Example C67_example : forall es,
  let j := count_job es (Some 3) None false 7 2 2 in
  exists p o d k cks ms l', job_ok j /\ train j None = Finished p o d k false cks ms /\
    run_molecule j None empty_logfiles = Completed p l' /\ lf_stats l' = [[repeat (es 27) 2; repeat (es 37) 2]].
Proof.
  intros es j. do 7 eexists. split; [apply count_job_ok; discriminate|]. split; [lazy; reflexivity|]. split; lazy; reflexivity.
Qed.
Example C67_single_example : forall es,
  let j := count_job es (Some 3) None false 7 1 2 in
  exists p o d k cks ms l', job_ok j /\ train j None = Finished p o d k false cks ms /\
    run_molecule j None empty_logfiles = Crashed l' /\ lf_rows l' = [repeat (es 27) 2] /\ lf_stats l' = [].
Proof.
  intros es j. do 7 eexists. split; [apply count_job_ok; discriminate|]. split; [lazy; reflexivity|]. split; [lazy; reflexivity|]. split; lazy; reflexivity.
Qed.
Example C67_nans_example :
  let j := count_job (fun _ => NaN) (Some 3) None true 7 2 2 in
  exists p o d k cks ms, job_ok j /\ train j None = Finished p o d k true cks ms.
Proof. intros j. do 6 eexists. split; [apply count_job_ok; discriminate|]. lazy; reflexivity. Qed.

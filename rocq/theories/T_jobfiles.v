(** * The checkpoint files of a whole job: C78_checkpoints *)
From Coq Require Import String Reals List Bool Arith Lia Lra.
From Verif Require Import XReal Rsum M_io M_vmc M_files M_mcmc M_distribute M_energy M_physics M_setup M_models M_construct M_dispatch M_optim M_optax M_run M_start M_job
  S_models S_mcmc S_vmc S_files S_optim S_run S_start S_optax S_energy S_physics S_setup S_job S_jobfiles P_vmc P_vmc2 P_vmc3 P_files P_run P_energy P_job P_jobrun E_job T_vmc T_optax T_start T_run T_job.
Import ListNotations.
Local Open Scope R_scope.
Local Open Scope string_scope.

(** Which checkpoint files a job writes, in which directory, in which order, with which epoch number ([C78_training] says what they hold):
    - after every k-th epoch (k = checkpoint_every) one regular checkpoint <epoch + 1>.npz in the checkpoint directory, none if there is no interval;
    - nans_<epoch + 1>.npz in the same directory if the job stopped at a NaN, for the epoch it stopped at, and no other;
    - if a best-checkpoint interval is configured and all energies and variances are numbers, best_checkpoint.npz in the log directory ends up with the first epoch of
      least score; without such an interval there is no such file. *)
Theorem C78_checkpoints : forall (P1 S1 K J : Type) (g : prng K) choice perm_of split_n device_keys ndev (theta : P1 -> model_params) init_params grad_p grad_px
    (opt_init : optimiser -> P1 -> S1) opt_apply kfac has_nan param_l1_norm (summary : list (list xr) -> J) c key j ld,
  good_prng g -> good_choice choice -> (forall k, length (device_keys k) = ndev) -> (0 < ndev)%nat -> well_formed_ions c -> (0 < wc_nchains (jc_walk c))%nat ->
  build_job g choice perm_of split_n device_keys ndev theta init_params grad_p grad_px opt_init opt_apply kfac has_nan param_l1_norm summary c key = Some j ->
  jc_logdir c = Some ld -> jc_checkpoint_every c <> Some O -> jc_best_checkpoint_every c <> Some O ->
  let out := run_molecule j None empty_logfiles in let l := files_of out in
  let epochs := length (lines_of (lf_train l) "energy") in
  let dir := path_join ld (jc_checkpoint_dir c) in
  let files is_name := map written (writes_named is_name (lf_ckpts l)) in
  files is_regular_name = match jc_checkpoint_every c with
    | Some k => map (fun e => (dir, str_nat (e + 1) ++ ".npz", e)) (filter (fun e => Nat.eqb ((e + 1) mod k) 0) (seq 0 epochs))
    | None => [] end /\
  files is_nans_name = match out with NansDetected _ => [(dir, "nans_" ++ str_nat epochs ++ ".npz", (epochs - 1)%nat)] | _ => [] end /\
  (jc_best_checkpoint_every c = None -> files is_best_name = []) /\
  forall E V : list R, jc_best_checkpoint_every c <> None -> (2 <= jc_nhistory_max c)%nat ->
    lines_of (lf_train l) "energy" = map Fin E -> lines_of (lf_train l) "variance" = map Fin V -> Forall (fun v => 0 <= v) V ->
    let score e := best_score c (firstn (e + 1) E) (firstn (e + 1) V) in
    match last_write is_best_name (lf_ckpts l) with
    | None => epochs = O
    | Some w => exists e, (e < epochs)%nat /\ written w = (ld, "best_checkpoint.npz", e) /\
        (forall e', (e' < epochs)%nat -> score e <= score e') /\ (forall e', (e' < e)%nat -> score e < score e')
    end.
Proof.
  intros P1 S1 K J g choice perm_of split_n dks ndev theta init_params grad_p grad_px opt_init opt_apply kfac has_nan l1 summary c key j ld Hg Hc Hdk Hnd Hw Hch Hb HL HE HB.
  destruct (built_ok g choice perm_of split_n dks ndev theta init_params grad_p grad_px opt_init opt_apply kfac has_nan l1 summary c key j Hg Hc Hdk Hnd Hw Hch Hb ltac:(congruence) HE HB) as (Hok & _).
  pose proof Hok as (Hv & Hl & Hga & Hmc & Hd & Hss).
  destruct (fields g choice perm_of split_n dks ndev theta init_params grad_p grad_px opt_init opt_apply kfac has_nan l1 summary c key j Hg Hc Hdk Hnd Hw Hch Hb)
    as (p0 & data & keys & o' & s0 & keys0 & _ & _ & _ & _ & _ & _ & _ & _ & _ & EJ).
  assert (El : logdir (j_cfg j) = Some ld) by (rewrite EJ; exact HL).
  destruct (j_init j) as [[[pi oi] di] ki] eqn:EI.
  set (x0 := (pi, oi, fst (j_burn j pi di ki), snd (j_burn j pi di ki))).
  assert (ET : train j None = vmc_loop (j_walk j) (j_update j) (j_has_nan j) (j_cfg j) 0 (j_nepochs j) pi oi (fst (j_burn j pi di ki)) (snd (j_burn j pi di ki))).
  { unfold train, start_state. rewrite EI. cbn [skip_burn]. destruct (j_burn j pi di ki); reflexivity. }
  destruct (run_description _ _ _ _ (j_walk j) (j_update j) (j_has_nan j) (j_cfg j) ld 0 (j_nepochs j) pi oi (fst (j_burn j pi di ki)) (snd (j_burn j pi di ki)) Hv Hmc El)
    as (r & b & ck & ms & p' & o1 & d' & k' & HR & HX & EV & D1 & D2 & _ & D3 & _).
  destruct (one_line_per_epoch _ _ _ _ (j_walk j) (j_update j) (j_has_nan j) (j_cfg j) ld 0 (j_nepochs j) pi oi (fst (j_burn j pi di ki)) (snd (j_burn j pi di ki)) Hv Hmc Hd El)
      as (r1 & b1 & p1 & o2 & d1 & k1 & ck1 & ms1 & EV1 & HR1 & _ & HLn).
  rewrite EV in EV1. injection EV1 as <- <- <- <- <- <- <-. destruct (RunsFor_unique _ _ _ _ _ _ HR HR1) as [<- _]. clear HR1.
  fold x0 in HR, HX, D1, D2, HLn. rewrite Nat.sub_0_r in *.
  assert (HREC : forall n, recorded (j_walk j) (j_update j) x0 n = seq 0 n).
  { intros n. unfold recorded. apply filter_all. intros i _. unfold has_metrics, metrics_at. destruct (state_after _ _ i _) as [[[pp oo] dd] kk]. destruct (j_walk j pp dd kk) as [[a dd1] kk1].
    specialize (Hss pp dd1 oo kk1). destruct (j_update j pp dd1 oo kk1) as [[[[? ?] ?] [?|]] ?]; [reflexivity|exfalso; apply Hss; reflexivity]. }
  assert (HHM : forall i, has_metrics (j_walk j) (j_update j) (state_after (j_walk j) (j_update j) i x0) = true).
  { intros i. assert (Z : In i (recorded (j_walk j) (j_update j) x0 (S i))) by (rewrite HREC; apply in_seq; lia). apply filter_In in Z. apply Z. }
  intros out l epochs dir files.
  assert (HF : lf_train l = write_all_metrics [] ms /\ lf_ckpts l = ck /\ match out with NansDetected _ => b = true | _ => b = false end).
  { unfold l, out, run_molecule. rewrite ET, EV. cbn [start_files empty_logfiles lf_train lf_ckpts app]. destruct b; [repeat split|].
    rewrite evaluate_spec by exact Hga. cbn zeta. destruct (_ && _); [destruct (load_rows _)|]; repeat split. }
  destruct HF as (HF1 & HF2 & HF3).
  assert (HLN : forall name, In name ["energy"; "variance"] -> lines_of (lf_train l) name = map (fun i => mval (j_walk j) (j_update j) name (state_after (j_walk j) (j_update j) i x0)) (seq 0 r)).
  { intros name Hin. rewrite HF1, HLn.
    - cbn [lines_of]. rewrite HREC. reflexivity.
    - intros ->. cbn in Hin. intuition discriminate.
    - intros ->. cbn in Hin. intuition discriminate.
    - intros i m _. unfold metrics_at. destruct (state_after _ _ i _) as [[[pp oo] dd] kk]. destruct (j_walk j pp dd kk) as [[a dd1] kk1].
      specialize (Hmc pp dd1 oo kk1). destruct (j_update j pp dd1 oo kk1) as [[[[? ?] ?] [mm|]] ?]; [|discriminate]. intros [= <-]. destruct (Hmc mm eq_refl) as ((y1 & G1) & (y2 & G2) & _).
      cbn in Hin. destruct Hin as [<-|[<-|[]]]; rewrite dget_dset_other by discriminate; congruence. }
  assert (Er : epochs = r) by (unfold epochs; rewrite HLN by (left; reflexivity); rewrite map_length; apply seq_length).
  assert (Eck : checkpoint_every (j_cfg j) = jc_checkpoint_every c) by (rewrite EJ; reflexivity).
  assert (Ebe : best_checkpoint_every (j_cfg j) = jc_best_checkpoint_every c) by (rewrite EJ; reflexivity).
  assert (Edir : path_join ld (checkpoint_dir (j_cfg j)) = dir) by (unfold dir; rewrite EJ; reflexivity).
  assert (Ewr : forall i (x : rstate (reps P1) (list (padata move_metadata)) (reps S1) (list K)) a n, written (a, n, ckpt_of i x) = (a, n, i)) by (intros i [[[? ?] ?] ?] a n; reflexivity).
  unfold files. rewrite HF2, Er. split; [|split; [|split]].
  - rewrite D1. unfold reg_writes. unfold sub. rewrite map_map, Edir. unfold reg_due. rewrite Eck. destruct (jc_checkpoint_every c) as [k|].
    + erewrite map_ext; [|intros i; apply Ewr]. f_equal. apply filter_ext. intros i. rewrite HHM. reflexivity.
    + erewrite filter_ext; [|intros i; apply andb_false_r]. rewrite filter_none by reflexivity. reflexivity.
  - rewrite D2. unfold nan_writes. unfold sub. rewrite map_map, Edir. erewrite map_ext; [|intros i; apply Ewr].
    destruct HR as [(-> & -> & HR)|(-> & i & -> & Hi & HR & HR')].
    + rewrite filter_none by (intros i Hi; apply in_seq in Hi; apply HR; lia). destruct out; [reflexivity|discriminate|reflexivity].
    + rewrite Nat.add_1_r || idtac. destruct out; [discriminate| |discriminate].
      replace (seq 0 (S i)) with (seq 0 i ++ [i])%list by (rewrite seq_S; reflexivity).
      rewrite filter_app, filter_none by (intros q Hq; apply in_seq in Hq; apply HR'; lia). cbn [filter app]. rewrite HR. cbn [map Nat.add]. unfold nans_name. rewrite Nat.add_1_r. repeat f_equal. lia.
  - intros Hn. rewrite D3 by congruence. reflexivity.
  - intros E V Hbn Hh EE EVr Hpos. set (score := fun e => best_score c (firstn (e + 1) E) (firstn (e + 1) V)).
    destruct (best_checkpoint_finite _ _ _ _ (j_walk j) (j_update j) (j_has_nan j) (j_cfg j) ld 0 (j_nepochs j) pi oi (fst (j_burn j pi di ki)) (snd (j_burn j pi di ki)) (fun i => nth i E 0) (fun i => nth i V 0) Hv Hmc El ltac:(congruence) ltac:(rewrite EJ; exact Hh))
      as (r2 & b2 & p2 & o3 & d2 & k2 & ck2 & ms2 & EV2 & HR2 & HBF).
    rewrite EV in EV2. injection EV2 as <- <- <- <- <- <- <-. rewrite Nat.sub_0_r in HR2. fold x0 in HR2, HBF. destruct (RunsFor_unique _ _ _ _ _ _ HR HR2) as [<- _]. clear HR2.
    rewrite HLN in EE, EVr by (cbn; tauto).
    assert (LE : length E = r) by (apply (f_equal (@length _)) in EE; rewrite !map_length, seq_length in EE; lia).
    assert (LV : length V = r) by (apply (f_equal (@length _)) in EVr; rewrite !map_length, seq_length in EVr; lia).
    assert (AT : forall name L i, (i < r)%nat -> map (fun i => mval (j_walk j) (j_update j) name (state_after (j_walk j) (j_update j) i x0)) (seq 0 r) = map Fin L -> mval (j_walk j) (j_update j) name (state_after (j_walk j) (j_update j) i x0) = Fin (nth i L 0)).
    { intros name L i Hi Z. assert (HLl : length L = r) by (apply (f_equal (@length _)) in Z; rewrite !map_length, seq_length in Z; lia). apply (f_equal (fun l => nth_error l i)) in Z. rewrite !nth_error_map, (nth_error_nth' _ O), (nth_error_nth' L 0) in Z by (rewrite ?seq_length; lia). rewrite seq_nth in Z by exact Hi. cbn in Z. injection Z as Z. exact Z. }
    assert (SC : forall i, (i < r)%nat -> window_metric (j_cfg j) (map (fun i => nth i E 0) (seq 0 (i + 1))) (map (fun i => nth i V 0) (seq 0 (i + 1))) = score i).
    { intros i Hi. assert (FN : forall L : list R, length L = r -> map (fun i => nth i L 0) (seq 0 (i + 1)) = firstn (i + 1) L).
      { intros L HLl. apply (nth_ext _ _ 0 0); [rewrite map_length, seq_length, firstn_length; lia|]. intros q Hq. rewrite map_length, seq_length in Hq. rewrite (nth_indep _ 0 (nth O L 0)) by (rewrite map_length, seq_length; exact Hq).
        rewrite (map_nth (fun i => nth i L 0)), seq_nth by exact Hq. cbn [plus]. rewrite <- (firstn_skipn (i + 1) L) at 1. rewrite app_nth1; [reflexivity|rewrite firstn_length; lia]. }
      rewrite !FN by assumption. unfold window_metric, score, best_score. assert (E1 : nhistory_max (j_cfg j) = jc_nhistory_max c) by (rewrite EJ; reflexivity). assert (E2 : variance_scale (j_cfg j) = jc_checkpoint_variance_scale c) by (rewrite EJ; reflexivity).
      assert (E3 : nchains (j_cfg j) = wc_nchains (jc_walk c)) by (rewrite EJ; reflexivity). rewrite E1, E2, E3. unfold Rleb. destruct (Rle_dec (jc_checkpoint_variance_scale c) 0) as [H|H]; [ring|].
      assert (NZ : Nat.eqb (wc_nchains (jc_walk c) * length (lastn (jc_nhistory_max c - 1) (firstn (i + 1) E))) 0 = false).
      { apply Nat.eqb_neq. unfold lastn. rewrite skipn_length, firstn_length. nia. }
      rewrite NZ. reflexivity. }
    assert (PRE : forall i, In i (recorded (j_walk j) (j_update j) x0 r) -> mval (j_walk j) (j_update j) "energy" (state_after (j_walk j) (j_update j) i x0) = Fin (nth i E 0) /\ mval (j_walk j) (j_update j) "variance" (state_after (j_walk j) (j_update j) i x0) = Fin (nth i V 0) /\ 0 <= nth i V 0).
    { intros i Hi. rewrite HREC in Hi. apply in_seq in Hi. split; [apply AT; [lia|exact EE]|]. split; [apply AT; [lia|exact EVr]|]. rewrite Forall_forall in Hpos. apply Hpos, nth_In. lia. }
    destruct (HBF PRE) as [(Z1 & Z2)|(e & He & Z1 & Z2 & Z3)].
    + rewrite Z1. rewrite HREC in Z2. destruct r; [reflexivity|discriminate].
    + rewrite Z1. rewrite HREC in He. apply in_seq in He. exists e. split; [lia|]. split; [apply Ewr|]. split.
      * intros q Hq. specialize (Z2 q ltac:(rewrite HREC; apply in_seq; lia)). rewrite !HREC, !SC in Z2 by lia. exact Z2.
      * intros q Hq. specialize (Z3 q ltac:(rewrite HREC; apply in_seq; lia) ltac:(lia)). rewrite !HREC, !SC in Z3 by lia. exact Z3.
Qed.
Print Assumptions C78_checkpoints.

(** The small job of E_job.v: six epochs, an interval of 2 for regular and of 3 for best checkpoints. *)
Example C78_checkpoints_example : forall key, exists j w e, line_job line_config key = Some j /\
  let l := files_of (run_molecule j None empty_logfiles) in
  map written (writes_named is_regular_name (lf_ckpts l)) = [("logs/checkpoints", "2.npz", 1%nat); ("logs/checkpoints", "4.npz", 3%nat); ("logs/checkpoints", "6.npz", 5%nat)] /\
  writes_named is_nans_name (lf_ckpts l) = [] /\
  last_write is_best_name (lf_ckpts l) = Some w /\ written w = ("logs", "best_checkpoint.npz", e) /\ (e < 6)%nat.
Proof.
  intros key. destruct (line_starts key) as (j & Ej). pose proof Ej as Ej'. unfold line_job in Ej'.
  match type of Ej' with build_job ?a1 ?a2 ?a3 ?a4 ?a5 ?a6 ?a7 ?a8 ?a9 ?b1 ?b2 ?b3 ?b4 ?b5 ?b6 ?b7 _ _ = _ =>
  destruct (C78_checkpoints _ _ _ _ a1 a2 a3 a4 a5 a6 a7 a8 a9 b1 b2 b3 b4 b5 b6 b7 line_config key j "logs" ex_prng_good ex_choice_good ltac:(reflexivity) ltac:(lia) line_ions ltac:(cbn; lia) Ej' eq_refl ltac:(discriminate) ltac:(discriminate)) as (C1 & C2 & _ & C4);
  destruct (C78_training a1 a2 a3 a4 a5 a6 a7 a8 a9 b1 b2 b3 b4 b5 b6 b7 ex_prng_good ex_choice_good ltac:(reflexivity) ltac:(lia) line_config key j line_ions ltac:(cbn; lia) Ej' ltac:(cbn; lra) ltac:(discriminate) ltac:(discriminate) ltac:(discriminate))
    as (o & params & opts & starts & walkers & grads & centred & subkeys & r & initial & Ho & Hr0 & HA & HM0 & _ & HN & _ & Hr & HC & HL & _ & HI) end.
  assert (E6 : r = 6%nat) by (change (jc_nepochs line_config) with 6%nat in *; destruct (Nat.lt_ge_cases r 6) as [Z|Z]; [apply Hr, HN in Z; destruct Z; discriminate|lia]). subst r.
  assert (LEN : length (lines_of (lf_train (files_of (run_molecule j None empty_logfiles))) "energy") = 6%nat) by (apply HL; cbn; tauto).
  assert (LIN : exists E V, lines_of (lf_train (files_of (run_molecule j None empty_logfiles))) "energy" = map Fin E /\ lines_of (lf_train (files_of (run_molecule j None empty_logfiles))) "variance" = map Fin V /\ Forall (fun v => 0 <= v) V).
  { assert (F : forall (l : list xr) (Q : R -> Prop), length l = 6%nat -> (forall i, (i < 6)%nat -> exists x, nth_error l i = Some (Fin x) /\ Q x) -> exists L, l = map Fin L /\ Forall Q L).
    { clear. intros l Q. generalize 6%nat. intros n. revert n. induction l as [|a l IH]; intros n Hn H; [exists []; split; [reflexivity|constructor]|]. destruct n as [|n]; [discriminate|]. destruct (H O ltac:(lia)) as (x & [= ->] & Qx).
      destruct (IH n ltac:(cbn in Hn; lia)) as (L & -> & HLq). { intros i Hi. apply (H (S i)). lia. } exists (x :: L). split; [reflexivity|constructor; assumption]. }
    destruct (F (lines_of (lf_train (files_of (run_molecule j None empty_logfiles))) "energy") (fun _ => True)) as (E & HE & _); [apply HL; cbn; tauto| |].
    { intros i Hi. destruct (HI i Hi) as (_ & _ & _ & _ & _ & _ & H). destruct (H (line_psi (params i)) eq_refl (line_ordinary _ _)) as (_ & _ & Ec & _ & HE' & _). eexists. split; [exact HE'|exact Logic.I]. }
    destruct (F (lines_of (lf_train (files_of (run_molecule j None empty_logfiles))) "variance") (fun v => 0 <= v)) as (V & HV & HP); [apply HL; cbn; tauto| |].
    { intros i Hi. destruct (HI i Hi) as (_ & _ & _ & _ & _ & _ & H). destruct (H (line_psi (params i)) eq_refl (line_ordinary _ _)) as (_ & _ & Ec & HC' & _ & HV' & _). eexists. split; [exact HV'|]. apply lvar_nonneg.
      assert (LC : length (concat Ec) = length (concat (device_energies line_config (line_psi (params i)) (walkers i)))).
      { revert HC'. unfold clipped. generalize (concat (device_energies line_config (line_psi (params i)) (walkers i))) at 1 as all. intros all. clear. induction 1 as [|a b la lb (Hab & _) _ IH]; [reflexivity|]. cbn [concat]. rewrite !app_length, IH, Hab by (cbn; lra). reflexivity. }
      rewrite LC. change (concat (device_energies line_config (line_psi (params i)) (walkers i))) with (walkers_energies line_config (line_psi (params i)) (walkers i)). rewrite energies_all, map_length. eapply Nat.le_trans; [|apply Nat.eq_le_incl; symmetry; exact (proj1 (HI i Hi))]. cbn; lia. }
    exists E, V. auto. }
  destruct LIN as (E & V & EE & EV & HP). specialize (C4 E V ltac:(discriminate) ltac:(cbn; lia) EE EV HP). cbv zeta in C4. rewrite LEN in C4.
  exists j. destruct (last_write is_best_name _) as [w|] eqn:EW; [|discriminate]. destruct C4 as (e & He & Hwr & _). exists w, e. split; [exact Ej|]. cbv zeta.
  split; [rewrite C1, LEN; reflexivity|]. split; [|auto].
  assert (Z : map written (writes_named is_nans_name (lf_ckpts (files_of (run_molecule j None empty_logfiles)))) = []).
  { rewrite C2. destruct (run_molecule j None empty_logfiles) as [l0|l0|p0 l0] eqn:ER; [reflexivity| |reflexivity]. exfalso. destruct (proj1 HN (ex_intro _ l0 eq_refl)) as (Z & _). discriminate. }
  destruct (writes_named is_nans_name _); [reflexivity|discriminate].
Qed.

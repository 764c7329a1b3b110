(** * Two runs that differ only in how the walkers are represented *)
From Coq Require Import String Reals List Arith Bool Lia.
From Verif Require Import XReal M_io M_vmc M_files M_run M_job S_job.
Import ListNotations.

Section Loop.
  Context {P D S K : Type}.
  Variables (f : D -> D) (Inv : D -> Prop).
  Variables (walk walk' : P -> D -> K -> xr * D * K) (upd upd' : P -> D -> S -> K -> P * D * S * option dict * K) (hn hn' : P -> bool) (g : cfg D).
  Hypothesis Hwalk : forall p d k, Inv d -> let '(a, d1, k1) := walk p d k in walk' p (f d) k = (a, f d1, k1) /\ Inv d1.
  Hypothesis Hupd : forall p d s k, Inv d -> let '(p1, d1, s1, m, k1) := upd p d s k in upd' p (f d) s k = (p1, f d1, s1, m, k1) /\ Inv d1.
  Hypothesis Hnan : forall p, hn' p = hn p.
  Hypothesis Hamp : forall h, get_amplitude_fn g = Some h -> forall d, h (f d) = h d.

  Definition on_cs (c : cstate P D S K) : cstate P D S K :=
    {| cs_metric := cs_metric c; cs_energy := cs_energy c; cs_variance := cs_variance c; cs_best := option_map (on_ckpt f) (cs_best c);
       cs_ckpts := map (on_write f) (cs_ckpts c); cs_metrics := cs_metrics c |}.
  Definition on_res {A} (r : res P D S K A) : res P D S K A := match r with Ret c a => Ret (on_cs c) a | Raise c e => Raise (on_cs c) e end.
  Definition on_v (s : vstate P D S K) : vstate P D S K :=
    {| v_params := v_params s; v_opt := v_opt s; v_data := f (v_data s); v_key := v_key s; v_cs := on_cs (v_cs s); v_nans := v_nans s |}.
  Definition on_step (r : step_result P D S K) : step_result P D S K :=
    match r with Continue s => Continue (on_v s) | Break s => Break (on_v s) | Abort_ s e => Abort_ (on_v s) e end.
  Definition on_result (r : run_result P D S K) : run_result P D S K :=
    match r with
    | Finished p s d k nans cks ms => Finished p s (f d) k nans (map (on_write f) cks) ms
    | Raised e cks ms => Raised e (map (on_write f) cks) ms
    end.

  Lemma queue_map w c : on_cs (queue_ckpt w c) = queue_ckpt (on_write f w) (on_cs c).
  Proof. unfold on_cs, queue_ckpt. cbn. rewrite map_app. reflexivity. Qed.
  Lemma check_map m p : check_nans_fn hn' m p = check_nans_fn hn m p.
  Proof. unfold check_nans_fn. rewrite Hnan. reflexivity. Qed.
  Lemma regular_map ld e old p m c :
    save_metrics_and_regular_checkpoint hn' g ld e (on_ckpt f old) p m (on_cs c) = on_res (save_metrics_and_regular_checkpoint hn g ld e old p m c).
  Proof.
    unfold save_metrics_and_regular_checkpoint. cbv zeta. rewrite check_map.
    destruct (checkpoint_every g) as [[|k]|]; [reflexivity| |].
    - destruct (divides_b _ _); destruct (check_for_nans g); try (destruct (check_nans_fn hn m p) as [[]|]); cbn [on_res]; rewrite ?queue_map; reflexivity.
    - destruct (check_for_nans g); try (destruct (check_nans_fn hn m p) as [[]|]); cbn [on_res]; rewrite ?queue_map; reflexivity.
  Qed.
  Lemma best_map ld e old m c :
    track_and_save_best_checkpoint g ld e (on_ckpt f old) m (on_cs c) = on_res (track_and_save_best_checkpoint g ld e old m c).
  Proof.
    unfold track_and_save_best_checkpoint. destruct (best_checkpoint_every g) as [k|]; [|reflexivity]. destruct (dget m "energy") as [en|]; [|reflexivity].
    cbv zeta. destruct (dget m "variance") as [va|]; [|reflexivity]. cbn [cs_energy cs_variance cs_metric cs_best on_cs]. destruct k as [|k]; [reflexivity|].
    destruct (xltb _ _).
    - destruct (divides_b _ _); cbn [on_res]; unfold set_best; cbn; unfold on_cs; cbn; rewrite ?map_app; reflexivity.
    - destruct (cs_best c) as [b|]; cbn [option_map]; [destruct (divides_b _ _)|]; cbn [on_res]; unfold set_best; cbn; unfold on_cs; cbn; rewrite ?map_app; reflexivity.
  Qed.
  Lemma handle_map e old p d m c :
    save_metrics_and_handle_checkpoints hn' g e (on_ckpt f old) p (f d) m (on_cs c) = on_res (save_metrics_and_handle_checkpoints hn g e old p d m c).
  Proof.
    unfold save_metrics_and_handle_checkpoints. destruct (logdir g) as [ld|]; [|reflexivity].
    assert (E : add_amplitude g m (f d) = add_amplitude g m d).
    { unfold add_amplitude. destruct (record_amplitudes g); [|reflexivity]. destruct (get_amplitude_fn g) as [h|] eqn:Eh; [|reflexivity]. rewrite (Hamp h eq_refl). reflexivity. }
    rewrite E. destruct (add_amplitude g m d) as [m'|]; [|reflexivity]. rewrite regular_map.
    destruct (save_metrics_and_regular_checkpoint hn g ld e old p m' c) as [c1 nn|c1 ex]; [|reflexivity]. cbn [on_res]. rewrite best_map.
    destruct (track_and_save_best_checkpoint g ld e old m' c1) as [c2 err|c2 ex]; reflexivity.
  Qed.
  Definition step_inv (r : step_result P D S K) : Prop := match r with Continue s | Break s => Inv (v_data s) | Abort_ s _ => Inv (v_data s) end.
  Lemma epoch_map e s : Inv (v_data s) -> epoch_step walk' upd' hn' g e (on_v s) = on_step (epoch_step walk upd hn g e s) /\ step_inv (epoch_step walk upd hn g e s).
  Proof.
    intros HI. unfold epoch_step. cbn [v_data v_params v_opt v_key v_cs v_nans on_v].
    pose proof (Hwalk (v_params s) (v_data s) (v_key s) HI) as Hw. destruct (walk _ _ _) as [[a d1] k1]. destruct Hw as [-> I1].
    pose proof (Hupd (v_params s) d1 (v_opt s) k1 I1) as Hu. destruct (upd _ _ _ _) as [[[[p2 d2] s2] m] k2]. destruct Hu as [-> I2].
    destruct m as [m|]; [|split; [reflexivity|exact I2]].
    match goal with |- context [save_metrics_and_handle_checkpoints hn' g e ?o] => change o with (on_ckpt f (Build_ckpt e (v_data s) (v_params s) (v_opt s) (v_key s))) end.
    rewrite handle_map. destruct (save_metrics_and_handle_checkpoints hn g e _ p2 d2 _ (v_cs s)) as [c [|]|c ex]; (split; [reflexivity|exact I2]).
  Qed.
  Lemma loop_map n : forall e s, Inv (v_data s) -> loop walk' upd' hn' g n e (on_v s) = on_step (loop walk upd hn g n e s) /\ step_inv (loop walk upd hn g n e s).
  Proof.
    induction n as [|n IH]; intros e s HI; [split; [reflexivity|exact HI]|]. cbn [loop]. destruct (epoch_map e s HI) as [E H]. rewrite E.
    destruct (epoch_step walk upd hn g e s) as [s'|s'|s' ex]; cbn [on_step]; [apply IH; exact H|split; [reflexivity|exact H]..].
  Qed.
  Definition result_inv (r : run_result P D S K) : Prop := match r with Finished _ _ d _ _ _ _ => Inv d | Raised _ _ _ => True end.
  Lemma finish_map c : finish_checkpointing g (on_cs c) = on_cs (finish_checkpointing g c).
  Proof. unfold finish_checkpointing. destruct (logdir g); [|reflexivity]. cbn [cs_best on_cs]. destruct (cs_best c); [|reflexivity]. cbn [option_map]. rewrite queue_map. reflexivity. Qed.
  Lemma vmc_loop_map start n p s d k : Inv d ->
    vmc_loop walk' upd' hn' g start n p s (f d) k = on_result (vmc_loop walk upd hn g start n p s d k) /\ result_inv (vmc_loop walk upd hn g start n p s d k).
  Proof.
    intros HI. unfold vmc_loop. cbv zeta.
    match goal with |- context [loop walk upd hn g ?a ?b ?c] => destruct (loop_map a b c HI) as [E H]; change (on_v c) with (Build_vstate p s (f d) k cs_init false) in E; rewrite E;
      destruct (loop walk upd hn g a b c) as [s'|s'|s' ex] end; cbn [on_step]; cbn [v_params v_opt v_data v_key v_cs v_nans on_v]; rewrite ?finish_map; split; try reflexivity; try exact H; exact Logic.I.
  Qed.
End Loop.

Section Run.
  Context {P1 D S1 K J : Type}.
  Variables (f : D -> D) (Inv : D -> Prop) (j j' : job P1 D S1 K J).
  (** The two jobs do the same, up to [f]. *)
  Record jobs_match : Prop := {
    jm_ndev : j_ndev j' = j_ndev j;
    jm_init : let '(p, s, d, k) := j_init j in j_init j' = (p, s, f d, k) /\ Inv d;
    jm_burn : forall p d k, Inv d -> let '(d1, k1) := j_burn j p d k in j_burn j' p (f d) k = (f d1, k1) /\ Inv d1;
    jm_walk : forall p d k, Inv d -> let '(a, d1, k1) := j_walk j p d k in j_walk j' p (f d) k = (a, f d1, k1) /\ Inv d1;
    jm_update : forall p d s k, Inv d -> let '(p1, d1, s1, m, k1) := j_update j p d s k in j_update j' p (f d) s k = (p1, f d1, s1, m, k1) /\ Inv d1;
    jm_nan : forall p, j_has_nan j' p = j_has_nan j p;
    jm_cfg : j_cfg j' = j_cfg j;
    jm_amp : forall h, get_amplitude_fn (j_cfg j) = Some h -> forall d, h (f d) = h d;
    jm_nepochs : j_nepochs j' = j_nepochs j;
    jm_use : j_use_training_data j' = j_use_training_data j;
    jm_nchains : j_eval_nchains j' = j_eval_nchains j;
    jm_new : forall p k, let '(k1, d1) := j_new_data j p k in j_new_data j' p k = (k1, f d1) /\ Inv d1;
    jm_eburn : forall p d k, Inv d -> let '(d1, k1) := j_eval_burn j p d k in j_eval_burn j' p (f d) k = (f d1, k1) /\ Inv d1;
    jm_ewalk : forall p d k, Inv d -> let '(a, d1, k1) := j_eval_walk j p d k in j_eval_walk j' p (f d) k = (a, f d1, k1) /\ Inv d1;
    jm_les : forall p d, Inv d -> j_local_energies j' p (f d) = j_local_energies j p d;
    jm_stat : forall l, j_statistics j' l = j_statistics j l;
    jm_eamp : j_eval_amplitudes j' = j_eval_amplitudes j;
    jm_rec : j_record_local_energies j' = j_record_local_energies j;
    jm_enepochs : j_eval_nepochs j' = j_eval_nepochs j;
    jm_summary : forall l, j_summary j' l = j_summary j l }.
  Hypothesis M : jobs_match.
  Lemma eval_update_map p d s k : Inv d -> let '(p1, d1, s1, m, k1) := eval_update j p d s k in eval_update j' p (f d) s k = (p1, f d1, s1, m, k1) /\ Inv d1.
  Proof. intros HI. unfold eval_update. rewrite (jm_les M) by exact HI. rewrite (jm_stat M). destruct (j_statistics j _). split; [reflexivity|exact HI]. Qed.
  Lemma rows_map n : forall p d k, Inv d -> eval_rows j' n p (f d) k = eval_rows j n p d k.
  Proof.
    induction n as [|n IH]; intros p d k HI; [reflexivity|]. cbn [eval_rows]. pose proof (jm_ewalk M p d k HI) as H. destruct (j_eval_walk j p d k) as [[a d1] k1]. destruct H as [-> I1].
    rewrite (jm_les M) by exact I1. rewrite IH by exact I1. reflexivity.
  Qed.
  Lemma evaluate_map p d k l : Inv d -> evaluate j' p (f d) k (on_files f l) = on_outcome f (evaluate j p d k l).
  Proof.
    intros HI. unfold evaluate.
    assert (HS : let '(d1, k1) := eval_start j p d k in eval_start j' p (f d) k = (f d1, k1) /\ Inv d1).
    { unfold eval_start. rewrite (jm_use M), (jm_nchains M), (jm_cfg M). destruct (_ || _); [|split; [reflexivity|exact HI]].
      pose proof (jm_new M p k) as H. destruct (j_new_data j p k) as [k1 d1]. destruct H as [-> I1]. split; [reflexivity|exact I1]. }
    destruct (eval_start j p d k) as [d1 k1]. destruct HS as [-> I1].
    pose proof (jm_eburn M p d1 k1 I1) as HB. destruct (j_eval_burn j p d1 k1) as [d2 k2]. destruct HB as [-> I2].
    rewrite (jm_cfg M), (jm_eamp M), (jm_nchains M), (jm_enepochs M). cbv zeta.
    match goal with |- context [vmc_loop (j_eval_walk j) (eval_update j) (j_has_nan j) ?gg _ _ _ _ _ _] => set (G := gg) end.
    destruct (vmc_loop_map f Inv (j_eval_walk j) (j_eval_walk j') (eval_update j) (eval_update j') (j_has_nan j) (j_has_nan j') G (jm_ewalk M) eval_update_map (jm_nan M)
      (fun h Hh => jm_amp M h Hh) 0 (j_eval_nepochs j) p tt d2 k2 I2) as [E _]. rewrite E. clear E.
    destruct (vmc_loop (j_eval_walk j) _ _ G _ _ _ _ _ _) as [p3 s3 d3 k3 nn cks ms|ex cks ms]; cbn [on_result]; [|reflexivity].
    cbn [lf_train lf_eval lf_rows lf_ckpts lf_stats on_files]. rewrite (jm_rec M), rows_map by exact I2.
    destruct (j_record_local_energies j); cbn [andb]; [|reflexivity].
    destruct (negb (Nat.eqb _ 0)); [|reflexivity]. destruct (load_rows _) as [rows|]; [|reflexivity]. rewrite (jm_summary M). reflexivity.
  Qed.
  Definition reload_inv (rl : option (reload P1 D S1 K)) : Prop := match rl with Some r => Inv (c_data (r_ckpt r)) | None => True end.
  Lemma start_state_map rl : reload_inv rl -> let '(e, (p, o, d, k)) := start_state j rl in start_state j' (option_map (on_reload f) rl) = (e, (p, o, f d, k)) /\ Inv d.
  Proof.
    intros HI. pose proof (jm_init M) as H. destruct rl as [r|]; cbn [option_map start_state].
    - cbn [r_ckpt r_new_optimizer_state on_reload]. cbn [c_params c_opt c_data c_key c_epoch on_ckpt]. rewrite (jm_ndev M).
      destruct (j_init j) as [[[p0 s0] d0] k0]. destruct H as [-> I0]. destruct (r_new_optimizer_state r); (split; [reflexivity|exact HI]).
    - destruct (j_init j) as [[[p0 s0] d0] k0]. destruct H as [-> I0]. split; [reflexivity|exact I0].
  Qed.
  Lemma train_map rl : reload_inv rl -> train j' (option_map (on_reload f) rl) = on_result f (train j rl) /\ result_inv Inv (train j rl).
  Proof.
    intros HI. unfold train. pose proof (start_state_map rl HI) as H. destruct (start_state j rl) as [e [[[p o] d] k]]. destruct H as [-> I0].
    assert (HB : skip_burn (option_map (on_reload f) rl) = skip_burn rl) by (destruct rl; reflexivity). rewrite HB.
    assert (HD : let '(d1, k1) := (if skip_burn rl then (d, k) else j_burn j p d k) in (if skip_burn rl then (f d, k) else j_burn j' p (f d) k) = (f d1, k1) /\ Inv d1).
    { destruct (skip_burn rl); [split; [reflexivity|exact I0]|]. apply (jm_burn M). exact I0. }
    destruct (if skip_burn rl then (d, k) else j_burn j p d k) as [d1 k1]. destruct HD as [-> I1]. rewrite (jm_cfg M), (jm_nepochs M).
    apply vmc_loop_map; [apply (jm_walk M)|apply (jm_update M)|apply (jm_nan M)|apply (jm_amp M)|exact I1].
  Qed.
  Lemma start_files_map rl (l : logfiles P1 D S1 K J) : start_files (option_map (on_reload f) rl) (on_files f l) = on_files f (start_files rl l).
  Proof. destruct rl as [r|]; [|reflexivity]. unfold start_files. cbn [option_map r_append on_reload]. destruct (r_append r); reflexivity. Qed.
  Lemma run_map rl (l : logfiles P1 D S1 K J) : reload_inv rl -> run_molecule j' (option_map (on_reload f) rl) (on_files f l) = on_outcome f (run_molecule j rl l).
  Proof.
    intros HI. unfold run_molecule. cbv zeta. rewrite start_files_map. destruct (train_map rl HI) as [E H]. rewrite E.
    destruct (train j rl) as [p s d k nn cks ms|ex cks ms]; cbn [on_result].
    - destruct nn.
      + unfold on_files. cbn. unfold on_files. cbn. rewrite map_app. reflexivity.
      + rewrite <- evaluate_map by exact H. f_equal. unfold on_files. cbn. rewrite map_app. reflexivity.
    - cbn. unfold on_files. cbn. rewrite map_app. reflexivity.
  Qed.
End Run.

(** * The statistics file of an evaluation: C85 *)
From Coquelicot Require Import Coquelicot.
From Coq Require Import String Reals List Bool Arith Lia Lra FunctionalExtensionality.
From Verif Require Import XReal Rsum M_io M_vmc M_files M_mcmc M_distribute M_energy M_physics M_setup M_slog M_models M_antisym M_construct M_dispatch M_optim M_optax M_run M_start M_job M_stats M_statsfile
  S_stats S_mcmc S_perm S_vmc S_files S_optim S_run S_start S_optax S_energy S_physics S_setup S_job S_models S_antisym S_construct S_dispatch S_total S_finite S_smooth P_job P_jobrun E_job T_stats T_shift T_start T_job T_smooth.
Import ListNotations.
Local Open Scope R_scope.
Local Open Scope string_scope.

Lemma summarise_finite (f : nat -> list R) N M : (0 < N)%nat -> (forall t, (t < N)%nat -> length (f t) = M) ->
  summarise (map (fun t => map Fin (f t)) (seq 0 N)) = Some (get_stats_summary N M (fun t k => if Nat.ltb t N then nth k (f t) 0 else 0)).
Proof.
  intros HN HM. unfold summarise. assert (F : forallb (forallb isfin) (map (fun t => map Fin (f t)) (seq 0 N)) = true).
  { apply forallb_forall. intros r Hr. apply in_map_iff in Hr. destruct Hr as (t & <- & _). apply forallb_forall. intros a Ha. apply in_map_iff in Ha. destruct Ha as (b & <- & _). reflexivity. }
  rewrite F. rewrite map_length, seq_length. assert (H0 : length (hd [] (map (fun t => map Fin (f t)) (seq 0 N))) = M) by (destruct N; [lia|]; cbn [seq map hd]; rewrite map_length; apply HM; lia). rewrite H0. do 2 f_equal.
  apply functional_extensionality. intros t. apply functional_extensionality. intros k. destruct (Nat.ltb t N) eqn:E.
  - apply Nat.ltb_lt in E. rewrite (nth_indep _ [] (map Fin (f O))) by (rewrite map_length, seq_length; exact E). rewrite (map_nth (fun t => map Fin (f t)) (seq 0 N) O t), seq_nth by exact E. cbn [plus]. change (0 + t)%nat with t. rewrite (map_nth Fin (f t) 0 k). reflexivity.
  - apply Nat.ltb_ge in E. rewrite nth_overflow with (n := t) by (rewrite map_length, seq_length; exact E). destruct k; reflexivity.
Qed.
Lemma rows_table (rows : list (list xr)) (f : nat -> list R) N : length rows = N -> (forall t, (t < N)%nat -> nth_error rows t = Some (map Fin (f t))) -> rows = map (fun t => map Fin (f t)) (seq 0 N).
Proof.
  intros L H. apply (nth_ext _ _ [] (map Fin (f O))); [rewrite map_length, seq_length; exact L|]. intros t Ht. rewrite L in Ht. rewrite (map_nth (fun t => map Fin (f t)) (seq 0 N) O t), seq_nth by exact Ht. apply nth_error_nth. apply H. exact Ht.
Qed.

Lemma concat_map_length {A B C} (f : A -> B -> C) (h : A -> list B) l : length (concat (map (fun a => map (f a) (h a)) l)) = length (concat (map h l)).
Proof. induction l as [|a l IH]; [reflexivity|]. cbn [map concat]. rewrite !app_length, map_length, IH. reflexivity. Qed.
Lemma load_rows_same rows loaded : load_rows rows = Some loaded -> loaded = rows.
Proof. destruct rows as [|r [|r' rows]]; try discriminate. cbn [load_rows]. destruct (Nat.leb _ _); [discriminate|]. destruct (forallb _ _); [|discriminate]. intros [= <-]. reflexivity. Qed.
Lemma completed_loads {P1 D S1 K J} (j : job P1 D S1 K J) p l : run_molecule j None empty_logfiles = Completed p l -> lf_stats l <> [] -> load_rows (lf_rows l) = Some (lf_rows l).
Proof.
  unfold run_molecule. destruct (train j None) as [p' o d k nans cks ms|? ? ?]; [|discriminate]. destruct nans; [discriminate|]. unfold evaluate. destruct (eval_start j p' d k) as (d1, k1). destruct (j_eval_burn j p' d1 k1) as (d2, k2).
  destruct (vmc_loop _ _ _ _ _ _ _ _ _ _); [|discriminate]. cbv zeta. match goal with |- context [if ?b then _ else _] => destruct b end.
  all: cbn [lf_rows lf_stats lf_train lf_eval lf_ckpts empty_logfiles start_files app].
  all: match goal with |- context [if ?b then _ else _] => destruct b end.
  all: try (intros [= <- <-] Z; exfalso; apply Z; reflexivity).
  all: match goal with |- context [load_rows ?r] => destruct (load_rows r) as [loaded|] eqn:E end; intros [= <- <-] _; cbn [lf_rows]; rewrite E; f_equal; exact (load_rows_same _ _ E).
Qed.

Section Jobs.
  Context {P1 S1 K : Type}.
  Variables (g : prng K) (choice : choice_fn K) (perm_of : K -> nat -> nat) (split_n : K -> nat -> list K) (device_keys : K -> list K) (ndev : nat).
  Variables (theta : P1 -> model_params) (init_params : K -> list nat -> P1).
  Variables (grad_p : (P1 -> R) -> P1 -> nat -> R) (grad_px : (P1 -> xr) -> P1 -> nat -> xr).
  Variables (opt_init : optimiser -> P1 -> S1)
            (opt_apply : optimiser -> (nat -> xr) -> P1 -> S1 -> list (list (nat -> R)) -> list (list xr) -> P1 * S1).
  Variable kfac : kfac_optimizer P1 S1 K.
  Variables (has_nan : P1 -> bool) (param_l1_norm : P1 -> xr).
  Notation build := (build_job g choice perm_of split_n device_keys ndev theta init_params grad_p grad_px opt_init opt_apply kfac has_nan param_l1_norm summarise).
  Hypothesis Hg : good_prng g.
  Hypothesis Hc : good_choice choice.
  Hypothesis Hdk : forall k, length (device_keys k) = ndev.
  Hypothesis Hnd : (0 < ndev)%nat.

  (** A smooth job evaluated with the standard local energy that records local energies writes one statistics file.  With x t k the value of (H psi)/psi at walker k of evaluation epoch t (finite
      parameters, regular walkers, no walker's energy constant over the epochs), it holds the mean of all x t k, the variance V estimated from the chains, tau, the integrated autocorrelation time of the
      combined autocorrelation curve (C25: Geyer's initial minimum sequence), and the error bar sqrt (tau V / number of samples), NaN if tau is negative.
      Walker k is the same Metropolis chain in all epochs.  vmc-statistics on the file of local energies gives the same statistics. *)
  Theorem C85_statistics : forall c key j, well_formed_ions c -> (0 < wc_nchains (jc_walk c))%nat -> build c key = Some j -> 0 < wc_std (jc_walk c) ->
    jc_logdir c <> None -> jc_checkpoint_every c <> Some O -> jc_best_checkpoint_every c <> Some O ->
    0 < wc_std (jc_eval_walk c) -> (2 <= wc_nchains (jc_eval_walk c))%nat -> jc_eval_record_local_energies c = true -> (2 <= jc_eval_nepochs c)%nat ->
    (forall l, run_molecule j None empty_logfiles <> NansDetected l) -> smooth_job c -> ec_type (jc_eval_energy c) = "standard" ->
    exists p (starts : nat -> list (list (list R))) (walkers : nat -> list (padata move_metadata)) l s,
    run_molecule j None empty_logfiles = Completed (repeat p ndev) l /\ lf_stats l = [s] /\ vmc_statistics (lf_rows l) = Some s /\
    (forall t, (t < jc_eval_nepochs c)%nat -> length (all_walkers c (walkers t)) = wc_nchains (jc_eval_walk c) /\ starts (S t) = map pos (walkers t) /\
       exists accs, length accs = wc_nsteps (jc_eval_walk c) /\ metropolis (log_psi_of_walker theta c) p accs (starts t) (map pos (walkers t))) /\
    let N := jc_eval_nepochs c in let M := wc_nchains (jc_eval_walk c) in
    let x t k := if Nat.ltb t N then nth k (walkers_energies c (configured_psi theta c p) (walkers t)) 0 else 0 in
    (finite_params (theta p) -> (forall t, (t < N)%nat -> regular_walkers theta c p (walkers t)) -> (forall k, (k < M)%nat -> ~ constant_chain N (fun t => x t k)) ->
     exists tau_x, tau (map Fin (map (combined_autocorr N M x) (seq 0 N))) = Fin tau_x /\
       s = Some {| M_stats.average := Fin (Rsum N (fun t => Rsum M (fun k => x t k)) / INR (N * M));
                   M_stats.variance := Fin (V N M x);
                   M_stats.std_err := if Rlt_dec tau_x 0 then NaN else Fin (sqrt (tau_x * V N M x / INR (N * M)));
                   M_stats.iac := Fin tau_x |}).
  Proof.
    intros c key j Hw Hn Hb Hs HL HE HB He1 He2 He3 He4 Hnn Sj Et.
    destruct (C84_evaluation g choice perm_of split_n device_keys ndev theta init_params grad_p grad_px opt_init opt_apply kfac has_nan param_l1_norm summarise Hg Hc Hdk Hnd c key j Hw Hn Hb Hs HL HE HB He1 He2 He3 He4 Hnn Sj Et)
      as (p & starts & walkers & l & initial & E & _ & HR & HS & H).
    exists p, starts, walkers, l, (summarise (lf_rows l)). split; [exact E|]. split; [exact HS|]. split; [|split].
    - unfold vmc_statistics. assert (Lr : load_rows (lf_rows l) = Some (lf_rows l)); [|rewrite Lr; reflexivity].
      apply (completed_loads j _ _ E). rewrite HS. discriminate.
    - intros t Ht. destruct (H t Ht) as (H1 & H2 & H3 & _). split; [exact H1|]. split; assumption.
    - intros N M x Ft Hr Hk. assert (R1 : forall t, (t < N)%nat -> nth_error (lf_rows l) t = Some (map Fin (walkers_energies c (configured_psi theta c p) (walkers t)))) by (intros t Ht; apply (H t Ht); [exact Ft|apply Hr; exact Ht]).
      rewrite (rows_table (lf_rows l) _ N HR R1). rewrite (summarise_finite _ N M); [|unfold N; lia|].
      + destruct (C25_summary N M x ltac:(exact He4) ltac:(exact He2) Hk) as (t & T1 & T2). exists t. split; [exact T1|]. f_equal. exact T2.
      + intros t Ht. destruct (H t Ht) as (H1 & _). change (length (walkers_energies c (configured_psi theta c p) (walkers t)) = wc_nchains (jc_eval_walk c)). rewrite <- H1. unfold all_walkers, walkers_energies, device_energies. rewrite map_length.
        exact (concat_map_length (fun _ x => let y := electrons_of_walker c x in molecular_hamiltonian c (configured_psi theta c p) y / configured_psi theta c p y) pos (walkers t)).
  Qed.
End Jobs.
Print Assumptions C85_statistics.

(** The example job with this summary starts, and C84_example gives walkers that are regular; the statistics of two walkers over two epochs. *)
Definition line_stats_job := build_job ex_prng ex_choice (fun _ i => i) (fun k n => repeat k n) (fun k => [k; S k]) 2 line_finite (fun _ _ => 1) line_grad (fun f p i => NaN) (fun _ _ => tt) line_step line_kfac (fun _ => false)
  (fun p => Fin (Rabs p)) summarise.
Example C85_example : (forall key, exists j, line_stats_job line_config key = Some j /\ forall l, run_molecule j None empty_logfiles <> NansDetected l) /\ smooth_job line_config /\
  (2 <= jc_eval_nepochs line_config)%nat /\ (2 <= wc_nchains (jc_eval_walk line_config))%nat /\ ec_type (jc_eval_energy line_config) = "standard" /\
  exists s, vmc_statistics [[Fin 1; Fin 2]; [Fin 3; Fin 6]] = Some (Some s) /\ M_stats.average s = Fin 3.
Proof.
  split; [|split; [exact line_smooth|split; [cbn; lia|split; [cbn; lia|split; [reflexivity|]]]]].
  - intros key. destruct (proj2 (C78_accepted ex_prng ex_choice (fun _ i => i) (fun k n => repeat k n) (fun k => [k; S k]) 2 line_finite (fun _ _ => 1) line_grad (fun f p i => NaN) (fun _ _ => tt) line_step line_kfac (fun _ => false)
      (fun p => Fin (Rabs p)) summarise ex_prng_good ex_choice_good ltac:(reflexivity) ltac:(lia) line_config key line_ions ltac:(cbn; lia) line_evaluates) line_accepted) as (j & Ej). exists j. split; [exact Ej|].
    intros l. eapply no_nans; [exact ex_prng_good|exact ex_choice_good| | |exact line_ions|cbn; lia|exact Ej|discriminate|discriminate|discriminate|reflexivity]; [reflexivity|lia].
  - eexists. split; [reflexivity|]. unfold summarise. cbn. destruct (Req_EM_T _ 0) as [Z|_]; [exfalso; lra|]. cbn. destruct (Req_EM_T _ 0) as [Z|_]; [exfalso; lra|]. f_equal. field.
Qed.

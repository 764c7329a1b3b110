(** * What a configured job computes *)
From Coq Require Import String Reals List Arith Bool Lia Lra FunctionalExtensionality.
From Verif Require Import XReal Rsum M_io M_vmc M_files M_mcmc M_distribute M_energy M_physics M_setup M_slog M_models M_construct M_dispatch M_optim M_optax M_run M_start M_job
  S_models S_mcmc S_vmc S_files S_optim S_run S_start S_optax S_energy S_physics S_setup S_job P_mcmc P_distribute P_start P_energy P_grad P_setup T_optax T_setup T_start P_vmc P_vmc2 P_vmc3 P_files P_job P_accept P_run P_sample T_amplitude.
Import ListNotations.
Local Open Scope R_scope.
Local Notation zipw := M_mcmc.zipw.

Section Built.
  Context {P1 S1 K J : Type}.
  Variables (g : prng K) (choice : choice_fn K) (perm_of : K -> nat -> nat) (split_n : K -> nat -> list K) (device_keys : K -> list K) (ndev : nat).
  Variables (theta : P1 -> model_params) (init_params : K -> list nat -> P1).
  Variables (grad_p : (P1 -> R) -> P1 -> nat -> R) (grad_px : (P1 -> xr) -> P1 -> nat -> xr).
  Variables (opt_init : optimiser -> P1 -> S1)
            (opt_apply : optimiser -> (nat -> xr) -> P1 -> S1 -> list (list (nat -> R)) -> list (list xr) -> P1 * S1).
  Variable kfac : kfac_optimizer P1 S1 K.
  Variables (has_nan : P1 -> bool) (param_l1_norm : P1 -> xr) (summary : list (list xr) -> J).
  Variables (c : job_config) (key : K) (j : job P1 (list (padata move_metadata)) S1 (list K) J).
  Hypothesis Hg : good_prng g.
  Hypothesis Hc : good_choice choice.
  Hypothesis Hdk : forall k, length (device_keys k) = ndev.
  Hypothesis Hnd : (0 < ndev)%nat.
  Hypothesis Hw : well_formed_ions c.
  Hypothesis Hch : (0 < wc_nchains (jc_walk c))%nat.
  Hypothesis Hb : build_job g choice perm_of split_n device_keys ndev theta init_params grad_p grad_px opt_init opt_apply kfac has_nan param_l1_norm summary c key = Some j.
  Notation eg := (energy_and_grad perm_of split_n theta grad_p grad_px c).
  Notation psi := (fun (p : P1) (x : list R) => log_psi_at theta c p (positions_at (jc_d c) x)).
  Notation start := (initialize_molecular_pos g choice key (wc_nchains (jc_walk c)) (jc_ion_pos c) (jc_ion_charges c) (jc_n c) 1).
  Notation nd := (jc_n c * jc_d c)%nat.
  Notation good cc := (inv psi ndev (wc_nchains cc / ndev) nd).

  (** What the fields of a built job are. *)
  Lemma fields : exists p0 data keys o s0 keys0,
    setup_walkers g choice (model_apply theta c) (fun k x => init_params k (map (@length R) x)) device_keys ndev (jc_walk c) (jc_ion_pos c) (jc_ion_charges c) (jc_n c) key = Some (p0, data, keys) /\
    choose_optimiser (jc_optimizer c) = Chosen o /\ modelled_optimiser ndev o = true /\ (wc_nchains (jc_walk c) mod ndev = 0)%nat /\
    wc_nchains (jc_walk c) <> 1%nat /\ good_energy (jc_energy c) /\
    (ec_type (jc_eval_energy c) = "standard"%string \/ ec_type (jc_eval_energy c) = "ibp"%string) /\
    (new_eval_walkers c = true -> (wc_nchains (jc_eval_walk c) mod ndev = 0)%nat) /\
    init_optimizer g opt_init kfac o p0 data keys = (s0, keys0) /\
    j = {| j_ndev := ndev;
          j_init := (repeat p0 ndev, repeat s0 ndev, data, keys0);
          j_burn := fun p => burn_in g (model_apply theta c) (jc_walk c) (hd p0 p);
          j_walk := fun p => run_walker g (model_apply theta c) ndev (jc_walk c) (hd p0 p);
          j_update := fun p dd s k =>
            let '(p', dd', s', m, k') := job_update g perm_of split_n theta grad_p grad_px opt_apply kfac param_l1_norm c o (hd p0 p) dd (hd s0 s) k in (repeat p' ndev, dd', repeat s' ndev, m, k');
          j_has_nan := fun p => has_nan (hd p0 p);
          j_cfg := loop_cfg c;
          j_nepochs := jc_nepochs c;
          j_use_training_data := jc_eval_use_training_data c;
          j_eval_nchains := wc_nchains (jc_eval_walk c);
          j_new_data := fun p k =>
            match make_new_data_for_eval g choice (model_apply theta c) device_keys ndev (jc_eval_walk c) (jc_ion_pos c) (jc_ion_charges c) (jc_n c) (hd p0 p) k with
            | Some (dd, k') => (k', dd)
            | None => (k, [])
            end;
          j_eval_burn := fun p => burn_in g (model_apply theta c) (jc_eval_walk c) (hd p0 p);
          j_eval_walk := fun p => run_walker g (model_apply theta c) ndev (jc_eval_walk c) (hd p0 p);
          j_local_energies := fun p => eval_local_energies perm_of theta c (hd p0 p);
          j_statistics := eval_statistics ndev c;
          j_eval_amplitudes := jc_eval_record_amplitudes c;
          j_record_local_energies := jc_eval_record_local_energies c;
          j_eval_nepochs := jc_eval_nepochs c;
          j_summary := summary |}.
  Proof.
    revert Hb. unfold build_job. destruct Hw as (W1 & W2 & W3).
    pose proof (C75_initial_walkers P1 K g choice psi (model_apply theta c) (fun k (x : list (list R)) => init_params k (map (@length R) x)) device_keys ndev
      Hg Hc (fun p xs => eq_refl) Hnd (jc_ion_pos c) (jc_ion_charges c) (jc_d c) (eq_sym W3) W1 W2 (jc_walk c) (jc_n c) key) as SW. cbv zeta in SW.
    destruct (setup_walkers _ _ _ _ _ _ _ _ _ _ _) as [[[p0 datas] keys]|]; [|discriminate]. destruct SW as (S1' & _ & S3 & S4 & _).
    assert (KN : keys <> []) by (rewrite S3; intros Z; apply (f_equal (@length K)) in Z; rewrite Hdk in Z; cbn in Z; lia).
    assert (PN : map pos datas <> []).
    { intros Z. rewrite Z in S4. cbn in S4. pose proof (C75_initial_positions K g choice Hg Hc (jc_ion_pos c) (jc_ion_charges c) (jc_d c) (eq_sym W3) W1 W2 key (wc_nchains (jc_walk c)) (jc_n c) 1) as [L _].
      cbv zeta in L. rewrite <- S4 in L. cbn in L. lia. }
    destruct (choose_optimiser (jc_optimizer c)) as [o|e]; [|discriminate]. cbv zeta. destruct (init_optimizer g opt_init kfac o p0 datas keys) as [s0 keys0] eqn:EI.
    destruct (modelled_optimiser ndev o && _ && _ && _ && _) eqn:EB; [|discriminate]. rewrite !andb_true_iff in EB. destruct EB as ((((E1 & _) & E2) & E3) & E4).
    intros [= <-]. exists p0, datas, keys, o, s0, keys0. split; [reflexivity|]. split; [reflexivity|]. split; [exact E1|]. split; [exact S1'|].
    destruct (eg p0 keys (map pos datas)) as [r|] eqn:Er; [|discriminate]. destruct (energy_ok_inv perm_of split_n theta grad_p grad_px c p0 keys (map pos datas) r KN PN Er) as (Q1 & Q2).
    split; [exact Q1|]. split; [exact Q2|]. split; [apply (eval_traces_iff perm_of split_n theta grad_p grad_px c p0); exact E3|]. split.
    - intros Z. rewrite Z in E4. cbn in E4. apply Nat.eqb_eq. exact E4.
    - split; [exact EI|reflexivity].
  Qed.

  Lemma always_ok p keys pos : exists r, eg p keys pos = Ok r.
  Proof. destruct fields as (p0 & data & keys0 & o & s0 & keys0' & _ & _ & _ & _ & Q1 & Q2 & _). apply energy_ok; assumption. Qed.
  Lemma data_ok p keys pos : exists e v en vn cs gr, energy_data_val_and_grad perm_of split_n theta grad_p grad_px c p keys pos =
    ({| ed_energy := e; ed_variance := v; ed_energy_noclip := Some en; ed_variance_noclip := Some vn; ed_centered := cs |}, gr).
  Proof.
    unfold energy_data_val_and_grad. destruct (always_ok p keys pos) as (r & E). rewrite E. revert E. unfold energy_and_grad. destruct (molecule_val_and_grad _ _ _ _ _ _ _ _ _ _) as [[[aux e] gr]|]; [|discriminate].
    intros [= <-]. do 6 eexists. reflexivity.
  Qed.

  Lemma built_ok : jc_logdir c <> None -> jc_checkpoint_every c <> Some O -> jc_best_checkpoint_every c <> Some O -> job_ok j /\ keeps_replicas_equal j.
  Proof.
    intros HL HE HB. destruct fields as (p0 & data & keys & o & s0 & keys0 & _ & _ & _ & _ & _ & _ & _ & _ & _ & EJ).
    assert (U : forall p dd s k, exists p' dd' s' k' e v en vn, job_update g perm_of split_n theta grad_p grad_px opt_apply kfac param_l1_norm c o p dd s k =
      (p', dd', s', Some (with_l1 param_l1_norm (jc_record_param_l1_norm c) p' (with_noclip (Some en) (Some vn) [("energy", e); ("variance", v)]%string)), k')).
    { intros p dd s k. rewrite update_eq. cbv zeta. destruct (data_ok p (energy_keys kfac o (map snd (map (split2 g) k))) (positions_of dd)) as (e & v & en & vn & cs & gr & ->).
      destruct (opt_step theta grad_p opt_apply kfac c o gr p s _ dd _) as [p' s']. do 8 eexists. reflexivity. }
    rewrite EJ. split.
    - split; [split; [exact HE|split; [exact HB|discriminate]]|]. split; [exact HL|]. split; [discriminate|]. cbn [j_update]. split; [|split].
      + intros p d s k m Hm. destruct (U (hd p0 p) d (hd s0 s) k) as (p' & dd' & s' & k' & e & v & en & vn & E). rewrite E in Hm. cbn [fst snd] in Hm. injection Hm as <-.
        unfold with_l1, with_noclip. destruct (jc_record_param_l1_norm c); cbn; eauto 10.
      + intros p d s k m Hm. destruct (U (hd p0 p) d (hd s0 s) k) as (p' & dd' & s' & k' & e & v & en & vn & E). rewrite E in Hm. cbn [fst snd] in Hm. injection Hm as <-.
        unfold with_l1, with_noclip, is_dict. destruct (jc_record_param_l1_norm c); cbn; repeat constructor; cbn; intuition discriminate.
      + intros p d s k. destruct (U (hd p0 p) d (hd s0 s) k) as (p' & dd' & s' & k' & e & v & en & vn & E). rewrite E. discriminate.
    - split; [exact Hnd|]. split; [split; eexists; reflexivity|]. cbn [j_update j_ndev]. intros p d s k _ _.
      destruct (U (hd p0 p) d (hd s0 s) k) as (p' & dd' & s' & k' & e & v & en & vn & E). rewrite E. split; eexists; reflexivity.
  Qed.

  (** ** Local energies *)
  Lemma log_modulus p (f : positions -> R) : (forall y, Rabs (f y) = modulus theta c p y) -> real_log_psi theta c p = (fun y => ln (Rabs (f y))).
  Proof.
    intros H. apply functional_extensionality. intros y. rewrite H. unfold real_log_psi, modulus, finite_part. change (configured_log_psi theta c p y) with (log_psi_at theta c p y). destruct (log_psi_at theta c p y); try (symmetry; apply ln_exp).
    all: unfold ln; destruct (Rlt_dec 0 0) as [Z|Z]; [exfalso; apply (Rlt_irrefl 0 Z)|reflexivity].
  Qed.
  Notation hm := (molecule_of c).
  Notation eloc f y := (ham hm f y / f y).
  Lemma standard_at e p f y k : ec_type e = "standard"%string -> (forall y, Rabs (f y) = modulus theta c p y) -> ordinary_point hm f y ->
    local_energy_at perm_of theta c e p y k = Fin (eloc f y).
  Proof.
    intros HT Hf Ho. unfold local_energy_at. rewrite (log_modulus p f Hf). destruct (C68_standard hm e f HT) as (h & -> & V). unfold call. rewrite (V y Ho). reflexivity.
  Qed.

  Lemma energies_all f datas : walkers_energies c f datas = map (fun y => eloc f y) (all_walkers c datas).
  Proof.
    unfold walkers_energies, device_energies, all_walkers. cbv zeta. rewrite map_map, <- (map_map pos (map (fun x => eloc f (positions_at (jc_d c) x)))), <- concat_map. reflexivity.
  Qed.
  Lemma clipped_exists ss : evenly ss -> good_energy (jc_energy c) -> ec_type (jc_energy c) = "standard"%string ->
    exists ss', Forall2 (clips (get_clipping_fn (ec_clip_threshold (jc_energy c)) (ec_clip_center (jc_energy c))) (lmean (concat ss))) ss ss' /\
      clipped (ec_clip_threshold (jc_energy c)) (ec_clip_center (jc_energy c)) ss ss'.
  Proof.
    intros (k & Hk & _ & HL) (_ & _ & HC) HT. unfold clipped. set (e := lmean (concat ss)). clearbody e. set (th := ec_clip_threshold (jc_energy c)) in *. set (cc := ec_clip_center (jc_energy c)) in *.
    destruct (Rlt_le_dec 0 th) as [Hth|Hth].
    - specialize (HC ltac:(rewrite HT; discriminate) Hth). unfold get_clipping_fn. rewrite (proj2 (Rltb_true 0 th)) by exact Hth.
      exists (map (fun l => clip_list (centre_of cc e l) (th * mean_distance (centre_of cc e l) l) l) ss). revert HL. induction ss as [|l ss IH]; intros HL; [split; constructor|].
      destruct IH as (I1 & I2); [intros q Hq; apply HL; right; exact Hq|]. cbn [map]. assert (Hl : l <> []) by (intros ->; specialize (HL [] (or_introl eq_refl)); cbn in HL; lia). split.
      + constructor; [|exact I1]. split; [apply map_length|]. apply clip_fn_fin; [exact Hl|]. destruct HC as [-> | ->]; reflexivity.
      + constructor; [|exact I2]. split; [intros Z; lra|]. intros _. exists (centre_of cc e l). split; [intros ->; reflexivity|]. split; [intros ->; apply rmedian_is_median; exact Hl|].
        assert (Hw0 : 0 <= th * mean_distance (centre_of cc e l) l) by (apply Rmult_le_pos; [lra|apply mean_distance_nonneg]). revert Hw0. generalize (th * mean_distance (centre_of cc e l) l). intros w. generalize (centre_of cc e l). intros m Hw0. unfold clip_list. clear -Hw0. induction l; [constructor|]; constructor; [apply rclip_closest; exact Hw0|assumption].
    - unfold get_clipping_fn. rewrite (proj2 (Rltb_false 0 th)) by exact Hth. exists ss. clear -Hth. induction ss as [|l ss (I1 & I2)]; [split; constructor|].
      split; constructor; try assumption; split; try reflexivity. intros Z. lra.
  Qed.
  Lemma eg_standard p keys datas f : ec_type (jc_energy c) = "standard"%string -> evenly (map pos datas) -> wc_nchains (jc_walk c) = length (all_walkers c datas) -> (2 <= wc_nchains (jc_walk c))%nat ->
    (forall y, Rabs (f y) = modulus theta c p y) -> (forall y, In y (all_walkers c datas) -> ordinary_point hm f y) ->
    let E := walkers_energies c f datas in
    exists cl gr, clipped (ec_clip_threshold (jc_energy c)) (ec_clip_center (jc_energy c)) (device_energies c f datas) cl /\
      eg p keys (map pos datas) =
        Ok ({| ed_energy := Fin (lmean (concat cl)); ed_variance := Fin (lvar (concat cl)); ed_energy_noclip := Some (Fin (lmean E)); ed_variance_noclip := Some (Fin (lvar E));
               ed_centered := map (map (fun x => Fin (x - lmean (concat cl)))) cl |}, gr) /\
      forall i, gr i = Fin (2 * lcov (concat cl) (map (fun y => dlog_psi_at theta grad_p c p y i) (all_walkers c datas))).
  Proof.
    intros HT Hev Hn H2 Hf Ho E.
    assert (EP : concat (map (map (positions_at (jc_d c))) (map pos datas)) = all_walkers c datas) by (unfold all_walkers; symmetry; apply concat_map).
    set (ss := device_energies c f datas). change (concat ss) with E in *.
    assert (Hss : evenly ss). { unfold ss, device_energies. cbv zeta. destruct Hev as (k & Hk & Hs & HL). exists k. split; [exact Hk|]. split; [destruct datas; [exfalso; apply Hs; reflexivity|discriminate]|].
      intros q Hq. apply in_map_iff in Hq. destruct Hq as (u & <- & Hu). rewrite map_length. apply HL. apply in_map. exact Hu. }
    assert (Els : forall (k : option K), map (map (fun x => local_energy_at perm_of theta c (jc_energy c) p x k)) (map (map (positions_at (jc_d c))) (map pos datas)) = map (map Fin) ss).
    { intros k. unfold ss, device_energies. cbv zeta. rewrite !map_map. apply map_ext_in. intros dd Hd. rewrite !map_map. apply map_ext_in. intros x Hx. apply standard_at; [exact HT|exact Hf|]. apply Ho. unfold all_walkers. apply in_map. apply in_concat. exists (pos dd). split; [apply in_map; exact Hd|exact Hx]. }
    destruct fields as (p0' & data' & keys0' & o' & s0' & keys0'' & _ & _ & _ & _ & _ & HGE & _).
    destruct (clipped_exists ss Hss HGE HT) as (cl & HC1 & HC2). 
    assert (HLn : wc_nchains (jc_walk c) = length (concat ss)) by (change (concat ss) with E; unfold E; rewrite energies_all, map_length; exact Hn).
    set (lp := fun (p : P1) x => Fin (real_log_psi theta c p x)). set (dlp := fun (p : P1) x i => Fin (dlog_psi_at theta grad_p c p x i)).
    assert (HLL : Forall2 (fun s x => length s = length x) ss (map (map (positions_at (jc_d c))) (map pos datas))).
    { unfold ss, device_energies. cbv zeta. generalize datas as l. intros l. induction l; constructor; [rewrite !map_length; reflexivity|assumption]. }
    destruct (standard_contribution_fin lp dlp p (map (map (positions_at (jc_d c))) (map pos datas)) (real_log_psi theta c p) (dlog_psi_at theta grad_p c p) (fun _ _ => eq_refl) (fun _ _ _ => eq_refl)
      _ (wc_nchains (jc_walk c)) (ec_nan_safe (jc_energy c)) ss cl Hss HLL HLn H2 HC1) as (aux & gr & EC & V1 & V2 & V3 & V4).
    exists cl, (fun i => grad_mean (gr i)). split; [exact HC2|]. split; [|intros i; rewrite V4, EP; reflexivity].
    destruct (always_ok p keys (map pos datas)) as (r & Er). revert Er. unfold energy_and_grad, molecule_val_and_grad.
    change (assemble_mol_local_energy_fn hm (with_nchains (wc_nchains (jc_walk c)) (jc_energy c)) (real_log_psi theta c p)) with (assemble_mol_local_energy_fn hm (jc_energy c) (real_log_psi theta c p)).
    unfold local_energy_at in Els. destruct (assemble_mol_local_energy_fn hm (jc_energy c) (real_log_psi theta c p)) as [h|]; [|discriminate]. destruct (traces h); [|discriminate].
    cbn [with_nchains ec_type ec_nchains ec_clip_threshold ec_clip_center ec_nan_safe]. unfold energy_val_and_grad. rewrite HT. cbn [String.eqb Ascii.eqb Bool.eqb]. rewrite Els. intros _.
    fold lp dlp. rewrite EC. do 2 f_equal. rewrite V1, V2, V3. change (concat ss) with E. f_equal.
    revert EC. unfold get_standard_contribution. destruct (clipped_fin _ (wc_nchains (jc_walk c)) (ec_nan_safe (jc_energy c)) ss cl Hss HLn H2 HC1) as (aux' & EA & _ & _ & _ & _).
    rewrite EA. destruct (Nat.eqb _ 1); [discriminate|]. intros [= -> _]. revert EA. unfold get_clipped_energies_and_aux_data. destruct (get_statistics_from_local_energy _ _ false) as [a b].
    destruct (match get_clipping_fn _ _ with Some _ => _ | None => _ end) as [les|]; [|discriminate]. destruct (get_statistics_from_local_energy les _ _) as [e1 v1].
    intros [= -> -> <-]. cbn [centered]. rewrite !map_map. apply map_ext. intros l. rewrite !map_map. reflexivity.
  Qed.

  (** ** States *)
  Definition after_burn_in : rstate (reps P1) (list (padata move_metadata)) (reps S1) (list K) :=
    let '(p, o, d, k) := j_init j in let '(d, k) := j_burn j p d k in (p, o, d, k).
  Hypothesis Hstd : 0 < wc_std (jc_walk c).
  Lemma hd_repeat {A} (a b : A) : hd a (repeat b ndev) = b.
  Proof. clear -Hnd. destruct ndev; [lia|reflexivity]. Qed.
  Lemma setup_good p0 data keys : setup_walkers g choice (model_apply theta c) (fun k x => init_params k (map (@length R) x)) device_keys ndev (jc_walk c) (jc_ion_pos c) (jc_ion_charges c) (jc_n c) key = Some (p0, data, keys) ->
    good (jc_walk c) p0 data keys /\ around_the_ions c (map pos data).
  Proof.
    unfold setup_walkers. destruct Hw as (W1 & W2 & W3).
    pose proof (C75_initial_positions K g choice Hg Hc (jc_ion_pos c) (jc_ion_charges c) (jc_d c) (eq_sym W3) W1 W2 key (wc_nchains (jc_walk c)) (jc_n c) 1) as [HL HF]. cbv zeta in HL, HF.
    destruct start as [k1 xs]. cbn [fst snd] in *. destruct (split2 g k1) as [k2 k3]. rewrite (make_initial_spec psi (model_apply theta c) (fun _ _ => eq_refl)) by exact Hnd.
    destruct (Nat.eqb_spec (length xs mod ndev) 0) as [E|E]; [|discriminate]. intros [= <- <- <-]. split.
    - rewrite <- HL. apply initial_inv; auto. apply Forall_forall. intros x Hx. rewrite Forall_forall in HF. destruct (HF x Hx) as (a & nz & A & _). exact (proj1 A).
    - unfold around_the_ions. rewrite map_map. cbn [pos]. rewrite map_id, chunks_concat; [exact HF|]. apply reshape_some; [exact Hnd|exact E].
  Qed.
  Lemma new_good p keys datas keys' : 0 < wc_std (jc_eval_walk c) ->
    make_new_data_for_eval g choice (model_apply theta c) device_keys ndev (jc_eval_walk c) (jc_ion_pos c) (jc_ion_charges c) (jc_n c) p keys = Some (datas, keys') -> good (jc_eval_walk c) p datas keys' /\ around_the_ions c (map pos datas).
  Proof.
    intros Hs. unfold make_new_data_for_eval. destruct Hw as (W1 & W2 & W3). destruct (get_first keys) as [k0|]; [|discriminate].
    pose proof (C75_initial_positions K g choice Hg Hc (jc_ion_pos c) (jc_ion_charges c) (jc_d c) (eq_sym W3) W1 W2 k0 (wc_nchains (jc_eval_walk c)) (jc_n c) 1) as [HL HF]. cbv zeta in HL, HF.
    destruct (initialize_molecular_pos _ _ _ _ _ _ _ _) as [k1 xs]. cbn [fst snd] in *. rewrite (make_initial_spec psi (model_apply theta c) (fun _ _ => eq_refl)) by exact Hnd.
    destruct (Nat.eqb_spec (length xs mod ndev) 0) as [E|E]; [|discriminate]. intros [= <- <-]. split.
    - rewrite <- HL. apply initial_inv; auto. apply Forall_forall. intros x Hx. rewrite Forall_forall in HF. destruct (HF x Hx) as (a & nz & A & _). exact (proj1 A).
    - unfold around_the_ions. rewrite map_map. cbn [pos]. rewrite map_id, chunks_concat; [exact HF|]. apply reshape_some; [exact Hnd|exact E].
  Qed.

  Lemma share_pos : (0 < wc_nchains (jc_walk c) / ndev)%nat.
  Proof.
    destruct fields as (p0 & data & keys & o & s0 & keys0 & _ & _ & _ & HM & _). pose proof (Nat.div_mod (wc_nchains (jc_walk c)) ndev ltac:(lia)) as E. rewrite HM in E.
    destruct (wc_nchains (jc_walk c) / ndev)%nat; lia.
  Qed.

  (** One epoch: where the walkers go, what is reported, what the optimiser sees. *)
  Lemma epoch o p0 s0 p s datas keys :
    choose_optimiser (jc_optimizer c) = Chosen o -> 
    j_walk j = (fun p => run_walker g (model_apply theta c) ndev (jc_walk c) (hd p0 p)) ->
    j_update j = (fun p dd s k => let '(p', dd', s', m, k') := job_update g perm_of split_n theta grad_p grad_px opt_apply kfac param_l1_norm c o (hd p0 p) dd (hd s0 s) k in (repeat p' ndev, dd', repeat s' ndev, m, k')) ->
    good (jc_walk c) p datas keys ->
    let x := (repeat p ndev, repeat s ndev, datas, keys) in
    exists walked keys1 e v en vn cs gr p' s',
      (exists a, j_walk j (repeat p ndev) datas keys = (a, walked, keys1)) /\
      good (jc_walk c) p walked keys1 /\
      (exists accs, length accs = wc_nsteps (jc_walk c) /\ metropolis psi p accs (map pos datas) (map pos walked) /\
         (wc_nsteps (jc_walk c) <> O -> no_nodes psi p -> mval (j_walk j) (j_update j) "accept_ratio" x = Fin (lmean accs))) /\
      eg p (energy_keys kfac o (map snd (map (split2 g) keys1))) (map pos walked) = Ok ({| ed_energy := e; ed_variance := v; ed_energy_noclip := Some en; ed_variance_noclip := Some vn; ed_centered := cs |}, gr) /\
      opt_step theta grad_p opt_apply kfac c o gr p s (map snd (map (split2 g) keys1)) walked cs = (p', s') /\
      mval (j_walk j) (j_update j) "energy" x = e /\ mval (j_walk j) (j_update j) "variance" x = v /\
      mval (j_walk j) (j_update j) "energy_noclip" x = en /\ mval (j_walk j) (j_update j) "variance_noclip" x = vn /\
      exists datas' keys', one_epoch (j_walk j) (j_update j) x = (repeat p' ndev, repeat s' ndev, datas', keys') /\ good (jc_walk c) p' datas' keys' /\ map pos datas' = map pos walked.
  Proof.
    intros Ho EW EU HG x. pose proof (walker_moves_n g psi (model_apply theta c) Hg (fun _ _ => eq_refl) (wc_nmoves (jc_walk c)) ndev (wc_nchains (jc_walk c) / ndev) nd Hnd share_pos (wc_nsteps (jc_walk c)) p datas keys HG) as HMV. pose proof (walker_inv g psi (model_apply theta c) Hg (fun _ _ => eq_refl) (wc_nmoves (jc_walk c)) ndev (wc_nchains (jc_walk c) / ndev) nd (wc_nsteps (jc_walk c)) p datas keys HG) as HW. cbv zeta in HW.
    unfold mval, metrics_at, one_epoch, x. rewrite EW, EU. cbv beta. rewrite !hd_repeat. unfold run_walker.
    destruct (walker_fn_pmapped _ _ _ _ _ _) as [[a walked] keys1] eqn:EWK. cbn [fst snd] in HW, HMV. rewrite !update_eq. cbv zeta. unfold energy_data_val_and_grad, positions_of.
    destruct (data_ok p (energy_keys kfac o (map snd (map (split2 g) keys1))) (map pos walked)) as (e & v & en & vn & cs & gr & ED). unfold energy_data_val_and_grad in ED. rewrite ED.
    destruct (always_ok p (energy_keys kfac o (map snd (map (split2 g) keys1))) (map pos walked)) as (r & Er). rewrite Er in ED. subst r. cbn [ed_centered ed_energy ed_variance ed_energy_noclip ed_variance_noclip].
    destruct (opt_step theta grad_p opt_apply kfac c o gr p s (map snd (map (split2 g) keys1)) walked cs) as [p' s'] eqn:EO.
    exists walked, keys1, e, v, en, vn, cs, gr, p', s'. split; [eexists; reflexivity|]. split; [exact HW|]. split.
    { destruct HMV as (accs & LA & MA & AA). exists accs. split; [exact LA|]. split; [exact MA|]. intros N0 NN. specialize (AA N0 NN). cbn [fst] in AA. unfold with_l1, with_noclip. destruct (jc_record_param_l1_norm c); exact AA. }
    split; [exact Er|]. split; [exact EO|].
    unfold with_l1, with_noclip. split; [destruct (jc_record_param_l1_norm c); reflexivity|]. split; [destruct (jc_record_param_l1_norm c); reflexivity|]. split; [destruct (jc_record_param_l1_norm c); reflexivity|].
    split; [destruct (jc_record_param_l1_norm c); reflexivity|]. eexists _, _. split; [reflexivity|]. split.
    - eapply update_inv; [reflexivity|exact HW|]. destruct HW as (_ & L & _). rewrite !map_length. exact L.
    - rewrite map_map. reflexivity.
  Qed.

  (** All epochs. *)
  Lemma epochs : exists o (params : nat -> P1) (opts : nat -> S1) (walkers : nat -> list (padata move_metadata)) (grads : nat -> nat -> xr) (centred : nat -> list (list xr)) (ds : nat -> list (padata move_metadata)) (ks subkeys : nat -> list K) (e v en vn : nat -> xr) initial,
    choose_optimiser (jc_optimizer c) = Chosen o /\ around_the_ions c initial /\ (exists accs, length accs = wc_nburn (jc_walk c) /\ metropolis psi (params O) accs initial (map pos (ds O))) /\
    (forall d, j_has_nan j (repeat d ndev) = has_nan d) /\
    forall i, state_after (j_walk j) (j_update j) i after_burn_in = (repeat (params i) ndev, repeat (opts i) ndev, ds i, ks i) /\ good (jc_walk c) (params i) (ds i) (ks i) /\
      good (jc_walk c) (params i) (walkers i) (energy_keys kfac o (subkeys i)) /\ (exists accs, length accs = wc_nsteps (jc_walk c) /\ metropolis psi (params i) accs (map pos (ds i)) (map pos (walkers i)) /\
         (wc_nsteps (jc_walk c) <> O -> no_nodes psi (params i) -> mval (j_walk j) (j_update j) "accept_ratio" (state_after (j_walk j) (j_update j) i after_burn_in) = Fin (lmean accs))) /\ length (subkeys i) = ndev /\
      eg (params i) (energy_keys kfac o (subkeys i)) (map pos (walkers i)) = Ok ({| ed_energy := e i; ed_variance := v i; ed_energy_noclip := Some (en i); ed_variance_noclip := Some (vn i); ed_centered := centred i |}, grads i) /\
      opt_step theta grad_p opt_apply kfac c o (grads i) (params i) (opts i) (subkeys i) (walkers i) (centred i) = (params (S i), opts (S i)) /\
      let x := state_after (j_walk j) (j_update j) i after_burn_in in
      mval (j_walk j) (j_update j) "energy" x = e i /\ mval (j_walk j) (j_update j) "variance" x = v i /\
      mval (j_walk j) (j_update j) "energy_noclip" x = en i /\ mval (j_walk j) (j_update j) "variance_noclip" x = vn i /\ map pos (ds (S i)) = map pos (walkers i).
  Proof.
    destruct fields as (p0 & data & keys & o & s0 & keys0 & ES & Ho & _ & _ & _ & _ & _ & _ & EI & EJ).
    assert (EW : j_walk j = (fun p => run_walker g (model_apply theta c) ndev (jc_walk c) (hd p0 p))) by (rewrite EJ; reflexivity).
    assert (EU : j_update j = (fun p dd s k => let '(p', dd', s', m, k') := job_update g perm_of split_n theta grad_p grad_px opt_apply kfac param_l1_norm c o (hd p0 p) dd (hd s0 s) k in (repeat p' ndev, dd', repeat s' ndev, m, k'))) by (rewrite EJ; reflexivity).
    assert (X0 : exists d0 k0, after_burn_in = (repeat p0 ndev, repeat s0 ndev, d0, k0) /\ good (jc_walk c) p0 d0 k0 /\ exists accs, length accs = wc_nburn (jc_walk c) /\ metropolis psi p0 accs (map pos data) (map pos d0)).
    { assert (GI : good (jc_walk c) p0 data keys0).
      { pose proof (setup_good p0 data keys ES) as ((GG & L & GR) & _). split; [exact GG|]. split; [|exact GR]. revert EI. unfold init_optimizer. destruct o; intros [= _ <-]; rewrite ?map_length; exact L. }
      unfold after_burn_in. rewrite EJ. cbn [j_init j_burn]. rewrite hd_repeat. unfold burn_in.
      pose proof (burn_inv g psi (model_apply theta c) Hg (fun _ _ => eq_refl) (wc_nmoves (jc_walk c)) ndev (wc_nchains (jc_walk c) / ndev) nd (wc_nburn (jc_walk c)) p0 data keys0 GI) as HB. cbv zeta in HB.
      pose proof (burn_moves g psi (model_apply theta c) Hg (fun _ _ => eq_refl) (wc_nmoves (jc_walk c)) ndev (wc_nchains (jc_walk c) / ndev) nd Hnd share_pos (wc_nburn (jc_walk c)) p0 data keys0 GI) as HBM.
      destruct (burn_data _ _ _ _ _) as [d1 k1]. exists d1, k1. split; [reflexivity|]. split; [exact HB|exact HBM]. }
    pose (st := fun i => state_after (j_walk j) (j_update j) i after_burn_in).
    assert (AT : forall i, exists p s d k, st i = (repeat p ndev, repeat s ndev, d, k) /\ good (jc_walk c) p d k).
    { induction i as [|i (p & s & d & k & E & G)].
      - destruct X0 as (d0 & k0 & E & G & _). exists p0, s0, d0, k0. split; [exact E|exact G].
      - destruct (epoch o p0 s0 p s d k Ho EW EU G) as (wk & k1 & e & v & en & vn & cs & gr & p' & s' & _ & _ & _ & _ & _ & _ & _ & _ & _ & d' & k' & E' & G' & _).
        exists p', s', d', k'. split; [|exact G']. change (st (Datatypes.S i)) with (one_epoch (j_walk j) (j_update j) (st i)). rewrite E. exact E'. }
    pose (par := fun i => match st i with (p, _, _, _) => hd p0 p end). pose (opt := fun i => match st i with (_, s, _, _) => hd s0 s end).
    pose (dat := fun i => match st i with (_, _, d, _) => d end). pose (key_ := fun i => match st i with (_, _, _, k) => k end).
    assert (AT' : forall i, st i = (repeat (par i) ndev, repeat (opt i) ndev, dat i, key_ i) /\ good (jc_walk c) (par i) (dat i) (key_ i)).
    { intros i. destruct (AT i) as (p & s & d & k & E & G). unfold par, opt, dat, key_. rewrite E, !hd_repeat. split; [reflexivity|exact G]. }
    pose (wk := fun i => match j_walk j (repeat (par i) ndev) (dat i) (key_ i) with (_, d, _) => d end).
    pose (sub := fun i => match j_walk j (repeat (par i) ndev) (dat i) (key_ i) with (_, _, k) => map snd (map (split2 g) k) end).
    pose (ed := fun i => match eg (par i) (energy_keys kfac o (sub i)) (map pos (wk i)) with Ok (d, _) => d | Err _ => {| ed_energy := NaN; ed_variance := NaN; ed_energy_noclip := None; ed_variance_noclip := None; ed_centered := [] |} end).
    pose (gd := fun i => match eg (par i) (energy_keys kfac o (sub i)) (map pos (wk i)) with Ok (_, gr) => gr | Err _ => fun _ => NaN end).
    exists o, par, opt, wk, gd, (fun i => ed_centered (ed i)), dat, key_, sub, (fun i => ed_energy (ed i)), (fun i => ed_variance (ed i)),
      (fun i => match ed_energy_noclip (ed i) with Some x => x | None => NaN end), (fun i => match ed_variance_noclip (ed i) with Some x => x | None => NaN end), (map pos data).
    split; [exact Ho|]. split; [apply (setup_good p0 data keys ES)|]. split.
    { destruct X0 as (d0 & k0 & E & _ & HBM). destruct (AT' O) as (E0 & _). assert (Est : st O = after_burn_in) by reflexivity. rewrite Est, E in E0. injection E0 as Ep _ Ed _. rewrite <- Ed.
      apply (f_equal (hd p0)) in Ep. rewrite !hd_repeat in Ep. rewrite <- Ep. exact HBM. }
    split. { intros q. rewrite EJ. cbn [j_has_nan]. rewrite hd_repeat. reflexivity. }
    intros i. destruct (AT' i) as (Ei & Gi). split; [exact Ei|]. split; [exact Gi|].
    destruct (epoch o p0 s0 (par i) (opt i) (dat i) (key_ i) Ho EW EU Gi) as (w & k1 & e & v & en & vn & cs & gr & p' & s' & (a & EWK) & G1 & GM & Q1 & Q2 & M1 & M2 & M3 & M4 & d' & k' & E' & G' & EPS).
    assert (Ew : wk i = w) by (unfold wk; rewrite EWK; reflexivity). assert (Es : sub i = map snd (map (split2 g) k1)) by (unfold sub; rewrite EWK; reflexivity).
    assert (Eeg : eg (par i) (energy_keys kfac o (sub i)) (map pos (wk i)) = Ok ({| ed_energy := e; ed_variance := v; ed_energy_noclip := Some en; ed_variance_noclip := Some vn; ed_centered := cs |}, gr)) by (rewrite Ew, Es; exact Q1).
    assert (Eed : ed i = {| ed_energy := e; ed_variance := v; ed_energy_noclip := Some en; ed_variance_noclip := Some vn; ed_centered := cs |}) by (unfold ed; rewrite Eeg; reflexivity).
    assert (Egd : gd i = gr) by (unfold gd; rewrite Eeg; reflexivity).
    rewrite Eed, Egd. cbn [ed_energy ed_variance ed_energy_noclip ed_variance_noclip ed_centered]. cbv zeta. fold (st i). rewrite Ei. rewrite <- Ew in GM.
    split; [rewrite Ew, Es; destruct G1 as (GG & L & GR); split; [exact GG|]; split; [unfold energy_keys; destruct o; rewrite !map_length; exact L|exact GR]|].
    split; [exact GM|]. split; [rewrite Es, !map_length; exact (proj1 (proj2 G1))|]. split; [exact Eeg|].
    assert (En : st (Datatypes.S i) = (repeat p' ndev, repeat s' ndev, d', k')) by (change (st (Datatypes.S i)) with (one_epoch (j_walk j) (j_update j) (st i)); rewrite Ei; exact E').
    split; [|split; [exact M1|]; split; [exact M2|]; split; [exact M3|]; split; [exact M4|]; rewrite Ew; unfold dat; rewrite En; exact EPS].
    rewrite Ew, Es. unfold par at 2, opt at 2. rewrite En, !hd_repeat. exact Q2.
  Qed.

  Lemma good_count cc p datas (keys : list K) : (0 < wc_nchains cc)%nat -> (wc_nchains cc mod ndev = 0)%nat -> good cc p datas keys ->
    evenly (map pos datas) /\ wc_nchains cc = length (all_walkers c datas) /\ well_shaped (jc_n c) (jc_d c) datas.
  Proof.
    intros Hn Hm (L & _ & HF & _). rewrite Forall_forall in HF.
    assert (HW' : (wc_nchains cc = ndev * (wc_nchains cc / ndev))%nat) by (rewrite (Nat.div_mod (wc_nchains cc) ndev) at 1; lia).
    split; [|split].
    - exists (wc_nchains cc / ndev)%nat. split; [destruct (wc_nchains cc / ndev)%nat; lia|]. split; [destruct datas; [cbn in L; lia|discriminate]|].
      intros q Hq. apply in_map_iff in Hq. destruct Hq as (dd & <- & Hd). apply (HF dd Hd).
    - unfold all_walkers. rewrite map_length. rewrite HW' at 1. revert HF. generalize (wc_nchains cc / ndev)%nat. intros w HF. rewrite <- L. clear -HF. induction datas as [|dd ds IH]; [reflexivity|].
      cbn [map concat length]. rewrite app_length, <- IH by (intros q Hq; apply HF; right; exact Hq). destruct (HF dd (or_introl eq_refl)) as (-> & _). lia.
    - apply Forall_forall. intros dd Hd. apply (HF dd Hd).
  Qed.

  Lemma least_xmin (L : list R) : L <> [] -> exists lo, fold_right xmin PInf (map Fin L) = Fin lo /\ is_least lo L.
  Proof.
    induction L as [|a L IH]; [congruence|]. intros _. destruct L as [|b L].
    - exists a. split; [reflexivity|]. split; [left; reflexivity|]. intros x [<-|[]]. lra.
    - destruct IH as (lo & E & I1 & I2); [discriminate|]. exists (Rmin a lo). cbn [map fold_right] in *. rewrite E. cbn [xmin]. split; [unfold xmin; cbn [isnan xltb]; destruct (Rltb lo a) eqn:EL; [apply Rltb_true in EL; rewrite Rmin_right by lra|apply Rltb_false in EL; rewrite Rmin_left by lra]; reflexivity|]. split.
      + unfold Rmin. destruct (Rle_dec a lo); [left; reflexivity|right; exact I1].
      + intros x [<-|Hx]; [apply Rmin_l|]. eapply Rle_trans; [apply Rmin_r|]. apply I2. exact Hx.
  Qed.
  Lemma greatest_xmax (L : list R) : L <> [] -> exists hi, fold_right xmax MInf (map Fin L) = Fin hi /\ is_greatest hi L.
  Proof.
    induction L as [|a L IH]; [congruence|]. intros _. destruct L as [|b L].
    - exists a. split; [reflexivity|]. split; [left; reflexivity|]. intros x [<-|[]]. lra.
    - destruct IH as (lo & E & I1 & I2); [discriminate|]. exists (Rmax a lo). cbn [map fold_right] in *. rewrite E. cbn [xmax]. split; [unfold xmax; cbn [isnan xltb]; destruct (Rltb a lo) eqn:EL; [apply Rltb_true in EL; rewrite Rmax_right by lra|apply Rltb_false in EL; rewrite Rmax_left by lra]; reflexivity|]. split.
      + unfold Rmax. destruct (Rle_dec a lo); [right; exact I1|left; reflexivity].
      + intros x [<-|Hx]; [apply Rmax_l|]. eapply Rle_trans; [|apply Rmax_r]. apply I2. exact Hx.
  Qed.

  Lemma trained : jc_logdir c <> None -> jc_checkpoint_every c <> Some O -> jc_best_checkpoint_every c <> Some O ->
    exists o (params : nat -> P1) (opts : nat -> S1) (starts : nat -> list (list (list R))) (walkers : nat -> list (padata move_metadata)) (grads : nat -> nat -> xr) (centred : nat -> list (list xr)) (subkeys : nat -> list K) r initial,
    choose_optimiser (jc_optimizer c) = Chosen o /\ (r <= jc_nepochs c)%nat /\
    around_the_ions c initial /\ (exists accs, length accs = wc_nburn (jc_walk c) /\ metropolis (log_psi_of_walker theta c) (params O) accs initial (starts O)) /\
    (exists d k nans cks ms, train j None = Finished (repeat (params r) ndev) (repeat (opts r) ndev) d k nans cks ms /\ map pos d = starts r) /\
    let out := run_molecule j None empty_logfiles in let l := files_of out in let line name i := nth_error (lines_of (lf_train l) name) i in
    let nan i := line "energy_noclip"%string i = Some NaN \/ line "variance_noclip"%string i = Some NaN \/ has_nan (params (S i)) = true in
    ((exists l', out = NansDetected l') <-> jc_check_for_nans c = true /\ exists i, r = S i /\ nan i) /\
    (jc_check_for_nans c = true -> forall i, (S i < r)%nat -> ~ nan i) /\ ((r < jc_nepochs c)%nat -> exists l', out = NansDetected l') /\
    match out with Completed p _ => p = repeat (params r) ndev | _ => True end /\
    (forall name, In name ["energy"; "variance"; "energy_noclip"; "variance_noclip"; "accept_ratio"]%string -> length (lines_of (lf_train l) name) = r) /\
    (forall w, In w (lf_ckpts l) -> let e := c_epoch (snd w) in (e < r)%nat /\ c_params (snd w) = repeat (params e) ndev /\ c_opt (snd w) = repeat (opts e) ndev /\ map pos (c_data (snd w)) = starts e) /\
    forall i, (i < r)%nat ->
      length (all_walkers c (walkers i)) = wc_nchains (jc_walk c) /\ well_shaped (electron_count c) (space_dim c) (walkers i) /\ starts (S i) = map pos (walkers i) /\
      (exists accs, length accs = wc_nsteps (jc_walk c) /\ metropolis (log_psi_of_walker theta c) (params i) accs (starts i) (map pos (walkers i)) /\
         (wc_nsteps (jc_walk c) <> O -> no_nodes (log_psi_of_walker theta c) (params i) -> line "accept_ratio"%string i = Some (Fin (lmean accs)))) /\
      (jc_record_amplitudes c = true -> forall L, map (log_psi_of_walker theta c (params (S i))) (concat (map pos (walkers i))) = map Fin L ->
         exists lo hi, line "amplitude_min"%string i = Some (Fin lo) /\ line "amplitude_max"%string i = Some (Fin hi) /\ is_least lo L /\ is_greatest hi L) /\
      match o with
      | Kfac _ _ => length (subkeys i) = ndev /\ kf_step kfac o (grads i) (params i) (opts i) (subkeys i) (map pos (walkers i)) = (params (S i), opts (S i))
      | _ => opt_apply o (grads i) (params i) (opts i) (walkers_gradients theta grad_p c (params i) (walkers i)) (centred i) = (params (S i), opts (S i))
      end /\
      forall f, ec_type (jc_energy c) = "standard"%string -> ordinary_walkers theta c (params i) f (walkers i) ->
      let E := walkers_energies c f (walkers i) in
      line "energy_noclip"%string i = Some (Fin (lmean E)) /\ line "variance_noclip"%string i = Some (Fin (lvar E)) /\
      exists Ec, clipped (ec_clip_threshold (jc_energy c)) (ec_clip_center (jc_energy c)) (device_energies c f (walkers i)) Ec /\
        line "energy"%string i = Some (Fin (lmean (concat Ec))) /\ line "variance"%string i = Some (Fin (lvar (concat Ec))) /\
        centred i = map (map (fun x => Fin (x - lmean (concat Ec)))) Ec /\
        forall q, grads i q = Fin (2 * lcov (concat Ec) (map (fun gr => gr q) (concat (walkers_gradients theta grad_p c (params i) (walkers i))))).
  Proof.
    intros HL HE HB. destruct (built_ok HL HE HB) as ((Hv & Hl & Hga & Hmc & Hd & Hs) & _).
    destruct epochs as (o & params & opts & walkers & grads & centred & ds & ks & subkeys & e & v & en & vn & initial & Ho & HI0 & HI1 & HNN & HEp).
    destruct (logdir (j_cfg j)) as [ld|] eqn:El; [|congruence].
    destruct fields as (p0 & data & keys & o' & s0 & keys0 & ES & Ho' & _ & HM & HM1 & _ & _ & _ & _ & EJ).
    destruct (j_init j) as [[[pi oi] di] ki] eqn:EI. 
    assert (EX : after_burn_in = (pi, oi, fst (j_burn j pi di ki), snd (j_burn j pi di ki))) by (unfold after_burn_in; rewrite EI; destruct (j_burn j pi di ki); reflexivity).
    assert (ET : train j None = vmc_loop (j_walk j) (j_update j) (j_has_nan j) (j_cfg j) 0 (j_nepochs j) pi oi (fst (j_burn j pi di ki)) (snd (j_burn j pi di ki))).
    { unfold train, start_state. rewrite EI. cbn [skip_burn]. destruct (j_burn j pi di ki); reflexivity. }
    destruct (one_line_per_epoch _ _ _ _ (j_walk j) (j_update j) (j_has_nan j) (j_cfg j) ld 0 (j_nepochs j) pi oi (fst (j_burn j pi di ki)) (snd (j_burn j pi di ki)) Hv Hmc Hd El)
      as (r & b & p' & o1 & d' & k' & ckpts & metrics & EV & HR & _ & HLn).
    destruct (run_description _ _ _ _ (j_walk j) (j_update j) (j_has_nan j) (j_cfg j) ld 0 (j_nepochs j) pi oi (fst (j_burn j pi di ki)) (snd (j_burn j pi di ki)) Hv Hmc El)
      as (r1 & b1 & ck1 & m1 & p1 & o2 & d1 & k1 & HR1 & HX & EV1 & _).
    destruct (all_writes_are_states _ _ _ _ (j_walk j) (j_update j) (j_has_nan j) (j_cfg j) ld 0 (j_nepochs j) pi oi (fst (j_burn j pi di ki)) (snd (j_burn j pi di ki)) Hv Hmc El)
      as (r2 & b2 & p2 & o3 & d2 & k2 & ck2 & m2 & EV2 & HR2 & HC).
    assert (EA : get_amplitude_fn (j_cfg j) = Some amplitude_range) by (rewrite EJ; reflexivity).
    assert (ERA : record_amplitudes (j_cfg j) = jc_record_amplitudes c) by (rewrite EJ; reflexivity).
    pose proof (fun Z => C03_amplitude_lines _ _ _ _ (j_walk j) (j_update j) (j_has_nan j) (j_cfg j) ld 0 (j_nepochs j) pi oi (fst (j_burn j pi di ki)) (snd (j_burn j pi di ki)) amplitude_range Hv Hmc Hd El Z EA) as HAM.
    rewrite EV in EV1, EV2. injection EV1 as <- <- <- <- <- <- <-. injection EV2 as <- <- <- <- <- <- <-.
    destruct (RunsFor_unique _ _ _ _ _ _ HR HR1) as [<- _]. destruct (RunsFor_unique _ _ _ _ _ _ HR HR2) as [<- _]. clear HR1 HR2.
    cbv zeta in HAM. rewrite <- EX in *. rewrite Nat.sub_0_r in *.
    assert (HREC : recorded (j_walk j) (j_update j) after_burn_in r = seq 0 r).
    { unfold recorded. apply filter_all. intros i _. unfold has_metrics, metrics_at. destruct (state_after _ _ i _) as [[[pp oo] dd] kk]. destruct (j_walk j pp dd kk) as [[a dd1] kk1].
      specialize (Hs pp dd1 oo kk1). destruct (j_update j pp dd1 oo kk1) as [[[[? ?] ?] [?|]] ?]; [reflexivity|exfalso; apply Hs; reflexivity]. }
    assert (HAL : jc_record_amplitudes c = true ->
      lines_of (write_all_metrics [] metrics) "amplitude_min" = map (fun i => fst (amplitude_range (ds (S i)))) (seq 0 r) /\
      lines_of (write_all_metrics [] metrics) "amplitude_max" = map (fun i => snd (amplitude_range (ds (S i)))) (seq 0 r)).
    { intros Z. destruct (HAM (eq_trans ERA Z)) as (r3 & b3 & p3 & o4 & d3 & k3 & ck3 & m3 & EV3 & HR3 & HA3). rewrite EV in EV3. injection EV3 as <- <- <- <- <- <- <-.
      destruct (RunsFor_unique _ _ _ _ _ _ HR HR3) as [<- _]. destruct (HA3 []) as (A1 & A2). rewrite A1, A2, HREC. cbn [lines_of dir_get app].
      split; apply map_ext_in; intros i _; destruct (HEp (S i)) as (E & _); rewrite Nat.add_1_r, E; reflexivity. }
    clear HAM.
    assert (Enep : j_nepochs j = jc_nepochs c) by (rewrite EJ; reflexivity). assert (Enan : check_for_nans (j_cfg j) = jc_check_for_nans c) by (rewrite EJ; reflexivity).
    rewrite Enep in *. rewrite Enan in HR.
    exists o, params, opts, (fun i => map pos (ds i)), walkers, grads, centred, subkeys, r, initial. split; [exact Ho|].
    assert (Hr : (r <= jc_nepochs c)%nat) by (destruct HR as [(_ & -> & _)|(_ & i & -> & ? & _)]; lia). split; [exact Hr|].
    split; [exact HI0|]. split; [exact HI1|].
    split. { destruct (HEp r) as (E & _). rewrite HX in E. injection E as -> -> -> ->. exists (ds r), (ks r), b, ckpts, metrics. split; [rewrite ET; exact EV|reflexivity]. }
    assert (HF : lf_train (files_of (run_molecule j None empty_logfiles)) = write_all_metrics [] metrics /\ lf_ckpts (files_of (run_molecule j None empty_logfiles)) = ckpts /\
      match run_molecule j None empty_logfiles with Completed q _ => q = p' | _ => True end /\ ((exists l', run_molecule j None empty_logfiles = NansDetected l') <-> b = true)).
    { unfold run_molecule. rewrite ET, EV. cbn [start_files empty_logfiles lf_train lf_ckpts app]. destruct b; [split; [reflexivity|]; split; [reflexivity|]; split; [exact Logic.I|]; split; [reflexivity|intros _; eexists; reflexivity]|].
      rewrite evaluate_spec by exact Hga. cbn zeta. destruct (_ && _); [destruct (load_rows _)|]; (split; [reflexivity|]; split; [reflexivity|]; split; [first [exact Logic.I | reflexivity]|]; split; [intros (l' & Z); discriminate|discriminate]). }
    destruct HF as (HF1 & HF2 & HF3 & HF4). cbv zeta. rewrite HF1, HF2.
    assert (HLN : forall name, In name ["energy"; "variance"; "energy_noclip"; "variance_noclip"; "accept_ratio"]%string ->
      lines_of (write_all_metrics [] metrics) name = map (fun i => mval (j_walk j) (j_update j) name (state_after (j_walk j) (j_update j) i after_burn_in)) (seq 0 r)).
    { intros name Hin. rewrite HLn.
      - cbn [lines_of]. rewrite HREC. reflexivity.
      - intros ->. cbn in Hin. intuition discriminate.
      - intros ->. cbn in Hin. intuition discriminate.
      - intros i m _. unfold metrics_at. destruct (state_after _ _ i _) as [[[pp oo] dd] kk]. destruct (j_walk j pp dd kk) as [[a dd1] kk1].
        specialize (Hmc pp dd1 oo kk1). destruct (j_update j pp dd1 oo kk1) as [[[[? ?] ?] [mm|]] ?]; [|discriminate]. intros [= <-]. destruct (Hmc mm eq_refl) as ((x1 & G1) & (x2 & G2) & (x3 & G3) & (x4 & G4)).
        cbn in Hin. destruct Hin as [<-|[<-|[<-|[<-|[<-|[]]]]]]; [rewrite dget_dset_other by discriminate; congruence..|rewrite dget_dset_same; discriminate]. }
    assert (NTH : forall name i, (i < r)%nat -> In name ["energy"; "variance"; "energy_noclip"; "variance_noclip"; "accept_ratio"]%string ->
      nth_error (lines_of (write_all_metrics [] metrics) name) i = Some (mval (j_walk j) (j_update j) name (state_after (j_walk j) (j_update j) i after_burn_in))).
    { intros name i Hi Hin. rewrite HLN by exact Hin. rewrite nth_error_map, (nth_error_nth' _ O) by (rewrite seq_length; exact Hi). rewrite seq_nth by exact Hi. reflexivity. }
    assert (HNAN : forall i, (i < r)%nat -> nan_epoch (j_walk j) (j_update j) (j_has_nan j) (state_after (j_walk j) (j_update j) i after_burn_in) = true <->
      (nth_error (lines_of (write_all_metrics [] metrics) "energy_noclip") i = Some NaN \/ nth_error (lines_of (write_all_metrics [] metrics) "variance_noclip") i = Some NaN \/ has_nan (params (S i)) = true)).
    { intros i Hi. rewrite !NTH by (try exact Hi; cbn; tauto). unfold nan_epoch. assert (EH : has_metrics (j_walk j) (j_update j) (state_after (j_walk j) (j_update j) i after_burn_in) = true).
      { assert (Z : In i (recorded (j_walk j) (j_update j) after_burn_in r)) by (rewrite HREC; apply in_seq; lia). apply filter_In in Z. apply Z. }
      rewrite EH. change (one_epoch (j_walk j) (j_update j) (state_after (j_walk j) (j_update j) i after_burn_in)) with (state_after (j_walk j) (j_update j) (S i) after_burn_in).
      destruct (HEp (S i)) as (-> & _). rewrite HNN, andb_true_l, !orb_true_iff.
      assert (EN : forall x, isnan x = true <-> Some x = Some NaN) by (intros [| | |]; cbn; split; congruence). rewrite !EN. tauto. }
    split. { rewrite HF4. destruct HR as [(-> & -> & HR)|(-> & i & -> & Hi & HR & _)].
      - split; [discriminate|]. intros (Hcn & i & Ei & Hn). specialize (HR i ltac:(lia)). rewrite Hcn in HR. apply (HNAN i ltac:(lia)) in Hn. cbn [andb] in HR. rewrite Hn in HR. discriminate.
      - split; [|reflexivity]. intros _. apply andb_true_iff in HR. destruct HR as (Hcn & HR). split; [exact Hcn|]. exists i. split; [lia|]. apply HNAN; [lia|exact HR]. }
    split. { intros Hcn i Hi Hn. apply (HNAN i ltac:(lia)) in Hn. rewrite Hcn in HR. cbn [andb] in HR. destruct HR as [(_ & -> & HR)|(_ & i' & -> & _ & _ & HR)]; rewrite HR in Hn by lia; discriminate. }
    split. { intros Hlt. apply HF4. destruct HR as [(_ & -> & _)|(-> & _)]; [lia|reflexivity]. }
    split. { destruct (run_molecule j None empty_logfiles) as [l|l|q l]; [exact Logic.I|exact Logic.I|]. rewrite HF3. destruct (HEp r) as (E & _). rewrite HX in E. injection E as -> _ _ _. reflexivity. }
    split. { intros name Hin. rewrite HLN by exact Hin. rewrite map_length, seq_length. reflexivity. }
    split. { intros w Hw'. destruct (HC w Hw') as (i & Hi & E). destruct (HEp i) as (Ei & _). rewrite Ei in E. rewrite E. cbn [ckpt_of c_epoch c_params c_opt c_data Nat.add]. split; [exact Hi|]. split; [reflexivity|]. split; reflexivity. }
    intros i Hi. destruct (HEp i) as (Ei & _ & Gi & HAC & Lki & Egi & Eoi & M1 & M2 & M3 & M4 & EP). destruct (good_count _ _ _ _ Hch HM Gi) as (V1 & V2 & V3).
    split; [symmetry; exact V2|]. split; [exact V3|]. split; [exact EP|].
    split. { destruct HAC as (accs & LA & MA & AA). exists accs. split; [exact LA|]. split; [exact MA|]. intros N0 NN. rewrite NTH by (try exact Hi; cbn; tauto). f_equal. apply AA; [exact N0|exact NN]. }
    split. { intros HRA L HLL. destruct (HAL HRA) as (A1 & A2). rewrite A1, A2, !nth_error_map, (nth_error_nth' _ O) by (rewrite seq_length; exact Hi). rewrite seq_nth by exact Hi. cbn [option_map Nat.add].
      assert (EAM : concat (map M_mcmc.amp (ds (S i))) = map Fin L).
      { destruct (HEp (S i)) as (_ & (_ & _ & HFo & _) & _). rewrite <- HLL, <- EP, concat_map, map_map. f_equal. apply map_ext_in. intros dd Hdd. rewrite Forall_forall in HFo. destruct (HFo dd Hdd) as (_ & _ & HCo). exact HCo. }
      assert (HLn0 : L <> []). { intros ->. apply (f_equal (@length _)) in HLL. rewrite !map_length in HLL. unfold all_walkers in V2. rewrite map_length in V2. rewrite HLL in V2. cbn in V2. lia. }
      unfold amplitude_range. rewrite EAM. cbn [fst snd]. destruct (least_xmin L HLn0) as (lo & -> & Hlo). destruct (greatest_xmax L HLn0) as (hi & -> & Hhi). exists lo, hi. repeat (split; [reflexivity|]). split; assumption. }
    split; [unfold opt_step in Eoi; destruct o; [split; [exact Lki|exact Eoi]|exact Eoi..]|]. intros f HT (Hf & Hord).
    destruct (eg_standard (params i) (energy_keys kfac o (subkeys i)) (walkers i) f HT V1 V2 ltac:(lia) Hf Hord) as (cl & gr & QC & Q1 & Q2). rewrite Egi in Q1. injection Q1 as Q11 Q12 Q13 Q14 Q15 Q16.
    rewrite !NTH by (try exact Hi; cbn; tauto). cbv zeta in M1, M2, M3, M4. rewrite M1, M2, M3, M4.
    split; [rewrite Q13; reflexivity|]. split; [rewrite Q14; reflexivity|]. exists cl. split; [exact QC|].
    split; [rewrite Q11; reflexivity|]. split; [rewrite Q12; reflexivity|]. split; [exact Q15|]. intros q. rewrite Q16, Q2. f_equal. f_equal. f_equal.
    unfold all_walkers, walkers_gradients. rewrite map_map, <- (map_map pos (map (fun x => grad_p (fun p'0 => finite_part (log_psi_at theta c p'0 (positions_at (jc_d c) x))) (params i)))), <- concat_map, map_map. reflexivity.
  Qed.

  Lemma eval_good p datas (keys : list K) n : good (jc_eval_walk c) p datas keys ->
    good (jc_eval_walk c) p (fst (walk_only (fun p => run_walker g (model_apply theta c) ndev (jc_eval_walk c) p) n p datas keys))
      (snd (walk_only (fun p => run_walker g (model_apply theta c) ndev (jc_eval_walk c) p) n p datas keys)).
  Proof.
    revert datas keys. induction n as [|n IH]; intros datas keys H; [exact H|]. cbn [walk_only].
    pose proof (walker_inv g psi (model_apply theta c) Hg (fun _ _ => eq_refl) (wc_nmoves (jc_eval_walk c)) ndev (wc_nchains (jc_eval_walk c) / ndev) nd (wc_nsteps (jc_eval_walk c)) p datas keys H) as H1. cbv zeta in H1.
    unfold run_walker in *. destruct (walker_fn_pmapped _ _ _ _ _ _) as [[a d1] k1]. apply IH. exact H1.
  Qed.
  Notation eval_walk := (fun p => run_walker g (model_apply theta c) ndev (jc_eval_walk c) p).
  Lemma walked_once p datas (keys : list K) : (0 < wc_nchains (jc_eval_walk c) / ndev)%nat -> good (jc_eval_walk c) p datas keys ->
    exists accs, length accs = wc_nsteps (jc_eval_walk c) /\ metropolis psi p accs (map pos datas) (map pos (snd (fst (run_walker g (model_apply theta c) ndev (jc_eval_walk c) p datas keys)))) /\
      (wc_nsteps (jc_eval_walk c) <> O -> no_nodes psi p -> fst (fst (run_walker g (model_apply theta c) ndev (jc_eval_walk c) p datas keys)) = Fin (lmean accs)).
  Proof. intros Hs H. exact (walker_moves_n g psi (model_apply theta c) Hg (fun _ _ => eq_refl) (wc_nmoves (jc_eval_walk c)) ndev (wc_nchains (jc_eval_walk c) / ndev) nd Hnd Hs (wc_nsteps (jc_eval_walk c)) p datas keys H). Qed.
  Lemma walk_only_last n p datas (keys : list K) : fst (walk_only eval_walk (Datatypes.S n) p datas keys) =
    snd (fst (run_walker g (model_apply theta c) ndev (jc_eval_walk c) p (fst (walk_only eval_walk n p datas keys)) (snd (walk_only eval_walk n p datas keys)))).
  Proof.
    revert datas keys. induction n as [|n IH]; intros datas keys.
    - cbn [walk_only fst snd]. destruct (run_walker g (model_apply theta c) ndev (jc_eval_walk c) p datas keys) as [[a d1] k1]. reflexivity.
    - cbn [walk_only] in IH |- *. destruct (run_walker g (model_apply theta c) ndev (jc_eval_walk c) p datas keys) as [[a d1] k1]. apply IH.
  Qed.
  Lemma stats_of_rows E : (length E mod ndev = 0)%nat -> length E = wc_nchains (jc_eval_walk c) -> (2 <= length E)%nat -> eval_statistics ndev c (map Fin E) = (Fin (lmean E), Fin (lvar E)).
  Proof.
    intros HM HL H2. unfold eval_statistics, reshape_data_leaves_for_distribution. rewrite map_length, HM. cbn [Nat.eqb].
    pose proof (reshape_some ndev E Hnd HM) as HS.
    assert (EC : forall A B (h : A -> B) s n (l : list A), chunks s n (map h l) = map (map h) (chunks s n l)).
    { intros A B h s n. induction n as [|n IH]; intros l; [reflexivity|]. cbn [chunks map]. rewrite firstn_map, skipn_map, IH. reflexivity. }
    rewrite EC, stats_fin.
    - rewrite chunks_concat by exact HS. reflexivity.
    - exists (length E / ndev)%nat. split; [destruct (length E / ndev)%nat; lia|]. split; [intros Z; pose proof (chunks_length (length E / ndev) ndev E) as Z'; rewrite Z in Z'; cbn in Z'; lia|].
      apply chunks_sizes. exact HS.
    - rewrite chunks_concat by exact HS. symmetry. exact HL.
    - rewrite <- HL. exact H2.
  Qed.

  Lemma evaluated : jc_logdir c <> None -> jc_checkpoint_every c <> Some O -> jc_best_checkpoint_every c <> Some O ->
    0 < wc_std (jc_eval_walk c) -> (2 <= wc_nchains (jc_eval_walk c))%nat -> jc_eval_record_local_energies c = true -> (2 <= jc_eval_nepochs c)%nat ->
    (forall l, run_molecule j None empty_logfiles <> NansDetected l) ->
    exists p (starts : nat -> list (list (list R))) (walkers : nat -> list (padata move_metadata)) l initial,
    run_molecule j None empty_logfiles = Completed (repeat p ndev) l /\
    (exists accs, length accs = wc_nburn (jc_eval_walk c) /\ metropolis (log_psi_of_walker theta c) p accs initial (starts O)) /\
    (jc_eval_use_training_data c = false \/ wc_nchains (jc_walk c) <> wc_nchains (jc_eval_walk c) -> around_the_ions c initial) /\
    (jc_eval_use_training_data c = true -> wc_nchains (jc_walk c) = wc_nchains (jc_eval_walk c) ->
       exists o d k cks ms, train j None = Finished (repeat p ndev) o d k false cks ms /\ initial = map pos d) /\
    length (lf_rows l) = jc_eval_nepochs c /\ lf_stats l = [summary (lf_rows l)] /\
    length (lines_of (lf_eval l) "energy") = jc_eval_nepochs c /\ length (lines_of (lf_eval l) "variance") = jc_eval_nepochs c /\
    forall i, (i < jc_eval_nepochs c)%nat ->
      length (all_walkers c (walkers i)) = wc_nchains (jc_eval_walk c) /\ well_shaped (electron_count c) (space_dim c) (walkers i) /\ starts (S i) = map pos (walkers i) /\
      (exists accs, length accs = wc_nsteps (jc_eval_walk c) /\ metropolis (log_psi_of_walker theta c) p accs (starts i) (map pos (walkers i))) /\
      forall f, ec_type (jc_eval_energy c) = "standard"%string -> ordinary_walkers theta c p f (walkers i) ->
      let E := walkers_energies c f (walkers i) in
      nth_error (lf_rows l) i = Some (map Fin E) /\
      nth_error (lines_of (lf_eval l) "energy") i = Some (Fin (lmean E)) /\ nth_error (lines_of (lf_eval l) "variance") i = Some (Fin (lvar E)).
  Proof.
    intros HL HE HB Hes He2 Her Hen Hnn. destruct (built_ok HL HE HB) as (Hok & _). pose proof Hok as (Hv & Hl & Hga & Hmc & Hd & Hs).
    destruct epochs as (o & params & opts & walkers & grads & centred & ds & ks & subkeys & e & v & en & vn & initial & Ho & HI0 & HI1 & _ & HEp).
    destruct (logdir (j_cfg j)) as [ld|] eqn:El; [|congruence].
    destruct fields as (p0 & data & keys & o' & s0 & keys0 & ES & Ho' & _ & HM & HM1 & _ & _ & HM2 & _ & EJ).
    destruct (j_init j) as [[[pi oi] di] ki] eqn:EI. 
    assert (EX : after_burn_in = (pi, oi, fst (j_burn j pi di ki), snd (j_burn j pi di ki))) by (unfold after_burn_in; rewrite EI; destruct (j_burn j pi di ki); reflexivity).
    assert (ET : train j None = vmc_loop (j_walk j) (j_update j) (j_has_nan j) (j_cfg j) 0 (j_nepochs j) pi oi (fst (j_burn j pi di ki)) (snd (j_burn j pi di ki))).
    { unfold train, start_state. rewrite EI. cbn [skip_burn]. destruct (j_burn j pi di ki); reflexivity. }
    destruct (run_description _ _ _ _ (j_walk j) (j_update j) (j_has_nan j) (j_cfg j) ld 0 (j_nepochs j) pi oi (fst (j_burn j pi di ki)) (snd (j_burn j pi di ki)) Hv Hmc El)
      as (r & b & ck1 & m1 & p1 & o2 & d1 & k1 & HR1 & HX & EV1 & _).
    rewrite <- EX in *. destruct (HEp r) as (Er & Gr & _). rewrite HX in Er. injection Er as -> -> -> ->. rewrite EV1 in ET.
    destruct b. { exfalso. eapply Hnn. unfold run_molecule. rewrite ET. reflexivity. }
    set (pr := params r) in *.
    assert (HS : exists d0 k0, eval_start j (repeat pr ndev) (ds r) (ks r) = (d0, k0) /\ good (jc_eval_walk c) pr d0 k0 /\ (wc_nchains (jc_eval_walk c) mod ndev = 0)%nat /\
      (new_eval_walkers c = true -> around_the_ions c (map pos d0)) /\ (new_eval_walkers c = false -> d0 = ds r)).
    { unfold eval_start. rewrite EJ. cbn [j_use_training_data j_cfg loop_cfg nchains j_eval_nchains j_new_data]. rewrite hd_repeat. fold (new_eval_walkers c).
      destruct (new_eval_walkers c) eqn:EN.
      - specialize (HM2 eq_refl). destruct (make_new_data_for_eval _ _ _ _ _ _ _ _ _ _ _) as [[d0 k0]|] eqn:EM.
        + destruct (new_good pr (ks r) d0 k0 Hes EM) as (NG & NA). exists d0, k0. split; [reflexivity|]. split; [exact NG|]. split; [exact HM2|]. split; [intros _; exact NA|discriminate].
        + exfalso. revert EM. unfold make_new_data_for_eval. destruct Gr as (_ & LK & _). destruct (ks r) as [|k0 kr]; [cbn in LK; lia|]. cbn [get_first hd_error]. destruct Hw as (W1 & W2 & W3).
          pose proof (C75_initial_positions K g choice Hg Hc (jc_ion_pos c) (jc_ion_charges c) (jc_d c) (eq_sym W3) W1 W2 k0 (wc_nchains (jc_eval_walk c)) (jc_n c) 1) as [HL' _]. cbv zeta in HL'.
          destruct (initialize_molecular_pos _ _ _ _ _ _ _ _) as [k2 xs]. cbn [fst snd] in HL'. rewrite (make_initial_spec psi (model_apply theta c) (fun _ _ => eq_refl)) by exact Hnd. rewrite HL', HM2. discriminate.
      - exists (ds r), (ks r). split; [reflexivity|]. assert (EQ : wc_nchains (jc_walk c) = wc_nchains (jc_eval_walk c)).
        { unfold new_eval_walkers in EN. apply orb_false_iff in EN. destruct EN as (_ & EN). apply negb_false_iff in EN. apply Nat.eqb_eq. exact EN. }
        rewrite <- EQ. split; [exact Gr|]. split; [exact HM|]. split; [discriminate|reflexivity]. }
    destruct HS as (d0 & k0 & Es & G0 & HM3 & HA1 & HA2).
    pose (d2 := fst (j_eval_burn j (repeat pr ndev) d0 k0)). pose (k2 := snd (j_eval_burn j (repeat pr ndev) d0 k0)).
    assert (G2 : good (jc_eval_walk c) pr d2 k2).
    { unfold d2, k2. rewrite EJ. cbn [j_eval_burn]. rewrite hd_repeat. unfold burn_in.
      exact (burn_inv g psi (model_apply theta c) Hg (fun _ _ => eq_refl) (wc_nmoves (jc_eval_walk c)) ndev (wc_nchains (jc_eval_walk c) / ndev) nd (wc_nburn (jc_eval_walk c)) pr d0 k0 G0). }
    assert (HSP : (0 < wc_nchains (jc_eval_walk c) / ndev)%nat).
    { pose proof (Nat.div_mod (wc_nchains (jc_eval_walk c)) ndev ltac:(lia)) as E0. rewrite HM3 in E0. destruct (wc_nchains (jc_eval_walk c) / ndev)%nat; lia. }
    assert (M2 : exists accs, length accs = wc_nburn (jc_eval_walk c) /\ metropolis psi pr accs (map pos d0) (map pos d2)).
    { unfold d2. rewrite EJ. cbn [j_eval_burn]. rewrite hd_repeat. unfold burn_in.
      exact (burn_moves g psi (model_apply theta c) Hg (fun _ _ => eq_refl) (wc_nmoves (jc_eval_walk c)) ndev (wc_nchains (jc_eval_walk c) / ndev) nd Hnd HSP (wc_nburn (jc_eval_walk c)) pr d0 k0 G0). }
    pose (wk := fun i => eval_walkers j (repeat pr ndev) (ds r) (ks r) i).
    assert (Ewk : forall i, wk i = fst (walk_only (fun p => run_walker g (model_apply theta c) ndev (jc_eval_walk c) p) (i + 1) pr d2 k2)).
    { intros i. unfold wk, eval_walkers. rewrite eval_start_spec, Es. rewrite (surjective_pairing (j_eval_burn j (repeat pr ndev) d0 k0)). fold d2 k2.
      generalize (i + 1)%nat as n. generalize d2, k2. intros d3 k3 n. rewrite EJ. cbn [j_eval_walk]. revert d3 k3. induction n as [|n IH]; intros d3 k3; [reflexivity|]. cbn [walk_only]. rewrite hd_repeat.
      destruct (run_walker g (model_apply theta c) ndev (jc_eval_walk c) pr d3 k3) as [[a d4] k4]. apply IH. }
    assert (Gw : forall i, evenly (map pos (wk i)) /\ wc_nchains (jc_eval_walk c) = length (all_walkers c (wk i)) /\ well_shaped (jc_n c) (jc_d c) (wk i)).
    { intros i. rewrite Ewk. eapply good_count; [lia|exact HM3|]. apply eval_good. exact G2. }
    assert (ELE : forall i, j_local_energies j (repeat pr ndev) (wk i) = map (fun y => local_energy_at perm_of theta c (jc_eval_energy c) pr y None) (all_walkers c (wk i))).
    { intros i. rewrite EJ. cbn [j_local_energies]. rewrite hd_repeat. unfold eval_local_energies, all_walkers. rewrite map_map, concat_map, map_map. reflexivity. }
    assert (EN : j_eval_nepochs j = jc_eval_nepochs c) by (rewrite EJ; reflexivity).
    assert (ESt : j_statistics j = eval_statistics ndev c) by (rewrite EJ; reflexivity).
    assert (ESm : j_summary j = summary) by (rewrite EJ; reflexivity).
    destruct (evaluated_job j None empty_logfiles (repeat pr ndev) (repeat (opts r) ndev) (ds r) (ks r) ck1 m1 (wc_nchains (jc_eval_walk c)) Hok ET) as (l & R0 & R1 & R2 & _ & R4 & R5).
    { rewrite EJ. exact Her. } { exact He2. }
    { cbn [empty_logfiles lf_rows app]. apply Forall_forall. intros q Hq. unfold eval_samples in Hq. apply in_map_iff in Hq. destruct Hq as (i & <- & _). fold (wk i). rewrite ELE, map_length. symmetry. apply Gw. }
    { cbn. rewrite EN. exact Hen. }
    cbn [empty_logfiles lf_rows lf_stats lf_eval lines_of app] in R1, R2, R4, R5. rewrite <- R1 in R2, R4, R5.
    assert (HLr : length (lf_rows l) = jc_eval_nepochs c) by (rewrite R1; unfold eval_samples; rewrite map_length, seq_length; exact EN).
    exists pr, (fun i => map pos (fst (walk_only eval_walk i pr d2 k2))), wk, l, (map pos d0). split; [exact R0|].
    split; [exact M2|].
    split. { intros Hor. apply HA1. unfold new_eval_walkers. destruct Hor as [-> |Hor]; [reflexivity|]. apply orb_true_iff. right. apply negb_true_iff. apply Nat.eqb_neq. exact Hor. }
    split. { intros Hu He. exists (repeat (opts r) ndev), (ds r), (ks r), ck1, m1. split; [exact ET|]. f_equal. apply HA2. unfold new_eval_walkers. rewrite Hu, He, Nat.eqb_refl. reflexivity. }
    split; [exact HLr|]. split; [rewrite R2, ESm; reflexivity|].
    assert (R4' : lines_of (lf_eval l) "energy" = map (fun r => fst (j_statistics j r)) (lf_rows l)) by exact R4.
    assert (R5' : lines_of (lf_eval l) "variance" = map (fun r => snd (j_statistics j r)) (lf_rows l)) by exact R5.
    split; [rewrite R4', map_length; exact HLr|]. split; [rewrite R5', map_length; exact HLr|].
    intros i Hi. destruct (Gw i) as (V1 & V2 & V3). split; [symmetry; exact V2|]. split; [exact V3|]. split; [rewrite Ewk, Nat.add_1_r; reflexivity|].
    split. { destruct (walked_once pr _ _ HSP (eval_good pr d2 k2 i G2)) as (accs & LA & MA & _). exists accs. split; [exact LA|]. rewrite Ewk, Nat.add_1_r, walk_only_last. exact MA. }
    intros f HT (Hf & Hord). cbv zeta.
    assert (HROW : nth_error (lf_rows l) i = Some (map Fin (walkers_energies c f (wk i)))).
    { rewrite R1. unfold eval_samples. rewrite nth_error_map, EN, (nth_error_nth' _ O) by (rewrite seq_length; exact Hi). rewrite seq_nth by exact Hi. cbn [option_map Nat.add]. fold (wk i). f_equal.
      rewrite ELE, energies_all, map_map. apply map_ext_in. intros y Hy. apply standard_at; [exact HT|exact Hf|]. apply Hord. exact Hy. }
    assert (HLE : length (walkers_energies c f (wk i)) = wc_nchains (jc_eval_walk c)) by (rewrite energies_all, map_length; symmetry; exact V2).
    split; [exact HROW|]. rewrite R4', R5', !nth_error_map, HROW. cbn [option_map]. rewrite ESt, stats_of_rows; [split; reflexivity| | |]; rewrite ?HLE; auto.
  Qed.
End Built.

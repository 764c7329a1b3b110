(** * Which configurations give a job that runs *)
From Coq Require Import String Reals List Arith Bool Lia Lra.
From Verif Require Import XReal M_io M_vmc M_mcmc M_distribute M_energy M_physics M_setup M_slog M_models M_construct M_dispatch M_optim M_optax M_run M_start M_job
  S_models S_mcmc S_start S_optax S_job P_mcmc P_distribute P_start P_setup T_optax T_setup T_start P_job.
Import ListNotations.
Local Open Scope R_scope.

Lemma mapM_none_iff {A B} (f : A -> option B) l : mapM f l = None <-> exists a, In a l /\ f a = None.
Proof.
  induction l as [|a l IH]; [split; [discriminate|intros (? & [] & _)]|]. cbn [mapM]. destruct (f a) as [b|] eqn:E.
  - destruct (mapM f l) as [bs|] eqn:El.
    + split; [discriminate|]. intros (a' & [->|Hin] & Ha); [congruence|]. assert (Z : Some bs = None) by (apply (proj2 IH); eauto). discriminate Z.
    + split; [|auto]. intros _. destruct (proj1 IH eq_refl) as (a' & Hin & Ha). exists a'. split; [right; exact Hin|exact Ha].
  - split; [|auto]. intros _. exists a. split; [left; reflexivity|exact E].
Qed.
Lemma clip_none thr center shard e : total_variation_clipping_fn thr center shard e = None <-> center <> "mean"%string /\ center <> "median"%string.
Proof.
  unfold total_variation_clipping_fn. destruct (String.eqb_spec center "mean"); [split; [discriminate|tauto]|]. destruct (String.eqb_spec center "median"); [split; [discriminate|tauto]|]. tauto.
Qed.
Lemma clip_fn_some thr center f : get_clipping_fn thr center = Some f -> 0 < thr /\ f = total_variation_clipping_fn thr center.
Proof. unfold get_clipping_fn. destruct (Rltb 0 thr) eqn:E; [|discriminate]. apply Rltb_true in E. intros [= <-]. auto. Qed.

Section Contribution.
  Context {P X K : Type}.
  Variables (lp : P -> X -> xr) (dl : P -> X -> nat -> xr) (nch : nat) (ns : bool).
  Lemma contribution_ok clip les p pos : nch <> 1%nat -> (forall f, clip = Some f -> forall s e, f s e <> None) ->
    exists r, get_standard_contribution lp dl nch ns clip les p pos = Ok r.
  Proof.
    intros H1 Hf. unfold get_standard_contribution, get_clipped_energies_and_aux_data. destruct (get_statistics_from_local_energy les nch false) as [e0 v0].
    apply Nat.eqb_neq in H1. destruct clip as [f|].
    - destruct (mapM _ les) as [l|] eqn:E.
      + destruct (get_statistics_from_local_energy l nch ns) as [e1 v1]. rewrite H1. eauto.
      + apply mapM_none_iff in E. destruct E as (s & _ & E). exfalso. exact (Hf f eq_refl s e0 E).
    - destruct (get_statistics_from_local_energy les nch ns) as [e1 v1]. rewrite H1. eauto.
  Qed.
  Lemma contribution_chains clip les p pos r : get_standard_contribution lp dl nch ns clip les p pos = Ok r -> nch <> 1%nat.
  Proof.
    unfold get_standard_contribution. destruct (get_clipped_energies_and_aux_data les nch clip ns) as [[[e l] a]|]; [|discriminate]. destruct (Nat.eqb_spec nch 1); [discriminate|auto].
  Qed.
  Lemma contribution_center thr center les p pos r : les <> [] -> 0 < thr -> get_standard_contribution lp dl nch ns (get_clipping_fn thr center) les p pos = Ok r ->
    center = "mean"%string \/ center = "median"%string.
  Proof.
    intros Hl Ht. unfold get_standard_contribution, get_clipped_energies_and_aux_data, get_clipping_fn. rewrite (proj2 (Rltb_true 0 thr) Ht). destruct (get_statistics_from_local_energy les nch false) as [e0 v0].
    destruct (mapM _ les) as [l|] eqn:E; [|discriminate]. intros _. destruct (String.eqb_spec center "mean"); [auto|]. destruct (String.eqb_spec center "median"); [auto|]. exfalso.
    assert (HN : mapM (fun shard => total_variation_clipping_fn thr center shard e0) les = None); [|rewrite HN in E; discriminate].
    apply mapM_none_iff. destruct les as [|s l']; [congruence|]. exists s. split; [left; reflexivity|]. apply clip_none. auto.
  Qed.
End Contribution.

Section Energy.
  Context {P1 K : Type}.
  Variables (perm_of : K -> nat -> nat) (split_n : K -> nat -> list K) (theta : P1 -> model_params).
  Variables (grad_p : (P1 -> R) -> P1 -> nat -> R) (grad_px : (P1 -> xr) -> P1 -> nat -> xr).
  Variable c : job_config.
  Notation eg := (energy_and_grad perm_of split_n theta grad_p grad_px c).

  Lemma energy_ok p keys pos : wc_nchains (jc_walk c) <> 1%nat -> good_energy (jc_energy c) -> exists r, eg p keys pos = Ok r.
  Proof.
    intros H1 (Ty & Hn & Hc). unfold energy_and_grad, molecule_val_and_grad.
    destruct (C68_errors P1 K perm_of split_n (real_log_psi theta c) (dlog_psi_at theta grad_p c) (fun p y => grad_px (fun p' => local_energy_at perm_of theta c (jc_energy c) p' y None) p)
      (molecule_of c) (with_nchains (wc_nchains (jc_walk c)) (jc_energy c)) p keys (map (map (positions_at (jc_d c))) pos)) as (A & _ & B).
    cbn [with_nchains ec_type ec_nparticles ec_sample_parts ec_nchains ec_clip_threshold ec_clip_center ec_nan_safe] in *.
    destruct (assemble_mol_local_energy_fn _ _ _) as [f|].
    2:{ exfalso. destruct (proj1 A eq_refl) as (X & Y & Z). cbn in Ty. destruct Ty as [E|[E|[E|[]]]]; congruence. }
    destruct (B f eq_refl) as (T & _). destruct (traces f).
    2:{ exfalso. destruct (proj1 T eq_refl) as (E1 & E2 & E3). specialize (Hn E1 E2). destruct E3 as [E3|[E3|E3]]; eapply Hn; try exact E3; cbn; tauto. }
    unfold energy_val_and_grad.
    assert (CF : ec_type (jc_energy c) <> "ibp"%string -> forall f, get_clipping_fn (ec_clip_threshold (jc_energy c)) (ec_clip_center (jc_energy c)) = Some f -> forall s e, f s e <> None).
    { intros N f0 Ef s e Z. apply clip_fn_some in Ef. destruct Ef as [Hp ->]. apply clip_none in Z. destruct (Hc N Hp); tauto. }
    destruct (String.eqb_spec (ec_type (jc_energy c)) "standard") as [E|NS].
    { match goal with |- context [get_standard_contribution ?a ?b ?n ?s ?cl ?l p ?q] => destruct (contribution_ok a b n s cl l p q H1) as ([[? ?] ?] & ->) end.
      - apply CF. rewrite E. discriminate.
      - eexists. reflexivity. }
    destruct (String.eqb_spec (ec_type (jc_energy c)) "ibp") as [E|NI].
    { match goal with |- context [get_standard_contribution ?a ?b ?n ?s ?cl ?l p ?q] => destruct (contribution_ok a b n s cl l p q H1) as ([[? ?] ?] & ->) end; [discriminate|eexists; reflexivity]. }
    destruct (String.eqb_spec (ec_type (jc_energy c)) "random_particle") as [E|N].
    2:{ exfalso. cbn in Ty. destruct Ty as [E|[E|[E|[]]]]; congruence. }
    match goal with |- context [get_standard_contribution ?a ?b ?n ?s ?cl ?l p ?q] => destruct (contribution_ok a b n s cl l p q H1) as ([[? ?] ?] & ->) end; [exact (CF NI)|eexists; reflexivity].
  Qed.
  Lemma energy_ok_inv p keys pos r : keys <> [] -> pos <> [] -> eg p keys pos = Ok r -> wc_nchains (jc_walk c) <> 1%nat /\ good_energy (jc_energy c).
  Proof.
    intros HK HP. unfold energy_and_grad, molecule_val_and_grad.
    destruct (C68_errors P1 K perm_of split_n (real_log_psi theta c) (dlog_psi_at theta grad_p c) (fun p y => grad_px (fun p' => local_energy_at perm_of theta c (jc_energy c) p' y None) p)
      (molecule_of c) (with_nchains (wc_nchains (jc_walk c)) (jc_energy c)) p keys (map (map (positions_at (jc_d c))) pos)) as (A & _ & B).
    cbn [with_nchains ec_type ec_nparticles ec_sample_parts ec_nchains ec_clip_threshold ec_clip_center ec_nan_safe] in *.
    destruct (assemble_mol_local_energy_fn _ _ _) as [f|]; [|discriminate].
    destruct (B f eq_refl) as (T & _). destruct (traces f); [|discriminate].
    assert (G : forall les r', les <> [] -> (ec_type (jc_energy c) = "standard"%string \/ ec_type (jc_energy c) = "random_particle"%string) ->
      get_standard_contribution (fun p x => Fin (real_log_psi theta c p x)) (fun p x j => Fin (dlog_psi_at theta grad_p c p x j)) (wc_nchains (jc_walk c)) (ec_nan_safe (jc_energy c))
        (get_clipping_fn (ec_clip_threshold (jc_energy c)) (ec_clip_center (jc_energy c))) les p (map (map (positions_at (jc_d c))) pos) = Ok r' ->
      wc_nchains (jc_walk c) <> 1%nat /\ good_energy (jc_energy c)).
    { intros les r' Hl Ty E. split; [exact (contribution_chains _ _ _ _ _ _ _ _ _ E)|]. split; [destruct Ty as [-> | ->]; cbn; tauto|]. split.
      - intros E1 E2 part Hin Hp. assert (Z : true = false); [|discriminate Z]. apply T. split; [exact E1|]. split; [exact E2|]. cbn in Hin. destruct Hin as [<-|[<-|[<-|[]]]]; tauto.
      - intros _ Hp. exact (contribution_center _ _ _ _ _ _ _ _ _ _ Hl Hp E). }
    unfold energy_val_and_grad. destruct (String.eqb_spec (ec_type (jc_energy c)) "standard") as [E|_].
    { destruct (get_standard_contribution _ _ _ _ _ _ _ _) as [[[a e] gr]|] eqn:EC; [|discriminate]. intros _. eapply G; [|left; exact E|exact EC]. destruct pos; [congruence|discriminate]. }
    destruct (String.eqb_spec (ec_type (jc_energy c)) "ibp") as [E|NI].
    { destruct (get_standard_contribution _ _ _ _ _ _ _ _) as [[[a e] gr]|] eqn:EC; [|discriminate]. intros _. split; [exact (contribution_chains _ _ _ _ _ _ _ _ _ EC)|].
      split; [rewrite E; cbn; tauto|]. split; [rewrite E; discriminate|]. intros N. congruence. }
    destruct (String.eqb_spec (ec_type (jc_energy c)) "random_particle") as [E|N]; [|discriminate].
    destruct (get_standard_contribution _ _ _ _ _ _ _ _) as [[[a e] gr]|] eqn:EC; [|discriminate]. intros _. eapply G; [|right; exact E|exact EC].
    destruct keys; [congruence|]. destruct pos; [congruence|]. discriminate.
  Qed.

  Lemma eval_traces_iff p : eval_energy_traces theta c p = true <-> ec_type (jc_eval_energy c) = "standard"%string \/ ec_type (jc_eval_energy c) = "ibp"%string.
  Proof.
    unfold eval_energy_traces.
    destruct (C68_errors P1 K perm_of split_n (real_log_psi theta c) (dlog_psi_at theta grad_p c) (fun p y => grad_px (fun p' => local_energy_at perm_of theta c (jc_energy c) p' y None) p)
      (molecule_of c) (jc_eval_energy c) p [] []) as (A & _ & B).
    unfold assemble_mol_local_energy_fn in *. destruct (String.eqb_spec (ec_type (jc_eval_energy c)) "standard") as [E|N1].
    { split; [auto|]. intros _. destruct (B _ eq_refl) as ((B1 & _) & _). destruct (traces _); [reflexivity|]. destruct (B1 eq_refl) as (Z & _). rewrite E in Z. discriminate. }
    destruct (String.eqb_spec (ec_type (jc_eval_energy c)) "ibp") as [E|N2].
    { split; [auto|]. intros _. destruct (B _ eq_refl) as ((B1 & _) & _). destruct (traces _); [reflexivity|]. destruct (B1 eq_refl) as (Z & _). rewrite E in Z. discriminate. }
    destruct (String.eqb_spec (ec_type (jc_eval_energy c)) "random_particle") as [E|N3]; (split; [discriminate|tauto]).
  Qed.

End Energy.

Lemma optimizer_iff ndev o : (match choose_optimiser o with Chosen oo => modelled_optimiser ndev oo = true | Error _ => False end) <-> good_optimizer ndev o.
Proof.
  pose proof (C74_accepted o) as (A & _). cbv zeta in A. unfold good_optimizer. unfold section_names in A. split.
  - intros H. destruct (choose_optimiser o) as [oo|] eqn:E; [|contradiction]. destruct (proj1 A (ex_intro _ oo eq_refl)) as (A1 & A2 & A3). split; [|split; [|split; [exact A2|exact A3]]].
    + exact A1.
    + intros E1. revert H E. unfold choose_optimiser. rewrite E1. cbn [section_schedule String.eqb Ascii.eqb Bool.eqb].
      destruct (learning_rate_schedule _ _ _); [|discriminate]. intros H [= <-]. apply Nat.eqb_eq. exact H.
  - intros (A1 & AS & A2 & A3). destruct (proj2 A (Logic.conj A1 (Logic.conj A2 A3))) as (oo & E). rewrite E.
    revert E AS. unfold choose_optimiser, get_sr. cbn in A1. destruct A1 as [<-|[<-|[<-|[<-|[<-|[]]]]]]; cbn [section_schedule String.eqb Ascii.eqb Bool.eqb];
      repeat match goal with |- context [match ?x with _ => _ end] => destruct x end; try discriminate; intros [= <-] AS; try reflexivity; apply Nat.eqb_eq; apply AS; reflexivity.
Qed.


Section Accept.
  Context {P1 S1 K J : Type}.
  Variables (g : prng K) (choice : choice_fn K) (perm_of : K -> nat -> nat) (split_n : K -> nat -> list K) (device_keys : K -> list K) (ndev : nat).
  Variables (theta : P1 -> model_params) (init_params : K -> list nat -> P1).
  Variables (grad_p : (P1 -> R) -> P1 -> nat -> R) (grad_px : (P1 -> xr) -> P1 -> nat -> xr).
  Variables (opt_init : optimiser -> P1 -> S1)
            (opt_apply : optimiser -> (nat -> xr) -> P1 -> S1 -> list (list (nat -> R)) -> list (list xr) -> P1 * S1).
  Variable kfac : kfac_optimizer P1 S1 K.
  Variables (has_nan : P1 -> bool) (param_l1_norm : P1 -> xr) (summary : list (list xr) -> J).
  Variable c : job_config.
  Hypothesis Hg : good_prng g.
  Hypothesis Hc : good_choice choice.
  Hypothesis Hdk : forall k, length (device_keys k) = ndev.
  Hypothesis Hnd : (0 < ndev)%nat.
  Hypothesis Hw : well_formed_ions c.
  Hypothesis Hch : (0 < wc_nchains (jc_walk c))%nat.
  Hypothesis Hm : model_evaluates c.
  Lemma rows_shape y : shape2 (jc_n c) (jc_d c) (rows_of (jc_n c) (jc_d c) y).
  Proof. split; [unfold rows_of; rewrite map_length; apply seq_length|]. unfold rows_of. apply Forall_map. apply Forall_forall. intros i _. rewrite map_length. apply seq_length. Qed.
  Lemma accepts_always p x : model_accepts theta c p x = true.
  Proof. unfold model_accepts, fin_array. destruct (Hm (theta p) _ (rows_shape (positions_at (jc_d c) x))) as (w & l & -> & ->). reflexivity. Qed.
  Notation build := (build_job g choice perm_of split_n device_keys ndev theta init_params grad_p grad_px opt_init opt_apply kfac has_nan param_l1_norm summary c).
  Theorem built_iff k : (exists j, build k = Some j) <-> accepted_config ndev c.
  Proof.
    unfold accepted_config, build_job. destruct Hw as (W1 & W2 & W3).
    pose proof (C75_initial_walkers P1 K g choice (fun p x => log_psi_at theta c p (positions_at (jc_d c) x)) (model_apply theta c) (fun k (x : list (list R)) => init_params k (map (@length R) x)) device_keys ndev
      Hg Hc (fun p xs => eq_refl) Hnd (jc_ion_pos c) (jc_ion_charges c) (jc_d c) (eq_sym W3) W1 W2 (jc_walk c) (jc_n c) k) as SW. cbv zeta in SW.
    destruct (setup_walkers _ _ _ _ _ _ _ _ _ _ _) as [[[p0 datas] keys]|].
    2:{ split; [intros (j & H); discriminate|]. intros (H & _). contradiction. }
    destruct SW as (S1' & _ & S3 & S4 & _).
    assert (KN : keys <> []) by (rewrite S3; intros Z; apply (f_equal (@length K)) in Z; rewrite Hdk in Z; cbn in Z; lia).
    assert (PN : map pos datas <> []).
    { intros Z. rewrite Z in S4. cbn in S4. pose proof (C75_initial_positions K g choice Hg Hc (jc_ion_pos c) (jc_ion_charges c) (jc_d c) (eq_sym W3) W1 W2 k (wc_nchains (jc_walk c)) (jc_n c) 1) as [L _].
      cbv zeta in L. rewrite <- S4 in L. cbn in L. lia. }
    pose proof (optimizer_iff ndev (jc_optimizer c)) as HO. rewrite accepts_always.
    assert (EV : new_eval_walkers c = true <-> (jc_eval_use_training_data c = false \/ wc_nchains (jc_walk c) <> wc_nchains (jc_eval_walk c))).
    { unfold new_eval_walkers. destruct (jc_eval_use_training_data c); cbn [negb orb]; [|tauto]. destruct (Nat.eqb_spec (wc_nchains (jc_walk c)) (wc_nchains (jc_eval_walk c))); cbn [negb]; [|tauto].
      split; [discriminate|]. intros [Z|Z]; [discriminate|contradiction]. }
    assert (Q : match choose_optimiser (jc_optimizer c) with Chosen oo => modelled_optimiser ndev oo = true | Error _ => False end ->
      (match energy_and_grad perm_of split_n theta grad_p grad_px c p0 keys (map pos datas) with Ok _ => true | Err _ => false end
       && eval_energy_traces theta c p0 && (negb (new_eval_walkers c) || Nat.eqb (wc_nchains (jc_eval_walk c) mod ndev) 0) = true <-> accepted_config ndev c)).
    { intros Ho. apply HO in Ho. rewrite !andb_true_iff, orb_true_iff, negb_true_iff, Nat.eqb_eq, (eval_traces_iff perm_of split_n theta grad_p grad_px). unfold accepted_config. split.
      - intros ((Q1 & Q2) & Q3). destruct (energy_and_grad _ _ _ _ _ _ _ _ _) as [r|] eqn:E; [|discriminate]. destruct (energy_ok_inv perm_of split_n theta grad_p grad_px c p0 keys (map pos datas) r KN PN E) as (Q4 & Q5).
        do 5 (split; [assumption|]). intros Z. apply EV in Z. destruct Q3 as [Q3|Q3]; [congruence|exact Q3].
      - intros (_ & Q4 & Q5 & _ & Q6 & Q7). destruct (energy_ok perm_of split_n theta grad_p grad_px c p0 keys (map pos datas) Q4 Q5) as (r & E). rewrite E. split; [split; [reflexivity|exact Q6]|].
        destruct (new_eval_walkers c); [right; apply Q7, EV; reflexivity|left; reflexivity]. }
    fold (accepted_config ndev c). destruct (choose_optimiser (jc_optimizer c)) as [o|e].
    2:{ split; [intros (j & H); discriminate|]. intros (_ & _ & _ & H & _). apply HO in H. contradiction. }
    cbv zeta. destruct (init_optimizer _ _ _ _ _ _ _) as [s0 keys0]. rewrite andb_true_r. destruct (modelled_optimiser ndev o) eqn:EM; cbn [andb].
    2:{ split; [intros (j & H); discriminate|]. intros (_ & _ & _ & H & _). apply HO in H. discriminate. }
    specialize (Q eq_refl). cbv zeta. destruct (_ && _); [split; [intros _; apply Q; reflexivity|intros _; eexists; reflexivity]|split; [intros (j & H); discriminate|intros H; apply Q in H; discriminate]].
  Qed.
End Accept.

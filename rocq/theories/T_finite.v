(** * Finite positions and parameters give numbers: C82 *)
From Coq Require Import String Reals List Bool Arith Lia Lra.
From Verif Require Import XReal Rsum S_physics M_slog M_models M_antisym M_construct M_dispatch S_models S_antisym S_construct S_dispatch S_total S_finite
  P_split P_equiv P_equiv2 P_models P_jastrow P_leibniz P_antisym P_construct P_construct2 P_construct3 P_construct4 P_construct5 P_dispatch P_total P_finite P_finite2 P_finite3 P_nan E_job T_dispatch T_job T_total.
Import ListNotations.
Local Open Scope R_scope.
Local Open Scope string_scope.

Lemma det_fn_none c sp ions bs th n : build_ferminet c sp ions bs th = Some n -> fn_det_fn n = None -> fc_use_det_resnet c = false.
Proof. intros En H. destruct (ferminet_fields _ _ _ _ _ _ En) as (_ & _ & _ & _ & _ & _ & _ & F & _). destruct (fc_use_det_resnet c); [|reflexivity]. exfalso. apply (proj2 F eq_refl). exact H. Qed.

(** The value of every configured wavefunction, with finite parameters and finite numbers in the configuration, at finite positions of at least one electron per spin, is the sign and
    the logarithm of a real number.  The models that add determinants through their logarithms may say NaN instead. *)
Theorem C82_number : forall m nelec ions q theta w d x p, model_of_job m nelec ions q theta = Some w -> (2 <= length nelec)%nat -> Forall (fun n => (0 < n)%nat) nelec ->
  shape2 (length ions) d ions -> shape2 (list_sum nelec) d x -> finite_sections m -> finite_params theta -> all_finite ions -> Forall finite q -> all_finite x -> slog_psi w x = Some p ->
  (exists psi, p = slog_of psi) \/ (sums_logs m /\ p = (NaN, NaN)).
Proof.
  intros m nelec ions q th w d x p E L2 Ps Si Sx Fm Ft Fi Fq Fx Ep. change (exists psi, p = slog_of psi) with (number p). assert (NE : nelec <> []) by (intros ->; cbn in L2; lia). pose proof (spin_split_describes nelec NE) as D.
  assert (NA : At (get_spin_split nelec) <> At []) by (destruct nelec as [|a [|b r]]; [congruence|cbn in L2; lia|discriminate]).
  assert (N : (0 < list_sum nelec)%nat) by (destruct Ps as [|n r Hn _]; [congruence|cbn; lia]).
  destruct Fm as (M1 & M2 & M3 & M4 & M5 & M6 & M7 & M8). pose proof Ft as (T1 & T2 & _).
  unfold model_of_job in E. apply bind_some in E. destruct E as (c & Ec & E). unfold choose_model_type_in_model_config in Ec. cbv zeta in Ec. unfold sums_logs.
  destruct (String.eqb_spec (ms_type m) "ferminet") as [Et|N1].
  { rewrite Et. injection Ec as <-. cbn [get_model_from_config] in E. apply bind_some in E. destruct E as (bs & Eb & E). apply map_some in E. destruct E as (n & En & <-). cbn [slog_psi] in Ep.
    destruct (ferminet_fields _ _ _ _ _ _ En) as (F1 & F2 & F3 & F4 & _). pose proof (backflow_fin _ _ _ _ (proj1 M1) T1 Eb) as Bf.
    destruct (ferminet_finite n nelec d x p) as (O & _ & _ & H); try assumption.
    - split; [rewrite F1; exact D|]. split; [rewrite F3; eapply backflow_built; eassumption|rewrite F2; exact Si].
    - eapply build_net_fin; eassumption.
    - rewrite F2. apply config_streams_fin. exact Fi.
    - apply net_result_value in H. destruct H as [H|(H & ->)]; [left; exact H|]. right. split; [left; split; [reflexivity|eapply det_fn_none; eassumption]|reflexivity]. }
  destruct (String.eqb_spec (ms_type m) "embedded_particle_ferminet") as [Et|N2].
  { rewrite Et. injection Ec as <-. cbn [get_model_from_config] in E. apply bind_some in E. destruct E as (tot & Etot & E). apply bind_some in E. destruct E as (bs & Eb & E). apply bind_some in E. destruct E as (ib & Ei & E).
    apply bind_some in E. destruct E as (n & En & E). apply check_some in E. destruct E as (_ & E). apply some_inj in E. subst w. cbn [slog_psi] in Ep.
    destruct (ferminet_fields _ _ _ _ _ _ En) as (F1 & F2 & F3 & F4 & _). pose proof (backflow_fin _ _ _ _ (proj1 (proj1 M2)) T1 Eb) as Bf. pose proof (backflow_fin _ _ _ _ (proj2 M2) T2 Ei) as Bf2.
    match type of Ep with embedded_call ?e0 x = _ => destruct (embedded_finite e0 nelec d x p) as (O & H) end; cbn [em_net em_backflow em_streams em_nhidden em_dense] in *; try assumption.
    - rewrite F1. exact D.
    - rewrite F1. exact NA.
    - eapply backflow_built; eassumption.
    - intros L. rewrite (add_counts_same _ _ L) in Etot. apply some_inj in Etot. subst tot. rewrite F3. refine (backflow_built _ _ _ _ _ _ Eb). apply spin_split_describes. intros Z. apply (f_equal (@length nat)) in Z.
      unfold embedded_sizes in Z. rewrite zipw_add_length in Z by (symmetry; exact L). destruct nelec; [congruence|discriminate].
    - rewrite F2. exact Si.
    - eapply build_net_fin; [exact (proj1 M2)|exact Ft|exact Bf|exact En].
    - rewrite F2. apply config_streams_fin. exact Fi.
    - apply config_streams_fin. exact Fi.
    - intros i. apply hidden_fin. exact Ft.
    - apply net_result_value in H. cbn [em_net] in H. destruct H as [H|(H & ->)]; [left; exact H|]. right. split; [right; left; split; [reflexivity|eapply det_fn_none; eassumption]|reflexivity]. }
  destruct (String.eqb_spec (ms_type m) "extended_orbital_matrix_ferminet") as [Et|N3].
  { rewrite Et. injection Ec as <-. cbn [get_model_from_config] in E. apply bind_some in E. destruct E as (bs & Eb & E). apply bind_some in E. destruct E as (ib & Ei & E).
    apply bind_some in E. destruct E as (n & En & E). apply check_some in E. destruct E as (_ & E). apply some_inj in E. subst w. cbn [slog_psi] in Ep.
    destruct (ferminet_fields _ _ _ _ _ _ En) as (F1 & F2 & F3 & F4 & _). pose proof (backflow_fin _ _ _ _ (proj1 (proj1 M3)) T1 Eb) as Bf.
    assert (Q : (forall b, ib = Some b -> Forall block_fin b /\ built_for nelec b)).
    { intros b ->. destruct (hc_separate_backflow (ms_extended m)); [|discriminate]. apply map_some in Ei. destruct Ei as (b' & Ei & Z). apply some_inj in Z. subst b'. split; [eapply backflow_fin; [exact (proj2 M3)|exact T2|exact Ei]|eapply backflow_built; eassumption]. }
    match type of Ep with extended_call ?e0 x = _ => destruct (extended_finite e0 nelec d x p) as (O & H) end; cbn [ex_net ex_backflow ex_dense] in *; try assumption.
    - split; [rewrite F1; exact D|]. split; [rewrite F3; eapply backflow_built; eassumption|rewrite F2; exact Si].
    - unfold extended_backflow_ok. cbn [ex_backflow]. destruct ib as [b|]; [apply Q; reflexivity|exact Logic.I].
    - eapply build_net_fin; [exact (proj1 M3)|exact Ft|exact Bf|exact En].
    - rewrite F2. apply config_streams_fin. exact Fi.
    - intros b Hb. apply (Q b Hb).
    - intros i. apply hidden_fin. exact Ft.
    - apply net_result_value in H. cbn [ex_net] in H. destruct H as [H|(H & ->)]; [left; exact H|]. right. split; [right; right; left; split; [reflexivity|eapply det_fn_none; eassumption]|reflexivity]. }
  assert (QQ : forall k c bs a, finite_antieq_config c ->
      get_backflow_from_config (qc_backflow c) (At (get_spin_split nelec)) (mp_backflow th) = Some bs -> build_antieq k c (At (get_spin_split nelec)) ions bs th = Some a -> antieq_net_call a x = Some p -> number p).
  { intros k c0 bs a Hc Eb Ea Eq. destruct (antieq_fields _ _ _ _ _ _ _ Ea) as (F1 & F2 & F3 & F5 & F4 & _). pose proof (backflow_fin _ _ _ _ (proj1 Hc) T1 Eb) as Bf.
    apply (antieq_finite a nelec d x p); try (rewrite F1); try (rewrite F2); try assumption; [rewrite F3; eapply backflow_built; eassumption|eapply cov_ok; eassumption|eapply build_antieq_fin; eassumption|apply config_streams_fin; exact Fi]. }
  destruct (String.eqb_spec (ms_type m) "orbital_cofactor_net") as [Et|N4].
  { injection Ec as <-. cbn [get_model_from_config] in E. apply bind_some in E. destruct E as (bs & Eb & E). apply map_some in E. destruct E as (a & Ea & <-). cbn [slog_psi] in Ep. left. exact (QQ _ _ _ _ M4 Eb Ea Ep). }
  destruct (String.eqb_spec (ms_type m) "per_particle_dets_net") as [Et|N5].
  { injection Ec as <-. cbn [get_model_from_config] in E. apply bind_some in E. destruct E as (bs & Eb & E). apply map_some in E. destruct E as (a & Ea & <-). cbn [slog_psi] in Ep. left. exact (QQ _ _ _ _ M5 Eb Ea Ep). }
  destruct (String.eqb_spec (ms_type m) "explicit_antisym") as [Et|N6]; [|discriminate].
  rewrite Et. injection Ec as <-. cbn [get_model_from_config] in E. apply bind_some in E. destruct E as (bs & Eb & E). apply map_some in E. destruct E as (a & Ea & <-). cbn [slog_psi] in Ep.
  destruct (explicit_fields _ _ _ _ _ _ _ Ea) as (F1 & F2 & F3 & F4). pose proof (backflow_fin _ _ _ _ M6 T1 Eb) as Bf. destruct (build_explicit_fin _ _ _ _ _ _ _ M7 M8 Ft Fi Fq Bf Ea) as (X1 & X2).
  destruct (explicit_finite a nelec d x p) as [H|(H & ->)]; try (rewrite F1); try (rewrite F2); try assumption; [rewrite F3; eapply backflow_built; eassumption|eapply jastrow_built; eassumption|apply config_streams_fin; exact Fi|left; exact H|].
  right. split; [|reflexivity]. do 3 right. split; [reflexivity|apply X2; exact H].
Qed.
Print Assumptions C82_number.

(** For a FermiNet without a determinant resnet the value is decided by the determinants of its orbital matrices at the given positions: the sign and the logarithm of their sum if one of
    them is not zero, NaN if all are zero. *)
Theorem C82_ferminet : forall m nelec ions q theta w d x p, model_of_job m nelec ions q theta = Some w -> (2 <= length nelec)%nat -> Forall (fun n => (0 < n)%nat) nelec ->
  shape2 (length ions) d ions -> shape2 (list_sum nelec) d x -> finite_sections m -> finite_params theta -> all_finite ions -> all_finite x ->
  ms_type m = "ferminet" -> fc_use_det_resnet (ms_ferminet m) = false -> slog_psi w x = Some p ->
  exists net orbitals, w = WFermiNet net /\ ferminet_orbital_matrices net x (fn_split net) = Some orbitals /\ Forall (Forall all_finite) orbitals /\
    let determinants := map (kth_determinant (fc_full_det (ms_ferminet m)) orbitals) (seq 0 (fc_ndeterminants (ms_ferminet m))) in
    ((exists v, In v determinants /\ v <> 0) -> p = slog_of (lsum determinants)) /\ ((forall v, In v determinants -> v = 0) -> p = (NaN, NaN)).
Proof.
  intros m nelec ions q th w d x p E L2 Ps Si Sx Fm Ft Fi Fx Et Er Ep. assert (NE : nelec <> []) by (intros ->; cbn in L2; lia). pose proof (spin_split_describes nelec NE) as D.
  destruct Fm as (M1 & _). pose proof Ft as (T1 & _). unfold model_of_job in E. apply bind_some in E. destruct E as (c & Ec & E). unfold choose_model_type_in_model_config in Ec. cbv zeta in Ec. rewrite Et in Ec. cbn in Ec. apply some_inj in Ec. subst c.
  cbn [get_model_from_config] in E. apply bind_some in E. destruct E as (bs & Eb & E). apply map_some in E. destruct E as (n & En & <-). cbn [slog_psi] in Ep.
  destruct (ferminet_fields _ _ _ _ _ _ En) as (F1 & F2 & F3 & F4 & _ & _ & F7 & F8 & _). pose proof (backflow_fin _ _ _ _ (proj1 M1) T1 Eb) as Bf. exists n.
  destruct (ferminet_finite n nelec d x p) as (O & EO & FO & H); try assumption.
  - split; [rewrite F1; exact D|]. split; [rewrite F3; eapply backflow_built; eassumption|rewrite F2; exact Si].
  - eapply build_net_fin; eassumption.
  - rewrite F2. apply config_streams_fin. exact Fi.
  - exists O. split; [reflexivity|]. split; [exact EO|]. split; [exact FO|]. cbv zeta. unfold net_result in H. destruct (fn_det_fn n) as [f|] eqn:Ef; [exfalso; assert (Z : Some f <> None) by discriminate; apply F8 in Z; congruence|].
    unfold summed in H. rewrite det_products_kth, F7, F4 in H. exact H.
Qed.
Print Assumptions C82_ferminet.

Lemma exact_zero psi : slog_of psi = times_sign (-1) (slog_of psi) -> slog_of psi = (Fin 0, MInf).
Proof.
  intros H. assert (Z : psi = 0).
  { unfold slog_of, times_sign in H. cbn [fst snd xmul] in H. injection H as H. destruct (Rlt_dec psi 0), (Rlt_dec 0 psi); lra. }
  subst psi. unfold slog_of. destruct (Rlt_dec 0 0); [lra|]. destruct (Req_EM_T 0 0); [reflexivity|congruence].
Qed.
(** Two electrons of the same spin at the same finite place: every configured wavefunction (without weighted products) is exactly zero there, except that those that sum logarithms say NaN. *)
Theorem C82_coincidence : forall m nelec ions q theta w d x i j p, model_of_job m nelec ions q theta = Some w -> ~ weighted_products m -> (2 <= length nelec)%nat -> Forall (fun n => (0 < n)%nat) nelec ->
  shape2 (length ions) d ions -> shape2 (list_sum nelec) d x -> finite_sections m -> finite_params theta -> all_finite ions -> Forall finite q -> all_finite x ->
  coincide nelec x i j -> slog_psi w x = Some p ->
  (sums_logs m -> p = (NaN, NaN)) /\ (~ sums_logs m -> p = (Fin 0, MInf)).
Proof.
  intros m nelec ions q th w d x i j p E NW L2 Ps Si Sx Fm Ft Fi Fq Fx C Ep. assert (NE : nelec <> []) by (intros ->; cbn in L2; lia).
  assert (N : (0 < list_sum nelec)%nat) by (destruct Ps as [|n r Hn _]; [congruence|cbn; lia]). pose proof C as (Hi & Hj & Ne & Sp & Exy). assert (K := exchange_keeps nelec i j Hi Hj Sp).
  split.
  - intros SL. clear Fm Ft Fi Fq Fx NW. pose proof (spin_split_describes nelec NE) as D. assert (NA : At (get_spin_split nelec) <> At []) by (destruct nelec as [|a [|b r]]; [congruence|cbn in L2; lia|discriminate]).
    unfold model_of_job in E. apply bind_some in E. destruct E as (c & Ec & E). unfold choose_model_type_in_model_config in Ec. cbv zeta in Ec.
    assert (ND : forall c sp ions bs th n, build_ferminet c sp ions bs th = Some n -> fc_use_det_resnet c = false -> fn_det_fn n = None).
    { intros c0 sp io bs th0 n En H0. destruct (ferminet_fields _ _ _ _ _ _ En) as (_ & _ & _ & _ & _ & _ & _ & F & _). destruct (fn_det_fn n); [|reflexivity]. exfalso. assert (Z : fc_use_det_resnet c0 = true) by (apply F; discriminate). congruence. }
    destruct SL as [(Et & Er)|[(Et & Er)|[(Et & Er)|(Et & Er)]]]; rewrite Et in Ec; cbn in Ec; apply some_inj in Ec; subst c; cbn [get_model_from_config] in E.
    + apply bind_some in E. destruct E as (bs & Eb & E). apply map_some in E. destruct E as (n & En & <-). cbn [slog_psi] in Ep. destruct (ferminet_fields _ _ _ _ _ _ En) as (F1 & F2 & F3 & _).
      unfold ferminet_call in Ep. apply bind_some in Ep. destruct Ep as (O & EO & Ep).
      assert (FT : fits nelec d n) by (split; [rewrite F1; exact D|]; split; [rewrite F3; eapply backflow_built; eassumption|rewrite F2; exact Si]). destruct FT as (A1 & A2 & A3).
      destruct (coincide_flips n (fn_split n) nelec d x i j O A1 A2 A3 Sx C EO) as (Q & Es). apply (psi_nan n _ O p Q Es (ND _ _ _ _ _ _ En Er) Ep).
    + apply bind_some in E. destruct E as (tot & Etot & E). apply bind_some in E. destruct E as (bs & Eb & E). apply bind_some in E. destruct E as (ib & Ei & E).
      apply bind_some in E. destruct E as (n & En & E). apply check_some in E. destruct E as (_ & E). apply some_inj in E. subst w. cbn [slog_psi] in Ep.
      destruct (ferminet_fields _ _ _ _ _ _ En) as (F1 & F2 & F3 & F4 & _). set (e := Build_embedded _ _ _ _ _) in Ep.
      assert (Lh : length (em_nhidden e) = length nelec).
      { assert (A1 : describes (fn_split (em_net e)) nelec) by (cbn [e em_net]; rewrite F1; exact D). assert (A2 : fn_split (em_net e) <> At []) by (cbn [e em_net]; rewrite F1; exact NA). assert (A3 : built_for nelec (em_backflow e)) by exact (backflow_built _ _ _ _ _ D Ei).
        apply (embed_iff e nelec d x ions A1 A2 A3 Si eq_refl Sx). unfold embedded_call in Ep. apply bind_some in Ep. destruct Ep as (u & Eu & _). exists u. exact Eu. }
      destruct (embedded_coincide e nelec d x i j p) as [H|(H & _)]; cbn [em_net em_backflow em_streams em_nhidden e] in *; try assumption.
      * rewrite F1. exact D.
      * eapply backflow_built; eassumption.
      * rewrite (add_counts_same _ _ Lh) in Etot. apply some_inj in Etot. subst tot. rewrite F3. refine (backflow_built _ _ _ _ _ _ Eb). apply spin_split_describes. intros Z. apply (f_equal (@length nat)) in Z.
        unfold embedded_sizes in Z. rewrite zipw_add_length in Z by (symmetry; exact Lh). destruct nelec; [congruence|discriminate].
      * rewrite F2. exact Si.
      * exfalso. apply H. exact (ND _ _ _ _ _ _ En Er).
    + apply bind_some in E. destruct E as (bs & Eb & E). apply bind_some in E. destruct E as (ib & Ei & E).
      apply bind_some in E. destruct E as (n & En & E). apply check_some in E. destruct E as (_ & E). apply some_inj in E. subst w. cbn [slog_psi] in Ep.
      destruct (ferminet_fields _ _ _ _ _ _ En) as (F1 & F2 & F3 & F4 & _). set (e := Build_extended _ _ _ _) in Ep.
      destruct (extended_coincide e nelec d x i j p) as [H|(H & _)]; cbn [ex_net ex_backflow e] in *; try assumption.
      * split; [cbn; rewrite F1; exact D|]. split; [cbn; rewrite F3; eapply backflow_built; eassumption|cbn; rewrite F2; exact Si].
      * unfold extended_backflow_ok. cbn [ex_backflow e]. destruct (hc_separate_backflow (ms_extended m)); [|injection Ei as <-; exact Logic.I]. apply map_some in Ei. destruct Ei as (b & Ei & <-). eapply backflow_built; eassumption.
      * exfalso. apply H. exact (ND _ _ _ _ _ _ En Er).
    + apply bind_some in E. destruct E as (bs & Eb & E). apply map_some in E. destruct E as (a & Ea & <-). cbn [slog_psi] in Ep. destruct (explicit_fields _ _ _ _ _ _ _ Ea) as (F1 & F2 & F3 & F4).
      assert (X : is_factorized (en_antisym a)).
      { clear -Ea Er. unfold build_explicit in Ea. apply bind_some in Ea. destruct Ea as (jj & _ & E). apply bind_some in E. destruct E as (k & Ek & E). apply bind_some in E. destruct E as (a0 & _ & E).
        apply check_some in E. destruct E as (_ & E). apply some_inj in E. subst a. cbn [en_antisym]. rewrite Er in Ek. cbn in Ek. apply some_inj in Ek. subst k. exact Logic.I. }
      assert (H : match en_antisym a with Factorized _ _ => p = (NaN, NaN) | Generic _ => p = (NaN, NaN) \/ exists J, p = (Fin 0, xadd MInf J) end).
      { apply (explicit_coincide a nelec d x i j p); try (rewrite F1); try (rewrite F2); try assumption; [rewrite F3; eapply backflow_built; eassumption|eapply jastrow_built; eassumption]. }
      destruct (en_antisym a); [exact H|contradiction].
  - intros NS. destruct (C82_number m nelec ions q th w d x p E L2 Ps Si Sx Fm Ft Fi Fq Fx Ep) as [(psi & ->)|(SL & _)]; [|contradiction].
    pose proof (C72_antisymmetric m nelec ions q th w d (exchange i j) x E NW NE N Si K Sx) as A. pose proof Sx as (L & _). rewrite (reorder_exchange_same x i j []) in A by (rewrite ?L; assumption). rewrite Ep in A. cbn [option_map] in A. apply some_inj in A.
    rewrite exchange_sign in A by assumption. apply exact_zero. exact A.
Qed.
Print Assumptions C82_coincidence.

(** "Finite parameters and positions give a number" fails without the hypothesis on the spins: with a spin species without electrons the means over that species are 0/0, and a FermiNet
    (without attention and without determinant resnet, every layer of at least one unit) is NaN for all parameters at all positions. *)
Theorem C82_empty_species_refuted : forall m nelec ions q theta w d x p, model_of_job m nelec ions q theta = Some w -> (2 <= length nelec)%nat -> (0 < list_sum nelec)%nat -> In 0%nat nelec ->
  ions <> [] -> shape2 (length ions) d ions -> shape2 (list_sum nelec) d x -> ms_type m = "ferminet" -> fc_use_det_resnet (ms_ferminet m) = false ->
  (let b := fc_backflow (ms_ferminet m) in bc_use_transformer b = false /\ bc_ndense_list b <> [] /\ Forall (fun l => exists n r, l = n :: r /\ (0 < n)%nat) (bc_ndense_list b)) ->
  slog_psi w x = Some p -> p = (NaN, NaN).
Proof.
  intros m nelec ions q th w d x p E L2 N Z Ni Si Sx Et Er (B1 & B2 & B3) Ep. assert (NE : nelec <> []) by (intros ->; cbn in L2; lia). pose proof (spin_split_describes nelec NE) as D.
  assert (NA : At (get_spin_split nelec) <> At []) by (destruct nelec as [|a [|b r]]; [congruence|cbn in L2; lia|discriminate]).
  unfold model_of_job in E. apply bind_some in E. destruct E as (c & Ec & E). unfold choose_model_type_in_model_config in Ec. cbv zeta in Ec. rewrite Et in Ec. cbn in Ec. apply some_inj in Ec. subst c.
  cbn [get_model_from_config] in E. apply bind_some in E. destruct E as (bs & Eb & E). apply map_some in E. destruct E as (n & En & <-). cbn [slog_psi] in Ep.
  destruct (ferminet_fields _ _ _ _ _ _ En) as (F1 & F2 & F3 & F4 & _ & _ & F7 & F8 & _).
  assert (DF : Forall deaf bs /\ length bs = length (bc_ndense_list (fc_backflow (ms_ferminet m)))).
  { unfold get_backflow_from_config in Eb. apply check_some in Eb. destruct Eb as (_ & Eb). apply bind_some in Eb. destruct Eb as (act & Ea & Eb). rewrite B1 in Eb. eapply built_deaf; [exact (act_nan _ _ Ea)|exact B3|exact Eb]. }
  destruct DF as (DF & LF).
  apply (ferminet_nan n nelec d x ions p); try assumption.
  - split; [rewrite F1; exact D|]. split; [rewrite F3; eapply backflow_built; eassumption|rewrite F2; exact Si].
  - rewrite F1. exact NA.
  - rewrite F2. reflexivity.
  - rewrite F3. intros ->. destruct (bc_ndense_list (fc_backflow (ms_ferminet m))); [congruence|discriminate].
  - rewrite F3. exact DF.
  - destruct (fn_det_fn n); [|reflexivity]. exfalso. assert (Q : fc_use_det_resnet (ms_ferminet m) = true) by (apply F8; discriminate). congruence.
Qed.
Print Assumptions C82_empty_species_refuted.

(** All parameters 1. *)
Definition ones_params : model_params.
Proof. constructor; intros; try exact (Fin 1); try (constructor; intros; try exact (Fin 1); try (split; intros; exact (Fin 1))). Defined.
Lemma ones_finite : finite_params ones_params.
Proof. unfold finite_params, finite_block, finite_orbital, finite_resnet. cbn. repeat split. Qed.
Lemma shipped_finite t : finite_sections (shipped_sections t).
Proof. unfold finite_sections, finite_net_config, finite_hidden_config, finite_antieq_config, finite_net_config, finite_backflow_config. cbn. repeat split. Qed.
Lemma shipped_built t up down ions q th : In t model_types -> length q = length ions -> ions <> [] -> exists w, model_of_job (shipped_sections t) [up; down] ions q th = Some w.
Proof.
  intros Ht Lq Ni. destruct ions as [|a ions]; [congruence|]. unfold model_types in Ht. cbn [In] in Ht. destruct Ht as [<-|[<-|[<-|[<-|[<-|[<-|[]]]]]]]; eexists; reflexivity.
Qed.
(** LiH as shipped with all parameters 1: every model has a value at x, where the first two electrons (both of the first spin) coincide; it is 0 for three of them and NaN for the three FermiNets.
    The hydrogen atom with a FermiNet: NaN for all parameters and everywhere. *)
Definition lih_ions : arr2 := [[Fin 0; Fin 0; Fin (-1)]; [Fin 0; Fin 0; Fin 1]].
Definition lih_x : arr2 := [[Fin 1; Fin 2; Fin 3]; [Fin 1; Fin 2; Fin 3]; [Fin 0; Fin 0; Fin 2]; [Fin 0; Fin 1; Fin 0]].
Example C82_example :
  (forall t, In t model_types -> exists w, model_of_job (shipped_sections t) [2; 2]%nat lih_ions [Fin 1; Fin 3] ones_params = Some w /\
     (slog_psi w lih_x = Some (Fin 0, MInf) \/ slog_psi w lih_x = Some (NaN, NaN)) /\
     (In t ["orbital_cofactor_net"; "per_particle_dets_net"; "explicit_antisym"] -> slog_psi w lih_x = Some (Fin 0, MInf)) /\
     (t = "ferminet" -> slog_psi w lih_x = Some (NaN, NaN))) /\
  (forall theta a b c, exists w, model_of_job (shipped_sections "ferminet") [1; 0]%nat [[Fin 0; Fin 0; Fin 0]] [Fin 1] theta = Some w /\ slog_psi w [[a; b; c]] = Some (NaN, NaN)).
Proof.
  assert (HE : forall t up down, In t model_types -> (t = "orbital_cofactor_net" -> (0 < up)%nat /\ (0 < down)%nat) -> evaluable (shipped_sections t) [up; down]).
  { intros t up down Ht Hc. unfold model_types in Ht. cbn [In] in Ht. unfold evaluable. cbv zeta.
    destruct Ht as [<-|[<-|[<-|[<-|[<-|[<-|[]]]]]]]; repeat split; intros; try discriminate; try reflexivity; try (cbn; lia); try (destruct H as [H|H]; discriminate).
    destruct (Hc eq_refl). repeat constructor; assumption. }
  split.
  - intros t Ht. destruct (shipped_built t 2 2 lih_ions [Fin 1; Fin 3] ones_params Ht eq_refl ltac:(discriminate)) as (w & Ew). exists w. split; [exact Ew|].
    assert (Si : shape2 (length lih_ions) 3 lih_ions) by (split; [reflexivity|repeat constructor]). assert (Sx : shape2 (list_sum [2; 2]%nat) 3 lih_x) by (split; [reflexivity|repeat constructor]).
    destruct (proj2 (C81_defined _ _ _ _ _ w 3 lih_x Ew ltac:(cbn; lia) ltac:(cbn; lia) Si Sx)) as (p & Ep); [apply HE; [exact Ht|intros _; split; lia]|].
    assert (C : coincide [2; 2]%nat lih_x 0 1) by (repeat split; cbn; lia).
    assert (NW : ~ weighted_products (shipped_sections t)) by (unfold weighted_products; cbv zeta; intros [(_ & _ & H)|(_ & _ & H)]; discriminate).
    destruct (C82_coincidence _ _ _ _ _ w 3 lih_x 0%nat 1%nat p Ew NW ltac:(cbn; lia) ltac:(repeat constructor; lia) Si Sx (shipped_finite t) ones_finite ltac:(repeat constructor) ltac:(repeat constructor) ltac:(repeat constructor) C Ep) as (H1 & H2).
    rewrite Ep. unfold sums_logs in *. cbn [ms_type ms_explicit ms_ferminet ms_embedded ms_extended shipped_sections] in *.
    unfold model_types in Ht. cbn [In] in Ht. destruct Ht as [<-|[<-|[<-|[<-|[<-|[<-|[]]]]]]].
    + rewrite H1 by (left; split; reflexivity). split; [right; reflexivity|]. split; [intros H; cbn in H; decompose [or] H; try discriminate; contradiction|reflexivity].
    + rewrite H1 by (right; left; split; reflexivity). split; [right; reflexivity|]. split; [intros H; cbn in H; decompose [or] H; try discriminate; contradiction|discriminate].
    + rewrite H1 by (right; right; left; split; reflexivity). split; [right; reflexivity|]. split; [intros H; cbn in H; decompose [or] H; try discriminate; contradiction|discriminate].
    + rewrite H2 by (intros [(H & _)|[(H & _)|[(H & _)|(H & _)]]]; discriminate). split; [left; reflexivity|]. split; [reflexivity|discriminate].
    + rewrite H2 by (intros [(H & _)|[(H & _)|[(H & _)|(H & _)]]]; discriminate). split; [left; reflexivity|]. split; [reflexivity|discriminate].
    + rewrite H2 by (intros [(H & _)|[(H & _)|[(H & _)|(_ & H)]]]; discriminate). split; [left; reflexivity|]. split; [reflexivity|discriminate].
  - intros th a b c. destruct (shipped_built "ferminet" 1 0 [[Fin 0; Fin 0; Fin 0]] [Fin 1] th ltac:(left; reflexivity) eq_refl ltac:(discriminate)) as (w & Ew). exists w. split; [exact Ew|].
    assert (Si : shape2 1 3 [[Fin 0; Fin 0; Fin 0]]) by (split; [reflexivity|repeat constructor]). assert (Sx : shape2 (list_sum [1; 0]%nat) 3 [[a; b; c]]) by (split; [reflexivity|repeat constructor]).
    destruct (proj2 (C81_defined _ _ _ _ _ w 3 [[a; b; c]] Ew ltac:(cbn; lia) ltac:(cbn; lia) Si Sx)) as (p & Ep); [apply HE; [left; reflexivity|discriminate]|]. rewrite Ep. f_equal.
    apply (C82_empty_species_refuted _ _ _ _ _ w 3 [[a; b; c]] p Ew); try assumption; try reflexivity; try discriminate; try (cbn; lia).
    split; [reflexivity|]. split; [discriminate|]. cbn [ms_ferminet shipped_sections shipped_ferminet fc_backflow shipped_backflow bc_ndense_list]. unfold shipped_layers. repeat (constructor; [eexists; eexists; split; [reflexivity|lia]|]). constructor.
Qed.

(** * Proofs about the model a job is configured with *)
From Coq Require Import String Reals List Bool Arith Lia ZArith.
From Verif Require Import XReal M_slog M_models M_antisym M_construct M_dispatch S_models S_antisym S_construct S_dispatch P_split P_models P_construct P_construct2 P_construct3 P_construct4 P_construct5.
Import ListNotations.
Local Open Scope string_scope.

Lemma check_some {A} b (r : option A) a : check b r = Some a <-> b = true /\ r = Some a.
Proof. unfold check. destruct b; split; [intros H|intros (_ & H)|discriminate|intros (H & _)]; try split; congruence. Qed.
Lemma bind_some {A B} (o : option A) (f : A -> option B) b : bind_opt o f = Some b <-> exists a, o = Some a /\ f a = Some b.
Proof. destruct o as [a|]; cbn; split; [intros H; exists a; split; [reflexivity|exact H]|intros (a' & E & H); congruence|discriminate|intros (a' & E & _); discriminate]. Qed.
Lemma map_some {A B} (f : A -> B) (o : option A) b : option_map f o = Some b <-> exists a, o = Some a /\ f a = b.
Proof. destruct o as [a|]; cbn; split; [intros H; exists a; split; [reflexivity|congruence]|intros (a' & E & H); congruence|discriminate|intros (a' & E & _); discriminate]. Qed.

(** ** Names *)
Lemma named_in_iff l n : named_in l n = true <-> In n l.
Proof.
  unfold named_in. rewrite existsb_exists. split; [intros (y & H & E); apply String.eqb_eq in E; subst; exact H|intros H; exists n; split; [exact H|apply String.eqb_refl]].
Qed.
Lemma kernel_iff n : kernel_init n = true <-> known_kernel_init n.
Proof. apply named_in_iff. Qed.
Lemma bias_iff n : bias_init n = true <-> known_bias_init n.
Proof. apply named_in_iff. Qed.
Lemma activation_iff n : (exists a, get_named_activation_fn n = Some a) <-> known_activation n.
Proof.
  unfold get_named_activation_fn, known_activation. destruct (String.eqb_spec n "tanh"); [split; [left; assumption|intros _; eexists; reflexivity]|].
  destruct (String.eqb_spec n "gelu"); [split; [right; assumption|intros _; eexists; reflexivity]|]. split; [intros (a & E); discriminate|intros [H|H]; congruence].
Qed.
Lemma mode_iff n : (exists a, determinant_fn_mode (upper n) = Some a) <-> known_mode n.
Proof.
  unfold determinant_fn_mode, known_mode. generalize (upper n) as u. intros u. cbn [In].
  destruct (String.eqb_spec u "SIGN_COVARIANCE"); [split; [intros _; left; congruence|intros _; eexists; reflexivity]|].
  destruct (String.eqb_spec u "PARALLEL_EVEN"); [split; [intros _; right; left; congruence|intros _; eexists; reflexivity]|].
  destruct (String.eqb_spec u "PAIRWISE_EVEN"); [split; [intros _; right; right; left; congruence|intros _; eexists; reflexivity]|].
  split; [intros (a & E); discriminate|intros [H|[H|[H|[]]]]; congruence].
Qed.

Local Opaque known_kernel_init known_bias_init known_activation known_mode kernel_init bias_init get_named_activation_fn determinant_fn_mode.
(** ** Backflows *)
Lemma blocks_iff sp l act ub s1 c1 s2 c2 cy tr nh th : forall i, (exists bs, get_residual_blocks sp l act ub s1 c1 s2 c2 cy tr nh i th = Some bs) <-> ~ In [] l.
Proof.
  induction l as [|[|n r] l IH]; intros i; cbn [get_residual_blocks].
  - split; [intros _ []|intros _; eexists; reflexivity].
  - split; [intros (bs & E); discriminate|intros H; exfalso; apply H; left; reflexivity].
  - split.
    + intros (bs & E). apply map_some in E. destruct E as (bs' & E & _). intros [H|H]; [discriminate|]. apply (proj1 (IH (S i))); [exists bs'; exact E|exact H].
    + intros H. destruct (proj2 (IH (S i))) as (bs & E); [intros Q; apply H; right; exact Q|]. rewrite E. eexists. reflexivity.
Qed.
Lemma backflow_iff c sp th : (exists bs, get_backflow_from_config c sp th = Some bs) <-> good_backflow c.
Proof.
  unfold get_backflow_from_config, good_backflow. split.
  - intros (bs & E). apply check_some in E. destruct E as (K & E). apply bind_some in E. destruct E as (a & Ea & E).
    repeat rewrite andb_true_iff in K. rewrite !kernel_iff, !bias_iff in K. split; [repeat rewrite Forall_cons_iff; intuition (try apply Forall_nil)|]. split; [repeat rewrite Forall_cons_iff; intuition (try apply Forall_nil)|].
    split; [apply activation_iff; eexists; exact Ea|]. eapply blocks_iff. eexists. exact E.
  - intros (K & B & A & N). apply activation_iff in A. destruct A as (a & Ea). rewrite Ea. cbn [bind_opt].
    destruct (proj2 (blocks_iff sp (bc_ndense_list c) a (bc_use_bias c) (bc_one_electron_skip c) (bc_one_electron_skip_scale c) (bc_two_electron_skip c)
      (bc_two_electron_skip_scale c) (bc_cyclic_spins c) (bc_use_transformer c) (bc_num_heads c) th 0%nat) N) as (bs & E).
    exists bs. apply check_some. split; [|exact E]. repeat rewrite Forall_cons_iff in K. repeat rewrite Forall_cons_iff in B. repeat rewrite andb_true_iff. rewrite !kernel_iff, !bias_iff. tauto.
Qed.
Lemma blocks_split sp l act ub s1 c1 s2 c2 cy tr nh th : forall i bs, get_residual_blocks sp l act ub s1 c1 s2 c2 cy tr nh i th = Some bs ->
  Forall (fun b => l1_split (b_one b) = sp) bs.
Proof.
  induction l as [|[|n r] l IH]; intros i bs E; cbn [get_residual_blocks] in E; [injection E as <-; constructor|discriminate|].
  apply map_some in E. destruct E as (bs' & E & <-). constructor; [reflexivity|]. eapply IH. exact E.
Qed.
Lemma backflow_built c sp sizes th bs : describes sp sizes -> get_backflow_from_config c sp th = Some bs -> built_for sizes bs.
Proof.
  intros D E. unfold get_backflow_from_config in E. apply check_some in E. destruct E as (_ & E). apply bind_some in E. destruct E as (a & _ & E).
  apply blocks_split in E. unfold built_for. eapply Forall_impl; [|exact E]. cbn beta. intros b ->. exact D.
Qed.
Lemma if_used_iff {A} b (a : A) : if_used b a <> None <-> b = true.
Proof. destruct b; cbn; split; congruence. Qed.
Lemma blocks_configured c sp act th : get_named_activation_fn (bc_activation_fn c) = Some act -> forall l i bs,
  get_residual_blocks sp l act (bc_use_bias c) (bc_one_electron_skip c) (bc_one_electron_skip_scale c) (bc_two_electron_skip c)
    (bc_two_electron_skip_scale c) (bc_cyclic_spins c) (bc_use_transformer c) (bc_num_heads c) i th = Some bs ->
  Forall2 (layer_as_configured c sp) l bs.
Proof.
  intros Ea. induction l as [|[|n r] l IH]; intros i bs E; cbn [get_residual_blocks] in E; [injection E as <-; constructor|discriminate|].
  apply map_some in E. destruct E as (bs' & E & <-). constructor; [|eapply IH; exact E].
  unfold layer_as_configured. cbn [b_one b_two l1_split l1_ndense l1_act l1_bias l1_skip l1_scale l1_cyclic l1_attention nth_error]. rewrite !if_used_iff.
  repeat (split; [first [reflexivity|exact Ea]|]). split; [intros a Q; destruct (bc_use_transformer c); [|discriminate]; injection Q as <-; split; reflexivity|].
  destruct r as [|n2 r]; [reflexivity|]. cbn [nth_error l2_ndense l2_act l2_bias l2_skip l2_scale]. rewrite if_used_iff. repeat (split; [first [reflexivity|exact Ea]|]). reflexivity.
Qed.
Lemma backflow_configured c sp th bs : get_backflow_from_config c sp th = Some bs -> Forall2 (layer_as_configured c sp) (bc_ndense_list c) bs.
Proof.
  intros E. unfold get_backflow_from_config in E. apply check_some in E. destruct E as (_ & E). apply bind_some in E. destruct E as (a & Ea & E).
  eapply blocks_configured; eassumption.
Qed.

(** ** FermiNets *)
Lemma ferminet_iff c sp ions bs th : (exists m, build_ferminet c sp ions bs th = Some m) <-> good_ferminet c.
Proof.
  unfold build_ferminet, good_ferminet. cbv zeta. split.
  - intros (m & E). apply bind_some in E. destruct E as (df & Ed & E). apply bind_some in E. destruct E as (mo & Em & E). apply check_some in E. destruct E as (K & _).
    repeat rewrite andb_true_iff in K. rewrite !kernel_iff, bias_iff in K. split; [repeat rewrite Forall_cons_iff; intuition (try apply Forall_nil)|]. split; [tauto|]. split; [apply mode_iff; eexists; exact Em|].
    intros U. rewrite U in Ed. apply bind_some in Ed. destruct Ed as (a & Ea & Ed). apply check_some in Ed. destruct Ed as (K' & _). rewrite andb_true_iff, kernel_iff, bias_iff in K'.
    split; [apply activation_iff; eexists; exact Ea|exact K'].
  - intros (K & B & M & U). apply mode_iff in M. destruct M as (mo & Em). rewrite Em.
    assert (Ed : exists df, (if fc_use_det_resnet c
                        then do act <- get_named_activation_fn (rc_activation (fc_det_resnet c));
                             check (kernel_init (rc_kernel_init (fc_det_resnet c)) && bias_init (rc_bias_init (fc_det_resnet c)))
                               (Some (Some (resnet_determinant_fn (rc_ndense (fc_det_resnet c)) act (inner_layers (rc_nlayers (fc_det_resnet c)) (rc_use_bias (fc_det_resnet c)) (mp_det_resnet th)) (rp_final (mp_det_resnet th)))))
                        else Some None) = Some df).
    { destruct (fc_use_det_resnet c); [|eexists; reflexivity]. destruct (U eq_refl) as (A & K' & B'). apply activation_iff in A. destruct A as (a & ->). cbn [bind_opt].
      apply kernel_iff in K'. apply bias_iff in B'. rewrite K', B'. eexists. reflexivity. }
    destruct Ed as (df & ->). cbn [bind_opt]. eexists. apply check_some. split; [|reflexivity].
    repeat rewrite Forall_cons_iff in K. repeat rewrite andb_true_iff. rewrite !kernel_iff, bias_iff. tauto.
Qed.
Lemma ferminet_fields c sp ions bs th m : build_ferminet c sp ions bs th = Some m ->
  fn_split m = sp /\ fn_streams m = get_compute_input_streams_from_config (fc_streams c) ions /\ fn_backflow m = bs /\ fn_ndet m = fc_ndeterminants c /\
  fn_soft m = fc_envelope_softening c /\ fn_isotropic m = fc_isotropic_decay c /\ fn_full_det m = fc_full_det c /\
  (fn_det_fn m <> None <-> fc_use_det_resnet c = true) /\ determinant_fn_mode (upper (rc_mode (fc_det_resnet c))) = Some (fn_mode m) /\
  (forall i, o_bias (fn_orbitals m i) <> None <-> fc_orbitals_use_bias c = true).
Proof.
  unfold build_ferminet. cbv zeta. intros E. apply bind_some in E. destruct E as (df & Ed & E). apply bind_some in E. destruct E as (mo & Em & E). apply check_some in E.
  destruct E as (_ & E). injection E as <-. cbn. repeat (split; [first [reflexivity|exact Em]|]). split; [|split; [exact Em|intros i; apply if_used_iff]].
  destruct (fc_use_det_resnet c); [|injection Ed as <-; split; congruence]. apply bind_some in Ed. destruct Ed as (a & _ & Ed). apply check_some in Ed. destruct Ed as (_ & Ed).
  injection Ed as <-. split; [reflexivity|discriminate].
Qed.
Lemma streams_fit d c ions : shape2 (length ions) d ions -> ions_fit d (get_compute_input_streams_from_config c ions).
Proof. intros H. exact H. Qed.

(** ** Hidden fermions *)
Lemma add_counts_iff a b : (exists c, add_counts a b = Some c) <-> (length a = length b \/ length a = 1%nat \/ length b = 1%nat).
Proof.
  unfold add_counts. destruct (Nat.eqb_spec (length a) (length b)) as [E|N]; [split; [left; exact E|intros _; eexists; reflexivity]|].
  destruct a as [|x [|x' a]]; destruct b as [|y [|y' b]]; cbn [length] in *; split; intros H; try (eexists; reflexivity); try lia; destruct H as (c & H); discriminate.
Qed.
Lemma add_counts_same a b : length a = length b -> add_counts a b = Some (zipw Nat.add b a).
Proof.
  intros L. unfold add_counts. rewrite L, Nat.eqb_refl. f_equal. revert b L. induction a as [|x a IH]; intros [|y b] L; try discriminate; [reflexivity|].
  unfold zipw in *. cbn [combine map fst snd]. f_equal; [lia|]. apply IH. cbn in L. lia.
Qed.
Lemma embedded_mismatch e nelec x : nelec <> [] -> fn_split (em_net e) = At (get_spin_split nelec) -> length x = list_sum nelec ->
  length (em_nhidden e) <> length nelec -> embedded_call e x = None.
Proof.
  intros NE Es L N. unfold embedded_call, embed. cbv zeta. rewrite Es, L. destruct (particle_split_eq_dec (At (get_spin_split nelec))) as [Ez|Nz].
  - rewrite Ez. reflexivity.
  - rewrite (nelec_describes _ nelec (spin_split_describes nelec NE) Nz). cbn [bind_opt]. rewrite to_nats_of. cbn [bind_opt]. unfold check.
    destruct (Nat.eqb_spec (length (em_nhidden e)) (length nelec)); [contradiction|reflexivity].
Qed.

(** ** Antiequivariance nets *)
Lemma cov_iff c sp th : (exists r, get_sign_covariance_from_config c sp th = Some r) <->
  (qc_use_products_covariance c = true -> known_kernel_init (qc_products_kernel_init c)) /\ (qc_use_products_covariance c = false -> good_backflow (qc_invariance c)).
Proof.
  unfold get_sign_covariance_from_config. destruct (qc_use_products_covariance c).
  - rewrite <- kernel_iff. split; [intros (r & E); apply check_some in E; destruct E as (K & _); split; [intros _; exact K|discriminate]|].
    intros (K & _). rewrite (K eq_refl). eexists. reflexivity.
  - rewrite <- (backflow_iff _ sp (mp_second_backflow th)). split.
    + intros (r & E). apply map_some in E. destruct E as (bs & E & _). split; [discriminate|]. intros _. exists bs. exact E.
    + intros (_ & H). destruct (H eq_refl) as (bs & ->). eexists. reflexivity.
Qed.
Lemma antieq_iff k c sp ions bs th : (exists a, build_antieq k c sp ions bs th = Some a) <->
  Forall known_kernel_init [qc_kernel_init_orbital_linear c; qc_kernel_init_envelope_dim c; qc_kernel_init_envelope_ion c] /\
  known_bias_init (qc_bias_init_orbital_linear c) /\
  (qc_use_products_covariance c = true -> known_kernel_init (qc_products_kernel_init c)) /\ (qc_use_products_covariance c = false -> good_backflow (qc_invariance c)).
Proof.
  rewrite <- (cov_iff c sp th). unfold build_antieq. cbv zeta. split.
  - intros (a & E). apply check_some in E. destruct E as (K & E). repeat rewrite andb_true_iff in K. rewrite !kernel_iff, bias_iff in K.
    apply bind_some in E. destruct E as (r & Er & _). split; [repeat rewrite Forall_cons_iff; intuition (try apply Forall_nil)|]. split; [tauto|]. exists r. exact Er.
  - intros (K & B & (r & Er)). rewrite Er. cbn [bind_opt]. repeat rewrite Forall_cons_iff in K.
    assert (Q : kernel_init (qc_kernel_init_orbital_linear c) && kernel_init (qc_kernel_init_envelope_dim c) && kernel_init (qc_kernel_init_envelope_ion c) && bias_init (qc_bias_init_orbital_linear c) = true)
      by (repeat rewrite andb_true_iff; rewrite !kernel_iff, bias_iff; tauto).
    rewrite Q. destruct k; eexists; reflexivity.
Qed.
Lemma antieq_fields k c sp ions bs th a : build_antieq k c sp ions bs th = Some a ->
  an_split a = sp /\ an_streams a = get_compute_input_streams_from_config (qc_streams c) ions /\ an_backflow a = bs /\ an_kind a = k /\
  get_sign_covariance_from_config c sp th = Some (an_cov a) /\ an_multiply a = qc_multiply_by_eq_features c.
Proof.
  unfold build_antieq. cbv zeta. intros E. apply check_some in E. destruct E as (_ & E). apply bind_some in E. destruct E as (r & Er & E).
  apply bind_some in E. destruct E as (b & Eb & E). injection E as <-. cbn. repeat split; assumption.
Qed.
Lemma cov_built c sp sizes th r : describes sp sizes -> get_sign_covariance_from_config c sp th = Some r ->
  ~ (qc_use_products_covariance c = true /\ qc_products_use_weights c = true) -> readout_built_for sizes r.
Proof.
  intros D E N. unfold get_sign_covariance_from_config in E. destruct (qc_use_products_covariance c).
  - apply check_some in E. destruct E as (_ & E). injection E as <-. destruct (qc_products_use_weights c); [exfalso; apply N; split; reflexivity|exact Logic.I].
  - apply map_some in E. destruct E as (bs & E & <-). cbn. eapply backflow_built; eassumption.
Qed.

(** ** Explicit antisymmetrisation *)
Lemma jb_iff c sp th : (exists r, jastrow_backflow_of c sp th = Some r) <-> (jc_use_separate_backflow c = true -> good_backflow (jc_backflow c)).
Proof.
  unfold jastrow_backflow_of. destruct (jc_use_separate_backflow c); [|split; [discriminate|intros _; eexists; reflexivity]].
  rewrite <- (backflow_iff _ sp (mp_second_backflow th)). split.
  - intros (r & E) _. apply map_some in E. destruct E as (bs & E & _). exists bs. exact E.
  - intros H. destruct (H eq_refl) as (bs & ->). eexists. reflexivity.
Qed.
Lemma two_iff c ions q th : (exists r, two_body_of c ions q th = Some r) <-> length q = length ions.
Proof.
  unfold two_body_of. split; [intros (r & E); apply check_some in E; destruct E as (E & _); apply Nat.eqb_eq; exact E|]. intros ->. rewrite Nat.eqb_refl. eexists. reflexivity.
Qed.
Lemma jastrow_iff c sp ions q th : (exists j, build_jastrow c sp ions q th = Some j) <-> good_jastrow c (length ions) (length q).
Proof.
  unfold build_jastrow, good_jastrow. cbv zeta.
  destruct (String.eqb_spec (jc_type c) "one_body_decay") as [E|N1].
  { rewrite E. rewrite <- kernel_iff. split.
    - intros (j & H). apply check_some in H. left. tauto.
    - intros [(_ & H)|[(H & _)|[(H & _)|(H & _)]]]; try discriminate. rewrite H. eexists. reflexivity. }
  destruct (String.eqb_spec (jc_type c) "two_body_decay") as [E|N2].
  { rewrite E. split.
    - intros (j & H). apply bind_some in H. destruct H as (s & Es & _). right. left. split; [reflexivity|]. apply (two_iff c ions q th). exists s. exact Es.
    - intros [(H & _)|[(_ & H)|[(H & _)|(H & _)]]]; try discriminate. destruct (proj2 (two_iff c ions q th) H) as (s & ->). eexists. reflexivity. }
  destruct (String.eqb_spec (jc_type c) "backflow_based") as [E|N3].
  { rewrite E. rewrite <- (jb_iff c sp th). split.
    - intros (j & H). apply map_some in H. destruct H as (s & Es & _). right. right. left. split; [reflexivity|]. exists s. exact Es.
    - intros [(H & _)|[(H & _)|[(_ & (s & ->))|(H & _)]]]; try discriminate. eexists. reflexivity. }
  destruct (String.eqb_spec (jc_type c) "two_body_decay_and_backflow_based") as [E|N4].
  { rewrite E. rewrite <- (jb_iff c sp th). split.
    - intros (j & H). apply bind_some in H. destruct H as (s & Es & H). apply bind_some in H. destruct H as (bf & Eb & _). right. right. right. split; [reflexivity|].
      split; [apply (two_iff c ions q th); exists s; exact Es|exists bf; exact Eb].
    - intros [(H & _)|[(H & _)|[(H & _)|(_ & H & (bf & Eb))]]]; try discriminate. destruct (proj2 (two_iff c ions q th) H) as (s & ->). rewrite Eb. eexists. reflexivity. }
  split; [intros (j & H); discriminate|]. intros [(H & _)|[(H & _)|[(H & _)|(H & _)]]]; contradiction.
Qed.
Lemma jastrow_built c sp sizes ions q th j : describes sp sizes -> build_jastrow c sp ions q th = Some j -> jastrow_built_for sizes j.
Proof.
  intros D. assert (JB : forall bf, jastrow_backflow_of c sp th = Some bf -> match bf with Some bs => built_for sizes bs | None => True end).
  { intros bf E. unfold jastrow_backflow_of in E. destruct (jc_use_separate_backflow c); [|injection E as <-; exact Logic.I]. apply map_some in E. destruct E as (bs & E & <-). eapply backflow_built; eassumption. }
  unfold build_jastrow. destruct (String.eqb (jc_type c) "one_body_decay"); [intros E; apply check_some in E; destruct E as (_ & E); injection E as <-; exact Logic.I|].
  destruct (String.eqb (jc_type c) "two_body_decay"); [intros E; apply bind_some in E; destruct E as (s & _ & E); injection E as <-; exact Logic.I|].
  destruct (String.eqb (jc_type c) "backflow_based"); [intros E; apply map_some in E; destruct E as (bf & Eb & <-); specialize (JB bf Eb); destruct bf; exact JB|].
  destruct (String.eqb (jc_type c) "two_body_decay_and_backflow_based"); [|discriminate].
  intros E. apply bind_some in E. destruct E as (s & _ & E). apply bind_some in E. destruct E as (bf & Eb & E). injection E as <-. specialize (JB bf Eb). destruct bf; exact JB.
Qed.
Lemma explicit_iff c sp ions q bs th : (exists e, build_explicit c sp ions q bs th = Some e) <->
  good_jastrow (xc_jastrow c) (length ions) (length q) /\ (xc_antisym_type c = "factorized" \/ xc_antisym_type c = "generic") /\ known_activation (xc_activation_fn_resnet c) /\
  known_kernel_init (xc_kernel_init_resnet c) /\ known_bias_init (xc_bias_init_resnet c).
Proof.
  rewrite <- (jastrow_iff _ sp ions q th), <- activation_iff, <- kernel_iff, <- bias_iff. unfold build_explicit. split.
  - intros (e & E). apply bind_some in E. destruct E as (j & Ej & E). apply bind_some in E. destruct E as (k & Ek & E). apply bind_some in E. destruct E as (a & Ea & E).
    apply check_some in E. destruct E as (K & _). apply andb_true_iff in K. split; [exists j; exact Ej|]. split; [|split; [exists a; exact Ea|exact K]].
    destruct (String.eqb_spec (xc_antisym_type c) "factorized"); [left; assumption|]. destruct (String.eqb_spec (xc_antisym_type c) "generic"); [right; assumption|discriminate].
  - intros ((j & ->) & T & (a & ->) & K & B). rewrite K, B. cbn [bind_opt].
    destruct T as [-> | ->]; eexists; reflexivity.
Qed.
Lemma explicit_fields c sp ions q bs th e : build_explicit c sp ions q bs th = Some e ->
  en_split e = sp /\ en_streams e = get_compute_input_streams_from_config (xc_streams c) ions /\ en_backflow e = bs /\ build_jastrow (xc_jastrow c) sp ions q th = Some (en_jastrow e).
Proof.
  unfold build_explicit. intros E. apply bind_some in E. destruct E as (j & Ej & E). apply bind_some in E. destruct E as (k & _ & E). apply bind_some in E. destruct E as (a & _ & E).
  apply check_some in E. destruct E as (_ & E). injection E as <-. repeat split. exact Ej.
Qed.

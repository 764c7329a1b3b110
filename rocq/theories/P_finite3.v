(** * Proofs: finite configurations and parameters build finite layers (C82) *)
From Coq Require Import String Reals List Bool Arith Lia Lra ZArith.
From Verif Require Import XReal Rsum S_physics M_slog M_models M_antisym M_construct M_dispatch S_models S_antisym S_construct S_finite P_xsum P_slog P_split P_equiv P_equiv2 P_jastrow P_models P_inv P_parity P_flips P_sgn P_antisym P_antieq P_leibniz P_signsym P_construct P_construct2 P_construct3 P_construct4 P_construct5 P_dispatch P_total P_finite P_finite2.
Import ListNotations.
Local Open Scope R_scope.

Lemma if_used_bias b (f : nat -> xr) : (forall i, finite (f i)) -> bias_fin (if_used b f).
Proof. intros H c i. unfold if_used. destruct b; [intros [= <-]; apply H|discriminate]. Qed.
Lemma blocks_fin sp l act ub s1 c1 s2 c2 cy tr nh th : (forall a, fin a -> fin (act a)) -> fin c1 -> fin c2 -> (forall i, finite_block (th i)) ->
  forall i bs, get_residual_blocks sp l act ub s1 c1 s2 c2 cy tr nh i th = Some bs -> Forall block_fin bs.
Proof.
  intros Ha H1 H2 Ht. induction l as [|[|n1 rest] l IH]; intros i bs E; cbn [get_residual_blocks] in E; [injection E as <-; constructor|discriminate|]. cbv zeta in E. apply map_some in E. destruct E as (r & Er & <-).
  constructor; [|eapply IH; exact Er]. destruct (Ht i) as (P1 & P2 & P3 & P4 & P5 & P6 & P7 & P8 & P9 & P10 & P11 & P12 & P13 & P14). split; cbn [b_one b_two].
  - unfold layer1_fin. cbn [l1_unmixed l1_bias l1_mixed l1_2e l1_attention l1_act l1_scale]. split; [exact P1|]. split; [apply if_used_bias; exact P2|]. split; [exact P3|]. split; [exact P4|]. split; [|split; assumption].
    intros a. unfold if_used. destruct tr; [|discriminate]. intros [= <-]. unfold attention_fin, attention_of. cbn. repeat (split; [assumption|]). assumption.
  - intros lay. destruct rest as [|n2 rest]; [discriminate|]. intros [= <-]. unfold layer2_fin. cbn. split; [exact P13|]. split; [apply if_used_bias; exact P14|]. split; assumption.
Qed.
Lemma backflow_fin c sp th bs : finite_backflow_config c -> (forall i, finite_block (th i)) -> get_backflow_from_config c sp th = Some bs -> Forall block_fin bs.
Proof.
  intros (H1 & H2) Ht E. unfold get_backflow_from_config in E. apply check_some in E. destruct E as (_ & E). apply bind_some in E. destruct E as (act & Ea & E).
  eapply blocks_fin; [|exact H1|exact H2|exact Ht|exact E]. exact (fin_activation _ _ Ea).
Qed.
Lemma layers_fin n ub p : finite_resnet p -> Forall (fun layer : (nat -> nat -> xr) * option (nat -> xr) => (forall i f, fin (fst layer i f)) /\ bias_fin (snd layer)) (inner_layers n ub p).
Proof. intros (H1 & H2 & _). unfold inner_layers. apply Forall_map, Forall_forall. intros i _. cbn [fst snd]. split; [apply H1|apply if_used_bias; apply H2]. Qed.
Lemma resnet_of_fin n ub p : finite_resnet p -> resnet_fin (resnet_of n ub p).
Proof. intros H. split; cbn [resnet_of rn_inner rn_final]; [apply layers_fin; exact H|apply H]. Qed.
Lemma orbital_of_fin ub p : finite_orbital p -> orbital_fin (orbital_split_of ub p).
Proof. intros (H1 & H2 & H3 & H4 & H5). unfold orbital_fin, orbital_split_of. cbn. split; [exact H1|]. split; [apply if_used_bias; exact H2|]. split; [exact H3|]. split; assumption. Qed.
Lemma hidden_fin ub th i : finite_params th -> dense_fin (hidden_dense ub th i).
Proof. intros (_ & _ & _ & H1 & H2 & _). split; cbn; [apply H1|apply if_used_bias; apply H2]. Qed.
Lemma config_streams_fin c ions : all_finite ions -> streams_fin (get_compute_input_streams_from_config c ions).
Proof. intros H. split; [intros i [= <-]; exact H|]. split; reflexivity. Qed.
Lemma build_net_fin c sp ions bs th n : finite_net_config c -> finite_params th -> Forall block_fin bs -> build_ferminet c sp ions bs th = Some n -> net_fin n.
Proof.
  intros (_ & Hs) (_ & _ & Ho & _ & _ & Hr & _) Hb E. unfold build_ferminet in E. cbv zeta in E. apply bind_some in E. destruct E as (df & Ed & E). apply bind_some in E. destruct E as (mo & _ & E). apply check_some in E.
  destruct E as (_ & E). apply some_inj in E. subst n. unfold net_fin. cbn [fn_backflow fn_orbitals fn_soft fn_det_fn]. split; [exact Hb|]. split; [intros i; apply orbital_of_fin, Ho|]. split; [exact Hs|]. intros fn ->.
  destruct (fc_use_det_resnet c); [|discriminate]. apply bind_some in Ed. destruct Ed as (act & Ea & Ed). apply check_some in Ed. destruct Ed as (_ & Ed). apply some_inj in Ed. apply some_inj in Ed. subst fn.
  intros k v Fv. unfold resnet_determinant_fn. apply resnet_finite; [exact (fin_activation _ _ Ea)|apply layers_fin; exact Hr|apply Hr|apply fins_concat; exact Fv].
Qed.
Lemma cov_fin c sp th r : finite_antieq_config c -> finite_params th -> get_sign_covariance_from_config c sp th = Some r -> readout_fin r.
Proof.
  intros (_ & Hc) (_ & H2 & _ & _ & _ & _ & _ & Hp & _) E. unfold get_sign_covariance_from_config in E. destruct (qc_use_products_covariance c).
  - apply check_some in E. destruct E as (_ & E). apply some_inj in E. subst r. intros k. unfold if_used. destruct (qc_products_use_weights c); [intros [= <-]; exact Hp|discriminate].
  - apply map_some in E. destruct E as (bs & E & <-). cbn. eapply backflow_fin; eassumption.
Qed.
Lemma as_number_fin v : fin (as_number v).
Proof. destruct v as [[| |]|]; reflexivity. Qed.
Lemma build_antieq_fin k c sp ions bs th a : finite_antieq_config c -> finite_params th -> Forall block_fin bs -> build_antieq k c sp ions bs th = Some a -> antieq_fin a.
Proof.
  intros Hc Hp Hb E. pose proof Hp as (_ & _ & Ho & _). unfold build_antieq in E. cbv zeta in E. apply check_some in E. destruct E as (_ & E). apply bind_some in E. destruct E as (r & Er & E). apply bind_some in E. destruct E as (b & Eb & E).
  apply some_inj in E. subst a. unfold antieq_fin. cbn [an_backflow an_orbitals an_soft an_cov]. split; [exact Hb|]. split; [intros i; apply orbital_of_fin, Ho|]. split; [apply as_number_fin|]. eapply cov_fin; eassumption.
Qed.
Lemma build_jastrow_fin c sp ions q th j : finite_backflow_config (jc_backflow c) -> finite (jc_init_ee_strength c) -> finite_params th -> all_finite ions -> fins q -> build_jastrow c sp ions q th = Some j -> jastrow_fin j.
Proof.
  intros Hc He (_ & H2 & _ & _ & _ & _ & _ & _ & Hd & Hei & Hee) Fi Fq E.
  assert (T : forall s, two_body_of c ions q th = Some s -> all_finite ions /\ fins q /\ fins (fst s) /\ fin (snd s)).
  { intros s Es. unfold two_body_of in Es. apply check_some in Es. destruct Es as (_ & Es). apply some_inj in Es. subst s. split; [exact Fi|]. split; [exact Fq|]. destruct (jc_trainable c); cbn [fst snd]; [|split; assumption].
    split; [|exact Hee]. apply Forall_map, Forall_forall. intros i _. apply Hei. }
  assert (F : forall bs, jastrow_backflow_of c sp th = Some bs -> forall b, bs = Some b -> Forall block_fin b).
  { intros bs Eb b ->. unfold jastrow_backflow_of in Eb. destruct (jc_use_separate_backflow c); [|discriminate]. apply map_some in Eb. destruct Eb as (b' & Eb & Q). injection Q as <-. eapply backflow_fin; eassumption. }
  unfold build_jastrow in E. destruct (String.eqb (jc_type c) _).
  { apply check_some in E. destruct E as (_ & E). apply some_inj in E. subst j. exact Hd. }
  destruct (String.eqb (jc_type c) _); [apply bind_some in E; destruct E as (s & Es & E); apply some_inj in E; subst j; exact (T s Es)|].
  destruct (String.eqb (jc_type c) _); [apply map_some in E; destruct E as (b & Eb & <-); exact (F b Eb)|].
  destruct (String.eqb (jc_type c) _); [|discriminate]. apply bind_some in E. destruct E as (s & Es & E). apply bind_some in E. destruct E as (b & Eb & E). apply some_inj in E. subst j.
  split; [exact (T s Es)|exact (F b Eb)].
Qed.
Lemma build_explicit_fin c sp ions q bs th e : finite_backflow_config (jc_backflow (xc_jastrow c)) -> finite (jc_init_ee_strength (xc_jastrow c)) -> finite_params th -> all_finite ions -> fins q -> Forall block_fin bs ->
  build_explicit c sp ions q bs th = Some e -> explicit_fin e /\ (is_factorized (en_antisym e) -> xc_antisym_type c = "factorized"%string).
Proof.
  intros Hc He Hp Fi Fq Hb E. pose proof Hp as (_ & _ & _ & _ & _ & _ & Hr & _). unfold build_explicit in E. apply bind_some in E. destruct E as (j & Ej & E). apply bind_some in E. destruct E as (k & Ek & E). apply bind_some in E. destruct E as (a & Ea & E).
  apply check_some in E. destruct E as (_ & E). apply some_inj in E. subst e. unfold explicit_fin. cbn [en_backflow en_jastrow en_act en_antisym].
  assert (K : match k with Factorized _ rs => forall b k, resnet_fin (rs b k) | Generic r => resnet_fin r end /\ (is_factorized k -> xc_antisym_type c = "factorized"%string)).
  { destruct (String.eqb_spec (xc_antisym_type c) "factorized") as [Z|_]; [apply some_inj in Ek; subst k; split; [intros; apply resnet_of_fin, Hr|intros _; exact Z]|].
    destruct (String.eqb (xc_antisym_type c) "generic"); [|discriminate]. apply some_inj in Ek. subst k. split; [apply resnet_of_fin, Hr|intros []]. }
  split; [|exact (proj2 K)]. split; [exact Hb|]. split; [eapply build_jastrow_fin; eassumption|]. split; [exact (fin_activation _ _ Ea)|exact (proj1 K)].
Qed.
Lemma det_products_kth m O : det_products m O = map (kth_determinant (fn_full_det m) O) (seq 0 (fn_ndet m)).
Proof.
  unfold det_products, kth_determinant, determinant_slices. rewrite map_map. apply map_ext_in. intros k Hk. apply in_seq in Hk. destruct (fn_full_det m); [|reflexivity]. cbv zeta. cbn [map]. unfold lprod. cbn [fold_right]. rewrite Rmult_1_r.
  rewrite map_map. rewrite (nth_indep _ [] (concat (map (fun o : list arr2 => nth 0 o []) O))) by (rewrite map_length, seq_length; lia).
  rewrite (map_nth (fun i => concat (map (fun o : list arr2 => nth i o []) O)) (seq 0 (fn_ndet m)) 0%nat k). rewrite seq_nth by lia. reflexivity.
Qed.

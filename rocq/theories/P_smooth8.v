(** * Proofs: the embedded-particle FermiNet; configured layers; coincidences *)
From Coquelicot Require Import Coquelicot.
From Coq Require Import String Reals List Bool Arith Lia Lra ZArith.
From Verif Require Import XReal S_physics M_slog M_models M_antisym M_construct M_dispatch S_models S_antisym S_construct S_finite P_xsum P_slog P_split P_equiv P_equiv2 P_jastrow P_models P_inv P_parity P_flips P_sgn P_antisym P_antieq P_leibniz P_signsym P_construct P_construct2 P_construct3 P_construct4 P_construct5 P_dispatch P_total P_finite P_finite2 P_finite3 P_smooth P_smooth2 P_smooth3 P_smooth4 P_smooth5 P_smooth6 P_smooth7 Rsum Det S_smooth.
Import ListNotations.
Local Open Scope R_scope.

(** ** The embedded-particle FermiNet *)
Lemma embedded_smooth e sizes d X : describes (fn_split (em_net e)) sizes -> fn_split (em_net e) <> At [] -> built_for sizes (em_backflow e) -> ions_fit d (em_streams e) ->
  (length (em_nhidden e) = length sizes -> built_for (embedded_sizes sizes e) (fn_backflow (em_net e))) -> ions_fit d (fn_streams (em_net e)) ->
  positive sizes -> (0 < list_sum sizes)%nat -> net_fin (em_net e) -> streams_fin (fn_streams (em_net e)) -> streams_fin (em_streams e) -> Forall block_fin (em_backflow e) -> (forall i, dense_fin (em_dense e i)) ->
  Forall block_act (fn_backflow (em_net e)) -> Forall block_act (em_backflow e) -> (forall fn, fn_det_fn (em_net e) = Some fn -> smooth_det_fn fn) -> (fn_isotropic (em_net e) = true \/ fn_soft (em_net e) <> Fin 0) ->
  away (em_streams e) (X 0) -> (forall z s, embed e (X 0) = Some (z, s) -> shape2 (length z) d z -> away (fn_streams (em_net e)) z) -> shape2 (list_sum sizes) d (X 0) -> fam2 X -> smooth_value (fun t => embedded_call e (X t)).
Proof.
  intros D Ns B Fi B' Fi' Ps N Nf Sf (I1 & I2 & I3) Bf Hd Ba Ba2 Hdf Ok (Ci & Ap) Hz Sx HX.
  destruct (streams_smooth (em_streams e) X) as (H1 & H2 & _); try assumption; [intros ions E; split; [apply I1; exact E|apply Ci; exact E]|].
  destruct (famO_opt _ _ H2) as (Y2 & HY2 & E2). pose proof Sx as (L & _). set (m := em_net e) in *.
  pose proof (embed_spec e sizes d (fun i => i) (X 0) D B Fi) as Q.
  assert (K : keeps_spins sizes (fun i => i)) by (split; [unfold renumbering; rewrite map_id; apply Permutation.Permutation_refl|intros; reflexivity]). specialize (Q K N Sx).
  destruct (Nat.eqb (length (em_nhidden e)) (length sizes)) eqn:Lh.
  2: { apply (smooth_ext (fun _ => None)); [|apply smooth_raises]. intros t. unfold embedded_call, embed. cbv zeta. fold m. rewrite (fam_length _ X HX t), L, (nelec_describes _ sizes D Ns). cbn [bind_opt]. rewrite to_nats_of. cbn [bind_opt]. rewrite Lh. reflexivity. }
  set (osplit := At (get_spin_split (zipw Nat.add sizes (em_nhidden e)))).
  set (W := fun t s => concat (zipw (fun p h : list vec => p ++ h) (cut sizes (X t)) (invariant_tensor (fn_split m) (Some (em_backflow e)) (invariance_params (em_dense e) (map (fun n => (n, width (X 0))) (em_nhidden e))) s (at_t Y2 t)))).
  assert (Ee : forall t, embed e (X t) = bind_opt (stream1 (em_streams e) (X t)) (fun s => check (backflow_ok (em_backflow e) (length (X 0))) (Some (W t s, osplit)))).
  { intros t. unfold embed. cbv zeta. fold m. rewrite (fam_length _ X HX t), L, (nelec_describes _ sizes D Ns). cbn [bind_opt]. rewrite to_nats_of. cbn [bind_opt]. rewrite Lh. cbn [check]. rewrite (split_cut _ sizes (X t) D) by (rewrite (fam_length _ X HX t); exact L). cbn [bind_opt].
    unfold W. rewrite <- E2, <- (fam_width X HX t). unfold stream1, stream2. destruct (compute_input_streams (em_streams e) (X t)) as (((i1, i2), r1), r2). cbn [fst snd]. reflexivity. }
  apply (smooth_ext (fun t => bind_opt (stream1 (em_streams e) (X t)) (fun s => check (backflow_ok (em_backflow e) (length (X 0))) (bind_opt (ferminet_orbital_matrices m (W t s) osplit) (psi_from_orbitals m))))).
  { intros t. unfold embedded_call. fold m. rewrite Ee. destruct (stream1 (em_streams e) (X t)) as [s|]; [|reflexivity]. cbn [bind_opt]. destruct (backflow_ok (em_backflow e) (length (X 0))); reflexivity. }
  apply (smooth_none fam2 (fun t => stream1 (em_streams e) (X t)) (fun t s => check (backflow_ok (em_backflow e) (length (X 0))) (bind_opt (ferminet_orbital_matrices m (W t s) osplit) (psi_from_orbitals m)))); [exact H1|].
  intros s Hs1 Es. apply smooth_check. intros Hok.
  destruct (compute_input_streams (em_streams e) (X 0)) as (((i1, i2), r1), r2) eqn:E. destruct (streams_shape _ _ _ _ Sx Fi _ _ _ _ E) as (S1 & (d2 & S2) & _).
  pose proof (Es 0) as Es0. pose proof (E2 0) as E20. unfold stream1 in Es0. unfold stream2 in E20. rewrite E in Es0, E20. cbn [fst snd] in Es0, E20. destruct (S1 _ Es0) as (d1 & Sx1). rewrite E20 in S2.
  assert (EE : embed e (X 0) = Some (W 0 (s 0), osplit)) by (rewrite Ee, Es; cbn [bind_opt]; rewrite Hok; reflexivity).
  rewrite EE in Q. destruct (embed e (reorder _ (X 0))) as [q'|]; [|contradiction]. destruct Q as (_ & D' & S' & N' & _). cbn [fst snd] in D', S'.
  assert (HW : fam2 (fun t => W t (s t))).
  { unfold W. apply fam_concat, (fam_zipw fam2 fam2 fam2 (fun _ (p h : list vec) => p ++ h)); [intros f g Hf Hg; apply fam_app; assumption|apply fam_cut; exact HX|].
    destruct (backflow_shape (em_backflow e) sizes (s 0) (at_t Y2 0) d1 d2 B Sx1 S2) as (d' & (Lb & _)).
    apply (fam_tensor (fn_split m) (Some (em_backflow e)) (em_dense e) _ sizes s (fun t => at_t Y2 t) D Ps Hd Lb). apply (fam_backflow (em_backflow e) sizes) with (d := d1) (d2 := d2); assumption. }
  assert (Sw : shape2 (length (W 0 (s 0))) d (W 0 (s 0))) by (split; [reflexivity|apply S']). destruct (Hz _ _ EE Sw) as (Cz & Az).
  apply (smooth_none (famL (famL fam2)) (fun t => ferminet_orbital_matrices m (W t (s t)) osplit) (fun _ => psi_from_orbitals m)); [|intros O HO _; apply psi_smooth; assumption].
  apply Nat.eqb_eq in Lh. apply (fam_matrices m osplit (embedded_sizes sizes e) d (fun t => W t (s t))); try assumption; [apply B'; exact Lh|apply zipw_positive; [exact Ps|symmetry; exact Lh]].
Qed.

(** ** Configured layers *)
Lemma blocks_act sp l act ub s1 c1 s2 c2 cy tr nh th : act_sm act -> forall i bs, get_residual_blocks sp l act ub s1 c1 s2 c2 cy tr nh i th = Some bs -> Forall block_act bs.
Proof.
  intros Ha. induction l as [|[|n1 rest] l IH]; intros i bs E; cbn [get_residual_blocks] in E; [injection E as <-; constructor|discriminate|]. cbv zeta in E. apply map_some in E. destruct E as (r & Er & <-).
  constructor; [|eapply IH; exact Er]. split; cbn [b_one b_two l1_act]; [exact Ha|]. intros lay. destruct rest as [|n2 rest]; [discriminate|]. intros [= <-]. exact Ha.
Qed.
Lemma backflow_act c sp th bs : get_backflow_from_config c sp th = Some bs -> Forall block_act bs.
Proof.
  intros E. unfold get_backflow_from_config in E. apply check_some in E. destruct E as (_ & E). apply bind_some in E. destruct E as (act & Ea & E). eapply blocks_act; [|exact E]. exact (sm_activation _ _ Ea).
Qed.
Lemma built_det_fn c sp ions bs th n : finite_params th -> build_ferminet c sp ions bs th = Some n -> forall fn, fn_det_fn n = Some fn -> smooth_det_fn fn.
Proof.
  intros (_ & _ & _ & _ & _ & Hr & _) E. unfold build_ferminet in E. cbv zeta in E. apply bind_some in E. destruct E as (df & Ed & E). apply bind_some in E. destruct E as (mo & _ & E). apply check_some in E.
  destruct E as (_ & E). apply some_inj in E. subst n. cbn [fn_det_fn]. intros fn ->. destruct (fc_use_det_resnet c); [|discriminate]. apply bind_some in Ed. destruct Ed as (act & Ea & Ed). apply check_some in Ed. destruct Ed as (_ & Ed). apply some_inj in Ed. apply some_inj in Ed. subst fn.
  intros k X HX. unfold resnet_determinant_fn. apply fam_resnet; [apply layers_fin; exact Hr|apply Hr|exact (sm_activation _ _ Ea)|apply fam_concat; exact HX].
Qed.
Lemma cov_act c sp th r : get_sign_covariance_from_config c sp th = Some r -> readout_act r.
Proof.
  intros E. unfold get_sign_covariance_from_config in E. destruct (qc_use_products_covariance c); [apply check_some in E; destruct E as (_ & E); apply some_inj in E; subst r; exact Logic.I|].
  apply map_some in E. destruct E as (bs & E & <-). cbn. eapply backflow_act; exact E.
Qed.
Lemma antieq_envelopes k c sp ions bs th a : build_antieq k c sp ions bs th = Some a -> (k = Cofactor -> qc_orbitals_use_bias c = true) -> (k = PerParticle -> qc_isotropic_decay c = true) -> an_isotropic a = true \/ an_soft a <> Fin 0.
Proof.
  unfold build_antieq. cbv zeta. intros E H1 H2. apply check_some in E. destruct E as (_ & E). apply bind_some in E. destruct E as (r & Er & E). apply bind_some in E. destruct E as (b & Eb & E). apply some_inj in E. subst a. cbn [an_isotropic an_soft].
  destruct k.
  - right. rewrite (H1 eq_refl) in Eb. apply some_inj in Eb. subst b. cbn. intros Z. injection Z as Z. lra.
  - left. rewrite (H2 eq_refl) in Eb. apply some_inj in Eb. subst b. reflexivity.
Qed.
Lemma explicit_act c sp ions q bs th e : build_explicit c sp ions q bs th = Some e -> act_sm (en_act e).
Proof.
  unfold build_explicit. intros E. apply bind_some in E. destruct E as (j & Ej & E). apply bind_some in E. destruct E as (k & _ & E). apply bind_some in E. destruct E as (a & Ea & E). apply check_some in E. destruct E as (_ & E). apply some_inj in E. subst e. cbn [en_act].
  exact (sm_activation _ _ Ea).
Qed.
Lemma jastrow_acts c sp ions q th j : build_jastrow c sp ions q th = Some j -> jastrow_act j.
Proof.
  intros E b Hb. assert (K : forall bs, jastrow_backflow_of c sp th = Some bs -> bs = Some b -> Forall block_act b).
  { intros bs Eb ->. unfold jastrow_backflow_of in Eb. destruct (jc_use_separate_backflow c); [|discriminate]. apply map_some in Eb. destruct Eb as (b' & Eb & Z). injection Z as ->. eapply backflow_act. exact Eb. }
  unfold build_jastrow in E. destruct (String.eqb (jc_type c) "one_body_decay"); [apply check_some in E; destruct E as (_ & E); apply some_inj in E; subst j; discriminate|].
  destruct (String.eqb (jc_type c) "two_body_decay"); [apply bind_some in E; destruct E as (s & _ & E); apply some_inj in E; subst j; discriminate|].
  destruct (String.eqb (jc_type c) "backflow_based"); [apply map_some in E; destruct E as (bs & Eb & <-); cbn in Hb; injection Hb as Hb; exact (K bs Eb Hb)|].
  destruct (String.eqb (jc_type c) "two_body_decay_and_backflow_based"); [|discriminate]. apply bind_some in E. destruct E as (s & _ & E). apply bind_some in E. destruct E as (bs & Eb & E). apply some_inj in E. subst j. cbn in Hb. injection Hb as Hb. exact (K bs Eb Hb).
Qed.

(** ** Coincidences *)
Lemma sumsq_zero a b : fins a -> fins b -> length a = length b -> sumsq (zipw xsub a b) = Fin 0 -> a = b.
Proof.
  intros Ha. revert b. assert (G : forall a b, fins a -> fins b -> exists s, 0 <= s /\ sumsq (zipw xsub a b) = Fin s).
  { clear. intros a b Ha. revert b. induction Ha as [|u a Hu _ IH]; intros b Hb; [exists 0; split; [lra|reflexivity]|]. destruct Hb as [|v b Hv Hb]; [exists 0; split; [lra|reflexivity]|]. destruct (IH b Hb) as (s & P & E).
    apply fin_iff in Hu, Hv. destruct Hu as (u' & ->), Hv as (v' & ->). exists ((u' - v') * (u' - v') + s). pose proof (Rle_0_sqr (u' - v')) as Q. unfold Rsqr in Q. split; [lra|]. unfold sumsq, xsum, zipw in *. cbn [combine map fst snd fold_right]. rewrite E. reflexivity. }
  induction Ha as [|u a Hu Ha IH]; intros b Hb L E; destruct Hb as [|v b Hv Hb]; try discriminate; [reflexivity|]. apply fin_iff in Hu, Hv. destruct Hu as (u' & ->), Hv as (v' & ->). destruct (G a b Ha Hb) as (s & P & Es).
  pose proof (Rle_0_sqr (u' - v')) as Q. unfold Rsqr in Q. assert (Z : (u' - v') * (u' - v') + s = 0).
  { unfold sumsq, xsum, zipw in *. cbn [combine map fst snd fold_right] in E. rewrite Es in E. cbn in E. injection E as E. rewrite <- E. unfold Rminus. ring. }
  assert (s = 0) by lra. subst s. assert (W : (u' - v') * (u' - v') = 0) by lra. apply Rmult_integral in W. assert (u' = v') by (destruct W; lra). subst v'. f_equal. apply (IH b Hb); [cbn in L; lia|exact Es].
Qed.
Lemma rows_apart z d : all_finite z -> shape2 (length z) d z -> NoDup z -> apart z.
Proof.
  intros F (_ & Sh) ND i j Hi Hj Ne E. unfold all_finite in F. rewrite Forall_forall in F, Sh. apply Ne. rewrite NoDup_nth in ND. apply (ND i j Hi Hj).
  apply sumsq_zero; [apply F, nth_In; exact Hi|apply F, nth_In; exact Hj|rewrite !Sh by (apply nth_In; assumption); reflexivity|exact E].
Qed.
Lemma rows_clear ions z n d : all_finite z -> all_finite ions -> shape2 n d z -> shape2 (length ions) d ions -> (forall a, In a z -> ~ In a ions) -> clear_of ions z.
Proof.
  intros F Fi (_ & Sh) (_ & Si) H a b Ha Hb E. unfold all_finite in F, Fi. rewrite Forall_forall in F, Fi, Sh, Si. apply (H a Ha). replace a with b; [exact Hb|]. symmetry. apply sumsq_zero; [apply F; exact Ha|apply Fi; exact Hb|rewrite Sh, Si by assumption; reflexivity|exact E].
Qed.
Lemma position_row n d y i : (i < n)%nat -> nth i (position_array n d y) [] = map (fun k => Fin (y i k)) (seq 0 d).
Proof.
  intros Hi. unfold position_array. rewrite (nth_indep _ [] (map (fun k => Fin (y 0%nat k)) (seq 0 d))) by (rewrite map_length, seq_length; exact Hi).
  rewrite (map_nth (fun i => map (fun k => Fin (y i k)) (seq 0 d)) (seq 0 n) 0%nat i). rewrite seq_nth by exact Hi. reflexivity.
Qed.
Lemma same_place d (a b : nat -> R) : map (fun k => Fin (a k)) (seq 0 d) = map (fun k => Fin (b k)) (seq 0 d) -> soft_distance d 0 a b = 0.
Proof.
  intros E. assert (H : forall k, (k < d)%nat -> a k = b k).
  { intros k Hk. apply (f_equal (fun l => nth k l NaN)) in E. rewrite !(nth_indep _ NaN (Fin (a 0%nat))) in E by (rewrite map_length, seq_length; exact Hk).
    rewrite (map_nth (fun k => Fin (a k)) (seq 0 d) 0%nat k) in E. rewrite (nth_indep _ (Fin (a 0%nat)) (Fin (b 0%nat))) in E by (rewrite map_length, seq_length; exact Hk).
    rewrite (map_nth (fun k => Fin (b k)) (seq 0 d) 0%nat k) in E. rewrite seq_nth in E by exact Hk. injection E as E. exact E. }
  unfold soft_distance, distance. replace (Rsum d (fun c => (a c - b c) ^ 2)) with 0; [rewrite sqrt_0; replace (0 ^ 2 + 0 ^ 2) with 0 by ring; apply sqrt_0|].
  rewrite <- (Rsum_0 d). apply Rsum_ext. intros c Hc. rewrite (H c Hc). ring.
Qed.
Lemma positions_finite n d y : all_finite (position_array n d y).
Proof. unfold all_finite, position_array. apply Forall_map, Forall_forall. intros i _. apply Forall_map, Forall_forall. intros k _. reflexivity. Qed.
Lemma positions_apart n d y : no_coincidence d 0 n y -> NoDup (position_array n d y).
Proof.
  intros H. apply (NoDup_nth _ []). intros i j Hi Hj E. unfold position_array in Hi, Hj. rewrite map_length, seq_length in Hi, Hj. rewrite !position_row in E by assumption.
  destruct (Nat.eq_dec i j) as [Q|Q]; [exact Q|]. exfalso. apply (H i j Hi Hj Q). apply same_place. exact E.
Qed.
Lemma positions_off_ions n d y (ions : list (list R)) : Forall (fun a => length a = d) ions -> no_ion_coincidence d 0 n (length ions) y (fun j k => nth k (nth j ions []) 0) ->
  forall a, In a (position_array n d y) -> ~ In a (map (map Fin) ions).
Proof.
  intros Si H a Ha Hb. unfold position_array in Ha. apply in_map_iff in Ha. destruct Ha as (i & <- & Hi). apply in_seq in Hi. apply in_map_iff in Hb. destruct Hb as (b & Eb & Hb).
  destruct (In_nth _ _ [] Hb) as (j & Hj & Ej). rewrite Forall_forall in Si. apply (H i j); [lia|exact Hj|]. apply same_place. rewrite Ej, <- Eb. rewrite <- (Si b Hb).
  clear. apply (list_eq_nth _ _ NaN); [rewrite !map_length, seq_length; reflexivity|]. intros k Hk. rewrite map_length in Hk. rewrite (nth_indep _ NaN (Fin 0)) by (rewrite map_length; exact Hk). rewrite (map_nth Fin b 0 k).
  rewrite (nth_indep _ NaN (Fin (nth 0 b 0))) by (rewrite map_length, seq_length; exact Hk). rewrite (map_nth (fun k => Fin (nth k b 0)) (seq 0 (length b)) 0%nat k). rewrite seq_nth by exact Hk. reflexivity.
Qed.
Lemma embed_finite e sizes d x z s : describes (fn_split (em_net e)) sizes -> fn_split (em_net e) <> At [] -> built_for sizes (em_backflow e) -> ions_fit d (em_streams e) -> positive sizes ->
  streams_fin (em_streams e) -> Forall block_fin (em_backflow e) -> (forall i, dense_fin (em_dense e i)) -> shape2 (list_sum sizes) d x -> all_finite x -> embed e x = Some (z, s) -> all_finite z.
Proof.
  intros D Ns B Fi Ps (I1 & I2 & I3) Bf Hd Sx Fx Eq. pose proof Sx as (L & _).
  unfold embed in Eq. cbv zeta in Eq. rewrite L, (nelec_describes _ sizes D Ns) in Eq. cbn [bind_opt] in Eq. rewrite to_nats_of in Eq. cbn [bind_opt] in Eq. apply check_some in Eq. destruct Eq as (Lh & Eq).
  rewrite (split_cut _ sizes x D L) in Eq. cbn [bind_opt] in Eq. destruct (compute_input_streams (em_streams e) x) as (((i1, i2), r1), r2) eqn:Es.
  destruct (streams_shape _ _ _ _ Sx Fi _ _ _ _ Es) as (S1 & (d2 & S2) & _). destruct (streams_finite _ _ _ _ _ _ I1 I2 I3 Fx Es) as (G1 & G2 & _).
  apply bind_some in Eq. destruct Eq as (x1 & E1 & Eq). apply check_some in Eq. destruct Eq as (_ & Eq). injection Eq as <- _.
  destruct (S1 x1 E1) as (d1 & Sx1). destruct (backflow_shape (em_backflow e) sizes x1 i2 d1 d2 B Sx1 S2) as (d' & (Lb & _)).
  apply concat_finite. apply (zipw_forall all_finite all_finite all_finite); [intros a b Ha Hb; apply Forall_app; split; assumption|apply cut_finite; exact Fx|].
  apply (tensor_finite _ (Some (em_backflow e)) _ _ sizes); try assumption. apply (backflow_finite _ sizes _ _ d1 d2); try assumption. apply (G1 x1 E1).
Qed.

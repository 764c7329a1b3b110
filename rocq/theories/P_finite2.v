(** * Proofs: every configured wavefunction is a number at finite positions *)
From Coq Require Import String Reals List Bool Arith Lia Lra ZArith.
From Verif Require Import XReal Rsum S_physics M_slog M_models M_antisym M_construct M_dispatch S_models S_antisym S_construct P_xsum P_slog P_split P_equiv P_equiv2 P_jastrow P_models P_inv P_parity P_flips P_sgn P_antisym P_antieq P_leibniz P_signsym P_construct P_construct2 P_construct3 P_construct4 P_construct5 P_dispatch P_total P_finite.
Import ListNotations.
Local Open Scope R_scope.

(** ** FermiNet *)
Lemma reshape_finite nd l r : reshape_raw_orbitals nd l = Some r -> all_finite l -> Forall all_finite r.
Proof.
  unfold reshape_raw_orbitals. cbv zeta. destruct (Nat.eqb nd 0); [discriminate|]. destruct (Nat.eqb _ 0); [|discriminate]. intros [= <-] H. apply Forall_map, Forall_forall. intros k _.
  apply Forall_map. eapply Forall_impl; [|exact H]. intros row Hr. apply fins_firstn, fins_skipn, Hr.
Qed.
Definition net_fin (m : ferminet) : Prop :=
  Forall block_fin (fn_backflow m) /\ (forall i, orbital_fin (fn_orbitals m i)) /\ fin (fn_soft m) /\ (forall fn, fn_det_fn m = Some fn -> finite_det_fn fn).
Definition streams_fin (o : stream_options) : Prop := (forall ions, so_ion_pos o = Some ions -> all_finite ions) /\ fin (so_ei_soft o) /\ fin (so_ee_soft o).
Lemma set_norb_fin n p : orbital_fin p -> orbital_fin (set_norb n p).
Proof. intros H. exact H. Qed.
Lemma eval_finite m osplit sizes norbs x r O : describes osplit sizes -> net_fin m -> length x = list_sum sizes -> all_finite x -> (forall y, r = Some y -> length y = list_sum sizes /\ fin3 y) ->
  eval_orbitals m osplit norbs x r = Some O -> Forall (Forall all_finite) O.
Proof.
  intros D (_ & Ho & Hs & _) L Fx Fr E. unfold eval_orbitals in E. apply check_some in E. destruct E as (_ & E). revert E.
  apply (sequence_forall2 (reshape_raw_orbitals (fn_ndet m)) all_finite); [intros a b Eab Ha; apply (reshape_finite _ _ _ Eab Ha)|].
  apply (orbitals_finite _ sizes); try assumption. cbn [orbital_layer_of ol_splits]. apply mapi_forall. intros i n _. apply set_norb_fin, Ho.
Qed.
Lemma matrices_finite m osplit sizes d x O : describes osplit sizes -> built_for sizes (fn_backflow m) -> ions_fit d (fn_streams m) -> positive sizes -> net_fin m -> streams_fin (fn_streams m) ->
  shape2 (list_sum sizes) d x -> all_finite x -> ferminet_orbital_matrices m x osplit = Some O -> Forall (Forall all_finite) O.
Proof.
  intros D B Fi Ps Nf (I1 & I2 & I3) Sx Fx. unfold ferminet_orbital_matrices. destruct (compute_input_streams (fn_streams m) x) as (((i1, i2), r1), r2) eqn:E.
  destruct (streams_shape _ _ _ _ Sx Fi _ _ _ _ E) as (S1 & (d2 & S2) & S3 & _). destruct (streams_finite _ _ _ _ _ _ I1 I2 I3 Fx E) as (G1 & G2 & G3 & _).
  intros EO. apply bind_some in EO. destruct EO as (x1 & E1 & EO). apply check_some in EO. destruct EO as (_ & EO). cbv zeta in EO. apply bind_some in EO. destruct EO as (norbs & _ & EO).
  destruct (S1 x1 E1) as (d1 & Sx1). destruct (backflow_shape (fn_backflow m) sizes x1 i2 d1 d2 B Sx1 S2) as (d' & (Lb & _)).
  apply (eval_finite m osplit sizes norbs (backflow (fn_backflow m) x1 i2) r1 O D Nf Lb); [|intros y ->; split; [exact S3|exact G3]|exact EO]. apply (backflow_finite _ sizes _ _ d1 d2); try assumption; [exact (proj1 Nf)|exact (G1 x1 E1)].
Qed.

(** ** From the matrices to psi *)
Definition number (p : slog) : Prop := exists psi : R, p = slog_of psi.
(** A sum of signed logarithms of the numbers in l. *)
Definition summed (p : slog) (l : list R) : Prop := ((exists v, In v l /\ v <> 0) -> p = slog_of (lsum l)) /\ ((forall v, In v l -> v = 0) -> p = (NaN, NaN)).
Lemma log_sum_spec l p : log_linear_exp (map slog_of l) = Some p -> summed p l.
Proof.
  intros E. split; intros H; [rewrite (log_linear_exp_of l H) in E; congruence|]. destruct l as [|a l]; [discriminate E|]. rewrite (log_linear_exp_zeros (a :: l)) in E; [congruence|discriminate|exact H].
Qed.
Lemma summed_value p l : summed p l -> number p \/ p = (NaN, NaN).
Proof.
  intros (H1 & H2). destruct (Exists_dec (fun v => v <> 0) l) as [X|X]; [intros v; destruct (Req_EM_T v 0) as [->|N]; [right; intros Z; congruence|left; exact N]|left|right].
  - exists (lsum l). apply H1. apply Exists_exists in X. exact X.
  - apply H2. intros v Hv. destruct (Req_EM_T v 0) as [Z|N]; [exact Z|]. exfalso. apply X. apply Exists_exists. exists v. split; assumption.
Qed.
(** The real determinant of a matrix of finite entries. *)
Definition real_det (m : arr2) : R := Det.det (length m) (fun i j => val (nth j (nth i m []) (Fin 0))).
Lemma slogdet_real m q : all_finite m -> linalg_slogdet m = Some q -> q = slog_of (real_det m).
Proof.
  intros F E. unfold linalg_slogdet, linalg_det in E. destruct (is_square m); [|discriminate]. cbn [option_map] in E. injection E as <-.
  assert (G : forallb (forallb isfin) m = true).
  { apply forallb_forall. intros r Hr. apply forallb_forall. unfold all_finite in F. rewrite Forall_forall in F. specialize (F r Hr). rewrite Forall_forall in F. exact F. }
  rewrite G. apply to_slog_fin.
Qed.
Lemma slogdet_seq_real L l : Forall all_finite L -> sequence (map linalg_slogdet L) = Some l -> l = map slog_of (map real_det L).
Proof.
  intros F. revert l. induction F as [|m L Fm _ IH]; intros l E; cbn [map sequence] in *; [injection E as <-; reflexivity|].
  destruct (linalg_slogdet m) as [q|] eqn:Eq; [|discriminate]. destruct (sequence (map linalg_slogdet L)) as [r|]; [|discriminate]. injection E as <-. rewrite (slogdet_real m q Fm Eq), (IH r eq_refl). reflexivity.
Qed.
Lemma fold_mul_of l a : fold_left slog_multiply (map slog_of l) (slog_of a) = slog_of (a * lprod l).
Proof. revert a. induction l as [|b l IH]; intros a; cbn [map fold_left lprod fold_right]; [rewrite Rmult_1_r; reflexivity|]. rewrite slog_multiply_of, IH. f_equal. unfold lprod. cbn [fold_right]. ring. Qed.
Lemma product_real L q : Forall all_finite L -> slogdet_product L = Some q -> q = slog_of (lprod (map real_det L)).
Proof.
  intros F E. unfold slogdet_product in E. destruct (sequence (map linalg_slogdet L)) as [l|] eqn:El; [|discriminate]. rewrite (slogdet_seq_real L l F El) in E. destruct L as [|m L]; [discriminate|].
  cbn [map reduce] in E. rewrite fold_mul_of in E. cbn [map]. unfold lprod. cbn [fold_right]. unfold lprod in E. congruence.
Qed.
Lemma products_real S l : Forall (Forall all_finite) S -> sequence (map slogdet_product S) = Some l -> l = map slog_of (map (fun L => lprod (map real_det L)) S).
Proof.
  intros F. revert l. induction F as [|L S FL _ IH]; intros l E; cbn [map sequence] in *; [injection E as <-; reflexivity|].
  destruct (slogdet_product L) as [q|] eqn:Eq; [|discriminate]. destruct (sequence (map slogdet_product S)) as [r|]; [|discriminate]. injection E as <-. rewrite (product_real L q FL Eq), (IH r eq_refl). reflexivity.
Qed.
(** The products of determinants a FermiNet sums. *)
Definition det_products (m : ferminet) (O : list (list arr2)) : list R :=
  map (fun L => lprod (map real_det L)) (determinant_slices (if fn_full_det m then [map (@concat vec) (determinant_slices O (fn_ndet m))] else O) (fn_ndet m)).
Lemma psi_summed m O p : fn_det_fn m = None -> Forall (Forall all_finite) O -> psi_from_orbitals m O = Some p -> summed p (det_products m O).
Proof.
  intros Fd FO E. unfold psi_from_orbitals in E. cbv zeta in E. rewrite Fd in E. apply bind_some in E. destruct E as (l & El & E). unfold det_products.
  set (P := if fn_full_det m then _ else _) in *.
  assert (FP : Forall (Forall all_finite) P).
  { unfold P. destruct (fn_full_det m); [|exact FO]. constructor; [|constructor]. apply Forall_map. eapply Forall_impl; [|apply slices_finite; exact FO]. intros L. apply concat_finite. }
  rewrite (products_real _ l (slices_finite P (fn_ndet m) FP) El) in E. apply log_sum_spec. exact E.
Qed.
Lemma psi_number m O p fn : fn_det_fn m = Some fn -> finite_det_fn fn -> Forall (Forall all_finite) O -> psi_from_orbitals m O = Some p -> number p.
Proof.
  intros Fd Ff FO E. rewrite (psi_value_spec m fn O Fd) in E. apply map_some in E. destruct E as (v & Ev & <-). pose proof (psi_value_finite m fn O v Ff FO Ev) as Fv. apply fin_iff in Fv. destruct Fv as (r & ->).
  exists r. apply to_slog_fin.
Qed.
Definition net_result (m : ferminet) (O : list (list arr2)) (p : slog) : Prop := match fn_det_fn m with Some _ => number p | None => summed p (det_products m O) end.
Lemma psi_result m O p : net_fin m -> Forall (Forall all_finite) O -> psi_from_orbitals m O = Some p -> net_result m O p.
Proof.
  intros (_ & _ & _ & Hd) FO E. unfold net_result. destruct (fn_det_fn m) as [fn|] eqn:Fd; [|apply psi_summed; assumption]. apply (psi_number m O p fn Fd (Hd fn eq_refl) FO E).
Qed.
Lemma net_result_value m O p : net_result m O p -> number p \/ (fn_det_fn m = None /\ p = (NaN, NaN)).
Proof. unfold net_result. destruct (fn_det_fn m); [left; assumption|]. intros H. apply summed_value in H. destruct H; [left; assumption|right; split; [reflexivity|assumption]]. Qed.
Lemma ferminet_finite m sizes d x p : fits sizes d m -> positive sizes -> net_fin m -> streams_fin (fn_streams m) -> shape2 (list_sum sizes) d x -> all_finite x -> ferminet_call m x = Some p ->
  exists O, ferminet_orbital_matrices m x (fn_split m) = Some O /\ Forall (Forall all_finite) O /\ net_result m O p.
Proof.
  intros (D & B & Fi) Ps Nf Sf Sx Fx E. unfold ferminet_call in E. apply bind_some in E. destruct E as (O & EO & E). pose proof (matrices_finite m _ sizes d x O D B Fi Ps Nf Sf Sx Fx EO) as FO.
  exists O. split; [exact EO|]. split; [exact FO|]. apply psi_result; assumption.
Qed.

(** ** Hidden particles *)
Definition dense_fin (p : mean_dense) : Prop := (forall i f, fin (md_kernel p i f)) /\ bias_fin (md_bias p).
Lemma reshape2_finite n d v : fins v -> all_finite (reshape2 n d v).
Proof. intros H. unfold reshape2. apply Forall_map, Forall_forall. intros i _. apply fins_map. intros j _. apply fins_nth. exact H. Qed.
Lemma tensor_finite sp bf dp shapes sizes x y : describes sp sizes -> positive sizes -> (forall i, dense_fin (dp i)) ->
  length (match bf with Some b => backflow b x y | None => x end) = list_sum sizes -> all_finite (match bf with Some b => backflow b x y | None => x end) ->
  Forall all_finite (invariant_tensor sp bf (invariance_params dp shapes) x y).
Proof.
  intros D Ps Hd L F. unfold invariant_tensor. cbv zeta. set (z := match bf with Some b => backflow b x y | None => x end) in *.
  apply (zipw_forall fins (fun _ => True) all_finite); [intros v p Fv _; apply reshape2_finite; exact Fv| |apply Forall_forall; intros; exact Logic.I].
  unfold split_mean_dense. rewrite (split_mean_spin sp sizes z D L). rewrite invariance_params_snd. apply (zipw_forall fins dense_fin fins).
  - intros v p Fv (Hk & Hb). destruct (Nat.eqb _ 0); [constructor|]. apply fins_dense; assumption.
  - apply means_finite; assumption.
  - apply mapi_forall. intros i sh _. exact (Hd i).
Qed.
Lemma zipw_positive a b : positive a -> length a = length b -> positive (zipw Nat.add a b).
Proof. intros H. revert b. induction H as [|n a Hn _ IH]; intros [|k b] L; try discriminate; [constructor|]. unfold zipw in *. cbn [combine map fst snd]. constructor; [lia|apply IH; cbn in L; lia]. Qed.
Lemma embedded_finite e sizes d x p : describes (fn_split (em_net e)) sizes -> fn_split (em_net e) <> At [] -> built_for sizes (em_backflow e) -> ions_fit d (em_streams e) ->
  (length (em_nhidden e) = length sizes -> built_for (embedded_sizes sizes e) (fn_backflow (em_net e))) -> ions_fit d (fn_streams (em_net e)) ->
  positive sizes -> (0 < list_sum sizes)%nat -> net_fin (em_net e) -> streams_fin (fn_streams (em_net e)) -> streams_fin (em_streams e) -> Forall block_fin (em_backflow e) -> (forall i, dense_fin (em_dense e i)) ->
  shape2 (list_sum sizes) d x -> all_finite x -> embedded_call e x = Some p -> exists O, net_result (em_net e) O p.
Proof.
  intros D Ns B Fi B' Fi' Ps N Nf Sf (I1 & I2 & I3) Bf Hd Sx Fx E. unfold embedded_call in E. apply bind_some in E. destruct E as (q & Eq & E). apply bind_some in E. destruct E as (O & EO & E).
  pose proof (embed_spec e sizes d (fun i => i) x D B Fi) as Q.
  assert (K : keeps_spins sizes (fun i => i)) by (split; [unfold renumbering; rewrite map_id; apply Permutation.Permutation_refl|intros; reflexivity]). specialize (Q K N Sx). rewrite Eq in Q. destruct (embed e (reorder _ x)) as [q'|]; [|contradiction].
  destruct Q as (_ & D' & S' & N' & _). pose proof Sx as (L & _).
  unfold embed in Eq. cbv zeta in Eq. rewrite L, (nelec_describes _ sizes D Ns) in Eq. cbn [bind_opt] in Eq. rewrite to_nats_of in Eq. cbn [bind_opt] in Eq. apply check_some in Eq. destruct Eq as (Lh & Eq). apply Nat.eqb_eq in Lh.
  rewrite (split_cut _ sizes x D L) in Eq. cbn [bind_opt] in Eq. destruct (compute_input_streams (em_streams e) x) as (((i1, i2), r1), r2) eqn:Es.
  destruct (streams_shape _ _ _ _ Sx Fi _ _ _ _ Es) as (S1 & (d2 & S2) & _). destruct (streams_finite _ _ _ _ _ _ I1 I2 I3 Fx Es) as (G1 & G2 & _).
  apply bind_some in Eq. destruct Eq as (x1 & E1 & Eq). apply check_some in Eq. destruct Eq as (_ & Eq). injection Eq as <-. cbn [fst snd] in *.
  destruct (S1 x1 E1) as (d1 & Sx1). destruct (backflow_shape (em_backflow e) sizes x1 i2 d1 d2 B Sx1 S2) as (d' & (Lb & _)).
  assert (F' : all_finite (concat (zipw (fun p h : list vec => p ++ h) (cut sizes x) (invariant_tensor (fn_split (em_net e)) (Some (em_backflow e)) (invariance_params (em_dense e) (map (fun n => (n, width x)) (em_nhidden e))) x1 i2)))).
  { apply concat_finite. apply (zipw_forall all_finite all_finite all_finite); [intros a b Ha Hb; apply Forall_app; split; assumption|apply cut_finite; exact Fx|].
    apply (tensor_finite _ (Some (em_backflow e)) _ _ sizes); try assumption. apply (backflow_finite _ sizes _ _ d1 d2); try assumption. apply (G1 x1 E1). }
  exists O. apply psi_result; [exact Nf| |exact E]. refine (matrices_finite (em_net e) _ (embedded_sizes sizes e) d _ O D' (B' Lh) Fi' _ Nf Sf S' F' EO). apply zipw_positive; [exact Ps|symmetry; exact Lh].
Qed.
Lemma extended_finite e sizes d x p : fits sizes d (ex_net e) -> extended_backflow_ok sizes e -> positive sizes -> net_fin (ex_net e) -> streams_fin (fn_streams (ex_net e)) ->
  (forall bs, ex_backflow e = Some bs -> Forall block_fin bs) -> (forall i, dense_fin (ex_dense e i)) -> shape2 (list_sum sizes) d x -> all_finite x -> extended_call e x = Some p -> exists O, net_result (ex_net e) O p.
Proof.
  intros (D & B & Fi) Be Ps Nf (I1 & I2 & I3) Bf Hd Sx Fx E. unfold extended_call in E. apply bind_some in E. destruct E as (O & EO & E). exists O. apply psi_result; [exact Nf| |exact E]. clear E.
  unfold extended_orbital_matrices in EO. cbv zeta in EO. destruct (compute_input_streams (fn_streams (ex_net e)) x) as (((i1, i2), r1), r2) eqn:Es.
  destruct (streams_shape _ _ _ _ Sx Fi _ _ _ _ Es) as (S1 & (d2 & S2) & S3 & _). destruct (streams_finite _ _ _ _ _ _ I1 I2 I3 Fx Es) as (G1 & G2 & G3 & _).
  apply bind_some in EO. destruct EO as (x1 & E1 & EO). apply check_some in EO. destruct EO as (_ & EO). apply bind_some in EO. destruct EO as (norbs & _ & EO).
  apply bind_some in EO. destruct EO as (Q & EQ & EO). apply bind_some in EO. destruct EO as (Iv & EI & EO). apply some_inj in EO. subst O.
  destruct (S1 x1 E1) as (d1 & Sx1). destruct (backflow_shape (fn_backflow (ex_net e)) sizes x1 i2 d1 d2 B Sx1 S2) as (d' & (Lb & _)).
  assert (Fb : all_finite (backflow (fn_backflow (ex_net e)) x1 i2)) by (apply (backflow_finite _ sizes _ _ d1 d2); try assumption; [exact (proj1 Nf)|exact (G1 x1 E1)]).
  apply (zipw_forall (Forall all_finite) (Forall all_finite) (Forall all_finite)).
  - intros a b Ha Hb. apply (zipw_forall all_finite all_finite all_finite); [|exact Ha|exact Hb]. intros u v Hu Hv. apply Forall_app. split; assumption.
  - apply (eval_finite (ex_net e) (fn_split (ex_net e)) sizes norbs (backflow (fn_backflow (ex_net e)) x1 i2) r1 Q D Nf Lb Fb); [intros y ->; split; [exact S3|exact G3]|exact EQ].
  - unfold extended_invariance in EI. cbv zeta in EI. apply check_some in EI. destruct EI as (_ & EI). revert EI. apply (sequence_forall2 (reshape_raw_orbitals (fn_ndet (ex_net e))) all_finite); [intros a b Eab Ha; apply (reshape_finite _ _ _ Eab Ha)|].
    unfold extended_backflow_ok in Be. apply (tensor_finite _ None _ _ sizes); try assumption; destruct (ex_backflow e) as [bs|].
    + destruct (backflow_shape bs sizes x1 i2 d1 d2 Be Sx1 S2) as (dd & (Ld & _)). exact Ld.
    + exact Lb.
    + apply (backflow_finite bs sizes _ _ d1 d2); try assumption; [apply Bf; reflexivity|apply (G1 x1 E1)].
    + exact Fb.
Qed.

(** ** Antiequivariant models *)
Lemma remove_at_forall {A} (P : A -> Prop) i l : Forall P l -> Forall P (remove_at i l).
Proof. intros H. unfold remove_at. apply Forall_app. split; apply Forall_forall; intros a Ha; rewrite Forall_forall in H; apply H; [rewrite <- (firstn_skipn i l)|rewrite <- (firstn_skipn (S i) l)]; apply in_or_app; [left|right]; exact Ha. Qed.
Lemma cofactor_finite m v : all_finite m -> cofactor_antieq m = Some v -> fins v.
Proof.
  intros F E. unfold cofactor_antieq in E. destruct (get_submatrices_along_first_col m) as [[n subs]|] eqn:Es; [|discriminate]. destruct (sequence (map linalg_det subs)) as [dets|] eqn:Ed; [|discriminate].
  cbv zeta in E. destruct (Nat.eqb n 0); [discriminate|]. apply some_inj in E. subst v. apply fins_zipw; [apply fin_mul| |].
  - apply fins_map. intros row Hr. apply fins_nth. unfold all_finite in F. rewrite Forall_forall in F. apply F. exact Hr.
  - apply (zipw_forall (fun _ => True) fin fin); [intros s a _ Ha; apply fin_mul; [reflexivity|exact Ha]|apply Forall_forall; intros; exact Logic.I|].
    revert Ed. apply (sequence_forall2 linalg_det all_finite); [intros a b Eab Ha; apply (det_finite a b Eab Ha)|].
    unfold get_submatrices_along_first_col in Es. destruct (is_square m); [|discriminate]. injection Es as _ <-. apply Forall_map, Forall_forall. intros i _. apply Forall_map. eapply Forall_impl; [|apply remove_at_forall; exact F].
    intros row Hr. apply remove_at_forall. exact Hr.
Qed.
Lemma doubly_finite l sizes x r : describes (ol_split l) sizes -> Forall orbital_fin (ol_splits l) -> fin (ol_soft l) -> length x = list_sum sizes -> all_finite x ->
  (forall y, r = Some y -> length y = list_sum sizes /\ fin3 y) -> Forall (Forall all_finite) (doubly_equivariant_orbitals l x r).
Proof.
  intros D Ho Hs L Fx Fr. unfold doubly_equivariant_orbitals. cbv zeta.
  assert (A : Forall (Forall all_finite) (zipw (fun rows p => orbital_matrices_one_split p rows) (pieces (ol_split l) x) (ol_splits l))).
  { apply (zipw_forall all_finite orbital_fin (Forall all_finite)); [|apply (pieces_forall fins _ sizes); assumption|exact Ho]. intros rows p Frows Fp. unfold orbital_matrices_one_split. cbv zeta. apply Forall_map.
    assert (R2 : forall {A} (P : A -> Prop) a n, P a -> Forall P (repeat a n)) by (intros A P a n Ha; apply Forall_forall; intros b Hb; apply repeat_spec in Hb; subst b; exact Ha).
    assert (Z : Forall (Forall fins) (zipw (zipw (fun a b : vec => a ++ b)) (map (fun row => repeat row (length rows)) rows) (repeat rows (length rows)))).
    { apply (zipw_forall all_finite all_finite (Forall fins)); [|apply Forall_map; eapply Forall_impl; [|exact Frows]; intros row Frow; apply R2; exact Frow|apply R2; exact Frows].
      intros a b Ha Hb. apply (zipw_forall fins fins fins); [apply fins_app|exact Ha|exact Hb]. }
    eapply Forall_impl; [|exact Z]. intros row Hrow. apply Forall_map. eapply Forall_impl; [|exact Hrow]. intros v Hv. destruct Fp as (Hk & Hb & _). apply fins_dense; assumption. }
  destruct r as [y|]; [|exact A]. destruct (Fr y eq_refl) as (Ly & Fy). apply (zipw_forall (Forall all_finite) all_finite (Forall all_finite)); [|exact A|].
  - intros o env Fo Fe. apply Forall_map. eapply Forall_impl; [|exact Fo]. intros m Fm. apply (zipw_forall fins fins fins); [|exact Fm|exact Fe]. intros u v Hu Hv. apply fins_zipw; [apply fin_mul|exact Hu|exact Hv].
  - unfold envelopes. apply (zipw_forall (Forall all_finite) orbital_fin all_finite); [|apply (pieces_forall all_finite _ sizes); assumption|exact Ho].
    intros rows p Frows Fp. apply Forall_map. eapply Forall_impl; [|exact Frows]. intros row Frow. apply fins_map. intros orb _. apply fin_envelope; assumption.
Qed.
Definition readout_fin (c : sign_covariance) : Prop :=
  match c with Products w => forall k, w = Some k -> forall i f, fin (k i f) | OddBackflow bs => Forall block_fin bs end.
Definition antieq_fin (a : antieq_net) : Prop := Forall block_fin (an_backflow a) /\ (forall i, orbital_fin (an_orbitals a i)) /\ fin (an_soft a) /\ readout_fin (an_cov a).
Lemma scaled_shape s (x : arr2) n d : shape2 n d x -> shape2 n d (map (vscale (Fin s)) x).
Proof. intros (L & F). split; [rewrite map_length; exact L|]. apply Forall_map. eapply Forall_impl; [|exact F]. intros r Hr. unfold vscale. rewrite map_length. exact Hr. Qed.
Lemma odd_finite bs sizes xs d : built_for sizes bs -> Forall block_fin bs -> positive sizes -> Forall2 (fun n m => shape2 n d m) sizes xs -> Forall all_finite xs ->
  forall n dout, all_finite (make_array_list_fn_sign_covariant2 n dout (fun y => backflow bs (concat y) None) xs).
Proof.
  intros B Bf Ps Sh F n dout. unfold make_array_list_fn_sign_covariant2. rewrite apply_spec. unfold msum. apply Forall_map, Forall_forall. intros i _. apply vsum_finite. apply Forall_map. unfold results. apply Forall_map, Forall_forall. intros k _.
  assert (G : all_finite (backflow bs (concat (symmetry (fun s => map (vscale (Fin s))) xs k)) None)).
  { apply (backflow_finite bs sizes _ _ d 0%nat); try assumption; try exact Logic.I.
    - apply concat_shape. unfold symmetry. unfold mapi, zipw. clear -Sh. generalize 0%nat as o. induction Sh as [|m x sizes xs S0 _ IH]; intros o; [constructor|]. cbn [length seq combine map fst snd]. constructor; [apply scaled_shape; exact S0|apply IH].
    - apply concat_finite. unfold symmetry. apply mapi_forall. intros j m Hm. rewrite Forall_forall in F. specialize (F m Hm). apply Forall_map. eapply Forall_impl; [|exact F]. intros row Hr. apply fins_vscale; [reflexivity|exact Hr]. }
  destruct (lt_dec i (length (map (vscale (Fin (symmetry_sign (length xs) k))) (backflow bs (concat (symmetry (fun s => map (vscale (Fin s))) xs k)) None)))) as [Hi|Hi]; [|rewrite nth_overflow by lia; constructor].
  apply (Forall_nth_in (fun v => fins v)); [|exact Hi]. apply Forall_map. eapply Forall_impl; [|exact G]. intros row Hr. apply fins_vscale; [reflexivity|exact Hr].
Qed.
Lemma antieq_finite a sizes d x p : describes (an_split a) sizes -> an_split a <> At [] -> built_for sizes (an_backflow a) -> ions_fit d (an_streams a) -> readout_ok sizes (an_cov a) -> positive sizes -> antieq_fin a -> streams_fin (an_streams a) ->
  shape2 (list_sum sizes) d x -> all_finite x -> antieq_net_call a x = Some p -> number p.
Proof.
  intros D Ns B Fi Rc Ps (Bf & Ho & Hs & Hc) (I1 & I2 & I3) Sx Fx E. pose proof Sx as (L & _). unfold antieq_net_call in E. destruct (compute_input_streams (an_streams a) x) as (((i1, i2), r1), r2) eqn:Es.
  destruct (streams_shape _ _ _ _ Sx Fi _ _ _ _ Es) as (S1 & (d2 & S2) & S3 & _). destruct (streams_finite _ _ _ _ _ _ I1 I2 I3 Fx Es) as (G1 & G2 & G3 & _).
  apply bind_some in E. destruct E as (x1 & E1 & E). apply check_some in E. destruct E as (_ & E). cbv zeta in E. apply bind_some in E. destruct E as (vs & Ev & E).
  destruct (S1 x1 E1) as (d1 & Sx1). destruct (backflow_shape (an_backflow a) sizes x1 i2 d1 d2 B Sx1 S2) as (d' & Sb). pose proof Sb as (Lb & _). set (bo := backflow (an_backflow a) x1 i2) in *.
  assert (Fb : all_finite bo) by (apply (backflow_finite _ sizes _ _ d1 d2); try assumption; exact (G1 x1 E1)).
  assert (Fr : forall y, r1 = Some y -> length y = list_sum sizes /\ fin3 y) by (intros y ->; split; [exact S3|exact G3]).
  assert (V : map (@length xr) vs = sizes /\ Forall fins vs).
  { unfold antieq_layer in Ev. rewrite Lb, (nelec_describes _ sizes D Ns) in Ev. cbn [bind_opt] in Ev. rewrite to_nats_of in Ev. cbn [bind_opt] in Ev. apply check_some in Ev. destruct Ev as (_ & Ev).
    set (ly := Build_orbital_layer _ _ _ _) in Ev. assert (Ok : orbitals_ok sizes ly) by (split; [exact D|cbn; apply mapi_length]).
    assert (Fo : Forall orbital_fin (ol_splits ly)) by (cbn [ly ol_splits]; apply mapi_forall; intros i n _; apply set_norb_fin, Ho).
    change (layer_of (an_kind a) ly bo r1 = Some vs) in Ev. split; [apply (layer_lengths (an_kind a) ly sizes bo r1 vs Ok Lb); [destruct r1; [exact S3|exact Logic.I]|exact Ev]|].
    destruct (an_kind a); cbn [layer_of] in Ev.
    - unfold orbital_cofactor_layer in Ev. revert Ev. apply (sequence_forall2 cofactor_antieq all_finite); [intros u v Euv Hu; apply (cofactor_finite u v Hu Euv)|]. apply (orbitals_finite ly sizes); try assumption.
    - unfold per_particle_determinant_layer in Ev. apply (dets_finite _ _ (doubly_finite ly sizes bo r1 D Fo Hs Lb Fb Fr) Ev). }
  destruct V as (Lv & Fv). apply bind_some in E. destruct E as (out & Eo & E). change (antieq_out a vs bo = Some out) in Eo. rewrite (antieq_out_spec a sizes vs bo D Lv Lb) in Eo. apply some_inj in Eo. subst out.
  set (F := zipw _ _ _) in E. assert (LF : length F = list_sum sizes) by (unfold F; rewrite zipw_length, concat_lengths, Lv; lia).
  assert (SF : exists d'', shape2 (list_sum sizes) d'' F /\ all_finite F).
  { exists (if an_multiply a then d' else 1%nat). split; [split; [exact LF|]|].
    - unfold F. apply (zipw_forall (fun r : vec => length r = d') (fun _ => True) (fun r : vec => length r = if an_multiply a then d' else 1%nat)); [|apply Sb|apply Forall_forall; intros; exact Logic.I].
      intros row v Hr _. unfold feature_row. destruct (an_multiply a); [rewrite map_length; exact Hr|reflexivity].
    - unfold F. apply (zipw_forall fins fin fins); [|exact Fb|apply fins_concat; exact Fv]. intros row v Hr Hv. unfold feature_row. destruct (an_multiply a); [|constructor; [exact Hv|constructor]].
      apply fins_map. intros u Hu. apply fin_mul; [apply (fins_in row); assumption|exact Hv]. }
  destruct SF as (d'' & SF & FF). clearbody F. apply bind_some in E. destruct E as (v & Ea & E). apply some_inj in E. subst p.
  assert (G : fins v).
  { pose proof (cut_finite sizes F FF) as Fc. destruct (an_cov a) as [w|bs]; cbn [apply_sign_covariance readout_fin readout_ok] in *.
    - unfold products_sign_covariance in Ea. destruct (cut sizes F) as [|up [|down [|]]]; try discriminate. pose proof (Forall_inv Fc) as Fu. pose proof (Forall_inv (Forall_inv_tail Fc)) as Fd. cbv zeta in Ea.
      assert (P : Forall fins (map (fun u => map (dot u) down) up)).
      { apply Forall_map. eapply Forall_impl; [|exact Fu]. intros u Hu. apply fins_map. intros w0 Hw. unfold dot. apply fin_xsum, fins_zipw; [apply fin_mul|exact Hu|]. unfold all_finite in Fd. rewrite Forall_forall in Fd. apply Fd. exact Hw. }
      destruct w as [k|].
      + apply some_inj in Ea. subst v. apply fins_dense; [apply (Hc k eq_refl)|apply bias_none|apply fins_concat; exact P].
      + cbn in Ea. apply some_inj in Ea. subst v. constructor; [|constructor]. apply fin_xsum, fins_map. intros row Hr. apply fin_xsum. rewrite Forall_forall in P. apply P. exact Hr.
    - cbv zeta in Ea. apply check_some in Ea. destruct Ea as (_ & Ea). apply some_inj in Ea. subst v. apply vsum_finite. apply (odd_finite bs sizes (cut sizes F) d''); try assumption. apply cut_shapes. exact SF. }
  apply fin_xsum, fin_iff in G. destruct G as (r & ->). exists r. apply to_slog_fin.
Qed.

(** ** Explicitly antisymmetrised models *)
Definition resnet_fin (r : resnet) : Prop := Forall (fun layer : (nat -> nat -> xr) * option (nat -> xr) => (forall i f, fin (fst layer i f)) /\ bias_fin (snd layer)) (rn_inner r) /\ (forall i f, fin (rn_final r i f)).
Lemma resnet_finite nd nf act inner final x : (forall a, fin a -> fin (act a)) -> Forall (fun layer : (nat -> nat -> xr) * option (nat -> xr) => (forall i f, fin (fst layer i f)) /\ bias_fin (snd layer)) inner ->
  (forall i f, fin (final i f)) -> fins x -> fins (simple_resnet nd nf act inner final x).
Proof.
  intros Ha Hi Hf Hx. unfold simple_resnet. apply fins_dense; [exact Hf|apply bias_none|]. revert x Hx. induction Hi as [|l inner (Hk & Hb) _ IH]; intros x Hx; cbn [fold_left]; [exact Hx|]. apply IH. unfold resnet_layer. cbv zeta.
  assert (Hy := fins_map act _ (fun a I => Ha a (fins_in _ a (fins_dense nd _ _ x Hk Hb Hx) I))). destruct (Nat.eqb _ _); [|exact Hy]. apply zipw_add_finite; assumption.
Qed.
Lemma take_rows_finite x p : all_finite x -> all_finite (take_rows x p).
Proof. intros H. unfold take_rows. apply Forall_map, Forall_forall. intros i _. apply row_fins. exact H. Qed.
Lemma perms_finite x : all_finite x -> Forall all_finite (fst (parallel_permutations x)).
Proof. intros H. cbn [parallel_permutations fst]. apply Forall_map, Forall_forall. intros p _. apply take_rows_finite. exact H. Qed.
Lemma leaf_finite dout fn x : (forall v, fins v -> fins (fn v)) -> all_finite x -> fins (single_leaf_call dout fn x).
Proof.
  intros Hf Hx. unfold single_leaf_call. pose proof (perms_finite x Hx) as P. destruct (parallel_permutations x) as (xp, signs). cbn [fst] in P. cbv zeta. apply vsum_finite.
  apply (zipw_forall (fun _ => True) fins fins); [intros s v _ Hv; apply fins_vscale; [reflexivity|exact Hv]|apply Forall_forall; intros; exact Logic.I|]. apply Forall_map. eapply Forall_impl; [|exact P]. intros y Hy. apply Hf, fins_concat, Hy.
Qed.
Lemma combinations_in {A} (P : A -> Prop) (ls : list (list A)) : Forall (Forall P) ls -> Forall (Forall P) (combinations ls).
Proof.
  induction 1 as [|l ls Hl _ IH]; [constructor; constructor|]. cbn [combinations]. apply Forall_concat, Forall_map. eapply Forall_impl; [|exact Hl]. intros a Ha. apply Forall_map. eapply Forall_impl; [|exact IH]. intros c Hc. constructor; assumption.
Qed.
Lemma generic_finite dout fn xs : (forall v, fins v -> fins (fn v)) -> Forall all_finite xs -> fin (generic_antisymmetrize dout fn xs).
Proof.
  intros Hf Hx. unfold generic_antisymmetrize. cbv zeta. apply fin_xsum. apply Forall_map.
  assert (C := combinations_in (fun ps : arr2 * R => all_finite (fst ps)) (map (fun x => combine (fst (parallel_permutations x)) (snd (parallel_permutations x))) xs)).
  eapply Forall_impl; [|apply C].
  - intros c Hc. apply fin_xsum, fins_map. intros k _. assert (S0 : fin (nth k (fn (concat (map (fun ps : arr2 * R => concat (fst ps)) c))) (Fin 0))).
    { apply fins_nth, Hf, fins_concat, Forall_map. eapply Forall_impl; [|exact Hc]. intros ps Hps. apply fins_concat, Hps. }
    revert S0. generalize (nth k (fn (concat (map (fun ps : arr2 * R => concat (fst ps)) c))) (Fin 0)) as u. clear. induction c as [|ps c IH]; intros u Hu; [exact Hu|]. cbn [fold_left]. apply IH, fin_mul; [exact Hu|reflexivity].
  - apply Forall_map. eapply Forall_impl; [|exact Hx]. intros x Fx. pose proof (perms_finite x Fx) as P. apply Forall_forall. intros (y, s) Hy. apply in_combine_l in Hy. rewrite Forall_forall in P. apply P. exact Hy.
Qed.
Lemma reduce_numbers L q : Forall (Forall number) L -> reduce (zipw slog_multiply) L = Some q -> Forall number q.
Proof.
  destruct L as [|a L]; [discriminate|]. intros H E. injection E as <-. pose proof (Forall_inv H) as Ha. pose proof (Forall_inv_tail H) as Hl. clear H. revert a Ha. induction Hl as [|b L Hb _ IH]; intros a Ha; cbn [fold_left]; [exact Ha|].
  apply IH. apply (zipw_forall number number number); [|exact Ha|exact Hb]. intros p q (u & ->) (v & ->). exists (u * v). apply slog_multiply_of.
Qed.
Lemma numbers_map q : Forall number q -> exists l, q = map slog_of l.
Proof. induction 1 as [|p q (u & ->) _ (l & ->)]; [exists []; reflexivity|exists (u :: l); reflexivity]. Qed.
Definition jastrow_fin (j : jastrow) : Prop :=
  let body ions q ei ee := all_finite ions /\ fins q /\ fins ei /\ fin ee in
  let flow bs := forall b, bs = Some b -> Forall block_fin b in
  match j with OneBodyDecay k => fin k | TwoBodyDecay ions q ei ee => body ions q ei ee | BackflowBased bs => flow bs | AddedJastrow ions q ei ee bs => body ions q ei ee /\ flow bs end.
Definition explicit_fin (e : explicit_net) : Prop :=
  Forall block_fin (en_backflow e) /\ jastrow_fin (en_jastrow e) /\ (forall a, fin a -> fin (en_act e a)) /\ match en_antisym e with Factorized _ rs => forall b k, resnet_fin (rs b k) | Generic r => resnet_fin r end.
Lemma norms_finite r : fin3 r -> Forall fins (map (map norm) r).
Proof. intros H. apply Forall_map. eapply Forall_impl; [|exact H]. intros row Hr. apply Forall_map. eapply Forall_impl; [|exact Hr]. intros v. apply fin_norm. Qed.
Lemma two_body_finite ei ee c a b : fins ei -> fin ee -> fin c -> fin3 a -> fin3 b -> fin (two_body_exp_decay ei ee c true a b).
Proof.
  intros Hi He Hc Ha Hb. unfold two_body_exp_decay. cbv zeta. apply fin_add; [|exact Hc]. apply fin_xsum, (zipw_forall fin fin fin).
  - intros u v Hu Hv. apply fin_sub; [apply fin_mul; assumption|exact Hv].
  - apply mapi_forall. intros i row Hr. apply fin_xsum. apply mapi_forall. intros j v Hv. destruct (Nat.leb i j); [|reflexivity]. pose proof (fin_ee_norms b (Fin 0) Hb eq_refl) as N. rewrite Forall_forall in N. apply (fins_in row); [apply N; exact Hr|exact Hv].
  - apply Forall_map. eapply Forall_impl; [|apply norms_finite; exact Ha]. intros row Hr. apply fin_xsum, fins_zipw; [apply fin_mul|exact Hr|exact Hi].
Qed.
Lemma scale_finite ions q : all_finite ions -> fins q -> fin (chargeless_scale_factor ions q).
Proof.
  intros Hi Hq. unfold chargeless_scale_factor. apply fin_mul; [reflexivity|]. apply fin_xsum, fins_concat, (zipw_forall all_finite fin fins); [|apply fin3_displacements; exact Hi|exact Hq].
  intros row qi Hr Hqi. apply (zipw_forall fins fin fin); [|exact Hr|exact Hq]. intros v qj Hv Hqj. apply fin_mul; [apply fin_norm; exact Hv|apply fin_mul; assumption].
Qed.
Lemma mean_norm_finite x : (0 < length x)%nat -> all_finite x -> fin (xopp (xdiv (xsum (map norm x)) (Fin (INR (length x))))).
Proof. intros N H. apply fin_opp, fin_div; [|apply not_0_INR; lia]. apply fin_xsum, Forall_map. eapply Forall_impl; [|exact H]. intros v. apply fin_norm. Qed.
Lemma jastrow_finite j sizes x1 i2 z r1 r2 d1 d2 v : jastrow_fin j -> jastrow_built_for sizes j -> positive sizes -> (0 < list_sum sizes)%nat -> shape2 (list_sum sizes) d1 x1 -> shape_opt (list_sum sizes) d2 i2 -> length z = list_sum sizes ->
  all_finite x1 -> fin3_opt i2 -> all_finite z -> fin3_opt r1 -> fin3_opt r2 -> jastrow_call j x1 i2 z r1 r2 = Some v -> fin v.
Proof.
  intros Hj B Ps N S1 S2 Lz F1 F2 Fz G1 G2 E.
  assert (Bd : forall ions q ei ee a, all_finite ions /\ fins q /\ fins ei /\ fin ee -> two_body_part ions q ei ee r1 r2 = Some a -> fin a).
  { intros ions q ei ee a (Ha & Hb & Hc & Hd) Ea. unfold two_body_part in Ea. destruct r1 as [r1|]; [|discriminate]. destruct r2 as [r2|]; [|discriminate]. apply some_inj in Ea. subst a.
    apply two_body_finite; try assumption. apply scale_finite; assumption. }
  assert (Fl : forall bs, (forall b, bs = Some b -> Forall block_fin b) -> match bs with Some b => built_for sizes b | None => True end -> fin (backflow_jastrow bs true x1 i2 z)).
  { intros bs Hb Bb. unfold backflow_jastrow. cbv zeta. apply mean_norm_finite; destruct bs as [b|].
    - destruct (backflow_shape b sizes x1 i2 d1 d2 Bb S1 S2) as (d' & (Lb & _)). lia.
    - lia.
    - apply (backflow_finite b sizes _ _ d1 d2); try assumption. apply Hb. reflexivity.
    - exact Fz. }
  destruct j as [k|ions q ei ee|bs|ions q ei ee bs]; cbn [jastrow_call jastrow_fin] in *.
  - destruct r1 as [r|]; [|discriminate]. cbn [option_map] in E. apply some_inj in E. subst v. unfold one_body_exp_decay. cbv zeta. apply fin_opp, fin_xsum, Forall_map. eapply Forall_impl; [|exact G1]. intros row Hr.
    apply fin_xsum, Forall_map. eapply Forall_impl; [|exact Hr]. intros u Hu. apply fin_norm, fins_map. intros a Ha. apply fin_mul; [apply (fins_in u); assumption|exact Hj].
  - apply (Bd _ _ _ _ _ Hj E).
  - apply check_some in E. destruct E as (_ & E). apply some_inj in E. subst v. apply Fl; [exact Hj|exact B].
  - apply bind_some in E. destruct E as (a & Ea & E). apply check_some in E. destruct E as (_ & E). apply some_inj in E. subst v. apply fin_add; [apply fin_add; [reflexivity|apply (Bd _ _ _ _ _ (proj1 Hj) Ea)]|]. apply Fl; [apply Hj|exact B].
Qed.
Lemma times_exp psi j : (fst (slog_of psi), xadd (snd (slog_of psi)) (Fin j)) = slog_of (psi * exp j).
Proof.
  pose proof (slog_multiply_of psi (exp j)) as H. rewrite <- H. unfold slog_multiply. pose proof (exp_pos j) as P. assert (E : slog_of (exp j) = (Fin 1, Fin j)).
  { unfold slog_of. destruct (Req_EM_T (exp j) 0) as [Z|_]; [lra|]. rewrite Rabs_pos_eq by lra. rewrite ln_exp. f_equal. f_equal. destruct (Rlt_dec 0 (exp j)), (Rlt_dec (exp j) 0); try reflexivity; lra. }
  rewrite E. cbn [fst snd]. f_equal. unfold slog_of. destruct (Req_EM_T psi 0); cbn [fst]; cbn; rewrite Rmult_1_r; reflexivity.
Qed.
Definition is_factorized (k : antisym_kind) : Prop := match k with Factorized _ _ => True | Generic _ => False end.
Lemma explicit_finite e sizes d x p : describes (en_split e) sizes -> built_for sizes (en_backflow e) -> ions_fit d (en_streams e) -> jastrow_built_for sizes (en_jastrow e) -> positive sizes -> (0 < list_sum sizes)%nat ->
  explicit_fin e -> streams_fin (en_streams e) -> shape2 (list_sum sizes) d x -> all_finite x -> explicit_call e x = Some p -> number p \/ (is_factorized (en_antisym e) /\ p = (NaN, NaN)).
Proof.
  intros D B Fi J Ps N (Bf & Hj & Ha & Hn) (I1 & I2 & I3) Sx Fx E. pose proof Sx as (L & _). unfold explicit_call in E. destruct (compute_input_streams (en_streams e) x) as (((i1, i2), r1), r2) eqn:Es.
  destruct (streams_shape _ _ _ _ Sx Fi _ _ _ _ Es) as (S1 & (d2 & S2) & S3 & _). destruct (streams_finite _ _ _ _ _ _ I1 I2 I3 Fx Es) as (G1 & G2 & G3 & G4).
  apply bind_some in E. destruct E as (x1 & E1 & E). apply check_some in E. destruct E as (_ & E). cbv zeta in E. destruct (S1 x1 E1) as (d1 & Sx1). destruct (backflow_shape (en_backflow e) sizes x1 i2 d1 d2 B Sx1 S2) as (d' & (Lb & _)).
  assert (Fb : all_finite (backflow (en_backflow e) x1 i2)) by (apply (backflow_finite _ sizes _ _ d1 d2); try assumption; exact (G1 x1 E1)). set (bo := backflow (en_backflow e) x1 i2) in *.
  rewrite (split_cut _ sizes bo D Lb) in E. cbn [bind_opt] in E. apply bind_some in E. destruct E as (s & Ea & E). apply bind_some in E. destruct E as (v & Ev & E). apply some_inj in E. subst p.
  pose proof (jastrow_finite _ sizes _ _ _ _ _ d1 d2 v Hj J Ps N Sx1 S2 Lb (G1 x1 E1) G2 Fb G3 G4 Ev) as Fv. apply fin_iff in Fv. destruct Fv as (j & ->).
  pose proof (cut_finite sizes bo Fb) as Fc.
  assert (A : number s \/ (is_factorized (en_antisym e) /\ s = (NaN, NaN))).
  { unfold antisym_part in Ea. destruct (en_antisym e) as [rank rs|r]; cbn [is_factorized].
    - apply bind_some in Ea. destruct Ea as (l & El & Ea). unfold factorized_antisymmetrize_slog in El. destruct (Nat.eqb _ _); [|discriminate].
      assert (NL : Forall number l).
      { revert El. apply reduce_numbers. apply Forall_map. apply (zipw_forall (fun fn : vec -> vec => forall u, fins u -> fins (fn u)) all_finite (fun v => Forall number (map array_to_slog v))); [| |exact Fc].
        - intros fn y Hf Hy. apply Forall_map. eapply Forall_impl; [|apply (leaf_finite rank fn y Hf Hy)]. intros a Fa. apply fin_iff in Fa. destruct Fa as (u & ->). exists u. apply to_slog_fin.
        - apply mapi_forall. intros b _ _ u Hu. apply fins_concat, Forall_map, Forall_forall. intros k _. destruct (Hn b k) as (H1 & H2). apply resnet_finite; assumption. }
      destruct (numbers_map l NL) as (u & ->). apply log_sum_spec, summed_value in Ea. destruct Ea as [Q|Q]; [left; exact Q|right; split; [exact Logic.I|exact Q]].
    - apply some_inj in Ea. subst s. left. unfold generic_antisymmetrize_slog. assert (G := generic_finite 1 (run_resnet e r) (cut sizes bo)). destruct Hn as (H1 & H2).
      specialize (G (fun u Hu => resnet_finite _ _ _ _ _ u Ha H1 H2 Hu) Fc). apply fin_iff in G. destruct G as (u & ->). exists u. apply to_slog_fin. }
  destruct A as [(psi & ->)|(A & ->)]; [left; exists (psi * exp j); apply times_exp|right; split; [exact A|reflexivity]].
Qed.

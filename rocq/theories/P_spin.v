(** * Main results on the energy terms *)
From Coq Require Import Reals List Bool Arith Lra Lia FunctionalExtensionality Permutation.
From Coquelicot Require Import Coquelicot.
From Verif Require Import XReal Rsum Det M_stats M_energy M_physics S_physics P_unbiased P_stats P_xsum P_orders P_kinetic P_potential P_ibp P_hermite.
Import ListNotations.
Local Open Scope R_scope.

(** ** IBP against the standard local energy *)
Lemma ion_ion_real d nion locs Z n x : no_coincidence d 0 nion locs -> exists v, ion_ion_potential d nion locs Z n x = Some (Fin v).
Proof.
  intros H. rewrite ii_eq. exists (Rsum nion (fun i => Rsum nion (fun j => if Nat.ltb i j then Z i * Z j / soft_distance d 0 (locs i) (locs j) else 0))).
  f_equal. rewrite <- xsum2_fin. apply xsum2_ext. intros i j Hi Hj. unfold triu1. destruct (Nat.ltb_spec i j); [|reflexivity].
  unfold ion_term. apply xdiv_fin. apply H; lia.
Qed.

Lemma ibp_divergence d nion locs Z bk bei sei bee see n x (psi : positions -> R) :
  (bei = true \/ bee = true -> d = 3%nat) -> (bei = true -> sei = 0) -> (bee = true -> see = 0) ->
  no_ion_coincidence d sei n nion x locs -> no_coincidence d see n x -> no_coincidence d 0 nion locs ->
  reads n d psi -> psi x <> 0 -> smooth_at n d psi x ->
  exists e_std e_ibp,
    molecular_local_energy (fun y => ln (Rabs (psi y))) d nion locs Z sei see n x = Some (Fin e_std) /\
    ibp_local_energy (fun y => ln (Rabs (psi y))) d nion locs Z bk bei sei bee see n x = Some (Fin e_ibp) /\
    psi x ^ 2 * (e_std - e_ibp) =
    Rsum n (fun i => Rsum d (fun c =>
      Derive (fun t => psi (move x i c t) ^ 2 * Derive (fun t => ibp_U d nion locs Z bei sei bee see n (move x i c t)) t
                       - (if bk then 1 / 2 * (psi (move x i c t) * Derive (fun t => psi (move x i c t)) t) else 0)) 0)).
Proof.
  intros Hd Hsei Hsee Hei Hee Hii HR H0 HS.
  assert (HR' : reads n d (fun y => ln (Rabs (psi y)))) by (intros y z E; rewrite (HR y z E); reflexivity).
  pose proof (kinetic_of_psi n d (fun y => ln (Rabs (psi y))) psi x HR' H0) as K.
  assert (HK : forall i c, (i < n)%nat -> (c < d)%nat ->
     locally 0 (fun t => ln (Rabs (psi (move x i c t))) = ln (Rabs (psi (move x i c t)))) /\
     locally 0 (fun t => ex_derive (line psi x i c) t) /\ ex_derive (Derive (line psi x i c)) 0).
  { intros i c Hi Hc. split; [apply filter_forall; reflexivity|]. apply (HS i c Hi Hc). }
  specialize (K HK).
  destruct (ion_ion_real d nion locs Z n x Hii) as (vii & Eii).
  unfold molecular_local_energy, ibp_local_energy. rewrite K, Eii, ei_real, ee_eq, triu_real by assumption. cbn [option_map oadd xadd].
  set (kin := - (1 / 2) * (Rsum n (fun i => Rsum d (fun c => Derive (Derive (line psi x i c)) 0)) / psi x)).
  set (vei := - (1) * Rsum n (fun i => Rsum nion (fun j => Z j / soft_distance d sei (x i) (locs j)))).
  set (vee := lsum (map (fun ij => real_pair d 1 see x (fst ij) (snd ij)) (unordered_pairs n))).
  set (T := ibp_energy_term (fun y => ln (Rabs (psi y))) d nion locs Z bk bei sei bee see n x).
  eexists. exists (T + vii + (if bk then 0 else kin) + (if bei then 0 else vei) + (if bee then 0 else vee)). split; [reflexivity|]. split.
  { destruct bk, bei, bee; cbn [oadd xadd]; f_equal; f_equal; ring. }
  (* laplacian of U *)
  assert (Hei' : bei = true -> no_ion_coincidence d sei n nion x locs) by (intros; assumption).
  assert (Hee' : bee = true -> no_coincidence d see n x) by (intros; assumption).
  pose proof (lap_total d nion locs Z bei sei bee see n x Hei' Hee') as LT.
  assert (LT' : Rsum n (fun a => Rsum d (fun c => lap_line d nion locs Z bei sei bee see n x a c)) = (if bei then vei else 0) + (if bee then vee else 0)).
  { rewrite LT. f_equal.
    - destruct bei; [|reflexivity]. unfold vei. rewrite (Hd (or_introl eq_refl)) in *. rewrite (Hsei eq_refl) in *.
      rewrite <- Ropp_mult_distr_l, Rmult_1_l. f_equal. apply Rsum_ext. intros i Hi. apply Rsum_ext. intros j Hj. cbv zeta.
      assert (soft_distance 3 0 (x i) (locs j) <> 0) by (apply Hei; assumption). simpl INR. field. assumption.
    - destruct bee; [|reflexivity]. unfold vee. rewrite (Hd (or_intror eq_refl)) in *. rewrite (Hsee eq_refl) in *.
      apply lsum_map_ext_in. intros [i j] Hij. apply in_unordered_pairs in Hij. cbn [fst snd]. cbv zeta. unfold real_pair.
      assert (soft_distance 3 0 (x i) (x j) <> 0) by (apply Hee; lia). simpl INR. field. assumption. }
  (* gradient of log psi *)
  assert (G : forall i c, (i < n)%nat -> (c < d)%nat -> grad_x (fun y => ln (Rabs (psi y))) x i c = Derive (line psi x i c) 0 / psi x).
  { intros i c Hi Hc. rewrite grad_x_line. destruct (HS i c Hi Hc) as [S1 S2].
    assert (E0 : line psi x i c 0 = psi x) by (unfold line; rewrite move_0; reflexivity).
    destruct (ln_abs_line (line psi x i c)) as [E1 _]; [rewrite E0; assumption|exact S1|exact S2|]. rewrite E0 in E1. exact E1. }
  (* right-hand side *)
  transitivity (Rsum n (fun i => Rsum d (fun c =>
     psi x ^ 2 * lap_line d nion locs Z bei sei bee see n x i c
     + 2 * psi x ^ 2 * (grad_x (fun y => ln (Rabs (psi y))) x i c * ibp_grad_U d nion locs Z bei sei bee see n x i c)
     + (if bk then - (1 / 2) else 0) * (psi x * Derive (Derive (line psi x i c)) 0)
     + (if bk then - (1 / 2) * psi x ^ 2 else 0) * grad_x (fun y => ln (Rabs (psi y))) x i c ^ 2))).
  2:{ apply Rsum_ext. intros i Hi. apply Rsum_ext. intros c Hc. destruct (HS i c Hi Hc) as [S1 S2].
      pose proof (divergence_line (line psi x i c) (line (ibp_U d nion locs Z bei sei bee see n) x i c) (Derive (line psi x i c) 0) (Derive (Derive (line psi x i c)) 0) _ _ bk (C2_of (line psi x i c) S1 S2)
                    (U_C2 d nion locs Z bei sei bee see n x Hei' Hee' i c Hi Hc)) as DV.
      assert (E0 : line psi x i c 0 = psi x) by (unfold line; rewrite move_0; reflexivity). rewrite E0 in DV. 
      etransitivity; [|symmetry; exact DV]. rewrite (G i c Hi Hc). destruct bk; field; assumption. }
  rewrite (Rsum_ext n _ (fun i => psi x ^ 2 * Rsum d (fun c => lap_line d nion locs Z bei sei bee see n x i c)
     + 2 * psi x ^ 2 * Rsum d (fun c => grad_x (fun y => ln (Rabs (psi y))) x i c * ibp_grad_U d nion locs Z bei sei bee see n x i c)
     + (if bk then - (1 / 2) else 0) * psi x * Rsum d (fun c => Derive (Derive (line psi x i c)) 0)
     + (if bk then - (1 / 2) * psi x ^ 2 else 0) * Rsum d (fun c => grad_x (fun y => ln (Rabs (psi y))) x i c ^ 2))).
  2:{ intros i _. rewrite <- !Rsum_scal, <- !Rsum_plus. apply Rsum_ext. intros c _. ring. }
  rewrite !Rsum_plus, !Rsum_scal, LT'. unfold T, ibp_energy_term, kin.
  destruct bk, bei, bee; field; assumption.
Qed.

(** ** Hydrogen-like atom *)
Lemma hydrogen_energy d a Z x : (0 < d)%nat -> distance d (x O) (fun _ => 0) <> 0 ->
  hydrogen_local_energy (hydrogen_log_psi d a) Z d x =
  Some (Fin (- a ^ 2 / 2 + ((INR d - 1) * a / 2 - Z) / distance d (x O) (fun _ => 0))).
Proof.
  intros Hd Hr. set (r := distance d (x O) (fun _ => 0)) in *.
  assert (Er : compute_soft_norm d (x O) 0 = r).
  { unfold compute_soft_norm, r, distance. f_equal. rewrite pow_i, Rplus_0_r by lia. apply Rsum_ext. intros; ring. }
  assert (Es : soft_distance d 0 (x O) (fun _ => 0) = r).
  { unfold soft_distance. rewrite pow_i, Rplus_0_r by lia. apply sqrt_pow2. apply distance_nonneg. }
  assert (HR : reads 1 d (hydrogen_log_psi d a)).
  { intros y z E. unfold hydrogen_log_psi. do 3 f_equal. apply Rsum_ext. intros c Hc. rewrite E by lia. reflexivity. }
  unfold hydrogen_local_energy, laplacian_kinetic_energy. rewrite laplacian_full by assumption.
  rewrite ei_real by (intros i j Hi Hj; replace i with O by lia; rewrite Es; assumption).
  cbn [option_map oadd xadd Rsum]. rewrite Es. do 2 f_equal. rewrite !Rplus_0_l.
  rewrite (Rsum_ext d _ (fun c => (a ^ 2 / r ^ 2 + a / r ^ 3) * (x O c ^ 2) + - a * (1 / r))).
  - rewrite Rsum_plus, Rsum_scal, Rsum_const, (sum_squares d (x O) 0), Er. field. assumption.
  - intros c Hc. assert (N : compute_soft_norm d (x O) 0 <> 0) by (rewrite Er; assumption).
    pose proof (C2_scal (- a) _ _ _ (norm_C2 d (x O) 0 c 1 Hc N)) as HC. rewrite Er in HC.
    assert (EL : forall t, - a * compute_soft_norm d (shifted (x O) c 1 t) 0 = line (hydrogen_log_psi d a) x 0 c t).
    { intros t. unfold line, hydrogen_log_psi, compute_soft_norm. rewrite pow_i, Rplus_0_r by lia.
      rewrite (Rsum_ext d (fun c0 => move x 0 c t O c0 ^ 2) (fun c0 => shifted (x O) c 1 t c0 ^ 2)); [ring|].
      intros k _. unfold move, shifted. simpl Nat.eqb. cbn [andb]. destruct (Nat.eqb k c); [ring|reflexivity]. }
    destruct (C2_ext _ _ _ _ EL HC) as (A & _ & B).
    rewrite (is_derive_unique _ _ _ A), (is_derive_unique _ _ _ B). field. assumption.
Qed.

(** ** Spin exchange *)
Lemma slog_sign_ratio v w : v <> 0 -> w <> 0 ->
  xmul (xmul (fst (slog_of v)) (fst (slog_of w))) (xexp (xsub (snd (slog_of w)) (snd (slog_of v)))) = Fin (w / v).
Proof.
  intros Hv Hw. unfold slog_of. cbn [fst snd]. destruct (Req_EM_T v 0); [contradiction|]. destruct (Req_EM_T w 0); [contradiction|].
  cbn [xsub xopp xadd xexp xmul]. f_equal. rewrite exp_plus, exp_Ropp, !exp_ln by (apply Rabs_pos_lt; assumption).
  unfold Rabs. destruct (Rcase_abs v), (Rcase_abs w); destruct (Rlt_dec v 0), (Rlt_dec w 0), (Rlt_dec 0 v), (Rlt_dec 0 w); try lra; field; assumption.
Qed.
Lemma spin_exchange_ratio F nup ndown x : (0 < nup)%nat -> (0 < ndown)%nat -> F x <> 0 ->
  local_spin_exchange (fun y => slog_of (F y)) nup ndown x =
  Fin (- (INR nup * INR ndown * (F (fun i => x (swapped_indices nup i)) / F x))).
Proof.
  intros H1 H2 H0. unfold local_spin_exchange. destruct (Nat.eqb_spec nup 0); [lia|]. destruct (Nat.eqb_spec ndown 0); [lia|]. cbn [orb].
  set (w := F (fun i => x (swapped_indices nup i))).
  destruct (slog_of (F x)) as [s1 l1] eqn:E1. destruct (slog_of w) as [s2 l2] eqn:E2.
  destruct (Req_EM_T w 0) as [W|W].
  - unfold slog_of in E1, E2. rewrite W in E2. destruct (Req_EM_T 0 0) as [_|X]; [|lra]. destruct (Req_EM_T (F x) 0); [contradiction|].
    destruct (Rlt_dec 0 0); [lra|]. injection E1 as <- <-. injection E2 as <- <-. cbn [xmul xsub xopp xadd xexp]. f_equal. rewrite W. field. assumption.
  - pose proof (slog_sign_ratio (F x) w H0 W) as Q. rewrite E1, E2 in Q. cbn [fst snd] in Q.
    unfold slog_of in E1, E2. destruct (Req_EM_T w 0); [contradiction|]. destruct (Req_EM_T (F x) 0); [contradiction|].
    injection E1 as <- <-. injection E2 as <- <-. cbn [xmul xsub xopp xadd xexp] in Q |- *. injection Q as Q. f_equal.
    rewrite !Rmult_assoc. rewrite Rmult_assoc in Q. rewrite Q. ring.
Qed.

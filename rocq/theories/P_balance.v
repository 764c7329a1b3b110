(** * Detailed balance and stationarity of the Metropolis step *)
From Coq Require Import Reals List Bool Arith Lra Lia.
From Verif Require Import XReal Rsum M_mcmc S_mcmc P_mcmc.
Import ListNotations.
Local Open Scope R_scope.

(** Detailed balance off the diagonal gives it everywhere, hence stationarity. *)
Section Chain.
Variables (n : nat) (q a : nat -> nat -> R) (w : nat -> R).
Hypothesis Hq : symmetric_proposal n q.
Hypothesis Hdb : forall i j, (i < n)%nat -> (j < n)%nat -> w i * a i j = w j * a j i.

Lemma transition_balance i j : (i < n)%nat -> (j < n)%nat ->
  w i * transition n q a i j = w j * transition n q a j i.
Proof.
  intros Hi Hj. unfold transition. destruct (Nat.eq_dec i j) as [->|Hn]; [reflexivity|].
  rewrite (proj2 (Nat.eqb_neq i j)), (proj2 (Nat.eqb_neq j i)) by auto.
  rewrite (q_sym _ _ Hq i j) by assumption.
  transitivity (q j i * (w i * a i j)); [ring|]. rewrite Hdb by assumption. ring.
Qed.

Lemma transition_total i : (i < n)%nat -> Rsum n (transition n q a i) = 1.
Proof.
  intros Hi. unfold transition. rewrite Rsum_plus.
  rewrite (Rsum_ext n (fun j => if Nat.eqb i j then _ else 0)
             (fun j => if Nat.eqb j i then Rsum n (fun k => q i k * (1 - a i k)) else 0))
    by (intros; rewrite Nat.eqb_sym; reflexivity).
  rewrite (Rsum_indicator n i (fun _ => Rsum n (fun k => q i k * (1 - a i k)))) by assumption.
  rewrite <- Rsum_plus. etransitivity; [|apply (q_total _ _ Hq i Hi)]. apply Rsum_ext; intros; ring.
Qed.

Lemma stationary j : (j < n)%nat -> push n (transition n q a) w j = w j.
Proof.
  intros Hj. unfold push.
  rewrite (Rsum_ext n _ (fun i => w j * transition n q a j i)) by (intros; apply transition_balance; assumption).
  rewrite Rsum_scal, transition_total by assumption. ring.
Qed.

Lemma stationary_n steps j : (j < n)%nat -> push_n n (transition n q a) steps w j = w j.
Proof.
  revert j. induction steps as [|s IH]; intros j Hj; [reflexivity|].
  simpl. rewrite <- stationary by assumption. apply Rsum_ext. intros i Hi. rewrite IH by assumption. reflexivity.
Qed.
End Chain.

(** The acceptance probability of the code's decision, in both modes, as a function. *)
Definition pr (x : xr) : R := match x with Fin r => Rmax 0 (Rmin 1 r) | PInf => 1 | _ => 0 end.

Lemma accepts_probability x : yes_probability (fun u => accepts u x) (pr x).
Proof.
  unfold yes_probability, accepts. destruct x as [r| | |]; cbn.
  - split.
    + unfold Rmax, Rmin; destruct (Rle_dec 1 r), (Rle_dec 0 _); lra.
    + intros u Hu. rewrite Rltb_true. unfold Rmax, Rmin.
      destruct (Rle_dec 1 r), (Rle_dec 0 _); lra.
  - split; [lra|]. intros u Hu. split; auto. lra.
  - split; [lra|]. intros u Hu. split; [discriminate|lra].
  - split; [lra|]. intros u Hu. split; [discriminate|lra].
Qed.

Lemma yes_probability_unique d a b : yes_probability d a -> yes_probability d b -> a = b.
Proof.
  intros [Ha Pa] [Hb Pb]. destruct (Rtotal_order a b) as [H|[H|H]]; auto; exfalso.
  - assert (a < a) by (apply Pa; [lra|]; apply Pb; lra). lra.
  - assert (b < b) by (apply Pb; [lra|]; apply Pa; lra). lra.
Qed.

(** The weight |psi|^2 from the amplitude the code stores. *)
Definition weight_plain (x : R) : R := x * x.
Definition weight_log (x : xr) : R := match x with Fin r => exp (2 * r) | _ => 0 end.

Lemma balance_plain x y :
  weight_plain x * pr (accept_plain (Fin x) (Fin y)) = weight_plain y * pr (accept_plain (Fin y) (Fin x)).
Proof.
  assert (K : forall x y, x <> 0 -> y <> 0 -> x * x <= y * y ->
              x * x * pr (accept_plain (Fin x) (Fin y)) = y * y * pr (accept_plain (Fin y) (Fin x))).
  { clear x y. intros x y Hx Hy L. rewrite !accept_plain_fin. cbn.
    destruct (Req_EM_T x 0); [contradiction|]. destruct (Req_EM_T y 0); [contradiction|].
    assert (0 < x * x) by nra. assert (0 < y * y) by nra.
    assert (E1 : Rsqr (y / x) = y * y / (x * x)) by (unfold Rsqr; field; assumption).
    assert (E2 : Rsqr (x / y) = x * x / (y * y)) by (unfold Rsqr; field; assumption).
    rewrite (Rmin_left 1 (Rsqr (y / x))).
    2:{ rewrite E1. apply Rmult_le_reg_r with (x * x); [assumption|]. unfold Rdiv; rewrite Rmult_assoc, Rinv_l; lra. }
    rewrite (Rmin_right 1 (Rsqr (x / y))).
    2:{ rewrite E2. apply Rmult_le_reg_r with (y * y); [assumption|]. unfold Rdiv; rewrite Rmult_assoc, Rinv_l; lra. }
    rewrite (Rmin_left 1 1) by lra. rewrite (Rmin_right 1 (Rsqr (x / y))).
    2:{ rewrite E2. apply Rmult_le_reg_r with (y * y); [assumption|]. unfold Rdiv; rewrite Rmult_assoc, Rinv_l; lra. }
    rewrite (Rmax_right 0 1) by lra. rewrite (Rmax_right 0 (Rsqr (x / y))) by apply Rle_0_sqr.
    rewrite E2. field. lra. }
  unfold weight_plain.
  destruct (Req_dec x 0) as [->|Hx]; [|destruct (Req_dec y 0) as [->|Hy]].
  - rewrite Rmult_0_l, Rmult_0_l. destruct (Req_dec y 0) as [->|Hy]; [ring|].
    rewrite accept_plain_fin. destruct (Req_EM_T y 0); [contradiction|]. cbn.
    unfold Rdiv. rewrite Rmult_0_l, Rsqr_0. rewrite (Rmin_right 1 0) by lra. rewrite (Rmin_right 1 0) by lra. rewrite Rmax_left by lra. ring.
  - rewrite (Rmult_0_l 0), Rmult_0_l. rewrite accept_plain_fin. destruct (Req_EM_T x 0); [contradiction|]. cbn.
    unfold Rdiv. rewrite Rmult_0_l, Rsqr_0. rewrite (Rmin_right 1 0) by lra. rewrite (Rmin_right 1 0) by lra. rewrite Rmax_left by lra. ring.
  - destruct (Rle_lt_dec (x * x) (y * y)); [apply K; auto|symmetry; apply K; auto; lra].
Qed.

Lemma pr_log_fin a b : pr (accept_log (Fin a) (Fin b)) = pr (accept_plain (Fin (exp a)) (Fin (exp b))).
Proof.
  rewrite accept_log_fin, accept_plain_fin. pose proof (exp_pos a).
  destruct (Req_EM_T (exp a) 0); [lra|reflexivity].
Qed.

Lemma pr_log_to_node a : pr (accept_log (Fin a) MInf) = 0.
Proof.
  unfold accept_log. rewrite two_minf. cbn. unfold Rmax, Rmin.
  destruct (Rle_dec 1 0); [lra|]. destruct (Rle_dec 0 0); reflexivity.
Qed.

Lemma balance_log x y : (exists r, x = Fin r) \/ x = MInf -> (exists r, y = Fin r) \/ y = MInf ->
  weight_log x * pr (accept_log x y) = weight_log y * pr (accept_log y x).
Proof.
  intros [[a ->]| ->] [[b ->]| ->]; cbn [weight_log].
  - rewrite !pr_log_fin, !exp2. apply (balance_plain (exp a) (exp b)).
  - rewrite pr_log_to_node. ring.
  - rewrite pr_log_to_node. ring.
  - ring.
Qed.

Lemma normal_density_opp z : normal_density (map Ropp z) = normal_density z.
Proof.
  unfold normal_density. rewrite map_map. induction z as [|t z IH]; simpl; [reflexivity|].
  rewrite IH. do 3 f_equal. field.
Qed.

Lemma zipw_back (x z : list R) s : length x = length z ->
  zipw (fun x z => x + s * z) (zipw (fun x z => x + s * z) x z) (map Ropp z) = x.
Proof.
  revert z. induction x as [|a x IH]; destruct z as [|b z]; simpl; intros H; try discriminate; auto.
  f_equal; [ring|]. apply IH. congruence.
Qed.

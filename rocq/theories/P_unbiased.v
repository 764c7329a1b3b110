(** * The gradient estimator is unbiased: exact sampling from a finite state space *)
From Coq Require Import Reals List Arith Lra Lia.
From Coquelicot Require Import Coquelicot.
From Verif Require Import XReal Rsum M_mcmc S_energy P_distribute P_energy P_grad.
Import ListNotations.
Local Open Scope R_scope.

Lemma Eiid_ext K p n f g :
  (forall l, length l = n -> (forall s, In s l -> (s < K)%nat) -> f l = g l) -> Eiid K p n f = Eiid K p n g.
Proof.
  revert f g. induction n as [|n IH]; intros f g H; simpl; [apply H; [reflexivity|contradiction]|].
  apply Rsum_ext. intros s Hs. f_equal. apply IH. intros l Hl Hin. apply H; [simpl; lia|].
  intros s' [<-|Hs']; auto.
Qed.

Lemma Eiid_plus K p n f g : Eiid K p n (fun l => f l + g l) = Eiid K p n f + Eiid K p n g.
Proof.
  revert f g. induction n as [|n IH]; intros f g; simpl; [reflexivity|].
  rewrite <- Rsum_plus. apply Rsum_ext. intros s _. rewrite IH. ring.
Qed.

Lemma Eiid_scal K p n c f : Eiid K p n (fun l => c * f l) = c * Eiid K p n f.
Proof.
  revert f. induction n as [|n IH]; intros f; simpl; [reflexivity|].
  rewrite <- Rsum_scal. apply Rsum_ext. intros s _. rewrite IH. ring.
Qed.

Section Iid.
Variables (K : nat) (p : nat -> R).
Hypothesis Hp : Rsum K p = 1.
Definition Ex (f : nat -> R) : R := Rsum K (fun s => p s * f s).

Lemma Eiid_const n c : Eiid K p n (fun _ => c) = c.
Proof. induction n as [|n IH]; simpl; [reflexivity|]. rewrite (Rsum_ext _ _ (fun s => p s * c)) by (intros; rewrite IH; reflexivity). rewrite Rsum_scal_r, Hp. ring. Qed.

Lemma Eiid_sum n f : Eiid K p n (fun l => lsum (map f l)) = INR n * Ex f.
Proof.
  induction n as [|n IH]; [unfold lsum; simpl; ring|]. cbn [Eiid].
  rewrite (Rsum_ext _ _ (fun s => p s * f s + p s * (INR n * Ex f))).
  - rewrite Rsum_plus, Rsum_scal_r, Hp. fold (Ex f). rewrite S_INR. ring.
  - intros s _. unfold lsum. cbn [map fold_right]. rewrite Eiid_plus, Eiid_const. unfold lsum in IH. rewrite IH. ring.
Qed.

Lemma Eiid_sum_sum n f g : Eiid K p n (fun l => lsum (map f l) * lsum (map g l)) =
  INR n * Ex (fun s => f s * g s) + INR n * (INR n - 1) * (Ex f * Ex g).
Proof.
  induction n as [|n IH]; [unfold lsum; simpl; ring|]. cbn [Eiid].
  rewrite (Rsum_ext _ _ (fun s => p s * (f s * g s) + p s * f s * (INR n * Ex g) + p s * g s * (INR n * Ex f) +
     p s * (INR n * Ex (fun s => f s * g s) + INR n * (INR n - 1) * (Ex f * Ex g)))).
  - rewrite !Rsum_plus, !Rsum_scal_r, Hp. fold (Ex f). fold (Ex g). fold (Ex (fun s => f s * g s)). rewrite S_INR. ring.
  - intros s _.
    transitivity (p s * (f s * g s + (f s * Eiid K p n (fun l => lsum (map g l)) + (g s * Eiid K p n (fun l => lsum (map f l)) +
       Eiid K p n (fun l => lsum (map f l) * lsum (map g l)))))).
    + f_equal. rewrite <- (Eiid_const n (f s * g s)) at 1. rewrite <- !Eiid_scal, <- !Eiid_plus.
      apply Eiid_ext. intros l _ _. unfold lsum. cbn [map fold_right]. ring.
    + rewrite IH, !Eiid_sum. ring.
Qed.

Lemma lcov_expand l l' : length l = length l' -> (2 <= length l)%nat ->
  lcov l l' = / (INR (length l) - 1) * lsum (zipw Rmult l l') + - / ((INR (length l) - 1) * INR (length l)) * (lsum l * lsum l').
Proof.
  intros H H2. rewrite lcov_half by assumption. apply (le_INR 2) in H2. simpl in H2.
  assert (G : forall m l l', length l = length l' -> lsum (zipw Rmult (map (fun e => e - m) l) l') = lsum (zipw Rmult l l') - m * lsum l').
  { clear. intros m. unfold lsum. induction l as [|a l IH]; intros [|b l'] H; simpl in *; try lia; try lra. rewrite IH by lia. ring. }
  rewrite G by assumption. unfold lmean. field. split; lra.
Qed.

Lemma zipw_map_map {A} (f g : A -> R) l : zipw Rmult (map f l) (map g l) = map (fun x => f x * g x) l.
Proof. induction l; simpl; congruence. Qed.

Lemma Eiid_cov n f g : (2 <= n)%nat ->
  Eiid K p n (fun l => lcov (map f l) (map g l)) = Ex (fun s => f s * g s) - Ex f * Ex g.
Proof.
  intros Hn. rewrite (Eiid_ext K p n _ (fun l => / (INR n - 1) * lsum (map (fun s => f s * g s) l) +
    - / ((INR n - 1) * INR n) * (lsum (map f l) * lsum (map g l)))).
  - rewrite Eiid_plus, !Eiid_scal, Eiid_sum, Eiid_sum_sum. apply (le_INR 2) in Hn. simpl in Hn. field. lra.
  - intros l Hl _. rewrite lcov_expand by (rewrite !map_length; lia). rewrite zipw_map_map, map_length, Hl. reflexivity.
Qed.

Lemma Eiid_mean n f : (1 <= n)%nat -> Eiid K p n (fun l => lmean (map f l)) = Ex f.
Proof.
  intros Hn. rewrite (Eiid_ext K p n _ (fun l => / INR n * lsum (map f l))).
  - rewrite Eiid_scal, Eiid_sum. apply (le_INR 1) in Hn. simpl in Hn. field. lra.
  - intros l Hl _. unfold lmean. rewrite map_length, Hl. unfold Rdiv. ring.
Qed.
End Iid.

(** ** Derivative of the energy *)
Lemma is_derive_Rsum n (f : nat -> R -> R) (d : nat -> R) t :
  (forall i, (i < n)%nat -> is_derive (f i) t (d i)) -> is_derive (fun t => Rsum n (fun i => f i t)) t (Rsum n d).
Proof.
  induction n as [|n IH]; intros H; simpl; [apply (is_derive_const 0)|].
  apply (is_derive_plus (fun t => Rsum n (fun i => f i t)) (f n)); [apply IH; auto|apply H; lia].
Qed.

Lemma is_derive_ln_abs x : x <> 0 -> is_derive (fun y => ln (Rabs y)) x (/ x).
Proof.
  intros Hn. destruct (Rdichotomy _ _ Hn) as [H|H].
  - apply (is_derive_ext_loc (fun y => ln (- y))).
    + assert (L : locally x (fun y => y < 0)) by (apply (open_lt 0); assumption).
      destruct L as [eps L]. exists eps. intros y Hy. rewrite (Rabs_left y); [reflexivity|apply L; assumption].
    + replace (/ x) with (scal (- (1)) (/ - x)) by (unfold scal; simpl; unfold mult; simpl; field; assumption).
      apply (is_derive_comp ln (fun y => - y)).
      * apply is_derive_Reals. apply derivable_pt_lim_ln. lra.
      * auto_derive; [trivial|ring].
  - apply (is_derive_ext_loc ln).
    + assert (L : locally x (fun y => 0 < y)) by (apply (open_gt 0); assumption).
      destruct L as [eps L]. exists eps. intros y Hy. rewrite (Rabs_right y); [reflexivity|left; apply L; assumption].
    + apply is_derive_Reals. apply derivable_pt_lim_ln. assumption.
Qed.

Lemma is_derive_sq (f : R -> R) t d : is_derive f t d -> is_derive (fun t => f t ^ 2) t (2 * (d * f t)).
Proof.
  intros H. auto_derive; [exists d; exact H|]. change (Derive (fun x => f x) t) with (Derive f t). rewrite (is_derive_unique f t d H). ring.
Qed.

Section Rayleigh.
Variables (K : nat) (psi : nat -> R -> R) (dpsi : nat -> R) (t0 : R).
Hypothesis HK : (0 < K)%nat.
Hypothesis Hd : forall i, (i < K)%nat -> is_derive (psi i) t0 (dpsi i).
Hypothesis Hnz : forall i, (i < K)%nat -> psi i t0 <> 0.

Definition Z (t : R) : R := Rsum K (fun i => psi i t ^ 2).
(** Probability of state i: |psi|^2 normalised; derivative of log|psi|. *)
Definition born (i : nat) : R := psi i t0 ^ 2 / Z t0.
Definition dlog (i : nat) : R := dpsi i / psi i t0.

Lemma Z_pos : 0 < Z t0.
Proof.
  unfold Z. destruct K as [|k]; [lia|]. rewrite Rsum_S_l.
  assert (0 <= Rsum k (fun i => psi (S i) t0 ^ 2)) by (apply Rsum_nonneg; intros; apply pow2_ge_0).
  assert (0 < psi O t0 ^ 2) by (rewrite <- Rsqr_pow2; apply Rsqr_pos_lt, Hnz; lia). lra.
Qed.

Lemma born_sum : Rsum K born = 1.
Proof. unfold born, Rdiv. rewrite Rsum_scal_r. fold (Z t0). pose proof Z_pos. apply Rinv_r. lra. Qed.

Lemma dlog_is_derive i : (i < K)%nat -> is_derive (fun t => ln (Rabs (psi i t))) t0 (dlog i).
Proof.
  intros Hi. unfold dlog. replace (dpsi i / psi i t0) with (scal (dpsi i) (/ psi i t0)) by reflexivity.
  apply (is_derive_comp (fun y => ln (Rabs y)) (psi i)); [apply is_derive_ln_abs; auto|apply Hd; assumption].
Qed.

(** The generic rule: local energies that depend on the parameter in any way. *)
Lemma expectation_derive (e : nat -> R -> R) (de : nat -> R) :
  (forall i, (i < K)%nat -> is_derive (e i) t0 (de i)) ->
  is_derive (fun t => Rsum K (fun i => psi i t ^ 2 * e i t) / Z t) t0
    (Ex K born de + 2 * (Ex K born (fun i => e i t0 * dlog i) - Ex K born (fun i => e i t0) * Ex K born dlog)).
Proof.
  intros He. pose proof Z_pos as HZ.
  assert (DZ : is_derive Z t0 (Rsum K (fun i => 2 * (dpsi i * psi i t0)))).
  { unfold Z. apply is_derive_Rsum. intros i Hi. apply is_derive_sq. apply Hd. assumption. }
  assert (DN : is_derive (fun t => Rsum K (fun i => psi i t ^ 2 * e i t)) t0
     (Rsum K (fun i => 2 * (dpsi i * psi i t0) * e i t0 + psi i t0 ^ 2 * de i))).
  { apply (is_derive_Rsum K (fun i t => psi i t ^ 2 * e i t)). intros i Hi.
    apply (is_derive_mult (fun t => psi i t ^ 2) (e i)); [|apply He; assumption|intros; apply Rmult_comm].
    apply is_derive_sq. apply Hd. assumption. }
  pose proof (is_derive_div _ _ t0 _ _ DN DZ ltac:(lra)) as H.
  match type of H with is_derive ?f _ ?v =>
    match goal with |- is_derive ?g _ ?w => replace w with v; [exact H|] end end.
  unfold Ex. rewrite Rsum_plus.
  set (A := Rsum K (fun i => 2 * (dpsi i * psi i t0) * e i t0)).
  set (B := Rsum K (fun i => psi i t0 ^ 2 * de i)).
  set (C := Rsum K (fun i => psi i t0 ^ 2 * e i t0)).
  set (F := Rsum K (fun i => 2 * (dpsi i * psi i t0))).
  assert (E1 : Rsum K (fun s => born s * de s) = B / Z t0).
  { unfold B, Rdiv. rewrite <- Rsum_scal_r. apply Rsum_ext. intros; unfold born; field; lra. }
  assert (E2 : 2 * Rsum K (fun s => born s * (e s t0 * dlog s)) = A / Z t0).
  { unfold A, Rdiv. rewrite <- Rsum_scal_r, <- Rsum_scal. apply Rsum_ext. intros i Hi; unfold born, dlog; field; pose proof (Hnz i Hi); lra. }
  assert (E3 : Rsum K (fun s => born s * e s t0) = C / Z t0).
  { unfold C, Rdiv. rewrite <- Rsum_scal_r. apply Rsum_ext. intros; unfold born; field; lra. }
  assert (E4 : 2 * Rsum K (fun s => born s * dlog s) = F / Z t0).
  { unfold F, Rdiv. rewrite <- Rsum_scal_r, <- Rsum_scal. apply Rsum_ext. intros i Hi; unfold born, dlog; field; pose proof (Hnz i Hi); lra. }
  rewrite E1, E3. rewrite Rmult_minus_distr_l, E2.
  replace (2 * (C / Z t0 * Rsum K (fun s => born s * dlog s))) with (C / Z t0 * (2 * Rsum K (fun s => born s * dlog s))) by ring.
  rewrite E4. unfold A, B, C, F. field. lra.
Qed.

(** The Rayleigh quotient of a symmetric matrix: only the covariance term survives. *)
Variable H : nat -> nat -> R.
Hypothesis Hsym : forall i j, (i < K)%nat -> (j < K)%nat -> H i j = H j i.

Definition eloc (i : nat) : R := Rsum K (fun j => H i j * psi j t0) / psi i t0.

Lemma rayleigh_derive :
  is_derive (fun t => Rsum K (fun i => psi i t * Rsum K (fun j => H i j * psi j t)) / Z t) t0
    (2 * (Ex K born (fun i => eloc i * dlog i) - Ex K born eloc * Ex K born dlog)).
Proof.
  pose proof Z_pos as HZ.
  assert (DZ : is_derive Z t0 (Rsum K (fun i => 2 * (dpsi i * psi i t0)))).
  { unfold Z. apply is_derive_Rsum. intros i Hi. apply is_derive_sq. apply Hd. assumption. }
  assert (DH : forall i, (i < K)%nat -> is_derive (fun t => Rsum K (fun j => H i j * psi j t)) t0 (Rsum K (fun j => H i j * dpsi j))).
  { intros i Hi. apply (is_derive_Rsum K (fun j t => H i j * psi j t)). intros j Hj. apply (is_derive_scal (psi j)). apply Hd; assumption. }
  assert (DN : is_derive (fun t => Rsum K (fun i => psi i t * Rsum K (fun j => H i j * psi j t))) t0
     (Rsum K (fun i => dpsi i * Rsum K (fun j => H i j * psi j t0) + psi i t0 * Rsum K (fun j => H i j * dpsi j)))).
  { apply (is_derive_Rsum K (fun i t => psi i t * Rsum K (fun j => H i j * psi j t))). intros i Hi.
    apply (is_derive_mult (psi i) (fun t => Rsum K (fun j => H i j * psi j t))); [apply Hd; assumption|apply DH; assumption|intros; apply Rmult_comm]. }
  pose proof (is_derive_div _ _ t0 _ _ DN DZ ltac:(lra)) as HH.
  match type of HH with is_derive ?f _ ?v =>
    match goal with |- is_derive ?g _ ?w => replace w with v; [exact HH|] end end.
  rewrite Rsum_plus.
  assert (SY : Rsum K (fun i => psi i t0 * Rsum K (fun j => H i j * dpsi j)) = Rsum K (fun i => dpsi i * Rsum K (fun j => H i j * psi j t0))).
  { rewrite (Rsum_ext K _ (fun i => Rsum K (fun j => psi i t0 * (H i j * dpsi j)))) by (intros; rewrite Rsum_scal; reflexivity).
    rewrite Rsum_swap. apply Rsum_ext. intros j Hj. rewrite <- Rsum_scal. apply Rsum_ext. intros i Hi. rewrite (Hsym i j) by assumption. ring. }
  rewrite SY.
  set (A := Rsum K (fun i => dpsi i * Rsum K (fun j => H i j * psi j t0))).
  set (C := Rsum K (fun i => psi i t0 * Rsum K (fun j => H i j * psi j t0))).
  set (F := Rsum K (fun i => 2 * (dpsi i * psi i t0))).
  assert (E2 : Ex K born (fun i => eloc i * dlog i) = A / Z t0).
  { unfold A, Rdiv, Ex. rewrite <- Rsum_scal_r. apply Rsum_ext. intros i Hi; unfold born, dlog, eloc; field; pose proof (Hnz i Hi); lra. }
  assert (E3 : Ex K born eloc = C / Z t0).
  { unfold C, Rdiv, Ex. rewrite <- Rsum_scal_r. apply Rsum_ext. intros i Hi; unfold born, eloc; field; pose proof (Hnz i Hi); lra. }
  assert (E4 : 2 * Ex K born dlog = F / Z t0).
  { unfold F, Rdiv, Ex. rewrite <- Rsum_scal_r, <- Rsum_scal. apply Rsum_ext. intros i Hi; unfold born, dlog; field; pose proof (Hnz i Hi); lra. }
  rewrite E2, E3.
  replace (2 * (A / Z t0 - C / Z t0 * Ex K born dlog)) with (2 * (A / Z t0) - C / Z t0 * (2 * Ex K born dlog)) by ring.
  rewrite E4. field. lra.
Qed.
End Rayleigh.

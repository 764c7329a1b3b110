(** * Zero-padded FFT autocorrelation equals the direct sum *)
From Coq Require Import Reals List Arith Bool Lra Lia ZArith.
From Verif Require Import XReal Rsum M_stats.
Import ListNotations.
Local Open Scope R_scope.

Lemma Csum_parts n f : Csum n f = (Rsum n (fun i => fst (f i)), Rsum n (fun i => snd (f i))).
Proof. induction n; simpl; [reflexivity|]. rewrite IHn. reflexivity. Qed.

(** Dirichlet kernel. *)
Lemma cos_sum n a : 2 * sin (a / 2) * Rsum n (fun k => cos (INR k * a)) = sin ((INR n - / 2) * a) + sin (a / 2).
Proof.
  induction n.
  - simpl Rsum. rewrite Rmult_0_r. replace ((INR 0 - / 2) * a) with (- (a / 2)) by (simpl; field).
    rewrite sin_neg. ring.
  - cbn [Rsum]. rewrite Rmult_plus_distr_l, IHn.
    replace ((INR (S n) - / 2) * a) with (INR n * a + a / 2) by (rewrite S_INR; field).
    replace ((INR n - / 2) * a) with (INR n * a - a / 2) by field.
    rewrite sin_plus, sin_minus. ring.
Qed.

Lemma cos_sum_period n (m : Z) : (0 < n)%nat -> (m <> 0)%Z -> (Z.abs m < Z.of_nat n)%Z ->
  Rsum n (fun k => cos (INR k * (2 * PI * IZR m / INR n))) = 0.
Proof.
  intros Hn Hm Hlt. set (a := 2 * PI * IZR m / INR n).
  assert (Hn' : 0 < INR n) by (apply lt_0_INR; assumption).
  assert (Hs : sin (a / 2) <> 0).
  { assert (A : a / 2 = PI * (IZR m / INR n)) by (unfold a; field; lra).
    rewrite A. pose proof PI_RGT_0.
    assert (B : -1 < IZR m / INR n < 1).
    { rewrite INR_IZR_INZ in *. assert (- IZR (Z.of_nat n) < IZR m < IZR (Z.of_nat n)).
      { rewrite <- opp_IZR. split; apply IZR_lt; lia. }
      split; apply Rmult_lt_reg_r with (IZR (Z.of_nat n)); try assumption; unfold Rdiv; rewrite Rmult_assoc, Rinv_l; lra. }
    assert (C : IZR m / INR n <> 0).
    { unfold Rdiv. apply Rmult_integral_contrapositive. split; [apply not_0_IZR; assumption|apply Rinv_neq_0_compat; lra]. }
    destruct (Rlt_le_dec 0 (IZR m / INR n)) as [P|P].
    - apply Rgt_not_eq. apply sin_gt_0; nra.
    - apply Rlt_not_eq. apply sin_lt_0_var; nra. }
  apply Rmult_eq_reg_l with (2 * sin (a / 2)); [|lra]. rewrite cos_sum.
  replace ((INR n - / 2) * a) with (- (a / 2) + 2 * IZR m * PI) by (unfold a; field; lra).
  assert (P : forall x (k : Z), sin (x + 2 * IZR k * PI) = sin x).
  { intros x k. destruct (Z_le_gt_dec 0 k) as [H|H].
    - rewrite <- (Z2Nat.id k) by assumption. rewrite <- INR_IZR_INZ. apply sin_period.
    - rewrite <- (sin_period (x + 2 * IZR k * PI) (Z.to_nat (- k))).
      f_equal. rewrite INR_IZR_INZ, Z2Nat.id by lia. rewrite opp_IZR. ring. }
  rewrite P, sin_neg. ring.
Qed.

Lemma cos_sum_zero n : Rsum n (fun k => cos (INR k * (2 * PI * IZR 0 / INR n))) = INR n.
Proof.
  rewrite (Rsum_ext n _ (fun _ => 1)).
  - rewrite Rsum_const. ring.
  - intros i _. unfold Rdiv. rewrite Rmult_0_r, Rmult_0_l, Rmult_0_r. apply cos_0.
Qed.

Section Autocorr.
Variables (N : nat) (x : nat -> R).
Hypothesis HN : (0 < N)%nat.
Let n := (2 * N)%nat.
Let y t := if Nat.ltb t N then x t else 0.
Let w (k t : nat) := 2 * PI * INR k * INR t / INR n.

Lemma n_pos : 0 < INR n. Proof. apply lt_0_INR. unfold n. lia. Qed.

Lemma fft_parts k : fft N x n k = (Rsum n (fun t => y t * cos (w k t)), - Rsum n (fun t => y t * sin (w k t))).
Proof.
  unfold fft. rewrite Csum_parts. unfold cmul, cexp_i. cbn [fst snd]. f_equal.
  - apply Rsum_ext. intros t _. fold (y t) (w k t). rewrite cos_neg. ring.
  - replace (- Rsum n (fun t => y t * sin (w k t))) with ((-1) * Rsum n (fun t => y t * sin (w k t))) by ring.
    rewrite <- Rsum_scal. apply Rsum_ext. intros t _. fold (y t) (w k t). rewrite sin_neg. ring.
Qed.

Lemma power k : fst (cmul (fft N x n k) (conj (fft N x n k))) =
  Rsum n (fun s => Rsum n (fun t => y s * y t * cos (w k s - w k t))) /\
  snd (cmul (fft N x n k) (conj (fft N x n k))) = 0.
Proof.
  rewrite fft_parts. unfold cmul, conj. cbn [fst snd]. split; [|ring].
  set (c := Rsum n (fun t => y t * cos (w k t))). set (s := Rsum n (fun t => y t * sin (w k t))).
  transitivity (c * c + s * s); [ring|].
  rewrite (Rsum_ext n _ (fun i => (y i * cos (w k i)) * c + (y i * sin (w k i)) * s)).
  - rewrite Rsum_plus, !Rsum_scal_r. reflexivity.
  - intros i _. unfold c, s. rewrite <- !Rsum_scal, <- Rsum_plus. apply Rsum_ext. intros j _.
    rewrite cos_minus. ring.
Qed.

Lemma fft_autocov j : (j < N)%nat ->
  fst (ifft n (fun k => cmul (fft N x n k) (conj (fft N x n k))) j) = Rsum (N - j) (fun t => x t * x (t + j)%nat).
Proof.
  intros Hj. pose proof n_pos as Hn. unfold ifft. rewrite Csum_parts. unfold cmul at 1. cbn [fst snd].
  rewrite Rmult_0_l, Rminus_0_r.
  transitivity (/ INR n * Rsum n (fun k => Rsum n (fun s => Rsum n (fun t =>
     y s * y t * (/ 2 * (cos (INR k * (2 * PI * IZR (Z.of_nat s - Z.of_nat t + Z.of_nat j) / INR n))
                  + cos (INR k * (2 * PI * IZR (Z.of_nat s - Z.of_nat t - Z.of_nat j) / INR n)))))))).
  { f_equal. apply Rsum_ext. intros k _. destruct (power k) as [P1 P2].
    unfold cmul at 1. cbn [fst snd cexp_i]. rewrite P1, P2, Rmult_0_l, Rminus_0_r.
    rewrite <- Rsum_scal_r. apply Rsum_ext. intros s _. rewrite <- Rsum_scal_r. apply Rsum_ext. intros t _.
    rewrite Rmult_assoc. f_equal.
    replace (INR k * (2 * PI * IZR (Z.of_nat s - Z.of_nat t + Z.of_nat j) / INR n)) with ((w k s - w k t) + w k j).
    2:{ unfold w. rewrite plus_IZR, minus_IZR, <- !INR_IZR_INZ. field. lra. }
    replace (INR k * (2 * PI * IZR (Z.of_nat s - Z.of_nat t - Z.of_nat j) / INR n)) with ((w k s - w k t) - w k j).
    2:{ unfold w. rewrite !minus_IZR, <- !INR_IZR_INZ. field. lra. }
    rewrite (cos_plus (w k s - w k t) (w k j)), (cos_minus (w k s - w k t) (w k j)).
    change (2 * PI * INR k * INR j / INR n) with (w k j). field. }
  rewrite Rsum_swap.
  transitivity (/ INR n * Rsum n (fun s => Rsum n (fun t => y s * y t * (/ 2 * INR n * 
     ((if Nat.eqb (s + j) t then 1 else 0) + (if Nat.eqb s (t + j) then 1 else 0)))))).
  { f_equal. apply Rsum_ext. intros s Hs. rewrite Rsum_swap. apply Rsum_ext. intros t Ht.
    rewrite Rsum_scal.
    destruct (Nat.ltb_spec s N) as [Ls|Ls].
    2:{ unfold y at 1 3. rewrite (proj2 (Nat.ltb_ge s N)) by assumption. ring. }
    destruct (Nat.ltb_spec t N) as [Lt|Lt].
    2:{ unfold y at 2 4. rewrite (proj2 (Nat.ltb_ge t N)) by assumption. ring. }
    f_equal. rewrite Rsum_scal, Rsum_plus. rewrite (Rmult_assoc (/ 2)). f_equal.
    assert (E : forall m b, ((m = 0)%Z <-> b = true) -> (Z.abs m < Z.of_nat n)%Z ->
      Rsum n (fun k => cos (INR k * (2 * PI * IZR m / INR n))) = INR n * (if b then 1 else 0)).
    { intros m b Hb Hlt. destruct b.
      - rewrite (proj2 Hb eq_refl), cos_sum_zero. ring.
      - rewrite cos_sum_period; [ring|unfold n; lia| |assumption]. intros E. apply Hb in E. discriminate. }
    rewrite Rmult_plus_distr_l. f_equal; apply E.
    - rewrite Nat.eqb_eq. lia.
    - unfold n. lia.
    - rewrite Nat.eqb_eq. lia.
    - unfold n. lia. }
  transitivity (/ 2 * (Rsum n (fun s => Rsum n (fun t => if Nat.eqb t (s + j) then y s * y t else 0))
                + Rsum n (fun s => Rsum n (fun t => if Nat.eqb s (t + j) then y s * y t else 0)))).
  { rewrite <- Rsum_plus, <- !Rsum_scal. apply Rsum_ext. intros s _.
    rewrite <- Rsum_plus, <- !Rsum_scal. apply Rsum_ext. intros t _.
    rewrite (Nat.eqb_sym t (s + j)). destruct (Nat.eqb (s + j) t), (Nat.eqb s (t + j)); field; lra. }
  assert (A : Rsum n (fun s => Rsum n (fun t => if Nat.eqb t (s + j) then y s * y t else 0)) = Rsum (N - j) (fun t => x t * x (t + j)%nat)).
  { replace n with ((N - j) + (N + j))%nat at 1 by (unfold n; lia). rewrite Rsum_app.
    rewrite (Rsum_ext (N - j) _ (fun t => x t * x (t + j)%nat)).
    - rewrite (Rsum_eq_0 (N + j)); [ring|]. intros i Hi. apply Rsum_eq_0. intros t Ht.
      destruct (Nat.eqb_spec t (N - j + i + j)) as [->|]; [|reflexivity].
      unfold y at 2. rewrite (proj2 (Nat.ltb_ge _ N)) by lia. ring.
    - intros s Hs. rewrite (Rsum_indicator n (s + j) (fun t => y s * y t)) by (unfold n; lia).
      unfold y. rewrite !(proj2 (Nat.ltb_lt _ N)) by lia. reflexivity. }
  assert (B : Rsum n (fun s => Rsum n (fun t => if Nat.eqb s (t + j) then y s * y t else 0)) = Rsum (N - j) (fun t => x t * x (t + j)%nat)).
  { rewrite Rsum_swap, <- A. apply Rsum_ext. intros t _. apply Rsum_ext. intros s _.
    destruct (Nat.eqb s (t + j)); [ring|reflexivity]. }
  rewrite A, B. field.
Qed.
End Autocorr.

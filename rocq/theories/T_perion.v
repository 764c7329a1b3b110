(** T_perion: isotropic decay rates are documented per ion (C50, C73), but one rate serves all ions. *)
From Coq Require Import Reals Lra Lia List Arith.
From Verif Require Import XReal Rsum M_models S_models P_models S_features P_features T_features.
Import ListNotations.
Local Open Scope R_scope.

(** The documented one-body log Jastrow, jastrow.py:70-76: -sum_ij |a_j (elec_i - ion_j)|, with one rate a_j for every ion j. *)
Definition documented_one_body (a : list R) (ions x : list (list R)) : R :=
  - lsum (map (fun e => lsum (map (fun p => Rabs (fst p) * edist e (snd p)) (combine a ions))) x).
(** C50, documented formula refuted: for rates 1 and 2 no parameter gives it. *)
Theorem C50_per_ion_rates_refuted :
  ~ (forall a, exists k, forall ions x, length ions = length a -> one_body_exp_decay (Fin k) true (displacements (fin2 x) (fin2 ions)) = Fin (documented_one_body a ions x)).
Proof.
  intros H. destruct (H [1; 2]) as [k K]. assert (E : forall e, Rabs k * (edist e [0] + edist e [1]) = edist e [0] + 2 * edist e [1]).
  { intros e. specialize (K [[0]; [1]] [e] eq_refl). rewrite (proj1 (C50_one_body_formula k [[0]; [1]] [e])) in K. injection K as K. unfold documented_one_body, lsum in K. cbn [map combine fold_right fst snd] in K. rewrite (Rabs_pos_eq 1), (Rabs_pos_eq 2) in K by lra. lra. }
  assert (D : forall a b, edist [a] [b] = Rabs (a - b)). { intros a b. unfold edist, lsum. cbn [map combine fold_right fst snd]. rewrite Rplus_0_r. rewrite <- sqrt_Rsqr_abs. f_equal. unfold Rsqr. ring. }
  pose proof (E [0]) as E0. pose proof (E [1]) as E1. rewrite !D in E0, E1. replace (0 - 0) with 0 in * by ring. replace (1 - 1) with 0 in * by ring. replace (0 - 1) with (- (1)) in * by ring. replace (1 - 0) with 1 in * by ring.
  rewrite Rabs_Ropp, Rabs_R0, Rabs_R1 in *. lra.
Qed.
Print Assumptions C50_per_ion_rates_refuted.
(** What holds: with the same rate for every ion the documented formula is computed. *)
Theorem C50_equal_rates : forall k ions x, one_body_exp_decay (Fin k) true (displacements (fin2 x) (fin2 ions)) = Fin (documented_one_body (repeat k (length ions)) ions x).
Proof.
  intros k ions x. rewrite (proj1 (C50_one_body_formula k ions x)). f_equal. unfold documented_one_body. f_equal.
  assert (S1 : forall e, lsum (map (fun p => Rabs (fst p) * edist e (snd p)) (combine (repeat k (length ions)) ions)) = Rabs k * lsum (map (edist e) ions)).
  { intros e. unfold lsum. clear. induction ions as [|i l IH]; cbn [length repeat combine map fold_right fst snd]; [ring|]. rewrite IH. ring. }
  unfold lsum at 1 3. clear - S1. induction x as [|e l IH]; cbn [map fold_right]; [ring|]. rewrite S1, <- IH. ring.
Qed.
Print Assumptions C50_equal_rates.
Example C50_equal_rates_example : documented_one_body [3; 3] [[0]; [1]] [[2]] = -9.
Proof.
  unfold documented_one_body, lsum, edist, lsum. cbn [map combine fold_right fst snd]. replace ((2 - 0) ^ 2 + 0) with (2 * 2) by ring. replace ((2 - 1) ^ 2 + 0) with (1 * 1) by ring. rewrite !sqrt_square by lra. rewrite Rabs_pos_eq by lra. ring.
Qed.

(** C73, documented generality refuted: equivariance.py:777-778 documents "a single decay rate number per ion and orbital".  For one orbital and rates 1 and 2 at two ions, no decay rate and ion weights give
    e^-|r_1| + e^-(2 |r_2|). *)
Theorem C73_per_ion_rates_refuted :
  ~ (forall rates : nat -> R, (forall ion, 0 <= rates ion) -> exists p, forall rs, real_envelope true 0 p rs 0 = Rsum (length rs) (fun ion => exp (- (rates ion * length_of (nth ion rs []))))).
Proof.
  intros H. destruct (H (fun ion => INR ion + 1)) as [p K]; [intros ion; pose proof (pos_INR ion); lra|]. set (y := exp (- Rabs (ro_kappa p 0))). 
  assert (L : forall t, 0 <= t -> length_of [t] = t). { intros t Ht. unfold length_of, lsum. cbn [map fold_right]. replace (t ^ 2 + 0) with (t * t) by ring. apply sqrt_square. exact Ht. }
  assert (E : forall s t, 0 <= s -> 0 <= t -> ro_pi p 0 0 * exp (- (Rabs (ro_kappa p 0) * s)) + ro_pi p 0 1 * exp (- (Rabs (ro_kappa p 0) * t)) = exp (- s) + exp (- (2 * t))).
  { intros s t Hs Ht. specialize (K [[s]; [t]]). unfold real_envelope in K. cbn [length Rsum nth INR] in K. unfold scaled in K. rewrite !length_of_scale, !soft_0 in K by (apply Rmult_le_pos; [apply Rabs_pos|apply length_of_nonneg]). rewrite !L in K by assumption.
    replace ((1 + 1) * t) with (2 * t) in K by ring. replace ((0 + 1) * s) with s in K by ring. lra. }
  assert (Y2 : forall t, exp (- (t * 2)) = exp (- t) * exp (- t)) by (intros t; rewrite <- exp_plus; f_equal; ring).
  set (a := ro_pi p 0 0) in *. set (b := ro_pi p 0 1) in *. set (k := Rabs (ro_kappa p 0)) in *.
  pose proof (E 0 0 ltac:(lra) ltac:(lra)) as E00. pose proof (E 1 0 ltac:(lra) ltac:(lra)) as E10. pose proof (E 2 0 ltac:(lra) ltac:(lra)) as E20. pose proof (E 0 1 ltac:(lra) ltac:(lra)) as E01. pose proof (E 0 2 ltac:(lra) ltac:(lra)) as E02.
  rewrite ?Rmult_0_r, ?Rmult_1_r, ?Ropp_0, ?exp_0, ?Y2 in *. fold y in E10, E20, E01, E02.
  assert (X2 : exp (- (2)) = exp (- (1)) * exp (- (1))) by (rewrite <- exp_plus; f_equal; ring). set (z := exp (- (1))) in *.
  assert (Z01 : 0 < z < 1) by (split; [apply exp_pos|rewrite <- exp_0; apply exp_increasing; lra]). rewrite X2 in *.
  (* a (1 - y) = 1 - z, a (1 - y^2) = 1 - z^2 *)
  assert (A1 : a * (1 - y) = 1 - z) by lra. assert (A2 : a * (1 - y) * (1 + y) = (1 - z) * (1 + z)) by (replace (a * (1 - y) * (1 + y)) with (a - a * (y * y)) by ring; lra). rewrite A1 in A2. assert (YZ : y = z) by nra.
  assert (B1 : b * (1 - y) = 1 - z * z) by lra. assert (B2 : b * (1 - y) * (1 + y) = (1 - z * z) * (1 + z * z)) by (replace (b * (1 - y) * (1 + y)) with (b - b * (y * y)) by ring; lra). rewrite B1, YZ in B2. nra.
Qed.
Print Assumptions C73_per_ion_rates_refuted.

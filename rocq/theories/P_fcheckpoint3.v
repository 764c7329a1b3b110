(** P_fcheckpoint3: the rounding error of the checkpoint metric. *)
From Coq Require Import ZArith Reals.
From Flocq Require Import Core IEEE754.BinarySingleNaN Relative Mult_error Plus_error.
From Coq Require Import Lia Lra List Permutation Bool Arith.
Import ListNotations.
From Verif Require Import M_float S_float P_float P_float2 M_fwalk S_fwalk P_fwalk P_fwalk2 M_fenergy S_fenergy P_fenergy P_fenergy2 P_fenergy3 M_fcheckpoint S_fcheckpoint P_fcheckpoint P_fcheckpoint2.
Open Scope R_scope.

Lemma sqrt_sum a b : 0 <= a -> 0 <= b -> sqrt (a + b) <= sqrt a + sqrt b.
Proof.
  intros Ha Hb. pose proof (sqrt_pos a). pose proof (sqrt_pos b). rewrite <- (sqrt_Rsqr (sqrt a + sqrt b)) by lra. apply sqrt_le_1_alt. unfold Rsqr.
  pose proof (sqrt_sqrt a Ha). pose proof (sqrt_sqrt b Hb). assert (0 <= sqrt a * sqrt b) by (apply Rmult_le_pos; assumption). nra.
Qed.
Lemma sqrt_diff a b d : 0 <= a -> 0 <= b -> Rabs (a - b) <= d -> Rabs (sqrt a - sqrt b) <= sqrt d.
Proof.
  intros Ha Hb H. apply Rabs_le_inv in H. assert (Hd : 0 <= d) by lra. apply Rabs_le.
  assert (A : sqrt a <= sqrt b + sqrt d) by (eapply Rle_trans; [|apply sqrt_sum; assumption]; apply sqrt_le_1_alt; lra).
  assert (B : sqrt b <= sqrt a + sqrt d) by (eapply Rle_trans; [|apply sqrt_sum; assumption]; apply sqrt_le_1_alt; lra). lra.
Qed.

Section Metric.
Variables prec emax : Z.
Context {Hp : Prec_gt_0 prec}.
Context {He : Prec_lt_emax prec emax}.
Notation fl := (binary_float prec emax).
Notation ex := (SpecFloat.fexp prec emax).
Notation rnd := (round radix2 ex ZnearestE).
Notation u := (unit_roundoff prec).
Notation fadd := (fadd prec emax).
Notation fdiv := (fdiv prec emax).
Variable k : Z.
Hypothesis K0 : (0 <= k)%Z.
Hypothesis K1 : (2 * k + 1 + prec < emax)%Z.

Lemma quotient_ge1 (v n : fl) j : (0 <= j)%Z -> (j < emax)%Z -> is_finite v = true -> is_finite n = true -> 1 <= B2R n -> 0 <= B2R v -> B2R v <= bpow radix2 j ->
  is_finite (fdiv v n) = true /\ 0 <= B2R (fdiv v n) <= bpow radix2 j /\ Rabs (B2R (fdiv v n) - B2R v / B2R n) <= u * bpow radix2 j.
Proof.
  intros J0 J1 Fv Fn N1 V0 V1. assert (Q : 0 <= B2R v / B2R n <= bpow radix2 j).
  { split; [apply Rmult_le_pos; [exact V0|left; apply Rinv_0_lt_compat; lra]|]. apply (Rmult_le_reg_r (B2R n)); [lra|]. unfold Rdiv. rewrite Rmult_assoc, Rinv_l, Rmult_1_r by lra. pose proof (bpow_gt_0 radix2 j). nra. }
  assert (AQ : Rabs (B2R v / B2R n) <= bpow radix2 j) by (rewrite Rabs_pos_eq; apply Q).
  pose proof (Bdiv_correct prec emax Hp He mode_NE v n ltac:(lra)) as C. cbn [round_mode] in C.
  assert (RQ : Rabs (rnd (B2R v / B2R n)) <= bpow radix2 j) by (apply (rnd_abs_le prec emax); [apply (fmt_j prec emax); exact J0|exact AQ]).
  rewrite Rlt_bool_true in C by (eapply Rle_lt_trans; [exact RQ|apply bpow_lt; exact J1]). destruct C as [C1 [C2 _]]. unfold M_fwalk.fdiv. rewrite C1, C2.
  split; [exact Fv|]. split; [split; [apply (rnd_nonneg prec emax); apply Q|apply Rabs_le_inv in RQ; lra]|]. apply (rnd_err prec emax); [apply (normal_le prec emax); exact J0|exact AQ].
Qed.

Lemma sqrt_accuracy (y : fl) : is_finite y = true -> 0 <= B2R y <= bpow radix2 (2 * k + 2) ->
  is_finite (Bsqrt mode_NE y) = true /\ 0 <= B2R (Bsqrt mode_NE y) <= bpow radix2 (k + 1) /\ Rabs (B2R (Bsqrt mode_NE y) - sqrt (B2R y)) <= u * bpow radix2 (k + 1).
Proof.
  intros Fy [Y0 Y1]. destruct (Bsqrt_correct prec emax Hp He mode_NE y) as [C1 [C2 _]]. cbn [round_mode] in C1.
  assert (S0 : 0 <= sqrt (B2R y) <= bpow radix2 (k + 1)).
  { split; [apply sqrt_pos|]. rewrite <- (sqrt_Rsqr (bpow radix2 (k + 1))) by apply bpow_ge_0. apply sqrt_le_1_alt. unfold Rsqr. rewrite <- bpow_plus. replace (k + 1 + (k + 1))%Z with (2 * k + 2)%Z by lia. exact Y1. }
  assert (AS : Rabs (sqrt (B2R y)) <= bpow radix2 (k + 1)) by (rewrite Rabs_pos_eq; apply S0).
  assert (RS : Rabs (rnd (sqrt (B2R y))) <= bpow radix2 (k + 1)) by (apply (rnd_abs_le prec emax); [apply (fmt_j prec emax); lia|exact AS]).
  split.
  - rewrite C2. destruct y as [s|s| |s m e H]; try discriminate; [reflexivity|]. destruct s; [|reflexivity]. exfalso. pose proof (fin_neg prec emax m e H). lra.
  - rewrite C1. split; [split; [apply (rnd_nonneg prec emax); apply S0|apply Rabs_le_inv in RS; lra]|]. apply (rnd_err prec emax); [apply (normal_le prec emax); lia|exact AS].
Qed.

Lemma metric_accuracy (e v n : fl) (E V de dv : R) : is_finite e = true -> Rabs (B2R e) <= bpow radix2 (k + 1) -> Rabs (B2R e - E) <= de ->
  is_finite v = true -> 0 <= B2R v <= bpow radix2 (2 * k + 1) -> 0 <= V -> Rabs (B2R v - V) <= dv -> is_finite n = true -> 1 <= B2R n ->
  let m := fadd e (Bsqrt mode_NE (fdiv v n)) in
  is_finite m = true /\ Rabs (B2R m - (E + sqrt (V / B2R n))) <= de + sqrt (dv + u * bpow radix2 (2 * k + 1)) + 6 * u * bpow radix2 k.
Proof.
  intros Fe Be Ee Fv [V0 V1] PV Ev Fn N1 m. pose proof (prec1 prec) as P1.
  destruct (quotient_ge1 v n (2 * k + 1) ltac:(lia) ltac:(lia) Fv Fn N1 V0 V1) as [Fq [[Q0 Q1] Eq]]. set (q := fdiv v n) in *.
  destruct (sqrt_accuracy q Fq) as [Fs [[S0 S1] Es]]; [split; [exact Q0|eapply Rle_trans; [exact Q1|apply bpow_le; lia]]|]. set (s := Bsqrt mode_NE q) in *.
  assert (E1 : bpow radix2 (k + 1) = 2 * bpow radix2 k) by (rewrite bpow_plus; change (bpow radix2 1) with 2; ring).
  assert (E2 : bpow radix2 (k + 2) = 4 * bpow radix2 k) by (rewrite bpow_plus; change (bpow radix2 2) with 4; ring).
  assert (Bm : Rabs (B2R e + B2R s) <= bpow radix2 (k + 2)) by (apply Rabs_le; apply Rabs_le_inv in Be; lra).
  destruct (add_gen prec emax (bpow radix2 (k + 2)) e s (fmt_j prec emax (k + 2) ltac:(lia)) (bpow_lt radix2 (k + 2) emax ltac:(lia)) Fe Fs Bm) as [Fm [Vm _]].
  split; [exact Fm|]. pose proof (rnd_err prec emax _ (bpow radix2 (k + 2)) (normal_le prec emax (k + 2) ltac:(lia)) Bm) as Em. unfold m. rewrite Vm.
  assert (PN : 0 <= V / B2R n) by (apply Rmult_le_pos; [exact PV|left; apply Rinv_0_lt_compat; lra]).
  assert (D : Rabs (B2R q - V / B2R n) <= dv + u * bpow radix2 (2 * k + 1)).
  { replace (B2R q - V / B2R n) with ((B2R q - B2R v / B2R n) + (B2R v - V) / B2R n) by (field; lra). eapply Rle_trans; [apply Rabs_triang|].
    assert (Rabs ((B2R v - V) / B2R n) <= dv); [|lra]. unfold Rdiv. rewrite Rabs_mult, (Rabs_pos_eq (/ B2R n)) by (left; apply Rinv_0_lt_compat; lra).
    apply (Rmult_le_reg_r (B2R n)); [lra|]. rewrite Rmult_assoc, Rinv_l, Rmult_1_r by lra. pose proof (Rabs_pos (B2R v - V)). nra. }
  pose proof (sqrt_diff _ _ _ Q0 PN D) as SD.
  replace (rnd (B2R e + B2R s) - (E + sqrt (V / B2R n))) with ((rnd (B2R e + B2R s) - (B2R e + B2R s)) + ((B2R e - E) + ((B2R s - sqrt (B2R q)) + (sqrt (B2R q) - sqrt (V / B2R n))))) by ring.
  pose proof (Rabs_triang (rnd (B2R e + B2R s) - (B2R e + B2R s)) ((B2R e - E) + ((B2R s - sqrt (B2R q)) + (sqrt (B2R q) - sqrt (V / B2R n))))) as T1.
  pose proof (Rabs_triang (B2R e - E) ((B2R s - sqrt (B2R q)) + (sqrt (B2R q) - sqrt (V / B2R n)))) as T2.
  pose proof (Rabs_triang (B2R s - sqrt (B2R q)) (sqrt (B2R q) - sqrt (V / B2R n))) as T3.
  rewrite E1 in Es. rewrite E2 in Em. lra.
Qed.
End Metric.

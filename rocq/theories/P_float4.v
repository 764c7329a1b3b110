(** P_float4: correctly rounded exp and log meet what is assumed of jnp.exp and jnp.log. *)
From Coq Require Import ZArith Reals.
From Flocq Require Import Core IEEE754.BinarySingleNaN.
From Flocq Require Import Relative Plus_error.
From Coq Require Import Lia Lra List Permutation.
Import ListNotations.
From Verif Require Import M_float S_float P_float P_float2.
Open Scope R_scope.

Section Proofs.
Variables prec emax : Z.
Context {Hp : Prec_gt_0 prec}.
Context {He : Prec_lt_emax prec emax}.
Notation fl := (binary_float prec emax).
Notation ex := (SpecFloat.fexp prec emax).
Notation emin := (SpecFloat.emin prec emax).
Notation rnd := (round radix2 ex ZnearestE).
Notation u := (unit_roundoff prec).
Notation minf := (B754_infinity (prec:=prec) (emax:=emax) true).
Local Instance ex_valid4 : Valid_exp ex := FLT_exp_valid emin prec.

(** The floating-point number nearest to a real number. *)
Definition of_real (r : R) : fl :=
  binary_normalize prec emax Hp He mode_NE (Ztrunc (scaled_mantissa radix2 ex (rnd r))) (cexp radix2 ex (rnd r)) false.

Lemma of_real_spec : forall r M, generic_format radix2 ex M -> M < bpow radix2 emax -> Rabs r <= M ->
  is_finite (of_real r) = true /\ B2R (of_real r) = rnd r.
Proof.
  intros r M FM LM B. pose proof (rnd_abs_le prec emax r M FM B) as B2.
  assert (F : generic_format radix2 ex (rnd r)) by (apply generic_format_round; auto with typeclass_instances).
  pose proof (binary_normalize_correct prec emax Hp He mode_NE (Ztrunc (scaled_mantissa radix2 ex (rnd r))) (cexp radix2 ex (rnd r)) false) as C.
  cbv zeta in C. rewrite <- F in C. cbn [round_mode] in C. rewrite (round_generic radix2 ex ZnearestE (rnd r) F) in C.
  rewrite Rlt_bool_true in C by lra. destruct C as [C1 [C2 _]]. split; [exact C2|exact C1].
Qed.

Lemma rnd_err : forall r, Rabs (rnd r - r) <= u * Rmax 1 (Rabs r).
Proof.
  intros r. destruct (error_N_FLT radix2 emin prec Hp (fun n => negb (Z.even n)) r) as [eps [eta [A [B [C D]]]]].
  assert (UE : / 2 * bpow radix2 (- prec + 1) = u).
  { unfold unit_roundoff. rewrite bpow_plus. replace (bpow radix2 1) with 2 by (cbn; lra). field. }
  unfold u_ro in *. pose proof (Rmax_l 1 (Rabs r)) as M1. pose proof (Rmax_r 1 (Rabs r)) as M2. pose proof (u_pos prec) as U.
  change (FLT_exp emin prec) with ex in D. rewrite D. replace (r * (1 + eps) + eta - r) with (r * eps + eta) by ring.
  apply Rmult_integral in C. destruct C as [C|C].
  - rewrite C, Rmult_0_r, Rplus_0_l. eapply Rle_trans; [exact B|]. apply Rle_trans with u.
    + unfold unit_roundoff. replace (/ 2 * bpow radix2 emin) with (bpow radix2 (-1 + emin)) by (rewrite bpow_plus; f_equal). apply bpow_le. unfold SpecFloat.emin. pose proof (prec1 prec). pose proof (precmax prec emax). lia.
    + rewrite <- (Rmult_1_r u) at 1. apply Rmult_le_compat_l; lra.
  - rewrite C, Rplus_0_r, Rabs_mult, Rmult_comm. apply Rmult_le_compat; try apply Rabs_pos; [|exact M2].
    rewrite UE in A. exact A.
Qed.

Definition rounded_exp (x : fl) : fl :=
  match x with
  | B754_nan => B754_nan
  | B754_infinity true => B754_zero false
  | B754_infinity false => B754_infinity false
  | _ => of_real (exp (B2R x))
  end.

Definition rounded_log (x : fl) : fl :=
  match x with
  | B754_nan => B754_nan
  | B754_zero _ => B754_infinity true
  | B754_infinity false => B754_infinity false
  | B754_infinity true => B754_nan
  | B754_finite true _ _ _ => B754_nan
  | B754_finite false _ _ _ => of_real (ln (B2R x))
  end.

Lemma fmt_1 : generic_format radix2 ex 1.
Proof. change 1 with (bpow radix2 0). apply (fmt_bpow prec emax). apply emin_neg; assumption. Qed.
Lemma one_lt : 1 < bpow radix2 emax.
Proof. change 1 with (bpow radix2 0). apply bpow_lt. pose proof (prec1 prec). pose proof (precmax prec emax). lia. Qed.

Lemma rounded_exp_good : good_exp prec emax u rounded_exp.
Proof.
  split; [reflexivity|]. split; [split; reflexivity|]. intros x F N.
  assert (E : rounded_exp x = of_real (exp (B2R x))) by (destruct x; try discriminate; reflexivity). rewrite E.
  pose proof (exp_pos (B2R x)) as P.
  assert (B : exp (B2R x) <= 1). { rewrite <- exp_0. destruct N as [N|N]; [left; apply exp_increasing; exact N|rewrite N; lra]. }
  destruct (of_real_spec (exp (B2R x)) 1 fmt_1 one_lt) as [F1 V1]; [rewrite Rabs_right; lra|].
  rewrite V1. split; [exact F1|]. split; [split|split].
  - rewrite <- (rnd_0 prec emax). apply round_le; auto with typeclass_instances. lra.
  - apply round_le_generic; auto with typeclass_instances. apply fmt_1.
  - pose proof (rnd_err (exp (B2R x))) as Q. rewrite Rmax_left in Q by (rewrite Rabs_right; lra). lra.
  - intros Z. rewrite Z, exp_0. apply round_generic; auto with typeclass_instances. apply fmt_1.
Qed.

Lemma ln2_lt_1 : 0 < ln 2 < 1.
Proof.
  split; [rewrite <- ln_1; apply ln_increasing; lra|]. rewrite <- (ln_exp 1). apply ln_increasing; [lra|]. pose proof (exp_ineq1 1). lra.
Qed.

Lemma ln_bpow e : ln (bpow radix2 e) = IZR e * ln 2.
Proof. rewrite bpow_exp. rewrite ln_exp. reflexivity. Qed.

Lemma rounded_log_good : (emax + prec <= 2 ^ prec)%Z -> good_log prec emax (u * IZR prec) rounded_log.
Proof.
  intros W. split; [reflexivity|]. split; [reflexivity|]. intros x F P.
  assert (SX : rounded_log x = of_real (ln (B2R x))).
  { destruct x as [s|s| |s k e H]; try discriminate; [cbn in P; lra|]. destruct s; [|reflexivity]. exfalso. assert (B2R (B754_finite true k e H) < 0) by (cbn; apply F2R_lt_0; reflexivity). lra. }
  rewrite SX. pose proof (prec1 prec) as P1. pose proof (precmax prec emax) as PM. pose proof ln2_lt_1 as L2.
  assert (FM : generic_format radix2 ex (IZR (emax + prec))).
  { replace (IZR (emax + prec)) with (INR (Z.to_nat (emax + prec))) by (rewrite INR_IZR_INZ, Z2Nat.id by lia; reflexivity).
    apply (fmt_int prec emax). rewrite INR_IZR_INZ, Z2Nat.id by lia. rewrite <- (IZR_Zpower radix2 prec) by lia. apply IZR_le. exact W. }
  assert (LM : IZR (emax + prec) < bpow radix2 emax).
  { apply Rle_lt_trans with (bpow radix2 prec); [rewrite <- (IZR_Zpower radix2 prec) by lia; apply IZR_le; exact W|apply bpow_lt; lia]. }
  assert (B : Rabs (ln (B2R x)) <= IZR (emax + prec)).
  { assert (Lo : bpow radix2 emin <= B2R x).
    { pose proof (abs_B2R_ge_emin prec emax x) as Q. rewrite Rabs_right in Q by lra. apply Q. destruct x; try discriminate; try reflexivity. cbn in P. lra. }
    pose proof (abs_B2R_lt_emax prec emax x) as Hi. rewrite Rabs_right in Hi by lra.
    apply Rabs_le. split.
    - apply Rle_trans with (ln (bpow radix2 emin)); [|destruct Lo as [Lo|Lo]; [left; apply ln_increasing; [apply bpow_gt_0|exact Lo]|rewrite Lo; lra]].
      rewrite ln_bpow. unfold SpecFloat.emin. rewrite <- opp_IZR. apply Rle_trans with (IZR (3 - emax - prec)); [apply IZR_le; lia|].
      assert (IZR (3 - emax - prec) <= 0) by (apply IZR_le; lia). assert (0 <= - IZR (3 - emax - prec) * (1 - ln 2)) by (apply Rmult_le_pos; lra). lra.
    - apply Rle_trans with (ln (bpow radix2 emax)); [left; apply ln_increasing; assumption|]. rewrite ln_bpow.
      apply Rle_trans with (IZR emax); [|apply IZR_le; lia]. assert (0 <= IZR emax) by (apply IZR_le; lia). assert (0 <= IZR emax * (1 - ln 2)) by (apply Rmult_le_pos; lra). lra. }
  destruct (of_real_spec (ln (B2R x)) _ FM LM B) as [F1 V1]. split; [exact F1|]. rewrite V1. split; [apply (rnd_abs_le prec emax); assumption|].
  intros [G1 G2]. assert (L0 : 0 <= ln (B2R x)). { rewrite <- ln_1. destruct G1 as [G1|G1]; [left; apply ln_increasing; lra|rewrite <- G1; lra]. }
  split; [rewrite <- (rnd_0 prec emax); apply round_le; auto with typeclass_instances|].
  eapply Rle_trans; [apply rnd_err|]. apply Rmult_le_compat_l; [left; apply u_pos|]. apply Rmax_lub; [apply IZR_le; lia|].
  rewrite Rabs_right by lra. apply Rle_trans with (ln (bpow radix2 prec)); [destruct G2 as [G2|G2]; [left; apply ln_increasing; lra|rewrite G2; lra]|].
  rewrite ln_bpow. assert (1 <= IZR prec) by (apply IZR_le; lia). assert (0 <= IZR prec * (1 - ln 2)) by (apply Rmult_le_pos; lra). lra.
Qed.
End Proofs.

(** A sum from left to right, starting at zero. *)
Section LeftSum.
Variables prec emax : Z.
Context {Hp : Prec_gt_0 prec}.
Context {He : Prec_lt_emax prec emax}.
Definition left_sum (l : list (binary_float prec emax)) : binary_float prec emax := fold_left (fadd prec emax) l (fzero prec emax).

Lemma left_sum_ok : forall l, is_sum prec emax l (left_sum l).
Proof.
  assert (X : forall l t, exists t', leaves prec emax t' = (leaves prec emax t ++ l) /\ eval prec emax t' = fold_left (fadd prec emax) l (eval prec emax t)).
  { induction l as [|x l IH]; intros t; [exists t; rewrite app_nil_r; split; reflexivity|].
    destruct (IH (Node prec emax t (Leaf prec emax x))) as [t' [A B]]. exists t'. rewrite A. cbn [leaves]. rewrite <- app_assoc. split; [reflexivity|exact B]. }
  intros l. destruct (X l (Leaf prec emax (fzero prec emax))) as [t [A B]]. exists t, 1%nat. split; [|exact B]. rewrite A. cbn [leaves repeat]. apply Permutation_app_comm.
Qed.
End LeftSum.

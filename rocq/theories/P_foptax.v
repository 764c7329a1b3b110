(** P_foptax: schedules, traces and moments in floating-point arithmetic. *)
From Coq Require Import ZArith Reals.
From Flocq Require Import Core IEEE754.BinarySingleNaN Relative.
From Coq Require Import Lia Lra List Permutation Bool Arith.
Import ListNotations.
From Verif Require Import M_float S_float P_float P_float2 M_fwalk S_fwalk P_fwalk P_fwalk2 M_fenergy S_fenergy P_fenergy P_fenergy2 P_fenergy3 M_fpotential S_fpotential P_fpotential M_fupdate S_fupdate P_fupdate P_fupdate4 M_foptax S_foptax.
Open Scope R_scope.

Section Proofs.
Variables prec emax : Z.
Context {Hp : Prec_gt_0 prec}.
Context {He : Prec_lt_emax prec emax}.
Notation fl := (binary_float prec emax).
Notation ex := (SpecFloat.fexp prec emax).
Notation emin := (SpecFloat.emin prec emax).
Notation rnd := (round radix2 ex ZnearestE).
Notation u := (unit_roundoff prec).
Notation fadd := (fadd prec emax). Notation fsub := (fsub prec emax). Notation fmul := (fmul prec emax).
Notation fdiv := (fdiv prec emax). Notation fzero := (fzero prec emax). Notation fone := (fone prec emax). Notation of_nat := (of_nat prec emax).
Notation tiny := (tiny emax).
Notation near := (near u).
Notation pinf := (B754_infinity (prec:=prec) (emax:=emax) false).
Notation is_rate := (is_rate prec emax). Notation is_decay := (is_decay prec emax). Notation is_gradient := (is_gradient prec emax).
Local Instance ex_valid14 : Valid_exp ex := FLT_exp_valid emin prec.

Lemma rnd_mono x y : x <= y -> rnd x <= rnd y.
Proof. apply round_le; auto with typeclass_instances. Qed.

(** ** Schedules *)
Lemma of_nat_big n : INR n <= bpow radix2 (emax - 1) -> is_finite (of_nat n) = true /\ B2R (of_nat n) = rnd (INR n).
Proof.
  intros L. unfold M_fwalk.of_nat. pose proof (binary_normalize_correct prec emax Hp He mode_NE (Z.of_nat n) 0 false) as C. cbv zeta in C. cbn [round_mode] in C.
  assert (E : F2R (Float radix2 (Z.of_nat n) 0) = INR n) by (unfold F2R; cbn; rewrite INR_IZR_INZ; ring). rewrite E in C.
  rewrite Rlt_bool_true in C; [destruct C as [C1 [C2 _]]; split; assumption|].
  eapply Rle_lt_trans; [apply (rnd_abs_le prec emax _ (bpow radix2 (emax - 1)))|apply bpow_lt; lia]; [exact (top_fmt prec emax _ (emax1 prec emax))|]. rewrite Rabs_pos_eq; [exact L|apply pos_INR].
Qed.

(** Numbers that are not negative, or +infinity, in order. *)
Definition okf (x : fl) : Prop := x = pinf \/ (is_finite x = true /\ 0 <= B2R x).
Definition below (x y : fl) : Prop := okf x /\ okf y /\ (y = pinf \/ (is_finite x = true /\ is_finite y = true /\ B2R x <= B2R y)).

Lemma mul_cases d x : is_rate d -> is_rate x -> (is_finite (fmul d x) = true /\ B2R (fmul d x) = rnd (B2R d * B2R x)) \/ (fmul d x = pinf /\ bpow radix2 emax <= rnd (B2R d * B2R x)).
Proof.
  intros [Fd D] [Fx X]. pose proof (Bmult_correct prec emax Hp He mode_NE d x) as C. cbn [round_mode] in C. assert (P : 0 <= B2R d * B2R x) by (apply Rmult_le_pos; assumption).
  pose proof (rnd_ge0 prec emax _ P) as RP. rewrite Rabs_pos_eq in C by exact RP. destruct (Rlt_bool_spec (rnd (B2R d * B2R x)) (bpow radix2 emax)) as [L|L].
  - left. destruct C as [C1 [C2 _]]. unfold M_float.fmul. rewrite C1, C2, Fd, Fx. split; reflexivity.
  - right. split; [|exact L]. pose proof (bpow_gt_0 radix2 emax) as B0.
    assert (Q : 0 < B2R d * B2R x). { destruct P as [P|P]; [exact P|]. rewrite <- P, (rnd_0 prec emax) in L. lra. }
    assert (D0 : 0 < B2R d) by (destruct D as [D|D]; [exact D|rewrite <- D in Q; lra]). assert (X0 : 0 < B2R x) by (destruct X as [X|X]; [exact X|rewrite <- X in Q; lra]).
    rewrite (sign_of_pos prec emax d Fd D0), (sign_of_pos prec emax x Fx X0) in C. cbn in C. apply sf_inf in C. exact C.
Qed.
Lemma mul_below d x y : is_rate d -> is_rate x -> is_rate y -> B2R x <= B2R y -> below (fmul d x) (fmul d y).
Proof.
  intros D X Y L. assert (M : rnd (B2R d * B2R x) <= rnd (B2R d * B2R y)) by (apply rnd_mono, Rmult_le_compat_l; [apply D|exact L]).
  assert (N : forall z, is_rate z -> 0 <= rnd (B2R d * B2R z)) by (intros z Z; apply (rnd_ge0 prec emax), Rmult_le_pos; [apply D|apply Z]).
  destruct (mul_cases d x D X) as [[A1 A2]|[A1 A2]], (mul_cases d y D Y) as [[B1 B2]|[B1 B2]].
  - split; [right; split; [exact A1|rewrite A2; apply N; exact X]|]. split; [right; split; [exact B1|rewrite B2; apply N; exact Y]|]. right. repeat split; try assumption. rewrite A2, B2. exact M.
  - split; [right; split; [exact A1|rewrite A2; apply N; exact X]|]. split; left; exact B1.
  - exfalso. pose proof (abs_B2R_lt_emax _ _ (fmul d y)) as Q. rewrite B2, Rabs_pos_eq in Q by (apply N; exact Y). lra.
  - split; [left; exact A1|]. split; left; exact B1.
Qed.
Lemma add_one_cases x : okf x -> (is_finite (fadd fone x) = true /\ is_finite x = true /\ B2R (fadd fone x) = rnd (1 + B2R x)) \/ (fadd fone x = pinf /\ (is_finite x = true -> bpow radix2 emax <= rnd (1 + B2R x))).
Proof.
  destruct (one_R prec emax) as [O1 O2]. intros [E|[F X]].
  - right. rewrite E. split; [|discriminate]. apply add_inf_r. split; [apply finite_nan; exact O1|apply (sign_of_pos prec emax); [exact O1|rewrite O2; lra]].
  - pose proof (Bplus_correct prec emax Hp He mode_NE fone x O1 F) as C. cbn [round_mode] in C. rewrite O2 in C. assert (P : 0 <= 1 + B2R x) by lra. pose proof (rnd_ge0 prec emax _ P) as RP. rewrite Rabs_pos_eq in C by exact RP.
    destruct (Rlt_bool_spec (rnd (1 + B2R x)) (bpow radix2 emax)) as [L|L].
    + left. destruct C as [C1 [C2 _]]. repeat split; assumption.
    + right. split; [|intros _; exact L]. destruct C as [C1 _]. rewrite (sign_of_pos prec emax fone O1) in C1 by (rewrite O2; lra). cbn in C1. apply sf_inf in C1. exact C1.
Qed.
Lemma add_one_below x y : below x y -> below (fadd fone x) (fadd fone y) /\ (is_finite (fadd fone x) = true -> 1 <= B2R (fadd fone x)) /\ (is_finite (fadd fone y) = true -> 1 <= B2R (fadd fone y)).
Proof.
  intros [OX [OY L]]. assert (G : forall z, okf z -> okf (fadd fone z) /\ (is_finite (fadd fone z) = true -> 1 <= B2R (fadd fone z))).
  { intros z Z. destruct (add_one_cases z Z) as [[A [B C]]|[A _]]; [|rewrite A; split; [left; reflexivity|discriminate]].
    assert (Q : 1 <= B2R (fadd fone z)). { rewrite C. destruct Z as [Z|[_ Z]]; [rewrite Z in B; discriminate|]. destruct (one_R prec emax) as [O1 O2]. rewrite <- O2 at 1. rewrite <- (rnd_id prec emax fone). apply rnd_mono. rewrite O2. lra. }
    split; [right; split; [exact A|lra]|intros _; exact Q]. }
  split; [|split; [apply (G x OX)|apply (G y OY)]]. split; [apply (G x OX)|]. split; [apply (G y OY)|].
  destruct (add_one_cases x OX) as [[A1 [A2 A3]]|[A1 A2]], (add_one_cases y OY) as [[B1 [B2 B3]]|[B1 B2]]; [|left; exact B1| |left; exact B1].
  - right. repeat split; try assumption. rewrite A3, B3. apply rnd_mono. destruct L as [L|[_ [_ L]]]; [rewrite L in B2; discriminate|lra].
  - exfalso. destruct L as [L|[F [_ L]]]; [rewrite L in B2; discriminate|]. specialize (A2 F). pose proof (abs_B2R_lt_emax _ _ (fadd fone y)) as Q. rewrite B3 in Q.
    assert (M : rnd (1 + B2R x) <= rnd (1 + B2R y)) by (apply rnd_mono; lra). apply Rabs_lt_inv in Q. lra.
Qed.
Lemma div_cases lr y : is_rate lr -> okf y -> (is_finite y = true -> 1 <= B2R y) -> is_finite (fdiv lr y) = true /\ 0 <= B2R (fdiv lr y) <= B2R lr /\ (y = pinf -> B2R (fdiv lr y) = 0) /\ (is_finite y = true -> B2R (fdiv lr y) = rnd (B2R lr / B2R y)).
Proof.
  intros [F L] [E|[G Y]] ONE.
  - rewrite E. destruct lr as [s|s| |s m e B]; try discriminate; (split; [reflexivity|]); cbn in *; (split; [lra|split; [reflexivity|discriminate]]).
  - specialize (ONE G). pose proof (Bdiv_correct prec emax Hp He mode_NE lr y ltac:(lra)) as C. cbn [round_mode] in C.
    assert (Q : 0 <= B2R lr / B2R y <= B2R lr). { split; [apply Rmult_le_pos; [exact L|left; apply Rinv_0_lt_compat; lra]|]. apply (Rmult_le_reg_r (B2R y)); [lra|]. unfold Rdiv. rewrite Rmult_assoc, Rinv_l by lra. nra. }
    pose proof (rnd_ge0 prec emax _ (proj1 Q)) as RP. assert (RU : rnd (B2R lr / B2R y) <= B2R lr) by (rewrite <- (rnd_id prec emax lr) at 2; apply rnd_mono; apply Q).
    rewrite Rabs_pos_eq in C by exact RP. rewrite Rlt_bool_true in C by (eapply Rle_lt_trans; [exact RU|]; eapply Rle_lt_trans; [apply Rle_abs|apply abs_B2R_lt_emax]). destruct C as [C1 [C2 _]].
    unfold M_fwalk.fdiv. rewrite C1, C2, F. split; [reflexivity|]. split; [lra|]. split; [intros ->; discriminate|reflexivity].
Qed.
Lemma div_below lr x y : is_rate lr -> below x y -> (is_finite x = true -> 1 <= B2R x) -> (is_finite y = true -> 1 <= B2R y) -> B2R (fdiv lr y) <= B2R (fdiv lr x).
Proof.
  intros R0 [OX [OY L]] GX GY. destruct (div_cases lr x R0 OX GX) as [_ [A1 [_ A3]]]. destruct (div_cases lr y R0 OY GY) as [_ [B1 [B2 B3]]].
  destruct L as [L|[FX [FY L]]]; [rewrite (B2 L); apply A1|]. rewrite (A3 FX), (B3 FY). specialize (GX FX). apply rnd_mono. apply Rmult_le_compat_l; [apply R0|]. apply Rinv_le_contravar; lra.
Qed.
Lemma times_below d s t : is_rate d -> (s <= t)%nat -> INR t <= bpow radix2 (emax - 1) -> below (fmul d (of_nat s)) (fmul d (of_nat t)).
Proof.
  intros D LE T. assert (S0 : INR s <= INR t) by (apply le_INR; exact LE). assert (SS : INR s <= bpow radix2 (emax - 1)) by lra.
  destruct (of_nat_big s SS) as [A1 A2]. destruct (of_nat_big t T) as [B1 B2].
  apply mul_below; [exact D|split; [exact A1|rewrite A2; apply (rnd_ge0 prec emax), pos_INR]|split; [exact B1|rewrite B2; apply (rnd_ge0 prec emax), pos_INR]|]. rewrite A2, B2. apply rnd_mono. exact S0.
Qed.
Lemma rate_monotone lr d s t : is_rate lr -> is_rate d -> (s <= t)%nat -> INR t <= bpow radix2 (emax - 1) ->
  let r := rate prec emax (InverseTime prec emax lr d) in is_finite (r t) = true /\ 0 <= B2R (r t) <= B2R (r s) /\ B2R (r s) <= B2R lr.
Proof.
  intros RL RD LE T r. destruct (add_one_below _ _ (times_below d s t RD LE T)) as [B [G1 G2]]. cbn [rate] in r. unfold r.
  destruct (div_cases lr _ RL (proj1 (proj2 B)) G2) as [F [P _]]. destruct (div_cases lr _ RL (proj1 B) G1) as [_ [P' _]].
  split; [exact F|]. split; [split; [apply P|apply (div_below lr _ _ RL B G1 G2)]|apply P'].
Qed.
Lemma rate_start lr d : is_rate lr -> is_rate d -> B2R (rate prec emax (InverseTime prec emax lr d) 0) = B2R lr.
Proof.
  intros RL RD. cbn [rate]. destruct (one_R prec emax) as [O1 O2]. pose proof (bpow_gt_0 radix2 (emax - 1)) as BP.
  assert (Z : is_rate (of_nat 0)). { destruct (of_nat_big 0) as [A B]; [cbn; lra|]. split; [exact A|]. rewrite B. cbn. rewrite (rnd_0 prec emax). lra. }
  destruct (of_nat_big 0) as [_ B]; [cbn; lra|]. cbn [INR] in B. rewrite (rnd_0 prec emax) in B.
  destruct (mul_cases d (of_nat 0) RD Z) as [[M1 M2]|[_ M]]; rewrite B, Rmult_0_r, (rnd_0 prec emax) in *; [|pose proof (bpow_gt_0 radix2 emax); lra].
  assert (OK : okf (fmul d (of_nat 0))) by (right; split; [exact M1|rewrite M2; lra]).
  destruct (add_one_cases _ OK) as [[A1 [_ A3]]|[_ A]].
  - rewrite M2, Rplus_0_r in A3. assert (A4 : B2R (fadd fone (fmul d (of_nat 0))) = 1) by (rewrite A3, <- O2; apply (rnd_id prec emax)).
    destruct (div_cases lr (fadd fone (fmul d (of_nat 0))) RL) as [_ [_ [_ Q]]]; [right; split; [exact A1|lra]|intros _; lra|]. rewrite (Q A1), A4. unfold Rdiv. rewrite Rinv_1, Rmult_1_r. apply (rnd_id prec emax).
  - specialize (A M1). rewrite M2, Rplus_0_r in A. rewrite <- O2, (rnd_id prec emax), O2 in A. assert (1 < bpow radix2 emax) by (change 1 with (bpow radix2 0); apply bpow_lt; pose proof (precmax prec emax); pose proof (prec1 prec); lia). lra.
Qed.
Lemma rate_near lr d t : is_rate lr -> is_rate d -> INR t <= bpow radix2 (emax - 1) -> (B2R d = 0 \/ tiny <= B2R d) -> B2R d * INR t <= bpow radix2 (emax - 3) -> 4 * u <= / 2 ->
  tiny <= inverse_time (B2R lr) (B2R d) t / 2 -> near 4 (inverse_time (B2R lr) (B2R d) t) (B2R (rate prec emax (InverseTime prec emax lr d) t)).
Proof.
  intros RL RD T DD DT U8 EX. destruct (of_nat_big t T) as [A1 A2]. destruct (one_R prec emax) as [O1 O2]. pose proof (uu prec) as UU.
  assert (T1 : tiny <= 1). { unfold tiny. change 1 with (bpow radix2 0). apply bpow_le. pose proof (precmax prec emax). pose proof (prec1 prec). lia. }
  assert (NT : near 1 (INR t) (B2R (of_nat t))). { rewrite A2. destruct t as [|t]; [cbn [INR]; rewrite (rnd_0 prec emax); apply near_refl; [exact UU|lra]|]. apply (rnd_rel prec emax). rewrite S_INR. pose proof (pos_INR t). lra. }
  assert (RT : is_rate (of_nat t)) by (split; [exact A1|apply NT]). pose proof (near_mul u 0 1 _ _ _ _ (near_refl u UU 0 (B2R d) (proj2 RD)) NT) as NP. cbn [plus] in NP.
  assert (G1 : g u ^ 1 <= 2). { pose proof (g_bound u UU 1) as Q. cbn [INR] in Q. eapply Rle_trans; [apply Q; lra|]. lra. }
  assert (B3 : bpow radix2 emax = 8 * bpow radix2 (emax - 3)) by (replace emax with (3 + (emax - 3))%Z at 1 by lia; rewrite bpow_plus; reflexivity).
  assert (B1 : bpow radix2 (emax - 1) = 4 * bpow radix2 (emax - 3)) by (replace (emax - 1)%Z with (2 + (emax - 3))%Z at 1 by lia; rewrite bpow_plus; reflexivity).
  assert (PB : B2R d * B2R (of_nat t) <= 2 * bpow radix2 (emax - 3)). { destruct NP as [N1 [N2 [N3 N4]]]. eapply Rle_trans; [exact N4|]. nra. }
  assert (P0 : 0 <= B2R d * B2R (of_nat t)) by apply NP.
  destruct (mul_fin prec emax d (of_nat t) (proj1 RD) A1) as [M1 M2]; [rewrite Rabs_pos_eq by exact P0; lra|].
  assert (NM : near 2 (B2R d * INR t) (B2R (fmul d (of_nat t)))).
  { rewrite M2. destruct t as [|t]. { cbn [INR] in *. assert (Z : B2R (of_nat 0) = 0) by (rewrite A2; apply (rnd_0 prec emax)). rewrite Z, !Rmult_0_r, (rnd_0 prec emax). apply near_refl; [exact UU|lra]. }
    destruct DD as [DD|DD]; [rewrite DD, !Rmult_0_l, (rnd_0 prec emax); apply near_refl; [exact UU|lra]|].
    apply (near_trans u UU 1 1 _ (B2R d * B2R (of_nat (S t)))); [exact NP|]. apply (rnd_rel prec emax).
    assert (Q1 : 1 <= B2R (of_nat (S t))). { rewrite A2, <- O2 at 1. rewrite <- (rnd_id prec emax fone). apply rnd_mono. rewrite O2, S_INR. pose proof (pos_INR t). lra. } pose proof (tiny_pos emax). nra. }
  pose proof (near_plus u 2 1 1 _ _ (near_refl u UU 2 1 ltac:(lra)) NM) as NS.
  assert (XM : B2R (fmul d (of_nat t)) <= 2 * bpow radix2 (emax - 3)). { rewrite M2. assert (B2 : bpow radix2 (emax - 2) = 2 * bpow radix2 (emax - 3)) by (replace (emax - 2)%Z with (1 + (emax - 3))%Z at 1 by lia; rewrite bpow_plus; reflexivity). rewrite <- B2. eapply Rle_trans; [apply Rle_abs|]. apply (rnd_abs_le prec emax); [apply (top_fmt prec emax); pose proof (emin_neg prec emax); pose proof (precmax prec emax); pose proof (prec1 prec); lia|rewrite Rabs_pos_eq by exact P0; lra]. }
  assert (E1 : 1 <= 2 * bpow radix2 (emax - 3)). { replace (2 * bpow radix2 (emax - 3)) with (bpow radix2 (emax - 2)) by (replace (emax - 2)%Z with (1 + (emax - 3))%Z at 1 by lia; rewrite bpow_plus; reflexivity). change 1 with (bpow radix2 0). apply bpow_le. pose proof (precmax prec emax). pose proof (prec1 prec). lia. }
  assert (X0 : 0 <= B2R (fmul d (of_nat t))) by apply NM.
  destruct (fadd_spec prec emax fone (fmul d (of_nat t)) (bpow radix2 (emax - 1)) O1 M1) as [S1 [S2 _]]; [exact (top_fmt prec emax _ (emax1 prec emax))|apply bpow_lt; lia|rewrite O2, Rabs_pos_eq by lra; lra|]. rewrite O2 in S2.
  assert (NS' : near 3 (1 + B2R d * INR t) (B2R (fadd fone (fmul d (of_nat t))))). { rewrite S2. apply (near_trans u UU 2 1 _ _ _ NS). apply (rnd_rel prec emax). lra. }
  assert (DP : 0 < 1 + B2R d * INR t) by (pose proof (pos_INR t); destruct RD as [_ RD]; nra).
  pose proof (near_mul u 0 3 _ _ _ _ (near_refl u UU 0 (B2R lr) (proj2 RL)) (near_inv u UU 3 _ _ NS' DP)) as NQ. cbn [plus] in NQ.
  assert (S1' : 1 <= B2R (fadd fone (fmul d (of_nat t)))). { rewrite S2, <- O2 at 1. rewrite <- (rnd_id prec emax fone). apply rnd_mono. rewrite O2. lra. }
  cbn [rate]. destruct (div_cases lr (fadd fone (fmul d (of_nat t))) RL) as [_ [_ [_ Q]]]; [right; split; [exact S1|lra]|intros _; exact S1'|]. rewrite (Q S1).
  apply (near_trans u UU 3 1 _ _ _ NQ). apply (rnd_rel prec emax). destruct NQ as [_ [_ [N3 _]]]. unfold inverse_time, Rdiv in EX.
  assert (G3 : g u ^ 3 <= 2). { pose proof (g_bound u UU 3) as Q3. replace (INR 3) with 3 in Q3 by (cbn; lra). eapply Rle_trans; [apply Q3; lra|]. lra. }
  assert (W : 0 <= B2R lr * / B2R (fadd fone (fmul d (of_nat t)))) by (apply Rmult_le_pos; [apply RL|left; apply Rinv_0_lt_compat; lra]). nra.
Qed.
End Proofs.

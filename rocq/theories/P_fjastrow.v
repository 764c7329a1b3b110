(** P_fjastrow: decaying Jastrow factors in floating-point arithmetic. *)
From Coq Require Import ZArith Reals.
From Flocq Require Import Core IEEE754.BinarySingleNaN Relative.
From Coq Require Import Lia Lra List Permutation Bool Arith.
Import ListNotations.
From Verif Require Import M_float S_float P_float P_float2 P_float3 P_float4 M_fwalk S_fwalk P_fwalk P_fwalk2 M_fenergy S_fenergy P_fenergy P_fenergy3 M_fpotential S_fpotential P_fpotential P_foptax2 S_fdense M_forbital S_forbital P_forbital P_forbital2 M_fjastrow S_fjastrow.
Open Scope R_scope.

Section Proofs.
Variables prec emax : Z.
Context {Hp : Prec_gt_0 prec}.
Context {He : Prec_lt_emax prec emax}.
Notation fl := (binary_float prec emax).
Notation ex := (SpecFloat.fexp prec emax).
Notation emin := (SpecFloat.emin prec emax).
Notation rnd := (round radix2 ex ZnearestE).
Notation u := (unit_roundoff prec).
Notation fadd := (fadd prec emax). Notation fsub := (fsub prec emax). Notation fmul := (fmul prec emax). Notation fzero := (fzero prec emax).
Notation tiny := (tiny emax).
Notation near := (near u). Notation g := (g u).
Local Instance ex_valid20 : Valid_exp ex := FLT_exp_valid emin prec.
Variables (fe : fl -> fl) (fs : list fl -> fl) (epse : R).
Hypothesis GE : good_exp prec emax epse fe.
Hypothesis GS : forall l, is_sum prec emax l (fs l).
Notation norm := (norm prec emax fs). Notation vlength := (vlength prec emax). Notation width_like := (width_like prec emax).

Lemma norms_wl vs : (forall v c, In v vs -> In c v -> is_nan c = false) -> width_like (fs (map norm vs)).
Proof using GS.
  intros H. apply (sum_closed prec emax width_like (map norm vs)); [apply wl_add|right; split; [reflexivity|cbn; lra]|apply GS|].
  intros x Hx. apply in_map_iff in Hx. destruct Hx as (v & <- & Hv). apply (norm_wl prec emax fs GS). intros c Hc. apply (H v c Hv Hc).
Qed.
Lemma wl_decaying x : width_like x -> decaying prec emax (Bopp x) /\ is_factor prec emax (fe (Bopp x)).
Proof using GE Hp He.
  intros H. split; [|destruct (exp_wl prec emax fe epse GE x H) as [A [B _]]; split; assumption].
  destruct H as [-> |[F N]]; [left; reflexivity|right]. rewrite is_finite_Bopp, B2R_Bopp. split; [exact F|lra].
Qed.

Lemma norm_ok D v : is_position prec emax D v -> measurable prec emax v -> INR (D + 6) * u <= / 2 -> is_finite (norm v) = true /\ near (D + 6) (vlength v) (B2R (norm v)).
Proof using GS.
  intros [LV FV] M DU. pose proof (uu prec) as U. destruct M as [Z|R1].
  - assert (C0 : forall c, In c v -> B2R c = 0).
    { intros c Hc. pose proof (member_le prec emax 1 v c Hc) as Q. rewrite Z, pow1, Rmult_0_r, Rmult_1_l in Q. pose proof (pow2_ge_0 (B2R c)). nra. }
    assert (ZERO : forall x : fl, is_finite x = true -> B2R x = 0 -> exists s, x = B754_zero s).
    { intros x Fx X. destruct x as [s|s| |s m e H]; try discriminate; [exists s; reflexivity|]. exfalso. cbn in X. apply eq_0_F2R in X. destruct s; discriminate. }
    assert (N0 : is_finite (norm v) = true /\ B2R (norm v) = 0).
    { unfold M_forbital.norm. destruct (sum_closed prec emax (fun x : fl => exists s, x = B754_zero s) (map (fun c => fmul c c) v) (fs (map (fun c => fmul c c) v))) as [s E].
      - intros x y [s ->] [s' ->]. destruct s, s'; eexists; reflexivity.
      - eexists; reflexivity.
      - apply GS.
      - intros x Hx. apply in_map_iff in Hx. destruct Hx as (c & <- & Hc). destruct (ZERO c (FV c Hc) (C0 c Hc)) as [s ->]. destruct s; eexists; reflexivity.
      - rewrite E. destruct s; split; reflexivity. }
    destruct N0 as [F V]. split; [exact F|]. unfold S_forbital.vlength. rewrite V, Z, sqrt_0. apply (near_refl u U). lra.
  - set (z := repeat fzero D).
    assert (DISP : displacement prec emax v z = v). { unfold z. rewrite <- LV. clear. induction v as [|a v IH]; [reflexivity|]. cbn. unfold displacement in IH. rewrite IH, sub_zero. reflexivity. }
    assert (SQ : squared_distance prec emax fzero v z = squared_length prec emax v).
    { unfold squared_distance, squared_length. change (B2R fzero) with 0. rewrite pow_ne_zero, Rplus_0_r by lia. unfold z. rewrite <- LV. clear. induction v as [|a v IH]; [reflexivity|]. cbn. f_equal; [rewrite Rminus_0_r; reflexivity|exact IH]. }
    assert (DI : distance prec emax fzero v z = vlength v) by (unfold distance, S_forbital.vlength; rewrite SQ; reflexivity).
    destruct (norm_near prec emax fs GS D fzero v z) as [F [N [B1 B2]]]; [split; assumption|split; [apply repeat_length|intros c Hc; apply repeat_spec in Hc; subst c; reflexivity]|reflexivity|unfold apart; rewrite SQ; exact R1|exact DU|].
    rewrite DISP, DI in *. pose proof (tiny_pos emax) as TP.
    assert (EN : soft_norm prec emax fs fzero v = norm v).
    { unfold soft_norm, M_forbital.norm in *. change (fmul fzero fzero) with fzero in *. set (t := fs _) in *. rewrite add_zero; [reflexivity|]. intros E. rewrite <- E in B1. cbn in B1. lra. }
    rewrite EN in *. split; assumption.
Qed.

Lemma norms_sum p D vs X : (forall v, In v vs -> is_position prec emax D v /\ measurable prec emax v) -> near p X (total (map vlength vs)) -> INR (p + D + 6 + length vs) * u <= / 2 -> X <= bpow radix2 (emax - 2) ->
  is_finite (fs (map norm vs)) = true /\ near (p + D + 6 + length vs) X (B2R (fs (map norm vs))).
Proof using GS.
  intros OK N DU B. pose proof (uu prec) as U. set (m := (p + D + 6 + length vs)%nat) in *.
  assert (DU6 : INR (D + 6) * u <= / 2). { eapply Rle_trans; [|exact DU]. apply Rmult_le_compat_r; [lra|]. apply le_INR. unfold m. lia. }
  assert (T : near (D + 6) (total (map vlength vs)) (rsum prec emax (map norm vs))).
  { unfold rsum. rewrite map_map. apply (near_total u U (D + 6) vlength (fun v => B2R (norm v))). intros v Hv. destruct (OK v Hv) as [P M]. apply (norm_ok D v P M DU6). }
  pose proof (near_trans u U _ _ _ _ _ N T) as NT. rewrite Nat.add_assoc in NT.
  destruct (sum_near prec emax (map norm vs) (fs (map norm vs)) (GS _)) as [F NS].
  - intros x Hx. apply in_map_iff in Hx. destruct Hx as (v & <- & Hv). destruct (OK v Hv) as [P M]. destruct (norm_ok D v P M DU6) as [F [_ [Q _]]]. split; assumption.
  - rewrite map_length. destruct NT as [X0 [_ [_ T2]]]. pose proof (gp u U (length vs)) as G1. assert (G2 : g ^ (p + D + 6) * g ^ (length vs) <= 2) by (rewrite <- pow_add; apply (g_two u U); exact DU).
    replace (bpow radix2 (emax - 1)) with (2 * bpow radix2 (emax - 2)) by (replace (emax - 1)%Z with (1 + (emax - 2))%Z by lia; rewrite bpow_plus; reflexivity).
    apply Rle_trans with (X * (g ^ (p + D + 6) * g ^ (length vs))); [rewrite <- Rmult_assoc; apply Rmult_le_compat_r; lra|nra].
  - rewrite map_length in NS. split; [exact F|]. apply (near_trans u U) with (y := rsum prec emax (map norm vs)); assumption.
Qed.

Lemma decay_accurate m X (s : fl) : is_finite s = true -> near m X (B2R s) -> INR m * u <= / 2 ->
  Rabs (B2R (Bopp s) + X) <= 2 * INR m * u * X /\ Rabs (B2R (fe (Bopp s)) - exp (- X)) <= epse + 2 * INR m * u.
Proof using GE Hp He.
  intros F N DU. pose proof (uu prec) as U. pose proof (near_err u U m _ _ DU N) as E. rewrite B2R_Bopp. split; [replace (- B2R s + X) with (- (B2R s - X)) by ring; rewrite Rabs_Ropp; exact E|].
  pose proof (g_two u U m DU) as G2. destruct N as [X0 [S0 [N1 N2]]]. destruct (exp_wl prec emax fe epse GE s) as [_ [_ EE]]; [right; split; assumption|]. specialize (EE F).
  assert (D0 : 0 <= 2 * INR m * u) by (pose proof (pos_INR m); nra). assert (H2 : X <= 2 * B2R s) by nra. pose proof (exp_close _ _ _ D0 X0 H2 E) as C.
  replace (B2R (fe (Bopp s)) - exp (- X)) with ((B2R (fe (Bopp s)) - exp (- B2R s)) + (exp (- B2R s) - exp (- X))) by ring. eapply Rle_trans; [apply Rabs_triang|]. lra.
Qed.

Lemma iso_total D (k : fl) vs : is_finite k = true -> u <= / 8 -> (forall v, In v vs -> is_position prec emax D v /\ scalable prec emax k v) ->
  (forall v, In v (map (isotropic prec emax k) vs) -> is_position prec emax D v /\ measurable prec emax v) /\ near 2 (Rabs (B2R k) * total (map vlength vs)) (total (map vlength (map (isotropic prec emax k) vs))).
Proof.
  intros Fk U8 OK. pose proof (uu prec) as U. split.
  - intros v Hv. apply in_map_iff in Hv. destruct Hv as (x & <- & Hx). destruct (OK x Hx) as [P M]. destruct (iso_near prec emax D k x P Fk M U8) as [A [B _]]. split; assumption.
  - rewrite map_map. replace (Rabs (B2R k) * total (map vlength vs)) with (total (map (fun v => Rabs (B2R k) * vlength v) vs)) by (clear; unfold total; induction vs as [|a l IH]; cbn [map fold_right]; [ring|rewrite IH; ring]).
    apply (near_total u U). intros v Hv. destruct (OK v Hv) as [P M]. apply (iso_near prec emax D k v P Fk M U8).
Qed.

(** Division by the number of rows. *)
Lemma mean_near m n X (s : fl) : is_finite s = true -> near m X (B2R s) -> (0 < n)%nat -> INR n <= bpow radix2 prec -> INR m * u <= / 2 -> (X / INR n = 0 \/ bpow radix2 (3 - emax) <= X / INR n) -> X <= bpow radix2 (emax - 2) ->
  is_finite (fdiv prec emax s (of_nat prec emax n)) = true /\ near (m + 1) (X / INR n) (B2R (fdiv prec emax s (of_nat prec emax n))).
Proof.
  intros F N NP NB DU R0 B. pose proof (uu prec) as U. destruct (of_nat_R prec emax n NB) as [Fn Vn]. assert (P : 1 <= INR n) by (apply (le_INR 1); exact NP).
  pose proof (g_two u U m DU) as G2. assert (NI : near m (X / INR n) (B2R s / INR n)).
  { pose proof (near_mul u m 0 X (B2R s) (/ INR n) (/ INR n) N) as Q. rewrite Nat.add_0_r in Q. apply Q. apply (near_refl u U). left. apply Rinv_0_lt_compat. lra. }
  pose proof NI as [X0 [S0 [N1 N2]]]. destruct N as [X0' [S0' [_ N4]]].
  assert (LE : B2R s / INR n <= bpow radix2 (emax - 1)).
  { replace (bpow radix2 (emax - 1)) with (2 * bpow radix2 (emax - 2)) by (replace (emax - 1)%Z with (1 + (emax - 2))%Z by lia; rewrite bpow_plus; reflexivity).
    apply (Rmult_le_reg_r (INR n)); [lra|]. unfold Rdiv. rewrite Rmult_assoc, Rinv_l, Rmult_1_r by lra. pose proof (bpow_gt_0 radix2 (emax - 2)). nra. }
  pose proof (Bdiv_correct prec emax Hp He mode_NE s (of_nat prec emax n)) as C. rewrite Vn in C. specialize (C ltac:(lra)). cbn [round_mode] in C.
  assert (RB : Rabs (rnd (B2R s / INR n)) <= bpow radix2 (emax - 1)) by (apply (rnd_abs_le prec emax); [apply (top_fmt prec emax); apply (emax1 prec emax)|rewrite Rabs_pos_eq; assumption]).
  rewrite Rlt_bool_true in C by (eapply Rle_lt_trans; [exact RB|apply bpow_lt; lia]). destruct C as [C1 [C2 _]]. unfold M_fwalk.fdiv. rewrite C1, C2. split; [exact F|].
  destruct R0 as [Z|R0].
  - assert (S00 : B2R s / INR n = 0) by (rewrite Z, Rmult_0_l in N2; lra). rewrite S00, Z, (rnd_0 prec emax). apply (near_refl u U). lra.
  - apply (near_trans u U) with (y := B2R s / INR n); [exact NI|]. apply (rnd_rel prec emax). unfold P_fpotential.tiny. replace (bpow radix2 (3 - emax)) with (2 * bpow radix2 (2 - emax)) in R0 by (replace (3 - emax)%Z with (1 + (2 - emax))%Z by lia; rewrite bpow_plus; reflexivity). nra.
Qed.
End Proofs.

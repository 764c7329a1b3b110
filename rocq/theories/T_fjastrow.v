(** T_fjastrow: C97, decaying Jastrow factors on machine floating-point numbers. *)
From Coq Require Import ZArith Reals.
From Flocq Require Import Core IEEE754.BinarySingleNaN Relative.
From Coq Require Import Lia Lra List Permutation Bool Arith.
Import ListNotations.
From Verif Require Import M_float S_float P_float P_float2 P_float3 P_float4 T_float M_fwalk S_fwalk P_fwalk P_fwalk2 T_fwalk M_fenergy S_fenergy P_fenergy P_fenergy3 M_fpotential S_fpotential P_fpotential P_foptax2 S_fdense M_forbital S_forbital P_forbital P_forbital2 T_forbital M_fjastrow S_fjastrow P_fjastrow.
Open Scope R_scope.

(** C97.  For all decay rates and displacements that are numbers, of any size, the one-body log Jastrow is -inf or a number that is not positive, and the Jastrow factor a number between 0 and 1: never NaN,
    whatever overflows. *)
Theorem C97_one_body_decays :
  forall prec emax (Hp : Prec_gt_0 prec) (He : Prec_lt_emax prec emax) (fe : binary_float prec emax -> binary_float prec emax) fs epse,
  good_exp prec emax epse fe -> (forall l, is_sum prec emax l (fs l)) ->
  forall (rate : binary_float prec emax) (r_ei : list (list (list (binary_float prec emax)))), is_finite rate = true -> (forall e v c, In e r_ei -> In v e -> In c v -> is_finite c = true) ->
  decaying prec emax (one_body prec emax fe fs true rate r_ei) /\ is_factor prec emax (one_body prec emax fe fs false rate r_ei).
Proof.
  intros prec emax Hp He fe fs epse GE GS rate r FR FV. unfold one_body, jastrow_value. apply (wl_decaying prec emax fe epse GE). apply (norms_wl prec emax fs GS).
  intros v c Hv Hc. apply in_map_iff in Hv. destruct Hv as (d & <- & Hd). apply in_map_iff in Hc. destruct Hc as (x & <- & Hx). apply in_concat in Hd. destruct Hd as (e & Ie & Id). apply scaled_not_nan; [apply (FV e d); assumption|exact FR].
Qed.
Print Assumptions C97_one_body_decays.

(** C97.  If scaled displacements are zero or in range, the one-body log Jastrow has a small relative error against minus |rate| times the sum of all electron-ion distances, for every order of additions, and
    the Jastrow factor a small absolute error. *)
Theorem C97_one_body_accuracy :
  forall prec emax (Hp : Prec_gt_0 prec) (He : Prec_lt_emax prec emax) (fe : binary_float prec emax -> binary_float prec emax) fs epse,
  good_exp prec emax epse fe -> (forall l, is_sum prec emax l (fs l)) ->
  forall D (rate : binary_float prec emax) (r_ei : list (list (list (binary_float prec emax)))),
  let X := exact_decay prec emax rate r_ei in let err := 2 * INR (D + 8 + length (concat r_ei)) * unit_roundoff prec in
  is_finite rate = true -> (forall e v, In e r_ei -> In v e -> is_position prec emax D v /\ scalable prec emax rate v) -> X <= bpow radix2 (emax - 2) -> err <= 1 -> unit_roundoff prec <= / 8 ->
  is_finite (one_body prec emax fe fs true rate r_ei) = true /\ Rabs (B2R (one_body prec emax fe fs true rate r_ei) - - X) <= err * X /\
  Rabs (B2R (one_body prec emax fe fs false rate r_ei) - exp (- X)) <= epse + err.
Proof.
  intros prec emax Hp He fe fs epse GE GS D rate r X err FR OK B E U8. set (vs := concat r) in *.
  assert (OK' : forall v, In v vs -> is_position prec emax D v /\ scalable prec emax rate v) by (intros v Hv; apply in_concat in Hv; destruct Hv as (e & Ie & Iv); apply (OK e v Ie Iv)).
  destruct (iso_total prec emax D rate vs FR U8 OK') as [M N]. change (Rabs (B2R rate) * total (map (vlength prec emax) vs)) with X in N. set (ws := map (isotropic prec emax rate) vs) in *.
  assert (LW : length ws = length vs) by apply map_length. assert (M0 : (D + 8 + length vs = 2 + D + 6 + length ws)%nat) by lia. unfold err in *. clear err. rewrite M0 in E |- *.
  assert (DU : INR (2 + D + 6 + length ws) * unit_roundoff prec <= / 2) by lra.
  destruct (norms_sum prec emax fs GS 2 D ws X M N DU B) as [F NS]. destruct (decay_accurate prec emax fe epse GE _ X _ F NS DU) as [A1 A2].
  unfold one_body, jastrow_value. fold vs. fold ws. split; [rewrite is_finite_Bopp; exact F|]. split; [replace (B2R (Bopp (fs (map (norm prec emax fs) ws))) - - X) with (B2R (Bopp (fs (map (norm prec emax fs) ws))) + X) by ring; exact A1|exact A2].
Qed.
Print Assumptions C97_one_body_accuracy.

(** C97.  The same for the backflow Jastrow, minus the mean length of the rows of the backflow's output, if there is at least one electron ... *)
Theorem C97_backflow_decays :
  forall prec emax (Hp : Prec_gt_0 prec) (He : Prec_lt_emax prec emax) (fe : binary_float prec emax -> binary_float prec emax) fs epse,
  good_exp prec emax epse fe -> (forall l, is_sum prec emax l (fs l)) ->
  forall rows : list (list (binary_float prec emax)), rows <> [] -> INR (length rows) <= bpow radix2 prec -> (forall v c, In v rows -> In c v -> is_nan c = false) ->
  decaying prec emax (backflow_jastrow prec emax fe fs true rows) /\ is_factor prec emax (backflow_jastrow prec emax fe fs false rows).
Proof.
  intros prec emax Hp He fe fs epse GE GS rows NE N FV. unfold backflow_jastrow, jastrow_value. apply (wl_decaying prec emax fe epse GE). unfold mean. rewrite map_length. apply wl_div_of_nat; [|destruct rows; [congruence|cbn; lia]|exact N].
  apply (norms_wl prec emax fs GS). exact FV.
Qed.
Print Assumptions C97_backflow_decays.
Theorem C97_backflow_accuracy :
  forall prec emax (Hp : Prec_gt_0 prec) (He : Prec_lt_emax prec emax) (fe : binary_float prec emax -> binary_float prec emax) fs epse,
  good_exp prec emax epse fe -> (forall l, is_sum prec emax l (fs l)) ->
  forall D (rows : list (list (binary_float prec emax))),
  let X := mean_length prec emax rows in let err := 2 * INR (D + 7 + length rows) * unit_roundoff prec in
  rows <> [] -> INR (length rows) <= bpow radix2 prec -> (forall v, In v rows -> is_position prec emax D v /\ measurable prec emax v) ->
  X = 0 \/ bpow radix2 (3 - emax) <= X -> INR (length rows) * X <= bpow radix2 (emax - 2) -> err <= 1 ->
  is_finite (backflow_jastrow prec emax fe fs true rows) = true /\ Rabs (B2R (backflow_jastrow prec emax fe fs true rows) - - X) <= err * X /\
  Rabs (B2R (backflow_jastrow prec emax fe fs false rows) - exp (- X)) <= epse + err.
Proof.
  intros prec emax Hp He fe fs epse GE GS D rows X err NE N OK R0 B E. pose proof (uu prec) as U. set (T := total (map (vlength prec emax) rows)) in *. set (n := length rows) in *.
  assert (NP : (0 < n)%nat) by (unfold n; destruct rows; [congruence|cbn; lia]). assert (P : 1 <= INR n) by (apply (le_INR 1); exact NP). assert (XT : X = T / INR n) by reflexivity.
  assert (TX : INR n * X = T) by (rewrite XT; field; lra). rewrite TX in B. assert (M0 : (D + 7 + n = 0 + D + 6 + n + 1)%nat) by lia. unfold err in *. clear err. rewrite M0 in E |- *. set (m := (0 + D + 6 + n)%nat) in *.
  assert (DU1 : INR (m + 1) * unit_roundoff prec <= / 2) by lra. assert (DU : INR m * unit_roundoff prec <= / 2) by (eapply Rle_trans; [|exact DU1]; apply Rmult_le_compat_r; [lra|]; apply le_INR; lia).
  assert (T0 : 0 <= T) by (apply total_nonneg; intros; apply sqrt_pos).
  destruct (norms_sum prec emax fs GS 0 D rows T OK (near_refl _ U 0 T T0) DU B) as [F NS]. rewrite XT in R0. destruct (mean_near prec emax m n T _ F NS NP N DU R0 B) as [F2 N2]. rewrite <- XT in N2.
  destruct (decay_accurate prec emax fe epse GE _ X _ F2 N2 DU1) as [A1 A2].
  unfold backflow_jastrow, jastrow_value, mean. rewrite map_length. fold n. set (s := fdiv prec emax (fs (map (norm prec emax fs) rows)) (of_nat prec emax n)) in *.
  split; [rewrite is_finite_Bopp; exact F2|]. split; [replace (B2R (Bopp s) - - X) with (B2R (Bopp s) + X) by ring; exact A1|exact A2].
Qed.
Print Assumptions C97_backflow_accuracy.
(** ... but without electrons it is the mean of nothing, NaN. *)
Theorem C97_no_electrons_nan :
  forall prec emax (Hp : Prec_gt_0 prec) (He : Prec_lt_emax prec emax) (fe : binary_float prec emax -> binary_float prec emax) fs epse,
  good_exp prec emax epse fe -> (forall l, is_sum prec emax l (fs l)) ->
  forall logabs, backflow_jastrow prec emax fe fs logabs [] = B754_nan.
Proof.
  intros prec emax Hp He fe fs epse [GN _] GS logabs. unfold backflow_jastrow, mean. cbn [map length].
  destruct (sum_closed prec emax (fun x : binary_float prec emax => exists s, x = B754_zero s) [] (fs [])) as [s E]; [intros x y [s ->] [s' ->]; destruct s, s'; eexists; reflexivity|eexists; reflexivity|apply GS|intros x []|].
  rewrite E. assert (Z : of_nat prec emax 0 = B754_zero false) by reflexivity. rewrite Z. destruct s, logabs; cbn; try reflexivity; exact GN.
Qed.
Print Assumptions C97_no_electrons_nan.

(** Examples in single precision: one electron at distance 1 from one ion and 512 from another one, decay rate 1; two rows of length 1. *)
#[local] Existing Instances prec32 emax32.
Example C97_one_body_accuracy_example : Rabs (B2R (one_body 24 128 exp32 sum32 true f1 [[near32; far32]]) - -513) <= / 1000 /\ Rabs (B2R (one_body 24 128 exp32 sum32 false f1 [[near32; far32]]) - exp (-513)) <= / 100000.
Proof.
  destruct (C86_assumptions_hold 24 128 prec32 emax32) as [RO [GE [GL GS]]]; [cbn; tauto|]. destruct far_ok as [PF [_ LF]].
  assert (X : exact_decay 24 128 f1 [[near32; far32]] = 513).
  { unfold exact_decay, total. cbn [concat app map fold_right]. rewrite LF. unfold vlength, near32. rewrite length32, f1_R, pow1, sqrt_1, Rabs_R1. ring. }
  assert (ER : 2 * INR (3 + 8 + length (concat [[near32; far32]])) * unit_roundoff 24 <= / 600000) by (rewrite u32'; replace (INR (3 + 8 + length (concat [[near32; far32]]))) with 13 by (cbn; lra); lra).
  destruct (C97_one_body_accuracy 24 128 prec32 emax32 exp32 sum32 _ GE GS 3 f1 [[near32; far32]]) as [_ [A B]].
  - reflexivity.
  - intros e v [<-|[]] [<-|[<-|[]]]; (split; [apply position32; reflexivity|]); apply scalable32; [rewrite f1_R, Rabs_R1; lra|rewrite f512_R, Rabs_pos_eq; lra].
  - rewrite X. apply Rle_trans with (bpow radix2 10); [cbn; lra|apply bpow_le; lia].
  - lra.
  - rewrite u32'. lra.
  - rewrite X in A, B. pose proof u32' as U. split; [replace (-513) with (- (513)) by lra; eapply Rle_trans; [exact A|]; lra|replace (-513) with (- (513)) by lra; eapply Rle_trans; [exact B|]; rewrite U in ER |- *; lra].
Qed.
Example C97_one_body_decays_example : is_factor 24 128 (one_body 24 128 exp32 sum32 false f512 [[[f32 16777215 104 eq_refl; f1]]; [[zero32; zero32]]]).
Proof.
  destruct (C86_assumptions_hold 24 128 prec32 emax32) as [RO [GE [GL GS]]]; [cbn; tauto|]. apply (C97_one_body_decays 24 128 prec32 emax32 exp32 sum32 _ GE GS); [reflexivity|].
  intros e v c [<-|[<-|[]]] [<-|[]] [<-|[<-|[]]]; reflexivity.
Qed.
Example C97_backflow_accuracy_example : Rabs (B2R (backflow_jastrow 24 128 exp32 sum32 true [near32; near32]) - -1) <= / 100000 /\ decaying 24 128 (backflow_jastrow 24 128 exp32 sum32 true [near32; near32]).
Proof.
  destruct (C86_assumptions_hold 24 128 prec32 emax32) as [RO [GE [GL GS]]]; [cbn; tauto|]. assert (X : mean_length 24 128 [near32; near32] = 1).
  { unfold mean_length, total. cbn [map fold_right length]. unfold vlength, near32. rewrite length32, f1_R, pow1, sqrt_1. cbn [INR]. field. }
  assert (ER : 2 * INR (3 + 7 + length [near32; near32]) * unit_roundoff 24 <= / 600000) by (rewrite u32'; replace (INR (3 + 7 + length [near32; near32])) with 12 by (cbn; lra); lra).
  assert (N2 : INR (length [near32; near32]) = 2) by (cbn; lra). split.
  - destruct (C97_backflow_accuracy 24 128 prec32 emax32 exp32 sum32 _ GE GS 3 [near32; near32]) as [_ [A _]]; [discriminate|rewrite N2; cbn; lra| | | | |].
    + intros v [<-|[<-|[]]]; (split; [apply position32; reflexivity|apply measurable32; rewrite f1_R; cbn; lra]).
    + right. rewrite X. change 1 with (bpow radix2 0). apply bpow_le. lia.
    + rewrite X, N2. apply Rle_trans with (bpow radix2 1); [cbn; lra|apply bpow_le; lia].
    + lra.
    + rewrite X in A. replace (-1) with (- (1)) by lra. eapply Rle_trans; [exact A|]. lra.
  - apply (C97_backflow_decays 24 128 prec32 emax32 exp32 sum32 _ GE GS); [discriminate|rewrite N2; cbn; lra|]. intros v c [<-|[<-|[]]] [<-|[<-|[<-|[]]]]; reflexivity.
Qed.
Example C97_no_electrons_nan_example : backflow_jastrow 24 128 exp32 sum32 true [] = B754_nan.
Proof. destruct (C86_assumptions_hold 24 128 prec32 emax32) as [RO [GE [GL GS]]]; [cbn; tauto|]. apply (C97_no_electrons_nan 24 128 prec32 emax32 exp32 sum32 _ GE GS). Qed.

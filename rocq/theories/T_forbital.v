(** T_forbital: C96, exponential envelopes and orbitals on machine floating-point numbers. *)
From Coq Require Import ZArith Reals.
From Flocq Require Import Core IEEE754.BinarySingleNaN Relative.
From Coq Require Import Lia Lra List Permutation Bool Arith.
Import ListNotations.
From Verif Require Import M_float S_float P_float P_float2 P_float3 P_float4 T_float M_fwalk S_fwalk P_fwalk P_fwalk2 T_fwalk M_fenergy S_fenergy P_fenergy P_fenergy3 M_fpotential S_fpotential P_fpotential P_foptax2 S_fdense M_forbital S_forbital P_forbital P_forbital2.
Open Scope R_scope.

Lemma forall2_each {A B} (P : A -> B -> Prop) f l : (forall a, In a l -> P a (f a)) -> Forall2 P l (map f l).
Proof. induction l as [|a l IH]; intros H; constructor; [apply H; left; reflexivity|apply IH; intros b Hb; apply H; right; exact Hb]. Qed.

Lemma forall2_single {A B} (P : A -> B -> Prop) a b : Forall2 P [a] [b] -> P a b. Proof. intros H. inversion H. assumption. Qed.

(** C96.  With the default softening 0, no orbital is ever NaN, for all displacements and decay rates that are numbers, even if scaling a displacement, squaring it or adding the squares overflows: the
    electron is then infinitely far away and the ion counts for nothing.  Orbitals are numbers as long as linear part times ions times largest weight is in range. *)
Theorem C96_never_nan :
  forall prec emax (Hp : Prec_gt_0 prec) (He : Prec_lt_emax prec emax) (fe : binary_float prec emax -> binary_float prec emax) fs epse,
  good_exp prec emax epse fe -> (forall l, is_sum prec emax l (fs l)) ->
  forall q (displacements : list (list (binary_float prec emax))) params, let n := length displacements in
  (0 <= q)%Z -> (q + prec < emax)%Z -> INR n <= bpow radix2 prec ->
  (forall v c, In v displacements -> In c v -> is_finite c = true) ->
  (forall linear rate ws, In (linear, (rate, ws)) params -> is_finite linear = true /\ is_finite rate = true /\ length ws = n /\ forall w, In w ws -> is_weight prec emax q w) ->
  Forall2 (fun p o => is_nan o = false /\ (Rabs (B2R (fst p)) * (INR n * bpow radix2 q) <= bpow radix2 (emax - 1) -> is_finite o = true))
    params (orbitals prec emax fe fs (fzero prec emax) displacements params).
Proof.
  intros prec emax Hp He fe fs epse GE GS q ds params n Q QP N FD FP. unfold orbitals. apply forall2_each. intros [lin [rate ws]] I. cbn [fst snd]. destruct (FP _ _ _ I) as [FL [FR [LW W]]].
  destruct (envelope_bounded prec emax fe fs epse GE GS q Q QP (map (isotropic prec emax rate) ds) ws) as [F B].
  - intros v c Hv Hc. apply in_map_iff in Hv. destruct Hv as (d & <- & Hd). apply in_map_iff in Hc. destruct Hc as (x & <- & Hx). apply scaled_not_nan; [apply (FD d); assumption|exact FR].
  - exact W.
  - rewrite map_length. exact LW.
  - rewrite map_length. exact N.
  - rewrite map_length in B. fold n in B. split; [apply scaled_not_nan; assumption|]. intros H. apply (mul_fin prec emax); [exact FL|exact F|]. rewrite Rabs_mult. eapply Rle_trans; [|exact H]. apply Rmult_le_compat_l; [apply Rabs_pos|exact B].
Qed.
Print Assumptions C96_never_nan.

(** C96.  The envelope of n ions in D dimensions is within the stated bound of the exact one, for all scaled displacements that are zero or whose squares are in range, and for every order of additions. *)
Theorem C96_accuracy :
  forall prec emax (Hp : Prec_gt_0 prec) (He : Prec_lt_emax prec emax) (fe : binary_float prec emax -> binary_float prec emax) fs epse,
  good_exp prec emax epse fe -> (forall l, is_sum prec emax l (fs l)) ->
  forall q D (vs : list (list (binary_float prec emax))) ws, let n := length vs in
  (0 <= q)%Z -> (q + prec < emax)%Z -> INR n <= bpow radix2 prec -> INR (D + 8) * unit_roundoff prec <= / 4 ->
  (forall v, In v vs -> is_position prec emax D v /\ measurable prec emax v) -> length ws = n -> (forall w, In w ws -> is_weight prec emax q w) ->
  is_finite (envelope prec emax fe fs (fzero prec emax) vs ws) = true /\
  Rabs (B2R (envelope prec emax fe fs (fzero prec emax) vs ws) - exact_envelope prec emax vs ws) <= envelope_error prec epse q D n.
Proof.
  intros prec emax Hp He fe fs epse GE GS q D vs ws n Q QP N DU OK L W. split; [|apply (envelope_near prec emax fe fs epse GE GS q Q QP); assumption].
  apply (envelope_bounded prec emax fe fs epse GE GS q Q QP vs ws); try assumption. intros v c Hv Hc. destruct (OK v Hv) as [[_ F] _]. specialize (F c Hc). destruct c; try discriminate F; reflexivity.
Qed.
Print Assumptions C96_accuracy.

(** C96.  End to end: every orbital is within the stated bound of linear part times the sum over the ions of weight times e^-(|rate| distance). *)
Theorem C96_orbitals :
  forall prec emax (Hp : Prec_gt_0 prec) (He : Prec_lt_emax prec emax) (fe : binary_float prec emax -> binary_float prec emax) fs epse,
  good_exp prec emax epse fe -> (forall l, is_sum prec emax l (fs l)) ->
  forall q D (displacements : list (list (binary_float prec emax))) params, let n := length displacements in
  (0 <= q)%Z -> (q + prec < emax)%Z -> INR n <= bpow radix2 prec -> INR (D + 8) * unit_roundoff prec <= / 4 ->
  (forall linear rate ws, In (linear, (rate, ws)) params -> is_finite linear = true /\ is_finite rate = true /\ length ws = n /\ (forall w, In w ws -> is_weight prec emax q w) /\
     (forall v, In v displacements -> is_position prec emax D v /\ scalable prec emax rate v) /\ Rabs (B2R linear) * (INR n * bpow radix2 q) <= bpow radix2 (emax - 1)) ->
  Forall2 (fun p o => is_finite o = true /\
      Rabs (B2R o - exact_orbital prec emax (fst p) (fst (snd p)) displacements (snd (snd p))) <= orbital_error prec emax epse (Rabs (B2R (fst p))) q D n)
    params (orbitals prec emax fe fs (fzero prec emax) displacements params).
Proof.
  intros prec emax Hp He fe fs epse GE GS q D ds params n Q QP N DU FP. unfold orbitals. apply forall2_each. intros [lin [rate ws]] I. cbn [fst snd]. destruct (FP _ _ _ I) as [FL [FR [LW [W [OK B]]]]].
  apply (orbital_near prec emax fe fs epse GE GS q D lin rate ds ws); assumption.
Qed.
Print Assumptions C96_orbitals.

Lemma two_exp k : (0 <= k)%Z -> bpow radix2 k <= exp (IZR k).
Proof.
  intros H. rewrite bpow_exp. apply IZR_le in H. assert (L : ln (IZR radix2) <= 1). { rewrite <- (ln_exp 1). change (IZR radix2) with 2. pose proof (exp_ge_1p 1) as E. assert (E2 : 2 <= exp 1) by lra. destruct E2 as [E2| E2]; [left; apply ln_increasing; lra|rewrite <- E2; lra]. }
  assert (X : IZR k * ln (IZR radix2) <= IZR k) by nra. destruct X as [X|X]; [left; apply exp_increasing; exact X|rewrite X; lra].
Qed.
Section Vanish.
Variables prec emax : Z.
Context {Hp : Prec_gt_0 prec}.
Context {He : Prec_lt_emax prec emax}.
Notation fl := (binary_float prec emax).
Lemma exp_vanishes (x : fl) : is_finite x = true -> B2R x <= - IZR (emax + prec) -> is_finite (rounded_exp prec emax x) = true /\ B2R (rounded_exp prec emax x) = 0.
Proof.
  intros F H. assert (E : rounded_exp prec emax x = of_real prec emax (exp (B2R x))) by (destruct x; try discriminate; reflexivity). rewrite E. pose proof (exp_pos (B2R x)) as P1. pose proof (prec1 prec) as PP. pose proof (precmax prec emax) as PM.
  set (k := (emax + prec)%Z) in *. assert (K : (0 <= k)%Z) by lia.
  assert (P2 : exp (B2R x) <= bpow radix2 (- k)).
  { rewrite bpow_opp. apply Rle_trans with (exp (- IZR k)); [destruct H as [H| ->]; [left; apply exp_increasing; exact H|lra]|]. rewrite exp_Ropp. apply Rinv_le_contravar; [apply bpow_gt_0|apply two_exp; exact K]. }
  assert (L : bpow radix2 (- k) <= 1) by (change 1 with (bpow radix2 0); apply bpow_le; lia).
  destruct (of_real_spec prec emax (exp (B2R x)) 1) as [F1 V]; [apply (fmt_1 prec emax)|apply (one_lt prec emax)|rewrite Rabs_pos_eq; lra|]. split; [exact F1|]. rewrite V.
  apply Rle_antisym; [|apply (P_fpotential.rnd_ge0 prec emax); lra]. assert (Z : round radix2 (SpecFloat.fexp prec emax) ZnearestE (bpow radix2 (- k)) = 0).
  { apply (round_N_small_pos radix2 (SpecFloat.fexp prec emax) _ _ (1 - k)); [split; [apply bpow_le; lia|apply bpow_lt; lia]|]. unfold SpecFloat.fexp, SpecFloat.emin. lia. }
  rewrite <- Z. apply round_le; auto with typeclass_instances. apply (fexp_correct prec emax Hp).
Qed.
End Vanish.

(** C96.  Far electrons: with a correctly rounded exponential, every orbital of an electron whose distance from every ion, times the decay rate, is at least 3 (emax + prec) (456 in single precision) is zero,
    whatever the weights and the linear parts. *)
Theorem C96_far :
  forall prec emax (Hp : Prec_gt_0 prec) (He : Prec_lt_emax prec emax) fs,
  good_exp prec emax (unit_roundoff prec) (rounded_exp prec emax) -> (forall l, is_sum prec emax l (fs l)) ->
  forall D (displacements : list (list (binary_float prec emax))) params, INR (D + 8) * unit_roundoff prec <= / 4 ->
  (forall linear rate ws, In (linear, (rate, ws)) params -> is_finite linear = true /\ is_finite rate = true /\ (forall w, In w ws -> is_finite w = true) /\
     forall v, In v displacements -> is_position prec emax D v /\ scalable prec emax rate v /\ 3 * IZR (emax + prec) <= Rabs (B2R rate) * vlength prec emax v) ->
  length (orbitals prec emax (rounded_exp prec emax) fs (fzero prec emax) displacements params) = length params /\
  Forall (fun o => is_finite o = true /\ B2R o = 0) (orbitals prec emax (rounded_exp prec emax) fs (fzero prec emax) displacements params).
Proof.
  intros prec emax Hp He fs GE GS D ds params DU FP. split; [apply map_length|]. apply Forall_forall. intros o Ho. apply in_map_iff in Ho. destruct Ho as ([lin [rate ws]] & <- & I). cbn [fst snd]. destruct (FP _ _ _ I) as [FL [FR [FW FV']]].
  pose proof (uu prec) as U. assert (U8 : unit_roundoff prec <= / 8). { rewrite plus_INR in DU. replace (INR 8) with 8 in DU by (cbn; lra). pose proof (pos_INR D). nra. }
  assert (FV : forall v, In v ds -> is_position prec emax D (isotropic prec emax rate v) /\ measurable prec emax (isotropic prec emax rate v) /\ 2 * IZR (emax + prec) <= vlength prec emax (isotropic prec emax rate v)).
  { intros v Hv. destruct (FV' v Hv) as [P [SC B]]. destruct (iso_near prec emax D rate v P FR SC U8) as [A [M [_ [N0 [N _]]]]]. split; [exact A|]. split; [exact M|].
    assert (G : g (unit_roundoff prec) ^ 2 <= 1 + 2 * (INR 2 * unit_roundoff prec)) by (apply (g_bound _ U); cbn; lra). replace (INR 2) with 2 in G by (cbn; lra). assert (vlength prec emax (isotropic prec emax rate v) * g (unit_roundoff prec) ^ 2 <= vlength prec emax (isotropic prec emax rate v) * (3 / 2)) by (apply Rmult_le_compat_l; lra). lra. }
  assert (E : is_finite (envelope prec emax (rounded_exp prec emax) fs (fzero prec emax) (map (isotropic prec emax rate) ds) ws) = true /\ B2R (envelope prec emax (rounded_exp prec emax) fs (fzero prec emax) (map (isotropic prec emax rate) ds) ws) = 0).
  { unfold envelope. apply (sum_closed prec emax (fun x => is_finite x = true /\ B2R x = 0) (map (decay prec emax (rounded_exp prec emax) fs (fzero prec emax)) (combine (map (isotropic prec emax rate) ds) ws))); [|split; reflexivity|apply GS|].
    - intros x y [Fx X] [Fy Y]. destruct (fadd_spec prec emax x y 1 Fx Fy) as [A [V _]]; [apply (fmt_1 prec emax)|apply (one_lt prec emax)|rewrite X, Y, Rplus_0_r, Rabs_R0; lra|]. split; [exact A|]. rewrite V, X, Y, Rplus_0_r. apply (rnd_0 prec emax).
    - intros t Ht. apply in_map_iff in Ht. destruct Ht as ([v w] & <- & J). pose proof (in_combine_l _ _ _ _ J) as Jv. pose proof (in_combine_r _ _ _ _ J) as Jw. apply in_map_iff in Jv. destruct Jv as (d & <- & Hd).
      destruct (FV d Hd) as [P [M LL]]. destruct (dist_ok prec emax fs GS D _ P M DU) as [F [A _]]. unfold decay. cbn [fst snd].
      destruct (exp_vanishes prec emax (Bopp (softened prec emax (fzero prec emax) (norm prec emax fs (isotropic prec emax rate d))))) as [F1 Z1]; [rewrite is_finite_Bopp; exact F|rewrite B2R_Bopp; lra|].
      destruct (mul_fin prec emax _ w F1 (FW w Jw)) as [F2 V]; [rewrite Z1, Rmult_0_l, Rabs_R0; left; apply bpow_gt_0|]. split; [exact F2|]. rewrite V, Z1, Rmult_0_l. apply (rnd_0 prec emax). }
  destruct E as [F Z]. destruct (mul_fin prec emax lin _ FL F) as [F2 V]; [rewrite Z, Rmult_0_r, Rabs_R0; left; apply bpow_gt_0|]. split; [exact F2|]. rewrite V, Z, Rmult_0_r. apply (rnd_0 prec emax).
Qed.
Print Assumptions C96_far.

#[local] Existing Instances prec32 emax32.
Notation exp32 := (rounded_exp 24 128). Notation sum32 := (P_float4.left_sum 24 128). Notation zero32 := (fzero 24 128). Notation one32 := (fone 24 128).
Definition f512 : binary_float 24 128 := f32 8388608 (-14) eq_refl.
Definition f1 : binary_float 24 128 := f32 8388608 (-23) eq_refl.
Definition far32 : list (binary_float 24 128) := [f512; zero32; zero32].
Definition near32 : list (binary_float 24 128) := [f1; zero32; zero32].
Lemma f512_R : B2R f512 = 512. Proof. change (B2R f512) with (IZR 8388608 * bpow radix2 (-14)). cbn. lra. Qed.
Lemma f1_R : B2R f1 = 1. Proof. change (B2R f1) with (IZR 8388608 * bpow radix2 (-23)). cbn. lra. Qed.
Lemma u32' : unit_roundoff 24 = / 16777216. Proof. unfold unit_roundoff. cbn. lra. Qed.
Lemma position32 x : is_finite x = true -> is_position 24 128 3 [x; zero32; zero32].
Proof. intros F. split; [reflexivity|]. intros c [<-|[<-|[<-|[]]]]; [exact F|reflexivity|reflexivity]. Qed.
Lemma length32 x : squared_length 24 128 [x; zero32; zero32] = B2R x ^ 2.
Proof. unfold squared_length, total. cbn [map fold_right]. change (B2R zero32) with 0. ring. Qed.
Lemma measurable32 x : 1 <= B2R x ^ 2 <= bpow radix2 20 -> measurable 24 128 [x; zero32; zero32].
Proof.
  intros [A B]. right. rewrite length32. split; [|eapply Rle_trans; [exact B|apply bpow_le; lia]]. eapply Rle_trans; [|exact A]. replace (INR (length [x; zero32; zero32] + 1)) with (bpow radix2 2) by (cbn; lra). rewrite <- bpow_plus. change 1 with (bpow radix2 0). apply bpow_le. lia.
Qed.
Lemma far_ok : is_position 24 128 3 far32 /\ measurable 24 128 far32 /\ vlength 24 128 far32 = 512.
Proof.
  split; [apply position32; reflexivity|]. split; [apply measurable32; rewrite f512_R; cbn; lra|]. unfold vlength, far32. rewrite length32, f512_R. replace (512 ^ 2) with (512 * 512) by ring. apply sqrt_square. lra.
Qed.
Lemma scalable32 x : 1 <= Rabs (B2R x) <= 1000 -> scalable 24 128 f1 [x; zero32; zero32].
Proof.
  intros B. split.
  - intros c [<-|[<-|[<-|[]]]]; rewrite f1_R, Rmult_1_l; [right|left; reflexivity|left; reflexivity]. apply Rle_trans with 1; [|apply B]. change 1 with (bpow radix2 0). apply bpow_le. lia.
  - right. rewrite length32, f1_R, pow1, Rmult_1_l, <- pow2_abs. replace (INR (length [x; zero32; zero32] + 1)) with (bpow radix2 2) by (cbn; lra). rewrite <- bpow_plus.
    split; [apply Rle_trans with 1; [change 1 with (bpow radix2 0); apply bpow_le; lia|nra]|]. apply Rle_trans with (bpow radix2 20); [|apply bpow_le; lia]. apply Rle_trans with 1000000; [nra|cbn; lra].
Qed.
Lemma far_ok' : is_position 24 128 3 far32 /\ scalable 24 128 f1 far32 /\ 3 * IZR (128 + 24) <= Rabs (B2R f1) * vlength 24 128 far32.
Proof. destruct far_ok as [P [_ L]]. split; [exact P|]. split; [apply scalable32; rewrite f512_R, Rabs_pos_eq; lra|]. rewrite L, f1_R, Rabs_R1. cbn. lra. Qed.
Lemma dims32 : INR (3 + 8) * unit_roundoff 24 <= / 4. Proof. rewrite u32'. cbn [INR Nat.add]. lra. Qed.

(** C96, full statement refuted: "an orbital is zero only where its exact value is".  In single precision, one electron at distance 512 from one ion, with decay rate, weight and linear part 1. *)
Theorem C96_nonzero_refuted :
  ~ (forall displacements linear rate ws, (forall w, In w ws -> is_weight 24 128 0 w) -> length ws = length displacements ->
       (forall v, In v displacements -> is_position 24 128 3 v /\ scalable 24 128 rate v) -> B2R rate = 1 ->
       forall o, orbitals 24 128 exp32 sum32 zero32 displacements [(linear, (rate, ws))] = [o] -> B2R o = 0 ->
       exact_orbital 24 128 linear rate displacements ws = 0).
Proof.
  intros H. destruct (C86_assumptions_hold 24 128 prec32 emax32) as [RO [GE [GL GS]]]; [cbn; tauto|]. destruct far_ok as [P [M L]].
  assert (W : forall w, In w [f1] -> is_weight 24 128 0 w) by (intros w [<-|[]]; split; [reflexivity|rewrite f1_R, Rabs_R1; cbn; lra]).
  assert (Z : Forall (fun o => is_finite o = true /\ B2R o = 0) (orbitals 24 128 exp32 sum32 zero32 [far32] [(f1, (f1, [f1]))])).
  { apply (C96_far 24 128 prec32 emax32 sum32 GE GS 3); [exact dims32|]. intros lin rate ws [E|[]]. injection E as <- <- <-. split; [reflexivity|]. split; [reflexivity|]. split; [intros w [<-|[]]; reflexivity|]. intros v [<-|[]]. exact far_ok'. }
  unfold orbitals in Z. cbn [map] in Z. apply Forall_inv in Z. destruct Z as [_ Z1].
  assert (OK : forall v, In v [far32] -> is_position 24 128 3 v /\ scalable 24 128 f1 v) by (intros v [<-|[]]; destruct far_ok' as [A [B _]]; split; assumption).
  specialize (H [far32] f1 f1 [f1] W eq_refl OK f1_R _ eq_refl Z1).
  unfold exact_orbital, total in H. cbn [map combine fold_right fst snd] in H. rewrite f1_R, Rmult_1_l, Rplus_0_r, Rmult_1_l in H. pose proof (exp_pos (- (Rabs 1 * vlength 24 128 far32))). lra.
Qed.
Print Assumptions C96_nonzero_refuted.

(** Examples. *)
Example C96_far_example : Forall (fun o => is_finite o = true /\ B2R o = 0) (orbitals 24 128 exp32 sum32 zero32 [far32; far32] [(f512, (f1, [f1; f512])); (f1, (f1, [f512; f1]))]).
Proof.
  destruct (C86_assumptions_hold 24 128 prec32 emax32) as [RO [GE [GL GS]]]; [cbn; tauto|]. destruct far_ok as [P [M L]].
  apply (C96_far 24 128 prec32 emax32 sum32 GE GS 3); [exact dims32|]. intros lin rate ws [E|[E|[]]]; injection E as <- <- <-; (split; [reflexivity|]; split; [reflexivity|]; split; [intros w [<-|[<-|[]]]; reflexivity|]; intros v [<-|[<-|[]]]; exact far_ok').
Qed.
Example C96_never_nan_example : Forall (fun o => is_finite o = true) (orbitals 24 128 exp32 sum32 zero32 [[f32 16777215 104 eq_refl; f1]; [zero32; zero32]] [(f512, (f512, [f1; f1]))]).
Proof.
  destruct (C86_assumptions_hold 24 128 prec32 emax32) as [RO [GE [GL GS]]]; [cbn; tauto|].
  pose proof (C96_never_nan 24 128 prec32 emax32 exp32 sum32 _ GE GS 0 [[f32 16777215 104 eq_refl; f1]; [zero32; zero32]] [(f512, (f512, [f1; f1]))]) as H. cbv zeta in H.
  assert (G : Forall2 (fun (p : binary_float 24 128 * (binary_float 24 128 * list (binary_float 24 128))) o => is_nan o = false /\ (Rabs (B2R (fst p)) * (INR 2 * bpow radix2 0) <= bpow radix2 (128 - 1) -> is_finite o = true)) [(f512, (f512, [f1; f1]))]
    (orbitals 24 128 exp32 sum32 zero32 [[f32 16777215 104 eq_refl; f1]; [zero32; zero32]] [(f512, (f512, [f1; f1]))])).
  { apply H; try lia; [cbn; lra| |].
    - intros v c [<-|[<-|[]]] [<-|[<-|[]]]; reflexivity.
    - intros lin rate ws [E|[]]. injection E as <- <- <-. split; [reflexivity|]. split; [reflexivity|]. split; [reflexivity|]. intros w [<-|[<-|[]]]; (split; [reflexivity|rewrite f1_R, Rabs_R1; cbn; lra]). }
  unfold orbitals in G |- *. cbn [map] in G |- *. apply forall2_single in G. destruct G as [_ G1]. constructor; [|constructor]. apply G1. cbn [fst]. rewrite f512_R, Rabs_pos_eq by lra. change (INR 2) with (1 + 1). change (bpow radix2 0) with 1. apply Rle_trans with (bpow radix2 10); [cbn; lra|apply bpow_le; lia].
Qed.
Example C96_accuracy_example : Rabs (B2R (envelope 24 128 exp32 sum32 zero32 [near32; [zero32; zero32; zero32]] [f1; f1]) - (exp (-1) + 1)) <= / 100000.
Proof.
  destruct (C86_assumptions_hold 24 128 prec32 emax32) as [RO [GE [GL GS]]]; [cbn; tauto|].
  destruct (C96_accuracy 24 128 prec32 emax32 exp32 sum32 _ GE GS 0 3 [near32; [zero32; zero32; zero32]] [f1; f1]) as [_ A]; try lia; [cbn; lra|exact dims32| |reflexivity| |].
  - intros v [<-|[<-|[]]]; (split; [apply position32; reflexivity|]); [apply measurable32; rewrite f1_R; cbn; lra|left; rewrite length32; change (B2R zero32) with 0; ring].
  - intros w [<-|[<-|[]]]; (split; [reflexivity|rewrite f1_R, Rabs_R1; cbn; lra]).
  - assert (E : exact_envelope 24 128 [near32; [zero32; zero32; zero32]] [f1; f1] = exp (-1) + 1).
    { unfold exact_envelope, total. cbn [map combine fold_right fst snd]. unfold vlength, near32. rewrite !length32, f1_R. change (B2R zero32) with 0. replace (0 ^ 2) with 0 by ring. rewrite sqrt_0, Ropp_0, exp_0, pow1, sqrt_1. replace (-1) with (- (1)) by lra. ring. }
    rewrite E in A. eapply Rle_trans; [exact A|]. unfold envelope_error. rewrite u32'. replace (INR (length [near32; [zero32; zero32; zero32]])) with 2 by (cbn; lra). replace (INR (2 * 3 + 18)) with 24 by (cbn; lra). change (bpow radix2 0) with 1. lra.
Qed.
Example C96_orbitals_example : exists o, orbitals 24 128 exp32 sum32 zero32 [near32; far32] [(f1, (f1, [f1; f1]))] = [o] /\ Rabs (B2R o - (exp (-1) + exp (-512))) <= / 100000.
Proof.
  destruct (C86_assumptions_hold 24 128 prec32 emax32) as [RO [GE [GL GS]]]; [cbn; tauto|]. destruct far_ok as [_ [_ LF]].
  pose proof (C96_orbitals 24 128 prec32 emax32 exp32 sum32 _ GE GS 0 3 [near32; far32] [(f1, (f1, [f1; f1]))]) as H. cbv zeta in H. unfold orbitals in H |- *. cbn [map] in H |- *. eexists. split; [reflexivity|].
  assert (G := fun a b c d e => forall2_single _ _ _ (H a b c d e)). clear H. destruct G as [_ A]; try lia; [cbn; lra|exact dims32| |].
  - intros lin rate ws [E|[]]. injection E as <- <- <-. split; [reflexivity|]. split; [reflexivity|]. split; [reflexivity|]. split; [intros w [<-|[<-|[]]]; (split; [reflexivity|rewrite f1_R, Rabs_R1; cbn; lra])|]. split.
    + intros v [<-|[<-|[]]]; (split; [apply position32; reflexivity|]); apply scalable32; [rewrite f1_R, Rabs_R1; lra|rewrite f512_R, Rabs_pos_eq; lra].
    + rewrite f1_R, Rabs_R1, Rmult_1_l. apply Rle_trans with (bpow radix2 1); [cbn; lra|apply bpow_le; lia].
  - cbn [fst snd] in A. assert (E : exact_orbital 24 128 f1 f1 [near32; far32] [f1; f1] = exp (-1) + exp (-512)).
    { unfold exact_orbital, total. cbn [map combine fold_right fst snd]. rewrite LF. unfold vlength, near32. rewrite length32, f1_R, pow1, sqrt_1, Rabs_R1, !Rmult_1_l. replace (-1) with (- (1)) by lra. replace (-512) with (- (512)) by lra. ring. }
    rewrite E in A. eapply Rle_trans; [exact A|]. unfold orbital_error. rewrite f1_R, Rabs_R1, u32'. replace (INR (length [near32; far32])) with 2 by (cbn; lra). replace (INR (2 * 3 + 23)) with 29 by (cbn; lra). change (bpow radix2 0) with 1. assert (bpow radix2 (2 - 128) <= 1) by (change 1 with (bpow radix2 0); apply bpow_le; lia). lra.
Qed.

(** P_fdense: linear layers in the log domain in floating-point arithmetic. *)
From Coq Require Import ZArith Reals.
From Flocq Require Import Core IEEE754.BinarySingleNaN Relative.
From Coq Require Import Lia Lra List Permutation Bool Arith.
Import ListNotations.
From Verif Require Import M_float S_float P_float P_float2 P_float3 M_fwalk S_fwalk P_fwalk P_fwalk2 M_fenergy S_fenergy P_fenergy M_fpotential S_fpotential P_fpotential P_foptax2 M_fdense S_fdense.
Open Scope R_scope.

Section Proofs.
Variables prec emax : Z.
Context {Hp : Prec_gt_0 prec}.
Context {He : Prec_lt_emax prec emax}.
Notation fl := (binary_float prec emax).
Notation ex := (SpecFloat.fexp prec emax).
Notation emin := (SpecFloat.emin prec emax).
Notation rnd := (round radix2 ex ZnearestE).
Notation u := (unit_roundoff prec).
Notation minf := (B754_infinity (prec:=prec) (emax:=emax) true).
Notation tiny := (tiny emax).
Notation linear := (linear prec emax). Notation is_weight := (is_weight prec emax). Notation dense_error := (dense_error prec).
Local Instance ex_valid17 : Valid_exp ex := FLT_exp_valid emin prec.
Variables (fe fg : fl -> fl) (fs : list fl -> fl) (epse epsl : R).
Hypothesis GE : good_exp prec emax epse fe.
Hypothesis GL : good_log prec emax epsl fg.
Hypothesis GS : forall l, is_sum prec emax l (fs l).

Lemma amount_scale c x : amount prec emax 0 x = exp c * amount prec emax c x.
Proof. unfold amount. destruct (is_finite (snd x)); [|ring]. rewrite Rminus_0_r. replace (B2R (snd x)) with (c + (B2R (snd x) - c)) at 1 by ring. rewrite exp_plus. ring. Qed.
Lemma linear_scale c xs ws : linear 0 xs ws = exp c * linear c xs ws.
Proof. revert ws. induction xs as [|x xs IH]; intros [|w ws]; cbn [S_fdense.linear]; try ring. rewrite IH, (amount_scale c). ring. Qed.
Lemma linear_one xs ws b : length ws = length xs -> linear 0 (xs ++ [(fone prec emax, fzero prec emax)]) (ws ++ [b]) = linear 0 xs ws + B2R b.
Proof.
  revert ws. induction xs as [|x xs IH]; intros [|w ws] L; try discriminate L; cbn [app S_fdense.linear].
  - unfold amount. cbn [snd fst]. change (is_finite (fzero prec emax)) with true. cbv iota. change (B2R (fzero prec emax)) with 0. destruct (one_R prec emax) as [_ O]. rewrite O. rewrite Rminus_0_r, exp_0. ring.
  - rewrite IH by (cbn in L; lia). ring.
Qed.
Lemma exact_extended use_bias xs ws : xs <> [] -> length ws = length (with_one prec emax use_bias xs) -> exact_output prec emax use_bias xs ws = linear 0 (with_one prec emax use_bias xs) ws.
Proof.
  intros NE L. unfold exact_output, with_one in *. destruct use_bias; [|reflexivity]. destruct xs as [|x xs]; [congruence|]. set (l := x :: xs) in *.
  assert (NW : ws <> []) by (intros ->; rewrite app_length in L; cbn in L; lia). rewrite (app_removelast_last B754_nan NW) at 3. symmetry. apply linear_one.
  rewrite (app_removelast_last B754_nan NW), !app_length in L. cbn [length] in L. lia.
Qed.

Section Column.
Variables (q : Z) (m : fl).
Hypothesis Q : (0 <= q)%Z.
Hypothesis QP : (q + prec < emax)%Z.
Hypothesis Fm : is_finite m = true.
Definition input_ok (x : fl * fl) : Prop := sign_number prec emax (fst x) /\ log_number prec emax (snd x) /\ (is_finite (snd x) = true -> B2R (snd x) <= B2R m).
Lemma epse0 : 0 <= epse. Proof using GE. apply (epse_pos prec emax fe epse GE). Qed.

Lemma weighted_spec x w : input_ok x -> is_weight q w -> let t := weighted_term prec emax fe m (x, w) in
  is_finite t = true /\ Rabs (B2R t) <= bpow radix2 q /\ Rabs (B2R t - B2R w * amount prec emax (B2R m) x) <= bpow radix2 q * (3 * u + epse).
Proof using GE Q QP Fm.
  intros [S1 [L1 Le]] [Fw W] t. destruct (term_spec prec emax fe epse GE m x Fm S1 L1 Le) as [A [B [C _]]]. unfold t, weighted_term. cbn [fst snd]. set (y := scaled_term prec emax fe m x) in *.
  pose proof (uu prec) as UU. pose proof (bpow_gt_0 radix2 q) as BQ. pose proof (prec1 prec) as P1. assert (Q1 : 1 <= bpow radix2 q) by (change 1 with (bpow radix2 0); apply bpow_le; exact Q).
  assert (YW : Rabs (B2R y * B2R w) <= bpow radix2 q). { rewrite Rabs_mult. rewrite <- (Rmult_1_l (bpow radix2 q)). apply Rmult_le_compat; try apply Rabs_pos; assumption. }
  assert (LT : bpow radix2 q <= bpow radix2 (emax - 1)) by (apply bpow_le; lia). destruct (mul_fin prec emax y w A Fw) as [F V]; [lra|]. split; [exact F|].
  split; [rewrite V; apply (rnd_abs_le prec emax); [apply (fmt0 prec emax); exact Q|exact YW]|].
  pose proof (any_rnd_err prec emax (B2R y * B2R w)) as E. rewrite <- V in E. pose proof (tiny_pos emax) as TP.
  assert (T1 : tiny <= 1) by (unfold P_fpotential.tiny; change 1 with (bpow radix2 0); apply bpow_le; lia).
  replace (B2R (fmul prec emax y w) - B2R w * amount prec emax (B2R m) x) with ((B2R (fmul prec emax y w) - B2R y * B2R w) + B2R w * (B2R y - amount prec emax (B2R m) x)) by ring.
  eapply Rle_trans; [apply Rabs_triang|]. assert (E2 : Rabs (B2R w * (B2R y - amount prec emax (B2R m) x)) <= bpow radix2 q * (u + epse)) by (rewrite Rabs_mult; apply Rmult_le_compat; try apply Rabs_pos; assumption).
  assert (u * Rabs (B2R y * B2R w) <= u * bpow radix2 q) by (apply Rmult_le_compat_l; lra). assert (u * tiny <= u * bpow radix2 q) by (apply Rmult_le_compat_l; lra). lra.
Qed.
Lemma terms_spec xs : (forall x, In x xs -> input_ok x) -> forall ws, length ws = length xs -> (forall w, In w ws -> is_weight q w) ->
  let ts := map (weighted_term prec emax fe m) (combine xs ws) in
  length ts = length xs /\ (forall t, In t ts -> is_finite t = true /\ Rabs (B2R t) <= bpow radix2 q) /\ Rabs (rsum prec emax ts - linear (B2R m) xs ws) <= INR (length xs) * (bpow radix2 q * (3 * u + epse)).
Proof using GE Q QP Fm.
  induction xs as [|x xs IH]; intros OK [|w ws] L W ts; try discriminate L.
  - cbn. rewrite Rminus_0_r, Rabs_R0. split; [reflexivity|]. split; [intros t []|lra].
  - destruct (IH (fun y H => OK y (or_intror H)) ws) as [I1 [I2 I3]]; [cbn in L; lia|intros v H; apply W; right; exact H|]. destruct (weighted_spec x w (OK x (or_introl eq_refl)) (W w (or_introl eq_refl))) as [A [B C]].
    unfold ts. cbn [combine map length]. set (ts' := map _ (combine xs ws)) in *. split; [rewrite I1; reflexivity|]. split; [intros t [<-|H]; [split; assumption|apply I2; exact H]|].
    cbn [S_fdense.linear]. unfold rsum in *. cbn [map fold_right]. rewrite S_INR. fold (B2R (weighted_term prec emax fe m (x, w))).
    match goal with |- Rabs (?a + ?b - (?c + ?d)) <= _ => replace (a + b - (c + d)) with ((a - c) + (b - d)) by ring end. eapply Rle_trans; [apply Rabs_triang|]. lra.
Qed.
Lemma column_spec xs ws : roomy prec emax -> Rabs (B2R m) <= bpow radix2 (emax - 1) -> (forall x, In x xs -> input_ok x) -> length ws = length xs -> (forall w, In w ws -> is_weight q w) -> INR (length xs) * bpow radix2 q <= bpow radix2 prec ->
  let out := column_output prec emax fe fg fs m xs ws in let T := linear 0 xs ws in let err := dense_error epse q (length xs) in
  sign_number prec emax (fst out) /\ log_number prec emax (snd out) /\ (snd out = minf <-> B2R (fst out) = 0) /\
  (T > exp (B2R m) * err -> B2R (fst out) = 1) /\ (T < - (exp (B2R m) * err) -> B2R (fst out) = -1) /\
  (exp (B2R m) * (1 + err) <= Rabs T -> is_finite (snd out) = true /\ Rabs (B2R (snd out) - ln (Rabs T)) <= err + epsl + u * (Rabs (B2R m) + IZR (emax + prec))).
Proof using GE GL GS Q QP Fm.
  intros RO Bm OK L W N out T err. pose proof (uu prec) as UU. pose proof (bpow_gt_0 radix2 q) as BQ. assert (Q1 : 1 <= bpow radix2 q) by (change 1 with (bpow radix2 0); apply bpow_le; exact Q). pose proof (pos_INR (length xs)) as NP.
  destruct (terms_spec xs OK ws L W) as [I1 [I2 I3]]. unfold out, column_output. set (ts := map _ (combine xs ws)) in *. set (S0 := fs ts). cbn [fst snd].
  destruct (sum_scaled prec emax q Q QP ts S0 (GS ts) I2) as [FS [BS [ES _]]]; [rewrite I1; nra|]. rewrite I1 in *.
  assert (ER : Rabs (B2R S0 - linear (B2R m) xs ws) <= err).
  { replace (B2R S0 - linear (B2R m) xs ws) with ((B2R S0 - rsum prec emax ts) + (rsum prec emax ts - linear (B2R m) xs ws)) by ring. eapply Rle_trans; [apply Rabs_triang|]. unfold err, S_fdense.dense_error. lra. }
  destruct (fsign_spec prec emax S0 FS) as [G1 [G2 [G3 G4]]]. destruct (log_spec prec emax fg epsl GL S0 m RO FS Fm Bm) as [L1 L2].
  assert (E0 : 0 <= err) by (eapply Rle_trans; [apply Rabs_pos|exact ER]). unfold T. rewrite (linear_scale (B2R m)). set (t := linear (B2R m) xs ws) in *. pose proof (exp_pos (B2R m)) as EP.
  split; [exact G1|]. split; [|split; [|split; [|split]]].
  - destruct (Req_dec (B2R S0) 0) as [Z|Z]; [right; apply L1; exact Z|left; apply L2; exact Z].
  - rewrite <- G4. split; [|exact L1]. intros E. destruct (Req_dec (B2R S0) 0) as [Z|Z]; [exact Z|]. destruct (L2 Z) as [F _]. rewrite E in F. discriminate.
  - intros H. apply G2. apply Rmult_gt_reg_l in H; [|exact EP]. apply Rabs_le_inv in ER. lra.
  - intros H. apply G3. replace (- (exp (B2R m) * err)) with (exp (B2R m) * - err) in H by ring. apply Rmult_lt_reg_l in H; [|exact EP]. apply Rabs_le_inv in ER. lra.
  - intros H. rewrite Rabs_mult, (Rabs_pos_eq (exp (B2R m))) in * by lra. apply Rmult_le_reg_l in H; [|exact EP].
    assert (D : Rabs (Rabs (B2R S0) - Rabs t) <= err) by (eapply Rle_trans; [apply Rabs_triang_inv2|exact ER]). assert (S1 : 1 <= Rabs (B2R S0)) by (apply Rabs_le_inv in D; lra).
    assert (Z : B2R S0 <> 0) by (intros Z; rewrite Z, Rabs_R0 in S1; lra). destruct (L2 Z) as [F [V BL]]. split; [exact F|]. rewrite V.
    destruct GL as [_ [_ GG]]. destruct (GG (Babs S0)) as [_ [_ GB]]; [rewrite is_finite_Babs; exact FS|rewrite B2R_Babs; lra|]. rewrite B2R_Babs in GB. destruct GB as [_ LE]; [split; [exact S1|lra]|].
    rewrite ln_mult, ln_exp by lra. set (L' := B2R (fg (Babs S0))) in *. pose proof (ln_lip (Rabs (B2R S0)) (Rabs t) S1 ltac:(lra)) as LL.
    pose proof (rnd_plus_err prec emax L' (B2R m) (fmt_B2R _ _ _) (fmt_B2R _ _ _)) as Q3. assert (Q4 : u * Rabs (L' + B2R m) <= u * (Rabs (B2R m) + IZR (emax + prec))) by (apply Rmult_le_compat_l; [lra|]; eapply Rle_trans; [apply Rabs_triang|]; lra).
    replace (rnd (L' + B2R m) - (B2R m + ln (Rabs t))) with ((rnd (L' + B2R m) - (L' + B2R m)) + ((L' - ln (Rabs (B2R S0))) + (ln (Rabs (B2R S0)) - ln (Rabs t)))) by ring.
    eapply Rle_trans; [apply Rabs_triang|]. pose proof (Rabs_triang (L' - ln (Rabs (B2R S0))) (ln (Rabs (B2R S0)) - ln (Rabs t))). lra.
Qed.
End Column.

(** Without a number among the logs, everything is NaN. *)
Lemma column_nan xs ws : xs <> [] -> length ws = length xs -> (forall x, In x xs -> snd x = minf) -> column_output prec emax fe fg fs minf xs ws = (B754_nan, B754_nan).
Proof using GE GL GS.
  intros NE L Z. unfold column_output. set (ts := map _ (combine xs ws)). assert (SN : fs ts = B754_nan).
  { destruct (GS ts) as [t [k [P <-]]]. apply eval_nan. apply (Permutation_in _ (Permutation_sym P)). apply in_or_app. left. destruct xs as [|x xs]; [congruence|]. destruct ws as [|w ws]; [discriminate L|]. left.
    unfold weighted_term. cbn [fst snd]. unfold scaled_term. rewrite (Z x (or_introl eq_refl)). unfold fsub. cbn [Bminus Bool.eqb negb]. destruct GE as [-> _]. unfold fmul. destruct (fst x), w; reflexivity. }
  cbv zeta. rewrite SN. cbn [fsign Babs]. destruct GL as [-> _]. reflexivity.
Qed.
End Proofs.

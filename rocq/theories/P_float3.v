(** P_float3: sums of signed logs on floating-point numbers; products of determinants. *)
From Coq Require Import ZArith Reals.
From Flocq Require Import Core IEEE754.BinarySingleNaN.
From Flocq Require Import Relative Plus_error.
From Coq Require Import Lia Lra List Permutation.
Import ListNotations.
From Verif Require Import M_float S_float P_float P_float2.
Open Scope R_scope.

Section Proofs.
Variables prec emax : Z.
Context {Hp : Prec_gt_0 prec}.
Context {He : Prec_lt_emax prec emax}.
Notation fl := (binary_float prec emax).
Notation ex := (SpecFloat.fexp prec emax).
Notation emin := (SpecFloat.emin prec emax).
Notation rnd := (round radix2 ex ZnearestE).
Notation u := (unit_roundoff prec).
Notation minf := (B754_infinity (prec:=prec) (emax:=emax) true).
Local Instance ex_valid3 : Valid_exp ex := FLT_exp_valid emin prec.

Lemma largest_unique : forall xs c d, largest prec emax xs c -> largest prec emax xs d -> c = d.
Proof.
  intros xs c d [[x [Ix [Fx Ex]]] Lc] [[y [Iy [Fy Ey]]] Ld]. specialize (Lc y Iy Fy). specialize (Ld x Ix Fx). lra.
Qed.

Lemma total_scale : forall c xs, total prec emax 0 xs = exp c * total prec emax c xs.
Proof.
  intros c xs. unfold total. induction xs as [|x xs IH]; cbn [map fold_right]; [ring|]. rewrite IH, Rmult_plus_distr_l. f_equal.
  unfold amount. destruct (is_finite (snd x)); [|ring]. rewrite Rminus_0_r. replace (B2R (snd x)) with (c + (B2R (snd x) - c)) at 1 by ring. rewrite exp_plus. ring.
Qed.

(** The real total of terms of one sign is at least the largest. *)
Lemma total_ge : forall sg c xs, sg = 1 \/ sg = -1 -> (forall x, In x xs -> B2R (fst x) = sg) ->
  0 <= sg * total prec emax c xs /\ (forall x, In x xs -> is_finite (snd x) = true -> exp (B2R (snd x) - c) <= sg * total prec emax c xs).
Proof.
  intros sg c xs SG S. assert (SS : sg * sg = 1) by (destruct SG as [-> | ->]; ring).
  unfold total. induction xs as [|x xs IH]; cbn [map fold_right].
  - split; [lra|]. intros x [].
  - destruct IH as [N G]; [intros y Hy; apply S; right; exact Hy|]. rewrite Rmult_plus_distr_l.
    assert (A : sg * amount prec emax c x = if is_finite (snd x) then exp (B2R (snd x) - c) else 0).
    { unfold amount. rewrite (S x (or_introl eq_refl)). destruct (is_finite (snd x)); [|ring]. rewrite <- Rmult_assoc, SS. ring. }
    rewrite A. split.
    + destruct (is_finite (snd x)); [pose proof (exp_pos (B2R (snd x) - c))|]; lra.
    + intros y [<-|Hy] Fy; [rewrite Fy; lra|]. specialize (G y Hy Fy). destruct (is_finite (snd x)); [pose proof (exp_pos (B2R (snd x) - c))|]; lra.
Qed.

Section Functions.
Variables (fe fg : fl -> fl) (fs : list fl -> fl) (epse epsl : R).
Hypothesis GE : good_exp prec emax epse fe.
Hypothesis GL : good_log prec emax epsl fg.
Hypothesis GS : forall l, is_sum prec emax l (fs l).

Theorem sum_safe : roomy prec emax -> forall xs c,
  INR (length xs) <= bpow radix2 prec ->
  (forall x, In x xs -> sign_number prec emax (fst x) /\ log_number prec emax (snd x)) ->
  largest prec emax xs c -> Rabs c <= bpow radix2 (emax - 1) ->
  exists s l, log_linear_exp prec emax fe fg fs xs = Some (s, l) /\
    sign_number prec emax s /\ log_number prec emax l /\ (l = minf <-> B2R s = 0) /\
    (total prec emax 0 xs > exp c * sum_error prec epse (length xs) -> B2R s = 1) /\
    (total prec emax 0 xs < - (exp c * sum_error prec epse (length xs)) -> B2R s = -1) /\
    (forall sg, sg = 1 \/ sg = -1 -> (forall x, In x xs -> B2R (fst x) = sg) ->
       B2R s = sg /\ is_finite l = true /\ c <= B2R l /\
       Rabs (B2R l - ln (Rabs (total prec emax 0 xs))) <=
         sum_error prec epse (length xs) + epsl + u * (Rabs c + IZR (emax + prec))).
Proof.
  intros RO xs c N G LC BC. pose proof (u_pos prec) as U.
  destruct (fmaximum_spec prec emax xs (fun x H => proj2 (G x H))) as [m [EM [Fm LM]]].
  { destruct LC as [[x [Ix [Fx _]]] _]. exists x. tauto. }
  assert (c = B2R m) as -> by (apply (largest_unique xs); assumption).
  pose proof (proj2 LM) as Le.
  set (ts := map (scaled_term prec emax fe m) xs). set (S := fs ts).
  assert (TB : forall t, In t ts -> is_finite t = true /\ Rabs (B2R t) <= 1).
  { intros t Ht. apply in_map_iff in Ht. destruct Ht as [x [<- Hx]]. destruct (G x Hx) as [G1 G2].
    destruct (term_spec prec emax fe epse GE m x Fm G1 G2 (Le x Hx)) as [A [B _]]. split; assumption. }
  assert (LT : length ts = length xs) by apply map_length.
  destruct (sum_spec prec emax ts S (GS ts) TB ltac:(rewrite LT; exact N)) as [FS [BS [ES MS]]]. rewrite LT in *.
  pose proof (terms_err prec emax fe epse GE m xs Fm G Le) as TE. fold ts in TE.
  assert (ER : Rabs (B2R S - total prec emax (B2R m) xs) <= sum_error prec epse (length xs)).
  { replace (B2R S - total prec emax (B2R m) xs) with ((B2R S - rsum prec emax ts) + (rsum prec emax ts - total prec emax (B2R m) xs)) by ring.
    eapply Rle_trans; [apply Rabs_triang|]. unfold sum_error. lra. }
  destruct (fsign_spec prec emax S FS) as [G1 [G2 [G3 G4]]].
  destruct (log_spec prec emax fg epsl GL S m RO FS Fm BC) as [L1 L2].
  exists (fsign prec emax S), (fadd prec emax (fg (Babs S)) m). split; [unfold log_linear_exp; rewrite EM; reflexivity|].
  split; [exact G1|]. split; [|split; [|split; [|split]]].
  - destruct (Req_dec (B2R S) 0) as [Z|Z]; [right; apply L1; exact Z|left; apply L2; exact Z].
  - rewrite <- G4. split; [|exact L1]. intros E. destruct (Req_dec (B2R S) 0) as [Z|Z]; [exact Z|]. destruct (L2 Z) as [F _]. rewrite E in F. discriminate.
  - intros T. apply G2. rewrite (total_scale (B2R m)) in T. apply Rmult_gt_reg_l in T; [|apply exp_pos].
    pose proof (Rle_abs (- (B2R S - total prec emax (B2R m) xs))) as Q. rewrite Rabs_Ropp in Q. lra.
  - intros T. apply G3. rewrite (total_scale (B2R m)) in T.
    replace (- (exp (B2R m) * sum_error prec epse (length xs))) with (exp (B2R m) * - sum_error prec epse (length xs)) in T by ring.
    apply Rmult_lt_reg_l in T; [|apply exp_pos]. pose proof (Rle_abs (B2R S - total prec emax (B2R m) xs)) as Q. lra.
  - intros sg SG SS.
    assert (TG : forall t, In t ts -> 0 <= sg * B2R t).
    { intros t Ht. apply in_map_iff in Ht. destruct Ht as [x [<- Hx]]. destruct (G x Hx) as [H1 H2].
      destruct (term_spec prec emax fe epse GE m x Fm H1 H2 (Le x Hx)) as [_ [_ [_ [V P]]]]. rewrite V, (SS x Hx), <- Rmult_assoc.
      replace (sg * sg) with 1 by (destruct SG as [-> | ->]; ring). lra. }
    specialize (MS sg SG TG). destruct LM as [[x [Ix [Fx Ex]]] _].
    assert (S1 : 1 <= sg * B2R S).
    { pose proof (MS _ (in_map _ _ _ Ix)) as Q. destruct (G x Ix) as [H1 H2].
      destruct (term_spec prec emax fe epse GE m x Fm H1 H2 (Le x Ix)) as [_ [_ [_ [V _]]]]. rewrite V, (SS x Ix) in Q.
      destruct (expterm prec emax fe epse GE (snd x) m Fm H2 (Le x Ix)) as [_ [_ [_ O]]]. rewrite (O Fx Ex) in Q.
      destruct SG as [-> | ->]; lra. }
    assert (AS : Rabs (B2R S) = sg * B2R S) by (destruct SG as [-> | ->]; [rewrite Rabs_right|rewrite Rabs_left]; lra).
    assert (Z : B2R S <> 0) by (intros Z; rewrite Z, Rmult_0_r in S1; lra).
    destruct (L2 Z) as [F [V B]].
    split; [destruct SG as [-> | ->]; [apply G2; lra|apply G3; lra]|]. split; [exact F|].
    destruct GL as [_ [_ GG]]. destruct (GG (Babs S)) as [_ [_ GB]]; [rewrite is_finite_Babs; exact FS|rewrite B2R_Babs; lra|].
    rewrite B2R_Babs, AS in GB. destruct GB as [L0 LE].
    { split; [exact S1|]. rewrite <- AS. lra. }
    rewrite V. split.
    + apply round_ge_generic; auto with typeclass_instances; [apply fmt_B2R|lra].
    + destruct (total_ge sg (B2R m) xs SG SS) as [T0 TL]. specialize (TL x Ix Fx). rewrite Ex, Rminus_diag_eq, exp_0 in TL by reflexivity.
      assert (AT : Rabs (total prec emax (B2R m) xs) = sg * total prec emax (B2R m) xs) by (destruct SG as [-> | ->]; [rewrite Rabs_right|rewrite Rabs_left]; lra).
      assert (LN : ln (Rabs (total prec emax 0 xs)) = B2R m + ln (sg * total prec emax (B2R m) xs)).
      { rewrite (total_scale (B2R m)), Rabs_mult, AT, (Rabs_right (exp _)) by (left; apply exp_pos). rewrite ln_mult, ln_exp; [reflexivity|apply exp_pos|lra]. }
      rewrite LN. set (T := total prec emax (B2R m) xs) in *. set (L := B2R (fg (Babs S))) in *.
      pose proof (ln_lip (sg * B2R S) (sg * T) S1 TL) as Q1.
      assert (Q2 : Rabs (sg * B2R S - sg * T) = Rabs (B2R S - T)) by (rewrite <- Rmult_minus_distr_l, Rabs_mult; destruct SG as [-> | ->]; [rewrite Rabs_R1|rewrite (Rabs_left (-1)) by lra]; ring).
      pose proof (rnd_plus_err prec emax L (B2R m) (fmt_B2R _ _ _) (fmt_B2R _ _ _)) as Q3.
      assert (Q4 : u * Rabs (L + B2R m) <= u * (Rabs (B2R m) + IZR (emax + prec))).
      { apply Rmult_le_compat_l; [lra|]. eapply Rle_trans; [apply Rabs_triang|]. lra. }
      replace (rnd (L + B2R m) - (B2R m + ln (sg * T))) with ((rnd (L + B2R m) - (L + B2R m)) + ((L - ln (sg * B2R S)) + (ln (sg * B2R S) - ln (sg * T)))) by ring.
      eapply Rle_trans; [apply Rabs_triang|]. pose proof (Rabs_triang (L - ln (sg * B2R S)) (ln (sg * B2R S) - ln (sg * T))). lra.
Qed.

(** No log is a number: NaN. *)
Lemma fadd_nan_l : forall x : fl, fadd prec emax B754_nan x = B754_nan.
Proof. reflexivity. Qed.
Lemma fadd_nan_r : forall x : fl, fadd prec emax x B754_nan = B754_nan.
Proof. intros [s|s| |s k e H]; reflexivity. Qed.

Lemma eval_nan : forall t, In B754_nan (leaves prec emax t) -> eval prec emax t = B754_nan.
Proof.
  induction t as [x|a IHa b IHb]; cbn [leaves eval]; intros H.
  - destruct H as [->|[]]. reflexivity.
  - apply in_app_or in H. destruct H as [H|H]; [rewrite (IHa H)|rewrite (IHb H)]; [apply fadd_nan_l|apply fadd_nan_r].
Qed.

Lemma all_minf_max : forall l : list fl, (forall v, In v l -> v = minf) -> fold_right (fmax prec emax) minf l = minf.
Proof.
  induction l as [|x l IH]; intros H; [reflexivity|]. cbn [fold_right]. rewrite IH by (intros v Hv; apply H; right; exact Hv). rewrite (H x (or_introl eq_refl)). reflexivity.
Qed.

Theorem sum_nan : forall xs, xs <> [] -> (forall x, In x xs -> snd x = minf) ->
  log_linear_exp prec emax fe fg fs xs = Some (B754_nan, B754_nan).
Proof.
  intros xs NE Z. unfold log_linear_exp.
  assert (EM : fmaximum prec emax (map snd xs) = Some minf).
  { destruct xs as [|x xs]; [congruence|]. unfold fmaximum. change (map snd (x :: xs)) with (snd x :: map snd xs).
    apply (f_equal Some). apply all_minf_max. intros v Hv. change (snd x :: map snd xs) with (map snd (x :: xs)) in Hv. apply in_map_iff in Hv. destruct Hv as [y [<- Hy]]. apply Z. exact Hy. }
  rewrite EM. assert (SN : fs (map (scaled_term prec emax fe minf) xs) = B754_nan).
  { destruct (GS (map (scaled_term prec emax fe minf) xs)) as [t [k [P <-]]]. apply eval_nan. apply (Permutation_in _ (Permutation_sym P)). apply in_or_app. left.
    destruct xs as [|x xs]; [congruence|]. left. unfold scaled_term. rewrite (Z x (or_introl eq_refl)). cbn [fsub Bminus Bool.eqb negb]. unfold fsub. cbn [Bminus Bool.eqb negb].
    destruct GE as [-> _]. unfold fmul. destruct (fst x); reflexivity. }
  cbv zeta. rewrite SN. cbn [fsign Babs]. destruct GL as [-> _]. reflexivity.
Qed.

(** Numbers of any size. *)
Theorem array_sum_safe : roomy prec emax -> forall xs : list fl,
  INR (length xs) <= bpow radix2 prec -> (forall x, In x xs -> is_finite x = true) -> (exists x, In x xs /\ B2R x <> 0) ->
  exists s l, slog_sum_over_axis prec emax fe fg fs (map (array_to_slog prec emax fg) xs) = Some (s, l) /\
    sign_number prec emax s /\ log_number prec emax l /\ (l = minf <-> B2R s = 0).
Proof.
  intros RO xs N F [x [Ix Zx]]. set (ys := map (array_to_slog prec emax fg) xs).
  assert (G : forall y, In y ys -> sign_number prec emax (fst y) /\ log_number prec emax (snd y) /\ (is_finite (snd y) = true -> Rabs (B2R (snd y)) <= IZR (emax + prec))).
  { intros y Hy. apply in_map_iff in Hy. destruct Hy as [z [<- Hz]]. cbn [array_to_slog fst snd]. destruct (fsign_spec prec emax z (F z Hz)) as [S _]. split; [exact S|].
    pose proof GL as [_ [G0 GG]]. destruct (Req_dec (B2R z) 0) as [E|E].
    - destruct (abs_zero prec emax z (F z Hz) E) as [b ->]. rewrite G0. split; [right; reflexivity|discriminate].
    - destruct (GG (Babs z)) as [A [B _]]; [rewrite is_finite_Babs; exact (F z Hz)|rewrite B2R_Babs; apply Rabs_pos_lt; exact E|]. split; [left; exact A|intros _; exact B]. }
  destruct (fmaximum_spec prec emax ys (fun y H => proj1 (proj2 (G y H)))) as [m [_ [Fm LM]]].
  { exists (array_to_slog prec emax fg x). split; [apply in_map; exact Ix|]. cbn [array_to_slog snd]. pose proof GL as [_ [_ GG]]. apply GG; [rewrite is_finite_Babs; exact (F x Ix)|rewrite B2R_Babs; apply Rabs_pos_lt; exact Zx]. }
  destruct (sum_safe RO ys (B2R m)) as [s [l [E [A [B [C _]]]]]].
  - unfold ys. rewrite map_length. exact N.
  - intros y Hy. destruct (G y Hy) as [A [B _]]. split; assumption.
  - exact LM.
  - destruct LM as [[y [Iy [Fy Ey]]] _]. rewrite <- Ey. destruct (G y Iy) as [_ [_ B]]. specialize (B Fy). destruct RO as [_ RO].
    assert (bpow radix2 (emax - 2) <= bpow radix2 (emax - 1)) by (apply bpow_le; lia). lra.
  - exists s, l. split; [exact E|]. split; [exact A|]. split; [exact B|exact C].
Qed.
End Functions.

(** Products over the spins. *)
Lemma mul_sign : forall s t : fl, sign_number prec emax s -> sign_number prec emax t -> sign_number prec emax (fmul prec emax s t) /\ B2R (fmul prec emax s t) = B2R s * B2R t.
Proof.
  intros s t Ss St. destruct St as [Ft St]. destruct (sign_mul prec emax s t Ss Ft) as [F V].
  - destruct St as [A|[A|A]]; rewrite A; [rewrite Rabs_R1|rewrite Rabs_left by lra|rewrite Rabs_R0]; lra.
  - split; [|exact V]. split; [exact F|]. rewrite V. destruct Ss as [_ [A|[A|A]]]; rewrite A; destruct St as [B|[B|B]]; rewrite B; lra.
Qed.

Lemma add_minf : forall x y : fl, log_number prec emax x -> log_number prec emax y -> x = minf \/ y = minf -> fadd prec emax x y = minf.
Proof.
  intros x y [Fx|Ex] [Fy|Ey] O.
  - destruct O as [->| ->]; discriminate.
  - subst y. destruct x as [s|s| |s k e H]; try discriminate; reflexivity.
  - subst x. destruct y as [s|s| |s k e H]; try discriminate; reflexivity.
  - subst. reflexivity.
Qed.

Lemma fold_products : forall q r d (j : nat), (0 <= q <= prec)%Z ->
  (forall x, In x r -> sign_number prec emax (fst x) /\ log_number prec emax (snd x) /\ (is_finite (snd x) = true -> Rabs (B2R (snd x)) <= bpow radix2 (emax - 1 - q))) ->
  INR (j + length r) <= bpow radix2 q ->
  sign_number prec emax (fst d) -> log_number prec emax (snd d) -> (is_finite (snd d) = true -> Rabs (B2R (snd d)) <= INR j * bpow radix2 (emax - 1 - q)) ->
  let p := fold_left (slog_multiply prec emax) r d in
  sign_number prec emax (fst p) /\ log_number prec emax (snd p) /\
  (is_finite (snd p) = true -> Rabs (B2R (snd p)) <= INR (j + length r) * bpow radix2 (emax - 1 - q)) /\
  (snd p = minf <-> snd d = minf \/ exists x, In x r /\ snd x = minf) /\
  B2R (fst p) = fold_left Rmult (map (fun x => B2R (fst x)) r) (B2R (fst d)).
Proof.
  intros q r. induction r as [|x r IH]; intros d j Q G J S L B.
  - cbn [fold_left length map] in *. rewrite Nat.add_0_r in *. split; [exact S|]. split; [exact L|]. split; [exact B|]. split; [|reflexivity]. split; [tauto|]. intros [E|[y [[] _]]]. exact E.
  - destruct (G x (or_introl eq_refl)) as [Gs [Gl Gb]]. cbn [fold_left length map] in *. replace (j + Datatypes.S (length r))%nat with (Datatypes.S j + length r)%nat in * by lia.
    destruct (mul_sign (fst d) (fst x) S Gs) as [S2 V2].
    assert (JJ : INR (Datatypes.S j) <= bpow radix2 q) by (eapply Rle_trans; [|exact J]; apply le_INR; lia).
    assert (BP : 0 < bpow radix2 (emax - 1 - q)) by apply bpow_gt_0.
    assert (X : log_number prec emax (fadd prec emax (snd d) (snd x)) /\
      (is_finite (fadd prec emax (snd d) (snd x)) = true -> Rabs (B2R (fadd prec emax (snd d) (snd x))) <= INR (Datatypes.S j) * bpow radix2 (emax - 1 - q)) /\
      (fadd prec emax (snd d) (snd x) = minf <-> snd d = minf \/ snd x = minf)).
    { destruct L as [Fd|Ed].
      - destruct Gl as [Fx|Ex].
        + specialize (B Fd). specialize (Gb Fx). destruct (fadd_spec prec emax (snd d) (snd x) (INR (Datatypes.S j) * bpow radix2 (emax - 1 - q)) Fd Fx) as [F [V M]].
          * replace (INR (Datatypes.S j) * bpow radix2 (emax - 1 - q)) with (F2R (Float radix2 (Z.of_nat (Datatypes.S j)) (emax - 1 - q))) by (unfold F2R; cbn [Fnum Fexp]; rewrite <- INR_IZR_INZ; reflexivity).
            assert (EE : (emin <= emax - 1 - q)%Z) by (unfold SpecFloat.emin; pose proof (precmax prec emax); pose proof (prec1 prec); lia).
            assert (J2 : (Z.of_nat (Datatypes.S j) <= 2 ^ q)%Z). { apply le_IZR. rewrite <- INR_IZR_INZ. change (2 ^ q)%Z with (radix_val radix2 ^ q)%Z. rewrite (IZR_Zpower radix2 q) by lia. exact JJ. }
            assert (QP : (2 ^ q <= 2 ^ prec)%Z) by (apply Z.pow_le_mono_r; lia).
            destruct (Z.eq_dec (Z.of_nat (Datatypes.S j)) (2 ^ prec)) as [E|E].
            -- rewrite E. unfold F2R. cbn [Fnum Fexp]. change (2 ^ prec)%Z with (radix_val radix2 ^ prec)%Z. rewrite (IZR_Zpower radix2 prec) by (pose proof (prec1 prec); lia). rewrite <- bpow_plus. pose proof (prec1 prec) as P1. apply (fmt_bpow prec emax). clear -EE P1. lia.
            -- apply (generic_format_FLT radix2 emin prec). apply (FLT_spec _ _ _ _ (Float radix2 (Z.of_nat (Datatypes.S j)) (emax - 1 - q))); [reflexivity| |exact EE].
               cbn [Fnum]. rewrite Z.abs_eq by lia. apply Z.le_neq. split; [eapply Z.le_trans; [exact J2|exact QP]|exact E].
          * apply Rle_lt_trans with (bpow radix2 q * bpow radix2 (emax - 1 - q)); [apply Rmult_le_compat_r; lra|]. rewrite <- bpow_plus. apply bpow_lt. lia.
          * eapply Rle_trans; [apply Rabs_triang|]. rewrite S_INR. lra.
          * split; [left; exact F|]. split; [intros _; exact M|]. split; [intros E; rewrite E in F; discriminate|]. intros [E|E]; rewrite E in *; discriminate.
        + rewrite add_minf; [|left; exact Fd|right; exact Ex|right; exact Ex]. split; [right; reflexivity|]. split; [discriminate|]. tauto.
      - rewrite add_minf; [|right; exact Ed|exact Gl|left; exact Ed]. split; [right; reflexivity|]. split; [discriminate|]. tauto. }
    destruct X as [X1 [X2 X3]].
    destruct (IH (slog_multiply prec emax d x) (Datatypes.S j) Q (fun y Hy => G y (or_intror Hy)) J S2 X1 X2) as [I1 [I2 [I3 [I4 I5]]]].
    split; [exact I1|]. split; [exact I2|]. split; [exact I3|]. split.
    + rewrite I4. cbn [slog_multiply snd]. rewrite X3. split.
      * intros [[E|E]|[y [Hy E]]]; [left; exact E|right; exists x; split; [left; reflexivity|exact E]|right; exists y; split; [right; exact Hy|exact E]].
      * intros [E|[y [[<-|Hy] E]]]; [left; left; exact E|left; right; exact E|right; exists y; split; assumption].
    + rewrite I5. cbn [slog_multiply fst]. rewrite V2. reflexivity.
Qed.

Lemma product_spec : forall q ds, (0 <= q <= prec)%Z -> ds <> [] -> INR (length ds) <= bpow radix2 q ->
  (forall x, In x ds -> sign_number prec emax (fst x) /\ log_number prec emax (snd x) /\ (is_finite (snd x) = true -> Rabs (B2R (snd x)) <= bpow radix2 (emax - 1 - q))) ->
  exists p, slogdet_product prec emax ds = Some p /\ sign_number prec emax (fst p) /\ log_number prec emax (snd p) /\
    (is_finite (snd p) = true -> Rabs (B2R (snd p)) <= bpow radix2 (emax - 1)) /\ (snd p = minf <-> exists x, In x ds /\ snd x = minf).
Proof.
  intros q [|d r] Q NE J G; [congruence|]. destruct (G d (or_introl eq_refl)) as [A [B C]].
  destruct (fold_products q r d 1%nat Q (fun x H => G x (or_intror H)) J A B) as [P1 [P2 [P3 [P4 _]]]].
  { intros F. rewrite Rmult_1_l. apply C. exact F. }
  exists (fold_left (slog_multiply prec emax) r d). split; [reflexivity|]. split; [exact P1|]. split; [exact P2|]. split.
  - intros F. eapply Rle_trans; [apply P3; exact F|]. replace (emax - 1)%Z with (q + (emax - 1 - q))%Z at 2 by ring. rewrite bpow_plus. apply Rmult_le_compat_r; [apply bpow_ge_0|exact J].
  - rewrite P4. split; [intros [E|[x [H E]]]; [exists d; split; [left; reflexivity|exact E]|exists x; split; [right; exact H|exact E]]|].
    intros [x [[<-|H] E]]; [left; exact E|right; exists x; split; assumption].
Qed.

Lemma products_spec : forall q dets, (0 <= q <= prec)%Z ->
  (forall ds, In ds dets -> ds <> [] /\ INR (length ds) <= bpow radix2 q /\ forall x, In x ds -> sign_number prec emax (fst x) /\ log_number prec emax (snd x) /\ (is_finite (snd x) = true -> Rabs (B2R (snd x)) <= bpow radix2 (emax - 1 - q))) ->
  exists ps, products prec emax dets = Some ps /\ length ps = length dets /\
    (forall p, In p ps -> sign_number prec emax (fst p) /\ log_number prec emax (snd p) /\ (is_finite (snd p) = true -> Rabs (B2R (snd p)) <= bpow radix2 (emax - 1))) /\
    ((exists p, In p ps /\ is_finite (snd p) = true) <-> exists ds, In ds dets /\ forall x, In x ds -> is_finite (snd x) = true).
Proof.
  intros q dets Q. induction dets as [|ds dets IH]; intros G.
  - exists []. split; [reflexivity|]. split; [reflexivity|]. split; [intros p []|]. split; intros [x [[] _]].
  - destruct (G ds (or_introl eq_refl)) as [G1 [G2 G3]]. destruct (product_spec q ds Q G1 G2 G3) as [p [E [A [B [C D]]]]].
    destruct IH as [ps [E2 [Ln [A2 B2]]]]; [intros d Hd; apply G; right; exact Hd|].
    exists (p :: ps). cbn [products]. rewrite E, E2. split; [reflexivity|]. split; [cbn; rewrite Ln; reflexivity|]. split.
    + intros p' [<-|H]; [tauto|apply A2; exact H].
    + assert (PF : is_finite (snd p) = true <-> forall x, In x ds -> is_finite (snd x) = true).
      { split.
        - intros F x Hx. destruct (G3 x Hx) as [_ [[L|L] _]]; [exact L|]. assert (snd p = minf) as Z by (apply D; exists x; split; assumption). rewrite Z in F. discriminate.
        - intros F. destruct B as [B|B]; [exact B|]. apply D in B. destruct B as [x [Hx Z]]. specialize (F x Hx). rewrite Z in F. discriminate. }
      split.
      * intros [p' [[<-|H] F]]; [exists ds; split; [left; reflexivity|apply PF; exact F]|]. destruct (proj1 B2) as [d [Hd Fd]]; [exists p'; split; assumption|]. exists d. split; [right; exact Hd|exact Fd].
      * intros [d [[<-|H] F]]; [exists p; split; [left; reflexivity|apply PF; exact F]|]. destruct (proj2 B2) as [p' [Hp' Fp]]; [exists d; split; assumption|]. exists p'. split; [right; exact Hp'|exact Fp].
Qed.
End Proofs.

(** P_float2: the terms, the maximum and the result of a sum of signed logs. *)
From Coq Require Import ZArith Reals.
From Flocq Require Import Core IEEE754.BinarySingleNaN.
From Flocq Require Import Relative Plus_error.
From Coq Require Import Lia Lra List Permutation.
Import ListNotations.
From Verif Require Import M_float S_float P_float.
Open Scope R_scope.

(** Real facts. *)
Lemma exp_ge_1p x : 1 + x <= exp x.
Proof. destruct (Req_dec x 0) as [->|N]; [rewrite exp_0; lra|]. left. apply exp_ineq1. exact N. Qed.

Lemma exp_lip : forall a b c, a <= c -> b <= c -> Rabs (exp a - exp b) <= Rabs (a - b) * exp c.
Proof.
  assert (X : forall a b c, a <= b -> b <= c -> Rabs (exp a - exp b) <= Rabs (a - b) * exp c).
  { intros a b c H1 H2. rewrite (Rabs_left1 (a - b)) by lra.
    assert (exp a <= exp b) by (destruct H1 as [H1| ->]; [left; apply exp_increasing; exact H1|lra]).
    assert (exp b <= exp c) by (destruct H2 as [H2| ->]; [left; apply exp_increasing; exact H2|lra]).
    rewrite Rabs_left1 by lra. replace a with (b + (a - b)) at 1 by ring. rewrite exp_plus.
    pose proof (exp_ge_1p (a - b)) as E. pose proof (exp_pos b) as Pb.
    assert (Q : exp b * (1 + (a - b)) <= exp b * exp (a - b)) by (apply Rmult_le_compat_l; lra).
    assert (Q2 : (b - a) * exp b <= (b - a) * exp c) by (apply Rmult_le_compat_l; lra). lra. }
  intros a b c Ha Hb. destruct (Rle_or_lt a b) as [L|L]; [apply X; assumption|].
  rewrite Rabs_minus_sym, (Rabs_minus_sym a b). apply X; lra.
Qed.

Lemma x_exp_half : forall x, 0 <= x -> x * exp (- (x / 2)) <= 1.
Proof.
  intros x H. rewrite exp_Ropp. pose proof (exp_pos (x / 2)) as P.
  apply (Rmult_le_reg_r (exp (x / 2))); [exact P|]. rewrite Rmult_assoc, Rinv_l by lra.
  replace (x / 2) with (x / 4 + x / 4) by field. rewrite exp_plus. pose proof (exp_ge_1p (x / 4)) as E.
  assert ((1 + x / 4) * (1 + x / 4) <= exp (x / 4) * exp (x / 4)) by (apply Rmult_le_compat; lra).
  assert (0 <= (1 - x / 4) * (1 - x / 4)) by (apply Rle_0_sqr). lra.
Qed.

Lemma ln_lip : forall a b, 1 <= a -> 1 <= b -> Rabs (ln a - ln b) <= Rabs (a - b).
Proof.
  assert (X : forall a b, 1 <= a -> a <= b -> Rabs (ln a - ln b) <= Rabs (a - b)).
  { intros a b H1 H2. assert (ln a <= ln b) by (destruct H2 as [H2| ->]; [left; apply ln_increasing; lra|lra]).
    rewrite Rabs_left1, (Rabs_left1 (a - b)) by lra.
    assert (E : ln b - ln a = ln (b / a)) by (unfold Rdiv; rewrite ln_mult, ln_Rinv; [ring|lra|lra|apply Rinv_0_lt_compat; lra]).
    assert (P : 0 < b / a) by (apply Rdiv_lt_0_compat; lra).
    pose proof (exp_ge_1p (ln (b / a))) as Q. rewrite exp_ln in Q by exact P.
    assert (b / a - 1 <= b - a); [|lra].
    replace (b / a - 1) with ((b - a) * / a) by (field; lra). rewrite <- (Rmult_1_r (b - a)) at 2. apply Rmult_le_compat_l; [lra|].
    rewrite <- Rinv_1. apply Rinv_le_contravar; lra. }
  intros a b Ha Hb. destruct (Rle_or_lt a b) as [L|L]; [apply X; assumption|].
  rewrite Rabs_minus_sym, (Rabs_minus_sym a b). apply X; lra.
Qed.

Section Proofs.
Variables prec emax : Z.
Context {Hp : Prec_gt_0 prec}.
Context {He : Prec_lt_emax prec emax}.
Notation fl := (binary_float prec emax).
Notation ex := (SpecFloat.fexp prec emax).
Notation emin := (SpecFloat.emin prec emax).
Notation rnd := (round radix2 ex ZnearestE).
Notation u := (unit_roundoff prec).
Notation pinf := (B754_infinity (prec:=prec) (emax:=emax) false).
Notation minf := (B754_infinity (prec:=prec) (emax:=emax) true).
Local Instance ex_valid2 : Valid_exp ex := FLT_exp_valid emin prec.

Lemma u_half : u <= / 2.
Proof. unfold unit_roundoff. replace (/ 2) with (bpow radix2 (-1)) by (cbn; lra). apply bpow_le. pose proof (prec1 prec). lia. Qed.

Lemma fmt_bpow : forall e, (emin <= e)%Z -> generic_format radix2 ex (bpow radix2 e).
Proof. intros e H. apply (generic_format_FLT_bpow radix2 emin prec). exact H. Qed.

Lemma emin_le_emax1 : (emin <= emax - 2)%Z.
Proof. pose proof (prec1 prec). pose proof (precmax prec emax). unfold SpecFloat.emin. lia. Qed.

(** The difference of a log and the maximum. *)
Lemma fsub_inf : forall m : fl, is_finite m = true -> fsub prec emax minf m = minf.
Proof. intros [s|s| |s k e H] F; try discriminate; reflexivity. Qed.

Lemma sf_minf : forall x : fl, B2SF x = SpecFloat.S754_infinity true -> x = minf.
Proof. intros [s|s| |s k e H] E; cbn in E; try discriminate. injection E as ->. reflexivity. Qed.

Lemma sign_neg : forall x : fl, is_finite x = true -> Bsign x = true -> B2R x <= 0.
Proof.
  intros [s|s| |s k e H] F E; try discriminate; cbn in *; [lra|]. subst s. left. apply F2R_lt_0. cbn. reflexivity.
Qed.
Lemma sign_pos : forall x : fl, is_finite x = true -> Bsign x = false -> 0 <= B2R x.
Proof.
  intros [s|s| |s k e H] F E; try discriminate; cbn in *; [lra|]. subst s. left. apply F2R_gt_0. cbn. reflexivity.
Qed.

Lemma rnd_0 : rnd 0 = 0. Proof. apply round_0; auto with typeclass_instances. Qed.

Lemma fsub_spec : forall v m : fl, is_finite v = true -> is_finite m = true -> B2R v <= B2R m ->
  (is_finite (fsub prec emax v m) = true /\ B2R (fsub prec emax v m) = rnd (B2R v - B2R m)) \/
  (fsub prec emax v m = minf /\ bpow radix2 (emax - 1) < B2R m - B2R v).
Proof.
  intros v m Fv Fm L. pose proof (Bminus_correct prec emax Hp He mode_NE v m Fv Fm) as C. cbn [round_mode] in C.
  unfold fsub. revert C. case Rlt_bool_spec; intros B C.
  - left. destruct C as [C1 [C2 _]]. split; assumption.
  - right. destruct C as [C1 C2]. destruct (Bsign v) eqn:Sv.
    + split; [apply sf_minf; rewrite C1; reflexivity|]. apply Rnot_le_lt. intros Q.
      assert (Rabs (rnd (B2R v - B2R m)) <= bpow radix2 (emax - 1)).
      { apply (rnd_abs_le prec emax); [apply fmt_bpow; pose proof emin_le_emax1; lia|]. rewrite Rabs_left1; lra. }
      assert (bpow radix2 (emax - 1) < bpow radix2 emax) by (apply bpow_lt; lia). lra.
    + exfalso. assert (Sm : Bsign m = true) by (destruct (Bsign m); [reflexivity|discriminate]).
      pose proof (sign_pos v Fv Sv). pose proof (sign_neg m Fm Sm).
      replace (B2R v - B2R m) with 0 in B by lra. rewrite rnd_0, Rabs_R0 in B. pose proof (bpow_gt_0 radix2 emax). lra.
Qed.

Section Functions.
Variables (fe fg : fl -> fl) (epse epsl : R).
Hypothesis GE : good_exp prec emax epse fe.
Hypothesis GL : good_log prec emax epsl fg.

Lemma epse_pos : 0 <= epse.
Proof. destruct GE as [_ [_ G]]. destruct (G (B754_zero false) eq_refl) as [_ [_ [Q _]]]; [cbn; lra|]. eapply Rle_trans; [apply Rabs_pos|exact Q]. Qed.

Definition scaled (v : fl) (c : R) : R := if is_finite v then exp (B2R v - c) else 0.

Lemma expterm : forall v m : fl, is_finite m = true -> log_number prec emax v -> (is_finite v = true -> B2R v <= B2R m) ->
  is_finite (fe (fsub prec emax v m)) = true /\ 0 <= B2R (fe (fsub prec emax v m)) <= 1 /\
  Rabs (B2R (fe (fsub prec emax v m)) - scaled v (B2R m)) <= u + epse /\
  (is_finite v = true -> B2R v = B2R m -> B2R (fe (fsub prec emax v m)) = 1).
Proof.
  intros v m Fm Lv Le. pose proof epse_pos as EP. pose proof (u_pos prec) as U. pose proof u_half as UH.
  pose proof GE as [_ [[GI1 GI2] G]].
  destruct Lv as [Fv|Ev].
  - specialize (Le Fv). unfold scaled. rewrite Fv. destruct (fsub_spec v m Fv Fm Le) as [[F V]|[V B]].
    + assert (R0 : rnd (B2R v - B2R m) <= 0). { rewrite <- rnd_0. apply round_le; auto with typeclass_instances. lra. }
      rewrite <- V in R0. destruct (G _ F R0) as [G1 [G2 [G3 G4]]]. split; [exact G1|]. split; [exact G2|]. split.
      * replace (B2R (fe (fsub prec emax v m)) - exp (B2R v - B2R m)) with ((exp (B2R (fsub prec emax v m)) - exp (B2R v - B2R m)) + (B2R (fe (fsub prec emax v m)) - exp (B2R (fsub prec emax v m)))) by ring.
        eapply Rle_trans; [apply Rabs_triang|]. apply Rplus_le_compat; [|exact G3].
        pose proof (rnd_plus_err prec emax (B2R v) (- B2R m) (fmt_B2R prec emax v) (generic_format_opp _ _ _ (fmt_B2R prec emax m))) as ER.
        change (B2R v + - B2R m) with (B2R v - B2R m) in ER. rewrite <- V in ER.
        set (d := B2R v - B2R m) in *. set (r := B2R (fsub prec emax v m)) in *.
        assert (D : d <= 0) by (unfold d; lra). rewrite (Rabs_left1 d) in ER by exact D.
        assert (UX : u * - d <= / 2 * - d) by (apply Rmult_le_compat_r; lra).
        assert (RB : r <= d / 2). { pose proof (Rle_abs (r - d)). lra. }
        eapply Rle_trans; [apply (exp_lip r d (d / 2)); lra|].
        eapply Rle_trans; [apply Rmult_le_compat_r; [left; apply exp_pos|exact ER]|].
        rewrite Rmult_assoc. rewrite <- (Rmult_1_r u) at 2. apply Rmult_le_compat_l; [lra|].
        pose proof (x_exp_half (- d) ltac:(lra)) as XE. replace (- (- d / 2)) with (d / 2) in XE by field. exact XE.
      * intros _ E. apply G4. rewrite V, E, Rminus_diag_eq by reflexivity. apply rnd_0.
    + rewrite V. split; [exact GI1|]. rewrite GI2. split; [lra|]. split.
      * rewrite Rminus_0_l, Rabs_Ropp, Rabs_right by (left; apply exp_pos).
        apply Rle_trans with u; [|lra]. set (x := B2R m - B2R v) in *. replace (B2R v - B2R m) with (- x) by (unfold x; ring).
        pose proof (bpow_gt_0 radix2 (emax - 1)) as BP. rewrite exp_Ropp. apply Rle_trans with (/ bpow radix2 (emax - 1)).
        -- apply Rinv_le_contravar; [exact BP|]. pose proof (exp_ge_1p x). lra.
        -- rewrite <- bpow_opp. apply bpow_le. pose proof (precmax prec emax). lia.
      * intros _ E. rewrite E in B. pose proof (bpow_gt_0 radix2 (emax - 1)). lra.
  - subst v. unfold scaled. cbn [is_finite]. rewrite (fsub_inf m Fm). split; [exact GI1|]. rewrite GI2. split; [lra|]. split; [|discriminate].
    rewrite Rminus_0_r, Rabs_R0. lra.
Qed.

(** A sign times a number between 0 and 1 is exact. *)
Lemma sign_mul : forall s y : fl, sign_number prec emax s -> is_finite y = true -> Rabs (B2R y) <= 1 ->
  is_finite (fmul prec emax s y) = true /\ B2R (fmul prec emax s y) = B2R s * B2R y.
Proof.
  intros s y [Fs Ss] Fy By. pose proof (Bmult_correct prec emax Hp He mode_NE s y) as C. cbn [round_mode] in C.
  assert (E : rnd (B2R s * B2R y) = B2R s * B2R y).
  { apply round_generic; auto with typeclass_instances. destruct Ss as [E|[E|E]]; rewrite E.
    - rewrite Rmult_1_l. apply fmt_B2R.
    - replace (-1 * B2R y) with (- B2R y) by ring. apply generic_format_opp, fmt_B2R.
    - rewrite Rmult_0_l. apply generic_format_0. }
  rewrite E in C. rewrite Rlt_bool_true in C.
  - destruct C as [C1 [C2 _]]. unfold fmul. rewrite C2, Fs, Fy. split; [reflexivity|exact C1].
  - rewrite Rabs_mult. apply Rle_lt_trans with 1.
    + rewrite <- (Rmult_1_r 1) at 1. apply Rmult_le_compat; try apply Rabs_pos; [|exact By].
      destruct Ss as [A|[A|A]]; rewrite A; [rewrite Rabs_R1|rewrite Rabs_left by lra|rewrite Rabs_R0]; lra.
    + change 1 with (bpow radix2 0). apply bpow_lt. pose proof (prec1 prec). pose proof (precmax prec emax). lia.
Qed.

Lemma term_spec : forall (m : fl) (x : fl * fl), is_finite m = true -> sign_number prec emax (fst x) -> log_number prec emax (snd x) ->
  (is_finite (snd x) = true -> B2R (snd x) <= B2R m) ->
  is_finite (scaled_term prec emax fe m x) = true /\ Rabs (B2R (scaled_term prec emax fe m x)) <= 1 /\
  Rabs (B2R (scaled_term prec emax fe m x) - amount prec emax (B2R m) x) <= u + epse /\
  (B2R (scaled_term prec emax fe m x) = B2R (fst x) * B2R (fe (fsub prec emax (snd x) m))) /\
  0 <= B2R (fe (fsub prec emax (snd x) m)).
Proof.
  intros m [s v] Fm Ss Lv Le. cbn [fst snd] in *. destruct (expterm v m Fm Lv Le) as [F [B [E _]]].
  unfold scaled_term. cbn [fst snd]. destruct (sign_mul s _ Ss F ltac:(rewrite Rabs_right; lra)) as [F2 V].
  assert (SB : Rabs (B2R s) <= 1). { destruct Ss as [_ [A|[A|A]]]; rewrite A; [rewrite Rabs_R1|rewrite Rabs_left by lra|rewrite Rabs_R0]; lra. }
  split; [exact F2|]. rewrite V. repeat split.
  - rewrite Rabs_mult. rewrite <- (Rmult_1_r 1). apply Rmult_le_compat; try apply Rabs_pos; [exact SB|rewrite Rabs_right; lra].
  - assert (A : amount prec emax (B2R m) (s, v) = B2R s * scaled v (B2R m)) by (unfold amount, scaled; cbn [fst snd]; destruct (is_finite v); ring).
    rewrite A, <- Rmult_minus_distr_l, Rabs_mult. rewrite <- (Rmult_1_l (u + epse)). apply Rmult_le_compat; try apply Rabs_pos; assumption.
  - lra.
Qed.

(** The maximum. *)
Lemma fmax_log : forall x y : fl, log_number prec emax x -> log_number prec emax y ->
  (fmax prec emax x y = x \/ fmax prec emax x y = y) /\
  (is_finite x = true -> is_finite (fmax prec emax x y) = true /\ B2R x <= B2R (fmax prec emax x y)) /\
  (is_finite y = true -> is_finite (fmax prec emax x y) = true /\ B2R y <= B2R (fmax prec emax x y)).
Proof.
  intros x y [Fx|Ex] [Fy|Ey].
  - unfold fmax. assert (is_nan x = false) as -> by (destruct x; try reflexivity; discriminate). assert (is_nan y = false) as -> by (destruct y; try reflexivity; discriminate).
    rewrite (Bleb_correct prec emax x y Fx Fy). case Rle_bool_spec; intros H; (split; [tauto|]); split; intros _; split; try assumption; lra.
  - subst y. unfold fmax. cbn [is_nan]. destruct x as [s|s| |s k e H]; try discriminate; cbn; (split; [tauto|]); split; intros; try discriminate; split; try reflexivity; lra.
  - subst x. unfold fmax. cbn [is_nan]. destruct y as [s|s| |s k e H]; try discriminate; cbn; (split; [tauto|]); split; intros; try discriminate; split; try reflexivity; lra.
  - subst. unfold fmax. cbn. split; [tauto|]. split; discriminate.
Qed.

Lemma maximum_spec : forall l, (forall v, In v l -> log_number prec emax v) ->
  log_number prec emax (fold_right (fmax prec emax) minf l) /\
  (In (fold_right (fmax prec emax) minf l) l \/ fold_right (fmax prec emax) minf l = minf) /\
  (forall v, In v l -> is_finite v = true -> is_finite (fold_right (fmax prec emax) minf l) = true /\ B2R v <= B2R (fold_right (fmax prec emax) minf l)).
Proof.
  induction l as [|x l IH]; intros L.
  - cbn. split; [right; reflexivity|]. split; [right; reflexivity|]. intros v [].
  - destruct IH as [L1 [I1 B1]]; [intros v H; apply L; right; exact H|]. cbn [fold_right].
    set (m := fold_right (fmax prec emax) minf l) in *. destruct (fmax_log x m (L x (or_introl eq_refl)) L1) as [C [X M]].
    split; [destruct C as [->| ->]; [apply L; left; reflexivity|exact L1]|]. split.
    + destruct C as [->| ->]; [left; left; reflexivity|]. destruct I1 as [I1|I1]; [left; right; exact I1|right; exact I1].
    + intros v [<-|H] F; [apply X; exact F|]. destruct (B1 v H F) as [Fm Bm]. destruct (M Fm) as [F2 B2]. split; [exact F2|lra].
Qed.

Lemma fmaximum_spec : forall xs : list (fl * fl), (forall x, In x xs -> log_number prec emax (snd x)) ->
  (exists x, In x xs /\ is_finite (snd x) = true) ->
  exists m, fmaximum prec emax (map snd xs) = Some m /\ is_finite m = true /\ largest prec emax xs (B2R m).
Proof.
  intros xs L [x [Ix Fx]]. destruct (maximum_spec (map snd xs)) as [_ [I1 B1]].
  { intros v H. apply in_map_iff in H. destruct H as [y [<- Hy]]. apply L. exact Hy. }
  destruct (B1 (snd x) (in_map snd _ _ Ix) Fx) as [Fm _].
  exists (fold_right (fmax prec emax) minf (map snd xs)). split; [destruct xs; [destruct Ix|reflexivity]|]. split; [exact Fm|]. split.
  - destruct I1 as [I1|I1]; [|rewrite I1 in Fm; discriminate]. apply in_map_iff in I1. destruct I1 as [y [E Hy]]. exists y. rewrite E. split; [exact Hy|]. split; [exact Fm|reflexivity].
  - intros y Hy Fy. apply B1; [apply in_map; exact Hy|exact Fy].
Qed.

(** The sum of the terms. *)
Lemma terms_err : forall (m : fl) xs, is_finite m = true ->
  (forall x, In x xs -> sign_number prec emax (fst x) /\ log_number prec emax (snd x)) ->
  (forall x, In x xs -> is_finite (snd x) = true -> B2R (snd x) <= B2R m) ->
  Rabs (rsum prec emax (map (scaled_term prec emax fe m) xs) - total prec emax (B2R m) xs) <= INR (length xs) * (u + epse).
Proof.
  intros m xs Fm G Le. unfold rsum, total. induction xs as [|x xs IH].
  - cbn. rewrite Rminus_0_r, Rabs_R0. lra.
  - cbn [map fold_right length]. rewrite S_INR.
    destruct (G x (or_introl eq_refl)) as [Gs Gl]. destruct (term_spec m x Fm Gs Gl (Le x (or_introl eq_refl))) as [_ [_ [E _]]].
    specialize (IH (fun y Hy => G y (or_intror Hy)) (fun y Hy => Le y (or_intror Hy))).
    match goal with |- Rabs (?a + ?b - (?c + ?d)) <= _ => replace (a + b - (c + d)) with ((a - c) + (b - d)) by ring end.
    eapply Rle_trans; [apply Rabs_triang|]. lra.
Qed.

Lemma fsign_spec : forall s : fl, is_finite s = true -> sign_number prec emax (fsign prec emax s) /\
  (B2R s > 0 -> B2R (fsign prec emax s) = 1) /\ (B2R s < 0 -> B2R (fsign prec emax s) = -1) /\ (B2R s = 0 <-> B2R (fsign prec emax s) = 0).
Proof.
  assert (O : is_finite (fone prec emax) = true /\ B2R (fone prec emax) = 1).
  { unfold fone. split; [|apply Bone_correct]. apply is_finite_Bone. }
  assert (O2 : is_finite (Bopp (fone prec emax)) = true /\ B2R (Bopp (fone prec emax)) = -1).
  { rewrite is_finite_Bopp, B2R_Bopp. destruct O as [O1 O3]. rewrite O3. split; [exact O1|ring]. }
  intros [s|s| |s k e H] F; try discriminate.
  - cbn. split; [split; [reflexivity|right; right; reflexivity]|]. repeat split; intros; lra.
  - cbn [fsign]. destruct s.
    + assert (N : B2R (B754_finite true k e H) < 0) by (cbn; apply F2R_lt_0; reflexivity). destruct O2 as [A B]. split; [split; [exact A|right; left; exact B]|]. rewrite B. repeat split; intros; lra.
    + assert (N : 0 < B2R (B754_finite false k e H)) by (cbn; apply F2R_gt_0; reflexivity). destruct O as [A B]. split; [split; [exact A|left; exact B]|]. rewrite B. repeat split; intros; lra.
Qed.

Lemma abs_zero : forall s : fl, is_finite s = true -> B2R s = 0 -> exists b, Babs s = B754_zero b.
Proof.
  intros [s|s| |s k e H] F Z; try discriminate; [exists false; reflexivity|]. exfalso. cbn in Z. apply eq_0_F2R in Z. destruct s; discriminate Z.
Qed.

(** log|s| + max. *)
Lemma log_spec : forall (s m : fl), roomy prec emax -> is_finite s = true -> is_finite m = true -> Rabs (B2R m) <= bpow radix2 (emax - 1) ->
  (B2R s = 0 -> fadd prec emax (fg (Babs s)) m = minf) /\
  (B2R s <> 0 -> is_finite (fadd prec emax (fg (Babs s)) m) = true /\
                 B2R (fadd prec emax (fg (Babs s)) m) = rnd (B2R (fg (Babs s)) + B2R m) /\
                 Rabs (B2R (fg (Babs s))) <= IZR (emax + prec)).
Proof.
  intros s m [R1 R2] Fs Fm Bm. destruct GL as [_ [G0 G]]. split; intros Z.
  - destruct (abs_zero s Fs Z) as [b ->]. rewrite G0. destruct m as [t|t| |t k e H]; try discriminate; reflexivity.
  - destruct (G (Babs s)) as [F [B _]].
    + rewrite is_finite_Babs. exact Fs.
    + rewrite B2R_Babs. apply Rabs_pos_lt. exact Z.
    + set (M := F2R (Float radix2 3 (emax - 2))).
      assert (MV : M = bpow radix2 (emax - 1) + bpow radix2 (emax - 2)).
      { unfold M, F2R. cbn [Fnum Fexp]. replace (emax - 1)%Z with (1 + (emax - 2))%Z by ring. rewrite bpow_plus. replace (bpow radix2 1) with 2 by (cbn; lra). ring. }
      destruct (fadd_spec prec emax (fg (Babs s)) m M F Fm) as [A1 [A2 _]].
      * apply (generic_format_FLT radix2 emin prec). apply (FLT_spec _ _ _ _ (Float radix2 3 (emax - 2))); [reflexivity| |].
        -- cbn [Fnum]. change (Z.abs 3) with 3%Z. apply Z.lt_le_trans with (radix2 ^ 2)%Z; [reflexivity|]. apply Z.pow_le_mono_r; [reflexivity|exact R1].
        -- cbn [Fexp]. apply emin_le_emax1.
      * rewrite MV. assert (E1 : bpow radix2 (emax - 1) = 2 * bpow radix2 (emax - 2)).
        { replace (emax - 1)%Z with (1 + (emax - 2))%Z by ring. rewrite bpow_plus. f_equal. }
        assert (E2 : bpow radix2 emax = 2 * bpow radix2 (emax - 1)).
        { replace emax with (1 + (emax - 1))%Z at 1 by ring. rewrite bpow_plus. f_equal. }
        pose proof (bpow_gt_0 radix2 (emax - 2)). lra.
      * rewrite MV. eapply Rle_trans; [apply Rabs_triang|]. lra.
      * repeat split; assumption.
Qed.
End Functions.
End Proofs.

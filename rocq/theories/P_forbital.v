(** P_forbital: exponential envelopes and orbitals in floating-point arithmetic. *)
From Coq Require Import ZArith Reals.
From Flocq Require Import Core IEEE754.BinarySingleNaN Relative.
From Coq Require Import Lia Lra List Permutation Bool Arith.
Import ListNotations.
From Verif Require Import M_float S_float P_float P_float2 P_float3 P_float4 M_fwalk S_fwalk P_fwalk P_fwalk2 M_fenergy S_fenergy P_fenergy P_fenergy3 M_fpotential S_fpotential P_fpotential P_foptax2 S_fdense M_forbital S_forbital.
Open Scope R_scope.

Lemma half_decay b : 0 <= b -> b * exp (- (b / 2)) <= 1.
Proof.
  intros H. pose proof (exp_ge_1p (b / 4)) as E. assert (Q : b <= exp (b / 2)). { replace (b / 2) with (b / 4 + b / 4) by field. rewrite exp_plus. assert (X : (1 + b / 4) * (1 + b / 4) <= exp (b / 4) * exp (b / 4)) by (apply Rmult_le_compat; lra). pose proof (pow2_ge_0 (1 - b / 4)). lra. }
  rewrite exp_Ropp. pose proof (exp_pos (b / 2)) as P. apply (Rmult_le_reg_r (exp (b / 2))); [exact P|]. rewrite Rmult_assoc, Rinv_l by lra. lra.
Qed.
Lemma exp_gap m M : m <= M -> 0 <= exp (- m) - exp (- M) <= exp (- m) * (M - m).
Proof.
  intros H. replace (exp (- M)) with (exp (- m) * exp (- (M - m))) by (rewrite <- exp_plus; f_equal; ring). pose proof (exp_pos (- m)) as P. pose proof (exp_ge_1p (- (M - m))) as E.
  assert (exp (- (M - m)) <= 1) by (rewrite <- exp_0; destruct H as [H| ->]; [left; apply exp_increasing; lra|replace (- (M - M)) with 0 by ring; lra]). split; nra.
Qed.
Lemma exp_close a b d : 0 <= d -> 0 <= b -> b <= 2 * a -> Rabs (a - b) <= d * b -> Rabs (exp (- a) - exp (- b)) <= d.
Proof.
  intros D B H E. pose proof (half_decay b B) as HD. pose proof (exp_pos (- (b / 2))) as P. pose proof (Rabs_pos (a - b)) as AP.
  assert (G : forall m, b / 2 <= m -> exp (- m) * (d * b) <= d).
  { intros m Hm. assert (exp (- m) <= exp (- (b / 2))) by (destruct Hm as [Hm| <-]; [left; apply exp_increasing; lra|lra]).
    apply Rle_trans with (exp (- (b / 2)) * (d * b)); [apply Rmult_le_compat_r; lra|]. nra. }
  destruct (Rle_or_lt a b) as [L|L].
  - pose proof (exp_gap a b L) as [G1 G2]. rewrite Rabs_pos_eq by exact G1. rewrite Rabs_left1 in E by lra. pose proof (exp_pos (- a)). apply Rle_trans with (exp (- a) * (d * b)); [nra|apply G; lra].
  - assert (L' : b <= a) by lra. pose proof (exp_gap b a L') as [G1 G2]. rewrite Rabs_left1 by lra. rewrite Rabs_pos_eq in E by lra. pose proof (exp_pos (- b)). apply Rle_trans with (exp (- b) * (d * b)); [nra|apply G; lra].
Qed.

Section Proofs.
Variables prec emax : Z.
Context {Hp : Prec_gt_0 prec}.
Context {He : Prec_lt_emax prec emax}.
Notation fl := (binary_float prec emax).
Notation ex := (SpecFloat.fexp prec emax).
Notation emin := (SpecFloat.emin prec emax).
Notation rnd := (round radix2 ex ZnearestE).
Notation u := (unit_roundoff prec).
Notation fadd := (fadd prec emax). Notation fsub := (fsub prec emax). Notation fmul := (fmul prec emax). Notation fzero := (fzero prec emax).
Notation tiny := (tiny emax).
Notation near := (near u). Notation g := (g u).
Notation is_weight := (is_weight prec emax).
Local Instance ex_valid18 : Valid_exp ex := FLT_exp_valid emin prec.
Variables (fe : fl -> fl) (fs : list fl -> fl) (epse : R).
Hypothesis GE : good_exp prec emax epse fe.
Hypothesis GS : forall l, is_sum prec emax l (fs l).
Notation norm := (norm prec emax fs). Notation softened := (softened prec emax). Notation decay := (decay prec emax fe fs). Notation envelope := (envelope prec emax fe fs).
Notation vlength := (vlength prec emax). Notation width_like := (width_like prec emax).

Lemma sub_zero (c : fl) : fsub c fzero = c. Proof. destruct c as [[]|[]| |s m e H]; reflexivity. Qed.
Lemma add_zero (c : fl) : B754_zero true <> c -> fadd c fzero = c. Proof. intros H. destruct c as [[]|[]| |s m e Q]; try reflexivity. congruence. Qed.
Lemma add_zero_R (c : fl) : B2R (fadd c fzero) = B2R c /\ is_finite (fadd c fzero) = is_finite c. Proof. destruct c as [[]|[]| |s m e Q]; split; reflexivity. Qed.
Lemma wl_square (c : fl) : is_nan c = false -> width_like (fmul c c).
Proof. intros N. apply wl_nn. split; [apply nn_square|]. destruct c as [s|s| |s m e H]; try discriminate.
  pose proof (Bmult_correct prec emax Hp He mode_NE (B754_finite s m e H) (B754_finite s m e H)) as C. cbn [round_mode] in C. unfold M_float.fmul. intros E. rewrite E in C. destruct (Rlt_bool _ _) in C; [destruct C as [_ [C _]]; discriminate C|].
  unfold BinarySingleNaN.binary_overflow in C. rewrite xorb_nilpotent in C. discriminate C. Qed.
Lemma wl_sqrt (x : fl) : width_like x -> width_like (Bsqrt mode_NE x) /\ (is_finite x = true -> is_finite (Bsqrt mode_NE x) = true /\ B2R (Bsqrt mode_NE x) = rnd (sqrt (B2R x))).
Proof.
  intros H. pose proof (Bsqrt_correct prec emax Hp He mode_NE x) as [C1 [C2 _]]. cbn [round_mode] in C1. destruct H as [-> |[F N]]; [split; [left; reflexivity|discriminate]|].
  assert (FF : is_finite (Bsqrt mode_NE x) = true). { rewrite C2. destruct x as [s|s| |[] m e Q]; try discriminate; try reflexivity. exfalso. cbn in N. assert (F2R (Float radix2 (Zneg m) e) < 0) by (apply F2R_lt_0; reflexivity). cbn in *. lra. }
  split; [|intros _; split; assumption]. right. split; [exact FF|]. rewrite C1. apply (P_fpotential.rnd_ge0 prec emax). apply sqrt_pos.
Qed.
Lemma wl_not_nan' (x : fl) : width_like x -> is_nan x = false. Proof. intros [-> |[F _]]; [reflexivity|destruct x; try discriminate; reflexivity]. Qed.
Lemma scaled_not_nan (c k : fl) : is_finite c = true -> is_finite k = true -> is_nan (fmul c k) = false.
Proof.
  intros Fc Fk. pose proof (Bmult_correct prec emax Hp He mode_NE c k) as C. cbn [round_mode] in C. unfold M_float.fmul. destruct (Rlt_bool _ _) in C.
  - destruct C as [_ [C _]]. rewrite Fc, Fk in C. destruct (Bmult mode_NE c k); try discriminate C; reflexivity.
  - unfold BinarySingleNaN.binary_overflow in C. cbn in C. destruct (Bmult mode_NE c k); try reflexivity; discriminate C.
Qed.
Lemma norm_wl v : (forall c, In c v -> is_nan c = false) -> width_like (norm v).
Proof using GS.
  intros H. apply wl_sqrt. apply (sum_closed prec emax width_like (map (fun c => fmul c c) v)); [apply wl_add|right; split; [reflexivity|cbn; lra]|apply GS|].
  intros x Hx. apply in_map_iff in Hx. destruct Hx as (c & <- & Hc). apply wl_square, H, Hc.
Qed.
Lemma softened_wl d : width_like d -> width_like (softened fzero d).
Proof. intros H. unfold M_forbital.softened. rewrite sub_zero. apply wl_sqrt. apply wl_add; [apply wl_square, wl_not_nan', H|right; split; [reflexivity|cbn; lra]]. Qed.
Lemma exp_wl x : width_like x -> is_finite (fe (Bopp x)) = true /\ 0 <= B2R (fe (Bopp x)) <= 1 /\ (is_finite x = true -> Rabs (B2R (fe (Bopp x)) - exp (- B2R x)) <= epse).
Proof using GE.
  destruct GE as [_ [[I1 I2] G]]. intros [-> |[F N]].
  - change (Bopp (B754_infinity false)) with (B754_infinity (prec:=prec) (emax:=emax) true). split; [exact I1|]. rewrite I2. split; [lra|discriminate].
  - destruct (G (Bopp x)) as [A [B [C _]]]; [rewrite is_finite_Bopp; exact F|rewrite B2R_Bopp; lra|]. rewrite B2R_Bopp in C. tauto.
Qed.

Section Weights.
Variable q : Z.
Hypothesis Q : (0 <= q)%Z.
Hypothesis QP : (q + prec < emax)%Z.
Lemma decay_spec v w r e : width_like (softened fzero (norm v)) -> is_weight q w -> let t := decay fzero (v, w) in
  is_finite t = true /\ Rabs (B2R t) <= bpow radix2 q /\
  (Rabs (B2R (fe (Bopp (softened fzero (norm v)))) - r) <= e -> Rabs (B2R t - B2R w * r) <= bpow radix2 q * (2 * u + e)).
Proof using GE Q QP.
  intros WL [Fw W] t. destruct (exp_wl _ WL) as [A [B _]]. unfold t, M_forbital.decay. cbn [fst snd]. set (y := fe (Bopp (softened fzero (norm v)))) in *.
  pose proof (uu prec) as UU. pose proof (bpow_gt_0 radix2 q) as BQ. pose proof (prec1 prec) as P1. assert (Q1 : 1 <= bpow radix2 q) by (change 1 with (bpow radix2 0); apply bpow_le; exact Q).
  assert (YW : Rabs (B2R y * B2R w) <= bpow radix2 q). { rewrite Rabs_mult, (Rabs_pos_eq (B2R y)) by lra. rewrite <- (Rmult_1_l (bpow radix2 q)). apply Rmult_le_compat; try apply Rabs_pos; lra. }
  assert (LT : bpow radix2 q <= bpow radix2 (emax - 1)) by (apply bpow_le; lia). destruct (mul_fin prec emax y w A Fw) as [F V]; [lra|]. split; [exact F|].
  split; [rewrite V; apply (rnd_abs_le prec emax); [apply (fmt0 prec emax); exact Q|exact YW]|]. intros E1.
  pose proof (any_rnd_err prec emax (B2R y * B2R w)) as E. rewrite <- V in E. pose proof (tiny_pos emax) as TP. pose proof (precmax prec emax) as PM.
  assert (T1 : tiny <= 1) by (unfold P_fpotential.tiny; change 1 with (bpow radix2 0); apply bpow_le; lia).
  replace (B2R (fmul y w) - B2R w * r) with ((B2R (fmul y w) - B2R y * B2R w) + B2R w * (B2R y - r)) by ring.
  eapply Rle_trans; [apply Rabs_triang|]. assert (E2 : Rabs (B2R w * (B2R y - r)) <= bpow radix2 q * e) by (rewrite Rabs_mult; apply Rmult_le_compat; try apply Rabs_pos; assumption).
  assert (u * Rabs (B2R y * B2R w) <= u * bpow radix2 q) by (apply Rmult_le_compat_l; lra). assert (u * tiny <= u * bpow radix2 q) by (apply Rmult_le_compat_l; lra). lra.
Qed.
Lemma envelope_bounded vs ws : (forall v c, In v vs -> In c v -> is_nan c = false) -> (forall w, In w ws -> is_weight q w) -> length ws = length vs -> INR (length vs) <= bpow radix2 prec ->
  is_finite (envelope fzero vs ws) = true /\ Rabs (B2R (envelope fzero vs ws)) <= INR (length vs) * bpow radix2 q.
Proof using GE GS Q QP.
  intros V W L N. unfold M_forbital.envelope. set (ts := map _ _). assert (LT : length ts = length vs) by (unfold ts; rewrite map_length, combine_length; lia).
  destruct (sum_scaled prec emax q Q QP ts _ (GS ts)) as [A [B _]]; [|rewrite LT; exact N|rewrite LT in B; split; assumption].
  intros t Ht. apply in_map_iff in Ht. destruct Ht as ([v w] & <- & I). pose proof (in_combine_l _ _ _ _ I) as Iv. pose proof (in_combine_r _ _ _ _ I) as Iw.
  destruct (decay_spec v w 0 0 (softened_wl _ (norm_wl v (fun c Hc => V v c Iv Hc))) (W w Iw)) as [F [B _]]. split; assumption.
Qed.

(** The computed distance. *)
Lemma zero_dist v : (forall c, In c v -> is_finite c = true) -> squared_length prec emax v = 0 -> is_finite (softened fzero (norm v)) = true /\ B2R (softened fzero (norm v)) = 0.
Proof using GS.
  intros F Z. assert (C0 : forall c, In c v -> B2R c = 0).
  { unfold squared_length in Z. clear F. induction v as [|a v IH]; [intros c []|]. cbn [map] in Z. change (total (?a :: ?l)) with (a + total l) in Z. assert (P : 0 <= total (map (fun c => B2R c ^ 2) v)) by (apply total_nonneg; intros; apply pow2_ge_0).
    pose proof (pow2_ge_0 (B2R a)). intros c [<-|Hc]; [nra|apply IH; [lra|exact Hc]]. }
  assert (ZERO : forall x : fl, is_finite x = true -> B2R x = 0 -> exists s, x = B754_zero s).
  { intros x Fx X. destruct x as [s|s| |s m e H]; try discriminate; [exists s; reflexivity|]. exfalso. cbn in X. apply eq_0_F2R in X. destruct s; discriminate. }
  assert (N0 : norm v = fzero \/ norm v = B754_zero true).
  { unfold M_forbital.norm. destruct (sum_closed prec emax (fun x : fl => exists s, x = B754_zero s) (map (fun c => fmul c c) v) (fs (map (fun c => fmul c c) v))) as [s E].
    - intros x y [s ->] [s' ->]. destruct s, s'; eexists; reflexivity.
    - eexists; reflexivity.
    - apply GS.
    - intros x Hx. apply in_map_iff in Hx. destruct Hx as (c & <- & Hc). destruct (ZERO c (F c Hc) (C0 c Hc)) as [s ->]. destruct s; eexists; reflexivity.
    - rewrite E. destruct s; [right|left]; reflexivity. }
  destruct N0 as [-> | ->]; split; reflexivity.
Qed.

Lemma dist_near D v : is_position prec emax D v -> INR (length v + 1) * bpow radix2 (5 - emax) <= squared_length prec emax v <= bpow radix2 (emax - 3) -> INR (D + 8) * u <= / 2 ->
  is_finite (softened fzero (norm v)) = true /\ near (D + 8) (vlength v) (B2R (softened fzero (norm v))).
Proof using GS.
  intros [LV FV] R1 DU. pose proof (uu prec) as U. set (z := repeat fzero D).
  assert (DISP : displacement prec emax v z = v). { unfold z. rewrite <- LV. clear. induction v as [|a v IH]; [reflexivity|]. cbn. unfold displacement in IH. rewrite IH, sub_zero. reflexivity. }
  assert (SQ : squared_distance prec emax fzero v z = squared_length prec emax v).
  { unfold squared_distance, squared_length. change (B2R fzero) with 0. rewrite pow_ne_zero, Rplus_0_r by lia. unfold z. rewrite <- LV. clear. induction v as [|a v IH]; [reflexivity|]. cbn. f_equal; [rewrite Rminus_0_r; reflexivity|exact IH]. }
  assert (DI : distance prec emax fzero v z = vlength v) by (unfold distance, S_forbital.vlength; rewrite SQ; reflexivity).
  assert (DU6 : INR (D + 6) * u <= / 2). { eapply Rle_trans; [|exact DU]. apply Rmult_le_compat_r; [lra|]. apply le_INR. lia. }
  destruct (norm_near prec emax fs GS D fzero v z) as [F [N [B1 B2]]]; [split; assumption|split; [apply repeat_length|intros c Hc; apply repeat_spec in Hc; subst c; reflexivity]|reflexivity|unfold apart; rewrite SQ; exact R1|exact DU6|].
  rewrite DISP, DI in *. pose proof (tiny_pos emax) as TP.
  assert (EN : soft_norm prec emax fs fzero v = norm v).
  { unfold soft_norm, M_forbital.norm in *. change (fmul fzero fzero) with fzero in *. set (t := fs _) in *. rewrite add_zero; [reflexivity|]. intros E. rewrite <- E in B1. cbn in B1. lra. }
  rewrite EN in *. set (d := norm v) in *. set (L := vlength v) in *. assert (L0 : 0 <= L) by (apply sqrt_pos).
  assert (G2 : g ^ (D + 6) <= 2) by (apply g_two; assumption).
  assert (LL : L * L = squared_length prec emax v) by (apply sqrt_sqrt; apply total_nonneg; intros; apply pow2_ge_0).
  destruct N as [_ [D0 [N3 N4]]]. assert (LD : L <= 2 * B2R d) by nra. assert (DL : B2R d <= 2 * L) by nra.
  assert (T8 : bpow radix2 (5 - emax) = 8 * tiny) by (unfold P_fpotential.tiny; replace (5 - emax)%Z with (3 + (2 - emax))%Z by lia; rewrite bpow_plus; cbn; lra).
  assert (TOP : bpow radix2 (emax - 1) = 4 * bpow radix2 (emax - 3)) by (replace (emax - 1)%Z with (2 + (emax - 3))%Z by lia; rewrite bpow_plus; cbn; lra).
  assert (DD1 : tiny <= B2R d * B2R d). { rewrite T8 in R1. rewrite plus_INR in R1. change (INR 1) with 1 in R1. pose proof (pos_INR (length v)). nra. }
  assert (DD2 : B2R d * B2R d <= bpow radix2 (emax - 1)) by (rewrite TOP; nra).
  destruct (mul_fin prec emax d d F F) as [F2 V2]; [rewrite Rabs_pos_eq; [exact DD2|lra]|].
  pose proof (rnd_rel prec emax _ DD1) as NR. rewrite <- V2 in NR. destruct (add_zero_R (fmul d d)) as [A1 A2].
  unfold M_forbital.softened. change (fmul fzero fzero) with fzero. rewrite sub_zero. set (x := fadd (fmul d d) fzero) in *. rewrite <- A1 in NR. rewrite F2 in A2.
  destruct (wl_sqrt x) as [_ W]; [right; split; [exact A2|apply NR]|]. destruct (W A2) as [F3 V3]. split; [exact F3|]. rewrite V3.
  assert (TX : tiny <= B2R x). { rewrite A1, V2. apply (round_ge_generic radix2 ex ZnearestE); [|exact DD1]. rewrite <- (tiny_normal prec emax). apply (top_fmt prec emax). pose proof (prec1 prec). lia. }
  assert (T1 : tiny <= 1). { unfold P_fpotential.tiny. change 1 with (bpow radix2 0). apply bpow_le. pose proof (prec1 prec). pose proof (precmax prec emax). lia. }
  assert (TS : tiny <= sqrt (B2R x)). { assert (X : sqrt (tiny * tiny) <= sqrt (B2R x)) by (apply sqrt_le_1_alt; nra). rewrite sqrt_square in X by lra. exact X. }
  pose proof (near_sqrt u U 1 _ _ NR) as NS. rewrite sqrt_square in NS by exact D0.
  replace (D + 8)%nat with (D + 6 + 1 + 1)%nat by lia. apply (near_trans u U) with (y := sqrt (B2R x)); [|apply (rnd_rel prec emax); exact TS]. apply (near_trans u U) with (y := B2R d); [repeat split; assumption|exact NS].
Qed.
Lemma dist_ok D v : is_position prec emax D v -> measurable prec emax v -> INR (D + 8) * u <= / 4 ->
  is_finite (softened fzero (norm v)) = true /\ vlength v <= 2 * B2R (softened fzero (norm v)) /\ Rabs (B2R (softened fzero (norm v)) - vlength v) <= 2 * INR (D + 8) * u * vlength v.
Proof using GS.
  intros P M DU. pose proof (uu prec) as U. assert (DU2 : INR (D + 8) * u <= / 2) by lra. destruct M as [Z|R1].
  - destruct (zero_dist v (proj2 P) Z) as [F V]. split; [exact F|]. unfold S_forbital.vlength. rewrite V, Z, sqrt_0. replace (0 - 0) with 0 by ring. rewrite Rabs_R0. lra.
  - destruct (dist_near D v P R1 DU2) as [F N]. split; [exact F|]. split; [|apply (near_err u U); assumption]. destruct N as [_ [A [B _]]]. pose proof (g_two u U _ DU2). nra.
Qed.

Lemma terms_near D vs : (forall v, In v vs -> is_position prec emax D v /\ measurable prec emax v) -> INR (D + 8) * u <= / 4 -> forall ws, length ws = length vs -> (forall w, In w ws -> is_weight q w) ->
  let ts := map (decay fzero) (combine vs ws) in
  Rabs (rsum prec emax ts - exact_envelope prec emax vs ws) <= INR (length vs) * (bpow radix2 q * (INR (2 * D + 18) * u + epse)).
Proof using GE GS Q QP.
  intros OK DU. pose proof (uu prec) as U. induction vs as [|v vs IH]; intros [|w ws] L W ts; try discriminate L.
  - cbn. rewrite Rminus_0_r, Rabs_R0. lra.
  - specialize (IH (fun y H => OK y (or_intror H)) ws ltac:(cbn in L; lia) (fun x H => W x (or_intror H))). cbv zeta in IH. destruct (OK v (or_introl eq_refl)) as [P M]. destruct (dist_ok D v P M DU) as [F [A B]].
    assert (WL : width_like (softened fzero (norm v))). { right. split; [exact F|]. assert (0 <= vlength v) by apply sqrt_pos. lra. }
    destruct (exp_wl _ WL) as [_ [_ E]]. specialize (E F). assert (D0 : 0 <= 2 * INR (D + 8) * u) by (pose proof (pos_INR (D + 8)); nra).
    pose proof (exp_close _ _ _ D0 (sqrt_pos _) A B) as C. destruct (decay_spec v w (exp (- vlength v)) (epse + 2 * INR (D + 8) * u) WL (W w (or_introl eq_refl))) as [_ [_ T]].
    assert (T' : Rabs (B2R (decay fzero (v, w)) - B2R w * exp (- vlength v)) <= bpow radix2 q * (INR (2 * D + 18) * u + epse)).
    { eapply Rle_trans; [apply T|].
      - match goal with |- Rabs (?a - ?c) <= _ => replace (a - c) with ((a - exp (- B2R (softened fzero (norm v)))) + (exp (- B2R (softened fzero (norm v))) - c)) by ring end. eapply Rle_trans; [apply Rabs_triang|]. apply Rplus_le_compat; [exact E|exact C].
      - apply Rmult_le_compat_l; [left; apply bpow_gt_0|]. rewrite !plus_INR, mult_INR. cbn [INR]. lra. }
    unfold ts, exact_envelope in *. cbn [combine map length]. unfold rsum in *. cbn [map fold_right]. change (total (?a :: ?l)) with (a + total l). rewrite S_INR. cbn [fst snd].
    match goal with |- Rabs (?a + ?b - (?c + ?d)) <= _ => replace (a + b - (c + d)) with ((a - c) + (b - d)) by ring end. eapply Rle_trans; [apply Rabs_triang|]. lra.
Qed.
Lemma envelope_near D vs ws : (forall v, In v vs -> is_position prec emax D v /\ measurable prec emax v) -> INR (D + 8) * u <= / 4 -> length ws = length vs -> (forall w, In w ws -> is_weight q w) -> INR (length vs) <= bpow radix2 prec ->
  Rabs (B2R (envelope fzero vs ws) - exact_envelope prec emax vs ws) <= envelope_error prec epse q D (length vs).
Proof using GE GS Q QP.
  intros OK DU L W N. pose proof (terms_near D vs OK DU ws L W) as T. cbv zeta in T. unfold M_forbital.envelope. set (ts := map _ _) in *. assert (LT : length ts = length vs) by (unfold ts; rewrite map_length, combine_length; lia).
  destruct (sum_scaled prec emax q Q QP ts _ (GS ts)) as [_ [_ [E _]]]; [|rewrite LT; exact N|].
  - intros t Ht. apply in_map_iff in Ht. destruct Ht as ([v w] & <- & I). pose proof (in_combine_l _ _ _ _ I) as Iv. pose proof (in_combine_r _ _ _ _ I) as Iw. destruct (OK v Iv) as [[_ FV] _].
    destruct (decay_spec v w 0 0) as [F [B _]]; [apply softened_wl, norm_wl; intros c Hc; specialize (FV c Hc); destruct c; try discriminate; reflexivity|apply W; exact Iw|]. split; assumption.
  - rewrite LT in E. unfold envelope_error. match goal with |- Rabs (?a - ?c) <= _ => replace (a - c) with ((a - rsum prec emax ts) + (rsum prec emax ts - c)) by ring end. eapply Rle_trans; [apply Rabs_triang|].
    lra.
Qed.
End Weights.
End Proofs.

(** P_foptax3: accuracy of Adam's moments and directions, and of a step. *)
From Coq Require Import ZArith Reals.
From Flocq Require Import Core IEEE754.BinarySingleNaN Relative.
From Coq Require Import Lia Lra List Permutation Bool Arith.
Import ListNotations.
From Verif Require Import M_float S_float P_float P_float2 M_fwalk S_fwalk P_fwalk P_fwalk2 M_fenergy S_fenergy P_fenergy P_fenergy2 P_fenergy3 M_fpotential S_fpotential P_fpotential M_fupdate S_fupdate P_fupdate P_fupdate4 M_foptax S_foptax P_foptax P_foptax2.
Open Scope R_scope.

Section Proofs.
Variables prec emax : Z.
Context {Hp : Prec_gt_0 prec}.
Context {He : Prec_lt_emax prec emax}.
Notation fl := (binary_float prec emax).
Notation ex := (SpecFloat.fexp prec emax).
Notation emin := (SpecFloat.emin prec emax).
Notation rnd := (round radix2 ex ZnearestE).
Notation u := (unit_roundoff prec).
Notation fadd := (fadd prec emax). Notation fsub := (fsub prec emax). Notation fmul := (fmul prec emax).
Notation fdiv := (fdiv prec emax). Notation fzero := (fzero prec emax). Notation fone := (fone prec emax). Notation of_nat := (of_nat prec emax).
Notation tiny := (tiny emax).
Notation near := (near u).
Notation is_rate := (is_rate prec emax). Notation is_decay := (is_decay prec emax). Notation is_gradient := (is_gradient prec emax).
Local Instance ex_valid16 : Valid_exp ex := FLT_exp_valid emin prec.

Lemma tri5 a b c d e : Rabs (a + b + c + d + e) <= Rabs a + Rabs b + Rabs c + Rabs d + Rabs e.
Proof. pose proof (Rabs_triang (a + b + c + d) e). pose proof (Rabs_triang (a + b + c) d). pose proof (Rabs_triang (a + b) c). pose proof (Rabs_triang a b). lra. Qed.

(** ** A step *)
Lemma step_value p r d : is_finite p = true -> is_finite r = true -> is_finite d = true -> Rabs (B2R p) <= bpow radix2 (emax - 2) -> Rabs (B2R r * B2R d) <= bpow radix2 (emax - 2) ->
  let p' := fadd p (fmul (Bopp r) d) in is_finite p' = true /\ Rabs (B2R p' - (B2R p - B2R r * B2R d)) <= u * Rabs (B2R p) + 3 * u * Rabs (B2R r * B2R d) + 2 * u * tiny.
Proof.
  intros Fp Fr Fd P RD p'. pose proof (uu prec) as UU. pose proof (tiny_pos emax) as TP. assert (T2 : bpow radix2 (emax - 1) = 2 * bpow radix2 (emax - 2)) by (replace (emax - 1)%Z with (1 + (emax - 2))%Z by lia; rewrite bpow_plus; reflexivity).
  pose proof (bpow_gt_0 radix2 (emax - 2)) as B0. assert (FO : is_finite (Bopp r) = true) by (rewrite is_finite_Bopp; exact Fr).
  assert (EO : B2R (Bopp r) * B2R d = - (B2R r * B2R d)) by (rewrite B2R_Bopp; ring).
  destruct (mul_fin prec emax (Bopp r) d FO Fd) as [A V]; [rewrite EO, Rabs_Ropp; lra|]. rewrite EO in V. set (x := B2R r * B2R d) in *.
  assert (UB : Rabs (B2R (fmul (Bopp r) d)) <= bpow radix2 (emax - 2)) by (rewrite V; apply (rnd_abs_le prec emax); [apply (top_fmt prec emax); unfold SpecFloat.emin; pose proof (precmax prec emax); pose proof (prec1 prec); lia|rewrite Rabs_Ropp; exact RD]).
  pose proof (any_rnd_err prec emax (- x)) as E1. rewrite <- V, Rabs_Ropp in E1. set (h := fmul (Bopp r) d) in *.
  destruct (fadd_spec prec emax p h (bpow radix2 (emax - 1)) Fp A) as [S1 [S2 _]]; [exact (top_fmt prec emax _ (emax1 prec emax))|apply bpow_lt; lia|eapply Rle_trans; [apply Rabs_triang|]; lra|].
  split; [exact S1|]. pose proof (rnd_plus_err prec emax _ _ (fmt_B2R prec emax p) (fmt_B2R prec emax h)) as E2. rewrite <- S2 in E2. fold p' in E2, S1, S2.
  replace (B2R p' - (B2R p - x)) with ((B2R p' - (B2R p + B2R h)) + (B2R h - - x)) by ring. eapply Rle_trans; [apply Rabs_triang|].
  assert (HB : Rabs (B2R h) <= Rabs x + (u * Rabs x + u * tiny)). { replace (B2R h) with (- x + (B2R h - - x)) by ring. eapply Rle_trans; [apply Rabs_triang|]. rewrite Rabs_Ropp. lra. }
  pose proof (Rabs_pos x) as X0. assert (E3 : u * Rabs (B2R p + B2R h) <= u * Rabs (B2R p) + u * (Rabs x + (u * Rabs x + u * tiny))). { rewrite <- Rmult_plus_distr_l. apply Rmult_le_compat_l; [lra|]. eapply Rle_trans; [apply Rabs_triang|]. lra. }
  assert (0 <= u * Rabs x) by (apply Rmult_le_pos; lra). assert (0 <= u * tiny) by (apply Rmult_le_pos; lra). assert (u * (u * Rabs x) <= u * Rabs x) by nra. assert (u * (u * tiny) <= u * tiny) by nra. nra.
Qed.

(** ** Moments *)
Section Moments.
Variables k j : Z.
Hypothesis K : (0 <= k)%Z.
Hypothesis J : (0 <= j <= prec)%Z.
Hypothesis KJ : (k + j <= emax - 2)%Z.
Notation B := (bpow radix2 (k + j)).
(** One moment update, of a number x that is off a wanted number y by at most e. *)
Lemma moment_error c b x t y w e d : is_finite c = true -> 0 <= B2R c <= 1 -> is_decay j b -> is_gradient k x -> is_finite t = true -> Rabs (B2R t) <= B ->
  Rabs (B2R x - y) <= e -> 3 * u * B + 2 * u * tiny + e <= d -> Rabs (B2R t - w) <= bpow radix2 j * d ->
  Rabs (B2R (moment_update prec emax c b x t) - (B2R c * y + B2R b * w)) <= bpow radix2 j * d.
Proof using K J KJ.
  intros Fc C Db G Ft T Y D W. destruct (decayed prec emax k j K J KJ b t Db Ft T) as [A [V VB]]. pose proof (scaled prec emax k j K J KJ c x Fc C G) as SG. destruct (added prec emax k j K J KJ _ _ SG A VB) as [A' [V' W']]. unfold moment_update.
  pose proof (uu prec) as UU. pose proof (bpow_gt_0 radix2 (k + j)) as B0. pose proof (bpow_gt_0 radix2 (- j)) as BJ. pose proof (bpow_gt_0 radix2 j) as BJ'. assert (JJ : bpow radix2 (- j) * bpow radix2 j = 1) by (rewrite <- bpow_plus; replace (- j + j)%Z with 0%Z by lia; reflexivity).
  assert (KB : bpow radix2 k <= B) by (apply bpow_le; lia). assert (KT : (k <= emax - 2)%Z) by lia. destruct (below_top emax _ KT) as [T1 _].
  destruct G as [Fx X]. destruct Db as [Fb Bb]. assert (CX : Rabs (B2R c * B2R x) <= bpow radix2 k) by (rewrite Rabs_mult, (Rabs_pos_eq (B2R c)) by apply C; pose proof (Rabs_pos (B2R x)); nra).
  destruct (mul_fin prec emax c x Fc Fx) as [_ VX]; [lra|]. pose proof (any_rnd_err prec emax (B2R c * B2R x)) as E1. rewrite <- VX in E1. pose proof (any_rnd_err prec emax (B2R b * B2R t)) as E2. rewrite <- V in E2.
  assert (BT : Rabs (B2R b * B2R t) <= B) by (rewrite Rabs_mult, (Rabs_pos_eq (B2R b)) by apply Bb; pose proof (Rabs_pos (B2R t)); nra).
  pose proof (rnd_plus_err prec emax _ _ (fmt_B2R prec emax (fmul c x)) (fmt_B2R prec emax (fmul b t))) as E3. rewrite <- V' in E3.
  assert (SB : Rabs (B2R (fmul c x) + B2R (fmul b t)) <= B) by (eapply Rle_trans; [apply Rabs_triang|]; destruct SG as [_ SG]; lra).
  set (z := fadd (fmul c x) (fmul b t)) in *.
  replace (B2R z - (B2R c * y + B2R b * w)) with ((B2R z - (B2R (fmul c x) + B2R (fmul b t))) + (B2R (fmul c x) - B2R c * B2R x) + (B2R (fmul b t) - B2R b * B2R t) + B2R c * (B2R x - y) + B2R b * (B2R t - w)) by ring.
  eapply Rle_trans; [apply tri5|].
  assert (H1 : u * Rabs (B2R (fmul c x) + B2R (fmul b t)) <= u * B) by (apply Rmult_le_compat_l; lra). assert (H2 : u * Rabs (B2R c * B2R x) <= u * B) by (apply Rmult_le_compat_l; lra). assert (H3 : u * Rabs (B2R b * B2R t) <= u * B) by (apply Rmult_le_compat_l; lra).
  assert (E0 : 0 <= e) by (eapply Rle_trans; [apply Rabs_pos|exact Y]). assert (H4 : Rabs (B2R c * (B2R x - y)) <= e) by (rewrite Rabs_mult, (Rabs_pos_eq (B2R c)) by apply C; pose proof (Rabs_pos (B2R x - y)); nra).
  assert (TE : 0 <= bpow radix2 j * d) by (eapply Rle_trans; [apply Rabs_pos|exact W]).
  assert (H5 : Rabs (B2R b * (B2R t - w)) <= (1 - bpow radix2 (- j)) * (bpow radix2 j * d)) by (rewrite Rabs_mult, (Rabs_pos_eq (B2R b)) by apply Bb; apply Rmult_le_compat; try lra; apply Rabs_pos).
  replace ((1 - bpow radix2 (- j)) * (bpow radix2 j * d)) with (bpow radix2 j * d - bpow radix2 (- j) * bpow radix2 j * d) in H5 by ring. rewrite JJ in H5. lra.
Qed.
End Moments.

(** Both moments after a run. *)
Section History.
Variable fpow : fl -> nat -> fl.
Hypothesis POW : shrinking_power prec emax fpow.
Variable c : adam_numbers prec emax.
Variables k j e : Z.
Hypothesis K : (0 <= k)%Z.
Hypothesis J : (0 <= j <= prec)%Z.
Hypothesis E : (0 <= e <= emax - 3)%Z.
Hypothesis B1 : is_decay j (b1 _ _ c).
Hypothesis B2 : is_decay j (b2 _ _ c).
Hypothesis C1 : is_finite (b1_c _ _ c) = true /\ 0 <= B2R (b1_c _ _ c) <= 1.
Hypothesis C2 : is_finite (b2_c _ _ c) = true /\ 0 <= B2R (b2_c _ _ c) <= 1.
Hypothesis EPS : is_finite (eps _ _ c) = true /\ bpow radix2 (- e) <= B2R (eps _ _ c) <= 1.
Hypothesis ROOT : is_finite (eps_root _ _ c) = true /\ 0 <= B2R (eps_root _ _ c) <= 1.
Hypothesis R1 : (k + j + j + e <= emax - 2)%Z.
Hypothesis R2 : (2 * k + j + j + 4 <= emax)%Z.
Definition mu_error : R := bpow radix2 j * (3 * u * bpow radix2 (k + j) + 2 * u * tiny).
Definition nu_error : R := bpow radix2 j * (4 * u * bpow radix2 (2 * k + j) + 3 * u * tiny).
Lemma moments_history sch p0 gs : Forall (is_gradient k) gs ->
  let s := snd (run prec emax fpow (Adam _ _ c) sch (p0, initial prec emax) gs) in
  Rabs (B2R (mu _ _ s) - weighted_sum (B2R (b1 _ _ c)) (map (fun g : fl => B2R (b1_c _ _ c) * B2R g) (rev gs))) <= mu_error /\
  Rabs (B2R (nu _ _ s) - weighted_sum (B2R (b2 _ _ c)) (map (fun g : fl => B2R (b2_c _ _ c) * B2R g ^ 2) (rev gs))) <= nu_error.
Proof using POW K J E B1 B2 C1 C2 EPS ROOT R1 R2.
  pose proof (uu prec) as UU. pose proof (tiny_pos emax) as TP. pose proof (bpow_gt_0 radix2 j) as BJ. pose proof (bpow_gt_0 radix2 (k + j)) as BK. pose proof (bpow_gt_0 radix2 (2 * k + j)) as BK2.
  assert (P1 : 0 <= u * bpow radix2 (k + j)) by (apply Rmult_le_pos; lra). assert (P2 : 0 <= u * bpow radix2 (2 * k + j)) by (apply Rmult_le_pos; lra). assert (P3 : 0 <= u * tiny) by (apply Rmult_le_pos; lra).
  induction gs as [|g gs IH] using rev_ind; intros G; cbn zeta.
  - cbn. unfold mu_error, nu_error. rewrite Rminus_0_r, Rabs_R0. split; apply Rmult_le_pos; lra.
  - apply Forall_app in G. destruct G as [G1 G2]. inversion G2 as [|? ? Gg _]; subst. cbn zeta in IH. specialize (IH G1).
    pose proof (good_run prec emax fpow POW c k j e K J E B1 B2 C1 C2 EPS ROOT R1 sch (p0, initial prec emax) gs R2 (good_initial prec emax k j) G1) as GS.
    unfold run in *. rewrite fold_left_app, rev_app_distr. cbn [fold_left rev app map weighted_sum]. set (ps := fold_left _ gs _) in *. unfold step. cbn [snd direction mu nu]. destruct GS as [M1 [M2 [[V1 V2] V3]]]. destruct IH as [I1 I2].
    assert (KJ : (k + j <= emax - 2)%Z) by lia. assert (KJ2 : (2 * k + j <= emax - 2)%Z) by lia. destruct (square_bound prec emax k j K J g KJ2 Gg) as [GG G0].
    split.
    + apply (moment_error k j K J KJ _ _ g _ (B2R g) _ 0 _ (proj1 C1) (proj2 C1) B1 Gg M1 M2); [rewrite Rminus_diag_eq, Rabs_R0 by reflexivity; lra|apply Req_le; ring|exact I1].
    + apply (moment_error (2 * k) j ltac:(lia) J KJ2 _ _ (fmul g g) _ (B2R g ^ 2) _ (u * bpow radix2 (2 * k + j) + u * tiny) _ (proj1 C2) (proj2 C2) B2 GG V1); [rewrite Rabs_pos_eq; assumption| |apply Req_le; ring|exact I2].
      destruct Gg as [Fg Gg]. assert (SQ : 0 <= B2R g ^ 2 <= bpow radix2 (2 * k)). { replace (2 * k)%Z with (k + k)%Z by lia. rewrite bpow_plus, <- (pow2_abs (B2R g)). pose proof (Rabs_pos (B2R g)). split; [nra|]. cbn [pow]. rewrite Rmult_1_r. apply Rmult_le_compat; lra. }
      assert (LB : bpow radix2 (2 * k) <= bpow radix2 (2 * k + j)) by (apply bpow_le; lia). assert (LT : bpow radix2 (2 * k + j) <= bpow radix2 (emax - 1)) by (apply bpow_le; lia).
      assert (EQ : B2R g * B2R g = B2R g ^ 2) by ring. destruct (mul_fin prec emax g g Fg Fg) as [_ V]; [rewrite EQ, Rabs_pos_eq by lra; lra|]. rewrite EQ in V. pose proof (any_rnd_err prec emax (B2R g ^ 2)) as Q. rewrite <- V, (Rabs_pos_eq (B2R g ^ 2)) in Q by lra.
      assert (u * B2R g ^ 2 <= u * bpow radix2 (2 * k + j)) by (apply Rmult_le_compat_l; lra). lra.
Qed.
Lemma run_count o sch p0 gs : count _ _ (snd (run prec emax fpow o sch (p0, initial prec emax) gs)) = length gs.
Proof.
  assert (H : forall ps, count _ _ (snd (run prec emax fpow o sch ps gs)) = (count _ _ (snd ps) + length gs)%nat).
  { unfold run. induction gs as [|g gs IH]; intros ps; [cbn; lia|]. cbn [fold_left length]. rewrite IH. unfold step. cbn [snd]. destruct o; cbn [direction snd count]; lia. }
  rewrite H. reflexivity.
Qed.

(** ** Directions *)
Lemma rnd_zero_or x : x = 0 \/ tiny <= x -> near 1 x (rnd x).
Proof. intros [->|H]; [rewrite (rnd_0 prec emax); apply near_refl; [apply (uu prec)|lra]|apply (rnd_rel prec emax); exact H]. Qed.
Lemma rnd_sum_near x y : generic_format radix2 ex x -> generic_format radix2 ex y -> 0 <= x + y -> near 1 (x + y) (rnd (x + y)).
Proof. intros X Y P. pose proof (rnd_plus_err prec emax _ _ X Y) as Q. rewrite (Rabs_pos_eq (x + y)) in Q by exact P. apply near_rel; [apply (uu prec)|exact P|exact Q]. Qed.
Lemma rnd_sqrt_near x : generic_format radix2 ex x -> 0 <= x -> near 1 (sqrt x) (rnd (sqrt x)).
Proof.
  intros F X. apply rnd_zero_or. destruct X as [X|X]; [right|left; rewrite <- X; apply sqrt_0].
  assert (L : bpow radix2 emin <= x). { pose proof (generic_format_ge_bpow radix2 ex emin) as Q. apply Q; [intros z; unfold SpecFloat.fexp; lia|exact X|exact F]. }
  pose proof (tiny_pos emax) as TP. rewrite <- (sqrt_square tiny) by lra. apply sqrt_le_1_alt. eapply Rle_trans; [|exact L]. unfold P_fpotential.tiny. rewrite <- bpow_plus. apply bpow_le. unfold SpecFloat.emin. pose proof (precmax prec emax). lia.
Qed.
Lemma correction_near b n : is_decay j b -> (0 < n)%nat -> near 1 (1 - B2R (fpow b n)) (B2R (fsub fone (fpow b n))).
Proof using POW J E.
  intros [F D] N. pose proof (bpow_gt_0 radix2 (- j)) as BJ. destruct (POW b n F ltac:(lra) N) as [FP P]. destruct (one_R prec emax) as [O1 O2].
  pose proof (Bminus_correct prec emax Hp He mode_NE fone (fpow b n) O1 FP) as C. cbn [round_mode] in C. rewrite O2 in C.
  assert (Q : Rabs (rnd (1 - B2R (fpow b n))) <= 1). { rewrite <- O2. apply (rnd_abs_le prec emax); [apply (fmt_B2R prec emax)|rewrite O2, Rabs_pos_eq by lra; lra]. }
  assert (1 < bpow radix2 emax) by (change 1 with (bpow radix2 0); apply bpow_lt; lia). rewrite Rlt_bool_true in C by lra. destruct C as [C1' [C2' _]]. unfold M_float.fsub. rewrite C1'.
  unfold Rminus. apply rnd_sum_near; [rewrite <- O2; apply (fmt_B2R prec emax)|apply generic_format_opp, (fmt_B2R prec emax)|lra].
Qed.
Lemma div_value x y a q : is_finite x = true -> is_finite y = true -> bpow radix2 (- q) <= B2R y -> Rabs (B2R x) <= bpow radix2 a -> (0 <= a + q <= emax - 2)%Z -> B2R (fdiv x y) = rnd (B2R x / B2R y).
Proof.
  intros Fx Fy Y X AE. pose proof (bpow_gt_0 radix2 (- q)) as BE. pose proof (bpow_gt_0 radix2 a) as BA.
  assert (Q : Rabs (B2R x / B2R y) <= bpow radix2 (a + q)).
  { unfold Rdiv. rewrite Rabs_mult, Rabs_inv, (Rabs_pos_eq (B2R y)) by lra. assert (EI : / B2R y <= bpow radix2 q) by (replace (bpow radix2 q) with (/ bpow radix2 (- q)) by (rewrite <- bpow_opp; f_equal; lia); apply Rinv_le_contravar; lra).
    rewrite bpow_plus. assert (0 < / B2R y) by (apply Rinv_0_lt_compat; lra). apply Rmult_le_compat; try lra. apply Rabs_pos. }
  pose proof (rnd_abs_le prec emax _ _ (fmt0 prec emax (a + q) ltac:(lia)) Q) as RQ. pose proof (Bdiv_correct prec emax Hp He mode_NE x y ltac:(lra)) as C. cbn [round_mode] in C.
  rewrite Rlt_bool_true in C by (eapply Rle_lt_trans; [exact RQ|apply bpow_lt; lia]). apply C.
Qed.
(** The two divisions, on the reals. *)
Lemma two_divisions M Q Q' W W' : 8 * u <= / 2 -> 0 < Q <= 1 -> 0 < Q' <= 1 -> near 1 Q Q' -> 0 < W -> near 5 W W' -> (M = 0 \/ tiny <= Rabs M) -> (M = 0 \/ 2 * tiny <= Rabs (M / Q / W)) ->
  Rabs (rnd (rnd (M / Q') / W') - M / Q / W) <= 16 * u * Rabs (M / Q / W).
Proof.
  intros U Q0 Q1 NQ W0 NW. pose proof (uu prec) as UU. pose proof (tiny_pos emax) as TP. pose proof (near_pos u 5 _ _ NW W0) as W1.
  assert (POS : forall M, 0 <= M -> (M = 0 \/ tiny <= Rabs M) -> (M = 0 \/ 2 * tiny <= Rabs (M / Q / W)) -> Rabs (rnd (rnd (M / Q') / W') - M / Q / W) <= 16 * u * Rabs (M / Q / W)).
  { clear M. intros M P H1 H2. assert (IQ : 0 < / Q) by (apply Rinv_0_lt_compat; lra). assert (IQ' : 0 < / Q') by (apply Rinv_0_lt_compat; lra). assert (IW : 0 < / W) by (apply Rinv_0_lt_compat; lra). assert (IW' : 0 < / W') by (apply Rinv_0_lt_compat; lra).
    assert (P' : 0 <= M / Q / W) by (unfold Rdiv; apply Rmult_le_pos; [apply Rmult_le_pos|]; lra). rewrite (Rabs_pos_eq (M / Q / W)) in * by exact P'. rewrite (Rabs_pos_eq M) in H1 by exact P.
    assert (N1 : near 1 (M / Q) (M / Q')) by (apply (near_mul u 0 1); [apply near_refl; [exact UU|exact P]|apply near_inv; [exact UU|exact NQ|lra]]).
    assert (N2 : near 1 (M / Q') (rnd (M / Q'))). { apply rnd_zero_or. destruct H1 as [H1|H1]; [left; rewrite H1; unfold Rdiv; ring|right]. unfold Rdiv. assert (1 <= / Q') by (rewrite <- Rinv_1; apply Rinv_le_contravar; lra). nra. }
    pose proof (near_trans u UU 1 1 _ _ _ N1 N2) as N3. assert (N4 : near 7 (M / Q / W) (rnd (M / Q') / W')) by (apply (near_mul u 2 5); [exact N3|apply near_inv; [exact UU|exact NW|exact W0]]).
    assert (I7 : INR 7 * u <= / 2) by (cbn [INR]; lra). assert (N5 : near 1 (rnd (M / Q') / W') (rnd (rnd (M / Q') / W'))). { apply rnd_zero_or. destruct H2 as [H2|H2]; [left; rewrite H2; unfold Rdiv; rewrite Rmult_0_l, (rnd_0 prec emax); ring|right]. destruct N4 as [_ [Z0 [Z1 _]]]. pose proof (g_two u UU 7 I7). nra. }
    pose proof (near_trans u UU 7 1 _ _ _ N4 N5) as N6. assert (I8 : INR 8 * u <= / 2) by (cbn [INR]; lra). pose proof (near_err u UU 8 _ _ I8 N6) as R. cbn [INR] in R. lra. }
  intros H1 H2. destruct (Rle_lt_dec 0 M) as [P|P]; [apply POS; assumption|].
  assert (S1 : - M / Q / W = - (M / Q / W)) by (unfold Rdiv; ring). specialize (POS (- M) ltac:(lra)). rewrite S1, !Rabs_Ropp in POS. replace (- M / Q') with (- (M / Q')) in POS by (unfold Rdiv; ring). rewrite round_NE_opp in POS.
  replace (- rnd (M / Q') / W') with (- (rnd (M / Q') / W')) in POS by (unfold Rdiv; ring). rewrite round_NE_opp in POS.
  replace (rnd (rnd (M / Q') / W') - M / Q / W) with (- (- rnd (rnd (M / Q') / W') - - (M / Q / W))) by ring. rewrite Rabs_Ropp. apply POS; [destruct H1 as [H1|H1]; [lra|right; exact H1]|destruct H2 as [H2|H2]; [lra|right; exact H2]].
Qed.
Lemma direction_accuracy m v n : is_finite m = true -> Rabs (B2R m) <= bpow radix2 (k + j) -> is_rate v -> B2R v <= bpow radix2 (2 * k + j) -> (0 < n)%nat -> 8 * u <= / 2 ->
  (B2R v = 0 \/ tiny <= B2R v) -> (B2R m = 0 \/ tiny <= Rabs (B2R m)) ->
  let exact := adam_quotient (B2R m) (B2R v) (B2R (fpow (b1 _ _ c) n)) (B2R (fpow (b2 _ _ c) n)) (B2R (eps _ _ c)) (B2R (eps_root _ _ c)) in
  (B2R m = 0 \/ 2 * tiny <= Rabs exact) -> Rabs (B2R (adam_direction prec emax fpow c m v n) - exact) <= 16 * u * Rabs exact.
Proof using POW K J E B1 B2 C1 C2 EPS ROOT R1 R2.
  intros Fm M [Fv V0] V N U HV HM exact HX. destruct (correction prec emax fpow POW _ j n ltac:(lia) J B1 N) as [F1 Q1]. destruct (correction prec emax fpow POW _ j n ltac:(lia) J B2 N) as [F2 Q2]. pose proof (emin_neg prec emax) as EN. pose proof (precmax prec emax) as PM. pose proof (prec1 prec) as P1. pose proof (uu prec) as UU. pose proof (tiny_pos emax) as TP.
  pose proof (correction_near _ n B1 N) as N1. pose proof (correction_near _ n B2 N) as N2.
  destruct (div_bound prec emax m _ (k + j) j Fm F1 (proj1 Q1) M) as [A1 [A2 _]]; [lia|].
  destruct (div_bound prec emax v _ (2 * k + j) j Fv F2 (proj1 Q2)) as [D1 [D2 D3]]; [rewrite Rabs_pos_eq by exact V0; exact V|lia|]. specialize (D3 V0).
  pose proof (div_value m _ (k + j) j Fm F1 (proj1 Q1) M ltac:(lia)) as VM. assert (VV : B2R (fdiv v (fsub fone (fpow (b2 _ _ c) n))) = rnd (B2R v / B2R (fsub fone (fpow (b2 _ _ c) n)))) by (apply (div_value v _ (2 * k + j) j Fv F2 (proj1 Q2)); [rewrite Rabs_pos_eq by exact V0; exact V|lia]).
  assert (ONE : forall q, (0 <= q)%Z -> 1 <= bpow radix2 q) by (intros q H; change 1 with (bpow radix2 0); apply bpow_le; exact H).
  unfold adam_direction. unfold bias_correction. set (mh := fdiv m _) in *. set (vh := fdiv v _) in *.
  assert (VR : is_rate vh) by (split; assumption). assert (VB : B2R vh <= bpow radix2 (2 * k + j + j)) by (eapply Rle_trans; [apply Rle_abs|exact D2]).
  assert (RR : is_rate (eps_root _ _ c)) by (split; apply ROOT). pose proof (ONE (2 * k + j + j)%Z ltac:(lia)) as O1.
  destruct (add_rate0 prec emax vh (eps_root _ _ c) (2 * k + j + j) VR RR VB ltac:(lra) ltac:(lia)) as [S1 S2].
  destruct (sqrt_rate prec emax _ (1 + (2 * k + j + j)) S1 S2 ltac:(lia)) as [T1 T2].
  pose proof (ONE (1 + (2 * k + j + j))%Z ltac:(lia)) as O2. destruct EPS as [FE [EL EU]]. pose proof (bpow_gt_0 radix2 (- e)) as BE. pose proof (bpow_gt_0 radix2 (- j)) as BJ.
  destruct (add_rates prec emax _ (eps _ _ c) (1 + (2 * k + j + j)) (- e) T1 FE (conj EL (Rle_trans _ _ _ EU O2)) T2) as [U1 U2]; [lia|unfold SpecFloat.emin; lia|].
  set (q1 := fsub fone (fpow (b1 _ _ c) n)) in *. set (q2 := fsub fone (fpow (b2 _ _ c) n)) in *. set (p1 := 1 - B2R (fpow (b1 _ _ c) n)) in *. set (p2 := 1 - B2R (fpow (b2 _ _ c) n)) in *.
  assert (PP : forall b, is_decay j b -> 0 < 1 - B2R (fpow b n) <= 1). { intros b [F D]. destruct (POW b n F ltac:(lra) N) as [_ P]. lra. }
  pose proof (PP _ B1) as P1'. pose proof (PP _ B2) as P2'. fold p1 in P1'. fold p2 in P2'.
  (* the denominator *)
  assert (X1 : near 1 (B2R v / p2) (B2R v / B2R q2)) by (apply (near_mul u 0 1); [apply near_refl; [exact UU|exact V0]|apply near_inv; [exact UU|exact N2|lra]]).
  assert (X2 : near 1 (B2R v / B2R q2) (B2R vh)). { rewrite VV. apply rnd_zero_or. destruct HV as [HV|HV]; [left; rewrite HV; unfold Rdiv; ring|right]. unfold Rdiv. assert (1 <= / B2R q2) by (rewrite <- Rinv_1; apply Rinv_le_contravar; lra). nra. }
  pose proof (near_trans u UU 1 1 _ _ _ X1 X2) as X3. pose proof (near_plus u 2 _ _ _ _ X3 (near_refl u UU 2 (B2R (eps_root _ _ c)) (proj2 RR))) as X4.
  set (sm := fadd vh (eps_root _ _ c)) in *. assert (VS : B2R sm = rnd (B2R vh + B2R (eps_root _ _ c))). { destruct (fadd_spec prec emax vh (eps_root _ _ c) (bpow radix2 (1 + (2 * k + j + j))) (proj1 VR) (proj1 RR)) as [_ [Z _]]; [apply (fmt0 prec emax); lia|apply bpow_lt; lia| |exact Z]. rewrite Rabs_pos_eq by (destruct RR; lra). rewrite (bpow_plus radix2 1). change (bpow radix2 1) with 2. destruct ROOT as [_ RO]. lra. }
  assert (X5 : near 3 (B2R v / p2 + B2R (eps_root _ _ c)) (B2R sm)). { rewrite VS. apply (near_trans u UU 2 1 _ (B2R vh + B2R (eps_root _ _ c))); [exact X4|]. apply rnd_sum_near; try apply (fmt_B2R prec emax). destruct RR; lra. }
  pose proof (near_sqrt u UU 3 _ _ X5) as X6. destruct (Bsqrt_correct prec emax Hp He mode_NE sm) as [VQ _]. cbn [round_mode] in VQ.
  assert (X7 : near 4 (sqrt (B2R v / p2 + B2R (eps_root _ _ c))) (B2R (Bsqrt mode_NE sm))). { rewrite VQ. apply (near_trans u UU 3 1 _ (sqrt (B2R sm))); [exact X6|]. apply rnd_sqrt_near; [apply (fmt_B2R prec emax)|apply S1]. }
  set (rt := Bsqrt mode_NE sm) in *. pose proof (near_plus u 4 _ _ _ _ X7 (near_refl u UU 4 (B2R (eps _ _ c)) ltac:(lra))) as X8.
  set (den := fadd rt (eps _ _ c)) in *. assert (VD : B2R den = rnd (B2R rt + B2R (eps _ _ c))). { destruct (fadd_spec prec emax rt (eps _ _ c) (bpow radix2 (1 + (1 + (2 * k + j + j)))) (proj1 T1) FE) as [_ [Z _]]; [apply (fmt0 prec emax); lia|apply bpow_lt; lia| |exact Z]. destruct T1 as [_ T1]. rewrite Rabs_pos_eq by lra. rewrite (bpow_plus radix2 1). change (bpow radix2 1) with 2. lra. }
  assert (X9 : near 5 (sqrt (B2R v / p2 + B2R (eps_root _ _ c)) + B2R (eps _ _ c)) (B2R den)). { rewrite VD. apply (near_trans u UU 4 1 _ (B2R rt + B2R (eps _ _ c))); [exact X8|]. destruct T1 as [_ T1]. apply rnd_sum_near; try apply (fmt_B2R prec emax). lra. }
  rewrite (div_value mh den (k + j + j) e A1 U1 (proj1 U2) A2) by lia. rewrite VM. unfold exact, adam_quotient. fold p1 p2. pose proof (sqrt_pos (B2R v / p2 + B2R (eps_root _ _ c))) as SP.
  apply two_divisions; try assumption; try lra.
Qed.
End History.
End Proofs.

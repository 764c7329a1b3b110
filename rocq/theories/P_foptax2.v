(** P_foptax2: traces and moments over whole histories. *)
From Coq Require Import ZArith Reals.
From Flocq Require Import Core IEEE754.BinarySingleNaN Relative.
From Coq Require Import Lia Lra List Permutation Bool Arith.
Import ListNotations.
From Verif Require Import M_float S_float P_float P_float2 M_fwalk S_fwalk P_fwalk P_fwalk2 M_fenergy S_fenergy P_fenergy P_fenergy2 P_fenergy3 M_fpotential S_fpotential P_fpotential M_fupdate S_fupdate P_fupdate P_fupdate4 M_foptax S_foptax P_foptax.
Open Scope R_scope.

Section Proofs.
Variables prec emax : Z.
Context {Hp : Prec_gt_0 prec}.
Context {He : Prec_lt_emax prec emax}.
Notation fl := (binary_float prec emax).
Notation ex := (SpecFloat.fexp prec emax).
Notation emin := (SpecFloat.emin prec emax).
Notation rnd := (round radix2 ex ZnearestE).
Notation u := (unit_roundoff prec).
Notation fadd := (fadd prec emax). Notation fsub := (fsub prec emax). Notation fmul := (fmul prec emax).
Notation fdiv := (fdiv prec emax). Notation fzero := (fzero prec emax). Notation fone := (fone prec emax). Notation of_nat := (of_nat prec emax).
Notation tiny := (tiny emax).
Notation positive := (positive prec emax).
Notation pinf := (B754_infinity (prec:=prec) (emax:=emax) false).
Notation is_rate := (is_rate prec emax). Notation is_decay := (is_decay prec emax). Notation is_gradient := (is_gradient prec emax).
Local Instance ex_valid15 : Valid_exp ex := FLT_exp_valid emin prec.

Lemma bpow2 a b : bpow radix2 (a + b) = bpow radix2 a * bpow radix2 b. Proof. apply bpow_plus. Qed.
Lemma fmt0 a : (0 <= a)%Z -> generic_format radix2 ex (bpow radix2 a).
Proof. intros H. apply (top_fmt prec emax). pose proof (emin_neg prec emax). lia. Qed.
(** 2^(k+j) - 2^k is representable. *)
Lemma fmt_gap k j : (0 <= k)%Z -> (0 <= j <= prec)%Z -> generic_format radix2 ex (bpow radix2 (k + j) - bpow radix2 k).
Proof.
  intros K J. assert (E : bpow radix2 (k + j) - bpow radix2 k = F2R (Float radix2 (2 ^ j - 1) k)).
  { unfold F2R. cbn [Fnum Fexp]. rewrite minus_IZR, bpow_plus. change 2%Z with (radix_val radix2). rewrite IZR_Zpower by lia. ring. }
  apply generic_format_FLT. apply (FLT_spec radix2 emin prec _ (Float radix2 (2 ^ j - 1) k) E); cbn [Fnum Fexp].
  - assert (1 <= 2 ^ j)%Z by (apply (Z.pow_le_mono_r 2 0 j); lia). assert (2 ^ j <= 2 ^ prec)%Z by (apply Z.pow_le_mono_r; lia). change (radix2 ^ prec)%Z with (2 ^ prec)%Z. lia.
  - pose proof (emin_neg prec emax). lia.
Qed.
Lemma any_rnd_err x : Rabs (rnd x - x) <= u * Rabs x + u * tiny.
Proof.
  destruct (Rle_lt_dec 0 x) as [P|P]; [rewrite (Rabs_pos_eq x) by exact P; apply (rnd_abs_err prec emax); exact P|].
  assert (P1 : 0 <= - x) by lra. pose proof (rnd_abs_err prec emax _ P1) as Q. rewrite round_NE_opp in Q. rewrite (Rabs_left x) by exact P. replace (rnd x - x) with (- (- rnd x - - x)) by ring. rewrite Rabs_Ropp. exact Q.
Qed.

Section Bounds.
Variables k j : Z.
Hypothesis K : (0 <= k)%Z.
Hypothesis J : (0 <= j <= prec)%Z.
Hypothesis KJ : (k + j <= emax - 2)%Z.
Notation B := (bpow radix2 (k + j)).
Lemma below_top a : (a <= emax - 2)%Z -> bpow radix2 a <= bpow radix2 (emax - 1) /\ bpow radix2 a < bpow radix2 emax.
Proof. intros H. split; [apply bpow_le; lia|apply bpow_lt; lia]. Qed.

Lemma decayed m t : is_decay j m -> is_finite t = true -> Rabs (B2R t) <= B ->
  is_finite (fmul m t) = true /\ B2R (fmul m t) = rnd (B2R m * B2R t) /\ Rabs (B2R (fmul m t)) <= B - bpow radix2 k.
Proof using K J KJ.
  intros [Fm M] Ft T. destruct (below_top _ KJ) as [T1 T2]. pose proof (bpow_gt_0 radix2 (- j)) as BJ. pose proof (bpow_gt_0 radix2 (k + j)) as BB.
  assert (E : bpow radix2 (- j) * B = bpow radix2 k) by (rewrite <- bpow_plus; f_equal; lia).
  assert (MT : Rabs (B2R m * B2R t) <= B - bpow radix2 k). { rewrite Rabs_mult, (Rabs_pos_eq (B2R m)) by apply M. pose proof (Rabs_pos (B2R t)). nra. }
  pose proof (bpow_gt_0 radix2 k) as BK. destruct (mul_fin prec emax m t Fm Ft) as [A V]; [lra|]. split; [exact A|]. split; [exact V|]. rewrite V. apply (rnd_abs_le prec emax); [apply fmt_gap; assumption|exact MT].
Qed.
Lemma added x y : is_gradient k x -> is_finite y = true -> Rabs (B2R y) <= B - bpow radix2 k ->
  is_finite (fadd x y) = true /\ B2R (fadd x y) = rnd (B2R x + B2R y) /\ Rabs (B2R (fadd x y)) <= B.
Proof using K J KJ.
  intros [Fx X] Fy Y. destruct (below_top _ KJ) as [T1 T2]. apply (fadd_spec prec emax x y B Fx Fy); [apply fmt0; lia|exact T2|]. eapply Rle_trans; [apply Rabs_triang|]. lra.
Qed.
Lemma trace_bound m g t : is_decay j m -> is_gradient k g -> is_finite t = true -> Rabs (B2R t) <= B ->
  is_finite (trace_update prec emax m g t) = true /\ Rabs (B2R (trace_update prec emax m g t)) <= B /\
  Rabs (B2R (trace_update prec emax m g t) - (B2R g + B2R m * B2R t)) <= u * (2 * B) + u * tiny.
Proof using K J KJ.
  intros M G Ft T. destruct (decayed m t M Ft T) as [A [V C]]. destruct (added g _ G A C) as [A' [V' C']]. unfold trace_update. split; [exact A'|]. split; [exact C'|].
  pose proof (rnd_plus_err prec emax _ _ (fmt_B2R prec emax g) (fmt_B2R prec emax (fmul m t))) as E1. rewrite <- V' in E1. pose proof (any_rnd_err (B2R m * B2R t)) as E2. rewrite <- V in E2.
  pose proof (uu prec) as UU. assert (MT : Rabs (B2R m * B2R t) <= B). { rewrite Rabs_mult, (Rabs_pos_eq (B2R m)) by apply M. destruct M as [_ M]. pose proof (Rabs_pos (B2R t)). pose proof (bpow_gt_0 radix2 (- j)). nra. }
  assert (S : Rabs (B2R g + B2R (fmul m t)) <= B) by (eapply Rle_trans; [apply Rabs_triang|]; destruct G as [_ G]; lra).
  replace (B2R (fadd g (fmul m t)) - (B2R g + B2R m * B2R t)) with ((B2R (fadd g (fmul m t)) - (B2R g + B2R (fmul m t))) + (B2R (fmul m t) - B2R m * B2R t)) by ring.
  eapply Rle_trans; [apply Rabs_triang|]. assert (u * Rabs (B2R g + B2R (fmul m t)) <= u * B) by (apply Rmult_le_compat_l; lra). assert (u * Rabs (B2R m * B2R t) <= u * B) by (apply Rmult_le_compat_l; lra). lra.
Qed.
Definition trace_error : R := bpow radix2 j * (u * (2 * B) + u * tiny).
Lemma trace_history m gs : is_decay j m -> Forall (is_gradient k) gs ->
  let t := fold_left (fun t g => trace_update prec emax m g t) gs fzero in
  is_finite t = true /\ Rabs (B2R t) <= B /\ Rabs (B2R t - weighted_sum (B2R m) (map (fun x : fl => B2R x) (rev gs))) <= trace_error.
Proof using K J KJ.
  intros M. induction gs as [|g gs IH] using rev_ind; intros G; cbn zeta.
  - cbn. pose proof (bpow_gt_0 radix2 (k + j)). pose proof (bpow_gt_0 radix2 j). pose proof (uu prec). pose proof (tiny_pos emax). unfold trace_error. rewrite Rminus_0_r, Rabs_R0. split; [reflexivity|]. split; [lra|]. apply Rmult_le_pos; [lra|]. assert (0 <= u * (2 * B)) by (apply Rmult_le_pos; lra). assert (0 <= u * tiny) by (apply Rmult_le_pos; lra). lra.
  - apply Forall_app in G. destruct G as [G1 G2]. inversion G2 as [|? ? Gg _]; subst. cbn zeta in IH. rewrite fold_left_app, rev_app_distr. cbn [fold_left rev app map weighted_sum].
    destruct (IH G1) as [F [T E]]. set (t := fold_left _ gs fzero) in *. set (w := weighted_sum _ _) in *. destruct (trace_bound m g t M Gg F T) as [A [C D]]. split; [exact A|]. split; [exact C|].
    replace (B2R (trace_update prec emax m g t) - (B2R g + B2R m * w)) with ((B2R (trace_update prec emax m g t) - (B2R g + B2R m * B2R t)) + B2R m * (B2R t - w)) by ring.
    eapply Rle_trans; [apply Rabs_triang|]. rewrite Rabs_mult, (Rabs_pos_eq (B2R m)) by apply M. destruct M as [_ M]. pose proof (bpow_gt_0 radix2 (- j)) as BJ. assert (JJ : bpow radix2 (- j) * bpow radix2 j = 1) by (rewrite <- bpow_plus; replace (- j + j)%Z with 0%Z by lia; reflexivity).
    set (e := u * (2 * B) + u * tiny) in *. unfold trace_error in *. fold e in E. fold e. assert (TE : 0 <= bpow radix2 j * e) by (eapply Rle_trans; [apply Rabs_pos|exact E]).
    assert (Q : B2R m * Rabs (B2R t - w) <= (1 - bpow radix2 (- j)) * (bpow radix2 j * e)) by (apply Rmult_le_compat; try lra; apply Rabs_pos).
    replace ((1 - bpow radix2 (- j)) * (bpow radix2 j * e)) with (bpow radix2 j * e - bpow radix2 (- j) * bpow radix2 j * e) in Q by ring. rewrite JJ in Q. lra.
Qed.
(** Moments. *)
Lemma scaled c g : is_finite c = true -> 0 <= B2R c <= 1 -> is_gradient k g -> is_gradient k (fmul c g).
Proof using K J KJ.
  intros Fc C [Fg G]. assert (KT : (k <= emax - 2)%Z) by lia. destruct (below_top _ KT) as [T1 T2]. assert (P : Rabs (B2R c * B2R g) <= bpow radix2 k) by (rewrite Rabs_mult, (Rabs_pos_eq (B2R c)) by apply C; pose proof (Rabs_pos (B2R g)); nra).
  destruct (mul_fin prec emax c g Fc Fg) as [A V]; [lra|]. split; [exact A|]. rewrite V. apply (rnd_abs_le prec emax); [apply fmt0; exact K|exact P].
Qed.
Lemma moment_bound c b g t : is_finite c = true -> 0 <= B2R c <= 1 -> is_decay j b -> is_gradient k g -> is_finite t = true -> Rabs (B2R t) <= B ->
  is_finite (moment_update prec emax c b g t) = true /\ Rabs (B2R (moment_update prec emax c b g t)) <= B /\ (0 <= B2R g -> 0 <= B2R t -> 0 <= B2R (moment_update prec emax c b g t)).
Proof using K J KJ.
  intros Fc C D G Ft T. destruct (decayed b t D Ft T) as [A [V W]]. pose proof (scaled c g Fc C G) as SG. destruct (added _ _ SG A W) as [A' [V' W']]. unfold moment_update. split; [exact A'|]. split; [exact W'|].
  intros G0 T0. rewrite V'. apply (rnd_ge0 prec emax). assert (0 <= B2R (fmul b t)) by (rewrite V; apply (rnd_ge0 prec emax), Rmult_le_pos; [apply D|exact T0]).
  assert (0 <= B2R (fmul c g)). { assert (KT : (k <= emax - 2)%Z) by lia. destruct (below_top _ KT) as [T1 T2]. destruct G as [Fg G]. destruct (mul_fin prec emax c g Fc Fg) as [_ V2]; [rewrite Rabs_mult, (Rabs_pos_eq (B2R c)) by apply C; pose proof (Rabs_pos (B2R g)); nra|]. rewrite V2. apply (rnd_ge0 prec emax), Rmult_le_pos; [apply C|exact G0]. } lra.
Qed.
End Bounds.

(** Bias corrections. *)
Variable fpow : fl -> nat -> fl.
Hypothesis POW : shrinking_power prec emax fpow.
Lemma correction b j n : (3 <= emax)%Z -> (0 <= j <= prec)%Z -> is_decay j b -> (0 < n)%nat -> is_finite (fsub fone (fpow b n)) = true /\ bpow radix2 (- j) <= B2R (fsub fone (fpow b n)) <= 1.
Proof using POW.
  intros E3 J [F D] N. pose proof (bpow_gt_0 radix2 (- j)) as BJ. destruct (POW b n F ltac:(lra) N) as [FP P]. destruct (one_R prec emax) as [O1 O2].
  pose proof (Bminus_correct prec emax Hp He mode_NE fone (fpow b n) O1 FP) as C. cbn [round_mode] in C. rewrite O2 in C.
  assert (Q : bpow radix2 (- j) <= rnd (1 - B2R (fpow b n)) <= 1).
  { split.
    - apply round_ge_generic; auto with typeclass_instances; [apply (top_fmt prec emax); unfold SpecFloat.emin; pose proof (precmax prec emax); pose proof (prec1 prec); lia|lra].
    - rewrite <- O2. apply round_le_generic; auto with typeclass_instances; [apply (fmt_B2R prec emax)|rewrite O2; lra]. }
  assert (1 < bpow radix2 emax) by (change 1 with (bpow radix2 0); apply bpow_lt; pose proof (precmax prec emax); pose proof (prec1 prec); lia).
  rewrite Rlt_bool_true in C by (rewrite Rabs_pos_eq; lra). destruct C as [C1 [C2 _]]. unfold M_float.fsub. rewrite C1. split; [exact C2|exact Q].
Qed.
Lemma div_bound x y a e : is_finite x = true -> is_finite y = true -> bpow radix2 (- e) <= B2R y -> Rabs (B2R x) <= bpow radix2 a -> (0 <= a + e <= emax - 2)%Z ->
  is_finite (fdiv x y) = true /\ Rabs (B2R (fdiv x y)) <= bpow radix2 (a + e) /\ (0 <= B2R x -> 0 <= B2R (fdiv x y)).
Proof.
  intros Fx Fy Y X AE. pose proof (bpow_gt_0 radix2 (- e)) as BE. pose proof (bpow_gt_0 radix2 a) as BA.
  assert (Q : Rabs (B2R x / B2R y) <= bpow radix2 (a + e)).
  { unfold Rdiv. rewrite Rabs_mult, Rabs_inv, (Rabs_pos_eq (B2R y)) by lra. assert (EI : / B2R y <= bpow radix2 e) by (replace (bpow radix2 e) with (/ bpow radix2 (- e)) by (rewrite <- bpow_opp; f_equal; lia); apply Rinv_le_contravar; lra).
    rewrite bpow_plus. assert (0 < / B2R y) by (apply Rinv_0_lt_compat; lra). apply Rmult_le_compat; try lra. apply Rabs_pos. }
  pose proof (rnd_abs_le prec emax _ _ (fmt0 (a + e) ltac:(lia)) Q) as RQ. pose proof (Bdiv_correct prec emax Hp He mode_NE x y ltac:(lra)) as C. cbn [round_mode] in C.
  rewrite Rlt_bool_true in C by (eapply Rle_lt_trans; [exact RQ|apply bpow_lt; lia]). destruct C as [C1 [C2 _]]. unfold M_fwalk.fdiv. rewrite C1, C2, Fx. split; [reflexivity|]. split; [exact RQ|].
  intros X0. apply (rnd_ge0 prec emax). apply Rmult_le_pos; [exact X0|left; apply Rinv_0_lt_compat; lra].
Qed.
Lemma sqrt_rate x q : is_rate x -> B2R x <= bpow radix2 q -> (0 <= q)%Z -> is_rate (Bsqrt mode_NE x) /\ B2R (Bsqrt mode_NE x) <= bpow radix2 q.
Proof.
  intros [F X] L Q. destruct (Bsqrt_correct prec emax Hp He mode_NE x) as [V [C _]]. cbn [round_mode] in V.
  assert (FS : is_finite (Bsqrt mode_NE x) = true). { rewrite C. destruct x as [s|s| |s m e B]; try discriminate; [reflexivity|]. destruct s; [|reflexivity]. exfalso. cbn in X. assert (F2R (Float radix2 (Z.neg m) e) < 0) by (apply F2R_lt_0; cbn; lia). lra. }
  split; [split; [exact FS|]|]; rewrite V; [apply (rnd_ge0 prec emax), sqrt_pos|]. apply round_le_generic; auto with typeclass_instances; [apply fmt0; exact Q|].
  assert (1 <= bpow radix2 q) by (change 1 with (bpow radix2 0); apply bpow_le; exact Q). rewrite <- (sqrt_square (bpow radix2 q)) by lra. apply sqrt_le_1_alt. nra.
Qed.
Lemma add_rates x y q e : is_rate x -> is_finite y = true -> bpow radix2 e <= B2R y <= bpow radix2 q -> B2R x <= bpow radix2 q -> (0 <= q <= emax - 3)%Z -> (emin <= e)%Z ->
  is_finite (fadd x y) = true /\ bpow radix2 e <= B2R (fadd x y) <= bpow radix2 (1 + q).
Proof.
  intros [Fx X] Fy Y L Q E. pose proof (bpow_gt_0 radix2 e) as BE. assert (B1 : bpow radix2 (1 + q) = 2 * bpow radix2 q) by (rewrite bpow_plus; reflexivity).
  destruct (fadd_spec prec emax x y (bpow radix2 (1 + q)) Fx Fy) as [A [V W]]; [apply fmt0; lia|apply bpow_lt; lia|rewrite Rabs_pos_eq by lra; lra|]. split; [exact A|]. split; [|eapply Rle_trans; [apply Rle_abs|exact W]].
  rewrite V. apply round_ge_generic; auto with typeclass_instances; [apply (top_fmt prec emax); exact E|lra].
Qed.
Lemma add_rate0 x y q : is_rate x -> is_rate y -> B2R x <= bpow radix2 q -> B2R y <= bpow radix2 q -> (0 <= q <= emax - 3)%Z -> is_rate (fadd x y) /\ B2R (fadd x y) <= bpow radix2 (1 + q).
Proof.
  intros [Fx X] [Fy Y] L L' Q. assert (B1 : bpow radix2 (1 + q) = 2 * bpow radix2 q) by (rewrite bpow_plus; reflexivity).
  destruct (fadd_spec prec emax x y (bpow radix2 (1 + q)) Fx Fy) as [A [V W]]; [apply fmt0; lia|apply bpow_lt; lia|rewrite Rabs_pos_eq by lra; lra|].
  split; [split; [exact A|rewrite V; apply (rnd_ge0 prec emax); lra]|eapply Rle_trans; [apply Rle_abs|exact W]].
Qed.

Section AdamBounds.
Variable c : adam_numbers prec emax.
Variables k j e : Z.
Hypothesis K : (0 <= k)%Z.
Hypothesis J : (0 <= j <= prec)%Z.
Hypothesis E : (0 <= e <= emax - 3)%Z.
Hypothesis B1 : is_decay j (b1 _ _ c).
Hypothesis B2 : is_decay j (b2 _ _ c).
Hypothesis C1 : is_finite (b1_c _ _ c) = true /\ 0 <= B2R (b1_c _ _ c) <= 1.
Hypothesis C2 : is_finite (b2_c _ _ c) = true /\ 0 <= B2R (b2_c _ _ c) <= 1.
Hypothesis EPS : is_finite (eps _ _ c) = true /\ bpow radix2 (- e) <= B2R (eps _ _ c) <= 1.
Hypothesis ROOT : is_finite (eps_root _ _ c) = true /\ 0 <= B2R (eps_root _ _ c) <= 1.
Hypothesis R1 : (k + j + j + e <= emax - 2)%Z.

Lemma direction_bound m v n : (2 * k + j + j + 4 <= emax)%Z -> is_finite m = true -> Rabs (B2R m) <= bpow radix2 (k + j) -> is_rate v -> B2R v <= bpow radix2 (2 * k + j) -> (0 < n)%nat ->
  is_finite (adam_direction prec emax fpow c m v n) = true /\ Rabs (B2R (adam_direction prec emax fpow c m v n)) <= bpow radix2 (k + j + j + e).
Proof using K J E B1 B2 EPS ROOT R1 POW.
  intros R2 Fm M [Fv V0] V N. destruct (correction _ j n ltac:(lia) J B1 N) as [F1 Q1]. destruct (correction _ j n ltac:(lia) J B2 N) as [F2 Q2]. pose proof (emin_neg prec emax) as EN. pose proof (precmax prec emax) as PM. pose proof (prec1 prec) as P1.
  destruct (div_bound m _ (k + j) j Fm F1 (proj1 Q1) M) as [A1 [A2 _]]; [lia|].
  destruct (div_bound v _ (2 * k + j) j Fv F2 (proj1 Q2)) as [D1 [D2 D3]]; [rewrite Rabs_pos_eq by exact V0; exact V|lia|]. specialize (D3 V0).
  assert (ONE : forall q, (0 <= q)%Z -> 1 <= bpow radix2 q) by (intros q H; change 1 with (bpow radix2 0); apply bpow_le; exact H).
  unfold adam_direction. set (mh := bias_correction prec emax fpow (b1 _ _ c) m n). set (vh := bias_correction prec emax fpow (b2 _ _ c) v n).
  assert (VR : is_rate vh) by (split; assumption). assert (VB : B2R vh <= bpow radix2 (2 * k + j + j)) by (eapply Rle_trans; [apply Rle_abs|exact D2]).
  assert (RR : is_rate (eps_root _ _ c)) by (split; apply ROOT). pose proof (ONE (2 * k + j + j)%Z ltac:(lia)) as O1.
  destruct (add_rate0 vh (eps_root _ _ c) (2 * k + j + j) VR RR VB ltac:(lra) ltac:(lia)) as [S1 S2].
  destruct (sqrt_rate _ (1 + (2 * k + j + j)) S1 S2 ltac:(lia)) as [T1 T2].
  pose proof (ONE (1 + (2 * k + j + j))%Z ltac:(lia)) as O2. destruct EPS as [FE [EL EU]].
  destruct (add_rates _ (eps _ _ c) (1 + (2 * k + j + j)) (- e) T1 FE (conj EL (Rle_trans _ _ _ EU O2)) T2) as [U1 U2]; [lia|unfold SpecFloat.emin; lia|].
  destruct (div_bound mh _ (k + j + j) e A1 U1 (proj1 U2) A2) as [W1 [W2 _]]; [lia|]. split; assumption.
Qed.

Definition good (s : state prec emax) : Prop := is_finite (mu _ _ s) = true /\ Rabs (B2R (mu _ _ s)) <= bpow radix2 (k + j) /\ is_rate (nu _ _ s) /\ B2R (nu _ _ s) <= bpow radix2 (2 * k + j).
Lemma square_bound g : (2 * k + j <= emax - 2)%Z -> is_gradient k g -> is_gradient (2 * k) (fmul g g) /\ 0 <= B2R (fmul g g).
Proof using K J.
  intros R2 [F G]. assert (P : 0 <= B2R g * B2R g <= bpow radix2 (2 * k)). { replace (2 * k)%Z with (k + k)%Z by lia. rewrite bpow_plus. assert (Q : B2R g * B2R g = Rabs (B2R g) * Rabs (B2R g)) by (rewrite <- Rabs_mult, Rabs_pos_eq; [reflexivity|nra]). rewrite Q. pose proof (Rabs_pos (B2R g)). split; [nra|]. apply Rmult_le_compat; lra. }
  destruct (mul_fin prec emax g g F F) as [A V]; [rewrite Rabs_pos_eq by lra; apply Rle_trans with (bpow radix2 (2 * k)); [lra|apply bpow_le; lia]|].
  split; [split; [exact A|]|]; rewrite V; [apply (rnd_abs_le prec emax); [apply fmt0; lia|rewrite Rabs_pos_eq; lra]|apply (rnd_ge0 prec emax); lra].
Qed.
Lemma good_step s g : (2 * k + j + j + 4 <= emax)%Z -> good s -> is_gradient k g ->
  good (snd (direction prec emax fpow (Adam _ _ c) s g)) /\ is_finite (fst (direction prec emax fpow (Adam _ _ c) s g)) = true /\ Rabs (B2R (fst (direction prec emax fpow (Adam _ _ c) s g))) <= bpow radix2 (k + j + j + e).
Proof using K J E B1 B2 C1 C2 EPS ROOT R1 POW.
  intros R2 [M1 [M2 [[V1 V2] V3]]] G. assert (KJ : (k + j <= emax - 2)%Z) by lia. assert (KJ2 : (2 * k + j <= emax - 2)%Z) by lia. destruct (square_bound g KJ2 G) as [GG G0].
  destruct (moment_bound k j K J KJ _ _ g (mu _ _ s) (proj1 C1) (proj2 C1) B1 G M1 M2) as [X1 [X2 _]].
  destruct (moment_bound (2 * k) j ltac:(lia) J KJ2 _ _ (fmul g g) (nu _ _ s) (proj1 C2) (proj2 C2) B2 GG V1) as [Y1 [Y2 Y3]]; [rewrite Rabs_pos_eq by exact V2; exact V3|]. specialize (Y3 G0 V2).
  cbn [direction fst snd]. split.
  - split; [exact X1|]. split; [exact X2|]. split; [split; [exact Y1|exact Y3]|]. eapply Rle_trans; [apply Rle_abs|exact Y2].
  - apply direction_bound; [exact R2|exact X1|exact X2|split; [exact Y1|exact Y3]|eapply Rle_trans; [apply Rle_abs|exact Y2]|lia].
Qed.
Lemma good_run sch ps gs : (2 * k + j + j + 4 <= emax)%Z -> good (snd ps) -> Forall (is_gradient k) gs -> good (snd (run prec emax fpow (Adam _ _ c) sch ps gs)).
Proof using K J E B1 B2 C1 C2 EPS ROOT R1 POW.
  intros R2 G0 G. revert ps G0. induction G as [|g gs Gg G IH]; intros ps G0; [exact G0|]. cbn [run fold_left]. apply IH. cbn [step snd]. apply (good_step (snd ps) g R2 G0 Gg).
Qed.
Lemma good_initial : good (initial prec emax).
Proof.
  unfold good. cbn [initial mu nu is_finite B2R M_float.fzero]. rewrite Rabs_R0. pose proof (bpow_gt_0 radix2 (k + j)). pose proof (bpow_gt_0 radix2 (2 * k + j)). split; [reflexivity|]. split; [lra|]. split; [split; [reflexivity|cbn [B2R M_float.fzero]; lra]|lra].
Qed.

(** ** An infinite second moment *)
Hypothesis PB2 : 0 < B2R (b2 _ _ c).
Hypothesis PC2 : 0 < B2R (b2_c _ _ c).
Definition frozen (s : state prec emax) : Prop := is_finite (mu _ _ s) = true /\ Rabs (B2R (mu _ _ s)) <= bpow radix2 (k + j) /\ nu _ _ s = pinf.
Definition running (s : state prec emax) : Prop := is_finite (mu _ _ s) = true /\ Rabs (B2R (mu _ _ s)) <= bpow radix2 (k + j) /\ positive (nu _ _ s).
Lemma pos_scale b x : is_finite b = true -> 0 < B2R b -> positive x -> positive (fmul b x) /\ (x = pinf -> fmul b x = pinf).
Proof.
  intros F P X. pose proof (sign_of_pos prec emax b F P) as S. destruct (positive_cases prec emax x X) as [I|Fx].
  - rewrite I. destruct b as [s|s| |s m q H]; cbn in F, P, S; try discriminate; [lra|]. subst. split; [split; reflexivity|reflexivity].
  - split; [|intros ->; discriminate]. destruct (mul_sign prec emax b x F Fx) as [A D]. split; [exact A|]. rewrite D, S, (proj2 X). reflexivity.
Qed.
Lemma running_step s g : running s -> is_gradient k g -> running (snd (direction prec emax fpow (Adam _ _ c) s g)).
Proof using K J E B1 B2 C1 C2 R1 PB2 PC2.
  intros [M1 [M2 V]] G. assert (KJ : (k + j <= emax - 2)%Z) by lia. destruct (moment_bound k j K J KJ _ _ g (mu _ _ s) (proj1 C1) (proj2 C1) B1 G M1 M2) as [X1 [X2 _]]. cbn [direction snd].
  split; [exact X1|]. split; [exact X2|]. unfold nu, moment_update. apply pos_add.
  - apply (pos_scale _ _ (proj1 C2) PC2). apply pos_square. apply G.
  - apply (pos_scale _ _ (proj1 B2) PB2). exact V.
Qed.
Lemma zero_div m y : is_finite m = true -> y = pinf -> is_finite (fdiv m y) = true /\ B2R (fdiv m y) = 0.
Proof. intros F ->. destruct m; try discriminate; split; reflexivity. Qed.
Lemma frozen_step s g : running s -> is_gradient k g -> (fmul g g = pinf \/ nu _ _ s = pinf) ->
  frozen (snd (direction prec emax fpow (Adam _ _ c) s g)) /\ is_finite (fst (direction prec emax fpow (Adam _ _ c) s g)) = true /\ B2R (fst (direction prec emax fpow (Adam _ _ c) s g)) = 0.
Proof using K J E B1 B2 C1 C2 EPS ROOT R1 PB2 PC2 POW.
  intros RS G H. destruct (running_step s g RS G) as [X1 [X2 X3]]. destruct RS as [M1 [M2 V]].
  assert (I : moment_update prec emax (b2_c _ _ c) (b2 _ _ c) (fmul g g) (nu _ _ s) = pinf).
  { destruct (pos_scale _ (fmul g g) (proj1 C2) PC2 (pos_square prec emax g (proj1 G))) as [P1 P2]. destruct (pos_scale _ (nu _ _ s) (proj1 B2) PB2 V) as [P3 P4]. unfold moment_update.
    destruct H as [H|H]; [rewrite (P2 H); apply add_inf_l; exact P3|rewrite (P4 H); apply add_inf_r; exact P1]. }
  cbn [direction fst snd] in *. cbn [mu nu] in X1, X2. rewrite I. split; [split; [exact X1|split; [exact X2|reflexivity]]|].
  set (m := moment_update _ _ _ _ g _) in *. unfold adam_direction.
  destruct (correction _ j (Datatypes.S (count _ _ s)) ltac:(lia) J B1 ltac:(lia)) as [F1 Q1]. destruct (correction _ j (Datatypes.S (count _ _ s)) ltac:(lia) J B2 ltac:(lia)) as [F2 Q2].
  destruct (div_bound m _ (k + j) j X1 F1 (proj1 Q1) X2) as [A1 _]; [lia|]. apply zero_div; [exact A1|].
  assert (VI : bias_correction prec emax fpow (b2 _ _ c) pinf (Datatypes.S (count _ _ s)) = pinf).
  { unfold bias_correction. pose proof (bpow_gt_0 radix2 (- j)) as BJ. assert (P : 0 < B2R (fsub fone (fpow (b2 _ _ c) (Datatypes.S (count _ _ s))))) by lra. pose proof (sign_of_pos prec emax _ F2 P) as S.
    clear - F2 P S. revert F2 P S. generalize (fsub fone (fpow (b2 _ _ c) (Datatypes.S (count _ _ s)))). intros y F2 P S. destruct y as [q|q| |q mm ee HH]; cbn in F2, P, S; try discriminate; [lra|]. subst. reflexivity. }
  rewrite VI.
  assert (EI : forall x : fl, is_finite x = true -> fadd pinf x = pinf) by (intros x Fx; destruct x as [q|q| |q mm ee HH]; try discriminate; reflexivity).
  rewrite EI by apply ROOT. change (Bsqrt mode_NE pinf) with pinf. apply EI. apply EPS.
Qed.
Lemma add_zero x z : is_finite x = true -> is_finite z = true -> B2R z = 0 -> is_finite (fadd x z) = true /\ B2R (fadd x z) = B2R x.
Proof.
  intros Fx Fz Z. pose proof (Bplus_correct prec emax Hp He mode_NE x z Fx Fz) as C. cbn [round_mode] in C. rewrite Z, Rplus_0_r, (rnd_id prec emax) in C. rewrite Rlt_bool_true in C by apply abs_B2R_lt_emax. destruct C as [D1 [D2 _]]. split; assumption.
Qed.
Lemma times_zero r z : is_finite r = true -> is_finite z = true -> B2R z = 0 -> is_finite (fmul (Bopp r) z) = true /\ B2R (fmul (Bopp r) z) = 0.
Proof.
  intros Fr Fz Z. pose proof (bpow_gt_0 radix2 (emax - 1)). destruct (mul_fin prec emax (Bopp r) z) as [A V]; [rewrite is_finite_Bopp; exact Fr|exact Fz|rewrite Z, Rmult_0_r, Rabs_R0; lra|]. split; [exact A|]. rewrite V, Z, Rmult_0_r. apply (rnd_0 prec emax).
Qed.
Lemma still sch ps g : (forall t, is_finite (rate prec emax sch t) = true) -> is_finite (fst ps) = true -> running (snd ps) -> is_gradient k g -> (fmul g g = pinf \/ nu _ _ (snd ps) = pinf) ->
  let ps' := step prec emax fpow (Adam _ _ c) sch ps g in is_finite (fst ps') = true /\ B2R (fst ps') = B2R (fst ps) /\ frozen (snd ps').
Proof using K J E B1 B2 C1 C2 EPS ROOT R1 PB2 PC2 POW.
  intros RT Fp RS G H ps'. destruct (frozen_step (snd ps) g RS G H) as [A [D F]]. unfold ps', step, update. cbn [fst snd].
  destruct (times_zero _ _ (RT (count _ _ (snd ps))) D F) as [T1 T2]. destruct (add_zero _ _ Fp T1 T2) as [X1 X2]. split; [exact X1|]. split; [exact X2|exact A].
Qed.
Lemma frozen_for_ever sch ps gs : (forall t, is_finite (rate prec emax sch t) = true) -> is_finite (fst ps) = true -> frozen (snd ps) -> Forall (is_gradient k) gs ->
  let ps' := run prec emax fpow (Adam _ _ c) sch ps gs in is_finite (fst ps') = true /\ B2R (fst ps') = B2R (fst ps) /\ frozen (snd ps').
Proof using K J E B1 B2 C1 C2 EPS ROOT R1 PB2 PC2 POW.
  intros RT Fp FR G. revert ps Fp FR. induction G as [|g gs Gg G IH]; intros ps Fp FR; [split; [exact Fp|split; [reflexivity|exact FR]]|].
  assert (RS : running (snd ps)) by (destruct FR as [X [Y Z]]; split; [exact X|split; [exact Y|rewrite Z; split; reflexivity]]).
  destruct (still sch ps g RT Fp RS Gg (or_intror (proj2 (proj2 FR)))) as [X1 [X2 X3]]. cbn [run fold_left]. destruct (IH _ X1 X3) as [Y1 [Y2 Y3]]. cbn zeta. split; [exact Y1|]. split; [unfold run in Y2; rewrite Y2; exact X2|exact Y3].
Qed.
Lemma running_run sch ps gs : running (snd ps) -> Forall (is_gradient k) gs -> running (snd (run prec emax fpow (Adam _ _ c) sch ps gs)).
Proof using K J E B1 B2 C1 C2 R1 PB2 PC2.
  intros G0 G. revert ps G0. induction G as [|g gs Gg G IH]; intros ps G0; [exact G0|]. cbn [run fold_left]. apply IH. cbn [step snd]. apply (running_step (snd ps) g G0 Gg).
Qed.
Lemma running_initial : running (initial prec emax).
Proof. unfold running. cbn. rewrite Rabs_R0. pose proof (bpow_gt_0 radix2 (k + j)). split; [reflexivity|]. split; [lra|split; reflexivity]. Qed.
End AdamBounds.
End Proofs.

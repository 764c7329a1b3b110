(** P_fpotential: relative errors, and their propagation through Coulomb potentials. *)
From Coq Require Import ZArith Reals.
From Flocq Require Import Core IEEE754.BinarySingleNaN.
From Coq Require Import Lia Lra List Permutation Bool Arith.
Import ListNotations.
From Verif Require Import M_float S_float P_float P_float2 M_fwalk S_fwalk P_fwalk P_fwalk2 M_fenergy S_fenergy P_fenergy P_fenergy2 P_fenergy3 M_fpotential S_fpotential.
Open Scope R_scope.

Lemma total_nonneg {T} (f : T -> R) l : (forall z, In z l -> 0 <= f z) -> 0 <= total (map f l).
Proof. induction l as [|z l IH]; intros H; [cbn; lra|]. change (0 <= f z + total (map f l)). pose proof (H z (or_introl eq_refl)). specialize (IH (fun w Hw => H w (or_intror Hw))). lra. Qed.

Section Near.
Variable u : R.
Hypothesis U : 0 < u <= / 2.
Definition g : R := / (1 - u).
Lemma g1 : 1 <= g.
Proof. unfold g. rewrite <- Rinv_1 at 1. apply Rinv_le_contravar; lra. Qed.
Lemma g2 : g <= 2.
Proof. unfold g. replace 2 with (/ / 2) by lra. apply Rinv_le_contravar; lra. Qed.
Lemma gu : g * (1 - u) = 1. Proof. unfold g. field. lra. Qed.
Lemma gp p : 1 <= g ^ p. Proof. apply pow_R1_Rle, g1. Qed.
Lemma gle p q : (p <= q)%nat -> g ^ p <= g ^ q. Proof. intros H. apply Rle_pow; [apply g1|exact H]. Qed.

Definition near (p : nat) (x y : R) : Prop := 0 <= x /\ 0 <= y /\ x <= y * g ^ p /\ y <= x * g ^ p.
Lemma near_refl p x : 0 <= x -> near p x x.
Proof. intros H. pose proof (gp p). repeat split; try exact H; nra. Qed.
Lemma near_mono p q x y : (p <= q)%nat -> near p x y -> near q x y.
Proof. intros L [A [B [C D]]]. pose proof (gle p q L). repeat split; try assumption; nra. Qed.
Lemma near_trans p q x y z : near p x y -> near q y z -> near (p + q) x z.
Proof.
  intros [A [B [C D]]] [_ [B' [C' D']]]. pose proof (gp p). pose proof (gp q). repeat split; try assumption; rewrite pow_add.
  - eapply Rle_trans; [exact C|]. rewrite (Rmult_comm (g ^ p)), <- Rmult_assoc. apply Rmult_le_compat_r; lra.
  - eapply Rle_trans; [exact D'|]. rewrite <- Rmult_assoc. apply Rmult_le_compat_r; lra.
Qed.
Lemma near_mul p q x y x' y' : near p x y -> near q x' y' -> near (p + q) (x * x') (y * y').
Proof.
  intros [A [B [C D]]] [A' [B' [C' D']]]. repeat split; try (apply Rmult_le_pos; assumption); rewrite pow_add.
  - replace (y * y' * (g ^ p * g ^ q)) with ((y * g ^ p) * (y' * g ^ q)) by ring. apply Rmult_le_compat; assumption.
  - replace (x * x' * (g ^ p * g ^ q)) with ((x * g ^ p) * (x' * g ^ q)) by ring. apply Rmult_le_compat; assumption.
Qed.
Lemma near_pos p x y : near p x y -> 0 < x -> 0 < y.
Proof. intros [A [B [C D]]] H. destruct B as [B|B]; [exact B|]. exfalso. rewrite <- B, Rmult_0_l in C. lra. Qed.
Lemma near_inv p x y : near p x y -> 0 < x -> near p (/ x) (/ y).
Proof.
  intros N H. pose proof (near_pos _ _ _ N H) as Y. destruct N as [_ [_ [C D]]]. pose proof (gp p).
  split; [left; apply Rinv_0_lt_compat; exact H|]. split; [left; apply Rinv_0_lt_compat; exact Y|]. split.
  - apply (Rmult_le_reg_r (x * y)); [nra|]. replace (/ x * (x * y)) with y by (field; lra). replace (/ y * g ^ p * (x * y)) with (x * g ^ p) by (field; lra). exact D.
  - apply (Rmult_le_reg_r (x * y)); [nra|]. replace (/ y * (x * y)) with x by (field; lra). replace (/ x * g ^ p * (x * y)) with (y * g ^ p) by (field; lra). exact C.
Qed.
Lemma near_sqrt p x y : near p x y -> near p (sqrt x) (sqrt y).
Proof.
  intros [A [B [C D]]]. pose proof (gp p) as G. assert (S : sqrt (g ^ p) <= g ^ p).
  { rewrite <- (sqrt_Rsqr (g ^ p)) at 2 by lra. apply sqrt_le_1_alt. unfold Rsqr. nra. }
  pose proof (sqrt_pos x). pose proof (sqrt_pos y). repeat split; try assumption.
  - eapply Rle_trans; [apply sqrt_le_1_alt; exact C|]. rewrite sqrt_mult by lra. nra.
  - eapply Rle_trans; [apply sqrt_le_1_alt; exact D|]. rewrite sqrt_mult by lra. nra.
Qed.
Lemma near_plus p x y x' y' : near p x y -> near p x' y' -> near p (x + x') (y + y').
Proof. intros [A [B [C D]]] [A' [B' [C' D']]]. repeat split; lra. Qed.
Lemma near_total {T} p (f h : T -> R) l : (forall z, In z l -> near p (f z) (h z)) -> near p (total (map f l)) (total (map h l)).
Proof. induction l as [|z l IH]; intros H; [apply near_refl; cbn; lra|]. cbn [map]. apply near_plus; [apply H; left; reflexivity|apply IH; intros w Hw; apply H; right; exact Hw]. Qed.
Lemma near_rel x z : 0 <= x -> Rabs (z - x) <= u * x -> near 1 x z.
Proof.
  intros X H. apply Rabs_le_inv in H. pose proof g1. pose proof gu. assert (0 <= z) by nra. unfold near. rewrite pow_1. repeat split; try assumption; [|nra].
  assert (x * (1 - u) <= z) by lra. replace x with (x * (1 - u) * g) by (rewrite Rmult_assoc, (Rmult_comm _ g), gu; ring). apply Rmult_le_compat_r; lra.
Qed.
Lemma bernoulli p : 1 - INR p * u <= (1 - u) ^ p.
Proof.
  induction p as [|p IH]; [cbn; lra|]. rewrite S_INR. cbn [pow]. assert (P : 0 <= INR p) by apply pos_INR. assert (Q : (1 - u) * (1 - INR p * u) <= (1 - u) * (1 - u) ^ p) by (apply Rmult_le_compat_l; lra). nra.
Qed.
Lemma g_bound p : INR p * u <= / 2 -> g ^ p <= 1 + 2 * (INR p * u).
Proof.
  intros H. assert (P : 0 <= INR p) by apply pos_INR. assert (Z : 0 <= INR p * u) by nra. pose proof (bernoulli p) as B. unfold g. rewrite pow_inv. apply (Rmult_le_reg_r ((1 - u) ^ p)); [apply pow_lt; lra|]. rewrite Rinv_l by (apply pow_nonzero; lra). nra.
Qed.
Lemma g_two p : INR p * u <= / 2 -> g ^ p <= 2.
Proof. intros H. pose proof (g_bound p H). lra. Qed.
Lemma near_err p x y : INR p * u <= / 2 -> near p x y -> Rabs (y - x) <= 2 * INR p * u * x.
Proof.
  intros H [A [B [C D]]]. pose proof (g_bound p H) as G. pose proof (gp p). apply Rabs_le. split; [|nra].
  assert (x <= y * (1 + 2 * (INR p * u))) by nra. assert (0 <= INR p * u) by (pose proof (pos_INR p); nra).
  destruct (Rle_or_lt x y); [nra|]. assert (y * (2 * (INR p * u)) <= x * (2 * (INR p * u))) by nra. lra.
Qed.
End Near.

Section Potential.
Variables prec emax : Z.
Context {Hp : Prec_gt_0 prec}.
Context {He : Prec_lt_emax prec emax}.
Notation fl := (binary_float prec emax).
Notation ex := (SpecFloat.fexp prec emax).
Notation emin := (SpecFloat.emin prec emax).
Notation rnd := (round radix2 ex ZnearestE).
Notation u := (unit_roundoff prec).
Notation fadd := (fadd prec emax). Notation fsub := (fsub prec emax). Notation fmul := (fmul prec emax).
Notation fdiv := (fdiv prec emax). Notation fzero := (fzero prec emax). Notation fone := (fone prec emax).
Notation near := (near u).
Notation g := (g u).
Local Instance ex_valid9 : Valid_exp ex := FLT_exp_valid emin prec.

Lemma uu : 0 < u <= / 2. Proof. split; [apply u_pos|apply u_half]; exact Hp. Qed.
Definition tiny : R := bpow radix2 (2 - emax).
Lemma tiny_normal : bpow radix2 (emin + prec - 1) = tiny. Proof. unfold tiny, SpecFloat.emin. f_equal. lia. Qed.
Lemma tiny_pos : 0 < tiny. Proof. apply bpow_gt_0. Qed.

Lemma rnd_rel x : tiny <= x -> near 1 x (rnd x).
Proof.
  intros H. pose proof tiny_pos. apply near_rel; [apply uu|lra|]. apply (P_fwalk2.rnd_err prec emax); [rewrite tiny_normal; exact H|rewrite Rabs_pos_eq; lra].
Qed.
Lemma rnd_abs_err x : 0 <= x -> Rabs (rnd x - x) <= u * x + u * tiny.
Proof.
  intros H. pose proof tiny_pos. pose proof uu as U. destruct (Rle_or_lt tiny x) as [C|C].
  - eapply Rle_trans; [apply (P_fwalk2.rnd_err prec emax) with (M := x); [rewrite tiny_normal; exact C|rewrite Rabs_pos_eq; lra]|nra].
  - eapply Rle_trans; [apply (P_fwalk2.rnd_err prec emax) with (M := tiny); [rewrite tiny_normal; lra|rewrite Rabs_pos_eq; lra]|nra].
Qed.
Lemma rnd_ge0 x : 0 <= x -> 0 <= rnd x. Proof. intros H. apply (rnd_nonneg prec emax). exact H. Qed.

Lemma top_fmt j : (emin <= j)%Z -> generic_format radix2 ex (bpow radix2 j). Proof. intros H. apply (fmt_bpow prec emax). exact H. Qed.

(** Sums of numbers that are not negative. *)
Lemma rsum_nonneg l : (forall x : fl, In x l -> 0 <= B2R x) -> 0 <= rsum prec emax l.
Proof. unfold rsum. induction l as [|x l IH]; intros H; [cbn; lra|]. cbn [map fold_right]. pose proof (H x (or_introl eq_refl)). specialize (IH (fun y Hy => H y (or_intror Hy))). lra. Qed.
Lemma emax1 : (emin <= emax - 1)%Z. Proof. unfold SpecFloat.emin. pose proof (prec1 prec). pose proof (precmax prec emax). lia. Qed.

Lemma eval_near t : (forall x, In x (leaves prec emax t) -> is_finite x = true /\ 0 <= B2R x) ->
  rsum prec emax (leaves _ _ t) * g ^ (weight prec emax (leaves _ _ t)) <= bpow radix2 (emax - 1) ->
  is_finite (eval _ _ t) = true /\ near (weight prec emax (leaves _ _ t)) (rsum prec emax (leaves _ _ t)) (B2R (eval _ _ t)) /\ (weight prec emax (leaves _ _ t) = O -> B2R (eval _ _ t) = 0).
Proof.
  pose proof uu as U. induction t as [x|a IHa b IHb]; intros L W; cbn [leaves eval] in *.
  - destruct (L x (or_introl eq_refl)) as [F B]. split; [exact F|]. replace (rsum prec emax [x]) with (B2R x) by (unfold rsum; cbn; ring). split; [apply near_refl; [exact U|exact B]|].
    unfold weight, nonzero. cbn. case Req_bool_spec; [intros E _; exact E|discriminate].
  - rewrite weight_app in *. rewrite rsum_app in *. set (wa := weight prec emax (leaves _ _ a)) in *. set (wb := weight prec emax (leaves _ _ b)) in *.
    set (ra := rsum prec emax (leaves _ _ a)) in *. set (rb := rsum prec emax (leaves _ _ b)) in *.
    assert (La : forall x, In x (leaves prec emax a) -> is_finite x = true /\ 0 <= B2R x) by (intros x Hx; apply L, in_or_app; left; exact Hx).
    assert (Lb : forall x, In x (leaves prec emax b) -> is_finite x = true /\ 0 <= B2R x) by (intros x Hx; apply L, in_or_app; right; exact Hx).
    assert (Ra : 0 <= ra) by (apply rsum_nonneg; intros x Hx; apply La; exact Hx). assert (Rb : 0 <= rb) by (apply rsum_nonneg; intros x Hx; apply Lb; exact Hx).
    pose proof (gle u U wa (wa + wb) ltac:(lia)) as Ga. pose proof (gle u U wb (wa + wb) ltac:(lia)) as Gb. pose proof (gp u U wa) as Ga1. pose proof (gp u U wb) as Gb1.
    destruct IHa as [Fa [Na Za]]; [exact La|fold ra wa; nra|]. destruct IHb as [Fb [Nb Zb]]; [exact Lb|fold rb wb; nra|]. fold ra wa in Na, Za. fold rb wb in Nb, Zb.
    pose proof Na as [_ [Pa [_ Ta]]]. pose proof Nb as [_ [Pb [_ Tb]]].
    assert (S : Rabs (B2R (eval _ _ a) + B2R (eval _ _ b)) <= bpow radix2 (emax - 1)) by (rewrite Rabs_pos_eq by lra; nra).
    destruct (fadd_spec prec emax (eval _ _ a) (eval _ _ b) (bpow radix2 (emax - 1)) Fa Fb (top_fmt _ emax1) ltac:(apply bpow_lt; lia) S) as [F [V _]].
    split; [exact F|]. rewrite V. split.
    + destruct (Nat.eq_dec wa 0) as [E|E].
      { rewrite (Za E), Rplus_0_l, rnd_id. assert (ra = 0) by (destruct Na as [_ [_ [Q _]]]; rewrite (Za E), Rmult_0_l in Q; lra). rewrite H, Rplus_0_l, E. exact Nb. }
      destruct (Nat.eq_dec wb 0) as [E'|E'].
      { rewrite (Zb E'), Rplus_0_r, rnd_id. assert (rb = 0) by (destruct Nb as [_ [_ [Q _]]]; rewrite (Zb E'), Rmult_0_l in Q; lra). rewrite H, Rplus_0_r, E', Nat.add_0_r. exact Na. }
      apply (near_mono u U (Nat.max wa wb + 1)); [lia|]. apply (near_trans u U) with (y := B2R (eval _ _ a) + B2R (eval _ _ b)).
      * apply near_plus; [eapply (near_mono u U wa); [lia|exact Na]|eapply (near_mono u U wb); [lia|exact Nb]].
      * apply near_rel; [exact U|lra|]. eapply Rle_trans; [apply rnd_plus_err; [exact Hp|apply fmt_B2R|apply fmt_B2R]|]. rewrite Rabs_pos_eq; lra.
    + intros E. rewrite (Za ltac:(lia)), (Zb ltac:(lia)), Rplus_0_l. apply rnd_0.
Qed.

Lemma sum_near l s : is_sum prec emax l s -> (forall x, In x l -> is_finite x = true /\ 0 <= B2R x) ->
  rsum prec emax l * g ^ (length l) <= bpow radix2 (emax - 1) ->
  is_finite s = true /\ near (length l) (rsum prec emax l) (B2R s).
Proof.
  intros [t [k [P E]]] L W. pose proof uu as U. pose proof (weight_le prec emax l) as WL.
  assert (Lt : forall x, In x (leaves _ _ t) -> is_finite x = true /\ 0 <= B2R x).
  { intros x Hx. apply (Permutation_in _ P) in Hx. apply in_app_or in Hx. destruct Hx as [Hx|Hx]; [apply L; exact Hx|]. apply repeat_spec in Hx. subst x. split; [reflexivity|cbn; lra]. }
  assert (Wt : weight prec emax (leaves _ _ t) = weight prec emax l) by (rewrite (weight_perm prec emax _ _ P), weight_app, weight_zeros; lia).
  assert (Rt : rsum prec emax (leaves _ _ t) = rsum prec emax l) by (rewrite (rsum_perm prec emax _ _ P), rsum_app, rsum_zeros; lra).
  assert (R0 : 0 <= rsum prec emax l) by (apply rsum_nonneg; intros x Hx; apply L; exact Hx).
  destruct (eval_near t Lt) as [F [N _]]; [rewrite Rt, Wt; pose proof (gle u U _ _ WL); nra|]. rewrite Rt, Wt in N. rewrite E in *. split; [exact F|]. apply (near_mono u U _ _ _ _ WL N).
Qed.

Section Norm.
Variable fs : list fl -> fl.
Hypothesis SUM : forall l, is_sum prec emax l (fs l).

Lemma sub_near (x y : fl) : is_finite x = true -> is_finite y = true -> Rabs (B2R x - B2R y) <= bpow radix2 (emax - 1) ->
  is_finite (fsub x y) = true /\ near 1 (Rabs (B2R x - B2R y)) (Rabs (B2R (fsub x y))).
Proof.
  intros Fx Fy B. pose proof uu as U. pose proof (Bminus_correct prec emax Hp He mode_NE x y Fx Fy) as C. cbn [round_mode] in C.
  pose proof (rnd_abs_le prec emax _ _ (top_fmt _ emax1) B) as RB. rewrite Rlt_bool_true in C by (eapply Rle_lt_trans; [exact RB|apply bpow_lt; lia]). destruct C as [C1 [C2 _]]. unfold M_float.fsub. rewrite C1. split; [exact C2|].
  apply near_rel; [exact U|apply Rabs_pos|]. eapply Rle_trans; [apply Rabs_triang_inv2|].
  replace (B2R x - B2R y) with (B2R x + - B2R y) by ring. apply rnd_plus_err; [exact Hp|apply fmt_B2R|apply generic_format_opp, fmt_B2R].
Qed.

Lemma mul_fin (x y : fl) : is_finite x = true -> is_finite y = true -> Rabs (B2R x * B2R y) <= bpow radix2 (emax - 1) -> is_finite (fmul x y) = true /\ B2R (fmul x y) = rnd (B2R x * B2R y).
Proof.
  intros Fx Fy B. pose proof (Bmult_correct prec emax Hp He mode_NE x y) as C. cbn [round_mode] in C.
  pose proof (rnd_abs_le prec emax _ _ (top_fmt _ emax1) B) as RB. rewrite Rlt_bool_true in C by (eapply Rle_lt_trans; [exact RB|apply bpow_lt; lia]). destruct C as [C1 [C2 _]]. unfold M_float.fmul. rewrite C1, C2, Fx, Fy. split; reflexivity.
Qed.

(** A square is off by a relative error and by what may underflow. *)
Definition close (p : nat) (x y : R) : Prop := 0 <= x /\ 0 <= y /\ x <= (y + u * tiny) * g ^ p /\ y <= x * g ^ p + u * tiny.
Lemma square_close (d : fl) x : is_finite d = true -> near 1 x (Rabs (B2R d)) -> x ^ 2 * 4 <= bpow radix2 (emax - 1) ->
  is_finite (fmul d d) = true /\ close 3 (x ^ 2) (B2R (fmul d d)).
Proof.
  intros F N B. pose proof uu as U. pose proof (g2 u U) as G2. pose proof (g1 u U) as G1. pose proof N as [X [_ [_ T]]]. rewrite pow_1 in T. pose proof tiny_pos as TP.
  assert (SQ : B2R d * B2R d = Rabs (B2R d) * Rabs (B2R d)) by (rewrite <- Rabs_mult, Rabs_pos_eq by nra; reflexivity).
  pose proof (Rabs_pos (B2R d)) as DP.
  destruct (mul_fin d d F F) as [FM V]. { rewrite Rabs_mult. assert (D2 : Rabs (B2R d) <= 2 * x) by nra. assert (Rabs (B2R d) * Rabs (B2R d) <= (2 * x) * (2 * x)) by (apply Rmult_le_compat; lra). lra. }
  split; [exact FM|]. rewrite V. pose proof (near_mul u 1 1 _ _ _ _ N N) as [N1 [N2 [N3 N4]]]. rewrite <- SQ in *. change (1 + 1)%nat with 2%nat in *.
  pose proof (rnd_abs_err (B2R d * B2R d) N2) as E. apply Rabs_le_inv in E. pose proof (rnd_ge0 _ N2) as R0. set (z := rnd (B2R d * B2R d)) in *. set (q := B2R d * B2R d) in *.
  replace (x ^ 2) with (x * x) by ring. split; [exact N1|]. split; [exact R0|].
  assert (GU : g * (1 - u) = 1) by (apply gu; exact U). change (g ^ 3) with (g * g ^ 2). set (G := g ^ 2) in *. assert (GG : 1 <= G) by (apply gp; exact U). split.
  - assert (q <= (z + u * tiny) * g). { assert (q * (1 - u) <= z + u * tiny) by lra. replace q with (q * (1 - u) * g) by (rewrite Rmult_assoc, (Rmult_comm _ g), GU; ring). apply Rmult_le_compat_r; lra. }
    eapply Rle_trans; [exact N3|]. rewrite <- Rmult_assoc. apply Rmult_le_compat_r; lra.
  - assert (1 + u <= g) by nra. assert (z <= q * g + u * tiny) by nra. eapply Rle_trans; [eassumption|]. apply Rplus_le_compat_r. rewrite (Rmult_comm g), <- Rmult_assoc. apply Rmult_le_compat_r; lra.
Qed.

Lemma close_total {T} p (f h : T -> R) l : (forall z, In z l -> close p (f z) (h z)) ->
  0 <= total (map f l) /\ 0 <= total (map h l) /\ total (map f l) <= (total (map h l) + INR (length l) * (u * tiny)) * g ^ p /\ total (map h l) <= total (map f l) * g ^ p + INR (length l) * (u * tiny).
Proof.
  induction l as [|z l IH]; intros H; [cbn; lra|]. destruct (H z (or_introl eq_refl)) as [A [B [C D]]]. destruct IH as [A' [B' [C' D']]]; [intros w Hw; apply H; right; exact Hw|].
  cbn [map length]. rewrite S_INR. change (total (f z :: map f l)) with (f z + total (map f l)). change (total (h z :: map h l)) with (h z + total (map h l)). repeat split; lra.
Qed.

(** The softened norm. *)
Lemma norm_near D (soft : fl) x y : is_position prec emax D x -> is_position prec emax D y -> is_finite soft = true -> apart prec emax soft x y -> INR (D + 6) * u <= / 2 ->
  is_finite (soft_norm prec emax fs soft (displacement prec emax x y)) = true /\ near (D + 6) (distance prec emax soft x y) (B2R (soft_norm prec emax fs soft (displacement prec emax x y))) /\
  tiny < B2R (soft_norm prec emax fs soft (displacement prec emax x y)) <= bpow radix2 (emax - 2).
Proof.
  intros [Lx Fx] [Ly Fy] Fs [A1 A2] DU. pose proof uu as U. pose proof (g1 u U) as G1. pose proof (g2 u U) as G2. pose proof tiny_pos as TP. rewrite Lx in A1. set (s := squared_distance prec emax soft x y) in *.
  assert (D0 : 0 <= INR D) by apply pos_INR. rewrite plus_INR in A1, DU. change (INR 1) with 1 in A1. replace (INR 6) with 6 in DU by (cbn; lra).
  assert (U12 : u <= / 12) by nra.
  assert (EM : (5 <= emax)%Z). { pose proof (precmax prec emax) as PM. assert (Q : (- prec < -3)%Z). { apply (lt_bpow radix2). fold u. eapply Rle_lt_trans; [exact U12|]. cbn. lra. } lia. }
  assert (T8 : bpow radix2 (5 - emax) = 8 * tiny) by (unfold tiny; replace (5 - emax)%Z with (3 + (2 - emax))%Z by lia; rewrite bpow_plus; cbn; lra).
  rewrite T8 in A1. assert (S1 : (INR D + 1) * (u * tiny) <= u / 8 * s) by (apply (Rmult_le_compat_l (u / 8)) in A1; lra). assert (SP : 0 < s) by nra.
  assert (TOP : bpow radix2 (emax - 1) = 4 * bpow radix2 (emax - 3)) by (replace (emax - 1)%Z with (2 + (emax - 3))%Z by lia; rewrite bpow_plus; cbn; lra).
  assert (TOP2 : bpow radix2 (emax - 2) = 2 * bpow radix2 (emax - 3)) by (replace (emax - 2)%Z with (1 + (emax - 3))%Z by lia; rewrite bpow_plus; cbn; lra).
  assert (T1 : 1 <= bpow radix2 (emax - 3)) by (change 1 with (bpow radix2 0); apply bpow_le; lia). set (M := bpow radix2 (emax - 3)) in *.
  set (xy := combine x y). assert (LXY : length xy = D) by (unfold xy; rewrite combine_length; lia).
  assert (DISP : map (fun c => fmul c c) (displacement prec emax x y) = map (fun p => fmul (fsub (fst p) (snd p)) (fsub (fst p) (snd p))) xy).
  { unfold displacement, xy. clear. revert y. induction x as [|a x IH]; intros [|b y]; cbn; try reflexivity. rewrite IH. reflexivity. }
  set (sd := total (map (fun p => (B2R (fst p) - B2R (snd p)) ^ 2) xy)). assert (SE : s = sd + B2R soft ^ 2) by reflexivity.
  assert (SD0 : 0 <= sd) by (apply total_nonneg; intros; apply pow2_ge_0).
  assert (SF0 : 0 <= B2R soft ^ 2) by apply pow2_ge_0.
  assert (ONE : forall p, In p xy -> (B2R (fst p) - B2R (snd p)) ^ 2 <= M).
  { intros p Hp'. assert (Q : (B2R (fst p) - B2R (snd p)) ^ 2 <= sd); [|lra]. unfold sd. clear - Hp'. induction xy as [|q l IH]; [destruct Hp'|]. cbn [map]. change (total (?a :: ?l)) with (a + total l).
    assert (P : 0 <= total (map (fun p => (B2R (fst p) - B2R (snd p)) ^ 2) l)) by (apply total_nonneg; intros; apply pow2_ge_0).
    destruct Hp' as [<-|Hp']; [lra|]. specialize (IH Hp'). pose proof (pow2_ge_0 (B2R (fst q) - B2R (snd q))). lra. }
  assert (CL : forall p, In p xy -> is_finite (fmul (fsub (fst p) (snd p)) (fsub (fst p) (snd p))) = true /\ close 3 ((B2R (fst p) - B2R (snd p)) ^ 2) (B2R (fmul (fsub (fst p) (snd p)) (fsub (fst p) (snd p))))).
  { intros p Hp'. specialize (ONE p Hp'). assert (AB : Rabs (B2R (fst p) - B2R (snd p)) ^ 2 = (B2R (fst p) - B2R (snd p)) ^ 2) by apply pow2_abs.
    pose proof (Rabs_pos (B2R (fst p) - B2R (snd p))) as AP.
    assert (I : In (fst p) x /\ In (snd p) y) by (destruct p as [a b]; split; [eapply in_combine_l|eapply in_combine_r]; exact Hp').
    destruct (sub_near (fst p) (snd p) (Fx _ (proj1 I)) (Fy _ (proj2 I))) as [F N].
    { rewrite TOP. destruct (Rle_or_lt (Rabs (B2R (fst p) - B2R (snd p))) 1); [lra|]. assert (Rabs (B2R (fst p) - B2R (snd p)) <= Rabs (B2R (fst p) - B2R (snd p)) ^ 2) by nra. lra. }
    destruct (square_close _ _ F N) as [FM C]; [rewrite AB, TOP; lra|]. rewrite AB in C. split; assumption. }
  pose proof (close_total 3 _ (fun p => B2R (fmul (fsub (fst p) (snd p)) (fsub (fst p) (snd p)))) xy (fun p Hp' => proj2 (CL p Hp'))) as [_ [Q0 [Q1 Q2]]]. fold sd in Q1, Q2. rewrite LXY in Q1, Q2.
  set (sq := total (map (fun p => B2R (fmul (fsub (fst p) (snd p)) (fsub (fst p) (snd p)))) xy)) in *.
  assert (G3 : forall p, (p <= D + 6)%nat -> g ^ p <= 2).
  { intros p Hp'. apply g_two; [exact U|]. assert (INR p <= INR D + 6) by (replace 6 with (INR 6) by (cbn; lra); rewrite <- plus_INR; apply le_INR; exact Hp'). nra. }
  assert (G33 : 1 <= g ^ 3) by (apply gp; exact U). pose proof (G3 3%nat ltac:(lia)) as G32.
  assert (UT : 0 <= u * tiny) by nra.
  (* the sum of the squares *)
  destruct (sum_near (map (fun c => fmul c c) (displacement prec emax x y)) _ (SUM _)) as [FQ NQ].
  { intros c Hc. rewrite DISP in Hc. apply in_map_iff in Hc. destruct Hc as (p & <- & Hp'). destruct (CL p Hp') as [F [_ [C0 _]]]. split; assumption. }
  { rewrite DISP, map_length, LXY. unfold rsum. rewrite map_map. change (sq * g ^ D <= bpow radix2 (emax - 1)). pose proof (G3 D ltac:(lia)) as GD. pose proof (gp u U D). rewrite TOP.
    assert (C4 : sq * g ^ D <= (s * g ^ 3 + u / 8 * s) * g ^ D) by (apply Rmult_le_compat_r; [lra|]; nra).
    assert (C5 : g ^ 3 + u / 8 <= g ^ 4). { change (g ^ 4) with (g * g ^ 3). assert (1 + u <= g) by (pose proof (gu u U); nra). nra. }
    assert (C6 : g ^ 4 * g ^ D <= 2) by (rewrite <- pow_add; apply G3; lia).
    eapply Rle_trans; [exact C4|]. apply Rle_trans with (s * (g ^ 4 * g ^ D)); [|nra]. replace ((s * g ^ 3 + u / 8 * s) * g ^ D) with (s * ((g ^ 3 + u / 8) * g ^ D)) by ring. apply Rmult_le_compat_l; [lra|]. apply Rmult_le_compat_r; lra. }
  rewrite DISP, map_length, LXY in NQ. unfold rsum in NQ. rewrite map_map in NQ. change (near D sq (B2R (fs (map (fun p => fmul (fsub (fst p) (snd p)) (fsub (fst p) (snd p))) xy)))) in NQ. rewrite <- DISP in NQ.
  unfold soft_norm. set (t := fs (map (fun c => fmul c c) (displacement prec emax x y))) in *.
  (* the softening term *)
  assert (SFM : B2R soft ^ 2 * 4 <= bpow radix2 (emax - 1)) by (rewrite TOP; lra).
  assert (ABS : Rabs (B2R soft) ^ 2 = B2R soft ^ 2) by apply pow2_abs.
  destruct (square_close soft (Rabs (B2R soft)) Fs) as [FK K]; [apply near_refl; [exact U|apply Rabs_pos]|rewrite ABS; exact SFM|]. rewrite ABS in K. destruct K as [_ [K0 [K1 K2]]]. set (k := B2R (fmul soft soft)) in *.
  pose proof NQ as [_ [T0 [T1' T2]]]. pose proof (gp u U D) as GD1.
  assert (NS : near (D + 4) s (B2R t + k)).
  { assert (GU : g * (1 - u) = 1) by (apply gu; exact U). assert (G4 : g ^ (D + 4) = g * g ^ 3 * g ^ D) by (rewrite pow_add; cbn; ring).
    split; [lra|]. split; [lra|]. split.
    - assert (X1 : s <= (B2R t + k) * (g ^ 3 * g ^ D) + g ^ 3 * (u / 8 * s)).
      { assert (sd + B2R soft ^ 2 <= g ^ 3 * (sq + k + (INR D + 1) * (u * tiny))) by nra. assert (sq + k <= (B2R t + k) * g ^ D) by nra. rewrite SE at 1.
        replace ((B2R t + k) * (g ^ 3 * g ^ D)) with (g ^ 3 * ((B2R t + k) * g ^ D)) by ring. nra. }
      assert (US : 0 <= u / 8 * s) by nra. assert (X3 : g ^ 3 * (u / 8 * s) <= 2 * (u / 8 * s)) by (apply Rmult_le_compat_r; [exact US|exact G32]). assert (X2 : s * (1 - u) <= (B2R t + k) * (g ^ 3 * g ^ D)) by lra.
      rewrite G4. replace s with (s * (1 - u) * g) by (rewrite Rmult_assoc, (Rmult_comm _ g), GU; ring).
      replace ((B2R t + k) * (g * g ^ 3 * g ^ D)) with ((B2R t + k) * (g ^ 3 * g ^ D) * g) by ring. apply Rmult_le_compat_r; lra.
    - assert (C5 : g ^ 3 + u / 8 <= g ^ 4). { change (g ^ 4) with (g * g ^ 3). assert (1 + u <= g) by nra. nra. }
      assert (X1 : B2R t + k <= (sq + k) * g ^ D) by nra. assert (X2 : sq + k <= s * g ^ 4).
      { assert (sq + k <= s * g ^ 3 + (INR D + 1) * (u * tiny)) by (rewrite SE; nra). nra. }
      rewrite Nat.add_comm, pow_add, <- Rmult_assoc. eapply Rle_trans; [exact X1|]. apply Rmult_le_compat_r; lra. }
  assert (TK : Rabs (B2R t + k) <= bpow radix2 (emax - 1)).
  { rewrite Rabs_pos_eq by lra. destruct NS as [_ [_ [_ N4]]]. pose proof (G3 (D + 4)%nat ltac:(lia)). rewrite TOP. nra. }
  destruct (fadd_spec prec emax t (fmul soft soft) _ FQ FK (top_fmt _ emax1) ltac:(apply bpow_lt; lia) TK) as [FA [VA _]].
  assert (NA : near (D + 5) s (B2R (fadd t (fmul soft soft)))).
  { replace (D + 5)%nat with (D + 4 + 1)%nat by lia. apply (near_trans u U) with (1 := NS). rewrite VA. apply near_rel; [exact U|lra|]. eapply Rle_trans; [apply rnd_plus_err; [exact Hp|apply fmt_B2R|apply fmt_B2R]|]. fold k. rewrite Rabs_pos_eq; lra. }
  clear VA. set (r := fadd t (fmul soft soft)) in *. pose proof (near_pos u _ _ _ NA SP) as RP. pose proof (G3 (D + 5)%nat ltac:(lia)) as G5. pose proof NA as [_ [_ [NA3 NA4]]].
  destruct (Bsqrt_correct prec emax Hp He mode_NE r) as [C1 [C2 _]]. cbn [round_mode] in C1.
  assert (FS : is_finite (Bsqrt mode_NE r) = true). { rewrite C2. destruct r as [sg|sg| |sg m e H]; try discriminate; [reflexivity|]. destruct sg; [|reflexivity]. exfalso. pose proof (fin_neg prec emax m e H). lra. }
  assert (TT : tiny <= 1) by (unfold tiny; change 1 with (bpow radix2 0); apply bpow_le; lia).
  assert (RT : 4 * tiny <= B2R r) by nra.
  assert (SQT : 2 * tiny <= sqrt (B2R r)). { rewrite <- (sqrt_Rsqr (2 * tiny)) by lra. apply sqrt_le_1_alt. unfold Rsqr. nra. }
  assert (NF : near (D + 6) (distance prec emax soft x y) (B2R (Bsqrt mode_NE r))).
  { replace (D + 6)%nat with (D + 5 + 1)%nat by lia. apply (near_trans u U) with (y := sqrt (B2R r)); [apply near_sqrt; [exact U|exact NA]|]. rewrite C1. apply rnd_rel. lra. }
  split; [exact FS|]. split; [exact NF|]. split.
  - rewrite C1. assert (N1 : near 1 (sqrt (B2R r)) (rnd (sqrt (B2R r)))) by (apply rnd_rel; lra). destruct N1 as [_ [_ [N1 _]]]. rewrite pow_1 in N1. assert (G3' : g < 2). { assert (GU : g * (1 - u) = 1) by (apply gu; exact U). nra. }
    assert (0 < rnd (sqrt (B2R r))) by nra. nra.
  - destruct NF as [_ [_ [_ NF4]]]. assert (DB : distance prec emax soft x y <= M). { unfold distance. fold s. rewrite <- (sqrt_Rsqr M) by lra. apply sqrt_le_1_alt. unfold Rsqr. nra. }
    pose proof (G3 (D + 6)%nat ltac:(lia)). pose proof (sqrt_pos s). change (sqrt s) with (distance prec emax soft x y) in *. rewrite TOP2. nra.
Qed.
End Norm.
End Potential.

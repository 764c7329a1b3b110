(** P_fupdate3: the coefficient and the constrained update. *)
From Coq Require Import ZArith Reals.
From Flocq Require Import Core IEEE754.BinarySingleNaN.
From Coq Require Import Lia Lra List Permutation Bool Arith.
Import ListNotations.
From Verif Require Import M_float S_float P_float P_float2 M_fwalk S_fwalk P_fwalk P_fwalk2 M_fenergy S_fenergy P_fenergy P_fenergy2 P_fenergy3 M_fpotential S_fpotential P_fpotential M_fupdate S_fupdate P_fupdate P_fupdate2.
Open Scope R_scope.

Section Proofs.
Variables prec emax : Z.
Context {Hp : Prec_gt_0 prec}.
Context {He : Prec_lt_emax prec emax}.
Notation fl := (binary_float prec emax).
Notation ex := (SpecFloat.fexp prec emax).
Notation emin := (SpecFloat.emin prec emax).
Notation rnd := (round radix2 ex ZnearestE).
Notation u := (unit_roundoff prec).
Notation fadd := (fadd prec emax). Notation fsub := (fsub prec emax). Notation fmul := (fmul prec emax).
Notation fdiv := (fdiv prec emax). Notation fzero := (fzero prec emax). Notation fone := (fone prec emax).
Notation near := (near u).
Notation g := (g u).
Notation tiny := (tiny emax).
Notation positive := (positive prec emax).
Notation inner := (tree_inner_product prec emax).
Notation M := (bpow radix2 (emax - 4)).
Notation Y := (Y prec emax). Notation X := (squared_length prec emax).
Local Instance ex_valid12 : Valid_exp ex := FLT_exp_valid emin prec.
Variable fs : list fl -> fl.
Hypothesis SUM : forall l, is_sum prec emax l (fs l).
Variable n : nat.
Variable c : fl.
Variable ts : list (list (list fl)).
Variable pmapped : bool.
Hypothesis W : workable prec emax n (B2R c) ts.
Hypothesis FC : is_finite c = true.
Hypothesis FIN : all_numbers prec emax ts.
Hypothesis ONE : pmapped = false -> length ts = 1%nat.
Notation w0 := (u * tiny).
Notation Xa := (mean_squared_length prec emax ts).
Notation P := (2 * n + 4)%nat.
Notation sq := (pmean_if_pmap prec emax fs pmapped (map (fun t => inner fs t t) ts)).

Lemma n1 : (1 <= n)%nat. Proof using W. clear - W. destruct W as [_ [L [N _]]]. destruct ts; [congruence|cbn in L; lia]. Qed.
Lemma small : INR (4 * (2 * n + 8)) * u <= 1. Proof using W. apply W. Qed.
Lemma U : 0 < u <= / 2. Proof using Hp. exact (uu prec). Qed.
Lemma c_pos : 0 < B2R c.
Proof using W. clear - W. destruct W as [_ [_ [_ [_ [C _]]]]]. pose proof (bpow_gt_0 radix2 (6 - emax)). assert (1 <= INR n) by (change 1 with (INR 1); apply le_INR, n1). nra. Qed.
Lemma c_tiny : 16 * (INR n * tiny) <= B2R c.
Proof using W. clear - W. destruct W as [_ [_ [_ [_ [C _]]]]]. unfold P_fpotential.tiny. replace (6 - emax)%Z with (4 + (2 - emax))%Z in C by lia. rewrite bpow_plus in C. change (bpow radix2 4) with 16 in C. lra. Qed.
Lemma d_pos : 1 <= INR (length ts) <= INR n.
Proof using W. clear - W. destruct W as [_ [L [N _]]]. split; [change 1 with (INR 1)|]; apply le_INR; [destruct ts; [congruence|cbn; lia]|exact L]. Qed.
Lemma n_prec : INR n <= bpow radix2 prec.
Proof using W.
  pose proof small as SM. clear - SM. pose proof (nu prec n SM n ltac:(lia)) as Q. unfold unit_roundoff in Q. rewrite bpow_opp in Q. pose proof (bpow_gt_0 radix2 prec) as B0. apply (Rmult_le_compat_r (bpow radix2 prec)) in Q; [|lra].
  replace (INR n * / bpow radix2 prec * bpow radix2 prec) with (INR n) in Q by (field; lra). lra.
Qed.
Lemma per_tree t : In t ts -> (forall l x, In l t -> In x l -> is_finite x = true) /\ (length (concat t) + length t <= n)%nat /\ X t <= M / INR n.
Proof using W FIN. intros H. split; [intros l x Hl Hx; exact (FIN t l x H Hl Hx)|]. destruct W as [A [_ [_ [_ [_ B]]]]]. split; [apply A; exact H|apply B; exact H]. Qed.

Definition Ya : R := total (map Y ts) / INR (length ts).
Lemma XYa : 0 <= Xa /\ 0 <= Ya /\ Xa <= (Ya + INR n * w0) * g ^ 3 /\ Ya <= Xa * g ^ 3 + INR n * w0.
Proof.
  pose proof d_pos as D. assert (DI : 0 < / INR (length ts)) by (apply Rinv_0_lt_compat; lra).
  assert (A : forall t, In t ts -> 0 <= X t /\ 0 <= Y t /\ X t <= (Y t + INR n * w0) * g ^ 3 /\ Y t <= X t * g ^ 3 + INR n * w0).
  { intros t Ht. destruct (per_tree t Ht) as [A1 [A2 A3]]. apply (XY prec emax n n1 small t A1 A2 A3). }
  assert (T1 : total (map X ts) <= g ^ 3 * total (map Y ts) + INR (length ts) * (INR n * w0 * g ^ 3)).
  { rewrite <- total_lin. apply total_le. intros t Ht. destruct (A t Ht) as [_ [_ [B _]]]. lra. }
  assert (T2 : total (map Y ts) <= g ^ 3 * total (map X ts) + INR (length ts) * (INR n * w0)).
  { rewrite <- total_lin. apply total_le. intros t Ht. destruct (A t Ht) as [_ [_ [_ B]]]. lra. }
  unfold mean_squared_length, Ya, Rdiv. split; [|split; [|split]].
  - apply Rmult_le_pos; [apply total_nonneg; intros t Ht; apply A; exact Ht|lra].
  - apply Rmult_le_pos; [apply total_nonneg; intros t Ht; apply A; exact Ht|lra].
  - apply (Rmult_le_compat_r (/ INR (length ts))) in T1; [|lra]. eapply Rle_trans; [exact T1|]. right. field. lra.
  - apply (Rmult_le_compat_r (/ INR (length ts))) in T2; [|lra]. eapply Rle_trans; [exact T2|]. right. field. lra.
Qed.

(** The mean over the devices, before its last rounding. *)
Lemma sq_near : exists Z, near (2 * n) Ya Z /\ is_finite sq = true /\ (B2R sq = Z \/ B2R sq = rnd Z).
Proof.
  pose proof U as UU. pose proof d_pos as D. pose proof (M8 prec emax n n1 small) as MM. assert (NP : 0 < INR n) by lra.
  assert (IN : forall t, In t ts -> is_finite (inner fs t t) = true /\ near n (Y t) (B2R (inner fs t t))).
  { intros t Ht. destruct (per_tree t Ht) as [A1 [A2 A3]]. apply (inner_near prec emax fs SUM n n1 small t A1 A2 A3). }
  destruct pmapped eqn:PM.
  - cbn [pmean_if_pmap]. unfold mean. rewrite map_length. set (l := map (fun t => inner fs t t) ts).
    assert (RS : rsum prec emax l = total (map (fun t => B2R (inner fs t t)) ts)) by (unfold l, rsum, total; rewrite map_map; reflexivity).
    assert (NT : near n (total (map Y ts)) (rsum prec emax l)) by (rewrite RS; apply near_total; [exact UU|]; intros t Ht; apply IN; exact Ht).
    assert (TB : total (map Y ts) <= 3 * M).
    { apply Rle_trans with (INR (length ts) * (3 * M / INR n)).
      - replace (INR (length ts) * (3 * M / INR n)) with (0 * total (map Y ts) + INR (length ts) * (3 * M / INR n)) by ring. rewrite <- total_lin. apply total_le. intros t Ht. destruct (per_tree t Ht) as [A1 [A2 A3]].
        pose proof (Y_bound prec emax n n1 small t A1 A2 A3) as B. rewrite Rmult_0_l, Rplus_0_l. apply (Rmult_le_reg_l (INR n)); [exact NP|]. eapply Rle_trans; [exact B|]. right. field. lra.
      - apply Rle_trans with (INR n * (3 * M / INR n)); [apply Rmult_le_compat_r; [apply div_nonneg || (apply Rmult_le_pos; [lra|left; apply Rinv_0_lt_compat; lra])|lra]|]. right. field. lra. }
    assert (LL : length l = length ts) by (unfold l; apply map_length). assert (LN : (length l <= n)%nat) by (rewrite LL; apply W).
    pose proof NT as [T0 [T1 [_ T3]]].
    destruct (sum_near prec emax _ _ (SUM l)) as [F K].
    + intros x Hx. unfold l in Hx. apply in_map_iff in Hx. destruct Hx as [t [<- Ht]]. destruct (IN t Ht) as [F [_ [Q _]]]. split; assumption.
    + rewrite (M_top emax n n1). assert (G : g ^ (n + length l) <= 2) by (apply g_two; [exact UU|apply (nu2 prec n small); lia]). rewrite pow_add in G.
      pose proof (gp u UU n). pose proof (gp u UU (length l)). apply Rle_trans with (total (map Y ts) * g ^ n * g ^ length l); [apply Rmult_le_compat_r; lra|]. rewrite Rmult_assoc. apply Rle_trans with (3 * M * 2); [|lra]. apply Rmult_le_compat; [exact T0| |exact TB|exact G]. apply Rmult_le_pos; lra.
    + assert (NS : near (2 * n) (total (map Y ts)) (B2R (fs l))). { apply (near_mono u UU (n + length l)); [lia|]. apply (near_trans u UU) with (1 := NT). exact K. }
      destruct (of_nat_R prec emax (length ts)) as [F2 V2]. { pose proof (nu prec n small n ltac:(lia)) as Q. unfold unit_roundoff in Q. rewrite bpow_opp in Q. pose proof (bpow_gt_0 radix2 prec) as B0. apply (Rmult_le_compat_r (bpow radix2 prec)) in Q; [|lra]. rewrite Rmult_assoc, Rinv_l, Rmult_1_r in Q by lra. lra. }
      exists (B2R (fs l) / INR (length ts)). split.
      { unfold Ya. destruct NS as [S0 [S1 [S2 S3]]]. assert (DI : 0 < / INR (length ts)) by (apply Rinv_0_lt_compat; lra). unfold Rdiv. repeat split; try (apply Rmult_le_pos; lra); nra. }
      assert (NZ : B2R (of_nat prec emax (length ts)) <> 0) by (rewrite V2; lra).
      pose proof (Bdiv_correct prec emax Hp He mode_NE (fs l) (of_nat prec emax (length ts)) NZ) as C. cbn [round_mode] in C. rewrite V2 in C.
      assert (Q : Rabs (B2R (fs l) / INR (length ts)) <= Rabs (B2R (fs l))).
      { unfold Rdiv. rewrite Rabs_mult, (Rabs_pos_eq (/ INR (length ts))) by (left; apply Rinv_0_lt_compat; lra). assert (/ INR (length ts) <= 1) by (rewrite <- Rinv_1; apply Rinv_le_contravar; lra). pose proof (Rabs_pos (B2R (fs l))). nra. }
      pose proof (rnd_abs_le prec emax _ _ (generic_format_abs _ _ _ (fmt_B2R prec emax (fs l))) Q) as RB.
      rewrite Rlt_bool_true in C by (eapply Rle_lt_trans; [exact RB|apply abs_B2R_lt_emax]). destruct C as [C1 [C2 _]]. split; [transitivity (is_finite (fs l)); [exact C2|exact F]|right; exact C1].
  - cbn [pmean_if_pmap]. specialize (ONE eq_refl). unfold Ya. destruct ts as [|t [|t' r]]; cbn in ONE; try lia. destruct (IN t (or_introl eq_refl)) as [F K]. cbn [map hd].
    exists (B2R (inner fs t t)). split; [|split; [exact F|left; reflexivity]]. apply (near_mono u UU n); [lia|].
    match goal with |- P_fpotential.near _ _ ?a _ => replace a with (Y t) by (unfold total; cbn [map fold_right length INR]; field) end. exact K.
Qed.
Notation WW := (INR (2 * n + 1) * w0).
Lemma w0_pos : 0 < w0. Proof. pose proof U. pose proof (tiny_pos emax). nra. Qed.
Lemma sq_close : is_finite sq = true /\ 0 <= B2R sq /\ B2R sq <= Xa * g ^ P + WW /\ Xa <= (B2R sq + WW) * g ^ P.
Proof.
  destruct sq_near as [Z [[Y0 [Z0 [Z1 Z2]]] [F V]]]. destruct XYa as [X0 [_ [X1 X2]]]. pose proof U as UU. pose proof w0_pos as WP. pose proof (pos_INR n) as NP. pose proof (g1 u UU) as G1.
  assert (SS : 0 <= B2R sq /\ B2R sq <= Z * g + w0 /\ Z <= (B2R sq + w0) * g).
  { assert (GU : Z * (1 + u) <= Z * g). { apply Rmult_le_compat_l; [exact Z0|]. pose proof (gu u UU). nra. }
    destruct V as [->| ->]; [split; [exact Z0|split; nra]|].
    pose proof (rnd_abs_err prec emax Z Z0) as E. apply Rabs_le_inv in E. split; [apply (rnd_ge0 prec emax); exact Z0|]. split; [lra|].
    assert (B : Z * (1 - u) <= rnd Z + w0) by lra. apply (Rmult_le_compat_r g) in B; [|lra]. rewrite Rmult_assoc, (Rmult_comm (1 - u)), (gu u UU), Rmult_1_r in B. exact B. }
  destruct SS as [S0 [S1 S2]]. split; [exact F|]. split; [exact S0|].
  assert (G3 : 1 <= g ^ 3) by (apply (gp u UU)). assert (GN : 1 <= g ^ (2 * n)) by (apply (gp u UU)).
  assert (GT : g ^ (2 * n) * g <= 2). { rewrite Rmult_comm. change (g * g ^ (2 * n)) with (g ^ (S (2 * n))). apply g_two; [exact UU|apply (nu2 prec n small); lia]. }
  replace (g ^ P) with (g ^ 3 * (g ^ (2 * n) * g)) by (replace P with (3 + (2 * n + 1))%nat by lia; rewrite !pow_add, pow_1; reflexivity).
  set (G := g ^ (2 * n) * g) in *. assert (G11 : 1 <= G) by (unfold G; nra). replace (INR (2 * n + 1)) with (2 * INR n + 1) by (rewrite plus_INR, mult_INR; cbn; ring).
  assert (NW : 0 <= INR n * w0) by nra. split.
  - apply Rle_trans with (Ya * G + w0). { eapply Rle_trans; [exact S1|]. apply Rplus_le_compat_r. unfold G. rewrite <- Rmult_assoc. apply Rmult_le_compat_r; lra. }
    apply (Rmult_le_compat_r G) in X2; [|lra]. nra.
  - eapply Rle_trans; [exact X1|]. replace ((B2R sq + (2 * INR n + 1) * w0) * (g ^ 3 * G)) with ((B2R sq + (2 * INR n + 1) * w0) * G * g ^ 3) by ring. apply Rmult_le_compat_r; [lra|].
    assert (B : Ya <= (B2R sq + w0) * G). { eapply Rle_trans; [exact Z1|]. unfold G. rewrite (Rmult_comm (g ^ (2 * n))), <- Rmult_assoc. apply Rmult_le_compat_r; lra. }
    nra.
Qed.
Lemma WW_small : WW <= 3 / 16 * (u * B2R c).
Proof. pose proof c_tiny as C. pose proof U. pose proof (tiny_pos emax). assert (1 <= INR n) by (change 1 with (INR 1); apply le_INR, n1). replace (INR (2 * n + 1)) with (2 * INR n + 1) by (rewrite plus_INR, mult_INR; cbn; ring).
  apply Rle_trans with (3 * (u * (INR n * tiny))); [|assert (u * (16 * (INR n * tiny)) <= u * B2R c) by (apply Rmult_le_compat_l; lra); lra]. assert (0 < w0) by apply w0_pos. assert (w0 <= INR n * w0) by nra. nra. Qed.
Lemma gP m : (m <= 2 * n + 8)%nat -> 1 <= g ^ m <= 3 / 2 /\ g ^ m <= 1 + 2 * (INR m * u).
Proof. intros H. pose proof (nu prec n small m H). pose proof (g_bound u U m ltac:(lra)). pose proof (gp u U m). lra. Qed.
Lemma sq_relative : B2R c / 2 <= Xa -> near (2 * n + 5) Xa (B2R sq).
Proof.
  intros H. destruct sq_close as [F [S0 [S1 S2]]]. pose proof WW_small as WS. pose proof U as UU. pose proof c_pos. destruct (gP P ltac:(lia)) as [[A B] _].
  pose proof (g1 u UU) as G1. assert (GU : 1 + u <= g) by (pose proof (gu u UU); nra).
  assert (EQ : g ^ (2 * n + 5) = g ^ P * g) by (replace (2 * n + 5)%nat with (P + 1)%nat by lia; rewrite pow_add, pow_1; reflexivity).
  assert (X0 : 0 < Xa) by lra. assert (WX : WW <= 3 / 8 * (u * Xa)) by nra. split; [lra|]. split; [exact S0|]. rewrite EQ. split.
  - assert (B1 : Xa * (1 - 3 / 4 * u) <= B2R sq * g ^ P).
    { assert (WG : WW * g ^ P <= 3 / 8 * (u * Xa) * (3 / 2)) by (apply Rmult_le_compat; [apply Rmult_le_pos; [apply pos_INR|left; apply w0_pos]|lra|exact WX|exact B]). rewrite Rmult_plus_distr_r in S2. assert (0 < u * Xa) by (apply Rmult_lt_0_compat; lra). lra. }
    pose proof (gu u UU) as GE. apply Rle_trans with (Xa * (1 - 3 / 4 * u) * g); [assert (1 <= (1 - 3 / 4 * u) * g) by nra; nra|]. rewrite <- Rmult_assoc. apply Rmult_le_compat_r; lra.
  - eapply Rle_trans; [exact S1|]. assert (Xa * (g ^ P * (1 + u)) <= Xa * (g ^ P * g)) by (apply Rmult_le_compat_l; [lra|]; apply Rmult_le_compat_l; lra). assert (UX : 0 < u * Xa) by (apply Rmult_lt_0_compat; lra). assert (u * Xa * 1 <= u * Xa * g ^ P) by (apply Rmult_le_compat_l; lra). lra.
Qed.

(** The coefficient. *)
Notation k := (coefficient prec emax c sq).
Lemma sq_positive : positive sq.
Proof.
  apply mean_positive; [exact SUM|destruct W as [_ [_ [N _]]]; destruct ts; [congruence|discriminate]| |].
  - rewrite map_length. unfold params. pose proof d_pos as D. pose proof n_prec. lra.
  - intros x Hx. apply in_map_iff in Hx. destruct Hx as [t [<- Ht]]. apply inner_positive; [exact SUM|]. intros l y Hl Hy. exact (FIN t l y Ht Hl Hy).
Qed.
Lemma k_spec : is_finite k = true /\ Bsign k = false /\ 0 <= B2R k <= 1.
Proof. apply coefficient_spec; [exact FC|exact c_pos|exact sq_positive]. Qed.
Lemma k_value : exists q, positive q /\ k = fmin prec emax q fone /\ q = Bsqrt mode_NE (fdiv c sq).
Proof.
  assert (Pc : positive c) by (split; [apply finite_nan; exact FC|apply (sign_of_pos prec emax); [exact FC|exact c_pos]]).
  pose proof (pos_div prec emax c sq Pc FC c_pos sq_positive) as Pd. destruct (pos_sqrt prec emax _ Pd) as [Pq _].
  exists (Bsqrt mode_NE (fdiv c sq)). split; [exact Pq|]. split; reflexivity.
Qed.
(** The minimum with one. *)
Lemma min_one q : positive q -> (q = B754_infinity false \/ (is_finite q = true /\ 1 <= B2R q) -> B2R (fmin prec emax q fone) = 1) /\ (is_finite q = true -> B2R q <= 1 -> fmin prec emax q fone = q).
Proof.
  intros Pq. destruct (one_R prec emax) as [O1 O2]. unfold fmin. rewrite (proj1 Pq), (finite_nan prec emax _ O1). split.
  - intros [->|[F L]].
    + destruct (Bleb (B754_infinity false) fone) eqn:B; [exfalso; destruct fone as [| | |sg m e H]; cbn in B; try discriminate; destruct sg; discriminate|exact O2].
    + rewrite (Bleb_correct _ _ q fone F O1). destruct (Rle_bool_spec (B2R q) (B2R fone)); [lra|exact O2].
  - intros F L. rewrite (Bleb_correct _ _ q fone F O1), Rle_bool_true by lra. reflexivity.
Qed.
Lemma fmt1 : generic_format radix2 ex 1.
Proof. change 1 with (bpow radix2 0). apply (top_fmt prec emax). apply (emin_neg prec emax). Qed.
Lemma k_one : B2R sq <= B2R c -> B2R k = 1.
Proof.
  intros L. destruct sq_close as [F [S0 _]]. pose proof c_pos as C0. pose proof sq_positive as Ps.
  assert (Pc : positive c) by (split; [apply finite_nan; exact FC|apply (sign_of_pos prec emax); [exact FC|exact C0]]).
  pose proof (pos_div prec emax c sq Pc FC C0 Ps) as Pd. destruct (pos_sqrt prec emax _ Pd) as [Pq Vq].
  apply (min_one _ Pq). destruct (positive_cases prec emax _ Pd) as [E|Fd]; [left; rewrite E; reflexivity|right].
  destruct (Vq Fd) as [F1 V1]. split; [exact F1|]. rewrite V1. apply round_ge_generic; auto with typeclass_instances; [exact fmt1|]. rewrite <- sqrt_1. apply sqrt_le_1_alt.
  destruct (Req_dec (B2R sq) 0) as [Z|NZ].
  - exfalso. generalize dependent sq. intros s. intros. destruct s as [sg| | |sg m e H]; cbn in F; try discriminate.
    + destruct c as [| | |sc mc ec Hc]; cbn in FC, C0; try discriminate.
    + cbn in Z. destruct sg; [destruct Ps as [_ Q]; discriminate|]. unfold F2R in Z. cbn in Z. pose proof (bpow_gt_0 radix2 e). pose proof (IZR_lt 0 (Z.pos m) ltac:(lia)). nra.
  - pose proof (Bdiv_correct prec emax Hp He mode_NE c sq NZ) as C. cbn [round_mode] in C. destruct (Rlt_bool _ _) eqn:RL.
    + destruct C as [C1 _]. change (1 <= B2R (Bdiv mode_NE c sq)). rewrite C1. apply round_ge_generic; auto with typeclass_instances; [exact fmt1|].
      apply (Rmult_le_reg_r (B2R sq)); [lra|]. unfold Rdiv. rewrite Rmult_assoc, Rinv_l by lra. lra.
    + exfalso. rewrite (proj2 Pc), (proj2 Ps) in C. cbn in C. apply sf_inf in C. unfold M_fwalk.fdiv in Fd. rewrite C in Fd. discriminate.
Qed.
Lemma big_sq : B2R c < B2R sq -> B2R c / 2 <= Xa.
Proof.
  intros L. destruct sq_close as [_ [_ [S1 _]]]. pose proof WW_small as WS. destruct (gP P ltac:(lia)) as [[A B] _]. pose proof c_pos. pose proof U. destruct XYa as [X0 _].
  assert (E : Xa * g ^ P <= Xa * (3 / 2)) by (apply Rmult_le_compat_l; lra). assert (u * B2R c <= / 2 * B2R c) by (apply Rmult_le_compat_r; lra). lra.
Qed.
Lemma k_quotient : B2R c < B2R sq -> near (2 * n + 7) (sqrt (B2R c / Xa)) (B2R k).
Proof.
  intros L. pose proof (sq_relative (big_sq L)) as NS. pose proof (big_sq L) as XB. destruct sq_close as [F [S0 _]]. pose proof c_pos as C0. pose proof sq_positive as Ps. pose proof U as UU. pose proof (tiny_pos emax) as TP.
  assert (X0 : 0 < Xa) by lra. assert (SP : 0 < B2R sq) by lra.
  assert (NQ : near (2 * n + 5) (B2R c / Xa) (B2R c / B2R sq)). { change (2 * n + 5)%nat with (0 + (2 * n + 5))%nat. apply near_mul; [apply near_refl; [exact UU|lra]|apply near_inv; [exact UU|exact NS|exact X0]]. }
  assert (XM : Xa <= B2R c * bpow radix2 (emax - 6)).
  { pose proof d_pos as D. unfold mean_squared_length. apply (Rmult_le_reg_r (INR (length ts))); [lra|]. unfold Rdiv. rewrite Rmult_assoc, Rinv_l, Rmult_1_r by lra.
    replace (B2R c * bpow radix2 (emax - 6) * INR (length ts)) with (0 * total (map X ts) + INR (length ts) * (B2R c * bpow radix2 (emax - 6))) by ring. rewrite <- total_lin. apply total_le. intros t Ht.
    destruct W as [_ [_ [_ [_ [_ B]]]]]. destruct (B t Ht) as [_ B2]. lra. }
  assert (SB : B2R sq <= 2 * (B2R c * bpow radix2 (emax - 6))). { destruct NS as [_ [_ [_ N4]]]. destruct (gP (2 * n + 5) ltac:(lia)) as [[_ G] _]. eapply Rle_trans; [exact N4|]. assert (Xa * g ^ (2 * n + 5) <= Xa * 2) by (apply Rmult_le_compat_l; lra). lra. }
  assert (LOW : tiny <= B2R c / B2R sq).
  { apply (Rmult_le_reg_r (B2R sq)); [exact SP|]. unfold Rdiv. rewrite Rmult_assoc, Rinv_l, Rmult_1_r by lra. apply Rle_trans with (tiny * (2 * (B2R c * bpow radix2 (emax - 6)))); [apply Rmult_le_compat_l; lra|].
    unfold P_fpotential.tiny. replace (bpow radix2 (2 - emax) * (2 * (B2R c * bpow radix2 (emax - 6)))) with (2 * (bpow radix2 (2 - emax) * bpow radix2 (emax - 6)) * B2R c) by ring. rewrite <- bpow_plus. replace (2 - emax + (emax - 6))%Z with (-4)%Z by lia. change (bpow radix2 (-4)) with (/ 16). lra. }
  assert (HIGH : Rabs (B2R c / B2R sq) <= 1).
  { rewrite Rabs_pos_eq by lra. apply (Rmult_le_reg_r (B2R sq)); [exact SP|]. unfold Rdiv. rewrite Rmult_assoc, Rinv_l by lra. lra. }
  assert (NZ : B2R sq <> 0) by lra. pose proof (Bdiv_correct prec emax Hp He mode_NE c sq NZ) as C. cbn [round_mode] in C.
  pose proof (rnd_abs_le prec emax _ _ fmt1 HIGH) as RB.
  rewrite Rlt_bool_true in C by (eapply Rle_lt_trans; [exact RB|]; change 1 with (bpow radix2 0); apply bpow_lt; pose proof (precmax prec emax); pose proof (prec1 prec); lia). destruct C as [C1 [C2 _]].
  assert (Pc : positive c) by (split; [apply finite_nan; exact FC|apply (sign_of_pos prec emax); [exact FC|exact C0]]).
  pose proof (pos_div prec emax c sq Pc FC C0 Ps) as Pd. destruct (pos_sqrt prec emax _ Pd) as [Pq Vq].
  assert (Fd : is_finite (fdiv c sq) = true) by (transitivity (is_finite c); [exact C2|exact FC]). destruct (Vq Fd) as [F1 V1]. change (B2R (fdiv c sq) = rnd (B2R c / B2R sq)) in C1.
  pose proof (rnd_rel prec emax _ LOW) as N1. rewrite <- C1 in N1.
  assert (N2 : near (2 * n + 6) (B2R c / Xa) (B2R (fdiv c sq))) by (replace (2 * n + 6)%nat with (2 * n + 5 + 1)%nat by lia; apply (near_trans u UU) with (1 := NQ); exact N1).
  assert (D1 : tiny <= B2R (fdiv c sq) <= 1).
  { split; [|rewrite C1; apply Rabs_le_inv in RB; lra]. rewrite C1. apply round_ge_generic; auto with typeclass_instances. unfold P_fpotential.tiny. apply (top_fmt prec emax). unfold SpecFloat.emin. pose proof (prec1 prec). lia. }
  apply near_sqrt in N2; [|exact UU]. assert (T1 : tiny <= sqrt (B2R (fdiv c sq))).
  { pose proof (tiny_small prec emax n n1 small) as TS. apply Rle_trans with (sqrt tiny); [|apply sqrt_le_1_alt; lra]. rewrite <- (sqrt_square tiny) at 1 by lra. apply sqrt_le_1_alt. nra. }
  pose proof (rnd_rel prec emax _ T1) as N3. rewrite <- V1 in N3.
  assert (QE : k = Bsqrt mode_NE (fdiv c sq)). { unfold coefficient. apply (min_one _ Pq); [exact F1|]. rewrite V1. apply round_le_generic; auto with typeclass_instances; [exact fmt1|]. rewrite <- sqrt_1. apply sqrt_le_1_alt. lra. }
  rewrite QE. replace (2 * n + 7)%nat with (2 * n + 6 + 1)%nat by lia. apply (near_trans u UU) with (1 := N2). exact N3.
Qed.
Notation kappa := (shrink (B2R c) Xa).
Lemma kappa_bounds : 0 < kappa <= 1 /\ kappa ^ 2 * Xa <= B2R c.
Proof.
  pose proof c_pos as C0. destruct XYa as [X0 _]. unfold shrink. destruct (Rle_dec Xa (B2R c)) as [L|L]; [split; [lra|]; rewrite pow1, Rmult_1_l; exact L|].
  assert (Q : 0 < B2R c / Xa) by (apply Rdiv_lt_0_compat; lra). split.
  - split; [apply sqrt_lt_R0; exact Q|]. rewrite <- sqrt_1. apply sqrt_le_1_alt. apply (Rmult_le_reg_r Xa); [lra|]. unfold Rdiv. rewrite Rmult_assoc, Rinv_l by lra. lra.
  - rewrite pow2_sqrt by lra. right. field. lra.
Qed.
Lemma sqrt_ge x : 0 <= x <= 1 -> x <= sqrt x.
Proof. intros H. rewrite <- (sqrt_square x) at 1 by lra. apply sqrt_le_1_alt. nra. Qed.
Lemma k_near : near (2 * n + 7) kappa (B2R k).
Proof.
  pose proof c_pos as C0. destruct k_spec as [_ [_ [K0 K1]]]. pose proof U as UU. pose proof (gp u UU (2 * n + 7)) as GP.
  destruct (Rle_lt_dec (B2R sq) (B2R c)) as [L|L].
  - rewrite (k_one L). unfold shrink. destruct (Rle_dec Xa (B2R c)) as [LX|LX]; [apply near_refl; [exact UU|lra]|].
    assert (X0 : 0 < Xa) by lra. destruct (sq_relative ltac:(lra)) as [_ [_ [N3 _]]].
    assert (Q : 0 < B2R c / Xa <= 1). { split; [apply Rdiv_lt_0_compat; lra|]. apply (Rmult_le_reg_r Xa); [lra|]. unfold Rdiv. rewrite Rmult_assoc, Rinv_l by lra. lra. }
    assert (S1 : sqrt (B2R c / Xa) <= 1) by (rewrite <- sqrt_1; apply sqrt_le_1_alt; lra).
    repeat split; try lra; [apply sqrt_pos|]. apply Rle_trans with (B2R c / Xa * g ^ (2 * n + 7)); [|apply Rmult_le_compat_r; [lra|]; apply sqrt_ge; lra].
    apply (Rmult_le_reg_r Xa); [exact X0|]. rewrite Rmult_1_l. replace (B2R c / Xa * g ^ (2 * n + 7) * Xa) with (B2R c * g ^ (2 * n + 7)) by (field; lra).
    eapply Rle_trans; [exact N3|]. pose proof (gle u UU (2 * n + 5) (2 * n + 7) ltac:(lia)). pose proof (gp u UU (2 * n + 5)). apply Rmult_le_compat; try lra. destruct sq_close as [_ [Q0 _]]. exact Q0.
  - pose proof (k_quotient L) as N. unfold shrink. destruct (Rle_dec Xa (B2R c)) as [LX|LX]; [|exact N].
    destruct N as [_ [_ [N3 _]]]. pose proof (big_sq L) as XB. assert (S1 : 1 <= sqrt (B2R c / Xa)). { rewrite <- sqrt_1 at 1. apply sqrt_le_1_alt. apply (Rmult_le_reg_r Xa); [lra|]. unfold Rdiv. rewrite Rmult_assoc, Rinv_l by lra. lra. }
    repeat split; lra.
Qed.

(** Entries. *)
Lemma entry_accuracy x : is_finite x = true -> Rabs (B2R (fmul k x) - kappa * B2R x) <= 2 * INR (2 * n + 8) * u * (kappa * Rabs (B2R x)) + w0.
Proof.
  intros F. destruct k_spec as [K1 [K2 K3]]. destruct (scaled_entry prec emax k x K1 K2 K3 F) as [_ [_ [_ V]]]. rewrite V. pose proof U as UU.
  pose proof (near_err u UU (2 * n + 7) kappa (B2R k) (nu2 prec n small (2 * n + 7) ltac:(lia)) k_near) as E. destruct k_near as [_ [_ [_ N4]]]. destruct (gP (2 * n + 7) ltac:(lia)) as [[_ G] _].
  pose proof (Rabs_pos (B2R x)) as AX. destruct kappa_bounds as [[KP _] _].
  assert (E1 : Rabs (rnd (B2R k * B2R x) - B2R k * B2R x) <= u * (B2R k * Rabs (B2R x)) + w0).
  { assert (AE : Rabs (B2R k * B2R x) = B2R k * Rabs (B2R x)) by (rewrite Rabs_mult, (Rabs_pos_eq (B2R k)) by lra; reflexivity). rewrite <- AE.
    destruct (Rle_lt_dec 0 (B2R k * B2R x)) as [P0|P0].
    - rewrite (Rabs_pos_eq (B2R k * B2R x)) by exact P0. apply (rnd_abs_err prec emax). exact P0.
    - assert (P1 : 0 <= - (B2R k * B2R x)) by lra. pose proof (rnd_abs_err prec emax _ P1) as Q. rewrite round_NE_opp in Q. rewrite (Rabs_left (B2R k * B2R x)) by exact P0. replace (rnd (B2R k * B2R x) - B2R k * B2R x) with (- (- rnd (B2R k * B2R x) - - (B2R k * B2R x))) by ring. rewrite Rabs_Ropp. exact Q. }
  assert (E2 : Rabs (B2R k * B2R x - kappa * B2R x) <= 2 * INR (2 * n + 7) * u * kappa * Rabs (B2R x)) by (rewrite <- Rmult_minus_distr_r, Rabs_mult; apply Rmult_le_compat_r; [exact AX|exact E]).
  assert (E3 : B2R k * Rabs (B2R x) <= 2 * (kappa * Rabs (B2R x))).
  { rewrite <- Rmult_assoc. apply Rmult_le_compat_r; [exact AX|]. eapply Rle_trans; [exact N4|]. rewrite Rmult_comm. apply Rmult_le_compat_r; lra. }
  replace (rnd (B2R k * B2R x) - kappa * B2R x) with ((rnd (B2R k * B2R x) - B2R k * B2R x) + (B2R k * B2R x - kappa * B2R x)) by ring. eapply Rle_trans; [apply Rabs_triang|].
  replace (INR (2 * n + 8)) with (INR (2 * n + 7) + 1) by (rewrite !plus_INR; cbn [INR]; ring).
  assert (u * (B2R k * Rabs (B2R x)) <= u * (2 * (kappa * Rabs (B2R x)))) by (apply Rmult_le_compat_l; lra). lra.
Qed.
Notation p := (INR (2 * n + 8) * u).
Lemma p_small : 10 * u <= p <= / 4.
Proof. split; [|apply (nu prec n small); lia]. pose proof U. apply Rmult_le_compat_r; [lra|]. replace 10 with (INR 10) by (cbn; lra). apply le_INR. pose proof n1. lia. Qed.
Lemma entry_square_bound x : is_finite x = true -> B2R (fmul k x) ^ 2 <= (1 + u) * (1 + 2 * p) ^ 2 * kappa ^ 2 * B2R x ^ 2 + (1 + u) * (u * tiny ^ 2).
Proof.
  intros F. pose proof (entry_accuracy x F) as E. pose proof U as UU. pose proof (tiny_pos emax) as TP. destruct kappa_bounds as [[KP _] _]. pose proof p_small as [PS _]. pose proof (Rabs_pos (B2R x)) as AX.
  set (a := (1 + 2 * p) * (kappa * Rabs (B2R x))). assert (KX : 0 <= kappa * Rabs (B2R x)) by (apply Rmult_le_pos; lra). assert (A0 : 0 <= a) by (unfold a; apply Rmult_le_pos; lra).
  assert (H : Rabs (B2R (fmul k x)) <= a + w0).
  { apply Rle_trans with (Rabs (kappa * B2R x) + Rabs (B2R (fmul k x) - kappa * B2R x)); [eapply Rle_trans; [|apply Rabs_triang]; right; f_equal; ring|]. rewrite Rabs_mult, (Rabs_pos_eq kappa) by lra. unfold a. lra. }
  rewrite <- pow2_abs. pose proof w0_pos as WP. apply Rle_trans with ((a + w0) ^ 2); [apply pow_incr; split; [apply Rabs_pos|exact H]|].
  replace ((1 + u) * (1 + 2 * p) ^ 2 * kappa ^ 2 * B2R x ^ 2) with ((1 + u) * a ^ 2) by (unfold a; rewrite !Rpow_mult_distr, pow2_abs; ring).
  assert (Q : 0 <= u * (a - tiny) ^ 2) by (apply Rmult_le_pos; [lra|apply pow2_ge_0]). nra.
Qed.
Lemma norm_bound : mean_squared_length prec emax (constrain_norm prec emax fs pmapped c ts) <= B2R c * (1 + 6 * p).
Proof.
  pose proof U as UU. pose proof (tiny_pos emax) as TP. pose proof d_pos as D. pose proof c_pos as C0. destruct kappa_bounds as [[KP K1] KX]. destruct p_small as [PS PB]. destruct XYa as [X0 _].
  unfold constrain_norm. cbn zeta. set (F := fun t => multiply_tree_by_scalar prec emax t k). set (A := (1 + u) * (1 + 2 * p) ^ 2 * kappa ^ 2). set (B := (1 + u) * (u * tiny ^ 2)).
  assert (B0 : 0 <= B) by (unfold B; apply Rmult_le_pos; [lra|]; apply Rmult_le_pos; [lra|apply pow2_ge_0]).
  assert (T : forall t, In t ts -> X (F t) <= A * X t + INR n * B).
  { intros t Ht. unfold squared_length, F, multiply_tree_by_scalar. rewrite <- concat_map, map_map.
    apply Rle_trans with (A * total (map (fun x : fl => B2R x ^ 2) (concat t)) + INR (length (concat t)) * B).
    - rewrite <- total_lin. apply total_le. intros x Hx. apply in_concat in Hx. destruct Hx as [l [Hl Hx]]. apply entry_square_bound. exact (FIN t l x Ht Hl Hx).
    - apply Rplus_le_compat_l. apply Rmult_le_compat_r; [exact B0|]. apply le_INR. destruct (per_tree t Ht) as [_ [L _]]. lia. }
  assert (MB : mean_squared_length prec emax (map F ts) <= A * Xa + INR n * B).
  { unfold mean_squared_length. rewrite map_length, map_map. apply (Rmult_le_reg_r (INR (length ts))); [lra|]. unfold Rdiv at 1. rewrite Rmult_assoc, Rinv_l, Rmult_1_r by lra.
    replace ((A * (total (map X ts) / INR (length ts)) + INR n * B) * INR (length ts)) with (A * total (map X ts) + INR (length ts) * (INR n * B)) by (field; lra). rewrite <- total_lin. apply total_le. exact T. }
  eapply Rle_trans; [exact MB|].
  assert (AX : A * Xa <= (1 + u) * (1 + 2 * p) ^ 2 * B2R c) by (unfold A; rewrite Rmult_assoc; apply Rmult_le_compat_l; [apply Rmult_le_pos; [lra|apply pow2_ge_0]|exact KX]).
  assert (NB : INR n * B <= u * B2R c).
  { pose proof c_tiny as CT. pose proof (tiny_small prec emax n n1 small) as TS. unfold B. replace (INR n * ((1 + u) * (u * tiny ^ 2))) with (u * ((1 + u) * (INR n * tiny) * tiny)) by ring. apply Rmult_le_compat_l; [lra|].
    assert (N0 : 0 <= INR n * tiny) by (apply Rmult_le_pos; [apply pos_INR|lra]). assert ((1 + u) * (INR n * tiny) <= 2 * (INR n * tiny)) by (apply Rmult_le_compat_r; lra).
    assert (0 <= (1 + u) * (INR n * tiny)) by (apply Rmult_le_pos; lra). apply Rle_trans with ((1 + u) * (INR n * tiny) * 1); [apply Rmult_le_compat_l; lra|]. lra. }
  assert (FINAL : (1 + u) * (1 + 2 * p) ^ 2 + u <= 1 + 6 * p).
  { set (q := p) in *. assert (Q2 : (1 + 2 * q) ^ 2 <= 1 + 5 * q) by nra. assert ((1 + u) * (1 + 2 * q) ^ 2 <= (1 + u) * (1 + 5 * q)) by (apply Rmult_le_compat_l; lra). assert (u * q <= u * / 4) by (apply Rmult_le_compat_l; lra). lra. }
  apply (Rmult_le_compat_r (B2R c)) in FINAL; [|lra]. lra.
Qed.
Lemma unchanged : Xa * (1 + 4 * p) <= B2R c -> constrain_norm prec emax fs pmapped c ts = ts.
Proof.
  intros H. pose proof U as UU. pose proof c_pos as C0. destruct p_small as [PS PB]. destruct XYa as [X0 _]. destruct sq_close as [_ [_ [S1 _]]]. pose proof WW_small as WS. destruct (gP P ltac:(lia)) as [_ GB].
  assert (L : B2R sq <= B2R c).
  { eapply Rle_trans; [exact S1|]. assert (GP : g ^ P <= 1 + 2 * p). { eapply Rle_trans; [exact GB|]. assert (INR P * u <= p) by (apply Rmult_le_compat_r; [lra|]; apply le_INR; lia). lra. }
    assert (Xa * g ^ P <= Xa * (1 + 2 * p)) by (apply Rmult_le_compat_l; lra).
    assert (Q : (1 + 2 * p) <= (1 - p) * (1 + 4 * p)) by nra. assert (Xa * (1 + 2 * p) <= Xa * ((1 - p) * (1 + 4 * p))) by (apply Rmult_le_compat_l; lra).
    assert ((1 - p) * (Xa * (1 + 4 * p)) <= (1 - p) * B2R c) by (apply Rmult_le_compat_l; lra). assert (10 * u * B2R c <= p * B2R c) by (apply Rmult_le_compat_r; lra). assert (0 < u * B2R c) by (apply Rmult_lt_0_compat; lra). lra. }
  pose proof (k_one L) as K. destruct k_spec as [K1 [K2 K3]]. unfold constrain_norm. cbn zeta. transitivity (map (fun x => x) ts); [|apply map_id]. apply map_ext_in. intros t Ht. unfold multiply_tree_by_scalar.
  transitivity (map (fun x => x) t); [|apply map_id]. apply map_ext_in. intros l Hl. transitivity (map (fun x => x) l); [|apply map_id]. apply map_ext_in. intros x Hx. pose proof (FIN t l x Ht Hl Hx) as FX.
  destruct (scaled_entry prec emax k x K1 K2 K3 FX) as [A [B [_ V]]]. apply B2R_Bsign_inj; [exact A|exact FX| |exact B]. rewrite V, K, Rmult_1_l. apply (rnd_id prec emax).
Qed.
End Proofs.

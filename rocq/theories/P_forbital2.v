(** P_forbital2: the error of a whole orbital in floating-point arithmetic. *)
From Coq Require Import ZArith Reals.
From Flocq Require Import Core IEEE754.BinarySingleNaN Relative.
From Coq Require Import Lia Lra List Permutation Bool Arith.
Import ListNotations.
From Verif Require Import M_float S_float P_float P_float2 P_float3 P_float4 M_fwalk S_fwalk P_fwalk P_fwalk2 M_fenergy S_fenergy P_fenergy P_fenergy3 M_fpotential S_fpotential P_fpotential P_foptax2 S_fdense M_forbital S_forbital P_forbital.
Open Scope R_scope.

Section Proofs.
Variables prec emax : Z.
Context {Hp : Prec_gt_0 prec}.
Context {He : Prec_lt_emax prec emax}.
Notation fl := (binary_float prec emax).
Notation ex := (SpecFloat.fexp prec emax).
Notation emin := (SpecFloat.emin prec emax).
Notation rnd := (round radix2 ex ZnearestE).
Notation u := (unit_roundoff prec).
Notation fmul := (fmul prec emax).
Notation near := (near u). Notation g := (g u).
Notation isotropic := (isotropic prec emax).
Local Instance ex_valid19 : Valid_exp ex := FLT_exp_valid emin prec.

Lemma scaled_near (c k : fl) : is_finite c = true -> is_finite k = true -> (B2R k * B2R c = 0 \/ bpow radix2 (2 - emax) <= Rabs (B2R k * B2R c)) -> (B2R k * B2R c) ^ 2 <= bpow radix2 (emax - 4) ->
  is_finite (fmul c k) = true /\ near 2 ((B2R k * B2R c) ^ 2) (B2R (fmul c k) ^ 2).
Proof.
  intros Fc Fk R0 B. pose proof (uu prec) as U. set (x := B2R k * B2R c) in *. assert (X : B2R c * B2R k = x) by (unfold x; ring).
  assert (XB : Rabs x <= bpow radix2 (emax - 1)).
  { assert (B' : Rabs x ^ 2 <= bpow radix2 (emax - 4)) by (rewrite pow2_abs; exact B). assert (B3 : bpow radix2 (emax - 4) <= bpow radix2 (emax - 1)) by (apply bpow_le; lia).
    assert (B1 : 1 <= bpow radix2 (emax - 1)). { change 1 with (bpow radix2 0). apply bpow_le. pose proof (prec1 prec). pose proof (precmax prec emax). lia. } pose proof (Rabs_pos x). destruct (Rle_or_lt (Rabs x) 1); [lra|nra]. }
  destruct (mul_fin prec emax c k Fc Fk) as [F V]; [rewrite X; exact XB|]. rewrite X in V. split; [exact F|]. rewrite V.
  assert (N : near 1 (Rabs x) (Rabs (rnd x))).
  { destruct R0 as [Z|R0]; [rewrite Z, (rnd_0 prec emax), Rabs_R0; apply (near_refl u U); lra|]. rewrite <- (round_NE_abs radix2 ex). apply (rnd_rel prec emax). exact R0. }
  pose proof (near_mul u 1 1 _ _ _ _ N N) as M. rewrite <- (pow2_abs x), <- (pow2_abs (rnd x)). replace (Rabs x ^ 2) with (Rabs x * Rabs x) by ring. replace (Rabs (rnd x) ^ 2) with (Rabs (rnd x) * Rabs (rnd x)) by ring. exact M.
Qed.
Lemma total_scale k (v : list fl) : total (map (fun c => (k * B2R c) ^ 2) v) = k ^ 2 * squared_length prec emax v.
Proof. unfold squared_length, total. induction v as [|a v IH]; cbn [map fold_right]; [ring|]. rewrite IH. ring. Qed.
Lemma member_le k (v : list fl) c : In c v -> (k * B2R c) ^ 2 <= k ^ 2 * squared_length prec emax v.
Proof.
  rewrite <- total_scale. induction v as [|a v IH]; [intros []|]. cbn [map]. change (total (?a :: ?l)) with (a + total l). assert (P : 0 <= total (map (fun c => (k * B2R c) ^ 2) v)) by (apply total_nonneg; intros; apply pow2_ge_0).
  intros [<-|H]; [lra|]. specialize (IH H). pose proof (pow2_ge_0 (k * B2R a)). lra.
Qed.
Lemma iso_near D (k : fl) v : is_position prec emax D v -> is_finite k = true -> scalable prec emax k v -> u <= / 8 ->
  is_position prec emax D (isotropic k v) /\ measurable prec emax (isotropic k v) /\ near 2 (Rabs (B2R k) * vlength prec emax v) (vlength prec emax (isotropic k v)).
Proof.
  intros [L F] Fk [SC R0] U8. pose proof (uu prec) as U.
  assert (TOP : B2R k ^ 2 * squared_length prec emax v <= bpow radix2 (emax - 4)) by (destruct R0 as [-> | [_ H]]; [left; apply bpow_gt_0|exact H]).
  assert (C : forall c, In c v -> is_finite (fmul c k) = true /\ near 2 ((B2R k * B2R c) ^ 2) (B2R (fmul c k) ^ 2)).
  { intros c Hc. apply scaled_near; [apply F; exact Hc|exact Fk|apply SC; exact Hc|]. eapply Rle_trans; [apply member_le; exact Hc|exact TOP]. }
  assert (N : near 2 (B2R k ^ 2 * squared_length prec emax v) (squared_length prec emax (isotropic k v))).
  { rewrite <- total_scale. unfold squared_length, M_forbital.isotropic. rewrite map_map. apply (near_total u U). intros c Hc. apply C. exact Hc. }
  assert (LI : length (isotropic k v) = length v) by apply map_length.
  split; [split; [rewrite LI; exact L|intros c Hc; apply in_map_iff in Hc; destruct Hc as (x & <- & Hx); apply C; exact Hx]|].
  assert (G2 : g ^ 2 <= 2) by (apply (g_two u U); cbn; lra). split.
  - unfold measurable. rewrite LI. destruct N as [N1 [N2 [N3 N4]]]. destruct R0 as [Z|[R1 R2]]; [left; rewrite Z, Rmult_0_l in N4; lra|]. right.
    replace (bpow radix2 (6 - emax)) with (2 * bpow radix2 (5 - emax)) in R1 by (replace (6 - emax)%Z with (1 + (5 - emax))%Z by lia; rewrite bpow_plus; reflexivity).
    replace (bpow radix2 (emax - 3)) with (2 * bpow radix2 (emax - 4)) by (replace (emax - 3)%Z with (1 + (emax - 4))%Z by lia; rewrite bpow_plus; reflexivity). split; nra.
  - pose proof (near_sqrt u U 2 _ _ N) as S2. replace (Rabs (B2R k) * vlength prec emax v) with (sqrt (B2R k ^ 2 * squared_length prec emax v)); [exact S2|].
    rewrite sqrt_mult_alt by apply pow2_ge_0. unfold vlength. f_equal. replace (B2R k ^ 2) with (Rsqr (B2R k)) by (unfold Rsqr; ring). apply sqrt_Rsqr_abs.
Qed.

Section Sum.
Variable q : Z.
Lemma exact_near D (k : fl) vs : is_finite k = true -> u <= / 8 -> (forall v, In v vs -> is_position prec emax D v /\ scalable prec emax k v) -> forall ws, length ws = length vs -> (forall w, In w ws -> is_weight prec emax q w) ->
  Rabs (exact_envelope prec emax (map (isotropic k) vs) ws - total (map (fun vw => B2R (snd vw) * exp (- (Rabs (B2R k) * vlength prec emax (fst vw)))) (combine vs ws))) <= INR (length vs) * (bpow radix2 q * (4 * u)).
Proof.
  intros Fk U8 OK. pose proof (uu prec) as U. induction vs as [|v vs IH]; intros [|w ws] L W; try discriminate L.
  - cbn. rewrite Rminus_0_r, Rabs_R0. lra.
  - specialize (IH (fun y H => OK y (or_intror H)) ws ltac:(cbn in L; lia) (fun x H => W x (or_intror H))). destruct (OK v (or_introl eq_refl)) as [P M]. destruct (iso_near D k v P Fk M U8) as [_ [_ N]].
    assert (U2 : INR 2 * u <= / 2) by (cbn; lra). pose proof (near_err u U 2 _ _ U2 N) as E. pose proof (g_two u U 2 U2) as G2. destruct N as [N1 [N2 [N3 N4]]].
    assert (C : Rabs (exp (- vlength prec emax (isotropic k v)) - exp (- (Rabs (B2R k) * vlength prec emax v))) <= 4 * u).
    { apply exp_close; [lra|exact N1| |].
      - eapply Rle_trans; [exact N3|]. rewrite (Rmult_comm 2). apply Rmult_le_compat_l; assumption.
      - replace (4 * u) with (2 * INR 2 * u) by (cbn; ring). exact E. }
    unfold exact_envelope in *. cbn [map combine length]. change (total (?a :: ?l)) with (a + total l). cbn [fst snd]. rewrite S_INR. destruct (W w (or_introl eq_refl)) as [_ Ww].
    match goal with |- Rabs (?a * ?e + ?b - (?a * ?f + ?d)) <= _ => replace (a * e + b - (a * f + d)) with (a * (e - f) + (b - d)) by ring end. eapply Rle_trans; [apply Rabs_triang|].
    assert (T : Rabs (B2R w * (exp (- vlength prec emax (isotropic k v)) - exp (- (Rabs (B2R k) * vlength prec emax v)))) <= bpow radix2 q * (4 * u)) by (rewrite Rabs_mult; apply Rmult_le_compat; try apply Rabs_pos; assumption). lra.
Qed.
End Sum.

Variables (fe : fl -> fl) (fs : list fl -> fl) (epse : R).
Hypothesis GE : good_exp prec emax epse fe.
Hypothesis GS : forall l, is_sum prec emax l (fs l).
Lemma orbital_near q D (lin k : fl) vs ws : (0 <= q)%Z -> (q + prec < emax)%Z -> INR (length vs) <= bpow radix2 prec -> INR (D + 8) * u <= / 4 -> is_finite lin = true -> is_finite k = true ->
  (forall v, In v vs -> is_position prec emax D v /\ scalable prec emax k v) -> length ws = length vs -> (forall w, In w ws -> is_weight prec emax q w) -> Rabs (B2R lin) * (INR (length vs) * bpow radix2 q) <= bpow radix2 (emax - 1) ->
  let o := fmul lin (envelope prec emax fe fs (fzero prec emax) (map (isotropic k) vs) ws) in
  is_finite o = true /\ Rabs (B2R o - exact_orbital prec emax lin k vs ws) <= orbital_error prec emax epse (Rabs (B2R lin)) q D (length vs).
Proof using GE GS.
  intros Q QP N DU FL Fk OK L W B o. pose proof (uu prec) as U. assert (U8 : u <= / 8). { rewrite plus_INR in DU. replace (INR 8) with 8 in DU by (cbn; lra). pose proof (pos_INR D). nra. }
  assert (OK' : forall v, In v (map (isotropic k) vs) -> is_position prec emax D v /\ measurable prec emax v). { intros v Hv. apply in_map_iff in Hv. destruct Hv as (x & <- & Hx). destruct (OK x Hx) as [P M]. destruct (iso_near D k x P Fk M U8) as [A [A' _]]. split; assumption. }
  assert (LM : length (map (isotropic k) vs) = length vs) by apply map_length.
  pose proof (envelope_near prec emax fe fs epse GE GS q Q QP D (map (isotropic k) vs) ws OK' DU) as E1. rewrite LM in E1. specialize (E1 L W N).
  destruct (envelope_bounded prec emax fe fs epse GE GS q Q QP (map (isotropic k) vs) ws) as [FE BE]; [|exact W|rewrite LM; exact L|rewrite LM; exact N|].
  { intros v c Hv Hc. destruct (OK' v Hv) as [[_ F] _]. specialize (F c Hc). destruct c; try discriminate F; reflexivity. }
  rewrite LM in BE. pose proof (exact_near q D k vs Fk U8 OK ws L W) as E2. set (e := envelope prec emax fe fs (fzero prec emax) (map (isotropic k) vs) ws) in *. unfold o, exact_orbital, orbital_error. set (t := total _) in *. set (n := INR (length vs)) in *.
  pose proof (Rabs_pos (B2R lin)) as AL. assert (PB : Rabs (B2R lin * B2R e) <= Rabs (B2R lin) * (n * bpow radix2 q)) by (rewrite Rabs_mult; apply Rmult_le_compat_l; assumption).
  destruct (mul_fin prec emax lin e FL FE) as [F V]; [lra|]. split; [exact F|]. pose proof (any_rnd_err prec emax (B2R lin * B2R e)) as E3. rewrite <- V in E3. unfold P_fpotential.tiny in E3.
  replace (B2R (fmul lin e) - B2R lin * t) with ((B2R (fmul lin e) - B2R lin * B2R e) + B2R lin * (B2R e - t)) by ring. eapply Rle_trans; [apply Rabs_triang|]. rewrite Rabs_mult.
  assert (E4 : Rabs (B2R e - t) <= envelope_error prec epse q D (length vs) + n * (bpow radix2 q * (4 * u))).
  { match goal with |- Rabs (?a - ?c) <= _ => replace (a - c) with ((a - exact_envelope prec emax (map (isotropic k) vs) ws) + (exact_envelope prec emax (map (isotropic k) vs) ws - c)) by ring end. eapply Rle_trans; [apply Rabs_triang|]. lra. }
  assert (E5 : Rabs (B2R lin) * Rabs (B2R e - t) <= Rabs (B2R lin) * (envelope_error prec epse q D (length vs) + n * (bpow radix2 q * (4 * u)))) by (apply Rmult_le_compat_l; assumption).
  assert (E6 : u * Rabs (B2R lin * B2R e) <= u * (Rabs (B2R lin) * (n * bpow radix2 q))) by (apply Rmult_le_compat_l; lra).
  unfold envelope_error in E5. fold n in E5. replace (INR (2 * D + 23)) with (INR (2 * D + 18) + 5) by (rewrite !plus_INR; cbn [INR]; ring).
  set (c := INR (2 * D + 18)) in *. set (b := bpow radix2 q) in *. set (a := Rabs (B2R lin)) in *.
  replace (a * (b * (n * ((c + 5) * u + epse) + u * (n * n)))) with (a * (b * (n * (c * u + epse) + u * (n * n)) + n * (b * (4 * u))) + u * (a * (n * b))) by ring. lra.
Qed.
End Proofs.

(** T_fpotential: C91, Coulomb potentials on machine floating-point numbers. *)
From Coq Require Import ZArith Reals.
From Flocq Require Import Core IEEE754.BinarySingleNaN.
From Coq Require Import Lia Lra List Permutation Bool Arith.
Import ListNotations.
From Verif Require Import M_float S_float P_float P_float2 P_float4 T_float M_fwalk S_fwalk P_fwalk P_fwalk2 T_fwalk M_fenergy S_fenergy P_fenergy P_fenergy2 P_fenergy3 P_fenergy4
  M_fpotential S_fpotential P_fpotential P_fpotential2.
Open Scope R_scope.

(** C91.  The attraction of electrons by ions, in whatever order the terms are added: if every distance is neither too small nor too large ([apart]) and charges are at least 1, the result is a
    number with relative error at most 2 p u, p the number of terms plus the dimension plus 8. *)
Theorem C91_attraction :
  forall prec emax (Hp : Prec_gt_0 prec) (He : Prec_lt_emax prec emax) fs, (forall l, is_sum prec emax l (fs l)) ->
  forall D strength soft ions charges x,
  (forall e, In e x -> is_position prec emax D e) -> (forall r, In r ions -> is_position prec emax D r) -> (forall q, In q charges -> is_charge prec emax q) ->
  (forall e r, In e x -> In r ions -> apart prec emax soft e r) -> is_charge prec emax strength -> is_finite soft = true ->
  let p := INR (length x * length (combine charges ions) + D + 8) in let u := unit_roundoff prec in let exact := B2R strength * exact_attraction prec emax soft ions charges x in
  p * u <= / 2 -> exact <= bpow radix2 (emax - 3) ->
  let V := attraction prec emax fs strength soft ions charges x in
  is_finite V = true /\ Rabs (B2R V - - exact) <= 2 * p * u * exact.
Proof.
  intros prec emax Hp He fs SUM D strength soft ions charges x Hx Hr Hq A S F p u exact LU B V.
  destruct (attraction_near prec emax fs SUM D strength soft ions charges x Hx Hr Hq A S F LU B) as [FV N]. split; [exact FV|].
  pose proof (near_err u (uu prec) _ _ _ LU N) as E. fold V in E. replace (B2R V - - exact) with (- (- B2R V - exact)) by ring. rewrite Rabs_Ropp. exact E.
Qed.
Print Assumptions C91_attraction.

(** C91.  The repulsion of electrons: every pair counts once, and the infinite terms of an electron with itself are masked. *)
Theorem C91_repulsion :
  forall prec emax (Hp : Prec_gt_0 prec) (He : Prec_lt_emax prec emax) fs, (forall l, is_sum prec emax l (fs l)) ->
  forall D strength soft x,
  (forall e, In e x -> is_position prec emax D e) -> (forall a b, In (a, b) (pairs x) -> apart prec emax soft a b) -> is_charge prec emax strength -> is_finite soft = true ->
  let p := INR (length (pairs x) + D + 7) in let u := unit_roundoff prec in let exact := B2R strength * exact_repulsion prec emax soft x in
  p * u <= / 2 -> exact <= bpow radix2 (emax - 3) ->
  let V := repulsion prec emax fs strength soft x in
  is_finite V = true /\ Rabs (B2R V - exact) <= 2 * p * u * exact.
Proof.
  intros prec emax Hp He fs SUM D strength soft x Hx A S F p u exact LU B V.
  destruct (repulsion_near prec emax fs SUM D strength soft x Hx A S F LU B) as [FV N]. split; [exact FV|]. apply (near_err u (uu prec) _ _ _ LU N).
Qed.
Print Assumptions C91_repulsion.

(** C91.  The repulsion of ions. *)
Theorem C91_ions :
  forall prec emax (Hp : Prec_gt_0 prec) (He : Prec_lt_emax prec emax) fs, (forall l, is_sum prec emax l (fs l)) ->
  forall D ions charges,
  (forall r, In r ions -> is_position prec emax D r) -> (forall q, In q charges -> is_charge prec emax q) ->
  (forall a b, In (a, b) (pairs (combine charges ions)) -> apart prec emax (fzero prec emax) (snd a) (snd b) /\ B2R (fst a) * B2R (fst b) <= bpow radix2 (emax - 3)) ->
  let p := INR (length (pairs (combine charges ions)) + D + 8) in let u := unit_roundoff prec in let exact := exact_ion_repulsion prec emax ions charges in
  p * u <= / 2 -> exact <= bpow radix2 (emax - 3) ->
  let V := ion_repulsion prec emax fs ions charges in
  is_finite V = true /\ Rabs (B2R V - exact) <= 2 * p * u * exact.
Proof.
  intros prec emax Hp He fs SUM D ions charges Hr Hq A p u exact LU B V.
  destruct (ion_repulsion_near prec emax fs SUM D ions charges Hr Hq A LU B) as [FV N]. split; [exact FV|]. apply (near_err u (uu prec) _ _ _ LU N).
Qed.
Print Assumptions C91_ions.

(** C91.  The local energy, for a kinetic energy K that is a number: the exact sum K - attraction + repulsion + ion repulsion up to 2 (p + 4) u times the sum of the four sizes. *)
Theorem C91_local_energy :
  forall prec emax (Hp : Prec_gt_0 prec) (He : Prec_lt_emax prec emax) fs, (forall l, is_sum prec emax l (fs l)) ->
  forall D kinetic ei_soft ee_soft ions charges x,
  (forall e, In e x -> is_position prec emax D e) -> (forall r, In r ions -> is_position prec emax D r) -> (forall q, In q charges -> is_charge prec emax q) ->
  (forall e r, In e x -> In r ions -> apart prec emax ei_soft e r) -> (forall a b, In (a, b) (pairs x) -> apart prec emax ee_soft a b) ->
  (forall a b, In (a, b) (pairs (combine charges ions)) -> apart prec emax (fzero prec emax) (snd a) (snd b) /\ B2R (fst a) * B2R (fst b) <= bpow radix2 (emax - 3)) ->
  is_finite kinetic = true -> is_finite ei_soft = true -> is_finite ee_soft = true ->
  let p := INR (length x * length (combine charges ions) + length (pairs x) + length (pairs (combine charges ions)) + D + 8) in let u := unit_roundoff prec in
  let ei := exact_attraction prec emax ei_soft ions charges x in let ee := exact_repulsion prec emax ee_soft x in let ii := exact_ion_repulsion prec emax ions charges in
  p * u <= / 2 -> Rabs (B2R kinetic) + ei + ee + ii <= bpow radix2 (emax - 3) ->
  let E := local_energy prec emax fs kinetic ei_soft ee_soft ions charges x in
  is_finite E = true /\ Rabs (B2R E - (B2R kinetic - ei + ee + ii)) <= 2 * (p + 4) * u * (Rabs (B2R kinetic) + ei + ee + ii).
Proof.
  intros prec emax Hp He fs SUM D K eis ees ions charges x Hx Hr Hq A1 A2 A3 FK F1 F2 p u ei ee ii LU B E. pose proof (uu prec) as U. fold u in U.
  destruct (one_R prec emax) as [O1 O2]. assert (CH : is_charge prec emax (fone prec emax)) by (split; [exact O1|lra]).
  assert (EI0 : 0 <= ei). { apply total_nonneg. intros [e [q r]] Hz. apply div_nonneg. apply in_prod_iff in Hz. destruct Hz as [_ Hz]. destruct (Hq q (in_combine_l _ _ _ _ Hz)). cbn [fst snd]. lra. }
  assert (EE0 : 0 <= ee). { apply total_nonneg. intros [a b] Hz. cbn [fst snd]. replace (/ distance prec emax ees a b) with (1 / distance prec emax ees a b) by (unfold Rdiv; ring). apply div_nonneg. lra. }
  assert (II0 : 0 <= ii). { apply total_nonneg. intros [[qa ra] [qb rb]] Hz. apply div_nonneg. destruct (pairs_in _ _ Hz) as [I1 I2]. cbn [fst snd] in *. destruct (Hq qa (in_combine_l _ _ _ _ I1)), (Hq qb (in_combine_l _ _ _ _ I2)). nra. }
  set (n := (length x * length (combine charges ions) + length (pairs x) + length (pairs (combine charges ions)) + D + 8)%nat) in *.
  assert (PU : forall m, (m <= n)%nat -> INR m * u <= / 2) by (intros m Hm; apply le_INR in Hm; pose proof (pos_INR m); fold p in Hm; nra).
  pose proof (Rabs_pos (B2R K)) as K0. set (A := Rabs (B2R K) + ei + ee + ii) in *.
  assert (U16 : u <= / 16). { specialize (PU 8%nat ltac:(lia)). replace (INR 8) with 8 in PU by (cbn; lra). lra. }
  assert (BND : forall (m : nat) V t, (m <= n)%nat -> Rabs (V - t) <= 2 * INR m * u * Rabs t -> Rabs (V - t) <= 2 * p * u * Rabs t).
  { intros m V t Hm H. eapply Rle_trans; [exact H|]. apply le_INR in Hm. fold p in Hm. pose proof (Rabs_pos t). apply Rmult_le_compat_r; [assumption|]. apply Rmult_le_compat_r; lra. }
  destruct (C91_attraction prec emax Hp He fs SUM D (fone prec emax) eis ions charges x Hx Hr Hq A1 CH F1) as [FA EA]; [apply PU; lia|rewrite O2; fold ei; unfold A in B; lra|].
  destruct (C91_repulsion prec emax Hp He fs SUM D (fone prec emax) ees x Hx A2 CH F2) as [FR ER]; [apply PU; lia|rewrite O2; fold ee; unfold A in B; lra|].
  destruct (C91_ions prec emax Hp He fs SUM D ions charges Hr Hq A3) as [FI EI]; [apply PU; lia|fold ii; unfold A in B; lra|].
  rewrite O2, Rmult_1_l in EA, ER. fold ei in EA. fold ee in ER. fold ii in EI. fold u in EA, ER, EI.
  unfold E, local_energy. cbn [fold_left]. set (va := attraction _ _ _ _ _ _ _ _) in *. set (vr := repulsion _ _ _ _ _ _) in *. set (vi := ion_repulsion _ _ _ _ _) in *.
  assert (EA' : Rabs (B2R va - - ei) <= 2 * p * u * ei). { replace ei with (Rabs (- ei)) at 2 by (rewrite Rabs_Ropp, Rabs_pos_eq; lra). eapply BND; [|rewrite Rabs_Ropp, (Rabs_pos_eq ei) by lra; exact EA]. lia. }
  assert (ER' : Rabs (B2R vr - ee) <= 2 * p * u * ee). { replace ee with (Rabs ee) at 2 by (rewrite Rabs_pos_eq; lra). eapply BND; [|rewrite (Rabs_pos_eq ee) by lra; exact ER]. lia. }
  assert (EI' : Rabs (B2R vi - ii) <= 2 * p * u * ii). { replace ii with (Rabs ii) at 2 by (rewrite Rabs_pos_eq; lra). eapply BND; [|rewrite (Rabs_pos_eq ii) by lra; exact EI]. lia. }
  assert (ADD : forall a b : binary_float prec emax, is_finite a = true -> is_finite b = true -> Rabs (B2R a + B2R b) <= bpow radix2 (emax - 1) ->
    is_finite (fadd prec emax a b) = true /\ Rabs (B2R (fadd prec emax a b) - (B2R a + B2R b)) <= u * Rabs (B2R a + B2R b)).
  { intros a b Fa Fb Hab. destruct (fadd_spec prec emax a b _ Fa Fb (top_fmt prec emax _ (emax1 prec emax)) ltac:(apply bpow_lt; lia) Hab) as [F [V _]]. split; [exact F|]. rewrite V. apply rnd_plus_err; [exact Hp|apply fmt_B2R|apply fmt_B2R]. }
  rewrite (M4 emax) in ADD. set (M := bpow radix2 (emax - 3)) in *.
  assert (P2 : 2 * p * u <= 1) by lra.
  assert (CE : forall t, 0 <= t -> 2 * p * u * t <= t) by (intros t Ht; nra).
  apply Rabs_le_inv in EA'. apply Rabs_le_inv in ER'. apply Rabs_le_inv in EI'. pose proof (CE ei EI0). pose proof (CE ee EE0). pose proof (CE ii II0). pose proof (Rle_abs (B2R K)). pose proof (Rle_abs (- B2R K)) as KM. rewrite Rabs_Ropp in KM.
  assert (SA : Rabs (B2R K) + ei + ee + ii = A) by reflexivity. clearbody A. assert (A0 : 0 <= A) by lra. assert (UA : u * A <= / 16 * A) by nra. assert (UA0 : 0 <= u * A) by nra.
  assert (B1 : Rabs (B2R K + B2R va) <= 2 * A) by (apply Rabs_le; lra). destruct (ADD K va FK FA ltac:(lra)) as [G1 Q1]. assert (Q1' : u * Rabs (B2R K + B2R va) <= 2 * (u * A)) by nra. apply Rabs_le_inv in Q1. set (s1 := fadd prec emax K va) in *.
  assert (B2 : Rabs (B2R s1 + B2R vr) <= 9 / 4 * A) by (apply Rabs_le; lra). destruct (ADD s1 vr G1 FR ltac:(lra)) as [G2 Q2]. assert (Q2' : u * Rabs (B2R s1 + B2R vr) <= 9 / 4 * (u * A)) by nra. apply Rabs_le_inv in Q2. set (s2 := fadd prec emax s1 vr) in *.
  assert (B3 : Rabs (B2R s2 + B2R vi) <= 5 / 2 * A) by (apply Rabs_le; lra). destruct (ADD s2 vi G2 FI ltac:(lra)) as [G3 Q3]. assert (Q3' : u * Rabs (B2R s2 + B2R vi) <= 5 / 2 * (u * A)) by nra. apply Rabs_le_inv in Q3.
  split; [exact G3|]. apply Rabs_le.
  assert (PA : 2 * p * u * ei + 2 * p * u * ee + 2 * p * u * ii <= 2 * p * u * A). { replace (2 * p * u * ei + 2 * p * u * ee + 2 * p * u * ii) with (2 * p * u * (ei + ee + ii)) by ring. apply Rmult_le_compat_l; [|lra]. assert (P0 : 0 <= p) by apply pos_INR. nra. }
  replace (2 * (p + 4) * u * A) with (2 * p * u * A + 8 * (u * A)) by ring. lra.
Qed.
Print Assumptions C91_local_energy.

(** C91.  Without softening, two particles at exactly the same place give an energy that is not a number, whatever the other particles do and however the kinetic energy diverges. *)
Lemma add_finite prec emax (Hp : Prec_gt_0 prec) (He : Prec_lt_emax prec emax) (a b : binary_float prec emax) : is_finite (fadd prec emax a b) = true -> is_finite a = true /\ is_finite b = true.
Proof. unfold fadd. destruct a as [s1|s1| |s1 m1 e1 H1], b as [s2|s2| |s2 m2 e2 H2]; intros F; try (split; reflexivity); exfalso; revert F; cbn; try discriminate; try (destruct s1, s2; cbn; discriminate). Qed.
Theorem C91_coincidence :
  forall prec emax (Hp : Prec_gt_0 prec) (He : Prec_lt_emax prec emax) fs, (forall l, is_sum prec emax l (fs l)) ->
  forall kinetic ei_soft ee_soft ions charges x,
  (exists e q, In e x /\ In (q, e) (combine charges ions) /\ (forall c, In c e -> is_finite c = true) /\ is_charge prec emax q /\ ei_soft = fzero prec emax) \/
  (exists e, In (e, e) (pairs x) /\ (forall c, In c e -> is_finite c = true) /\ ee_soft = fzero prec emax) ->
  is_finite (local_energy prec emax fs kinetic ei_soft ee_soft ions charges x) = false.
Proof.
  intros prec emax Hp He fs SUM K eis ees ions charges x H.
  assert (N0 : forall e, (forall c, In c e -> is_finite c = true) -> soft_norm prec emax fs (fzero prec emax) (displacement prec emax e e) = fzero prec emax).
  { intros e Fe. unfold soft_norm. assert (Z : fs (map (fun c => fmul prec emax c c) (displacement prec emax e e)) = fzero prec emax).
    { apply (sum_closed prec emax (fun z => z = fzero prec emax) (map (fun c => fmul prec emax c c) (displacement prec emax e e))); [intros a b -> ->; reflexivity|reflexivity|apply SUM|].
      intros y Hy. apply in_map_iff in Hy. destruct Hy as (c & <- & Hc). unfold displacement in Hc. rewrite zip_combine in Hc. apply in_map_iff in Hc. destruct Hc as ([a b] & <- & Hab). cbn [fst snd].
      assert (EQ : a = b) by (clear - Hab; revert Hab; induction e as [|d e IH]; [intros []|cbn; intros [Q|Q]; [congruence|apply IH, Q]]). subst b.
      assert (Fa : is_finite a = true) by (apply Fe; eapply in_combine_l; exact Hab).
      assert (SZ : exists s, fsub prec emax a a = B754_zero s).
      { unfold fsub. pose proof (Bminus_correct prec emax Hp He mode_NE a a Fa Fa) as C. cbn [round_mode] in C. rewrite Rminus_diag_eq, round_0, Rabs_R0 in C by (auto with typeclass_instances). rewrite Rlt_bool_true in C by apply bpow_gt_0. destruct C as [C1 [C2 _]].
        destruct (Bminus mode_NE a a) as [s|s| |s m ee' B]; try discriminate; [exists s; reflexivity|]. exfalso. destruct s; [pose proof (fin_neg prec emax m ee' B)|pose proof (fin_pos prec emax m ee' B)]; lra. }
      destruct SZ as [s ->]. destruct s; reflexivity. }
    rewrite Z. reflexivity. }
  assert (DV : forall q, is_charge prec emax q -> fdiv prec emax q (fzero prec emax) = B754_infinity false).
  { intros q [Fq Q1]. destruct q as [s|s| |s m e B]; try discriminate; [cbn in Q1; lra|]. destruct s; [pose proof (fin_neg prec emax m e B); lra|reflexivity]. }
  assert (ABS : forall l z, In z l -> z = B754_infinity false -> is_finite (fs l) = false).
  { intros l z Hz ->. assert (L : like prec emax false (fs l)) by (apply (sum_absorbs prec emax (like prec emax false) l (fs l) (B754_infinity false)); [apply like_add|apply SUM|exact Hz|right; reflexivity]). destruct L as [->| ->]; reflexivity. }
  unfold local_energy. cbn [fold_left]. match goal with |- is_finite ?E = false => destruct (is_finite E) eqn:FE; [exfalso|reflexivity] end.
  apply add_finite in FE; try assumption. destruct FE as [FE _]. apply add_finite in FE; try assumption. destruct FE as [FE FR]. apply add_finite in FE; try assumption. destruct FE as [_ FA].
  destruct H as [(e & q & Ie & Iq & Fe & Cq & ->)|(e & Ie & Fe & ->)].
  - unfold attraction in FA. cbn zeta in FA. set (l := concat _) in FA. assert (IL : In (B754_infinity false) l).
    { unfold l. apply in_concat. eexists. split; [apply in_map; exact Ie|]. rewrite zip_combine. apply in_map_iff. exists (q, e). split; [cbn [fst snd]; rewrite N0 by exact Fe; apply DV; exact Cq|exact Iq]. }
    assert (L : like prec emax false (fs l)) by (apply (sum_absorbs prec emax (like prec emax false) l (fs l) (B754_infinity false)); [apply like_add|apply SUM|exact IL|right; reflexivity]).
    destruct (one_R prec emax) as [O1 O2]. clearbody l. revert FA. unfold fmul. destruct (fone prec emax) as [s0|s0| |[|] m0 e0 B0] eqn:EO; try discriminate; [cbn in O2; lra|pose proof (fin_neg prec emax m0 e0 B0); lra|]. destruct L as [->| ->]; cbn; discriminate.
  - unfold repulsion in FR. destruct (triu_pairs prec emax (fun a b => fdiv prec emax (fone prec emax) (soft_norm prec emax fs (fzero prec emax) (displacement prec emax a b))) x) as [k P].
    rewrite (ABS _ (B754_infinity false)) in FR; [discriminate| |reflexivity]. apply (Permutation_in _ (Permutation_sym P)). apply in_or_app. left. apply in_map_iff. exists (e, e). cbn [fst snd]. split; [|exact Ie].
    rewrite N0 by exact Fe. apply DV. destruct (one_R prec emax) as [O1 O2]. split; [exact O1|lra].
Qed.
Print Assumptions C91_coincidence.


(** C91.  And the lower bound on the distances is needed: in single precision an electron at distance 2^-76 from a proton (its position is a number, and so is the exact energy, -2^76) gets the energy -infinity. *)
#[local] Existing Instances prec32 emax32.
Notation z32 := (B754_zero false : binary_float 24 128).
Definition near_proton : binary_float 24 128 := f32 8388608 (-99) eq_refl.
Theorem C91_close_refuted :
  exact_attraction 24 128 z32 [[z32; z32; z32]] [@Bone 24 128 prec32 emax32] [[near_proton; z32; z32]] = bpow radix2 76 /\
  forall fs, (forall l, is_sum 24 128 l (fs l)) -> attraction 24 128 fs (@Bone 24 128 prec32 emax32) z32 [[z32; z32; z32]] [@Bone 24 128 prec32 emax32] [[near_proton; z32; z32]] = B754_infinity true.
Proof.
  assert (V : B2R near_proton = bpow radix2 (-76)). { change (B2R near_proton) with (IZR 8388608 * bpow radix2 (-99)). change (IZR 8388608) with (bpow radix2 23). rewrite <- bpow_plus. reflexivity. }
  split.
  - unfold exact_attraction, distance, squared_distance, total. cbn [list_prod combine map fold_right app fst snd]. rewrite V, (proj2 (one_R 24 128)). cbn [B2R].
    replace (_ + 0 ^ 2) with (bpow radix2 (-76) * bpow radix2 (-76)) by ring. rewrite sqrt_square by apply bpow_ge_0. rewrite Rplus_0_r. unfold Rdiv. rewrite Rmult_1_l, <- bpow_opp. reflexivity.
  - intros fs SUM. unfold attraction, displacement, soft_norm. cbn [map zip_with concat app].
    assert (Z0 : fmul 24 128 (fsub 24 128 near_proton z32) (fsub 24 128 near_proton z32) = z32) by reflexivity. assert (Z1 : fmul 24 128 (fsub 24 128 z32 z32) (fsub 24 128 z32 z32) = z32) by reflexivity. rewrite Z0, Z1.
    rewrite (sum_closed 24 128 (fun z => z = z32) [z32; z32; z32] (fs [z32; z32; z32])); [|intros a b -> ->; reflexivity|reflexivity|apply SUM|intros y [<-|[<-|[<-|[]]]]; reflexivity].
    assert (I : fdiv 24 128 (@Bone 24 128 prec32 emax32) (Bsqrt mode_NE (fadd 24 128 z32 (fmul 24 128 z32 z32))) = B754_infinity false) by reflexivity. rewrite I.
    assert (IS : fs [B754_infinity false] = B754_infinity false).
    { assert (C1 : fs [B754_infinity false] = B754_infinity false \/ fs [B754_infinity false] = z32).
      { apply (sum_closed 24 128 (fun z => z = B754_infinity false \/ z = z32) [B754_infinity false]); [intros a b [->| ->] [->| ->]; (left; reflexivity) || (right; reflexivity)|right; reflexivity|apply SUM|intros y [<-|[]]; left; reflexivity]. }
      assert (C2 : like 24 128 false (fs [B754_infinity false])) by (apply (sum_absorbs 24 128 (like 24 128 false) [B754_infinity false] _ (B754_infinity false)); [apply like_add|apply SUM|left; reflexivity|right; reflexivity]).
      destruct C1 as [C1|C1]; [exact C1|]. rewrite C1 in C2. destruct C2; discriminate. }
    rewrite IS. reflexivity.
Qed.

Print Assumptions C91_close_refuted.

(** ** Examples in single precision *)
(** A helium atom: nucleus of charge 2 at the origin, electrons at (1/2, 0, 0) and (0, 0, 1/4), kinetic energy 1/2. *)
Definition two_f : binary_float 24 128 := f32 8388608 (-22) eq_refl.
Definition nucleus : list (binary_float 24 128) := [z32; z32; z32].
Definition electrons : list (list (binary_float 24 128)) := [[half; z32; z32]; [z32; z32; quarter]].
Lemma number_values : B2R quarter = / 4 /\ B2R half = / 2 /\ B2R two_f = 2.
Proof.
  change (B2R half) with (IZR 8388608 * bpow radix2 (-24)). change (B2R quarter) with (IZR 8388608 * bpow radix2 (-25)). change (B2R two_f) with (IZR 8388608 * bpow radix2 (-22)).
  replace (bpow radix2 (-24)) with (/ 16777216) by (cbn; lra). replace (bpow radix2 (-25)) with (/ 33554432) by (cbn; lra). replace (bpow radix2 (-22)) with (/ 4194304) by (cbn; lra). repeat split; lra.
Qed.
Lemma small32 : bpow radix2 (5 - 128) <= / 1000.
Proof. apply Rle_trans with (bpow radix2 (-10)); [apply bpow_le; lia|cbn; lra]. Qed.
Lemma large32 : 1000 <= bpow radix2 (128 - 3).
Proof. apply Rle_trans with (bpow radix2 10); [cbn; lra|apply bpow_le; lia]. Qed.
Ltac position := split; [reflexivity|]; intros c [<-|[<-|[<-|[]]]]; reflexivity.
Ltac apart32 := pose proof small32; pose proof large32; let v1 := fresh in let v2 := fresh in let v3 := fresh in destruct number_values as [v1 [v2 v3]]; unfold apart, squared_distance, total, nucleus; cbn [length combine map fold_right fst snd]; rewrite ?v1, ?v2, ?v3; cbn [B2R]; replace (INR (3 + 1)) with 4 by (cbn; lra); split; lra.

Lemma helium_apart e r : In e electrons -> In r [nucleus] -> apart 24 128 z32 e r.
Proof. intros [<-|[<-|[]]] [<-|[]]; apart32. Qed.
Lemma helium_attraction : exact_attraction 24 128 z32 [nucleus] [two_f] electrons = 12.
Proof.
  destruct number_values as [V1 [V2 V3]]. unfold exact_attraction, distance, squared_distance, total. cbn [list_prod combine map fold_right app fst snd electrons nucleus]. rewrite V1, V2, V3. cbn [B2R].
  match goal with |- 2 / sqrt ?a + (2 / sqrt ?b + 0) = _ => replace a with (/ 2 * / 2) by ring; replace b with (/ 4 * / 4) by ring end. rewrite !sqrt_square by lra. lra.
Qed.
Lemma helium_repulsion : exact_repulsion 24 128 z32 electrons = / sqrt (5 / 16).
Proof.
  destruct number_values as [V1 [V2 V3]]. unfold exact_repulsion, distance, squared_distance, total. cbn [pairs combine map fold_right app fst snd electrons]. rewrite V1, V2. cbn [B2R].
  rewrite Rplus_0_r. f_equal. f_equal. lra.
Qed.

Example C91_attraction_example fs : (forall l, is_sum 24 128 l (fs l)) ->
  let V := attraction 24 128 fs (fone 24 128) z32 [nucleus] [two_f] electrons in is_finite V = true /\ Rabs (B2R V - - 12) <= / 50000.
Proof.
  intros SUM V. pose proof large32 as L32. destruct (one_R 24 128) as [O1 O2]. destruct number_values as [V1 [V2 V3]].
  destruct (C91_attraction 24 128 prec32 emax32 fs SUM 3 (fone 24 128) z32 [nucleus] [two_f] electrons) as [F E].
  - intros e [<-|[<-|[]]]; position.
  - intros r [<-|[]]; position.
  - intros q [<-|[]]. split; [reflexivity|]. rewrite V3. lra.
  - apply helium_apart.
  - split; [exact O1|lra].
  - reflexivity.
  - unfold unit_roundoff. cbn. lra.
  - rewrite helium_attraction, O2. lra.
  - split; [exact F|]. rewrite helium_attraction, O2, Rmult_1_l in E. eapply Rle_trans; [exact E|]. unfold unit_roundoff. cbn. lra.
Qed.

Example C91_local_energy_example fs : (forall l, is_sum 24 128 l (fs l)) ->
  let E := local_energy 24 128 fs half z32 z32 [nucleus] [two_f] electrons in is_finite E = true /\ Rabs (B2R E - (/ 2 - 12 + / sqrt (5 / 16))) <= / 30000.
Proof.
  intros SUM V. pose proof large32 as L32. destruct number_values as [V1 [V2 V3]].
  assert (SB : 0 < / sqrt (5 / 16) <= 2). { assert (Q : / 2 <= sqrt (5 / 16)) by (rewrite <- (sqrt_square (/ 2)) by lra; apply sqrt_le_1_alt; lra). split; [apply Rinv_0_lt_compat; lra|]. replace 2 with (/ / 2) by lra. apply Rinv_le_contravar; lra. }
  assert (IZ : exact_ion_repulsion 24 128 [nucleus] [two_f] = 0) by reflexivity.
  destruct (C91_local_energy 24 128 prec32 emax32 fs SUM 3 half z32 z32 [nucleus] [two_f] electrons) as [F E].
  - intros e [<-|[<-|[]]]; position.
  - intros r [<-|[]]; position.
  - intros q [<-|[]]. split; [reflexivity|]. rewrite V3. lra.
  - apply helium_apart.
  - intros a b [Q|[]]. injection Q as <- <-. apart32.
  - intros a b [].
  - reflexivity.
  - reflexivity.
  - reflexivity.
  - unfold unit_roundoff. cbn. lra.
  - rewrite helium_attraction, helium_repulsion, IZ, V2, Rabs_pos_eq by lra. lra.
  - split; [exact F|]. rewrite helium_attraction, helium_repulsion, IZ, V2, Rplus_0_r, (Rabs_pos_eq (/ 2)), Rplus_0_r in E by lra. eapply Rle_trans; [exact E|].
    set (w := / sqrt (5 / 16)) in *. replace (INR _) with 14 by (cbn; lra). unfold unit_roundoff. assert (UV : bpow radix2 (- (24)) = / 16777216) by (cbn; lra). rewrite UV. lra.
Qed.

(** Two ions of charges 1 and 2, at distance 2. *)
Example C91_ions_example fs : (forall l, is_sum 24 128 l (fs l)) ->
  let V := ion_repulsion 24 128 fs [nucleus; [two_f; z32; z32]] [fone 24 128; two_f] in is_finite V = true /\ Rabs (B2R V - 1) <= 24 * bpow radix2 (-24).
Proof.
  intros SUM V. pose proof large32 as L32. destruct number_values as [V1 [V2 V3]]. destruct (one_R 24 128) as [O1 O2].
  assert (EX : exact_ion_repulsion 24 128 [nucleus; [two_f; z32; z32]] [fone 24 128; two_f] = 1).
  { unfold exact_ion_repulsion, distance, squared_distance, total. cbn [pairs combine map fold_right app fst snd nucleus]. rewrite V3, O2. cbn [B2R].
    match goal with |- 1 * 2 / sqrt ?a + 0 = _ => replace a with (2 * 2) by ring end. rewrite sqrt_square by lra. lra. }
  destruct (C91_ions 24 128 prec32 emax32 fs SUM 3 [nucleus; [two_f; z32; z32]] [fone 24 128; two_f]) as [F E].
  - intros r [<-|[<-|[]]]; position.
  - intros q [<-|[<-|[]]]; [split; [exact O1|lra]|]. split; [reflexivity|]. rewrite V3. lra.
  - intros a b [Q|[]]. injection Q as <- <-. cbn [fst snd]. rewrite O2, V3. split; [|lra]. change (fzero 24 128) with z32. unfold nucleus. apart32.
  - unfold unit_roundoff. cbn. lra.
  - rewrite EX. lra.
  - split; [exact F|]. rewrite EX in E. eapply Rle_trans; [exact E|]. unfold unit_roundoff. cbn. lra.
Qed.

(** An electron on the nucleus. *)
Example C91_coincidence_example fs kinetic : (forall l, is_sum 24 128 l (fs l)) -> is_finite (local_energy 24 128 fs kinetic z32 z32 [nucleus] [two_f] [[half; z32; z32]; nucleus]) = false.
Proof.
  intros SUM. destruct number_values as [V1 [V2 V3]]. apply C91_coincidence; [exact SUM|]. left. exists nucleus, two_f. split; [right; left; reflexivity|]. split; [left; reflexivity|].
  split; [intros c [<-|[<-|[<-|[]]]]; reflexivity|]. split; [split; [reflexivity|rewrite V3; lra]|reflexivity].
Qed.

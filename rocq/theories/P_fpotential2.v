(** P_fpotential2: accuracy of the three Coulomb potentials and of their sum. *)
From Coq Require Import ZArith Reals.
From Flocq Require Import Core IEEE754.BinarySingleNaN.
From Coq Require Import Lia Lra List Permutation Bool Arith.
Import ListNotations.
From Verif Require Import M_float S_float P_float P_float2 M_fwalk S_fwalk P_fwalk P_fwalk2 M_fenergy S_fenergy P_fenergy P_fenergy2 P_fenergy3 M_fpotential S_fpotential P_fpotential.
Open Scope R_scope.

Lemma triu_pairs prec emax {T} (f : T -> T -> binary_float prec emax) : forall l, exists k,
  Permutation (concat (triu prec emax (map (fun a => map (f a) l) l))) (map (fun z => f (fst z) (snd z)) (pairs l) ++ repeat (fzero prec emax) k).
Proof.
  assert (G : forall pre l, exists k, Permutation (concat (triu_from prec emax (length pre) (map (fun a => map (f a) (pre ++ l)) l))) (map (fun z => f (fst z) (snd z)) (pairs l) ++ repeat (fzero prec emax) k)).
  { intros pre l. revert pre. induction l as [|a l IH]; intros pre; [exists O; cbn; constructor|]. destruct (IH (pre ++ [a])) as [k P]. rewrite app_length in P. cbn [length] in P. rewrite Nat.add_1_r in P.
    cbn [map triu_from concat pairs]. exists (S (length pre) + k)%nat. rewrite map_length, app_length. cbn [length]. replace (Nat.min (S (length pre)) (length pre + S (length l))) with (S (length pre)) by lia.
    rewrite skipn_map. replace (skipn (S (length pre)) (pre ++ a :: l)) with l.
    2:{ replace (S (length pre)) with (length (pre ++ [a])) by (rewrite app_length; cbn; lia). change (a :: l) with ([a] ++ l). rewrite app_assoc, skipn_app, skipn_all, Nat.sub_diag. reflexivity. }
    rewrite map_app, map_map. cbn [fst snd]. rewrite <- app_assoc in P. rewrite repeat_app. eapply Permutation_trans.
    - rewrite <- app_assoc. apply Permutation_app_comm.
    - rewrite <- !app_assoc. apply Permutation_app_head. eapply Permutation_trans; [apply Permutation_app_tail; exact P|]. rewrite <- app_assoc. apply Permutation_app_head. apply Permutation_app_comm. }
  intros l. apply (G []).
Qed.

Section Potentials.
Variables prec emax : Z.
Context {Hp : Prec_gt_0 prec}.
Context {He : Prec_lt_emax prec emax}.
Notation fl := (binary_float prec emax).
Notation ex := (SpecFloat.fexp prec emax).
Notation emin := (SpecFloat.emin prec emax).
Notation rnd := (round radix2 ex ZnearestE).
Notation u := (unit_roundoff prec).
Notation fadd := (fadd prec emax). Notation fsub := (fsub prec emax). Notation fmul := (fmul prec emax).
Notation fdiv := (fdiv prec emax). Notation fzero := (fzero prec emax). Notation fone := (fone prec emax).
Notation near := (near u).
Notation g := (g u).
Notation tiny := (tiny emax).
Variable fs : list fl -> fl.
Hypothesis SUM : forall l, is_sum prec emax l (fs l).
Notation norm := (soft_norm prec emax fs).
Notation disp := (displacement prec emax).
Notation dist := (distance prec emax).
Notation M := (bpow radix2 (emax - 3)).
Local Instance ex_valid10 : Valid_exp ex := FLT_exp_valid emin prec.

Lemma M4 : bpow radix2 (emax - 1) = 4 * M. Proof. replace (emax - 1)%Z with (2 + (emax - 3))%Z by lia. rewrite bpow_plus. cbn. lra. Qed.
Lemma MT : M * tiny = / 2. Proof. unfold P_fpotential.tiny. rewrite <- bpow_plus. replace (emax - 3 + (2 - emax))%Z with (-1)%Z by lia. reflexivity. Qed.

(** One quotient. *)
Lemma quotient_near D soft (q : fl) Q p x y : is_position prec emax D x -> is_position prec emax D y -> is_finite soft = true -> apart prec emax soft x y -> INR (D + 6 + p) * u <= / 2 ->
  is_finite q = true -> 1 <= B2R q -> near p Q (B2R q) -> Q / dist soft x y <= M ->
  is_finite (fdiv q (norm soft (disp x y))) = true /\ near (D + 7 + p) (Q / dist soft x y) (B2R (fdiv q (norm soft (disp x y)))) /\ tiny <= B2R (fdiv q (norm soft (disp x y))).
Proof.
  intros Hx Hy Fs A DU Fq Q1 NQ B. pose proof (uu prec) as U. pose proof (tiny_pos emax) as TP. pose proof (bpow_gt_0 radix2 (emax - 3)) as MP.
  assert (DU' : INR (D + 6) * u <= / 2). { rewrite plus_INR in DU. pose proof (pos_INR p). nra. }
  destruct (norm_near prec emax fs SUM D soft x y Hx Hy Fs A DU') as [Fn [Nn [Bn1 Bn2]]]. set (n := norm soft (disp x y)) in *.
  assert (DP : 0 < dist soft x y). { destruct Nn as [[P|P] [_ [_ N4]]]; [exact P|]. rewrite <- P, Rmult_0_l in N4. lra. }
  assert (NN : near (p + (D + 6)) (Q / dist soft x y) (B2R q / B2R n)) by (apply near_mul; [exact NQ|apply near_inv; [exact U|exact Nn|exact DP]]).
  assert (LOW : tiny <= B2R q / B2R n).
  { assert (TN : tiny * B2R n <= 1). { replace (bpow radix2 (emax - 2)) with (2 * M) in Bn2 by (replace (emax - 2)%Z with (1 + (emax - 3))%Z by lia; rewrite bpow_plus; cbn; lra). pose proof MT. nra. }
    apply (Rmult_le_reg_r (B2R n)); [lra|]. unfold Rdiv. rewrite Rmult_assoc, Rinv_l by lra. lra. }
  assert (HIGH : Rabs (B2R q / B2R n) <= bpow radix2 (emax - 1)).
  { rewrite Rabs_pos_eq by lra. destruct NN as [_ [_ [_ N4]]]. assert (G : g ^ (p + (D + 6)) <= 2) by (apply g_two; [exact U|]; rewrite Nat.add_comm; exact DU). rewrite M4. pose proof (gp u U (p + (D + 6))). assert (0 <= Q / dist soft x y) by (apply Rmult_le_pos; [apply NQ|left; apply Rinv_0_lt_compat; exact DP]). nra. }
  pose proof (Bdiv_correct prec emax Hp He mode_NE q n ltac:(lra)) as C. cbn [round_mode] in C.
  pose proof (rnd_abs_le prec emax _ _ (top_fmt prec emax _ (emax1 prec emax)) HIGH) as RB. rewrite Rlt_bool_true in C by (eapply Rle_lt_trans; [exact RB|apply bpow_lt; lia]). destruct C as [C1 [C2 _]]. unfold M_fwalk.fdiv. rewrite C1, C2.
  split; [exact Fq|]. split.
  - replace (D + 7 + p)%nat with (p + (D + 6) + 1)%nat by lia. apply (near_trans u U) with (1 := NN). exact (rnd_rel prec emax _ LOW).
  - apply round_ge_generic; auto with typeclass_instances. unfold P_fpotential.tiny. apply (top_fmt prec emax). unfold SpecFloat.emin. pose proof (prec1 prec). lia.
Qed.

(** A sum of terms, each near an exact one, padded with zeros. *)
Lemma terms_near {T} p (F : T -> fl) (E : T -> R) l terms k : Permutation terms (map F l ++ repeat fzero k) ->
  (forall z, In z l -> is_finite (F z) = true /\ near p (E z) (B2R (F z)) /\ tiny <= B2R (F z)) -> INR (length l + p) * u <= / 2 -> total (map E l) <= M ->
  is_finite (fs terms) = true /\ near (length l + p) (total (map E l)) (B2R (fs terms)) /\ (l <> [] -> tiny <= B2R (fs terms)).
Proof.
  intros P H LU B. pose proof (uu prec) as U. pose proof (tiny_pos emax) as TP.
  assert (IS : is_sum prec emax (map F l) (fs terms)). { destruct (SUM terms) as [t [j [Q V]]]. exists t, (k + j)%nat. split; [|exact V]. eapply Permutation_trans; [exact Q|]. rewrite repeat_app, app_assoc. apply Permutation_app_tail. exact P. }
  assert (RS : rsum prec emax (map F l) = total (map (fun z => B2R (F z)) l)) by (unfold rsum; rewrite map_map; reflexivity).
  assert (NT : near p (total (map E l)) (total (map (fun z => B2R (F z)) l))) by (apply near_total; [exact U|intros z Hz; apply H; exact Hz]).
  destruct (sum_near prec emax (map F l) _ IS) as [FF NS].
  - intros x Hx. apply in_map_iff in Hx. destruct Hx as (z & <- & Hz). destruct (H z Hz) as [Q [_ Q2]]. split; [exact Q|lra].
  - rewrite RS, map_length. destruct NT as [T0 [T1 [_ T3]]]. assert (G : g ^ p * g ^ length l <= 2) by (rewrite <- pow_add; apply g_two; [exact U|rewrite Nat.add_comm; exact LU]). rewrite M4. pose proof (gp u U p). pose proof (gp u U (length l)).
    apply Rle_trans with (total (map E l) * (g ^ p * g ^ length l)); [rewrite <- Rmult_assoc; apply Rmult_le_compat_r; lra|]. pose proof (bpow_gt_0 radix2 (emax - 3)). nra.
  - rewrite RS, map_length in NS. split; [exact FF|]. split; [rewrite Nat.add_comm; eapply (near_trans u U); [exact NT|exact NS]|].
    intros NE. destruct IS as [t [j [Q V]]]. destruct l as [|z l]; [congruence|].
    assert (LV : forall x, In x (leaves prec emax t) -> is_finite x = true /\ 0 <= B2R x).
    { intros x Hx. apply (Permutation_in _ Q) in Hx. apply in_app_or in Hx. destruct Hx as [Hx|Hx]; [|apply repeat_spec in Hx; subst x; split; [reflexivity|cbn; lra]]. apply in_map_iff in Hx. destruct Hx as (w & <- & Hw). destruct (H w Hw) as [Q1 [_ Q2]]. split; [exact Q1|lra]. }
    assert (MON : forall t, (forall x, In x (leaves prec emax t) -> is_finite x = true /\ 0 <= B2R x) -> is_finite (eval prec emax t) = true -> 0 <= B2R (eval prec emax t) /\ forall x, In x (leaves prec emax t) -> B2R x <= B2R (eval prec emax t)).
    { clear. induction t as [x|a IHa b IHb]; intros L F; cbn [leaves eval] in *.
      - split; [apply L; left; reflexivity|]. intros y [<-|[]]. lra.
      - assert (FAB : is_finite (eval prec emax a) = true /\ is_finite (eval prec emax b) = true).
        { unfold M_float.fadd in F. destruct (eval prec emax a) as [s1|s1| |s1 m1 e1 H1], (eval prec emax b) as [s2|s2| |s2 m2 e2 H2]; try (split; reflexivity); exfalso; revert F; cbn; try discriminate; try (destruct s1, s2; cbn; discriminate). }
        destruct FAB as [Fa Fb]. destruct (IHa (fun x Hx => L x (in_or_app _ _ _ (or_introl Hx))) Fa) as [Ya Za]. destruct (IHb (fun x Hx => L x (in_or_app _ _ _ (or_intror Hx))) Fb) as [Yb Zb].
        pose proof (Bplus_correct prec emax Hp He mode_NE _ _ Fa Fb) as C. cbn [round_mode] in C. revert C. case Rlt_bool_spec; intros OV C.
        + destruct C as [C1 _]. unfold M_float.fadd. rewrite C1. assert (RA : B2R (eval prec emax a) <= rnd (B2R (eval prec emax a) + B2R (eval prec emax b))) by (apply round_ge_generic; auto with typeclass_instances; [apply fmt_B2R|lra]).
          assert (RB : B2R (eval prec emax b) <= rnd (B2R (eval prec emax a) + B2R (eval prec emax b))) by (apply round_ge_generic; auto with typeclass_instances; [apply fmt_B2R|lra]).
          split; [lra|]. intros x Hx. apply in_app_or in Hx. destruct Hx as [Hx|Hx]; [specialize (Za x Hx)|specialize (Zb x Hx)]; lra.
        + exfalso. destruct C as [C1 _]. unfold M_float.fadd in F. destruct (Bplus mode_NE (eval prec emax a) (eval prec emax b)); cbn in C1, F; discriminate. }
    destruct (MON t LV ltac:(rewrite V; exact FF)) as [_ MX]. rewrite V in MX. destruct (H z (or_introl eq_refl)) as [_ [_ TZ]]. eapply Rle_trans; [exact TZ|]. apply MX. apply (Permutation_in _ (Permutation_sym Q)). apply in_or_app. left. left. reflexivity.
Qed.

Lemma term_le {T} (f : T -> R) l z : (forall w, In w l -> 0 <= f w) -> In z l -> f z <= total (map f l).
Proof.
  induction l as [|w l IH]; intros H Hz; [destruct Hz|]. change (f z <= f w + total (map f l)). assert (P : 0 <= total (map f l)) by (apply total_nonneg; intros v Hv; apply H; right; exact Hv).
  destruct Hz as [->|Hz]; [lra|]. specialize (IH (fun v Hv => H v (or_intror Hv)) Hz). specialize (H w (or_introl eq_refl)). lra.
Qed.
Lemma div_nonneg q soft x y : 0 <= q -> 0 <= q / dist soft x y.
Proof.
  intros H. unfold Rdiv. assert (0 <= dist soft x y) by apply sqrt_pos. destruct H0 as [P|P]; [apply Rmult_le_pos; [exact H|left; apply Rinv_0_lt_compat; exact P]|]. rewrite <- P, Rinv_0. lra.
Qed.
Lemma zip_combine {A B C} (f : A -> B -> C) a b : zip_with f a b = map (fun p => f (fst p) (snd p)) (combine a b).
Proof. revert b. induction a as [|x a IH]; intros [|y b]; cbn; try reflexivity. rewrite IH. reflexivity. Qed.
Lemma prod_concat {A B C} (f : A -> B -> C) x l : concat (map (fun e => map (f e) l) x) = map (fun z => f (fst z) (snd z)) (list_prod x l).
Proof. induction x as [|e x IH]; [reflexivity|]. cbn [map concat list_prod]. rewrite IH, map_app, map_map. reflexivity. Qed.

Lemma attraction_near D strength soft ions charges x :
  (forall e, In e x -> is_position prec emax D e) -> (forall r, In r ions -> is_position prec emax D r) -> (forall q, In q charges -> is_charge prec emax q) ->
  (forall e r, In e x -> In r ions -> apart prec emax soft e r) -> is_charge prec emax strength -> is_finite soft = true ->
  INR (length x * length (combine charges ions) + D + 8) * u <= / 2 -> B2R strength * exact_attraction prec emax soft ions charges x <= M ->
  let V := attraction prec emax fs strength soft ions charges x in
  is_finite V = true /\ near (length x * length (combine charges ions) + D + 8) (B2R strength * exact_attraction prec emax soft ions charges x) (- B2R V).
Proof.
  intros Hx Hr Hq A [FS S1] Fsoft LU B V. pose proof (uu prec) as U. pose proof (tiny_pos emax) as TP. pose proof (bpow_gt_0 radix2 (emax - 3)) as MP.
  set (l := list_prod x (combine charges ions)). assert (LL : length l = (length x * length (combine charges ions))%nat) by apply prod_length. rewrite <- LL in *.
  set (F := fun z : list fl * (fl * list fl) => fdiv (fst (snd z)) (norm soft (disp (fst z) (snd (snd z))))).
  set (E := fun z : list fl * (fl * list fl) => B2R (fst (snd z)) / dist soft (fst z) (snd (snd z))).
  assert (IN : forall z, In z l -> In (fst z) x /\ In (fst (snd z)) charges /\ In (snd (snd z)) ions).
  { intros [e [q r]] Hz. apply in_prod_iff in Hz. destruct Hz as [H1 H2]. split; [exact H1|]. split; [eapply in_combine_l|eapply in_combine_r]; exact H2. }
  assert (E0 : forall z, In z l -> 0 <= E z) by (intros z Hz; apply div_nonneg; destruct (Hq _ (proj1 (proj2 (IN z Hz)))) as [_ Q]; lra).
  assert (ET : exact_attraction prec emax soft ions charges x = total (map E l)) by reflexivity.
  assert (T0 : 0 <= total (map E l)) by (apply total_nonneg; exact E0). rewrite ET in *.
  assert (TM : total (map E l) <= M) by nra.
  assert (TERMS : concat (map (fun e => zip_with (fun q r => fdiv q (norm soft (disp e r))) charges ions) x) = map F l).
  { unfold F, l. rewrite <- (prod_concat (fun e p => fdiv (fst p) (norm soft (disp e (snd p))))). f_equal. apply map_ext. intros e. apply (zip_combine (fun q r => fdiv q (norm soft (disp e r)))). }
  assert (PU : forall m, (m <= length l + D + 8)%nat -> INR m * u <= / 2) by (intros m Hm; apply le_INR in Hm; pose proof (pos_INR m); nra).
  destruct (terms_near (D + 7) F E l (map F l) 0) as [FF [NF TF]].
  - rewrite app_nil_r. apply Permutation_refl.
  - intros z Hz. destruct (IN z Hz) as [I1 [I2 I3]]. destruct (Hq _ I2) as [Fq Q1].
    destruct (quotient_near D soft (fst (snd z)) (B2R (fst (snd z))) 0 (fst z) (snd (snd z))) as [K1 [K2 K3]]; [apply Hx; exact I1|apply Hr; exact I3|exact Fsoft|apply A; assumption|apply PU; lia|exact Fq|exact Q1|apply near_refl; [exact U|lra]| |].
    + eapply Rle_trans; [apply (term_le E l z E0 Hz)|exact TM].
    + rewrite Nat.add_0_r in K2. split; [exact K1|]. split; [exact K2|exact K3].
  - apply PU. lia.
  - exact TM.
  - assert (VE : V = fmul (fmul (Bopp strength) (fs (map F l))) fone) by (unfold V, attraction; cbn zeta; rewrite TERMS; reflexivity). rewrite VE. clear VE. clearbody V. set (s := fs (map F l)) in *.
    assert (NB : near (length l + (D + 7)) (B2R strength * total (map E l)) (B2R strength * B2R s)).
    { apply (near_mul u 0 (length l + (D + 7))); [apply near_refl; [exact U|lra]|exact NF]. }
    pose proof NB as [P0 [P1 [P2 P3]]].
    assert (HI : B2R strength * B2R s <= bpow radix2 (emax - 1)). { pose proof (g_two u U (length l + (D + 7)) ltac:(apply PU; lia)) as G. rewrite M4. pose proof (gp u U (length l + (D + 7))). nra. }
    assert (OPP : B2R (Bopp strength) * B2R s = - (B2R strength * B2R s)) by (rewrite B2R_Bopp; ring).
    destruct (mul_fin prec emax (Bopp strength) s) as [F1 V1]; [rewrite is_finite_Bopp; exact FS|exact FF|rewrite OPP, Rabs_Ropp, Rabs_pos_eq by exact P1; exact HI|].
    rewrite OPP, round_NE_opp in V1.
    destruct (one_R prec emax) as [O1 O2].
    assert (AB : Rabs (B2R (fmul (Bopp strength) s) * B2R fone) <= bpow radix2 (emax - 1)).
    { rewrite O2, Rmult_1_r, V1, Rabs_Ropp. apply (rnd_abs_le prec emax); [exact (top_fmt prec emax _ (emax1 prec emax))|rewrite Rabs_pos_eq by exact P1; exact HI]. }
    destruct (mul_fin prec emax (fmul (Bopp strength) s) fone F1 O1 AB) as [F2 V2]. rewrite O2, Rmult_1_r, rnd_id, V1 in V2.
    split; [exact F2|]. rewrite V2, Ropp_involutive. replace (length l + D + 8)%nat with (length l + (D + 7) + 1)%nat by lia. apply (near_trans u U) with (1 := NB).
    destruct l as [|z l'] eqn:EL.
    + assert (Z : B2R s = 0). { destruct NF as [_ [Q1 [_ Q]]]. cbn [map] in Q. change (total []) with 0 in Q. rewrite Rmult_0_l in Q. lra. }
      rewrite Z, Rmult_0_r, rnd_0. apply near_refl; [exact U|lra].
    + apply (rnd_rel prec emax). specialize (TF ltac:(discriminate)). nra.
Qed.

Lemma pairs_in {T} (l : list T) z : In z (pairs l) -> In (fst z) l /\ In (snd z) l.
Proof.
  induction l as [|a l IH]; [intros []|]. cbn [pairs]. intros H. apply in_app_or in H. destruct H as [H|H]; [|destruct (IH H); split; right; assumption].
  apply in_map_iff in H. destruct H as (b & <- & Hb). split; [left; reflexivity|right; exact Hb].
Qed.

(** Sums over pairs. *)
Lemma pair_sum {T} D soft (q : T -> T -> fl) (Q : T -> T -> R) (pos : T -> list fl) p l :
  (forall a, In a l -> is_position prec emax D (pos a)) -> is_finite soft = true ->
  (forall a b, In (a, b) (pairs l) -> apart prec emax soft (pos a) (pos b) /\ is_finite (q a b) = true /\ 1 <= B2R (q a b) /\ near p (Q a b) (B2R (q a b))) ->
  INR (length (pairs l) + D + 7 + p) * u <= / 2 -> total (map (fun z => Q (fst z) (snd z) / dist soft (pos (fst z)) (pos (snd z))) (pairs l)) <= M ->
  let V := fs (concat (triu prec emax (map (fun a => map (fun b => fdiv (q a b) (norm soft (disp (pos a) (pos b)))) l) l))) in
  is_finite V = true /\ near (length (pairs l) + D + 7 + p) (total (map (fun z => Q (fst z) (snd z) / dist soft (pos (fst z)) (pos (snd z))) (pairs l))) (B2R V).
Proof.
  intros Hx Fsoft H LU B V. pose proof (uu prec) as U.
  destruct (triu_pairs prec emax (fun a b => fdiv (q a b) (norm soft (disp (pos a) (pos b)))) l) as [k P].
  set (E := fun z : T * T => Q (fst z) (snd z) / dist soft (pos (fst z)) (pos (snd z))) in *.
  assert (PU : forall m, (m <= length (pairs l) + D + 7 + p)%nat -> INR m * u <= / 2) by (intros m Hm; apply le_INR in Hm; pose proof (pos_INR m); nra).
  assert (E0 : forall z, In z (pairs l) -> 0 <= E z) by (intros [a b] Hz; apply div_nonneg; destruct (H a b Hz) as [_ [_ [_ N]]]; apply N).
  destruct (terms_near (D + 7 + p) (fun z => fdiv (q (fst z) (snd z)) (norm soft (disp (pos (fst z)) (pos (snd z))))) E (pairs l) _ k P) as [F [N _]].
  - intros [a b] Hz. destruct (H a b Hz) as [A [Fq [Q1 NQ]]]. destruct (pairs_in l _ Hz) as [I1 I2]. cbn [fst snd] in *.
    apply (quotient_near D soft (q a b) (Q a b) p (pos a) (pos b)); [apply Hx; exact I1|apply Hx; exact I2|exact Fsoft|exact A|apply PU; lia|exact Fq|exact Q1|exact NQ|].
    eapply Rle_trans; [apply (term_le E (pairs l) (a, b) E0 Hz)|exact B].
  - apply PU. lia.
  - exact B.
  - split; [exact F|]. replace (length (pairs l) + D + 7 + p)%nat with (length (pairs l) + (D + 7 + p))%nat by lia. exact N.
Qed.

Lemma repulsion_near D strength soft x :
  (forall e, In e x -> is_position prec emax D e) -> (forall a b, In (a, b) (pairs x) -> apart prec emax soft a b) -> is_charge prec emax strength -> is_finite soft = true ->
  INR (length (pairs x) + D + 7) * u <= / 2 -> B2R strength * exact_repulsion prec emax soft x <= M ->
  let V := repulsion prec emax fs strength soft x in
  is_finite V = true /\ near (length (pairs x) + D + 7) (B2R strength * exact_repulsion prec emax soft x) (B2R V).
Proof.
  intros Hx A [FS S1] Fsoft LU B V. pose proof (uu prec) as U.
  assert (EQ : total (map (fun z => B2R strength / dist soft (fst z) (snd z)) (pairs x)) = B2R strength * exact_repulsion prec emax soft x).
  { unfold exact_repulsion, total. clear. induction (pairs x) as [|z l IH]; [cbn; ring|]. cbn [map fold_right]. rewrite IH. unfold Rdiv. ring. }
  destruct (pair_sum D soft (fun _ _ => strength) (fun _ _ => B2R strength) (fun a => a) 0 x Hx Fsoft) as [F N].
  - intros a b Hab. split; [apply A; exact Hab|]. split; [exact FS|]. split; [exact S1|apply near_refl; [exact U|lra]].
  - rewrite Nat.add_0_r. exact LU.
  - rewrite EQ. exact B.
  - split; [exact F|]. rewrite EQ, Nat.add_0_r in N. exact N.
Qed.

Lemma ion_repulsion_near D ions charges :
  (forall r, In r ions -> is_position prec emax D r) -> (forall q, In q charges -> is_charge prec emax q) ->
  (forall a b, In (a, b) (pairs (combine charges ions)) -> apart prec emax fzero (snd a) (snd b) /\ B2R (fst a) * B2R (fst b) <= M) ->
  INR (length (pairs (combine charges ions)) + D + 8) * u <= / 2 -> exact_ion_repulsion prec emax ions charges <= M ->
  let V := ion_repulsion prec emax fs ions charges in
  is_finite V = true /\ near (length (pairs (combine charges ions)) + D + 8) (exact_ion_repulsion prec emax ions charges) (B2R V).
Proof.
  intros Hr Hq A LU B V. pose proof (uu prec) as U. pose proof (bpow_gt_0 radix2 (emax - 3)) as MP.
  assert (EM : (5 <= emax)%Z).
  { pose proof (precmax prec emax) as PM. assert (U8 : u <= / 16). { rewrite !plus_INR in LU. pose proof (pos_INR (length (pairs (combine charges ions)))). pose proof (pos_INR D). replace (INR 8) with 8 in LU by (cbn; lra). nra. }
    assert (Q : (- prec <= -4)%Z); [|lia]. destruct (Z_le_gt_dec (- prec) (-4)) as [L|L]; [exact L|]. exfalso. assert (bpow radix2 (-3) <= u) by (apply bpow_le; lia). cbn in H. lra. }
  destruct (pair_sum D fzero (fun a b => fmul (fst a) (fst b)) (fun a b => B2R (fst a) * B2R (fst b)) snd 1 (combine charges ions)) as [F N].
  - intros [q r] Hz. apply Hr. eapply in_combine_r; exact Hz.
  - reflexivity.
  - intros a b Hab. destruct (A a b Hab) as [AP QQ]. destruct (pairs_in _ _ Hab) as [I1 I2]. cbn [fst snd] in I1, I2. destruct a as [qa ra], b as [qb rb]. cbn [fst snd] in *.
    destruct (Hq qa (in_combine_l _ _ _ _ I1)) as [Fa Qa]. destruct (Hq qb (in_combine_l _ _ _ _ I2)) as [Fb Qb].
    assert (P1 : 1 <= B2R qa * B2R qb) by nra.
    destruct (mul_fin prec emax qa qb Fa Fb) as [FM VM]; [rewrite Rabs_pos_eq by lra; rewrite M4; lra|].
    split; [exact AP|]. split; [exact FM|]. rewrite VM. split.
    + apply round_ge_generic; auto with typeclass_instances. change 1 with (bpow radix2 0). apply (top_fmt prec emax). apply (emin_neg prec emax).
    + apply (rnd_rel prec emax). eapply Rle_trans; [|exact P1]. unfold P_fpotential.tiny. change 1 with (bpow radix2 0). apply bpow_le. lia.
  - replace (length (pairs (combine charges ions)) + D + 7 + 1)%nat with (length (pairs (combine charges ions)) + D + 8)%nat by lia. exact LU.
  - exact B.
  - split; [exact F|]. replace (length (pairs (combine charges ions)) + D + 8)%nat with (length (pairs (combine charges ions)) + D + 7 + 1)%nat by lia. exact N.
Qed.
End Potentials.

(** T_fdense: C94, linear layers in the log domain on machine floating-point numbers. *)
From Coq Require Import ZArith Reals.
From Flocq Require Import Core IEEE754.BinarySingleNaN Relative.
From Coq Require Import Lia Lra List Permutation Bool Arith.
Import ListNotations.
From Verif Require Import M_float S_float P_float P_float2 P_float3 P_float4 T_float M_fwalk S_fwalk P_fwalk P_fwalk2 T_fwalk M_fenergy S_fenergy P_fenergy M_fpotential S_fpotential P_fpotential M_fupdate S_fupdate P_fupdate T_fupdate P_fenergy3 P_foptax2 M_fdense S_fdense P_fdense.
Open Scope R_scope.

Lemma forall2_map {A B} (P : A -> B -> Prop) f l : (forall a, In a l -> P a (f a)) -> Forall2 P l (map f l).
Proof. induction l as [|a l IH]; intros H; constructor; [apply H; left; reflexivity|apply IH; intros b Hb; apply H; right; exact Hb]. Qed.

Lemma forall2_length {A B} (P : A -> B -> Prop) l l' : Forall2 P l l' -> length l = length l'. Proof. induction 1; cbn; congruence. Qed.

(** C94.  A layer with weights of size at most 2^q, applied to signs and logs of which one (or the bias's) is a number within range, returns one signed log for every column of the kernel: a sign and a log,
    -inf exactly for the sign 0, never NaN.  The sign is right if the exact output exceeds a multiple e^c times the error bound, c being the largest log; and the log is accurate if the output is not
    smaller than e^c. *)
Theorem C94_dense :
  forall prec emax (Hp : Prec_gt_0 prec) (He : Prec_lt_emax prec emax)
         (fe fg : binary_float prec emax -> binary_float prec emax) fs epse epsl,
  good_exp prec emax epse fe -> good_log prec emax epsl fg -> (forall l, is_sum prec emax l (fs l)) -> roomy prec emax ->
  forall q (use_bias : bool) columns (xs : list (binary_float prec emax * binary_float prec emax)) c, let n := (if use_bias then S (length xs) else length xs) in
  (0 <= q)%Z -> (q + prec < emax)%Z -> INR n * bpow radix2 q <= bpow radix2 prec ->
  xs <> [] -> (forall x, In x xs -> sign_number prec emax (fst x) /\ log_number prec emax (snd x)) ->
  (forall ws w, In ws columns -> In w ws -> is_weight prec emax q w) -> (forall ws, In ws columns -> length ws = n) ->
  largest prec emax (if use_bias then xs ++ [(fone prec emax, fzero prec emax)] else xs) c -> Rabs c <= bpow radix2 (emax - 1) ->
  exists out, log_domain_dense prec emax fe fg fs use_bias columns xs = Some out /\
  Forall2 (fun ws o => let exact := exact_output prec emax use_bias xs ws in let err := dense_error prec epse q n in
    sign_number prec emax (fst o) /\ log_number prec emax (snd o) /\ (snd o = B754_infinity true <-> B2R (fst o) = 0) /\
    (exact > exp c * err -> B2R (fst o) = 1) /\ (exact < - (exp c * err) -> B2R (fst o) = -1) /\
    (exp c * (1 + err) <= Rabs exact ->
       is_finite (snd o) = true /\ Rabs (B2R (snd o) - ln (Rabs exact)) <= err + epsl + unit_roundoff prec * (Rabs c + IZR (emax + prec)))) columns out.
Proof.
  intros prec emax Hp He fe fg fs epse epsl GE GL GS RO q use_bias columns xs c n Q QP N NE G W L LC BC.
  assert (EX : with_one prec emax use_bias xs = if use_bias then xs ++ [(fone prec emax, fzero prec emax)] else xs) by (unfold with_one; destruct use_bias; [destruct xs; [congruence|reflexivity]|reflexivity]).
  rewrite <- EX in LC. set (ys := with_one prec emax use_bias xs) in *.
  assert (LY : length ys = n) by (rewrite EX; unfold n; destruct use_bias; [rewrite app_length; cbn; lia|reflexivity]).
  assert (GY : forall x, In x ys -> sign_number prec emax (fst x) /\ log_number prec emax (snd x)).
  { rewrite EX. destruct use_bias; [|exact G]. intros x H. apply in_app_or in H. destruct H as [H|[<-|[]]]; [apply G; exact H|]. cbn [fst snd]. destruct (one_R prec emax) as [O1 O2]. split; [split; [exact O1|left; exact O2]|left; reflexivity]. }
  destruct (fmaximum_spec prec emax ys (fun x H => proj2 (GY x H))) as [m [EM [Fm LM]]]; [destruct LC as [[x [Ix [Fx _]]] _]; exists x; tauto|].
  assert (E : c = B2R m) by (apply (largest_unique prec emax ys); assumption). subst c.
  exists (map (column_output prec emax fe fg fs m ys) columns). split.
  - unfold log_domain_dense, log_linear_exp_weights. fold ys. rewrite EM. assert (FB : forallb (fun ws => length ws =? length ys) columns = true) by (apply forallb_forall; intros ws H; apply Nat.eqb_eq; rewrite LY; apply L; exact H). rewrite FB. reflexivity.
  - apply forall2_map. intros ws Hw. rewrite (exact_extended prec emax use_bias xs ws NE) by (fold ys; rewrite LY; apply L; exact Hw). fold ys. rewrite <- LY in N |- *.
    apply (column_spec prec emax fe fg fs epse epsl GE GL GS q m Q QP Fm); try assumption; [|rewrite LY; apply L; exact Hw|intros w H; apply (W ws); assumption].
    intros x H. destruct (GY x H) as [G1 G2]. split; [exact G1|]. split; [exact G2|]. apply LM. exact H.
Qed.
Print Assumptions C94_dense.

(** C94.  With a bias the layer never returns NaN, whatever the inputs are, even if all of them are zero. *)
Theorem C94_bias :
  forall prec emax (Hp : Prec_gt_0 prec) (He : Prec_lt_emax prec emax)
         (fe fg : binary_float prec emax -> binary_float prec emax) fs epse epsl,
  good_exp prec emax epse fe -> good_log prec emax epsl fg -> (forall l, is_sum prec emax l (fs l)) -> roomy prec emax ->
  forall q columns xs, (0 <= q)%Z -> (q + prec < emax)%Z -> INR (S (length xs)) * bpow radix2 q <= bpow radix2 prec ->
  xs <> [] -> (forall x, In x xs -> sign_number prec emax (fst x) /\ log_number prec emax (snd x) /\ B2R (snd x) <= bpow radix2 (emax - 1)) ->
  (forall ws w, In ws columns -> In w ws -> is_weight prec emax q w) -> (forall ws, In ws columns -> length ws = S (length xs)) ->
  exists out, log_domain_dense prec emax fe fg fs true columns xs = Some out /\ length out = length columns /\
    forall o, In o out -> sign_number prec emax (fst o) /\ log_number prec emax (snd o) /\ (snd o = B754_infinity true <-> B2R (fst o) = 0).
Proof.
  intros prec emax Hp He fe fg fs epse epsl GE GL GS RO q columns xs Q QP N NE G W L. destruct (one_R prec emax) as [O1 O2]. set (ys := xs ++ [(fone prec emax, fzero prec emax)]).
  assert (GY : forall x, In x ys -> log_number prec emax (snd x) /\ B2R (snd x) <= bpow radix2 (emax - 1)).
  { intros x H. apply in_app_or in H. destruct H as [H|[<-|[]]]; [apply G in H; tauto|]. cbn [snd]. split; [left; reflexivity|]. change (B2R (fzero prec emax)) with 0. left. apply bpow_gt_0. }
  assert (I0 : In (fone prec emax, fzero prec emax) ys) by (apply in_or_app; right; left; reflexivity).
  destruct (fmaximum_spec prec emax ys (fun x H => proj1 (GY x H))) as [m [_ [Fm LM]]]; [exists (fone prec emax, fzero prec emax); split; [exact I0|reflexivity]|].
  assert (BM : Rabs (B2R m) <= bpow radix2 (emax - 1)). { pose proof (proj2 LM _ I0 eq_refl) as P. cbn [snd] in P. change (B2R (fzero prec emax)) with 0 in P. rewrite Rabs_pos_eq by exact P. destruct LM as [[x [Hx [_ Ex]]] _]. rewrite <- Ex. apply GY. exact Hx. }
  destruct (C94_dense prec emax Hp He fe fg fs epse epsl GE GL GS RO q true columns xs (B2R m) Q QP N NE) as [out [E F]]; try assumption; [intros x H; apply G in H; tauto|].
  exists out. split; [exact E|]. split; [symmetry; exact (forall2_length _ _ _ F)|]. intros o Ho. clear E. induction F as [|ws o' cs out' [F1 [F2 [F3 _]]] F IH]; [destruct Ho|]. destruct Ho as [<-|Ho]; [tauto|]. apply IH; [intros ws' w H; apply W; right; exact H|intros ws' H; apply L; right; exact H|exact Ho].
Qed.
Print Assumptions C94_bias.

(** C94.  Without a bias inputs that are all zero (logs -inf) give NaN for every output, although the exact output is 0. *)
Theorem C94_no_bias_nan :
  forall prec emax (Hp : Prec_gt_0 prec) (He : Prec_lt_emax prec emax)
         (fe fg : binary_float prec emax -> binary_float prec emax) fs epse epsl,
  good_exp prec emax epse fe -> good_log prec emax epsl fg -> (forall l, is_sum prec emax l (fs l)) ->
  forall columns xs, xs <> [] -> (forall ws, In ws columns -> length ws = length xs) -> (forall x, In x xs -> snd x = B754_infinity true) ->
  log_domain_dense prec emax fe fg fs false columns xs = Some (map (fun _ => (B754_nan, B754_nan)) columns) /\ (forall ws, exact_output prec emax false xs ws = 0).
Proof.
  intros prec emax Hp He fe fg fs epse epsl GE GL GS columns xs NE L Z. split.
  - unfold log_domain_dense, log_linear_exp_weights, with_one.
    assert (EM : fmaximum prec emax (map snd xs) = Some (B754_infinity true)).
    { destruct xs as [|x xs]; [congruence|]. unfold fmaximum. change (map snd (x :: xs)) with (snd x :: map snd xs). apply (f_equal Some). apply all_minf_max. intros v Hv. change (snd x :: map snd xs) with (map snd (x :: xs)) in Hv. apply in_map_iff in Hv. destruct Hv as [y [<- Hy]]. apply Z. exact Hy. }
    rewrite EM. assert (FB : forallb (fun ws => length ws =? length xs) columns = true) by (apply forallb_forall; intros ws H; apply Nat.eqb_eq, L; exact H). rewrite FB. f_equal. apply map_ext_in. intros ws H. apply (column_nan prec emax fe fg fs epse epsl GE GL GS); [exact NE|apply L; exact H|exact Z].
  - intros ws. unfold exact_output. revert ws. clear NE L. induction xs as [|x xs IH]; intros [|w ws]; try reflexivity. cbn [linear]. rewrite IH by (intros y H; apply Z; right; exact H). unfold amount. rewrite (Z x (or_introl eq_refl)). cbn. ring.
Qed.
Print Assumptions C94_no_bias_nan.

(** C94.  The layer fails exactly for inputs without features and for kernels of the wrong height; otherwise it has one output for every column of the kernel. *)
Theorem C94_error :
  forall prec emax (Hp : Prec_gt_0 prec) (He : Prec_lt_emax prec emax) (fe fg : binary_float prec emax -> binary_float prec emax) fs (use_bias : bool) columns xs,
  let n := if use_bias then S (length xs) else length xs in
  (log_domain_dense prec emax fe fg fs use_bias columns xs = None <-> xs = [] \/ exists ws, In ws columns /\ length ws <> n) /\
  (forall out, log_domain_dense prec emax fe fg fs use_bias columns xs = Some out -> length out = length columns).
Proof.
  intros prec emax Hp He fe fg fs use_bias columns xs n. unfold log_domain_dense, log_linear_exp_weights. destruct xs as [|x xs].
  - assert (E : with_one prec emax use_bias [] = []) by (destruct use_bias; reflexivity). rewrite E. cbn [map fmaximum]. split; [tauto|discriminate].
  - assert (LY : length (with_one prec emax use_bias (x :: xs)) = n) by (unfold with_one, n; destruct use_bias; [rewrite app_length; cbn; lia|reflexivity]). set (ys := with_one prec emax use_bias (x :: xs)) in *.
    assert (EM : exists m, fmaximum prec emax (map snd ys) = Some m) by (destruct ys as [|y ys]; [unfold n in LY; destruct use_bias; discriminate LY|eexists; reflexivity]). destruct EM as [m EM]. rewrite EM, LY.
    destruct (forallb (fun ws => length ws =? n) columns) eqn:FB.
    + rewrite forallb_forall in FB. split; [|intros out E; injection E as <-; apply map_length]. split; [discriminate|]. intros [H|[ws [H1 H2]]]; [discriminate|]. apply FB, Nat.eqb_eq in H1. contradiction.
    + split; [|discriminate]. split; [intros _|reflexivity]. right. clear - FB. induction columns as [|ws cs IH]; [discriminate|]. cbn [forallb] in FB. destruct (length ws =? n) eqn:E; [|exists ws; split; [left; reflexivity|apply Nat.eqb_neq; exact E]].
      destruct (IH FB) as [w [H1 H2]]. exists w. split; [right; exact H1|exact H2].
Qed.
Print Assumptions C94_error.

#[local] Existing Instances prec32 emax32.
Notation exp32 := (rounded_exp 24 128). Notation log32 := (rounded_log 24 128). Notation sum32 := (P_float4.left_sum 24 128).
(** -200. *)
Definition m200 : binary_float 24 128 := Bopp (f32 13107200 (-16) eq_refl).
Lemma m200_R : B2R m200 = -200. Proof. unfold m200. rewrite B2R_Bopp. change (B2R (f32 13107200 (-16) eq_refl)) with (IZR 13107200 * bpow radix2 (-16)). cbn. lra. Qed.
Lemma exp_m200 : 0 < exp (-200) <= bpow radix2 (-200).
Proof.
  split; [apply exp_pos|]. assert (E1 : 2 <= exp 1) by (pose proof (exp_ge_1p 1); lra). assert (P : forall n, 2 ^ n <= exp (INR n)).
  { induction n as [|n IH]; [cbn; rewrite exp_0; lra|]. rewrite S_INR, exp_plus. cbn [pow]. pose proof (exp_pos (INR n)). assert (0 < 2 ^ n) by (apply pow_lt; lra). nra. }
  specialize (P 200%nat). replace (INR 200) with 200 in P by (rewrite INR_IZR_INZ; reflexivity). replace (-200) with (- (200)) by lra. rewrite exp_Ropp. change (bpow radix2 (-200)) with (/ IZR (Z.pow_pos 2 200)). apply Rinv_le_contravar; [apply IZR_lt; reflexivity|].
  replace (IZR (Z.pow_pos 2 200)) with (2 ^ 200); [exact P|]. rewrite pow_IZR. apply f_equal. vm_compute. reflexivity.
Qed.
Lemma exp32_m200 : is_finite (exp32 m200) = true /\ B2R (exp32 m200) = 0.
Proof.
  assert (E : exp32 m200 = of_real 24 128 (exp (B2R m200))) by reflexivity. rewrite E, m200_R. destruct exp_m200 as [P1 P2].
  assert (L : bpow radix2 (-200) <= 1) by (change 1 with (bpow radix2 0); apply bpow_le; lia).
  destruct (of_real_spec 24 128 (exp (-200)) 1) as [F V]; [apply (fmt_1 24 128)|apply (one_lt 24 128)|rewrite Rabs_pos_eq; lra|]. split; [exact F|]. rewrite V.
  apply Rle_antisym; [|apply (P_fpotential.rnd_ge0 24 128); lra]. assert (Z : round radix2 (SpecFloat.fexp 24 128) ZnearestE (bpow radix2 (-200)) = 0).
  { apply (round_N_small_pos radix2 (SpecFloat.fexp 24 128) _ _ (-199)); [split; [apply bpow_le; lia|apply bpow_lt; lia]|reflexivity]. }
  rewrite <- Z. apply round_le; auto with typeclass_instances. apply (fexp_correct 24 128 prec32).
Qed.

(** C94, full statement refuted: "a log -inf is returned only for an output that is exactly zero" fails if the largest input has weight zero, because everything else is divided by it: inputs 1 and e^-200,
    weights 0 and 1, in single precision and with correctly rounded functions.  The exact output e^-200 has the log -200. *)
Theorem C94_lost_refuted :
  ~ (forall xs ws out, length ws = length xs -> (forall x, In x xs -> sign_number 24 128 (fst x) /\ is_finite (snd x) = true) -> (forall w, In w ws -> is_weight 24 128 0 w) ->
      log_domain_dense 24 128 exp32 log32 sum32 false [ws] xs = Some [out] -> snd out = B754_infinity true -> exact_output 24 128 false xs ws = 0).
Proof.
  intros H. destruct (C86_assumptions_hold 24 128 prec32 emax32) as [RO [GE [GL GS]]]; [cbn; tauto|]. destruct values32 as [V1 _].
  set (xs := [(one32, zero32); (one32, m200)]). set (ws := [zero32; one32]).
  assert (G : forall x, In x xs -> sign_number 24 128 (fst x) /\ is_finite (snd x) = true) by (intros x [<-|[<-|[]]]; (split; [split; [reflexivity|left; exact V1]|reflexivity])).
  assert (W : forall w, In w ws -> is_weight 24 128 0 w) by (intros w [<-|[<-|[]]]; (split; [reflexivity|]); [cbn [B2R zero32 fzero]; rewrite Rabs_R0|rewrite V1, Rabs_R1]; cbn; lra).
  assert (EM : fmaximum 24 128 (map snd xs) = Some zero32) by reflexivity.
  assert (D : log_domain_dense 24 128 exp32 log32 sum32 false [ws] xs = Some [column_output 24 128 exp32 log32 sum32 zero32 xs ws]) by (unfold log_domain_dense, log_linear_exp_weights, with_one; rewrite EM; reflexivity).
  assert (IN : forall x, In x xs -> input_ok 24 128 zero32 x).
  { intros x Hx. destruct (G x Hx) as [G1 G2]. split; [exact G1|]. split; [left; exact G2|]. intros _. change (B2R zero32) with 0. destruct Hx as [<-|[<-|[]]]; cbn [snd]; [apply Rle_refl|rewrite m200_R; lra]. }
  assert (R : B2R zero32 = 0) by reflexivity.
  destruct (column_spec 24 128 exp32 log32 sum32 _ _ GE GL GS 0 zero32 ltac:(lia) ltac:(lia) eq_refl xs ws RO) as [_ [_ [C3 _]]]; [rewrite R, Rabs_R0; left; apply bpow_gt_0|exact IN|reflexivity|exact W|cbn; lra|].
  assert (E2 : fsub 24 128 m200 zero32 = m200) by (apply B2SF_inj; vm_cast_no_check (eq_refl (B2SF m200))).
  destruct exp32_m200 as [F2 Z2]. assert (Z : B2R (fst (column_output 24 128 exp32 log32 sum32 zero32 xs ws)) = 0).
  { unfold column_output. cbn [fst]. set (ts := map _ (combine xs ws)).
    assert (T : forall t, In t ts -> is_finite t = true /\ B2R t = 0).
    { destruct (weighted_spec 24 128 exp32 _ GE 0 zero32 ltac:(lia) ltac:(lia) eq_refl (one32, zero32) zero32 (IN _ (or_introl eq_refl)) (W _ (or_introl eq_refl))) as [A1 _].
      destruct (weighted_spec 24 128 exp32 _ GE 0 zero32 ltac:(lia) ltac:(lia) eq_refl (one32, m200) one32 (IN _ (or_intror (or_introl eq_refl))) (W _ (or_intror (or_introl eq_refl)))) as [A2 _].
      intros t [<-|[<-|[]]]; (split; [assumption|]).
      - destruct (term_spec 24 128 exp32 _ GE zero32 (one32, zero32) eq_refl) as [B1 [B2 _]]; [apply G; left; reflexivity|left; reflexivity|intros _; apply Rle_refl|].
        unfold weighted_term. cbn [fst snd]. destruct (mul_fin 24 128 _ zero32 B1 eq_refl) as [_ V]; [rewrite R, Rmult_0_r, Rabs_R0; left; apply bpow_gt_0|]. rewrite V, R, Rmult_0_r. apply (rnd_0 24 128).
      - unfold weighted_term, scaled_term. cbn [fst snd]. rewrite E2. assert (B1 : is_finite one32 = true) by reflexivity.
        destruct (mul_fin 24 128 one32 (exp32 m200) B1 F2) as [M1 M2]; [rewrite Z2, Rmult_0_r, Rabs_R0; left; apply bpow_gt_0|]. rewrite Z2, Rmult_0_r, (rnd_0 24 128) in M2.
        destruct (mul_fin 24 128 _ one32 M1 B1) as [_ V]; [rewrite M2, Rmult_0_l, Rabs_R0; left; apply bpow_gt_0|]. rewrite V, M2, Rmult_0_l. apply (rnd_0 24 128). }
    assert (SZ : is_finite (sum32 ts) = true /\ B2R (sum32 ts) = 0).
    { apply (P_fenergy3.sum_closed 24 128 (fun x => is_finite x = true /\ B2R x = 0) ts); [|split; reflexivity|apply GS|exact T].
      intros x y [Fx X] [Fy Y]. destruct (fadd_spec 24 128 x y 1 Fx Fy) as [A [V _]]; [apply (fmt_1 24 128)|apply (one_lt 24 128)|rewrite X, Y, Rplus_0_r, Rabs_R0; lra|]. split; [exact A|]. rewrite V, X, Y, Rplus_0_r. apply (rnd_0 24 128). }
    destruct (fsign_spec 24 128 _ (proj1 SZ)) as [_ [_ [_ S4]]]. apply S4. apply SZ. }
  pose proof (H xs ws _ eq_refl G W D (proj2 C3 Z)) as X. unfold exact_output, xs, ws in X. cbn [linear] in X. rewrite V1, R in X. unfold amount in X. cbn [snd fst] in X.
  change (is_finite m200) with true in X. change (is_finite zero32) with true in X. cbv iota in X. rewrite V1, m200_R, R, Rmult_0_l, Rplus_0_l, Rplus_0_r, !Rmult_1_l, Rminus_0_r in X. pose proof (exp_pos (-200)). lra.
Qed.
Print Assumptions C94_lost_refuted.

(** Examples in single precision: two inputs, 1 and 0; weights and bias 1. *)
Definition xs32 : list (binary_float 24 128 * binary_float 24 128) := [(one32, zero32); (zero32, B754_infinity true)].
Lemma xs32_ok x : In x xs32 -> sign_number 24 128 (fst x) /\ log_number 24 128 (snd x).
Proof. destruct values32 as [V1 _]. intros [<-|[<-|[]]]; cbn [fst snd]; (split; [split; [reflexivity|]|]); [left; exact V1|left; reflexivity|right; right; reflexivity|right; reflexivity]. Qed.
Lemma one_weight : is_weight 24 128 0 one32. Proof. destruct values32 as [V1 _]. split; [reflexivity|]. rewrite V1, Rabs_R1. cbn. lra. Qed.
Example C94_dense_example : exists out, log_domain_dense 24 128 exp32 log32 sum32 true [[one32; one32; one32]] xs32 = Some [out] /\ B2R (fst out) = 1 /\ Rabs (B2R (snd out) - ln 2) <= / 1000.
Proof.
  destruct (C86_assumptions_hold 24 128 prec32 emax32) as [RO [GE [GL GS]]]; [cbn; tauto|]. destruct values32 as [V1 _].
  assert (U : unit_roundoff 24 = / 16777216) by (unfold unit_roundoff; cbn; lra).
  assert (EX : exact_output 24 128 true xs32 [one32; one32; one32] = 2).
  { unfold exact_output, xs32. cbn [removelast last linear]. unfold amount. cbn [fst snd is_finite]. change (is_finite zero32) with true. cbv iota. rewrite V1. change (B2R zero32) with 0. rewrite Rminus_0_r, exp_0. lra. }
  assert (ER : dense_error 24 (unit_roundoff 24) 0 3 <= / 100000) by (unfold dense_error; rewrite U; cbn [INR]; change (bpow radix2 0) with 1; lra). assert (E0 : 0 <= dense_error 24 (unit_roundoff 24) 0 3) by (unfold dense_error; rewrite U; cbn [INR]; change (bpow radix2 0) with 1; lra).
  destruct (C94_dense 24 128 prec32 emax32 exp32 log32 sum32 _ _ GE GL GS RO 0 true [[one32; one32; one32]] xs32 0) as [out [E F]]; try lia.
  - cbn. lra.
  - discriminate.
  - exact xs32_ok.
  - intros ws w [<-|[]] [<-|[<-|[<-|[]]]]; exact one_weight.
  - intros ws [<-|[]]; reflexivity.
  - split; [exists (one32, zero32); split; [left; reflexivity|split; reflexivity]|]. intros x [<-|[<-|[<-|[]]]] Fx; [apply Rle_refl|discriminate Fx|apply Rle_refl].
  - rewrite Rabs_R0. left. apply bpow_gt_0.
  - inversion F as [|? o ? ? P F']; subst. inversion F'; subst. exists o. split; [exact E|]. cbv zeta in P. rewrite EX, exp_0 in P. cbn [length xs32] in P. destruct P as [_ [_ [_ [P1 [_ P2]]]]]. split; [apply P1; lra|].
    rewrite (Rabs_pos_eq 2) in P2 by lra. destruct P2 as [_ P2]; [lra|]. eapply Rle_trans; [exact P2|]. rewrite U in ER. rewrite Rabs_R0, U. change (IZR (128 + 24)) with 152. lra.
Qed.
Example C94_bias_example : exists out, log_domain_dense 24 128 exp32 log32 sum32 true [[one32; one32; one32]; [one32; one32; zero32]] [(zero32, B754_infinity true); (zero32, B754_infinity true)] = Some out /\ length out = 2%nat.
Proof.
  destruct (C86_assumptions_hold 24 128 prec32 emax32) as [RO [GE [GL GS]]]; [cbn; tauto|].
  assert (Z : is_weight 24 128 0 zero32) by (split; [reflexivity|]; change (B2R zero32) with 0; rewrite Rabs_R0; cbn; lra).
  destruct (C94_bias 24 128 prec32 emax32 exp32 log32 sum32 _ _ GE GL GS RO 0 [[one32; one32; one32]; [one32; one32; zero32]] [(zero32, B754_infinity true); (zero32, B754_infinity true)]) as [out [E [L _]]]; try lia.
  - cbn. lra.
  - discriminate.
  - intros x [<-|[<-|[]]]; cbn [fst snd]; (split; [split; [reflexivity|right; right; reflexivity]|split; [right; reflexivity|left; apply bpow_gt_0]]).
  - intros ws w [<-|[<-|[]]] [<-|[<-|[<-|[]]]]; first [exact one_weight|exact Z].
  - intros ws [<-|[<-|[]]]; reflexivity.
  - exists out. split; [exact E|exact L].
Qed.
Example C94_no_bias_nan_example : log_domain_dense 24 128 exp32 log32 sum32 false [[one32; one32]] [(zero32, B754_infinity true); (zero32, B754_infinity true)] = Some [(B754_nan, B754_nan)].
Proof.
  destruct (C86_assumptions_hold 24 128 prec32 emax32) as [RO [GE [GL GS]]]; [cbn; tauto|].
  apply (C94_no_bias_nan 24 128 prec32 emax32 exp32 log32 sum32 _ _ GE GL GS [[one32; one32]]); [discriminate|intros ws [<-|[]]; reflexivity|intros x [<-|[<-|[]]]; reflexivity].
Qed.
Example C94_error_example : log_domain_dense 24 128 exp32 log32 sum32 true [[one32; one32]] xs32 = None /\ log_domain_dense 24 128 exp32 log32 sum32 true [[one32]] [] = None.
Proof. split; apply (C94_error 24 128 prec32 emax32); [right; exists [one32; one32]; split; [left; reflexivity|discriminate]|left; reflexivity]. Qed.

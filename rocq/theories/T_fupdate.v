(** T_fupdate: C92, norm constraints and parameter updates on machine floating-point numbers. *)
From Coq Require Import ZArith Reals.
From Flocq Require Import Core IEEE754.BinarySingleNaN.
From Coq Require Import Lia Lra List Permutation Bool Arith.
Import ListNotations.
From Verif Require Import M_float S_float P_float P_float2 P_float4 T_float M_fwalk S_fwalk P_fwalk P_fwalk2 T_fwalk M_fenergy S_fenergy P_fenergy P_fenergy2 P_fenergy3
  M_fpotential S_fpotential P_fpotential M_fupdate S_fupdate P_fupdate P_fupdate2 P_fupdate3 P_fupdate4 P_fupdate5.
Open Scope R_scope.

(** C92.  The constraint never makes things worse: if the entries of the update are numbers - however large - and the constraint is positive, then every entry of the constrained update is a number of the
    same sign that is not larger, on all devices and in whatever order the squares are added. *)
Theorem C92_safe :
  forall prec emax (Hp : Prec_gt_0 prec) (He : Prec_lt_emax prec emax) fs, (forall l, is_sum prec emax l (fs l)) ->
  forall pmapped c updates, updates <> [] -> INR (length updates) <= bpow radix2 prec -> is_finite c = true -> 0 < B2R c -> all_numbers prec emax updates ->
  entrywise prec emax (fun h g => is_finite h = true /\ Bsign h = Bsign g /\ Rabs (B2R h) <= Rabs (B2R g)) (constrain_norm prec emax fs pmapped c updates) updates.
Proof. intros. apply constrain_safe; assumption. Qed.
Print Assumptions C92_safe.

(** C92.  For workable updates: every entry is the exactly constrained one up to the relative error 2 (2 n + 8) u and underflow, and the mean squared length over the devices exceeds the constraint at most
    by the factor 1 + 6 (2 n + 8) u. *)
Theorem C92_constrained :
  forall prec emax (Hp : Prec_gt_0 prec) (He : Prec_lt_emax prec emax) fs, (forall l, is_sum prec emax l (fs l)) ->
  forall n pmapped c updates, workable prec emax n (B2R c) updates -> is_finite c = true -> all_numbers prec emax updates -> (pmapped = false -> length updates = 1%nat) ->
  let p := INR (2 * n + 8) * unit_roundoff prec in let k := shrink (B2R c) (mean_squared_length prec emax updates) in
  let result := constrain_norm prec emax fs pmapped c updates in
  entrywise prec emax (fun h g => Rabs (B2R h - k * B2R g) <= 2 * p * (k * Rabs (B2R g)) + unit_roundoff prec * bpow radix2 (2 - emax)) result updates /\
  mean_squared_length prec emax result <= B2R c * (1 + 6 * p).
Proof.
  intros prec emax Hp He fs SUM n pmapped c ts W FC FIN ONE p k result. split; [|apply norm_bound; assumption].
  unfold entrywise, result, constrain_norm. apply Forall2_map_l. intros t Ht. apply Forall2_map_l. intros l Hl. apply Forall2_map_l. intros x Hx.
  pose proof (entry_accuracy prec emax fs SUM n c ts pmapped W FC FIN ONE x (FIN t l x Ht Hl Hx)) as E. unfold p. eapply Rle_trans; [exact E|]. apply Req_le. fold k. unfold tiny. ring.
Qed.
Print Assumptions C92_constrained.

(** C92.  An update that is clearly shorter than the constraint is not changed in a single bit. *)
Theorem C92_unchanged :
  forall prec emax (Hp : Prec_gt_0 prec) (He : Prec_lt_emax prec emax) fs, (forall l, is_sum prec emax l (fs l)) ->
  forall n pmapped c updates, workable prec emax n (B2R c) updates -> is_finite c = true -> all_numbers prec emax updates -> (pmapped = false -> length updates = 1%nat) ->
  mean_squared_length prec emax updates * (1 + 4 * (INR (2 * n + 8) * unit_roundoff prec)) <= B2R c ->
  constrain_norm prec emax fs pmapped c updates = updates.
Proof. intros prec emax Hp He fs SUM n pmapped c ts W FC FIN ONE H. apply (unchanged prec emax fs SUM n c ts pmapped W FC FIN ONE H). Qed.
Print Assumptions C92_unchanged.

(** C92.  One entry, on any device, that is infinite or whose square exceeds the largest number: then every number in the update of every device becomes zero and every infinite entry becomes NaN. *)
Theorem C92_overflow :
  forall prec emax (Hp : Prec_gt_0 prec) (He : Prec_lt_emax prec emax) fs, (forall l, is_sum prec emax l (fs l)) ->
  forall pmapped c updates t l x, is_finite c = true -> 0 < B2R c -> (pmapped = false -> length updates = 1%nat) -> INR (length updates) <= bpow radix2 prec ->
  (forall t l x, In t updates -> In l t -> In x l -> is_nan x = false) -> In t updates -> In l t -> In x l -> (is_finite x = false \/ bpow radix2 emax <= B2R x ^ 2) ->
  entrywise prec emax (fun h g => if is_finite g then is_finite h = true /\ B2R h = 0 else is_nan h = true) (constrain_norm prec emax fs pmapped c updates) updates.
Proof.
  intros prec emax Hp He fs SUM pmapped c ts t l x FC C0 ONE L N Ht Hl Hx H.
  assert (SQ : fmul prec emax x x = B754_infinity false).
  { destruct H as [H|H]; [|apply square_huge; exact H]. pose proof (N t l x Ht Hl Hx) as NX. destruct x as [s|s| |s m e B]; try discriminate. destruct s; reflexivity. }
  rewrite (constrain_overflow prec emax fs SUM pmapped c ts t l x FC C0 ONE L N Ht Hl Hx SQ). unfold entrywise. apply Forall2_map_l. intros t' Ht'. apply Forall2_map_l. intros l' Hl'. apply Forall2_map_l. intros y Hy.
  destruct (is_finite y) eqn:F; [apply zero_times; exact F|]. pose proof (N t' l' y Ht' Hl' Hy) as NY. destruct y as [s|s| |s m e B]; try discriminate. reflexivity.
Qed.
Print Assumptions C92_overflow.

(** C92.  One NaN on any device makes every entry on every device NaN. *)
Theorem C92_nan :
  forall prec emax (Hp : Prec_gt_0 prec) (He : Prec_lt_emax prec emax) fs, (forall l, is_sum prec emax l (fs l)) ->
  forall pmapped c updates t l, (pmapped = false -> length updates = 1%nat) -> In t updates -> In l t -> In B754_nan l ->
  entrywise prec emax (fun h g => is_nan h = true) (constrain_norm prec emax fs pmapped c updates) updates.
Proof.
  intros prec emax Hp He fs SUM pmapped c ts t l ONE Ht Hl Hx. rewrite (constrain_nan prec emax fs SUM pmapped c ts t l ONE Ht Hl Hx).
  unfold entrywise. apply Forall2_map_l. intros t' Ht'. apply Forall2_map_l. intros l' Hl'. apply Forall2_map_l. reflexivity.
Qed.
Print Assumptions C92_nan.

(** C92.  The whole step after the direction is known.  Parameters, gradient and trace have the same shape and are numbers that are not too large.  Then there are updates, -lr times the gradient up to
    rounding, such that every new parameter is a number, the old one plus the (constrained) update up to the relative error u; it is the old parameter exactly if the update is smaller than u/2 times it.  The
    remembered direction is the gradient. *)
Theorem C92_step :
  forall prec emax (Hp : Prec_gt_0 prec) (He : Prec_lt_emax prec emax) fs, (forall l, is_sum prec emax l (fs l)) ->
  forall pmapped constraint lr ds, let u := unit_roundoff prec in
  (match constraint with Some c => is_finite c = true /\ 0 < B2R c | None => True end) -> is_finite lr = true -> INR (length ds) <= bpow radix2 prec ->
  (forall d, In d ds ->
    shape prec emax (d_grad _ _ d) = shape prec emax (d_params _ _ d) /\ shape prec emax (d_trace _ _ d) = shape prec emax (d_params _ _ d) /\
    (forall l x, In l (d_params _ _ d) -> In x l -> is_finite x = true /\ Rabs (B2R x) <= bpow radix2 (emax - 2)) /\
    (forall l g, In l (d_grad _ _ d) -> In g l -> is_finite g = true /\ Rabs (B2R lr * B2R g) <= bpow radix2 (emax - 2)) /\
    (forall l t, In l (d_trace _ _ d) -> In t l -> is_finite t = true)) ->
  exists updates,
  entrywise prec emax (fun up g => is_finite up = true /\ Rabs (B2R up - - (B2R lr * B2R g)) <= u * Rabs (B2R lr * B2R g) + u * bpow radix2 (2 - emax)) updates (map (d_grad prec emax) ds) /\
  let steps := match constraint with Some c => constrain_norm prec emax fs pmapped c updates | None => updates end in
  forall i d, nth_error ds i = Some d -> exists new trace h,
    nth_error (spring_apply prec emax fs pmapped constraint lr ds) i = Some (new, trace) /\ nth_error steps i = Some h /\
    shape prec emax new = shape prec emax (d_params _ _ d) /\ shape prec emax h = shape prec emax (d_params _ _ d) /\
    (forall j l x y, entry prec emax (d_params _ _ d) j l = Some x -> entry prec emax h j l = Some y -> exists z, entry prec emax new j l = Some z /\ is_finite z = true /\
       Rabs (B2R z - (B2R x + B2R y)) <= u * Rabs (B2R x + B2R y) /\ (Rabs (B2R y) < u / 2 * Rabs (B2R x) -> B2R z = B2R x)) /\
    Forall2 (Forall2 (fun t g => is_finite t = true /\ B2R t = B2R g)) trace (d_grad _ _ d).
Proof.
  intros prec emax Hp He fs SUM pmapped constraint lr ds u CO FL L FIT. destruct (spring_step prec emax fs SUM pmapped constraint lr ds CO FL L FIT) as [A B].
  exists (map (raw_updates prec emax lr) ds). split; [|exact B]. unfold entrywise in *. clear - A.
  induction A as [|a b xs ys H F IH]; constructor; [|exact IH]. clear - H. induction H as [|a b xs ys H F IH]; constructor; [|exact IH]. clear - H. induction H as [|a b xs ys [H1 [H2 _]] F IH]; constructor; [split; assumption|exact IH].
Qed.
Print Assumptions C92_step.

(** C92.  The constraint of stochastic reconfiguration uses the inner product of gradient and preconditioned gradient.  If they agree in sign entry by entry (a diagonal preconditioner) and the learning rate
    is at most 1 and its square does not vanish, the constrained direction is again not larger. *)
Theorem C92_sr_safe :
  forall prec emax (Hp : Prec_gt_0 prec) (He : Prec_lt_emax prec emax) fs, (forall l, is_sum prec emax l (fs l)) ->
  forall pmapped c lr grads, grads <> [] -> INR (length grads) <= bpow radix2 prec -> is_finite c = true -> 0 < B2R c -> is_finite lr = true -> bpow radix2 (3 - emax) <= B2R lr ^ 2 <= 1 ->
  entrywise prec emax (fun h g => is_finite h = true /\ is_finite g = true /\ Bsign h = Bsign g) (map snd grads) (map fst grads) ->
  entrywise prec emax (fun h g => is_finite h = true /\ Bsign h = Bsign g /\ Rabs (B2R h) <= Rabs (B2R g)) (sr_constrain_norm prec emax fs pmapped c lr grads) (map snd grads).
Proof.
  intros prec emax Hp He fs SUM pmapped c lr gs NE L FC C0 FL LR SG. unfold sr_constrain_norm. set (sq := pmean_if_pmap _ _ _ _ _).
  assert (SG' : forall t, In t gs -> Forall2 (Forall2 (fun h g => is_finite h = true /\ is_finite g = true /\ Bsign h = Bsign g)) (snd t) (fst t)).
  { clear - SG. unfold entrywise in SG. induction gs as [|a gs IH]; cbn in SG; [intros t []|]. inversion SG as [|? ? ? ? Q1 Q2]; subst. intros t [<-|Ht]; [exact Q1|apply IH; assumption]. }
  assert (LL : positive prec emax (fmul prec emax lr lr) /\ is_finite (fmul prec emax lr lr) = true /\ 0 < B2R (fmul prec emax lr lr)).
  { split; [apply pos_square; exact FL|]. assert (Q : bpow radix2 (3 - emax) <= B2R lr * B2R lr <= 1) by (replace (B2R lr * B2R lr) with (B2R lr ^ 2) by ring; exact LR). pose proof (bpow_gt_0 radix2 (3 - emax)) as B3.
    destruct (mul_fin prec emax lr lr FL FL) as [A V]; [rewrite Rabs_pos_eq by lra; pose proof (precmax prec emax) as E1; pose proof (prec1 prec) as E2; apply Rle_trans with (bpow radix2 0); [cbn; lra|apply bpow_le; lia]|].
    split; [exact A|]. rewrite V. apply Rlt_le_trans with (bpow radix2 (3 - emax)); [exact B3|]. apply round_ge_generic; auto with typeclass_instances; [apply FLT_exp_valid; exact Hp| |lra].
    apply generic_format_bpow'; [apply FLT_exp_valid; exact Hp|]. unfold SpecFloat.fexp, SpecFloat.emin. pose proof (emin_neg prec emax). pose proof (precmax prec emax). pose proof (prec1 prec). lia. }
  assert (PS : forall x, In x (map (fun t => fmul prec emax (tree_inner_product prec emax fs (snd t) (fst t)) (fmul prec emax lr lr)) gs) -> positive prec emax x).
  { intros x Hx. apply in_map_iff in Hx. destruct Hx as [t [<- Ht]].
    assert (IP : positive prec emax (tree_inner_product prec emax fs (snd t) (fst t))).
    { specialize (SG' t Ht). unfold tree_inner_product. destruct t as [tg tp]. cbn [fst snd] in *. apply (sum_positive prec emax _ _ (SUM _)). intros s Hs. clear - SG' Hs SUM.
      induction SG' as [|a b xs ys H F IH]; [destruct Hs|]. cbn [zip_with] in Hs. destruct Hs as [<-|Hs]; [|apply IH; exact Hs]. apply (sum_positive prec emax _ _ (SUM _)). intros y Hy. clear - H Hy.
      induction H as [|a b xs ys [H1 [H2 H3]] F IH]; [destruct Hy|]. cbn [zip_with] in Hy. destruct Hy as [<-|Hy]; [|apply IH; exact Hy]. destruct (mul_sign prec emax a b H1 H2) as [M1 M2]. split; [exact M1|]. rewrite M2, H3. apply xorb_nilpotent. }
    destruct LL as [LP [LF LQ]]. destruct (positive_cases prec emax _ IP) as [E|F].
    - rewrite E. destruct (fmul prec emax lr lr) as [s|s| |s m e B]; cbn in LF, LQ; try discriminate; [lra|]. destruct LP as [_ LS]. cbn in LS. subst. split; reflexivity.
    - destruct (mul_sign prec emax _ _ F LF) as [M1 M2]. split; [exact M1|]. rewrite M2, (proj2 IP), (proj2 LP). reflexivity. }
  assert (P : positive prec emax sq). { apply (mean_positive prec emax fs SUM); [destruct gs; [congruence|discriminate]|rewrite map_length; exact L|exact PS]. }
  destruct (coefficient_spec prec emax c sq FC C0 P) as [K1 [K2 K3]]. unfold entrywise.
  assert (Q : forall t, In t gs -> Forall2 (Forall2 (fun h g => is_finite h = true /\ Bsign h = Bsign g /\ Rabs (B2R h) <= Rabs (B2R g))) (multiply_tree_by_scalar prec emax (snd t) (coefficient prec emax c sq)) (snd t)).
  { intros [tg t] Ht. specialize (SG' _ Ht). cbn [fst snd] in *. apply Forall2_map_l. intros l Hl. apply Forall2_map_l. intros x Hx.
    assert (FX : is_finite x = true). { clear - SG' Hl Hx. induction SG' as [|a b xs ys H F IH]; [destruct Hl|]. destruct Hl as [<-|Hl]; [|apply IH; exact Hl]. clear - H Hx. induction H as [|a b xs ys H F IH]; [destruct Hx|]. destruct Hx as [<-|Hx]; [apply H|apply IH; exact Hx]. }
    destruct (scaled_entry prec emax _ x K1 K2 K3 FX) as [A [B [C _]]]. auto. }
  revert Q. generalize (coefficient prec emax c sq). clear. intros k Q. induction gs as [|a gs IH]; cbn [map]; [constructor|]. constructor; [apply Q; left; reflexivity|apply IH; intros t Ht; apply Q; right; exact Ht].
Qed.
Print Assumptions C92_sr_safe.

(** ** Single precision *)
#[local] Existing Instances prec32 emax32.
Definition pow32 (e : Z) (H : SpecFloat.bounded 24 128 8388608 (e - 23) = true) : binary_float 24 128 := f32 8388608 (e - 23) H.
Definition one32 := pow32 0 eq_refl. Definition two32 := pow32 1 eq_refl. Definition zero32 : binary_float 24 128 := fzero 24 128.
Definition p25 := pow32 (-25) eq_refl. Definition p26 := pow32 (-26) eq_refl.

(** C92, full statement refuted: "a step along a non-zero direction moves the parameters".  Parameter 1, gradient 2^-25, learning rate 1: nothing happens. *)
Theorem C92_moves_refuted :
  ~ (forall fs pmapped (lr : binary_float 24 128) ds, (forall l, is_sum 24 128 l (fs l)) -> is_finite lr = true -> 0 < B2R lr ->
      forall d, In d ds -> (exists l g, In l (d_grad _ _ d) /\ In g l /\ is_finite g = true /\ B2R g <> 0) ->
      exists new trace, In (new, trace) (spring_apply 24 128 fs pmapped None lr ds) /\ new <> d_params _ _ d).
Proof.
  intros H. assert (same_number32 : forall a b : binary_float 24 128, is_finite_strict a && is_finite_strict b && Beqb a b = true -> a = b).
  { intros a b. rewrite !andb_true_iff. intros [[Fa Fb] E]. apply B2R_inj; [exact Fa|exact Fb|]. rewrite (Beqb_correct _ _ a b) in E by (destruct a, b; try discriminate; reflexivity). revert E. case Req_bool_spec; [auto|discriminate]. }
  set (d := {| d_params := [[one32]]; d_grad := [[p25]]; d_trace := [[zero32]] |} : device 24 128).
  assert (P0 : 0 < B2R one32) by (change (B2R one32) with (IZR 8388608 * bpow radix2 (-23)); pose proof (bpow_gt_0 radix2 (-23)); lra).
  assert (P1 : B2R p25 <> 0) by (change (B2R p25) with (IZR 8388608 * bpow radix2 (-48)); pose proof (bpow_gt_0 radix2 (-48)); lra).
  destruct (H (left_sum 24 128) true one32 [d] (left_is_sum 24 128) eq_refl P0 d (or_introl eq_refl)) as [new [trace [I N]]]; [exists [p25], p25; repeat split; [left; reflexivity|left; reflexivity|exact P1]|].
  apply N. destruct I as [I|[]]. apply (f_equal fst) in I. cbn [fst] in I. rewrite <- I.
  assert (E : fadd 24 128 one32 (fmul 24 128 (Bopp one32) (fadd 24 128 p25 (fmul 24 128 (fzero 24 128) zero32))) = one32) by (apply same_number32; vm_cast_no_check (eq_refl true)).
  match type of E with ?a = _ => change ([[a]] = [[one32]]) end. rewrite E. reflexivity.
Qed.
Print Assumptions C92_moves_refuted.

(** C92, full statement refuted: "if gradient and preconditioned gradient have a positive inner product - as they do for every positive definite preconditioner - the constraint of stochastic
    reconfiguration yields numbers".  Inner product 2^-24 - 2^-26, learning rate 1, constraint 1, added from left to right: the sum is negative and every entry of the update is NaN. *)
Theorem C92_sr_nan_refuted :
  ~ (forall fs pmapped c lr (grads : list (list (list (binary_float 24 128)) * list (list (binary_float 24 128)))), (forall l, is_sum 24 128 l (fs l)) -> is_finite c = true -> 0 < B2R c -> is_finite lr = true -> 0 < B2R lr ->
      all_numbers 24 128 (map fst grads) -> all_numbers 24 128 (map snd grads) ->
      (forall t, In t grads -> 0 < total (map (fun xy => B2R (fst xy) * B2R (snd xy)) (combine (concat (fst t)) (concat (snd t))))) ->
      all_numbers 24 128 (sr_constrain_norm 24 128 fs pmapped c lr grads)).
Proof.
  intros H. set (gr := [[one32; p25; p25; one32; p26]]). set (pg := [[one32; one32; one32; Bopp one32; Bopp one32]]).
  assert (V1 : B2R one32 = 1) by (change (B2R one32) with (IZR 8388608 * bpow radix2 (-23)); cbn; lra).
  assert (P0 : 0 < B2R one32) by lra.
  assert (N : all_numbers 24 128 (sr_constrain_norm 24 128 (left_sum 24 128) false one32 one32 [(gr, pg)])).
  { apply H; [apply left_is_sum|reflexivity|exact P0|reflexivity|exact P0| | |].
    - intros t l x [<-|[]] [<-|[]] I. repeat (destruct I as [<-|I]; [reflexivity|]). destruct I.
    - intros t l x [<-|[]] [<-|[]] I. repeat (destruct I as [<-|I]; [reflexivity|]). destruct I.
    - intros t [<-|[]]. unfold gr, pg, total. cbn [fst snd concat app combine map fold_right]. rewrite !B2R_Bopp, V1. change (B2R p25) with (IZR 8388608 * bpow radix2 (-48)). change (B2R p26) with (IZR 8388608 * bpow radix2 (-49)).
      pose proof (bpow_gt_0 radix2 (-49)). assert (bpow radix2 (-48) = 2 * bpow radix2 (-49)) by (change (-48)%Z with (1 + -49)%Z; rewrite bpow_plus; reflexivity). lra. }
  assert (E : is_nan (fmul 24 128 (coefficient 24 128 one32 (fmul 24 128 (tree_inner_product 24 128 (left_sum 24 128) pg gr) (fmul 24 128 one32 one32))) one32) = true) by (vm_cast_no_check (eq_refl true)).
  set (y := fmul 24 128 (coefficient 24 128 one32 (fmul 24 128 (tree_inner_product 24 128 (left_sum 24 128) pg gr) (fmul 24 128 one32 one32))) one32) in *.
  assert (F : is_finite y = true).
  { refine (N _ _ y (or_introl eq_refl) (or_introl eq_refl) _). left. reflexivity. }
  destruct y; discriminate.
Qed.
Print Assumptions C92_sr_nan_refuted.

Lemma entrywise_impl (r1 r2 : binary_float 24 128 -> binary_float 24 128 -> Prop) ts us : entrywise 24 128 r1 ts us -> (forall h t l g, In t us -> In l t -> In g l -> r1 h g -> r2 h g) -> entrywise 24 128 r2 ts us.
Proof.
  unfold entrywise. intros F. induction F as [|a b ts us H F IH]; intros I; constructor; [|apply IH; intros h t l g Ht; apply (I h t l g); right; exact Ht].
  assert (I' : forall h l g, In l b -> In g l -> r1 h g -> r2 h g) by (intros h l g; apply (I h b l g); left; reflexivity). clear - H I'. induction H as [|a b ts us H F IH]; constructor; [|apply IH; intros h l g Hl; apply (I' h l g); right; exact Hl].
  assert (I : forall h g, In g b -> r1 h g -> r2 h g) by (intros h g; apply (I' h b g); left; reflexivity). clear - H I. induction H as [|a b ts us H F IH]; constructor; [apply I; [left; reflexivity|exact H]|apply IH; intros h g Hg; apply I; right; exact Hg].
Qed.
(** Examples: the update (1, 2), of squared length 5, with constraints 1 and 8. *)
Definition update12 : list (list (binary_float 24 128)) := [[one32; two32]].
Definition eight32 := pow32 3 eq_refl.
Definition huge32 := pow32 64 eq_refl.
Lemma values32 : B2R one32 = 1 /\ B2R two32 = 2 /\ B2R eight32 = 8.
Proof.
  change (B2R one32) with (IZR 8388608 * bpow radix2 (-23)). change (B2R two32) with (IZR 8388608 * bpow radix2 (-22)). change (B2R eight32) with (IZR 8388608 * bpow radix2 (-20)).
  replace (bpow radix2 (-23)) with (/ 8388608) by (cbn; lra). replace (bpow radix2 (-22)) with (/ 4194304) by (cbn; lra). replace (bpow radix2 (-20)) with (/ 1048576) by (cbn; lra). repeat split; lra.
Qed.
Lemma length12 : squared_length 24 128 update12 = 5.
Proof. destruct values32 as [V1 [V2 _]]. unfold squared_length, total, update12. cbn [concat app map fold_right]. rewrite V1, V2. lra. Qed.
Lemma mean12 : mean_squared_length 24 128 [update12] = 5.
Proof. unfold mean_squared_length, total. cbn [map fold_right length]. rewrite length12. cbn. lra. Qed.
Lemma numbers12 : all_numbers 24 128 [update12].
Proof. intros t l x [<-|[]] [<-|[]] [<-|[<-|[]]]; reflexivity. Qed.
Lemma workable12 c : 1 <= c -> workable 24 128 3 c [update12].
Proof.
  intros C. assert (B1 : bpow radix2 (6 - 128) <= / 1000) by (apply Rle_trans with (bpow radix2 (-10)); [apply bpow_le; lia|cbn; lra]).
  assert (B2 : 1000 <= bpow radix2 (128 - 4)) by (apply Rle_trans with (bpow radix2 10); [cbn; lra|apply bpow_le; lia]).
  assert (B3 : 1000 <= bpow radix2 (128 - 6)) by (apply Rle_trans with (bpow radix2 10); [cbn; lra|apply bpow_le; lia]).
  split; [intros t [<-|[]]; cbn; lia|]. split; [cbn; lia|]. split; [discriminate|]. split; [unfold unit_roundoff; cbn; lra|]. replace (INR 3) with 3 by (cbn; lra). split; [lra|].
  intros t [<-|[]]. rewrite length12. split; [lra|nra].
Qed.

Example C92_constrained_example fs : (forall l, is_sum 24 128 l (fs l)) ->
  let result := constrain_norm 24 128 fs false one32 [update12] in
  entrywise 24 128 (fun h g => Rabs (B2R h - sqrt (1 / 5) * B2R g) <= / 500000) result [update12] /\ mean_squared_length 24 128 result <= 1 + / 100000.
Proof.
  intros SUM result. destruct values32 as [V1 [V2 _]].
  assert (WK : workable 24 128 3 (B2R one32) [update12]) by (apply workable12; lra). pose proof (C92_constrained 24 128 prec32 emax32 fs SUM 3 false one32 [update12] WK eq_refl numbers12 ltac:(reflexivity)) as H. cbv zeta in H.
  destruct H as [A B]. fold result in A, B. rewrite V1 in A, B. rewrite mean12 in A. unfold shrink in A. destruct (Rle_dec 5 1) as [Q|_] in A; [lra|].
  replace (INR (2 * 3 + 8)) with 14 in * by (cbn; lra). assert (UV : unit_roundoff 24 = / 16777216) by (unfold unit_roundoff; cbn; lra). rewrite UV in A, B.
  split; [|lra]. assert (S1 : 0 <= sqrt (1 / 5) <= / 2) by (split; [apply sqrt_pos|rewrite <- (sqrt_square (/ 2)) by lra; apply sqrt_le_1_alt; lra]).
  assert (T : 0 < bpow radix2 (2 - 128) <= / 1000) by (split; [apply bpow_gt_0|apply Rle_trans with (bpow radix2 (-10)); [apply bpow_le; lia|cbn; lra]]).
  apply (entrywise_impl _ _ _ _ A). intros h t l g [<-|[]] [<-|[]] [<-|[<-|[]]] E; [rewrite V1, (Rabs_pos_eq 1) in E by lra; rewrite V1|rewrite V2, (Rabs_pos_eq 2) in E by lra; rewrite V2]; lra.
Qed.

Example C92_unchanged_example fs : (forall l, is_sum 24 128 l (fs l)) -> constrain_norm 24 128 fs false eight32 [update12] = [update12].
Proof.
  intros SUM. destruct values32 as [_ [_ V8]]. assert (WK : workable 24 128 3 (B2R eight32) [update12]) by (apply workable12; lra).
  apply (C92_unchanged 24 128 prec32 emax32 fs SUM 3 false eight32 [update12] WK eq_refl numbers12); [reflexivity|]. rewrite mean12, V8. unfold unit_roundoff. cbn. lra.
Qed.

(** Two devices; one entry 2^64 on the second of them: both updates are gone. *)
Example C92_overflow_example fs : (forall l, is_sum 24 128 l (fs l)) ->
  entrywise 24 128 (fun h g => is_finite h = true /\ B2R h = 0) (constrain_norm 24 128 fs true one32 [update12; [[huge32; one32]]]) [update12; [[huge32; one32]]].
Proof.
  intros SUM. destruct values32 as [V1 _].
  assert (B24 : 2 <= bpow radix2 24) by (apply Rle_trans with (bpow radix2 1); [cbn; lra|apply bpow_le; lia]).
  assert (HV : bpow radix2 128 <= B2R huge32 ^ 2). { change (B2R huge32) with (IZR 8388608 * bpow radix2 41). change (IZR 8388608) with (bpow radix2 23). rewrite <- bpow_plus. cbn [pow]. rewrite Rmult_1_r, <- bpow_plus. apply bpow_le. lia. }
  pose proof (C92_overflow 24 128 prec32 emax32 fs SUM true one32 [update12; [[huge32; one32]]] [[huge32; one32]] [huge32; one32] huge32 eq_refl ltac:(lra)) as H.
  assert (K : entrywise 24 128 (fun h g => if is_finite g then is_finite h = true /\ B2R h = 0 else is_nan h = true) (constrain_norm 24 128 fs true one32 [update12; [[huge32; one32]]]) [update12; [[huge32; one32]]]).
  { apply H; [discriminate|cbn; lra| |right; left; reflexivity|left; reflexivity|left; reflexivity|right; exact HV].
    intros t l x [<-|[<-|[]]] [<-|[]] [<-|[<-|[]]]; reflexivity. }
  apply (entrywise_impl _ _ _ _ K). intros h t l g [<-|[<-|[]]] [<-|[]] [<-|[<-|[]]] E; exact E.
Qed.
Example C92_nan_example fs : (forall l, is_sum 24 128 l (fs l)) ->
  entrywise 24 128 (fun h g => is_nan h = true) (constrain_norm 24 128 fs true one32 [update12; [[one32]; [B754_nan]]]) [update12; [[one32]; [B754_nan]]].
Proof. intros SUM. apply (C92_nan 24 128 prec32 emax32 fs SUM true one32 _ [[one32]; [B754_nan]] [B754_nan]); [discriminate|right; left; reflexivity|right; left; reflexivity|left; reflexivity]. Qed.

(** A step from the parameters (8, 0) along the gradient (1, 2) with learning rate 1 and constraint 1. *)
Definition device12 : device 24 128 := {| d_params := [[eight32; zero32]]; d_grad := update12; d_trace := [[zero32; zero32]] |}.
Example C92_step_example fs : (forall l, is_sum 24 128 l (fs l)) ->
  exists new trace, spring_apply 24 128 fs false (Some one32) one32 [device12] = [(new, trace)] /\ shape 24 128 new = [2%nat] /\
  Forall2 (Forall2 (fun t g => is_finite t = true /\ B2R t = B2R g)) trace update12.
Proof.
  intros SUM. destruct values32 as [V1 [V2 V8]].
  assert (B24 : 2 <= bpow radix2 24) by (apply Rle_trans with (bpow radix2 1); [cbn; lra|apply bpow_le; lia]).
  assert (B2 : 1000 <= bpow radix2 (128 - 2)) by (apply Rle_trans with (bpow radix2 10); [cbn; lra|apply bpow_le; lia]).
  destruct (C92_step 24 128 prec32 emax32 fs SUM false (Some one32) one32 [device12]) as [ups [_ H]].
  - split; [reflexivity|lra].
  - reflexivity.
  - cbn; lra.
  - intros d [<-|[]]. split; [reflexivity|]. split; [reflexivity|]. split; [|split].
    + intros l x [<-|[]] [<-|[<-|[]]]; (split; [reflexivity|]); [rewrite V8, Rabs_pos_eq by lra; lra|]. cbn [B2R zero32 fzero]. rewrite Rabs_R0. lra.
    + intros l x [<-|[]] [<-|[<-|[]]]; (split; [reflexivity|]); rewrite ?V1, ?V2, Rabs_pos_eq by lra; lra.
    + intros l x [<-|[]] [<-|[<-|[]]]; reflexivity.
  - cbn zeta in H. destruct (H 0%nat device12 eq_refl) as [new [trace [h [E [_ [SN [_ [_ TR]]]]]]]]. exists new, trace. split; [|split; [exact SN|exact TR]].
    cbn [spring_apply map constrain_norm zip_with nth_error] in *. injection E as <- <-. reflexivity.
Qed.
(** The same preconditioned gradient as gradient: an identity preconditioner. *)
Example C92_sr_safe_example fs : (forall l, is_sum 24 128 l (fs l)) ->
  entrywise 24 128 (fun h g => is_finite h = true /\ Bsign h = Bsign g /\ Rabs (B2R h) <= Rabs (B2R g)) (sr_constrain_norm 24 128 fs false one32 one32 [(update12, update12)]) [update12].
Proof.
  intros SUM. destruct values32 as [V1 _]. assert (B24 : 2 <= bpow radix2 24) by (apply Rle_trans with (bpow radix2 1); [cbn; lra|apply bpow_le; lia]).
  apply (C92_sr_safe 24 128 prec32 emax32 fs SUM false one32 one32 [(update12, update12)]); try reflexivity; [discriminate|cbn; lra|lra| |].
  - rewrite V1. split; [|lra]. apply Rle_trans with (bpow radix2 0); [apply bpow_le; lia|cbn; lra].
  - unfold entrywise, update12. cbn [map fst snd]. repeat constructor.
Qed.
Example C92_safe_example fs : (forall l, is_sum 24 128 l (fs l)) ->
  entrywise 24 128 (fun h g => is_finite h = true /\ Bsign h = Bsign g /\ Rabs (B2R h) <= Rabs (B2R g)) (constrain_norm 24 128 fs true one32 [update12; [[huge32; Bopp one32]]]) [update12; [[huge32; Bopp one32]]].
Proof.
  intros SUM. destruct values32 as [V1 _]. assert (B24 : 2 <= bpow radix2 24) by (apply Rle_trans with (bpow radix2 1); [cbn; lra|apply bpow_le; lia]).
  apply (C92_safe 24 128 prec32 emax32 fs SUM); [discriminate|cbn; lra|reflexivity|lra|]. intros t l x [<-|[<-|[]]] [<-|[]] [<-|[<-|[]]]; reflexivity.
Qed.

(** T_float: C86, sums of signed logs on machine floating-point numbers. *)
From Coq Require Import ZArith Reals.
From Flocq Require Import Core IEEE754.BinarySingleNaN.
From Coq Require Import Lia Lra List Permutation.
Import ListNotations.
From Verif Require Import M_float S_float P_float P_float2 P_float3 P_float4.
Open Scope R_scope.

(** C86.  In floating-point arithmetic of any roomy format, for any exp and log as good as assumed
    and any order of summation: the sum of at most 2^prec signed logs, of which at least one is a
    number, is a sign and a log, never NaN nor +inf; its log is -inf exactly if its sign is 0; it
    has the sign of the exact sum whenever that exceeds the stated bound (relative to the largest
    term); and if all the signs agree, the result has that sign and a log that is at least the
    largest log and within the stated bound of the log of the exact sum. *)
Theorem C86_sum :
  forall prec emax (Hp : Prec_gt_0 prec) (He : Prec_lt_emax prec emax)
         (fe fg : binary_float prec emax -> binary_float prec emax) fs epse epsl,
  good_exp prec emax epse fe -> good_log prec emax epsl fg ->
  (forall l, is_sum prec emax l (fs l)) -> roomy prec emax ->
  forall xs c,
  INR (length xs) <= bpow radix2 prec ->
  (forall x, In x xs -> sign_number prec emax (fst x) /\ log_number prec emax (snd x)) ->
  largest prec emax xs c -> Rabs c <= bpow radix2 (emax - 1) ->
  exists s l, slog_sum_over_axis prec emax fe fg fs xs = Some (s, l) /\
    sign_number prec emax s /\ log_number prec emax l /\ (l = B754_infinity true <-> B2R s = 0) /\
    (total prec emax 0 xs > exp c * sum_error prec epse (length xs) -> B2R s = 1) /\
    (total prec emax 0 xs < - (exp c * sum_error prec epse (length xs)) -> B2R s = -1) /\
    (forall sg, sg = 1 \/ sg = -1 -> (forall x, In x xs -> B2R (fst x) = sg) ->
       B2R s = sg /\ is_finite l = true /\ c <= B2R l /\
       Rabs (B2R l - ln (Rabs (total prec emax 0 xs))) <=
         sum_error prec epse (length xs) + epsl + unit_roundoff prec * (Rabs c + IZR (emax + prec))).
Proof. intros. eapply sum_safe; eassumption. Qed.
Print Assumptions C86_sum.

(** C86.  Converting finite numbers of any size, not all zero, to signed logs and summing them
    there gives a sign and a log, also when their plain sum overflows. *)
Theorem C86_arrays :
  forall prec emax (Hp : Prec_gt_0 prec) (He : Prec_lt_emax prec emax)
         (fe fg : binary_float prec emax -> binary_float prec emax) fs epse epsl,
  good_exp prec emax epse fe -> good_log prec emax epsl fg ->
  (forall l, is_sum prec emax l (fs l)) -> roomy prec emax ->
  forall xs, INR (length xs) <= bpow radix2 prec ->
  (forall x, In x xs -> is_finite x = true) -> (exists x, In x xs /\ B2R x <> 0) ->
  exists s l, slog_sum_over_axis prec emax fe fg fs (map (array_to_slog prec emax fg) xs) = Some (s, l) /\
    sign_number prec emax s /\ log_number prec emax l /\ (l = B754_infinity true <-> B2R s = 0).
Proof. intros. eapply array_sum_safe; eassumption. Qed.
Print Assumptions C86_arrays.

(** C86.  The FermiNet's sum over determinants of products over spins: if the slogdets are signs
    and logs within range, it is a sign and a log as soon as one determinant has no zero factor,
    and (NaN, NaN) if every determinant has one. *)
Theorem C86_determinants :
  forall prec emax (Hp : Prec_gt_0 prec) (He : Prec_lt_emax prec emax)
         (fe fg : binary_float prec emax -> binary_float prec emax) fs epse epsl,
  good_exp prec emax epse fe -> good_log prec emax epsl fg ->
  (forall l, is_sum prec emax l (fs l)) -> roomy prec emax ->
  forall q dets, (0 <= q <= prec)%Z -> dets <> [] -> INR (length dets) <= bpow radix2 prec ->
  (forall ds, In ds dets -> ds <> [] /\ INR (length ds) <= bpow radix2 q /\
     forall x, In x ds -> sign_number prec emax (fst x) /\ log_number prec emax (snd x) /\
       (is_finite (snd x) = true -> Rabs (B2R (snd x)) <= bpow radix2 (emax - 1 - q))) ->
  ((exists ds, In ds dets /\ forall x, In x ds -> is_finite (snd x) = true) ->
   exists s l, determinant_sum prec emax fe fg fs dets = Some (s, l) /\
     sign_number prec emax s /\ log_number prec emax l /\ (l = B754_infinity true <-> B2R s = 0)) /\
  ((forall ds, In ds dets -> exists x, In x ds /\ snd x = B754_infinity true) ->
   determinant_sum prec emax fe fg fs dets = Some (B754_nan, B754_nan)).
Proof.
  intros prec emax Hp He fe fg fs epse epsl GE GL GS RO q dets Q NE N G.
  destruct (products_spec prec emax q dets Q G) as [ps [E [Ln [A B]]]].
  unfold determinant_sum. rewrite E. split.
  - intros X. apply B in X. destruct (fmaximum_spec prec emax ps (fun p H => proj1 (proj2 (A p H))) X) as [m [_ [Fm LM]]].
    destruct (sum_safe prec emax fe fg fs epse epsl GE GL GS RO ps (B2R m)) as [s [l [R1 [R2 [R3 [R4 _]]]]]].
    + rewrite Ln. exact N.
    + intros p Hi. destruct (A p Hi) as [A1 [A2 _]]. split; assumption.
    + exact LM.
    + destruct LM as [[p [Ip [Fp Ep]]] _]. rewrite <- Ep. apply (A p Ip). exact Fp.
    + exists s, l. split; [exact R1|]. split; [exact R2|]. split; [exact R3|exact R4].
  - intros X. apply (sum_nan prec emax fe fg fs epse epsl GE GL GS).
    + intros Z. rewrite Z in Ln. destruct dets; [congruence|discriminate].
    + intros p Hi. destruct (A p Hi) as [_ [[F|F] _]]; [|exact F]. exfalso.
      destruct (proj1 B) as [ds [Hd Fd]]; [exists p; split; assumption|]. destruct (X ds Hd) as [x [Hx Ex]]. specialize (Fd x Hx). rewrite Ex in Fd. discriminate.
Qed.
Print Assumptions C86_determinants.

(** C86.  What is assumed about the format, exp, log and sum holds of binary16, bfloat16, binary32
    and binary64 with correctly rounded functions and a left-to-right sum. *)
Theorem C86_assumptions_hold :
  forall prec emax (Hp : Prec_gt_0 prec) (He : Prec_lt_emax prec emax),
  In (prec, emax) [(11, 16); (8, 128); (24, 128); (53, 1024)]%Z ->
  roomy prec emax /\
  good_exp prec emax (unit_roundoff prec) (rounded_exp prec emax) /\
  good_log prec emax (unit_roundoff prec * IZR prec) (rounded_log prec emax) /\
  (forall l, is_sum prec emax l (left_sum prec emax l)).
Proof.
  intros prec emax Hp He H.
  assert (W : (2 <= prec)%Z /\ (emax + prec <= 2 ^ prec)%Z /\ (prec <= emax - 2)%Z) by (cbn [In] in H; destruct H as [E|[E|[E|[E|[]]]]]; injection E as <- <-; repeat split; try lia; discriminate).
  destruct W as [W1 [W2 W3]]. split.
  - split; [exact W1|]. apply Rle_trans with (bpow radix2 prec); [|apply bpow_le; lia]. rewrite <- (IZR_Zpower radix2 prec) by lia. apply IZR_le. exact W2.
  - split; [apply rounded_exp_good|]. split; [apply rounded_log_good; exact W2|apply left_sum_ok].
Qed.
Print Assumptions C86_assumptions_hold.

(** In binary32: the plain sum of the two largest numbers overflows; their sum as signed logs is a
    positive sign with a number for its log. *)
Definition prec32 : Prec_gt_0 24 := eq_refl.
Definition emax32 : Prec_lt_emax 24 128 := eq_refl.
Definition huge : binary_float 24 128 := @B754_finite 24 128 false 16777215 104 eq_refl.

Example C86_example :
  @fadd 24 128 prec32 emax32 huge huge = B754_infinity false /\
  exists s l, @slog_sum_over_axis 24 128 prec32 emax32 (@rounded_exp 24 128 prec32 emax32) (@rounded_log 24 128 prec32 emax32) (@left_sum 24 128 prec32 emax32)
                (map (@array_to_slog 24 128 prec32 emax32 (@rounded_log 24 128 prec32 emax32)) [huge; huge]) = Some (s, l) /\
    B2R s = 1 /\ is_finite l = true.
Proof.
  split; [vm_compute; reflexivity|].
  destruct (C86_assumptions_hold 24 128 prec32 emax32) as [RO [GE [GL GS]]]; [cbn; tauto|].
  assert (PH : 0 < B2R huge) by (apply F2R_gt_0; reflexivity).
  assert (LG : is_finite (@rounded_log 24 128 prec32 emax32 huge) = true /\ Rabs (B2R (@rounded_log 24 128 prec32 emax32 huge)) <= IZR (128 + 24)).
  { destruct GL as [_ [_ G]]. destruct (G huge eq_refl PH) as [A [B _]]. split; assumption. }
  destruct LG as [F B].
  set (y := @array_to_slog 24 128 prec32 emax32 (@rounded_log 24 128 prec32 emax32) huge).
  assert (Sy : sign_number 24 128 (fst y) /\ B2R (fst y) = 1).
  { destruct (@fsign_spec 24 128 prec32 emax32 huge eq_refl) as [A [C _]]. split; [exact A|apply C; exact PH]. }
  assert (Y : forall x, In x [y; y] -> x = y) by (intros x [<-|[<-|[]]]; reflexivity).
  destruct (C86_sum 24 128 prec32 emax32 _ _ _ _ _ GE GL GS RO [y; y] (B2R (snd y))) as [s [l [E [_ [_ [_ [_ [_ K]]]]]]]].
  - cbn [length]. change (bpow radix2 24) with 16777216. cbn. lra.
  - intros x Hx. rewrite (Y x Hx). split; [apply Sy|left; exact F].
  - split; [exists y; split; [left; reflexivity|]; split; [exact F|reflexivity]|]. intros x Hx _. rewrite (Y x Hx). lra.
  - eapply Rle_trans; [exact B|]. eapply Rle_trans; [apply RO|]. apply bpow_le. lia.
  - exists s, l. split; [exact E|]. destruct (K 1 (or_introl eq_refl)) as [K1 [K2 _]].
    + intros x Hx. rewrite (Y x Hx). apply Sy.
    + split; assumption.
Qed.

(** Two products of two spin determinants with equal logs and opposite signs: the hypotheses of
    [C86_determinants] hold, in binary32 with q = 1. *)
Example C86_determinants_example :
  let one := @Bone 24 128 prec32 emax32 in
  let dets := [[(one, one); (one, one)]; [(one, one); (Bopp one, one)]] in
  exists s l, @determinant_sum 24 128 prec32 emax32 (@rounded_exp 24 128 prec32 emax32) (@rounded_log 24 128 prec32 emax32) (@left_sum 24 128 prec32 emax32) dets = Some (s, l) /\
    sign_number 24 128 s /\ log_number 24 128 l.
Proof.
  intros one dets. destruct (C86_assumptions_hold 24 128 prec32 emax32) as [RO [GE [GL GS]]]; [cbn; tauto|].
  assert (O : is_finite one = true) by reflexivity. assert (V : B2R one = 1) by (unfold one; apply (@Bone_correct 24 128 prec32 emax32)).
  assert (V2 : B2R (Bopp one) = -1) by (rewrite B2R_Bopp, V; ring).
  assert (B1 : 1 <= bpow radix2 (128 - 1 - 1)) by (change 1 with (bpow radix2 0); apply bpow_le; lia).
  assert (X1 : forall t, t = one \/ t = Bopp one -> sign_number 24 128 (fst (t, one)) /\ log_number 24 128 (snd (t, one)) /\ (is_finite (snd (t, one)) = true -> Rabs (B2R (snd (t, one))) <= bpow radix2 (128 - 1 - 1))).
  { intros t Ht. cbn [fst snd]. rewrite V, Rabs_R1. split; [|split; [left; exact O|intros _; exact B1]]. destruct Ht as [Ht|Ht]; rewrite Ht; (split; [reflexivity|]); tauto. }
  destruct (C86_determinants 24 128 prec32 emax32 _ _ _ _ _ GE GL GS RO 1 dets) as [H _].
  - lia.
  - discriminate.
  - cbn [dets length]. change (bpow radix2 24) with 16777216. cbn. lra.
  - intros ds Hd. destruct Hd as [<-|[<-|[]]]; (split; [discriminate|]); (split; [cbn; lra|]); intros x [<-|[<-|[]]]; apply X1; tauto.
  - destruct H as [s [l [E [A [B _]]]]].
    + exists [(one, one); (one, one)]. split; [left; reflexivity|]. intros x [<-|[<-|[]]]; exact O.
    + exists s, l. split; [exact E|]. split; assumption.
Qed.

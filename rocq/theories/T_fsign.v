(** T_fsign: C95, functions made odd or even in their inputs on machine floating-point numbers. *)
From Coq Require Import ZArith Reals.
From Flocq Require Import Core IEEE754.BinarySingleNaN.
From Coq Require Import Lia Lra List Permutation Bool Arith.
Import ListNotations.
From Verif Require Import M_float S_float P_float P_float4 T_float P_fwalk T_fwalk M_fsign S_fsign P_fsign P_fsign2 T_fupdate.
Open Scope R_scope.

(** C95.  If the 2^n terms are added by halves, the symmetrised function is odd in every input without any rounding error: negating all entries of one input negates the result exactly, whatever the
    function is and whatever it returns, infinities and NaN included (the sign of a zero apart).  The variant without signs is even in the same way. *)
Theorem C95_exact :
  forall prec emax (Hp : Prec_gt_0 prec) (He : Prec_lt_emax prec emax) fs f xs i,
  (forall l, length l = (2 ^ length xs)%nat -> same prec emax (fs l) (by_halves prec emax (length xs) l)) -> (i < length xs)%nat ->
  opposite prec emax (sign_covariant prec emax fs f xs) (sign_covariant prec emax fs f (flip prec emax i xs)) /\
  same prec emax (sign_invariant prec emax fs f xs) (sign_invariant prec emax fs f (flip prec emax i xs)).
Proof. intros. split; [apply covariant_halves|apply invariant_halves]; assumption. Qed.
Print Assumptions C95_exact.

(** C95.  With one input (a full determinant) that holds for every order in which the compiler may add. *)
Theorem C95_one_input :
  forall prec emax (Hp : Prec_gt_0 prec) (He : Prec_lt_emax prec emax) fs f x, (forall l, is_sum prec emax l (fs l)) ->
  opposite prec emax (sign_covariant prec emax fs f [x]) (sign_covariant prec emax fs f [map (@Bopp prec emax) x]) /\
  same prec emax (sign_invariant prec emax fs f [x]) (sign_invariant prec emax fs f [map (@Bopp prec emax) x]).
Proof. intros prec emax Hp He fs f x SUM. apply (C95_exact prec emax Hp He fs f [x] 0); [intros l L; apply sum_one_input; assumption|cbn; lia]. Qed.
Print Assumptions C95_one_input.

(** C95.  In general, for values of the function of size at most 2^q and sums in any order: the result is the alternating (or plain) sum of the 2^n values up to the error u 4^n 2^q, so it is odd (even)
    up to twice that error. *)
Theorem C95_accuracy :
  forall prec emax (Hp : Prec_gt_0 prec) (He : Prec_lt_emax prec emax) fs q f xs, (forall l, is_sum prec emax l (fs l)) ->
  (0 <= q)%Z -> (q + prec < emax)%Z -> INR (2 ^ length xs) <= bpow radix2 prec ->
  (forall ys, sign_variant prec emax xs ys -> is_finite (f ys) = true /\ Rabs (B2R (f ys)) <= bpow radix2 q) ->
  let err := unit_roundoff prec * (4 ^ length xs * bpow radix2 q) in
  let odd := sign_covariant prec emax fs f in let even := sign_invariant prec emax fs f in
  is_finite (odd xs) = true /\ Rabs (B2R (odd xs) - odd_part prec emax f xs) <= err /\
  is_finite (even xs) = true /\ Rabs (B2R (even xs) - even_part prec emax f xs) <= err /\
  forall i, (i < length xs)%nat -> Rabs (B2R (odd (flip prec emax i xs)) + B2R (odd xs)) <= 2 * err /\ Rabs (B2R (even (flip prec emax i xs)) - B2R (even xs)) <= 2 * err.
Proof.
  intros prec emax Hp He fs q f xs SUM Q QP N F err odd even.
  assert (P : INR (2 ^ length xs) * INR (2 ^ length xs) = 4 ^ length xs). { rewrite pow_INR. change (INR 2) with 2. rewrite <- Rpow_mult_distr. f_equal; lra. }
  destruct (covariant_accuracy prec emax fs SUM q Q QP f xs F N) as [A1 A2]. destruct (invariant_accuracy prec emax fs SUM q Q QP f xs F N) as [B1 B2]. rewrite P in A2, B2. repeat (split; [assumption|]). intros i I.
  assert (F' : forall ys, sign_variant prec emax (flip prec emax i xs) ys -> is_finite (f ys) = true /\ Rabs (B2R (f ys)) <= bpow radix2 q) by (intros ys H; apply F, (variant_flip prec emax xs i), H).
  pose proof (flip_length prec emax xs i) as L. destruct (covariant_accuracy prec emax fs SUM q Q QP f (flip prec emax i xs) F') as [_ A3]; [rewrite L; exact N|]. destruct (invariant_accuracy prec emax fs SUM q Q QP f (flip prec emax i xs) F') as [_ B3]; [rewrite L; exact N|].
  rewrite L, P in A3, B3. rewrite (odd_flip prec emax xs i f I) in A3. rewrite (even_flip prec emax xs i f) in B3. fold odd in A2, A3. fold even in B2, B3. fold err in A2, A3, B2, B3. split; apply Rabs_le; apply Rabs_le_inv in A2, A3, B2, B3; lra.
Qed.
Print Assumptions C95_accuracy.

#[local] Existing Instances prec32 emax32.
Notation sum32 := (P_float4.left_sum 24 128).
(** 2^-30, and a function of two inputs that looks at the sign of the first only: 1 if it is positive and 2^-30 if it is negative. *)
Definition tiny30 : binary_float 24 128 := f32 8388608 (-53) eq_refl.
Definition first_sign (ys : list (list (binary_float 24 128))) : binary_float 24 128 := match ys with (y :: _) :: _ => if Bsign y then tiny30 else one32 | _ => one32 end.
Definition two_inputs : list (list (binary_float 24 128)) := [[one32]; [one32]].

(** C95, full statement refuted: with two inputs (two spins) the result depends on the order of the additions.  Added from left to right in single precision, the symmetrisation of a function that does not
    even depend on its second input is 2^-30 instead of 0, and negating the second input leaves it 2^-30 instead of negating it. *)
Theorem C95_order_refuted :
  ~ (forall fs f xs i, (forall l, is_sum 24 128 l (fs l)) -> (i < length xs)%nat ->
      opposite 24 128 (sign_covariant 24 128 fs f xs) (sign_covariant 24 128 fs f (flip 24 128 i xs)) /\ (odd_part 24 128 f xs = 0 -> B2R (sign_covariant 24 128 fs f xs) = 0)).
Proof.
  intros H. destruct (H sum32 first_sign two_inputs 1%nat (P_float4.left_sum_ok 24 128) ltac:(cbn; lia)) as [_ H2].
  assert (E : sign_covariant 24 128 sum32 first_sign two_inputs = tiny30) by (apply B2SF_inj; vm_cast_no_check (eq_refl (B2SF tiny30))).
  rewrite E in H2. assert (Z : odd_part 24 128 first_sign two_inputs = 0) by (cbn [odd_part two_inputs first_sign]; ring). specialize (H2 Z).
  assert (P : 0 < B2R tiny30) by (apply F2R_gt_0; reflexivity). lra.
Qed.
Print Assumptions C95_order_refuted.
Example C95_not_odd : ~ opposite 24 128 (sign_covariant 24 128 sum32 first_sign two_inputs) (sign_covariant 24 128 sum32 first_sign (flip 24 128 1 two_inputs)).
Proof.
  assert (E : sign_covariant 24 128 sum32 first_sign two_inputs = tiny30) by (apply B2SF_inj; vm_cast_no_check (eq_refl (B2SF tiny30))).
  assert (E' : sign_covariant 24 128 sum32 first_sign (flip 24 128 1 two_inputs) = tiny30) by (apply B2SF_inj; vm_cast_no_check (eq_refl (B2SF tiny30))).
  rewrite E, E'. intros [X|(s & s' & X & _)]; discriminate X.
Qed.

(** Examples: the same function, added by halves, is 0; and the bound for sums in any order. *)
Example C95_exact_example : opposite 24 128 (sign_covariant 24 128 (by_halves 24 128 2) first_sign two_inputs) (sign_covariant 24 128 (by_halves 24 128 2) first_sign (flip 24 128 1 two_inputs)) /\
  B2R (sign_covariant 24 128 (by_halves 24 128 2) first_sign two_inputs) = 0.
Proof.
  split; [apply (C95_exact 24 128 prec32 emax32 (by_halves 24 128 2) first_sign two_inputs 1); [intros l L; left; reflexivity|cbn; lia]|].
  assert (E : sign_covariant 24 128 (by_halves 24 128 2) first_sign two_inputs = zero32) by (apply B2SF_inj; vm_cast_no_check (eq_refl (B2SF zero32))). rewrite E. reflexivity.
Qed.
Example C95_one_input_example : opposite 24 128 (sign_covariant 24 128 sum32 first_sign [[one32; tiny30]]) (sign_covariant 24 128 sum32 first_sign [[Bopp one32; Bopp tiny30]]).
Proof. apply (C95_one_input 24 128 prec32 emax32 sum32 first_sign [one32; tiny30] (P_float4.left_sum_ok 24 128)). Qed.
Example C95_accuracy_example : Rabs (B2R (sign_covariant 24 128 sum32 first_sign (flip 24 128 1 two_inputs)) + B2R (sign_covariant 24 128 sum32 first_sign two_inputs)) <= / 500000.
Proof.
  assert (V1 : B2R one32 = 1) by apply values32. assert (T1 : 0 <= B2R tiny30 <= 1) by (split; [left; apply F2R_gt_0; reflexivity|change (B2R tiny30) with (IZR 8388608 * bpow radix2 (-53)); cbn; lra]).
  destruct (C95_accuracy 24 128 prec32 emax32 sum32 0 first_sign two_inputs (P_float4.left_sum_ok 24 128)) as [_ [_ [_ [_ H]]]]; [lia|lia|cbn; lra| |].
  - intros ys _. assert (D : first_sign ys = one32 \/ first_sign ys = tiny30) by (unfold first_sign; destruct ys as [|[|y r] s]; auto; destruct (Bsign y); auto). change (bpow radix2 0) with 1.
    destruct D as [-> | ->]; (split; [reflexivity|]); [rewrite V1, Rabs_R1; lra|rewrite Rabs_pos_eq; lra].
  - destruct (H 1%nat) as [X _]; [cbn; lia|]. eapply Rle_trans; [exact X|]. unfold unit_roundoff. cbn. lra.
Qed.

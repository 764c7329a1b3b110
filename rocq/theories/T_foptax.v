(** T_foptax: C93, learning-rate schedules, SGD with momentum and Adam on machine floating-point numbers. *)
From Coq Require Import ZArith Reals.
From Flocq Require Import Core IEEE754.BinarySingleNaN.
From Coq Require Import Lia Lra List Permutation Bool Arith.
Import ListNotations.
From Verif Require Import M_float S_float P_float P_float2 P_float4 T_float M_fwalk S_fwalk P_fwalk P_fwalk2 T_fwalk M_fenergy S_fenergy P_fenergy P_fenergy2 P_fenergy3
  M_fpotential S_fpotential P_fpotential M_fupdate S_fupdate P_fupdate P_fupdate4 T_fupdate M_foptax S_foptax P_foptax P_foptax2 P_foptax3.
Open Scope R_scope.

(** C93.  The inverse-time schedule, for rates that are not negative: in every epoch the learning rate is a number between 0 and the configured one, which it equals in epoch 0; it never increases, whatever
    rounds, overflows or underflows on the way. *)
Theorem C93_rate :
  forall prec emax (Hp : Prec_gt_0 prec) (He : Prec_lt_emax prec emax) lr decay s t, is_rate prec emax lr -> is_rate prec emax decay -> (s <= t)%nat -> INR t <= bpow radix2 (emax - 1) ->
  let r := rate prec emax (InverseTime prec emax lr decay) in
  is_finite (r t) = true /\ 0 <= B2R (r t) <= B2R (r s) /\ B2R (r s) <= B2R lr /\ B2R (r 0%nat) = B2R lr.
Proof.
  intros prec emax Hp He lr decay s t L D ST T r. destruct (rate_monotone prec emax lr decay s t L D ST T) as [A [B C]]. split; [exact A|]. split; [exact B|]. split; [exact C|]. apply rate_start; assumption.
Qed.
Print Assumptions C93_rate.

(** C93.  It is lr / (1 + decay * t) up to the relative error 8 u, if nothing overflows or underflows. *)
Theorem C93_rate_accuracy :
  forall prec emax (Hp : Prec_gt_0 prec) (He : Prec_lt_emax prec emax) lr decay t, is_rate prec emax lr -> is_rate prec emax decay -> INR t <= bpow radix2 (emax - 1) ->
  (B2R decay = 0 \/ bpow radix2 (2 - emax) <= B2R decay) -> B2R decay * INR t <= bpow radix2 (emax - 3) -> 8 * unit_roundoff prec <= 1 ->
  let exact := inverse_time (B2R lr) (B2R decay) t in bpow radix2 (3 - emax) <= exact ->
  Rabs (B2R (rate prec emax (InverseTime prec emax lr decay) t) - exact) <= 8 * unit_roundoff prec * exact.
Proof.
  intros prec emax Hp He lr decay t L D T DD DT U exact EX. assert (E2 : bpow radix2 (3 - emax) = 2 * bpow radix2 (2 - emax)) by (replace (3 - emax)%Z with (1 + (2 - emax))%Z by lia; rewrite bpow_plus; reflexivity).
  pose proof (rate_near prec emax lr decay t L D T DD DT ltac:(lra)) as N. fold exact in N. assert (N' : near (unit_roundoff prec) 4 exact (B2R (rate prec emax (InverseTime prec emax lr decay) t))) by (apply N; unfold tiny; lra).
  assert (I4 : INR 4 = 4) by (cbn; lra). pose proof (near_err (unit_roundoff prec) (uu prec) 4 _ _ ltac:(rewrite I4; lra) N') as Q. rewrite I4 in Q. lra.
Qed.
Print Assumptions C93_rate_accuracy.

(** C93.  One epoch of training, for every optimiser and history: if the direction is a number and nothing overflows, the parameter moves by minus the learning rate of this epoch times the direction, up to rounding
    errors relative to the parameter and to its change. *)
Theorem C93_step :
  forall prec emax (Hp : Prec_gt_0 prec) (He : Prec_lt_emax prec emax) fpow o sch p0 gs g,
  let ps := run prec emax fpow o sch (p0, initial prec emax) gs in
  let p := fst ps in let d := fst (direction prec emax fpow o (snd ps) g) in let lr := rate prec emax sch (length gs) in let u := unit_roundoff prec in
  is_finite p = true -> is_finite lr = true -> is_finite d = true -> Rabs (B2R p) <= bpow radix2 (emax - 2) -> Rabs (B2R lr * B2R d) <= bpow radix2 (emax - 2) ->
  let p' := fst (run prec emax fpow o sch (p0, initial prec emax) (gs ++ [g])) in
  is_finite p' = true /\ Rabs (B2R p' - (B2R p - B2R lr * B2R d)) <= u * Rabs (B2R p) + 3 * u * Rabs (B2R lr * B2R d) + 2 * u * bpow radix2 (2 - emax).
Proof.
  intros prec emax Hp He fpow o sch p0 gs g ps p d lr u Fp Fl Fd P LD p'.
  assert (E : p' = fadd prec emax p (fmul prec emax (Bopp lr) d)). { transitivity (fst (step prec emax fpow o sch ps g)); [unfold p', ps, run; rewrite fold_left_app; reflexivity|]. unfold lr. rewrite <- (run_count prec emax fpow o sch p0 gs). reflexivity. }
  rewrite E. apply step_value; assumption.
Qed.
Print Assumptions C93_step.

(** C93.  Plain SGD: each epoch moves the parameter by minus the epoch's learning rate times the gradient. *)
Theorem C93_sgd :
  forall prec emax (Hp : Prec_gt_0 prec) (He : Prec_lt_emax prec emax) fpow sch p0 gs g,
  let trained l := fst (run prec emax fpow (Sgd prec emax) sch (p0, initial prec emax) l) in let lr := rate prec emax sch (length gs) in let u := unit_roundoff prec in
  is_finite (trained gs) = true -> is_finite lr = true -> is_finite g = true -> Rabs (B2R (trained gs)) <= bpow radix2 (emax - 2) -> Rabs (B2R lr * B2R g) <= bpow radix2 (emax - 2) ->
  is_finite (trained (gs ++ [g])) = true /\
  Rabs (B2R (trained (gs ++ [g])) - (B2R (trained gs) - B2R lr * B2R g)) <= u * Rabs (B2R (trained gs)) + 3 * u * Rabs (B2R lr * B2R g) + 2 * u * bpow radix2 (2 - emax).
Proof. intros prec emax Hp He fpow sch p0 gs g trained lr u Fp Fl Fg P L. exact (C93_step prec emax Hp He fpow (Sgd prec emax) sch p0 gs g Fp Fl Fg P L). Qed.
Print Assumptions C93_sgd.

(** C93.  SGD with momentum m <= 1 - 2^-j, after any number of gradients of size at most 2^k: trace and direction (with or without Nesterov's correction) are numbers of size at most 2^(k+j), and equal the
    exponentially weighted sum of the gradients (with Nesterov: the last gradient plus m times that sum) up to an error that does not grow with their number. *)
Theorem C93_momentum :
  forall prec emax (Hp : Prec_gt_0 prec) (He : Prec_lt_emax prec emax) fpow k j m nesterov sch p0 gs g, (0 <= k)%Z -> (0 <= j <= prec)%Z -> (k + j <= emax - 2)%Z ->
  is_decay prec emax j m -> Forall (is_gradient prec emax k) gs -> is_gradient prec emax k g ->
  let s := snd (run prec emax fpow (Momentum prec emax m nesterov) sch (p0, initial prec emax) gs) in
  let B := bpow radix2 (k + j) in let u := unit_roundoff prec in let E := bpow radix2 j * (u * (2 * B) + u * bpow radix2 (2 - emax)) in
  let sum l := weighted_sum (B2R m) (map (fun x => B2R x) (rev l)) in
  is_finite (trace _ _ s) = true /\ Rabs (B2R (trace _ _ s)) <= B /\ Rabs (B2R (trace _ _ s) - sum gs) <= E /\
  let d := fst (direction prec emax fpow (Momentum prec emax m nesterov) s g) in
  is_finite d = true /\ Rabs (B2R d) <= B /\ Rabs (B2R d - (if nesterov then B2R g + B2R m * sum (gs ++ [g]) else sum (gs ++ [g]))) <= E.
Proof.
  intros prec emax Hp He fpow k j m nesterov sch p0 gs g K J KJ M G Gg s B u E sum.
  assert (T : forall l, trace _ _ (snd (run prec emax fpow (Momentum prec emax m nesterov) sch (p0, initial prec emax) l)) = fold_left (fun t g => trace_update prec emax m g t) l (fzero prec emax)).
  { intros l. unfold run. change (fzero prec emax) with (trace _ _ (snd (p0, initial prec emax))). generalize (p0, initial prec emax). clear. intros ps. revert ps. induction l as [|g l IH]; intros ps; [reflexivity|]. cbn [fold_left]. rewrite IH. reflexivity. }
  destruct (trace_history prec emax k j K J KJ m gs M G) as [A [C D]]. rewrite <- (T gs) in A, C, D. fold s in A, C, D. split; [exact A|]. split; [exact C|]. split; [exact D|]. cbn [direction fst].
  destruct (trace_bound prec emax k j K J KJ m g _ M Gg A C) as [X [Y _]].
  assert (G1 : Forall (is_gradient prec emax k) (gs ++ [g])) by (apply Forall_app; split; [exact G|constructor; [exact Gg|constructor]]).
  destruct (trace_history prec emax k j K J KJ m (gs ++ [g]) M G1) as [_ [_ D1]]. rewrite fold_left_app in D1. cbn [fold_left] in D1. rewrite <- (T gs) in D1. fold s in D1. change (Rabs (B2R (trace_update prec emax m g (trace _ _ s)) - sum (gs ++ [g])) <= E) in D1.
  destruct nesterov; [|repeat split; assumption]. destruct (trace_bound prec emax k j K J KJ m g _ M Gg X Y) as [X' [Y' Z']]. split; [exact X'|]. split; [exact Y'|].
  set (t := trace_update prec emax m g (trace _ _ s)) in *. set (w := sum (gs ++ [g])) in *.
  replace (B2R (trace_update prec emax m g t) - (B2R g + B2R m * w)) with ((B2R (trace_update prec emax m g t) - (B2R g + B2R m * B2R t)) + B2R m * (B2R t - w)) by ring.
  eapply Rle_trans; [apply Rabs_triang|]. rewrite Rabs_mult, (Rabs_pos_eq (B2R m)) by apply M. destruct M as [_ M]. pose proof (bpow_gt_0 radix2 (- j)) as BJ. assert (JJ : bpow radix2 (- j) * bpow radix2 j = 1) by (rewrite <- bpow_plus; replace (- j + j)%Z with 0%Z by lia; reflexivity).
  assert (TE : 0 <= E) by (eapply Rle_trans; [apply Rabs_pos|exact D1]). assert (Q : B2R m * Rabs (B2R t - w) <= (1 - bpow radix2 (- j)) * E) by (apply Rmult_le_compat; try lra; apply Rabs_pos).
  unfold E in Q |- *. change (P_fpotential.tiny emax) with (bpow radix2 (2 - emax)) in Z'. fold B u in Z'. set (e := u * (2 * B) + u * bpow radix2 (2 - emax)) in *.
  replace ((1 - bpow radix2 (- j)) * (bpow radix2 j * e)) with (bpow radix2 j * e - bpow radix2 (- j) * bpow radix2 j * e) in Q by ring. rewrite JJ in Q. lra.
Qed.
Print Assumptions C93_momentum.

(** C93.  Adam with decay rates at most 1 - 2^-j and eps at least 2^-e, after any number of gradients of size at most 2^k: the moments are numbers, the second one not negative, and every direction is a number of
    size at most 2^(k+2j+e), as long as the squares of the gradients leave room. *)
Theorem C93_adam :
  forall prec emax (Hp : Prec_gt_0 prec) (He : Prec_lt_emax prec emax) fpow, shrinking_power prec emax fpow ->
  forall c k j e sch p0 gs g, (0 <= k)%Z -> (0 <= j <= prec)%Z -> (0 <= e <= emax - 3)%Z -> (k + j + j + e <= emax - 2)%Z -> (2 * k + j + j + 4 <= emax)%Z ->
  is_decay prec emax j (b1 _ _ c) -> is_decay prec emax j (b2 _ _ c) ->
  (is_finite (b1_c _ _ c) = true /\ 0 <= B2R (b1_c _ _ c) <= 1) -> (is_finite (b2_c _ _ c) = true /\ 0 <= B2R (b2_c _ _ c) <= 1) ->
  (is_finite (eps _ _ c) = true /\ bpow radix2 (- e) <= B2R (eps _ _ c) <= 1) -> (is_finite (eps_root _ _ c) = true /\ 0 <= B2R (eps_root _ _ c) <= 1) ->
  Forall (is_gradient prec emax k) gs -> is_gradient prec emax k g ->
  let s := snd (run prec emax fpow (Adam prec emax c) sch (p0, initial prec emax) gs) in
  is_finite (mu _ _ s) = true /\ Rabs (B2R (mu _ _ s)) <= bpow radix2 (k + j) /\ is_finite (nu _ _ s) = true /\ 0 <= B2R (nu _ _ s) <= bpow radix2 (2 * k + j) /\
  let d := fst (direction prec emax fpow (Adam prec emax c) s g) in is_finite d = true /\ Rabs (B2R d) <= bpow radix2 (k + j + j + e).
Proof.
  intros prec emax Hp He fpow POW c k j e sch p0 gs g K J E R1 R2 B1 B2 C1 C2 EP RO G Gg s.
  pose proof (good_run prec emax fpow POW c k j e K J E B1 B2 C1 C2 EP RO R1 sch (p0, initial prec emax) gs R2 (good_initial prec emax k j) G) as GS. fold s in GS.
  destruct (good_step prec emax fpow POW c k j e K J E B1 B2 C1 C2 EP RO R1 s g R2 GS Gg) as [_ [D1 D2]]. destruct GS as [M1 [M2 [[V1 V2] V3]]]. repeat split; assumption.
Qed.
Print Assumptions C93_adam.

(** C93.  In the same setting Adam's moments are the exponentially weighted sums of the gradients and of their squares, up to errors that do not grow with the number of epochs; and its direction is the quotient
    of the bias-corrected moments it holds, up to the relative error 16 u, unless these underflow. *)
Theorem C93_adam_accuracy :
  forall prec emax (Hp : Prec_gt_0 prec) (He : Prec_lt_emax prec emax) fpow, shrinking_power prec emax fpow ->
  forall c k j e sch p0 gs g, (0 <= k)%Z -> (0 <= j <= prec)%Z -> (0 <= e <= emax - 3)%Z -> (k + j + j + e <= emax - 2)%Z -> (2 * k + j + j + 4 <= emax)%Z ->
  is_decay prec emax j (b1 _ _ c) -> is_decay prec emax j (b2 _ _ c) ->
  (is_finite (b1_c _ _ c) = true /\ 0 <= B2R (b1_c _ _ c) <= 1) -> (is_finite (b2_c _ _ c) = true /\ 0 <= B2R (b2_c _ _ c) <= 1) ->
  (is_finite (eps _ _ c) = true /\ bpow radix2 (- e) <= B2R (eps _ _ c) <= 1) -> (is_finite (eps_root _ _ c) = true /\ 0 <= B2R (eps_root _ _ c) <= 1) ->
  Forall (is_gradient prec emax k) gs -> is_gradient prec emax k g ->
  let o := Adam prec emax c in let state_after l := snd (run prec emax fpow o sch (p0, initial prec emax) l) in
  let m := B2R (mu _ _ (state_after (gs ++ [g]))) in let v := B2R (nu _ _ (state_after (gs ++ [g]))) in let u := unit_roundoff prec in let tiny := bpow radix2 (2 - emax) in
  Rabs (m - weighted_sum (B2R (b1 _ _ c)) (map (fun x => B2R (b1_c _ _ c) * B2R x) (rev (gs ++ [g])))) <= bpow radix2 j * (3 * u * bpow radix2 (k + j) + 2 * u * tiny) /\
  Rabs (v - weighted_sum (B2R (b2 _ _ c)) (map (fun x => B2R (b2_c _ _ c) * B2R x ^ 2) (rev (gs ++ [g])))) <= bpow radix2 j * (4 * u * bpow radix2 (2 * k + j) + 3 * u * tiny) /\
  let n := length (gs ++ [g]) in
  let exact := adam_quotient m v (B2R (fpow (b1 _ _ c) n)) (B2R (fpow (b2 _ _ c) n)) (B2R (eps _ _ c)) (B2R (eps_root _ _ c)) in
  16 * u <= 1 -> (v = 0 \/ tiny <= v) -> (m = 0 \/ (tiny <= Rabs m /\ 2 * tiny <= Rabs exact)) ->
  Rabs (B2R (fst (direction prec emax fpow o (state_after gs) g)) - exact) <= 16 * u * Rabs exact.
Proof.
  intros prec emax Hp He fpow POW c k j e sch p0 gs g K J E R1 R2 B1 B2 C1 C2 EP RO G Gg o state_after m v u tiny.
  assert (G1 : Forall (is_gradient prec emax k) (gs ++ [g])) by (apply Forall_app; split; [exact G|constructor; [exact Gg|constructor]]).
  destruct (moments_history prec emax fpow POW c k j e K J E B1 B2 C1 C2 EP RO R1 R2 sch p0 (gs ++ [g]) G1) as [H1 H2]. split; [exact H1|]. split; [exact H2|]. intros n exact U HV HM.
  pose proof (good_run prec emax fpow POW c k j e K J E B1 B2 C1 C2 EP RO R1 sch (p0, initial prec emax) (gs ++ [g]) R2 (good_initial prec emax k j) G1) as GS. fold o in GS. fold (state_after (gs ++ [g])) in GS. destruct GS as [M1 [M2 [V1 V3]]].
  assert (SA : state_after (gs ++ [g]) = snd (direction prec emax fpow o (state_after gs) g)) by (unfold state_after, run; rewrite fold_left_app; reflexivity).
  assert (DA : fst (direction prec emax fpow o (state_after gs) g) = adam_direction prec emax fpow c (mu _ _ (state_after (gs ++ [g]))) (nu _ _ (state_after (gs ++ [g]))) n).
  { rewrite SA. unfold o at 1. cbn [direction fst snd mu nu]. f_equal. unfold n. rewrite app_length. cbn [length]. unfold state_after. rewrite run_count. lia. }
  rewrite DA. apply (direction_accuracy prec emax fpow POW c k j e K J E B1 B2 C1 C2 EP RO R1 R2); try assumption.
  - unfold n. rewrite app_length. cbn. lia.
  - unfold u in U. lra.
  - destruct HM as [HM|[HM _]]; [left|right]; exact HM.
  - destruct HM as [HM|[_ HM]]; [left|right]; exact HM.
Qed.
Print Assumptions C93_adam_accuracy.

(** C93.  One gradient whose square overflows (2^64 in single precision) stops Adam for ever: from then on the parameter never changes, whatever gradients follow. *)
Theorem C93_adam_frozen :
  forall prec emax (Hp : Prec_gt_0 prec) (He : Prec_lt_emax prec emax) fpow, shrinking_power prec emax fpow ->
  forall c k j e sch p0 before g after, (0 <= k)%Z -> (0 <= j <= prec)%Z -> (0 <= e <= emax - 3)%Z -> (k + j + j + e <= emax - 2)%Z ->
  is_decay prec emax j (b1 _ _ c) -> is_decay prec emax j (b2 _ _ c) -> 0 < B2R (b2 _ _ c) ->
  (is_finite (b1_c _ _ c) = true /\ 0 <= B2R (b1_c _ _ c) <= 1) -> (is_finite (b2_c _ _ c) = true /\ 0 < B2R (b2_c _ _ c) <= 1) ->
  (is_finite (eps _ _ c) = true /\ bpow radix2 (- e) <= B2R (eps _ _ c) <= 1) -> (is_finite (eps_root _ _ c) = true /\ 0 <= B2R (eps_root _ _ c) <= 1) ->
  (forall t, is_finite (rate prec emax sch t) = true) ->
  Forall (is_gradient prec emax k) (before ++ g :: after) -> bpow radix2 emax <= B2R g ^ 2 ->
  let trained gs := fst (run prec emax fpow (Adam prec emax c) sch (p0, initial prec emax) gs) in
  is_finite (trained before) = true -> is_finite (trained (before ++ g :: after)) = true /\ B2R (trained (before ++ g :: after)) = B2R (trained before).
Proof.
  intros prec emax Hp He fpow POW c k j e sch p0 bef g aft K J E R1 B1 B2 PB C1 C2 EP RO RT G BIG trained F.
  apply Forall_app in G. destruct G as [G1 G2]. inversion G2 as [|? ? Gg G3]; subst. assert (C2' : is_finite (b2_c _ _ c) = true /\ 0 <= B2R (b2_c _ _ c) <= 1) by (split; [apply C2|destruct C2; lra]).
  pose proof (running_run prec emax fpow c k j e K J E B1 B2 C1 C2' R1 PB (proj1 (proj2 C2)) sch (p0, initial prec emax) bef (running_initial prec emax k j) G1) as RS.
  destruct (still prec emax fpow POW c k j e K J E B1 B2 C1 C2' EP RO R1 PB (proj1 (proj2 C2)) sch (run prec emax fpow (Adam prec emax c) sch (p0, initial prec emax) bef) g RT F RS Gg) as [X1 [X2 X3]]; [left; apply square_huge; exact BIG|].
  destruct (frozen_for_ever prec emax fpow POW c k j e K J E B1 B2 C1 C2' EP RO R1 PB (proj1 (proj2 C2)) sch _ aft RT X1 X3 G3) as [Y1 [Y2 _]].
  unfold trained, run in *. rewrite fold_left_app. cbn [fold_left]. split; [exact Y1|]. rewrite Y2. exact X2.
Qed.
Print Assumptions C93_adam_frozen.

(** ** Single precision *)
#[local] Existing Instances prec32 emax32.
(** Powers by repeated multiplication. *)
Definition power32 (b : binary_float 24 128) (n : nat) : binary_float 24 128 := Nat.iter (n - 1) (fmul 24 128 b) b.
Lemma power32_shrinks : shrinking_power 24 128 power32.
Proof.
  intros b n F B N. unfold power32. clear N. induction (n - 1)%nat as [|q IH]; [split; [exact F|cbn; lra]|]. cbn [Nat.iter nat_rect]. change (nat_rect _ b (fun _ => fmul 24 128 b) q) with (Nat.iter q (fmul 24 128 b) b). destruct IH as [FP P]. set (p := Nat.iter q (fmul 24 128 b) b) in *.
  assert (T : 1 <= bpow radix2 (128 - 1)) by (change 1 with (bpow radix2 0); apply bpow_le; lia).
  destruct (mul_fin 24 128 b p F FP) as [A V]; [rewrite Rabs_pos_eq by nra; nra|]. split; [exact A|]. rewrite V. split; [apply (rnd_ge0 24 128); nra|].
  rewrite <- (rnd_id 24 128 b) at 2. apply (rnd_mono 24 128). nra.
Qed.
Definition tenth32 : binary_float 24 128 := pow32 (-4) eq_refl.
Definition half32 := pow32 (-1) eq_refl. Definition eps32 := pow32 (-20) eq_refl.
Definition adam32 : adam_numbers 24 128 := {| b1 := half32; b1_c := half32; b2 := half32; b2_c := half32; eps := eps32; eps_root := zero32 |}.
Lemma more_values32 : B2R half32 = / 2 /\ B2R eps32 = bpow radix2 (-20) /\ B2R tenth32 = / 16.
Proof.
  change (B2R half32) with (IZR 8388608 * bpow radix2 (-24)). change (B2R eps32) with (IZR 8388608 * bpow radix2 (-43)). change (B2R tenth32) with (IZR 8388608 * bpow radix2 (-27)).
  change (IZR 8388608) with (bpow radix2 23). rewrite <- !bpow_plus. repeat split.
Qed.

(** C93, full statement refuted: "Adam's directions are numbers for every eps and eps_root that are not negative".  With both zero, a vanishing gradient gives 0 / 0. *)
Theorem C93_eps_refuted :
  ~ (forall fpow c g, shrinking_power 24 128 fpow -> is_decay 24 128 1 (b1 _ _ c) -> is_decay 24 128 1 (b2 _ _ c) -> b1_c _ _ c = half32 -> b2_c _ _ c = half32 -> is_rate 24 128 (eps _ _ c) -> is_rate 24 128 (eps_root _ _ c) ->
      is_gradient 24 128 0 g -> is_finite (fst (direction 24 128 fpow (Adam 24 128 c) (initial 24 128) g)) = true).
Proof.
  intros H. destruct more_values32 as [V1 _]. set (c := {| b1 := half32; b1_c := half32; b2 := half32; b2_c := half32; eps := zero32; eps_root := zero32 |} : adam_numbers 24 128).
  assert (D : is_decay 24 128 1 half32) by (split; [reflexivity|rewrite V1; cbn; lra]). assert (Z : is_rate 24 128 zero32) by (split; [reflexivity|cbn; lra]).
  assert (F : is_finite (fst (direction 24 128 power32 (Adam 24 128 c) (initial 24 128) zero32)) = true).
  { apply H; try assumption; try reflexivity; [exact power32_shrinks|]. split; [reflexivity|]. cbn [B2R zero32 fzero]. rewrite Rabs_R0. cbn; lra. }
  assert (N : is_finite (fst (direction 24 128 power32 (Adam 24 128 c) (initial 24 128) zero32)) = false) by (vm_cast_no_check (eq_refl false)). congruence.
Qed.
Print Assumptions C93_eps_refuted.

(** Examples. *)
Example C93_rate_example s t : (s <= t)%nat -> (t <= 1000)%nat ->
  let r := rate 24 128 (InverseTime 24 128 tenth32 half32) in
  B2R (r t) <= B2R (r s) /\ Rabs (B2R (r t) - (/ 16) / (1 + / 2 * INR t)) <= 8 * bpow radix2 (-24) * ((/ 16) / (1 + / 2 * INR t)).
Proof.
  intros ST T r. destruct more_values32 as [V1 [_ V2]]. assert (TB : INR t <= 1000) by (apply le_INR in T; replace (INR 1000) with 1000 in T by (rewrite INR_IZR_INZ; reflexivity); exact T). pose proof (pos_INR t) as T0.
  assert (B1 : 1000 <= bpow radix2 (128 - 1)) by (apply Rle_trans with (bpow radix2 10); [cbn; lra|apply bpow_le; lia]). assert (B2 : 1000 <= bpow radix2 (128 - 3)) by (apply Rle_trans with (bpow radix2 10); [cbn; lra|apply bpow_le; lia]).
  assert (B3 : bpow radix2 (3 - 128) <= / 16384) by (apply Rle_trans with (bpow radix2 (-14)); [apply bpow_le; lia|cbn; lra]). assert (B4 : bpow radix2 (2 - 128) <= / 2) by (apply Rle_trans with (bpow radix2 (-1)); [apply bpow_le; lia|cbn; lra]).
  assert (R1 : is_rate 24 128 tenth32) by (split; [reflexivity|lra]). assert (R2 : is_rate 24 128 half32) by (split; [reflexivity|lra]).
  destruct (C93_rate 24 128 prec32 emax32 tenth32 half32 s t R1 R2 ST ltac:(lra)) as [_ [A _]]. split; [apply A|].
  pose proof (C93_rate_accuracy 24 128 prec32 emax32 tenth32 half32 t R1 R2) as Q. cbv zeta in Q. unfold inverse_time in Q. rewrite V1, V2 in Q. apply Q; try lra.
  - unfold unit_roundoff. cbn. lra.
  - apply Rle_trans with (/ 16384); [exact B3|]. unfold Rdiv. rewrite <- Rinv_mult. apply Rinv_le_contravar; nra.
Qed.
Example C93_momentum_example gs : Forall (is_gradient 24 128 10) gs ->
  let s := snd (run 24 128 power32 (Momentum 24 128 half32 false) (Constant 24 128 tenth32) (one32, initial 24 128) gs) in is_finite (trace _ _ s) = true /\ Rabs (B2R (trace _ _ s)) <= 2048.
Proof.
  intros G s. destruct more_values32 as [V1 _]. destruct values32 as [V0 _].
  assert (P0 : Rabs 1 <= bpow radix2 10) by (rewrite Rabs_pos_eq by lra; cbn; lra).
  destruct (C93_momentum 24 128 prec32 emax32 power32 10 1 half32 false (Constant 24 128 tenth32) one32 gs one32) as [A [B _]]; try lia; try assumption.
  - split; [reflexivity|]. rewrite V1. cbn. lra.
  - split; [reflexivity|rewrite V0; exact P0].
  - split; [exact A|]. eapply Rle_trans; [exact B|]. cbn. lra.
Qed.
Example C93_step_sgd_example :
  let trained l := fst (run 24 128 power32 (Sgd 24 128) (InverseTime 24 128 tenth32 half32) (one32, initial 24 128) l) in
  Rabs (B2R (trained ([one32; one32] ++ [half32])) - (B2R (trained [one32; one32]) - / 32 * / 2)) <= bpow radix2 (-22).
Proof.
  intros trained. destruct more_values32 as [V1 [_ V2]]. destruct values32 as [V0 _].
  assert (P : trained [one32; one32] = f32 15029589 (-24) eq_refl) by (apply B2SF_inj; vm_cast_no_check (eq_refl (SpecFloat.S754_finite false 15029589 (-24)))).
  pose proof (C93_sgd 24 128 prec32 emax32 power32 (InverseTime 24 128 tenth32 half32) one32 [one32; one32] half32) as Q. cbv zeta in Q. cbn [direction fst length] in Q.
  change (fst (run 24 128 power32 (Sgd 24 128) (InverseTime 24 128 tenth32 half32) (one32, initial 24 128) [one32; one32])) with (trained [one32; one32]) in Q.
  change (fst (run 24 128 power32 (Sgd 24 128) (InverseTime 24 128 tenth32 half32) (one32, initial 24 128) ([one32; one32] ++ [half32]))) with (trained ([one32; one32] ++ [half32])) in Q.
  assert (L : rate 24 128 (InverseTime 24 128 tenth32 half32) 2 = pow32 (-5) eq_refl) by (apply B2SF_inj; vm_cast_no_check (eq_refl (SpecFloat.S754_finite false 8388608 (-28)))). rewrite L in Q.
  assert (VL : B2R (pow32 (-5) eq_refl) = / 32). { change (B2R (pow32 (-5) eq_refl)) with (IZR 8388608 * bpow radix2 (-28)). cbn. lra. }
  assert (VP : B2R (trained [one32; one32]) = IZR 15029589 * bpow radix2 (-24)) by (rewrite P; reflexivity).
  rewrite VL, V1 in Q. assert (BT : 1 <= bpow radix2 (128 - 2)) by (change 1 with (bpow radix2 0); apply bpow_le; lia). assert (TT : bpow radix2 (2 - 128) <= / 16) by (apply Rle_trans with (bpow radix2 (-4)); [apply bpow_le; lia|cbn; lra]).
  assert (PA : 0 <= B2R (trained [one32; one32]) <= 1) by (rewrite VP; cbn; lra). rewrite (Rabs_pos_eq (B2R (trained [one32; one32]))) in Q by lra. rewrite (Rabs_pos_eq (/ 32 * / 2)) in Q by lra.
  destruct Q as [_ Q]; try lra; try reflexivity. eapply Rle_trans; [exact Q|]. unfold unit_roundoff. assert (U1 : bpow radix2 (Z.opp 24) = / 16777216) by (cbn; lra). assert (U2 : bpow radix2 (-22) = / 4194304) by (cbn; lra). rewrite U1, U2. pose proof (bpow_gt_0 radix2 (2 - 128)). nra.
Qed.
Lemma decay32 : is_decay 24 128 1 half32. Proof. destruct more_values32 as [V1 _]. split; [reflexivity|]. rewrite V1. cbn. lra. Qed.
Lemma half_ok : is_finite half32 = true /\ 0 < B2R half32 <= 1. Proof. destruct more_values32 as [V1 _]. split; [reflexivity|lra]. Qed.
Lemma eps_ok : is_finite eps32 = true /\ bpow radix2 (- (20)) <= B2R eps32 <= 1.
Proof. destruct more_values32 as [_ [V _]]. split; [reflexivity|]. rewrite V. split; [apply Rle_refl|change 1 with (bpow radix2 0); apply bpow_le; lia]. Qed.
Lemma root_ok : is_finite zero32 = true /\ 0 <= B2R zero32 <= 1. Proof. split; [reflexivity|cbn; lra]. Qed.
Example C93_adam_example gs g : Forall (is_gradient 24 128 50) gs -> is_gradient 24 128 50 g ->
  is_finite (fst (direction 24 128 power32 (Adam 24 128 adam32) (snd (run 24 128 power32 (Adam 24 128 adam32) (Constant 24 128 tenth32) (one32, initial 24 128) gs)) g)) = true.
Proof.
  intros G Gg. destruct half_ok as [H1 H2].
  destruct (C93_adam 24 128 prec32 emax32 power32 power32_shrinks adam32 50 1 20 (Constant 24 128 tenth32) one32 gs g) as [_ [_ [_ [_ [Q _]]]]]; try lia; try assumption; try exact decay32; try exact eps_ok; try exact root_ok; (split; [exact H1|cbn [b1_c b2_c adam32]; lra]).
Qed.
Example C93_adam_accuracy_example gs g : Forall (is_gradient 24 128 30) gs -> is_gradient 24 128 30 g ->
  let v := B2R (nu _ _ (snd (run 24 128 power32 (Adam 24 128 adam32) (Constant 24 128 tenth32) (one32, initial 24 128) (gs ++ [g])))) in
  Rabs (v - weighted_sum (/ 2) (map (fun x => / 2 * B2R x ^ 2) (rev (gs ++ [g])))) <= 2 * (4 * bpow radix2 (-24) * bpow radix2 61 + 3 * bpow radix2 (-24) * bpow radix2 (-126)).
Proof.
  intros G Gg v. destruct half_ok as [H1 H2]. destruct more_values32 as [V1 _].
  destruct (C93_adam_accuracy 24 128 prec32 emax32 power32 power32_shrinks adam32 30 1 20 (Constant 24 128 tenth32) one32 gs g) as [_ [Q _]]; try lia; try assumption; try exact decay32; try exact eps_ok; try exact root_ok; try (split; [exact H1|cbn [b1_c b2_c adam32]; lra]).
  cbn [b2 b2_c adam32] in Q. rewrite V1 in Q. exact Q.
Qed.
(** Gradient 1, then 2^64, then anything up to 2^64: the parameter stays where it was after the first step. *)
Example C93_adam_frozen_example gs : Forall (is_gradient 24 128 64) gs ->
  let trained l := fst (run 24 128 power32 (Adam 24 128 adam32) (Constant 24 128 tenth32) (one32, initial 24 128) l) in
  B2R (trained ([one32] ++ huge32 :: gs)) = B2R (trained [one32]).
Proof.
  intros G trained. destruct half_ok as [H1 H2]. destruct values32 as [V1 _].
  assert (HV : B2R huge32 = bpow radix2 64) by (change (B2R huge32) with (IZR 8388608 * bpow radix2 41); change (IZR 8388608) with (bpow radix2 23); rewrite <- bpow_plus; reflexivity).
  assert (B0 : 1 <= bpow radix2 64) by (change 1 with (bpow radix2 0); apply bpow_le; lia).
  assert (FT : is_finite (trained [one32]) = true) by (vm_cast_no_check (eq_refl true)).
  apply (C93_adam_frozen 24 128 prec32 emax32 power32 power32_shrinks adam32 64 1 20 (Constant 24 128 tenth32) one32 [one32] huge32 gs); try lia; try exact decay32; try exact eps_ok; try exact root_ok; try exact FT.
  - apply H2.
  - split; [exact H1|cbn [b1_c adam32]; lra].
  - split; [exact H1|exact H2].
  - reflexivity.
  - cbn [app]. constructor; [split; [reflexivity|rewrite V1, Rabs_pos_eq by lra; exact B0]|]. constructor; [split; [reflexivity|rewrite HV, Rabs_pos_eq by lra; apply Rle_refl]|exact G].
  - rewrite HV. cbn [pow]. rewrite Rmult_1_r, <- bpow_plus. apply bpow_le. lia.
Qed.

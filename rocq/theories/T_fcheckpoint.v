(** T_fcheckpoint: C90, running averages and the best checkpoint on machine floating-point numbers. *)
From Coq Require Import ZArith Reals.
From Flocq Require Import Core IEEE754.BinarySingleNaN.
From Coq Require Import Lia Lra List Permutation Bool Arith.
Import ListNotations.
From Verif Require Import M_float S_float P_float P_float2 P_float4 T_float M_fwalk S_fwalk P_fwalk P_fwalk2 T_fwalk M_fenergy S_fenergy P_fenergy P_fenergy2 P_fenergy3 T_fenergy
  M_fcheckpoint S_fcheckpoint P_fcheckpoint P_fcheckpoint2 P_fcheckpoint3.
Open Scope R_scope.

(** C90.  After any values of size at most 2^k (not too many), the window holds the last nhistory_max - 1 of them and the running average is a
    number within 16 (number of values) u 2^k of their mean. *)
Theorem C90_running_average :
  forall prec emax (Hp : Prec_gt_0 prec) (He : Prec_lt_emax prec emax) k nhistory_max l,
  (0 <= k)%Z -> (k + 1 + prec < emax)%Z -> (2 <= nhistory_max)%nat -> INR (nhistory_max + 1) <= bpow radix2 prec ->
  (forall x, In x l -> is_finite x = true /\ Rabs (B2R x) <= bpow radix2 k) -> 16 * INR (length l) * unit_roundoff prec <= 1 ->
  let r := fold_left (move_window prec emax nhistory_max) l (empty_running prec emax) in
  r_history _ _ r = skipn (length l - (nhistory_max - 1)) l /\
  is_finite (r_avg _ _ r) = true /\
  Rabs (B2R (r_avg _ _ r) - real_mean (map (fun x => B2R x) (r_history _ _ r))) <= 16 * INR (length l) * unit_roundoff prec * bpow radix2 k.
Proof.
  intros prec emax Hp He k nmax l K0 K1 N2 NP H L r. destruct (averages_history prec emax nmax l) as [HH _]; [lia|]. destruct (averages_accuracy prec emax k nmax l K0 K1 N2 NP H L) as [F [E _]].
  split; [exact HH|]. split; [exact F|exact E].
Qed.
Print Assumptions C90_running_average.

(** C90.  The bound must grow with the number of values, however long ago they left the window: in single precision, after 1, 2^24, 1/4, 1/4 and any
    number of further 1/4, the window holds 1/4 twice and the average is -1/2. *)
Lemma same_number (a b : fl32) : is_finite_strict a && is_finite_strict b && Beqb a b = true -> a = b.
Proof.
  rewrite !andb_true_iff. intros [[Fa Fb] E]. apply B2R_inj; [exact Fa|exact Fb|].
  rewrite (Beqb_correct _ _ a b) in E by (destruct a, b; try discriminate; reflexivity). revert E. case Req_bool_spec; [auto|discriminate].
Qed.
Lemma same_running (r : running 24 128) a h : r_history _ _ r = h -> r_avg _ _ r = a -> r = {| r_avg := a; r_history := h |}.
Proof. destruct r. cbn. intros -> ->. reflexivity. Qed.
Definition big24 : fl32 := f32 8388608 1 eq_refl.
Definition drifting (m : nat) : list fl32 := [f32 8388608 (-23) eq_refl; big24; quarter; quarter] ++ repeat quarter m.
Theorem C90_drift_refuted :
  forall m, let r := fold_left (@move_window 24 128 prec32 emax32 3) (drifting m) (empty_running 24 128) in
  (forall x, In x (drifting m) -> is_finite x = true /\ / 4 <= B2R x <= 16777216) /\
  r_history _ _ r = [quarter; quarter] /\ B2R quarter = / 4 /\ B2R (r_avg _ _ r) = - / 2.
Proof.
  assert (V : B2R quarter = / 4) by (change (B2R quarter) with (IZR 8388608 * bpow radix2 (-25)); replace (bpow radix2 (-25)) with (/ 33554432) by (cbn; lra); lra).
  intros m. split.
  - intros x Hx. apply in_app_or in Hx. destruct Hx as [[<-|[<-|[<-|[<-|[]]]]]|Hx].
    + split; [reflexivity|]. change (/ 4 <= IZR 8388608 * bpow radix2 (-23) <= 16777216). replace (bpow radix2 (-23)) with (/ 8388608) by (cbn; lra). lra.
    + split; [reflexivity|]. change (/ 4 <= IZR 8388608 * bpow radix2 1 <= 16777216). replace (bpow radix2 1) with 2 by (cbn; lra). lra.
    + split; [reflexivity|]. rewrite V. lra.
    + split; [reflexivity|]. rewrite V. lra.
    + apply repeat_spec in Hx. subst x. split; [reflexivity|]. rewrite V. lra.
  - unfold drifting. rewrite fold_left_app.
    assert (E : fold_left (@move_window 24 128 prec32 emax32 3) [f32 8388608 (-23) eq_refl; big24; quarter; quarter] (empty_running 24 128) = {| r_avg := Bopp half; r_history := [quarter; quarter] |}).
    { apply same_running; [reflexivity|]. apply same_number. vm_cast_no_check (eq_refl true). }
    rewrite E.
    assert (ST : @move_window 24 128 prec32 emax32 3 {| r_avg := Bopp half; r_history := [quarter; quarter] |} quarter = {| r_avg := Bopp half; r_history := [quarter; quarter] |}).
    { apply same_running; [reflexivity|]. apply same_number. vm_cast_no_check (eq_refl true). }
    induction m as [|m IH].
    + cbn [repeat fold_left r_history r_avg]. split; [reflexivity|]. split; [exact V|]. rewrite B2R_Bopp. change (B2R half) with (IZR 8388608 * bpow radix2 (-24)). replace (bpow radix2 (-24)) with (/ 16777216) by (cbn; lra). lra.
    + cbn [repeat fold_left]. rewrite ST. exact IH.
Qed.
Print Assumptions C90_drift_refuted.

(** C90.  Whatever the values, as long as every metric is a number: the checkpoint written in the end is that of the earliest epoch with the smallest computed metric. *)
Theorem C90_smallest_metric :
  forall prec emax (Hp : Prec_gt_0 prec) (He : Prec_lt_emax prec emax) (A : Type) nhistory_max nchains effective every (l : list (A * binary_float prec emax * binary_float prec emax)),
  let run f j := fold_left (move_window prec emax nhistory_max) (map f (firstn (S j) l)) (empty_running prec emax) in
  let energies := run (fun z => snd (fst z)) in let variances := run (fun z => snd z) in
  let metric j := checkpoint_metric prec emax effective (r_avg _ _ (energies j)) (r_avg _ _ (variances j)) (nchains * length (r_history _ _ (energies j))) in
  l <> [] -> (forall j, (j < length l)%nat -> is_finite (metric j) = true) ->
  exists i a e v, nth_error l i = Some (a, e, v) /\
    finish prec emax (track_all prec emax nhistory_max nchains effective every (start_tracking prec emax) 0 l) = Some a /\
    forall j, (j < length l)%nat -> B2R (metric i) <= B2R (metric j) /\ ((j < i)%nat -> B2R (metric i) < B2R (metric j)).
Proof.
  intros prec emax Hp He A nmax nchains effective every l run energies variances metric NE F.
  destruct (best_spec prec emax nmax nchains effective every l NE F) as (i & [[a e] v] & N & Fin & _ & _ & C). exists i, a, e, v. split; [exact N|]. split; [exact Fin|exact C].
Qed.
Print Assumptions C90_smallest_metric.

Lemma mean_at_least (c : R) l : l <> [] -> (forall x, In x l -> c <= x) -> c <= real_mean l.
Proof.
  intros NE H. unfold real_mean. assert (P : 0 < INR (length l)) by (apply lt_0_INR; destruct l; [congruence|cbn; lia]).
  apply (Rmult_le_reg_r (INR (length l))); [exact P|]. unfold Rdiv. rewrite Rmult_assoc, Rinv_l, Rmult_1_r by lra. clear NE P.
  induction l as [|x l IH]; [cbn; lra|]. cbn [length fold_right]. rewrite S_INR. specialize (IH (fun y Hy => H y (or_intror Hy))). specialize (H x (or_introl eq_refl)). lra.
Qed.

(** C90.  In range, and with variances not too close to zero, the best checkpoint is best up to rounding: its exact error-adjusted average exceeds that of any other epoch by at most
    2 delta, delta = 2^k ((16 T + 6) u + sqrt ((16 T + 2) u)), T the number of epochs. *)
Theorem C90_best :
  forall prec emax (Hp : Prec_gt_0 prec) (He : Prec_lt_emax prec emax) (A : Type) k nhistory_max nchains effective every (l : list (A * binary_float prec emax * binary_float prec emax)),
  (0 <= k)%Z -> (2 * k + 1 + prec < emax)%Z -> (2 <= nhistory_max)%nat -> INR (nhistory_max + 1) <= bpow radix2 prec -> (1 <= nchains)%nat ->
  (forall n, (0 < n <= nchains * (nhistory_max - 1))%nat -> is_finite (effective n) = true /\ 1 <= B2R (effective n)) ->
  let u := unit_roundoff prec in let T := INR (length l) in
  l <> [] -> 16 * T * u <= 1 ->
  (forall a e v, In (a, e, v) l -> is_finite e = true /\ Rabs (B2R e) <= bpow radix2 k /\ is_finite v = true /\ 16 * T * u * bpow radix2 (2 * k) <= B2R v <= bpow radix2 (2 * k)) ->
  let values f j := map (fun z => B2R (f z)) (window (nhistory_max - 1) j l) in
  let exact j := exact_metric (values (fun z => snd (fst z)) j) (values (fun z => snd z) j) (B2R (effective (nchains * length (window (nhistory_max - 1) j l))%nat)) in
  exists i a e v, nth_error l i = Some (a, e, v) /\
    finish prec emax (track_all prec emax nhistory_max nchains (Some effective) every (start_tracking prec emax) 0 l) = Some a /\
    forall j, (j < length l)%nat -> exact i <= exact j + 2 * (bpow radix2 k * ((16 * T + 6) * u + sqrt ((16 * T + 2) * u))).
Proof.
  intros prec emax Hp He A k nmax nchains effective every l K0 K1 N2 NP NC EFF u T NE TU H values exact. pose proof (prec1 prec) as P1. pose proof (u_pos prec) as U. fold u in U.
  pose proof (bpow_gt_0 radix2 k) as PB. assert (T0 : 0 <= T) by apply pos_INR.
  set (delta := bpow radix2 k * ((16 * T + 6) * u + sqrt ((16 * T + 2) * u))).
  assert (AC : forall j, (j < length l)%nat -> let m := metric prec emax nmax nchains (Some effective) (firstn (S j) l) in is_finite m = true /\ Rabs (B2R m - exact j) <= delta).
  { intros j Hj m. set (L := firstn (S j) l) in *. assert (LL : length L = S j) by (unfold L; rewrite firstn_length; lia).
    assert (INL : forall z, In z L -> In z l) by (intros z Hz; unfold L in Hz; rewrite <- (firstn_skipn (S j) l); apply in_or_app; left; exact Hz).
    assert (WM : forall f : A * binary_float prec emax * binary_float prec emax -> binary_float prec emax, map f (window (nmax - 1) j l) = r_history _ _ (averages prec emax nmax (map f L))).
    { intros f. destruct (averages_history prec emax nmax (map f L)) as [HH _]; [lia|]. rewrite HH, map_length. unfold window. fold L. rewrite skipn_map. reflexivity. }
    assert (GE : forall x, In x (map (energy_of prec emax) L) -> is_finite x = true /\ Rabs (B2R x) <= bpow radix2 k).
    { intros x Hx. apply in_map_iff in Hx. destruct Hx as ([[a e] v] & <- & Hz). destruct (H a e v (INL _ Hz)) as [Q1 [Q2 _]]. split; assumption. }
    assert (PB2 : 0 < bpow radix2 (2 * k)) by apply bpow_gt_0.
    assert (FL : 0 <= 16 * T * u * bpow radix2 (2 * k)) by (apply Rmult_le_pos; [apply Rmult_le_pos|]; lra).
    assert (GV : forall x, In x (map (variance_of prec emax) L) -> is_finite x = true /\ 16 * T * u * bpow radix2 (2 * k) <= B2R x <= bpow radix2 (2 * k)).
    { intros x Hx. apply in_map_iff in Hx. destruct Hx as ([[a e] v] & <- & Hz). destruct (H a e v (INL _ Hz)) as [_ [_ [Q1 Q2]]]. split; assumption. }
    assert (TL : INR (S j) <= T) by (apply le_INR; lia). assert (SJ : 0 <= INR (S j)) by apply pos_INR.
    assert (BU : 16 * INR (S j) * u <= 16 * T * u) by (apply Rmult_le_compat_r; lra).
    destruct (averages_accuracy prec emax k nmax (map (energy_of prec emax) L) K0 ltac:(lia) N2 NP GE) as [Fe [Ee Be]]; [rewrite map_length, LL; fold u; lra|].
    destruct (averages_accuracy prec emax (2 * k) nmax (map (variance_of prec emax) L) ltac:(lia) ltac:(lia) N2 NP) as [Fv [Ev Bv]].
    { intros x Hx. destruct (GV x Hx) as [Q1 Q2]. split; [exact Q1|]. rewrite Rabs_pos_eq; lra. }
    { rewrite map_length, LL. fold u. lra. }
    rewrite map_length, LL in Ee, Ev. fold u in Ee, Ev.
    unfold m, metric, checkpoint_metric. set (en := averages prec emax nmax (map (energy_of prec emax) L)) in *. set (va := averages prec emax nmax (map (variance_of prec emax) L)) in *.
    assert (LW : length (r_history _ _ en) = length (window (nmax - 1) j l)) by (rewrite <- (map_length (energy_of prec emax) (window _ _ _)), WM; reflexivity).
    assert (PW : (0 < length (window (nmax - 1) j l))%nat) by (unfold window; fold L; rewrite skipn_length, LL; lia).
    rewrite LW. set (W := length (window (nmax - 1) j l)) in *. assert (WL : (W <= nmax - 1)%nat) by (unfold W, window; fold L; rewrite skipn_length, LL; clear; lia). assert (PNS : (0 < nchains * W <= nchains * (nmax - 1))%nat) by (split; [|apply Nat.mul_le_mono_l; exact WL]; apply Nat.mul_pos_pos; [exact NC|exact PW]). destruct (EFF _ PNS) as [Fn Vn].
    assert (EX : exact j = rm prec emax (r_history _ _ en) + sqrt (rm prec emax (r_history _ _ va) / B2R (effective (nchains * W)%nat))).
    { unfold exact, exact_metric, values, rm, en, va. rewrite <- !WM, !map_map. reflexivity. }
    assert (V0 : 16 * T * u * bpow radix2 (2 * k) <= rm prec emax (r_history _ _ va)).
    { unfold rm, va. rewrite <- WM. apply mean_at_least.
      - intros E. apply (f_equal (@length R)) in E. rewrite !map_length in E. change (W = O) in E. rewrite E in PW. inversion PW.
      - intros x Hx. rewrite WM in Hx. apply in_map_iff in Hx. destruct Hx as (y & <- & Hy). destruct (averages_history prec emax nmax (map (variance_of prec emax) L)) as [HH _]; [lia|]. rewrite HH in Hy. apply GV. eapply In_skipn'; exact Hy. }
    destruct (nchains * W)%nat as [|ns] eqn:EN; [lia|]. rewrite <- EN in *. rewrite EX.
    assert (BU2 : 16 * INR (S j) * u * bpow radix2 (2 * k) <= 16 * T * u * bpow radix2 (2 * k)) by (apply Rmult_le_compat_r; lra).
    assert (BU1 : 16 * INR (S j) * u * bpow radix2 k <= 16 * T * u * bpow radix2 k) by (apply Rmult_le_compat_r; lra).
    destruct (metric_accuracy prec emax k K0 K1 (r_avg _ _ en) (r_avg _ _ va) (effective (nchains * W)%nat) (rm prec emax (r_history _ _ en)) (rm prec emax (r_history _ _ va))
       (16 * T * u * bpow radix2 k) (16 * T * u * bpow radix2 (2 * k)) Fe Be ltac:(lra) Fv) as [Fm Em]; [split; [apply Rabs_le_inv in Ev; lra|apply Rabs_le_inv in Bv; lra]|lra|lra|exact Fn|exact Vn|].
    split; [exact Fm|]. eapply Rle_trans; [exact Em|]. fold u. unfold delta.
    replace (16 * T * u * bpow radix2 (2 * k) + u * bpow radix2 (2 * k + 1)) with ((bpow radix2 k * bpow radix2 k) * ((16 * T + 2) * u)).
    2:{ rewrite <- bpow_plus. replace (k + k)%Z with (2 * k)%Z by lia. rewrite (bpow_plus radix2 (2 * k) 1). change (bpow radix2 1) with 2. ring. }
    rewrite sqrt_mult by nra. rewrite sqrt_square by lra. right. ring. }
  destruct (best_spec prec emax nmax nchains (Some effective) every l NE (fun j Hj => proj1 (AC j Hj))) as (i & [[a e] v] & N & Fin & _ & _ & C). exists i, a, e, v. split; [exact N|]. split; [exact Fin|].
  intros j Hj. assert (Hi : (i < length l)%nat) by (apply nth_error_Some; congruence). destruct (AC i Hi) as [_ Ai]. destruct (AC j Hj) as [_ Aj]. apply Rabs_le_inv in Ai. apply Rabs_le_inv in Aj. destruct (C j Hj) as [Cj _].
  fold delta. lra.
Qed.
Print Assumptions C90_best.

(** C90.  Once the metric is NaN, no epoch ever changes the best checkpoint again. *)
Theorem C90_nan_for_ever :
  forall prec emax (Hp : Prec_gt_0 prec) (He : Prec_lt_emax prec emax) (A : Type) nhistory_max nchains effective every (t : tracker prec emax (A := A)) epoch l,
  t_metric _ _ t = B754_nan ->
  finish prec emax (track_all prec emax nhistory_max nchains effective every t epoch l) = finish prec emax t.
Proof. intros. apply nan_sticks. assumption. Qed.
Print Assumptions C90_nan_for_ever.

(** C90.  Without the lower bound on the variances this happens to numbers: in single precision, four epochs with energies 1/2 and variances 1, 2^24, 1/4, 1/4 (a window of two epochs,
    variance_scale 1); the running average of the variance is -1/2, its square root NaN, and the first epoch stays the best however low the later energies are. *)
#[local] Existing Instances prec32 emax32.
Definition lost : list (nat * fl32 * fl32) := [(0%nat, half, f32 8388608 (-23) eq_refl); (1%nat, half, big24); (2%nat, half, quarter); (3%nat, half, quarter)].
Theorem C90_best_lost_refuted :
  forall every (later : list (nat * fl32 * fl32)),
  finish 24 128 (track_all 24 128 3 1 (Some (@of_nat 24 128 prec32 emax32)) every (start_tracking 24 128) 0 (lost ++ later)) = Some 0%nat.
Proof.
  intros every later. rewrite track_all_app. set (t := track_all 24 128 3 1 _ every (start_tracking 24 128) 0 lost).
  assert (N : t_metric _ _ t = B754_nan).
  { assert (E : is_nan (t_metric _ _ t) = true).
    { assert (E : t_metric _ _ t = t_metric _ _ (track_all 24 128 3 1 (Some (@of_nat 24 128 prec32 emax32)) 1 (start_tracking 24 128 (A := nat)) 0 lost)) by reflexivity. rewrite E. vm_cast_no_check (eq_refl true). }
    destruct (t_metric _ _ t); try discriminate; reflexivity. }
  rewrite C90_nan_for_ever by exact N. unfold t. change lost with ([(0%nat, half, f32 8388608 (-23) eq_refl); (1%nat, half, big24); (2%nat, half, quarter)] ++ [(3%nat, half, quarter)]). rewrite track_finish.
  assert (M : forall l z, Bltb (metric 24 128 3 1 (Some (@of_nat 24 128 prec32 emax32)) (l ++ [z])) (t_metric _ _ (track_all 24 128 3 1 (Some (@of_nat 24 128 prec32 emax32)) every (start_tracking 24 128 (A := nat)) 0 l)) =
     Bltb (metric 24 128 3 1 (Some (@of_nat 24 128 prec32 emax32)) (l ++ [z])) (t_metric _ _ (track_all 24 128 3 1 (Some (@of_nat 24 128 prec32 emax32)) 1 (start_tracking 24 128 (A := nat)) 0 l))).
  { intros l z. f_equal. induction l as [|y l IH] using rev_ind; [reflexivity|]. rewrite !track_metric, IH. reflexivity. }
  rewrite M. match goal with |- (if ?b then _ else _) = _ => assert (Q : b = false) by (vm_cast_no_check (eq_refl false)); rewrite Q; clear Q end.
  change [(0%nat, half, f32 8388608 (-23) eq_refl); (1%nat, half, big24); (2%nat, half, quarter)] with ([(0%nat, half, f32 8388608 (-23) eq_refl); (1%nat, half, big24)] ++ [(2%nat, half, quarter)]). rewrite track_finish, M.
  match goal with |- (if ?b then _ else _) = _ => assert (Q : b = false) by (vm_cast_no_check (eq_refl false)); rewrite Q; clear Q end.
  change [(0%nat, half, f32 8388608 (-23) eq_refl); (1%nat, half, big24)] with ([(0%nat, half, f32 8388608 (-23) eq_refl)] ++ [(1%nat, half, big24)]). rewrite track_finish, M.
  match goal with |- (if ?b then _ else _) = _ => assert (Q : b = false) by (vm_cast_no_check (eq_refl false)); rewrite Q; clear Q end.
  change [(0%nat, half, f32 8388608 (-23) eq_refl)] with ([] ++ [(0%nat, half, f32 8388608 (-23) eq_refl)]). rewrite track_finish, M.
  match goal with |- (if ?b then _ else _) = _ => assert (Q : b = true) by (vm_cast_no_check (eq_refl true)); rewrite Q; clear Q end. reflexivity.
Qed.
Print Assumptions C90_best_lost_refuted.

(** ** Examples in single precision *)
Lemma values32 : B2R quarter = / 4 /\ B2R half = / 2 /\ B2R threehalves = 3 / 2 /\ B2R two32 = 2.
Proof.
  change (B2R half) with (IZR 8388608 * bpow radix2 (-24)). change (B2R quarter) with (IZR 8388608 * bpow radix2 (-25)). change (B2R threehalves) with (IZR 12582912 * bpow radix2 (-23)). change (B2R two32) with (IZR 8388608 * bpow radix2 (-22)).
  replace (bpow radix2 (-24)) with (/ 16777216) by (cbn; lra). replace (bpow radix2 (-25)) with (/ 33554432) by (cbn; lra). replace (bpow radix2 (-23)) with (/ 8388608) by (cbn; lra). replace (bpow radix2 (-22)) with (/ 4194304) by (cbn; lra). repeat split; lra.
Qed.

Example C90_running_average_example :
  let r := fold_left (move_window 24 128 3) [threehalves; half; quarter] (empty_running 24 128) in
  r_history _ _ r = [half; quarter] /\ Rabs (B2R (r_avg _ _ r) - 3 / 8) <= 96 * bpow radix2 (-24).
Proof.
  intros r. destruct values32 as [V1 [V2 [V3 _]]].
  destruct (C90_running_average 24 128 prec32 emax32 1 3 [threehalves; half; quarter]) as [H [_ E]]; [lia|lia|lia|cbn; lra| |unfold unit_roundoff; cbn; lra|].
  - intros x [<-|[<-|[<-|[]]]]; (split; [reflexivity|]); rewrite ?V1, ?V2, ?V3, Rabs_pos_eq by lra; cbn; lra.
  - fold r in H, E. cbn [length skipn Nat.sub] in H. split; [exact H|]. rewrite H in E. cbn [map] in E. rewrite V1, V2 in E. unfold real_mean in E. cbn [fold_right length] in E.
    replace ((/ 2 + (/ 4 + 0)) / INR 2) with (3 / 8) in E by (cbn; lra). eapply Rle_trans; [exact E|]. unfold unit_roundoff. change (bpow radix2 1) with 2. cbn [Z.opp]. replace (INR 3) with 3 by (cbn; lra). lra.
Qed.

(** Three epochs with energies 3/2, 1/2, 2 and variances 1/2; windows of two epochs: the second epoch is the best. *)
Example C90_best_example every :
  finish 24 128 (track_all 24 128 3 2 (Some (of_nat 24 128)) every (start_tracking 24 128) 0 [(0%nat, threehalves, half); (1%nat, half, half); (2%nat, two32, half)]) = Some 1%nat.
Proof.
  destruct values32 as [V1 [V2 [V3 V4]]]. set (l := [(0%nat, threehalves, half); (1%nat, half, half); (2%nat, two32, half)]).
  assert (LE : forall n, (0 < n <= 4)%nat -> is_finite (of_nat 24 128 n) = true /\ 1 <= B2R (of_nat 24 128 n)).
  { intros n Hn. destruct (of_nat_R 24 128 n) as [F V]; [apply Rle_trans with (INR 4); [apply le_INR; lia|cbn; lra]|]. split; [exact F|]. rewrite V. change 1 with (INR 1). apply le_INR. lia. }
  destruct (C90_best 24 128 prec32 emax32 nat 1 3 2 (of_nat 24 128) every l) as (i & a & e & v & N & F & C); [lia|lia|lia|cbn; lra|lia|exact LE|discriminate|unfold unit_roundoff; cbn; lra| |].
  - intros a e v Hz. assert (U : 16 * INR (length l) * unit_roundoff 24 * bpow radix2 (2 * 1) <= / 4) by (unfold unit_roundoff; cbn; lra).
    destruct Hz as [Hz|[Hz|[Hz|[]]]]; injection Hz as <- <- <-; (split; [reflexivity|]); rewrite ?V2, ?V3, ?V4, Rabs_pos_eq by lra; (split; [cbn; lra|]); (split; [reflexivity|]); (split; [lra|cbn; lra]).
  - rewrite F. f_equal. specialize (C 1%nat ltac:(cbn; lia)).
    assert (D : 2 * (bpow radix2 1 * ((16 * INR (length l) + 6) * unit_roundoff 24 + sqrt ((16 * INR (length l) + 2) * unit_roundoff 24))) <= / 20).
    { assert (S : sqrt ((16 * INR (length l) + 2) * unit_roundoff 24) <= / 100).
      { rewrite <- (sqrt_Rsqr (/ 100)) by lra. apply sqrt_le_1_alt. unfold Rsqr, unit_roundoff. cbn. lra. }
      assert (S2 : (16 * INR (length l) + 6) * unit_roundoff 24 <= / 10000) by (unfold unit_roundoff; cbn; lra). change (bpow radix2 1) with 2. lra. }
    assert (OF : forall n, (n <= 4)%nat -> B2R (of_nat 24 128 n) = INR n) by (intros n Hn; apply of_nat_R; apply Rle_trans with (INR 4); [apply le_INR; exact Hn|cbn; lra]).
    destruct i as [|[|[|i]]]; cbn [nth_error l] in N; [|injection N as <- _ _; reflexivity| |destruct i; discriminate]; exfalso; revert C D; unfold exact_metric, window; cbn [firstn length skipn Nat.sub map l fst snd Nat.mul Nat.add Nat.min]; rewrite !OF by lia; rewrite ?V2, ?V3, ?V4; unfold real_mean; cbn [fold_right length].
    + assert (Q : sqrt ((/ 2 + (/ 2 + 0)) / INR 2 / INR 4) <= sqrt ((/ 2 + 0) / INR 1 / INR 2)) by (apply sqrt_le_1_alt; cbn; lra). intros C D.
      replace ((3 / 2 + 0) / INR 1) with (3 / 2) in C by (cbn; lra). replace ((3 / 2 + (/ 2 + 0)) / INR 2) with 1 in C by (cbn; lra). lra.
    + intros C D. replace ((/ 2 + (2 + 0)) / INR 2) with (5 / 4) in C by (cbn; lra). replace ((3 / 2 + (/ 2 + 0)) / INR 2) with 1 in C by (cbn; lra). lra.
Qed.

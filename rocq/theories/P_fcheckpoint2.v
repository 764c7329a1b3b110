(** P_fcheckpoint2: whole histories, the metric, and the choice of the best checkpoint. *)
From Coq Require Import ZArith Reals.
From Flocq Require Import Core IEEE754.BinarySingleNaN Relative Mult_error Plus_error.
From Coq Require Import Lia Lra List Permutation Bool Arith.
Import ListNotations.
From Verif Require Import M_float S_float P_float P_float2 M_fwalk S_fwalk P_fwalk P_fwalk2 M_fenergy S_fenergy P_fenergy P_fenergy2 P_fenergy3 M_fcheckpoint S_fcheckpoint P_fcheckpoint.
Open Scope R_scope.

Lemma In_skipn' {T} (x : T) n l : In x (skipn n l) -> In x l.
Proof. intros H. rewrite <- (firstn_skipn n l). apply in_or_app. right. exact H. Qed.
Lemma skipn_skipn' {T} i j (l : list T) : skipn i (skipn j l) = skipn (i + j) l.
Proof. revert l. induction j as [|j IH]; intros l; [rewrite Nat.add_0_r; reflexivity|]. rewrite Nat.add_succ_r. destruct l as [|x l]; [rewrite !skipn_nil; reflexivity|]. cbn [skipn]. apply IH. Qed.

Section Histories.
Variables prec emax : Z.
Context {Hp : Prec_gt_0 prec}.
Context {He : Prec_lt_emax prec emax}.
Notation fl := (binary_float prec emax).
Notation ex := (SpecFloat.fexp prec emax).
Notation rnd := (round radix2 ex ZnearestE).
Notation u := (unit_roundoff prec).
Notation fadd := (fadd prec emax). Notation fsub := (fsub prec emax). Notation fmul := (fmul prec emax).
Notation fdiv := (fdiv prec emax). Notation of_nat := (of_nat prec emax).
Notation rm := (rm prec emax).

Definition averages (nmax : nat) (l : list fl) : running prec emax := fold_left (move_window prec emax nmax) l (empty_running prec emax).

Lemma averages_snoc nmax l x : averages nmax (l ++ [x]) = move_window prec emax nmax (averages nmax l) x.
Proof. unfold averages. rewrite fold_left_app. reflexivity. Qed.

Lemma averages_history nmax l : (1 <= nmax)%nat -> r_history _ _ (averages nmax l) = skipn (length l - (nmax - 1)) l /\ (length (r_history _ _ (averages nmax l)) < nmax)%nat.
Proof.
  intros N. induction l as [|x l IH] using rev_ind; [split; [reflexivity|cbn; lia]|]. destruct IH as [I1 I2]. rewrite averages_snoc.
  destruct (step_history prec emax nmax (averages nmax l) x N I2) as [S1 S2]. split; [|exact S2]. rewrite S1, I1, app_length. cbn [length]. set (n := (nmax - 1)%nat).
  destruct (le_lt_dec n (length l)) as [Q|Q].
  - rewrite skipn_length. replace (length l - (length l - n) + 1 - n)%nat with 1%nat by lia.
    replace (skipn (length l - n) l ++ [x]) with (skipn (length l - n) (l ++ [x])) by (rewrite skipn_app; f_equal; replace (length l - n - length l)%nat with O by lia; reflexivity).
    rewrite skipn_skipn'. f_equal. lia.
  - replace (length l - n)%nat with O by lia. cbn [skipn]. reflexivity.
Qed.

Lemma averages_accuracy k nmax l : (0 <= k)%Z -> (k + 1 + prec < emax)%Z -> (2 <= nmax)%nat -> INR (nmax + 1) <= bpow radix2 prec ->
  (forall x, In x l -> is_finite x = true /\ Rabs (B2R x) <= bpow radix2 k) -> 16 * INR (length l) * u <= 1 ->
  let r := averages nmax l in
  is_finite (r_avg _ _ r) = true /\ Rabs (B2R (r_avg _ _ r) - rm (r_history _ _ r)) <= 16 * INR (length l) * u * bpow radix2 k /\ Rabs (B2R (r_avg _ _ r)) <= bpow radix2 (k + 1).
Proof.
  intros K0 K1 N2 NP. pose proof (bpow_gt_0 radix2 k) as PB. pose proof (u_pos prec) as U. induction l as [|x l IH] using rev_ind; intros H L r.
  - split; [reflexivity|]. cbn. unfold P_fcheckpoint.rm, real_mean. cbn. unfold Rdiv. rewrite Rmult_0_l, Rminus_0_r, Rabs_R0, Rmult_0_r, !Rmult_0_l. split; [lra|apply bpow_ge_0].
  - rewrite app_length, plus_INR in L |- *. cbn [length INR] in L |- *.
    assert (L' : 16 * INR (length l) * u <= 1) by nra.
    destruct IH as [F [E _]]; [intros y Hy; apply H, in_or_app; left; exact Hy|exact L'|].
    subst r. rewrite averages_snoc. destruct (averages_history nmax l) as [HH HL]; [lia|].
    destruct (step_accuracy prec emax k K0 K1 nmax (averages nmax l) x (16 * INR (length l) * u * bpow radix2 k) N2 NP) as [F' [E' B']]; try assumption.
    + intros y Hy. rewrite HH in Hy. apply H, in_or_app. left. eapply In_skipn'; exact Hy.
    + apply H, in_or_app. right. left. reflexivity.
    + replace (16 * INR (length l) * u * bpow radix2 k + 16 * u * bpow radix2 k) with ((16 * (INR (length l) + 1) * u) * bpow radix2 k) by ring. rewrite <- (Rmult_1_l (bpow radix2 k)) at 2. apply Rmult_le_compat_r; lra.
    + split; [exact F'|]. split; [|exact B']. eapply Rle_trans; [exact E'|]. right. ring.
Qed.

(** ** The choice of the best checkpoint *)
Section Tracking.
Context {A : Type}.
Variables (nmax nchains : nat) (effective : option (nat -> fl)) (every : nat).
Notation tracker := (tracker prec emax (A := A)).
Notation track_all := (track_all prec emax nmax nchains effective every (A := A)).
Notation track := (track prec emax nmax nchains effective every (A := A)).
Notation start := (start_tracking prec emax (A := A)).
Definition payload (z : A * fl * fl) : A := fst (fst z).
Definition energy_of (z : A * fl * fl) : fl := snd (fst z).
Definition variance_of (z : A * fl * fl) : fl := snd z.

Lemma track_all_app l1 : forall (t : tracker) ep l2, track_all t ep (l1 ++ l2) = track_all (track_all t ep l1) (ep + length l1) l2.
Proof.
  induction l1 as [|[[a e] v] l1 IH]; intros t ep l2; cbn [app M_fcheckpoint.track_all length]; [rewrite Nat.add_0_r; reflexivity|]. rewrite IH. f_equal. lia.
Qed.
Lemma track_snoc (t : tracker) l z : track_all t 0 (l ++ [z]) = track (track_all t 0 l) (length l) (payload z) (energy_of z) (variance_of z).
Proof. rewrite track_all_app. destruct z as [[a e] v]. reflexivity. Qed.
Lemma tracked_averages l : t_energy _ _ (track_all start 0 l) = averages nmax (map energy_of l) /\ t_variance _ _ (track_all start 0 l) = averages nmax (map variance_of l).
Proof.
  induction l as [|z l [I1 I2]] using rev_ind; [split; reflexivity|]. rewrite track_snoc, !map_app. cbn [map]. rewrite !averages_snoc, <- I1, <- I2. split; reflexivity.
Qed.

(** The metric after the epochs of [l]. *)
Definition metric (l : list (A * fl * fl)) : fl :=
  checkpoint_metric prec emax effective (r_avg _ _ (averages nmax (map energy_of l))) (r_avg _ _ (averages nmax (map variance_of l)))
    (nchains * length (r_history _ _ (averages nmax (map energy_of l)))).

Lemma track_metric l z : t_metric _ _ (track_all start 0 (l ++ [z])) = fmin prec emax (metric (l ++ [z])) (t_metric _ _ (track_all start 0 l)).
Proof.
  rewrite track_snoc. destruct (tracked_averages l) as [I1 I2]. unfold metric. rewrite !map_app. cbn [map]. rewrite !averages_snoc, <- I1, <- I2. reflexivity.
Qed.
Lemma track_finish l z : finish prec emax (track_all start 0 (l ++ [z])) =
  if Bltb (metric (l ++ [z])) (t_metric _ _ (track_all start 0 l)) then Some (payload z) else finish prec emax (track_all start 0 l).
Proof.
  rewrite track_snoc. destruct (tracked_averages l) as [I1 I2]. unfold metric. rewrite !map_app. cbn [map]. rewrite !averages_snoc, <- I1, <- I2. unfold M_fcheckpoint.track, finish. cbn [t_best t_file].
  set (t := track_all start 0 l). destruct (Bltb _ _); destruct (Nat.eqb _ 0); cbn [t_best t_file]; try reflexivity; destruct (t_best _ _ t); reflexivity.
Qed.

Lemma best_spec l : l <> [] -> (forall j, (j < length l)%nat -> is_finite (metric (firstn (S j) l)) = true) ->
  exists i z, nth_error l i = Some z /\ finish prec emax (track_all start 0 l) = Some (payload z) /\
    is_finite (t_metric _ _ (track_all start 0 l)) = true /\ B2R (t_metric _ _ (track_all start 0 l)) = B2R (metric (firstn (S i) l)) /\
    forall j, (j < length l)%nat -> B2R (metric (firstn (S i) l)) <= B2R (metric (firstn (S j) l)) /\ ((j < i)%nat -> B2R (metric (firstn (S i) l)) < B2R (metric (firstn (S j) l))).
Proof.
  induction l as [|z l IH] using rev_ind; [congruence|]. intros _ H.
  assert (FI : forall j, (j < length l)%nat -> firstn (S j) (l ++ [z]) = firstn (S j) l).
  { intros j Hj. rewrite firstn_app. replace (S j - length l)%nat with O by lia. cbn [firstn]. apply app_nil_r. }
  assert (FL : firstn (S (length l)) (l ++ [z]) = l ++ [z]) by (apply firstn_all2; rewrite app_length; cbn; lia).
  pose proof (H (length l) ltac:(rewrite app_length; cbn; lia)) as Fm. rewrite FL in Fm. rewrite track_metric, track_finish. set (m := metric (l ++ [z])) in *.
  assert (NZ : nth_error (l ++ [z]) (length l) = Some z) by (rewrite nth_error_app2, Nat.sub_diag by lia; reflexivity).
  destruct (Nat.eq_dec (length l) 0) as [Z|Z].
  - assert (l = []) by (destruct l; [reflexivity|discriminate]). subst l. exists O, z. cbn [app length] in *. change (t_metric _ _ (track_all start 0 [])) with (@B754_infinity prec emax false).
    split; [reflexivity|]. rewrite FL. replace (Bltb m (B754_infinity false)) with true by (destruct m as [s|s| |s q e Q]; try discriminate; reflexivity). split; [reflexivity|].
    replace (fmin prec emax m (B754_infinity false)) with m by (unfold fmin; destruct m as [s|s| |s q e Q]; try discriminate; reflexivity). split; [exact Fm|]. split; [reflexivity|].
    intros j Hj. replace j with O by lia. rewrite FL. split; [right; reflexivity|lia].
  - destruct IH as (i & y & N & Fin & Ft & Vt & C); [destruct l; [elim Z; reflexivity|discriminate]|intros j Hj; rewrite <- FI by exact Hj; apply H; rewrite app_length; lia|].
    set (t := track_all start 0 l) in *. assert (Hi : (i < length l)%nat) by (apply nth_error_Some; congruence).
    rewrite (Bltb_correct _ _ m _ Fm Ft). case Rlt_bool_spec; intros Q.
    + exists (length l), z. split; [exact NZ|]. split; [reflexivity|]. rewrite FL. fold m.
      assert (E : fmin prec emax m (t_metric _ _ t) = m). { unfold fmin. rewrite (finite_not_nan prec emax m Fm), (finite_not_nan prec emax _ Ft), (Bleb_correct _ _ m _ Fm Ft), Rle_bool_true by lra. reflexivity. }
      rewrite E. split; [exact Fm|]. split; [reflexivity|]. intros j Hj. rewrite app_length in Hj. cbn in Hj. destruct (Nat.eq_dec j (length l)) as [->|D]; [rewrite FL; fold m; split; [right; reflexivity|lia]|].
      rewrite FI by lia. destruct (C j ltac:(lia)) as [C1 _]. split; [lra|intros _; lra].
    + exists i, y. split; [rewrite nth_error_app1 by exact Hi; exact N|]. split; [exact Fin|]. rewrite FI by exact Hi.
      assert (E : is_finite (fmin prec emax m (t_metric _ _ t)) = true /\ B2R (fmin prec emax m (t_metric _ _ t)) = B2R (t_metric _ _ t)).
      { unfold fmin. rewrite (finite_not_nan prec emax m Fm), (finite_not_nan prec emax _ Ft), (Bleb_correct _ _ m _ Fm Ft). case Rle_bool_spec; intros Q'; [split; [exact Fm|lra]|split; [exact Ft|reflexivity]]. }
      destruct E as [E1 E2]. split; [exact E1|]. split; [rewrite E2; exact Vt|]. intros j Hj. rewrite app_length in Hj. cbn in Hj.
      destruct (Nat.eq_dec j (length l)) as [->|D]; [rewrite FL; fold m; split; [lra|lia]|]. rewrite FI by lia. apply C. lia.
Qed.

Lemma nan_sticks l : forall (t : tracker) ep, t_metric _ _ t = B754_nan -> t_metric _ _ (track_all t ep l) = B754_nan /\ finish prec emax (track_all t ep l) = finish prec emax t.
Proof.
  induction l as [|[[a e] v] l IH]; intros t ep N; [auto|]. cbn [M_fcheckpoint.track_all]. destruct (IH (track t ep a e v) (S ep)) as [I1 I2].
  - unfold M_fcheckpoint.track. cbn [t_metric]. rewrite N. unfold fmin. destruct (is_nan _) eqn:E; [|reflexivity]. match goal with |- ?x = _ => destruct x; try discriminate; reflexivity end.
  - split; [exact I1|]. rewrite I2. unfold M_fcheckpoint.track, finish. cbn [t_best t_file]. rewrite N.
    match goal with |- context [Bltb ?x B754_nan] => replace (Bltb x B754_nan) with false by (destruct x; reflexivity) end.
    destruct (Nat.eqb _ 0); cbn [t_best t_file]; [|reflexivity]. destruct (t_best _ _ t); reflexivity.
Qed.
End Tracking.
End Histories.

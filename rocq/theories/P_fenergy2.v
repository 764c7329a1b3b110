(** P_fenergy2: the variance, signs, special values and clipping. *)
From Coq Require Import ZArith Reals.
From Flocq Require Import Core IEEE754.BinarySingleNaN Relative Mult_error Plus_error.
From Coq Require Import Lia Lra List Permutation Bool Arith.
Import ListNotations.
From Verif Require Import M_float S_float P_float P_float2 M_fwalk S_fwalk P_fwalk P_fwalk2 M_fenergy S_fenergy P_fenergy.
Open Scope R_scope.

Section Variance.
Variables prec emax : Z.
Context {Hp : Prec_gt_0 prec}.
Context {He : Prec_lt_emax prec emax}.
Notation fl := (binary_float prec emax).
Notation emin := (SpecFloat.emin prec emax).
Notation ex := (SpecFloat.fexp prec emax).
Notation rnd := (round radix2 ex ZnearestE).
Notation u := (unit_roundoff prec).
Notation fzero := (fzero prec emax).
Notation fadd := (fadd prec emax). Notation fsub := (fsub prec emax). Notation fmul := (fmul prec emax). Notation fdiv := (fdiv prec emax).
Notation of_nat := (of_nat prec emax).
Notation average := (average prec emax). Notation numbers := (numbers prec emax).

Lemma normal_le j : (0 <= j)%Z -> bpow radix2 (emin + prec - 1) <= bpow radix2 j.
Proof. intros J. apply bpow_le. pose proof (emax_2 prec emax). unfold SpecFloat.emin. lia. Qed.
Lemma fmt_j j : (0 <= j)%Z -> generic_format radix2 ex (bpow radix2 j).
Proof. intros J. apply (fmt_bpow prec emax). pose proof (emin_neg prec emax). lia. Qed.

Lemma sub_scaled j (x y : fl) : (0 <= j)%Z -> (j < emax)%Z -> is_finite x = true -> is_finite y = true -> Rabs (B2R x - B2R y) <= bpow radix2 j ->
  is_finite (fsub x y) = true /\ B2R (fsub x y) = rnd (B2R x - B2R y) /\ Rabs (B2R (fsub x y)) <= bpow radix2 j.
Proof.
  intros J0 J1 Fx Fy H. pose proof (Bminus_correct prec emax Hp He mode_NE x y Fx Fy) as C. cbn [round_mode] in C.
  pose proof (rnd_abs_le prec emax _ _ (fmt_j j J0) H) as RB. rewrite Rlt_bool_true in C.
  - destruct C as [C1 [C2 _]]. unfold M_float.fsub. rewrite C1, C2. auto.
  - eapply Rle_lt_trans; [exact RB|]. apply bpow_lt. exact J1.
Qed.
Lemma mul_scaled M (x y : fl) : generic_format radix2 ex M -> M < bpow radix2 emax -> is_finite x = true -> is_finite y = true -> Rabs (B2R x * B2R y) <= M ->
  is_finite (fmul x y) = true /\ B2R (fmul x y) = rnd (B2R x * B2R y) /\ Rabs (B2R (fmul x y)) <= M.
Proof.
  intros J0 J1 Fx Fy H. pose proof (Bmult_correct prec emax Hp He mode_NE x y) as C. cbn [round_mode] in C.
  pose proof (rnd_abs_le prec emax _ _ J0 H) as RB. rewrite Rlt_bool_true in C.
  - destruct C as [C1 [C2 _]]. unfold M_float.fmul. rewrite C1, C2, Fx, Fy. auto.
  - eapply Rle_lt_trans; [exact RB|exact J1].
Qed.
Lemma rnd_nonneg x : 0 <= x -> 0 <= rnd x.
Proof. intros H. rewrite <- (rnd_0 prec emax). apply round_le; auto with typeclass_instances. apply (fexp_correct prec emax Hp). Qed.

Variable k : Z.
Hypothesis K0 : (0 <= k)%Z.
Hypothesis K1 : (2 * k + 3 + prec < emax)%Z.
Notation B := (bpow radix2 k). Notation B2 := (bpow radix2 (2 * k + 2)).

Lemma B2_sq : B2 = (2 * B) * (2 * B).
Proof. replace (2 * k + 2)%Z with (k + k + 1 + 1)%Z by lia. rewrite !bpow_plus. change (bpow radix2 1) with 2. ring. Qed.

(** A squared deviation. *)
Lemma deviation (e E : fl) : is_finite e = true -> is_finite E = true -> Rabs (B2R e) <= B -> Rabs (B2R E) <= B ->
  let s := fmul (fsub e E) (fsub e E) in
  is_finite s = true /\ 0 <= B2R s /\ Rabs (B2R s) <= B2 /\ Rabs (B2R s - (B2R e - B2R E) ^ 2) <= 3 * u * B2.
Proof.
  intros Fe FE Be BE s. pose proof (B_pos k) as PB. pose proof (u_pos prec) as U.
  assert (E1 : bpow radix2 (k + 1) = 2 * B) by (rewrite bpow_plus; change (bpow radix2 1) with 2; ring).
  apply Rabs_le_inv in Be. apply Rabs_le_inv in BE.
  assert (D : Rabs (B2R e - B2R E) <= bpow radix2 (k + 1)) by (rewrite E1; apply Rabs_le; lra).
  pose proof (prec1 prec) as P1. destruct (sub_scaled (k + 1) e E ltac:(lia) ltac:(lia) Fe FE D) as [Fd [Vd Bd]].
  assert (Ed : Rabs (B2R (fsub e E) - (B2R e - B2R E)) <= u * Rabs (B2R e - B2R E)).
  { rewrite Vd. replace (B2R e - B2R E) with (B2R e + B2R (Bopp E)) by (rewrite B2R_Bopp; ring). apply (rnd_plus_err prec emax); apply (fmt_B2R prec emax). }
  set (d := fsub e E) in *. set (x := B2R e - B2R E) in *. rewrite E1 in *.
  assert (SQ : Rabs (B2R d * B2R d) <= B2). { rewrite B2_sq, Rabs_mult. apply Rmult_le_compat; try apply Rabs_pos; exact Bd. }
  destruct (mul_scaled B2 d d (fmt_j (2 * k + 2) ltac:(lia)) ltac:(apply bpow_lt; lia) Fd Fd SQ) as [Fs [Vs Bs]]. fold s in Fs, Vs, Bs.
  split; [exact Fs|]. split; [rewrite Vs; apply rnd_nonneg, Rle_0_sqr|]. split; [exact Bs|].
  pose proof (rnd_err prec emax _ B2 (normal_le (2 * k + 2) ltac:(lia)) SQ) as E2. rewrite <- Vs in E2.
  assert (E3 : Rabs (B2R d * B2R d - x ^ 2) <= 2 * u * B2).
  { replace (B2R d * B2R d - x ^ 2) with ((B2R d - x) * (B2R d + x)) by ring. rewrite Rabs_mult.
    assert (T : Rabs (B2R d + x) <= 4 * B) by (eapply Rle_trans; [apply Rabs_triang|lra]).
    apply Rle_trans with ((u * (2 * B)) * (4 * B)); [|rewrite B2_sq; lra]. apply Rmult_le_compat; try apply Rabs_pos; [|exact T]. eapply Rle_trans; [exact Ed|]. apply Rmult_le_compat_l; lra. }
  replace (B2R s - x ^ 2) with ((B2R s - B2R d * B2R d) + (B2R d * B2R d - x ^ 2)) by ring. eapply Rle_trans; [apply Rabs_triang|]. lra.
Qed.

Variable fs : list fl -> fl.
Hypothesis SUM : forall l, is_sum prec emax l (fs l).

Lemma numbers_map (f : fl -> fl) l : (forall e, In e l -> is_nan (f e) = is_nan e) -> numbers (map f l) = map f (numbers l).
Proof. intros H. unfold S_fenergy.numbers. induction l as [|x l IH]; [reflexivity|]. cbn [map filter]. rewrite (H x (or_introl eq_refl)), IH by (intros; apply H; right; assumption). destruct (is_nan x); reflexivity. Qed.
Lemma average_map h (f : fl -> fl) ls : (forall l e, In l ls -> In e l -> is_nan (f e) = is_nan e) -> average h (map (map f) ls) = average (fun e => h (f e)) ls.
Proof.
  intros H. unfold S_fenergy.average. rewrite map_map. f_equal. apply map_ext_in. intros l Hl. rewrite numbers_map by (intros; eapply H; eassumption). rewrite map_map. reflexivity.
Qed.
Lemma finite_not_nan (x : fl) : is_finite x = true -> is_nan x = false. Proof. destruct x; try discriminate; reflexivity. Qed.

Definition variance_error (n d : R) : R := u * ((2 * (n + d) + 14) * B2) + 2 * (u * ((n + d + 2) * B)) ^ 2.

Lemma statistics_spec nan_safe n nchains ls : energies_in_range prec emax k n nan_safe ls -> (2 <= nchains)%nat -> INR nchains <= bpow radix2 prec ->
  let st := statistics prec emax fs nchains nan_safe ls in
  is_finite (fst st) = true /\ Rabs (B2R (fst st)) <= B /\ Rabs (B2R (fst st) - exact_energy prec emax ls) <= u * ((INR n + INR (length ls) + 2) * B) /\
  is_finite (snd st) = true /\ 0 <= B2R (snd st) /\ Rabs (B2R (snd st) - exact_variance prec emax nchains ls) <= variance_error (INR n) (INR (length ls)).
Proof.
  intros IR N2 NP st. pose proof (B_pos k) as PB. pose proof (u_pos prec) as U. pose proof (prec1 prec) as P1.
  destruct (allreduce_spec prec emax k K0 ltac:(lia) fs SUM nan_safe n ls IR) as [FE [BE [EE _]]].
  assert (NE : ls <> []) by apply IR. assert (NN : forall l, In l ls -> numbers l <> []) by (intros l Hl; apply IR; exact Hl).
  change (fst st) with (allreduce_mean prec emax fs nan_safe ls). set (E := allreduce_mean prec emax fs nan_safe ls) in *.
  split; [exact FE|]. split; [exact BE|]. split; [exact EE|].
  set (sq := fun e => fmul (fsub e E) (fsub e E)).
  assert (SQ : map (map (fun d => fmul d d)) (centered prec emax E ls) = map (map sq) ls).
  { unfold centered. rewrite map_map. apply map_ext. intros l. rewrite map_map. reflexivity. }
  assert (NAN : forall l e, In l ls -> In e l -> is_nan (sq e) = is_nan e).
  { intros l e Hl He'. destruct IR as (_ & _ & _ & H). destruct (H l Hl) as (_ & _ & G). destruct (G e He') as [[Fe Be]|[_ ->]].
    - rewrite (finite_not_nan _ Fe). apply finite_not_nan. apply (deviation e E Fe FE Be BE).
    - unfold sq. rewrite (sub_nan_l prec emax). reflexivity. }
  assert (IR2 : energies_in_range prec emax (2 * k + 2) n nan_safe (map (map sq) ls)).
  { destruct IR as (A1 & A2 & A3 & H). split; [destruct ls; [congruence|discriminate]|]. rewrite map_length. split; [exact A2|]. split; [exact A3|].
    intros l2 Hl2. apply in_map_iff in Hl2. destruct Hl2 as (l & <- & Hl). destruct (H l Hl) as (G1 & G2 & G3). rewrite numbers_map by (intros; eapply NAN; eassumption).
    split; [destruct (numbers l); [congruence|discriminate]|]. rewrite map_length. split; [exact G2|]. intros e2 He2. apply in_map_iff in He2. destruct He2 as (e & <- & He2).
    destruct (G3 e He2) as [[Fe Be]|[-> ->]].
    - left. destruct (deviation e E Fe FE Be BE) as [Q1 [_ [Q3 _]]]. split; assumption.
    - right. split; [reflexivity|]. unfold sq. rewrite (sub_nan_l prec emax). reflexivity. }
  destruct (allreduce_spec prec emax (2 * k + 2) ltac:(lia) ltac:(lia) fs SUM nan_safe n _ IR2) as [FV [BV [EV NV]]].
  set (V := allreduce_mean prec emax fs nan_safe (map (map sq) ls)) in *. rewrite map_length in EV.
  assert (GOOD : forall l e, In l ls -> In e (numbers l) -> is_finite e = true /\ Rabs (B2R e) <= B).
  { intros l e Hl He'. destruct IR as (_ & _ & _ & H). destruct (H l Hl) as (_ & _ & G). apply filter_In in He'. destruct He' as [He' Nn]. destruct (G e He') as [Q|[_ ->]]; [exact Q|discriminate]. }
  assert (V0 : 0 <= B2R V).
  { apply NV. intros l2 x Hl2 Hx. apply in_map_iff in Hl2. destruct Hl2 as (l & <- & Hl). rewrite numbers_map in Hx by (intros; eapply NAN; eassumption). apply in_map_iff in Hx. destruct Hx as (e & <- & Hx).
    destruct (GOOD l e Hl Hx) as [Fe Be]. apply (deviation e E Fe FE Be BE). }
  rewrite average_map in EV by exact NAN.
  assert (E2 : Rabs (average (fun e => B2R (sq e)) ls - average (fun e => (B2R e - B2R E) ^ 2) ls) <= 3 * u * B2).
  { apply average_diff; [exact NE|exact NN|]. intros l e Hl Hx. destruct (GOOD l e Hl Hx) as [Fe Be]. apply (deviation e E Fe FE Be BE). }
  rewrite (average_spread prec emax (B2R E) ls NE NN) in E2. set (pv := average (fun e => (B2R e - exact_energy prec emax ls) ^ 2) ls) in *.
  set (A := exact_energy prec emax ls) in *. change (average (fun e => B2R e) ls) with A in EE. set (n0 := INR n) in *. set (d0 := INR (length ls)) in *.
  assert (E3 : Rabs ((A - B2R E) ^ 2) <= (u * ((n0 + d0 + 2) * B)) ^ 2).
  { rewrite Rabs_pos_eq by apply pow2_ge_0. rewrite <- (pow2_abs (A - B2R E)). apply pow_incr. split; [apply Rabs_pos|]. rewrite Rabs_minus_sym. exact EE. }
  assert (E4 : Rabs (B2R V - pv) <= u * ((n0 + d0 + 5) * B2) + (u * ((n0 + d0 + 2) * B)) ^ 2).
  { set (a2 := average (fun e => B2R (sq e)) ls) in *. replace (B2R V - pv) with ((B2R V - a2) + ((a2 - (pv + (A - B2R E) ^ 2)) + (A - B2R E) ^ 2)) by ring.
    eapply Rle_trans; [apply Rabs_triang|]. pose proof (Rabs_triang (a2 - (pv + (A - B2R E) ^ 2)) ((A - B2R E) ^ 2)) as T. lra. }
  (* the factor N / (N - 1) *)
  change (snd st) with (fdiv (fmul (allreduce_mean prec emax fs nan_safe (map (map (fun d => fmul d d)) (centered prec emax E ls))) (of_nat nchains)) (of_nat (nchains - 1))). rewrite SQ. fold V.
  destruct (of_nat_R prec emax nchains NP) as [FN VN].
  assert (PB2 : 0 < B2) by apply bpow_gt_0.
  assert (BVN : Rabs (B2R V * B2R (of_nat nchains)) <= INR nchains * B2). { rewrite VN, Rabs_mult, (Rabs_pos_eq (INR nchains)) by apply pos_INR. pose proof (pos_INR nchains). rewrite Rmult_comm. apply Rmult_le_compat_l; lra. }
  destruct (mul_scaled (INR nchains * B2) V (of_nat nchains) (fmt_intB prec emax (2 * k + 2) ltac:(lia) nchains NP) (intB_range prec emax (2 * k + 2) ltac:(lia) nchains NP) FV FN BVN) as [FW [VW BW]].
  assert (N1 : 2 <= INR nchains) by (change 2 with (INR 2); apply le_INR; exact N2).
  pose proof (rnd_err prec emax _ (INR nchains * B2) ltac:(eapply Rle_trans; [apply (normal_le (2 * k + 2)); lia|nra]) BVN) as EW. rewrite <- VW, VN in EW.
  set (W := fmul V (of_nat nchains)) in *. set (m := (nchains - 1)%nat) in *. assert (Hm : INR m = INR nchains - 1) by (unfold m; rewrite minus_INR by lia; reflexivity).
  assert (E5 : bpow radix2 (2 * k + 3) = 2 * B2) by (replace (2 * k + 3)%Z with (2 * k + 2 + 1)%Z by lia; rewrite (bpow_plus _ (2 * k + 2)); change (bpow radix2 1) with 2; ring).
  destruct (quotient_scaled prec emax (2 * k + 3) ltac:(lia) ltac:(lia) W m FW ltac:(unfold m; lia) (Rle_trans _ _ _ (le_INR m nchains ltac:(unfold m; lia)) NP)) as [F5 [_ [E6 N6]]].
  { rewrite E5, Hm. nra. }
  split; [exact F5|]. split; [apply N6; rewrite VW; apply rnd_nonneg; rewrite VN; apply Rmult_le_pos; [exact V0|lra]|].
  change (exact_variance prec emax nchains ls) with (pv * (INR nchains / INR m)). rewrite E5 in E6. set (Q := fdiv W (of_nat m)) in *.
  assert (E7 : Rabs (B2R W / INR m - pv * (INR nchains / INR m)) <= 2 * (u * B2) + 2 * (u * ((n0 + d0 + 5) * B2) + (u * ((n0 + d0 + 2) * B)) ^ 2)).
  { assert (Pm : 1 <= INR m) by lra. replace (B2R W / INR m - pv * (INR nchains / INR m)) with (((B2R W - B2R V * INR nchains) + (B2R V - pv) * INR nchains) / INR m) by (field; lra).
    unfold Rdiv. rewrite Rabs_mult, (Rabs_pos_eq (/ INR m)) by (left; apply Rinv_0_lt_compat; lra). apply (Rmult_le_reg_r (INR m)); [lra|]. rewrite Rmult_assoc, Rinv_l, Rmult_1_r by lra.
    eapply Rle_trans; [apply Rabs_triang|]. rewrite Rabs_mult, (Rabs_pos_eq (INR nchains)) by lra.
    set (X := u * ((n0 + d0 + 5) * B2) + (u * ((n0 + d0 + 2) * B)) ^ 2) in *.
    assert (Rabs (B2R V - pv) * INR nchains <= X * INR nchains) by (apply Rmult_le_compat_r; lra). assert (0 <= X) by (eapply Rle_trans; [apply Rabs_pos|exact E4]).
    assert (INR nchains <= 2 * INR m) by lra. assert (X * INR nchains <= X * (2 * INR m)) by (apply Rmult_le_compat_l; lra).
    assert (0 <= u * B2) by (apply Rmult_le_pos; lra). assert (u * B2 * INR nchains <= u * B2 * (2 * INR m)) by (apply Rmult_le_compat_l; lra). lra. }
  replace (B2R Q - pv * (INR nchains / INR m)) with ((B2R Q - B2R W / INR m) + (B2R W / INR m - pv * (INR nchains / INR m))) by ring.
  eapply Rle_trans; [apply Rabs_triang|]. unfold variance_error. lra.
Qed.
End Variance.

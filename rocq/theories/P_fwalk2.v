(** P_fwalk2: plain amplitudes in floating point, and what one step does to one walker. *)
From Coq Require Import ZArith Reals.
From Flocq Require Import Core IEEE754.BinarySingleNaN Relative.
From Coq Require Import Lia Lra List Bool Arith.
Import ListNotations.
From Verif Require Import M_float S_float P_float P_float2 M_fwalk S_fwalk P_fwalk.
Open Scope R_scope.

Section Plain.
Variables prec emax : Z.
Context {Hp : Prec_gt_0 prec}.
Context {He : Prec_lt_emax prec emax}.
Notation fl := (binary_float prec emax).
Notation emin := (SpecFloat.emin prec emax).
Notation ex := (SpecFloat.fexp prec emax).
Notation rnd := (round radix2 ex ZnearestE).
Notation u := (unit_roundoff prec).

Lemma rnd_err x M : bpow radix2 (emin + prec - 1) <= M -> Rabs x <= M -> Rabs (rnd x - x) <= u * M.
Proof.
  intros HM Hx. pose proof (u_pos prec) as U. destruct (Rle_or_lt (bpow radix2 (emin + prec - 1)) (Rabs x)) as [C|C].
  - pose proof (relative_error_N_FLT radix2 emin prec Hp (fun n => negb (Z.even n)) x C) as E.
    replace (/ 2 * bpow radix2 (- prec + 1)) with u in E by (unfold unit_roundoff; rewrite bpow_plus; cbn; field).
    eapply Rle_trans; [exact E|]. apply Rmult_le_compat_l; lra.
  - pose proof (error_le_half_ulp radix2 ex (fun n => negb (Z.even n)) x) as E.
    rewrite (ulp_FLT_small radix2 emin prec) in E.
    + eapply Rle_trans; [exact E|]. apply Rle_trans with (u * bpow radix2 (emin + prec - 1)); [|apply Rmult_le_compat_l; lra].
      unfold unit_roundoff. rewrite <- bpow_plus. replace (- prec + (emin + prec - 1))%Z with (emin + (-1))%Z by lia. rewrite bpow_plus. cbn. lra.
    + eapply Rlt_le_trans; [exact C|]. apply bpow_le. lia.
Qed.

Lemma square a : is_finite a = true -> B2R a * B2R a <= bpow radix2 (emax - 1) ->
  is_finite (fmul prec emax a a) = true /\ B2R (fmul prec emax a a) = rnd (B2R a * B2R a).
Proof.
  intros F B. pose proof (Bmult_correct prec emax Hp He mode_NE a a) as C. cbn [round_mode] in C. rewrite Rlt_bool_true in C.
  - destruct C as [C1 [C2 _]]. unfold M_float.fmul. rewrite C1, C2, F. split; reflexivity.
  - apply Rle_lt_trans with (bpow radix2 (emax - 1)); [|apply bpow_lt; lia]. apply (rnd_abs_le prec emax).
    + apply (fmt_bpow prec emax). pose proof (emin_le_emax1 prec emax). lia.
    + rewrite Rabs_pos_eq; [exact B|apply Rle_0_sqr].
Qed.

Lemma plain_accuracy fe a p : is_finite a = true -> is_finite p = true ->
  bpow radix2 (emin + prec - 1) <= B2R a * B2R a <= bpow radix2 (emax - 1) -> B2R p * B2R p <= bpow radix2 (emax - 1) ->
  Rabs (B2R (acceptance prec emax fe false a p) - Rmin 1 ((B2R p * B2R p) / (B2R a * B2R a))) <= 5 * u.
Proof.
  intros Fa Fp [La Ua] Up. destruct (square a Fa Ua) as [FA VA]. destruct (square p Fp Up) as [FP VP].
  pose proof (rnd_err (B2R a * B2R a) _ La ltac:(rewrite Rabs_pos_eq; [lra|apply Rle_0_sqr])) as EA.
  set (a2 := B2R a * B2R a) in *. set (p2 := B2R p * B2R p) in *. assert (P0 : 0 <= p2) by apply Rle_0_sqr.
  assert (A0 : 0 < a2) by (eapply Rlt_le_trans; [apply bpow_gt_0|exact La]).
  pose proof (rnd_err p2 (Rmax p2 a2) ltac:(eapply Rle_trans; [exact La|apply Rmax_r]) ltac:(rewrite Rabs_pos_eq by exact P0; apply Rmax_l)) as EP.
  rewrite <- VA in EA. rewrite <- VP in EP. pose proof (u_pos prec) as U. pose proof (u_half prec) as UH.
  unfold acceptance. set (A := B2R (fmul prec emax a a)) in *. set (P := B2R (fmul prec emax p p)) in *.
  apply Rabs_le_inv in EA. apply Rabs_le_inv in EP.
  assert (Apos : 0 < A) by (assert (u * a2 <= / 2 * a2) by (apply Rmult_le_compat_r; lra); lra). assert (P0' : 0 <= P). { rewrite VP, <- (rnd_0 prec emax). apply round_le; auto with typeclass_instances. apply (fexp_correct prec emax Hp). }
  assert (RQ : forall x y, 0 < y -> (x / y) * y = x) by (intros; field; lra).
  pose proof (RQ p2 a2 A0) as Hr. set (r := p2 / a2) in *. assert (R0 : 0 <= r) by (apply Rmult_le_pos; [exact P0|left; apply Rinv_0_lt_compat; exact A0]).
  rewrite (Bltb_correct _ _ _ _ FA FP), (Beqb_correct _ _ _ (fzero prec emax) FA eq_refl). fold A P.
  case Rlt_bool_spec; intros L; cbn [orb].
  - destruct (one_R prec emax) as [_ ->]. destruct (Rle_or_lt 1 r) as [H|H]; [rewrite Rmin_left by exact H; rewrite Rminus_diag_eq, Rabs_R0 by reflexivity; lra|].
    rewrite Rmin_right by lra. rewrite Rabs_pos_eq by lra. pose proof (Rmult_lt_compat_r a2 _ _ A0 H) as PA. rewrite Rmult_1_l, Hr in PA. rewrite Rmax_right in EP by lra.
    assert (1 - 2 * u < r); [|lra]. apply (Rmult_lt_reg_r a2); [exact A0|]. nra.
  - rewrite Req_bool_false by (cbn; lra).
    pose proof (Bdiv_correct prec emax Hp He mode_NE (fmul prec emax p p) (fmul prec emax a a) (Rgt_not_eq _ _ Apos)) as C. cbn [round_mode] in C. fold A P in C.
    pose proof (RQ P A Apos) as Hq. set (q := P / A) in *. assert (Q : 0 <= q <= 1). { split; [apply Rmult_le_pos; [exact P0'|left; apply Rinv_0_lt_compat; exact Apos]|]. apply (Rmult_le_reg_r A); [exact Apos|]. lra. }
    assert (F1 : generic_format radix2 ex 1). { change 1 with (bpow radix2 0). apply (fmt_bpow prec emax). apply (emin_neg prec emax). }
    rewrite Rlt_bool_true in C.
    + destruct C as [C1 _]. unfold fdiv. rewrite C1.
      assert (EQ : Rabs (rnd q - q) <= u * 1). { apply rnd_err; [change 1 with (bpow radix2 0); apply bpow_le; pose proof (precmax prec emax); unfold SpecFloat.emin; pose proof (emax_2 prec emax); lia|rewrite Rabs_pos_eq; lra]. }
      apply Rabs_le_inv in EQ. apply Rabs_le. destruct (Rle_or_lt 1 r) as [H|H].
      * rewrite Rmin_left by exact H. pose proof (Rmult_le_compat_r a2 _ _ (Rlt_le _ _ A0) H) as PA. rewrite Rmult_1_l, Hr in PA. rewrite Rmax_left in EP by lra. assert (1 - 2 * u <= q); [|lra]. apply (Rmult_le_reg_r A); [exact Apos|]. rewrite Hq. nra.
      * rewrite Rmin_right by lra. pose proof (Rmult_lt_compat_r a2 _ _ A0 H) as PA. rewrite Rmult_1_l, Hr in PA. rewrite Rmax_right in EP by lra.
        assert (B : q - r <= 4 * u /\ r - q <= 4 * u); [|lra].
        assert (UA : u * a2 <= / 2 * a2) by (apply Rmult_le_compat_r; lra). assert (A2 : a2 / 2 <= A) by lra. assert (U4 : 2 * u * a2 <= 4 * u * A) by (replace (2 * u * a2) with (4 * u * (a2 / 2)) by field; apply Rmult_le_compat_l; lra).
        split; apply (Rmult_le_reg_r A); try exact Apos; rewrite Rmult_minus_distr_r, Hq.
        -- assert (P - r * A <= 2 * u * a2); [|lra]. assert (r * (a2 - A) <= r * (u * a2)) by (apply Rmult_le_compat_l; lra). assert (r * (u * a2) <= u * a2) by nra. nra.
        -- assert (r * A - P <= 2 * u * a2); [|lra]. assert (r * (A - a2) <= r * (u * a2)) by (apply Rmult_le_compat_l; lra). assert (r * (u * a2) <= u * a2) by nra. nra.
    + apply Rle_lt_trans with 1; [apply (rnd_abs_le prec emax); [exact F1|rewrite Rabs_pos_eq; lra]|]. change 1 with (bpow radix2 0). apply bpow_lt. pose proof (emax_2 prec emax). lia.
Qed.

Lemma zip_nth {A B C} (f : A -> B -> C) l m i : length l = length m -> nth_error (zip_with f l m) i = match nth_error l i, nth_error m i with Some a, Some b => Some (f a b) | _, _ => None end.
Proof. revert m i. induction l as [|a l IH]; intros [|b m] [|i] E; cbn in *; try discriminate; try reflexivity. apply IH. lia. Qed.

Lemma moved_nth x s z i : length x = length z -> length (moved prec emax x s z) = length x /\
  nth_error (moved prec emax x s z) i = match nth_error x i, nth_error z i with Some c, Some n => Some (fadd prec emax c (fmul prec emax s n)) | _, _ => None end.
Proof. revert z i. induction x as [|c x IH]; intros [|n z] i E; try discriminate; [destruct i; split; reflexivity|]. cbn in *. destruct i as [|i]; (split; [f_equal; apply (IH z O); lia|]); [reflexivity|]. exact (proj2 (IH z i ltac:(lia))). Qed.
End Plain.

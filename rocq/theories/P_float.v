(** P_float: rounding-error analysis of sums of signed logs. *)
From Coq Require Import ZArith Reals.
From Flocq Require Import Core IEEE754.BinarySingleNaN.
From Flocq Require Import Relative Plus_error.
From Coq Require Import Lia Lra List Permutation.
Import ListNotations.
From Verif Require Import M_float S_float.
Open Scope R_scope.

Section Proofs.
Variables prec emax : Z.
Context {Hp : Prec_gt_0 prec}.
Context {He : Prec_lt_emax prec emax}.
Notation fl := (binary_float prec emax).
Notation ex := (SpecFloat.fexp prec emax).
Notation emin := (SpecFloat.emin prec emax).
Notation rnd := (round radix2 ex ZnearestE).
Notation u := (unit_roundoff prec).

Local Instance ex_valid : Valid_exp ex := FLT_exp_valid emin prec.

Lemma prec1 : (1 <= prec)%Z. Proof. pose proof Hp as H. unfold Prec_gt_0 in H. lia. Qed.
Lemma precmax : (prec < emax)%Z. Proof. pose proof He as H. unfold Prec_lt_emax in H. lia. Qed.
Lemma emin_neg : (emin <= 0)%Z. Proof. unfold SpecFloat.emin. pose proof prec1. pose proof precmax. lia. Qed.

Lemma u_pos : 0 < u. Proof. apply bpow_gt_0. Qed.

Lemma fmt_B2R (x : fl) : generic_format radix2 ex (B2R x).
Proof. apply generic_format_B2R. Qed.

Lemma fmt_int : forall n : nat, INR n <= bpow radix2 prec -> generic_format radix2 ex (INR n).
Proof.
  intros n H. rewrite INR_IZR_INZ in *.
  assert (E : (Z.of_nat n < 2 ^ prec)%Z \/ (Z.of_nat n = 2 ^ prec)%Z).
  { assert (Z.of_nat n <= 2 ^ prec)%Z; [|lia]. apply le_IZR. rewrite <- (IZR_Zpower radix2 prec) in H by (pose proof prec1; lia). exact H. }
  destruct E as [E|E].
  - apply (generic_format_FLT radix2 emin prec). apply (FLT_spec _ _ _ _ (Float radix2 (Z.of_nat n) 0)).
    + unfold F2R. cbn. ring.
    + cbn [Fnum]. rewrite Z.abs_eq by lia. exact E.
    + cbn [Fexp]. apply emin_neg.
  - rewrite E. pose proof prec1. change (2 ^ prec)%Z with (radix_val radix2 ^ prec)%Z; rewrite (IZR_Zpower radix2 prec) by lia. apply (generic_format_FLT_bpow radix2 emin prec). pose proof emin_neg. lia.
Qed.

(** Rounding never goes past a representable bound. *)
Lemma rnd_abs_le : forall x M, generic_format radix2 ex M -> Rabs x <= M -> Rabs (rnd x) <= M.
Proof. intros x M F H. apply abs_round_le_generic; auto with typeclass_instances. Qed.

(** The sum of two representable numbers is rounded with relative error u, whatever its size. *)
Lemma rnd_plus_err : forall x y, generic_format radix2 ex x -> generic_format radix2 ex y ->
  Rabs (rnd (x + y) - (x + y)) <= u * Rabs (x + y).
Proof.
  intros x y Fx Fy. destruct (Rle_or_lt (Rabs (x + y)) (bpow radix2 (prec + emin))) as [C|C].
  - rewrite round_generic; auto with typeclass_instances.
    + rewrite Rminus_diag_eq by reflexivity. rewrite Rabs_R0. apply Rmult_le_pos; [left; apply u_pos|apply Rabs_pos].
    + apply (FLT_format_plus_small radix2 emin prec); assumption.
  - pose proof (relative_error_N_FLT radix2 emin prec Hp (fun n => negb (Z.even n)) (x + y)) as H.
    unfold unit_roundoff. replace (bpow radix2 (- prec)) with (/ 2 * bpow radix2 (- prec + 1)).
    + apply H. left. apply Rle_lt_trans with (2 := C). apply bpow_le. lia.
    + rewrite bpow_plus. simpl (bpow radix2 1). replace (IZR (Z.pow_pos 2 1)) with 2 by (cbn; lra). field.
Qed.

Lemma rnd_id (x : fl) : rnd (B2R x) = B2R x.
Proof. apply round_generic; auto with typeclass_instances. apply fmt_B2R. Qed.

(** Addition without overflow. *)
Lemma fadd_spec : forall (x y : fl) M, is_finite x = true -> is_finite y = true ->
  generic_format radix2 ex M -> M < bpow radix2 emax -> Rabs (B2R x + B2R y) <= M ->
  is_finite (fadd prec emax x y) = true /\ B2R (fadd prec emax x y) = rnd (B2R x + B2R y) /\
  Rabs (B2R (fadd prec emax x y)) <= M.
Proof.
  intros x y M Fx Fy FM LM H. pose proof (rnd_abs_le _ _ FM H) as B.
  pose proof (Bplus_correct prec emax Hp He mode_NE x y Fx Fy) as C. cbn [round_mode] in C.
  rewrite Rlt_bool_true in C by lra. destruct C as [C1 [C2 _]]. unfold fadd. rewrite C1. repeat split; assumption.
Qed.

(** The tree of additions. *)
Definition nonzero (x : fl) : nat := if Req_bool (B2R x) 0 then 0%nat else 1%nat.
Definition weight (l : list fl) : nat := list_sum (map nonzero l).
Definition rsum (l : list fl) : R := fold_right Rplus 0 (map B2R l).

Lemma weight_app l m : weight (l ++ m) = (weight l + weight m)%nat.
Proof. unfold weight. rewrite map_app. apply list_sum_app. Qed.
Lemma rsum_app l m : rsum (l ++ m) = rsum l + rsum m.
Proof. unfold rsum. induction l as [|x l IH]; cbn; [ring|]. unfold rsum in IH. rewrite IH. ring. Qed.

Lemma prec_lt_range : bpow radix2 prec < bpow radix2 emax.
Proof. apply bpow_lt. apply precmax. Qed.

Lemma eval_spec : forall t, (forall x, In x (leaves _ _ t) -> is_finite x = true /\ Rabs (B2R x) <= 1) ->
  INR (weight (leaves _ _ t)) <= bpow radix2 prec ->
  is_finite (eval _ _ t) = true /\ Rabs (B2R (eval _ _ t)) <= INR (weight (leaves _ _ t)) /\
  Rabs (B2R (eval _ _ t) - rsum (leaves _ _ t)) <= u * (INR (weight (leaves _ _ t)) * INR (weight (leaves _ _ t))).
Proof.
  pose proof u_pos as U.
  induction t as [x|a IHa b IHb]; intros L W.
  - destruct (L x (or_introl eq_refl)) as [F B]. cbn [eval leaves]. split; [exact F|].
    unfold weight, nonzero, rsum. cbn [map list_sum fold_right]. case Req_bool_spec; intros Z.
    + cbn. rewrite Z. split; [rewrite Rabs_R0; lra|]. rewrite Rplus_0_r, Rminus_0_r, Rabs_R0. lra.
    + cbn. split; [exact B|]. replace (B2R x - (B2R x + 0)) with 0 by ring. rewrite Rabs_R0. lra.
  - cbn [leaves eval] in *. rewrite weight_app in *. rewrite plus_INR in *. rewrite rsum_app.
    pose proof (pos_INR (weight (leaves _ _ a))) as Pa. pose proof (pos_INR (weight (leaves _ _ b))) as Pb.
    destruct IHa as [Fa [Ba Ea]]; [intros x Hx; apply L, in_or_app; left; exact Hx|lra|].
    destruct IHb as [Fb [Bb Eb]]; [intros x Hx; apply L, in_or_app; right; exact Hx|lra|].
    set (wa := INR (weight (leaves _ _ a))) in *. set (wb := INR (weight (leaves _ _ b))) in *.
    assert (Fw : generic_format radix2 ex (wa + wb)).
    { unfold wa, wb. rewrite <- plus_INR. apply fmt_int. rewrite plus_INR. exact W. }
    assert (S : Rabs (B2R (eval _ _ a) + B2R (eval _ _ b)) <= wa + wb) by (eapply Rle_trans; [apply Rabs_triang|lra]).
    pose proof prec_lt_range as PR.
    destruct (fadd_spec _ _ (wa + wb) Fa Fb Fw ltac:(lra) S) as [F [V B]].
    split; [exact F|]. split; [exact B|].
    assert (R1 : Rabs (B2R (fadd _ _ (eval _ _ a) (eval _ _ b)) - (B2R (eval _ _ a) + B2R (eval _ _ b))) <= u * (2 * (wa * wb))).
    { rewrite V.
      assert (Z : forall n : nat, INR n = 0 \/ 1 <= INR n).
      { intros [|n]; [left; reflexivity|right]. rewrite S_INR. pose proof (pos_INR n). lra. }
      destruct (Z (weight (leaves _ _ a))) as [Za|Za]; fold wa in Za.
      - assert (A0 : B2R (eval _ _ a) = 0). { rewrite Za in Ba. destruct (Rabs_pos (B2R (eval _ _ a))) as [Q|Q]; [lra|]. destruct (Req_dec (B2R (eval _ _ a)) 0) as [E|E]; [exact E|apply Rabs_no_R0 in E; lra]. }
        rewrite A0, Rplus_0_l, rnd_id, Za. rewrite Rminus_diag_eq by reflexivity. rewrite Rabs_R0. lra.
      - destruct (Z (weight (leaves _ _ b))) as [Zb|Zb]; fold wb in Zb.
        + assert (B0 : B2R (eval _ _ b) = 0). { rewrite Zb in Bb. destruct (Req_dec (B2R (eval _ _ b)) 0) as [E|E]; [exact E|apply Rabs_pos_lt in E; lra]. }
          rewrite B0, Rplus_0_r, rnd_id, Zb. rewrite Rminus_diag_eq by reflexivity. rewrite Rabs_R0. lra.
        + eapply Rle_trans; [apply rnd_plus_err; apply fmt_B2R|]. apply Rmult_le_compat_l; [lra|]. eapply Rle_trans; [exact S|].
          assert (0 <= (wa - 1) * wb) by (apply Rmult_le_pos; lra). assert (0 <= (wb - 1) * wa) by (apply Rmult_le_pos; lra). lra. }
    replace (B2R (fadd _ _ (eval _ _ a) (eval _ _ b)) - (rsum (leaves _ _ a) + rsum (leaves _ _ b)))
      with ((B2R (fadd _ _ (eval _ _ a) (eval _ _ b)) - (B2R (eval _ _ a) + B2R (eval _ _ b)))
            + ((B2R (eval _ _ a) - rsum (leaves _ _ a)) + (B2R (eval _ _ b) - rsum (leaves _ _ b)))) by ring.
    eapply Rle_trans; [apply Rabs_triang|]. pose proof (Rabs_triang (B2R (eval _ _ a) - rsum (leaves _ _ a)) (B2R (eval _ _ b) - rsum (leaves _ _ b))) as T.
    replace (u * ((wa + wb) * (wa + wb))) with (u * (2 * (wa * wb)) + (u * (wa * wa) + u * (wb * wb))) by ring. lra.
Qed.

(** With one common sign nothing cancels. *)
Lemma eval_ge : forall t sg, sg = 1 \/ sg = -1 ->
  (forall x, In x (leaves _ _ t) -> is_finite x = true /\ Rabs (B2R x) <= 1 /\ 0 <= sg * B2R x) ->
  INR (weight (leaves _ _ t)) <= bpow radix2 prec ->
  0 <= sg * B2R (eval _ _ t) /\ forall x, In x (leaves _ _ t) -> sg * B2R x <= sg * B2R (eval _ _ t).
Proof.
  intros t sg SG. induction t as [x|a IHa b IHb]; intros L W.
  - cbn [eval leaves] in *. split; [apply L; left; reflexivity|]. intros y [E|[]]. subst y. lra.
  - cbn [leaves eval] in *. pose proof W as W0. rewrite weight_app, plus_INR in W.
    pose proof (pos_INR (weight (leaves _ _ a))) as Pa. pose proof (pos_INR (weight (leaves _ _ b))) as Pb.
    destruct IHa as [Na Ga]; [intros x Hx; apply L, in_or_app; left; exact Hx|lra|].
    destruct IHb as [Nb Gb]; [intros x Hx; apply L, in_or_app; right; exact Hx|lra|].
    assert (X : sg * B2R (eval _ _ a) <= sg * B2R (fadd _ _ (eval _ _ a) (eval _ _ b)) /\ sg * B2R (eval _ _ b) <= sg * B2R (fadd _ _ (eval _ _ a) (eval _ _ b))).
    { destruct (eval_spec a) as [Fa [Ba _]]; [intros x Hx; destruct (L x (in_or_app _ _ _ (or_introl Hx))); tauto|lra|].
      destruct (eval_spec b) as [Fb [Bb _]]; [intros x Hx; destruct (L x (in_or_app _ _ _ (or_intror Hx))); tauto|lra|].
      pose proof prec_lt_range as PR.
      destruct (fadd_spec _ _ (INR (weight (leaves _ _ a) + weight (leaves _ _ b))) Fa Fb) as [_ [V _]].
      - apply fmt_int. rewrite plus_INR. exact W.
      - rewrite plus_INR. lra.
      - rewrite plus_INR. eapply Rle_trans; [apply Rabs_triang|lra].
      - rewrite V. destruct SG as [SG|SG]; rewrite SG in *.
        + split; (apply Rmult_le_compat_l; [lra|]); apply round_ge_generic; auto with typeclass_instances; try apply fmt_B2R; lra.
        + assert (rnd (B2R (eval _ _ a) + B2R (eval _ _ b)) <= B2R (eval _ _ a)) by (apply round_le_generic; auto with typeclass_instances; [apply fmt_B2R|lra]).
          assert (rnd (B2R (eval _ _ a) + B2R (eval _ _ b)) <= B2R (eval _ _ b)) by (apply round_le_generic; auto with typeclass_instances; [apply fmt_B2R|lra]). lra. }
    destruct X as [Xa Xb]. split; [lra|]. intros x Hx. apply in_app_or in Hx. destruct Hx as [Hx|Hx]; [specialize (Ga x Hx)|specialize (Gb x Hx)]; lra.
Qed.

(** Permutations and padding zeros. *)
Lemma weight_perm l m : Permutation l m -> weight l = weight m.
Proof.
  intros P. unfold weight. induction P as [|x l m P IH|x y l|l m n P IH Q IH2]; [reflexivity| | |congruence].
  - cbn [map list_sum fold_right]. unfold list_sum in IH. rewrite IH. reflexivity.
  - cbn [map list_sum fold_right]. lia.
Qed.
Lemma rsum_perm l m : Permutation l m -> rsum l = rsum m.
Proof. intros P. unfold rsum. induction P; cbn in *; lra. Qed.
Lemma weight_zeros k : weight (repeat (fzero prec emax) k) = 0%nat.
Proof. unfold weight. induction k as [|k IH]; [reflexivity|]. cbn [repeat map list_sum fold_right]. unfold nonzero at 1. cbn [B2R fzero]. rewrite Req_bool_true by reflexivity. exact IH. Qed.
Lemma rsum_zeros k : rsum (repeat (fzero prec emax) k) = 0.
Proof. unfold rsum. induction k as [|k IH]; [reflexivity|]. cbn [repeat map fold_right]. rewrite IH. cbn. ring. Qed.
Lemma weight_le l : (weight l <= length l)%nat.
Proof. unfold weight. induction l as [|x l IH]; [apply Nat.le_refl|]. cbn [map list_sum fold_right length]. unfold list_sum in IH. unfold nonzero at 1. case Req_bool; lia. Qed.

Lemma sum_spec : forall l s, is_sum prec emax l s -> (forall x, In x l -> is_finite x = true /\ Rabs (B2R x) <= 1) ->
  INR (length l) <= bpow radix2 prec ->
  is_finite s = true /\ Rabs (B2R s) <= INR (length l) /\ Rabs (B2R s - rsum l) <= u * (INR (length l) * INR (length l)) /\
  (forall sg, sg = 1 \/ sg = -1 -> (forall x, In x l -> 0 <= sg * B2R x) -> forall x, In x l -> sg * B2R x <= sg * B2R s).
Proof.
  intros l s [t [k [P E]]] L N.
  assert (Lt : forall x, In x (leaves _ _ t) -> is_finite x = true /\ Rabs (B2R x) <= 1).
  { intros x Hx. apply (Permutation_in _ P) in Hx. apply in_app_or in Hx. destruct Hx as [Hx|Hx]; [apply L; exact Hx|].
    apply repeat_spec in Hx. subst x. split; [reflexivity|]. cbn. rewrite Rabs_R0. lra. }
  assert (Wt : weight (leaves _ _ t) = weight l) by (rewrite (weight_perm _ _ P), weight_app, weight_zeros; lia).
  assert (Wl : INR (weight l) <= INR (length l)) by (apply le_INR, weight_le).
  pose proof (pos_INR (weight l)) as Pw. pose proof u_pos as U.
  destruct (eval_spec t Lt) as [F [B Er]]; [rewrite Wt; lra|]. rewrite Wt in *. rewrite E in *.
  rewrite (rsum_perm _ _ P), rsum_app, rsum_zeros, Rplus_0_r in Er.
  split; [exact F|]. split; [lra|]. split.
  - eapply Rle_trans; [exact Er|]. apply Rmult_le_compat_l; [lra|]. apply Rmult_le_compat; lra.
  - intros sg SG Q x Hx. rewrite <- E. apply (eval_ge t sg SG).
    + intros y Hy. destruct (Lt y Hy) as [A1 A2]. repeat split; [exact A1|exact A2|].
      apply (Permutation_in _ P) in Hy. apply in_app_or in Hy. destruct Hy as [Hy|Hy]; [apply Q; exact Hy|]. apply repeat_spec in Hy. subst y. cbn. lra.
    + rewrite Wt. lra.
    + apply (Permutation_in _ (Permutation_sym P)). apply in_or_app. left. exact Hx.
Qed.
End Proofs.

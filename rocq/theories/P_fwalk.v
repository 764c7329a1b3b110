(** P_fwalk: proofs about Metropolis steps on machine floating-point numbers. *)
From Coq Require Import ZArith Reals.
From Flocq Require Import Core IEEE754.BinarySingleNaN.
From Flocq Require Import Relative Plus_error Mult_error.
From Coq Require Import Lia Lra List Permutation Bool Arith.
Import ListNotations.
From Verif Require Import M_float S_float P_float P_float2 M_fwalk S_fwalk.
Open Scope R_scope.

Section Proofs.
Variables prec emax : Z.
Context {Hp : Prec_gt_0 prec}.
Context {He : Prec_lt_emax prec emax}.
Notation fl := (binary_float prec emax).
Notation ex := (SpecFloat.fexp prec emax).
Notation emin := (SpecFloat.emin prec emax).
Notation rnd := (round radix2 ex ZnearestE).
Notation u := (unit_roundoff prec).
Notation pinf := (B754_infinity (prec:=prec) (emax:=emax) false).
Notation minf := (B754_infinity (prec:=prec) (emax:=emax) true).
Notation fone := (fone prec emax). Notation fzero := (fzero prec emax).
Notation fadd := (fadd prec emax). Notation fsub := (fsub prec emax). Notation fmul := (fmul prec emax).
Notation ftwo := (ftwo prec emax). Notation fdiv := (fdiv prec emax).
Local Instance ex_valid3 : Valid_exp ex := FLT_exp_valid emin prec.

Lemma one_R : is_finite fone = true /\ B2R fone = 1.
Proof. split; [apply is_finite_Bone|apply Bone_correct]. Qed.

Lemma emax_2 : (2 <= emax)%Z. Proof. pose proof (prec1 prec). pose proof (precmax prec emax). lia. Qed.

Lemma two_R : is_finite ftwo = true /\ B2R ftwo = 2.
Proof.
  destruct one_R as [F1 V1].
  assert (F2 : generic_format radix2 ex 2). { replace 2 with (bpow radix2 1) by (cbn; lra). apply (fmt_bpow prec emax). pose proof (emin_neg prec emax) as Q. lia. }
  assert (L2 : INR 2 <= bpow radix2 prec). { replace (INR 2) with (bpow radix2 1) by (cbn; lra). apply bpow_le. apply (prec1 prec). }
  unfold M_fwalk.ftwo. destruct (fadd_spec prec emax fone fone 2 F1 F1 F2) as [A [B _]].
  - apply Rle_lt_trans with (bpow radix2 prec); [cbn in L2; lra|apply bpow_lt; apply (precmax prec emax)].
  - rewrite V1, Rabs_pos_eq; lra.
  - split; [exact A|]. rewrite B, V1. replace (1 + 1) with 2 by ring. apply round_generic; auto with typeclass_instances.
Qed.
Lemma two_form : exists m e H, ftwo = B754_finite false m e H.
Proof.
  destruct two_R as [F V]. destruct ftwo as [s|s| |s m e H]; try discriminate; [cbn in V; lra|]. destruct s; [|eauto].
  exfalso. assert (B2R (B754_finite (prec:=prec) (emax:=emax) true m e H) < 0) by (apply F2R_lt_0; reflexivity). lra.
Qed.
Lemma two_inf s : fmul ftwo (B754_infinity s) = B754_infinity s.
Proof. destruct two_form as (m & e & H & ->). destruct s; reflexivity. Qed.
Lemma two_nan : fmul ftwo B754_nan = B754_nan.
Proof. destruct two_form as (m & e & H & ->). reflexivity. Qed.

Lemma two_mul a : log_in_range prec emax a -> is_finite (fmul ftwo a) = true /\ B2R (fmul ftwo a) = 2 * B2R a.
Proof.
  intros [F B]. destruct two_R as [F2 V2]. pose proof (Bmult_correct prec emax Hp He mode_NE ftwo a) as C. cbn [round_mode] in C.
  rewrite V2 in C. assert (FM : generic_format radix2 ex (2 * B2R a)).
  { rewrite Rmult_comm. replace 2 with (bpow radix2 1) by (cbn; lra). apply (mult_bpow_pos_exact_FLT radix2 emin prec); [apply generic_format_B2R|lia]. }
  rewrite (round_generic radix2 ex ZnearestE _ FM) in C. rewrite Rlt_bool_true in C.
  - destruct C as [C1 [C2 _]]. unfold M_float.fmul. rewrite C1, C2, F2, F. split; reflexivity.
  - rewrite Rabs_mult, (Rabs_pos_eq 2) by lra. apply Rle_lt_trans with (bpow radix2 (emax - 1)).
    + replace (bpow radix2 (emax - 1)) with (2 * bpow radix2 (emax - 2)); [lra|]. replace (emax - 1)%Z with (1 + (emax - 2))%Z by lia. rewrite bpow_plus. cbn. lra.
    + apply bpow_lt. lia.
Qed.

Section Acceptance.
Variables (fe : fl -> fl) (eps : R).
Hypothesis GE : good_exp prec emax eps fe.
Notation acceptance := (acceptance prec emax fe).

Lemma acceptance_number a p : log_in_range prec emax a -> log_in_range prec emax p \/ p = minf ->
  probability prec emax (acceptance true a p) /\ Rabs (B2R (acceptance true a p) - exact_acceptance prec emax a p) <= u + eps /\
  (is_finite p = true -> B2R a <= B2R p -> B2R (acceptance true a p) = 1) /\ (p = minf -> B2R (acceptance true a p) = 0).
Proof.
  intros Ra Rp. destruct (two_mul a Ra) as [Fa Va]. unfold M_fwalk.acceptance. destruct one_R as [F1 V1]. pose proof (epse_pos prec emax fe eps GE) as EP. pose proof (u_pos prec) as U.
  destruct Rp as [Rp| ->].
  - destruct (two_mul p Rp) as [Fp Vp]. rewrite (Bltb_correct _ _ _ _ Fa Fp). unfold exact_acceptance, exact_ratio. rewrite (proj1 Rp).
    case Rlt_bool_spec; intros L.
    + rewrite V1. split; [split; [exact F1|lra]|]. split; [|split; [reflexivity|intros ->; destruct Rp as [Q _]; discriminate]].
      rewrite Rmin_left, Rminus_diag_eq, Rabs_R0 by (try reflexivity; left; rewrite <- exp_0; apply exp_increasing; lra). lra.
    + destruct (expterm prec emax fe eps GE (fmul ftwo p) (fmul ftwo a) Fa (or_introl Fp) (fun _ => L)) as [A [B [C D]]].
      split; [split; [exact A|exact B]|]. split; [|split].
      * unfold scaled in C. rewrite Fp in C. rewrite Rmin_right. { replace (2 * (B2R p - B2R a)) with (B2R (fmul ftwo p) - B2R (fmul ftwo a)) by lra. exact C. }
        rewrite <- exp_0. destruct (Req_dec (2 * (B2R p - B2R a)) 0) as [->|N]; [lra|left; apply exp_increasing; lra].
      * intros _ Q. apply D; [exact Fp|]. lra.
      * intros ->. destruct Rp as [Q _]. discriminate.
  - rewrite two_inf. assert (E : Bltb (fmul ftwo a) minf = false) by (destruct (fmul ftwo a) as [s|s| |s m e H]; try discriminate; reflexivity). rewrite E.
    rewrite (fsub_inf prec emax _ Fa). destruct GE as [_ [[G1 G2] _]]. unfold exact_acceptance, exact_ratio. cbn [is_finite]. rewrite G2.
    split; [split; [exact G1|lra]|]. split; [|split; [discriminate|reflexivity]]. rewrite Rmin_right by lra. rewrite Rminus_0_r, Rabs_R0. lra.
Qed.

Lemma sub_nan_l x : fsub B754_nan x = B754_nan. Proof. destruct x; reflexivity. Qed.
Lemma sub_nan_r x : fsub x B754_nan = B754_nan. Proof. destruct x; reflexivity. Qed.
Lemma ltb_nan_l x : Bltb (prec:=prec) (emax:=emax) B754_nan x = false. Proof. reflexivity. Qed.
Lemma ltb_nan_r (x : fl) : Bltb x B754_nan = false. Proof. destruct x as [s|s| |s m e H]; try destruct s; reflexivity. Qed.

Lemma two_not_nan a : a <> B754_nan -> fmul ftwo a <> B754_nan.
Proof.
  intros N. destruct a as [s|s| |s m e H]; [| |congruence|].
  - destruct two_form as (m & e & H & ->). discriminate.
  - rewrite two_inf. discriminate.
  - intros E. pose proof (Bmult_correct prec emax Hp He mode_NE ftwo (B754_finite s m e H)) as C. unfold M_float.fmul in E. rewrite E in C.
    destruct (Rlt_bool _ _) in C; [|discriminate C]. destruct C as [_ [C _]]. rewrite (proj1 two_R) in C. discriminate.
Qed.

Lemma acceptance_nan a p : a = B754_nan \/ p = B754_nan \/ (a = pinf /\ p = pinf) \/ (a = minf /\ p = minf) -> acceptance true a p = B754_nan.
Proof.
  assert (GN : fe B754_nan = B754_nan) by (destruct GE as [G _]; exact G).
  intros [->|[->|[[-> ->]|[-> ->]]]]; unfold M_fwalk.acceptance; rewrite ?two_nan, ?two_inf, ?ltb_nan_l, ?ltb_nan_r, ?sub_nan_l, ?sub_nan_r; try exact GN.
Qed.
Lemma acceptance_from_zero p : is_finite p = true \/ p = pinf -> (is_finite p = true -> log_in_range prec emax p) -> acceptance true minf p = fone.
Proof.
  intros [F| ->] R; unfold M_fwalk.acceptance; rewrite !two_inf; [|reflexivity]. destruct (two_mul p (R F)) as [Fp _]. destruct (fmul ftwo p) as [s|s| |s m e H]; try discriminate; reflexivity.
Qed.
Lemma acceptance_to_inf a : is_finite a = true -> log_in_range prec emax a -> acceptance true a pinf = fone.
Proof.
  intros F R. unfold M_fwalk.acceptance. rewrite two_inf. destruct (two_mul a R) as [Fa _]. destruct (fmul ftwo a) as [s|s| |s m e H]; try discriminate; reflexivity.
Qed.
(** From +inf: zero, or NaN. *)
Lemma acceptance_from_inf p : acceptance true pinf p = B754_nan \/ (is_finite (acceptance true pinf p) = true /\ B2R (acceptance true pinf p) = 0).
Proof.
  destruct GE as [GN [[G1 G2] _]]. unfold M_fwalk.acceptance. rewrite two_inf. destruct (fmul ftwo p) as [s|s| |s m e H] eqn:E.
  - right. cbn. split; assumption.
  - destruct s; cbn; [right; split; assumption|left; exact GN].
  - left. cbn. exact GN.
  - right. assert (X : Bltb pinf (B754_finite s m e H) = false) by (destruct s; reflexivity). rewrite X. cbn. split; assumption.
Qed.

Lemma draw_nan x : Bltb x (B754_nan (prec:=prec) (emax:=emax)) = false. Proof. apply ltb_nan_r. Qed.
Lemma draw_zero x z : uniform_number prec emax x -> is_finite z = true -> B2R z = 0 -> Bltb x z = false.
Proof. intros [F B] Fz Z. rewrite (Bltb_correct _ _ _ _ F Fz). apply Rlt_bool_false. lra. Qed.
Lemma draw_one x z : uniform_number prec emax x -> is_finite z = true -> B2R z = 1 -> Bltb x z = true.
Proof. intros [F B] Fz Z. rewrite (Bltb_correct _ _ _ _ F Fz). apply Rlt_bool_true. lra. Qed.

(** One walker, one step. *)
Variable psi : list fl -> fl.
Definition settled (w : walker prec emax) : Prop := w_amp _ _ w = psi (w_pos _ _ w) /\ log_in_range prec emax (w_amp _ _ w).

Lemma walker_settled s w d : (forall x, psi x = B754_nan \/ psi x = minf \/ log_in_range prec emax (psi x)) -> uniform_number prec emax (d_uniform _ _ d) -> settled w -> settled (walker_step _ _ fe psi true s w d).
Proof.
  intros P U [E R]. unfold walker_step. destruct (decision _ _ fe psi true s w d) eqn:D; [|split; assumption].
  split; [reflexivity|]. unfold decision in D. cbn [propose w_amp w_pos] in *. destruct (P (moved _ _ (w_pos _ _ w) s (d_normal _ _ d))) as [Q|[Q|Q]]; [| |exact Q]; exfalso.
  - rewrite Q, acceptance_nan, draw_nan in D by auto. discriminate.
  - rewrite Q in D. destruct (acceptance_number (w_amp _ _ w) minf R (or_intror eq_refl)) as [[F _] [_ [_ Z]]]. rewrite (draw_zero _ _ U F (Z eq_refl)) in D. discriminate.
Qed.

Lemma walker_stuck s w d : uniform_number prec emax (d_uniform _ _ d) -> w_amp _ _ w = B754_nan \/ w_amp _ _ w = pinf -> walker_step _ _ fe psi true s w d = w.
Proof.
  intros U H. unfold walker_step, decision. destruct H as [H|H]; rewrite H.
  - rewrite acceptance_nan, draw_nan by auto. reflexivity.
  - destruct (acceptance_from_inf (w_amp _ _ (propose _ _ psi s w d))) as [E|[F Z]]; [rewrite E, draw_nan; reflexivity|]. rewrite (draw_zero _ _ U F Z). reflexivity.
Qed.
End Acceptance.

(** ** Step widths *)
Lemma ge_eta (x : fl) : 0 < B2R x -> bpow radix2 emin <= B2R x.
Proof. intros P. apply (generic_format_ge_bpow radix2 ex emin); [|exact P|apply generic_format_B2R]. intros e. unfold SpecFloat.fexp. apply Z.le_max_r. Qed.

Lemma rnd_pos x : / 2 * bpow radix2 emin < x -> 0 < rnd x.
Proof.
  intros H. pose proof (bpow_gt_0 radix2 emin) as B. destruct (Rle_or_lt (bpow radix2 emin) x) as [L|L].
  - assert (bpow radix2 emin <= rnd x); [|lra]. apply round_ge_generic; auto with typeclass_instances. apply (fmt_bpow prec emax). lia.
  - pose proof (error_le_half_ulp radix2 ex (fun n => negb (Z.even n)) x) as E.
    rewrite (ulp_FLT_small radix2 emin prec) in E.
    + apply Rabs_le_inv in E. lra.
    + rewrite Rabs_pos_eq by lra. eapply Rlt_le_trans; [exact L|]. apply bpow_le. pose proof (prec1 prec). lia.
Qed.

Lemma sign_of_pos (x : fl) : is_finite x = true -> 0 < B2R x -> Bsign x = false.
Proof. intros F P. destruct (Bsign x) eqn:E; [|reflexivity]. pose proof (sign_neg prec emax x F E). lra. Qed.

Lemma width_mul s c : positive_width prec emax s -> is_finite c = true -> / 2 < B2R c -> positive_width prec emax (fmul s c).
Proof.
  intros Ps Fc Pc. assert (Pc0 : 0 < B2R c) by lra. destruct Ps as [[F P]| ->].
  - pose proof (Bmult_correct prec emax Hp He mode_NE s c) as C. cbn [round_mode] in C.
    rewrite (sign_of_pos s F P), (sign_of_pos c Fc Pc0) in C. unfold M_float.fmul. destruct (Rlt_bool _ _) in C.
    + destruct C as [C1 [C2 _]]. left. rewrite C1, C2, F, Fc. split; [reflexivity|]. apply rnd_pos. pose proof (ge_eta s P). pose proof (bpow_gt_0 radix2 emin).
      apply Rlt_le_trans with (bpow radix2 emin * B2R c); [rewrite Rmult_comm; apply Rmult_lt_compat_l; lra|apply Rmult_le_compat_r; lra].
    + right. destruct (Bmult mode_NE s c) as [t|t| |t m e H]; cbn in C; try discriminate. injection C as ->. reflexivity.
  - right. pose proof (sign_of_pos c Fc Pc0) as S. destruct c as [t|t| |t m e H]; try discriminate; [cbn in Pc0; lra|]. cbn in S. subst t. reflexivity.
Qed.

(** ** Averages of masks *)
Lemma of_nat_R n : INR n <= bpow radix2 prec -> is_finite (of_nat prec emax n) = true /\ B2R (of_nat prec emax n) = INR n.
Proof.
  intros L. unfold of_nat. pose proof (binary_normalize_correct prec emax Hp He mode_NE (Z.of_nat n) 0 false) as C. cbv zeta in C. cbn [round_mode] in C.
  assert (E : F2R (Float radix2 (Z.of_nat n) 0) = INR n) by (unfold F2R; cbn; rewrite INR_IZR_INZ; ring).
  rewrite E in C. rewrite (round_generic radix2 ex ZnearestE _ (fmt_int prec emax n L)) in C. rewrite Rlt_bool_true in C.
  - destruct C as [C1 [C2 _]]. split; assumption.
  - rewrite Rabs_pos_eq by apply pos_INR. eapply Rle_lt_trans; [exact L|apply bpow_lt, (precmax prec emax)].
Qed.

(** Sums of integers are exact. *)
Lemma tree_int (k : fl -> nat) t : (forall x, In x (leaves prec emax t) -> is_finite x = true /\ B2R x = INR (k x)) ->
  INR (list_sum (map k (leaves prec emax t))) <= bpow radix2 prec ->
  is_finite (eval _ _ t) = true /\ B2R (eval _ _ t) = INR (list_sum (map k (leaves _ _ t))).
Proof.
  induction t as [x|a IHa b IHb]; intros L W.
  - cbn. rewrite Nat.add_0_r. apply L. left. reflexivity.
  - cbn [leaves eval] in *. rewrite map_app, list_sum_app in *. rewrite plus_INR in W.
    pose proof (pos_INR (list_sum (map k (leaves _ _ a)))). pose proof (pos_INR (list_sum (map k (leaves _ _ b)))).
    destruct IHa as [Fa Va]; [intros x Hx; apply L; apply in_or_app; left; exact Hx|lra|]. destruct IHb as [Fb Vb]; [intros x Hx; apply L; apply in_or_app; right; exact Hx|lra|].
    rewrite <- plus_INR in W.
    destruct (fadd_spec prec emax _ _ (INR (list_sum (map k (leaves _ _ a)) + list_sum (map k (leaves _ _ b)))) Fa Fb (fmt_int prec emax _ W)) as [A [B _]].
    + eapply Rle_lt_trans; [exact W|apply bpow_lt, (precmax prec emax)].
    + rewrite Va, Vb, <- plus_INR. rewrite Rabs_pos_eq by apply pos_INR. lra.
    + split; [exact A|]. rewrite B, Va, Vb, <- plus_INR. apply round_generic; auto with typeclass_instances. apply (fmt_int prec emax _ W).
Qed.
Lemma list_sum_perm l m : Permutation l m -> list_sum l = list_sum m.
Proof. intros P. induction P as [|x l m P IH|x y l|l m n P IH Q IH2]; [reflexivity| | |congruence]; unfold list_sum in *; cbn in *; lia. Qed.

Lemma sum_int (k : fl -> nat) l s : is_sum prec emax l s -> k fzero = O -> (forall x, In x l -> is_finite x = true /\ B2R x = INR (k x)) -> INR (list_sum (map k l)) <= bpow radix2 prec ->
  is_finite s = true /\ B2R s = INR (list_sum (map k l)).
Proof.
  intros (t & n & P & <-) K0 L W.
  assert (E : list_sum (map k (leaves _ _ t)) = list_sum (map k l)).
  { rewrite (list_sum_perm _ _ (Permutation_map k P)), map_app, list_sum_app. assert (Z : list_sum (map k (repeat fzero n)) = O) by (clear -K0; induction n as [|n IH]; [reflexivity|]; cbn [repeat map list_sum fold_right]; rewrite K0; exact IH). lia. }
  rewrite <- E in *. apply tree_int; [|exact W]. intros x Hx. apply (Permutation_in _ P) in Hx. apply in_app_or in Hx. destruct Hx as [Hx|Hx]; [apply L; exact Hx|].
  apply repeat_spec in Hx. subst x. rewrite K0. split; reflexivity.
Qed.

(** A quotient of a number between 0 and n by n. *)
Lemma div_prob x n : is_finite x = true -> (0 < n)%nat -> INR n <= bpow radix2 prec -> 0 <= B2R x <= INR n ->
  probability prec emax (fdiv x (of_nat prec emax n)) /\ (B2R x = INR n -> B2R (fdiv x (of_nat prec emax n)) = 1) /\ (B2R x = 0 -> B2R (fdiv x (of_nat prec emax n)) = 0).
Proof.
  intros F N L B. destruct (of_nat_R n L) as [Fn Vn]. assert (Pn : 0 < INR n) by (apply lt_0_INR; exact N).
  pose proof (Bdiv_correct prec emax Hp He mode_NE x (of_nat prec emax n)) as C. rewrite Vn in C. specialize (C ltac:(lra)). cbn [round_mode] in C.
  assert (Q : 0 <= B2R x / INR n <= 1). { split; [apply Rmult_le_pos; [lra|left; apply Rinv_0_lt_compat; exact Pn]|]. apply (Rmult_le_reg_r (INR n)); [exact Pn|]. unfold Rdiv. rewrite Rmult_assoc, Rinv_l by lra. lra. }
  assert (F1 : generic_format radix2 ex 1). { change 1 with (bpow radix2 0). apply (fmt_bpow prec emax). pose proof (emin_neg prec emax). lia. }
  assert (R1 : 0 <= rnd (B2R x / INR n) <= 1).
  { split; [rewrite <- (rnd_0 prec emax); apply round_le; auto with typeclass_instances; lra|]. apply round_le_generic; auto with typeclass_instances. lra. }
  rewrite Rlt_bool_true in C.
  - destruct C as [C1 [C2 _]]. unfold M_fwalk.fdiv. split; [split; [rewrite C2; exact F|rewrite C1; exact R1]|]. rewrite C1. split; intros E; rewrite E.
    + unfold Rdiv. rewrite Rinv_r by lra. apply round_generic; auto with typeclass_instances.
    + unfold Rdiv. rewrite Rmult_0_l. apply (rnd_0 prec emax).
  - rewrite Rabs_pos_eq by lra. apply Rle_lt_trans with 1; [lra|]. change 1 with (bpow radix2 0). apply bpow_lt. pose proof emax_2. lia.
Qed.

Section Means.
Variable fs : list fl -> fl.
Hypothesis SUM : forall l, is_sum prec emax l (fs l).
Definition fbool (b : bool) : fl := if b then fone else fzero.

Lemma mask_mean_prob m : m <> [] -> INR (length m) <= bpow radix2 prec ->
  probability prec emax (mask_mean _ _ fs m) /\ ((forall b, In b m -> b = true) -> B2R (mask_mean _ _ fs m) = 1) /\ ((forall b, In b m -> b = false) -> B2R (mask_mean _ _ fs m) = 0).
Proof.
  intros NE L. set (k := fun x : fl => if Req_bool (B2R x) 1 then 1%nat else 0%nat). destruct one_R as [F1 V1].
  assert (K0 : k fzero = O) by (unfold k; rewrite Req_bool_false; [reflexivity|cbn; lra]). assert (K1 : k fone = 1%nat) by (unfold k; rewrite Req_bool_true by exact V1; reflexivity).
  assert (Ks : list_sum (map k (map fbool m)) = length (filter (fun b => b) m)).
  { clear -K0 K1. induction m as [|[|] m IH]; [reflexivity| |]; cbn [map list_sum fold_right fbool filter length]; unfold list_sum in IH; rewrite IH, ?K0, ?K1; reflexivity. }
  assert (Le : (length (filter (fun b => b) m) <= length m)%nat) by (clear; induction m as [|[|] m IH]; cbn; lia).
  destruct (sum_int k (map fbool m) (fs (map fbool m)) (SUM _) K0) as [A B].
  - intros x Hx. apply in_map_iff in Hx. destruct Hx as ([|] & <- & _); unfold fbool; [rewrite K1; exact one_R|]. rewrite K0. split; reflexivity.
  - rewrite Ks. apply Rle_trans with (INR (length m)); [apply le_INR; exact Le|exact L].
  - rewrite Ks in B. destruct (div_prob (fs (map fbool m)) (length m) A) as [P [P1 P0]].
    + destruct m; [congruence|cbn; lia].
    + exact L.
    + rewrite B. split; [apply pos_INR|apply le_INR; exact Le].
    + split; [exact P|]. split; intros H.
      * apply P1. rewrite B. f_equal. clear -H. induction m as [|b m IH]; [reflexivity|]. cbn. rewrite (H b (or_introl eq_refl)). cbn. f_equal. apply IH. intros c Hc. apply H. right. exact Hc.
      * apply P0. rewrite B. replace (filter (fun b => b) m) with (@nil bool); [reflexivity|]. clear -H. induction m as [|b m IH]; [reflexivity|]. cbn. rewrite (H b (or_introl eq_refl)). apply IH. intros c Hc. apply H. right. exact Hc.
Qed.

Definition mask_ok (ms : list (list bool)) : Prop := ms <> [] /\ INR (length ms) <= bpow radix2 prec /\ forall m, In m ms -> m <> [] /\ INR (length m) <= bpow radix2 prec.

Lemma all_mean_prob ms : mask_ok ms -> probability prec emax (all_mean _ _ fs ms) /\ ((forall m b, In m ms -> In b m -> b = true) -> B2R (all_mean _ _ fs ms) = 1) /\ ((forall m b, In m ms -> In b m -> b = false) -> B2R (all_mean _ _ fs ms) = 0).
Proof.
  intros (NE & L & G). assert (Ln : (0 < length ms)%nat) by (destruct ms; [congruence|cbn; lia]).
  assert (PR : forall x, In x (map (mask_mean _ _ fs) ms) -> probability prec emax x) by (intros x Hx; apply in_map_iff in Hx; destruct Hx as (m & <- & Hm); apply mask_mean_prob; apply G; exact Hm).
  destruct (sum_spec prec emax _ _ (SUM (map (mask_mean _ _ fs) ms))) as [A [B [_ C]]].
  - intros x Hx. destruct (PR x Hx) as [Fx Bx]. split; [exact Fx|]. rewrite Rabs_pos_eq; lra.
  - rewrite map_length. exact L.
  - rewrite map_length in B.
    assert (NN : 0 <= B2R (fs (map (mask_mean _ _ fs) ms))).
    { destruct ms as [|m ms]; [congruence|]. assert (In (mask_mean _ _ fs m) (map (mask_mean _ _ fs) (m :: ms))) by (left; reflexivity).
      specialize (C 1 (or_introl eq_refl)). assert (X : forall x, In x (map (mask_mean prec emax fs) (m :: ms)) -> 0 <= 1 * B2R x) by (intros x Hx; destruct (PR x Hx); lra).
      specialize (C X _ H). destruct (PR _ H) as [_ Q]. lra. }
    rewrite Rabs_pos_eq in B by exact NN.
    destruct (div_prob _ (length ms) A Ln L (conj NN B)) as [P [P1 P0]]. unfold all_mean. split; [exact P|].
    assert (XX : forall c, (c = 0%nat \/ c = 1%nat) -> (forall m, In m ms -> B2R (mask_mean _ _ fs m) = INR c) -> B2R (fs (map (mask_mean _ _ fs) ms)) = INR (c * length ms)).
    { intros c Hc H. set (k := fun x : fl => if Req_bool (B2R x) 1 then 1%nat else 0%nat).
      assert (K0 : k fzero = O) by (unfold k; rewrite Req_bool_false; [reflexivity|cbn; lra]).
      assert (Kc : forall m, In m ms -> k (mask_mean _ _ fs m) = c). { intros m Hm. unfold k. rewrite (H m Hm). destruct Hc as [-> | ->]; [rewrite Req_bool_false by (cbn; lra); reflexivity|rewrite Req_bool_true by reflexivity; reflexivity]. }
      assert (Ks : list_sum (map k (map (mask_mean _ _ fs) ms)) = (c * length ms)%nat).
      { clear -Kc. induction ms as [|m ms IH]; [cbn; lia|]. cbn [map list_sum fold_right length]. unfold list_sum in IH. rewrite IH by (intros x Hx; apply Kc; right; exact Hx). rewrite (Kc m (or_introl eq_refl)). lia. }
      rewrite <- Ks. apply (sum_int k); [apply SUM|exact K0| |].
      - intros x Hx. split; [apply PR; exact Hx|]. apply in_map_iff in Hx. destruct Hx as (m & <- & Hm). rewrite (Kc m Hm). apply H. exact Hm.
      - rewrite Ks. apply Rle_trans with (INR (length ms)); [apply le_INR; destruct Hc as [-> | ->]; lia|exact L]. }
    split; intros H.
    + apply P1. rewrite (XX 1%nat); [f_equal; lia|right; reflexivity|]. intros m Hm. destruct (mask_mean_prob m (proj1 (G m Hm)) (proj2 (G m Hm))) as [_ [Q _]]. cbn. apply Q. intros b Hb. exact (H m b Hm Hb).
    + apply P0. rewrite (XX 0%nat); [reflexivity|left; reflexivity|]. intros m Hm. destruct (mask_mean_prob m (proj1 (G m Hm)) (proj2 (G m Hm))) as [_ [_ Q]]. cbn. apply Q. intros b Hb. exact (H m b Hm Hb).
Qed.

(** The accumulated sum of means. *)
Definition accum (ms : list (list (list bool))) (s : fl) : fl := fold_left (fun a m => fadd a (all_mean _ _ fs m)) ms s.
Lemma accum_spec c : (c = 0 \/ c = 1) -> forall ms s n, (forall m, In m ms -> mask_ok m) -> INR (n + length ms) <= bpow radix2 prec -> is_finite s = true -> 0 <= B2R s <= INR n ->
  is_finite (accum ms s) = true /\ 0 <= B2R (accum ms s) <= INR (n + length ms) /\
  (B2R s = c * INR n -> (forall m, In m ms -> B2R (all_mean _ _ fs m) = c) -> B2R (accum ms s) = c * INR (n + length ms)).
Proof.
  intros Hc. induction ms as [|m ms IH]; intros s n G L F B.
  - cbn. rewrite Nat.add_0_r. split; [exact F|]. split; [exact B|]. intros E _. exact E.
  - cbn [accum fold_left]. fold (accum ms (fadd s (all_mean _ _ fs m))).
    destruct (all_mean_prob m (G m (or_introl eq_refl))) as [[Fm Bm] _].
    assert (Ln : INR (S n) <= bpow radix2 prec) by (eapply Rle_trans; [|exact L]; apply le_INR; cbn; lia).
    destruct (fadd_spec prec emax s (all_mean _ _ fs m) (INR (S n)) F Fm (fmt_int prec emax _ Ln)) as [A [V W]].
    + eapply Rle_lt_trans; [exact Ln|apply bpow_lt, (precmax prec emax)].
    + rewrite S_INR. rewrite Rabs_pos_eq; lra.
    + assert (NN : 0 <= B2R (fadd s (all_mean _ _ fs m))) by (rewrite V, <- (rnd_0 prec emax); apply round_le; auto with typeclass_instances; lra).
      rewrite Rabs_pos_eq in W by exact NN.
      destruct (IH (fadd s (all_mean _ _ fs m)) (S n)) as [X [Y Z]].
      * intros k Hk. apply G. right. exact Hk.
      * replace (S n + length ms)%nat with (n + length (m :: ms))%nat by (cbn; lia). exact L.
      * exact A.
      * lra.
      * replace (n + length (m :: ms))%nat with (S n + length ms)%nat by (cbn; lia). split; [exact X|]. split; [exact Y|]. intros E H. apply Z; [|intros k Hk; apply H; right; exact Hk].
        rewrite V, E, (H m (or_introl eq_refl)). replace (c * INR n + c) with (c * INR (S n)) by (rewrite S_INR; ring).
        apply round_generic; auto with typeclass_instances. destruct Hc as [-> | ->]; [rewrite Rmult_0_l; apply generic_format_0|rewrite Rmult_1_l; apply (fmt_int prec emax _ Ln)].
Qed.
End Means.
End Proofs.

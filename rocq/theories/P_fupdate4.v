(** P_fupdate4: infinities and NaN in the norm constraint, and the step itself. *)
From Coq Require Import ZArith Reals.
From Flocq Require Import Core IEEE754.BinarySingleNaN Relative Plus_error.
From Coq Require Import Lia Lra List Permutation Bool Arith.
Import ListNotations.
From Verif Require Import M_float S_float P_float P_float2 M_fwalk S_fwalk P_fwalk P_fwalk2 M_fenergy S_fenergy P_fenergy P_fenergy2 P_fenergy3 M_fpotential S_fpotential P_fpotential M_fupdate S_fupdate P_fupdate P_fupdate2 P_fupdate3.
Open Scope R_scope.

Section Proofs.
Variables prec emax : Z.
Context {Hp : Prec_gt_0 prec}.
Context {He : Prec_lt_emax prec emax}.
Notation fl := (binary_float prec emax).
Notation ex := (SpecFloat.fexp prec emax).
Notation emin := (SpecFloat.emin prec emax).
Notation rnd := (round radix2 ex ZnearestE).
Notation u := (unit_roundoff prec).
Notation fadd := (fadd prec emax). Notation fsub := (fsub prec emax). Notation fmul := (fmul prec emax).
Notation fdiv := (fdiv prec emax). Notation fzero := (fzero prec emax). Notation fone := (fone prec emax).
Notation tiny := (tiny emax).
Notation positive := (positive prec emax).
Notation pinf := (B754_infinity (prec:=prec) (emax:=emax) false).
Notation nan := (B754_nan (prec:=prec) (emax:=emax)).
Local Instance ex_valid13 : Valid_exp ex := FLT_exp_valid emin prec.

Lemma add_inf_l x : positive x -> fadd pinf x = pinf.
Proof. intros [N S]. destruct x as [s|s| |s m e H]; cbn in N, S; try discriminate; subst; reflexivity. Qed.
Lemma add_inf_r x : positive x -> fadd x pinf = pinf.
Proof. intros [N S]. destruct x as [s|s| |s m e H]; cbn in N, S; try discriminate; subst; reflexivity. Qed.
Lemma eval_inf t : (forall x, In x (leaves prec emax t) -> positive x) -> In pinf (leaves prec emax t) -> eval _ _ t = pinf.
Proof.
  induction t as [x|a IHa b IHb]; intros H I; cbn in *; [destruct I as [I|[]]; exact I|].
  apply in_app_or in I. destruct I as [I|I]; [rewrite IHa|rewrite IHb]; try assumption; try (intros x Hx; apply H; apply in_or_app; auto).
  - apply add_inf_l. apply eval_positive. intros x Hx. apply H. apply in_or_app. right. exact Hx.
  - apply add_inf_r. apply eval_positive. intros x Hx. apply H. apply in_or_app. left. exact Hx.
Qed.
Lemma sum_inf l s : is_sum prec emax l s -> (forall x, In x l -> positive x) -> In pinf l -> s = pinf.
Proof.
  intros [t [k [P <-]]] H I. apply eval_inf; [|apply (Permutation_in _ (Permutation_sym P)); apply in_or_app; left; exact I].
  intros x Hx. apply (Permutation_in _ P) in Hx. apply in_app_or in Hx. destruct Hx as [Hx|Hx]; [apply H; exact Hx|apply repeat_spec in Hx; subst; apply zero_positive].
Qed.
Lemma add_nan_l x : fadd nan x = nan. Proof. destruct x; reflexivity. Qed.
Lemma add_nan_r x : fadd x nan = nan. Proof. destruct x; reflexivity. Qed.
Lemma mul_nan_l x : fmul nan x = nan. Proof. destruct x; reflexivity. Qed.
Lemma mul_nan_r x : fmul x nan = nan. Proof. destruct x; reflexivity. Qed.
Lemma div_nan_l x : fdiv nan x = nan. Proof. destruct x; reflexivity. Qed.
Lemma div_nan_r x : fdiv x nan = nan. Proof. destruct x; reflexivity. Qed.
Lemma eval_nan t : In nan (leaves prec emax t) -> eval _ _ t = nan.
Proof. induction t as [x|a IHa b IHb]; intros I; cbn in *; [destruct I as [I|[]]; exact I|]. apply in_app_or in I. destruct I as [I|I]; [rewrite (IHa I); apply add_nan_l|rewrite (IHb I); apply add_nan_r]. Qed.
Lemma sum_nan l s : is_sum prec emax l s -> In nan l -> s = nan.
Proof. intros [t [k [P <-]]] I. apply eval_nan. apply (Permutation_in _ (Permutation_sym P)). apply in_or_app. left. exact I. Qed.

(** Squares. *)
Lemma square_positive x : is_nan x = false -> positive (fmul x x).
Proof. intros N. destruct x as [s|s| |s m e H] eqn:E; [apply pos_square; reflexivity| |discriminate|apply pos_square; reflexivity]. destruct s; split; reflexivity. Qed.
Lemma square_inf s : fmul (B754_infinity s) (B754_infinity s) = pinf.
Proof. destruct s; reflexivity. Qed.
Lemma square_huge x : bpow radix2 emax <= B2R x ^ 2 -> fmul x x = pinf.
Proof.
  intros L. pose proof (bpow_gt_0 radix2 emax) as BP. assert (F : is_finite x = true) by (destruct x; try reflexivity; cbn in L; lra).
  pose proof (Bmult_correct prec emax Hp He mode_NE x x) as C. cbn [round_mode] in C. rewrite Rlt_bool_false in C.
  - rewrite xorb_nilpotent in C. cbn in C. apply sf_inf in C. exact C.
  - rewrite Rabs_pos_eq; [|apply (rnd_ge0 prec emax); pose proof (pow2_ge_0 (B2R x)); nra]. apply round_ge_generic; auto with typeclass_instances; [|lra]. apply (top_fmt prec emax). pose proof (emin_neg prec emax). pose proof (precmax prec emax). pose proof (prec1 prec). lia.
Qed.

Section Sums.
Variable fs : list fl -> fl.
Hypothesis SUM : forall l, is_sum prec emax l (fs l).
Lemma inner_positive' t : (forall l x, In l t -> In x l -> is_nan x = false) -> positive (tree_inner_product prec emax fs t t).
Proof.
  intros H. rewrite inner_self. apply (sum_positive prec emax _ _ (SUM _)). intros s Hs. apply in_map_iff in Hs. destruct Hs as [a [<- Ha]].
  apply (sum_positive prec emax _ _ (SUM _)). intros y Hy. apply in_map_iff in Hy. destruct Hy as [x [<- Hx]]. apply square_positive. apply (H a x Ha Hx).
Qed.
Lemma inner_inf t l x : (forall l x, In l t -> In x l -> is_nan x = false) -> In l t -> In x l -> fmul x x = pinf -> tree_inner_product prec emax fs t t = pinf.
Proof.
  intros H Hl Hx S. rewrite inner_self. apply (sum_inf _ _ (SUM _)).
  - intros s Hs. apply in_map_iff in Hs. destruct Hs as [a [<- Ha]]. apply (sum_positive prec emax _ _ (SUM _)). intros y Hy. apply in_map_iff in Hy. destruct Hy as [z [<- Hz]]. apply square_positive. apply (H a z Ha Hz).
  - apply in_map_iff. exists l. split; [|exact Hl]. apply (sum_inf _ _ (SUM _)).
    + intros y Hy. apply in_map_iff in Hy. destruct Hy as [z [<- Hz]]. apply square_positive. apply (H l z Hl Hz).
    + apply in_map_iff. exists x. split; assumption.
Qed.
Lemma inner_nan t l : In l t -> In nan l -> tree_inner_product prec emax fs t t = nan.
Proof.
  intros Hl Hx. rewrite inner_self. apply (sum_nan _ _ (SUM _)). apply in_map_iff. exists l. split; [|exact Hl]. apply (sum_nan _ _ (SUM _)). apply in_map_iff. exists nan. split; [apply mul_nan_l|exact Hx].
Qed.
Lemma pmean_inf pmapped l : (pmapped = false -> length l = 1%nat) -> INR (length l) <= bpow radix2 prec -> (forall x, In x l -> positive x) -> In pinf l -> pmean_if_pmap prec emax fs pmapped l = pinf.
Proof.
  intros ONE L H I. destruct pmapped; cbn.
  - unfold mean. rewrite (sum_inf _ _ (SUM l) H I). assert (N : (0 < length l)%nat) by (destruct l; [destruct I|cbn; lia]). destruct (of_nat_positive prec emax (length l) N L) as [[_ S] [F P]].
    destruct (of_nat prec emax (length l)) as [s|s| |s m e B]; cbn in F, P, S; try discriminate; [lra|]. subst. reflexivity.
  - specialize (ONE eq_refl). destruct l as [|x [|y r]]; cbn in ONE; try lia. destruct I as [I|[]]. exact I.
Qed.
Lemma pmean_nan pmapped l : (pmapped = false -> length l = 1%nat) -> In nan l -> pmean_if_pmap prec emax fs pmapped l = nan.
Proof.
  intros ONE I. destruct pmapped; cbn; [unfold mean; rewrite (sum_nan _ _ (SUM l) I); apply div_nan_l|]. specialize (ONE eq_refl). destruct l as [|x [|y r]]; cbn in ONE; try lia. destruct I as [I|[]]. exact I.
Qed.
Lemma coefficient_inf c : is_finite c = true -> 0 < B2R c -> coefficient prec emax c pinf = fzero.
Proof.
  intros F C. assert (E : fdiv c pinf = fzero). { pose proof (sign_of_pos prec emax c F C) as S. destruct c as [s|s| |s m e B]; cbn in F, C, S; try discriminate; subst; reflexivity. }
  unfold coefficient. rewrite E. change (Bsqrt mode_NE fzero) with fzero. destruct (one_R prec emax) as [O1 O2]. apply (min_one prec emax); [apply zero_positive|reflexivity|cbn; lra].
Qed.
Lemma coefficient_nan c : coefficient prec emax c nan = nan.
Proof. unfold coefficient. rewrite div_nan_r. reflexivity. Qed.

Lemma constrain_overflow pmapped c ts t l x : is_finite c = true -> 0 < B2R c -> (pmapped = false -> length ts = 1%nat) -> INR (length ts) <= bpow radix2 prec ->
  (forall t l x, In t ts -> In l t -> In x l -> is_nan x = false) -> In t ts -> In l t -> In x l -> fmul x x = pinf ->
  constrain_norm prec emax fs pmapped c ts = map (fun t => multiply_tree_by_scalar prec emax t fzero) ts.
Proof.
  intros F C ONE L N Ht Hl Hx S. unfold constrain_norm. rewrite (pmean_inf pmapped); [rewrite (coefficient_inf c F C); reflexivity|rewrite map_length; exact ONE|rewrite map_length; exact L| |].
  - intros y Hy. apply in_map_iff in Hy. destruct Hy as [t' [<- Ht']]. apply inner_positive'. intros l' x' Hl' Hx'. exact (N t' l' x' Ht' Hl' Hx').
  - apply in_map_iff. exists t. split; [|exact Ht]. apply (inner_inf t l x); try assumption. intros l' x' Hl' Hx'. exact (N t l' x' Ht Hl' Hx').
Qed.
Lemma constrain_nan pmapped c ts t l : (pmapped = false -> length ts = 1%nat) -> In t ts -> In l t -> In nan l ->
  constrain_norm prec emax fs pmapped c ts = map (map (map (fun _ => nan))) ts.
Proof.
  intros ONE Ht Hl Hx. unfold constrain_norm. rewrite (pmean_nan pmapped); [|rewrite map_length; exact ONE|apply in_map_iff; exists t; split; [apply (inner_nan t l); assumption|exact Ht]].
  rewrite coefficient_nan. apply map_ext. intros t'. unfold multiply_tree_by_scalar. apply map_ext. intros l'. apply map_ext. intros x. apply mul_nan_l.
Qed.
End Sums.

Lemma zero_times x : is_finite x = true -> is_finite (fmul fzero x) = true /\ B2R (fmul fzero x) = 0.
Proof. intros F. destruct (scaled_entry prec emax fzero x eq_refl eq_refl) as [A [_ [_ V]]]; [cbn; lra|exact F|]. split; [exact A|]. rewrite V. cbn [B2R fzero]. rewrite Rmult_0_l. apply (rnd_0 prec emax). Qed.
Lemma zero_times_inf s : fmul fzero (B754_infinity s) = nan. Proof. reflexivity. Qed.

(** ** The step *)
Lemma fmt_add (x h : fl) : is_finite x = true -> is_finite h = true -> Rabs (B2R x) <= bpow radix2 (emax - 2) -> Rabs (B2R h) <= bpow radix2 (emax - 2) ->
  is_finite (fadd x h) = true /\ B2R (fadd x h) = rnd (B2R x + B2R h) /\ Rabs (B2R (fadd x h) - (B2R x + B2R h)) <= u * Rabs (B2R x + B2R h).
Proof.
  intros Fx Fh Bx Bh. destruct (fadd_spec prec emax x h (bpow radix2 (emax - 1)) Fx Fh) as [A [B _]].
  - exact (top_fmt prec emax _ (emax1 prec emax)).
  - apply bpow_lt. lia.
  - eapply Rle_trans; [apply Rabs_triang|]. replace (emax - 1)%Z with (1 + (emax - 2))%Z by lia. rewrite bpow_plus. change (bpow radix2 1) with 2. lra.
  - split; [exact A|]. split; [exact B|]. rewrite B. apply (rnd_plus_err prec emax); apply (fmt_B2R prec emax).
Qed.
(** Steps that are too small are lost. *)
Lemma lost_pos x h : generic_format radix2 ex x -> 0 < x -> Rabs h < u / 2 * x -> rnd (x + h) = x.
Proof.
  intros FX X0 H. apply Rabs_lt_inv in H.
  assert (UG : x * u < ulp radix2 ex x). { rewrite <- (Rabs_pos_eq x) at 1 by lra. apply (ulp_FLT_gt radix2 emin prec). }
  assert (SU : (x + h) < (x + succ radix2 ex x) / 2) by (rewrite succ_eq_pos by lra; lra).
  assert (PD : x * u <= x - pred radix2 ex x).
  { rewrite pred_eq_pos by lra. unfold pred_pos. destruct (Req_bool_spec x (bpow radix2 (mag radix2 x - 1))) as [E|E]; [|lra].
    set (e := (mag radix2 x - 1)%Z) in *. assert (Q : bpow radix2 (e - prec) <= bpow radix2 (ex e)) by (apply bpow_le; unfold SpecFloat.fexp; lia).
    unfold unit_roundoff. rewrite E at 1. rewrite <- bpow_plus. replace (e + - prec)%Z with (e - prec)%Z by lia. lra. }
  apply Rle_antisym.
  - apply (round_N_le_midp radix2 ex (fun z => negb (Z.even z))); assumption.
  - apply (round_N_ge_midp radix2 ex (fun z => negb (Z.even z))); [exact FX|]. lra.
Qed.
Lemma lost x h : generic_format radix2 ex x -> Rabs h < u / 2 * Rabs x -> rnd (x + h) = x.
Proof.
  intros FX H. destruct (Rtotal_order x 0) as [N|[E|P]].
  - rewrite (Rabs_left x) in H by exact N. replace (x + h) with (- (- x + - h)) by ring. rewrite round_NE_opp, lost_pos; [ring|apply generic_format_opp; exact FX|lra|rewrite Rabs_Ropp; exact H].
  - rewrite E, Rabs_R0, Rmult_0_r in H. pose proof (Rabs_pos h). lra.
  - rewrite (Rabs_pos_eq x) in H by lra. apply lost_pos; assumption.
Qed.
Lemma trace_entry (g t : fl) : is_finite g = true -> is_finite t = true -> is_finite (fadd g (fmul fzero t)) = true /\ B2R (fadd g (fmul fzero t)) = B2R g.
Proof.
  intros Fg Ft. destruct (zero_times t Ft) as [A V]. pose proof (Bplus_correct prec emax Hp He mode_NE g (fmul fzero t) Fg A) as C. cbn [round_mode] in C. rewrite V, Rplus_0_r, (rnd_id prec emax) in C.
  rewrite Rlt_bool_true in C by apply abs_B2R_lt_emax. destruct C as [C1 [C2 _]]. split; assumption.
Qed.
Lemma raw_entry (lr g : fl) : is_finite lr = true -> is_finite g = true -> Rabs (B2R lr * B2R g) <= bpow radix2 (emax - 1) ->
  is_finite (fmul (Bopp lr) g) = true /\ Rabs (B2R (fmul (Bopp lr) g) - (- (B2R lr * B2R g))) <= u * Rabs (B2R lr * B2R g) + u * bpow radix2 (2 - emax).
Proof.
  intros Fl Fg B. assert (E : B2R (Bopp lr) * B2R g = - (B2R lr * B2R g)) by (rewrite B2R_Bopp; ring).
  destruct (mul_fin prec emax (Bopp lr) g) as [A V]; [rewrite is_finite_Bopp; exact Fl|exact Fg|rewrite E, Rabs_Ropp; exact B|]. split; [exact A|]. rewrite V, E, round_NE_opp.
  set (y := B2R lr * B2R g). replace (- rnd y - - y) with (- (rnd y - y)) by ring. rewrite Rabs_Ropp. change (bpow radix2 (2 - emax)) with tiny.
  destruct (Rle_lt_dec 0 y) as [P0|P0]; [rewrite (Rabs_pos_eq y) by exact P0; apply (rnd_abs_err prec emax); exact P0|].
  assert (P1 : 0 <= - y) by lra. pose proof (rnd_abs_err prec emax _ P1) as Q. rewrite round_NE_opp in Q. rewrite (Rabs_left y) by exact P0. replace (rnd y - y) with (- (- rnd y - - y)) by ring. rewrite Rabs_Ropp. exact Q.
Qed.
End Proofs.

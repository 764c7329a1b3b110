(** P_fupdate: signs, special values and sizes in the norm constraint. *)
From Coq Require Import ZArith Reals.
From Flocq Require Import Core IEEE754.BinarySingleNaN.
From Coq Require Import Lia Lra List Permutation Bool Arith.
Import ListNotations.
From Verif Require Import M_float S_float P_float P_float2 M_fwalk S_fwalk P_fwalk P_fwalk2 M_fenergy S_fenergy P_fenergy P_fenergy2 P_fenergy3 M_fpotential S_fpotential P_fpotential M_fupdate S_fupdate.
Open Scope R_scope.

Lemma zip_self {A B} (f : A -> A -> B) l : zip_with f l l = map (fun x => f x x) l.
Proof. induction l as [|x l IH]; cbn; [reflexivity|rewrite IH; reflexivity]. Qed.
Lemma Forall2_map_l {A B} (rel : B -> A -> Prop) (f : A -> B) l : (forall x, In x l -> rel (f x) x) -> Forall2 rel (map f l) l.
Proof. induction l as [|x l IH]; intros H; cbn; constructor; [apply H; left; reflexivity|apply IH; intros y Hy; apply H; right; exact Hy]. Qed.

Section Proofs.
Variables prec emax : Z.
Context {Hp : Prec_gt_0 prec}.
Context {He : Prec_lt_emax prec emax}.
Notation fl := (binary_float prec emax).
Notation ex := (SpecFloat.fexp prec emax).
Notation emin := (SpecFloat.emin prec emax).
Notation rnd := (round radix2 ex ZnearestE).
Notation u := (unit_roundoff prec).
Notation fadd := (fadd prec emax). Notation fsub := (fsub prec emax). Notation fmul := (fmul prec emax).
Notation fdiv := (fdiv prec emax). Notation fzero := (fzero prec emax). Notation fone := (fone prec emax).
Notation pinf := (B754_infinity (prec:=prec) (emax:=emax) false).
Local Instance ex_valid10 : Valid_exp ex := FLT_exp_valid emin prec.

(** A number that is not negative (and not -0), or +inf. *)
Definition positive (x : fl) : Prop := is_nan x = false /\ Bsign x = false.
Lemma sf_inf s : forall x : fl, B2SF x = SpecFloat.S754_infinity s -> x = B754_infinity s.
Proof. intros x H. destruct x; cbn in H; try discriminate. injection H as ->. reflexivity. Qed.
Lemma positive_R x : positive x -> is_finite x = true -> 0 <= B2R x.
Proof. intros [_ S] F. apply sign_pos; assumption. Qed.
Lemma positive_cases x : positive x -> x = pinf \/ is_finite x = true.
Proof. intros [N S]. destruct x; cbn in *; try discriminate; [right; reflexivity| subst; left; reflexivity|right; reflexivity]. Qed.
Lemma finite_nan (x : fl) : is_finite x = true -> is_nan x = false.
Proof. destruct x; cbn; congruence. Qed.

Lemma pos_add x y : positive x -> positive y -> positive (fadd x y).
Proof.
  intros Px Py. destruct (positive_cases x Px) as [->|Fx]; [destruct (positive_cases y Py) as [->|Fy]; [split; reflexivity|destruct y; cbn in Fy; try discriminate; split; reflexivity]|].
  destruct (positive_cases y Py) as [->|Fy]; [destruct x; cbn in Fx; try discriminate; split; reflexivity|].
  pose proof (Bplus_correct prec emax Hp He mode_NE x y Fx Fy) as C. cbn [round_mode] in C. unfold M_float.fadd.
  destruct (Rlt_bool _ _).
  - destruct C as [_ [C2 C3]]. split; [apply finite_nan; exact C2|]. rewrite C3. pose proof (positive_R x Px Fx). pose proof (positive_R y Py Fy).
    destruct (Rcompare_spec (B2R x + B2R y) 0); [lra| |reflexivity]. rewrite (proj2 Px), (proj2 Py). reflexivity.
  - destruct C as [C1 _]. rewrite (proj2 Px) in C1. cbn in C1. apply sf_inf in C1. rewrite C1. split; reflexivity.
Qed.
Lemma mul_sign x y : is_finite x = true -> is_finite y = true -> is_nan (fmul x y) = false /\ Bsign (fmul x y) = xorb (Bsign x) (Bsign y).
Proof.
  intros Fx Fy. pose proof (Bmult_correct prec emax Hp He mode_NE x y) as C. cbn [round_mode] in C. unfold M_float.fmul.
  destruct (Rlt_bool _ _).
  - destruct C as [_ [C2 C3]]. rewrite Fx, Fy in C2. cbn in C2. pose proof (finite_nan _ C2) as N. split; [exact N|apply C3; exact N].
  - cbn in C. apply sf_inf in C. rewrite C. split; reflexivity.
Qed.
Lemma pos_square x : is_finite x = true -> positive (fmul x x).
Proof. intros F. destruct (mul_sign x x F F) as [N S]. split; [exact N|]. rewrite S. apply xorb_nilpotent. Qed.
Lemma pos_div x y : positive x -> is_finite x = true -> 0 < B2R x -> positive y -> positive (fdiv x y).
Proof.
  intros Px Fx X0 Py. destruct (positive_cases y Py) as [->|Fy].
  - destruct x; cbn in Fx; try discriminate; cbn in X0; [lra|]. destruct Px as [_ S]. cbn in S. subst. split; reflexivity.
  - destruct (Req_dec (B2R y) 0) as [Z|NZ].
    + destruct y; cbn in Fy; try discriminate.
      * destruct x; cbn in Fx; try discriminate; cbn in X0; [lra|]. destruct Px as [_ S]. destruct Py as [_ S']. cbn in S, S'. subst. split; reflexivity.
      * exfalso. cbn in Z. destruct s; [destruct Py as [_ S]; discriminate|]. unfold F2R in Z. cbn in Z. pose proof (bpow_gt_0 radix2 e). pose proof (IZR_lt 0 (Z.pos m) ltac:(lia)). nra.
    + pose proof (Bdiv_correct prec emax Hp He mode_NE x y NZ) as C. cbn [round_mode] in C. unfold M_fwalk.fdiv. destruct (Rlt_bool _ _).
      * destruct C as [_ [C2 C3]]. rewrite Fx in C2. pose proof (finite_nan _ C2) as N. split; [exact N|]. rewrite (C3 N), (proj2 Px), (proj2 Py). reflexivity.
      * rewrite (proj2 Px), (proj2 Py) in C. cbn in C. apply sf_inf in C. rewrite C. split; reflexivity.
Qed.
Lemma pos_sqrt x : positive x -> positive (Bsqrt mode_NE x) /\ (is_finite x = true -> is_finite (Bsqrt mode_NE x) = true /\ B2R (Bsqrt mode_NE x) = rnd (sqrt (B2R x))).
Proof.
  intros Px. pose proof (Bsqrt_correct prec emax Hp He mode_NE x) as [C1 [C2 C3]]. cbn [round_mode] in C1.
  destruct (positive_cases x Px) as [->|F]; [split; [split; reflexivity|discriminate]|].
  assert (FS : is_finite (Bsqrt mode_NE x) = true). { rewrite C2. destruct x; cbn in F; try discriminate; [reflexivity|]. destruct Px as [_ S]. cbn in S. rewrite S. reflexivity. }
  pose proof (finite_nan _ FS) as N. split; [split; [exact N|rewrite (C3 N); apply Px]|intros _; split; assumption].
Qed.

(** Sums. *)
Lemma eval_positive t : (forall x, In x (leaves prec emax t) -> positive x) -> positive (eval _ _ t).
Proof. induction t as [x|a IHa b IHb]; intros H; cbn in *; [apply H; left; reflexivity|apply pos_add; [apply IHa|apply IHb]; intros x Hx; apply H; apply in_or_app; [left|right]; exact Hx]. Qed.
Lemma zero_positive : positive fzero. Proof. split; reflexivity. Qed.
Lemma sum_positive l s : is_sum prec emax l s -> (forall x, In x l -> positive x) -> positive s.
Proof.
  intros [t [k [P <-]]] H. apply eval_positive. intros x Hx. apply (Permutation_in _ P) in Hx. apply in_app_or in Hx. destruct Hx as [Hx|Hx]; [apply H; exact Hx|apply repeat_spec in Hx; subst; apply zero_positive].
Qed.
Lemma of_nat_positive n : (0 < n)%nat -> INR n <= bpow radix2 prec -> positive (of_nat prec emax n) /\ is_finite (of_nat prec emax n) = true /\ 0 < B2R (of_nat prec emax n).
Proof.
  intros N L. destruct (of_nat_R prec emax n L) as [F V]. assert (P : 0 < B2R (of_nat prec emax n)) by (rewrite V; apply lt_0_INR; exact N).
  split; [|split; assumption]. split; [apply finite_nan; exact F|apply (sign_of_pos prec emax); assumption].
Qed.
Lemma pos_div_any x y : positive x -> positive y -> is_finite y = true -> 0 < B2R y -> positive (fdiv x y).
Proof.
  intros Px Py Fy Y0. destruct (positive_cases x Px) as [->|Fx].
  - destruct y; cbn in Fy; try discriminate; cbn in Y0; [lra|]. destruct Py as [_ S]. cbn in S. subst. split; reflexivity.
  - pose proof (Bdiv_correct prec emax Hp He mode_NE x y ltac:(lra)) as C. cbn [round_mode] in C. unfold M_fwalk.fdiv. destruct (Rlt_bool _ _).
    + destruct C as [_ [C2 C3]]. rewrite Fx in C2. pose proof (finite_nan _ C2) as N. split; [exact N|]. rewrite (C3 N), (proj2 Px), (proj2 Py). reflexivity.
    + rewrite (proj2 Px), (proj2 Py) in C. cbn in C. apply sf_inf in C. rewrite C. split; reflexivity.
Qed.

(** The coefficient. *)
Lemma coefficient_spec c s : is_finite c = true -> 0 < B2R c -> positive s ->
  let k := coefficient prec emax c s in is_finite k = true /\ Bsign k = false /\ 0 <= B2R k <= 1.
Proof.
  intros Fc C0 Ps k. assert (Pc : positive c) by (split; [apply finite_nan; exact Fc|apply (sign_of_pos prec emax); assumption]).
  pose proof (pos_div c s Pc Fc C0 Ps) as Pd. destruct (pos_sqrt _ Pd) as [Pq _]. unfold k, coefficient, fmin. set (q := Bsqrt mode_NE (fdiv c s)) in *.
  destruct (one_R prec emax) as [O1 O2]. rewrite (proj1 Pq), (finite_nan _ O1).
  destruct (positive_cases q Pq) as [E|F].
  - rewrite E. destruct (Bleb pinf fone) eqn:B; [exfalso; destruct fone as [| | |sg m e H]; cbn in B; try discriminate; destruct sg; discriminate|].
    split; [exact O1|]. rewrite O2. split; [apply (sign_of_pos prec emax); [exact O1|rewrite O2; lra]|lra].
  - rewrite (Bleb_correct _ _ q fone F O1). destruct (Rle_bool_spec (B2R q) (B2R fone)) as [L|L].
    + split; [exact F|]. split; [apply Pq|]. rewrite O2 in L. split; [apply positive_R; assumption|exact L].
    + split; [exact O1|]. rewrite O2. split; [apply (sign_of_pos prec emax); [exact O1|rewrite O2; lra]|lra].
Qed.
Lemma scaled_entry k x : is_finite k = true -> Bsign k = false -> 0 <= B2R k <= 1 -> is_finite x = true ->
  is_finite (fmul k x) = true /\ Bsign (fmul k x) = Bsign x /\ Rabs (B2R (fmul k x)) <= Rabs (B2R x) /\ B2R (fmul k x) = rnd (B2R k * B2R x).
Proof.
  intros Fk Sk K Fx. assert (A : Rabs (B2R k * B2R x) <= Rabs (B2R x)). { rewrite Rabs_mult, (Rabs_pos_eq (B2R k)) by apply K. pose proof (Rabs_pos (B2R x)). nra. }
  assert (FM : generic_format radix2 ex (Rabs (B2R x))) by (apply generic_format_abs, (fmt_B2R prec emax)).
  pose proof (rnd_abs_le prec emax _ _ FM A) as RB.
  pose proof (Bmult_correct prec emax Hp He mode_NE k x) as C. cbn [round_mode] in C.
  rewrite Rlt_bool_true in C by (eapply Rle_lt_trans; [exact RB|apply abs_B2R_lt_emax]). destruct C as [C1 [C2 C3]].
  assert (F : is_finite (fmul k x) = true) by (unfold M_float.fmul; rewrite C2, Fk, Fx; reflexivity).
  split; [exact F|]. split; [unfold M_float.fmul in *; rewrite (C3 (finite_nan _ F)), Sk; destruct (Bsign x); reflexivity|]. unfold M_float.fmul. rewrite C1. split; [exact RB|reflexivity].
Qed.

Section Sums.
Variable fs : list fl -> fl.
Hypothesis SUM : forall l, is_sum prec emax l (fs l).

Lemma inner_self t : tree_inner_product prec emax fs t t = fs (map (fun a => fs (map (fun x => fmul x x) a)) t).
Proof. unfold tree_inner_product. rewrite zip_self. f_equal. apply map_ext. intros a. f_equal. apply zip_self. Qed.
Lemma inner_positive t : (forall l x, In l t -> In x l -> is_finite x = true) -> positive (tree_inner_product prec emax fs t t).
Proof.
  intros H. rewrite inner_self. apply (sum_positive _ _ (SUM _)). intros s Hs. apply in_map_iff in Hs. destruct Hs as [a [<- Ha]].
  apply (sum_positive _ _ (SUM _)). intros y Hy. apply in_map_iff in Hy. destruct Hy as [x [<- Hx]]. apply pos_square. apply (H a x Ha Hx).
Qed.
Lemma mean_positive pmapped l : l <> [] -> INR (length l) <= bpow radix2 prec -> (forall x, In x l -> positive x) -> positive (pmean_if_pmap prec emax fs pmapped l).
Proof.
  intros N L H. destruct pmapped; cbn.
  - unfold mean. destruct (of_nat_positive (length l)) as [A [B C]]; [destruct l; [congruence|cbn; lia]|exact L|]. apply pos_div_any; try assumption. apply (sum_positive _ _ (SUM _)). exact H.
  - destruct l; [congruence|]. apply H. left. reflexivity.
Qed.

Lemma constrain_safe pmapped c ts : ts <> [] -> INR (length ts) <= bpow radix2 prec -> is_finite c = true -> 0 < B2R c -> all_numbers prec emax ts ->
  entrywise prec emax (fun h g => is_finite h = true /\ Bsign h = Bsign g /\ Rabs (B2R h) <= Rabs (B2R g)) (constrain_norm prec emax fs pmapped c ts) ts.
Proof.
  intros N L Fc C0 AN. unfold constrain_norm. set (sq := pmean_if_pmap _ _ _ _ _).
  assert (P : positive sq). { apply mean_positive; [destruct ts; [congruence|discriminate]|rewrite map_length; exact L|]. intros x Hx. apply in_map_iff in Hx. destruct Hx as [t [<- Ht]]. apply inner_positive. intros l y Hl Hy. apply (AN t l y Ht Hl Hy). }
  destruct (coefficient_spec c sq Fc C0 P) as [K1 [K2 K3]]. unfold entrywise. apply Forall2_map_l. intros t Ht. apply Forall2_map_l. intros l Hl. apply Forall2_map_l. intros x Hx.
  destruct (scaled_entry (coefficient prec emax c sq) x K1 K2 K3 (AN t l x Ht Hl Hx)) as [A [B [C _]]]. auto.
Qed.
End Sums.
End Proofs.

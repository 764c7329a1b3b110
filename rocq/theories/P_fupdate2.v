(** P_fupdate2: accuracy of the norm constraint. *)
From Coq Require Import ZArith Reals.
From Flocq Require Import Core IEEE754.BinarySingleNaN.
From Coq Require Import Lia Lra List Permutation Bool Arith.
Import ListNotations.
From Verif Require Import M_float S_float P_float P_float2 M_fwalk S_fwalk P_fwalk P_fwalk2 M_fenergy S_fenergy P_fenergy P_fenergy2 P_fenergy3 M_fpotential S_fpotential P_fpotential M_fupdate S_fupdate P_fupdate.
Open Scope R_scope.

Lemma total_app l m : total (l ++ m) = total l + total m.
Proof. unfold total. induction l as [|x l IH]; cbn [app fold_right]; [ring|]. rewrite IH. ring. Qed.
Lemma total_concat {T} (f : T -> R) (t : list (list T)) : total (map f (concat t)) = total (map (fun a => total (map f a)) t).
Proof. induction t as [|a t IH]; [reflexivity|]. cbn [concat map]. rewrite map_app, total_app, IH. reflexivity. Qed.
Lemma total_le {T} (f h : T -> R) l : (forall z, In z l -> f z <= h z) -> total (map f l) <= total (map h l).
Proof. induction l as [|z l IH]; intros H; [cbn; lra|]. change (f z + total (map f l) <= h z + total (map h l)). pose proof (H z (or_introl eq_refl)). specialize (IH (fun w Hw => H w (or_intror Hw))). lra. Qed.
Lemma total_lin {T} (f : T -> R) a b l : total (map (fun z => a * f z + b) l) = a * total (map f l) + INR (length l) * b.
Proof. induction l as [|z l IH]; [unfold total; cbn [map fold_right length INR]; ring|]. change (a * f z + b + total (map (fun z => a * f z + b) l) = a * (f z + total (map f l)) + INR (S (length l)) * b). rewrite IH, S_INR. ring. Qed.
Lemma leaf_length {T} (t : list (list T)) a : In a t -> (length a <= length (concat t))%nat.
Proof. induction t as [|b t IH]; intros H; [destruct H|]. cbn [concat]. rewrite app_length. destruct H as [->|H]; [lia|specialize (IH H); lia]. Qed.

Section Proofs.
Variables prec emax : Z.
Context {Hp : Prec_gt_0 prec}.
Context {He : Prec_lt_emax prec emax}.
Notation fl := (binary_float prec emax).
Notation ex := (SpecFloat.fexp prec emax).
Notation emin := (SpecFloat.emin prec emax).
Notation rnd := (round radix2 ex ZnearestE).
Notation u := (unit_roundoff prec).
Notation fadd := (fadd prec emax). Notation fsub := (fsub prec emax). Notation fmul := (fmul prec emax).
Notation fdiv := (fdiv prec emax). Notation fzero := (fzero prec emax). Notation fone := (fone prec emax).
Notation near := (near u).
Notation g := (g u).
Notation tiny := (tiny emax).
Notation positive := (positive prec emax).
Notation inner := (tree_inner_product prec emax).
Notation M := (bpow radix2 (emax - 4)).
Local Instance ex_valid11 : Valid_exp ex := FLT_exp_valid emin prec.
Variable fs : list fl -> fl.
Hypothesis SUM : forall l, is_sum prec emax l (fs l).

Definition Y (t : list (list fl)) : R := total (map (fun x => B2R (fmul x x)) (concat t)).
Notation X := (squared_length prec emax).

Section Fixed.
Variable n : nat.
Hypothesis N1 : (1 <= n)%nat.
Hypothesis SMALL : INR (4 * (2 * n + 8)) * u <= 1.
Notation w0 := (u * tiny).

Lemma nu m : (m <= 2 * n + 8)%nat -> INR m * u <= / 4.
Proof. intros H. pose proof (u_pos prec). rewrite mult_INR in SMALL. replace (INR 4) with 4 in SMALL by (cbn; lra). apply le_INR in H. nra. Qed.
Lemma nu2 m : (m <= 2 * n + 8)%nat -> INR m * u <= / 2.
Proof. intros H. pose proof (nu m H). lra. Qed.
Lemma prec6 : (6 <= prec)%Z.
Proof.
  destruct (Z_le_gt_dec 6 prec) as [H|H]; [exact H|]. exfalso. pose proof (nu 10 ltac:(lia)) as K. unfold unit_roundoff in K.
  assert (B : bpow radix2 (-5) <= bpow radix2 (- prec)) by (apply bpow_le; lia). change (bpow radix2 (-5)) with (/ 32) in B. cbn [INR] in K. lra.
Qed.
Lemma M8 : 8 <= M.
Proof. change 8 with (bpow radix2 3). apply bpow_le. pose proof prec6. pose proof (precmax prec emax). lia. Qed.
Lemma tiny_small : tiny <= / 32.
Proof. change (/ 32) with (bpow radix2 (-5)). apply bpow_le. pose proof prec6. pose proof (precmax prec emax). lia. Qed.
Lemma M_top : bpow radix2 (emax - 1) = 8 * M.
Proof. replace (emax - 1)%Z with (3 + (emax - 4))%Z by lia. rewrite bpow_plus. reflexivity. Qed.
Lemma n_tiny : INR n * tiny <= / 2.
Proof.
  pose proof (nu n ltac:(lia)) as H. unfold unit_roundoff in H. pose proof (precmax prec emax) as PM. pose proof (pos_INR n) as N0.
  assert (E : tiny <= 2 * bpow radix2 (- prec)). { change 2 with (bpow radix2 1). rewrite <- bpow_plus. apply bpow_le. lia. } nra.
Qed.

Section Tree.
Variable t : list (list fl).
Hypothesis FIN : forall l x, In l t -> In x l -> is_finite x = true.
Hypothesis LEN : (length (concat t) + length t <= n)%nat.
Hypothesis BOUND : X t <= M / INR n.

Lemma n_pos : 0 < INR n. Proof. apply lt_0_INR. lia. Qed.
Lemma Mn : 0 < M / INR n <= M.
Proof. pose proof n_pos. pose proof M8. assert (1 <= INR n) by (change 1 with (INR 1); apply le_INR; exact N1). assert (0 < / INR n) by (apply Rinv_0_lt_compat; assumption). assert (/ INR n <= 1) by (rewrite <- Rinv_1; apply Rinv_le_contravar; lra). unfold Rdiv. split; nra. Qed.
Lemma entry_bound x : In x (concat t) -> is_finite x = true /\ B2R x ^ 2 <= M.
Proof.
  intros H. split; [apply in_concat in H; destruct H as [l [H1 H2]]; exact (FIN l x H1 H2)|]. apply Rle_trans with (X t); [|pose proof Mn; lra].
  unfold squared_length. clear FIN LEN BOUND. induction (concat t) as [|y l IH]; [destruct H|]. change (B2R x ^ 2 <= B2R y ^ 2 + total (map (fun x : fl => B2R x ^ 2) l)).
  assert (P : 0 <= total (map (fun x : fl => B2R x ^ 2) l)) by (apply total_nonneg; intros; apply pow2_ge_0). destruct H as [->|H]; [lra|]. specialize (IH H). pose proof (pow2_ge_0 (B2R y)). lra.
Qed.
Lemma entry_square x : In x (concat t) -> is_finite (fmul x x) = true /\ close prec emax 3 (B2R x ^ 2) (B2R (fmul x x)).
Proof.
  intros H. destruct (entry_bound x H) as [F B]. destruct (square_close prec emax x (Rabs (B2R x)) F) as [A C].
  - apply near_refl; [exact (uu prec)|apply Rabs_pos].
  - rewrite pow2_abs, M_top. pose proof M8. lra.
  - rewrite pow2_abs in C. split; assumption.
Qed.
Lemma XY : 0 <= X t /\ 0 <= Y t /\ X t <= (Y t + INR n * w0) * g ^ 3 /\ Y t <= X t * g ^ 3 + INR n * w0.
Proof.
  destruct (close_total prec emax 3 (fun x : fl => B2R x ^ 2) (fun x => B2R (fmul x x)) (concat t)) as [A [B [C D]]]; [intros z Hz; apply entry_square; exact Hz|].
  assert (L : INR (length (concat t)) <= INR n) by (apply le_INR; lia). pose proof (u_pos prec). pose proof (tiny_pos emax). assert (0 < w0) by nra. pose proof (gp u (uu prec) 3).
  split; [exact A|]. split; [exact B|]. split.
  - eapply Rle_trans; [exact C|]. apply Rmult_le_compat_r; [lra|]. unfold Y. apply Rplus_le_compat_l. apply Rmult_le_compat_r; lra.
  - eapply Rle_trans; [exact D|]. apply Rplus_le_compat_l. apply Rmult_le_compat_r; lra.
Qed.
Lemma Y_bound : INR n * Y t <= 3 * M.
Proof.
  destruct XY as [A [B [_ D]]]. pose proof M8. pose proof n_pos as NP. assert (G : g ^ 3 <= 2) by (apply g_two; [exact (uu prec)|apply (nu2 3); lia]).
  assert (E : INR n * X t <= M). { apply (Rmult_le_compat_l (INR n)) in BOUND; [|lra]. unfold Rdiv in BOUND. rewrite (Rmult_comm M), <- Rmult_assoc, Rinv_r, Rmult_1_l in BOUND by lra. exact BOUND. }
  assert (E0 : 0 <= INR n * X t) by (apply Rmult_le_pos; lra).
  assert (W : INR n * (INR n * w0) <= 1). { pose proof (nu n ltac:(lia)) as NU. pose proof n_tiny as NT. replace (INR n * (INR n * w0)) with ((INR n * u) * (INR n * tiny)) by ring. pose proof (tiny_pos emax). pose proof (u_pos prec). assert (0 <= INR n * u) by nra. assert (0 <= INR n * tiny) by nra. nra. }
  apply (Rmult_le_compat_l (INR n)) in D; [|lra]. rewrite Rmult_plus_distr_l, <- Rmult_assoc in D. nra.
Qed.
Lemma inner_near : is_finite (inner fs t t) = true /\ near n (Y t) (B2R (inner fs t t)).
Proof.
  rewrite inner_self. set (S := fun a => fs (map (fun x => fmul x x) a)). pose proof (uu prec) as U. pose proof M8 as MM. pose proof n_pos as NP.
  assert (YB : Y t <= 3 * M). { pose proof Y_bound. assert (1 <= INR n) by (change 1 with (INR 1); apply le_INR; exact N1). destruct XY as [_ [Y0 _]]. nra. }
  assert (LE : forall a, In a t -> is_finite (S a) = true /\ near (length (concat t)) (total (map (fun x => B2R (fmul x x)) a)) (B2R (S a))).
  { intros a Ha. assert (IN : forall x, In x a -> In x (concat t)) by (intros x Hx; apply in_concat; exists a; split; assumption).
    assert (NB : total (map (fun x => B2R (fmul x x)) a) <= Y t).
    { unfold Y. rewrite total_concat. clear - Ha IN FIN BOUND LEN N1 SMALL. assert (Q : forall b, In b t -> 0 <= total (map (fun x => B2R (fmul x x)) b)).
      { intros b Hb. apply total_nonneg. intros z Hz. destruct (entry_square z) as [_ C]; [apply in_concat; exists b; split; assumption|]. apply C. }
      clear IN FIN BOUND LEN. induction t as [|b r IH]; [destruct Ha|]. change (total (map (fun x => B2R (fmul x x)) a) <= total (map (fun x => B2R (fmul x x)) b) + total (map (fun a => total (map (fun x => B2R (fmul x x)) a)) r)).
      assert (0 <= total (map (fun a => total (map (fun x => B2R (fmul x x)) a)) r)) by (apply total_nonneg; intros z Hz; apply Q; right; exact Hz).
      destruct Ha as [->|Ha]; [lra|]. specialize (IH Ha (fun c Hc => Q c (or_intror Hc))). pose proof (Q b (or_introl eq_refl)). lra. }
    destruct (sum_near prec emax _ _ (SUM (map (fun x => fmul x x) a))) as [F K].
    - intros y Hy. apply in_map_iff in Hy. destruct Hy as [x [<- Hx]]. destruct (entry_square x (IN x Hx)) as [F C]. split; [exact F|apply C].
    - rewrite map_length. assert (G : g ^ length a <= 2) by (apply g_two; [exact U|apply nu2; pose proof (leaf_length t a Ha); lia]).
      assert (E : rsum prec emax (map (fun x => fmul x x) a) = total (map (fun x => B2R (fmul x x)) a)) by (unfold rsum, total; rewrite map_map; reflexivity). rewrite E, M_top.
      assert (0 <= total (map (fun x => B2R (fmul x x)) a)) by (apply total_nonneg; intros z Hz; destruct (entry_square z (IN z Hz)) as [_ C]; apply C). pose proof (gp u U (length a)). nra.
    - split; [exact F|]. rewrite map_length in K. unfold rsum in K. rewrite map_map in K. apply (near_mono u U) with (1 := leaf_length t a Ha). exact K. }
  assert (NT : near (length (concat t)) (Y t) (total (map (fun a => B2R (S a)) t))) by (unfold Y; rewrite total_concat; apply near_total; [exact U|]; intros a Ha; apply LE; exact Ha).
  assert (RS : rsum prec emax (map S t) = total (map (fun a => B2R (S a)) t)) by (unfold rsum, total; rewrite map_map; reflexivity).
  destruct (sum_near prec emax _ _ (SUM (map S t))) as [F K].
  - intros y Hy. apply in_map_iff in Hy. destruct Hy as [a [<- Ha]]. destruct (LE a Ha) as [F [_ [P _]]]. split; assumption.
  - rewrite map_length, RS, M_top. destruct NT as [Y0 [T0 [_ T1]]]. assert (G : g ^ (length (concat t) + length t) <= 2) by (apply g_two; [exact U|apply nu2; lia]). rewrite pow_add in G.
    pose proof (gp u U (length t)). pose proof (gp u U (length (concat t))). apply Rle_trans with (Y t * g ^ length (concat t) * g ^ length t); [apply Rmult_le_compat_r; lra|]. rewrite Rmult_assoc. nra.
  - split; [exact F|]. rewrite map_length, RS in K. apply (near_mono u U) with (1 := LEN). apply (near_trans u U) with (1 := NT). exact K.
Qed.
End Tree.
End Fixed.
End Proofs.

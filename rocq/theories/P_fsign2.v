(** P_fsign2: sums of two numbers in any order, and the accuracy of the symmetrised functions. *)
From Coq Require Import ZArith Reals.
From Flocq Require Import Core IEEE754.BinarySingleNaN.
From Coq Require Import Lia Lra List Bool Arith Permutation.
Import ListNotations.
From Verif Require Import M_float S_float P_float P_float2 M_fenergy S_fenergy P_fenergy P_fwalk M_fsign S_fsign P_fsign.
Open Scope R_scope.

Section Sign.
Variables prec emax : Z.
Context {Hp : Prec_gt_0 prec}.
Context {He : Prec_lt_emax prec emax}.
Notation fl := (binary_float prec emax).
Notation fadd := (fadd prec emax).
Notation fmul := (fmul prec emax).
Notation fzero := (fzero prec emax).
Notation same := (same prec emax).
Notation opposite := (opposite prec emax).
Notation u := (unit_roundoff prec).

Definition nonzero (x : fl) : bool := match x with B754_zero _ => false | _ => true end.
Lemma zero_add x y : nonzero x = false -> same (fadd x y) y.
Proof. destruct x; try discriminate. intros _. rewrite (add_comm prec emax). apply (add_zero prec emax). Qed.
Lemma eval_few t : match filter nonzero (leaves prec emax t) with
  | [] => same (eval prec emax t) fzero | [a] => same (eval prec emax t) a | [a; b] => same (eval prec emax t) (fadd a b) | _ => True end.
Proof.
  assert (Z0 : forall x y z, same x fzero -> same y z -> same (fadd x y) z).
  { intros x y z H1 H2. eapply same_trans; [apply (same_add prec emax); [exact H1|exact H2]|]. apply zero_add. reflexivity. }
  induction t as [x|t1 IH1 t2 IH2]; cbn [leaves eval filter].
  - destruct x; try apply (same_refl prec emax). right. unfold M_float.fzero. eauto.
  - rewrite filter_app. destruct (filter nonzero (leaves prec emax t1)) as [|a [|b [|c r]]], (filter nonzero (leaves prec emax t2)) as [|a' [|b' [|c' r']]]; cbn [app]; try exact Logic.I;
      try (apply Z0; assumption); try (rewrite (add_comm prec emax); apply Z0; assumption). apply (same_add prec emax); assumption.
Qed.
Lemma filter_perm {A} (p : A -> bool) l l' : Permutation l l' -> Permutation (filter p l) (filter p l').
Proof. induction 1 as [|x l l' H IH|x y l|l l' l'' H1 IH1 H2 IH2]; cbn [filter]; [constructor| | |eapply Permutation_trans; eassumption]; destruct (p x); try destruct (p y); try (constructor; assumption); try assumption; try apply Permutation_refl. Qed.
Lemma sum_two a b s : is_sum prec emax [a; b] s -> same s (fadd a b).
Proof.
  intros (t & k & P & <-). pose proof (eval_few t) as E. apply (filter_perm nonzero) in P. rewrite filter_app in P. assert (Z : filter nonzero (repeat fzero k) = []) by (clear; induction k; [reflexivity|exact IHk]). rewrite Z, app_nil_r in P. cbn [filter] in P.
  destruct (nonzero a) eqn:Na; [destruct (nonzero b) eqn:Nb|destruct (nonzero b) eqn:Nb].
  - apply Permutation_sym, Permutation_length_2_inv in P. destruct P as [-> | ->] in E; [exact E|]. rewrite (add_comm prec emax a). exact E.
  - apply Permutation_sym, Permutation_length_1_inv in P. rewrite P in E. eapply same_trans; [exact E|]. apply same_sym. rewrite (add_comm prec emax). apply zero_add. exact Nb.
  - apply Permutation_sym, Permutation_length_1_inv in P. rewrite P in E. eapply same_trans; [exact E|]. apply same_sym, zero_add. exact Na.
  - apply Permutation_sym, Permutation_nil in P. rewrite P in E. eapply same_trans; [exact E|]. apply same_sym. eapply same_trans; [apply zero_add; exact Na|]. destruct b; try discriminate. right. unfold M_float.fzero. eauto.
Qed.
Lemma sum_one_input fs l : (forall l, is_sum prec emax l (fs l)) -> length l = (2 ^ 1)%nat -> same (fs l) (by_halves prec emax 1 l).
Proof. intros SUM L. destruct l as [|a [|b [|c r]]]; try discriminate. apply sum_two. apply SUM. Qed.

(** ** The exact sums *)
Lemma fold_app (a b : list R) : fold_right Rplus 0 (a ++ b) = fold_right Rplus 0 a + fold_right Rplus 0 b. Proof. induction a as [|x a IH]; cbn; [lra|rewrite IH; lra]. Qed.
Lemma sum_pairs (h : nat -> R) m : fold_right Rplus 0 (map h (seq 0 (2 * m))) = fold_right Rplus 0 (map (fun k => h (2 * k)%nat) (seq 0 m)) + fold_right Rplus 0 (map (fun k => h (2 * k + 1)%nat) (seq 0 m)).
Proof.
  induction m as [|m IH]; [cbn; lra|]. replace (2 * S m)%nat with (S (S (2 * m))) by lia. rewrite !seq_S, !map_app, !fold_app. rewrite IH.
  cbn [map fold_right plus]. replace (S (2 * m)) with (2 * m + 1)%nat by lia. lra.
Qed.
Lemma sign_even i k : sign_1d (S i) (2 * k) = sign_1d i k. Proof. unfold sign_1d. rewrite Nat.testbit_even_succ by lia. reflexivity. Qed.
Lemma sign_odd i k : sign_1d (S i) (2 * k + 1) = sign_1d i k. Proof. unfold sign_1d. rewrite Nat.testbit_odd_succ by lia. reflexivity. Qed.
Lemma sign_even0 k : sign_1d 0 (2 * k) = 1%Z. Proof. unfold sign_1d. rewrite Nat.testbit_even_0. reflexivity. Qed.
Lemma sign_odd0 k : sign_1d 0 (2 * k + 1) = (-1)%Z. Proof. unfold sign_1d. rewrite Nat.testbit_odd_0. reflexivity. Qed.
Lemma combined_even n k : combined_sign (S n) (2 * k) = combined_sign n k.
Proof. unfold combined_sign. cbn [seq map fold_right]. rewrite sign_even0, <- seq_shift, map_map, Z.mul_1_l. f_equal. apply map_ext. intros i. apply sign_even. Qed.
Lemma combined_odd n k : combined_sign (S n) (2 * k + 1) = Z.opp (combined_sign n k).
Proof. unfold combined_sign. cbn [seq map fold_right]. rewrite sign_odd0, <- seq_shift, map_map. replace (map (fun x => sign_1d (S x) (2 * k + 1)) (seq 0 n)) with (map (fun i => sign_1d i k) (seq 0 n)); [ring|]. apply map_ext. intros i. symmetry. apply sign_odd. Qed.
Lemma from_even xs : forall j k, orbit_from prec emax (S j) xs (2 * k) = orbit_from prec emax j xs k. Proof. induction xs as [|x xs IH]; intros j k; [reflexivity|]. cbn [orbit_from]. rewrite sign_even, IH. reflexivity. Qed.
Lemma from_odd xs : forall j k, orbit_from prec emax (S j) xs (2 * k + 1) = orbit_from prec emax j xs k. Proof. induction xs as [|x xs IH]; intros j k; [reflexivity|]. cbn [orbit_from]. rewrite sign_odd, IH. reflexivity. Qed.
Lemma map_id_sign s x : (s <? 0)%Z = false -> map (fmul (of_sign prec emax s)) x = x.
Proof. intros H. rewrite <- (map_id x) at 2. apply map_ext. intros a. rewrite (mul_sign prec emax), H. reflexivity. Qed.
Lemma map_neg_sign s x : (s <? 0)%Z = true -> map (fmul (of_sign prec emax s)) x = map (@Bopp prec emax) x.
Proof. intros H. apply map_ext. intros a. rewrite (mul_sign prec emax), H. reflexivity. Qed.
Lemma orbit_even x xs k : orbit prec emax (x :: xs) (2 * k) = x :: orbit prec emax xs k.
Proof. unfold orbit. cbn [orbit_from]. rewrite from_even, map_id_sign by (rewrite sign_even0; reflexivity). reflexivity. Qed.
Lemma orbit_odd x xs k : orbit prec emax (x :: xs) (2 * k + 1) = map (@Bopp prec emax) x :: orbit prec emax xs k.
Proof. unfold orbit. cbn [orbit_from]. rewrite from_odd, map_neg_sign by (rewrite sign_odd0; reflexivity). reflexivity. Qed.
Lemma fold_opp {A} (h : A -> R) l : fold_right Rplus 0 (map (fun k => - h k) l) = - fold_right Rplus 0 (map h l). Proof. induction l as [|a l IH]; cbn; [lra|rewrite IH; lra]. Qed.
Lemma odd_sum xs : forall f, fold_right Rplus 0 (map (fun k => IZR (combined_sign (length xs) k) * B2R (f (orbit prec emax xs k))) (seq 0 (2 ^ length xs))) = odd_part prec emax f xs.
Proof.
  induction xs as [|x xs IH]; intros f; [cbn; lra|]. cbn [length odd_part]. change (2 ^ S (length xs))%nat with (2 * 2 ^ length xs)%nat. rewrite sum_pairs, <- IH, <- (IH (fun ys => f (map (@Bopp prec emax) x :: ys))). unfold Rminus. rewrite <- fold_opp.
  f_equal; f_equal; apply map_ext; intros k; [rewrite combined_even, orbit_even|rewrite combined_odd, orbit_odd, opp_IZR]; ring.
Qed.
Lemma even_sum xs : forall f, fold_right Rplus 0 (map (fun k => B2R (f (orbit prec emax xs k))) (seq 0 (2 ^ length xs))) = even_part prec emax f xs.
Proof.
  induction xs as [|x xs IH]; intros f; [cbn; lra|]. cbn [length even_part]. change (2 ^ S (length xs))%nat with (2 * 2 ^ length xs)%nat. rewrite sum_pairs, <- IH, <- (IH (fun ys => f (map (@Bopp prec emax) x :: ys))).
  f_equal; f_equal; apply map_ext; intros k; [rewrite orbit_even|rewrite orbit_odd]; reflexivity.
Qed.
Lemma opp_opp x : map (@Bopp prec emax) (map (@Bopp prec emax) x) = x. Proof. rewrite map_map. rewrite <- (map_id x) at 2. apply map_ext. apply Bopp_involutive. Qed.
Lemma odd_flip xs : forall i f, (i < length xs)%nat -> odd_part prec emax f (flip prec emax i xs) = - odd_part prec emax f xs.
Proof. induction xs as [|x xs IH]; intros i f H; [cbn in H; lia|]. destruct i as [|i]; cbn [flip odd_part]; [rewrite opp_opp; lra|]. cbn [length] in H. rewrite !IH by lia. lra. Qed.
Lemma even_flip xs : forall i f, even_part prec emax f (flip prec emax i xs) = even_part prec emax f xs.
Proof. induction xs as [|x xs IH]; intros i f; [destruct i; reflexivity|]. destruct i as [|i]; cbn [flip even_part]; [rewrite opp_opp; lra|]. rewrite !IH. lra. Qed.
Lemma variant_refl xs : sign_variant prec emax xs xs. Proof. induction xs; constructor; auto. Qed.
Lemma variant_flip xs : forall i ys, sign_variant prec emax (flip prec emax i xs) ys -> sign_variant prec emax xs ys.
Proof.
  induction xs as [|x xs IH]; intros i ys H; [destruct i; exact H|]. destruct i as [|i]; cbn [flip] in H; inversion H as [|? y ? ys' H1 H2]; subst; constructor.
  - rewrite opp_opp in H1. tauto.
  - exact H2.
  - exact H1.
  - apply (IH i). exact H2.
Qed.
Lemma variant_orbit xs : forall j k, sign_variant prec emax xs (orbit_from prec emax j xs k).
Proof. induction xs as [|x xs IH]; intros j k; constructor; [|apply IH]. destruct (sign_1d j k <? 0)%Z eqn:E; [right; apply map_neg_sign|left; apply map_id_sign]; exact E. Qed.

Variable fs : list fl -> fl.
Hypothesis SUM : forall l, is_sum prec emax l (fs l).
Variable q : Z.
Hypothesis Q : (0 <= q)%Z.
Hypothesis QP : (q + prec < emax)%Z.
Lemma rsum_map (h : nat -> fl) l : rsum prec emax (map h l) = fold_right Rplus 0 (map (fun k => B2R (h k)) l). Proof. unfold rsum. rewrite map_map. reflexivity. Qed.
Lemma covariant_accuracy f xs : (forall ys, sign_variant prec emax xs ys -> is_finite (f ys) = true /\ Rabs (B2R (f ys)) <= bpow radix2 q) -> INR (2 ^ length xs) <= bpow radix2 prec ->
  is_finite (sign_covariant prec emax fs f xs) = true /\ Rabs (B2R (sign_covariant prec emax fs f xs) - odd_part prec emax f xs) <= u * (INR (2 ^ length xs) * INR (2 ^ length xs) * bpow radix2 q).
Proof.
  intros F N. unfold sign_covariant. set (l := map _ (seq 0 _)). assert (LL : length l = (2 ^ length xs)%nat) by (unfold l; rewrite map_length, seq_length; reflexivity).
  destruct (sum_scaled prec emax q Q QP l (fs l) (SUM l)) as [A [_ [B _]]]; [|rewrite LL; exact N|].
  - intros x Hx. apply in_map_iff in Hx. destruct Hx as [k [<- _]]. destruct (F _ (variant_orbit xs 0 k)) as [F1 F2]. rewrite (mul_sign prec emax). destruct (_ <? 0)%Z; [rewrite is_finite_Bopp, B2R_Bopp, Rabs_Ropp|]; split; assumption.
  - split; [exact A|]. rewrite LL in B. unfold l in B at 2. rewrite rsum_map in B. rewrite <- odd_sum. eapply Rle_trans; [|exact B]. right. f_equal. f_equal. f_equal. apply map_ext. intros k. rewrite (mul_sign prec emax).
    destruct (combined_unit (length xs) k) as [-> | ->]; cbn [Z.ltb Z.compare]; [|rewrite B2R_Bopp]; ring.
Qed.
Lemma invariant_accuracy f xs : (forall ys, sign_variant prec emax xs ys -> is_finite (f ys) = true /\ Rabs (B2R (f ys)) <= bpow radix2 q) -> INR (2 ^ length xs) <= bpow radix2 prec ->
  is_finite (sign_invariant prec emax fs f xs) = true /\ Rabs (B2R (sign_invariant prec emax fs f xs) - even_part prec emax f xs) <= u * (INR (2 ^ length xs) * INR (2 ^ length xs) * bpow radix2 q).
Proof.
  intros F N. unfold sign_invariant. set (l := map _ (seq 0 _)). assert (LL : length l = (2 ^ length xs)%nat) by (unfold l; rewrite map_length, seq_length; reflexivity).
  destruct (sum_scaled prec emax q Q QP l (fs l) (SUM l)) as [A [_ [B _]]]; [|rewrite LL; exact N|].
  - intros x Hx. apply in_map_iff in Hx. destruct Hx as [k [<- _]]. apply F. apply variant_orbit.
  - split; [exact A|]. rewrite LL in B. unfold l in B at 2. rewrite rsum_map in B. rewrite <- even_sum. exact B.
Qed.
End Sign.

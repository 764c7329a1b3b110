(** * Finite sums of reals *)
From Coq Require Import Reals List Arith Lra Lia Permutation.
Import ListNotations.
Local Open Scope R_scope.

(** [Rsum n f] = f 0 + ... + f (n-1). *)
Fixpoint Rsum (n : nat) (f : nat -> R) : R :=
  match n with O => 0 | S m => Rsum m f + f m end.

(** Sum of a list. *)
Definition lsum (l : list R) : R := fold_right Rplus 0 l.

Lemma Rsum_ext n f g : (forall i, (i < n)%nat -> f i = g i) -> Rsum n f = Rsum n g.
Proof. induction n; intros H; simpl; auto. rewrite IHn, H; auto. Qed.

Lemma Rsum_plus n f g : Rsum n (fun i => f i + g i) = Rsum n f + Rsum n g.
Proof. induction n; simpl; [ring|]. rewrite IHn; ring. Qed.

Lemma Rsum_minus n f g : Rsum n (fun i => f i - g i) = Rsum n f - Rsum n g.
Proof. induction n; simpl; [ring|]. rewrite IHn; ring. Qed.

Lemma Rsum_scal n c f : Rsum n (fun i => c * f i) = c * Rsum n f.
Proof. induction n; simpl; [ring|]. rewrite IHn; ring. Qed.

Lemma Rsum_scal_r n c f : Rsum n (fun i => f i * c) = Rsum n f * c.
Proof. induction n; simpl; [ring|]. rewrite IHn; ring. Qed.

Lemma Rsum_const n c : Rsum n (fun _ => c) = INR n * c.
Proof. induction n; [simpl; ring|]. rewrite S_INR. simpl. rewrite IHn; ring. Qed.

Lemma Rsum_0 n : Rsum n (fun _ => 0) = 0.
Proof. rewrite Rsum_const; ring. Qed.

Lemma Rsum_eq_0 n f : (forall i, (i < n)%nat -> f i = 0) -> Rsum n f = 0.
Proof. intros H. rewrite (Rsum_ext n f (fun _ => 0)); auto using Rsum_0. Qed.

Lemma Rsum_swap n m f : Rsum n (fun i => Rsum m (fun j => f i j)) = Rsum m (fun j => Rsum n (fun i => f i j)).
Proof.
  induction n; simpl; [symmetry; apply Rsum_0|]. rewrite IHn, <- Rsum_plus. reflexivity.
Qed.

Lemma Rsum_nonneg n f : (forall i, (i < n)%nat -> 0 <= f i) -> 0 <= Rsum n f.
Proof. induction n; intros H; simpl; [lra|]. pose proof (H n ltac:(lia)). assert (0 <= Rsum n f) by auto. lra. Qed.

Lemma Rsum_le n f g : (forall i, (i < n)%nat -> f i <= g i) -> Rsum n f <= Rsum n g.
Proof. induction n; intros H; simpl; [lra|]. pose proof (H n ltac:(lia)). assert (Rsum n f <= Rsum n g) by auto. lra. Qed.

Lemma Rsum_zero_terms n f : (forall i, (i < n)%nat -> 0 <= f i) -> Rsum n f = 0 -> forall i, (i < n)%nat -> f i = 0.
Proof.
  induction n; intros H E i Hi; [lia|]. simpl in E.
  pose proof (H n ltac:(lia)). assert (0 <= Rsum n f) by (apply Rsum_nonneg; auto).
  destruct (Nat.eq_dec i n) as [->|]; [lra|]. apply IHn; auto; [lra|lia].
Qed.

Lemma Rsum_S_l n f : Rsum (S n) f = f O + Rsum n (fun i => f (S i)).
Proof. induction n; [simpl; ring|]. change (Rsum (S (S n)) f) with (Rsum (S n) f + f (S n)). rewrite IHn. simpl. ring. Qed.

Lemma Rsum_app n m f : Rsum (n + m) f = Rsum n f + Rsum m (fun i => f (n + i)%nat).
Proof.
  induction m; [rewrite Nat.add_0_r; simpl; ring|].
  rewrite Nat.add_succ_r. simpl. rewrite IHm. ring.
Qed.

(** Only one index contributes. *)
Lemma Rsum_single n j f : (j < n)%nat -> (forall i, (i < n)%nat -> i <> j -> f i = 0) -> Rsum n f = f j.
Proof.
  induction n; intros Hj H; [lia|]. simpl. destruct (Nat.eq_dec j n) as [->|Hn].
  - rewrite Rsum_eq_0; [ring|]. intros; apply H; lia.
  - rewrite IHn, (H n); [ring|lia|auto|lia|]. intros; apply H; lia.
Qed.

Lemma Rsum_indicator n j (f : nat -> R) : (j < n)%nat -> Rsum n (fun i => if Nat.eqb i j then f i else 0) = f j.
Proof.
  intros H. rewrite (Rsum_single n j); auto.
  - rewrite Nat.eqb_refl; reflexivity.
  - intros i _ Hi. apply Nat.eqb_neq in Hi. rewrite Hi. reflexivity.
Qed.

Lemma lsum_app l l' : lsum (l ++ l') = lsum l + lsum l'.
Proof. induction l; simpl; [ring|]. rewrite IHl; ring. Qed.

Lemma lsum_map_seq n f a : lsum (map f (seq a n)) = Rsum n (fun i => f (a + i)%nat).
Proof.
  revert a. induction n; intros a; [reflexivity|].
  rewrite Rsum_S_l. simpl. rewrite IHn, Nat.add_0_r. f_equal. apply Rsum_ext. intros; f_equal; lia.
Qed.

Lemma lsum_nth l : lsum l = Rsum (length l) (fun i => nth i l 0).
Proof.
  induction l; [reflexivity|]. cbn [length]. rewrite Rsum_S_l. simpl. rewrite IHl. reflexivity.
Qed.

Lemma lsum_perm l l' : Permutation l l' -> lsum l = lsum l'.
Proof. induction 1; simpl; lra. Qed.

Lemma lsum_scal c l : lsum (map (fun x => c * x) l) = c * lsum l.
Proof. induction l; simpl; [ring|]. rewrite IHl; ring. Qed.

Lemma lsum_map_plus {A} (f g : A -> R) l : lsum (map (fun x => f x + g x) l) = lsum (map f l) + lsum (map g l).
Proof. induction l; simpl; [ring|]. rewrite IHl; ring. Qed.

Lemma lsum_map_minus {A} (f g : A -> R) l : lsum (map (fun x => f x - g x) l) = lsum (map f l) - lsum (map g l).
Proof. induction l; simpl; [ring|]. rewrite IHl; ring. Qed.

Lemma lsum_map_scal {A} c (f : A -> R) l : lsum (map (fun x => c * f x) l) = c * lsum (map f l).
Proof. induction l; simpl; [ring|]. rewrite IHl; ring. Qed.

Lemma lsum_map_const {A} c (l : list A) : lsum (map (fun _ => c) l) = INR (length l) * c.
Proof. induction l; [simpl; ring|]. cbn [map lsum fold_right length]. rewrite S_INR. unfold lsum in IHl. rewrite IHl; ring. Qed.

Lemma lsum_nonneg l : (forall x, In x l -> 0 <= x) -> 0 <= lsum l.
Proof. induction l; simpl; intros H; [lra|]. pose proof (H a (or_introl eq_refl)). assert (0 <= lsum l) by auto. lra. Qed.

Lemma lsum_zero_terms l : (forall x, In x l -> 0 <= x) -> lsum l = 0 -> forall x, In x l -> x = 0.
Proof.
  induction l; simpl; intros H E x Hx; [contradiction|].
  pose proof (H a (or_introl eq_refl)). assert (0 <= lsum l) by (apply lsum_nonneg; auto).
  destruct Hx as [<-|Hx]; [lra|]. apply IHl; auto. lra.
Qed.

Lemma lsum_repeat c n : lsum (repeat c n) = INR n * c.
Proof. induction n; [simpl; ring|]. rewrite S_INR. simpl. rewrite IHn. ring. Qed.

Lemma lsum_concat (ll : list (list R)) : lsum (concat ll) = lsum (map lsum ll).
Proof. induction ll; [reflexivity|]. simpl. rewrite lsum_app, IHll. reflexivity. Qed.

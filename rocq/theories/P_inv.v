(** * Parity of lists: exchanging two entries flips the sign; blocks in increasing order multiply *)
From Coq Require Import Reals List Arith Lia Lra Permutation.
From Verif Require Import XReal M_models S_models P_xsum P_split.
Import ListNotations.
Local Open Scope R_scope.

Definition cnt (c : nat) (l : list nat) : nat := length (filter (fun b => Nat.ltb b c) l).
Lemma cnt_perm c l l' : Permutation l l' -> cnt c l = cnt c l'.
Proof.
  induction 1; unfold cnt in *; cbn [filter]; auto.
  - destruct (Nat.ltb x c); cbn [length]; lia.
  - destruct (Nat.ltb x c), (Nat.ltb y c); reflexivity.
  - congruence.
Qed.
Lemma cnt_app c l l' : cnt c (l ++ l') = (cnt c l + cnt c l')%nat.
Proof. unfold cnt. rewrite filter_app, app_length. reflexivity. Qed.
Lemma inversions_cons a r : inversions (a :: r) = (cnt a r + inversions r)%nat.
Proof. reflexivity. Qed.
Lemma sign_cons a r : sign_of_list (a :: r) = (-1) ^ cnt a r * sign_of_list r.
Proof. unfold sign_of_list. rewrite inversions_cons, pow_add. reflexivity. Qed.

Lemma sign_adjacent u a b w : a <> b -> sign_of_list (u ++ a :: b :: w) = - sign_of_list (u ++ b :: a :: w).
Proof.
  intros Hab. induction u as [|c u IH]; cbn [app].
  - rewrite !sign_cons. unfold cnt. cbn [filter].
    destruct (Nat.ltb b a) eqn:E1, (Nat.ltb a b) eqn:E2; cbn [length];
      try (apply Nat.ltb_lt in E1); try (apply Nat.ltb_lt in E2); try lia; cbn [pow]; try ring.
    apply Nat.ltb_ge in E1, E2. lia.
  - rewrite !sign_cons, IH.
    rewrite (cnt_perm c (u ++ a :: b :: w) (u ++ b :: a :: w)) by (apply Permutation_app_head, perm_swap). ring.
Qed.
Lemma m1_sq k : (-1) ^ k * (-1) ^ k = 1.
Proof. rewrite <- pow_add. replace (k + k)%nat with (2 * k)%nat by lia. rewrite pow_1_even. reflexivity. Qed.
Lemma sign_move u a v w : ~ In a v -> sign_of_list (u ++ a :: v ++ w) = (-1) ^ length v * sign_of_list (u ++ v ++ a :: w).
Proof.
  revert u. induction v as [|b v IH]; intros u Ha; cbn [app length pow]; [ring|].
  rewrite sign_adjacent by (intros ->; apply Ha; left; reflexivity).
  replace (u ++ b :: a :: v ++ w) with ((u ++ [b]) ++ a :: v ++ w) by (rewrite <- app_assoc; reflexivity).
  rewrite IH by (intros H; apply Ha; right; exact H). rewrite <- app_assoc. cbn [app]. ring.
Qed.
Lemma sign_swap u a v b w : a <> b -> ~ In a v -> ~ In b v -> sign_of_list (u ++ a :: v ++ b :: w) = - sign_of_list (u ++ b :: v ++ a :: w).
Proof.
  intros Hab Ha Hb. rewrite (sign_move u a v (b :: w)) by exact Ha. rewrite (sign_move u b v (a :: w)) by exact Hb.
  replace (u ++ v ++ a :: b :: w) with ((u ++ v) ++ a :: b :: w) by (rewrite <- app_assoc; reflexivity).
  replace (u ++ v ++ b :: a :: w) with ((u ++ v) ++ b :: a :: w) by (rewrite <- app_assoc; reflexivity).
  rewrite sign_adjacent by exact Hab. ring.
Qed.

Lemma seq_two i j n : (i < j)%nat -> (j < n)%nat ->
  seq 0 n = seq 0 i ++ i :: seq (i + 1) (j - i - 1) ++ j :: seq (j + 1) (n - j - 1).
Proof.
  intros H1 H2. replace n with (i + (1 + ((j - i - 1) + (1 + (n - j - 1)))))%nat at 1 by lia.
  rewrite seq_app, Nat.add_0_l. f_equal. cbn [seq Nat.add]. f_equal. rewrite seq_app.
  replace (S i) with (i + 1)%nat by lia. f_equal. cbn [seq Nat.add]. replace (i + 1 + (j - i - 1))%nat with j by lia.
  f_equal. f_equal. lia.
Qed.
Lemma exchange_sym i j k : exchange i j k = exchange j i k.
Proof. unfold exchange. destruct (Nat.eqb_spec k i), (Nat.eqb_spec k j); subst; congruence. Qed.
Lemma sign_exchange n s i j : renumbering n s -> (i < n)%nat -> (j < n)%nat -> i <> j ->
  sign_of n (fun k => s (exchange i j k)) = - sign_of n s.
Proof.
  intros Hs. revert i j.
  assert (K : forall i j, (i < j)%nat -> (j < n)%nat -> sign_of n (fun k => s (exchange i j k)) = - sign_of n s).
  { intros i j Hij Hj. unfold sign_of. rewrite !(seq_two i j n) by lia. rewrite !map_app. cbn [map]. rewrite !map_app. cbn [map].
    assert (Em : forall o m, (forall k, In k (seq o m) -> k <> i /\ k <> j) -> map (fun k => s (exchange i j k)) (seq o m) = map s (seq o m)).
    { intros o m H. apply map_ext_in. intros k Hk. destruct (H k Hk) as [A B]. unfold exchange.
      rewrite (proj2 (Nat.eqb_neq _ _) A), (proj2 (Nat.eqb_neq _ _) B). reflexivity. }
    rewrite !Em by (intros k Hk; apply in_seq in Hk; lia).
    replace (exchange i j i) with j by (unfold exchange; rewrite Nat.eqb_refl; reflexivity).
    replace (exchange i j j) with i by (unfold exchange; rewrite Nat.eqb_refl; destruct (Nat.eqb_spec j i); [lia|reflexivity]).
    apply sign_swap.
    - intros E. apply (renumbering_inj n s Hs j i) in E; lia.
    - intros H. apply in_map_iff in H. destruct H as [k [E Hk]]. apply in_seq in Hk. apply (renumbering_inj n s Hs k j) in E; lia.
    - intros H. apply in_map_iff in H. destruct H as [k [E Hk]]. apply in_seq in Hk. apply (renumbering_inj n s Hs k i) in E; lia. }
  intros i j Hi Hj Hn. destruct (Nat.lt_ge_cases i j) as [H|H].
  - apply K; lia.
  - rewrite <- (K j i) by lia. unfold sign_of. f_equal. apply map_ext. intros k. rewrite exchange_sym. reflexivity.
Qed.

Lemma sign_ext n s t : (forall i, (i < n)%nat -> s i = t i) -> sign_of n s = sign_of n t.
Proof. intros H. unfold sign_of. f_equal. apply map_ext_in. intros i Hi. apply in_seq in Hi. apply H. lia. Qed.

(** The sign depends on the order only. *)
Lemma cnt_map f c l : (forall a, In a l -> (f a < f c <-> a < c)%nat) -> cnt (f c) (map f l) = cnt c l.
Proof.
  intros H. induction l as [|a l IH]; [reflexivity|]. unfold cnt in *. cbn [map filter].
  assert (E : Nat.ltb (f a) (f c) = Nat.ltb a c).
  { destruct (Nat.ltb_spec a c) as [L|L]; [apply Nat.ltb_lt, H; [left; reflexivity|exact L]|].
    apply Nat.ltb_ge. destruct (Nat.lt_ge_cases (f a) (f c)) as [L'|L']; [|exact L'].
    apply H in L'; [lia|left; reflexivity]. }
  rewrite E. destruct (Nat.ltb a c); cbn [length]; rewrite IH; try reflexivity; intros; apply H; right; assumption.
Qed.
Lemma sign_map_mono f l : (forall a b, In a l -> In b l -> (f a < f b <-> a < b)%nat) -> sign_of_list (map f l) = sign_of_list l.
Proof.
  induction l as [|c l IH]; intros H; [reflexivity|]. cbn [map]. rewrite !sign_cons, IH.
  - f_equal. f_equal. apply cnt_map. intros a Ha. apply H; [right; exact Ha|left; reflexivity].
  - intros a b Ha Hb. apply H; right; assumption.
Qed.
Lemma cnt_zero c l : (forall a, In a l -> (c <= a)%nat) -> cnt c l = O.
Proof.
  intros H. induction l as [|a l IH]; [reflexivity|]. unfold cnt in *. cbn [filter].
  destruct (Nat.ltb_spec a c) as [L|L]; [pose proof (H a (or_introl eq_refl)); lia|]. apply IH. intros; apply H; right; assumption.
Qed.
Lemma sign_app l l' : (forall a b, In a l -> In b l' -> (a <= b)%nat) -> sign_of_list (l ++ l') = sign_of_list l * sign_of_list l'.
Proof.
  induction l as [|c l IH]; intros H; cbn [app].
  - unfold sign_of_list at 2. cbn [inversions pow]. ring.
  - rewrite !sign_cons, IH by (intros; apply H; [right|]; assumption). rewrite cnt_app.
    rewrite (cnt_zero c l') by (intros a Ha; apply H; [left; reflexivity|exact Ha]). rewrite Nat.add_0_r. ring.
Qed.
Lemma sign_seq o n : sign_of_list (seq o n) = 1.
Proof.
  revert o. induction n as [|n IH]; intros o; [reflexivity|]. cbn [seq]. rewrite sign_cons, IH, cnt_zero; [cbn; ring|].
  intros a Ha. apply in_seq in Ha. lia.
Qed.
Lemma sign_id n : sign_of n (fun i => i) = 1.
Proof. unfold sign_of. rewrite map_id. apply sign_seq. Qed.
Lemma sign_unit l : sign_of_list l = 1 \/ sign_of_list l = -1.
Proof.
  unfold sign_of_list. induction (inversions l) as [|k [E|E]]; [left; reflexivity|right|left]; cbn [pow]; rewrite E; ring.
Qed.

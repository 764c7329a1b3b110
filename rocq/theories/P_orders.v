(** * Averages over all orders of the particles *)
From Coq Require Import Reals List Bool Arith Lra Lia Permutation.
From Verif Require Import XReal Rsum S_physics.
Import ListNotations.
Local Open Scope R_scope.

Lemma insertions_length {A} (a : A) l : length (insertions a l) = S (length l).
Proof. induction l as [|b l IH]; [reflexivity|]. simpl. rewrite map_length, IH. reflexivity. Qed.
Lemma insertions_perm {A} (a : A) l q : In q (insertions a l) -> Permutation q (a :: l).
Proof.
  revert q. induction l as [|b l IH]; intros q H; simpl in H.
  - destruct H as [<-|[]]. apply Permutation_refl.
  - destruct H as [<-|H]; [apply Permutation_refl|]. apply in_map_iff in H. destruct H as (q' & <- & H).
    apply Permutation_trans with (b :: a :: l); [constructor; auto|constructor].
Qed.
Lemma insertions_mid {A} (a : A) l1 l2 : In (l1 ++ a :: l2) (insertions a (l1 ++ l2)).
Proof.
  induction l1 as [|b l1 IH]; simpl.
  - destruct l2; simpl; auto.
  - right. apply in_map. assumption.
Qed.
Lemma in_orders {A} (l : list A) p : In p (orders l) <-> Permutation p l.
Proof.
  revert p. induction l as [|a l IH]; intros p; simpl.
  - split; [intros [<-|[]]; constructor|]. intros H. apply Permutation_sym, Permutation_nil in H. auto.
  - rewrite in_flat_map. split.
    + intros (q & Hq & H). apply insertions_perm in H. eapply Permutation_trans; [exact H|]. constructor. apply IH. assumption.
    + intros H. assert (Hin : In a p) by (apply (Permutation_in a (Permutation_sym H)); left; reflexivity).
      apply in_split in Hin. destruct Hin as (l1 & l2 & ->). exists (l1 ++ l2). split; [|apply insertions_mid].
      apply IH. apply Permutation_sym, (Permutation_cons_app_inv l1 l2 (a:=a)), Permutation_sym, H.
Qed.
Lemma orders_length {A} (l : list A) : length (orders l) = fact (length l).
Proof.
  induction l as [|a l IH]; [reflexivity|]. cbn [orders length]. 
  assert (G : forall ps : list (list A), (forall p, In p ps -> length p = length l) -> length (flat_map (insertions a) ps) = (length ps * S (length l))%nat).
  { induction ps as [|p ps IHp]; intros H; [reflexivity|]. cbn [flat_map]. rewrite app_length, IHp by (intros; apply H; right; assumption).
    rewrite insertions_length, (H p (or_introl eq_refl)). reflexivity. }
  rewrite G; [rewrite IH; simpl; lia|]. intros p Hp. apply in_orders in Hp. apply Permutation_length. assumption.
Qed.

Lemma insertions_sum {A} (h : A -> R) (d a : A) l : forall i, (i <= length l)%nat ->
  lsum (map (fun q => h (nth i q d)) (insertions a l)) =
  h a + INR i * h (nth (i - 1) l d) + (INR (length l) - INR i) * h (nth i l d).
Proof.
  induction l as [|b l IH]; intros i Hi.
  - simpl in Hi. replace i with O by lia. unfold lsum. simpl. ring.
  - cbn [insertions map]. unfold lsum. cbn [fold_right]. fold (lsum (map (fun q => h (nth i q d)) (map (cons b) (insertions a l)))).
    rewrite map_map. destruct i as [|i].
    + cbn [nth]. rewrite lsum_map_const, insertions_length. simpl length. rewrite !S_INR. simpl. ring.
    + cbn [nth]. simpl in Hi. rewrite (IH i) by lia. simpl length. rewrite !S_INR. replace (S i - 1)%nat with i by lia.
      destruct i as [|i]; [simpl; ring|]. replace (S i - 1)%nat with i by lia. cbn [nth]. rewrite S_INR. ring.
Qed.

Lemma fact_pos_R n : 0 < INR (fact n).
Proof. apply lt_0_INR. apply lt_O_fact. Qed.

Lemma orders_sum {A} (h : A -> R) (d : A) l : forall i, (i < length l)%nat ->
  lsum (map (fun p => h (nth i p d)) (orders l)) * INR (length l) = INR (fact (length l)) * lsum (map h l).
Proof.
  induction l as [|a l IH]; intros i Hi; [simpl in Hi; lia|]. cbn [orders length] in *.
  assert (E : forall ps : list (list A), (forall p, In p ps -> length p = length l) ->
    lsum (map (fun q => h (nth i q d)) (flat_map (insertions a) ps)) =
    INR (length ps) * h a + INR i * lsum (map (fun p => h (nth (i - 1) p d)) ps) + (INR (length l) - INR i) * lsum (map (fun p => h (nth i p d)) ps)).
  { induction ps as [|p ps IHp]; intros H; [unfold lsum; simpl; ring|]. cbn [flat_map]. rewrite map_app, lsum_app, IHp by (intros; apply H; right; assumption).
    rewrite insertions_sum by (rewrite (H p (or_introl eq_refl)); lia). rewrite (H p (or_introl eq_refl)).
    cbn [map length]. unfold lsum at 3 4. cbn [fold_right]. fold (lsum (map (fun p => h (nth (i - 1) p d)) ps)) (lsum (map (fun p => h (nth i p d)) ps)).
    unfold lsum. cbn [fold_right map]. rewrite S_INR. ring. }
  rewrite E by (intros p Hp; apply in_orders in Hp; apply Permutation_length; assumption). clear E.
  rewrite orders_length. set (m := length l) in *. cbn [map]. unfold lsum at 3. cbn [fold_right]. fold (lsum (map h l)).
  replace (INR (fact (S m))) with (INR (fact m) * (INR m + 1)) by (rewrite <- S_INR, <- mult_INR; f_equal; simpl; lia). rewrite S_INR.
  destruct (Nat.eq_dec m 0) as [Em|Em].
  - assert (i = 0)%nat as -> by lia. assert (l = []) as -> by (destruct l; [reflexivity|discriminate]). rewrite Em. simpl. unfold lsum. simpl. ring.
  - assert (Hm : INR m <> 0) by (apply not_0_INR; assumption).
    assert (S1 : INR i * lsum (map (fun p => h (nth (i - 1) p d)) (orders l)) * INR m = INR i * (INR (fact m) * lsum (map h l))).
    { destruct i as [|i]; [simpl; ring|]. rewrite <- (IH (S i - 1)%nat) by lia. ring. }
    assert (S2 : (INR m - INR i) * lsum (map (fun p => h (nth i p d)) (orders l)) * INR m = (INR m - INR i) * (INR (fact m) * lsum (map h l))).
    { destruct (Nat.eq_dec i m) as [->|Hne]; [ring|]. rewrite <- (IH i) by lia. ring. }
    apply Rmult_eq_reg_r with (INR m); [|assumption].
    replace ((INR (fact m) * h a + INR i * lsum (map (fun p => h (nth (i - 1) p d)) (orders l)) +
      (INR m - INR i) * lsum (map (fun p => h (nth i p d)) (orders l))) * (INR m + 1) * INR m) with
      ((INR m + 1) * (INR (fact m) * h a * INR m + INR i * lsum (map (fun p => h (nth (i - 1) p d)) (orders l)) * INR m +
      (INR m - INR i) * lsum (map (fun p => h (nth i p d)) (orders l)) * INR m)) by ring.
    rewrite S1, S2. ring.
Qed.

Lemma average_ext n f g : (forall s, renumbering n s -> f s = g s) -> average_over_orders n f = average_over_orders n g.
Proof.
  intros H. unfold average_over_orders. f_equal. f_equal. apply map_ext_in. intros p Hp. apply in_orders in Hp. apply H.
  unfold renumbering. assert (L : length p = n) by (rewrite (Permutation_length Hp), seq_length; reflexivity).
  replace (map (fun i => nth i p O) (seq 0 n)) with p; [assumption|]. rewrite <- L. clear.
  induction p as [|a p IH]; [reflexivity|]. cbn [length seq map nth]. f_equal. rewrite <- seq_shift, map_map. exact IH.
Qed.
Lemma average_sum n k (f : nat -> (nat -> nat) -> R) : average_over_orders n (fun s => Rsum k (fun i => f i s)) = Rsum k (fun i => average_over_orders n (f i)).
Proof.
  unfold average_over_orders. set (os := orders (seq 0 n)). unfold Rdiv. rewrite Rsum_scal_r. f_equal.
  induction k as [|k IH]; simpl; [rewrite lsum_map_const; ring|]. rewrite lsum_map_plus, IH. reflexivity.
Qed.
Lemma average_scal n c f : average_over_orders n (fun s => c * f s) = c * average_over_orders n f.
Proof. unfold average_over_orders. rewrite lsum_map_scal. unfold Rdiv. ring. Qed.
Lemma average_plus n f g : average_over_orders n (fun s => f s + g s) = average_over_orders n f + average_over_orders n g.
Proof. unfold average_over_orders. rewrite lsum_map_plus. unfold Rdiv. ring. Qed.
Lemma average_const n c : average_over_orders n (fun _ => c) = c.
Proof.
  unfold average_over_orders. rewrite lsum_map_const. rewrite orders_length. pose proof (fact_pos_R (length (seq 0 n))). field. lra.
Qed.
(** Every position is equally likely to hold every particle. *)
Lemma average_position n i h : (i < n)%nat -> average_over_orders n (fun s => h (s i)) = Rsum n h / INR n.
Proof.
  intros Hi. unfold average_over_orders. pose proof (orders_sum h O (seq 0 n) i) as E. rewrite seq_length in E. specialize (E Hi).
  rewrite lsum_map_seq in E. rewrite orders_length, seq_length. pose proof (fact_pos_R n) as F.
  assert (Hn : 0 < INR n) by (apply lt_0_INR; lia).
  rewrite (Rsum_ext n (fun i => h (0 + i)%nat) h) in E by reflexivity.
  apply Rmult_eq_reg_r with (INR n * INR (fact n)); [|apply Rgt_not_eq, Rmult_lt_0_compat; assumption].
  unfold Rdiv. transitivity (lsum (map (fun p => h (nth i p O)) (orders (seq 0 n))) * INR n); [field; lra|]. rewrite E. field. lra.
Qed.

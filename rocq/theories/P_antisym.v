(** * Proofs: determinants, explicit antisymmetrisation, cofactors *)
From Coq Require Import Reals List Bool Arith Lia Lra Permutation Sorted.
From Verif Require Import XReal M_slog M_models M_antisym Det S_models S_antisym Rsum P_xsum P_slog P_split P_equiv P_inv P_parity P_flips P_sgn.
Import ListNotations.
Local Open Scope R_scope.

(** ** Determinants of lists of rows *)
Lemma forallb_perm {A} (f : A -> bool) l l' : Permutation l l' -> forallb f l = forallb f l'.
Proof.
  induction 1; cbn; try congruence. rewrite !andb_assoc, (andb_comm (f y)). reflexivity.
Qed.
Lemma det_flips s m m' : flips s m m' -> linalg_det m' = option_map (sg s) (linalg_det m).
Proof.
  intros F. pose proof (flips_perm _ _ _ F) as P. pose proof (flips_length _ _ _ F) as L. pose proof (flips_unit _ _ _ F) as U.
  destruct F as (t & Ht & E & Es). unfold linalg_det.
  replace (is_square m') with (is_square m).
  2:{ unfold is_square. rewrite L. symmetry. apply forallb_perm. exact P. }
  destruct (is_square m); [|reflexivity]. cbn [option_map]. f_equal. rewrite (forallb_perm _ _ _ P), L.
  destruct (forallb (forallb isfin) m); [|reflexivity].
  rewrite sg_fin. f_equal. subst s. rewrite <- det_rows by exact Ht. apply det_ext. intros i j Hi Hj. subst m'.
  rewrite (nth_reorder t (length m)) by (auto). reflexivity.
Qed.
Lemma slogdet_flips s m m' : flips s m m' -> linalg_slogdet m' = option_map (signed s) (linalg_slogdet m).
Proof.
  intros F. unfold linalg_slogdet. rewrite (det_flips s m m' F). destruct (linalg_det m); [|reflexivity]. cbn [option_map].
  rewrite sg_slog by (apply (flips_unit _ _ _ F)). reflexivity.
Qed.

Lemma reduce_signed {A} (op : A -> A -> A) (act : R -> A -> A) sgs l :
  (forall s t a b, unit s -> unit t -> op (act s a) (act t b) = act (s * t) (op a b)) ->
  Forall unit sgs -> length l = length sgs ->
  reduce op (zipw act sgs l) = option_map (act (lprod sgs)) (reduce op l).
Proof.
  intros Hop Hu Hl. destruct sgs as [|s sgs], l as [|a l]; cbn in Hl; try lia; [reflexivity|].
  unfold zipw. cbn [combine map fst snd reduce option_map lprod fold_right]. f_equal. fold (lprod sgs).
  inversion Hu as [|? ? Us Hu']; subst. clear Hu. revert s a l Us Hu' Hl. induction sgs as [|t sgs IH]; intros s a [|b l] Us Hu' Hl; cbn in Hl; try lia.
  - cbn. f_equal. ring.
  - inversion Hu' as [|? ? Ut Hu'']; subst. cbn [combine map fst snd fold_left lprod fold_right]. rewrite Hop by assumption.
    rewrite IH; [|apply unit_mul; assumption|assumption|lia]. f_equal. fold (lprod sgs). ring.
Qed.
Lemma sequence_bflips {A B} (f : list A -> option B) (act : R -> B -> B) sgs L L' :
  (forall s m m', flips s m m' -> f m' = option_map (act s) (f m)) -> bflips sgs L L' ->
  sequence (map f L') = option_map (zipw act sgs) (sequence (map f L)).
Proof.
  intros Hf. induction 1 as [|s sgs l ls l' ls' F B' IH]; [reflexivity|]. cbn [map sequence]. rewrite (Hf _ _ _ F), IH.
  destruct (f l); [|reflexivity]. cbn [option_map]. destruct (sequence (map f ls)); reflexivity.
Qed.
Lemma slogdet_product_flips sgs L L' : bflips sgs L L' -> slogdet_product L' = option_map (signed (lprod sgs)) (slogdet_product L).
Proof.
  intros H. unfold slogdet_product. rewrite (sequence_bflips _ signed sgs L L' slogdet_flips H).
  destruct (sequence (map linalg_slogdet L)) as [l|] eqn:E; [|reflexivity]. cbn [option_map].
  apply reduce_signed; [intros; apply slog_multiply_signed; assumption|apply (bflips_unit _ _ _ H)|].
  apply sequence_length in E. rewrite map_length in E. rewrite E. apply (bflips_length _ _ _ H).
Qed.

(** ** Permutations in lexicographic order *)
Lemma remove_at_perm {A} i (l : list A) a : nth_error l i = Some a -> Permutation (a :: remove_at i l) l.
Proof.
  unfold remove_at. revert i. induction l as [|b l IH]; intros [|i] E; cbn in E; try discriminate.
  - injection E as ->. reflexivity.
  - cbn [firstn skipn app]. rewrite perm_swap. constructor. apply (IH i E).
Qed.
Lemma remove_at_length {A} i (l : list A) : (i < length l)%nat -> length (remove_at i l) = pred (length l).
Proof. intros H. unfold remove_at. rewrite app_length, firstn_length, skipn_length. lia. Qed.
Lemma permutations_of_in {A} f : forall (l : list A), length l = f -> forall p, In p (permutations_of f l) <-> Permutation p l.
Proof.
  induction f as [|f IH]; intros l L p.
  - destruct l; [|discriminate]. cbn. split; [intros [<-|[]]; constructor|]. intros H. apply Permutation_sym, Permutation_nil in H. subst. auto.
  - cbn [permutations_of]. rewrite in_concat. split.
    + intros (ps & Hps & Hp). apply in_map_iff in Hps. destruct Hps as (i & <- & Hi). apply in_seq in Hi.
      destruct (nth_error l i) as [a|] eqn:E; [|destruct Hp]. apply in_map_iff in Hp. destruct Hp as (q & <- & Hq).
      apply IH in Hq; [|rewrite remove_at_length by lia; lia]. rewrite Hq. apply remove_at_perm. exact E.
    + intros H. destruct p as [|a q]; [apply Permutation_nil in H; subst; discriminate|].
      assert (Ha : In a l) by (apply (Permutation_in _ H); left; reflexivity).
      apply In_nth_error in Ha. destruct Ha as (i & Hi). assert (Li : (i < length l)%nat) by (apply nth_error_Some; congruence).
      eexists. split; [apply in_map_iff; exists i; split; [reflexivity|apply in_seq; lia]|]. rewrite Hi. apply in_map.
      apply IH; [rewrite remove_at_length by lia; lia|]. apply (Permutation_cons_inv (a := a)).
      rewrite H. symmetry. apply remove_at_perm. exact Hi.
Qed.

Lemma StronglySorted_app {A} (r : A -> A -> Prop) l l' : StronglySorted r l -> StronglySorted r l' ->
  (forall a b, In a l -> In b l' -> r a b) -> StronglySorted r (l ++ l').
Proof.
  induction 1 as [|a l Hs IH Ha]; intros H' H; [exact H'|]. cbn. constructor.
  - apply IH; [exact H'|]. intros; apply H; [right|]; assumption.
  - apply Forall_app. split; [exact Ha|]. apply Forall_forall. intros b Hb. apply H; [left; reflexivity|exact Hb].
Qed.
Lemma StronglySorted_concat_seq {A} (r : A -> A -> Prop) (g : nat -> list A) k o :
  (forall i, (o <= i < o + k)%nat -> StronglySorted r (g i)) ->
  (forall i j a b, (o <= i)%nat -> (i < j)%nat -> (j < o + k)%nat -> In a (g i) -> In b (g j) -> r a b) -> StronglySorted r (concat (map g (seq o k))).
Proof.
  revert o. induction k as [|k IH]; intros o H1 H2; cbn; [constructor|]. apply StronglySorted_app.
  - apply H1. lia.
  - apply IH; [intros; apply H1; lia|intros; apply (H2 i j); lia || assumption].
  - intros a b Ha Hb. apply in_concat in Hb. destruct Hb as (l & Hl & Hb). apply in_map_iff in Hl. destruct Hl as (j & <- & Hj).
    apply in_seq in Hj. apply (H2 o j); (lia || assumption).
Qed.
Lemma sorted_nth l i j d : StronglySorted lt l -> (i < j)%nat -> (j < length l)%nat -> (nth i l d < nth j l d)%nat.
Proof.
  intros H. revert i j. induction H as [|a l Hs IH Ha]; intros i j Hij Hj; cbn in Hj; [lia|].
  destruct j as [|j]; [lia|]. destruct i as [|i]; cbn [nth].
  - rewrite Forall_forall in Ha. apply Ha. apply nth_In. lia.
  - apply IH; lia.
Qed.
Lemma sorted_remove l i : StronglySorted lt l -> StronglySorted lt (remove_at i l).
Proof.
  unfold remove_at. intros H. revert i. induction H as [|a l Hs IH Ha]; intros i; [destruct i; constructor|].
  destruct i as [|i]; cbn [firstn skipn app]; [exact Hs|]. constructor; [apply IH|].
  rewrite Forall_forall in *. intros b Hb. apply Ha. apply in_app_iff in Hb. rewrite <- (firstn_skipn (S i) l).
  apply in_app_iff. destruct Hb as [Hb|Hb].
  - left. rewrite <- (firstn_skipn i (firstn (S i) l)), firstn_firstn, Nat.min_l by lia. apply in_app_iff. left. exact Hb.
  - right. exact Hb.
Qed.
Lemma seq_sorted o n : StronglySorted lt (seq o n).
Proof. revert o. induction n as [|n IH]; intros o; cbn; constructor; [apply IH|]. apply Forall_forall. intros a Ha. apply in_seq in Ha. lia. Qed.
Lemma nth_error_nth_some {A} (l : list A) i d : (i < length l)%nat -> nth_error l i = Some (nth i l d).
Proof. intros H. apply nth_error_nth'. exact H. Qed.
Lemma permutations_of_S f (l : list nat) : permutations_of (S f) l =
  concat (map (fun i => map (cons (nth i l O)) (permutations_of f (remove_at i l))) (seq 0 (length l))).
Proof.
  cbn [permutations_of]. f_equal. apply map_ext_in. intros i Hi. apply in_seq in Hi.
  rewrite (nth_error_nth_some l i O) by lia. reflexivity.
Qed.
Lemma permutations_sorted f : forall l, length l = f -> StronglySorted lt l -> StronglySorted lex_lt (permutations_of f l).
Proof.
  induction f as [|f IH]; intros l L S; [cbn; repeat constructor|]. rewrite permutations_of_S. apply StronglySorted_concat_seq.
  - intros i Hi. assert (H := IH (remove_at i l) ltac:(rewrite remove_at_length by lia; lia) (sorted_remove l i S)).
    induction H as [|q qs Hs IHq Hq]; cbn; constructor; [exact IHq|]. apply Forall_map. eapply Forall_impl; [|exact Hq].
    intros q' Hl. cbn. right. auto.
  - intros i j a b _ Hij Hj Ha Hb. apply in_map_iff in Ha, Hb. destruct Ha as (q & <- & _), Hb as (q' & <- & _).
    cbn. left. apply sorted_nth; [exact S|exact Hij|lia].
Qed.
Lemma lex_irrefl p : ~ lex_lt p p.
Proof. induction p as [|a p IH]; cbn; [auto|]. intros [H|[_ H]]; [lia|auto]. Qed.
Lemma sorted_NoDup l : StronglySorted lex_lt l -> NoDup l.
Proof.
  induction 1 as [|a l Hs IH Ha]; constructor; [|exact IH]. intros H. rewrite Forall_forall in Ha. apply (lex_irrefl a). apply Ha. exact H.
Qed.

Lemma cnt_full c l : (forall a, In a l -> (a < c)%nat) -> cnt c l = length l.
Proof.
  intros H. induction l as [|a l IH]; [reflexivity|]. unfold cnt in *. cbn [filter].
  rewrite (proj2 (Nat.ltb_lt a c)) by (apply H; left; reflexivity). cbn [length]. rewrite IH; [reflexivity|]. intros; apply H; right; assumption.
Qed.
Lemma in_firstn_nth {A} (l : list A) i a d : In a (firstn i l) -> exists k, (k < i)%nat /\ (k < length l)%nat /\ nth k l d = a.
Proof.
  revert i. induction l as [|b l IH]; intros [|i] H; cbn in H; try contradiction. destruct H as [->|H].
  - exists O. cbn. repeat split; lia.
  - destruct (IH i H) as (k & H1 & H2 & E). exists (S k). cbn. repeat split; (lia || exact E).
Qed.
Lemma in_skipn_nth {A} (l : list A) i a d : In a (skipn i l) -> exists k, (i <= k)%nat /\ (k < length l)%nat /\ nth k l d = a.
Proof.
  revert i. induction l as [|b l IH]; intros [|i] H; cbn [skipn] in H; try contradiction.
  - destruct (In_nth _ _ d H) as (k & H1 & E). exists k. repeat split; (lia || exact E).
  - destruct (IH i H) as (k & H1 & H2 & E). exists (S k). cbn. repeat split; (lia || exact E).
Qed.
Lemma cnt_removed l i : StronglySorted lt l -> (i < length l)%nat -> cnt (nth i l O) (remove_at i l) = i.
Proof.
  intros S Hi. unfold remove_at. rewrite cnt_app, cnt_full, cnt_zero.
  - rewrite firstn_length. lia.
  - intros a Ha. apply (in_skipn_nth _ _ _ O) in Ha. destruct Ha as (k & H1 & H2 & <-). pose proof (sorted_nth l i k O S). lia.
  - intros a Ha. apply (in_firstn_nth _ _ _ O) in Ha. destruct Ha as (k & H1 & H2 & <-). apply sorted_nth; assumption.
Qed.
Lemma m1_pow i : (-1) ^ i = if Nat.even i then 1 else -1.
Proof.
  induction i as [|i IH]; [reflexivity|]. rewrite Nat.even_succ, <- Nat.negb_even. cbn [pow]. rewrite IH. destruct (Nat.even i); cbn; ring.
Qed.
Lemma lexicographic_signs_S n : get_lexicographic_signs (S n) = lexicographic_step (get_lexicographic_signs n) (S n).
Proof.
  unfold get_lexicographic_signs. destruct n as [|n].
  - cbn. rewrite Rmult_1_l. reflexivity.
  - replace (S (S n) - 1)%nat with (S n) by lia. replace (S n - 1)%nat with n by lia.
    rewrite seq_S, fold_left_app. reflexivity.
Qed.
Lemma permutations_signs f : forall l, length l = f -> StronglySorted lt l -> map sign_of_list (permutations_of f l) = get_lexicographic_signs f.
Proof.
  induction f as [|f IH]; intros l L S; [reflexivity|]. rewrite permutations_of_S, lexicographic_signs_S.
  unfold lexicographic_step, get_alternating_signs. rewrite concat_map, !map_map, L. f_equal. apply map_ext_in. intros i Hi. apply in_seq in Hi.
  rewrite map_map. rewrite <- (IH (remove_at i l)); [|rewrite remove_at_length by lia; lia|apply sorted_remove; exact S].
  rewrite map_map. apply map_ext_in. intros q Hq.
  apply permutations_of_in in Hq; [|rewrite remove_at_length by lia; lia].
  rewrite sign_cons, (cnt_perm _ _ _ Hq), cnt_removed, m1_pow by (assumption || lia). reflexivity.
Qed.
Lemma signs_length n : length (get_lexicographic_signs n) = fact n.
Proof.
  induction n as [|n IH]; [reflexivity|]. rewrite lexicographic_signs_S. unfold lexicographic_step.
  assert (G : forall (l : list R), length (concat (map (fun sign => map (fun s => sign * s) (get_lexicographic_signs n)) l)) = (length l * length (get_lexicographic_signs n))%nat).
  { intros l. induction l as [|a l IHl]; [reflexivity|]. cbn [map concat length]. rewrite app_length, IHl, map_length. lia. }
  rewrite G. unfold get_alternating_signs. rewrite map_length, seq_length, IH. reflexivity.
Qed.

Lemma in_permutations n p : In p (permutations n) <-> Permutation p (seq 0 n).
Proof. apply permutations_of_in. apply seq_length. Qed.
Lemma permutations_NoDup n : NoDup (permutations n).
Proof. apply sorted_NoDup. apply permutations_sorted; [apply seq_length|apply seq_sorted]. Qed.
Lemma permutations_signs_n n : map sign_of_list (permutations n) = get_lexicographic_signs n.
Proof. apply permutations_signs; [apply seq_length|apply seq_sorted]. Qed.
Lemma permutations_length n : length (permutations n) = fact n.
Proof. rewrite <- (map_length sign_of_list), permutations_signs_n. apply signs_length. Qed.

(** ** Explicit antisymmetrisation *)
Lemma order_renumbering n p : Permutation p (seq 0 n) -> renumbering n (fun i => nth i p O) /\ map (fun i => nth i p O) (seq 0 n) = p.
Proof.
  intros H. assert (L : length p = n) by (rewrite (Permutation_length H); apply seq_length).
  assert (E : map (fun i => nth i p O) (seq 0 n) = p) by (rewrite <- L; apply map_seq_nth).
  split; [|exact E]. unfold renumbering. rewrite E. exact H.
Qed.
Lemma sign_map_order n s p : renumbering n s -> Permutation p (seq 0 n) -> sign_of_list (map s p) = sign_of n s * sign_of_list p.
Proof.
  intros Hs Hp. destruct (order_renumbering n p Hp) as (Hq & E).
  rewrite <- E at 2. change (sign_of_list (map (fun i => nth i p O) (seq 0 n))) with (sign_of n (fun i => nth i p O)).
  rewrite <- (sign_comp Hs Hq). unfold sign_of. rewrite <- (map_map (fun i => nth i p O) s), E. reflexivity.
Qed.
Lemma permutations_map n s : renumbering n s -> Permutation (map (map s) (permutations n)) (permutations n).
Proof.
  intros Hs. apply NoDup_Permutation_bis.
  - apply NoDup_map_on; [|apply permutations_NoDup]. intros p q Hp Hq E. apply in_permutations in Hp, Hq.
    assert (Lp : length p = length q) by (rewrite <- (map_length s p), E, map_length; reflexivity).
    apply (list_eq_nth _ _ O Lp). intros i Hi. apply (renumbering_inj n s Hs).
    + assert (In (nth i p O) (seq 0 n)) as Q by (apply (Permutation_in _ Hp), nth_In; exact Hi). apply in_seq in Q. lia.
    + assert (In (nth i q O) (seq 0 n)) as Q by (apply (Permutation_in _ Hq), nth_In; lia). apply in_seq in Q. lia.
    + rewrite <- !(map_nth s). rewrite E. reflexivity.
  - rewrite map_length. reflexivity.
  - intros q Hq. apply in_map_iff in Hq. destruct Hq as (p & <- & Hp). apply in_permutations in Hp. apply in_permutations.
    rewrite Hp. exact Hs.
Qed.
Lemma take_rows_reorder n s x p : renumbering n s -> length x = n -> Permutation p (seq 0 n) -> take_rows (reorder s x) p = take_rows x (map s p).
Proof.
  intros Hs L Hp. unfold take_rows. rewrite map_map. apply map_ext_in. intros i Hi.
  apply (Permutation_in _ Hp) in Hi. apply in_seq in Hi. apply (nth_reorder s n); (assumption || lia).
Qed.
(** The antisymmetriser of one leaf applied to any function of the rows. *)
Definition leaf (H : arr2 -> xr) (x : arr2) : xr := xsum (map (fun p => sg (sign_of_list p) (H (take_rows x p))) (permutations (length x))).
Lemma leaf_flips H s x x' : flips s x x' -> leaf H x' = sg s (leaf H x).
Proof.
  intros F. pose proof (flips_unit _ _ _ F) as U. destruct F as (t & Ht & -> & Es). unfold leaf. rewrite reorder_length.
  rewrite <- sg_sum by exact U. rewrite map_map.
  rewrite <- (xsum_perm _ _ (Permutation_map (fun p => sg s (sg (sign_of_list p) (H (take_rows x p)))) (permutations_map _ t Ht))).
  rewrite map_map. f_equal. apply map_ext_in. intros p Hp. apply in_permutations in Hp.
  rewrite (take_rows_reorder (length x)) by auto. rewrite sg_mul by (exact U || apply sign_unit).
  f_equal. rewrite (sign_map_order (length x) t p Ht Hp), <- Es, <- Rmult_assoc, (unit_sq s U). ring.
Qed.
Lemma nth_vscale s v c : nth c (vscale (Fin s) v) (Fin 0) = sg s (nth c v (Fin 0)).
Proof.
  unfold vscale. replace (Fin 0) with (xmul (Fin s) (Fin 0)) at 1 by (cbn; f_equal; ring). apply (map_nth (xmul (Fin s))).
Qed.
Lemma single_leaf_spec dout fn x : single_leaf_call dout fn x = map (fun c => leaf (fun y => nth c (fn (concat y)) (Fin 0)) x) (seq 0 dout).
Proof.
  unfold single_leaf_call, parallel_permutations, vsum, leaf. rewrite <- permutations_signs_n. apply map_ext. intros c. f_equal.
  rewrite map_zipw, zipw_map_l, !map_map, zipw_map_r, zipw_same. apply map_ext. intros p. apply nth_vscale.
Qed.
Lemma single_leaf_flips dout fn s x x' : flips s x x' -> single_leaf_call dout fn x' = map (sg s) (single_leaf_call dout fn x).
Proof. intros F. rewrite !single_leaf_spec, map_map. apply map_ext. intros c. apply leaf_flips. exact F. Qed.
Lemma zipw_sg {A} (op : A -> A -> A) (act : R -> A -> A) s t a b :
  (forall x y, op (act s x) (act t y) = act (s * t) (op x y)) -> zipw op (map (act s) a) (map (act t) b) = map (act (s * t)) (zipw op a b).
Proof. intros H. rewrite zipw_map_l, zipw_map_r, map_zipw. apply zipw_ext. intros; apply H. Qed.
Lemma leaves_flips {B} (F : (vec -> vec) -> arr2 -> B) (act : R -> B -> B) sgs fns xs xs' :
  (forall f s x x', flips s x x' -> F f x' = act s (F f x)) -> bflips sgs xs xs' -> length fns = length xs ->
  zipw F fns xs' = zipw act sgs (zipw F fns xs).
Proof.
  intros HF B'. revert fns. induction B' as [|s sgs l ls l' ls' Fl B' IH]; intros [|f fns] L; cbn in L; try lia; [reflexivity|].
  unfold zipw in *. cbn [combine map fst snd]. rewrite (HF f s l l' Fl), IH by lia. reflexivity.
Qed.
Lemma factorized_flips dout fns sgs xs xs' : bflips sgs xs xs' ->
  factorized_antisymmetrize dout fns xs' = option_map (map (sg (lprod sgs))) (factorized_antisymmetrize dout fns xs).
Proof.
  intros B'. destruct (bflips_length _ _ _ B') as (L1 & L2). unfold factorized_antisymmetrize. rewrite L1, L2.
  destruct (Nat.eqb_spec (length fns) (length sgs)) as [L|L]; [|reflexivity].
  rewrite (leaves_flips _ (fun s => map (sg s)) sgs fns xs xs' (single_leaf_flips dout) B') by lia.
  apply (reduce_signed _ (fun s => map (sg s))).
  - intros s t a b Us Ut. apply zipw_sg. intros. rewrite sg_xmul_l, sg_xmul_r, sg_mul by assumption. reflexivity.
  - apply (bflips_unit _ _ _ B').
  - rewrite zipw_length. lia.
Qed.
Lemma factorized_slog_flips dout fns sgs xs xs' : bflips sgs xs xs' ->
  factorized_antisymmetrize_slog dout fns xs' = option_map (map (signed (lprod sgs))) (factorized_antisymmetrize_slog dout fns xs).
Proof.
  intros B'. destruct (bflips_length _ _ _ B') as (L1 & L2). unfold factorized_antisymmetrize_slog. rewrite L1, L2.
  destruct (Nat.eqb_spec (length fns) (length sgs)) as [L|L]; [|reflexivity]. rewrite !map_zipw.
  rewrite (leaves_flips _ (fun s => map (signed s)) sgs fns xs xs'); [| |exact B'|lia].
  - apply (reduce_signed _ (fun s => map (signed s))).
    + intros s t a b Us Ut. apply zipw_sg. intros. apply slog_multiply_signed; assumption.
    + apply (bflips_unit _ _ _ B').
    + rewrite zipw_length. lia.
  - intros f s x x' F. rewrite (single_leaf_flips dout f s x x' F), !map_map. apply map_ext. intros a. apply sg_slog. apply (flips_unit _ _ _ F).
Qed.

(** Generic: one leaf after the other. *)
Fixpoint nested (F : list arr2 -> xr) (xs : list arr2) : xr :=
  match xs with
  | [] => F []
  | x :: r => leaf (fun y => nested (fun ys => F (y :: ys)) r) x
  end.
Lemma nested_flips sgs xs xs' : bflips sgs xs xs' -> forall F, nested F xs' = sg (lprod sgs) (nested F xs).
Proof.
  induction 1 as [|s sgs l ls l' ls' Fl B' IH]; intros F; cbn [nested].
  - symmetry. apply sg_1.
  - rewrite (leaf_flips _ s l l' Fl). pose proof (flips_unit _ _ _ Fl) as U. pose proof (lprod_unit _ (bflips_unit _ _ _ B')) as U'.
    unfold leaf. cbn [lprod fold_right]. fold (lprod sgs). rewrite <- sg_mul by assumption. f_equal. rewrite <- sg_sum by exact U'. rewrite map_map. f_equal.
    apply map_ext. intros p. rewrite IH. rewrite !sg_mul by (exact U' || apply sign_unit). f_equal. ring.
Qed.
Lemma xsum_concat_map {A B} (f : A -> list B) (g : B -> xr) l : xsum (map g (concat (map f l))) = xsum (map (fun a => xsum (map g (f a))) l).
Proof.
  induction l as [|a l IH]; [reflexivity|]. cbn [map concat]. rewrite map_app, xsum_app, IH, xsum_cons. reflexivity.
Qed.
Lemma sg_fold (c : list (arr2 * R)) a : Forall unit (map snd c) -> fold_left (fun a ps => xmul a (Fin (snd ps))) c a = sg (lprod (map snd c)) a.
Proof.
  revert a. induction c as [|p c IH]; intros a U; [symmetry; apply sg_1|]. cbn [fold_left map lprod fold_right] in *. inversion U; subst.
  rewrite IH by assumption. rewrite xmul_comm. change (xmul (Fin (snd p)) a) with (sg (snd p) a).
  rewrite sg_mul by (assumption || (apply lprod_unit; assumption)). f_equal. fold (lprod (map snd c)). ring.
Qed.
Lemma combos_nested xs : forall F,
  xsum (map (fun c : list (arr2 * R) => sg (lprod (map snd c)) (F (map fst c)))
     (combinations (map (fun x => map (fun p => (take_rows x p, sign_of_list p)) (permutations (length x))) xs))) = nested F xs
  /\ Forall (fun c => Forall unit (map snd c)) (combinations (map (fun x => map (fun p => (take_rows x p, sign_of_list p)) (permutations (length x))) xs)).
Proof.
  induction xs as [|x xs IH]; intros F.
  - cbn. split; [rewrite xadd_0_r; apply sg_1|repeat constructor].
  - cbn [map combinations]. set (cs := combinations _) in *.
    assert (U : Forall (fun c => Forall unit (map snd c)) cs) by (apply (IH (fun _ => NaN))). split.
    + rewrite !map_map, xsum_concat_map. cbn [nested]. unfold leaf. f_equal. apply map_ext. intros p. rewrite !map_map.
      destruct (IH (fun ys => F (take_rows x p :: ys))) as (E & _). fold cs in E. rewrite <- E.
      rewrite <- sg_sum by apply sign_unit. rewrite map_map. f_equal. apply map_ext_in. intros c Hc.
      cbn [map fst snd lprod fold_right]. fold (lprod (map snd c)). symmetry. apply sg_mul; [apply sign_unit|].
      apply lprod_unit. rewrite Forall_forall in U. apply U. exact Hc.
    + apply Forall_concat. apply Forall_map. apply Forall_forall. intros p Hp. apply Forall_map.
      eapply Forall_impl; [|exact U]. intros c Hc. cbn [map snd]. constructor; [|exact Hc]. apply in_map_iff in Hp.
      destruct Hp as (q & <- & _). apply sign_unit.
Qed.
Lemma combine_map_map {A B C} (f : A -> B) (g : A -> C) l : combine (map f l) (map g l) = map (fun a => (f a, g a)) l.
Proof. induction l as [|a l IH]; [reflexivity|]. cbn. rewrite IH. reflexivity. Qed.
Lemma generic_spec dout fn xs : generic_antisymmetrize dout fn xs =
  nested (fun ys => xsum (map (fun k => nth k (fn (concat (map (@concat xr) ys))) (Fin 0)) (seq 0 dout))) xs.
Proof.
  unfold generic_antisymmetrize. cbv zeta.
  rewrite (map_ext (fun x => combine (fst (parallel_permutations x)) (snd (parallel_permutations x)))
                   (fun x => map (fun p => (take_rows x p, sign_of_list p)) (permutations (length x)))).
  - destruct (combos_nested xs (fun ys => xsum (map (fun k => nth k (fn (concat (map (@concat xr) ys))) (Fin 0)) (seq 0 dout)))) as (E & U).
    rewrite <- E. f_equal. apply map_ext_in. intros c Hc. rewrite Forall_forall in U. specialize (U c Hc).
    rewrite <- sg_sum by (apply lprod_unit; exact U). rewrite map_map, map_map. f_equal. apply map_ext. intros k. apply sg_fold. exact U.
  - intros x. unfold parallel_permutations. cbn [fst snd]. rewrite <- permutations_signs_n. apply combine_map_map.
Qed.
Lemma generic_flips dout fn sgs xs xs' : bflips sgs xs xs' -> generic_antisymmetrize dout fn xs' = sg (lprod sgs) (generic_antisymmetrize dout fn xs).
Proof. intros B'. rewrite !generic_spec. apply nested_flips. exact B'. Qed.

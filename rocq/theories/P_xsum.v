(** * Extended reals under addition are a commutative monoid: sums over indices and pairs *)
From Coq Require Import Reals List Bool Arith Lra Lia Permutation.
From Verif Require Import XReal Rsum M_stats P_stats M_physics S_physics.
Import ListNotations.
Local Open Scope R_scope.

Lemma xadd_comm a b : xadd a b = xadd b a.
Proof. destruct a, b; simpl; try reflexivity. f_equal. ring. Qed.
Lemma xadd_assoc a b c : xadd a (xadd b c) = xadd (xadd a b) c.
Proof. destruct a, b, c; simpl; try reflexivity. f_equal. ring. Qed.
Lemma xadd_0_l a : xadd (Fin 0) a = a.
Proof. destruct a; simpl; try reflexivity. f_equal. ring. Qed.
Lemma xadd_0_r a : xadd a (Fin 0) = a.
Proof. rewrite xadd_comm. apply xadd_0_l. Qed.
Lemma xadd_double a b : xadd a a = xadd b b -> a = b.
Proof. destruct a, b; simpl; intros H; try discriminate; try reflexivity. injection H as H. f_equal. lra. Qed.

Lemma xsum_cons a l : xsum (a :: l) = xadd a (xsum l).
Proof. reflexivity. Qed.
Lemma xsum_app l l' : xsum (l ++ l') = xadd (xsum l) (xsum l').
Proof. induction l as [|a l IH]; [symmetry; apply xadd_0_l|]. simpl app. rewrite !xsum_cons, IH, xadd_assoc. reflexivity. Qed.
Lemma xsum_perm l l' : Permutation l l' -> xsum l = xsum l'.
Proof.
  induction 1 as [|x l l' _ IH|x y l|l l' l'' _ IH1 _ IH2]; [reflexivity|rewrite !xsum_cons, IH; reflexivity| |congruence].
  rewrite !xsum_cons, !xadd_assoc, (xadd_comm x y). reflexivity.
Qed.
Lemma xsum_map_add {A} (f g : A -> xr) l : xsum (map (fun x => xadd (f x) (g x)) l) = xadd (xsum (map f l)) (xsum (map g l)).
Proof.
  induction l as [|a l IH]; [symmetry; apply xadd_0_l|]. cbn [map]. rewrite !xsum_cons, IH.
  rewrite !xadd_assoc. f_equal. rewrite <- !xadd_assoc. f_equal. apply xadd_comm.
Qed.
Lemma xsum_map_0 {A} (l : list A) : xsum (map (fun _ => Fin 0) l) = Fin 0.
Proof. induction l as [|a l IH]; [reflexivity|]. cbn [map]. rewrite xsum_cons, IH, xadd_0_l. reflexivity. Qed.
Lemma xsum_flat_map {A B} (f : A -> list B) (g : B -> xr) l :
  xsum (map g (flat_map f l)) = xsum (map (fun a => xsum (map g (f a))) l).
Proof. induction l as [|a l IH]; [reflexivity|]. cbn [flat_map map]. rewrite map_app, xsum_app, IH. reflexivity. Qed.

Lemma xsum_n_ext n f g : (forall i, (i < n)%nat -> f i = g i) -> xsum_n n f = xsum_n n g.
Proof. intros H. unfold xsum_n. f_equal. apply map_ext_in. intros i Hi. apply H. apply in_seq in Hi. lia. Qed.
Lemma xsum_n_add n f g : xsum_n n (fun i => xadd (f i) (g i)) = xadd (xsum_n n f) (xsum_n n g).
Proof. apply xsum_map_add. Qed.
Lemma xsum_n_renumber n s f : renumbering n s -> xsum_n n (fun i => f (s i)) = xsum_n n f.
Proof. intros H. unfold xsum_n. rewrite <- (map_map s f). apply xsum_perm. apply Permutation_map. exact H. Qed.
Lemma xsum_n_swap n m f : xsum_n n (fun i => xsum_n m (fun j => f i j)) = xsum_n m (fun j => xsum_n n (fun i => f i j)).
Proof.
  unfold xsum_n. induction (seq 0 n) as [|a l IH].
  - simpl. rewrite xsum_map_0. reflexivity.
  - cbn [map]. rewrite xsum_cons, IH, <- xsum_map_add. reflexivity.
Qed.
Lemma xsum2_ext n m f g : (forall i j, (i < n)%nat -> (j < m)%nat -> f i j = g i j) -> xsum2 n m f = xsum2 n m g.
Proof. intros H. unfold xsum2. apply xsum_n_ext. intros i Hi. apply xsum_n_ext. intros j Hj. auto. Qed.
Lemma xsum2_add n m f g : xsum2 n m (fun i j => xadd (f i j) (g i j)) = xadd (xsum2 n m f) (xsum2 n m g).
Proof. unfold xsum2. rewrite <- xsum_n_add. apply xsum_n_ext. intros i _. apply xsum_n_add. Qed.
Lemma xsum2_fin n m f : xsum2 n m (fun i j => Fin (f i j)) = Fin (Rsum n (fun i => Rsum m (fun j => f i j))).
Proof. unfold xsum2. rewrite <- xsum_n_fin. apply xsum_n_ext. intros i _. apply xsum_n_fin. Qed.
Lemma xsum2_renumber_l n m s f : renumbering n s -> xsum2 n m (fun i j => f (s i) j) = xsum2 n m f.
Proof. intros H. unfold xsum2. apply (xsum_n_renumber n s (fun i => xsum_n m (f i)) H). Qed.
Lemma xsum2_renumber_r n m s f : renumbering m s -> xsum2 n m (fun i j => f i (s j)) = xsum2 n m f.
Proof. intros H. unfold xsum2. apply xsum_n_ext. intros i _. apply (xsum_n_renumber m s (f i) H). Qed.

Lemma renumbering_inj n s : renumbering n s -> forall i j, (i < n)%nat -> (j < n)%nat -> s i = s j -> i = j.
Proof.
  intros H i j Hi Hj E. assert (ND : NoDup (map s (seq 0 n))) by (apply (Permutation_NoDup (Permutation_sym H)), seq_NoDup).
  assert (L : length (map s (seq 0 n)) = n) by (rewrite map_length, seq_length; reflexivity).
  rewrite (NoDup_nth (map s (seq 0 n)) (s O)) in ND. apply ND; try (rewrite L; assumption).
  rewrite !(map_nth s). rewrite !seq_nth by assumption. exact E.
Qed.
Lemma renumbering_bound n s : renumbering n s -> forall i, (i < n)%nat -> (s i < n)%nat.
Proof.
  intros H i Hi. assert (In (s i) (seq 0 n)) as Hin.
  { apply (Permutation_in _ H). apply in_map. apply in_seq. lia. }
  apply in_seq in Hin. lia.
Qed.

(** Full sum over distinct pairs is twice the sum over i < j for a symmetric function. *)
Definition offdiag (m : nat -> nat -> xr) (i j : nat) : xr := xadd (triu1 m i j) (tril1 m i j).
Lemma offdiag_eq m i j : offdiag m i j = if Nat.eqb i j then Fin 0 else m i j.
Proof.
  unfold offdiag, triu1, tril1. destruct (Nat.ltb_spec i j), (Nat.ltb_spec j i), (Nat.eqb_spec i j); try lia;
    rewrite ?xadd_0_l, ?xadd_0_r; reflexivity.
Qed.
Lemma triu_double n m : (forall i j, m i j = m j i) -> xadd (xsum2 n n (triu1 m)) (xsum2 n n (triu1 m)) = xsum2 n n (offdiag m).
Proof.
  intros Hs. unfold offdiag. rewrite xsum2_add. f_equal. unfold xsum2. rewrite xsum_n_swap.
  apply xsum_n_ext. intros i _. apply xsum_n_ext. intros j _. unfold triu1, tril1. rewrite Hs. reflexivity.
Qed.
Lemma triu_renumber n s m : renumbering n s -> (forall i j, m i j = m j i) ->
  xsum2 n n (triu1 (fun i j => m (s i) (s j))) = xsum2 n n (triu1 m).
Proof.
  intros H Hs. apply xadd_double. rewrite !triu_double by auto.
  rewrite <- (xsum2_renumber_l n n s (offdiag m) H), <- (xsum2_renumber_r n n s (fun i j => offdiag m (s i) j) H).
  apply xsum2_ext. intros i j Hi Hj. rewrite !offdiag_eq.
  destruct (Nat.eqb_spec i j) as [->|Hij]; [rewrite Nat.eqb_refl; reflexivity|].
  destruct (Nat.eqb_spec (s i) (s j)) as [E|]; [|reflexivity]. exfalso. apply Hij. apply (renumbering_inj n s H); assumption.
Qed.

(** The sum over i < j is the sum over the unordered pairs. *)
Lemma triu_pairs n m : xsum2 n n (triu1 m) = xsum (map (fun ij => m (fst ij) (snd ij)) (unordered_pairs n)).
Proof.
  unfold unordered_pairs. rewrite xsum_flat_map. unfold xsum2, xsum_n at 1. f_equal. apply map_ext_in. intros i Hi. apply in_seq in Hi.
  rewrite map_map. cbn [fst snd]. unfold xsum_n. replace n with (S i + (n - S i))%nat at 1 by lia. rewrite seq_app, map_app, xsum_app.
  rewrite (map_ext_in _ (fun _ => Fin 0)) at 1.
  - rewrite xsum_map_0, xadd_0_l. f_equal. apply map_ext_in. intros j Hj. apply in_seq in Hj. unfold triu1.
    destruct (Nat.ltb_spec i j); [reflexivity|lia].
  - intros j Hj. apply in_seq in Hj. unfold triu1. destruct (Nat.ltb_spec i j); [lia|reflexivity].
Qed.
Lemma in_unordered_pairs n i j : In (i, j) (unordered_pairs n) <-> (i < j < n)%nat.
Proof.
  unfold unordered_pairs. rewrite in_flat_map. split.
  - intros (a & Ha & H). apply in_map_iff in H. destruct H as (b & E & Hb). injection E as -> ->. apply in_seq in Ha, Hb. lia.
  - intros H. exists i. split; [apply in_seq; lia|]. apply in_map_iff. exists j. split; [reflexivity|]. apply in_seq. lia.
Qed.
Lemma unordered_pairs_NoDup n : NoDup (unordered_pairs n).
Proof.
  unfold unordered_pairs. assert (G : forall l, NoDup l -> NoDup (flat_map (fun i => map (fun j => (i, j)) (seq (S i) (n - S i))) l)).
  { induction l as [|a l IH]; intros H; [constructor|]. inversion H as [|? ? H1 H2]; subst. simpl.
    assert (A1 : NoDup (map (fun j => (a, j)) (seq (S a) (n - S a)))).
    { apply FinFun.Injective_map_NoDup; [intros u v E; congruence|apply seq_NoDup]. }
    revert A1. generalize (seq (S a) (n - S a)). intros js. induction js as [|b js IHj]; intros A1; simpl; [auto|].
    inversion A1 as [|? ? A2 A3]; subst. constructor; [|auto]. intros Hin. apply in_app_or in Hin. destruct Hin as [Hin|Hin]; [contradiction|].
    apply in_flat_map in Hin. destruct Hin as (a' & Ha' & Hin). apply in_map_iff in Hin. destruct Hin as (? & E & _). injection E as -> _. contradiction. }
  apply G, seq_NoDup.
Qed.

(** * Facts about splitting by spin, cutting and reordering lists *)
From Coq Require Import Reals List Bool Arith Lia Permutation ZArith.
From Verif Require Import XReal M_slog M_models S_models P_xsum.
Import ListNotations.

(** ** cut *)
Lemma skipn_skipn {A} a b (l : list A) : skipn a (skipn b l) = skipn (a + b) l.
Proof.
  revert l; induction b as [|b IH]; intros l; [rewrite Nat.add_0_r; reflexivity|]. rewrite Nat.add_succ_r.
  destruct l; [rewrite !skipn_nil; reflexivity|]. cbn [skipn]. apply IH.
Qed.
Section Cut.
Context {A B : Type}.
Implicit Types (l : list A) (sizes : list nat).

Lemma cut_length sizes l : length (cut sizes l) = length sizes.
Proof. revert l; induction sizes as [|m r IH]; intros l; simpl; auto. Qed.
Lemma cut_concat sizes l : length l = list_sum sizes -> concat (cut sizes l) = l.
Proof.
  revert l; induction sizes as [|m r IH]; intros l H; simpl in *.
  - destruct l; [reflexivity|discriminate].
  - rewrite IH by (rewrite skipn_length; lia). apply firstn_skipn.
Qed.
Lemma cut_sizes sizes l : length l = list_sum sizes -> map (@length A) (cut sizes l) = sizes.
Proof.
  revert l; induction sizes as [|m r IH]; intros l H; simpl in *; [reflexivity|].
  rewrite firstn_length, Nat.min_l by lia. f_equal. apply IH. rewrite skipn_length; lia.
Qed.
Lemma cut_of_concat (bs : list (list A)) : cut (map (@length A) bs) (concat bs) = bs.
Proof.
  induction bs as [|b bs IH]; [reflexivity|]. cbn [map concat cut].
  rewrite firstn_app, Nat.sub_diag, firstn_all, firstn_O, app_nil_r.
  rewrite skipn_app, Nat.sub_diag, skipn_all. cbn [skipn app]. rewrite IH. reflexivity.
Qed.
Lemma cut_map (f : A -> B) sizes l : cut sizes (map f l) = map (map f) (cut sizes l).
Proof.
  revert l; induction sizes as [|m r IH]; intros l; [reflexivity|]. cbn [cut map].
  rewrite firstn_map, skipn_map, IH. reflexivity.
Qed.
End Cut.

Definition offset (sizes : list nat) (b : nat) : nat := list_sum (firstn b sizes).

Lemma offset_cons m r b : offset (m :: r) (S b) = (m + offset r b)%nat.
Proof. reflexivity. Qed.
Lemma offset_0 sizes : offset sizes O = O.
Proof. reflexivity. Qed.
Lemma list_sum_cons m r : list_sum (m :: r) = (m + list_sum r)%nat.
Proof. reflexivity. Qed.

Lemma nth_cut {A} (sizes : list nat) (l : list A) b : (b < length sizes)%nat ->
  nth b (cut sizes l) [] = firstn (nth b sizes O) (skipn (offset sizes b) l).
Proof.
  revert l b; induction sizes as [|m r IH]; intros l b H; simpl in H; [lia|].
  destruct b as [|b]; [reflexivity|]. cbn [cut nth]. rewrite IH by lia.
  rewrite skipn_skipn, offset_cons. f_equal. f_equal. lia.
Qed.

Lemma spin_of_lt sizes i : (i < list_sum sizes)%nat -> (spin_of sizes i < length sizes)%nat.
Proof.
  revert i; induction sizes as [|m r IH]; intros i H; [simpl in H; lia|]. rewrite list_sum_cons in H. cbn [spin_of length].
  destruct (Nat.ltb_spec i m); [lia|]. specialize (IH (i - m)%nat). lia.
Qed.
Lemma spin_of_range sizes i b : (i < list_sum sizes)%nat -> (b < length sizes)%nat ->
  (spin_of sizes i = b <-> (offset sizes b <= i < offset sizes b + nth b sizes O)%nat).
Proof.
  revert i b; induction sizes as [|m r IH]; intros i b Hi Hb; [simpl in Hi; lia|]. rewrite list_sum_cons in Hi. cbn [length] in Hb.
  cbn [spin_of]. destruct (Nat.ltb_spec i m).
  - destruct b as [|b]; [rewrite offset_0; cbn [nth]; split; intros; lia|]. rewrite offset_cons. cbn [nth]. split; [discriminate|lia].
  - destruct b as [|b]; [rewrite offset_0; cbn [nth]; split; [discriminate|lia]|]. rewrite offset_cons. cbn [nth].
    specialize (IH (i - m)%nat b). assert (i - m < list_sum r)%nat as H1 by lia. assert (b < length r)%nat as H2 by lia.
    specialize (IH H1 H2). split; intros Q.
    + assert (spin_of r (i - m) = b) as E by lia. apply IH in E. lia.
    + f_equal. apply IH. lia.
Qed.
Lemma offset_end sizes b : (b < length sizes)%nat -> (offset sizes b + nth b sizes O <= list_sum sizes)%nat.
Proof.
  revert b; induction sizes as [|m r IH]; intros b H; [simpl in H; lia|]. rewrite list_sum_cons. cbn [length] in H.
  destruct b as [|b]; [rewrite offset_0; cbn [nth]; lia|]. rewrite offset_cons. cbn [nth]. specialize (IH b). lia.
Qed.

(** ** The split of the program is the cut *)
Lemma split_at_cut {A} (l : list A) sizes : forall o, sizes <> [] -> (o + list_sum sizes = length l)%nat ->
  split_at o (ends o sizes) l = cut sizes (skipn o l).
Proof.
  induction sizes as [|m r IH]; intros o N H; [congruence|]. destruct r as [|m' r].
  - cbn [ends split_at cut]. simpl in H. f_equal. rewrite firstn_all2; [reflexivity|]. rewrite skipn_length. lia.
  - cbn [ends]. cbn [split_at]. rewrite IH; [|discriminate|simpl in *; lia].
    replace (o + m - o)%nat with m by lia. cbn [cut]. rewrite !skipn_skipn, (Nat.add_comm m o). reflexivity.
Qed.

Lemma ends_cons o m m' r : ends o (m :: m' :: r) = (o + m)%nat :: ends (o + m) (m' :: r).
Proof. reflexivity. Qed.
Lemma ends_repeat m k o : ends o (repeat m (S k)) = map (fun j => (o + S j * m)%nat) (seq 0 k).
Proof.
  revert o; induction k as [|k IH]; intros o; [reflexivity|].
  change (repeat m (S (S k))) with (m :: m :: repeat m k). rewrite ends_cons. change (m :: repeat m k) with (repeat m (S k)). rewrite IH.
  cbn [seq map]. f_equal; [lia|]. rewrite <- seq_shift, map_map. apply map_ext. intros j. lia.
Qed.
Lemma list_sum_repeat m k : list_sum (repeat m k) = (k * m)%nat.
Proof. induction k as [|k IH]; simpl in *; [reflexivity|]. rewrite IH. reflexivity. Qed.

Lemma split_cut {A} s sizes (l : list A) : describes s sizes -> length l = list_sum sizes -> split s l = Some (cut sizes l).
Proof.
  intros (N & H) L. destruct H as [(k & m & -> & E)| ->].
  - subst sizes. destruct k as [|k]; [simpl in N; congruence|]. unfold split. cbn [Nat.eqb].
    rewrite list_sum_repeat in L.
    assert (Hd : (length l / S k = m)%nat) by (rewrite L, Nat.mul_comm; apply Nat.div_mul; lia).
    assert (Hm : (length l mod S k = 0)%nat) by (rewrite L, Nat.mul_comm; apply Nat.mod_mul; lia).
    rewrite Hm, Hd. cbn [Nat.eqb]. f_equal. replace (S k - 1)%nat with k by lia.
    change (map (fun j => (S j * m)%nat) (seq 0 k)) with (map (fun j => (0 + S j * m)%nat) (seq 0 k)).
    rewrite <- (ends_repeat m k 0). rewrite split_at_cut; [reflexivity|discriminate|]. rewrite list_sum_repeat. lia.
  - unfold split. rewrite split_at_cut; [reflexivity|exact N|]. lia.
Qed.
Lemma pieces_cut {A} s sizes (l : list A) : describes s sizes -> length l = list_sum sizes -> pieces s l = cut sizes l.
Proof. intros H L. unfold pieces. rewrite (split_cut s sizes l H L). reflexivity. Qed.

Lemma ends_length o sizes : length (ends o sizes) = (length sizes - 1)%nat.
Proof.
  revert o; induction sizes as [|m r IH]; intros o; [reflexivity|]. destruct r as [|m' r]; [reflexivity|].
  rewrite ends_cons. cbn [length]. rewrite IH. cbn [length]. lia.
Qed.
Lemma nsplits_of s sizes : describes s sizes -> get_nsplits s = length sizes.
Proof.
  intros (N & [(k & m & -> & ->)| ->]); simpl; [rewrite repeat_length; reflexivity|].
  rewrite ends_length. destruct sizes; [congruence|simpl; lia].
Qed.

(** ** zipw and mapi *)
Lemma zipw_map_l {A A' B C} (f : A' -> B -> C) (g : A -> A') a b : zipw f (map g a) b = zipw (fun x y => f (g x) y) a b.
Proof. unfold zipw. revert b; induction a as [|x a IH]; intros [|y b]; simpl; try reflexivity. f_equal. apply IH. Qed.
Lemma zipw_map_r {A B B' C} (f : A -> B' -> C) (g : B -> B') a b : zipw f a (map g b) = zipw (fun x y => f x (g y)) a b.
Proof. unfold zipw. revert b; induction a as [|x a IH]; intros [|y b]; simpl; try reflexivity. f_equal. apply IH. Qed.
Lemma zipw_same {A C} (f : A -> A -> C) l : zipw f l l = map (fun x => f x x) l.
Proof. unfold zipw. induction l as [|x l IH]; simpl; [reflexivity|]. f_equal. exact IH. Qed.
Lemma zipw_length {A B C} (f : A -> B -> C) a b : length (zipw f a b) = Nat.min (length a) (length b).
Proof. unfold zipw. rewrite map_length. apply combine_length. Qed.
Lemma zipw_ext {A B C} (f g : A -> B -> C) a b : (forall x y, f x y = g x y) -> zipw f a b = zipw g a b.
Proof. intros H. unfold zipw. apply map_ext. intros []. apply H. Qed.
Lemma map_zipw {A B C D} (g : C -> D) (f : A -> B -> C) a b : map g (zipw f a b) = zipw (fun x y => g (f x y)) a b.
Proof. unfold zipw. rewrite map_map. reflexivity. Qed.
Lemma zipw_nth {A B C} (f : A -> B -> C) a b i da db dc : (i < length a)%nat -> (i < length b)%nat ->
  nth i (zipw f a b) dc = f (nth i a da) (nth i b db).
Proof.
  unfold zipw. revert a b; induction i as [|i IH]; intros [|x a] [|y b] Ha Hb; simpl in *; try lia; [reflexivity|]. apply IH; lia.
Qed.
Lemma mapi_length {A B} (f : nat -> A -> B) l : length (mapi f l) = length l.
Proof. unfold mapi. rewrite zipw_length, seq_length. lia. Qed.
Lemma mapi_nth {A B} (f : nat -> A -> B) l i da db : (i < length l)%nat -> nth i (mapi f l) db = f i (nth i l da).
Proof. intros H. unfold mapi. rewrite (zipw_nth f _ _ i O da) by (rewrite ?seq_length; lia). rewrite seq_nth by lia. reflexivity. Qed.

Lemma list_eq_nth {A} (l l' : list A) d : length l = length l' -> (forall i, (i < length l)%nat -> nth i l d = nth i l' d) -> l = l'.
Proof. intros H E. apply (nth_ext l l' d d H E). Qed.
Lemma map_seq_nth {A} (l : list A) d : map (fun i => nth i l d) (seq 0 (length l)) = l.
Proof.
  apply (list_eq_nth _ _ d); [rewrite map_length, seq_length; reflexivity|]. intros i H. rewrite map_length, seq_length in H.
  rewrite (nth_indep _ d (nth O l d)) by (rewrite map_length, seq_length; exact H).
  rewrite (map_nth (fun i => nth i l d)), seq_nth by exact H. reflexivity.
Qed.
Lemma nth_map_seq {A} (f : nat -> A) n i d : (i < n)%nat -> nth i (map f (seq 0 n)) d = f i.
Proof.
  intros H. rewrite (nth_indep _ d (f O)) by (rewrite map_length, seq_length; exact H). rewrite map_nth, seq_nth by exact H. reflexivity.
Qed.

(** ** reorder *)
Lemma reorder_length {A} s (l : list A) : length (reorder s l) = length l.
Proof. destruct l; [reflexivity|]. unfold reorder. rewrite map_length, seq_length. reflexivity. Qed.
Lemma renumbering_lt n s i : renumbering n s -> (i < n)%nat -> (s i < n)%nat.
Proof. intros H. apply (renumbering_bound n s H). Qed.
Lemma reorder_map_seq {A} s n (l : list A) d : renumbering n s -> length l = n -> reorder s l = map (fun i => nth (s i) l d) (seq 0 n).
Proof.
  intros H L. destruct l as [|a l]; [simpl in L; subst; reflexivity|]. unfold reorder. rewrite L. apply map_ext_in. intros i Hi.
  apply in_seq in Hi. apply nth_indep. rewrite L. apply (renumbering_lt n s i H). lia.
Qed.
Lemma nth_reorder {A} s n (l : list A) d i : renumbering n s -> length l = n -> (i < n)%nat -> nth i (reorder s l) d = nth (s i) l d.
Proof. intros H L Hi. rewrite (reorder_map_seq s n l d H L). apply (nth_map_seq (fun i => nth (s i) l d)). exact Hi. Qed.
Lemma reorder_map {A B} (f : A -> B) s l : reorder s (map f l) = map f (reorder s l).
Proof.
  destruct l as [|a l]; [reflexivity|]. cbn [map]. unfold reorder. change (f a :: map f l) with (map f (a :: l)). rewrite map_length, map_map.
  apply map_ext. intros i. apply map_nth.
Qed.
Lemma reorder_perm {A} s (l : list A) : renumbering (length l) s -> Permutation (reorder s l) l.
Proof.
  intros H. destruct l as [|a l]; [reflexivity|]. unfold reorder. rewrite <- (map_map s (fun i => nth i (a :: l) a)).
  transitivity (map (fun i => nth i (a :: l) a) (seq 0 (length (a :: l)))); [apply Permutation_map; exact H|].
  rewrite map_seq_nth. reflexivity.
Qed.
Lemma map_seq_reorder {A} (f : nat -> A) s n : renumbering n s -> reorder s (map f (seq 0 n)) = map (fun i => f (s i)) (seq 0 n).
Proof.
  intros H. destruct n as [|n]; [reflexivity|]. rewrite (reorder_map_seq s (S n) _ (f O) H) by (rewrite map_length, seq_length; reflexivity).
  apply map_ext_in. intros i Hi. apply in_seq in Hi. apply nth_map_seq. apply renumbering_lt; [exact H|lia].
Qed.
Lemma Forall_reorder {A} (P : A -> Prop) s l : renumbering (length l) s -> Forall P l -> Forall P (reorder s l).
Proof. intros H F. apply (Permutation_Forall (Permutation_sym (reorder_perm s l H))). exact F. Qed.

(** ** A renumbering that keeps spins permutes every piece *)
Lemma cut_piece {A} sizes (l : list A) b d : length l = list_sum sizes -> (b < length sizes)%nat ->
  nth b (cut sizes l) [] = map (fun i => nth i l d) (seq (offset sizes b) (nth b sizes O)).
Proof.
  intros L Hb. rewrite nth_cut by exact Hb. pose proof (offset_end sizes b Hb) as E.
  apply (list_eq_nth _ _ d).
  - rewrite firstn_length, skipn_length, map_length, seq_length. lia.
  - intros i Hi. rewrite firstn_length, skipn_length in Hi. assert (i < nth b sizes O)%nat as Hi' by lia.
    rewrite (nth_indep (map _ _) d (nth O l d)) by (rewrite map_length, seq_length; exact Hi').
    rewrite (map_nth (fun i => nth i l d)), seq_nth by exact Hi'.
    rewrite <- (firstn_skipn (offset sizes b) l) at 2. rewrite app_nth2; rewrite firstn_length, Nat.min_l by lia; [|lia].
    replace (offset sizes b + i - offset sizes b)%nat with i by lia.
    rewrite <- (firstn_skipn (nth b sizes O) (skipn (offset sizes b) l)) at 2. rewrite app_nth1; [reflexivity|].
    rewrite firstn_length, skipn_length. lia.
Qed.

Lemma keeps_range sizes s b i : keeps_spins sizes s -> (b < length sizes)%nat ->
  (offset sizes b <= i < offset sizes b + nth b sizes O)%nat -> (offset sizes b <= s i < offset sizes b + nth b sizes O)%nat.
Proof.
  intros (H & K) Hb Hi. pose proof (offset_end sizes b Hb) as E. assert (i < list_sum sizes)%nat as L by lia.
  apply (spin_of_range sizes (s i) b); [apply renumbering_lt; assumption|exact Hb|]. rewrite K by exact L.
  apply spin_of_range; assumption.
Qed.

Lemma NoDup_map_on {A B} (f : A -> B) l : (forall x y, In x l -> In y l -> f x = f y -> x = y) -> NoDup l -> NoDup (map f l).
Proof.
  induction l as [|a l IH]; intros H D; [constructor|]. inversion D as [|? ? Na Dl]; subst. cbn [map]. constructor.
  - intros Q. apply in_map_iff in Q. destruct Q as (b & E & Hb). apply Na. rewrite (H a b); [exact Hb|left; reflexivity|right; exact Hb|symmetry; exact E].
  - apply IH; [|exact Dl]. intros x y Hx Hy. apply H; right; assumption.
Qed.

Lemma keeps_perm_range sizes s b : keeps_spins sizes s -> (b < length sizes)%nat ->
  Permutation (map s (seq (offset sizes b) (nth b sizes O))) (seq (offset sizes b) (nth b sizes O)).
Proof.
  intros K Hb. pose proof (offset_end sizes b Hb) as E. apply NoDup_Permutation_bis.
  - apply NoDup_map_on; [|apply seq_NoDup]. intros i j Hi Hj. apply in_seq in Hi, Hj.
    destruct K as (H & _). apply (renumbering_inj (list_sum sizes) s); [exact H|lia|lia].
  - rewrite map_length, seq_length. reflexivity.
  - intros k Hk. apply in_map_iff in Hk. destruct Hk as (i & <- & Hi). apply in_seq in Hi.
    apply in_seq. apply keeps_range; assumption.
Qed.

Lemma cut_reorder_piece {A} sizes s (l : list A) b : keeps_spins sizes s -> length l = list_sum sizes -> (b < length sizes)%nat ->
  Permutation (nth b (cut sizes (reorder s l)) []) (nth b (cut sizes l) []).
Proof.
  intros K L Hb. pose proof (offset_end sizes b Hb) as E. destruct l as [|a l'] eqn:El.
  - simpl. reflexivity.
  - rewrite <- El in *. rewrite (cut_piece sizes (reorder s l) b a) by (rewrite ?reorder_length; assumption).
    rewrite (cut_piece sizes l b a L Hb).
    transitivity (map (fun i => nth i l a) (map s (seq (offset sizes b) (nth b sizes O)))).
    + rewrite map_map. erewrite map_ext_in; [reflexivity|]. intros i Hi. apply in_seq in Hi.
      destruct K as (H & _). apply (nth_reorder s (list_sum sizes)); [exact H|exact L|lia].
    + apply Permutation_map. apply keeps_perm_range; assumption.
Qed.

(** ** Arrays given piece by piece through a function of (spin, index) *)
Definition by_spin {A} (sizes : list nat) (g : nat -> nat -> A) : list (list A) :=
  mapi (fun b blk => map (g b) blk) (cut sizes (seq 0 (list_sum sizes))).

Lemma by_spin_length {A} sizes (g : nat -> nat -> A) : length (by_spin sizes g) = length sizes.
Proof. unfold by_spin. rewrite mapi_length. apply cut_length. Qed.
Lemma by_spin_nth {A} sizes (g : nat -> nat -> A) b : (b < length sizes)%nat ->
  nth b (by_spin sizes g) [] = map (g b) (seq (offset sizes b) (nth b sizes O)).
Proof.
  intros H. unfold by_spin. rewrite (mapi_nth _ _ _ []) by (rewrite cut_length; exact H). f_equal.
  rewrite (cut_piece sizes (seq 0 (list_sum sizes)) b O) by (rewrite ?seq_length; auto).
  rewrite <- (map_id (seq (offset sizes b) _)) at 2. apply map_ext_in. intros i Hi. apply in_seq in Hi.
  pose proof (offset_end sizes b H). rewrite seq_nth by lia. reflexivity.
Qed.
Lemma by_spin_ext {A} sizes (g h : nat -> nat -> A) :
  (forall b i, (b < length sizes)%nat -> (offset sizes b <= i < offset sizes b + nth b sizes O)%nat -> g b i = h b i) -> by_spin sizes g = by_spin sizes h.
Proof.
  intros H. apply (list_eq_nth _ _ []); [rewrite !by_spin_length; reflexivity|]. intros b Hb. rewrite by_spin_length in Hb.
  rewrite !by_spin_nth by exact Hb. apply map_ext_in. intros i Hi. apply in_seq in Hi. apply H; assumption.
Qed.
Lemma cut_by_spin {A} sizes (l : list A) d : length l = list_sum sizes -> cut sizes l = by_spin sizes (fun _ i => nth i l d).
Proof.
  intros L. apply (list_eq_nth _ _ []); [rewrite by_spin_length; apply cut_length|]. intros b Hb. rewrite cut_length in Hb.
  rewrite by_spin_nth, (cut_piece sizes l b d) by assumption. reflexivity.
Qed.
Lemma cut_map_seq_by_spin {A} sizes (f : nat -> A) : cut sizes (map f (seq 0 (list_sum sizes))) = by_spin sizes (fun _ => f).
Proof.
  rewrite cut_map. unfold by_spin, mapi.
  assert (G : forall (ll : list (list nat)) o, map (map f) ll = zipw (fun _ blk => map f blk) (seq o (length ll)) ll).
  { induction ll as [|a ll IH]; intros o; [reflexivity|]. unfold zipw in *. cbn [length seq combine map fst snd]. f_equal. apply IH. }
  apply G.
Qed.

Lemma concat_by_spin {A} sizes (g : nat -> nat -> A) : concat (by_spin sizes g) = map (fun i => g (spin_of sizes i) i) (seq 0 (list_sum sizes)).
Proof.
  set (f := fun i => g (spin_of sizes i) i).
  rewrite (by_spin_ext sizes g (fun _ => f)).
  - rewrite <- cut_map_seq_by_spin. apply cut_concat. rewrite map_length, seq_length. reflexivity.
  - intros b i Hb Hi. unfold f. pose proof (offset_end sizes b Hb).
    replace (spin_of sizes i) with b; [reflexivity|]. symmetry. apply spin_of_range; [lia|exact Hb|exact Hi].
Qed.

Lemma zipw_by_spin {A B C} sizes (F : list A -> list B -> list C) (g : nat -> nat -> A) (h : nat -> nat -> B) (k : nat -> nat -> C) :
  (forall b, (b < length sizes)%nat -> F (map (g b) (seq (offset sizes b) (nth b sizes O))) (map (h b) (seq (offset sizes b) (nth b sizes O)))
     = map (k b) (seq (offset sizes b) (nth b sizes O))) ->
  zipw F (by_spin sizes g) (by_spin sizes h) = by_spin sizes k.
Proof.
  intros H. apply (list_eq_nth _ _ []); [rewrite zipw_length, !by_spin_length; lia|]. intros b Hb.
  rewrite zipw_length, !by_spin_length in Hb. assert (b < length sizes)%nat as Hb' by lia.
  rewrite (zipw_nth F _ _ b [] []) by (rewrite by_spin_length; exact Hb'). rewrite !by_spin_nth by exact Hb'. apply H. exact Hb'.
Qed.

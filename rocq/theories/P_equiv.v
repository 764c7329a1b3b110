(** * The network layers act electron by electron; permutation equivariance (C43, C49, C50) *)
From Coq Require Import Reals List Bool Arith Lia Permutation.
From Verif Require Import XReal M_slog M_models S_models P_xsum P_split.
Import ListNotations.

(** ** Permutation-invariant building blocks *)
Lemma xmax_comm a b : xmax a b = xmax b a.
Proof.
  unfold xmax. destruct a as [a| | |], b as [b| | |]; cbn [isnan xltb]; try reflexivity.
  destruct (Rltb a b) eqn:E, (Rltb b a) eqn:F; try reflexivity.
  - apply Rltb_true in E, F. exfalso. apply (Rlt_asym a b); assumption.
  - apply Rltb_false in E, F. f_equal. apply Rle_antisym; assumption.
Qed.
Lemma xmax_assoc a b c : xmax a (xmax b c) = xmax (xmax a b) c.
Proof.
  destruct a as [a| | |], b as [b| | |], c as [c| | |]; unfold xmax; cbn [isnan xltb]; try reflexivity;
    repeat match goal with
    | |- context [if Rltb ?u ?v then _ else _] => let E := fresh "E" in destruct (Rltb u v) eqn:E; cbn [isnan xltb]
    end; try reflexivity; try congruence;
    repeat match goal with H : Rltb _ _ = true |- _ => apply Rltb_true in H | H : Rltb _ _ = false |- _ => apply Rltb_false in H end;
    first [exfalso; Lra.lra | f_equal; Lra.lra].
Qed.
Lemma xmax_perm l l' : Permutation l l' -> fold_right xmax MInf l = fold_right xmax MInf l'.
Proof.
  induction 1 as [|x l l' _ IH|x y l|l l' l'' _ IH1 _ IH2]; cbn [fold_right]; [reflexivity|rewrite IH; reflexivity| |congruence].
  rewrite !xmax_assoc, (xmax_comm x y). reflexivity.
Qed.

Lemma vmean_perm d b b' : Permutation b b' -> vmean d b = vmean d b'.
Proof.
  intros H. unfold vmean. apply map_ext. intros c. rewrite (Permutation_length H). f_equal. apply xsum_perm. apply Permutation_map. exact H.
Qed.

Lemma at_row_perm a b b' xi : Permutation b b' -> at_row a b xi = at_row a b' xi.
Proof.
  intros H. unfold at_row. apply map_ext. intros f. f_equal. f_equal. apply map_ext. intros h. f_equal. apply map_ext. intros c. f_equal.
  unfold at_head. cbv zeta. rewrite (xmax_perm _ _ (Permutation_map (at_score a h xi) H)).
  rewrite (xsum_perm _ _ (Permutation_map (fun xj => xexp (xsub (at_score a h xi xj) (fold_right xmax MInf (map (at_score a h xi) b')))) H)).
  apply xsum_perm. apply Permutation_map. exact H.
Qed.

(** ** Concatenation of means *)
Definition roll {A} (n : nat) (l : list A) : list A := skipn n l ++ firstn n l.
Lemma roll_map {A B} (f : A -> B) n l : roll n (map f l) = map f (roll n l).
Proof. unfold roll. rewrite skipn_map, firstn_map, map_app. reflexivity. Qed.
Lemma roll_length {A} n (l : list A) : length (roll n l) = length l.
Proof. unfold roll. rewrite app_length, skipn_length, firstn_length. lia. Qed.

Lemma concat_last_rows {R J} (F : J -> R -> vec) (rows : list R) (js : list J) : js <> [] ->
  concat_last (map (fun j => map (F j) rows) js) = map (fun r => concat (map (fun j => F j r) js)) rows.
Proof.
  intros N. destruct js as [|j js]; [congruence|]. unfold concat_last. cbn [map hd]. rewrite map_length.
  change ((map (F j) rows) :: map (fun j => map (F j) rows) js) with (map (fun j => map (F j) rows) (j :: js)).
  destruct rows as [|r0 rows]; [reflexivity|]. set (all := r0 :: rows).
  apply (list_eq_nth _ _ []); [rewrite !map_length, seq_length; reflexivity|]. intros i Hi. rewrite map_length, seq_length in Hi.
  rewrite (nth_map_seq (fun r => concat (map (fun a => nth r a []) (map (fun j => map (F j) all) (j :: js))))) by exact Hi.
  rewrite (nth_indep (map _ all) [] (concat (map (fun j => F j r0) (j :: js)))) by (rewrite map_length; exact Hi).
  rewrite (map_nth (fun r => concat (map (fun j => F j r) (j :: js)))). f_equal. rewrite map_map. apply map_ext. intros k.
  rewrite (nth_indep (map (F k) all) [] (F k r0)) by (rewrite map_length; exact Hi). rewrite map_nth. reflexivity.
Qed.
Lemma rolled_concat_rows {R J} (F : J -> R -> vec) (rows : list R) (js : list J) n : js <> [] ->
  rolled_concat (map (fun j => map (F j) rows) js) n = map (fun r => concat (map (fun j => F j r) (roll n js))) rows.
Proof.
  intros N. unfold rolled_concat. rewrite skipn_map, firstn_map, <- map_app. apply concat_last_rows.
  intros E. apply N. apply length_zero_iff_nil. pose proof (roll_length n js) as Q. rewrite E in Q. symmetry. exact Q.
Qed.

Lemma describes_nonempty s sizes : describes s sizes -> (0 < length sizes)%nat.
Proof. intros (N & _). destruct sizes; [congruence|simpl; lia]. Qed.

Lemma concat_singletons {A} (l : list A) : concat (map (fun a => [a]) l) = l.
Proof. induction l as [|a l IH]; [reflexivity|]. cbn. rewrite IH. reflexivity. Qed.
Lemma cut_ones {A} (l : list A) : cut (repeat 1%nat (length l)) l = map (fun a => [a]) l.
Proof.
  pose proof (cut_of_concat (map (fun a => [a]) l)) as H. rewrite concat_singletons, map_map in H. cbn [length] in H.
  rewrite <- H. f_equal. clear. induction l as [|a l IH]; [reflexivity|]. cbn. rewrite IH. reflexivity.
Qed.
Lemma pieces_singletons {A} (l : list A) : l <> [] -> pieces (Equal (length l)) l = map (fun a => [a]) l.
Proof.
  intros N. rewrite (pieces_cut (Equal (length l)) (repeat 1%nat (length l)) l).
  - apply cut_ones.
  - split; [destruct l; [congruence|discriminate]|]. left. exists (length l), 1%nat. auto.
  - rewrite list_sum_repeat. lia.
Qed.

(** The mixed term added to every electron of spin b. *)
Definition mixed_term (p : layer1) (means : list vec) (b : nat) : vec :=
  dense (l1_ndense p) (l1_mixed p) None (if l1_cyclic p then concat (roll b means) else concat means).

Lemma transformed_1e_rows p (means : list vec) : means <> [] ->
  transformed_1e_means p (map (fun m => [m]) means) = map (fun b => [mixed_term p means b]) (seq 0 (length means)).
Proof.
  intros N. unfold transformed_1e_means, mixed_term. cbv zeta. rewrite !map_length, ?seq_length. destruct (l1_cyclic p).
  - assert (E : map (rolled_concat (map (fun m => [m]) means)) (seq 0 (length means)) = map (fun b => [concat (roll b means)]) (seq 0 (length means))).
    { apply map_ext. intros b. change (map (fun m : vec => [m]) means) with (map (fun m : vec => map (fun _ : unit => m) [tt]) means).
      rewrite (rolled_concat_rows (fun m (_ : unit) => m) [tt] means b N). cbn [map]. rewrite map_id. reflexivity. }
    rewrite E.
    rewrite <- (map_map (fun b => concat (roll b means)) (fun v => [v])). rewrite concat_singletons, map_map.
    set (L := map (fun x => dense (l1_ndense p) (l1_mixed p) None (concat (roll x means))) (seq 0 (length means))).
    assert (LL : length L = length means) by (unfold L; rewrite map_length, seq_length; reflexivity).
    rewrite <- LL at 1. rewrite pieces_singletons by (intros Q; rewrite Q in LL; destruct means; [congruence|discriminate]).
    unfold L. rewrite map_map. reflexivity.
  - change (map (fun m : vec => [m]) means) with (map (fun m : vec => map (fun _ : unit => m) [tt]) means).
    rewrite (concat_last_rows (fun m (_ : unit) => m) [tt] means N). cbn [map]. rewrite map_id.
    generalize (dense (l1_ndense p) (l1_mixed p) None (concat means)) as v. intros v.
    generalize O as o. induction (length means) as [|k IH]; intros o; [reflexivity|]. cbn [repeat seq map]. f_equal. apply IH.
Qed.

(** The two-electron term of one electron of spin b with row [row]. *)
Definition two_term (p : layer1) (sizes : list nat) (d : nat) (b : nat) (row : arr2) : vec :=
  let means := map (vmean d) (cut sizes row) in
  dense (l1_ndense p) (l1_2e p) None (if l1_cyclic p then concat (roll b means) else concat means).

Lemma map_nth_seq_cut {A B} (f : list A -> B) sizes (l : list A) :
  map (fun j => f (nth j (cut sizes l) [])) (seq 0 (length sizes)) = map f (cut sizes l).
Proof.
  rewrite <- (cut_length sizes l). rewrite <- (map_map (fun j => nth j (cut sizes l) []) f). f_equal. apply map_seq_nth.
Qed.

Lemma transformed_2e_rows p sizes d y : describes (l1_split p) sizes -> length y = list_sum sizes ->
  Forall (fun row => length row = list_sum sizes) y -> width (hd [] y) = d ->
  transformed_2e_means p y = by_spin sizes (fun b i => two_term p sizes d b (nth i y [])).
Proof.
  intros D L F W. unfold transformed_2e_means. rewrite W. cbv zeta. pose proof (describes_nonempty _ _ D) as NE.
  set (rows_ := fun b row => let means := map (vmean d) (cut sizes row) in if l1_cyclic p then concat (roll b means) else concat means).
  assert (E : mapi (fun spin rows => if l1_cyclic p then rolled_concat (split_mean_2e (l1_split p) d rows) spin
                                     else concat_last (split_mean_2e (l1_split p) d rows)) (pieces (l1_split p) y)
              = by_spin sizes (fun b i => rows_ b (nth i y []))).
  { rewrite (pieces_cut _ sizes y D L). apply (list_eq_nth _ _ []); [rewrite mapi_length, by_spin_length; apply cut_length|].
    intros b Hb. rewrite mapi_length, cut_length in Hb. rewrite (mapi_nth _ _ _ []) by (rewrite cut_length; exact Hb).
    rewrite by_spin_nth by exact Hb. rewrite (cut_piece sizes y b [] L Hb).
    assert (S : split_mean_2e (l1_split p) d (map (fun i => nth i y []) (seq (offset sizes b) (nth b sizes 0)))
       = map (fun j => map (fun i => vmean d (nth j (cut sizes (nth i y [])) [])) (seq (offset sizes b) (nth b sizes 0))) (seq 0 (length sizes))).
    { unfold split_mean_2e. rewrite (nsplits_of _ _ D). apply map_ext. intros j. rewrite map_map. apply map_ext_in. intros i Hi. apply in_seq in Hi.
      pose proof (offset_end sizes b Hb). f_equal. f_equal. apply (pieces_cut _ _ _ D).
      rewrite Forall_forall in F. apply F. apply nth_In. lia. }
    rewrite S. unfold rows_. cbv zeta. assert (seq 0 (length sizes) <> []) as NN by (destruct sizes; [simpl in NE; lia|discriminate]).
    destruct (l1_cyclic p).
    - rewrite (rolled_concat_rows (fun j i => vmean d (nth j (cut sizes (nth i y [])) [])) _ _ b NN). apply map_ext. intros i.
      rewrite <- roll_map. rewrite (map_nth_seq_cut (vmean d)). reflexivity.
    - rewrite (concat_last_rows (fun j i => vmean d (nth j (cut sizes (nth i y [])) [])) _ _ NN). apply map_ext. intros i.
      rewrite (map_nth_seq_cut (vmean d)). reflexivity. }
  rewrite E, concat_by_spin, map_map.
  rewrite (pieces_cut _ sizes _ D) by (rewrite map_length, seq_length; reflexivity).
  rewrite cut_map_seq_by_spin. apply by_spin_ext. intros b i Hb Hi. pose proof (offset_end sizes b Hb) as OE.
  unfold two_term, rows_. cbv zeta. assert (spin_of sizes i = b) as -> by (apply spin_of_range; [lia|exact Hb|exact Hi]). reflexivity.
Qed.

Lemma add_rows_one a m : add_rows a [m] = map (fun r => vadd r m) a.
Proof.
  unfold add_rows. cbn [length hd]. destruct (Nat.eqb_spec (length a) 1) as [E|E]; [|reflexivity].
  destruct a as [|r [|r' a]]; try discriminate. reflexivity.
Qed.
Lemma add_rows_same {A} (g h : A -> vec) l : add_rows (map g l) (map h l) = map (fun i => vadd (g i) (h i)) l.
Proof. unfold add_rows. rewrite !map_length, Nat.eqb_refl. rewrite zipw_map_l, zipw_map_r, zipw_same. reflexivity. Qed.

(** Mean features per spin, and the row the layer computes for electron i. *)
Definition spin_means (sizes : list nat) (x : arr2) : list vec := map (vmean (width x)) (cut sizes x).
Definition mix_row (p : layer1) (sizes : list nat) (x : arr2) (b : nat) (xi : vec) : vec :=
  match l1_attention p with
  | Some a => at_row a (nth b (cut sizes x) []) xi
  | None => mixed_term p (spin_means sizes x) b
  end.
Definition layer_row (p : layer1) (sizes : list nat) (x : arr2) (y : option arr3) (b : nat) (xi : vec) (yi : arr2) : vec :=
  let u := vadd (dense (l1_ndense p) (l1_unmixed p) (l1_bias p) xi) (mix_row p sizes x b xi) in
  let u := match y with Some y => vadd u (two_term p sizes (width (hd [] y)) b yi) | None => u end in
  let u := map (l1_act p) u in
  if l1_skip p && Nat.eqb (width x) (l1_ndense p) then zipw (fun a b => xmul (l1_scale p) (xadd a b)) u xi else u.

Definition rows_of (y : option arr3) (i : nat) : arr2 := match y with Some y => nth i y [] | None => [] end.
Definition good2 (n : nat) (y : option arr3) : Prop := match y with Some y => length y = n /\ Forall (fun row => length row = n) y | None => True end.

Lemma mixed_add p sizes x (g : nat -> nat -> vec) : describes (l1_split p) sizes -> length x = list_sum sizes ->
  tree_sum (by_spin sizes g) (mixed_split p x) = by_spin sizes (fun b i => vadd (g b i) (mix_row p sizes x b (nth i x []))).
Proof.
  intros D L. pose proof (describes_nonempty _ _ D) as NE. unfold tree_sum, mixed_split, mix_row. destruct (l1_attention p) as [a|].
  - rewrite (pieces_cut _ sizes x D L).
    assert (E : map (self_attention a) (cut sizes x) = by_spin sizes (fun b i => at_row a (nth b (cut sizes x) []) (nth i x []))).
    { apply (list_eq_nth _ _ []); [rewrite map_length, by_spin_length; apply cut_length|]. intros b Hb. rewrite map_length, cut_length in Hb.
      rewrite by_spin_nth by exact Hb. rewrite (nth_indep _ [] (self_attention a [])) by (rewrite map_length, cut_length; exact Hb).
      rewrite map_nth. unfold self_attention at 1. rewrite (cut_piece sizes x b [] L Hb) at 2. rewrite map_map. reflexivity. }
    rewrite E. apply zipw_by_spin. intros b Hb. apply add_rows_same.
  - assert (E : split_mean_keep (l1_split p) x = map (fun m => [m]) (spin_means sizes x)).
    { unfold split_mean_keep, spin_means. rewrite (pieces_cut _ sizes x D L), map_map. reflexivity. }
    assert (LM : length (spin_means sizes x) = length sizes) by (unfold spin_means; rewrite map_length; apply cut_length).
    rewrite E, transformed_1e_rows, LM by (intros Q; rewrite Q in LM; simpl in LM; lia).
    apply (list_eq_nth _ _ []); [rewrite zipw_length, !by_spin_length, map_length, seq_length; lia|]. intros b Hb.
    rewrite zipw_length, by_spin_length, map_length, seq_length in Hb. assert (b < length sizes)%nat as Hb' by lia.
    rewrite (zipw_nth add_rows _ _ b [] []) by (rewrite ?by_spin_length, ?map_length, ?seq_length; exact Hb').
    rewrite !by_spin_nth by exact Hb'. rewrite (nth_map_seq (fun b => [mixed_term p (spin_means sizes x) b])) by exact Hb'.
    rewrite add_rows_one, map_map. reflexivity.
Qed.

Lemma zipw_map_seq {A B C} (f : A -> B -> C) (g : nat -> A) (l : list B) n d : length l = n ->
  zipw f (map g (seq 0 n)) l = map (fun i => f (g i) (nth i l d)) (seq 0 n).
Proof.
  intros L. rewrite <- (map_seq_nth l d) at 1. rewrite L, zipw_map_l, zipw_map_r, zipw_same. reflexivity.
Qed.

Lemma one_electron_rows p sizes x y : describes (l1_split p) sizes -> length x = list_sum sizes -> good2 (list_sum sizes) y ->
  one_electron_layer p x y = map (fun i => layer_row p sizes x y (spin_of sizes i) (nth i x []) (rows_of y i)) (seq 0 (list_sum sizes)).
Proof.
  intros D L G. unfold one_electron_layer. cbv zeta.
  rewrite (pieces_cut _ sizes _ D) by (rewrite map_length; exact L).
  rewrite cut_map. rewrite (cut_by_spin sizes x [] L).
  assert (E : map (map (dense (l1_ndense p) (l1_unmixed p) (l1_bias p))) (by_spin sizes (fun _ i => nth i x []))
              = by_spin sizes (fun _ i => dense (l1_ndense p) (l1_unmixed p) (l1_bias p) (nth i x []))).
  { apply (list_eq_nth _ _ []); [rewrite map_length, !by_spin_length; reflexivity|]. intros b Hb. rewrite map_length, by_spin_length in Hb.
    rewrite (nth_indep _ [] (map (dense (l1_ndense p) (l1_unmixed p) (l1_bias p)) [])) by (rewrite map_length, by_spin_length; exact Hb).
    rewrite (map_nth (map (dense (l1_ndense p) (l1_unmixed p) (l1_bias p)))), !by_spin_nth by exact Hb. rewrite map_map. reflexivity. }
  rewrite E, (mixed_add p sizes x _ D L). clear E.
  set (g := fun b i => vadd (dense (l1_ndense p) (l1_unmixed p) (l1_bias p) (nth i x [])) (mix_row p sizes x b (nth i x []))).
  assert (E : match y with Some y0 => tree_sum (by_spin sizes g) (transformed_2e_means p y0) | None => by_spin sizes g end
     = by_spin sizes (fun b i => match y with Some y0 => vadd (g b i) (two_term p sizes (width (hd [] y0)) b (rows_of y i)) | None => g b i end)).
  { destruct y as [y|]; [|reflexivity]. destruct G as (GL & GF).
    rewrite (transformed_2e_rows p sizes (width (hd [] y)) y D GL GF eq_refl). apply zipw_by_spin. intros b Hb. apply add_rows_same. }
  rewrite E, concat_by_spin, map_map. clear E. unfold layer_row. cbv zeta.
  destruct (l1_skip p && Nat.eqb (width x) (l1_ndense p)).
  - rewrite (zipw_map_seq _ _ x (list_sum sizes) [] L). apply map_ext. intros i. destruct y; reflexivity.
  - apply map_ext. intros i. destruct y; reflexivity.
Qed.

(** ** Renumbering *)
Lemma width_reorder s n x d : renumbering n s -> (0 < n)%nat -> shape2 n d x -> width (reorder s x) = width x.
Proof.
  intros H N (L & F). assert (W : forall l : arr2, (0 < length l)%nat -> Forall (fun r => length r = d) l -> width l = d).
  { intros [|r l]; simpl; [lia|]. intros _ Q. inversion Q; subst; reflexivity. }
  rewrite (W x), (W (reorder s x)); try reflexivity; rewrite ?reorder_length; try lia; try exact F.
  apply Forall_reorder; [rewrite L; exact H|exact F].
Qed.

Lemma spin_means_reorder sizes s x d : keeps_spins sizes s -> shape2 (list_sum sizes) d x -> (0 < list_sum sizes)%nat ->
  spin_means sizes (reorder s x) = spin_means sizes x.
Proof.
  intros K Sh N. destruct Sh as (L & F). unfold spin_means. rewrite (width_reorder s (list_sum sizes) x d) by (try apply K; try exact N; split; assumption).
  apply (list_eq_nth _ _ []); [rewrite !map_length, !cut_length; reflexivity|]. intros b Hb. rewrite map_length, cut_length in Hb.
  rewrite !(nth_indep (map _ _) [] (vmean (width x) [])) by (rewrite map_length, cut_length; exact Hb). rewrite !map_nth.
  apply vmean_perm. apply cut_reorder_piece; assumption.
Qed.
Lemma means_row_reorder sizes s (row : arr2) d : keeps_spins sizes s -> length row = list_sum sizes ->
  map (vmean d) (cut sizes (reorder s row)) = map (vmean d) (cut sizes row).
Proof.
  intros K L. apply (list_eq_nth _ _ []); [rewrite !map_length, !cut_length; reflexivity|]. intros b Hb. rewrite map_length, cut_length in Hb.
  rewrite !(nth_indep (map _ _) [] (vmean d [])) by (rewrite map_length, cut_length; exact Hb). rewrite !map_nth.
  apply vmean_perm. apply cut_reorder_piece; assumption.
Qed.

Lemma nth_reorder2 {A} s n (y : list (list A)) i : renumbering n s -> length y = n -> (i < n)%nat ->
  nth i (reorder2 s y) [] = reorder s (nth (s i) y []).
Proof.
  intros H L Hi. unfold reorder2. rewrite (nth_indep _ [] (reorder s [])) by (rewrite map_length, reorder_length, L; exact Hi).
  rewrite map_nth. rewrite (nth_reorder s n) by assumption. reflexivity.
Qed.

Lemma width2_reorder s n (y : arr3) m d : renumbering n s -> (0 < n)%nat -> shape3 n m d y -> n = m -> width (hd [] (reorder2 s y)) = width (hd [] y).
Proof.
  intros H N (L & F) <-. assert (E : hd [] (reorder2 s y) = reorder s (nth (s O) y [])).
  { rewrite <- (nth_reorder2 s n y O H L N). destruct (reorder2 s y); reflexivity. }
  assert (H0 : hd [] y = nth O y []) by (destruct y; reflexivity). rewrite E, H0. rewrite Forall_forall in F.
  assert (B : forall j, (j < n)%nat -> shape2 n d (nth j y [])) by (intros j Hj; apply F; apply nth_In; lia).
  pose proof (renumbering_lt n s O H N) as Hs. rewrite (width_reorder s n _ d H N (B _ Hs)).
  destruct (B _ Hs) as (L1 & F1), (B O N) as (L2 & F2).
  assert (W : forall l : arr2, (0 < length l)%nat -> Forall (fun r => length r = d) l -> width l = d).
  { intros [|r l]; simpl; [lia|]. intros _ Q. inversion Q; subst; reflexivity. }
  rewrite !W; try reflexivity; try assumption; lia.
Qed.

Definition reorder_opt2 (s : nat -> nat) (y : option arr3) : option arr3 := match y with Some y => Some (reorder2 s y) | None => None end.
Definition shape_opt (n d : nat) (y : option arr3) : Prop := match y with Some y => shape3 n n d y | None => True end.

Lemma shape3_good n d y : shape_opt n d y -> good2 n y.
Proof. destruct y as [y|]; [|auto]. intros (L & F). split; [exact L|]. eapply Forall_impl; [|exact F]. intros a (La & _). exact La. Qed.

Lemma one_electron_equivariant p sizes s x y d d2 : describes (l1_split p) sizes -> keeps_spins sizes s -> (0 < list_sum sizes)%nat ->
  shape2 (list_sum sizes) d x -> shape_opt (list_sum sizes) d2 y ->
  one_electron_layer p (reorder s x) (reorder_opt2 s y) = reorder s (one_electron_layer p x y).
Proof.
  intros D K N Sx Sy. pose proof Sx as (L & F). pose proof K as (H & Hs). set (n := list_sum sizes) in *.
  assert (G' : good2 n (reorder_opt2 s y)).
  { destruct y as [y|]; [|exact I]. destruct Sy as (Ly & Fy). cbn. split; [unfold reorder2; rewrite map_length, reorder_length; exact Ly|].
    apply Forall_forall. intros r Hr. unfold reorder2 in Hr. apply in_map_iff in Hr. destruct Hr as (q & <- & Hq). rewrite reorder_length.
    rewrite Forall_forall in Fy. apply Fy. apply (Permutation_in _ (reorder_perm s y ltac:(rewrite Ly; exact H))). exact Hq. }
  rewrite (one_electron_rows p sizes _ _ D) by (rewrite ?reorder_length; assumption).
  rewrite (one_electron_rows p sizes x y D L (shape3_good n d2 y Sy)).
  fold n. rewrite (map_seq_reorder _ s n H). apply map_ext_in. intros i Hi. apply in_seq in Hi. assert (i < n)%nat as Hi' by lia.
  rewrite (nth_reorder s n x [] i H L Hi'). rewrite <- (Hs i Hi'). unfold layer_row. cbv zeta.
  rewrite (width_reorder s n x d H N Sx).
  assert (M : mix_row p sizes (reorder s x) (spin_of sizes (s i)) (nth (s i) x []) = mix_row p sizes x (spin_of sizes (s i)) (nth (s i) x [])).
  { unfold mix_row. destruct (l1_attention p) as [a|].
    - apply at_row_perm. apply cut_reorder_piece; [exact K|exact L|]. rewrite Hs by exact Hi'. apply spin_of_lt. exact Hi'.
    - rewrite (spin_means_reorder sizes s x d K Sx N). reflexivity. }
  rewrite M. destruct y as [y|]; [|reflexivity]. cbn [reorder_opt2 rows_of]. destruct Sy as (Ly & Fy).
  rewrite (width2_reorder s n y n d2 H N (conj Ly Fy) eq_refl). rewrite (nth_reorder2 s n y i H Ly Hi').
  assert (T : two_term p sizes (width (hd [] y)) (spin_of sizes (s i)) (reorder s (nth (s i) y []))
              = two_term p sizes (width (hd [] y)) (spin_of sizes (s i)) (nth (s i) y [])).
  { unfold two_term. cbv zeta. rewrite (means_row_reorder sizes s _ (width (hd [] y)) K); [reflexivity|].
    rewrite Forall_forall in Fy. apply Fy. apply nth_In. rewrite Ly. apply renumbering_lt; assumption. }
  rewrite T. reflexivity.
Qed.

(** ** Shapes *)
Lemma dense_length f k b x : length (dense f k b x) = f.
Proof. unfold dense. rewrite map_length, seq_length. reflexivity. Qed.

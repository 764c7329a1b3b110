(** * Equivariance of whole stacks, the input streams and the orbital layer (C43, C44, C49, C50, C54) *)
From Coq Require Import Reals List Bool Arith Lia Permutation.
From Verif Require Import XReal M_slog M_models S_models P_xsum P_split P_equiv.
Import ListNotations.

(** ** Shapes *)
Lemma layer_row_length p sizes x y b xi yi d : length xi = d ->
  length (layer_row p sizes x y b xi yi) =
  (let m := match l1_attention p with Some a => Nat.min (l1_ndense p) (at_out a) | None => l1_ndense p end in
   if l1_skip p && Nat.eqb (width x) (l1_ndense p) then Nat.min m d else m).
Proof.
  intros E. unfold layer_row, mix_row, mixed_term, two_term, vadd. cbv zeta.
  destruct (l1_attention p) as [a|], y as [y|], (l1_skip p && Nat.eqb (width x) (l1_ndense p));
    repeat rewrite ?zipw_length, ?map_length, ?dense_length, ?E;
    unfold at_row; rewrite ?map_length, ?seq_length; lia.
Qed.

Lemma Forall_map_seq {A} (P : A -> Prop) (f : nat -> A) n : (forall i, (i < n)%nat -> P (f i)) -> Forall P (map f (seq 0 n)).
Proof. intros H. apply Forall_forall. intros a Ha. apply in_map_iff in Ha. destruct Ha as (i & <- & Hi). apply in_seq in Hi. apply H. lia. Qed.
Lemma Forall_nth_in {A} (P : A -> Prop) l i d : Forall P l -> (i < length l)%nat -> P (nth i l d).
Proof. intros F Hi. rewrite Forall_forall in F. apply F. apply nth_In. exact Hi. Qed.

Lemma one_electron_shape p sizes x y d d2 : describes (l1_split p) sizes -> shape2 (list_sum sizes) d x -> shape_opt (list_sum sizes) d2 y ->
  exists d', shape2 (list_sum sizes) d' (one_electron_layer p x y).
Proof.
  intros D (L & F) Sy. rewrite (one_electron_rows p sizes x y D L (shape3_good _ d2 y Sy)). eexists. split.
  - rewrite map_length, seq_length. reflexivity.
  - apply Forall_map_seq. intros i Hi. apply layer_row_length. apply (Forall_nth_in _ _ _ [] F). rewrite L. exact Hi.
Qed.

Lemma two_electron_shape l n m d y : shape3 n m d y -> exists d', shape3 n m d' (two_electron_layer l y).
Proof.
  intros (L & F). exists (if l2_skip l && Nat.eqb d (l2_ndense l) then Nat.min (l2_ndense l) d else l2_ndense l).
  unfold two_electron_layer. split; [rewrite map_length; exact L|]. apply Forall_map. eapply Forall_impl; [|exact F]. intros r (Lr & Fr).
  split; [rewrite map_length; exact Lr|]. apply Forall_map. eapply Forall_impl; [|exact Fr]. intros v Hv.
  unfold two_electron_row. rewrite Hv. destruct (l2_skip l && Nat.eqb d (l2_ndense l)); rewrite ?zipw_length, ?map_length, ?dense_length, ?Hv; reflexivity.
Qed.

Lemma reorder2_map {A B} (f : A -> B) s y : reorder2 s (map (map f) y) = map (map f) (reorder2 s y).
Proof. unfold reorder2. rewrite reorder_map, !map_map. apply map_ext. intros r. apply reorder_map. Qed.

(** ** Blocks and stacks of blocks *)
Definition blocks_ok (sizes : list nat) (bs : list block) : Prop := Forall (fun b => describes (l1_split (b_one b)) sizes) bs.

Lemma residual_shape b sizes x y d d2 : describes (l1_split (b_one b)) sizes -> shape2 (list_sum sizes) d x -> shape_opt (list_sum sizes) d2 y ->
  exists d' d2', shape2 (list_sum sizes) d' (fst (residual_block b x y)) /\ shape_opt (list_sum sizes) d2' (snd (residual_block b x y)).
Proof.
  intros D Sx Sy. destruct (one_electron_shape _ sizes x y d d2 D Sx Sy) as (d' & S1). exists d'. cbn [residual_block fst snd].
  destruct (b_two b) as [l|]; [|exists d2; split; assumption]. destruct y as [y|]; [|exists d2; split; assumption].
  destruct (two_electron_shape l _ _ _ y Sy) as (d2' & S2). exists d2'. split; assumption.
Qed.
Lemma residual_equivariant b sizes s x y d d2 : describes (l1_split (b_one b)) sizes -> keeps_spins sizes s -> (0 < list_sum sizes)%nat ->
  shape2 (list_sum sizes) d x -> shape_opt (list_sum sizes) d2 y ->
  residual_block b (reorder s x) (reorder_opt2 s y) = (reorder s (fst (residual_block b x y)), reorder_opt2 s (snd (residual_block b x y))).
Proof.
  intros D K N Sx Sy. unfold residual_block. cbn [fst snd]. f_equal; [eapply one_electron_equivariant; eassumption|].
  destruct (b_two b) as [l|], y as [y|]; try reflexivity. cbn [reorder_opt2]. unfold two_electron_layer. rewrite reorder2_map. reflexivity.
Qed.

Lemma backflow_streams_equivariant bs sizes s : blocks_ok sizes bs -> keeps_spins sizes s -> (0 < list_sum sizes)%nat ->
  forall x y d d2, shape2 (list_sum sizes) d x -> shape_opt (list_sum sizes) d2 y ->
  backflow_streams bs (reorder s x) (reorder_opt2 s y) =
  (reorder s (fst (backflow_streams bs x y)), reorder_opt2 s (snd (backflow_streams bs x y))).
Proof.
  intros B K N. induction B as [|b bs Hb _ IH]; intros x y d d2 Sx Sy; [reflexivity|]. cbn [backflow_streams].
  rewrite (residual_equivariant b sizes s x y d d2 Hb K N Sx Sy).
  destruct (residual_shape b sizes x y d d2 Hb Sx Sy) as (d' & d2' & S1 & S2).
  rewrite (surjective_pairing (residual_block b x y)). cbn [fst snd]. apply (IH _ _ _ _ S1 S2).
Qed.
Lemma backflow_streams_shape bs sizes : blocks_ok sizes bs -> forall x y d d2, shape2 (list_sum sizes) d x -> shape_opt (list_sum sizes) d2 y ->
  exists d' d2', shape2 (list_sum sizes) d' (fst (backflow_streams bs x y)) /\ shape_opt (list_sum sizes) d2' (snd (backflow_streams bs x y)).
Proof.
  intros B. induction B as [|b bs Hb _ IH]; intros x y d d2 Sx Sy; [exists d, d2; split; assumption|]. cbn [backflow_streams].
  destruct (residual_shape b sizes x y d d2 Hb Sx Sy) as (d' & d2' & S1 & S2).
  rewrite (surjective_pairing (residual_block b x y)). apply (IH _ _ _ _ S1 S2).
Qed.

(** ** Input streams *)
Definition reorder_input (s : nat -> nat) (i : input1) : input1 := match i with Rows x => Rows (reorder s x) | Unflattened x => Unflattened (reorder s x) end.
Definition reorder_opt (s : nat -> nat) (y : option arr3) : option arr3 := match y with Some y => Some (reorder s y) | None => None end.

Lemma displacements_ion s x ions : displacements (reorder s x) ions = reorder s (displacements x ions).
Proof. unfold displacements. symmetry. apply reorder_map. Qed.
Lemma displacements_self s x : displacements (reorder s x) (reorder s x) = reorder2 s (displacements x x).
Proof.
  unfold displacements, reorder2. rewrite <- (reorder_map _ s x), <- reorder_map. f_equal. rewrite map_map. apply map_ext. intros a. rewrite reorder_map. reflexivity.
Qed.

Lemma eye_renumber n s i j : renumbering n s -> (i < n)%nat -> (j < n)%nat -> eye (s i) (s j) = eye i j.
Proof.
  intros H Hi Hj. unfold eye. destruct (Nat.eqb_spec i j) as [->|NE]; [rewrite Nat.eqb_refl; reflexivity|].
  destruct (Nat.eqb_spec (s i) (s j)) as [E|_]; [|reflexivity]. exfalso. apply NE. apply (renumbering_inj n s H i j Hi Hj E).
Qed.

(** Pointwise description of square arrays. *)
Lemma reorder2_map_seq {A} (f : nat -> nat -> A) s n : renumbering n s ->
  reorder2 s (map (fun i => map (f i) (seq 0 n)) (seq 0 n)) = map (fun i => map (fun j => f (s i) (s j)) (seq 0 n)) (seq 0 n).
Proof.
  intros H. unfold reorder2. rewrite (map_seq_reorder _ s n H), map_map. apply map_ext. intros i. apply map_seq_reorder. exact H.
Qed.
Definition square {A} (n : nat) (y : list (list A)) : Prop := length y = n /\ Forall (fun r => length r = n) y.
Lemma square_map_seq {A} n (y : list (list A)) d : square n y -> y = map (fun i => map (fun j => nth j (nth i y []) d) (seq 0 n)) (seq 0 n).
Proof.
  intros (L & F). apply (list_eq_nth _ _ []); [rewrite map_length, seq_length; exact L|]. intros i Hi. rewrite nth_map_seq by lia.
  pose proof (Forall_nth_in _ _ i [] F Hi) as E. cbv beta in E. rewrite <- E. symmetry. apply map_seq_nth.
Qed.
Lemma mapi_map_seq {A B} (f : nat -> A -> B) (g : nat -> A) n : mapi f (map g (seq 0 n)) = map (fun i => f i (g i)) (seq 0 n).
Proof. unfold mapi. rewrite map_length, seq_length, zipw_map_r, zipw_same. reflexivity. Qed.

Lemma safe_diag_pointwise n r c : square n r ->
  compute_ee_norm_with_safe_diag r c = map (fun i => map (fun j =>
    xmul (softened c (norm (map (fun a => xadd a (eye i j)) (nth j (nth i r []) [])))) (xsub (Fin 1) (eye i j))) (seq 0 n)) (seq 0 n).
Proof.
  intros Sq. rewrite (square_map_seq n r [] Sq) at 1. unfold compute_ee_norm_with_safe_diag. rewrite mapi_map_seq. apply map_ext. intros i.
  apply mapi_map_seq.
Qed.
Lemma square_reorder2 {A} n s (y : list (list A)) : renumbering n s -> square n y -> square n (reorder2 s y).
Proof.
  intros H (L & F). unfold reorder2. split; [rewrite map_length, reorder_length; exact L|]. apply Forall_map. apply Forall_reorder; [rewrite L; exact H|].
  eapply Forall_impl; [|exact F]. intros r E. cbv beta. rewrite reorder_length. exact E.
Qed.
Lemma nth2_reorder2 {A} n s (y : list (list A)) i j d : renumbering n s -> square n y -> (i < n)%nat -> (j < n)%nat ->
  nth j (nth i (reorder2 s y) []) d = nth (s j) (nth (s i) y []) d.
Proof.
  intros H (L & F) Hi Hj. rewrite (nth_reorder2 s n y i H L Hi). apply (nth_reorder s n); [exact H| |exact Hj].
  apply (Forall_nth_in _ _ _ [] F). rewrite L. apply renumbering_lt; assumption.
Qed.
Lemma safe_diag_reorder n s r c : renumbering n s -> square n r ->
  compute_ee_norm_with_safe_diag (reorder2 s r) c = reorder2 s (compute_ee_norm_with_safe_diag r c).
Proof.
  intros H Sq. rewrite (safe_diag_pointwise n _ c (square_reorder2 n s r H Sq)), (safe_diag_pointwise n r c Sq), (reorder2_map_seq _ s n H).
  apply map_ext_in. intros i Hi. apply in_seq in Hi. apply map_ext_in. intros j Hj. apply in_seq in Hj.
  rewrite (nth2_reorder2 n s r i j [] H Sq) by lia. rewrite (eye_renumber n s i j H) by lia. reflexivity.
Qed.
Lemma displacements_square x : square (length x) (displacements x x).
Proof. unfold displacements. split; [apply map_length|]. apply Forall_map. apply Forall_forall. intros a _. cbv beta. apply map_length. Qed.
Lemma safe_diag_square n r c : square n r -> square n (compute_ee_norm_with_safe_diag r c).
Proof.
  intros Sq. rewrite (safe_diag_pointwise n r c Sq). split; [rewrite map_length; apply seq_length|]. apply Forall_map_seq. intros i _. cbv beta.
  rewrite map_length. apply seq_length.
Qed.

Lemma zipw2_reorder {A B C} (f : A -> B -> C) n s y z (da : A) (db : B) : renumbering n s -> square n y -> square n z ->
  zipw (zipw f) (reorder2 s y) (reorder2 s z) = reorder2 s (zipw (zipw f) y z).
Proof.
  intros H Sy Sz. rewrite (square_map_seq n y da Sy), (square_map_seq n z db Sz), !(reorder2_map_seq _ s n H), !zipw_map_l, !zipw_map_r, !zipw_same.
  transitivity (reorder2 s (map (fun i => map (fun j => f (nth j (nth i y []) da) (nth j (nth i z []) db)) (seq 0 n)) (seq 0 n))).
  - rewrite (reorder2_map_seq _ s n H). apply map_ext. intros i. rewrite zipw_map_l, zipw_map_r, zipw_same. reflexivity.
  - f_equal. apply map_ext. intros i. rewrite zipw_map_l, zipw_map_r, zipw_same. reflexivity.
Qed.

Lemma input_streams_equivariant o s x : renumbering (length x) s ->
  compute_input_streams o (reorder s x) =
  let '(i1, i2, r_ei, r_ee) := compute_input_streams o x in (reorder_input s i1, reorder_opt2 s i2, reorder_opt s r_ei, reorder_opt2 s r_ee).
Proof.
  intros H. unfold compute_input_streams.
  assert (E1 : compute_electron_ion (reorder s x) (so_ion_pos o) (so_ei_norm o) (so_ei_soft o) =
    (reorder_input s (fst (compute_electron_ion x (so_ion_pos o) (so_ei_norm o) (so_ei_soft o))),
     reorder_opt s (snd (compute_electron_ion x (so_ion_pos o) (so_ei_norm o) (so_ei_soft o))))).
  { unfold compute_electron_ion. destruct (so_ion_pos o) as [ions|]; [|reflexivity]. cbv zeta. rewrite displacements_ion.
    destruct (so_ei_norm o); cbn [fst snd reorder_input reorder_opt]; [rewrite reorder_map|]; reflexivity. }
  rewrite E1. clear E1. destruct (compute_electron_ion x (so_ion_pos o) (so_ei_norm o) (so_ei_soft o)) as (i1, r1). cbn [fst snd].
  destruct (so_2e o); [|reflexivity].
  assert (E2 : compute_electron_electron (reorder s x) (so_ee_norm o) (so_ee_soft o) =
    (reorder2 s (fst (compute_electron_electron x (so_ee_norm o) (so_ee_soft o))), reorder2 s (snd (compute_electron_electron x (so_ee_norm o) (so_ee_soft o))))).
  { unfold compute_electron_electron. cbv zeta. rewrite displacements_self. destruct (so_ee_norm o); [|reflexivity]. cbn [fst snd]. f_equal.
    rewrite (safe_diag_reorder (length x) s) by (try exact H; apply displacements_square).
    apply (zipw2_reorder _ (length x) s _ _ [] (Fin 0) H (displacements_square x)). apply safe_diag_square, displacements_square. }
  rewrite E2. destruct (compute_electron_electron x (so_ee_norm o) (so_ee_soft o)). reflexivity.
Qed.

(** Shapes of the input streams. *)
Lemma displacements_shape n m d x y : shape2 n d x -> shape2 m d y -> shape3 n m d (displacements x y).
Proof.
  intros (L & F) (L' & F'). unfold displacements. split; [rewrite map_length; exact L|]. apply Forall_map. eapply Forall_impl; [|exact F]. intros a Ha.
  split; [rewrite map_length; exact L'|]. apply Forall_map. eapply Forall_impl; [|exact F']. intros b Hb. cbv beta. rewrite zipw_length, Ha, Hb. lia.
Qed.
Lemma concat_length_const {A B} (f : A -> list B) l d : (forall a, In a l -> length (f a) = d) -> length (concat (map f l)) = (length l * d)%nat.
Proof.
  induction l as [|a l IH]; intros H; [reflexivity|]. cbn [map concat length]. rewrite app_length, H by (left; reflexivity).
  rewrite IH by (intros b Hb; apply H; right; exact Hb). lia.
Qed.
Lemma ei_shape n m d x ions soft : shape2 n d x -> shape2 m d ions ->
  exists r, compute_electron_ion x (Some ions) true soft = (Rows r, Some (displacements x ions)) /\ shape2 n (m * (d + 1)) r.
Proof.
  intros Sx Si. eexists. split; [reflexivity|]. destruct (displacements_shape n m d x ions Sx Si) as (L & F). split; [rewrite map_length; exact L|].
  apply Forall_map. eapply Forall_impl; [|exact F]. intros row (Lr & Fr). rewrite (concat_length_const _ row (d + 1)); [rewrite Lr; reflexivity|].
  intros v Hv. rewrite app_length. rewrite Forall_forall in Fr. rewrite (Fr v Hv). reflexivity.
Qed.
Lemma ee_shape n d x (b : bool) soft : shape2 n d x -> shape3 n n (if b then d + 1 else d)%nat (fst (compute_electron_electron x b soft)).
Proof.
  intros Sx. unfold compute_electron_electron. cbv zeta. pose proof (displacements_shape n n d x x Sx Sx) as (L & F). destruct b; [|split; assumption].
  cbn [fst]. pose proof (displacements_square x) as Sq. destruct Sx as (Lx & _). rewrite Lx in Sq.
  pose proof (safe_diag_square n _ soft Sq) as Sd. rewrite (square_map_seq n _ [] Sq) at 1. rewrite (square_map_seq n _ (Fin 0) Sd).
  rewrite zipw_map_l, zipw_map_r, zipw_same. split; [rewrite map_length; apply seq_length|]. apply Forall_map_seq. intros i Hi.
  rewrite zipw_map_l, zipw_map_r, zipw_same. split; [rewrite map_length; apply seq_length|]. apply Forall_map_seq. intros j Hj. rewrite app_length.
  pose proof (Forall_nth_in _ _ i [] F ltac:(lia)) as (Li & Fi). rewrite (Forall_nth_in _ _ j [] Fi) by lia. reflexivity.
Qed.

(** ** The orbital layer *)
Definition orbital_default : orbital_split := Build_orbital_split 0 (fun _ _ => Fin 0) None (fun _ => Fin 0) (fun _ _ _ => Fin 0) (fun _ _ => Fin 0).
Definition orbital_row (l : orbital_layer) (b : nat) (xi : vec) (ri : option arr2) : vec :=
  let p := nth b (ol_splits l) orbital_default in
  let o := dense (o_norb p) (o_kernel p) (o_bias p) xi in
  match ri with Some r => zipw xmul o (map (envelope l p r) (seq 0 (o_norb p))) | None => o end.
Definition orbitals_ok (sizes : list nat) (l : orbital_layer) : Prop := describes (ol_split l) sizes /\ length (ol_splits l) = length sizes.

Lemma orbitals_rows l sizes x r : orbitals_ok sizes l -> length x = list_sum sizes ->
  match r with Some r => length r = list_sum sizes | None => True end ->
  ferminet_orbitals l x r = by_spin sizes (fun b i => orbital_row l b (nth i x []) (option_map (fun r => nth i r []) r)).
Proof.
  intros (D & LS) L Lr. unfold ferminet_orbitals.
  assert (E : split_dense l x = by_spin sizes (fun b i => orbital_row l b (nth i x []) None)).
  { unfold split_dense. rewrite (pieces_cut _ sizes x D L), (cut_by_spin sizes x [] L).
    apply (list_eq_nth _ _ []); [rewrite zipw_length, !by_spin_length, LS; lia|]. intros b Hb. rewrite zipw_length, by_spin_length, LS in Hb.
    rewrite (zipw_nth _ _ _ b [] orbital_default) by (rewrite ?by_spin_length, ?LS; lia). rewrite !by_spin_nth by lia. rewrite map_map. reflexivity. }
  cbv zeta. rewrite E. destruct r as [r|]; [|reflexivity]. cbn [option_map].
  assert (E2 : envelopes l r = by_spin sizes (fun b i => let p := nth b (ol_splits l) orbital_default in map (envelope l p (nth i r [])) (seq 0 (o_norb p)))).
  { unfold envelopes. rewrite (pieces_cut _ sizes r D Lr), (cut_by_spin sizes r [] Lr).
    apply (list_eq_nth _ _ []); [rewrite zipw_length, !by_spin_length, LS; lia|]. intros b Hb. rewrite zipw_length, by_spin_length, LS in Hb.
    rewrite (zipw_nth _ _ _ b [] orbital_default) by (rewrite ?by_spin_length, ?LS; lia). rewrite !by_spin_nth by lia. rewrite map_map. reflexivity. }
  rewrite E2. unfold tree_prod. apply zipw_by_spin. intros b Hb. rewrite zipw_map_l, zipw_map_r, zipw_same. reflexivity.
Qed.

(** Moving the rows: the orbitals of renumbered electrons are the same rows, renumbered. *)
Lemma orbitals_equivariant l sizes s x r : orbitals_ok sizes l -> renumbering (list_sum sizes) s -> length x = list_sum sizes ->
  match r with Some r => length r = list_sum sizes | None => True end ->
  ferminet_orbitals l (reorder s x) (reorder_opt s r) = by_spin sizes (fun b i => orbital_row l b (nth (s i) x []) (option_map (fun r => nth (s i) r []) r)).
Proof.
  intros O H L Lr. rewrite (orbitals_rows l sizes); [|exact O|rewrite reorder_length; exact L|destruct r; [cbn; rewrite reorder_length; exact Lr|exact I]].
  apply by_spin_ext. intros b i Hb Hi. pose proof (offset_end sizes b Hb). rewrite (nth_reorder s _ x [] i H L) by lia.
  destruct r as [r|]; [|reflexivity]. cbn [reorder_opt option_map]. rewrite (nth_reorder s _ r [] i H Lr) by lia. reflexivity.
Qed.

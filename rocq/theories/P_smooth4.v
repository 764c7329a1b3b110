(** * Proofs: orbital matrices and determinants of smooth families *)
From Coquelicot Require Import Coquelicot.
From Coq Require Import String Reals List Bool Arith Lia Lra ZArith.
From Verif Require Import XReal S_physics M_slog M_models M_antisym M_construct M_dispatch S_models S_antisym S_construct S_finite P_xsum P_slog P_split P_equiv P_equiv2 P_jastrow P_models P_inv P_parity P_flips P_sgn P_antisym P_antieq P_leibniz P_signsym P_construct P_construct2 P_construct3 P_construct4 P_construct5 P_dispatch P_total P_finite P_finite2 P_smooth P_smooth2 P_smooth3 Rsum Det.
Import ListNotations.
Local Open Scope R_scope.

Lemma famO_ext {A} (P : (R -> A) -> Prop) X Y : (forall t, X t = Y t) -> famO P X -> famO P Y.
Proof. intros E [H|(f & Hf & H)]; [left; intros t; rewrite <- E; apply H|right; exists f; split; [exact Hf|intros t; rewrite <- E; apply H]]. Qed.
Lemma famO_some {A} (P : (R -> A) -> Prop) f : P f -> famO P (fun t => Some (f t)).
Proof. intros H. right. exists f. split; [exact H|reflexivity]. Qed.
Lemma famO_none {A} (P : (R -> A) -> Prop) : famO P (fun _ => None).
Proof. left. reflexivity. Qed.
Lemma famO_check {A} (P : (R -> A) -> Prop) b X : (b = true -> famO P X) -> famO P (fun t => check b (X t)).
Proof. destruct b; intros H; [exact (H eq_refl)|apply famO_none]. Qed.
Lemma famO_bind {A B} (P : (R -> A) -> Prop) (Q : (R -> B) -> Prop) X (G : R -> A -> option B) : (forall f, P f -> (forall t, X t = Some (f t)) -> famO Q (fun t => G t (f t))) -> famO P X -> famO Q (fun t => bind_opt (X t) (G t)).
Proof.
  intros HG [H|(f & Hf & H)]; [left; intros t; rewrite H; reflexivity|]. apply (famO_ext Q (fun t => G t (f t))); [intros t; rewrite H; reflexivity|apply HG; assumption].
Qed.
Lemma famO_sequence {A B} (P : (R -> A) -> Prop) (Q : (R -> B) -> Prop) (G : R -> A -> option B) X : (forall f, P f -> famO Q (fun t => G t (f t))) -> famL P X -> famO (famL Q) (fun t => sequence (map (G t) (X t))).
Proof.
  intros HG (l & H & F). apply (famO_ext _ (fun t => sequence (map (G t) (map (fun f => f t) l)))); [intros t; rewrite H; reflexivity|]. clear H. induction F as [|f l Hf _ IH]; [apply famO_some, fam_nil|].
  destruct (HG f Hf) as [N|(g & Hg & Eg)]; [left; intros t; cbn [map sequence]; rewrite N; reflexivity|].
  destruct IH as [N|(r & Hr & Er)]; [left; intros t; cbn [map sequence]; rewrite Eg, N; reflexivity|].
  right. exists (fun t => g t :: r t). split; [apply fam_cons; assumption|]. intros t. cbn [map sequence]. rewrite Eg, Er. reflexivity.
Qed.
Lemma fam_reshape nd X : fam2 X -> famO (famL fam2) (fun t => reshape_raw_orbitals nd (X t)).
Proof.
  intros H. unfold reshape_raw_orbitals. cbv zeta.
  apply (famO_ext _ (fun t => if Nat.eqb nd 0 then None else if Nat.eqb (width (X 0) mod nd) 0 then Some (map (fun k => map (fun row => firstn (width (X 0) / nd) (skipn (k * (width (X 0) / nd)) row)) (X t)) (seq 0 nd)) else None)); [intros t; rewrite (fam_width X H t); reflexivity|].
  destruct (Nat.eqb nd 0); [apply famO_none|]. destruct (Nat.eqb _ 0); [|apply famO_none]. apply famO_some.
  apply (fam_index fam2 (fun t k => map (fun row => firstn (width (X 0) / nd) (skipn (k * (width (X 0) / nd)) row)) (X t))). intros k _.
  apply (fam_map fam1 fam1 (fun _ row => firstn (width (X 0) / nd) (skipn (k * (width (X 0) / nd)) row))); [|exact H]. intros f Hf. apply (fam_firstn sm (fun t => skipn (k * (width (X 0) / nd)) (f t))), fam_skipn. exact Hf.
Qed.
Lemma famO_opt {A} (P : (R -> A) -> Prop) X : famO P X -> exists Y, opt_fam P Y /\ forall t, X t = at_t Y t.
Proof. intros [H|(f & Hf & H)]; [exists None; split; [exact Logic.I|exact H]|exists (Some f); split; [exact Hf|exact H]]. Qed.
Lemma fam_eval m osplit norbs X Rr : net_fin m -> (fn_isotropic m = true \/ fn_soft m <> Fin 0) -> fam2 X -> opt_fam (famL (famL clear)) Rr ->
  famO (famL (famL fam2)) (fun t => eval_orbitals m osplit norbs (X t) (at_t Rr t)).
Proof.
  intros (_ & Ho & Hs & _) Ok HX HR. unfold eval_orbitals.
  apply (famO_ext _ (fun t => check (Nat.eqb (length norbs) (get_nsplits osplit) && splittable osplit (length (X 0))) (sequence (map (reshape_raw_orbitals (fn_ndet m)) (ferminet_orbitals (orbital_layer_of m osplit norbs) (X t) (at_t Rr t)))))); [intros t; rewrite (fam_length _ X HX t); reflexivity|].
  apply famO_check. intros _. apply (famO_sequence fam2 (famL fam2) (fun _ => reshape_raw_orbitals (fn_ndet m))); [apply fam_reshape|].
  apply fam_orbitals; try assumption. cbn [orbital_layer_of ol_splits]. apply mapi_forall. intros i n _. apply set_norb_fin, Ho.
Qed.
(** The part of FermiNet.__call__ before the orbitals: stream, electron-ion displacements. *)
Lemma fam_matrices m osplit sizes d X : built_for sizes (fn_backflow m) -> ions_fit d (fn_streams m) -> positive sizes -> net_fin m -> Forall block_act (fn_backflow m) -> streams_fin (fn_streams m) ->
  (fn_isotropic m = true \/ fn_soft m <> Fin 0) -> (forall ions, so_ion_pos (fn_streams m) = Some ions -> clear_of ions (X 0)) -> apart (X 0) ->
  shape2 (list_sum sizes) d (X 0) -> fam2 X -> famO (famL (famL fam2)) (fun t => ferminet_orbital_matrices m (X t) osplit).
Proof.
  intros B Fi Ps Nf Ba (I1 & I2 & I3) Ok Ci Ap Sx HX. destruct (streams_smooth (fn_streams m) X) as (H1 & H2 & H3); try assumption; [intros ions E; split; [apply I1; exact E|apply Ci; exact E]|].
  destruct (famO_opt _ _ H2) as (Y2 & HY2 & E2). destruct (famO_opt _ _ H3) as (Y3 & HY3 & E3).
  apply (famO_ext _ (fun t => bind_opt (stream1 (fn_streams m) (X t)) (fun s => check (backflow_ok (fn_backflow m) (length (X 0)))
    (bind_opt (norbitals_per_split (fn_full_det m) (length (X 0)) osplit) (fun norbs => eval_orbitals m osplit norbs (backflow (fn_backflow m) s (at_t Y2 t)) (at_t Y3 t)))))).
  { intros t. rewrite <- E2, <- E3. unfold ferminet_orbital_matrices, stream1, stream2, stream_ei. destruct (compute_input_streams (fn_streams m) (X t)) as (((i1, i2), r1), r2). cbn [fst snd]. rewrite <- (fam_length _ X HX t). reflexivity. }
  apply (famO_bind fam2 (famL (famL fam2)) (fun t => stream1 (fn_streams m) (X t)) (fun t s => check (backflow_ok (fn_backflow m) (length (X 0)))
    (bind_opt (norbitals_per_split (fn_full_det m) (length (X 0)) osplit) (fun norbs => eval_orbitals m osplit norbs (backflow (fn_backflow m) s (at_t Y2 t)) (at_t Y3 t))))); [|exact H1].
  intros s Hs Es. apply famO_check. intros _. destruct (norbitals_per_split (fn_full_det m) (length (X 0)) osplit) as [norbs|]; [|apply famO_none]. cbn [bind_opt].
  apply (fam_eval m osplit norbs (fun t => backflow (fn_backflow m) (s t) (at_t Y2 t)) Y3 Nf Ok); [|exact HY3].
  destruct (compute_input_streams (fn_streams m) (X 0)) as (((i1, i2), r1), r2) eqn:E. destruct (streams_shape _ _ _ _ Sx Fi _ _ _ _ E) as (S1 & (d2 & S2) & _).
  specialize (Es 0). specialize (E2 0). unfold stream1 in Es. unfold stream2 in E2. rewrite E in Es, E2. cbn [fst snd] in Es, E2. destruct (S1 _ Es) as (d1 & Sx1).
  apply (fam_backflow (fn_backflow m) sizes) with (d := d1) (d2 := d2); try assumption; [exact (proj1 Nf)|rewrite <- E2; exact S2].
Qed.

(** ** Determinants *)
Lemma D2_val F : sm F -> D2 (fun t => val (F t)).
Proof. intros (g & E & D). apply (D2_ext g); [intros t; rewrite E; reflexivity|exact D]. Qed.
Lemma D2_det_of A : fam2 A -> D2 (fun t => det_of (A t)).
Proof.
  intros H. unfold det_of. apply (D2_ext (fun t => Det.det (length (A 0)) (fun i j => val (nth j (nth i (A t) []) (Fin 0))))); [intros t; rewrite (fam_length _ A H t); reflexivity|].
  apply (D2_det (length (A 0)) (fun i j t => val (nth j (nth i (A t) []) (Fin 0)))). intros i j _. apply D2_val, (sm_nth (fun t => nth i (A t) [])), fam_row. exact H.
Qed.
Lemma D2_kth full O k : famL (famL fam2) O -> D2 (fun t => kth_determinant full (O t) k).
Proof.
  intros H. unfold kth_determinant. cbv zeta. assert (K : famL fam2 (fun t => map (fun spin => nth k spin []) (O t))) by (apply (fam_map (famL fam2) fam2 (fun _ spin => nth k spin [])); [|exact H]; intros f Hf; apply fam_row; exact Hf).
  destruct full; [apply (D2_det_of (fun t => concat (map (fun spin => nth k spin []) (O t)))), fam_concat; exact K|].
  destruct K as (l & E & F). apply (D2_ext (fun t => fold_right Rmult 1 (map det_of (map (fun f => f t) l)))); [intros t; rewrite E; reflexivity|]. clear E. induction F as [|f l Hf _ IH]; [exact (D2_const 1)|].
  cbn [map fold_right]. apply (D2_mult (fun t => det_of (f t)) (fun t => fold_right Rmult 1 (map det_of (map (fun f => f t) l)))); [apply D2_det_of; exact Hf|exact IH].
Qed.
Lemma D2_determinants full O n : famL (famL fam2) O -> D2 (fun t => lsum (map (kth_determinant full (O t)) (seq 0 n))).
Proof. intros H. apply (D2_sum (fun k t => kth_determinant full (O t) k)). intros k _. apply D2_kth. exact H. Qed.
(** The families of positions: one displaced coordinate. *)
Definition array_of (n d : nat) (y : nat -> nat -> R) : arr2 := map (fun i => map (fun k => Fin (y i k)) (seq 0 d)) (seq 0 n).
Lemma fam_displaced n d y i c : fam2 (fun t => array_of n d (displaced y i c t)).
Proof.
  unfold array_of. apply (fam_index fam1 (fun t i' => map (fun k => Fin (displaced y i c t i' k)) (seq 0 d))). intros i' _. apply (fam_index sm (fun t k => Fin (displaced y i c t i' k))). intros k _.
  apply (sm_fin (fun t => displaced y i c t i' k)). unfold displaced. destruct (_ && _)%bool; [apply (D2_plus (fun _ => y i' k) (fun t => t)); [apply D2_const|apply D2_id]|apply D2_const].
Qed.
Lemma shape_array_of n d y : shape2 n d (array_of n d y).
Proof. split; [unfold array_of; rewrite map_length, seq_length; reflexivity|]. apply Forall_map, Forall_forall. intros i _. rewrite map_length, seq_length. reflexivity. Qed.
Lemma displaced_0 y i c : displaced y i c 0 = y.
Proof. unfold displaced. apply FunctionalExtensionality.functional_extensionality. intros i'. apply FunctionalExtensionality.functional_extensionality. intros c'. destruct (_ && _)%bool; [ring|reflexivity]. Qed.

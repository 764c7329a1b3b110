(** * Proofs: from smooth orbital matrices to a smooth wavefunction *)
From Coquelicot Require Import Coquelicot.
From Coq Require Import String Reals List Bool Arith Lia Lra ZArith.
From Verif Require Import XReal S_physics M_slog M_models M_antisym M_construct M_dispatch S_models S_antisym S_construct S_finite P_xsum P_slog P_split P_equiv P_equiv2 P_jastrow P_models P_inv P_parity P_flips P_sgn P_antisym P_antieq P_leibniz P_signsym P_construct P_construct2 P_construct3 P_construct4 P_construct5 P_dispatch P_total P_finite P_finite2 P_smooth P_smooth2 P_smooth3 P_smooth4 Rsum Det S_smooth.
Import ListNotations.
Local Open Scope R_scope.

(** ** The number a sign and a logarithm stand for *)
Lemma number_slog v : number_of (slog_of v) = v.
Proof.
  unfold number_of, slog_of. cbn [fst snd]. destruct (Req_EM_T v 0) as [->|N]; [reflexivity|]. cbn. rewrite exp_ln by (apply Rabs_pos_lt; exact N).
  destruct (Rlt_dec v 0); [rewrite Rabs_left by assumption; ring|]. destruct (Rlt_dec 0 v); [rewrite Rabs_right by lra; ring|]. exfalso. apply N. lra.
Qed.
Lemma number_nan : number_of (NaN, NaN) = 0. Proof. reflexivity. Qed.
Lemma number_summed p l : summed p l -> number_of p = lsum l.
Proof.
  intros (H1 & H2). destruct (Exists_dec (fun v => v <> 0) l) as [X|X]; [intros v; destruct (Req_EM_T v 0) as [->|N]; [right; intros Z; congruence|left; exact N]| |].
  - rewrite H1; [apply number_slog|]. apply Exists_exists in X. exact X.
  - assert (Z : forall v, In v l -> v = 0) by (intros v Hv; destruct (Req_EM_T v 0) as [E|N]; [exact E|]; exfalso; apply X; apply Exists_exists; exists v; split; assumption).
    rewrite (H2 Z). cbn. clear -Z. induction l as [|a l IH]; [reflexivity|]. unfold lsum in *. cbn [fold_right]. rewrite <- IH by (intros v Hv; apply Z; right; exact Hv). rewrite (Z a (or_introl eq_refl)). ring.
Qed.
Lemma number_array r : number_of (array_to_slog (Fin r)) = r.
Proof. rewrite to_slog_fin. apply number_slog. Qed.

(** ** Determinants *)
Lemma square_fam A : fam2 A -> forall t, is_square (A t) = is_square (A 0).
Proof.
  intros H t. unfold is_square. rewrite (fam_length _ A H t). generalize (length (A 0)) as n. intros n. destruct H as (l & E & F). rewrite !E. clear E. induction F as [|f l Hf _ IH]; [reflexivity|].
  cbn [map forallb]. rewrite (fam_length _ f Hf t), IH. reflexivity.
Qed.
Lemma fam_linalg_det A : fam2 A -> famO sm (fun t => linalg_det (A t)).
Proof.
  intros H. apply (famO_ext _ (fun t => if is_square (A 0) then Some (Fin (det_of (A t))) else None)).
  - intros t. unfold linalg_det. rewrite (square_fam A H t). destruct (is_square (A 0)); [|reflexivity].
    replace (forallb (forallb isfin) (A t)) with true; [reflexivity|]. symmetry. apply forallb_forall. intros r Hr. apply forallb_forall. pose proof (fam_all_finite A H t) as F. unfold all_finite in F. rewrite Forall_forall in F. specialize (F r Hr). unfold fins in F. rewrite Forall_forall in F. exact F.
  - destruct (is_square (A 0)); [|apply famO_none]. apply famO_some, (sm_fin (fun t => det_of (A t))), D2_det_of. exact H.
Qed.
Definition any {A} (f : R -> A) : Prop := True.
Lemma fam_slogdet A : fam2 A -> famO any (fun t => linalg_slogdet (A t)).
Proof. intros H. unfold linalg_slogdet. destruct (fam_linalg_det A H) as [N|(f & _ & E)]; [left; intros t; rewrite N; reflexivity|right; exists (fun t => array_to_slog (f t)); split; [exact Logic.I|intros t; rewrite E; reflexivity]]. Qed.
Lemma famO_any {A} (P : (R -> A) -> Prop) X : famO P X -> famO any X.
Proof. intros [H|(f & _ & H)]; [left; exact H|right; exists f; split; [exact Logic.I|exact H]]. Qed.
Lemma fam_product L : famL fam2 L -> famO any (fun t => slogdet_product (L t)).
Proof.
  intros H. unfold slogdet_product. destruct (famO_sequence fam2 any (fun _ => linalg_slogdet) L fam_slogdet H) as [N|(f & Hf & E)]; [left; intros t; rewrite N; reflexivity|].
  destruct Hf as ([|g l] & El & _); [left; intros t; rewrite E, El; reflexivity|]. right. exists (fun t => fold_left slog_multiply (map (fun f => f t) l) (g t)). split; [exact Logic.I|]. intros t. rewrite E, El. reflexivity.
Qed.
Lemma fam_slices O n : famL (famL fam2) O -> famL (famL fam2) (fun t => determinant_slices (O t) n).
Proof.
  intros H. unfold determinant_slices. apply (fam_index (famL fam2) (fun t k => map (fun o => nth k o []) (O t))). intros k _. apply (fam_map (famL fam2) fam2 (fun _ o => nth k o [])); [|exact H]. intros f Hf. apply fam_row. exact Hf.
Qed.
Definition stacked (m : ferminet) (O : list (list arr2)) : list (list arr2) := if fn_full_det m then [map (@concat vec) (determinant_slices O (fn_ndet m))] else O.
Lemma fam_stacked m O : famL (famL fam2) O -> famL (famL fam2) (fun t => stacked m (O t)).
Proof.
  intros H. unfold stacked. destruct (fn_full_det m); [|exact H]. apply fam_one, (fam_map (famL fam2) fam2 (fun _ => @concat vec)); [|apply fam_slices; exact H]. intros f Hf. apply fam_concat. exact Hf.
Qed.
Lemma fam_log_sum L : famL (@any slog) L -> famO any (fun t => log_linear_exp (L t)).
Proof.
  intros (l & E & _). destruct l as [|f l]; [left; intros t; rewrite E; reflexivity|]. right. exists (fun t => match log_linear_exp (L t) with Some p => p | None => (NaN, NaN) end). split; [exact Logic.I|]. intros t. rewrite E. cbn [map].
  unfold log_linear_exp. destruct (terms_divided_by_max (f t :: map (fun f0 => f0 t) l)) as [(a, b)|] eqn:Z; [reflexivity|discriminate Z].
Qed.
Lemma D2_lprod L : famL fam2 L -> D2 (fun t => lprod (map real_det (L t))).
Proof.
  intros (l & E & F). apply (D2_ext (fun t => lprod (map real_det (map (fun f => f t) l)))); [intros t; rewrite E; reflexivity|]. clear E. unfold lprod. induction F as [|f l Hf _ IH]; [exact (D2_const 1)|].
  cbn [map fold_right]. apply (D2_mult (fun t => real_det (f t)) (fun t => fold_right Rmult 1 (map real_det (map (fun f => f t) l)))); [exact (D2_det_of f Hf)|exact IH].
Qed.
Lemma D2_lsum (L : R -> list R) : famL D2 L -> D2 (fun t => lsum (L t)).
Proof. intros (l & E & F). apply (D2_ext (fun t => lsum (map (fun f => f t) l))); [intros t; rewrite E; reflexivity|]. apply (D2_sum (fun f t => f t)). rewrite Forall_forall in F. exact F. Qed.
Lemma D2_det_products m O : famL (famL fam2) O -> D2 (fun t => lsum (det_products m (O t))).
Proof.
  intros H. apply D2_lsum. unfold det_products. apply (fam_map (famL fam2) D2 (fun _ L => lprod (map real_det L))); [intros f Hf; apply D2_lprod; exact Hf|]. apply (fam_slices (fun t => stacked m (O t))), fam_stacked. exact H.
Qed.

(** ** Functions of the determinants *)
Definition smooth_det_fn (fn : nat -> list vec -> vec) : Prop := forall n X, famL fam1 X -> fam1 (fun t => fn n (X t)).
Lemma fam_resnet_layer nd act layer X : (forall i f, fin (fst layer i f)) -> bias_fin (snd layer) -> act_sm act -> fam1 X -> fam1 (fun t => resnet_layer nd act (X t) layer).
Proof.
  intros Hk Hb Ha HX. unfold resnet_layer. cbv zeta. assert (HY : fam1 (fun t => map act (dense nd (fst layer) (snd layer) (X t)))) by (apply (fam_map sm sm (fun _ => act)); [exact Ha|]; apply fam_dense; [exact Hk|intros c f E; apply (Hb c f E)|exact HX]).
  apply (fam_ext _ (fun t => if Nat.eqb (length (X 0)) (length (map act (dense nd (fst layer) (snd layer) (X 0)))) then zipw xadd (map act (dense nd (fst layer) (snd layer) (X t))) (X t) else map act (dense nd (fst layer) (snd layer) (X t)))).
  { intros t. rewrite (fam_length _ X HX t), (fam_length _ _ HY t). reflexivity. }
  destruct (Nat.eqb _ _); [|exact HY]. apply (fam_zipw sm sm sm (fun _ => xadd)); [intros f g; apply sm_add|exact HY|exact HX].
Qed.
Lemma fam_resnet nd nf act inner final X : Forall (fun layer : (nat -> nat -> xr) * option (nat -> xr) => (forall i f, fin (fst layer i f)) /\ bias_fin (snd layer)) inner -> (forall i f, fin (final i f)) -> act_sm act -> fam1 X ->
  fam1 (fun t => simple_resnet nd nf act inner final (X t)).
Proof.
  intros Hi Hf Ha. unfold simple_resnet. revert X. induction Hi as [|layer inner (Hk & Hb) _ IH]; intros X HX; [cbn [fold_left]; apply fam_dense; [exact Hf|intros ? ? E; discriminate|exact HX]|].
  cbn [fold_left]. apply (IH (fun t => resnet_layer nd act (X t) layer)). apply fam_resnet_layer; assumption.
Qed.
Lemma fam_vscale s X : fam1 X -> fam1 (fun t => vscale (Fin s) (X t)).
Proof. intros H. apply (fam_map sm sm (fun _ => xmul (Fin s))); [|exact H]. intros f Hf. apply sm_mul; [apply sm_const; reflexivity|exact Hf]. Qed.
Lemma fam_vsum n X : fam2 X -> fam1 (fun t => vsum n (X t)).
Proof. intros H. unfold vsum. apply (fam_index sm (fun t c => xsum (map (fun v => nth c v (Fin 0)) (X t)))). intros c _. apply sm_sum, (fam_map fam1 sm (fun _ v => nth c v (Fin 0))); [|exact H]. intros f Hf. apply sm_nth. exact Hf. Qed.
(** Sign symmetrisation: the symmetries are families, the signs do not depend on the positions. *)
Section Orbits.
  Context {A B C : Type} (P : (R -> A) -> Prop) (Q : (R -> B) -> Prop) (flip : R -> A -> A) (Hflip : forall s f, P f -> P (fun t => flip s (f t))).
  Lemma fam_orbit X : famL P X -> (famL (famL P) (fun t => fst (get_sign_orbit_for_list flip (X t)))) /\ (forall t, snd (get_sign_orbit_for_list flip (X t)) = snd (get_sign_orbit_for_list flip (X 0))).
  Proof.
    intros HX. unfold get_sign_orbit_for_list. cbv zeta. cbn [fst snd]. split.
    - apply (fam_ext _ (fun t => map (fun k => concat (map (fun s : list A * list R => match nth_error (fst s) k with Some a => [a] | None => [] end) (mapi (fun i xi => get_sign_orbit_single flip xi i (length (X 0))) (X t)))) (seq 0 (2 ^ length (X 0))))); [intros t; rewrite (fam_length _ X HX t); reflexivity|].
      apply (fam_index (famL P) (fun t k => concat (map (fun s : list A * list R => match nth_error (fst s) k with Some a => [a] | None => [] end) (mapi (fun i xi => get_sign_orbit_single flip xi i (length (X 0))) (X t))))). intros k _.
      apply fam_concat. set (ok := fun s : R -> list A * list R => famL P (fun t => fst (s t))).
      apply (fam_map ok (famL P) (fun _ s => match nth_error (fst s) k with Some a => [a] | None => [] end)).
      + intros s (l & E & F). unfold ok in *. destruct (nth_error l k) as [f|] eqn:En.
        * apply (fam_ext _ (fun t => [f t])); [intros t; rewrite E; rewrite (map_nth_error (fun f0 : R -> A => f0 t) k l En); reflexivity|]. apply fam_one. rewrite Forall_forall in F. apply F. eapply nth_error_In. exact En.
        * apply (fam_ext _ (fun _ => [])); [|apply fam_nil]. intros t. rewrite E. replace (nth_error (map (fun f => f t) l) k) with (@None A); [reflexivity|]. symmetry. apply nth_error_None. rewrite map_length. apply nth_error_None. exact En.
      + apply (fam_mapi P ok (fun _ i xi => get_sign_orbit_single flip xi i (length (X 0)))); [|exact HX]. intros i f Hf. unfold ok, get_sign_orbit_single. cbv zeta. cbn [fst].
        apply (fam_index P (fun t s => flip s (f t))). intros s _. apply Hflip. exact Hf.
    - intros t. rewrite (fam_length _ X HX t). apply map_ext. intros k. f_equal.
      assert (G : forall (x y : list A) n, length x = length y -> map (fun s : list A * list R => nth k (snd s) 0) (mapi (fun i xi => get_sign_orbit_single flip xi i n) x) = map (fun s : list A * list R => nth k (snd s) 0) (mapi (fun i xi => get_sign_orbit_single flip xi i n) y)).
      { intros x y n L. unfold mapi. rewrite L. generalize (seq 0 (length y)) as q. revert y L. induction x as [|a x IH]; intros [|b y] L [|i q]; try discriminate; try reflexivity. unfold zipw in *. cbn. f_equal. apply IH. cbn in L. lia. }
      apply G. apply (fam_length _ X HX t).
  Qed.
  Lemma fam_symmetrised (S : (R -> C) -> Prop) fn ao (total : list B -> C) X : (forall Y, famL P Y -> Q (fun t => fn (Y t))) -> (forall s f, Q f -> Q (fun t => ao (f t) s)) -> (forall Y, famL Q Y -> S (fun t => total (Y t))) -> respects S ->
    famL P X -> S (fun t => apply_sign_symmetry_to_fn flip fn ao total (X t)).
  Proof.
    intros Hfn Hao Ht Rs HX. destruct (fam_orbit X HX) as (H1 & H2).
    apply (Rs (fun t => total (zipw ao (map fn (fst (get_sign_orbit_for_list flip (X t)))) (snd (get_sign_orbit_for_list flip (X 0)))))).
    - intros t. unfold apply_sign_symmetry_to_fn. rewrite <- (H2 t). destruct (get_sign_orbit_for_list flip (X t)) as (a, b). reflexivity.
    - apply Ht. apply (fam_zipw_l Q Q (fun _ => ao)); [intros f s Hf _; apply Hao; exact Hf|]. apply (fam_map (famL P) Q (fun _ => fn)); [exact Hfn|exact H1].
  Qed.
End Orbits.
Lemma fam_covariant n fn X : (forall Y, fam2 Y -> fam1 (fun t => fn (Y t))) -> fam2 X -> fam1 (fun t => make_array_list_fn_sign_covariant n fn (X t)).
Proof.
  intros Hfn HX. unfold make_array_list_fn_sign_covariant. apply (fam_symmetrised fam1 fam1 (fun s => vscale (Fin s)) (fun s f => fam_vscale s f) fam1 fn (fun v s => vscale (Fin s) v) (vsum n) X Hfn); [intros s f; apply fam_vscale|intros Y HY; apply fam_vsum; exact HY|apply respects_fam|exact HX].
Qed.
Lemma fam_invariant n fn X : (forall Y, fam2 Y -> fam1 (fun t => fn (Y t))) -> fam2 X -> fam1 (fun t => make_array_list_fn_sign_invariant n fn (X t)).
Proof.
  intros Hfn HX. unfold make_array_list_fn_sign_invariant. apply (fam_symmetrised fam1 fam1 (fun s => vscale (Fin s)) (fun s f => fam_vscale s f) fam1 fn (fun v _ => v) (vsum n) X Hfn); [intros s f Hf; exact Hf|intros Y HY; apply fam_vsum; exact HY|apply respects_fam|exact HX].
Qed.
Lemma sm_xprod X : fam1 X -> sm (fun t => xprod (X t)).
Proof.
  intros (l & E & F). apply (sm_ext (fun t => xprod (map (fun f => f t) l))); [intros t; rewrite E; reflexivity|]. clear E. induction F as [|f l Hf _ IH]; [apply (sm_const (Fin 1)); reflexivity|].
  apply (sm_ext (fun t => xmul (f t) (xprod (map (fun f => f t) l)))); [reflexivity|]. apply sm_mul; assumption.
Qed.
Lemma fam_psi_value m fn O : smooth_det_fn fn -> famL (famL fam2) O -> famO sm (fun t => psi_value m fn (O t)).
Proof.
  intros Hfn HO. unfold psi_value. cbv zeta.
  apply (famO_bind fam2 sm (fun t => sequence (map (fun o => sequence (map linalg_det o)) (stacked m (O t)))) (fun _ fn_inputs => match fn_mode m with
    | SIGN_COVARIANCE => Some (nth 0 (make_array_list_fn_sign_covariant 1 (fn 1%nat) fn_inputs) (Fin 0))
    | PARALLEL_EVEN => Some (psi_parallel_even (fn_ndet m) fn fn_inputs)
    | PAIRWISE_EVEN => psi_pairwise_even (fn_ndet m) fn fn_inputs
    end)).
  - intros D HD _. destruct (fn_mode m).
    + apply famO_some. apply (sm_nth (fun t => make_array_list_fn_sign_covariant 1 (fn 1%nat) (D t))), fam_covariant; [intros Y HY; apply Hfn; exact HY|exact HD].
    + apply famO_some. unfold psi_parallel_even. cbv zeta. apply sm_sum. apply (fam_zipw sm sm sm (fun _ => xmul)); [intros f g; apply sm_mul| |apply fam_invariant; [intros Y HY; apply Hfn; exact HY|exact HD]].
      apply (fam_index sm (fun t k => xprod (map (fun d => nth k d (Fin 0)) (D t)))). intros k _. apply sm_xprod, (fam_map fam1 sm (fun _ d => nth k d (Fin 0))); [|exact HD]. intros f Hf. apply sm_nth. exact Hf.
    + pose proof HD as (l & E & F). destruct l as [|up [|down [|z l]]].
      * left. intros t. rewrite E. reflexivity.
      * left. intros t. rewrite E. reflexivity.
      * apply (famO_ext _ (fun t => Some (xsum (zipw xmul (concat (map (fun u => map (fun d => xmul u d) (down t)) (up t))) (make_array_list_fn_sign_invariant (fn_ndet m * fn_ndet m) (fn (fn_ndet m * fn_ndet m)%nat) (D t)))))); [intros t; unfold psi_pairwise_even; rewrite E; reflexivity|].
        pose proof (Forall_inv F) as Hu. pose proof (Forall_inv (Forall_inv_tail F)) as Hd. apply famO_some, sm_sum. apply (fam_zipw sm sm sm (fun _ => xmul)); [intros f g; apply sm_mul| |apply fam_invariant; [intros Y HY; apply Hfn; exact HY|exact HD]].
        apply fam_concat, (fam_map sm fam1 (fun t u => map (fun d => xmul u d) (down t))); [|exact Hu]. intros f Hf. apply (fam_map sm sm (fun t d => xmul (f t) d)); [|exact Hd]. intros g Hg. apply sm_mul; assumption.
      * left. intros t. rewrite E. reflexivity.
  - apply (famO_sequence (famL fam2) fam1 (fun _ o => sequence (map linalg_det o)) (fun t => stacked m (O t))); [|apply fam_stacked; exact HO]. intros f Hf. apply (famO_sequence fam2 sm (fun _ => linalg_det)); [apply fam_linalg_det|exact Hf].
Qed.
(** A value that a smooth wavefunction may have along one displacement. *)
Definition smooth_value (P : R -> option slog) : Prop := D2 (fun t => match P t with Some p => number_of p | None => 0 end).
Lemma psi_smooth m O : (forall fn, fn_det_fn m = Some fn -> smooth_det_fn fn) -> famL (famL fam2) O -> smooth_value (fun t => psi_from_orbitals m (O t)).
Proof.
  intros Hd HO. unfold smooth_value. destruct (fn_det_fn m) as [fn|] eqn:Fd.
  - destruct (fam_psi_value m fn O (Hd fn eq_refl) HO) as [N|(f & Hf & E)].
    + apply (D2_ext (fun _ => 0)); [|apply D2_const]. intros t. rewrite (psi_value_spec m fn _ Fd), N. reflexivity.
    + apply (D2_ext (fun t => val (f t))); [|apply D2_val; exact Hf]. intros t. rewrite (psi_value_spec m fn _ Fd), E. cbn [option_map]. destruct Hf as (g & Eg & _). rewrite Eg, number_array. reflexivity.
  - assert (Z : famO any (fun t => psi_from_orbitals m (O t))).
    { unfold psi_from_orbitals. cbv zeta. rewrite Fd. apply (famO_bind (famL any) any (fun t => sequence (map slogdet_product (determinant_slices (stacked m (O t)) (fn_ndet m)))) (fun _ => slog_sum_over_axis)); [intros f Hf _; apply fam_log_sum; exact Hf|].
      apply (famO_sequence (famL fam2) any (fun _ => slogdet_product) (fun t => determinant_slices (stacked m (O t)) (fn_ndet m))); [apply fam_product|]. apply (fam_slices (fun t => stacked m (O t))), fam_stacked. exact HO. }
    destruct Z as [N|(f & _ & E)]; [apply (D2_ext (fun _ => 0)); [intros t; rewrite N; reflexivity|apply D2_const]|].
    apply (D2_ext (fun t => lsum (det_products m (O t)))); [|apply D2_det_products; exact HO]. intros t. rewrite E. symmetry. apply number_summed. apply (psi_summed m (O t) (f t) Fd); [|apply E].
    destruct HO as (l & El & Fl). rewrite El. apply Forall_map. eapply Forall_impl; [|exact Fl]. intros g (lg & Eg & Fg). rewrite Eg. apply Forall_map. eapply Forall_impl; [|exact Fg]. intros h Hh. apply fam_all_finite. exact Hh.
Qed.

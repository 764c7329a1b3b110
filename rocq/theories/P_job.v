(** * A job for a moved molecule *)
From Coq Require Import String Reals List Arith Bool Lia Lra FunctionalExtensionality.
From Verif Require P_distribute.
From Verif Require Import XReal Rsum Det M_io M_vmc M_mcmc M_distribute M_energy M_physics M_setup M_slog M_models M_construct M_dispatch M_optim M_optax M_run M_start M_job
  S_mcmc S_start S_perm S_energy S_physics S_setup S_shift S_job P_mcmc P_start P_setup P_setup2 P_lext P_shift T_shift T_setup P_loopmap P_movewalk.
Import ListNotations.
Local Open Scope R_scope.
Local Notation zipw := M_mcmc.zipw.

(** ** Moved coordinates *)
Lemma seq_from k n : seq k n = map (fun i => (k + i)%nat) (seq 0 n).
Proof.
  revert k. induction n as [|n IH]; intros k; [reflexivity|]. cbn [seq map]. rewrite Nat.add_0_r. f_equal. rewrite (IH (S k)), (IH 1%nat), map_map. apply map_ext. intros i. lia.
Qed.
Lemma moved_walker_length d v x : length (moved_walker d v x) = length x.
Proof. unfold moved_walker. rewrite map_length, seq_length. reflexivity. Qed.
Lemma moved_walker_nth d v x i : (i < length x)%nat -> nth i (moved_walker d v x) 0 = nth i x 0 + v (i mod d)%nat.
Proof.
  intros H. unfold moved_walker. rewrite (nth_indep _ 0 ((fun i => nth i x 0 + v (i mod d)%nat) O)) by (rewrite map_length, seq_length; exact H).
  rewrite (map_nth (fun i => nth i x 0 + v (i mod d)%nat)), seq_nth by exact H. reflexivity.
Qed.
Lemma moved_ion_length v a : length (moved_ion v a) = length a.
Proof. unfold moved_ion. rewrite map_length, seq_length. reflexivity. Qed.
Lemma moved_ion_nth v a c : (c < length a)%nat -> nth c (moved_ion v a) 0 = nth c a 0 + v c.
Proof.
  intros H. unfold moved_ion. rewrite (nth_indep _ 0 ((fun c => nth c a 0 + v c) O)) by (rewrite map_length, seq_length; exact H).
  rewrite (map_nth (fun c => nth c a 0 + v c)), seq_nth by exact H. reflexivity.
Qed.
Lemma zw_nth {A B C} (f : A -> B -> C) a b c l : forall l' i, (i < length l)%nat -> (i < length l')%nat -> nth i (zipw f l l') c = f (nth i l a) (nth i l' b).
Proof. induction l as [|x l IH]; intros [|y l'] i H H'; cbn in *; try lia. destruct i; [reflexivity|]. apply IH; lia. Qed.
Lemma proposal_moved d v s x z : zipw (fun a b => a + s * b) (moved_walker d v x) z = moved_walker d v (zipw (fun a b => a + s * b) x z).
Proof.
  apply (nth_ext _ _ 0 0); [rewrite moved_walker_length, !P_mcmc.zipw_length, moved_walker_length; reflexivity|]. intros i Hi. rewrite !P_mcmc.zipw_length, moved_walker_length in Hi.
  rewrite (zw_nth _ 0 0) by (rewrite ?moved_walker_length; lia). rewrite !moved_walker_nth by (rewrite ?P_mcmc.zipw_length; lia). rewrite (zw_nth _ 0 0) by lia. ring.
Qed.
Definition shifted (v : nat -> R) (y : positions) : positions := fun i c => y i c + v c.
Lemma positions_moved n d v x : length x = (n * d)%nat -> agree n d (positions_at d (moved_walker d v x)) (shifted v (positions_at d x)).
Proof.
  intros L i c Hi Hc. unfold shifted, positions_at. rewrite moved_walker_nth by nia. do 2 f_equal. rewrite Nat.add_comm, Nat.mod_add by lia. apply Nat.mod_small. exact Hc.
Qed.
Lemma rows_agree n d y y' : agree n d y y' -> rows_of n d y = rows_of n d y'.
Proof. intros A. unfold rows_of. apply map_ext_in. intros i Hi. apply map_ext_in. intros c Hc. apply in_seq in Hi, Hc. rewrite A by lia. reflexivity. Qed.
Lemma rows_shifted n d v y : rows_of n d (shifted v y) = all_moved v (rows_of n d y).
Proof.
  unfold rows_of, all_moved. rewrite map_map. apply map_ext. intros i. unfold moved. rewrite map_length, seq_length. apply map_ext_in. intros c Hc. apply in_seq in Hc.
  rewrite (nth_indep _ (Fin 0) (Fin (y i O))) by (rewrite map_length, seq_length; lia). rewrite (map_nth (fun c => Fin (y i c))), seq_nth by lia. reflexivity.
Qed.
Lemma fin_moved v l : fin_array (map (moved_ion v) l) = all_moved v (fin_array l).
Proof.
  unfold fin_array, all_moved. rewrite !map_map. apply map_ext. intros a. unfold moved_ion, moved. rewrite map_map, map_length. apply map_ext_in. intros c Hc. apply in_seq in Hc.
  rewrite (map_nth Fin). reflexivity.
Qed.

(** ** Energies and gradients at moved positions *)
Section Ext.
  Context {P X X' K : Type}.
  Variables (h : X -> X') (Q : X -> Prop) (p : P).
  Variables (lp : P -> X -> xr) (lp' : P -> X' -> xr) (dl : P -> X -> nat -> xr) (dl' : P -> X' -> nat -> xr).
  Variables (le : P -> X -> option K -> xr) (le' : P -> X' -> option K -> xr) (dle : P -> X -> nat -> xr) (dle' : P -> X' -> nat -> xr).
  Variables (nch : nat) (clip : option clip_fn) (ns : bool) (split_n : K -> nat -> list K).
  Hypothesis H1 : forall x, Q x -> lp' p (h x) = lp p x.
  Hypothesis H2 : forall x j, Q x -> dl' p (h x) j = dl p x j.
  Hypothesis H3 : forall x k, Q x -> le' p (h x) k = le p x k.
  Hypothesis H4 : forall x j, Q x -> dle' p (h x) j = dle p x j.
  Lemma map2_ext {B} (f : X' -> B) (f' : X -> B) pos : (forall x, Q x -> f (h x) = f' x) -> Forall (Forall Q) pos -> map (map f) (map (map h) pos) = map (map f') pos.
  Proof.
    intros H HF. rewrite map_map. apply map_ext_in. intros xs Hx. rewrite map_map. apply map_ext_in. intros x Hx'. apply H. rewrite Forall_forall in HF. specialize (HF xs Hx). rewrite Forall_forall in HF. apply HF. exact Hx'.
  Qed.
  Lemma map1_ext {B} (f : X' -> B) (f' : X -> B) xs : (forall x, Q x -> f (h x) = f' x) -> Forall Q xs -> map f (map h xs) = map f' xs.
  Proof. intros H HF. rewrite map_map. apply map_ext_in. intros x Hx. apply H. rewrite Forall_forall in HF. apply HF. exact Hx. Qed.
  Lemma contribution_ext cl noclip pos : Forall (Forall Q) pos ->
    get_standard_contribution lp' dl' nch ns cl noclip p (map (map h) pos) = get_standard_contribution lp dl nch ns cl noclip p pos.
  Proof.
    intros HF. unfold get_standard_contribution. destruct (get_clipped_energies_and_aux_data _ _ _ _) as [[[e les] aux]|]; [|reflexivity]. destruct (Nat.eqb nch 1); [reflexivity|]. do 2 f_equal.
    apply functional_extensionality. intros j. rewrite <- (map_id (map (map (fun l => xsub l e)) les)) at 1. rewrite combine_map_both, map_map. apply map_ext_in. intros [cs xs] Hin. cbn [fst snd].
    apply in_combine_r in Hin. rewrite Forall_forall in HF. specialize (HF xs Hin). rewrite (map1_ext (lp' p) (lp p) xs H1 HF), (map1_ext (fun x => dl' p x j) (fun x => dl p x j) xs (fun x => H2 x j) HF). reflexivity.
  Qed.
  Lemma evg_ext ty keys pos : Forall (Forall Q) pos ->
    energy_val_and_grad lp' dl' le' dle' nch clip ns split_n ty p keys (map (map h) pos) = energy_val_and_grad lp dl le dle nch clip ns split_n ty p keys pos.
  Proof.
    intros HF. unfold energy_val_and_grad. rewrite (map2_ext (fun x => le' p x None) (fun x => le p x None) pos) by (auto; exact HF).
    destruct (String.eqb ty "standard"); [apply contribution_ext; exact HF|].
    destruct (String.eqb ty "ibp").
    { rewrite contribution_ext by exact HF. destruct (get_standard_contribution _ _ _ _ _ _ _ _) as [[[aux e] gr]|]; [|reflexivity]. do 2 f_equal. apply functional_extensionality. intros j.
      rewrite (map2_ext (fun x => dle' p x j) (fun x => dle p x j) pos) by (auto; exact HF). reflexivity. }
    destruct (String.eqb ty "random_particle"); [|reflexivity]. rewrite contribution_ext by exact HF. f_equal.
    rewrite <- (map_id keys) at 1. rewrite combine_map_both, map_map. apply map_ext_in. intros [k xs] Hin. cbn [fst snd]. rewrite map_length. apply in_combine_r in Hin.
    rewrite Forall_forall in HF. specialize (HF xs Hin). rewrite zw_map_l. eapply zw_ext_in; [exact HF|]. intros x kk Hx. apply H3. exact Hx.
  Qed.
End Ext.

(** ** One update, KFAC or not *)
Section Update.
  Context {P1 S1 K J : Type}.
  Variables (g : prng K) (perm_of : K -> nat -> nat) (split_n : K -> nat -> list K).
  Variables (theta : P1 -> model_params) (grad_p : (P1 -> R) -> P1 -> nat -> R) (grad_px : (P1 -> xr) -> P1 -> nat -> xr).
  Variable opt_apply : optimiser -> (nat -> xr) -> P1 -> S1 -> list (list (nat -> R)) -> list (list xr) -> P1 * S1.
  Variable kfac : kfac_optimizer P1 S1 K.
  Variable param_l1_norm : P1 -> xr.
  Variable c : job_config.
  Definition energy_keys (o : optimiser) (ks : list K) : list K := match o with Kfac _ _ => map (kf_value_key kfac) ks | _ => ks end.
  Definition opt_step (o : optimiser) (gr : nat -> xr) (p : P1) (s : S1) (ks : list K) (dd : list (padata move_metadata)) (ce : list (list xr)) : P1 * S1 :=
    match o with Kfac _ _ => kf_step kfac o gr p s ks (map pos dd) | _ => optimizer_apply theta grad_p opt_apply c o gr p s dd ce end.
  Lemma update_eq o p dd s k : job_update g perm_of split_n theta grad_p grad_px opt_apply kfac param_l1_norm c o p dd s k =
    let ks := map snd (map (split2 g) k) in
    let '(ed, gr) := energy_data_val_and_grad perm_of split_n theta grad_p grad_px c p (energy_keys o ks) (positions_of dd) in
    let '(p', s') := opt_step o gr p s ks dd (ed_centered ed) in
    (p', map (fun d => update_data_fn (model_apply theta c) d p') dd, s',
     Some (with_l1 param_l1_norm (jc_record_param_l1_norm c) p' (with_noclip (ed_energy_noclip ed) (ed_variance_noclip ed) [("energy", ed_energy ed); ("variance", ed_variance ed)]%string)),
     map fst (map (split2 g) k)).
  Proof.
    unfold job_update. destruct o; unfold kfac_update_param_fn, grad_update_param_fn, kfac_step, energy_keys, opt_step, positions_of; cbv zeta;
      (destruct (energy_data_val_and_grad _ _ _ _ _ _ _ _ _) as [ed gr]; [..]); try reflexivity.
    destruct (kf_step _ _ _ _ _ _ _). reflexivity.
  Qed.
End Update.

(** ** The moved job *)
Section Moved.
  Context {P1 S1 K J : Type}.
  Variables (g : prng K) (choice : choice_fn K) (perm_of : K -> nat -> nat) (split_n : K -> nat -> list K) (device_keys : K -> list K) (ndev : nat).
  Variables (theta : P1 -> model_params) (init_params : K -> list nat -> P1).
  Variables (grad_p : (P1 -> R) -> P1 -> nat -> R) (grad_px : (P1 -> xr) -> P1 -> nat -> xr).
  Variables (opt_init : optimiser -> P1 -> S1)
            (opt_apply : optimiser -> (nat -> xr) -> P1 -> S1 -> list (list (nat -> R)) -> list (list xr) -> P1 * S1).
  Variable kfac : kfac_optimizer P1 S1 K.
  Variables (has_nan : P1 -> bool) (param_l1_norm : P1 -> xr) (summary : list (list xr) -> J).
  Variables (c : job_config) (v : nat -> R).
  Hypothesis Hg : good_prng g.
  Hypothesis Hc : good_choice choice.
  Hypothesis Hp : forall k, renumbering (jc_n c) (perm_of k).
  Hypothesis Ht : ms_type (jc_model c) <> "embedded_particle_ferminet"%string.
  Hypothesis Hw : well_formed_ions c.
  Hypothesis Hkf : oc_type (jc_optimizer c) = "kfac"%string -> forall o,
    (forall p ks xs, kf_init kfac o p ks (map (map (moved_walker (jc_d c) v)) xs) = kf_init kfac o p ks xs) /\
    forall gr p s ks xs, kf_step kfac o gr p s ks (map (map (moved_walker (jc_d c) v)) xs) = kf_step kfac o gr p s ks xs.
  Let mc := moved_config v c.
  Let n := jc_n c.
  Let d := jc_d c.

  Lemma jc_d_moved : jc_d mc = jc_d c.
  Proof. unfold jc_d, dimension, mc. cbn [jc_ion_pos moved_config]. destruct (jc_ion_pos c) as [|a l]; [reflexivity|]. cbn. apply moved_ion_length. Qed.
  Lemma jc_n_moved : jc_n mc = jc_n c.
  Proof. reflexivity. Qed.
  Lemma log_psi_shift p y : log_psi_at theta mc p (shifted v y) = log_psi_at theta c p y.
  Proof.
    unfold log_psi_at. rewrite jc_d_moved, jc_n_moved. change (jc_model mc) with (jc_model c). change (jc_nelec mc) with (jc_nelec c). change (jc_ion_charges mc) with (jc_ion_charges c).
    change (jc_ion_pos mc) with (map (moved_ion v) (jc_ion_pos c)). rewrite fin_moved, rows_shifted.
    pose proof (C76_translation (jc_model c) (jc_nelec c) (fin_array (jc_ion_pos c)) (map Fin (jc_ion_charges c)) (theta p) v Ht) as H.
    destruct (model_of_job _ _ (fin_array (jc_ion_pos c)) _ _) as [w|], (model_of_job _ _ (all_moved v _) _ _) as [w'|]; try contradiction; [|reflexivity].
    unfold log_psi. rewrite H. reflexivity.
  Qed.
  Lemma accepts_shift p y y' : agree n d y' (shifted v y) ->
    match model_of_job (jc_model mc) (jc_nelec mc) (fin_array (jc_ion_pos mc)) (map Fin (jc_ion_charges mc)) (theta p) with
    | Some w => match log_psi w (rows_of (jc_n mc) (jc_d mc) y') with Some _ => true | None => false end | None => false end =
    match model_of_job (jc_model c) (jc_nelec c) (fin_array (jc_ion_pos c)) (map Fin (jc_ion_charges c)) (theta p) with
    | Some w => match log_psi w (rows_of (jc_n c) (jc_d c) y) with Some _ => true | None => false end | None => false end.
  Proof.
    intros A. rewrite jc_d_moved, jc_n_moved. change (jc_model mc) with (jc_model c). change (jc_nelec mc) with (jc_nelec c). change (jc_ion_charges mc) with (jc_ion_charges c).
    change (jc_ion_pos mc) with (map (moved_ion v) (jc_ion_pos c)). rewrite fin_moved, (rows_agree (jc_n c) (jc_d c) _ _ A), rows_shifted.
    pose proof (C76_translation (jc_model c) (jc_nelec c) (fin_array (jc_ion_pos c)) (map Fin (jc_ion_charges c)) (theta p) v Ht) as H.
    destruct (model_of_job _ _ (fin_array (jc_ion_pos c)) _ _) as [w|], (model_of_job _ _ (all_moved v _) _ _) as [w'|]; try contradiction; [|reflexivity].
    unfold log_psi. rewrite H. reflexivity.
  Qed.
  Lemma log_psi_reads c' p : reads (jc_n c') (jc_d c') (log_psi_at theta c' p).
  Proof. intros x y A. unfold log_psi_at. rewrite (rows_agree (jc_n c') (jc_d c') x y A). reflexivity. Qed.
  Lemma real_reads c' p : reads (jc_n c') (jc_d c') (real_log_psi theta c' p).
  Proof. intros x y A. unfold real_log_psi. rewrite (log_psi_reads c' p x y A). reflexivity. Qed.
  Lemma log_psi_agree p y y' : agree n d y' (shifted v y) -> log_psi_at theta mc p y' = log_psi_at theta c p y.
  Proof. intros A. rewrite <- log_psi_shift. apply log_psi_reads. rewrite jc_n_moved, jc_d_moved. exact A. Qed.
  Lemma real_moved p : real_log_psi theta mc p = fun y => real_log_psi theta c p (fun i k => y i k - v k).
  Proof.
    apply functional_extensionality. intros y. unfold real_log_psi. f_equal. apply log_psi_agree. intros i k _ _. unfold shifted. ring.
  Qed.
  Definition locs_moved : positions := mol_locs (molecule_of mc).
  Lemma locs_agree : agree (mol_nion (molecule_of c)) (mol_d (molecule_of c)) (fun i k => mol_locs (molecule_of c) i k + v k) locs_moved.
  Proof.
    intros j k Hj Hk. unfold locs_moved. cbn in *. destruct Hw as (_ & HF & HL). rewrite HL in Hj.
    rewrite (nth_indep (map (moved_ion v) (jc_ion_pos c)) [] (moved_ion v [])) by (rewrite map_length; exact Hj). rewrite map_nth.
    rewrite moved_ion_nth; [reflexivity|]. rewrite Forall_forall in HF. rewrite HF; [exact Hk|]. apply nth_In. exact Hj.
  Qed.
  Definition mm : molecule := let m := molecule_of c in
    {| mol_d := mol_d m; mol_nion := mol_nion m; mol_nelec := mol_nelec m; mol_locs := (fun i k => mol_locs m i k + v k);
       mol_charges := mol_charges m; mol_ei_softening := mol_ei_softening m; mol_ee_softening := mol_ee_softening m |}.
  Lemma molecule_moved : molecule_of mc = {| mol_d := mol_d mm; mol_nion := mol_nion mm; mol_nelec := mol_nelec mm; mol_locs := locs_moved; mol_charges := mol_charges mm;
                                        mol_ei_softening := mol_ei_softening mm; mol_ee_softening := mol_ee_softening mm |}.
  Proof. unfold locs_moved, mm. unfold molecule_of at 1. rewrite jc_d_moved, jc_n_moved. reflexivity. Qed.
  Lemma reads_unshift (f : positions -> R) : reads n d f -> reads n d (fun y : positions => f (fun i k => y i k - v k)).
  Proof. intros H x y A. apply H. intros i k Hi Hk. rewrite A by assumption. reflexivity. Qed.
  Lemma assembled_moved e p y y' : agree n d y' (shifted v y) ->
    match assemble_mol_local_energy_fn (molecule_of c) e (real_log_psi theta c p), assemble_mol_local_energy_fn (molecule_of mc) e (real_log_psi theta mc p) with
    | Some (Plain f), Some (Plain f') => f' y' = f y
    | Some (Keyed f), Some (Keyed f') => forall k, f' y' (perm_of k) = f y (perm_of k)
    | None, None => True
    | _, _ => False
    end.
  Proof.
    intros A. rewrite molecule_moved, real_moved.
    assert (T : match assemble_mol_local_energy_fn (molecule_of c) e (real_log_psi theta c p), assemble_mol_local_energy_fn mm e (fun y : positions => real_log_psi theta c p (fun i k => y i k - v k)) with
      | Some (Plain f), Some (Plain f') => f' (shifted v y) = f y
      | Some (Keyed f), Some (Keyed f') => forall perm, renumbering (jc_n c) perm -> f' (shifted v y) perm = f y perm
      | None, None => True | _, _ => False end) by exact (C70_translation (molecule_of c) e (real_log_psi theta c p) v y (real_reads c p)).
    assert (A' : agree (mol_nelec mm) (mol_d mm) (shifted v y) y') by (intros i k Hi Hk; symmetry; apply A; assumption).
    pose proof (local_energy_ext mm locs_moved e _ (shifted v y) y' (reads_unshift _ (real_reads c p)) A' locs_agree) as X.
    destruct (assemble_mol_local_energy_fn (molecule_of c) e _) as [[f|f]|]; destruct (assemble_mol_local_energy_fn mm e _) as [[f1|f1]|]; try contradiction;
    match goal with |- context [assemble_mol_local_energy_fn ?a e ?b] => destruct (assemble_mol_local_energy_fn a e b) as [[f2|f2]|] end; try contradiction; try exact Logic.I.
    - rewrite <- X. exact T.
    - intros k. rewrite <- X by apply Hp. apply T. apply Hp.
  Qed.
  Lemma local_energy_moved e p y y' key : agree n d y' (shifted v y) -> local_energy_at perm_of theta mc e p y' key = local_energy_at perm_of theta c e p y key.
  Proof.
    intros A. unfold local_energy_at. pose proof (assembled_moved e p y y' A) as H.
    destruct (assemble_mol_local_energy_fn (molecule_of c) e _) as [[f|f]|]; destruct (assemble_mol_local_energy_fn (molecule_of mc) e _) as [[f1|f1]|]; try contradiction; try reflexivity; unfold call.
    - rewrite H. reflexivity.
    - destruct key as [k|]; [rewrite H; reflexivity|reflexivity].
  Qed.
  Lemma dlog_moved p y y' : agree n d y' (shifted v y) -> dlog_psi_at theta grad_p mc p y' = dlog_psi_at theta grad_p c p y.
  Proof. intros A. unfold dlog_psi_at. f_equal. apply functional_extensionality. intros p'. unfold real_log_psi. rewrite (log_psi_agree p' y y' A). reflexivity. Qed.

  Lemma traces_moved e p f f' : assemble_mol_local_energy_fn (molecule_of c) e (real_log_psi theta c p) = Some f ->
    assemble_mol_local_energy_fn (molecule_of mc) e (real_log_psi theta mc p) = Some f' -> traces f' = traces f.
  Proof.
    intros E E'.
    pose proof (proj1 (proj2 (proj2 (C68_errors P1 K perm_of split_n (real_log_psi theta c) (fun _ _ _ => 0) (fun _ _ _ => NaN) (molecule_of c) e p [] [])) f E)) as T.
    pose proof (proj1 (proj2 (proj2 (C68_errors P1 K perm_of split_n (real_log_psi theta mc) (fun _ _ _ => 0) (fun _ _ _ => NaN) (molecule_of mc) e p [] [])) f' E')) as T'.
    destruct (traces f), (traces f'); try reflexivity; [destruct (proj2 T (proj1 T' eq_refl))|destruct (proj2 T' (proj1 T eq_refl))]; reflexivity.
  Qed.

  Notation h := (moved_walker d v).
  Notation ma := (model_apply theta c).
  Notation ma' := (model_apply theta mc).
  Definition long (x : list R) : Prop := length x = (n * d)%nat.
  Lemma model_apply_moved p xs : Forall (fun x => length x = (n * d)%nat) xs -> ma' p (map h xs) = ma p xs.
  Proof.
    intros HF. unfold model_apply. rewrite map_map. apply map_ext_in. intros x Hx. rewrite Forall_forall in HF. rewrite jc_d_moved. apply log_psi_agree. apply positions_moved. apply HF. exact Hx.
  Qed.
  Lemma energy_moved p keys pos : Forall (Forall long) pos ->
    energy_and_grad perm_of split_n theta grad_p grad_px mc p keys (map (map h) pos) = energy_and_grad perm_of split_n theta grad_p grad_px c p keys pos.
  Proof.
    intros HF. unfold energy_and_grad. change (jc_walk mc) with (jc_walk c). change (jc_energy mc) with (jc_energy c).
    match goal with |- match ?a with _ => _ end = match ?b with _ => _ end => assert (E : a = b); [|rewrite E; reflexivity] end.
    unfold molecule_val_and_grad. set (ec := with_nchains (wc_nchains (jc_walk c)) (jc_energy c)). cbv beta.
    destruct (assemble_mol_local_energy_fn (molecule_of c) ec (real_log_psi theta c p)) as [f|] eqn:Ef; destruct (assemble_mol_local_energy_fn (molecule_of mc) ec (real_log_psi theta mc p)) as [f'|] eqn:Ef'.
    2,3: pose proof (assembled_moved ec p (fun _ _ => 0) (shifted v (fun _ _ => 0)) (fun _ _ _ _ => eq_refl)) as H; rewrite Ef, Ef' in H; try destruct f; try destruct f'; contradiction.
    2: reflexivity.
    rewrite (traces_moved ec p f f' Ef Ef'). destruct (traces f); [|reflexivity].
    assert (LE : forall y y' key, agree n d y' (shifted v y) -> call perm_of f' y' key = call perm_of f y key).
    { intros y y' key A. pose proof (local_energy_moved ec p y y' key A) as H. unfold local_energy_at in H. rewrite Ef, Ef' in H. exact H. }
    rewrite jc_d_moved. rewrite map_map. rewrite (map_ext _ (map (fun x => positions_at (jc_d c) (h x)))) by (intros xs; apply map_map).
    match goal with |- energy_val_and_grad ?a1 ?a2 ?a3 ?a4 ?nch ?cl ?ns ?sp ?ty p keys _ = energy_val_and_grad ?b1 ?b2 ?b3 ?b4 _ _ _ _ _ _ _ _ =>
      rewrite (evg_ext (fun x => positions_at (jc_d c) (h x)) long p (fun p x => b1 p (positions_at (jc_d c) x)) a1 (fun p x => b2 p (positions_at (jc_d c) x)) a2
        (fun p x => b3 p (positions_at (jc_d c) x)) a3 (fun p x => b4 p (positions_at (jc_d c) x)) a4 nch cl ns sp);
      [rewrite (evg_ext (positions_at (jc_d c)) (fun _ => True) p (fun p x => b1 p (positions_at (jc_d c) x)) b1 (fun p x => b2 p (positions_at (jc_d c) x)) b2
        (fun p x => b3 p (positions_at (jc_d c) x)) b3 (fun p x => b4 p (positions_at (jc_d c) x)) b4 nch cl ns sp); [reflexivity|reflexivity..|] | .. |exact HF] end.
    - apply Forall_forall. intros xs _. apply Forall_forall. intros x _. exact Logic.I.
    - intros x Hx. cbv beta. f_equal. unfold real_log_psi. f_equal. apply log_psi_agree. apply positions_moved. exact Hx.
    - intros x j Hx. cbv beta. f_equal. exact (f_equal (fun F => F j) (dlog_moved p _ _ (positions_moved n d v x Hx))).
    - intros x k Hx. apply LE. apply positions_moved. exact Hx.
    - intros x j Hx. cbv beta. f_equal. apply functional_extensionality. intros p'. apply local_energy_moved. apply positions_moved. exact Hx.
  Qed.
  Lemma evg_moved p keys pos : Forall (Forall long) pos ->
    energy_data_val_and_grad perm_of split_n theta grad_p grad_px mc p keys (map (map h) pos) = energy_data_val_and_grad perm_of split_n theta grad_p grad_px c p keys pos.
  Proof. intros HF. unfold energy_data_val_and_grad. rewrite energy_moved by exact HF. reflexivity. Qed.

  Notation inv := (shaped (n * d)).
  Notation upd cc := (job_update g perm_of split_n theta grad_p grad_px opt_apply kfac param_l1_norm cc).
  Lemma optimizer_moved o gr p s datas ce : inv datas ->
    optimizer_apply theta grad_p opt_apply mc o gr p s (map (on_pa h) datas) ce = optimizer_apply theta grad_p opt_apply c o gr p s datas ce.
  Proof.
    intros HI. unfold optimizer_apply. rewrite jc_d_moved. f_equal. rewrite map_map. apply map_ext_in. intros dd Hd. cbn [pos on_pa]. rewrite map_map. apply map_ext_in. intros x Hx.
    apply dlog_moved. apply positions_moved. unfold shaped in HI. rewrite Forall_forall in HI. specialize (HI dd Hd). rewrite Forall_forall in HI. apply HI. exact Hx.
  Qed.
  Lemma kfac_type o : choose_optimiser (jc_optimizer c) = Chosen o -> (exists a b, o = Kfac a b) -> oc_type (jc_optimizer c) = "kfac"%string.
  Proof.
    intros E (a & b & ->). revert E. unfold choose_optimiser, get_sr. destruct (section_schedule _ _); [|discriminate]. destruct (learning_rate_schedule _ _ _); [|discriminate].
    destruct (String.eqb_spec (oc_type (jc_optimizer c)) "kfac") as [E|_]; [intros _; exact E|].
    repeat match goal with |- context [match ?x with _ => _ end] => destruct x end; discriminate.
  Qed.
  Lemma update_moved o p datas s keys : choose_optimiser (jc_optimizer c) = Chosen o -> inv datas ->
    let '(p1, d1, s1, m, k1) := upd c o p datas s keys in upd mc o p (map (on_pa h) datas) s keys = (p1, map (on_pa h) d1, s1, m, k1) /\ inv d1.
  Proof.
    intros Ho HI. rewrite !update_eq. cbv zeta.
    assert (EP : positions_of (map (on_pa h) datas) = map (map h) (positions_of datas)) by (unfold positions_of; rewrite !map_map; reflexivity).
    assert (HF : Forall (Forall long) (positions_of datas)) by (unfold positions_of; apply Forall_map; exact HI).
    rewrite EP, evg_moved by exact HF.
    destruct (energy_data_val_and_grad perm_of split_n theta grad_p grad_px c p _ (positions_of datas)) as [ed gr].
    assert (EO : opt_step theta grad_p opt_apply kfac mc o gr p s (map snd (map (split2 g) keys)) (map (on_pa h) datas) (ed_centered ed) =
                 opt_step theta grad_p opt_apply kfac c o gr p s (map snd (map (split2 g) keys)) datas (ed_centered ed)).
    { unfold opt_step. rewrite optimizer_moved by exact HI. destruct o as [a b| | |]; try reflexivity. change (map pos (map (on_pa h) datas)) with (positions_of (map (on_pa h) datas)). rewrite EP. apply Hkf.
      apply (kfac_type _ Ho). eexists _, _. reflexivity. }
    rewrite EO. destruct (opt_step theta grad_p opt_apply kfac c o gr p s _ datas (ed_centered ed)) as [p' s'].
    rewrite (update_data_map h (n * d) ma ma' model_apply_moved p' datas HI). split; [reflexivity|]. apply (update_data_shaped (n * d) ma). exact HI.
  Qed.

  (** Initial walkers. *)
  Lemma moved_app a r : length a = d -> h (a ++ r) = moved_ion v a ++ h r.
  Proof.
    intros L. unfold moved_walker, moved_ion. rewrite app_length, seq_app, map_app. f_equal.
    - apply map_ext_in. intros i Hi. apply in_seq in Hi. rewrite app_nth1 by lia. rewrite Nat.mod_small by lia. reflexivity.
    - cbn [plus]. rewrite (seq_from (length a)), map_map. apply map_ext. intros i. rewrite app_nth2 by lia. replace (length a + i - length a)%nat with i by lia.
      do 2 f_equal. rewrite L. destruct d as [|d']; [reflexivity|]. rewrite Nat.add_comm. replace (i + S d')%nat with (i + 1 * S d')%nat by lia. apply Nat.mod_add. lia.
  Qed.

  Lemma concat_moved rows : Forall (fun a => length a = d) rows -> concat (map (moved_ion v) rows) = h (concat rows).
  Proof. induction rows as [|a rows IH]; intros H; [reflexivity|]. inversion H; subst. cbn [map concat]. rewrite moved_app, IH by assumption. reflexivity. Qed.
  Lemma at_ions_moved assign : Forall (fun a => (a < length (jc_ion_pos c))%nat) assign ->
    at_ions (map (moved_ion v) (jc_ion_pos c)) assign = h (at_ions (jc_ion_pos c) assign).
  Proof.
    intros H. unfold at_ions. rewrite <- concat_moved by (apply at_ions_rows; [apply Hw|exact H]). f_equal. rewrite map_map. apply map_ext_in. intros a Ha. rewrite Forall_forall in H.
    rewrite (nth_indep _ [] (moved_ion v [])) by (rewrite map_length; apply H; exact Ha). apply map_nth.
  Qed.
  Let charges := jc_ion_charges c.
  Let ions := jc_ion_pos c.
  Let ions' := map (moved_ion v) ions.
  Lemma assign_moved m : forall k, assign_electrons g choice m ions' charges n k =
    (map h (fst (assign_electrons g choice m ions charges n k)), snd (assign_electrons g choice m ions charges n k)).
  Proof.
    induction m as [|m IH]; intros k; [reflexivity|].
    rewrite !assign_step. rewrite IH. cbn [fst snd map]. f_equal. f_equal. apply at_ions_moved.
    destruct Hw as (H1 & H2 & H3). unfold ions, charges. exact (draws_range choice Hc (jc_ion_pos c) (jc_ion_charges c) d n (eq_sym H3) H1 H2 _).
  Qed.
  Lemma initialize_moved m k w : initialize_molecular_pos g choice k m ions' charges n w =
    (fst (initialize_molecular_pos g choice k m ions charges n w), map h (snd (initialize_molecular_pos g choice k m ions charges n w))).
  Proof.
    unfold initialize_molecular_pos. rewrite assign_moved. destruct (assign_electrons g choice m ions charges n k) as [el k1]. cbn [fst snd]. destruct (split2 g k1) as [k2 k3]. cbn [fst snd]. f_equal.
    rewrite zw_map_l, map_zw, map_map. rewrite (map_ext (fun x => length (h x)) (@length R)) by (intros x; apply moved_walker_length). apply zw_ext. intros a b. apply proposal_moved.
  Qed.
  Lemma initialize_shaped m k w : Forall (fun x => length x = (n * d)%nat) (snd (initialize_molecular_pos g choice k m ions charges n w)).
  Proof.
    destruct Hw as (H1 & H2 & H3).
    pose proof (initialize_spec g choice Hg Hc ions charges d n (eq_sym H3) H1 H2 w m k) as [_ H]. eapply Forall_impl; [|exact H]. intros x (assign & noise & (L & _) & _). exact L.
  Qed.

  Notation ini := (fun (k : K) (x : list (list R)) => init_params k (map (@length R) x)).
  Notation setup cc := (setup_walkers g choice (model_apply theta cc) ini device_keys ndev (jc_walk cc) (jc_ion_pos cc) (jc_ion_charges cc) (jc_n cc)).
  Lemma setup_moved k : setup mc k = option_map (fun r => (fst (fst r), map (on_pa h) (snd (fst r)), snd r)) (setup c k) /\
    match setup c k with Some (_, datas, _) => inv datas | None => True end.
  Proof.
    unfold setup_walkers. change (jc_walk mc) with (jc_walk c). change (jc_ion_pos mc) with ions'. change (jc_ion_charges mc) with charges. change (jc_n mc) with n.
    rewrite initialize_moved. pose proof (initialize_shaped (wc_nchains (jc_walk c)) k 1) as HS.
    change (jc_ion_pos c) with ions. change (jc_ion_charges c) with charges. change (jc_n c) with n.
    destruct (initialize_molecular_pos g choice k (wc_nchains (jc_walk c)) ions charges n 1) as [k1 xs]. cbn [fst snd] in *. destruct (split2 g k1) as [k2 k3].
    rewrite firstn_map, map_map. rewrite (map_ext (fun x => length (h x)) (@length R)) by (intros x; apply moved_walker_length).
    destruct (initial_map h (n * d) ma ma' model_apply_moved ndev (wc_std (jc_walk c)) xs (init_params k3 (map (@length R) (firstn 1 xs))) HS) as [E H]. rewrite E.
    destruct (make_initial_data ma ndev (wc_std (jc_walk c)) xs _) as [datas|]; split; try reflexivity; exact H.
  Qed.
  Notation newd cc := (make_new_data_for_eval g choice (model_apply theta cc) device_keys ndev (jc_eval_walk cc) (jc_ion_pos cc) (jc_ion_charges cc) (jc_n cc)).
  Lemma new_data_moved p k : newd mc p k = option_map (fun r => (map (on_pa h) (fst r), snd r)) (newd c p k) /\
    match newd c p k with Some (datas, _) => inv datas | None => True end.
  Proof.
    unfold make_new_data_for_eval. destruct (get_first k) as [k0|]; [|split; [reflexivity|exact Logic.I]].
    change (jc_eval_walk mc) with (jc_eval_walk c). change (jc_ion_pos mc) with ions'. change (jc_ion_charges mc) with charges. change (jc_n mc) with n.
    rewrite initialize_moved. pose proof (initialize_shaped (wc_nchains (jc_eval_walk c)) k0 1) as HS.
    change (jc_ion_pos c) with ions. change (jc_ion_charges c) with charges. change (jc_n c) with n.
    destruct (initialize_molecular_pos g choice k0 (wc_nchains (jc_eval_walk c)) ions charges n 1) as [k1 xs]. cbn [fst snd] in *.
    destruct (initial_map h (n * d) ma ma' model_apply_moved ndev (wc_std (jc_eval_walk c)) xs p HS) as [E H]. rewrite E.
    destruct (make_initial_data ma ndev (wc_std (jc_eval_walk c)) xs p) as [datas|]; split; try reflexivity; exact H.
  Qed.
  Lemma eval_traces_moved p : eval_energy_traces theta mc p = eval_energy_traces theta c p.
  Proof.
    unfold eval_energy_traces. change (jc_eval_energy mc) with (jc_eval_energy c).
    pose proof (assembled_moved (jc_eval_energy c) p (fun _ _ => 0) (shifted v (fun _ _ => 0)) (fun _ _ _ _ => eq_refl)) as H.
    destruct (assemble_mol_local_energy_fn (molecule_of c) (jc_eval_energy c) _) as [[f|f]|] eqn:E; destruct (assemble_mol_local_energy_fn (molecule_of mc) (jc_eval_energy c) _) as [[f'|f']|] eqn:E'; try contradiction; try reflexivity.
    apply (traces_moved _ p _ _ E E').
  Qed.
  Lemma eval_energies_moved p datas : inv datas -> eval_local_energies perm_of theta mc p (map (on_pa h) datas) = eval_local_energies perm_of theta c p datas.
  Proof.
    intros HI. unfold eval_local_energies. rewrite jc_d_moved. f_equal. rewrite map_map. apply map_ext_in. intros dd Hd. cbn [pos on_pa]. rewrite map_map. apply map_ext_in. intros x Hx.
    apply local_energy_moved. apply positions_moved. unfold shaped in HI. rewrite Forall_forall in HI. specialize (HI dd Hd). rewrite Forall_forall in HI. apply HI. exact Hx.
  Qed.
  Lemma accepts_moved p x : length x = (n * d)%nat -> model_accepts theta mc p (h x) = model_accepts theta c p x.
  Proof. intros L. unfold model_accepts. apply accepts_shift. rewrite jc_d_moved. apply positions_moved. exact L. Qed.

  Notation build cc := (build_job g choice perm_of split_n device_keys ndev theta init_params grad_p grad_px opt_init opt_apply kfac has_nan param_l1_norm summary cc).
  Lemma amplitude_moved datas : amplitude_range (map (on_pa h) datas) = amplitude_range datas.
  Proof. unfold amplitude_range. rewrite map_map. reflexivity. Qed.
  Lemma data_nonempty k p datas keys : (0 < wc_nchains (jc_walk c))%nat -> setup c k = Some (p, datas, keys) -> exists x, In x (concat (map pos datas)).
  Proof.
    intros Hch E. unfold setup_walkers in E. destruct Hw as (H1 & H2 & H3).
    pose proof (initialize_spec g choice Hg Hc ions charges d n (eq_sym H3) H1 H2 1 (wc_nchains (jc_walk c)) k) as [L _].
    change (jc_ion_pos c) with ions in E. change (jc_ion_charges c) with charges in E. change (jc_n c) with n in E. cbv zeta in L.
    destruct (initialize_molecular_pos g choice k (wc_nchains (jc_walk c)) ions charges n 1) as [k1 xs]. cbn [snd] in L. destruct (split2 g k1) as [k2 k3].
    destruct (Nat.eq_dec ndev 0) as [E0|E0].
    { exfalso. revert E. unfold make_initial_data, reshape_data_leaves_for_distribution. rewrite E0. destruct (length xs); [lia|]. cbn. discriminate. }
    rewrite (make_initial_spec (fun p x => log_psi_at theta c p (positions_at (jc_d c) x))) in E by (reflexivity || lia).
    destruct (Nat.eqb_spec (length xs mod ndev) 0) as [Em|]; [|discriminate]. injection E as _ <- _. rewrite map_map. cbn [pos]. rewrite map_id.
    rewrite P_distribute.chunks_concat by (pose proof (Nat.div_mod (length xs) ndev E0); lia). destruct xs as [|x xs]; [cbn in L; lia|]. exists x. left. reflexivity.
  Qed.
  Theorem jobs_moved k : (0 < wc_nchains (jc_walk c))%nat ->
    match build c k, build mc k with
    | Some j, Some j' => jobs_match (map (on_pa h)) inv j j'
    | None, None => True
    | _, _ => False
    end.
  Proof.
    intros Hch. unfold build_job. destruct (setup_moved k) as [E HI]. rewrite E. pose proof (data_nonempty k) as NE. destruct (setup c k) as [[[p0 datas] keys]|]; [|exact Logic.I]. cbn [option_map fst snd].
    change (jc_optimizer mc) with (jc_optimizer c). destruct (choose_optimiser (jc_optimizer c)) as [o|e] eqn:Ho; [|exact Logic.I].
    specialize (NE p0 datas keys Hch eq_refl).
    assert (E1 : hd [] (concat (map pos (map (on_pa h) datas))) = h (hd [] (concat (map pos datas)))).
    { rewrite map_map. cbn [pos on_pa]. rewrite <- map_map, <- concat_map. destruct (concat (map pos datas)); reflexivity. }
    assert (L1 : length (hd [] (concat (map pos datas))) = (n * d)%nat).
    { assert (FC : Forall long (concat (map pos datas))). { apply Forall_concat. apply Forall_map. exact HI. } destruct (concat (map pos datas)) as [|x l]; [destruct NE as [? []]|]. inversion FC; assumption. }
    assert (E2 : map pos (map (on_pa h) datas) = map (map h) (map pos datas)) by (rewrite !map_map; reflexivity).
    assert (HF : Forall (Forall long) (map pos datas)) by (apply Forall_map; exact HI).
    rewrite E1, E2, accepts_moved, energy_moved, eval_traces_moved by assumption. change (new_eval_walkers mc) with (new_eval_walkers c). change (jc_eval_walk mc) with (jc_eval_walk c).
    assert (EIO : init_optimizer g opt_init kfac o p0 (map (on_pa h) datas) keys = init_optimizer g opt_init kfac o p0 datas keys).
    { unfold init_optimizer. destruct o as [a b| | |]; try reflexivity. rewrite E2. cbv zeta. f_equal. apply Hkf. apply (kfac_type _ Ho). eexists _, _. reflexivity. }
    rewrite EIO. cbv zeta. destruct (init_optimizer g opt_init kfac o p0 datas keys) as [s0 keys0].
    destruct (_ && _); [|exact Logic.I]. cbv beta zeta.
    constructor; cbn [j_ndev j_init j_burn j_walk j_update j_has_nan j_cfg j_nepochs j_use_training_data j_eval_nchains j_new_data j_eval_burn j_eval_walk j_local_energies j_statistics j_eval_amplitudes j_record_local_energies j_eval_nepochs j_summary]; try reflexivity.
    all: try (split; [reflexivity|exact HI]).
    all: try (intros p dd kk HD; exact (walker_map g h (n * d) Hg (moved_walker_length d v) (proposal_moved d v) ma ma' model_apply_moved ndev _ _ dd kk HD)).
    all: try (intros p dd kk HD; exact (burn_map g h (n * d) Hg (moved_walker_length d v) (proposal_moved d v) ma ma' model_apply_moved _ _ dd kk HD)).
    all: try (intros ff [= <-] dd; apply amplitude_moved).
    all: try (intros p dd HD; apply eval_energies_moved; exact HD).
    all: try (intros p dd s kk HD; match goal with |- context [job_update g perm_of split_n theta grad_p grad_px opt_apply kfac param_l1_norm c ?o ?a dd ?b kk] =>
      pose proof (update_moved o a dd b kk Ho HD) as HU; destruct (job_update g perm_of split_n theta grad_p grad_px opt_apply kfac param_l1_norm c o a dd b kk) as [[[[p1 d1] s1] m1] k1]; destruct HU as [-> HD1]; split; [reflexivity|exact HD1] end).
    all: intros p kk; destruct (new_data_moved (hd p0 p) kk) as [EN HN]; change (jc_eval_walk mc) with (jc_eval_walk c) in EN; rewrite EN; destruct (newd c (hd p0 p) kk) as [[d1 k1]|]; (split; [reflexivity|exact HN || constructor]).
  Qed.
End Moved.

(** * Theorems about the walkers a job starts with: C75 *)
From Coq Require Import String Reals List Arith Bool Lia Lra.
From Verif Require Import XReal M_io M_vmc M_mcmc M_distribute M_optim M_keys M_start S_mcmc S_start P_mcmc P_walkers P_distribute P_keys P_optim3 P_start.
Import ListNotations.
Local Open Scope R_scope.

(** ** C75 *)
(** Every initial walker is a set of electrons sitting at ions, each displaced by [width] times its own noise; with no more
    electrons than ions, no ion gets two electrons of one walker. *)
Theorem C75_initial_positions : forall (K : Type) (g : prng K) choice, good_prng g -> good_choice choice ->
  forall (ions : list (list R)) (charges : list R) d, length ions = length charges -> ions <> [] -> Forall (fun r => length r = d) ions ->
  forall key nchains nelec width,
  let xs := snd (initialize_molecular_pos g choice key nchains ions charges nelec width) in
  length xs = nchains /\
  Forall (fun x => exists assign noise, around_ions width ions d nelec assign noise x /\ ((nelec <= length ions)%nat -> NoDup assign)) xs.
Proof.
  intros K g choice Hg Hc ions charges d Hl Hn Hd key nchains nelec width.
  exact (initialize_spec g choice Hg Hc ions charges d nelec Hl Hn Hd width nchains key).
Qed.
Print Assumptions C75_initial_positions.

(** Which draw goes where: chain [i] is assigned by its own key, the noise is drawn once with a further key, these keys and
    the returned one are those of the key model, and none is derived from another. *)
Theorem C75_draws : forall (g : prng key) choice, (forall k, split2 g k = key_split2 k) ->
  forall ions charges nelec width k nchains,
  let used := fst (initialize_molecular_pos_keys nchains k) in
  let r := initialize_molecular_pos g choice k nchains ions charges nelec width in
  let assign i := choice (nth i used []) (length charges) nelec (Nat.ltb (length charges) nelec) (map (fun z => z / fold_right Rplus 0 charges) charges) in
  let centres := map (fun i => concat (map (fun a => nth a ions []) (assign i))) (seq 0 nchains) in
  fst r = snd (initialize_molecular_pos_keys nchains k) /\ length used = S nchains /\ independent (used ++ [fst r]) /\
  snd r = zipw (moved width) centres (normal g (nth nchains used []) (map (@length R) centres)).
Proof.
  intros g choice Hs ions charges nelec width k nchains used r assign centres.
  pose proof (kok_init nchains k) as (HI & _ & _).
  assert (B : negb (Nat.leb nelec (length charges)) = Nat.ltb (length charges) nelec).
  { unfold Nat.ltb. destruct (Nat.leb_spec nelec (length charges)), (Nat.leb_spec (S (length charges)) nelec); try reflexivity; lia. }
  pose (A := fun kk : key => concat (map (fun a => nth a ions []) (choice kk (length charges) nelec (negb (Nat.leb nelec (length charges))) (map (fun z => z / fold_right Rplus 0 charges) charges)))).
  assert (HA : forall n k0, assign_electrons g choice n ions charges nelec k0 = (map A (fst (kloop n use_subkey k0)), snd (kloop n use_subkey k0)) /\ length (fst (kloop n use_subkey k0)) = n).
  { induction n as [|n IH]; intros k0; [split; reflexivity|].
    assert (EU : kloop (S n) use_subkey k0 = let (v, k') := kloop n use_subkey (SplitOp 2 0 :: k0) in ((SplitOp 2 1 :: k0) :: v, k')) by reflexivity.
    rewrite EU. clear EU. cbn [assign_electrons]. rewrite Hs. unfold key_split2.
    destruct (IH (SplitOp 2 0 :: k0)) as [I1 I2]. rewrite I1. destruct (kloop n use_subkey (SplitOp 2 0 :: k0)) as [u k1]. cbn in *. split; [reflexivity | lia]. }
  destruct (HA nchains k) as [HA1 HA2].
  unfold r, initialize_molecular_pos. rewrite HA1. unfold used, initialize_molecular_pos_keys, kseq in *.
  destruct (kloop nchains use_subkey k) as [u k1] eqn:EK. cbn [fst snd] in *. rewrite Hs. unfold use_subkey in *. unfold key_split2 in *. cbn [fst snd] in *.
  split; [reflexivity|]. split; [rewrite app_length; cbn; lia|]. split; [exact HI|].
  assert (EC : map A u = centres).
  { unfold centres. apply list_ext. intros i. rewrite !nth_error_map'. destruct (Nat.ltb_spec i nchains) as [Hi|Hi].
    - rewrite (nth_error_nth' (seq 0 nchains) O) by (rewrite seq_length; exact Hi). rewrite seq_nth by exact Hi. cbn [option_map plus].
      rewrite (nth_error_nth' u []) by lia. cbn [option_map]. f_equal. unfold A, assign, used. rewrite B. cbn [fst]. rewrite app_nth1 by lia. reflexivity.
    - rewrite !(proj2 (nth_error_None _ _)); [reflexivity | rewrite seq_length; lia | lia]. }
  rewrite EC. rewrite app_nth2 by lia. rewrite HA2, Nat.sub_diag. reflexivity.
Qed.
Print Assumptions C75_draws.

(** Setting up a job fails exactly when the walkers do not divide evenly over the devices.  Otherwise all initial walkers are
    there, in order, spread evenly; their amplitudes are those of the initial parameters; the step width is the configured one. *)
Theorem C75_initial_walkers : forall (P K : Type) (g : prng K) choice (psi : P -> list R -> xr) model_apply init_params device_keys ndev,
  good_prng g -> good_choice choice -> (forall p xs, model_apply p xs = map (psi p) xs) -> (0 < ndev)%nat ->
  forall ions charges d, length ions = length charges -> ions <> [] -> Forall (fun r => length r = d) ions ->
  forall c nelec key,
  let start := initialize_molecular_pos g choice key (wc_nchains c) ions charges nelec 1 in
  match setup_walkers g choice model_apply init_params device_keys ndev c ions charges nelec key with
  | None => (wc_nchains c mod ndev <> 0)%nat
  | Some (params, datas, keys) => (wc_nchains c mod ndev = 0)%nat /\
      params = init_params (snd (split2 g (fst start))) (firstn 1 (snd start)) /\ keys = device_keys (fst (split2 g (fst start))) /\
      concat (map pos datas) = snd start /\ Forall (fun da => meta da = {| std_move := wc_std c; acc_sum := 0; moves := 0 |}) datas /\
      (0 < wc_std c -> in_order psi ndev (wc_nchains c / ndev) (nelec * d) params datas)
  end.
Proof.
  intros P K g choice psi model_apply init_params device_keys ndev Hg Hc Hm Hnd ions charges d Hl Hn Hd c nelec key start.
  pose proof (C75_initial_positions K g choice Hg Hc ions charges d Hl Hn Hd key (wc_nchains c) nelec 1) as [HL HF]. cbv zeta in HL, HF. fold start in HL, HF.
  unfold setup_walkers. fold start. destruct start as [k1 xs]. cbn [fst snd] in *. destruct (split2 g k1) as [k2 k3]. cbn [fst snd].
  rewrite (make_initial_spec psi model_apply Hm) by exact Hnd. rewrite HL.
  destruct (Nat.eqb_spec (wc_nchains c mod ndev) 0) as [E|E]; [|exact E].
  assert (HM : (length xs mod ndev = 0)%nat) by (rewrite HL; exact E). pose proof (reshape_some ndev xs Hnd HM) as ES.
  split; [exact E|]. split; [reflexivity|]. split; [reflexivity|]. split.
  { rewrite map_map. cbn. rewrite map_id. apply chunks_concat. rewrite <- HL. exact ES. }
  split.
  { apply Forall_forall. intros da Hda. apply in_map_iff in Hda. destruct Hda as (s & <- & _). reflexivity. }
  intros Hstd. rewrite <- HL. apply (initial_in_order psi); [exact Hnd | exact Hstd | exact HM|].
  eapply Forall_impl; [|exact HF]. intros x (as' & nz & (Q & _) & _). exact Q.
Qed.
Print Assumptions C75_initial_walkers.

(** The same for fresh evaluation walkers: they belong to the parameters they are made for, and the keys of the job are
    replaced by keys made from the first device's key. *)
Theorem C75_new_eval_walkers : forall (P K : Type) (g : prng K) choice (psi : P -> list R -> xr) model_apply device_keys ndev,
  good_prng g -> good_choice choice -> (forall p xs, model_apply p xs = map (psi p) xs) -> (0 < ndev)%nat ->
  forall ions charges d, length ions = length charges -> ions <> [] -> Forall (fun r => length r = d) ions ->
  forall c nelec params key others,
  let start := initialize_molecular_pos g choice key (wc_nchains c) ions charges nelec 1 in
  match make_new_data_for_eval g choice model_apply device_keys ndev c ions charges nelec params (key :: others) with
  | None => (wc_nchains c mod ndev <> 0)%nat
  | Some (datas, keys) => (wc_nchains c mod ndev = 0)%nat /\ keys = device_keys (fst start) /\
      concat (map pos datas) = snd start /\ Forall (fun da => meta da = {| std_move := wc_std c; acc_sum := 0; moves := 0 |}) datas /\
      (0 < wc_std c -> in_order psi ndev (wc_nchains c / ndev) (nelec * d) params datas)
  end.
Proof.
  intros P K g choice psi model_apply device_keys ndev Hg Hc Hm Hnd ions charges d Hl Hn Hd c nelec params key others start.
  pose proof (C75_initial_positions K g choice Hg Hc ions charges d Hl Hn Hd key (wc_nchains c) nelec 1) as [HL HF]. cbv zeta in HL, HF. fold start in HL, HF.
  unfold make_new_data_for_eval. cbn [get_first hd_error]. fold start. destruct start as [k1 xs]. cbn [fst snd] in *.
  rewrite (make_initial_spec psi model_apply Hm) by exact Hnd. rewrite HL.
  destruct (Nat.eqb_spec (wc_nchains c mod ndev) 0) as [E|E]; [|exact E].
  assert (HM : (length xs mod ndev = 0)%nat) by (rewrite HL; exact E). pose proof (reshape_some ndev xs Hnd HM) as ES.
  split; [exact E|]. split; [reflexivity|]. split.
  { rewrite map_map. cbn. rewrite map_id. apply chunks_concat. rewrite <- HL. exact ES. }
  split.
  { apply Forall_forall. intros da Hda. apply in_map_iff in Hda. destruct Hda as (s & <- & _). reflexivity. }
  intros Hstd. rewrite <- HL. apply (initial_in_order psi); [exact Hnd | exact Hstd | exact HM|].
  eapply Forall_impl; [|exact HF]. intros x (as' & nz & (Q & _) & _). exact Q.
Qed.
Print Assumptions C75_new_eval_walkers.

(** A whole training job, from the seed through initialisation, burn-in and any number of epochs: the walkers it returns and
    those of every checkpoint it writes are complete, well-shaped, belong to the parameters stored with them, and share one
    positive step width. *)
Theorem C75_training_from_start : forall (P K St Gr : Type) (g : prng K) choice (psi : P -> list R -> xr) model_apply init_params device_keys ndev
    energy_fn (apply : Gr -> P -> St -> list (padata move_metadata) -> list (list xr) -> P * St) kfac l1 rec_l1 init_opt has_nan vc nepochs update,
  good_prng g -> good_choice choice -> (forall p xs, model_apply p xs = map (psi p) xs) -> (0 < ndev)%nat -> (forall k, length (device_keys k) = ndev) ->
  (update = grad_update_param_fn g model_apply energy_fn apply l1 rec_l1 \/ update = kfac_update_param_fn g model_apply l1 kfac rec_l1) ->
  forall ions charges d, length ions = length charges -> ions <> [] -> Forall (fun r => length r = d) ions ->
  forall c nelec key, 0 < wc_std c -> (wc_nchains c mod ndev = 0)%nat ->
  let fine (p : P) datas := in_order psi ndev (wc_nchains c / ndev) (nelec * d) p datas in
  match train_from_start g choice model_apply init_params device_keys ndev update init_opt has_nan vc nepochs c ions charges nelec key with
  | None => False
  | Some (Finished p' _ datas' _ _ ckpts _) => fine p' datas' /\ Forall (fun w => fine (c_params (snd w)) (c_data (snd w))) ckpts
  | Some (Raised _ ckpts _) => Forall (fun w => fine (c_params (snd w)) (c_data (snd w))) ckpts
  end.
Proof.
  intros P K St Gr g choice psi model_apply init_params device_keys ndev energy_fn apply kfac l1 rec_l1 init_opt has_nan vc nepochs update
    Hg Hc Hm Hnd Hk Hup ions charges d Hl Hn Hd c nelec key Hstd HM fine.
  pose proof (C75_initial_positions K g choice Hg Hc ions charges d Hl Hn Hd key (wc_nchains c) nelec 1) as [HL HF]. cbv zeta in HL, HF.
  unfold train_from_start, setup_walkers. destruct (initialize_molecular_pos g choice key (wc_nchains c) ions charges nelec 1) as [k1 xs]. cbn [fst snd] in *.
  destruct (split2 g k1) as [k2 k3]. rewrite (make_initial_spec psi model_apply Hm) by exact Hnd. rewrite HL, HM. cbn [Nat.eqb].
  set (p0 := init_params k3 (firstn 1 xs)).
  assert (HF' : Forall (fun x => length x = (nelec * d)%nat) xs) by (eapply Forall_impl; [|exact HF]; intros x (as' & nz & (Q & _) & _); exact Q).
  pose proof (initial_inv psi ndev (wc_nchains c / ndev) (nelec * d) (wc_std c) xs p0 (device_keys k2) Hnd Hstd ltac:(rewrite HL; exact HM) HF' ltac:(rewrite HL; reflexivity) (Hk k2)) as I0.
  rewrite HL in I0.
  pose proof (burn_inv g psi model_apply Hg Hm (wc_nmoves c) ndev (wc_nchains c / ndev) (nelec * d) (wc_nburn c) p0 _ _ I0) as I1. cbv zeta in I1.
  unfold burn_in. destruct (burn_data _ _ _ _ _) as [d1 ks1]. cbn [fst snd] in I1.
  pose (J := fun (p : P) ds (s : St) (ks : list K) => inv psi ndev (wc_nchains c / ndev) (nelec * d) p ds ks).
  assert (V := vmc_J (run_walker g model_apply ndev c) update has_nan J).
  specialize (V ltac:(intros p2 d2 s2 ks2 H2; exact (walker_inv g psi model_apply Hg Hm (wc_nmoves c) ndev (wc_nchains c / ndev) (nelec * d) (wc_nsteps c) p2 d2 ks2 H2))).
  assert (JU : forall p ds s ks, J p ds s ks -> let '(p', d', s', _, k') := update p ds s ks in J p' d' s' k').
  { intros p2 d2 s2 ks2 H2. assert (L2 : length ks2 = ndev) by apply H2. destruct Hup as [-> | ->].
    - unfold grad_update_param_fn. destruct (energy_fn p2 _ _) as [ed gr]. destruct (apply gr p2 s2 d2 _) as [p3 s3].
      eapply update_inv; [exact Hm | exact H2 | rewrite !map_length; exact L2].
    - unfold kfac_update_param_fn. destruct (kfac p2 s2 _ _) as [[p3 s3] ed]. eapply update_inv; [exact Hm | exact H2 | rewrite !map_length; exact L2]. }
  specialize (V JU vc 0%nat nepochs p0 (init_opt p0) d1 ks1 I1).
  assert (F : forall cs : list (ckpt_write P (list (padata move_metadata)) St (list K)), Forall (fun w => Jc J (snd w)) cs ->
     Forall (fun w => fine (c_params (snd w)) (c_data (snd w))) cs) by (intros cs; apply Forall_impl; intros w Q; eapply inv_in_order; exact Q).
  destruct (vmc_loop _ _ _ _ _ _ _ _ _ _) as [p' o' d' k' nans cs ms | e cs ms].
  - destruct V as [V1 V2]. split; [eapply inv_in_order; exact V1 | apply F; exact V2].
  - apply F. exact V.
Qed.
Print Assumptions C75_training_from_start.

(** The hypotheses are met: a hydrogen molecule with two electrons and four walkers on two devices, four burn-in steps and
    three epochs of a gradient update; one walker of the set-up is computed. *)
Definition ex_choice : choice_fn nat := fun k n m rep p => if rep then repeat O m else seq 0 m.
Definition ex_prng : prng nat := {| split2 := fun k => (2 * k, 2 * k + 1)%nat; uniform := fun _ n => repeat (/ 2) n; normal := fun _ shape => map (repeat 1) shape |}.
Definition ex_psi (p : R) (x : list R) : xr := Fin (p * fold_right Rplus 0 x).
Definition ex_energy (p : R) (ks : list nat) (xs : list (list (list R))) : energy_data * unit :=
  ({| ed_energy := Fin 0; ed_variance := Fin 1; ed_energy_noclip := None; ed_variance_noclip := None; ed_centered := [] |}, tt).

Lemma ex_prng_good : good_prng ex_prng.
Proof.
  constructor; simpl; intros.
  - apply repeat_length.
  - apply repeat_spec in H. subst. lra.
  - rewrite map_map. rewrite (map_ext _ (fun x => x)); [apply map_id|]. intros; apply repeat_length.
Qed.
Lemma ex_choice_good : good_choice ex_choice.
Proof.
  unfold ex_choice. constructor; intros.
  - destruct rep; [apply repeat_length | apply seq_length].
  - destruct rep; [apply repeat_spec in H1; subst; exact H|]. apply in_seq in H1. destruct H0; [discriminate | lia].
  - apply seq_NoDup.
Qed.

Definition ex_walk : walk_cfg := {| wc_nchains := 4; wc_nburn := 4; wc_nsteps := 2; wc_nmoves := 3; wc_std := 1 / 4 |}.
Definition h2 : list (list R) := [[0; 0; 0]; [0; 0; 14 / 10]].

Lemma ex_finishes (w : R -> list (padata move_metadata) -> list nat -> xr * list (padata move_metadata) * list nat) p d k :
  match vmc_loop w (grad_update_param_fn ex_prng (fun p => map (ex_psi p)) ex_energy (fun _ p s _ _ => (p + 1, s)) (fun _ => Fin 0) false) (fun _ => false)
       (eval_run_cfg None false None 4) 0 3 p tt d k with Finished _ _ _ _ _ _ _ => True | Raised _ _ _ => False end.
Proof.
  unfold vmc_loop. cbn [Nat.sub loop]. unfold epoch_step. cbn [v_params v_data v_opt v_key v_cs v_nans].
  destruct (w p d k) as [[a1 e1] l1]. unfold grad_update_param_fn, ex_energy. cbn.
  destruct (w _ _ _) as [[a2 e2] l2]. cbn. destruct (w _ _ _) as [[a3 e3] l3]. cbn. exact Logic.I.
Qed.

Lemma ex_job_finishes (g : prng nat) choice ma ip dk ndev c ions charges nelec key :
  match train_from_start g choice ma ip dk ndev
     (grad_update_param_fn ex_prng (fun p => map (ex_psi p)) ex_energy (fun _ p s _ _ => (p + 1, s)) (fun _ => Fin 0) false) (fun _ => tt) (fun _ => false)
     (eval_run_cfg None false None 4) 3 c ions charges nelec key with Some (Raised _ _ _) => False | _ => True end.
Proof.
  unfold train_from_start. destruct (setup_walkers _ _ _ _ _ _ _ _ _ _ _) as [[[p ds] ks]|]; [|exact Logic.I]. destruct (burn_in _ _ _ _ _ _) as [d1 k1].
  pose proof (ex_finishes (run_walker g ma ndev c) p d1 k1) as E. destruct (vmc_loop _ _ _ _ _ _ _ _ _ _); [exact Logic.I | exact E].
Qed.

Example C75_example :
  (exists rest key', initialize_molecular_pos ex_prng ex_choice 1%nat 4 h2 [1; 1] 2 (1 / 2) = (key', [0 + 1 / 2 * 1; 0 + 1 / 2 * 1; 0 + 1 / 2 * 1; 0 + 1 / 2 * 1; 0 + 1 / 2 * 1; 14 / 10 + 1 / 2 * 1] :: rest)) /\
  setup_walkers ex_prng ex_choice (fun p => map (ex_psi p)) (fun _ _ => 1) (fun k => [k; S k; S (S k)]) 3 ex_walk h2 [1; 1] 2 1%nat = None /\
  match train_from_start ex_prng ex_choice (fun p => map (ex_psi p)) (fun _ _ => 1) (fun k => [k; S k]) 2
     (grad_update_param_fn ex_prng (fun p => map (ex_psi p)) ex_energy (fun _ p s _ _ => (p + 1, s)) (fun _ => Fin 0) false) (fun _ => tt) (fun _ => false)
     (eval_run_cfg None false None 4) 3 ex_walk h2 [1; 1] 2 1%nat with
  | Some (Finished p' _ datas' _ _ _ _) => in_order ex_psi 2 2 6 p' datas'
  | _ => False
  end.
Proof.
  split; [do 2 eexists; cbn; reflexivity|]. split; [reflexivity|].
  pose proof (C75_training_from_start R nat unit unit ex_prng ex_choice ex_psi (fun p => map (ex_psi p)) (fun _ _ => 1) (fun k => [k; S k]) 2
    ex_energy (fun _ p s _ _ => (p + 1, s)) (fun p s _ _ => (p, s, fst (ex_energy p [] []))) (fun _ => Fin 0) false (fun _ => tt) (fun _ => false)
    (eval_run_cfg None false None 4) 3 _ ex_prng_good ex_choice_good ltac:(reflexivity) ltac:(lia) ltac:(reflexivity) (or_introl eq_refl)
    h2 [1; 1] 3%nat eq_refl ltac:(discriminate) ltac:(repeat constructor) ex_walk 2%nat 1%nat ltac:(cbn; lra) eq_refl) as H.
  pose proof (ex_job_finishes ex_prng ex_choice (fun p => map (ex_psi p)) (fun _ _ => 1) (fun k => [k; S k]) 2 ex_walk h2 [1; 1] 2%nat 1%nat) as E.
  revert H E. generalize (train_from_start ex_prng ex_choice (fun p => map (ex_psi p)) (fun _ _ => 1) (fun k => [k; S k]) 2
     (grad_update_param_fn ex_prng (fun p => map (ex_psi p)) ex_energy (fun _ p s _ _ => (p + 1, s)) (fun _ => Fin 0) false) (fun _ => tt) (fun _ => false)
     (eval_run_cfg None false None 4) 3 ex_walk h2 [1; 1] 2%nat 1%nat).
  intros r H E. destruct r as [[p' o' d' k' nans cs ms | e cs ms]|]; [exact (proj1 H) | exact E | exact H].
Qed.

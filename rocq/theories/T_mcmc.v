(** * Property theorems C17 - C23: Metropolis sampling *)
From Coq Require Import Reals List Bool Arith Lra Lia.
From Verif Require Import XReal Rsum M_mcmc M_keys S_mcmc P_mcmc P_balance P_walkers P_width P_keys.
Import ListNotations.
Local Open Scope R_scope.

(** C17.  The acceptance probabilities of a batch of finite amplitudes are, walker by walker,
    min(1, |psi'/psi|^2) (1 at a node), in both modes, and lie in [0,1]; log|psi| in log mode gives
    the same numbers as psi in plain mode, when the amplitudes are not zero. *)
Theorem C17_acceptance : forall old new : list R,
  metropolis_symmetric_acceptance false (map Fin old) (map Fin new) = map Fin (zipw metropolis_ratio old new) /\
  metropolis_symmetric_acceptance true (map Fin old) (map Fin new)
    = map Fin (zipw metropolis_ratio (map exp old) (map exp new)) /\
  (forall a b, 0 <= metropolis_ratio a b <= 1) /\
  ((forall a, In a old \/ In a new -> a <> 0) ->
   metropolis_symmetric_acceptance true (map (fun a => Fin (ln (Rabs a))) old) (map (fun a => Fin (ln (Rabs a))) new)
   = metropolis_symmetric_acceptance false (map Fin old) (map Fin new)).
Proof.
  intros old new. split; [|split; [|split]].
  - apply zipw_map. intros; apply accept_plain_ratio.
  - transitivity (map Fin (zipw (fun a b => metropolis_ratio (exp a) (exp b)) old new)).
    + apply zipw_map. intros; apply accept_log_ratio.
    + f_equal. rewrite <- (map_id (zipw (fun a b => _) old new)). symmetry.
      apply (zipw_map metropolis_ratio (fun a b => metropolis_ratio (exp a) (exp b)) exp exp (fun x => x)). reflexivity.
  - apply ratio_range.
  - intros H. transitivity (map Fin (zipw metropolis_ratio old new)).
    + apply zipw_map. intros a b Ha Hb. rewrite accept_modes_agree by auto. apply accept_plain_ratio.
    + symmetry. apply zipw_map. intros; apply accept_plain_ratio.
Qed.
Print Assumptions C17_acceptance.

(** psi: 2 -> 1, 1 -> 2, 0 -> 3 are accepted with probability 1/4, 1, 1. *)
Example C17_example :
  metropolis_symmetric_acceptance false (map Fin [2; 1; 0]) (map Fin [1; 2; 3]) = [Fin (/ 4); Fin 1; Fin 1].
Proof.
  rewrite (proj1 (C17_acceptance _ _)). cbn [zipw map]. unfold metropolis_ratio.
  destruct (Req_EM_T 2 0); [lra|]. destruct (Req_EM_T 1 0); [lra|]. destruct (Req_EM_T 0 0); [|lra].
  rewrite Rmin_right, Rmin_left by (simpl; lra). repeat f_equal. field.
Qed.

(** C18.  Let [q] be a symmetric proposal on the states 0..n-1 and let [a i j] be the probability
    (over the uniform number) that the code accepts the move from amplitude [psi i] to [psi j].
    Then the chain is in detailed balance with |psi|^2, and |psi|^2 is unchanged by any number of
    steps.  Plain mode: real amplitudes, zeros allowed.  Log mode: log amplitudes, -inf allowed. *)
Theorem C18_stationary_plain : forall n q (psi : nat -> R) a, symmetric_proposal n q ->
  (forall i j, (i < n)%nat -> (j < n)%nat ->
     yes_probability (fun u => accepts u (accept_plain (Fin (psi i)) (Fin (psi j)))) (a i j)) ->
  let t := transition n q a in
  let w i := psi i ^ 2 in
  (forall i j, (i < n)%nat -> (j < n)%nat -> w i * t i j = w j * t j i) /\
  (forall i, (i < n)%nat -> Rsum n (t i) = 1) /\
  forall steps j, (j < n)%nat -> push_n n t steps w j = w j.
Proof.
  intros n q psi a Hq Ha t w.
  assert (DB : forall i j, (i < n)%nat -> (j < n)%nat -> w i * a i j = w j * a j i).
  { intros i j Hi Hj.
    rewrite (yes_probability_unique _ _ _ (Ha i j Hi Hj) (accepts_probability _)).
    rewrite (yes_probability_unique _ _ _ (Ha j i Hj Hi) (accepts_probability _)).
    unfold w. rewrite <- !Rsqr_pow2. apply balance_plain. }
  split; [|split].
  - intros. apply transition_balance; assumption.
  - intros. apply transition_total; assumption.
  - intros. apply stationary_n; assumption.
Qed.
Print Assumptions C18_stationary_plain.

Theorem C18_stationary_log : forall n q (logpsi : nat -> xr) a, symmetric_proposal n q ->
  (forall i, (i < n)%nat -> (exists r, logpsi i = Fin r) \/ logpsi i = MInf) ->
  (forall i j, (i < n)%nat -> (j < n)%nat ->
     yes_probability (fun u => accepts u (accept_log (logpsi i) (logpsi j))) (a i j)) ->
  let t := transition n q a in
  let w i := match logpsi i with Fin r => (exp r) ^ 2 | _ => 0 end in
  (forall i j, (i < n)%nat -> (j < n)%nat -> w i * t i j = w j * t j i) /\
  (forall i, (i < n)%nat -> Rsum n (t i) = 1) /\
  forall steps j, (j < n)%nat -> push_n n t steps w j = w j.
Proof.
  intros n q lp a Hq Hl Ha t w.
  assert (W : forall i, w i = weight_log (lp i)).
  { intros i. unfold w, weight_log. destruct (lp i); auto. rewrite exp2. ring. }
  assert (DB : forall i j, (i < n)%nat -> (j < n)%nat -> w i * a i j = w j * a j i).
  { intros i j Hi Hj.
    rewrite (yes_probability_unique _ _ _ (Ha i j Hi Hj) (accepts_probability _)).
    rewrite (yes_probability_unique _ _ _ (Ha j i Hj Hi) (accepts_probability _)).
    rewrite !W. apply balance_log; auto. }
  split; [|split].
  - intros. apply transition_balance; assumption.
  - intros. apply transition_total; assumption.
  - intros. apply stationary_n; assumption.
Qed.
Print Assumptions C18_stationary_log.

(** The gaussian proposal is symmetric: the opposite noise leads back and is as likely, so detailed
    balance also holds for the densities of the actual continuous moves. *)
Theorem C18_gaussian_balance : forall (psi : list R -> R) s (x z : list R) a_xy a_yx, length x = length z ->
  let y := moved s x z in
  yes_probability (fun u => accepts u (accept_plain (Fin (psi x)) (Fin (psi y)))) a_xy ->
  yes_probability (fun u => accepts u (accept_plain (Fin (psi y)) (Fin (psi x)))) a_yx ->
  moved s y (map Ropp z) = x /\
  psi x ^ 2 * normal_density z * a_xy = psi y ^ 2 * normal_density (map Ropp z) * a_yx.
Proof.
  intros psi s x z a b L y Ha Hb. split; [apply zipw_back; assumption|].
  rewrite (yes_probability_unique _ _ _ Ha (accepts_probability _)).
  rewrite (yes_probability_unique _ _ _ Hb (accepts_probability _)).
  rewrite normal_density_opp. pose proof (balance_plain (psi x) (psi y)) as E. unfold weight_plain in E.
  rewrite <- !Rsqr_pow2. unfold Rsqr. rewrite !(Rmult_comm _ (normal_density z)), !Rmult_assoc, <- !(Rmult_assoc (psi _)), E. reflexivity.
Qed.
Print Assumptions C18_gaussian_balance.

(** Two states with amplitudes 1 and 2 and a fair coin proposal. *)
Example C18_example :
  symmetric_proposal 2 (fun _ _ => / 2) /\
  (let psi i := match i with O => 1 | _ => 2 end in
   let a i j := metropolis_ratio (psi i) (psi j) in
   (forall i j, (i < 2)%nat -> (j < 2)%nat ->
     yes_probability (fun u => accepts u (accept_plain (Fin (psi i)) (Fin (psi j)))) (a i j)) /\
   push_n 2 (transition 2 (fun _ _ => / 2) a) 3 (fun i => psi i ^ 2) 1 = 4).
Proof.
  assert (Q : symmetric_proposal 2 (fun _ _ => / 2)).
  { constructor; intros; try lra. simpl; lra. }
  split; [exact Q|]. intros psi a.
  assert (Y : forall i j, (i < 2)%nat -> (j < 2)%nat ->
     yes_probability (fun u => accepts u (accept_plain (Fin (psi i)) (Fin (psi j)))) (a i j)).
  { intros i j _ _. rewrite accept_plain_ratio. split; [apply ratio_range|]. intros u Hu. apply Rltb_true. }
  split; [exact Y|].
  destruct (C18_stationary_plain 2 _ psi a Q Y) as (_ & _ & H). rewrite H by lia. simpl. ring.
Qed.

(** C19.  One step, device by device and walker by walker: the walker takes the proposed position
    together with the amplitude of that position, or keeps both; no walker appears or disappears.
    [upd] is any metadata update (dynamic width or none). *)
Theorem C19_step_atomic : forall (P M K : Type) (g : prng K) (psi : P -> list R -> xr) model_apply
    (get_std : padata M -> R) upd logabs,
  good_prng g -> (forall p xs, model_apply p xs = map (psi p) xs) ->
  (forall f, upd = Some f -> forall ms masks, length (f ms masks) = length ms) ->
  forall p datas keys j d k, length datas = length keys ->
  nth_error datas j = Some d -> nth_error keys j = Some k -> length (amp d) = length (pos d) ->
  exists d', nth_error (snd (fst (pa_step g model_apply get_std upd logabs p datas keys))) j = Some d' /\
    length (pos d') = length (pos d) /\ length (amp d') = length (amp d) /\
    forall i x a, nth_error (pos d) i = Some x -> nth_error (amp d) i = Some a ->
      exists x' a', nth_error (pos d') i = Some x' /\ nth_error (amp d') i = Some a' /\
        walker_step psi p (if logabs then accept_log else accept_plain) (get_std d) x a x' a'.
Proof. intros. eapply device_step; eassumption. Qed.
Print Assumptions C19_step_atomic.

(** Every history of steps and parameter updates keeps every stored amplitude equal to the model at
    the stored position with the current parameters. *)
Theorem C19_always_consistent : forall (P M K : Type) (g : prng K) (psi : P -> list R -> xr) model_apply
    (get_std : padata M -> R) upd logabs,
  good_prng g -> (forall p xs, model_apply p xs = map (psi p) xs) ->
  (forall f, upd = Some f -> forall ms masks, length (f ms masks) = length ms) ->
  forall ops p datas keys, length datas = length keys -> Forall (consistent psi p) datas ->
  let '(p', datas', _) := run_ops g model_apply get_std upd logabs ops p datas keys in
  Forall (consistent psi p') datas' /\ length datas' = length datas /\
  map (fun d => length (pos d)) datas' = map (fun d => length (pos d)) datas.
Proof. intros. eapply ops_consistent; eassumption. Qed.
Print Assumptions C19_always_consistent.

(** A generator and a two-device state meeting the hypotheses, with the dynamic-width step. *)
Definition toy_prng : prng nat := {|
  split2 := fun k => (2 * k, 2 * k + 1)%nat;
  uniform := fun _ n => repeat (/ 2) n;
  normal := fun _ shape => map (repeat 1) shape |}.
Definition toy_psi (p : R) (x : list R) : xr := Fin (p * lsum x).
Example C19_example :
  let m := {| std_move := 1; acc_sum := 0; moves := 0 |} in
  let datas := [Build_padata [[1; 2]; [3; 4]] [Fin 3; Fin 7] m; Build_padata [[0; 0]] [Fin 0] m] in
  let '(p', datas', _) := run_ops toy_prng (fun p => map (toy_psi p)) (fun d => std_move (meta d))
      (Some (update_move_metadata 10 (adjust_std_move (/ 2) (/ 10) (/ 10)))) true
      [DoStep; DoStep; NewParams 3; DoStep] 1 datas [5%nat; 6%nat] in
  Forall (consistent toy_psi p') datas' /\ length datas' = 2%nat.
Proof.
  intros m datas.
  assert (G : good_prng toy_prng).
  { constructor; simpl; intros.
    - apply repeat_length.
    - apply repeat_spec in H. subst. lra.
    - rewrite map_map. rewrite (map_ext _ (fun x => x)); [apply map_id|]. intros; apply repeat_length. }
  pose proof (C19_always_consistent R move_metadata nat toy_prng toy_psi (fun p => map (toy_psi p)) (fun d => std_move (meta d))
      (Some (update_move_metadata 10 (adjust_std_move (/ 2) (/ 10) (/ 10)))) true G ltac:(reflexivity)) as H.
  assert (H' := H ltac:(intros f E; injection E as <-; intros; apply map_length)
    [DoStep; DoStep; NewParams 3; DoStep] 1 datas [5%nat; 6%nat] eq_refl).
  assert (F : Forall (consistent toy_psi 1) datas).
  { constructor; [|constructor; [|constructor]]; unfold consistent, toy_psi; cbn; repeat f_equal; ring. }
  specialize (H' F). destruct (run_ops _ _ _ _ _ _ _ _ _) as [[p' ds'] ks']. tauto.
Qed.

(** C20.  [walk_data] is exactly [nsteps] applications of the step, threading data and key, and the
    arithmetic mean of their acceptance ratios; two walks in a row are one longer walk; burning is
    exactly [nburn] applications of the step. *)
Theorem C20_walk : forall (P D K : Type) (step : P -> D -> K -> xr * D * K) n p d k,
  exists rs d' k', length rs = n /\ Steps step p d k rs d' k' /\
    walk_data n p d k step = (xdiv (fold_left xadd rs (Fin 0)) (Fin (INR n)), d', k') /\
    (forall l, rs = map Fin l -> n <> O ->
       walk_data n p d k step = (Fin (Rsum n (fun i => nth i l 0) / INR n), d', k')) /\
    burn_data (burning_step step) n p d k = (d', k') /\
    forall m r2 d2 k2, walk_data m p d' k' step = (r2, d2, k2) -> exists r, walk_data (n + m) p d k step = (r, d2, k2).
Proof.
  intros P D K step n p d k. destruct (Steps_exist step p n d k) as (rs & d' & k' & L & H).
  exists rs, d', k'. split; [assumption|]. split; [assumption|].
  assert (W : walk_data n p d k step = (xdiv (fold_left xadd rs (Fin 0)) (Fin (INR n)), d', k')).
  { apply walk_gen_steps. exists rs. auto. }
  split; [assumption|]. split; [|split].
  - intros l -> Hn. rewrite W. rewrite fold_left_fin.
    rewrite xdiv_fin by (apply not_0_INR; assumption). rewrite Rplus_0_l.
    change (fold_right Rplus 0 l) with (lsum l). rewrite lsum_nth. rewrite map_length in L. subst n. reflexivity.
  - apply burn_steps. exists rs. auto.
  - intros m r2 d2 k2 H2. eapply walk_gen_split; eassumption.
Qed.
Print Assumptions C20_walk.

(** The distributed walker: all devices take [nsteps] steps in lock step, and the returned number is
    the mean over devices of their mean acceptance ratios. *)
Theorem C20_walk_distributed : forall (P D K : Type) (step : P -> D -> K -> list xr * D * K) n ndev p d k,
  exists rs d' k', length rs = n /\ Steps step p d k rs d' k' /\
    (forall ll : list (list R), rs = map (map Fin) ll -> n <> O -> ndev <> O -> Forall (fun l => length l = ndev) ll ->
     walker_fn_pmapped n step ndev p d k =
       (Fin (Rsum ndev (fun j => Rsum n (fun i => nth j (nth i ll []) 0) / INR n) / INR ndev), d', k')).
Proof.
  intros P D K step n ndev p d k. destruct (Steps_exist step p n d k) as (rs & d' & k' & L & H).
  exists rs, d', k'. split; [assumption|]. split; [assumption|].
  intros ll -> Hn Hd HF. unfold walker_fn_pmapped.
  assert (W := proj2 (walk_gen_steps (repeat (Fin 0) ndev) (zipw xadd)
     (fun l n => map (fun x => xdiv x (Fin (INR n))) l) step n p d k _ d' k')
     (ex_intro _ _ (conj L (conj H eq_refl)))).
  rewrite W. f_equal. f_equal.
  assert (S : forall c, length c = ndev -> fold_left (zipw xadd) (map (map Fin) ll) (map Fin c) =
     map Fin (map (fun j => nth j c 0 + Rsum n (fun i => nth j (nth i ll []) 0)) (seq 0 ndev))).
  { rewrite map_length in L. clear W H. subst n. clear Hn. induction ll as [|l ll IH]; intros c Hc.
    - simpl. f_equal. apply list_ext. intros i. rewrite nth_error_map'.
      destruct (Nat.ltb_spec i ndev) as [Hi|Hi].
      + rewrite (nth_error_nth' _ 0%nat) by (rewrite seq_length; lia). rewrite seq_nth by lia. simpl.
        rewrite (nth_error_nth' _ 0) by lia. f_equal. ring.
      + rewrite (proj2 (nth_error_None c i)) by lia. rewrite (proj2 (nth_error_None (seq 0 ndev) i)) by (rewrite seq_length; lia). reflexivity.
    - inversion HF as [|? ? Hl HF']; subst. cbn [map fold_left].
      replace (zipw xadd (map Fin c) (map Fin l)) with (map Fin (zipw Rplus c l)) by (symmetry; apply zipw_map; reflexivity).
      rewrite IH; [|assumption|rewrite zipw_length; lia].
      f_equal. apply map_ext_in. intros j Hj. apply in_seq in Hj.
      cbn [length]. rewrite Rsum_S_l. cbn [nth].
      replace (nth j (zipw Rplus c l) 0) with (nth j c 0 + nth j l 0); [ring|].
      symmetry. apply nth_error_nth. rewrite zipw_nth_error.
      rewrite (nth_error_nth' c 0) by lia. rewrite (nth_error_nth' l 0) by lia. reflexivity. }
  specialize (S (repeat 0 ndev) (repeat_length _ _)). rewrite map_repeat' in S. rewrite S, map_map, map_map.
  unfold xmean. rewrite map_length, seq_length.
  rewrite (map_ext _ (fun j => Fin ((nth j (repeat 0 ndev) 0 + Rsum n (fun i => nth j (nth i ll []) 0)) / INR n))).
  2:{ intros j. apply xdiv_fin. apply not_0_INR; assumption. }
  rewrite <- (map_map (fun j => (nth j (repeat 0 ndev) 0 + Rsum n (fun i => nth j (nth i ll []) 0)) / INR n) Fin).
  rewrite xsum_map_fin. rewrite xdiv_fin by (apply not_0_INR; assumption).
  fold (lsum (map (fun j => (nth j (repeat 0 ndev) 0 + Rsum n (fun i => nth j (nth i ll []) 0)) / INR n) (seq 0 ndev))).
  rewrite lsum_map_seq. f_equal. f_equal. apply Rsum_ext. intros j Hj. simpl.
  rewrite nth_repeat. f_equal. ring.
Qed.
Print Assumptions C20_walk_distributed.

Example C20_example :
  walk_data 3 tt 10%nat 7%nat (fun _ d k => (Fin (INR d), (d + 1)%nat, (2 * k)%nat)) = (Fin 11, 13%nat, 56%nat).
Proof.
  unfold walk_data, walk_data_gen. cbn [walk_scan xadd Nat.add Nat.mul].
  rewrite xdiv_fin by (apply not_0_INR; lia). f_equal. f_equal. f_equal. simpl. field.
Qed.

(** C21.  Over the whole run - initial positions, model and optimizer initialisation, burning, all
    training epochs on all devices, optionally fresh evaluation data, evaluation burning and epochs
    - no consumed key equals or is derived from another consumed key or a key still to be used. *)
Theorem C21_keys_never_reused : forall (c : run_cfg) (seed : key),
  let (consumed, live) := run_keys c seed in independent (consumed ++ live) /\ NoDup (consumed ++ live).
Proof.
  intros c seed. pose proof (run_ok c seed) as H. destruct (run_keys c seed) as [u ks]. simpl in H.
  split; [exact H|apply independent_NoDup; exact H].
Qed.
Print Assumptions C21_keys_never_reused.

(** The keys counted for a Metropolis step are all the randomness it uses, and the key it returns is
    the one the key model returns: two generators agreeing on those keys give the same step. *)
Theorem C21_step_reads_only_counted_keys : forall (P M : Type) (g1 g2 : prng key) model_apply
    (get_std : padata M -> R) upd logabs,
  (forall k, split2 g1 k = key_split2 k) -> (forall k, split2 g2 k = key_split2 k) ->
  forall (p : P) datas keys, length datas = length keys ->
  (forall k x, In k keys -> In x (fst (step_keys k)) -> uniform g1 x = uniform g2 x /\ normal g1 x = normal g2 x) ->
  pa_step g1 model_apply get_std upd logabs p datas keys = pa_step g2 model_apply get_std upd logabs p datas keys /\
  snd (pa_step g1 model_apply get_std upd logabs p datas keys) = map (fun k => snd (step_keys k)) keys.
Proof. intros. apply step_depends; assumption. Qed.
Print Assumptions C21_step_reads_only_counted_keys.

(** In evaluation with the random-particle local energy the returned keys are the consumed ones. *)
Theorem C21_eval_random_particle_refuted : forall nbatch k, (0 < nbatch)%nat ->
  let (consumed, live) := eval_random_particle_keys nbatch k in
  live = consumed /\ ~ NoDup (consumed ++ live) /\ ~ independent (consumed ++ live).
Proof.
  intros n k Hn. unfold eval_random_particle_keys. split; [reflexivity|].
  assert (ND : ~ NoDup (split_n k n ++ split_n k n)).
  { unfold split_n. destruct n as [|n]; [lia|]. intros H. simpl in H. inversion H as [|? ? N _]; subst.
    apply N, in_or_app. right. left. reflexivity. }
  split; [exact ND|]. intros H. apply ND, independent_NoDup, H.
Qed.
Print Assumptions C21_eval_random_particle_refuted.

Example C21_example :
  length (fst (run_keys {| rc_nchains := 4; rc_ndevices := 2; rc_process := 0; rc_update := GradRandomParticle 2;
    rc_nburn := 1; rc_nepochs := 2; rc_nsteps := 3; rc_new_eval_data := true; rc_eval_nchains := 2;
    rc_eval_nburn := 1; rc_eval_nepochs := 1; rc_eval_nsteps := 2 |} [])) = 57%nat.
Proof. reflexivity. Qed.

(** C22.  After any history of moves (one list of device masks per move), with
    n = max(1, nmoves_per_update), t moves in total: all device copies of the metadata agree; the
    counter is t mod n; the accumulated acceptance is that of the last t mod n moves; the width is
    the initial one times one factor per completed window of n moves, the factor depending on the
    mean acceptance of exactly that window; and the width stays positive. *)
Theorem C22_dynamic_width : forall nmoves target thr adj std0 ndev w (hist : list (list (list bool))),
  0 <= thr -> 0 <= adj < 1 -> 0 < std0 -> (0 < w)%nat ->
  Forall (fun masks => masks <> [] /\ Forall (fun m => length m = w) masks) hist ->
  let n := Nat.max 1 nmoves in
  let t := length hist in
  let acc := map accepted_fraction hist in
  exists m,
    fold_left (update_move_metadata nmoves (adjust_std_move target thr adj)) hist
      (repeat {| std_move := std0; acc_sum := 0; moves := 0 |} ndev) = repeat m ndev /\
    moves m = (t mod n)%nat /\
    acc_sum m = Rsum (t mod n) (fun i => nth (t / n * n + i) acc 0) /\
    std_move m = std0 * Rprod (t / n) (fun j => width_factor target thr adj (window_mean acc (j * n) n)) /\
    0 < std_move m /\ std0 * (1 - adj) ^ (t / n) <= std_move m <= std0 * (1 + adj) ^ (t / n).
Proof.
  intros nmoves target thr adj std0 ndev w hist Hthr Hadj Hstd Hw HF n t acc.
  exists (run1 nmoves target thr adj acc {| std_move := std0; acc_sum := 0; moves := 0 |}).
  pose proof (run1_exact nmoves target thr adj Hthr acc std0) as H. cbv zeta in H.
  assert (L : length acc = t) by apply map_length. rewrite L in H. fold n in H.
  destruct H as (H1 & H2 & H3). split.
  { rewrite replicas. f_equal. f_equal. unfold acc. apply map_ext_in. intros masks Hin.
    rewrite Forall_forall in HF. destruct (HF masks Hin). eapply mean_all_devices_global; eassumption. }
  split; [assumption|]. split; [assumption|]. split; [assumption|].
  rewrite H3.
  destruct (Rprod_bounds (t / n) (fun j => width_factor target thr adj (window_mean acc (j * n) n)) (1 - adj) (1 + adj)) as (B0 & B1 & B2).
  - lra.
  - intros i _. apply factor_range. lra.
  - split; [apply Rmult_lt_0_compat; assumption|]. split; apply Rmult_le_compat_l; lra.
Qed.
Print Assumptions C22_dynamic_width.

(** With the runner's settings (0.5, 0.05, 0.1): two moves per update, both fully accepted, then one
    rejected move: the width grew once by 10% and the counter is 1. *)
Example C22_example : exists m,
  fold_left (update_move_metadata 2 (adjust_std_move (1/2) (1/20) (1/10)))
    [[[true; true]; [true; true]]; [[true; true]; [true; true]]; [[false; false]; [false; false]]]
    (repeat {| std_move := 1; acc_sum := 0; moves := 0 |} 2) = repeat m 2 /\
  moves m = 1%nat /\ std_move m = 11 / 10.
Proof.
  destruct (C22_dynamic_width 2 (1/2) (1/20) (1/10) 1 2 2
    [[[true; true]; [true; true]]; [[true; true]; [true; true]]; [[false; false]; [false; false]]])
    as (m & E & Hm & _ & Hs & _); try lra; try lia.
  - repeat constructor; discriminate.
  - exists m. split; [exact E|]. split; [exact Hm|]. rewrite Hs. cbn -[width_factor window_mean].
    assert (W : forall c, window_mean [accepted_fraction [[true; true]; [true; true]];
      accepted_fraction [[true; true]; [true; true]]; c] 0 2 = 1).
    { intros c. unfold window_mean, accepted_fraction. simpl. field. }
    rewrite W. unfold width_factor. destruct (Rlt_dec (1/2 + 1/20) 1); lra.
Qed.

(** C23.  A walker at an exact node accepts every move in plain mode; in log mode it accepts every
    move to a non-zero amplitude, a move to another node gives NaN and is never accepted, and the two
    modes decide differently in exactly that case. *)
Theorem C23_nodes : forall u, 0 <= u < 1 ->
  (forall y, accepts u (accept_plain (Fin 0) y) = true) /\
  (forall b, accepts u (accept_log MInf (Fin b)) = true) /\
  (accept_log MInf MInf = NaN /\ accepts u (accept_log MInf MInf) = false) /\
  forall a b, accepts u (accept_log (log_abs a) (log_abs b)) <> accepts u (accept_plain (Fin a) (Fin b)) <->
              a = 0 /\ b = 0.
Proof.
  intros u Hu. split; [|split; [|split]].
  - intros y. rewrite plain_node_accepts. apply one_always_accepted; assumption.
  - intros b. rewrite log_node_accepts_fin. apply one_always_accepted; assumption.
  - rewrite log_node_node. split; reflexivity.
  - intros a b. apply modes_differ_iff; assumption.
Qed.
Print Assumptions C23_nodes.

Example C23_example : accepts 0 (accept_log (log_abs 0) (log_abs 0)) = false /\
  accepts 0 (accept_plain (Fin 0) (Fin 0)) = true.
Proof.
  destruct (C23_nodes 0 ltac:(lra)) as (H1 & _ & (_ & H2) & _). split; [|apply H1].
  unfold log_abs. destruct (Req_EM_T 0 0); [exact H2|contradiction n; reflexivity].
Qed.

(** * Property theorems C09 - C11: the background writer and crashes *)
From Coq Require Import List String Arith Bool Lia.
From Verif Require Import XReal M_io M_vmc M_writer S_vmc P_writer P_crash E_vmc.
Import ListNotations.
Local Open Scope string_scope.
Local Open Scope list_scope.

(** C09, safety: in every state reachable under any schedule of the two threads (time-outs of the
    blocking get included at any moment), the items written so far are a prefix of the items
    queued so far (so: in order, none twice, none invented), which are a prefix of the items the
    program wants to queue. *)
Theorem C09_written_is_prefix :
  forall (A : Type) (write_ok : A -> bool) (items : list A) n s,
  wsteps write_ok n (w_init items) s ->
  exists pending rest, queued s = written s ++ pending /\ items = queued s ++ rest.
Proof. exact written_prefix. Qed.
Print Assumptions C09_written_is_prefix.

(** C09, completeness: once the context manager has been left, everything queued has been written,
    each item once and in order; and if the body was not left by an exception, everything the
    program wanted to queue. *)
Theorem C09_all_written_on_exit :
  forall (A : Type) (write_ok : A -> bool) (items : list A) n s,
  (forall x, In x items -> write_ok x = true) ->
  wsteps write_ok n (w_init items) s -> mp s = MLeft ->
  written s = queued s /\ (aborted s = false -> written s = items).
Proof.
  intros A ok items n s Hok H Hm.
  destruct (left_written A ok items n s H Hm) as [E1 E2].
  destruct (written_prefix A ok items n s H) as (pe & re & _ & E).
  assert (written s = queued s).
  { rewrite E1. apply ok_prefix_all. intros x Hx. apply Hok. rewrite E. apply in_or_app; left; exact Hx. }
  split; [assumption|]. intros Ha. rewrite H0. apply E2, Ha.
Qed.
Print Assumptions C09_all_written_on_exit.

(** C09, progress: no reachable state is a deadlock before the context manager is left (in
    particular the drain loop's get without time-out never blocks for ever). *)
Theorem C09_no_deadlock :
  forall (A : Type) (write_ok : A -> bool) (items : list A) n s,
  wsteps write_ok n (w_init items) s -> mp s <> MLeft -> exists t, wstep write_ok s t.
Proof. exact no_deadlock. Qed.
Print Assumptions C09_no_deadlock.

(** C09, termination: after close every schedule is finite (with a bound linear in the queue), so,
    with [C09_no_deadlock], every maximal execution leaves the context manager. *)
Theorem C09_close_terminates :
  forall (A : Type) (write_ok : A -> bool) (items : list A) n s,
  wsteps write_ok n (w_init items) s -> mp s = MJoin ->
  (forall m t, wsteps write_ok m s t -> m <= 10 * List.length (queue s) + 6) /\
  (exists m t, wsteps write_ok m s t /\ mp t = MLeft).
Proof.
  intros A ok items n s H Hm. split.
  - intros m t Ht. pose proof (reach_inv A ok items n s H) as (_ & _ & I3 & _). rewrite Hm in I3.
    pose proof (closed_bound A ok m s t (or_introl Hm) (proj1 I3) Ht) as B.
    unfold measure in B. rewrite Hm in B.
    assert (rank A (wp s) <= 5) by (destruct (wp s); simpl; lia). simpl mrank in B. lia.
  - eapply closed_reaches_left; eauto.
Qed.
Print Assumptions C09_close_terminates.

(** A schedule with a time-out in which one item is written in the loop and one while draining. *)
Example C09_example :
  exists n s, wsteps (fun _ => true) n (w_init [1; 2]) s /\ mp s = MLeft /\ written s = [1; 2] /\ aborted s = false.
Proof.
  do 2 eexists. split.
  - eapply wsteps_S; [eapply st_loop; reflexivity|].
    eapply wsteps_S; [eapply st_timeout; reflexivity|].
    eapply wsteps_S; [eapply st_put; reflexivity|].
    eapply wsteps_S; [eapply st_loop; reflexivity|].
    eapply wsteps_S; [eapply st_get; reflexivity|].
    eapply wsteps_S; [eapply st_put; reflexivity|].
    eapply wsteps_S; [eapply st_write; reflexivity|].
    eapply wsteps_S; [eapply st_body_end; reflexivity|].
    eapply wsteps_S; [eapply st_close; reflexivity|].
    eapply wsteps_S; [eapply st_stop; reflexivity|].
    eapply wsteps_S; [eapply st_drain_more; reflexivity|].
    eapply wsteps_S; [eapply st_drain_get; reflexivity|].
    eapply wsteps_S; [eapply st_drain_write; reflexivity|].
    eapply wsteps_S; [eapply st_drain_end; reflexivity|].
    eapply wsteps_S; [eapply st_join; [reflexivity|left; reflexivity]|].
    apply wsteps_0.
  - repeat split.
Qed.

(** C10.  If writing [x] raises, then under every schedule, once the context manager has been left
    (which always happens after close, without an error: [C09_close_terminates]) exactly the items
    before the first failing one have been written: everything queued after it is lost. *)
Theorem C10_failed_write_loses_rest :
  forall (A : Type) (write_ok : A -> bool) before x after n s,
  (forall y, In y before -> write_ok y = true) -> write_ok x = false ->
  wsteps write_ok n (w_init (before ++ x :: after)) s -> mp s = MLeft -> aborted s = false ->
  written s = before /\ queued s = before ++ x :: after.
Proof.
  intros A ok before x after n s Hb Hx H Hm Ha.
  destruct (left_written A ok _ n s H Hm) as [E1 E2]. specialize (E2 Ha).
  split; [|exact E2]. rewrite E1, E2. apply ok_prefix_fail; assumption.
Qed.
Print Assumptions C10_failed_write_loses_rest.

(** C10, refuted stronger claim: the context manager is left normally although nothing was
    written of what had been queued. *)
Theorem C10_exit_means_written_refuted :
  exists (A : Type) (write_ok : A -> bool) items n s,
    wsteps write_ok n (w_init items) s /\ mp s = MLeft /\ aborted s = false /\
    queued s = items /\ written s <> queued s.
Proof.
  exists nat, (fun x => negb (Nat.eqb x 0)), [0; 1]. do 2 eexists. split.
  - eapply wsteps_S; [eapply st_put; reflexivity|].
    eapply wsteps_S; [eapply st_loop; reflexivity|].
    eapply wsteps_S; [eapply st_get; reflexivity|].
    eapply wsteps_S; [eapply st_write_raise; reflexivity|].
    eapply wsteps_S; [eapply st_put; reflexivity|].
    eapply wsteps_S; [eapply st_body_end; reflexivity|].
    eapply wsteps_S; [eapply st_close; reflexivity|].
    eapply wsteps_S; [eapply st_join; [reflexivity|right; reflexivity]|].
    apply wsteps_0.
  - repeat split. discriminate.
Qed.
Print Assumptions C10_exit_means_written_refuted.

(** C11.  [crash_disk d0 (all_ops k cks) n] is the disk if the process dies after [n] file
    operations of the checkpoint writes [cks] of a run ([k] intermediate pieces per file).  Every
    regular checkpoint whose final operation has been executed is intact, whatever was on the
    disk before. *)
Theorem C11_regular_intact :
  forall (P D S K : Type) (walker_fn : P -> D -> K -> xr * D * K)
    (update_param_fn : P -> D -> S -> K -> P * D * S * option dict * K) (params_have_nan : P -> bool)
    (g : cfg D) ld every start nepochs p o d key pf of_ df kf nf cks ms w k d0 n,
  valid_cfg g -> metrics_complete update_param_fn -> logdir g = Some ld -> checkpoint_every g = Some every ->
  vmc_loop walker_fn update_param_fn params_have_nan g start nepochs p o d key
    = Finished pf of_ df kf nf cks ms ->
  In w cks -> is_regular_name (snd (fst w)) = true ->
  In (Finish (fst w) (snd w)) (firstn n (all_ops k cks)) ->
  crash_disk d0 (all_ops k cks) n (fst w) = Some (Complete (snd w)).
Proof. exact regular_intact. Qed.
Print Assumptions C11_regular_intact.

(** C11: after a crash at any point at most one path is incomplete (the one being written). *)
Theorem C11_one_truncated_file :
  forall (C : Type) k (ws : list (string * string * C)) d0 n p q,
  (forall q, d0 q <> Some Partial) ->
  crash_disk d0 (all_ops k ws) n p = Some Partial ->
  crash_disk d0 (all_ops k ws) n q = Some Partial -> p = q.
Proof.
  intros C k ws d0 n p q H0 Hp Hq.
  apply crash_one_partial in Hp; [|exact H0]. apply crash_one_partial in Hq; [|exact H0].
  destruct Hp as (pre & w & post & E & -> & L1 & L2). destruct Hq as (pre' & w' & post' & E' & -> & L1' & L2').
  assert (List.length pre = List.length pre') by nia.
  assert (nth_error ws (List.length pre) = Some w) by (rewrite E, nth_error_app2, Nat.sub_diag; [reflexivity|lia]).
  assert (nth_error ws (List.length pre') = Some w') by (rewrite E', nth_error_app2, Nat.sub_diag; [reflexivity|lia]).
  congruence.
Qed.
Print Assumptions C11_one_truncated_file.

(** C11, recovery: every readable checkpoint found on a fresh disk after a crash at any point can be
    resumed from, and gives the final state of the run that did not crash. *)
Theorem C11_crash_recovery :
  forall (P D S K : Type) (walker_fn : P -> D -> K -> xr * D * K)
    (update_param_fn : P -> D -> S -> K -> P * D * S * option dict * K) (params_have_nan : P -> bool)
    (g g' : cfg D) ld ld' start nepochs p o d key pf of_ df kf nf cks ms k n path c,
  valid_cfg g -> metrics_complete update_param_fn -> logdir g = Some ld ->
  valid_cfg g' -> logdir g' = Some ld' -> check_for_nans g' = check_for_nans g ->
  checkpoint_every g' = checkpoint_every g ->
  record_amplitudes g' = record_amplitudes g -> get_amplitude_fn g' = get_amplitude_fn g ->
  vmc_loop walker_fn update_param_fn params_have_nan g start nepochs p o d key
    = Finished pf of_ df kf nf cks ms ->
  crash_disk (fun _ => None) (all_ops k cks) n path = Some (Complete c) ->
  exists cks' ms',
    vmc_loop walker_fn update_param_fn params_have_nan g' (c_epoch c) nepochs
        (c_params c) (c_opt c) (c_data c) (c_key c)
      = Finished pf of_ df kf nf cks' ms'.
Proof. exact crash_recovery. Qed.
Print Assumptions C11_crash_recovery.

(** The 7-epoch run with interval 3, crashing after 4 file operations (k = 1): 3.npz is complete,
    6.npz is not. *)
Example C11_example :
  forall es, exists pf of_ df kf nf cks ms,
    vmc_loop toy_walker (toy_update es) toy_nan (toy_cfg (Some 3) None false 5) 0 7 tt tt 0 tt
      = Finished pf of_ df kf nf cks ms /\
    In (Finish ("log/checkpoints", "3.npz") (toy_ckpt 2)) (firstn 4 (all_ops 1 cks)) /\
    crash_disk (fun _ => None) (all_ops 1 cks) 4 ("log/checkpoints", "3.npz") = Some (Complete (toy_ckpt 2)) /\
    crash_disk (fun _ => None) (all_ops 1 cks) 4 ("log/checkpoints", "6.npz") = Some Partial.
Proof.
  intros es. do 7 eexists. split; [lazy; reflexivity|].
  split; [right; right; left; reflexivity|]. split; lazy; reflexivity.
Qed.

(** C11, refuted for the best checkpoint: the file is overwritten in place, so for EVERY sequence of
    writes that writes one path twice there is a crash point at which the path holds no readable
    file although it did at an earlier moment ... *)
Theorem C11_overwrite_not_atomic :
  forall (C : Type) k (pre mid post : list (string * string * C)) w w' d0,
  fst w' = fst w -> (forall v, In v mid -> fst v <> fst w) ->
  exists n m, n < m /\
    crash_disk d0 (all_ops k (pre ++ w :: mid ++ w' :: post)) n (fst w) = Some (Complete (snd w)) /\
    crash_disk d0 (all_ops k (pre ++ w :: mid ++ w' :: post)) m (fst w) = Some Partial.
Proof. exact overwrite_lost. Qed.
Print Assumptions C11_overwrite_not_atomic.

(** ... and a run of [vmc_loop] does this with best_checkpoint.npz. *)
Theorem C11_best_intact_refuted :
  exists p o d k b cks me n m,
    vmc_loop toy_walker (toy_update two_stream) toy_nan (toy_cfg None (Some 1) false 2) 0 2 tt tt 0 tt
      = Finished p o d k b cks me /\ n < m /\
    crash_disk (fun _ => None) (all_ops 1 cks) n ("log", "best_checkpoint.npz") = Some (Complete (toy_ckpt 0)) /\
    crash_disk (fun _ => None) (all_ops 1 cks) m ("log", "best_checkpoint.npz") = Some Partial.
Proof.
  destruct toy_two_best as (p & o & d & k & b & me & H).
  destruct (C11_overwrite_not_atomic _ 1 [] [] [] ("log", "best_checkpoint.npz", toy_ckpt 0)
     ("log", "best_checkpoint.npz", toy_ckpt 1) (fun _ => None) eq_refl) as (n & m & Hnm & H1 & H2); [intros v []|].
  exists p, o, d, k, b. eexists. exists me, n, m. split; [exact H|]. auto.
Qed.
Print Assumptions C11_best_intact_refuted.

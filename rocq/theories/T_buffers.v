(** * Checkpoints survive the deletion of the arrays they were taken from: C80 *)
From Coq Require Import String List Arith Bool Reals Lia.
From Verif Require Import XReal M_io M_vmc M_buffers S_buffers P_buffers.
Import ListNotations.

(** However a run computes on device buffers — the walker function may delete the buffers of the old
    key, the update those of the old parameters, the old state of the optimiser and the old key, results
    may be passed-through arguments or new arrays — and however far the writer thread lags behind the
    training, the run is the run on values of [vmc_loop] (C01 to C04 describe it): it never meets a
    deleted array, returns the same parameters, state, walkers and key, and writes every checkpoint file
    completely, with the contents that the arrays had when the checkpoint was taken. *)
Theorem C80_checkpoints_survive :
  forall (V : Type) walk w update u (params_have_nan : list V -> bool) progress g start nepochs h
         params opt data key pv sv dv kv,
    walks walk w -> updates update u ->
    sound h -> holds h params pv -> holds h opt sv -> holds h data dv -> holds h key kv ->
    apart data (params ++ opt ++ key) -> apart key (params ++ opt) ->
    match bvmc_loop walk update params_have_nan progress g start nepochs h params opt data key,
          vmc_loop w u params_have_nan g start nepochs pv sv dv kv with
    | BFinished h' p' s' d' k' nans files metrics, Finished pv' sv' dv' kv' nans' cs metrics' =>
        holds h' p' pv' /\ holds h' s' sv' /\ holds h' d' dv' /\ holds h' k' kv' /\ nans = nans' /\
        files = complete_files cs /\ metrics = metrics'
    | BRaised e files metrics, Raised e' cs metrics' =>
        e = e' /\ files = complete_files cs /\ metrics = metrics'
    | _, _ => False
    end.
Proof. intros. now apply run_ok. Qed.
Print Assumptions C80_checkpoints_survive.

(** Every computation on values has an implementation that deletes what it may delete, so the
    hypotheses are met by every run. *)
Theorem C80_every_run_can_donate :
  forall (V : Type) (w : list V -> list V -> list V -> xr * list V * list V)
         (u : list V -> list V -> list V -> list V -> list V * list V * option dict * list V),
    walks (donating_walk w) w /\
    updates (donating_update (fun _ => []) u)
      (fun pv dv sv kv => let '(pv', sv', m, kv') := u pv dv sv kv in (pv', dv, sv', m, kv')).
Proof. intros. split; [apply donating_walks|apply donating_updates]. Qed.
Print Assumptions C80_every_run_can_donate.

(** A run with one array each: the walkers move by the key, the update adds them to the parameters and
    counts in its state. *)
Definition eg_walk (p d k : list nat) : xr * list nat * list nat :=
  (Fin 1, map (fun x => x + hd 0 k) d, map S k).
Definition eg_update (p d s k : list nat) : list nat * list nat * option dict * list nat :=
  (map (fun x => x + hd 0 d) p, map S s, Some [("energy"%string, Fin 0)], map S k).
Definition eg_cfg : cfg (list nat) :=
  {| logdir := Some "logs"%string; checkpoint_every := Some 2; best_checkpoint_every := None;
     checkpoint_dir := "checkpoints"%string; variance_scale := 1; check_for_nans := false;
     record_amplitudes := false; get_amplitude_fn := None; nchains := 1; nhistory_max := 3 |}.
Definition eg_heap : heap nat :=
  {| h_next := 4;
     h_at := fun l => match l with 0 => Some 100 | 1 => Some 0 | 2 => Some 5 | 3 => Some 7 | _ => None end |}.
(** The writer thread only gets to work after the loop has ended. *)
Definition eg_late (_ : nat) : nat * nat * nat * nat := (0, 0, 0, 0).

Example C80_example :
  match bvmc_loop (donating_walk eg_walk) (donating_update (fun _ => []) eg_update) (fun _ => false) eg_late
          eg_cfg 0 4 eg_heap [0] [1] [2] [3] with
  | BFinished h params opt data key _ files _ =>
      (* the arrays the run started with, except the walkers, are gone *)
      h_at h 0 = None /\ h_at h 1 = None /\ h_at h 3 = None /\
      map (fun f => match snd f with
                    | Some c => Some (c_epoch c, c_params c, c_opt c, c_data c, c_key c)
                    | None => None end) files
      = [Some (1, [112], [1], [12], [9]); Some (3, [165], [3], [32], [13])]
  | _ => False
  end /\
  sound eg_heap /\ holds eg_heap [0] [100] /\ holds eg_heap [1] [0] /\ holds eg_heap [2] [5] /\
  holds eg_heap [3] [7] /\ apart [2] ([0] ++ [1] ++ [3]) /\ apart [3] ([0] ++ [1]).
Proof.
  split; [vm_compute; repeat split; reflexivity|].
  split; [intros l v; simpl; do 4 (destruct l as [|l]; [lia|]); discriminate|].
  repeat split; try (constructor; [reflexivity|constructor]);
    intros l Hl Hz; simpl in *; lia.
Qed.

(** The dictionary of the walkers is copied, the arrays in it are not (vmc.py 114).  An update that
    computes the same and, besides, deletes the buffers of the walkers it is given, destroys the
    checkpoints: the writer thread meets a deleted array, although the main thread never does. *)
Theorem C80_donated_walkers_refuted :
  exists (walk : heap nat -> list loc -> list loc -> list loc -> heap nat * xr * list loc * list loc) w update u
         g start nepochs h params opt data key pv sv dv kv,
    walks walk w /\
    (forall h p d s k pv dv sv kv, sound h -> holds h p pv -> holds h d dv -> holds h s sv -> holds h k kv ->
       let '(h', p', d', s', m, k') := update h p d s k in
       let '(pv', dv', sv', m', kv') := u pv dv sv kv in
       holds h' p' pv' /\ holds h' d' dv' /\ holds h' s' sv' /\ holds h' k' kv' /\ m = m' /\
       only_deletes (p ++ s ++ k ++ d) h h') /\
    sound h /\ holds h params pv /\ holds h opt sv /\ holds h data dv /\ holds h key kv /\
    apart data (params ++ opt ++ key) /\ apart key (params ++ opt) /\
    match bvmc_loop walk update (fun _ => false) eg_late g start nepochs h params opt data key with
    | BFinished _ _ _ _ _ _ files _ => exists name, In (name, None) files
    | _ => False
    end.
Proof.
  (* walkers that do not move in the walk: the update is given the very arrays of the checkpoint *)
  set (stay := fun (h : heap nat) (p d k : list loc) => (h, Fin 1, d, k)).
  exists stay, (fun _ d k => (Fin 1, d, k)), (donating_update (fun d => d) eg_update),
    (fun pv dv sv kv => let '(pv', sv', m, kv') := eg_update pv dv sv kv in (pv', dv, sv', m, kv')),
    eg_cfg, 0, 4, eg_heap, [0], [1], [2], [3], [100], [0], [5], [7].
  split; [|split].
  - intros h p d k pv dv kv h' a d' k' Hs Hp Hd Hk A1 A2 [= <- <- <- <-].
    exists dv, kv. repeat split; auto; try (intros l Hl; now left).
    intros l Hl Hz. apply (A1 l Hl). rewrite in_app_iff. tauto.
  - intros h p d s k pv dv sv kv Hs Hp Hd Ho Hk. unfold donating_update.
    rewrite (holds_read _ _ _ Hp), (holds_read _ _ _ Hd), (holds_read _ _ _ Ho), (holds_read _ _ _ Hk).
    unfold eg_update.
    set (pv' := map _ pv). set (sv' := map S sv). set (kv' := map S kv).
    assert (N0 : let '(h0, d') := match d with [] => (h, d) | _ => new_arrays h dv end in
      holds h0 d' dv /\ only_deletes [] h h0 /\ (forall l, In l d' -> h_next h <= l)).
    { destruct d as [|x d].
      - repeat split; auto. intros l [].
      - pose proof (new_arrays_ok dv h Hs) as N. destruct (new_arrays h dv) as [h0 d'].
        destruct N as (Ha & Hb & Hc). repeat split; auto; try apply Hb. intros l Hl. now apply Hc. }
    destruct (match d with [] => (h, d) | _ => new_arrays h dv end) as [h0 d'] eqn:E0.
    destruct N0 as (H0 & O0 & B0).
    assert (Hl : forall l, In l (p ++ s ++ k ++ d) -> l < h_next h).
    { intros l Hl. rewrite !in_app_iff in Hl.
      destruct Hl as [Hl|[Hl|[Hl|Hl]]];
        [exact (holds_lt _ _ _ _ Hs Hp Hl)|exact (holds_lt _ _ _ _ Hs Ho Hl)|
         exact (holds_lt _ _ _ _ Hs Hk Hl)|exact (holds_lt _ _ _ _ Hs Hd Hl)]. }
    set (Z := (p ++ s ++ k ++ d)%list) in *.
    pose proof (delete_ok h0 Z (proj1 O0)) as Od.
    assert (H0d : holds (delete h0 Z) d' dv).
    { eapply holds_only; [exact Od| |exact H0]. intros l Hi Hz. specialize (B0 l Hi). specialize (Hl l Hz). lia. }
    pose proof (new_arrays_ok pv' (delete h0 Z) (proj1 Od)) as N1.
    destruct (new_arrays (delete h0 Z) pv') as [h1 l1]. destruct N1 as (H1 & O1 & _).
    pose proof (new_arrays_ok sv' h1 (proj1 O1)) as N2.
    destruct (new_arrays h1 sv') as [h2 l2]. destruct N2 as (H2 & O2 & _).
    pose proof (new_arrays_ok kv' h2 (proj1 O2)) as N3.
    destruct (new_arrays h2 kv') as [h3 l3]. destruct N3 as (H3 & O3 & _).
    assert (Step : forall a b ls vs, only_deletes [] a b -> @holds nat a ls vs -> holds b ls vs)
      by (intros; eapply holds_only; [eassumption|intros ? ? []|assumption]).
    split; [eauto|]. split; [eauto|]. split; [eauto|]. split; [exact H3|]. split; [reflexivity|].
    apply (only_trans [] Z Z _ h0); [exact O0| |intros ? []|apply incl_refl].
    apply (only_trans Z [] Z _ h2); [|exact O3|apply incl_refl|intros ? []].
    apply (only_trans Z [] Z _ h1); [|exact O2|apply incl_refl|intros ? []].
    apply (only_trans Z [] Z _ (delete h0 Z)); [exact Od|exact O1|apply incl_refl|intros ? []].
  - destruct C80_example as (_ & C1 & C2 & C3 & C4 & C5 & C6 & C7).
    do 7 (split; [assumption|]).
    vm_compute. eexists. left. reflexivity.
Qed.
Print Assumptions C80_donated_walkers_refuted.

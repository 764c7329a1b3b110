(** * The keys of a whole job *)
From Coq Require Import String Reals List Arith Bool Lia Lra FunctionalExtensionality.
From Verif Require Import XReal Rsum M_io M_vmc M_files M_mcmc M_distribute M_energy M_physics M_setup M_slog M_models M_construct M_dispatch M_keys M_optim M_optax M_run M_start M_job
  S_models S_mcmc S_vmc S_files S_optim S_run S_start S_optax S_energy S_physics S_setup S_job S_jobkeys P_mcmc P_walkers P_balance P_distribute P_start P_energy P_grad P_setup P_keys T_optax T_setup T_start P_vmc P_vmc2 P_vmc3 P_files P_job P_accept P_run P_sample P_jobrun.
Import ListNotations.
Local Open Scope R_scope.
Local Notation zipw := M_mcmc.zipw.

(** ** Paths *)
Fixpoint left (n : nat) (k : key) : key := match n with O => k | S n => SplitOp 2 0 :: left n k end.
Definition right_ (k : key) : key := SplitOp 2 1 :: k.
Lemma left_add m n k : left (m + n) k = left m (left n k).
Proof. induction m; cbn; congruence. Qed.
Lemma left_S n k : left (S n) k = SplitOp 2 0 :: left n k. Proof. reflexivity. Qed.
Lemma left_derived n k : derived k (left n k).
Proof. exists (repeat (SplitOp 2 0) n). induction n as [|n IH]; cbn; congruence. Qed.
Lemma left_from m n k : (m <= n)%nat -> derived (left m k) (left n k).
Proof. intros H. replace n with ((n - m) + m)%nat by lia. rewrite left_add. apply left_derived. Qed.
Lemma right_derived k : derived k (right_ k). Proof. exists [SplitOp 2 1]. reflexivity. Qed.
Lemma rl_derived n k : derived k (right_ (left n k)).
Proof. eapply derived_trans; [apply (left_derived n)|apply right_derived]. Qed.
Lemma right_left m n k k' : (m < n)%nat -> derived (left n k) k' -> unrelated (right_ (left m k)) k'.
Proof.
  intros H D. apply (unrelated_derived (right_ (left m k)) (left (S m) k)); [apply unrelated_siblings; discriminate|apply derived_refl|].
  eapply derived_trans; [apply left_from; exact H|exact D].
Qed.
Lemma two_rights m n k : m <> n -> unrelated (right_ (left m k)) (right_ (left n k)).
Proof.
  intros H. destruct (Nat.lt_ge_cases m n) as [L|L]; [apply (right_left m n); [exact L|apply right_derived]|].
  apply unrelated_sym. apply (right_left n m); [lia|apply right_derived].
Qed.

(** ** The key of each draw *)
Section Schedule.
  Variables (c : job_config) (seed : key) (proc ndev : nat).
  Notation nb := (wc_nburn (jc_walk c)). Notation ns := (wc_nsteps (jc_walk c)). Notation nch := (wc_nchains (jc_walk c)).
  Notation enb := (wc_nburn (jc_eval_walk c)). Notation ens := (wc_nsteps (jc_eval_walk c)). Notation ench := (wc_nchains (jc_eval_walk c)).
  Definition kfac_keys : nat := if String.eqb (oc_type (jc_optimizer c)) "kfac" then 1 else 0.
  Definition device_key (k : key) (dv : nat) : key := SplitOp ndev dv :: FoldOp proc :: k.
  Definition root1 (dv : nat) : key := device_key (left (nch + 2) seed) dv.
  Definition epoch_start (e : nat) : nat := kfac_keys + 2 * nb + e * (2 * ns + 1).
  Definition root2 (dv : nat) : key := device_key (left (epoch_start (jc_nepochs c) + (ench + 1)) (root1 0)) dv.
  Definition eval_root (dv : nat) : key * nat := if new_eval_walkers c then (root2 dv, O) else (root1 dv, epoch_start (jc_nepochs c)).
  Definition step_place (m : moment) (dv : nat) : key * nat :=
    match m with
    | Burning t => (root1 dv, kfac_keys + 2 * t)%nat
    | Training e t => (root1 dv, epoch_start e + 2 * t)%nat
    | EvalBurning t => (fst (eval_root dv), snd (eval_root dv) + 2 * t)%nat
    | Evaluating e t => (fst (eval_root dv), snd (eval_root dv) + 2 * enb + e * (2 * ens) + 2 * t)%nat
    end.
  Definition key_of (d : draw) : key :=
    match d with
    | Ions false i => right_ (left i seed)
    | Noise false => right_ (left nch seed)
    | FirstParameters => right_ (left (nch + 1) seed)
    | Ions true i => right_ (left (epoch_start (jc_nepochs c) + i) (root1 0))
    | Noise true => right_ (left (epoch_start (jc_nepochs c) + ench) (root1 0))
    | FirstOptimiserState dv => right_ (left 0 (root1 dv))
    | Decisions m dv => right_ (left (snd (step_place m dv)) (fst (step_place m dv)))
    | Proposals m dv => right_ (left (snd (step_place m dv) + 1) (fst (step_place m dv)))
    | Update e dv => right_ (left (epoch_start e + 2 * ns) (root1 dv))
    end.

  (** Where a draw's key lies: on the trunk, on a device's branch, on a device's second branch; and how far. *)
  Inductive place := Trunk (m : nat) | Branch (dv m : nat) | Second (dv m : nat).
  Definition place_key (p : place) : key :=
    match p with Trunk m => right_ (left m seed) | Branch dv m => right_ (left m (root1 dv)) | Second dv m => right_ (left m (root2 dv)) end.
  Definition eval_place (dv m : nat) : place := if new_eval_walkers c then Second dv m else Branch dv (epoch_start (jc_nepochs c) + m).
  Definition place_of (d : draw) : place :=
    match d with
    | Ions false i => Trunk i
    | Noise false => Trunk nch
    | FirstParameters => Trunk (nch + 1)
    | Ions true i => Branch 0 (epoch_start (jc_nepochs c) + i)
    | Noise true => Branch 0 (epoch_start (jc_nepochs c) + ench)
    | FirstOptimiserState dv => Branch dv 0
    | Decisions (Burning t) dv => Branch dv (kfac_keys + 2 * t)
    | Proposals (Burning t) dv => Branch dv (kfac_keys + 2 * t + 1)
    | Decisions (Training e t) dv => Branch dv (epoch_start e + 2 * t)
    | Proposals (Training e t) dv => Branch dv (epoch_start e + 2 * t + 1)
    | Decisions (EvalBurning t) dv => eval_place dv (2 * t)
    | Proposals (EvalBurning t) dv => eval_place dv (2 * t + 1)
    | Decisions (Evaluating e t) dv => eval_place dv (2 * enb + e * (2 * ens) + 2 * t)
    | Proposals (Evaluating e t) dv => eval_place dv (2 * enb + e * (2 * ens) + 2 * t + 1)
    | Update e dv => Branch dv (epoch_start e + 2 * ns)
    end.
  Lemma key_place d : key_of d = place_key (place_of d).
  Proof.
    assert (E : forall dv m, place_key (eval_place dv m) = right_ (left (snd (eval_root dv) + m) (fst (eval_root dv)))) by (intros dv m; unfold eval_place, eval_root; destruct (new_eval_walkers c); reflexivity).
    destruct d as [[|] i|[|]| |dv|[t|e t|t|e t] dv|[t|e t|t|e t] dv|e dv]; cbn [key_of place_of step_place fst snd]; try reflexivity; rewrite E; do 2 f_equal; lia.
  Qed.
  (** Which places are used. *)
  Definition used (p : place) : Prop :=
    match p with Trunk m => (m < nch + 2)%nat | Branch dv m => dv = O -> new_eval_walkers c = true -> (m < epoch_start (jc_nepochs c) + (ench + 1))%nat | Second dv m => new_eval_walkers c = true end.
  Lemma places_unrelated p q : used p -> used q -> p <> q -> unrelated (place_key p) (place_key q).
  Proof.
    assert (T : forall m dv q', (m < nch + 2)%nat -> derived (root1 dv) q' -> unrelated (right_ (left m seed)) q').
    { intros m dv q' Hm D. apply (right_left m (nch + 2)); [exact Hm|]. eapply derived_trans; [|exact D]. exists [SplitOp ndev dv; FoldOp proc]. reflexivity. }
    assert (R12 : forall dv q', derived (root2 dv) q' -> derived (left (epoch_start (jc_nepochs c) + (ench + 1)) (root1 0)) q').
    { intros dv q' D. eapply derived_trans; [|exact D]. exists [SplitOp ndev dv; FoldOp proc]. reflexivity. }
    assert (DD : forall k dv dv', dv <> dv' -> unrelated (device_key k dv) (device_key k dv')) by (intros k dv dv' H; apply unrelated_siblings; congruence).
    assert (BS : forall dv m dv' m', used (Branch dv m) -> used (Second dv' m') -> unrelated (place_key (Branch dv m)) (place_key (Second dv' m'))).
    { intros dv m dv' m' H1 H2. cbn [place_key]. destruct (Nat.eq_dec dv 0) as [-> |N].
      - apply (right_left m (epoch_start (jc_nepochs c) + (ench + 1))); [apply H1; [reflexivity|exact H2]|]. apply (R12 dv'). apply rl_derived.
      - apply (unrelated_derived (root1 dv) (root1 0)); [apply DD; exact N|apply rl_derived|]. eapply derived_trans; [apply left_derived|]. apply (R12 dv'). apply rl_derived. }
    destruct p as [m|dv m|dv m], q as [m'|dv' m'|dv' m']; intros H1 H2 N; cbn [place_key].
    - apply two_rights. congruence.
    - apply (T m dv'); [exact H1|apply rl_derived].
    - apply (T m O); [exact H1|]. eapply derived_trans; [apply left_derived|]. apply (R12 dv'). apply rl_derived.
    - apply unrelated_sym. apply (T m' dv); [exact H2|apply rl_derived].
    - destruct (Nat.eq_dec dv dv') as [-> |Nd]; [apply two_rights; congruence|]. apply (unrelated_derived (root1 dv) (root1 dv')); [apply DD; exact Nd|apply rl_derived|apply rl_derived].
    - apply BS; assumption.
    - apply unrelated_sym. apply (T m' O); [exact H2|]. eapply derived_trans; [apply left_derived|]. apply (R12 dv). apply rl_derived.
    - apply unrelated_sym. apply BS; assumption.
    - destruct (Nat.eq_dec dv dv') as [-> |Nd]; [apply two_rights; congruence|]. apply (unrelated_derived (root2 dv) (root2 dv')); [apply DD; exact Nd|apply rl_derived|apply rl_derived].
  Qed.
  Lemma new_iff : new_eval_walkers c = true <-> new_walkers_for_evaluation c.
  Proof.
    unfold new_eval_walkers, new_walkers_for_evaluation. rewrite orb_true_iff, !negb_true_iff, Nat.eqb_neq. reflexivity.
  Qed.
  Lemma epochs_apart w e t e' t' : (t < w)%nat -> (t' < w)%nat -> (e * w + t = e' * w + t')%nat -> e = e' /\ t = t'.
  Proof. intros H H' E. assert (e = e') by nia. subst. split; [reflexivity|lia]. Qed.
  Lemma epoch_le e n w t : (e < n)%nat -> (t < w)%nat -> (e * w + t < n * w)%nat. Proof. nia. Qed.
  Lemma draws_used d : draw_of_job ndev c d -> used (place_of d).
  Proof.
    assert (EP : forall dv m, used (eval_place dv m)). { intros dv m. unfold eval_place. destruct (new_eval_walkers c) eqn:E; [exact E|]. cbn. congruence. }
    assert (B : forall dv m, (m < epoch_start (jc_nepochs c) + 1)%nat -> used (Branch dv m)) by (intros dv m H _ _; lia).
    assert (S0 : (kfac_keys + 2 * nb <= epoch_start (jc_nepochs c))%nat) by (unfold epoch_start; lia).
    destruct d as [[|] i|[|]| |dv|[t|e t|t|e t] dv|[t|e t|t|e t] dv|e dv]; cbn [draw_of_job place_of step_of_job]; intros H; try apply EP; try (unfold used; intros; lia); apply B.
    - destruct H as ((H1 & H2) & _). pose proof (epoch_le e (jc_nepochs c) (2 * ns + 1) (2 * t + 1) H1 ltac:(lia)). unfold epoch_start. lia.
    - destruct H as ((H1 & H2) & _). pose proof (epoch_le e (jc_nepochs c) (2 * ns + 1) (2 * t) H1 ltac:(lia)). unfold epoch_start. lia.
    - destruct H as (H1 & _). pose proof (epoch_le e (jc_nepochs c) (2 * ns + 1) (2 * ns) H1 ltac:(lia)). unfold epoch_start. lia.
  Qed.
  (** Different draws are at different places: offsets of a device's branch are ordered as burning, epochs, evaluation. *)
  Lemma places_differ d d' : draw_of_job ndev c d -> draw_of_job ndev c d' -> place_of d = place_of d' -> d = d'.
  Proof.
    set (N := epoch_start (jc_nepochs c)).
    assert (ES : forall e, epoch_start e = (kfac_keys + 2 * nb + e * (2 * ns + 1))%nat) by reflexivity.
    assert (EN : forall e, (e < jc_nepochs c)%nat -> (epoch_start e + 2 * ns < N)%nat).
    { intros e H1. pose proof (epoch_le e (jc_nepochs c) (2 * ns + 1) (2 * ns) H1 ltac:(lia)). unfold N. rewrite !ES. lia. }
    assert (EE : forall e e', (e < e')%nat -> (epoch_start e + 2 * ns + 1 <= epoch_start e')%nat).
    { intros e e' H1. pose proof (epoch_le e e' (2 * ns + 1) (2 * ns) H1 ltac:(lia)). rewrite !ES. lia. }
    assert (EV : forall e e', (e < e')%nat -> (e * (2 * ens) + 2 * ens <= e' * (2 * ens))%nat) by (intros; nia).
    assert (EB : forall e, (kfac_keys + 2 * nb <= epoch_start e)%nat) by (intros; rewrite ES; lia).
    assert (KF : oc_type (jc_optimizer c) = "kfac"%string -> kfac_keys = 1%nat) by (intros E; unfold kfac_keys; rewrite E; reflexivity).
    assert (N0 : (kfac_keys + 2 * nb <= N)%nat) by (unfold N; rewrite ES; lia).
    pose proof (proj2 new_iff) as NW.
    assert (EP : forall dv m, (new_eval_walkers c = true /\ eval_place dv m = Second dv m) \/ (new_eval_walkers c = false /\ eval_place dv m = Branch dv (N + m))).
    { intros dv m. unfold eval_place. destruct (new_eval_walkers c); auto. }
    assert (HN : epoch_start (jc_nepochs c) = N) by reflexivity. clearbody N. clear ES.
    destruct d as [[|] i|[|]| |dv|[t|e t|t|e t] dv|[t|e t|t|e t] dv|e dv], d' as [[|] i'|[|]| |dv'|[t'|e' t'|t'|e' t'] dv'|[t'|e' t'|t'|e' t'] dv'|e' dv'];
      cbn [draw_of_job place_of step_of_job]; intros H H' E.
    all: repeat match goal with H : _ /\ _ |- _ => destruct H end.
    all: repeat match type of E with context [eval_place ?a ?b] => destruct (EP a b) as [(? & Z)|(? & Z)]; rewrite Z in E; clear Z end.
    all: rewrite ?HN in E.
    all: try discriminate.
    all: try reflexivity.
    all: try congruence.
    all: try (match goal with Z : new_walkers_for_evaluation c |- _ => apply NW in Z end; congruence).
    all: try (match goal with Z : oc_type (jc_optimizer c) = _ |- _ => pose proof (KF Z) end).
    all: injection E; clear E; intros.
    all: repeat match goal with Z : ?a = ?b |- _ => (is_var a; is_var b; subst b) end.
    all: repeat match goal with Z : (?e < jc_nepochs c)%nat |- _ => pose proof (EN e Z); pose proof (EB e); clear Z end.
    all: try (exfalso; lia).
    all: try (f_equal; lia).
    all: try (f_equal; f_equal; lia).
    all: try (destruct (lt_eq_lt_dec e e') as [[L|L]|L]; [pose proof (EE _ _ L); exfalso; lia|subst e'; first [exfalso; lia | reflexivity | f_equal; f_equal; lia]|pose proof (EE _ _ L); exfalso; lia]).
    all: try (destruct (lt_eq_lt_dec e e') as [[L|L]|L]; [pose proof (EV _ _ L); exfalso; lia|subst e'; first [exfalso; lia | f_equal; f_equal; lia]|pose proof (EV _ _ L); exfalso; lia]).
  Qed.
  Theorem keys_unrelated d d' : draw_of_job ndev c d -> draw_of_job ndev c d' -> d <> d' -> unrelated (key_of d) (key_of d').
  Proof.
    intros H H' N. rewrite !key_place. apply places_unrelated; [apply draws_used; exact H|apply draws_used; exact H'|]. intros E. apply N. apply places_differ; assumption.
  Qed.
End Schedule.

(** ** The walk with its random numbers *)
Section Drawn.
  Context {P : Type} (g : prng key) (psi : P -> list R -> xr) (model_apply : P -> list (list R) -> list xr).
  Hypothesis Hg : good_prng g.
  Hypothesis Hs : forall k, split2 g k = key_split2 k.
  Hypothesis Hm : forall p xs, model_apply p xs = map (psi p) xs.
  Variables (nmoves ndev w n : nat).
  Notation inv := (inv psi ndev w n).
  Notation gs := (fun d : padata move_metadata => std_move (meta d)).
  Notation up := (Some (update_move_metadata nmoves (adjust_std_move (1 / 2) (5 / 100) (1 / 10)))).
  Lemma device_drawn p datas keys j d k : length datas = length keys -> nth_error datas j = Some d -> nth_error keys j = Some k -> consistent psi p d ->
    exists d', nth_error (snd (fst (pa_step g model_apply gs up true p datas keys))) j = Some d' /\
      pos d' = step_drawn psi p (gs d) (normal g (right_ (left 1 k)) (map (@length R) (pos d))) (uniform g (right_ (left 0 k)) (length (pos d))) (pos d).
  Proof.
    intros L Hd Hk Hcons. rewrite pa_step_unfold by assumption. cbn [fst snd].
    set (props := zipw (fun d k => fst (dev_prop g model_apply gs p d k)) datas keys). set (masks := zipw (dev_mask g model_apply gs true p) datas keys).
    assert (L1 : length datas = length props) by (unfold props; rewrite P_mcmc.zipw_length; lia).
    assert (L2 : length datas = length masks) by (unfold masks; rewrite P_mcmc.zipw_length; lia).
    assert (Hp : nth_error props j = Some (fst (dev_prop g model_apply gs p d k))) by (unfold props; rewrite zipw_nth_error, Hd, Hk; reflexivity).
    assert (Hmk : nth_error masks j = Some (dev_mask g model_apply gs true p d k)) by (unfold masks; rewrite zipw_nth_error, Hd, Hk; reflexivity).
    destruct (pa_update_nth up (Hupd_len nmoves) datas props masks j d _ _ L1 L2 Hd Hp Hmk) as [mt E].
    eexists. split; [exact E|]. cbn [pos]. set (zs := normal g (right_ (left 1 k)) (map (@length R) (pos d))). set (us := uniform g (right_ (left 0 k)) (length (pos d))).
    assert (Hpos : pos (fst (dev_prop g model_apply gs p d k)) = zipw (moved (gs d)) (pos d) zs).
    { unfold dev_prop, pa_proposal, gaussian_proposal. rewrite !Hs. reflexivity. }
    assert (Lzs : length zs = length (pos d)). { pose proof (f_equal (@length nat) (normal_shape _ Hg (right_ (left 1 k)) (map (@length R) (pos d)))) as Z. rewrite !map_length in Z. exact Z. }
    assert (Lus : length us = length (pos d)) by apply (uniform_length _ Hg).
    assert (Hamp : M_mcmc.amp (fst (dev_prop g model_apply gs p d k)) = map (psi p) (pos (fst (dev_prop g model_apply gs p d k)))) by (destruct (dev_prop_pos g psi model_apply Hg Hm gs p d k) as (zs' & _ & _ & Z & _); exact Z).
    assert (Lacc : length (dev_acc g model_apply gs true p d k) = length (pos d)).
    { unfold dev_acc, pa_acceptance, metropolis_symmetric_acceptance. unfold consistent in Hcons. rewrite P_mcmc.zipw_length, Hamp, map_length, Hpos, P_mcmc.zipw_length, Hcons, map_length. lia. }
    assert (Emask : dev_mask g model_apply gs true p d k = zipw accepts us (dev_acc g model_apply gs true p d k)) by (unfold dev_mask; rewrite Hs, Lacc; reflexivity).
    apply list_ext. intros i. rewrite mask_on_first_nth. unfold step_drawn. rewrite nth_error_map'.
    destruct (Nat.lt_ge_cases i (length (pos d))) as [Hi|Hi].
    - rewrite (nth_error_nth' (seq 0 (length (pos d))) O) by (rewrite seq_length; exact Hi). rewrite seq_nth by exact Hi. cbn [option_map plus].
      set (x := nth i (pos d) []). set (z := nth i zs []). set (u := nth i us 0).
      assert (Hx : nth_error (pos d) i = Some x) by (apply nth_error_nth'; exact Hi). assert (Hz : nth_error zs i = Some z) by (apply nth_error_nth'; lia).
      assert (Hu : nth_error us i = Some u) by (apply nth_error_nth'; lia).
      assert (Hy : nth_error (pos (fst (dev_prop g model_apply gs p d k))) i = Some (moved (gs d) x z)) by (rewrite Hpos, zipw_nth_error, Hx, Hz; reflexivity).
      assert (Hac : nth_error (dev_acc g model_apply gs true p d k) i = Some (accept_log (psi p x) (psi p (moved (gs d) x z)))).
      { unfold dev_acc, pa_acceptance, metropolis_symmetric_acceptance. rewrite zipw_nth_error. unfold consistent in Hcons. rewrite Hcons, Hamp, !nth_error_map', Hx, Hy. reflexivity. }
      rewrite Emask, zipw_nth_error, Hu, Hac, Hx, Hy. f_equal. rewrite <- chance_log.
      destruct (accepts_probability (accept_log (psi p x) (psi p (moved (gs d) x z)))) as (_ & HP). specialize (HP u (uniform_range _ Hg _ _ _ (nth_error_In _ _ Hu))).
      destruct (Rlt_dec u (pr (accept_log (psi p x) (psi p (moved (gs d) x z))))) as [Z|Z]; [rewrite (proj2 HP Z); reflexivity|].
      destruct (accepts u _); [exfalso; apply Z, HP; reflexivity|reflexivity].
    - rewrite (proj2 (nth_error_None (pos d) i)) by exact Hi. rewrite (proj2 (nth_error_None (seq 0 (length (pos d))) i)) by (rewrite seq_length; exact Hi).
      destruct (nth_error (dev_mask g model_apply gs true p d k) i); reflexivity.
  Qed.

  (** The keys of all devices, m keys along. *)
  Definition keys_at (root : nat -> key) (m : nat) : list key := map (fun dv => left m (root dv)) (seq 0 ndev).
  Lemma keys_nth root m dv : (dv < ndev)%nat -> nth_error (keys_at root m) dv = Some (left m (root dv)).
  Proof. intros H. unfold keys_at. rewrite nth_error_map', (nth_error_nth' _ O) by (rewrite seq_length; exact H). rewrite seq_nth by exact H. reflexivity. Qed.
  Lemma step_keys_at p datas root m : inv p datas (keys_at root m) -> snd (run_step g model_apply nmoves p datas (keys_at root m)) = keys_at root (m + 2).
  Proof.
    intros (L1 & L2 & _). unfold run_step, dynamic_step. cbv zeta. rewrite pa_step_unfold by lia. cbn [snd]. apply list_ext. intros i. rewrite zipw_nth_error.
    destruct (Nat.lt_ge_cases i ndev) as [Hi|Hi].
    - rewrite !keys_nth by exact Hi. rewrite (nth_error_nth' datas (Build_padata [] [] {| std_move := 0; acc_sum := 0; moves := 0 |})) by lia. f_equal.
      unfold dev_prop, pa_proposal, gaussian_proposal. rewrite !Hs. cbn [snd fst key_split2]. rewrite Nat.add_comm, left_add. reflexivity.
    - rewrite (proj2 (nth_error_None datas i)) by lia. symmetry. apply nth_error_None. unfold keys_at. rewrite map_length, seq_length. exact Hi.
  Qed.
  Lemma step_drawn_all p datas root m : inv p datas (keys_at root m) -> exists s, 0 < s /\
    map pos (snd (fst (run_step g model_apply nmoves p datas (keys_at root m)))) =
    map (fun dv => let l := nth dv (map pos datas) [] in step_drawn psi p s (normal g (right_ (left (m + 1) (root dv))) (map (@length R) l)) (uniform g (right_ (left m (root dv))) (length l)) l) (seq 0 ndev).
  Proof.
    intros (L1 & L2 & H & mt & Hm1 & Hm2). unfold run_step, dynamic_step. cbv zeta. assert (L : length datas = length (keys_at root m)) by lia.
    pose proof (step_lengths g model_apply gs up true (Hupd_len nmoves) p datas (keys_at root m) L) as [S1 S2].
    exists (std_move mt). split; [exact Hm1|]. apply list_ext. intros j. rewrite !nth_error_map'. destruct (Nat.lt_ge_cases j ndev) as [Hj|Hj].
    - rewrite (nth_error_nth' (seq 0 ndev) O) by (rewrite seq_length; exact Hj). rewrite seq_nth by exact Hj. cbn [option_map plus].
      destruct (nth_error datas j) as [d|] eqn:Hd; [|apply nth_error_None in Hd; lia].
      destruct (nth_error_Forall _ _ _ _ H Hd) as (_ & _ & Hcons).
      destruct (device_drawn p datas (keys_at root m) j d _ L Hd (keys_nth root m j Hj) Hcons) as (d' & E1 & E2). rewrite E1. cbn [option_map]. f_equal. rewrite E2.
      assert (Es : gs d = std_move mt). { cbv beta. f_equal. apply nth_error_In in Hd. apply (in_map meta) in Hd. rewrite Hm2 in Hd. apply repeat_spec in Hd. exact Hd. }
      assert (El : nth j (map pos datas) [] = pos d) by (apply nth_error_nth; rewrite nth_error_map', Hd; reflexivity). rewrite El, Es.
      rewrite <- left_add. cbn [left]. rewrite (Nat.add_comm m 1). reflexivity.
    - rewrite (proj2 (nth_error_None (snd (fst (pa_step g model_apply gs up true p datas (keys_at root m)))) j)) by lia. rewrite (proj2 (nth_error_None (seq 0 ndev) j)) by (rewrite seq_length; exact Hj). reflexivity.
  Qed.
  Notation drawn root p m := (walk_drawn g ndev psi p (fun t dv => right_ (left (m + 2 * t + 1) (root dv))) (fun t dv => right_ (left (m + 2 * t) (root dv)))).
  Lemma drawn_S root p m t xs xs1 ys s : 0 < s ->
    xs1 = map (fun dv => let l := nth dv xs [] in step_drawn psi p s (normal g (right_ (left (m + 1) (root dv))) (map (@length R) l)) (uniform g (right_ (left m (root dv))) (length l)) l) (seq 0 ndev) ->
    drawn root p (m + 2)%nat t xs1 ys -> drawn root p m (S t) xs ys.
  Proof.
    intros H0 H1 (zs & Z0 & Z1 & Z2). exists (fun t => match t with O => xs | S t => zs t end). split; [reflexivity|]. split; [exact Z1|]. intros [|i] Hi.
    - exists s. split; [exact H0|]. rewrite Z0, H1. rewrite Nat.mul_0_r, Nat.add_0_r. reflexivity.
    - destruct (Z2 i ltac:(lia)) as (s' & S1 & S2). exists s'. split; [exact S1|]. rewrite S2. replace (m + 2 * S i)%nat with (m + 2 + 2 * i)%nat by lia. reflexivity.
  Qed.
  Lemma burn_drawn t : forall p datas root m, inv p datas (keys_at root m) ->
    let r := burn_data (burning_step (run_step g model_apply nmoves)) t p datas (keys_at root m) in
    drawn root p m t (map pos datas) (map pos (fst r)) /\ snd r = keys_at root (m + 2 * t).
  Proof.
    induction t as [|t IH]; intros p datas root m H; cbv zeta.
    - split; [exists (fun _ => map pos datas); split; [reflexivity|]; split; [reflexivity|intros; lia]|]. rewrite Nat.mul_0_r, Nat.add_0_r. reflexivity.
    - pose proof (step_inv g psi model_apply Hg Hm nmoves ndev w n p datas _ H) as SI. cbv zeta in SI. rewrite step_keys_at in SI by exact H. destruct (step_drawn_all p datas root m H) as (s & S1 & S2).
      change (burn_data (burning_step (run_step g model_apply nmoves)) (Datatypes.S t) p datas (keys_at root m)) with
        (let (data, key) := burning_step (run_step g model_apply nmoves) p datas (keys_at root m) in burn_data (burning_step (run_step g model_apply nmoves)) t p data key).
      assert (E : burning_step (run_step g model_apply nmoves) p datas (keys_at root m) = (snd (fst (run_step g model_apply nmoves p datas (keys_at root m))), keys_at root (m + 2))).
      { rewrite <- (step_keys_at p datas root m H). unfold burning_step. destruct (run_step g model_apply nmoves p datas (keys_at root m)) as [[a' ds] ks]. reflexivity. }
      rewrite E. destruct (IH p _ root (m + 2)%nat SI) as (D1 & D2). split; [eapply drawn_S; [exact S1|exact S2|exact D1]|]. rewrite D2. f_equal. lia.
  Qed.
  Lemma scan_drawn t : forall acc p datas root m, inv p datas (keys_at root m) ->
    let r := walk_scan (zipw xadd) (run_step g model_apply nmoves) p t (acc, datas, keys_at root m) in
    drawn root p m t (map pos datas) (map pos (snd (fst r))) /\ snd r = keys_at root (m + 2 * t).
  Proof.
    induction t as [|t IH]; intros acc p datas root m H; cbv zeta; cbn [walk_scan].
    - split; [exists (fun _ => map pos datas); split; [reflexivity|]; split; [reflexivity|intros; lia]|]. cbn [snd]. rewrite Nat.mul_0_r, Nat.add_0_r. reflexivity.
    - pose proof (step_inv g psi model_apply Hg Hm nmoves ndev w n p datas _ H) as SI. cbv zeta in SI. rewrite step_keys_at in SI by exact H. destruct (step_drawn_all p datas root m H) as (s & S1 & S2).
      pose proof (step_keys_at p datas root m H) as EK. destruct (run_step g model_apply nmoves p datas (keys_at root m)) as [[a' ds] ks]. cbn [fst snd] in *. subst ks.
      destruct (IH (zipw xadd acc a') p ds root (m + 2)%nat SI) as (D1 & D2). split; [eapply drawn_S; [exact S1|exact S2|exact D1]|]. rewrite D2. f_equal. lia.
  Qed.
  Lemma walker_drawn nsteps p datas root m : inv p datas (keys_at root m) ->
    let r := walker_fn_pmapped nsteps (run_step g model_apply nmoves) ndev p datas (keys_at root m) in
    drawn root p m nsteps (map pos datas) (map pos (snd (fst r))) /\ snd r = keys_at root (m + 2 * nsteps).
  Proof.
    intros H. cbv zeta. unfold walker_fn_pmapped, walk_data_gen. destruct (scan_drawn nsteps (repeat (Fin 0) ndev) p datas root m H) as (D1 & D2).
    destruct (walk_scan _ _ _ _ _) as [[a ds] ks]. split; [exact D1|exact D2].
  Qed.
End Drawn.

(** ** New walkers *)
Section New.
  Variables (g : prng key) (choice : choice_fn key) (c : job_config).
  Hypothesis Hg : good_prng g.
  Hypothesis Hc : good_choice choice.
  Hypothesis Hs : forall k, split2 g k = key_split2 k.
  Hypothesis Hw : well_formed_ions c.
  Notation nd := (electron_count c * space_dim c)%nat.
  Notation centre k := (concat (map (fun a => nth a (jc_ion_pos c) []) (ions_drawn choice c k))).
  Lemma left_shift i k : left i (SplitOp 2 0 :: k) = left (S i) k.
  Proof. change (SplitOp 2 0 :: k) with (left 1 k). rewrite <- left_add. f_equal. lia. Qed.
  Lemma drawn_choice k : choice k (length (jc_ion_charges c)) (jc_n c) (negb (Nat.leb (jc_n c) (length (jc_ion_charges c)))) (map (fun z => z / fold_right Rplus 0 (jc_ion_charges c)) (jc_ion_charges c)) = ions_drawn choice c k.
  Proof.
    unfold ions_drawn. change (electron_count c) with (jc_n c). f_equal. unfold Nat.ltb.
    destruct (Nat.leb_spec (jc_n c) (length (jc_ion_charges c))), (Nat.leb_spec (S (length (jc_ion_charges c))) (jc_n c)); try reflexivity; lia.
  Qed.
  Lemma assign_drawn n : forall k, assign_electrons g choice n (jc_ion_pos c) (jc_ion_charges c) (jc_n c) k = (map (fun i => centre (right_ (left i k))) (seq 0 n), left n k).
  Proof.
    induction n as [|n IH]; intros k; [reflexivity|]. cbn [assign_electrons]. rewrite Hs. unfold key_split2. cbv beta zeta iota. rewrite drawn_choice, IH. f_equal.
    - cbn [seq map left]. f_equal. rewrite <- seq_shift, map_map. apply map_ext. intros i. rewrite left_shift. reflexivity.
    - apply left_shift.
  Qed.
  Lemma centre_length k : length (centre k) = nd.
  Proof.
    destruct Hw as (W1 & W2 & W3). unfold ions_drawn. rewrite (concat_rows_length (space_dim c)).
    - rewrite map_length, (choice_length _ Hc). reflexivity.
    - apply Forall_forall. intros r Hr. apply in_map_iff in Hr. destruct Hr as (a & <- & Ha). rewrite Forall_forall in W2. apply W2. apply nth_In. rewrite <- W3.
      eapply (choice_range _ Hc); [| |exact Ha]; [rewrite W3; destruct (jc_ion_pos c); [contradiction|cbn; lia]|].
      destruct (Nat.ltb_spec (length (jc_ion_charges c)) (electron_count c)); [left; reflexivity|right; assumption].
  Qed.
  Lemma new_drawn n k : initialize_molecular_pos g choice k n (jc_ion_pos c) (jc_ion_charges c) (jc_n c) 1 =
    (left (n + 1) k, new_walkers c n (fun i => ions_drawn choice c (right_ (left i k))) (normal g (right_ (left n k)) (repeat nd n))).
  Proof.
    unfold initialize_molecular_pos. rewrite assign_drawn. rewrite Hs. unfold key_split2. cbv iota. f_equal; [rewrite Nat.add_comm; reflexivity|].
    assert (E : map (@length R) (map (fun i => centre (right_ (left i k))) (seq 0 n)) = repeat nd n).
    { rewrite map_map. apply list_ext. intros i. rewrite nth_error_map'. destruct (Nat.lt_ge_cases i n) as [Hi|Hi].
      - rewrite (nth_error_nth' _ O) by (rewrite seq_length; exact Hi). cbn [option_map]. rewrite centre_length. symmetry. apply nth_error_repeat. exact Hi.
      - rewrite !(proj2 (nth_error_None _ _)); [reflexivity|rewrite repeat_length; exact Hi|rewrite seq_length; exact Hi]. }
    rewrite E. change (SplitOp 2 1 :: left n k) with (right_ (left n k)). unfold new_walkers. set (zs := normal g (right_ (left n k)) (repeat nd n)).
    assert (Lz : length zs = n). { pose proof (f_equal (@length nat) (normal_shape _ Hg (right_ (left n k)) (repeat nd n))) as Z. rewrite map_length, repeat_length in Z. exact Z. }
    clearbody zs. apply list_ext. intros i. rewrite zipw_nth_error, !nth_error_map'. destruct (Nat.lt_ge_cases i n) as [Hi|Hi].
    - rewrite (nth_error_nth' (seq 0 n) O) by (rewrite seq_length; exact Hi). rewrite seq_nth by exact Hi. cbn [option_map plus]. rewrite (nth_error_nth' zs []) by lia. reflexivity.
    - rewrite (proj2 (nth_error_None (seq 0 n) i)) by (rewrite seq_length; exact Hi). reflexivity.
  Qed.
  Lemma new_walkers_length n a zs : length (new_walkers c n a zs) = n. Proof. unfold new_walkers. rewrite map_length. apply seq_length. Qed.
  Lemma new_walkers_first n k zs : (0 < n)%nat -> zs = normal g k (repeat nd n) -> forall kk, map (@length R) (firstn 1 (new_walkers c n (fun i => ions_drawn choice c (right_ (left i kk))) zs)) = [nd].
  Proof.
    intros Hn Ez kk. destruct n as [|n]; [lia|]. unfold new_walkers. cbn [seq map firstn]. f_equal. unfold moved. rewrite P_mcmc.zipw_length, centre_length.
    assert (E : length (nth 0 zs []) = nd). { pose proof (normal_shape _ Hg k (repeat nd (S n))) as Z. rewrite <- Ez in Z. cbn [repeat] in Z. destruct zs as [|z zs]; [discriminate|]. cbn in Z. injection Z as Z _. exact Z. }
    lia.
  Qed.
End New.

(** ** The job *)
Section KeyedJob.
  Context {P1 S1 J : Type}.
  Variables (c : job_config) (seed : key) (proc ndev : nat).
  Variables (g : prng key) (choice : choice_fn key) (perm_of : key -> nat -> nat) (split_n : key -> nat -> list key).
  Variables (theta : P1 -> model_params) (init_params : key -> list nat -> P1).
  Variables (grad_p : (P1 -> R) -> P1 -> nat -> R) (grad_px : (P1 -> xr) -> P1 -> nat -> xr).
  Variables (opt_init : optimiser -> P1 -> S1)
            (opt_apply : optimiser -> (nat -> xr) -> P1 -> S1 -> list (list (nat -> R)) -> list (list xr) -> P1 * S1).
  Variable kfac : kfac_optimizer P1 S1 key.
  Variables (has_nan : P1 -> bool) (param_l1_norm : P1 -> xr) (summary : list (list xr) -> J).
  Variable j : job P1 (list (padata move_metadata)) S1 (list key) J.
  Hypothesis Hg : good_prng g.
  Hypothesis Hc : good_choice choice.
  Hypothesis Hs : forall k, split2 g k = key_split2 k.
  Hypothesis Hnd : (0 < ndev)%nat.
  Hypothesis Hw : well_formed_ions c.
  Hypothesis Hch : (0 < wc_nchains (jc_walk c))%nat.
  Notation dks := (fun k => map (device_key proc ndev k) (seq 0 ndev)).
  Hypothesis Hb : build_job g choice perm_of split_n dks ndev theta init_params grad_p grad_px opt_init opt_apply kfac has_nan param_l1_norm summary c seed = Some j.
  Hypothesis Hstd : 0 < wc_std (jc_walk c).
  Notation eg := (energy_and_grad perm_of split_n theta grad_p grad_px c).
  Notation psi := (log_psi_of_walker theta c).
  Notation nd := (electron_count c * space_dim c)%nat.
  Notation good cc := (inv psi ndev (wc_nchains cc / ndev) nd).
  Notation kof := (key_of c seed proc ndev).
  Notation root := (root1 c seed proc ndev).
  Notation at_ := (keys_at ndev root).
  Notation es := (epoch_start c).
  Lemma Hdk : forall k, length (dks k) = ndev. Proof. intros k. cbv beta. rewrite map_length. apply seq_length. Qed.
  Notation ABI := (after_burn_in j).

  Definition device_list {A} (f : nat -> A) : list A := map f (seq 0 ndev).
  Lemma subkeys m : map snd (map (split2 g) (at_ m)) = device_list (fun dv => right_ (left m (root dv))).
  Proof. unfold keys_at, device_list. rewrite !map_map. apply map_ext. intros dv. rewrite Hs. reflexivity. Qed.
  Lemma nextkeys m : map fst (map (split2 g) (at_ m)) = at_ (m + 1).
  Proof. unfold keys_at. rewrite !map_map. apply map_ext. intros dv. rewrite Hs. rewrite Nat.add_comm. reflexivity. Qed.

  (** What an epoch does with the keys. *)
  Definition update_made (o : optimiser) (i : nat) (p : P1) (s : S1) (xs : list (list (list R))) (p' : P1) (s' : S1) : Prop :=
    let ks := device_list (fun dv => kof (Update i dv)) in
    exists ed gr, eg p (match o with Kfac _ _ => map (kf_value_key kfac) ks | _ => ks end) xs = Ok (ed, gr) /\
      match o with
      | Kfac _ _ => kf_step kfac o gr p s ks xs
      | _ => opt_apply o gr p s (gradients_at theta grad_p c p xs) (ed_centered ed)
      end = (p', s').
  Lemma keyed_epoch o p0 s0 p s datas i :
    choose_optimiser (jc_optimizer c) = Chosen o ->
    j_walk j = (fun p => run_walker g (model_apply theta c) ndev (jc_walk c) (hd p0 p)) ->
    j_update j = (fun p dd s k => let '(p', dd', s', m, k') := job_update g perm_of split_n theta grad_p grad_px opt_apply kfac param_l1_norm c o (hd p0 p) dd (hd s0 s) k in (repeat p' ndev, dd', repeat s' ndev, m, k')) ->
    good (jc_walk c) p datas (at_ (es i)) ->
    exists p' s' datas',
      one_epoch (j_walk j) (j_update j) (repeat p ndev, repeat s ndev, datas, at_ (es i)) = (repeat p' ndev, repeat s' ndev, datas', at_ (es (S i))) /\ good (jc_walk c) p' datas' (at_ (es (S i))) /\
      walk_drawn g ndev psi p (fun t dv => kof (Proposals (Training i t) dv)) (fun t dv => kof (Decisions (Training i t) dv)) (wc_nsteps (jc_walk c)) (map pos datas) (map pos datas') /\
      update_made o i p s (map pos datas') p' s'.
  Proof.
    intros Ho EW EU HG.
    destruct (epoch g choice perm_of split_n dks ndev theta init_params grad_p grad_px opt_init opt_apply kfac has_nan param_l1_norm summary c seed j Hg Hc Hdk Hnd Hw Hch Hb o p0 s0 p s datas (at_ (es i)) Ho EW EU HG)
      as (walked & keys1 & e & v & en & vn & cs & gr & p' & s' & (a & EWK) & G1 & _ & Eeg & Eo & _ & _ & _ & _ & datas' & keys' & E1 & G' & EP).
    pose proof (walker_drawn g psi (model_apply theta c) Hg Hs (fun _ _ => eq_refl) (wc_nmoves (jc_walk c)) ndev (wc_nchains (jc_walk c) / ndev) nd (wc_nsteps (jc_walk c)) p datas root (es i) HG) as (D1 & D2).
    pose proof EWK as EWK'. rewrite EW in EWK'. rewrite (hd_repeat ndev Hnd) in EWK'. unfold run_walker in EWK'. rewrite EWK' in D1, D2. cbn [fst snd] in D1, D2. subst keys1.
    assert (EK : keys' = at_ (es (S i))).
    { revert E1. unfold one_epoch. rewrite EWK, EU. cbv beta. rewrite !(hd_repeat ndev Hnd), update_eq. cbv zeta. destruct (energy_data_val_and_grad _ _ _ _ _ _ _ _ _) as [ed gr'].
      match goal with |- context [opt_step ?a ?b ?cc ?dd ?e ?f ?gg ?h ?ii ?jj ?k ?l] => destruct (opt_step a b cc dd e f gg h ii jj k l) as [p2 s2] end. rewrite nextkeys. intros Z. injection Z as _ _ _ <-. f_equal. unfold epoch_start. lia. }
    subst keys'. exists p', s', datas'. split; [exact E1|]. split; [exact G'|]. split; [rewrite EP; exact D1|].
    unfold update_made. rewrite subkeys in Eeg, Eo. rewrite EP. do 2 eexists. split; [exact Eeg|]. cbn [ed_centered]. rewrite <- Eo. unfold opt_step, optimizer_apply, gradients_at. rewrite map_map. destruct o; reflexivity.
  Qed.

  Lemma keyed_training : exists o (params : nat -> P1) (opts : nat -> S1) (ds : nat -> list (padata move_metadata)) initial,
    choose_optimiser (jc_optimizer c) = Chosen o /\
    length initial = ndev /\ Forall (fun l => length l = (wc_nchains (jc_walk c) / ndev)%nat) initial /\
    concat initial = new_walkers c (wc_nchains (jc_walk c)) (fun i => ions_drawn choice c (kof (Ions false i))) (normal g (kof (Noise false)) (repeat nd (wc_nchains (jc_walk c)))) /\
    params O = init_params (kof FirstParameters) [nd] /\
    opts O = match o with Kfac _ _ => kf_init kfac o (params O) (device_list (fun dv => kof (FirstOptimiserState dv))) initial | _ => opt_init o (params O) end /\
    walk_drawn g ndev psi (params O) (fun t dv => kof (Proposals (Burning t) dv)) (fun t dv => kof (Decisions (Burning t) dv)) (wc_nburn (jc_walk c)) initial (map pos (ds O)) /\
    forall i, state_after (j_walk j) (j_update j) i ABI = (repeat (params i) ndev, repeat (opts i) ndev, ds i, at_ (es i)) /\ good (jc_walk c) (params i) (ds i) (at_ (es i)) /\
      walk_drawn g ndev psi (params i) (fun t dv => kof (Proposals (Training i t) dv)) (fun t dv => kof (Decisions (Training i t) dv)) (wc_nsteps (jc_walk c)) (map pos (ds i)) (map pos (ds (S i))) /\
      update_made o i (params i) (opts i) (map pos (ds (S i))) (params (S i)) (opts (S i)).
  Proof.
    destruct (fields g choice perm_of split_n dks ndev theta init_params grad_p grad_px opt_init opt_apply kfac has_nan param_l1_norm summary c seed j Hg Hc Hdk Hnd Hw Hch Hb)
      as (p0 & data & keys & o & s0 & keys0 & ES & Ho & _ & HM & _ & _ & _ & _ & EI & EJ).
    assert (EW : j_walk j = (fun p => run_walker g (model_apply theta c) ndev (jc_walk c) (hd p0 p))) by (rewrite EJ; reflexivity).
    assert (EU : j_update j = (fun p dd s k => let '(p', dd', s', m, k') := job_update g perm_of split_n theta grad_p grad_px opt_apply kfac param_l1_norm c o (hd p0 p) dd (hd s0 s) k in (repeat p' ndev, dd', repeat s' ndev, m, k'))) by (rewrite EJ; reflexivity).
    pose proof (setup_good g choice dks ndev theta init_params c seed Hg Hc Hdk Hnd Hw Hstd p0 data keys ES) as (GI & _).
    destruct Hw as (W1 & W2 & W3).
    pose proof (C75_initial_walkers P1 key g choice psi (model_apply theta c) (fun k (x : list (list R)) => init_params k (map (@length R) x)) dks ndev
      Hg Hc (fun p xs => eq_refl) Hnd (jc_ion_pos c) (jc_ion_charges c) (jc_d c) (eq_sym W3) W1 W2 (jc_walk c) (jc_n c) seed) as SW. cbv zeta in SW.
    rewrite ES, (new_drawn g choice c Hg Hc Hs Hw) in SW. cbn [fst snd] in SW. destruct SW as (_ & SP & SK & SX & _). rewrite Hs in SP, SK. cbn [key_split2 fst snd] in SP, SK.
    assert (SK' : keys = at_ 0). { rewrite SK. unfold keys_at. apply map_ext. intros dv. unfold root1. replace (wc_nchains (jc_walk c) + 2)%nat with (S (wc_nchains (jc_walk c) + 1)) by lia. reflexivity. }
    assert (SP' : p0 = init_params (kof FirstParameters) [nd]) by (rewrite SP; cbn [key_of]; erewrite (new_walkers_first g choice c Hg Hc Hw) by (try exact Hch; reflexivity); reflexivity).
    assert (EK0 : keys0 = at_ (kfac_keys c) /\ s0 = match o with Kfac _ _ => kf_init kfac o p0 (device_list (fun dv => kof (FirstOptimiserState dv))) (map pos data) | _ => opt_init o p0 end).
    { rewrite SK' in EI. revert EI. unfold init_optimizer. pose proof Ho as Ho'. revert Ho'. unfold kfac_keys, choose_optimiser. destruct (section_schedule _ _); [|discriminate]. destruct (learning_rate_schedule _ _ _); [|discriminate].
      destruct (String.eqb (oc_type (jc_optimizer c)) "kfac").
      - intros [= <-]. rewrite subkeys, nextkeys. intros [= <- <-]. split; reflexivity.
      - intros Z. assert (NK : match o with Kfac _ _ => False | _ => True end).
        { revert Z. unfold get_sr. repeat match goal with |- context [if ?b then _ else _] => destruct b | |- context [match ?x with _ => _ end] => destruct x end; intros [= <-] || intros Z; try exact Logic.I; discriminate. }
        destruct o; try contradiction; intros [= <- <-]; split; reflexivity. }
    destruct EK0 as (EK0 & Es0).
    assert (GI0 : good (jc_walk c) p0 data (at_ (kfac_keys c))). { destruct GI as (GG & _ & GR). split; [exact GG|]. split; [unfold keys_at; rewrite map_length; apply seq_length|exact GR]. }
    pose proof (burn_drawn g psi (model_apply theta c) Hg Hs (fun _ _ => eq_refl) (wc_nmoves (jc_walk c)) ndev (wc_nchains (jc_walk c) / ndev) nd (wc_nburn (jc_walk c)) p0 data root (kfac_keys c) GI0) as (B1 & B2).
    pose proof (burn_inv g psi (model_apply theta c) Hg (fun _ _ => eq_refl) (wc_nmoves (jc_walk c)) ndev (wc_nchains (jc_walk c) / ndev) nd (wc_nburn (jc_walk c)) p0 data (at_ (kfac_keys c)) GI0) as B3. cbv zeta in B3. rewrite B2 in B3.
    assert (E0 : es 0 = (kfac_keys c + 2 * wc_nburn (jc_walk c))%nat) by (unfold epoch_start; lia).
    assert (X0 : ABI = (repeat p0 ndev, repeat s0 ndev, fst (burn_data (burning_step (run_step g (model_apply theta c) (wc_nmoves (jc_walk c)))) (wc_nburn (jc_walk c)) p0 data (at_ (kfac_keys c))), at_ (es 0))).
    { unfold after_burn_in. rewrite EJ. cbn [j_init j_burn]. rewrite (hd_repeat ndev Hnd). unfold burn_in. rewrite EK0. destruct (burn_data _ _ _ _ _) as [d1 k1]. cbn [fst snd] in *. rewrite B2, E0. reflexivity. }
    rewrite <- E0 in B3. set (d0 := fst (burn_data _ _ _ _ _)) in *. clearbody d0.
    pose (st := fun i => state_after (j_walk j) (j_update j) i ABI).
    assert (AT : forall i, exists p s d, st i = (repeat p ndev, repeat s ndev, d, at_ (es i)) /\ good (jc_walk c) p d (at_ (es i))).
    { induction i as [|i (p & s & d & E & G)].
      - exists p0, s0, d0. split; [exact X0|exact B3].
      - destruct (keyed_epoch o p0 s0 p s d i Ho EW EU G) as (p' & s' & d' & E' & G' & _). exists p', s', d'. split; [|exact G'].
        change (st (Datatypes.S i)) with (one_epoch (j_walk j) (j_update j) (st i)). rewrite E. exact E'. }
    pose (par := fun i => match st i with (p, _, _, _) => hd p0 p end). pose (opt := fun i => match st i with (_, s, _, _) => hd s0 s end). pose (dat := fun i => match st i with (_, _, d, _) => d end).
    assert (AT' : forall i, st i = (repeat (par i) ndev, repeat (opt i) ndev, dat i, at_ (es i)) /\ good (jc_walk c) (par i) (dat i) (at_ (es i))).
    { intros i. destruct (AT i) as (p & s & d & E & G). unfold par, opt, dat. rewrite E, !(hd_repeat ndev Hnd). split; [reflexivity|exact G]. }
    assert (P0 : par O = p0 /\ opt O = s0 /\ dat O = d0) by (unfold par, opt, dat; change (st O) with ABI; rewrite X0, !(hd_repeat ndev Hnd); auto). destruct P0 as (P0 & O0 & D0).
    exists o, par, opt, dat, (map pos data). split; [exact Ho|]. destruct GI as (GL & _ & GF & _). split; [rewrite map_length; exact GL|]. split; [apply Forall_map; eapply Forall_impl; [|exact GF]; intros q (Q & _); exact Q|].
    split; [exact SX|]. rewrite P0, O0, D0. split; [exact SP'|]. split; [exact Es0|]. split; [exact B1|].
    intros i. destruct (AT' i) as (Ei & Gi). split; [exact Ei|]. split; [exact Gi|].
    destruct (keyed_epoch o p0 s0 (par i) (opt i) (dat i) i Ho EW EU Gi) as (p' & s' & d' & E' & _ & Q1 & Q2).
    assert (En : st (Datatypes.S i) = (repeat p' ndev, repeat s' ndev, d', at_ (es (S i)))) by (change (st (Datatypes.S i)) with (one_epoch (j_walk j) (j_update j) (st i)); rewrite Ei; exact E').
    assert (PN : par (S i) = p' /\ opt (S i) = s' /\ dat (S i) = d') by (unfold par, opt, dat; rewrite En, !(hd_repeat ndev Hnd); auto). destruct PN as (-> & -> & ->). split; assumption.
  Qed.

  (** ** Evaluation *)
  Notation eval_walk := (fun p => run_walker g (model_apply theta c) ndev (jc_eval_walk c) p).
  Lemma walk_only_drawn rt p : forall n i datas m, good (jc_eval_walk c) p datas (keys_at ndev rt m) ->
    snd (walk_only eval_walk n p datas (keys_at ndev rt m)) = keys_at ndev rt (m + n * (2 * wc_nsteps (jc_eval_walk c))) /\
    good (jc_eval_walk c) p (fst (walk_only eval_walk n p datas (keys_at ndev rt m))) (keys_at ndev rt (m + n * (2 * wc_nsteps (jc_eval_walk c)))) /\
    ((i < n)%nat -> walk_drawn g ndev psi p (fun t dv => right_ (left (m + i * (2 * wc_nsteps (jc_eval_walk c)) + 2 * t + 1) (rt dv))) (fun t dv => right_ (left (m + i * (2 * wc_nsteps (jc_eval_walk c)) + 2 * t) (rt dv)))
       (wc_nsteps (jc_eval_walk c)) (map pos (fst (walk_only eval_walk i p datas (keys_at ndev rt m)))) (map pos (fst (walk_only eval_walk (Datatypes.S i) p datas (keys_at ndev rt m))))).
  Proof.
    induction n as [|n IH]; intros i datas m HG.
    - cbn [walk_only fst snd]. rewrite Nat.mul_0_l, Nat.add_0_r. split; [reflexivity|]. split; [exact HG|]. lia.
    - pose proof (walker_drawn g psi (model_apply theta c) Hg Hs (fun _ _ => eq_refl) (wc_nmoves (jc_eval_walk c)) ndev (wc_nchains (jc_eval_walk c) / ndev) nd (wc_nsteps (jc_eval_walk c)) p datas rt m HG) as (D1 & D2).
      pose proof (walker_inv g psi (model_apply theta c) Hg (fun _ _ => eq_refl) (wc_nmoves (jc_eval_walk c)) ndev (wc_nchains (jc_eval_walk c) / ndev) nd (wc_nsteps (jc_eval_walk c)) p datas (keys_at ndev rt m) HG) as H1. cbv zeta in H1.
      assert (W : forall q, walk_only eval_walk (Datatypes.S q) p datas (keys_at ndev rt m) = walk_only eval_walk q p (snd (fst (eval_walk p datas (keys_at ndev rt m)))) (keys_at ndev rt (m + 2 * wc_nsteps (jc_eval_walk c)))).
      { intros q. cbn [walk_only]. rewrite <- D2. unfold run_walker. destruct (walker_fn_pmapped _ _ _ _ _ _) as [[a d1] k1]. reflexivity. }
      rewrite D2 in H1. rewrite !W. destruct (IH (i - 1)%nat _ _ H1) as (I1 & I2 & I3).
      replace (m + S n * (2 * wc_nsteps (jc_eval_walk c)))%nat with (m + 2 * wc_nsteps (jc_eval_walk c) + n * (2 * wc_nsteps (jc_eval_walk c)))%nat by lia.
      split; [exact I1|]. split; [exact I2|]. intros Hi. destruct i as [|i].
      + cbn [walk_only fst]. rewrite Nat.mul_0_l, Nat.add_0_r. exact D1.
      + replace (S i - 1)%nat with i in I3 by lia. specialize (I3 ltac:(lia)). rewrite !W. replace (m + S i * (2 * wc_nsteps (jc_eval_walk c)))%nat with (m + 2 * wc_nsteps (jc_eval_walk c) + i * (2 * wc_nsteps (jc_eval_walk c)))%nat by lia. exact I3.
  Qed.

  Lemma keyed_evaluation p datas : 0 < wc_std (jc_eval_walk c) -> good (jc_walk c) p datas (at_ (es (jc_nepochs c))) ->
    exists (evals : nat -> list (padata move_metadata)) initial,
      (new_walkers_for_evaluation c -> length initial = ndev /\ Forall (fun l => length l = (wc_nchains (jc_eval_walk c) / ndev)%nat) initial /\
         concat initial = new_walkers c (wc_nchains (jc_eval_walk c)) (fun i => ions_drawn choice c (kof (Ions true i))) (normal g (kof (Noise true)) (repeat nd (wc_nchains (jc_eval_walk c))))) /\
      (~ new_walkers_for_evaluation c -> initial = map pos datas) /\
      walk_drawn g ndev psi p (fun t dv => kof (Proposals (EvalBurning t) dv)) (fun t dv => kof (Decisions (EvalBurning t) dv)) (wc_nburn (jc_eval_walk c)) initial (map pos (evals O)) /\
      forall i, walk_drawn g ndev psi p (fun t dv => kof (Proposals (Evaluating i t) dv)) (fun t dv => kof (Decisions (Evaluating i t) dv)) (wc_nsteps (jc_eval_walk c)) (map pos (evals i)) (map pos (evals (S i))) /\
        eval_walkers j (repeat p ndev) datas (at_ (es (jc_nepochs c))) i = evals (S i).
  Proof.
    intros Hes HG.
    destruct (fields g choice perm_of split_n dks ndev theta init_params grad_p grad_px opt_init opt_apply kfac has_nan param_l1_norm summary c seed j Hg Hc Hdk Hnd Hw Hch Hb)
      as (p0 & data & keys & o & s0 & keys0 & ES & Ho & _ & HM & _ & _ & _ & HM2 & EI & EJ).
    assert (ST : exists d0 rt m0, eval_start j (repeat p ndev) datas (at_ (es (jc_nepochs c))) = (d0, keys_at ndev rt m0) /\ good (jc_eval_walk c) p d0 (keys_at ndev rt m0) /\
      (forall dv, eval_root c seed proc ndev dv = (rt dv, m0)) /\
      (new_walkers_for_evaluation c -> length (map pos d0) = ndev /\ Forall (fun l => length l = (wc_nchains (jc_eval_walk c) / ndev)%nat) (map pos d0) /\ concat (map pos d0) = new_walkers c (wc_nchains (jc_eval_walk c)) (fun i => ions_drawn choice c (kof (Ions true i))) (normal g (kof (Noise true)) (repeat nd (wc_nchains (jc_eval_walk c))))) /\
      (~ new_walkers_for_evaluation c -> d0 = datas)).
    { unfold eval_start. rewrite EJ. cbn [j_use_training_data j_cfg loop_cfg nchains j_eval_nchains j_new_data]. rewrite (hd_repeat ndev Hnd). fold (new_eval_walkers c). unfold eval_root. pose proof (new_iff c) as NI.
      destruct (new_eval_walkers c) eqn:EN.
      - specialize (HM2 eq_refl). unfold make_new_data_for_eval.
        assert (EF : get_first (at_ (es (jc_nepochs c))) = Some (left (es (jc_nepochs c)) (root 0%nat))). { unfold keys_at. destruct ndev as [|q]; [lia|]. reflexivity. }
        rewrite EF, (new_drawn g choice c Hg Hc Hs Hw). rewrite (make_initial_spec psi (model_apply theta c) (fun _ _ => eq_refl)) by exact Hnd. rewrite new_walkers_length, HM2. cbn [Nat.eqb].
        match goal with |- context [chunks ?a ?b ?x] => set (nw := x) end.
        assert (LN : length nw = wc_nchains (jc_eval_walk c)) by apply new_walkers_length.
        assert (EM : make_new_data_for_eval g choice (model_apply theta c) dks ndev (jc_eval_walk c) (jc_ion_pos c) (jc_ion_charges c) (jc_n c) p (at_ (es (jc_nepochs c))) =
          Some (map (fun s => {| pos := s; M_mcmc.amp := map (psi p) s; meta := {| std_move := wc_std (jc_eval_walk c); acc_sum := 0; moves := 0 |} |}) (chunks (wc_nchains (jc_eval_walk c) / ndev) ndev nw), dks (left (wc_nchains (jc_eval_walk c) + 1) (left (es (jc_nepochs c)) (root 0%nat))))).
        { unfold make_new_data_for_eval. rewrite EF, (new_drawn g choice c Hg Hc Hs Hw). rewrite (make_initial_spec psi (model_apply theta c) (fun _ _ => eq_refl)) by exact Hnd. rewrite new_walkers_length, HM2. reflexivity. }
        destruct (new_good g choice dks ndev theta c Hg Hc Hdk Hnd Hw p _ _ _ Hes EM) as (NG & _).
        assert (RK : dks (left (wc_nchains (jc_eval_walk c) + 1) (left (es (jc_nepochs c)) (root 0%nat))) = keys_at ndev (root2 c seed proc ndev) 0).
        { unfold keys_at. cbv beta. apply map_ext. intros dv. unfold root2. rewrite <- left_add. cbn [left]. f_equal. f_equal. lia. }
        rewrite RK in NG. do 3 eexists. split; [rewrite <- RK; reflexivity|]. split; [exact NG|]. split; [intros dv; reflexivity|]. split; [|intros N; exfalso; apply N; apply NI; reflexivity].
        intros _. rewrite map_map. cbn [pos]. rewrite map_id. split; [apply chunks_length|].
        pose proof (reshape_some ndev nw Hnd ltac:(rewrite LN; exact HM2)) as RS. rewrite LN in RS. split; [apply Forall_forall; apply chunks_sizes; rewrite LN; exact RS|].
        rewrite chunks_concat by (rewrite LN; exact RS). unfold nw. cbn [key_of]. f_equal.
        + extensionality i. rewrite <- left_add. f_equal. f_equal. f_equal. lia.
        + rewrite <- left_add. f_equal. f_equal. f_equal. lia.
      - exists datas, root, (es (jc_nepochs c)). split; [reflexivity|]. assert (EQ : wc_nchains (jc_walk c) = wc_nchains (jc_eval_walk c)).
        { unfold new_eval_walkers in EN. apply orb_false_iff in EN. destruct EN as (_ & EN). apply negb_false_iff in EN. apply Nat.eqb_eq. exact EN. }
        rewrite <- EQ. split; [exact HG|]. split; [reflexivity|]. split; [intros N; apply NI in N; discriminate|reflexivity]. }
    destruct ST as (d0 & rt & m0 & Es & G0 & Er & N1 & N2).
    pose proof (burn_drawn g psi (model_apply theta c) Hg Hs (fun _ _ => eq_refl) (wc_nmoves (jc_eval_walk c)) ndev (wc_nchains (jc_eval_walk c) / ndev) nd (wc_nburn (jc_eval_walk c)) p d0 rt m0 G0) as (B1 & B2).
    pose proof (burn_inv g psi (model_apply theta c) Hg (fun _ _ => eq_refl) (wc_nmoves (jc_eval_walk c)) ndev (wc_nchains (jc_eval_walk c) / ndev) nd (wc_nburn (jc_eval_walk c)) p d0 (keys_at ndev rt m0) G0) as B3. cbv zeta in B3. rewrite B2 in B3.
    assert (EB : j_eval_burn j (repeat p ndev) d0 (keys_at ndev rt m0) = (fst (burn_data (burning_step (run_step g (model_apply theta c) (wc_nmoves (jc_eval_walk c)))) (wc_nburn (jc_eval_walk c)) p d0 (keys_at ndev rt m0)), keys_at ndev rt (m0 + 2 * wc_nburn (jc_eval_walk c)))).
    { rewrite EJ. cbn [j_eval_burn]. rewrite (hd_repeat ndev Hnd). unfold burn_in. destruct (burn_data _ _ _ _ _) as [d1 k1]. cbn [fst snd] in *. rewrite B2. reflexivity. }
    set (d2 := fst (burn_data _ _ _ _ _)) in *. clearbody d2.
    exists (fun i => fst (walk_only eval_walk i p d2 (keys_at ndev rt (m0 + 2 * wc_nburn (jc_eval_walk c))))), (map pos d0).
    split; [exact N1|]. split; [intros N; f_equal; apply N2; exact N|].
    assert (KE : forall (a b : nat -> nat -> key) n xs ys, (forall t dv, a t dv = b t dv) -> forall a' b', (forall t dv, a' t dv = b' t dv) -> walk_drawn g ndev psi p a a' n xs ys -> walk_drawn g ndev psi p b b' n xs ys).
    { intros a b n xs ys H a' b' H'. replace a with b by (extensionality t; extensionality dv; symmetry; apply H). replace a' with b' by (extensionality t; extensionality dv; symmetry; apply H'). auto. }
    split. { eapply KE; [| |exact B1]; intros t dv; cbn [key_of step_place]; rewrite Er; reflexivity. }
    intros i. split.
    - eapply KE; [| |apply (proj2 (proj2 (walk_only_drawn rt p (S i) i d2 (m0 + 2 * wc_nburn (jc_eval_walk c)) B3)) (Nat.lt_succ_diag_r i))]; intros t dv; cbn [key_of step_place]; rewrite Er; reflexivity.
    - unfold eval_walkers. rewrite eval_start_spec, Es, EB. rewrite Nat.add_1_r. generalize (Datatypes.S i) as n. generalize (keys_at ndev rt (m0 + 2 * wc_nburn (jc_eval_walk c))). generalize d2. intros d3 k3 n. rewrite EJ. cbn [j_eval_walk]. revert d3 k3.
      induction n as [|n IH]; intros d3 k3; [reflexivity|]. cbn [walk_only]. rewrite (hd_repeat ndev Hnd). destruct (run_walker g (model_apply theta c) ndev (jc_eval_walk c) p d3 k3) as [[a d4] k4]. apply IH.
  Qed.
End KeyedJob.

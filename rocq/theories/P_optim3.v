(** * Learning rates, and an invariant rule for the training loop *)
From Coq Require Import String Reals List Arith Bool Lia Lra.
From Verif Require Import XReal Rsum M_io M_vmc M_mcmc M_optim S_optim S_mcmc P_walkers.
Import ListNotations.
Local Open Scope R_scope.

(** ** Learning rates *)
Lemma rate_pos lr d t : 0 < lr -> 0 <= d -> 0 < lr / (1 + d * INR t).
Proof. intros. pose proof (pos_INR t). apply Rdiv_lt_0_compat; [assumption|nra]. Qed.
Lemma rate_mono lr d t t' : 0 < lr -> 0 <= d -> (t <= t')%nat -> lr / (1 + d * INR t') <= lr / (1 + d * INR t).
Proof.
  intros. pose proof (pos_INR t). pose proof (le_INR _ _ H1). unfold Rdiv. apply Rmult_le_compat_l; [lra|].
  apply Rinv_le_contravar; nra.
Qed.
Lemma ln_le x : 0 < x -> ln x <= x - 1.
Proof.
  intros H. destruct (Req_dec (ln x) 0) as [E|E].
  - assert (x = 1) by (apply ln_inv; [lra|lra|rewrite ln_1; exact E]). subst. rewrite ln_1. lra.
  - pose proof (exp_ineq1 (ln x) E) as I. rewrite exp_ln in I by assumption. lra.
Qed.
Lemma harmonic N : ln (INR N + 1) <= Rsum N (fun t => / (INR t + 1)).
Proof.
  induction N as [|N IH]; [cbn; rewrite Rplus_0_l, ln_1; lra|].
  cbn [Rsum]. rewrite S_INR. pose proof (pos_INR N).
  assert (L : ln ((INR N + 1 + 1) / (INR N + 1)) <= / (INR N + 1)).
  { eapply Rle_trans; [apply ln_le; apply Rdiv_lt_0_compat; lra|]. right. field. lra. }
  unfold Rdiv in L. rewrite ln_mult in L by (try apply Rinv_0_lt_compat; lra). rewrite ln_Rinv in L by lra. lra.
Qed.
Lemma rate_diverges lr d B : 0 < lr -> 0 <= d -> exists N, B < Rsum N (fun t => lr / (1 + d * INR t)).
Proof.
  intros Hl Hd. pose (c := lr / (1 + d)).
  assert (Hc : 0 < c) by (apply Rdiv_lt_0_compat; lra).
  destruct (archimed (exp (B / c))) as [Ha _].
  pose (N := Z.to_nat (up (exp (B / c)))).
  assert (HN : exp (B / c) < INR N).
  { unfold N. rewrite INR_IZR_INZ, Z2Nat.id; [lra|]. apply le_IZR. pose proof (exp_pos (B / c)). lra. }
  exists N.
  apply Rlt_le_trans with (c * ln (INR N + 1)).
  - assert (B / c < ln (INR N + 1)).
    { rewrite <- (ln_exp (B / c)). apply ln_increasing; [apply exp_pos|lra]. }
    replace B with (c * (B / c)) at 1 by (field; lra). apply Rmult_lt_compat_l; assumption.
  - eapply Rle_trans; [apply Rmult_le_compat_l; [lra | apply harmonic]|].
    rewrite <- Rsum_scal. apply Rsum_le. intros t _. pose proof (pos_INR t). unfold c, Rdiv. rewrite Rmult_assoc.
    apply Rmult_le_compat_l; [lra|]. rewrite <- Rinv_mult. apply Rinv_le_contravar; nra.
Qed.
Lemma rate_squares lr d N : 0 < d -> Rsum N (fun t => (lr / (1 + d * INR t)) ^ 2) <= lr ^ 2 * (1 + / d).
Proof.
  intros Hd. destruct N as [|N]; [cbn; assert (0 < / d) by (apply Rinv_0_lt_compat; lra); nra|].
  assert (E : Rsum (S N) (fun t => (lr / (1 + d * INR t)) ^ 2) <= lr ^ 2 * (1 + / d * (1 - / (1 + d * INR N)))).
  { induction N as [|N IH].
    - cbn [Rsum]. cbn [INR]. rewrite Rmult_0_r, Rplus_0_r, Rinv_1. unfold Rdiv. rewrite Rinv_1. lra.
    - change (Rsum (S (S N)) (fun t => (lr / (1 + d * INR t)) ^ 2)) with (Rsum (S N) (fun t => (lr / (1 + d * INR t)) ^ 2) + (lr / (1 + d * INR (S N))) ^ 2).
      eapply Rle_trans; [apply Rplus_le_compat_r, IH|].
      pose proof (pos_INR N) as HN. rewrite S_INR.
      pose (a := 1 + d * INR N). replace (1 + d * INR N) with a by reflexivity. replace (1 + d * (INR N + 1)) with (a + d) by (unfold a; ring).
      assert (Ha : 1 <= a) by (unfold a; nra).
      assert (K : / (a + d) ^ 2 <= / d * (/ a - / (a + d))).
      { replace (/ d * (/ a - / (a + d))) with (/ (a * (a + d))) by (field; repeat split; lra).
        apply Rinv_le_contravar; nra. }
      replace ((lr / (a + d)) ^ 2) with (lr ^ 2 * / (a + d) ^ 2) by (field; lra).
      pose proof (pow2_ge_0 lr). nra. }
  eapply Rle_trans; [exact E|]. apply Rmult_le_compat_l; [apply pow2_ge_0|].
  assert (0 < / d) by (apply Rinv_0_lt_compat; lra).
  assert (0 < / (1 + d * INR N)) by (apply Rinv_0_lt_compat; pose proof (pos_INR N); nra). nra.
Qed.

(** ** Invariants of the loop *)
Section LoopInvariant.
  Context {P D St K : Type}.
  Variable walker_fn : P -> D -> K -> xr * D * K.
  Variable update_param_fn : P -> D -> St -> K -> P * D * St * option dict * K.
  Variable params_have_nan : P -> bool.
  Variable J : P -> D -> St -> K -> Prop.
  Hypothesis Jwalk : forall p d s k, J p d s k -> J p (snd (fst (walker_fn p d k))) s (snd (walker_fn p d k)).
  Hypothesis Jupd : forall p d s k, J p d s k ->
    let '(p', d', s', _, k') := update_param_fn p d s k in J p' d' s' k'.

  Definition Jc (c : ckpt P D St K) : Prop := J (c_params c) (c_data c) (c_opt c) (c_key c).
  Definition Jcs (c : cstate P D St K) : Prop :=
    Forall (fun w => Jc (snd w)) (cs_ckpts c) /\ (forall b, cs_best c = Some b -> Jc b).
  Definition Jv (s : vstate P D St K) : Prop := J (v_params s) (v_data s) (v_opt s) (v_key s) /\ Jcs (v_cs s).

  Lemma Jcs_queue w c : Jc (snd w) -> Jcs c -> Jcs (queue_ckpt w c).
  Proof. intros H [A B]. split; cbn; [apply Forall_app; split; [exact A | constructor; [exact H | constructor]] | exact B]. Qed.
  Lemma Jcs_metrics w c : Jcs c -> Jcs (queue_metrics w c).
  Proof. intros [A B]. split; assumption. Qed.
  Lemma Jcs_windows e v c : Jcs c -> Jcs (set_windows e v c).
  Proof. intros [A B]. split; assumption. Qed.
  Lemma Jcs_metric m c : Jcs c -> Jcs (set_metric m c).
  Proof. intros [A B]. split; assumption. Qed.
  Lemma Jcs_best b c : (forall x, b = Some x -> Jc x) -> Jcs c -> Jcs (set_best b c).
  Proof. intros H [A B]. split; assumption. Qed.
  Definition Jres {A} (r : res P D St K A) : Prop := match r with Ret c _ => Jcs c | Raise c _ => Jcs c end.

  Lemma save_regular_J g ld e old np m c : Jc old -> Jcs c ->
    Jres (save_metrics_and_regular_checkpoint params_have_nan g ld e old np m c).
  Proof.
    intros Ho Hc. unfold save_metrics_and_regular_checkpoint.
    assert (After : forall c2, Jcs c2 -> Jres
      (if check_for_nans g then match check_nans_fn params_have_nan m np with None => Raise c2 KeyError
        | Some true => Ret (queue_ckpt (path_join ld (checkpoint_dir g), nans_name e, old) c2) true | Some false => Ret c2 false end else Ret c2 false)).
    { intros c2 H2. destruct (check_for_nans g); [|exact H2]. destruct (check_nans_fn params_have_nan m np) as [[|]|]; [|exact H2|exact H2].
      apply Jcs_queue; assumption. }
    destruct (checkpoint_every g) as [[|k]|]; [apply Jcs_metrics; exact Hc | | apply After, Jcs_metrics; exact Hc].
    destruct (divides_b (S k) (e + 1)); apply After; [apply Jcs_queue; [exact Ho|]|]; apply Jcs_metrics; exact Hc.
  Qed.
  Lemma track_best_J g ld e old m c : Jc old -> Jcs c -> Jres (track_and_save_best_checkpoint g ld e old m c).
  Proof.
    intros Ho Hc. unfold track_and_save_best_checkpoint.
    destruct (best_checkpoint_every g) as [k|]; [|exact Hc].
    destruct (dget m "energy"%string); [|exact Hc]. destruct (dget m "variance"%string); [|apply Jcs_windows; exact Hc].
    destruct k as [|k]; [apply Jcs_windows; exact Hc|].
    set (best := if xltb _ _ then Some old else cs_best c).
    assert (Hb : forall b, best = Some b -> Jc b).
    { unfold best. destruct (xltb _ _); intros b E; [injection E as <-; exact Ho | apply Hc; exact E]. }
    destruct best as [b|].
    - destruct (divides_b (S k) (e + 1)).
      + apply Jcs_best; [discriminate|]. apply Jcs_queue; [apply Hb; reflexivity | apply Jcs_windows; exact Hc].
      + apply Jcs_best; [exact Hb | apply Jcs_windows; exact Hc].
    - apply Jcs_best; [discriminate | apply Jcs_windows; exact Hc].
  Qed.
  Lemma save_J g e old np nd m c : Jc old -> Jcs c -> Jres (save_metrics_and_handle_checkpoints params_have_nan g e old np nd m c).
  Proof.
    intros Ho Hc. unfold save_metrics_and_handle_checkpoints.
    destruct (logdir g) as [ld|]; [|exact Hc]. destruct (add_amplitude g m nd) as [m'|]; [|exact Hc].
    pose proof (save_regular_J g ld e old np m' c Ho Hc) as H1. destruct (save_metrics_and_regular_checkpoint _ _ _ _ _ _ _ _) as [c1 nans|c1 ex]; [|exact H1].
    pose proof (track_best_J g ld e old m' c1 Ho H1) as H2. destruct (track_and_save_best_checkpoint _ _ _ _ _ _) as [c2 err|c2 ex]; [|exact H2].
    apply Jcs_metric. exact H2.
  Qed.
  Definition Jstep (r : step_result P D St K) : Prop := match r with Continue s => Jv s | Break s => Jv s | Abort_ s _ => Jv s end.
  Lemma epoch_J g e s : Jv s -> Jstep (epoch_step walker_fn update_param_fn params_have_nan g e s).
  Proof.
    intros [Hs Hc]. unfold epoch_step.
    pose proof (Jwalk (v_params s) (v_data s) (v_opt s) (v_key s) Hs) as Hw.
    destruct (walker_fn (v_params s) (v_data s) (v_key s)) as [[a d1] k1]. cbn [fst snd] in Hw.
    pose proof (Jupd _ _ _ _ Hw) as Hu.
    destruct (update_param_fn (v_params s) d1 (v_opt s) k1) as [[[[p2 d2] o2] m] k2].
    destruct m as [m|]; [|split; assumption].
    match goal with |- Jstep (match ?x with _ => _ end) => assert (Hr : Jres x) by (apply save_J; assumption); destruct x as [c nans|c ex] end.
    - destruct nans; split; assumption.
    - split; assumption.
  Qed.
  Lemma loop_J g n : forall e s, Jv s -> Jstep (loop walker_fn update_param_fn params_have_nan g n e s).
  Proof.
    induction n as [|n IH]; intros e s Hs; [exact Hs|]. cbn [loop].
    pose proof (epoch_J g e s Hs) as H. destruct (epoch_step _ _ _ g e s) as [s'|s'|s' ex]; [apply IH|..]; exact H.
  Qed.
  Lemma vmc_J g start nepochs p o d k : J p d o k ->
    match vmc_loop walker_fn update_param_fn params_have_nan g start nepochs p o d k with
    | Finished p' o' d' k' _ cs _ => J p' d' o' k' /\ Forall (fun w => Jc (snd w)) cs
    | Raised _ cs _ => Forall (fun w => Jc (snd w)) cs
    end.
  Proof.
    intros H. unfold vmc_loop.
    match goal with |- context [loop _ _ _ g ?n start ?s] => assert (Hl : Jstep (loop walker_fn update_param_fn params_have_nan g n start s)) end.
    { apply loop_J. split; [exact H|]. split; [constructor | discriminate]. }
    assert (F : forall c, Jcs c -> Forall (fun w => Jc (snd w)) (cs_ckpts (finish_checkpointing g c))).
    { intros c [A B]. unfold finish_checkpointing. destruct (logdir g); [|exact A]. destruct (cs_best c) as [b|] eqn:E; [|exact A].
      cbn. apply Forall_app. split; [exact A|]. constructor; [apply B; reflexivity | constructor]. }
    destruct (loop _ _ _ g _ start _) as [s|s|s ex]; destruct Hl as [H1 H2].
    - split; [exact H1 | apply F; exact H2].
    - split; [exact H1 | apply F; exact H2].
    - apply H2.
  Qed.
End LoopInvariant.

(** ** The walker keeps amplitudes in step with positions *)
Section Walk.
  Context {P M K : Type}.
  Variables (g : prng K) (psi : P -> list R -> xr) (model_apply : P -> list (list R) -> list xr)
    (get_std : padata M -> R) (upd : option (list M -> list (list bool) -> list M)) (logabs : bool).
  Hypothesis Hg : good_prng g.
  Hypothesis Hm : forall p xs, model_apply p xs = map (psi p) xs.
  Hypothesis Hu : forall f, upd = Some f -> forall ms masks, length (f ms masks) = length ms.

  Lemma scan_consistent p n : forall acc datas keys, length datas = length keys -> Forall (consistent psi p) datas ->
    let r := walk_scan (zipw xadd) (pa_step g model_apply get_std upd logabs) p n (acc, datas, keys) in
    length (snd (fst r)) = length (snd r) /\ Forall (consistent psi p) (snd (fst r)) /\ length (snd r) = length keys.
  Proof.
    induction n as [|n IH]; intros acc datas keys L H; cbn [walk_scan]; [auto|].
    pose proof (step_lengths g model_apply get_std upd logabs Hu p datas keys L) as [L1 L2].
    pose proof (step_consistent g psi model_apply Hg Hm get_std upd logabs Hu p datas keys L H) as C.
    destruct (pa_step g model_apply get_std upd logabs p datas keys) as [[a ds] ks]. cbn [fst snd] in *.
    specialize (IH (zipw xadd acc a) ds ks ltac:(lia) C). cbv zeta in IH. destruct IH as (I1 & I2 & I3). repeat split; [exact I1 | exact I2 | lia].
  Qed.
  Lemma walker_consistent nsteps ndev p datas keys : length datas = length keys -> Forall (consistent psi p) datas ->
    let r := walker_fn_pmapped nsteps (pa_step g model_apply get_std upd logabs) ndev p datas keys in
    length (snd (fst r)) = length (snd r) /\ Forall (consistent psi p) (snd (fst r)).
  Proof.
    intros L H. unfold walker_fn_pmapped, walk_data_gen.
    pose proof (scan_consistent p nsteps (repeat (Fin 0) ndev) datas keys L H) as S.
    destruct (walk_scan _ _ _ _ _) as [[a ds] ks]. cbn [fst snd] in *. tauto.
  Qed.
  Lemma update_consistent p (datas : list (padata M)) : Forall (consistent psi p) (map (fun d => update_data_fn model_apply d p) datas).
  Proof.
    apply Forall_forall. intros d Hd. apply in_map_iff in Hd. destruct Hd as (d0 & <- & _). unfold consistent. cbn. apply Hm.
  Qed.
End Walk.

(** * Walker updates are atomic and amplitudes stay consistent *)
From Coq Require Import Reals List Bool Arith Lra Lia.
From Verif Require Import XReal M_mcmc S_mcmc P_mcmc.
Import ListNotations.
Local Open Scope R_scope.

Lemma nth_error_map' {A B} (f : A -> B) l i : nth_error (map f l) i = option_map f (nth_error l i).
Proof. revert i; induction l; destruct i; simpl; auto. Qed.

Lemma nth_error_same_length {A B} (l : list A) (l' : list B) i a :
  length l = length l' -> nth_error l i = Some a -> exists b, nth_error l' i = Some b.
Proof.
  intros L H. destruct (nth_error l' i) as [b|] eqn:E; [eauto|].
  apply nth_error_None in E. assert (i < length l)%nat by (apply nth_error_Some; congruence). lia.
Qed.

Section Step.
Context {P M K : Type}.
Variables (g : prng K) (psi : P -> list R -> xr) (model_apply : P -> list (list R) -> list xr).
Hypothesis Hg : good_prng g.
Hypothesis Hbatch : forall p xs, model_apply p xs = map (psi p) xs.
Variables (get_std : padata M -> R) (upd : option (list M -> list (list bool) -> list M)) (logabs : bool).
Hypothesis Hupd : forall f, upd = Some f -> forall ms masks, length (f ms masks) = length ms.

Let rule := if logabs then accept_log else accept_plain.

(** The new walkers of one device, written out. *)
Definition dev_prop p d k := pa_proposal g model_apply get_std p d (fst (split2 g k)) : padata M * K.
Definition dev_acc p d k := pa_acceptance logabs d (fst (dev_prop p d k)).
Definition dev_mask p d k :=
  zipw accepts (uniform g (snd (split2 g k)) (length (dev_acc p d k))) (dev_acc p d k).

Lemma pa_step_unfold p datas keys :
  length datas = length keys ->
  pa_step g model_apply get_std upd logabs p datas keys =
  (map xmean (zipw (dev_acc p) datas keys),
   pa_update upd datas (zipw (fun d k => fst (dev_prop p d k)) datas keys) (zipw (dev_mask p) datas keys),
   zipw (fun d k => snd (dev_prop p d k)) datas keys).
Proof.
  intros L. unfold pa_step.
  assert (E1 : zipw (fun d ks => pa_proposal g model_apply get_std p d (fst ks)) datas (map (split2 g) keys)
               = zipw (dev_prop p) datas keys).
  { apply list_ext; intros i. rewrite !zipw_nth_error, nth_error_map'.
    destruct (nth_error datas i), (nth_error keys i); reflexivity. }
  rewrite E1.
  assert (E2 : zipw (fun d pr => pa_acceptance logabs d (fst pr)) datas (zipw (dev_prop p) datas keys)
               = zipw (dev_acc p) datas keys).
  { apply list_ext; intros i. rewrite !zipw_nth_error.
    destruct (nth_error datas i), (nth_error keys i); reflexivity. }
  rewrite E2.
  assert (E3 : zipw (fun ks acc => zipw accepts (uniform g (snd ks) (length acc)) acc)
                 (map (split2 g) keys) (zipw (dev_acc p) datas keys) = zipw (dev_mask p) datas keys).
  { apply list_ext; intros i. rewrite !zipw_nth_error, nth_error_map'.
    destruct (nth_error datas i), (nth_error keys i); reflexivity. }
  rewrite E3. f_equal; [f_equal; f_equal|]; apply list_ext; intros i;
    rewrite nth_error_map', !zipw_nth_error; destruct (nth_error datas i), (nth_error keys i); reflexivity.
Qed.

Lemma mask_on_first_nth {A} mask (old prop : list A) i :
  nth_error (mask_on_first mask old prop) i =
  match nth_error mask i, nth_error old i, nth_error prop i with
  | Some b, Some o, Some q => Some (if b then q else o)
  | _, _, _ => None
  end.
Proof.
  unfold mask_on_first. rewrite zipw_nth_error, combine_nth_error.
  destruct (nth_error mask i), (nth_error old i), (nth_error prop i); reflexivity.
Qed.

Lemma pa_update_nth datas props masks j d pr m :
  length datas = length props -> length datas = length masks ->
  nth_error datas j = Some d -> nth_error props j = Some pr -> nth_error masks j = Some m ->
  exists mt, nth_error (pa_update upd datas props masks) j =
    Some (Build_padata (mask_on_first m (pos d) (pos pr)) (mask_on_first m (amp d) (amp pr)) mt).
Proof.
  intros L1 L2 Hd Hp Hm. unfold pa_update.
  set (metas := match upd with None => map meta props | Some f => f (map meta datas) masks end).
  assert (LM : length metas = length datas).
  { unfold metas. destruct upd as [f|] eqn:E; [rewrite (Hupd f) by reflexivity|]; rewrite map_length; auto. }
  destruct (nth_error_same_length datas metas j d (eq_sym LM) Hd) as [mt Hmt].
  exists mt. rewrite zipw_nth_error, zipw_nth_error, combine_nth_error, Hd, Hp, Hm, Hmt. reflexivity.
Qed.

Lemma pa_update_length datas props masks :
  length datas = length props -> length datas = length masks ->
  length (pa_update upd datas props masks) = length datas.
Proof.
  intros L1 L2. unfold pa_update. rewrite zipw_length, zipw_length, combine_length.
  destruct upd as [f|] eqn:E; [rewrite (Hupd f) by reflexivity|]; rewrite map_length; lia.
Qed.

Lemma dev_prop_pos p d k : exists zs,
  map (@length R) zs = map (@length R) (pos d) /\
  pos (fst (dev_prop p d k)) = zipw (moved (get_std d)) (pos d) zs /\
  amp (fst (dev_prop p d k)) = map (psi p) (pos (fst (dev_prop p d k))) /\
  length (pos (fst (dev_prop p d k))) = length (pos d).
Proof.
  unfold dev_prop, pa_proposal, gaussian_proposal.
  destruct (split2 g (fst (split2 g k))) as [k1 k2]. simpl.
  exists (normal g k2 (map (@length R) (pos d))).
  rewrite (normal_shape _ Hg). split; [reflexivity|]. split; [reflexivity|]. split; [apply Hbatch|].
  rewrite zipw_length. pose proof (f_equal (@length nat) (normal_shape _ Hg k2 (map (@length R) (pos d)))) as E.
  rewrite !map_length in E. lia.
Qed.

(** One device, one step. *)
Lemma device_step p datas keys j d k : length datas = length keys ->
  nth_error datas j = Some d -> nth_error keys j = Some k -> length (amp d) = length (pos d) ->
  exists d', nth_error (snd (fst (pa_step g model_apply get_std upd logabs p datas keys))) j = Some d' /\
    length (pos d') = length (pos d) /\ length (amp d') = length (amp d) /\
    forall i x a, nth_error (pos d) i = Some x -> nth_error (amp d) i = Some a ->
      exists x' a', nth_error (pos d') i = Some x' /\ nth_error (amp d') i = Some a' /\
        walker_step psi p rule (get_std d) x a x' a'.
Proof.
  intros L Hd Hk La. rewrite pa_step_unfold by assumption. cbn [fst snd].
  set (props := zipw (fun d k => fst (dev_prop p d k)) datas keys).
  set (masks := zipw (dev_mask p) datas keys).
  assert (L1 : length datas = length props) by (unfold props; rewrite zipw_length; lia).
  assert (L2 : length datas = length masks) by (unfold masks; rewrite zipw_length; lia).
  assert (Hp : nth_error props j = Some (fst (dev_prop p d k))) by (unfold props; rewrite zipw_nth_error, Hd, Hk; reflexivity).
  assert (Hm : nth_error masks j = Some (dev_mask p d k)) by (unfold masks; rewrite zipw_nth_error, Hd, Hk; reflexivity).
  destruct (pa_update_nth datas props masks j d _ _ L1 L2 Hd Hp Hm) as [mt E].
  eexists. split; [exact E|]. cbn [pos amp].
  destruct (dev_prop_pos p d k) as (zs & Hz & Hpos & Hamp & Hlen).
  assert (Lacc : length (dev_acc p d k) = length (pos d)).
  { unfold dev_acc, pa_acceptance, metropolis_symmetric_acceptance. rewrite zipw_length, Hamp, map_length. lia. }
  assert (Lmask : length (dev_mask p d k) = length (pos d)).
  { unfold dev_mask. rewrite zipw_length, (uniform_length _ Hg). lia. }
  split; [unfold mask_on_first; rewrite zipw_length, combine_length; lia|].
  split; [unfold mask_on_first; rewrite zipw_length, combine_length, Hamp, map_length; lia|].
  intros i x a Hx Ha. rewrite !mask_on_first_nth, Hx, Ha.
  destruct (nth_error_same_length _ (dev_mask p d k) i _ (eq_sym Lmask) Hx) as [b Hb].
  assert (Lzs : length zs = length (pos d)).
  { apply (f_equal (@length nat)) in Hz. rewrite !map_length in Hz. assumption. }
  destruct (nth_error_same_length _ zs i _ (eq_sym Lzs) Hx) as [z Hzi].
  assert (Hy : nth_error (pos (fst (dev_prop p d k))) i = Some (moved (get_std d) x z))
    by (rewrite Hpos, zipw_nth_error, Hx, Hzi; reflexivity).
  assert (Hya : nth_error (amp (fst (dev_prop p d k))) i = Some (psi p (moved (get_std d) x z)))
    by (rewrite Hamp, nth_error_map', Hy; reflexivity).
  rewrite Hy, Hya, Hb. do 2 eexists. split; [reflexivity|]. split; [reflexivity|].
  unfold dev_mask in Hb. rewrite zipw_nth_error in Hb.
  destruct (nth_error (uniform g (snd (split2 g k)) (length (dev_acc p d k))) i) as [u|] eqn:Hu; [|discriminate].
  destruct (nth_error (dev_acc p d k) i) as [ac|] eqn:Hac; [|discriminate]. injection Hb as <-.
  unfold dev_acc, pa_acceptance, metropolis_symmetric_acceptance in Hac.
  rewrite zipw_nth_error, Ha, Hya in Hac. injection Hac as <-.
  exists z, u. split.
  { pose proof (f_equal (fun l => nth_error l i) Hz) as E2. cbv beta in E2.
    rewrite !nth_error_map', Hx, Hzi in E2. simpl in E2. congruence. }
  split; [eapply (uniform_range _ Hg), nth_error_In, Hu|].
  cbv zeta. fold rule. destruct (accepts u (rule a (psi p (moved (get_std d) x z)))); auto.
Qed.

Lemma step_lengths p datas keys : length datas = length keys ->
  length (snd (fst (pa_step g model_apply get_std upd logabs p datas keys))) = length datas /\
  length (snd (pa_step g model_apply get_std upd logabs p datas keys)) = length keys.
Proof.
  intros L. rewrite pa_step_unfold by assumption. cbn [fst snd]. rewrite pa_update_length; rewrite ?zipw_length; lia.
Qed.

Lemma step_consistent p datas keys : length datas = length keys ->
  Forall (consistent psi p) datas ->
  Forall (consistent psi p) (snd (fst (pa_step g model_apply get_std upd logabs p datas keys))).
Proof.
  intros L HC. apply Forall_forall. intros d' Hin. apply In_nth_error in Hin. destruct Hin as [j Hj].
  destruct (step_lengths p datas keys L) as [LS _].
  destruct (nth_error_same_length _ datas j _ LS Hj) as [d Hd].
  destruct (nth_error_same_length _ keys j _ L Hd) as [k Hk].
  assert (C : consistent psi p d) by (eapply Forall_forall; [exact HC|eapply nth_error_In; eassumption]).
  destruct (device_step p datas keys j d k L Hd Hk) as (d2 & H2 & Lp & La & HW).
  { unfold consistent in C. rewrite C, map_length. reflexivity. }
  rewrite Hj in H2. injection H2 as <-. unfold consistent in *. apply list_ext. intros i.
  rewrite nth_error_map'. destruct (nth_error (pos d) i) as [x|] eqn:Hx.
  - assert (Ha : nth_error (amp d) i = Some (psi p x)) by (rewrite C, nth_error_map', Hx; reflexivity).
    destruct (HW i x _ Hx Ha) as (x' & a' & -> & -> & z & u & _ & _ & HS). cbv zeta in HS.
    destruct (accepts u _); destruct HS as [-> ->]; reflexivity.
  - assert (Hx' : nth_error (pos d') i = None).
    { apply nth_error_None in Hx. apply nth_error_None. lia. }
    rewrite Hx'. simpl. apply nth_error_None. rewrite La, C, map_length. apply nth_error_None in Hx. lia.
Qed.

Lemma ops_consistent ops : forall p datas keys, length datas = length keys ->
  Forall (consistent psi p) datas ->
  let '(p', datas', _) := run_ops g model_apply get_std upd logabs ops p datas keys in
  Forall (consistent psi p') datas' /\ length datas' = length datas /\
  map (fun d => length (pos d)) datas' = map (fun d => length (pos d)) datas.
Proof.
  induction ops as [|[|p'] ops IH]; intros p datas keys L HC; cbn [run_ops].
  - auto.
  - destruct (step_lengths p datas keys L) as [LS LK].
    pose proof (step_consistent p datas keys L HC) as HC'.
    assert (HL : map (fun d => length (pos d)) (snd (fst (pa_step g model_apply get_std upd logabs p datas keys)))
                 = map (fun d => length (pos d)) datas).
    { apply list_ext; intros j. rewrite !nth_error_map'. destruct (nth_error datas j) as [d|] eqn:Hd.
      - destruct (nth_error_same_length _ keys j _ L Hd) as [k Hk].
        assert (C : consistent psi p d) by (eapply Forall_forall; [exact HC|eapply nth_error_In; eassumption]).
        destruct (device_step p datas keys j d k L Hd Hk) as (d2 & -> & Lp & _).
        { unfold consistent in C. rewrite C, map_length. reflexivity. }
        simpl. congruence.
      - apply nth_error_None in Hd. rewrite (proj2 (nth_error_None _ _)); [reflexivity|lia]. }
    destruct (pa_step g model_apply get_std upd logabs p datas keys) as [[acc ds] ks]. cbn [fst snd] in LS, LK, HC', HL. cbv beta iota.
    assert (L' : length ds = length ks) by lia. specialize (IH p ds ks L' HC'). destruct (run_ops g model_apply get_std upd logabs ops p ds ks) as [[p'' ds''] ks''].
    destruct IH as (I1 & I2 & I3). split; [assumption|]. split; congruence.
  - specialize (IH p' (map (fun d => update_data_fn model_apply d p') datas) keys).
    rewrite map_length in IH. specialize (IH L).
    assert (HF : Forall (consistent psi p') (map (fun d => update_data_fn model_apply d p') datas)).
    { apply Forall_forall. intros d' Hin. apply in_map_iff in Hin. destruct Hin as (d & <- & Hin).
      unfold consistent, update_data_fn. simpl. apply Hbatch. }
    specialize (IH HF).
    destruct (run_ops g model_apply get_std upd logabs ops p' (map (fun d => update_data_fn model_apply d p') datas) keys) as [[p'' ds''] ks''].
    destruct IH as (I1 & I2 & I3).
    split; [assumption|]. split; [assumption|]. rewrite I3, map_map. reflexivity.
Qed.
End Step.

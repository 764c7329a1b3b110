(** * Proofs about the VMC loop model *)
From Coq Require Import List String Ascii Arith Bool Reals Lia DecimalString DecimalNat.
From Verif Require Import XReal M_io M_vmc S_vmc.
Import ListNotations.
Local Open Scope string_scope.

(** ** Strings and names *)
Lemma str_nat_inj a b : str_nat a = str_nat b -> a = b.
Proof.
  unfold str_nat; intros H. apply Unsigned.to_uint_inj.
  assert (E : NilEmpty.uint_of_string (NilEmpty.string_of_uint (Nat.to_uint a))
            = NilEmpty.uint_of_string (NilEmpty.string_of_uint (Nat.to_uint b))) by (rewrite H; reflexivity).
  rewrite !NilEmpty.usu in E. congruence.
Qed.

Lemma string_length_app (s t : string) : String.length (s ++ t) = String.length s + String.length t.
Proof. induction s as [|x s IH]; simpl; [reflexivity|rewrite IH; reflexivity]. Qed.

Lemma string_app_inj_r (a b c : string) : a ++ c = b ++ c -> a = b.
Proof.
  revert b; induction a as [|x a IH]; intros [|y b] H; try reflexivity.
  - exfalso. apply (f_equal String.length) in H. rewrite !string_length_app in H. simpl in H. lia.
  - exfalso. apply (f_equal String.length) in H. rewrite !string_length_app in H. simpl in H. lia.
  - simpl in H. injection H as -> H. f_equal. apply IH, H.
Qed.

Lemma string_app_inj_l (a b c : string) : c ++ a = c ++ b -> a = b.
Proof. induction c as [|x c IH]; simpl; intros H; [exact H|]. injection H as H. auto. Qed.

Lemma regular_name_inj a b : regular_name a = regular_name b -> a = b.
Proof.
  unfold regular_name; intros H. apply string_app_inj_r in H. apply str_nat_inj in H. lia.
Qed.

Lemma nans_name_inj a b : nans_name a = nans_name b -> a = b.
Proof.
  unfold nans_name; intros H. apply string_app_inj_l, string_app_inj_r, str_nat_inj in H. lia.
Qed.

Lemma to_uint_not_nil n : Nat.to_uint n <> Decimal.Nil.
Proof.
  destruct n as [|n]; [discriminate|]. intros H.
  assert (E : Nat.of_uint (Nat.to_uint (S n)) = S n) by apply Unsigned.of_to.
  rewrite H in E. discriminate.
Qed.

Lemma regular_name_is e : is_regular_name (regular_name e) = true.
Proof.
  unfold regular_name, str_nat.
  pose proof (to_uint_not_nil (e + 1)) as H.
  destruct (Nat.to_uint (e + 1)); solve [reflexivity | contradiction].
Qed.
Lemma regular_name_not_nans e : is_nans_name (regular_name e) = false.
Proof.
  unfold regular_name, str_nat.
  pose proof (to_uint_not_nil (e + 1)) as H.
  destruct (Nat.to_uint (e + 1)); solve [reflexivity | contradiction].
Qed.
Lemma regular_name_not_best e : is_best_name (regular_name e) = false.
Proof.
  unfold regular_name, str_nat.
  pose proof (to_uint_not_nil (e + 1)) as H.
  destruct (Nat.to_uint (e + 1)); solve [reflexivity | contradiction].
Qed.
Lemma nans_name_not_regular e : is_regular_name (nans_name e) = false.
Proof. reflexivity. Qed.
Lemma nans_name_is e : is_nans_name (nans_name e) = true.
Proof. unfold nans_name. simpl. destruct (str_nat (e + 1)); reflexivity. Qed.
Lemma nans_name_not_best e : is_best_name (nans_name e) = false.
Proof. reflexivity. Qed.
Lemma best_not_regular : is_regular_name best_checkpoint_file_name = false.
Proof. reflexivity. Qed.
Lemma best_not_nans : is_nans_name best_checkpoint_file_name = false.
Proof. reflexivity. Qed.
Lemma best_is_best : is_best_name best_checkpoint_file_name = true.
Proof. reflexivity. Qed.

(** ** Dictionaries *)
Lemma dget_dset_same d k v : dget (dset d k v) k = Some v.
Proof.
  induction d as [|[k' w] d IH]; simpl.
  - rewrite String.eqb_refl; reflexivity.
  - destruct (String.eqb k' k) eqn:E; simpl; rewrite E; [reflexivity|exact IH].
Qed.
Lemma dget_dset_other d k k' v : k <> k' -> dget (dset d k v) k' = dget d k'.
Proof.
  intros Hne. induction d as [|[k0 w] d IH]; simpl.
  - destruct (String.eqb_spec k k'); [contradiction|reflexivity].
  - destruct (String.eqb_spec k0 k) as [->|]; simpl.
    + destruct (String.eqb_spec k k'); [contradiction|reflexivity].
    + destruct (String.eqb k0 k'); [reflexivity|exact IH].
Qed.

Section Loop.
  Variables P D S K : Type.
  Variable walker_fn : P -> D -> K -> xr * D * K.
  Variable update_param_fn : P -> D -> S -> K -> P * D * S * option dict * K.
  Variable params_have_nan : P -> bool.

  Notation one_epoch := (one_epoch walker_fn update_param_fn).
  Notation state_after := (state_after walker_fn update_param_fn).
  Notation metrics_at := (metrics_at walker_fn update_param_fn).
  Notation has_metrics := (has_metrics walker_fn update_param_fn).
  Notation nan_epoch := (nan_epoch walker_fn update_param_fn params_have_nan).
  Notation mval := (mval walker_fn update_param_fn).
  Notation epoch_step := (epoch_step walker_fn update_param_fn params_have_nan).
  Notation loop := (loop walker_fn update_param_fn params_have_nan).
  Notation vmc_loop := (vmc_loop walker_fn update_param_fn params_have_nan).
  Notation complete := (metrics_complete update_param_fn).

  Definition core (s : vstate P D S K) : rstate P D S K := (v_params s, v_opt s, v_data s, v_key s).
  Definition mk (x : rstate P D S K) (c : cstate P D S K) (b : bool) : vstate P D S K :=
    let '(p, o, d, k) := x in
    {| v_params := p; v_opt := o; v_data := d; v_key := k; v_cs := c; v_nans := b |}.

  Lemma core_mk x c b : core (mk x c b) = x.
  Proof. destruct x as [[[p o] d] k]; reflexivity. Qed.
  Lemma cs_mk x c b : v_cs (mk x c b) = c.
  Proof. destruct x as [[[p o] d] k]; reflexivity. Qed.
  Lemma nans_mk x c b : v_nans (mk x c b) = b.
  Proof. destruct x as [[[p o] d] k]; reflexivity. Qed.
  Lemma mk_core s : mk (core s) (v_cs s) (v_nans s) = s.
  Proof. destruct s; reflexivity. Qed.

  Lemma state_after_S n x : state_after (Datatypes.S n) x = state_after n (one_epoch x).
  Proof.
    unfold S_vmc.state_after. induction n as [|n IH]; [reflexivity|].
    change (one_epoch (Nat.iter (Datatypes.S n) one_epoch x) = one_epoch (Nat.iter n one_epoch (one_epoch x))).
    rewrite IH; reflexivity.
  Qed.

  (** Epochs without metrics change nothing in the checkpointing state. *)
  Lemma epoch_step_no_metrics g e s :
    metrics_at (core s) = None ->
    epoch_step g e s = Continue (mk (one_epoch (core s)) (v_cs s) (v_nans s)).
  Proof.
    unfold S_vmc.metrics_at, S_vmc.one_epoch, M_vmc.epoch_step, core.
    destruct s as [p o d k c b]; simpl.
    destruct (walker_fn p d k) as [[a d1] k1].
    destruct (update_param_fn p d1 o k1) as [[[[p2 d2] s2] m] k2].
    destruct m; [discriminate|]. reflexivity.
  Qed.

  (** Without a log directory nothing is ever queued. *)
  Lemma epoch_step_no_logdir g e s :
    logdir g = None -> v_nans s = false ->
    epoch_step g e s = Continue (mk (one_epoch (core s)) (v_cs s) false).
  Proof.
    intros Hl Hn.
    unfold S_vmc.one_epoch, M_vmc.epoch_step, core.
    destruct s as [p o d k c b]; simpl in *; subst b.
    destruct (walker_fn p d k) as [[a d1] k1].
    destruct (update_param_fn p d1 o k1) as [[[[p2 d2] s2] m] k2].
    destruct m; [|reflexivity].
    unfold save_metrics_and_handle_checkpoints. rewrite Hl. reflexivity.
  Qed.

  (** The dictionary that is logged for an epoch. *)
  Definition logged (g : cfg D) (x : rstate P D S K) (m : dict) : dict :=
    match add_amplitude g m (snd (fst (one_epoch x))) with Some m' => m' | None => m end.

  Lemma add_amplitude_ok (g : cfg D) m d :
    (record_amplitudes g = true -> get_amplitude_fn g <> None) ->
    exists m', add_amplitude g m d = Some m' /\
      forall k, k <> "amplitude_min" -> k <> "amplitude_max" -> dget m' k = dget m k.
  Proof.
    intros H. unfold add_amplitude. destruct (record_amplitudes g).
    - destruct (get_amplitude_fn g) as [f|]; [|exfalso; apply H; reflexivity].
      destruct (f d) as [lo hi]. eexists; split; [reflexivity|].
      intros k H1 H2. rewrite !dget_dset_other by congruence. reflexivity.
    - eexists; split; [reflexivity|auto].
  Qed.

  (** What the best-checkpoint tracking does with one recorded epoch. *)
  Definition best_err (g : cfg D) (c : cstate P D S K) (e v : xr) : xr :=
    get_checkpoint_metric
      (avg (move_history_window (nhistory_max g) (cs_energy c) e))
      (avg (move_history_window (nhistory_max g) (cs_variance c) v))
      (nchains g * List.length (history (move_history_window (nhistory_max g) (cs_energy c) e)))
      (variance_scale g).

  Definition best_effect (g : cfg D) (ld : string) (epoch : nat) (old : ckpt P D S K)
      (e v : xr) (c c' : cstate P D S K) (bw : list (ckpt_write P D S K)) : Prop :=
    match best_checkpoint_every g with
    | None => cs_metric c' = xmin (cs_metric c) (cs_metric c) /\ cs_energy c' = cs_energy c /\
              cs_variance c' = cs_variance c /\ cs_best c' = cs_best c /\ bw = []
    | Some k =>
        cs_metric c' = xmin (best_err g c e v) (cs_metric c) /\
        cs_energy c' = move_history_window (nhistory_max g) (cs_energy c) e /\
        cs_variance c' = move_history_window (nhistory_max g) (cs_variance c) v /\
        let best := if xltb (best_err g c e v) (cs_metric c) then Some old else cs_best c in
        match best with
        | Some b => if divides_b k (epoch + 1)
                    then cs_best c' = None /\ bw = [(ld, best_checkpoint_file_name, b)]
                    else cs_best c' = Some b /\ bw = []
        | None => cs_best c' = None /\ bw = []
        end
    end.

  Definition reg_part (g : cfg D) (ld : string) (e : nat) (old : ckpt P D S K) : list (ckpt_write P D S K) :=
    match checkpoint_every g with
    | None => []
    | Some k => if divides_b k (e + 1) then [(path_join ld (checkpoint_dir g), regular_name e, old)] else []
    end.
  Definition nan_part (g : cfg D) (ld : string) (e : nat) (old : ckpt P D S K) (nan : bool) : list (ckpt_write P D S K) :=
    if check_for_nans g && nan then [(path_join ld (checkpoint_dir g), nans_name e, old)] else [].

  Lemma epoch_step_logged g ld e s m :
    valid_cfg g -> complete -> logdir g = Some ld -> v_nans s = false ->
    metrics_at (core s) = Some m ->
    exists c' bw,
      let x := core s in
      let nan := nan_epoch x in
      let old := ckpt_of e x in
      epoch_step g e s =
        (if check_for_nans g && nan then Break (mk (one_epoch x) c' true)
         else Continue (mk (one_epoch x) c' false)) /\
      cs_ckpts c' = (cs_ckpts (v_cs s) ++ reg_part g ld e old ++ nan_part g ld e old nan ++ bw)%list /\
      cs_metrics c' = (cs_metrics (v_cs s) ++ [(ld, logged g x m)])%list /\
      best_effect g ld e old (mval "energy" x) (mval "variance" x) (v_cs s) c' bw.
  Proof.
    intros (Hck & Hbk & Hamp) Hc Hl Hn Hm.
    destruct s as [p o d k c b]; cbn [v_nans] in Hn; subst b. cbn zeta.
    unfold logged, S_vmc.nan_epoch, S_vmc.has_metrics, S_vmc.mval. rewrite !Hm.
    unfold S_vmc.metrics_at, S_vmc.one_epoch, M_vmc.epoch_step, core, ckpt_of in *.
    cbn [v_params v_opt v_data v_key v_cs v_nans] in *.
    destruct (walker_fn p d k) as [[a d1] k1] eqn:Ew.
    destruct (update_param_fn p d1 o k1) as [[[[p2 d2] s2] m0] k2] eqn:Eu.
    destruct m0 as [m0|]; [|discriminate]. simpl in Hm. injection Hm as Hm.
    destruct (Hc p d1 o k1 m0) as ((ve & He) & (vv & Hv) & (ven & Hen) & (vvn & Hvn)).
    { rewrite Eu; reflexivity. }
    assert (Ge : dget m "energy" = Some ve) by (subst m; rewrite dget_dset_other by discriminate; exact He).
    assert (Gv : dget m "variance" = Some vv) by (subst m; rewrite dget_dset_other by discriminate; exact Hv).
    assert (Gen : dget m "energy_noclip" = Some ven) by (subst m; rewrite dget_dset_other by discriminate; exact Hen).
    assert (Gvn : dget m "variance_noclip" = Some vvn) by (subst m; rewrite dget_dset_other by discriminate; exact Hvn).
    rewrite Hm, Ge, Gv, Gen, Gvn. cbn [fst snd].
    unfold save_metrics_and_handle_checkpoints. rewrite Hl.
    destruct (add_amplitude_ok g m d2 Hamp) as (m' & Em' & Hm'). rewrite Em'.
    assert (Ge' : dget m' "energy" = Some ve) by (rewrite Hm' by discriminate; exact Ge).
    assert (Gv' : dget m' "variance" = Some vv) by (rewrite Hm' by discriminate; exact Gv).
    assert (Gen' : dget m' "energy_noclip" = Some ven) by (rewrite Hm' by discriminate; exact Gen).
    assert (Gvn' : dget m' "variance_noclip" = Some vvn) by (rewrite Hm' by discriminate; exact Gvn).
    set (old := {| c_epoch := e; c_data := d; c_params := p; c_opt := o; c_key := k |}).
    set (nan := (true && (isnan ven || isnan vvn || params_have_nan p2))%bool).
    (* the regular part *)
    assert (Hreg : exists c1,
      save_metrics_and_regular_checkpoint params_have_nan g ld e old p2 m' c
        = Ret c1 (check_for_nans g && nan)
      /\ cs_ckpts c1 = (cs_ckpts c ++ reg_part g ld e old ++ nan_part g ld e old nan)%list
      /\ cs_metrics c1 = (cs_metrics c ++ [(ld, m')])%list
      /\ cs_metric c1 = cs_metric c /\ cs_energy c1 = cs_energy c /\ cs_variance c1 = cs_variance c
      /\ cs_best c1 = cs_best c).
    { unfold save_metrics_and_regular_checkpoint, check_nans_fn, reg_part, nan_part.
      rewrite Gen', Gvn'. subst nan. rewrite andb_true_l.
      destruct (checkpoint_every g) as [[|ck]|]; [exfalso; apply Hck; reflexivity| |];
        [destruct (divides_b (Datatypes.S ck) (e + 1))|];
        destruct (check_for_nans g); simpl;
        destruct (isnan ven || isnan vvn || params_have_nan p2)%bool; simpl;
        (eexists; split; [reflexivity|]; simpl; rewrite ?app_nil_r, <- ?app_assoc; simpl; auto 10). }
    destruct Hreg as (c1 & -> & Hck1 & Hcm1 & Hmet & Hen1 & Hva1 & Hbe1).
    (* the best part *)
    assert (Hbest : exists c2 bw err,
      track_and_save_best_checkpoint g ld e old m' c1 = Ret c2 err /\
      cs_ckpts c2 = (cs_ckpts c1 ++ bw)%list /\ cs_metrics c2 = cs_metrics c1 /\
      best_effect g ld e old ve vv c (set_metric (xmin err (cs_metric c)) c2) bw).
    { unfold track_and_save_best_checkpoint, best_effect, best_err.
      destruct (best_checkpoint_every g) as [[|bk]|].
      - exfalso; apply Hbk; reflexivity.
      - rewrite Ge', Gv', Hmet, Hen1, Hva1, Hbe1.
        set (err := get_checkpoint_metric _ _ _ _).
        destruct (if xltb err (cs_metric c) then Some old else cs_best c) as [b|] eqn:Eb.
        + destruct (divides_b (Datatypes.S bk) (e + 1)) eqn:Ed.
          * do 3 eexists; split; [reflexivity|]. simpl. repeat split.
          * do 3 eexists; split; [reflexivity|]. simpl. rewrite app_nil_r. repeat split.
        + do 3 eexists; split; [reflexivity|]. simpl. rewrite app_nil_r. repeat split.
      - do 3 eexists; split; [reflexivity|]. simpl. rewrite app_nil_r, Hmet. repeat split; auto. }
    destruct Hbest as (c2 & bw & err & -> & Hck2 & Hcm2 & Heff).
    exists (set_metric (xmin err (cs_metric c)) c2), bw.
    split; [|split; [|split]].
    - destruct (check_for_nans g && nan)%bool; reflexivity.
    - simpl. rewrite Hck2, Hck1. rewrite <- !app_assoc. reflexivity.
    - simpl. rewrite Hcm2, Hcm1. reflexivity.
    - exact Heff.
  Qed.

  (** General invariant principle for logged runs started in [x0] at epoch [start]. *)
  Section Inv.
    Variables (g : cfg D) (ld : string) (x0 : rstate P D S K) (start : nat).
    Hypothesis Hvalid : valid_cfg g.
    Hypothesis Hcomplete : complete.
    Hypothesis Hld : logdir g = Some ld.
    Variable I : nat -> cstate P D S K -> Prop.

    Notation x q := (state_after q x0).
    Hypothesis Inone : forall q c, I q c -> metrics_at (x q) = None -> I (Datatypes.S q) c.
    Hypothesis Isome : forall q c c' bw m,
      I q c -> metrics_at (x q) = Some m ->
      cs_ckpts c' = (cs_ckpts c ++ reg_part g ld (start + q) (ckpt_of (start + q) (x q))
                       ++ nan_part g ld (start + q) (ckpt_of (start + q) (x q)) (nan_epoch (x q)) ++ bw)%list ->
      cs_metrics c' = (cs_metrics c ++ [(ld, logged g (x q) m)])%list ->
      best_effect g ld (start + q) (ckpt_of (start + q) (x q))
        (mval "energy" (x q)) (mval "variance" (x q)) c c' bw ->
      I (Datatypes.S q) c'.

    Lemma state_after_succ q : state_after (Datatypes.S q) x0 = one_epoch (state_after q x0).
    Proof. reflexivity. Qed.

    Lemma loop_inv n : forall q s,
      core s = x q -> v_nans s = false -> I q (v_cs s) ->
      exists r b s',
        RunsFor (fun i => check_for_nans g && nan_epoch (x (q + i))) n r b /\
        loop g n (start + q) s = (if b then Break s' else Continue s') /\
        core s' = x (q + r) /\ v_nans s' = b /\ I (q + r) (v_cs s').
    Proof.
      induction n as [|n IH]; intros q s Hx Hn HI.
      - exists 0, false, s. rewrite Nat.add_0_r. repeat split; auto.
        left; repeat split; auto; intros; lia.
      - assert (Hstep : exists c', epoch_step g (start + q) s =
            (if check_for_nans g && nan_epoch (x q) then Break (mk (x (Datatypes.S q)) c' true)
             else Continue (mk (x (Datatypes.S q)) c' false)) /\ I (Datatypes.S q) c').
        { destruct (metrics_at (x q)) as [m|] eqn:Em.
          - rewrite <- Hx in Em.
            destruct (epoch_step_logged g ld (start + q) s m Hvalid Hcomplete Hld Hn Em)
              as (c' & bw & Hs & H1 & H2 & H3). cbn zeta in *.
            rewrite Hx in *. exists c'. split; [exact Hs|].
            eapply Isome; eauto.
          - assert (Hnan : nan_epoch (x q) = false).
            { unfold S_vmc.nan_epoch, S_vmc.has_metrics. rewrite Em. reflexivity. }
            rewrite Hnan, andb_false_r. exists (v_cs s). split.
            + rewrite epoch_step_no_metrics by (rewrite Hx; exact Em). rewrite Hx, Hn. reflexivity.
            + apply Inone; assumption. }
        destruct Hstep as (c' & Hs & HI').
        destruct (check_for_nans g && nan_epoch (x q)) eqn:Eb.
        + exists 1, true, (mk (x (Datatypes.S q)) c' true).
          split; [|split; [|split; [|split]]].
          * right. split; [reflexivity|]. exists 0. rewrite Nat.add_0_r. repeat split; auto; intros; lia.
          * cbn [M_vmc.loop]. rewrite Hs. reflexivity.
          * rewrite core_mk. rewrite Nat.add_1_r; reflexivity.
          * apply nans_mk.
          * rewrite cs_mk, Nat.add_1_r. exact HI'.
        + destruct (IH (Datatypes.S q) (mk (x (Datatypes.S q)) c' false)) as (r & b & s' & HR & HL & HC & HN & HI2).
          * apply core_mk.
          * apply nans_mk.
          * rewrite cs_mk; exact HI'.
          * exists (Datatypes.S r), b, s'.
            split; [|split; [|split; [|split]]].
            -- destruct HR as [(-> & -> & Hf)|(-> & i & -> & Hi & Hfi & Hfj)].
               ++ left. repeat split; auto. intros i Hi. destruct i as [|i].
                  ** rewrite Nat.add_0_r; exact Eb.
                  ** specialize (Hf i ltac:(lia)). rewrite Nat.add_succ_r. exact Hf.
               ++ right. split; [reflexivity|]. exists (Datatypes.S i). repeat split; try lia.
                  ** rewrite Nat.add_succ_r. exact Hfi.
                  ** intros j Hj. destruct j as [|j].
                     --- rewrite Nat.add_0_r; exact Eb.
                     --- specialize (Hfj j ltac:(lia)). rewrite Nat.add_succ_r. exact Hfj.
            -- cbn [M_vmc.loop]. rewrite Hs.
               replace (Datatypes.S (start + q)) with (start + Datatypes.S q) by lia. exact HL.
            -- rewrite Nat.add_succ_r. exact HC.
            -- exact HN.
            -- rewrite Nat.add_succ_r. exact HI2.
    Qed.
  End Inv.

  (** Whole-run version. *)
  Lemma vmc_loop_inv (g : cfg D) ld start nepochs p o d k (I : nat -> cstate P D S K -> Prop) :
    valid_cfg g -> complete -> logdir g = Some ld ->
    let x0 := (p, o, d, k) in
    I 0 cs_init ->
    (forall q c, I q c -> metrics_at (state_after q x0) = None -> I (Datatypes.S q) c) ->
    (forall q c c' bw m,
      I q c -> metrics_at (state_after q x0) = Some m ->
      cs_ckpts c' = (cs_ckpts c ++ reg_part g ld (start + q) (ckpt_of (start + q) (state_after q x0))
                       ++ nan_part g ld (start + q) (ckpt_of (start + q) (state_after q x0))
                            (nan_epoch (state_after q x0)) ++ bw)%list ->
      cs_metrics c' = (cs_metrics c ++ [(ld, logged g (state_after q x0) m)])%list ->
      best_effect g ld (start + q) (ckpt_of (start + q) (state_after q x0))
        (mval "energy" (state_after q x0)) (mval "variance" (state_after q x0)) c c' bw ->
      I (Datatypes.S q) c') ->
    exists r b c p' o' d' k',
      RunsFor (fun i => check_for_nans g && nan_epoch (state_after i x0)) (nepochs - start) r b /\
      state_after r x0 = (p', o', d', k') /\ I r c /\
      vmc_loop g start nepochs p o d k =
        Finished p' o' d' k' b (cs_ckpts (finish_checkpointing g c)) (cs_metrics c).
  Proof.
    intros Hv Hc Hl x0 H0 H1 H2.
    unfold M_vmc.vmc_loop.
    destruct (loop_inv g ld x0 start Hv Hc Hl I H1 H2 (nepochs - start) 0
      {| v_params := p; v_opt := o; v_data := d; v_key := k; v_cs := cs_init; v_nans := false |})
      as (r & b & s' & HR & HL & HC & HN & HI); try reflexivity; [exact H0|].
    rewrite Nat.add_0_r in HL. rewrite HL.
    destruct s' as [p' o' d' k' c b']. unfold core in HC. cbn [v_params v_opt v_data v_key v_cs v_nans] in HC, HN, HI. subst b'.
    exists r, b, c, p', o', d', k'.
    split; [exact HR|]. split; [symmetry; exact HC|]. split; [exact HI|].
    assert (E : cs_metrics (finish_checkpointing g c) = cs_metrics c).
    { unfold finish_checkpointing. destruct (logdir g), (cs_best c); reflexivity. }
    destruct b; cbn; rewrite E; reflexivity.
  Qed.

End Loop.

(** * Property-level lemmas about the VMC loop, derived from the run description *)
From Coq Require Import List String Ascii Arith Bool Reals Lia FinFun.
From Verif Require Import XReal M_io M_vmc S_vmc P_vmc P_vmc2 P_running.
Import ListNotations.
Local Open Scope string_scope.
Local Open Scope list_scope.

Section Props.
  Variables P D S K : Type.
  Variable walker_fn : P -> D -> K -> xr * D * K.
  Variable update_param_fn : P -> D -> S -> K -> P * D * S * option dict * K.
  Variable params_have_nan : P -> bool.

  Notation one_epoch := (one_epoch walker_fn update_param_fn).
  Notation state_after := (state_after walker_fn update_param_fn).
  Notation metrics_at := (metrics_at walker_fn update_param_fn).
  Notation has_metrics := (has_metrics walker_fn update_param_fn).
  Notation nan_epoch := (nan_epoch walker_fn update_param_fn params_have_nan).
  Notation mval := (mval walker_fn update_param_fn).
  Notation recorded := (recorded walker_fn update_param_fn).
  Notation vmc_loop := (vmc_loop walker_fn update_param_fn params_have_nan).
  Notation complete := (metrics_complete update_param_fn).
  Notation logged := (logged P D S K walker_fn update_param_fn).
  Notation reg_writes := (reg_writes P D S K walker_fn update_param_fn).
  Notation nan_writes := (nan_writes P D S K walker_fn update_param_fn params_have_nan).
  Notation metric_writes := (metric_writes P D S K walker_fn update_param_fn).
  Notation err_at := (err_at P D S K walker_fn update_param_fn).
  Notation energies := (energies P D S K walker_fn update_param_fn).
  Notation variances := (variances P D S K walker_fn update_param_fn).

  Lemma state_after_add a b x : state_after (a + b) x = state_after b (state_after a x).
  Proof.
    unfold S_vmc.state_after. induction b as [|b IH]; [rewrite Nat.add_0_r; reflexivity|].
    rewrite Nat.add_succ_r. simpl. f_equal. exact IH.
  Qed.

  Lemma RunsFor_le f n r b : RunsFor f n r b -> r <= n.
  Proof. intros [(_ & -> & _)|(_ & i & -> & Hi & _)]; lia. Qed.

  Lemma RunsFor_unique f n r b r' b' : RunsFor f n r b -> RunsFor f n r' b' -> r = r' /\ b = b'.
  Proof.
    intros [(-> & -> & H)|(-> & i & -> & Hi & Hf & Hj)] [(-> & -> & H')|(-> & i' & -> & Hi' & Hf' & Hj')]; auto.
    - rewrite H in Hf' by lia. discriminate.
    - rewrite H' in Hf by lia. discriminate.
    - destruct (Nat.lt_trichotomy i i') as [L|[->|L]]; [|auto|].
      + rewrite Hj' in Hf by lia; discriminate.
      + rewrite Hj in Hf' by lia; discriminate.
  Qed.

  Lemma RunsFor_shift f n r b i :
    RunsFor f n r b -> i < r -> RunsFor (fun j => f (i + j)) (n - i) (r - i) b.
  Proof.
    intros [(-> & -> & H)|(-> & q & -> & Hq & Hf & Hj)] Hi.
    - left. repeat split. intros j Hj. apply H. lia.
    - right. split; [reflexivity|]. exists (q - i). repeat split; try lia.
      + replace (i + (q - i)) with q by lia. exact Hf.
      + intros j Hjj. apply Hj. lia.
  Qed.

  (** ** C01 *)
  Lemma regular_checkpoints (g : cfg D) ld k start nepochs p o d key :
    valid_cfg g -> complete -> logdir g = Some ld -> checkpoint_every g = Some k ->
    let x0 := (p, o, d, key) in
    exists r b p' o' d' key' ckpts metrics,
      vmc_loop g start nepochs p o d key = Finished p' o' d' key' b ckpts metrics /\
      RunsFor (fun i => check_for_nans g && nan_epoch (state_after i x0)) (nepochs - start) r b /\
      writes_named is_regular_name ckpts =
        map (fun i => (path_join ld (checkpoint_dir g), str_nat (start + i + 1) ++ ".npz",
                       ckpt_of (start + i) (state_after i x0)))%string
            (filter (fun i => has_metrics (state_after i x0) && Nat.eqb ((start + i + 1) mod k) 0) (seq 0 r)) /\
      NoDup (map (fun w => snd (fst w)) (writes_named is_regular_name ckpts)).
  Proof.
    intros Hv Hc Hl Hk x0.
    destruct (run_description P D S K walker_fn update_param_fn params_have_nan g ld start nepochs p o d key Hv Hc Hl)
      as (r & b & ckpts & metrics & p' & o' & d' & k' & HR & HX & HL & H1 & _).
    exists r, b, p', o', d', k', ckpts, metrics.
    split; [exact HL|]. split; [exact HR|].
    assert (E : writes_named is_regular_name ckpts =
        map (fun i => (path_join ld (checkpoint_dir g), str_nat (start + i + 1) ++ ".npz",
                       ckpt_of (start + i) (state_after i x0)))%string
            (filter (fun i => has_metrics (state_after i x0) && Nat.eqb ((start + i + 1) mod k) 0) (seq 0 r))).
    { rewrite H1. unfold P_vmc2.reg_writes, reg_due. rewrite Hk. reflexivity. }
    split; [exact E|]. rewrite E, map_map. cbn [fst snd].
    apply Injective_map_NoDup.
    - intros i j H. apply regular_name_inj in H. lia.
    - apply NoDup_filter, seq_NoDup.
  Qed.

  (** Every queued checkpoint, of any kind, is the pre-epoch state of an executed epoch. *)
  Lemma all_writes_are_states (g : cfg D) ld start nepochs p o d key :
    valid_cfg g -> complete -> logdir g = Some ld ->
    let x0 := (p, o, d, key) in
    exists r b p' o' d' key' ckpts metrics,
      vmc_loop g start nepochs p o d key = Finished p' o' d' key' b ckpts metrics /\
      RunsFor (fun i => check_for_nans g && nan_epoch (state_after i x0)) (nepochs - start) r b /\
      forall w, In w ckpts -> exists i, i < r /\ snd w = ckpt_of (start + i) (state_after i x0).
  Proof.
    intros Hv Hc Hl x0.
    set (I := fun (q : nat) (c : cstate P D S K) =>
      (forall w, In w (cs_ckpts c) -> exists i, i < q /\ snd w = ckpt_of (start + i) (state_after i x0)) /\
      (forall b, cs_best c = Some b -> exists i, i < q /\ b = ckpt_of (start + i) (state_after i x0))).
    destruct (vmc_loop_inv P D S K walker_fn update_param_fn params_have_nan g ld start nepochs p o d key I Hv Hc Hl)
      as (r & b & c & p' & o' & d' & k' & HR & HX & [HI1 HI2] & HL).
    - split; [intros w []|discriminate].
    - intros q c [H1 H2] _. split; intros w Hw.
      + destruct (H1 w Hw) as (i & Hi & E). exists i; split; [lia|exact E].
      + destruct (H2 w Hw) as (i & Hi & E). exists i; split; [lia|exact E].
    - intros q c c' bw m [H1 H2] Hm Hck _ HE.
      assert (HB : (forall w, In w bw -> exists i, i < Datatypes.S q /\ snd w = ckpt_of (start + i) (state_after i x0)) /\
                   (forall b, cs_best c' = Some b -> exists i, i < Datatypes.S q /\ b = ckpt_of (start + i) (state_after i x0))).
      { unfold best_effect in HE. destruct (best_checkpoint_every g) as [kb|].
        - destruct HE as (_ & _ & _ & HE). cbn zeta in HE.
          destruct (xltb _ _).
          + destruct (divides_b _ _); destruct HE as [-> ->]; split; intros w Hw; try discriminate; try contradiction.
            * destruct Hw as [<-|[]]. exists q; split; [lia|reflexivity].
            * injection Hw as <-. exists q; split; [lia|reflexivity].
          + destruct (cs_best c) as [b0|].
            * destruct (H2 b0 eq_refl) as (i & Hi & E).
              destruct (divides_b _ _); destruct HE as [-> ->]; split; intros w Hw; try discriminate; try contradiction.
              -- destruct Hw as [<-|[]]. exists i; split; [lia|exact E].
              -- injection Hw as <-. exists i; split; [lia|exact E].
            * destruct HE as [-> ->]; split; intros w Hw; [contradiction|discriminate].
        - destruct HE as (_ & _ & _ & -> & ->). split; intros w Hw; [contradiction|].
          destruct (H2 w Hw) as (i & Hi & E). exists i; split; [lia|exact E]. }
      split; [|exact (proj2 HB)].
      intros w Hw. rewrite Hck in Hw. rewrite !in_app_iff in Hw.
      destruct Hw as [Hw|[Hw|[Hw|Hw]]].
      + destruct (H1 w Hw) as (i & Hi & E). exists i; split; [lia|exact E].
      + unfold reg_part in Hw. destruct (checkpoint_every g); [|contradiction].
        destruct (divides_b _ _); [|contradiction]. destruct Hw as [<-|[]]. exists q; split; [lia|reflexivity].
      + unfold nan_part in Hw. destruct (_ && _); [|contradiction]. destruct Hw as [<-|[]].
        exists q; split; [lia|reflexivity].
      + apply (proj1 HB), Hw.
    - exists r, b, p', o', d', k', (cs_ckpts (finish_checkpointing g c)), (cs_metrics c).
      split; [exact HL|]. split; [exact HR|].
      intros w Hw. unfold finish_checkpointing in Hw. rewrite Hl in Hw.
      destruct (cs_best c) as [b0|] eqn:Eb; [|apply HI1, Hw].
      simpl in Hw. apply in_app_or in Hw. destruct Hw as [Hw|[<-|[]]]; [apply HI1, Hw|].
      apply HI2. reflexivity.
  Qed.

  Lemma skipn_seq a n b : skipn a (seq b n) = seq (b + a) (n - a).
  Proof.
    revert n b; induction a as [|a IH]; intros n b; simpl.
    - rewrite Nat.add_0_r, Nat.sub_0_r. reflexivity.
    - destruct n as [|n]; [reflexivity|]. simpl. rewrite IH. f_equal. lia.
  Qed.

  Lemma seq_split i r : i <= r -> seq 0 r = seq 0 i ++ map (fun j => i + j) (seq 0 (r - i)).
  Proof.
    intros Hi. replace r with (i + (r - i)) at 1 by lia. rewrite seq_app. f_equal. simpl.
    clear Hi. generalize (r - i) as n. intros n. revert i.
    induction n as [|n IH]; intros i; [reflexivity|]. simpl. rewrite Nat.add_0_r. f_equal.
    rewrite (IH (Datatypes.S i)). rewrite <- seq_shift, map_map. apply map_ext. intros; lia.
  Qed.

  Lemma filter_map_comm {A B} (f : A -> B) (q : B -> bool) l :
    filter q (map f l) = map f (filter (fun a => q (f a)) l).
  Proof.
    induction l as [|a l IH]; [reflexivity|]. simpl. destruct (q (f a)); simpl; rewrite IH; reflexivity.
  Qed.

  Lemma filter_ext_eq {A} (f h : A -> bool) l : (forall a, f a = h a) -> filter f l = filter h l.
  Proof. intros H. induction l as [|a l IH]; [reflexivity|]. simpl. rewrite H, IH. reflexivity. Qed.

  (** ** C02.  Resuming from any checkpoint written by the run. *)
  Lemma resume_reproduces (g g' : cfg D) ld ld' start nepochs p o d key pf of_ df kf nf cks ms w :
    valid_cfg g -> complete -> logdir g = Some ld ->
    valid_cfg g' -> logdir g' = Some ld' -> check_for_nans g' = check_for_nans g ->
    checkpoint_every g' = checkpoint_every g ->
    record_amplitudes g' = record_amplitudes g -> get_amplitude_fn g' = get_amplitude_fn g ->
    vmc_loop g start nepochs p o d key = Finished pf of_ df kf nf cks ms ->
    In w cks ->
    let c := snd w in
    exists cks' ms' before mbefore,
      vmc_loop g' (c_epoch c) nepochs (c_params c) (c_opt c) (c_data c) (c_key c)
        = Finished pf of_ df kf nf cks' ms' /\
      map (fun v => (snd (fst v), snd v)) (writes_named is_regular_name cks) =
        before ++ map (fun v => (snd (fst v), snd v)) (writes_named is_regular_name cks') /\
      (forall v, In v before -> c_epoch (snd v) < c_epoch c) /\
      (forall v, In v cks' -> c_epoch c <= c_epoch (snd v)) /\
      map snd ms = mbefore ++ map snd ms' /\
      List.length mbefore = List.length (recorded (p, o, d, key) (c_epoch c - start)).
  Proof.
    intros Hv Hc Hl Hv' Hl' Enan Eevery Eamp Eget HL Hw c.
    set (x0 := (p, o, d, key)).
    destruct (run_description P D S K walker_fn update_param_fn params_have_nan g ld start nepochs p o d key Hv Hc Hl)
      as (r & b & ckpts & metrics & p1 & o1 & d1 & k1 & HR & HX & HL1 & H1 & _ & H3 & _).
    fold x0 in HR, HX, H1, H3. rewrite HL in HL1. injection HL1 as <- <- <- <- <- <- <-.
    destruct (all_writes_are_states g ld start nepochs p o d key Hv Hc Hl)
      as (r2 & b2 & p2 & o2 & d2 & k2 & ck2 & m2 & HL2 & HR2 & Hall).
    rewrite HL in HL2. injection HL2 as <- <- <- <- <- <- <-. fold x0 in HR2, Hall.
    destruct (RunsFor_unique _ _ _ _ _ _ HR HR2) as [<- _].
    destruct (Hall w Hw) as (i & Hi & Ec). fold c in Ec.
    destruct (state_after i x0) as [[[pi oi] di] ki] eqn:Ei.
    assert (Hci : c_epoch c = start + i) by (rewrite Ec; reflexivity).
    rewrite Ec. cbn [c_epoch c_params c_opt c_data c_key ckpt_of].
    destruct (run_description P D S K walker_fn update_param_fn params_have_nan g' ld' (start + i) nepochs pi oi di ki Hv' Hc Hl')
      as (r' & b' & ckpts' & metrics' & p' & o' & d' & k' & HR' & HX' & HL' & H1' & _ & H3' & _).
    assert (Hs : forall j, state_after j (pi, oi, di, ki) = state_after (i + j) x0).
    { intros j. rewrite state_after_add, Ei. reflexivity. }
    assert (HR'' : RunsFor (fun j => check_for_nans g && nan_epoch (state_after (i + j) x0))
                     (nepochs - (start + i)) r' b').
    { destruct HR' as [(A & B & C)|(A & q & B & C & D1 & E1)].
      - left. repeat split; auto. intros j Hj. specialize (C j Hj). rewrite Hs, Enan in C. exact C.
      - right. split; [exact A|]. exists q. rewrite Hs, Enan in D1. repeat split; auto.
        intros j Hj. specialize (E1 j Hj). rewrite Hs, Enan in E1. exact E1. }
    pose proof (RunsFor_shift _ _ _ _ i HR Hi) as HRs.
    replace (nepochs - start - i) with (nepochs - (start + i)) in HRs by lia.
    destruct (RunsFor_unique _ _ _ _ _ _ HR'' HRs) as [-> ->].
    assert (EX : state_after (r - i) (pi, oi, di, ki) = state_after r x0).
    { rewrite Hs. f_equal. lia. }
    rewrite EX, HX in HX'. injection HX' as <- <- <- <-.
    destruct (all_writes_are_states g' ld' (start + i) nepochs pi oi di ki Hv' Hc Hl')
      as (r3 & b3 & p3 & o3 & d3 & k3 & ck3 & m3 & HL3 & HR3 & Hall3).
    rewrite HL' in HL3. injection HL3 as <- <- <- <- <- <- <-.
    exists ckpts', metrics',
      (map (fun v => (snd (fst v), snd v)) (reg_writes g ld x0 start i)),
      (map snd (metric_writes g ld x0 i)).
    split; [exact HL'|]. split; [|split; [|split; [|split]]].
    - rewrite H1, H1'. unfold P_vmc2.reg_writes. rewrite !map_map. cbn [fst snd].
      rewrite (seq_split i r) by lia. rewrite filter_app, map_app. f_equal.
      rewrite filter_map_comm, map_map.
      unfold reg_due, ck. rewrite Eevery.
      erewrite filter_ext_eq.
      2:{ intros j. rewrite <- Hs, (Nat.add_assoc start i j). reflexivity. }
      apply map_ext. intros j. rewrite <- Hs, (Nat.add_assoc start i j). reflexivity.
    - intros v Hin. rewrite in_map_iff in Hin. destruct Hin as (u & <- & Hu).
      unfold P_vmc2.reg_writes in Hu. rewrite in_map_iff in Hu. destruct Hu as (j & <- & Hj).
      rewrite filter_In, in_seq in Hj. cbn [fst snd]. unfold ck. 
      destruct (state_after j x0) as [[[? ?] ?] ?]. cbn. lia.
    - intros v Hin. destruct (Hall3 v Hin) as (j & Hj & ->).
      destruct (state_after j (pi, oi, di, ki)) as [[[? ?] ?] ?]. cbn. lia.
    - rewrite H3, H3'. unfold P_vmc2.metric_writes. rewrite (seq_split i r) by lia.
      rewrite flat_map_app, map_app. f_equal.
      assert (G : forall l, map snd (flat_map (fun i0 => match metrics_at (state_after i0 x0) with
           | Some m => [(ld, logged g (state_after i0 x0) m)] | None => [] end) (map (fun j => i + j) l)) =
         map snd (flat_map (fun i0 => match metrics_at (state_after i0 (pi, oi, di, ki)) with
           | Some m => [(ld', logged g' (state_after i0 (pi, oi, di, ki)) m)] | None => [] end) l)).
      { induction l as [|j l IH]; [reflexivity|]. cbn [map flat_map]. rewrite !map_app, IH. f_equal.
        rewrite Hs. destruct (metrics_at (state_after (i + j) x0)); [|reflexivity].
        simpl. unfold P_vmc.logged, add_amplitude. rewrite Eamp, Eget. reflexivity. }
      apply G.
    - rewrite map_length. cbn [c_epoch]. replace (start + i - start) with i by lia.
      unfold P_vmc2.metric_writes, S_vmc.recorded. fold x0. generalize (seq 0 i) as l.
      induction l as [|q l IH]; [reflexivity|]. cbn [flat_map filter]. rewrite app_length, IH.
      unfold S_vmc.has_metrics at 2. destruct (metrics_at (state_after q x0)); reflexivity.
  Qed.

  (** ** C06 *)
  Lemma nan_abort (g : cfg D) ld start nepochs p o d key :
    valid_cfg g -> complete -> logdir g = Some ld -> check_for_nans g = true ->
    let x0 := (p, o, d, key) in
    exists p' o' d' key' nans ckpts metrics r,
      vmc_loop g start nepochs p o d key = Finished p' o' d' key' nans ckpts metrics /\
      state_after r x0 = (p', o', d', key') /\
      ((nans = false /\ r = nepochs - start /\ writes_named is_nans_name ckpts = [] /\
        forall i, i < nepochs - start -> nan_epoch (state_after i x0) = false)
       \/
       (exists i, nans = true /\ r = i + 1 /\ i < nepochs - start /\
          nan_epoch (state_after i x0) = true /\
          (forall j, j < i -> nan_epoch (state_after j x0) = false) /\
          writes_named is_nans_name ckpts =
            [(path_join ld (checkpoint_dir g), "nans_" ++ str_nat (start + i + 1) ++ ".npz",
              ckpt_of (start + i) (state_after i x0))]%string)).
  Proof.
    intros Hv Hc Hl Hn x0.
    destruct (run_description P D S K walker_fn update_param_fn params_have_nan g ld start nepochs p o d key Hv Hc Hl)
      as (r & b & ckpts & metrics & p' & o' & d' & k' & HR & HX & HL & _ & H2 & _).
    exists p', o', d', k', b, ckpts, metrics, r. split; [exact HL|]. split; [exact HX|].
    fold x0 in HR, H2. rewrite Hn in HR. simpl in HR.
    assert (Hnone : forall m, (forall j, j < m -> nan_epoch (state_after j x0) = false) ->
      filter (fun i => check_for_nans g && nan_epoch (state_after i x0)) (seq 0 m) = []).
    { intros m Hm. rewrite Hn. simpl. assert (G : forall l, (forall j, In j l -> j < m) ->
        filter (fun i => nan_epoch (state_after i x0)) l = []).
      { induction l as [|j l IH]; [reflexivity|]. intros Hj. cbn [filter]. rewrite Hm by (apply Hj; left; reflexivity).
        apply IH. intros; apply Hj; right; assumption. }
      apply G. intros j Hj. apply in_seq in Hj. lia. }
    destruct HR as [(-> & -> & H)|(-> & i & -> & Hi & Hf & Hj)].
    - left. repeat split; auto. rewrite H2. unfold P_vmc2.nan_writes. rewrite Hnone by exact H. reflexivity.
    - right. exists i. repeat split; auto. rewrite H2. unfold P_vmc2.nan_writes.
      rewrite Nat.add_1_r, seq_snoc, filter_app, Hnone by exact Hj. cbn [filter app].
      rewrite Hn, Hf. reflexivity.
  Qed.

  (** Without the check, or without NaNs, every epoch runs. *)
  Lemma no_check_runs_all (g : cfg D) ld start nepochs p o d key :
    valid_cfg g -> complete -> logdir g = Some ld ->
    let x0 := (p, o, d, key) in
    (check_for_nans g = false \/ forall i, i < nepochs - start -> nan_epoch (state_after i x0) = false) ->
    exists ckpts metrics,
      vmc_loop g start nepochs p o d key =
        (let '(p', o', d', key') := state_after (nepochs - start) x0 in
         Finished p' o' d' key' false ckpts metrics).
  Proof.
    intros Hv Hc Hl x0 Hn.
    destruct (run_description P D S K walker_fn update_param_fn params_have_nan g ld start nepochs p o d key Hv Hc Hl)
      as (r & b & ckpts & metrics & p' & o' & d' & k' & HR & HX & HL & _). fold x0 in HR, HX.
    assert (HR2 : RunsFor (fun i => check_for_nans g && nan_epoch (state_after i x0)) (nepochs - start) (nepochs - start) false).
    { left. repeat split. intros i Hi. destruct Hn as [->|Hn]; [reflexivity|]. rewrite Hn by exact Hi. apply andb_false_r. }
    destruct (RunsFor_unique _ _ _ _ _ _ HR HR2) as [-> ->].
    exists ckpts, metrics. rewrite HX. exact HL.
  Qed.

  (** ** C07 *)
  Lemma loop_no_logdir (g : cfg D) :
    logdir g = None -> forall n e x c,
    M_vmc.loop walker_fn update_param_fn params_have_nan g n e (mk P D S K x c false) =
      Continue (mk P D S K (state_after n x) c false).
  Proof.
    intros Hl. induction n as [|n IH]; intros e x c; [reflexivity|].
    cbn [M_vmc.loop]. rewrite epoch_step_no_logdir; [|exact Hl|apply nans_mk].
    rewrite core_mk, cs_mk, IH. rewrite state_after_S. reflexivity.
  Qed.

  Lemma no_logdir_no_effects (g : cfg D) start nepochs p o d key :
    logdir g = None ->
    vmc_loop g start nepochs p o d key =
      (let '(p', o', d', key') := state_after (nepochs - start) (p, o, d, key) in
       Finished p' o' d' key' false [] []).
  Proof.
    intros Hl. unfold M_vmc.vmc_loop.
    change {| v_params := p; v_opt := o; v_data := d; v_key := key; v_cs := cs_init; v_nans := false |}
      with (mk P D S K (p, o, d, key) cs_init false).
    rewrite loop_no_logdir by exact Hl.
    destruct (state_after _ _) as [[[p' o'] d'] k'].
    cbn. unfold finish_checkpointing. rewrite Hl. reflexivity.
  Qed.

  (** ** C04 on finite metrics *)

  (** The error-adjusted running average from the definition: mean energy of the window plus the
      square root of (mean variance of the window / effective number of samples). *)
  Lemma err_at_fin (g : cfg D) x0 (E V : nat -> R) r :
    2 <= nhistory_max g ->
    (forall i, In i (recorded x0 r) -> mval "energy" (state_after i x0) = Fin (E i) /\
       mval "variance" (state_after i x0) = Fin (V i) /\ (0 <= V i)%R) ->
    forall i, In i (recorded x0 r) ->
    err_at g x0 i = Fin (window_metric g (map E (recorded x0 (i + 1))) (map V (recorded x0 (i + 1)))).
  Proof.
    intros Hnh HEV i Hi. rewrite Nat.add_1_r.
    assert (Hir : i < r) by (apply recorded_lt in Hi; exact Hi).
    assert (Hsub : forall j, In j (recorded x0 (Datatypes.S i)) -> In j (recorded x0 r)).
    { intros j. unfold S_vmc.recorded. rewrite !filter_In, !in_seq. intros [? ?]; split; [lia|assumption]. }
    assert (EE : energies x0 (Datatypes.S i) = map Fin (map E (recorded x0 (Datatypes.S i)))).
    { unfold P_vmc2.energies. rewrite map_map. apply map_ext_in. intros j Hj. apply HEV, Hsub, Hj. }
    assert (EV : variances x0 (Datatypes.S i) = map Fin (map V (recorded x0 (Datatypes.S i)))).
    { unfold P_vmc2.variances. rewrite map_map. apply map_ext_in. intros j Hj.
      apply (proj1 (proj2 (HEV j (Hsub j Hj)))). }
    unfold P_vmc2.err_at. rewrite EE, EV, !tracked_fin by exact Hnh. cbn [avg history].
    assert (Hne : recorded x0 (Datatypes.S i) <> []).
    { unfold S_vmc.recorded in *. rewrite filter_In in Hi. destruct Hi as [_ Hi].
      rewrite seq_snoc, filter_app. cbn [filter]. rewrite Hi. intros C; apply (app_cons_not_nil _ _ _ (eq_sym C)). }
    destruct (map E (recorded x0 (Datatypes.S i))) as [|e1 es] eqn:E1.
    { exfalso. destruct (recorded x0 (Datatypes.S i)); [congruence|discriminate E1]. }
    destruct (map V (recorded x0 (Datatypes.S i))) as [|v1 vs] eqn:E2.
    { exfalso. destruct (recorded x0 (Datatypes.S i)); [congruence|discriminate E2]. }
    rewrite <- E1, <- E2 in *. clear E1 E2 e1 es v1 vs.
    rewrite get_checkpoint_metric_fin.
    - unfold window_metric. rewrite map_length. reflexivity.
    - unfold rmean. apply Rmult_le_pos.
      + assert (G : forall l : list R, (forall v, In v l -> (0 <= v)%R) -> (0 <= rsum l)%R).
        { unfold rsum. induction l as [|a l IH]; intros Hp; simpl; [apply Rle_refl|].
          apply Rplus_le_le_0_compat; [apply Hp; left; reflexivity|apply IH; intros; apply Hp; right; assumption]. }
        apply G. intros v Hv. unfold lastn in Hv.
        assert (Hv2 : In v (map V (recorded x0 (Datatypes.S i)))).
        { rewrite <- (firstn_skipn (List.length (map V (recorded x0 (Datatypes.S i))) - (nhistory_max g - 1))).
          apply in_or_app; right; exact Hv. }
        apply in_map_iff in Hv2. destruct Hv2 as (j & <- & Hj). apply HEV, Hsub, Hj.
      + destruct (Nat.eq_dec (List.length (lastn (nhistory_max g - 1) (map V (recorded x0 (Datatypes.S i))))) 0) as [E0|E0].
        * exfalso. rewrite lastn_length, map_length in E0. destruct (recorded x0 (Datatypes.S i)); [congruence|]. simpl in E0. lia.
        * left. apply Rinv_0_lt_compat. apply lt_0_INR. lia.
  Qed.

  Lemma best_checkpoint_finite (g : cfg D) ld start nepochs p o d key (E V : nat -> R) :
    valid_cfg g -> complete -> logdir g = Some ld -> best_checkpoint_every g <> None ->
    2 <= nhistory_max g ->
    let x0 := (p, o, d, key) in
    exists r b p' o' d' key' ckpts metrics,
      vmc_loop g start nepochs p o d key = Finished p' o' d' key' b ckpts metrics /\
      RunsFor (fun i => check_for_nans g && nan_epoch (state_after i x0)) (nepochs - start) r b /\
      ((forall i, In i (recorded x0 r) -> mval "energy" (state_after i x0) = Fin (E i) /\
          mval "variance" (state_after i x0) = Fin (V i) /\ (0 <= V i)%R) ->
       let m i := window_metric g (map E (recorded x0 (i + 1))) (map V (recorded x0 (i + 1))) in
       (last_write is_best_name ckpts = None /\ recorded x0 r = [])
       \/
       exists i, In i (recorded x0 r) /\
         last_write is_best_name ckpts = Some (ld, "best_checkpoint.npz", ckpt_of (start + i) (state_after i x0)) /\
         (forall j, In j (recorded x0 r) -> (m i <= m j)%R) /\
         (forall j, In j (recorded x0 r) -> j < i -> (m i < m j)%R)).
  Proof.
    intros Hv Hc Hl Hb Hnh x0.
    destruct (run_description P D S K walker_fn update_param_fn params_have_nan g ld start nepochs p o d key Hv Hc Hl)
      as (r & b & ckpts & metrics & p' & o' & d' & k' & HR & HX & HL & _ & _ & _ & _ & HB).
    fold x0 in HR, HX, HB.
    exists r, b, p', o', d', k', ckpts, metrics. split; [exact HL|]. split; [exact HR|].
    intros HEV m.
    assert (Herr : forall i, In i (recorded x0 r) -> err_at g x0 i = Fin (m i)).
    { intros i Hi. apply (err_at_fin g x0 E V r Hnh HEV i Hi). }
    specialize (HB Hb). destruct (last_write is_best_name ckpts) as [w|].
    - right. destruct HB as (i & Hi & Hw & _ & Hmin & Hfirst).
      { intros i Hi. rewrite (Herr i Hi). reflexivity. }
      exists i. split; [exact Hi|]. split; [f_equal; exact Hw|]. split.
      + intros j Hj. specialize (Hmin j Hj). rewrite !Herr in Hmin by assumption. simpl in Hmin.
        apply Rltb_false in Hmin. exact Hmin.
      + intros j Hj Hji. specialize (Hfirst j Hj Hji). rewrite !Herr in Hfirst by assumption.
        simpl in Hfirst. apply Rltb_true in Hfirst. exact Hfirst.
    - left. split; [reflexivity|].
      assert (HB' : forall i, In i (recorded x0 r) -> xltb (err_at g x0 i) PInf = false).
      { apply HB. intros i Hi. rewrite (Herr i Hi). reflexivity. }
      destruct (recorded x0 r) as [|i l]; [reflexivity|].
      specialize (HB' i (or_introl eq_refl)). rewrite (Herr i (or_introl eq_refl)) in HB'. discriminate.
  Qed.

  (** ** C05 *)
  Lemma nan_disables_best (g : cfg D) ld start nepochs p o d key i0 :
    valid_cfg g -> complete -> logdir g = Some ld -> 1 <= nhistory_max g ->
    let x0 := (p, o, d, key) in
    metrics_at (state_after i0 x0) <> None ->
    (mval "energy" (state_after i0 x0) = NaN \/
     (mval "variance" (state_after i0 x0) = NaN /\ (0 < variance_scale g)%R /\
      1 <= nchains g /\ 2 <= nhistory_max g)) ->
    exists p' o' d' key' b ckpts metrics,
      vmc_loop g start nepochs p o d key = Finished p' o' d' key' b ckpts metrics /\
      (forall w, In w ckpts -> is_best_name (snd (fst w)) = true -> c_epoch (snd w) < start + i0).
  Proof.
    intros Hv Hc Hl Hnh x0 Hm0 Hnan.
    set (I := fun (q : nat) (c : cstate P D S K) =>
      (forall w, In w (cs_ckpts c) -> is_best_name (snd (fst w)) = true -> c_epoch (snd w) < start + i0) /\
      (forall b, cs_best c = Some b -> c_epoch b < start + i0) /\
      (best_checkpoint_every g <> None -> cs_energy c = tracked (nhistory_max g) (energies x0 q) /\
          cs_variance c = tracked (nhistory_max g) (variances x0 q)) /\
      (best_checkpoint_every g <> None -> i0 < q -> cs_metric c = NaN)).
    destruct (vmc_loop_inv P D S K walker_fn update_param_fn params_have_nan g ld start nepochs p o d key I Hv Hc Hl)
      as (r & b & c & p' & o' & d' & k' & HR & HX & (HI1 & HI2 & _) & HL).
    - repeat split; try discriminate; [intros w []|lia].
    - intros q c (H1 & H2 & H3 & H4) Hm. split; [exact H1|]. split; [exact H2|]. split.
      + intros Hb. destruct (H3 Hb) as [-> ->]. unfold P_vmc2.energies, P_vmc2.variances.
        rewrite recorded_snoc_none; [split; reflexivity|]. unfold S_vmc.has_metrics; fold x0 in Hm; rewrite Hm; reflexivity.
      + intros Hb Hq. apply H4; [exact Hb|].
        destruct (Nat.eq_dec i0 q) as [->|]; [contradiction|lia].
    - intros q c c' bw m (H1 & H2 & H3 & H4) Hm Hck _ HE.
      assert (Hh : has_metrics (state_after q x0) = true) by (unfold S_vmc.has_metrics; fold x0 in Hm; rewrite Hm; reflexivity).
      assert (EE : energies x0 (Datatypes.S q) = energies x0 q ++ [mval "energy" (state_after q x0)]).
      { unfold P_vmc2.energies. rewrite recorded_snoc_some, map_app by exact Hh. reflexivity. }
      assert (EV : variances x0 (Datatypes.S q) = variances x0 q ++ [mval "variance" (state_after q x0)]).
      { unfold P_vmc2.variances. rewrite recorded_snoc_some, map_app by exact Hh. reflexivity. }
      pose proof HE as HE0.
      unfold best_effect in HE. destruct (best_checkpoint_every g) as [kb|] eqn:Ekb.
      + assert (Hb : Some kb <> None) by discriminate.
        destruct HE as (Em & Een & Eva & HB). cbn zeta in HB. destruct (H3 Hb) as [H3e H3v].
        assert (Een' : cs_energy c' = tracked (nhistory_max g) (energies x0 (Datatypes.S q))).
        { rewrite EE. unfold tracked. rewrite fold_left_app. simpl. rewrite Een, H3e. reflexivity. }
        assert (Eva' : cs_variance c' = tracked (nhistory_max g) (variances x0 (Datatypes.S q))).
        { rewrite EV. unfold tracked. rewrite fold_left_app. simpl. rewrite Eva, H3v. reflexivity. }
        fold x0 in HB, Em, Een, Eva, Hck.
        set (err := best_err P D S K g c (mval "energy" (state_after q x0)) (mval "variance" (state_after q x0))) in *.
        assert (Herr : i0 <= q -> err = NaN).
        { intros Hq.
          assert (Hin : In i0 (recorded x0 (Datatypes.S q))).
          { unfold S_vmc.recorded. rewrite filter_In, in_seq. split; [lia|].
            unfold S_vmc.has_metrics. destruct (metrics_at (state_after i0 x0)); [reflexivity|contradiction]. }
          unfold err, best_err. rewrite <- Een, Een', <- Eva, Eva'.
          destruct Hnan as [Hnan|(Hnan & Hsc & Hch & Hnh2)].
          - rewrite tracked_nan; [apply get_checkpoint_metric_nan|exact Hnh|].
            unfold P_vmc2.energies. apply in_map_iff. exists i0. split; [exact Hnan|exact Hin].
          - rewrite (tracked_nan _ (variances x0 (Datatypes.S q))); [|exact Hnh|].
            + apply get_checkpoint_metric_nan_v; [exact Hsc|].
              rewrite tracked_history, lastn_length by exact Hnh2. unfold P_vmc2.energies.
              rewrite map_length. destruct (recorded x0 (Datatypes.S q)); [contradiction|]. simpl List.length.
              assert (1 <= Nat.min (nhistory_max g - 1) (Datatypes.S (List.length l))) by lia. nia.
            + unfold P_vmc2.variances. apply in_map_iff. exists i0. split; [exact Hnan|exact Hin]. }
        assert (Hlt : xltb err (cs_metric c) = true -> q < i0).
        { intros Hx. destruct (le_lt_dec i0 q) as [Hq|]; [|assumption].
          rewrite Herr in Hx by exact Hq. discriminate. }
        assert (HBB : (forall w, In w bw -> c_epoch (snd w) < start + i0) /\
                      (forall b, cs_best c' = Some b -> c_epoch b < start + i0)).
        { assert (Hckq : c_epoch (ckpt_of (start + q) (state_after q x0)) = start + q)
            by (destruct (state_after q x0) as [[[? ?] ?] ?]; reflexivity).
          destruct (xltb err (cs_metric c)) eqn:Ex.
          - specialize (Hlt eq_refl).
            destruct (divides_b _ _); destruct HB as [-> ->]; split; intros w Hw; try discriminate; try contradiction.
            + destruct Hw as [<-|[]]. cbn [snd]. lia.
            + injection Hw as <-. lia.
          - destruct (cs_best c) as [b0|].
            + specialize (H2 b0 eq_refl).
              destruct (divides_b _ _); destruct HB as [-> ->]; split; intros w Hw; try discriminate; try contradiction.
              * destruct Hw as [<-|[]]. exact H2.
              * injection Hw as <-. exact H2.
            + destruct HB as [-> ->]; split; intros w Hw; [contradiction|discriminate]. }
        split; [|split; [exact (proj2 HBB)|split; [intros _; split; [exact Een'|exact Eva']|]]].
        * intros w Hw Hbn. rewrite Hck in Hw. rewrite !in_app_iff in Hw. clear HB HE0 Hck.
          destruct Hw as [Hw|[Hw|[Hw|Hw]]].
          -- apply H1; assumption.
          -- unfold reg_part in Hw. destruct (checkpoint_every g); [|contradiction].
             destruct (divides_b _ _); [|contradiction]. destruct Hw as [<-|[]].
             cbn [fst snd] in Hbn. rewrite regular_name_not_best in Hbn. discriminate.
          -- unfold nan_part in Hw. destruct (_ && _); [|contradiction]. destruct Hw as [<-|[]].
             cbn [fst snd] in Hbn. rewrite nans_name_not_best in Hbn. discriminate.
          -- apply (proj1 HBB), Hw.
        * intros _ Hq. rewrite Em. rewrite Herr by lia. apply xmin_nan_l.
      + destruct HE as (_ & _ & _ & Eb & ->).
        split; [|split; [rewrite Eb; exact H2|split; congruence]].
        intros w Hw Hbn. rewrite Hck in Hw. rewrite !in_app_iff in Hw. clear HE0 Hck.
        destruct Hw as [Hw|[Hw|[Hw|[]]]].
        * apply H1; assumption.
        * unfold reg_part in Hw. destruct (checkpoint_every g); [|contradiction].
          destruct (divides_b _ _); [|contradiction]. destruct Hw as [<-|[]].
          cbn [fst snd] in Hbn. rewrite regular_name_not_best in Hbn. discriminate.
        * unfold nan_part in Hw. destruct (_ && _); [|contradiction]. destruct Hw as [<-|[]].
          cbn [fst snd] in Hbn. rewrite nans_name_not_best in Hbn. discriminate.
    - exists p', o', d', k', b, (cs_ckpts (finish_checkpointing g c)), (cs_metrics c).
      split; [exact HL|].
      intros w Hw Hbn. unfold finish_checkpointing in Hw. rewrite Hl in Hw.
      destruct (cs_best c) as [b0|] eqn:Eb; [|apply HI1; assumption].
      simpl in Hw. apply in_app_or in Hw. destruct Hw as [Hw|[<-|[]]]; [apply HI1; assumption|].
      apply HI2. reflexivity.
  Qed.

  (** [nhistory_max = 1]: the running average is NaN from the first epoch on; no best checkpoint. *)
  Lemma nhistory_one_no_best (g : cfg D) ld start nepochs p o d key :
    valid_cfg g -> complete -> logdir g = Some ld -> nhistory_max g = 1 ->
    let x0 := (p, o, d, key) in
    (forall i, isfin (mval "energy" (state_after i x0)) = true) ->
    exists p' o' d' key' b ckpts metrics,
      vmc_loop g start nepochs p o d key = Finished p' o' d' key' b ckpts metrics /\
      writes_named is_best_name ckpts = [].
  Proof.
    intros Hv Hc Hl Hnh x0 Hfin.
    set (I := fun (q : nat) (c : cstate P D S K) =>
      writes_named is_best_name (cs_ckpts c) = [] /\ cs_best c = None /\
      (best_checkpoint_every g <> None -> cs_energy c = tracked 1 (energies x0 q))).
    destruct (vmc_loop_inv P D S K walker_fn update_param_fn params_have_nan g ld start nepochs p o d key I Hv Hc Hl)
      as (r & b & c & p' & o' & d' & k' & HR & HX & (HI1 & HI2 & _) & HL).
    - repeat split.
    - intros q c (H1 & H2 & H3) Hm. split; [exact H1|]. split; [exact H2|].
      intros Hb. rewrite (H3 Hb). unfold P_vmc2.energies.
      rewrite recorded_snoc_none; [reflexivity|]. unfold S_vmc.has_metrics. fold x0 in Hm. rewrite Hm. reflexivity.
    - intros q c c' bw m (H1 & H2 & H3) Hm Hck _ HE.
      assert (Hh : has_metrics (state_after q x0) = true) by (unfold S_vmc.has_metrics; fold x0 in Hm; rewrite Hm; reflexivity).
      assert (EE : energies x0 (Datatypes.S q) = energies x0 q ++ [mval "energy" (state_after q x0)]).
      { unfold P_vmc2.energies. rewrite recorded_snoc_some, map_app by exact Hh. reflexivity. }
      assert (G : bw = [] /\ cs_best c' = None /\
                  (best_checkpoint_every g <> None -> cs_energy c' = tracked 1 (energies x0 (Datatypes.S q)))).
      { unfold best_effect in HE. destruct (best_checkpoint_every g) as [kb|] eqn:Ekb.
        - destruct HE as (Em & Een & Eva & HB). cbn zeta in HB.
          assert (Een' : cs_energy c' = tracked 1 (energies x0 (Datatypes.S q))).
          { rewrite EE. unfold tracked. rewrite fold_left_app. simpl. rewrite Een, H3 by discriminate.
            rewrite Hnh. reflexivity. }
          assert (Hx : avg (cs_energy c') = NaN).
          { rewrite Een'.
            assert (Ef : exists l, energies x0 (Datatypes.S q) = map Fin l /\ l <> []).
            { exists (map (fun i => match mval "energy" (state_after i x0) with Fin e => e | _ => 0%R end)
                        (recorded x0 (Datatypes.S q))). split.
              - unfold P_vmc2.energies. rewrite map_map. apply map_ext. intros i. specialize (Hfin i).
                destruct (mval "energy" (state_after i x0)); try discriminate; reflexivity.
              - rewrite recorded_snoc_some by exact Hh. destruct (recorded x0 q); discriminate. }
            destruct Ef as (l & -> & Hne). rewrite tracked_one_fin by exact Hne. reflexivity. }
          rewrite H2 in HB. unfold best_err in HB. rewrite <- Een, Hx, get_checkpoint_metric_nan in HB.
          rewrite xltb_nan_l in HB. destruct HB as [-> ->]. repeat split; auto.
        - destruct HE as (_ & _ & _ & Eb & ->). repeat split; [rewrite Eb; exact H2|congruence]. }
      destruct G as (-> & G2 & G3). split; [|split; assumption].
      rewrite Hck, app_nil_r, !writes_named_app, H1, reg_part_names, nan_part_names,
        regular_name_not_best, nans_name_not_best. reflexivity.
    - exists p', o', d', k', b, (cs_ckpts (finish_checkpointing g c)), (cs_metrics c).
      split; [exact HL|]. unfold finish_checkpointing. rewrite Hl, HI2. exact HI1.
  Qed.
End Props.

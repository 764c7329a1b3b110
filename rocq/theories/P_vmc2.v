(** * Description of a whole logged run *)
From Coq Require Import List String Ascii Arith Bool Reals Lia.
From Verif Require Import XReal M_io M_vmc S_vmc P_vmc.
Import ListNotations.
Local Open Scope string_scope.
Local Open Scope list_scope.

Lemma writes_named_app {P D S K} f (a b : list (ckpt_write P D S K)) :
  writes_named f (a ++ b) = writes_named f a ++ writes_named f b.
Proof. apply filter_app. Qed.

Lemma last_write_app_none {P D S K} f (a b : list (ckpt_write P D S K)) :
  writes_named f b = [] -> last_write f (a ++ b) = last_write f a.
Proof. unfold last_write. rewrite writes_named_app. intros ->. rewrite app_nil_r. reflexivity. Qed.

Lemma last_write_snoc {P D S K} f (a : list (ckpt_write P D S K)) w :
  f (snd (fst w)) = true -> last_write f (a ++ [w]) = Some w.
Proof.
  unfold last_write. rewrite writes_named_app. intros H. unfold writes_named at 2. simpl. rewrite H.
  rewrite rev_app_distr. reflexivity.
Qed.

(** Running metric after a list of values. *)
Definition tracked (nh : nat) (l : list xr) : running :=
  fold_left (move_history_window nh) l running_init.

Section Run.
  Variables P D S K : Type.
  Variable walker_fn : P -> D -> K -> xr * D * K.
  Variable update_param_fn : P -> D -> S -> K -> P * D * S * option dict * K.
  Variable params_have_nan : P -> bool.

  Notation one_epoch := (one_epoch walker_fn update_param_fn).
  Notation state_after := (state_after walker_fn update_param_fn).
  Notation metrics_at := (metrics_at walker_fn update_param_fn).
  Notation has_metrics := (has_metrics walker_fn update_param_fn).
  Notation nan_epoch := (nan_epoch walker_fn update_param_fn params_have_nan).
  Notation mval := (mval walker_fn update_param_fn).
  Notation recorded := (recorded walker_fn update_param_fn).
  Notation vmc_loop := (vmc_loop walker_fn update_param_fn params_have_nan).
  Notation complete := (metrics_complete update_param_fn).
  Notation logged := (logged P D S K walker_fn update_param_fn).

  Section Fixed.
  Variables (g : cfg D) (ld : string) (x0 : rstate P D S K) (start : nat).
  Notation x q := (state_after q x0).

  Definition energies (q : nat) : list xr := map (fun i => mval "energy" (x i)) (recorded x0 q).
  Definition variances (q : nat) : list xr := map (fun i => mval "variance" (x i)) (recorded x0 q).

  (** The error-adjusted running average after recorded epoch [i]. *)
  Definition err_at (i : nat) : xr :=
    get_checkpoint_metric (avg (tracked (nhistory_max g) (energies (Datatypes.S i))))
      (avg (tracked (nhistory_max g) (variances (Datatypes.S i))))
      (nchains g * List.length (history (tracked (nhistory_max g) (energies (Datatypes.S i)))))
      (variance_scale g).

  Definition ck (i : nat) : ckpt P D S K := ckpt_of (start + i) (x i).
  Definition sub := path_join ld (checkpoint_dir g).

  Definition reg_due (i : nat) : bool :=
    has_metrics (x i) &&
    match checkpoint_every g with None => false | Some k => divides_b k (start + i + 1) end.

  Definition reg_writes (q : nat) : list (ckpt_write P D S K) :=
    map (fun i => (sub, regular_name (start + i), ck i)) (filter reg_due (seq 0 q)).
  Definition nan_writes (q : nat) : list (ckpt_write P D S K) :=
    map (fun i => (sub, nans_name (start + i), ck i))
        (filter (fun i => check_for_nans g && nan_epoch (x i)) (seq 0 q)).
  Definition metric_writes (q : nat) : list (string * dict) :=
    flat_map (fun i => match metrics_at (x i) with Some m => [(ld, logged g (x i) m)] | None => [] end)
             (seq 0 q).

  Definition current (c : cstate P D S K) : option (ckpt_write P D S K) :=
    match cs_best c with
    | Some b => Some (ld, best_checkpoint_file_name, b)
    | None => last_write is_best_name (cs_ckpts c)
    end.

  Definition best_inv (q : nat) (c : cstate P D S K) : Prop :=
    match best_checkpoint_every g with
    | None => writes_named is_best_name (cs_ckpts c) = [] /\ cs_best c = None
    | Some _ =>
        cs_energy c = tracked (nhistory_max g) (energies q) /\
        cs_variance c = tracked (nhistory_max g) (variances q) /\
        ((forall i, In i (recorded x0 q) -> isnan (err_at i) = false) ->
          isnan (cs_metric c) = false /\
          (forall i, In i (recorded x0 q) -> xltb (err_at i) (cs_metric c) = false) /\
          match current c with
          | None => cs_metric c = PInf
          | Some w => exists i, In i (recorded x0 q) /\ cs_metric c = err_at i /\
              w = (ld, best_checkpoint_file_name, ck i) /\
              xltb (err_at i) PInf = true /\
              (forall j, In j (recorded x0 q) -> j < i -> xltb (err_at i) (err_at j) = true)
          end)
    end.

  Definition run_inv (q : nat) (c : cstate P D S K) : Prop :=
    writes_named is_regular_name (cs_ckpts c) = reg_writes q /\
    writes_named is_nans_name (cs_ckpts c) = nan_writes q /\
    cs_metrics c = metric_writes q /\
    best_inv q c.

  Lemma seq_snoc q : seq 0 (Datatypes.S q) = seq 0 q ++ [q].
  Proof. rewrite seq_S. reflexivity. Qed.

  Lemma recorded_snoc_some q : has_metrics (x q) = true -> recorded x0 (Datatypes.S q) = recorded x0 q ++ [q].
  Proof. intros H. unfold S_vmc.recorded. rewrite seq_snoc, filter_app. simpl. rewrite H. reflexivity. Qed.
  Lemma recorded_snoc_none q : has_metrics (x q) = false -> recorded x0 (Datatypes.S q) = recorded x0 q.
  Proof. intros H. unfold S_vmc.recorded. rewrite seq_snoc, filter_app. simpl. rewrite H. apply app_nil_r. Qed.
  Lemma recorded_lt q i : In i (recorded x0 q) -> i < q.
  Proof. unfold S_vmc.recorded. rewrite filter_In, in_seq. lia. Qed.

  Lemma run_inv_0 : run_inv 0 cs_init.
  Proof.
    unfold run_inv, best_inv. repeat split. destruct (best_checkpoint_every g); repeat split; intros i [].
  Qed.

  Lemma run_inv_none q c : run_inv q c -> metrics_at (x q) = None -> run_inv (Datatypes.S q) c.
  Proof.
    intros (H1 & H2 & H3 & H4) Em.
    assert (Hh : has_metrics (x q) = false) by (unfold S_vmc.has_metrics; rewrite Em; reflexivity).
    assert (Hnan : nan_epoch (x q) = false).
    { unfold S_vmc.nan_epoch. rewrite Hh. reflexivity. }
    split; [|split; [|split]].
    - rewrite H1. unfold reg_writes. rewrite seq_snoc, filter_app, map_app. simpl.
      unfold reg_due at 3. rewrite Hh. simpl. rewrite app_nil_r. reflexivity.
    - rewrite H2. unfold nan_writes. rewrite seq_snoc, filter_app, map_app. simpl.
      rewrite Hnan, andb_false_r. simpl. rewrite app_nil_r. reflexivity.
    - rewrite H3. unfold metric_writes. rewrite seq_snoc, flat_map_app. simpl. rewrite Em.
      rewrite !app_nil_r. reflexivity.
    - unfold best_inv in *. destruct (best_checkpoint_every g); [|exact H4].
      unfold energies, variances in *. rewrite recorded_snoc_none by exact Hh. exact H4.
  Qed.

  Lemma best_effect_names old e v c c' bw q :
    best_effect P D S K g ld q old e v c c' bw ->
    forall w, In w bw -> snd (fst w) = best_checkpoint_file_name.
  Proof.
    unfold best_effect. destruct (best_checkpoint_every g) as [k|].
    - intros (_ & _ & _ & H) w. cbn zeta in H.
      destruct (if xltb _ _ then _ else _); [destruct (divides_b _ _)|]; destruct H as [_ ->];
        intros Hw; simpl in Hw; intuition (subst; reflexivity).
    - intros (_ & _ & _ & _ & ->) w [].
  Qed.

  Lemma writes_named_best_only f (bw : list (ckpt_write P D S K)) :
    (forall w, In w bw -> snd (fst w) = best_checkpoint_file_name) ->
    f best_checkpoint_file_name = false -> writes_named f bw = [].
  Proof.
    intros H Hf. unfold writes_named. induction bw as [|w bw IH]; [reflexivity|].
    simpl. rewrite (H w) by (left; reflexivity). rewrite Hf. apply IH. intros; apply H; right; assumption.
  Qed.

  Lemma reg_part_names f q old :
    writes_named f (reg_part P D S K g ld q old) =
    if f (regular_name q) then reg_part P D S K g ld q old else [].
  Proof.
    unfold reg_part. destruct (checkpoint_every g); [destruct (divides_b _ _)|];
      unfold writes_named; simpl; destruct (f (regular_name q)); reflexivity.
  Qed.
  Lemma nan_part_names f q old b :
    writes_named f (nan_part P D S K g ld q old b) =
    if f (nans_name q) then nan_part P D S K g ld q old b else [].
  Proof.
    unfold nan_part. destruct (_ && _); unfold writes_named; cbn [filter fst snd];
      destruct (f (nans_name q)); reflexivity.
  Qed.

  Lemma xmin_cases a b : isnan a = false -> isnan b = false ->
    (xltb a b = true /\ xmin a b = a) \/ (xltb a b = false /\ xltb b a = true /\ xmin a b = b) \/
    (xltb a b = false /\ xltb b a = false /\ xmin a b = a).
  Proof.
    intros Ha Hb. unfold xmin. rewrite Ha, Hb.
    destruct (xltb a b) eqn:E1.
    - rewrite (xltb_not_gt _ _ E1). left; auto.
    - destruct (xltb b a) eqn:E2; [right; left|right; right]; auto.
  Qed.

  Lemma xnlt_both_eq a b : isnan a = false -> isnan b = false ->
    xltb a b = false -> xltb b a = false -> a = b.
  Proof.
    destruct a, b; simpl; try discriminate; auto.
    rewrite !Rltb_false. intros _ _ H1 H2. f_equal. apply Rle_antisym; assumption.
  Qed.

  Lemma best_inv_some q c c' bw m :
    best_inv q c -> metrics_at (x q) = Some m ->
    (exists others, cs_ckpts c' = cs_ckpts c ++ others ++ bw /\ writes_named is_best_name others = []) ->
    best_effect P D S K g ld (start + q) (ck q) (mval "energy" (x q)) (mval "variance" (x q)) c c' bw ->
    best_inv (Datatypes.S q) c'.
  Proof.
    intros HI Em (others & Hck & Hoth) HE.
    assert (Hh : has_metrics (x q) = true) by (unfold S_vmc.has_metrics; rewrite Em; reflexivity).
    unfold best_inv, best_effect in *. destruct (best_checkpoint_every g) as [kb|].
    2:{ destruct HI as [HI1 HI2], HE as (_ & _ & _ & Hb & Hbw). subst bw. split; [|congruence].
        rewrite Hck, !writes_named_app, HI1, Hoth. reflexivity. }
    destruct HI as (HE1 & HV1 & HM).
    destruct HE as (Hmet & He & Hv & Hbest). cbn zeta in Hbest.
    assert (EE : energies (Datatypes.S q) = energies q ++ [mval "energy" (x q)]).
    { unfold energies. rewrite recorded_snoc_some, map_app by exact Hh. reflexivity. }
    assert (EV : variances (Datatypes.S q) = variances q ++ [mval "variance" (x q)]).
    { unfold variances. rewrite recorded_snoc_some, map_app by exact Hh. reflexivity. }
    assert (TE : tracked (nhistory_max g) (energies (Datatypes.S q)) = cs_energy c').
    { rewrite EE. unfold tracked. rewrite fold_left_app. simpl. rewrite He, HE1. reflexivity. }
    assert (TV : tracked (nhistory_max g) (variances (Datatypes.S q)) = cs_variance c').
    { rewrite EV. unfold tracked. rewrite fold_left_app. simpl. rewrite Hv, HV1. reflexivity. }
    split; [symmetry; exact TE|]. split; [symmetry; exact TV|].
    assert (Eerr : best_err P D S K g c (mval "energy" (x q)) (mval "variance" (x q)) = err_at q).
    { unfold best_err, err_at. rewrite TE, TV, <- He, <- Hv. reflexivity. }
    rewrite Eerr in *.
    rewrite recorded_snoc_some by exact Hh.
    intros Hnn.
    assert (Hq : isnan (err_at q) = false) by (apply Hnn, in_or_app; right; left; reflexivity).
    destruct HM as (Hmn & Hmin & Hcur).
    { intros i Hi. apply Hnn, in_or_app; left; exact Hi. }
    (* the current best after this epoch *)
    assert (Hcurrent : current c' =
      if xltb (err_at q) (cs_metric c) then Some (ld, best_checkpoint_file_name, ck q) else current c).
    { unfold current in *. destruct (xltb (err_at q) (cs_metric c)).
      - destruct (divides_b kb (start + q + 1)); destruct Hbest as [-> ->]; [|reflexivity].
        rewrite Hck, app_assoc. apply last_write_snoc. reflexivity.
      - destruct (cs_best c) as [b|].
        + destruct (divides_b kb (start + q + 1)); destruct Hbest as [-> ->]; [|reflexivity].
          rewrite Hck, app_assoc. apply last_write_snoc. reflexivity.
        + destruct Hbest as [-> ->]. rewrite Hck, app_nil_r. apply last_write_app_none. exact Hoth. }
    rewrite Hcurrent, Hmet.
    destruct (xltb (err_at q) (cs_metric c)) eqn:Elt.
    - assert (Emin : xmin (err_at q) (cs_metric c) = err_at q).
      { unfold xmin. rewrite Hq, Hmn, (xltb_not_gt _ _ Elt). reflexivity. }
      rewrite Emin. split; [exact Hq|]. split.
      + intros i Hi. apply in_app_or in Hi. destruct Hi as [Hi|[<-|[]]].
        * destruct (xltb (err_at i) (err_at q)) eqn:E; [|reflexivity].
          pose proof (xltb_trans _ _ _ E Elt) as C. rewrite Hmin in C by exact Hi. discriminate.
        * apply xltb_irrefl.
      + exists q. split; [apply in_or_app; right; left; reflexivity|].
        split; [reflexivity|]. split; [reflexivity|]. split.
        * destruct (cs_metric c); simpl in *; try discriminate; destruct (err_at q); simpl in *; try discriminate; reflexivity.
        * intros j Hj Hjq. apply in_app_or in Hj. destruct Hj as [Hj|[<-|[]]]; [|lia].
          apply xlt_nlt_trans with (y := cs_metric c); auto.
          apply Hnn, in_or_app; left; exact Hj.
    - assert (Emin : xmin (err_at q) (cs_metric c) = cs_metric c).
      { unfold xmin. rewrite Hq, Hmn. destruct (xltb (cs_metric c) (err_at q)) eqn:E2; [reflexivity|].
        apply xnlt_both_eq; assumption. }
      rewrite Emin. split; [exact Hmn|]. split.
      + intros i Hi. apply in_app_or in Hi. destruct Hi as [Hi|[<-|[]]]; [apply Hmin, Hi|exact Elt].
      + destruct (current c) as [w|]; [|exact Hcur].
        destruct Hcur as (i & Hi & H1 & H2 & H3 & H4). exists i.
        split; [apply in_or_app; left; exact Hi|]. repeat split; auto.
        intros j Hj Hji. apply in_app_or in Hj. destruct Hj as [Hj|[<-|[]]]; [auto|].
        apply recorded_lt in Hi. lia.
  Qed.

  Lemma run_inv_some q c c' bw m :
    run_inv q c -> metrics_at (x q) = Some m ->
    cs_ckpts c' = cs_ckpts c ++ reg_part P D S K g ld (start + q) (ck q)
                     ++ nan_part P D S K g ld (start + q) (ck q) (nan_epoch (x q)) ++ bw ->
    cs_metrics c' = cs_metrics c ++ [(ld, logged g (x q) m)] ->
    best_effect P D S K g ld (start + q) (ck q) (mval "energy" (x q)) (mval "variance" (x q)) c c' bw ->
    run_inv (Datatypes.S q) c'.
  Proof.
    intros (H1 & H2 & H3 & H4) Em Hck Hcm HE.
    assert (Hh : has_metrics (x q) = true) by (unfold S_vmc.has_metrics; rewrite Em; reflexivity).
    pose proof (best_effect_names _ _ _ _ _ _ _ HE) as Hbn.
    split; [|split; [|split]].
    - rewrite Hck, !writes_named_app, reg_part_names, nan_part_names, regular_name_is, nans_name_not_regular.
      rewrite (writes_named_best_only _ bw Hbn best_not_regular), H1, !app_nil_r.
      unfold reg_writes. rewrite seq_snoc, filter_app, map_app. f_equal. simpl.
      unfold reg_due. rewrite Hh. unfold reg_part. simpl.
      destruct (checkpoint_every g); [destruct (divides_b _ _)|]; reflexivity.
    - rewrite Hck, !writes_named_app, reg_part_names, nan_part_names, nans_name_is, regular_name_not_nans.
      rewrite (writes_named_best_only _ bw Hbn best_not_nans), H2, !app_nil_r.
      unfold nan_writes. rewrite seq_snoc, filter_app, map_app. simpl. f_equal.
      unfold nan_part. destruct (_ && _); reflexivity.
    - rewrite Hcm, H3. unfold metric_writes. rewrite seq_snoc, flat_map_app. simpl. rewrite Em. reflexivity.
    - eapply best_inv_some; eauto.
      exists (reg_part P D S K g ld (start + q) (ck q)
                     ++ nan_part P D S K g ld (start + q) (ck q) (nan_epoch (x q))).
      split; [rewrite Hck, <- !app_assoc; reflexivity|].
      rewrite writes_named_app, reg_part_names, nan_part_names, regular_name_not_best, nans_name_not_best.
      reflexivity.
  Qed.

  Lemma finish_writes f (c : cstate P D S K) :
    logdir g = Some ld ->
    writes_named f (cs_ckpts (finish_checkpointing g c)) =
    writes_named f (cs_ckpts c) ++
      (if f best_checkpoint_file_name then
         match cs_best c with Some b => [(ld, best_checkpoint_file_name, b)] | None => [] end else []).
  Proof.
    intros Hl. unfold finish_checkpointing. rewrite Hl. destruct (cs_best c) as [b|].
    - simpl. rewrite writes_named_app. unfold writes_named at 2. cbn [filter fst snd].
      destruct (f best_checkpoint_file_name); reflexivity.
    - destruct (f best_checkpoint_file_name); rewrite app_nil_r; reflexivity.
  Qed.

  Lemma finish_current (c : cstate P D S K) :
    logdir g = Some ld ->
    last_write is_best_name (cs_ckpts (finish_checkpointing g c)) = current c.
  Proof.
    intros Hl. unfold last_write, current. rewrite finish_writes by exact Hl. rewrite best_is_best.
    destruct (cs_best c); [|rewrite app_nil_r; reflexivity].
    rewrite rev_app_distr. reflexivity.
  Qed.
  End Fixed.

  (** Everything about a logged run in one statement. *)
  Theorem run_description (g : cfg D) ld start nepochs p o d k :
    valid_cfg g -> complete -> logdir g = Some ld ->
    let x0 := (p, o, d, k) in
    exists r b ckpts metrics p' o' d' k',
      RunsFor (fun i => check_for_nans g && nan_epoch (state_after i x0)) (nepochs - start) r b /\
      state_after r x0 = (p', o', d', k') /\
      vmc_loop g start nepochs p o d k = Finished p' o' d' k' b ckpts metrics /\
      writes_named is_regular_name ckpts = reg_writes g ld x0 start r /\
      writes_named is_nans_name ckpts = nan_writes g ld x0 start r /\
      metrics = metric_writes g ld x0 r /\
      (best_checkpoint_every g = None -> writes_named is_best_name ckpts = []) /\
      (best_checkpoint_every g <> None ->
       (forall i, In i (recorded x0 r) -> isnan (err_at g x0 i) = false) ->
       match last_write is_best_name ckpts with
       | None => forall i, In i (recorded x0 r) -> xltb (err_at g x0 i) PInf = false
       | Some w => exists i, In i (recorded x0 r) /\
              w = (ld, best_checkpoint_file_name, ckpt_of (start + i) (state_after i x0)) /\
              xltb (err_at g x0 i) PInf = true /\
              (forall j, In j (recorded x0 r) -> xltb (err_at g x0 j) (err_at g x0 i) = false) /\
              (forall j, In j (recorded x0 r) -> j < i -> xltb (err_at g x0 i) (err_at g x0 j) = true)
       end).
  Proof.
    intros Hv Hc Hl x0.
    destruct (vmc_loop_inv P D S K walker_fn update_param_fn params_have_nan g ld start nepochs p o d k
      (run_inv g ld x0 start) Hv Hc Hl) as (r & b & c & p' & o' & d' & k' & HR & HX & (I1 & I2 & I3 & I4) & HL).
    - apply run_inv_0.
    - intros q c HI Hm. apply run_inv_none; assumption.
    - intros q c c' bw m HI Hm H1 H2 H3. eapply run_inv_some; eauto.
    - exists r, b, (cs_ckpts (finish_checkpointing g c)), (cs_metrics c), p', o', d', k'.
      split; [exact HR|]. split; [exact HX|]. split; [exact HL|].
      split; [rewrite (finish_writes g ld) by exact Hl; rewrite best_not_regular, app_nil_r; exact I1|].
      split; [rewrite (finish_writes g ld) by exact Hl; rewrite best_not_nans, app_nil_r; exact I2|].
      split; [exact I3|].
      unfold best_inv in I4. split.
      + intros E. rewrite E in I4. destruct I4 as [I4 I5].
        rewrite (finish_writes g ld) by exact Hl. rewrite I4, I5, best_is_best. reflexivity.
      + intros E Hnn. destruct (best_checkpoint_every g) as [kb|]; [|contradiction].
        destruct I4 as (_ & _ & I4). specialize (I4 Hnn). destruct I4 as (Hmn & Hmin & Hcur).
        rewrite finish_current with (ld := ld) by exact Hl.
        destruct (current ld c) as [w|].
        * destruct Hcur as (i & Hi & Hm & Hw & Hlt & Hj). exists i. rewrite <- Hm in *.
          repeat split; auto. 
        * intros i Hi. rewrite <- Hcur. apply Hmin, Hi.
  Qed.
End Run.

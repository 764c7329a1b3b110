(** * Proofs about whole jobs *)
From Coq Require Import String List Arith Bool Reals Lia.
From Verif Require Import XReal M_io M_vmc M_files M_optim M_run S_vmc S_files S_optim S_run P_vmc P_vmc2 P_vmc3 P_files P_optim3.
Import ListNotations.
Local Open Scope string_scope.
Local Open Scope list_scope.

Lemma write_all_map d ms : write_all_metrics d ms = fold_left write_out_metrics (map snd ms) d.
Proof. unfold write_all_metrics. revert d. induction ms as [|m ms IH]; intros d; [reflexivity|]. apply IH. Qed.
Lemma write_all_ext d ms ms' : map snd ms = map snd ms' -> write_all_metrics d ms = write_all_metrics d ms'.
Proof. rewrite !write_all_map. intros ->. reflexivity. Qed.

Section Run.
  Context {P1 D S1 K J : Type}.
  Notation job := (job P1 D S1 K J). Notation logfiles := (logfiles P1 D S1 K J).

  (** Metrics of the evaluation epochs. *)
  Definition amp (j : job) (d : D) (m : dict) : dict :=
    if j_eval_amplitudes j then match get_amplitude_fn (j_cfg j) with
      | Some f => let '(lo, hi) := f d in dset (dset m "amplitude_min" lo) "amplitude_max" hi | None => m end else m.
  Fixpoint eval_dicts (j : job) (n : nat) (p : reps P1) (d : D) (k : K) : list dict :=
    match n with
    | O => []
    | S n => let '(a, d, k) := j_eval_walk j p d k in
             let '(e, v) := j_statistics j (j_local_energies j p d) in
             amp j d (dset [("energy", e); ("variance", v)] "accept_ratio" a) :: eval_dicts j n p d k
    end.

  Lemma eval_loop (j : job) ld n p d k : get_amplitude_fn (j_cfg j) <> None ->
    vmc_loop (j_eval_walk j) (eval_update j) (j_has_nan j) (eval_run_cfg (Some ld) (j_eval_amplitudes j) (get_amplitude_fn (j_cfg j)) (j_eval_nchains j))
      0 n p tt d k
    = Finished p tt (fst (walk_only (j_eval_walk j) n p d k)) (snd (walk_only (j_eval_walk j) n p d k)) false [] (map (pair ld) (eval_dicts j n p d k)).
  Proof.
    intros Ha. set (g := eval_run_cfg (Some ld) (j_eval_amplitudes j) (get_amplitude_fn (j_cfg j)) (j_eval_nchains j)).
    unfold vmc_loop. rewrite Nat.sub_0_r.
    assert (G : forall n e p d k c, cs_best c = None -> cs_ckpts c = [] -> exists c',
      loop (j_eval_walk j) (eval_update j) (j_has_nan j) g n e {| v_params := p; v_opt := tt; v_data := d; v_key := k; v_cs := c; v_nans := false |}
      = Continue {| v_params := p; v_opt := tt; v_data := fst (walk_only (j_eval_walk j) n p d k); v_key := snd (walk_only (j_eval_walk j) n p d k);
                    v_cs := c'; v_nans := false |} /\ cs_best c' = None /\ cs_ckpts c' = [] /\
      cs_metrics c' = cs_metrics c ++ map (pair ld) (eval_dicts j n p d k)).
    { clear p d k. clear n. induction n as [|n IH]; intros e p d k c Hb Hc.
      - exists c. cbn. rewrite app_nil_r. repeat split; auto.
      - cbn [loop walk_only eval_dicts]. unfold epoch_step. cbn [v_params v_opt v_data v_key v_cs v_nans].
        destruct (j_eval_walk j p d k) as [[a d1] k1]. unfold eval_update at 1.
        destruct (j_statistics j (j_local_energies j p d1)) as [en va].
        unfold save_metrics_and_handle_checkpoints.
        assert (E : add_amplitude g (dset [("energy", en); ("variance", va)] "accept_ratio" a) d1
                    = Some (amp j d1 (dset [("energy", en); ("variance", va)] "accept_ratio" a))).
        { unfold add_amplitude, amp. cbn [g eval_run_cfg record_amplitudes get_amplitude_fn].
          destruct (j_eval_amplitudes j); [|reflexivity]. destruct (get_amplitude_fn (j_cfg j)) as [f|]; [|contradiction].
          destruct (f d1). reflexivity. }
        rewrite E. cbn [g eval_run_cfg logdir save_metrics_and_regular_checkpoint track_and_save_best_checkpoint checkpoint_every check_for_nans best_checkpoint_every].
        match goal with |- context [loop _ _ _ _ n (S e) {| v_params := _; v_opt := _; v_data := _; v_key := _; v_cs := ?c1; v_nans := _ |}] =>
          destruct (IH (S e) p d1 k1 c1) as (c' & El & R1 & R2 & R3) end.
        { exact Hb. } { exact Hc. }
        exists c'. split; [exact El|]. split; [exact R1|]. split; [exact R2|].
        rewrite R3. cbn. rewrite <- app_assoc. reflexivity. }
    destruct (G n 0 p d k cs_init eq_refl eq_refl) as (c' & E & R1 & R2 & R3). rewrite E.
    cbn [v_params v_opt v_data v_key v_cs v_nans]. unfold finish_checkpointing. cbn [g eval_run_cfg logdir]. rewrite R1, R2, R3. reflexivity.
  Qed.

  Lemma walk_only_S {P X : Type} (w : P -> D -> K -> X * D * K) i p d k :
    walk_only w (S i) p d k = walk_only w i p (snd (fst (w p d k))) (snd (w p d k)).
  Proof. cbn [walk_only]. destruct (w p d k) as [[a d1] k1]. reflexivity. Qed.
  Lemma eval_rows_spec (j : job) n : forall p d k,
    eval_rows j n p d k = map (fun i => j_local_energies j p (fst (walk_only (j_eval_walk j) (i + 1) p d k))) (seq 0 n).
  Proof.
    induction n as [|n IH]; intros p d k; [reflexivity|]. cbn [eval_rows seq map].
    rewrite <- seq_shift, map_map. rewrite (Nat.add_comm 0 1). change (1 + 0) with 1. rewrite (walk_only_S (j_eval_walk j) 0).
    destruct (j_eval_walk j p d k) as [[a d1] k1] eqn:E. cbn [walk_only fst snd].
    f_equal. rewrite IH. apply map_ext. intros i. change (S i + 1) with (S (i + 1)). rewrite walk_only_S, E. reflexivity.
  Qed.
  Lemma eval_start_spec (j : job) p d k : 
    (if j_use_training_data j && Nat.eqb (nchains (j_cfg j)) (j_eval_nchains j) then (d, k) else (snd (j_new_data j p k), fst (j_new_data j p k)))
    = eval_start j p d k.
  Proof.
    unfold eval_start. destruct (j_use_training_data j), (Nat.eqb _ _); cbn; try reflexivity; destruct (j_new_data j p k); reflexivity.
  Qed.
  Lemma eval_samples_spec (j : job) p d k :
    eval_samples j p d k = (let '(d, k) := eval_start j p d k in let '(d, k) := j_eval_burn j p d k in eval_rows j (j_eval_nepochs j) p d k).
  Proof.
    unfold eval_samples, eval_walkers. rewrite eval_start_spec. destruct (eval_start j p d k) as [d1 k1].
    destruct (j_eval_burn j p d1 k1) as [d2 k2]. rewrite eval_rows_spec. reflexivity.
  Qed.

  (** The whole evaluation phase in closed form. *)
  Definition eval_metrics (j : job) p d k : list dict :=
    let '(d, k) := eval_start j p d k in let '(d, k) := j_eval_burn j p d k in eval_dicts j (j_eval_nepochs j) p d k.
  Definition eval_files (j : job) p d k (l : logfiles) : logfiles :=
    {| lf_train := lf_train l; lf_eval := fold_left write_out_metrics (eval_metrics j p d k) (lf_eval l);
       lf_rows := if j_record_local_energies j then lf_rows l ++ eval_samples j p d k else lf_rows l;
       lf_ckpts := lf_ckpts l; lf_stats := lf_stats l |}.
  Lemma evaluate_spec (j : job) p d k l : get_amplitude_fn (j_cfg j) <> None ->
    evaluate j p d k l =
    (let l' := eval_files j p d k l in
     if j_record_local_energies j && negb (Nat.eqb (List.length (lf_rows l')) 0) then
       match load_rows (lf_rows l') with
       | None => Crashed l'
       | Some r => Completed p {| lf_train := lf_train l'; lf_eval := lf_eval l'; lf_rows := lf_rows l'; lf_ckpts := lf_ckpts l';
                                  lf_stats := lf_stats l' ++ [j_summary j r] |}
       end
     else Completed p l').
  Proof.
    intros Ha. unfold eval_files. rewrite eval_samples_spec. unfold evaluate, eval_metrics. destruct (eval_start j p d k) as [d1 k1].
    destruct (j_eval_burn j p d1 k1) as [d2 k2]. rewrite eval_loop by exact Ha. cbn [lf_train lf_eval lf_rows lf_ckpts lf_stats].
    rewrite write_all_map, map_map. cbn [snd]. rewrite map_id. reflexivity.
  Qed.

  Lemma eval_moved (j : job) ld p d k : eval_samples (moved_to ld j) p d k = eval_samples j p d k /\ eval_metrics (moved_to ld j) p d k = eval_metrics j p d k.
  Proof.
    assert (E : forall n p d k, eval_dicts (moved_to ld j) n p d k = eval_dicts j n p d k).
    { induction n as [|n IH]; intros p0 d0 k0; [reflexivity|]. cbn [eval_dicts]. cbn [moved_to j_eval_walk j_statistics j_local_energies].
      destruct (j_eval_walk j p0 d0 k0) as [[a d1] k1]. destruct (j_statistics j (j_local_energies j p0 d1)). rewrite IH. reflexivity. }
    split; [reflexivity|]. unfold eval_metrics. change (eval_start (moved_to ld j) p d k) with (eval_start j p d k).
    destruct (eval_start j p d k) as [d1 k1]. change (j_eval_burn (moved_to ld j)) with (j_eval_burn j). destruct (j_eval_burn j p d1 k1). apply E.
  Qed.

  (** Checkpoints of a job whose updates keep the replicas equal come back as they were. *)
  Lemma repeat_get_first {A} n (x : A) l : 0 < n -> equal_copies n l -> get_first l = Some x -> repeat x n = l.
  Proof.
    intros Hn [y ->] H. destruct n; [lia|]. cbn in H. injection H as ->. reflexivity.
  Qed.
  Lemma train_replicas (j : job) w p o d k nans cks ms c :
    keeps_replicas_equal j -> train j None = Finished p o d k nans cks ms -> In w cks -> process_for_saving (snd w) = Some c ->
    snd w = {| c_epoch := c_epoch c; c_data := c_data c; c_params := repeat (c_params c) (j_ndev j); c_opt := repeat (c_opt c) (j_ndev j); c_key := c_key c |}.
  Proof.
    intros (Hn & Hi & Hu) HT Hw Hp. unfold train, start_state in HT. destruct (j_init j) as [[[p0 o0] d0] k0]. cbn [skip_burn] in HT.
    destruct (j_burn j p0 d0 k0) as [d1 k1].
    pose proof (vmc_J (j_walk j) (j_update j) (j_has_nan j) (fun p (d : D) s (k : K) => equal_copies (j_ndev j) p /\ equal_copies (j_ndev j) s)) as V.
    specialize (V ltac:(intros; assumption)).
    assert (V2 : forall p d s k, equal_copies (j_ndev j) p /\ equal_copies (j_ndev j) s ->
       let '(p', _, s', _, _) := j_update j p d s k in equal_copies (j_ndev j) p' /\ equal_copies (j_ndev j) s').
    { intros p' d' s' k' [A B]. apply Hu; assumption. }
    specialize (V V2 (j_cfg j) 0 (j_nepochs j) p0 o0 d1 k1 Hi). rewrite HT in V. destruct V as [_ V].
    rewrite Forall_forall in V. specialize (V w Hw). unfold Jc in V.
    destruct (snd w) as [e dd pp oo kk]. cbn [c_params c_opt c_epoch c_data c_key] in *. destruct V as [V1 V3].
    unfold process_for_saving in Hp. cbn [c_params c_opt c_epoch c_data c_key] in Hp.
    destruct (get_first pp) as [p1|] eqn:E1; [|discriminate]. destruct (get_first oo) as [o1|] eqn:E2; [|discriminate].
    injection Hp as <-. cbn [c_params c_opt c_epoch c_data c_key].
    rewrite (repeat_get_first _ p1 pp), (repeat_get_first _ o1 oo) by assumption. reflexivity.
  Qed.

  (** Truncating a crashed metric file to [e] lines and appending the rest gives the whole file. *)
  Lemma rows_all name (ms : list (string * dict)) : (forall m, In m ms -> dget (snd m) name <> None) ->
    forall m, In m ms -> List.length (row_of (snd m) name) = 1.
  Proof. intros H m Hm. unfold row_of. specialize (H m Hm). destruct (dget (snd m) name); [reflexivity|contradiction]. Qed.
  Lemma lines_resumed (ms ms' : list (string * dict)) mbefore e crashed n name start :
    (forall m, In m ms -> is_dict (snd m)) -> (forall m, In m ms -> dget (snd m) name <> None) ->
    map snd ms = mbefore ++ map snd ms' -> List.length mbefore = e -> e <= n ->
    lines_of crashed name = firstn n (lines_of (write_all_metrics [] ms) name) ->
    lines_of start name = firstn e (lines_of crashed name) ->
    lines_of (write_all_metrics start ms') name = lines_of (write_all_metrics [] ms) name.
  Proof.
    intros Hd Hall Hms Hl He Hc Hs.
    assert (Hd' : forall m, In m ms' -> is_dict (snd m)).
    { intros m Hm. assert (Hin : In (snd m) (map snd ms)) by (rewrite Hms; apply in_or_app; right; apply in_map, Hm).
      apply in_map_iff in Hin. destruct Hin as (m0 & <- & Hm0). apply Hd, Hm0. }
    rewrite !lines_write_all in * by assumption. rewrite Hs, Hc, firstn_firstn, Nat.min_l by exact He. cbn [lines_of dir_get app].
    rewrite firstn_flat_one by (apply rows_all; exact Hall).
    replace (flat_map (fun m => row_of (snd m) name) ms') with (flat_map (fun m : string * dict => row_of (snd m) name) (skipn e ms)).
    { rewrite <- flat_map_app, firstn_skipn. reflexivity. }
    rewrite !flat_map_concat_map, <- !(map_map snd (fun m => row_of m name)). f_equal. f_equal.
    rewrite <- skipn_map, Hms, <- Hl, skipn_app, skipn_all, Nat.sub_diag. reflexivity.
  Qed.

  Lemma eval_same (names : string -> Prop) (j : job) ld p d k l l' : get_amplitude_fn (j_cfg j) <> None ->
    same_files names l l' -> same_result names (evaluate j p d k l) (evaluate (moved_to ld j) p d k l').
  Proof.
    intros Ha (H1 & H2 & H3 & H4). rewrite !evaluate_spec by exact Ha. unfold eval_files. destruct (eval_moved j ld p d k) as [-> ->].
    cbn zeta. cbn [moved_to j_record_local_energies j_summary lf_train lf_eval lf_rows lf_ckpts lf_stats]. rewrite <- H2, <- H3, <- H4.
    destruct (j_record_local_energies j).
    - destruct (negb _); cbn [andb].
      + destruct (load_rows _); cbn; unfold same_files; cbn; auto.
      + cbn; unfold same_files; cbn; auto.
    - cbn; unfold same_files; cbn; auto.
  Qed.

  Lemma filter_none {A} (f : A -> bool) l : (forall a, In a l -> f a = false) -> filter f l = [].
  Proof. induction l as [|a l IH]; intros H; [reflexivity|]. cbn. rewrite (H a) by (left; reflexivity). apply IH. intros; apply H; right; assumption. Qed.
  Lemma filter_all {A} (f : A -> bool) l : (forall a, In a l -> f a = true) -> filter f l = l.
  Proof. induction l as [|a l IH]; intros H; [reflexivity|]. cbn. rewrite (H a) by (left; reflexivity). f_equal. apply IH. intros; apply H; right; assumption. Qed.
  Lemma regular_from_all (cks : list (ckpt_write (reps P1) D (reps S1) K)) :
    regular_from 0 cks = map (fun v => (snd (fst v), snd v)) (writes_named is_regular_name cks).
  Proof. unfold regular_from. rewrite filter_all; [reflexivity|]. intros; reflexivity. Qed.

  Lemma train_metrics (j : job) p o d k nans cks ms : job_ok j -> train j None = Finished p o d k nans cks ms ->
    forall m, In m ms -> is_dict (snd m).
  Proof.
    intros (Hv & Hl & _ & Hc & Hd & _) HT m Hm. unfold train, start_state in HT. destruct (j_init j) as [[[p0 o0] d0] k0]. cbn [skip_burn] in HT.
    destruct (j_burn j p0 d0 k0) as [d1 k1]. destruct (logdir (j_cfg j)) as [ld|] eqn:El; [|contradiction].
    destruct (run_description _ _ _ _ (j_walk j) (j_update j) (j_has_nan j) (j_cfg j) ld 0 (j_nepochs j) p0 o0 d1 k1 Hv Hc El)
      as (r & b & ck & me & p' & o' & d' & k' & _ & _ & HL & _ & _ & H3 & _).
    rewrite HT in HL. injection HL as <- <- <- <- <- <- <-. rewrite H3 in Hm. eapply metric_writes_dicts; eauto.
  Qed.

  Lemma recorded_all (j : job) x0 n : (forall p d s k, snd (fst (j_update j p d s k)) <> None) ->
    List.length (recorded (j_walk j) (j_update j) x0 n) = n.
  Proof.
    intros H. unfold recorded. rewrite filter_all; [apply seq_length|]. intros i _.
    unfold has_metrics, metrics_at. destruct (state_after (j_walk j) (j_update j) i x0) as [[[p o] d] k].
    destruct (j_walk j p d k) as [[a d1] k1]. specialize (H p d1 o k1).
    destruct (j_update j p d1 o k1) as [[[[? ?] ?] m] ?]. cbn in H. destruct m; [reflexivity|contradiction].
  Qed.

  Lemma resumed_job (j : job) ld' p o d k nans cks ms w c (crashed : logfiles) (same : bool) :
    job_ok j -> keeps_replicas_equal j ->
    train j None = Finished p o d k nans cks ms -> In w cks -> process_for_saving (snd w) = Some c -> 0 < c_epoch c ->
    let uninterrupted := run_molecule j None empty_logfiles in
    let names name := contains "git_hash" (name ++ ".txt")%string = false /\ (forall m, In m ms -> dget (snd m) name <> None) in
    NoDup (map fst (lf_train crashed)) ->
    (same = true -> lf_eval crashed = [] /\ lf_rows crashed = [] /\ lf_stats crashed = []) ->
    (forall name, names name -> exists n, c_epoch c <= n /\ lines_of (lf_train crashed) name = firstn n (lines_of (lf_train (files_of uninterrupted)) name)) ->
    let start := if same then crashed else empty_logfiles in
    let resumed := run_molecule (moved_to ld' j) (Some (resume_flags c (lf_train crashed) same)) start in
    same_result names uninterrupted resumed /\
    regular_from (c_epoch c) (lf_ckpts (files_of uninterrupted)) =
      regular_from 0 (skipn (List.length (lf_ckpts start)) (lf_ckpts (files_of resumed))).
  Proof.
    intros Hj Hk HT Hw Hp Hpos uninterrupted names Hnd Hev Hcr start resumed.
    pose proof (train_metrics j p o d k nans cks ms Hj HT) as Hdict.
    pose proof (train_replicas j w p o d k nans cks ms c Hk HT Hw Hp) as Ew.
    destruct Hj as (Hv & Hl & Ha & Hc & Hd & Hrep).
    destruct (logdir (j_cfg j)) as [ld|] eqn:El; [|contradiction]. clear Hl.
    pose proof HT as HT0. unfold train, start_state in HT. destruct (j_init j) as [[[p0 o0] d0] k0] eqn:Ei. cbn [skip_burn] in HT.
    destruct (j_burn j p0 d0 k0) as [d1 k1].
    destruct (resume_reproduces _ _ _ _ (j_walk j) (j_update j) (j_has_nan j) (j_cfg j) (j_cfg (moved_to ld' j)) ld ld' 0 (j_nepochs j) p0 o0 d1 k1
      p o d k nans cks ms w Hv Hc El) as (cks' & ms' & before & mbefore & HL & Hreg & Hb & Hge & Hms & Hlen); try reflexivity; try assumption.
    cbv zeta in HL, Hb, Hge, Hlen. rewrite Ew in HL, Hb, Hge, Hlen. cbn [c_epoch c_params c_opt c_data c_key] in HL, Hb, Hge, Hlen.
    rewrite Nat.sub_0_r in Hlen. rewrite recorded_all in Hlen by exact Hrep.
    assert (HT' : train (moved_to ld' j) (Some (resume_flags c (lf_train crashed) same)) = Finished p o d k nans cks' ms') by exact HL.
    set (l0 := {| lf_train := write_all_metrics [] ms; lf_eval := []; lf_rows := []; lf_ckpts := cks; lf_stats := [] |} : logfiles).
    assert (EU : uninterrupted = if nans then NansDetected l0 else evaluate j p d k l0).
    { unfold uninterrupted, run_molecule. rewrite HT0. reflexivity. }
    set (l1 := start_files (Some (resume_flags c (lf_train crashed) same)) start).
    set (l2 := {| lf_train := write_all_metrics (lf_train l1) ms'; lf_eval := lf_eval l1; lf_rows := lf_rows l1;
                  lf_ckpts := lf_ckpts l1 ++ cks'; lf_stats := lf_stats l1 |} : logfiles).
    assert (ER : resumed = if nans then NansDetected l2 else evaluate (moved_to ld' j) p d k l2).
    { unfold resumed, run_molecule. rewrite HT'. reflexivity. }
    assert (Hfu : lf_train (files_of uninterrupted) = write_all_metrics [] ms /\ lf_ckpts (files_of uninterrupted) = cks).
    { rewrite EU. destruct nans; [split; reflexivity|]. rewrite evaluate_spec by exact Ha. cbn zeta.
      destruct (_ && _); [|split; reflexivity]. destruct (load_rows _); split; reflexivity. }
    assert (Hfr : lf_ckpts (files_of resumed) = lf_ckpts start ++ cks').
    { rewrite ER. assert (E2 : lf_ckpts l2 = lf_ckpts start ++ cks') by reflexivity. destruct nans; [exact E2|].
      rewrite evaluate_spec by exact Ha. cbn zeta. destruct (_ && _); [|exact E2]. destruct (load_rows _); exact E2. }
    destruct Hfu as [Hfu Hfc]. rewrite Hfu in Hcr.
    assert (SF : same_files names l0 l2).
    { split; [|].
      - intros name Hn. symmetry. destruct (Hcr name Hn) as (n & Hn1 & Hn2).
        apply (lines_resumed ms ms' mbefore (c_epoch c) (lf_train crashed) n name); try assumption.
        + apply Hn.
        + unfold l1, start_files. cbn [resume_flags r_append r_same_logdir r_ckpt r_source lf_train]. unfold start.
          destruct same; cbn [lf_train].
          * apply lines_copy_same; [apply Hn | exact Hpos].
          * apply lines_copy; [exact Hnd | apply Hn | exact Hpos].
      - unfold l0, l2, l1, start_files, start. cbn [resume_flags r_append r_same_logdir lf_eval lf_rows lf_stats].
        destruct same; [|auto]. destruct (Hev eq_refl) as (-> & -> & ->). auto. }
    split.
    - rewrite EU, ER. destruct nans; [exact SF|]. apply eval_same; assumption.
    - rewrite Hfc, Hfr, skipn_app, skipn_all, Nat.sub_diag. cbn [app skipn]. rewrite regular_from_all. unfold regular_from.
      assert (G : forall l, map (fun v : ckpt_write (reps P1) D (reps S1) K => (snd (fst v), snd v)) (filter (fun v => Nat.leb (c_epoch c) (c_epoch (snd v))) l) =
        filter (fun v : string * ckpt _ _ _ _ => Nat.leb (c_epoch c) (c_epoch (snd v))) (map (fun v => (snd (fst v), snd v)) l)).
      { induction l as [|a l IH]; [reflexivity|]. cbn. destruct (Nat.leb _ _); cbn; rewrite IH; reflexivity. }
      rewrite G, Hreg, filter_app, filter_none, filter_all; [reflexivity| |].
      + intros a Ha1. apply in_map_iff in Ha1. destruct Ha1 as (v & <- & Hv1). apply filter_In in Hv1. apply Nat.leb_le. apply Hge. apply Hv1.
      + intros a Ha1. apply Nat.leb_gt. apply Hb. exact Ha1.
  Qed.

  (** Files that evaluation leaves alone. *)
  Lemma evaluate_keeps (j : job) p d k l : get_amplitude_fn (j_cfg j) <> None ->
    lf_train (files_of (evaluate j p d k l)) = lf_train l /\ lf_ckpts (files_of (evaluate j p d k l)) = lf_ckpts l.
  Proof.
    intros Ha. rewrite evaluate_spec by exact Ha. cbn zeta. destruct (_ && _); [|split; reflexivity]. destruct (load_rows _); split; reflexivity.
  Qed.

  Lemma metric_count (j : job) g ld x0 n : (forall p d s k, snd (fst (j_update j p d s k)) <> None) ->
    List.length (metric_writes _ _ _ _ (j_walk j) (j_update j) g ld x0 n) = n.
  Proof.
    intros H. unfold metric_writes. rewrite <- (seq_length n 0) at 2. generalize (seq 0 n). intros l. induction l as [|i l IH]; [reflexivity|].
    cbn [flat_map]. rewrite app_length, IH. unfold metrics_at at 1. destruct (state_after (j_walk j) (j_update j) i x0) as [[[p o] d] k].
    destruct (j_walk j p d k) as [[a d1] k1]. specialize (H p d1 o k1).
    destruct (j_update j p d1 o k1) as [[[[? ?] ?] m] ?]. cbn in H. destruct m; [reflexivity|contradiction].
  Qed.

  Lemma new_optimizer_job (j : job) r ld :
    job_ok j -> logdir (j_cfg j) = Some ld -> check_for_nans (j_cfg j) = false -> r_new_optimizer_state r = true ->
    exists p o d k cks ms, train j (Some r) = Finished p o d k false cks ms /\ List.length ms = j_nepochs j /\
      (forall e, checkpoint_every (j_cfg j) = Some e ->
         map (fun v => (snd (fst v), c_epoch (snd v))) (writes_named is_regular_name cks) =
         map (fun i => ((str_nat (i + 1) ++ ".npz")%string, i)) (filter (fun i => Nat.eqb ((i + 1) mod e) 0) (seq 0 (j_nepochs j)))) /\
      (r_append r = true -> r_same_logdir r = false -> NoDup (map fst (r_source r)) -> 0 < c_epoch (r_ckpt r) ->
       forall name, contains "git_hash" (name ++ ".txt")%string = false -> (forall m, In m ms -> dget (snd m) name <> None) ->
         List.length (lines_of (lf_train (files_of (run_molecule j (Some r) empty_logfiles))) name)
         = Nat.min (c_epoch (r_ckpt r)) (List.length (lines_of (r_source r) name)) + j_nepochs j).
  Proof.
    intros Hj Hl Hn Hr. pose proof Hj as (Hv & _ & Ha & Hc & Hd & Hrep).
    set (p0 := replicate_all_local_devices (j_ndev j) (c_params (r_ckpt r))).
    set (o0 := snd (fst (fst (j_init j)))).
    destruct (if skip_burn (Some r) then (c_data (r_ckpt r), c_key (r_ckpt r)) else j_burn j p0 (c_data (r_ckpt r)) (c_key (r_ckpt r))) as [d1 k1] eqn:Eb.
    assert (ET : train j (Some r) = vmc_loop (j_walk j) (j_update j) (j_has_nan j) (j_cfg j) 0 (j_nepochs j) p0 o0 d1 k1).
    { unfold train, start_state. rewrite Hr. fold p0 o0. rewrite Eb. reflexivity. }
    destruct (run_description _ _ _ _ (j_walk j) (j_update j) (j_has_nan j) (j_cfg j) ld 0 (j_nepochs j) p0 o0 d1 k1 Hv Hc Hl)
      as (n & b & cks & ms & p' & o' & d' & k' & HR & HX & HL & HG & _ & HM & _).
    assert (n = j_nepochs j /\ b = false) as [-> ->].
    { destruct HR as [(-> & -> & _)|(_ & i & _ & _ & C & _)]; [split; [lia|reflexivity]|]. rewrite Hn in C. discriminate C. }
    rewrite <- ET in HL. exists p', o', d', k', cks, ms. split; [exact HL|].
    assert (Hlen : List.length ms = j_nepochs j) by (rewrite HM; apply metric_count; exact Hrep).
    split; [exact Hlen|]. split.
    - intros e He. rewrite HG. unfold reg_writes. rewrite map_map. cbn [fst snd].
      erewrite filter_ext; [apply map_ext; intros i|].
      + unfold ck. assert (C : forall e y, c_epoch (@ckpt_of (reps P1) D (reps S1) K e y) = e) by (intros e0 [[[? ?] ?] ?]; reflexivity). rewrite C. reflexivity.
      + intros i. unfold reg_due. rewrite He. unfold divides_b.
        assert (C : forall y, has_metrics (j_walk j) (j_update j) y = true).
        { intros [[[pp oo] dd] kk]. unfold has_metrics, metrics_at. destruct (j_walk j pp dd kk) as [[a d2] k2]. specialize (Hrep pp d2 oo k2).
          destruct (j_update j pp d2 oo k2) as [[[[? ?] ?] m] ?]. cbn in Hrep. destruct m; [reflexivity|contradiction]. }
        rewrite C. reflexivity.
    - intros Hap Hs Hnd Hpos name Hg Hall. unfold run_molecule. rewrite HL.
      match goal with |- context [evaluate j p' d' k' ?l] => destruct (evaluate_keeps j p' d' k' l Ha) as [-> _] end.
      cbn [lf_train].
      assert (Hdict : forall m, In m ms -> is_dict (snd m)) by (rewrite HM; intros m Hm; eapply metric_writes_dicts; eauto).
      rewrite lines_write_all by exact Hdict. rewrite app_length. f_equal.
      + unfold start_files. rewrite Hap, Hs. cbn [lf_train empty_logfiles]. unfold carry_over_stats.
        rewrite lines_copy by assumption. rewrite firstn_length. reflexivity.
      + rewrite <- Hlen. clear -Hall. induction ms as [|m ms IH]; [reflexivity|]. cbn [flat_map]. rewrite app_length, IH by (intros; apply Hall; right; assumption).
        rewrite (rows_all name (m :: ms) Hall m) by (left; reflexivity). reflexivity.
  Qed.

  Lemma load_rows_ok w rows : 2 <= List.length rows -> 2 <= w -> Forall (fun r : list xr => List.length r = w) rows -> load_rows rows = Some rows.
  Proof.
    intros H1 H2 H3. destruct rows as [|r [|r' rows]]; cbn in H1; try lia. cbn [load_rows].
    assert (L : List.length r = w) by (inversion H3; assumption). rewrite L.
    destruct (Nat.leb_spec w 1); [lia|].
    replace (forallb _ _) with true; [reflexivity|]. symmetry. apply forallb_forall. rewrite Forall_forall in H3. intros x Hx. apply Nat.eqb_eq. apply H3, Hx.
  Qed.
  Lemma samples_length (j : job) p d k : List.length (eval_samples j p d k) = j_eval_nepochs j.
  Proof. unfold eval_samples. rewrite map_length, seq_length. reflexivity. Qed.

  Lemma amp_dict (j : job) d m : is_dict m -> is_dict (amp j d m).
  Proof.
    intros H. unfold amp. destruct (j_eval_amplitudes j); [|exact H]. destruct (get_amplitude_fn (j_cfg j)); [|exact H].
    destruct (p d). apply is_dict_dset, is_dict_dset, H.
  Qed.
  Lemma eval_dicts_dict (j : job) n : forall p d k m, In m (eval_dicts j n p d k) -> is_dict m.
  Proof.
    induction n as [|n IH]; intros p d k m Hm; [contradiction|]. cbn [eval_dicts] in Hm. destruct (j_eval_walk j p d k) as [[a d1] k1].
    destruct (j_statistics j (j_local_energies j p d1)) as [e v]. destruct Hm as [<-|Hm]; [|apply (IH _ _ _ _ Hm)].
    apply amp_dict. unfold is_dict. cbn. repeat constructor; cbn; intuition discriminate.
  Qed.
  Lemma row_amp (j : job) d m name : name <> "amplitude_min" -> name <> "amplitude_max" -> row_of (amp j d m) name = row_of m name.
  Proof.
    intros H1 H2. unfold row_of, amp. destruct (j_eval_amplitudes j); [|reflexivity]. destruct (get_amplitude_fn (j_cfg j)); [|reflexivity].
    destruct (p d). rewrite !dget_dset_other by congruence. reflexivity.
  Qed.
  Lemma eval_lines (j : job) d0 n : forall p d k,
    lines_of (fold_left write_out_metrics (eval_dicts j n p d k) d0) "energy" =
      lines_of d0 "energy" ++ map (fun r => fst (j_statistics j r)) (eval_rows j n p d k) /\
    lines_of (fold_left write_out_metrics (eval_dicts j n p d k) d0) "variance" =
      lines_of d0 "variance" ++ map (fun r => snd (j_statistics j r)) (eval_rows j n p d k).
  Proof.
    revert d0. induction n as [|n IH]; intros d0 p d k.
    - cbn. rewrite !app_nil_r. split; reflexivity.
    - cbn [eval_dicts eval_rows].
      pose proof (eval_dicts_dict j (S n) p d k) as HD. cbn [eval_dicts] in HD.
      destruct (j_eval_walk j p d k) as [[a d1] k1].
      destruct (j_statistics j (j_local_energies j p d1)) as [e v] eqn:ES. cbn [fold_left map].
      specialize (HD _ (or_introl eq_refl)).
      destruct (IH (write_out_metrics d0 (amp j d1 (dset [("energy", e); ("variance", v)] "accept_ratio" a))) p d1 k1) as [-> ->].
      rewrite !lines_write_out by exact HD. rewrite !row_amp by discriminate. rewrite ES. cbn [fst snd].
      rewrite <- !app_assoc. split; reflexivity.
  Qed.

  Lemma evaluated_job (j : job) rl l p o d k cks ms w :
    job_ok j -> train j rl = Finished p o d k false cks ms ->
    let samples := eval_samples j p d k in
    j_record_local_energies j = true -> 2 <= w -> Forall (fun r => List.length r = w) (lf_rows l ++ samples) -> 2 <= List.length (lf_rows l) + j_eval_nepochs j ->
    exists l', run_molecule j rl l = Completed p l' /\
      lf_rows l' = lf_rows l ++ samples /\
      lf_stats l' = lf_stats l ++ [j_summary j (lf_rows l ++ samples)] /\
      lf_ckpts l' = lf_ckpts l ++ cks /\
      lines_of (lf_eval l') "energy" = lines_of (lf_eval l) "energy" ++ map (fun r => fst (j_statistics j r)) samples /\
      lines_of (lf_eval l') "variance" = lines_of (lf_eval l) "variance" ++ map (fun r => snd (j_statistics j r)) samples.
  Proof.
    intros Hj HT samples Hrec Hw2 HF Hn. pose proof Hj as (_ & _ & Ha & _).
    unfold run_molecule. rewrite HT, evaluate_spec by exact Ha. cbn zeta. unfold eval_files. rewrite Hrec.
    cbn [lf_train lf_eval lf_rows lf_ckpts lf_stats andb].
    assert (SR : lf_rows (start_files rl l) = lf_rows l /\ lf_stats (start_files rl l) = lf_stats l /\ lf_ckpts (start_files rl l) = lf_ckpts l /\
                 lf_eval (start_files rl l) = lf_eval l).
    { destruct rl as [r|]; cbn; [|auto]. destruct (r_append r); cbn; auto. }
    destruct SR as (-> & -> & -> & ->). fold samples.
    assert (Hlen : 2 <= List.length (lf_rows l ++ samples)) by (rewrite app_length; unfold samples; rewrite samples_length; lia).
    destruct (Nat.eqb_spec (List.length (lf_rows l ++ samples)) 0); [lia|]. cbn [negb].
    rewrite (load_rows_ok w) by assumption.
    eexists. split; [reflexivity|]. cbn [lf_train lf_eval lf_rows lf_ckpts lf_stats]. split; [reflexivity|]. split; [reflexivity|]. split; [reflexivity|].
    unfold samples. rewrite eval_samples_spec. unfold eval_metrics. destruct (eval_start j p d k) as [d1 k1]. destruct (j_eval_burn j p d1 k1) as [d2 k2].
    apply eval_lines.
  Qed.

  Lemma statistics_raise (j : job) rl l p o d k cks ms :
    job_ok j -> train j rl = Finished p o d k false cks ms -> j_record_local_energies j = true -> 0 < j_eval_nepochs j -> lf_rows l = [] ->
    (j_eval_nepochs j = 1 \/ forall p d, List.length (j_local_energies j p d) <= 1) ->
    exists l', run_molecule j rl l = Crashed l' /\ lf_rows l' = eval_samples j p d k /\ lf_stats l' = lf_stats l.
  Proof.
    intros Hj HT Hrec Hn Hold Hc. pose proof Hj as (_ & _ & Ha & _).
    unfold run_molecule. rewrite HT, evaluate_spec by exact Ha. cbn zeta. unfold eval_files. rewrite Hrec.
    cbn [lf_train lf_eval lf_rows lf_ckpts lf_stats andb].
    assert (SR : lf_rows (start_files rl l) = [] /\ lf_stats (start_files rl l) = lf_stats l).
    { destruct rl as [r|]; cbn; [|auto]. destruct (r_append r); cbn; auto. }
    destruct SR as (-> & ->). cbn [app]. pose proof (samples_length j p d k) as HL.
    destruct (Nat.eqb_spec (List.length (eval_samples j p d k)) 0); [lia|]. cbn [negb].
    assert (E : load_rows (eval_samples j p d k) = None).
    { destruct (eval_samples j p d k) as [|r [|r' rows]] eqn:Es; try reflexivity. cbn [load_rows].
      destruct Hc as [Hc|Hc]; [cbn in HL; lia|]. destruct (Nat.leb_spec (List.length r) 1) as [|C]; [reflexivity|].
      assert (In r (eval_samples j p d k)) as Hr by (rewrite Es; left; reflexivity).
      unfold eval_samples in Hr. apply in_map_iff in Hr. destruct Hr as (i & <- & _). specialize (Hc p (eval_walkers j p d k i)). lia. }
    rewrite E. eexists. split; [reflexivity|]. split; reflexivity.
  Qed.

  (** The best checkpoint after a resume. *)
  Lemma last_write_app (f : string -> bool) (a b : list (ckpt_write (reps P1) D (reps S1) K)) :
    last_write f (a ++ b) = match last_write f b with Some w => Some w | None => last_write f a end.
  Proof.
    unfold last_write, writes_named, ckpt_write in *. rewrite filter_app, rev_app_distr.
    match goal with |- hd_error (?x ++ _) = _ => change (hd_error (x ++ rev (filter (fun w => f (snd (fst w))) a)) = match hd_error x with Some w => Some w | None => hd_error (rev (filter (fun w => f (snd (fst w))) a)) end); destruct x end; reflexivity.
  Qed.
  Lemma best_since_resume (j : job) ld c src same l (E V : nat -> R) :
    job_ok j -> logdir (j_cfg j) = Some ld -> best_checkpoint_every (j_cfg j) <> None -> 2 <= nhistory_max (j_cfg j) -> check_for_nans (j_cfg j) = false ->
    let x0 := (repeat (c_params c) (j_ndev j), repeat (c_opt c) (j_ndev j), c_data c, c_key c) in
    let at_ i := state_after (j_walk j) (j_update j) i x0 in
    let n := j_nepochs j - c_epoch c in
    let m i := window_metric (j_cfg j) (map E (seq 0 (i + 1))) (map V (seq 0 (i + 1))) in
    (forall i, i < n -> mval (j_walk j) (j_update j) "energy" (at_ i) = Fin (E i) /\
       mval (j_walk j) (j_update j) "variance" (at_ i) = Fin (V i) /\ (0 <= V i)%R) ->
    let files := files_of (run_molecule j (Some (resume_flags c src same)) l) in
    (n = 0 /\ last_write is_best_name (lf_ckpts files) = last_write is_best_name (lf_ckpts l)) \/
    exists i, i < n /\ last_write is_best_name (lf_ckpts files) = Some (ld, "best_checkpoint.npz", ckpt_of (c_epoch c + i) (at_ i)) /\
      (forall i', i' < n -> (m i <= m i')%R) /\ (forall i', i' < i -> (m i < m i')%R).
  Proof.
    intros Hj Hl Hb Hh Hn x0 at_ n m HE files. pose proof Hj as (Hv & _ & Ha & Hc & _ & Hrep).
    destruct (best_checkpoint_finite _ _ _ _ (j_walk j) (j_update j) (j_has_nan j) (j_cfg j) ld (c_epoch c) (j_nepochs j)
      (repeat (c_params c) (j_ndev j)) (repeat (c_opt c) (j_ndev j)) (c_data c) (c_key c) E V Hv Hc Hl Hb Hh)
      as (r & b & p' & o' & d' & k' & cks & ms & HL & HR & HB).
    cbv zeta in HR, HB. fold x0 in HR, HB. fold n in HR.
    assert (r = n /\ b = false) as [-> ->].
    { destruct HR as [(-> & -> & _)|(_ & i & _ & _ & C & _)]; [split; reflexivity|]. rewrite Hn in C. discriminate C. }
    assert (RC : forall q, @recorded (reps P1) D (reps S1) K (j_walk j) (j_update j) x0 q = seq 0 q).
    { intros q. unfold recorded. apply filter_all. intros i _. generalize (state_after (j_walk j) (j_update j) i x0).
      intros [[[pp oo] dd] kk]. unfold has_metrics, metrics_at. destruct (j_walk j pp dd kk) as [[a d2] k2]. specialize (Hrep pp d2 oo k2).
      destruct (j_update j pp d2 oo k2) as [[[[? ?] ?] mm] ?]. cbn in Hrep. destruct mm; [reflexivity|contradiction]. }
    assert (EC : lf_ckpts files = lf_ckpts l ++ cks).
    { unfold files, run_molecule. unfold train, start_state. cbn [resume_flags r_new_optimizer_state r_ckpt skip_burn r_reburn negb].
      unfold replicate_all_local_devices. rewrite HL.
      match goal with |- context [evaluate j p' d' k' ?ll] => destruct (evaluate_keeps j p' d' k' ll Ha) as [_ ->] end. reflexivity. }
    rewrite EC, last_write_app. destruct HB as [[HB1 HB2]|(i & Hi & Hw & H1 & H2)].
    - intros i Hi. rewrite RC in Hi. apply in_seq in Hi. apply HE. lia.
    - left. rewrite RC in HB2. split; [destruct n; [reflexivity|discriminate HB2]|]. rewrite HB1. reflexivity.
    - right. exists i. rewrite RC in Hi. apply in_seq in Hi. split; [lia|]. rewrite Hw. split; [reflexivity|]. split.
      + intros i' Hi'. specialize (H1 i'). rewrite !RC in H1. apply H1. apply in_seq. lia.
      + intros i' Hi'. specialize (H2 i'). rewrite !RC in H2. apply H2; [apply in_seq; lia|exact Hi'].
  Qed.
End Run.

(** * Proofs about metric files *)
From Coq Require Import List String Ascii Arith Bool Reals Lia.
From Verif Require Import XReal M_io M_vmc M_files S_vmc S_files P_vmc P_vmc2 P_vmc3.
Import ListNotations.
Local Open Scope string_scope.
Local Open Scope list_scope.

Lemma dir_get_set_same {A} (d : dir A) n t : dir_get (dir_set d n t) n = Some t.
Proof.
  induction d as [|[m u] d IH]; simpl; [rewrite String.eqb_refl; reflexivity|].
  destruct (String.eqb m n) eqn:E; simpl; rewrite E; [reflexivity|exact IH].
Qed.
Lemma dir_get_set_other {A} (d : dir A) n m t : n <> m -> dir_get (dir_set d n t) m = dir_get d m.
Proof.
  intros H. induction d as [|[k u] d IH]; simpl.
  - destruct (String.eqb_spec n m); [contradiction|reflexivity].
  - destruct (String.eqb_spec k n) as [->|Hk]; simpl.
    + destruct (String.eqb_spec n m); [contradiction|reflexivity].
    + destruct (String.eqb k m); [reflexivity|exact IH].
Qed.

Lemma txt_inj a b : (a ++ ".txt" = b ++ ".txt")%string -> a = b.
Proof. apply string_app_inj_r. Qed.

Lemma lines_append {A} (d : dir A) n v name :
  lines_of (append_metric_to_file d n v) name =
  lines_of d name ++ (if String.eqb n name then [v] else []).
Proof.
  unfold lines_of, append_metric_to_file.
  destruct (String.eqb_spec n name) as [->|Hn].
  - destruct (dir_get d (name ++ ".txt")); rewrite dir_get_set_same; reflexivity.
  - assert (Hne : (n ++ ".txt")%string <> (name ++ ".txt")%string) by (intros C; apply Hn, txt_inj, C).
    destruct (dir_get d (n ++ ".txt")); rewrite dir_get_set_other by exact Hne; rewrite app_nil_r; reflexivity.
Qed.

Definition row_of (m : dict) (name : string) : list xr :=
  match dget m name with Some v => [v] | None => [] end.

Lemma dget_not_in (m : dict) name : ~ In name (map fst m) -> dget m name = None.
Proof.
  induction m as [|[k v] m IH]; [reflexivity|]. simpl. intros H.
  destruct (String.eqb_spec k name) as [->|]; [exfalso; apply H; left; reflexivity|].
  apply IH. intros C; apply H; right; exact C.
Qed.

Lemma lines_write_out d m name :
  is_dict m -> lines_of (write_out_metrics d m) name = lines_of d name ++ row_of m name.
Proof.
  unfold is_dict, write_out_metrics, row_of. revert d.
  induction m as [|[k v] m IH]; intros d H; simpl; [rewrite app_nil_r; reflexivity|].
  simpl in H. apply NoDup_cons_iff in H. destruct H as [H1 H2].
  rewrite IH by exact H2. rewrite lines_append, <- app_assoc. f_equal.
  destruct (String.eqb_spec k name) as [->|Hk]; [|reflexivity].
  rewrite dget_not_in by exact H1. reflexivity.
Qed.

Lemma lines_write_all ms : forall d name,
  (forall m, In m ms -> is_dict (snd m)) ->
  lines_of (write_all_metrics d ms) name = lines_of d name ++ flat_map (fun m => row_of (snd m) name) ms.
Proof.
  unfold write_all_metrics. induction ms as [|m ms IH]; intros d name H; simpl; [rewrite app_nil_r; reflexivity|].
  rewrite IH by (intros; apply H; right; assumption).
  rewrite lines_write_out by (apply H; left; reflexivity). rewrite <- app_assoc. reflexivity.
Qed.

Lemma is_dict_dset m k v : is_dict m -> is_dict (dset m k v).
Proof.
  unfold is_dict. intros H.
  assert (G : map fst (dset m k v) = map fst m \/ (~ In k (map fst m) /\ map fst (dset m k v) = map fst m ++ [k])).
  { clear H. induction m as [|[k' w] m IH]; simpl.
    - right; split; [auto|reflexivity].
    - destruct (String.eqb_spec k' k) as [->|Hk]; [left; reflexivity|].
      destruct IH as [IH|[IH1 IH2]]; [left; simpl; rewrite IH; reflexivity|].
      right. split; [intros [C|C]; [contradiction|apply IH1, C]|]. simpl. rewrite IH2. reflexivity. }
  destruct G as [->|[G1 ->]]; [exact H|].
  apply NoDup_Add with (a := k) (l := map fst m); [|split; assumption].
  rewrite <- (app_nil_r (map fst m)) at 1. apply Add_app.
Qed.

(** directory keys stay unique *)
Definition dir_ok {A} (d : dir A) : Prop := NoDup (map fst d).

Lemma dir_set_keys {A} (d : dir A) n t :
  map fst (dir_set d n t) = map fst d \/ (~ In n (map fst d) /\ map fst (dir_set d n t) = map fst d ++ [n]).
Proof.
  induction d as [|[k' w] m IH]; simpl.
  - right; split; [auto|reflexivity].
  - destruct (String.eqb_spec k' n) as [->|Hk]; [left; reflexivity|].
    destruct IH as [IH|[IH1 IH2]]; [left; simpl; rewrite IH; reflexivity|].
    right. split; [intros [C|C]; [contradiction|apply IH1, C]|]. simpl. rewrite IH2. reflexivity.
Qed.

Lemma dir_set_ok {A} (d : dir A) n t : dir_ok d -> dir_ok (dir_set d n t).
Proof.
  unfold dir_ok. intros H. destruct (dir_set_keys d n t) as [->|[G1 ->]]; [exact H|].
  apply NoDup_Add with (a := n) (l := map fst d); [|split; assumption].
  rewrite <- (app_nil_r (map fst d)) at 1. apply Add_app.
Qed.

Lemma append_ok {A} (d : dir A) n v : dir_ok d -> dir_ok (append_metric_to_file d n v).
Proof. intros H. unfold append_metric_to_file. destruct (dir_get _ _); apply dir_set_ok, H. Qed.
Lemma write_out_ok m : forall d, dir_ok d -> dir_ok (write_out_metrics d m).
Proof.
  unfold write_out_metrics. induction m as [|[k v] m IH]; intros d H; [exact H|]. apply IH, append_ok, H.
Qed.
Lemma write_all_ok ms : forall d, dir_ok d -> dir_ok (write_all_metrics d ms).
Proof.
  unfold write_all_metrics. induction ms as [|m ms IH]; intros d H; [exact H|]. simpl. apply IH, write_out_ok, H.
Qed.

Lemma ends_with_self s : ends_with s s = true.
Proof. destruct s; unfold ends_with; simpl; rewrite ?String.eqb_refl, ?Ascii.eqb_refl; reflexivity. Qed.
Lemma ends_with_app s suf : ends_with suf (s ++ suf)%string = true.
Proof.
  induction s as [|c s IH]; [apply ends_with_self|].
  simpl. rewrite IH. apply orb_true_r.
Qed.

Lemma dir_get_in {A} (d : dir A) n t : dir_ok d -> (In (n, t) d <-> dir_get d n = Some t).
Proof.
  unfold dir_ok. induction d as [|[k u] d IH]; simpl; intros H.
  - split; [intros []|discriminate].
  - apply NoDup_cons_iff in H. destruct H as [H1 H2]. specialize (IH H2).
    destruct (String.eqb_spec k n) as [->|Hk].
    + split.
      * intros [E|E]; [injection E as ->; reflexivity|].
        exfalso. apply H1. apply in_map_iff. exists (n, t). split; [reflexivity|exact E].
      * intros E. injection E as ->. left; reflexivity.
    + rewrite <- IH. split; [intros [E|E]; [congruence|exact E]|intros E; right; exact E].
Qed.

Lemma copy_get {A} (src tgt : dir A) tr n :
  dir_ok src ->
  dir_get (copy_txt_stats src tgt tr) n =
  (if copied_name n then
     match dir_get src n with
     | Some t => Some (truncate_lines tr t)
     | None => dir_get tgt n
     end
   else dir_get tgt n).
Proof.
  unfold copy_txt_stats, dir_ok. revert tgt.
  induction src as [|[k u] src IH]; intros tgt H; cbn [filter fst].
  - simpl. destruct (copied_name n); reflexivity.
  - cbn [map fst] in H. apply NoDup_cons_iff in H. destruct H as [H1 H2].
    assert (Hnone : k = n -> dir_get src n = None).
    { intros ->. destruct (dir_get src n) as [t|] eqn:E; [|reflexivity].
      exfalso. apply H1. apply (dir_get_in src n t H2) in E.
      apply in_map_iff. exists (n, t). split; [reflexivity|exact E]. }
    destruct (copied_name k) eqn:Ek.
    + cbn [fold_left fst snd]. rewrite IH by exact H2. cbn [dir_get].
      destruct (String.eqb_spec k n) as [->|Hk].
      * rewrite Ek, Hnone by reflexivity. apply dir_get_set_same.
      * rewrite dir_get_set_other by exact Hk. reflexivity.
    + rewrite IH by exact H2. cbn [dir_get].
      destruct (String.eqb_spec k n) as [->|Hk]; [rewrite Ek; reflexivity|reflexivity].
Qed.

Lemma copy_same_get {A} (d : dir A) tr n :
  dir_get (copy_txt_stats_same d tr) n =
  match dir_get d n with
  | Some t => Some (if copied_name n then truncate_lines tr t else t)
  | None => None
  end.
Proof.
  unfold copy_txt_stats_same. induction d as [|[k u] d IH]; [reflexivity|]. cbn [map fst snd].
  destruct (copied_name k) eqn:Ek; cbn [dir_get]; destruct (String.eqb_spec k n) as [->|Hk]; auto;
    rewrite Ek; reflexivity.
Qed.

Lemma lines_copy {A} (src : dir A) e name :
  dir_ok src -> contains "git_hash" (name ++ ".txt")%string = false -> 0 < e ->
  lines_of (copy_txt_stats src [] (Some e)) name = firstn e (lines_of src name).
Proof.
  intros H Hg He. unfold lines_of. rewrite copy_get by exact H.
  unfold copied_name. rewrite ends_with_app, Hg. simpl.
  destruct e as [|e]; [lia|].
  destruct (dir_get src (name ++ ".txt")); [reflexivity|]. rewrite firstn_nil. reflexivity.
Qed.

Lemma lines_copy_same {A} (src : dir A) e name :
  contains "git_hash" (name ++ ".txt")%string = false -> 0 < e ->
  lines_of (copy_txt_stats_same src (Some e)) name = firstn e (lines_of src name).
Proof.
  intros Hg He. unfold lines_of. rewrite copy_same_get.
  unfold copied_name. rewrite ends_with_app, Hg. simpl.
  destruct e as [|e]; [lia|].
  destruct (dir_get src (name ++ ".txt")); [reflexivity|]. rewrite firstn_nil. reflexivity.
Qed.

Section Runs.
  Variables P D S K : Type.
  Variable walker_fn : P -> D -> K -> xr * D * K.
  Variable update_param_fn : P -> D -> S -> K -> P * D * S * option dict * K.
  Variable params_have_nan : P -> bool.
  Notation state_after := (state_after walker_fn update_param_fn).
  Notation metrics_at := (metrics_at walker_fn update_param_fn).
  Notation has_metrics := (has_metrics walker_fn update_param_fn).
  Notation nan_epoch := (nan_epoch walker_fn update_param_fn params_have_nan).
  Notation mval := (mval walker_fn update_param_fn).
  Notation recorded := (recorded walker_fn update_param_fn).
  Notation vmc_loop := (vmc_loop walker_fn update_param_fn params_have_nan).
  Notation complete := (metrics_complete update_param_fn).
  Notation metric_writes := (metric_writes P D S K walker_fn update_param_fn).
  Notation logged := (logged P D S K walker_fn update_param_fn).

  Lemma metrics_at_dict x m : dicts_only update_param_fn -> metrics_at x = Some m -> is_dict m.
  Proof.
    intros Hd. unfold S_vmc.metrics_at. destruct x as [[[p o] d] k].
    destruct (walker_fn p d k) as [[a d1] k1].
    destruct (update_param_fn p d1 o k1) as [[[[p2 d2] s2] m0] k2] eqn:E.
    destruct m0 as [m0|]; [|discriminate]. simpl. intros H; injection H as <-.
    apply is_dict_dset. apply (Hd p d1 o k1). rewrite E. reflexivity.
  Qed.

  Lemma logged_dict (g : cfg D) x m : is_dict m -> is_dict (logged g x m).
  Proof.
    intros H. unfold P_vmc.logged, add_amplitude.
    destruct (record_amplitudes g); [|exact H]. destruct (get_amplitude_fn g) as [f|]; [|exact H].
    destruct (f _) as [lo hi]. apply is_dict_dset, is_dict_dset, H.
  Qed.

  Lemma logged_get (g : cfg D) x m name :
    name <> "amplitude_min" -> name <> "amplitude_max" -> dget (logged g x m) name = dget m name.
  Proof.
    intros H1 H2. unfold P_vmc.logged, add_amplitude.
    destruct (record_amplitudes g); [|reflexivity]. destruct (get_amplitude_fn g) as [f|]; [|reflexivity].
    destruct (f _) as [lo hi]. rewrite !dget_dset_other by congruence. reflexivity.
  Qed.

  Lemma metric_writes_dicts (g : cfg D) ld x0 r m :
    dicts_only update_param_fn -> In m (metric_writes g ld x0 r) -> is_dict (snd m).
  Proof.
    intros Hd Hm. unfold P_vmc2.metric_writes in Hm. apply in_flat_map in Hm.
    destruct Hm as (i & _ & Hi). destruct (metrics_at (state_after i x0)) as [m0|] eqn:E; [|contradiction].
    destruct Hi as [<-|[]]. apply logged_dict. eapply metrics_at_dict; eauto.
  Qed.

  Lemma rows_metric_writes (g : cfg D) ld x0 name r :
    name <> "amplitude_min" -> name <> "amplitude_max" ->
    (forall i m, i < r -> metrics_at (state_after i x0) = Some m -> dget m name <> None) ->
    flat_map (fun m => row_of (snd m) name) (metric_writes g ld x0 r) =
    map (fun i => mval name (state_after i x0)) (recorded x0 r).
  Proof.
    intros H1 H2 Hall. unfold P_vmc2.metric_writes, S_vmc.recorded.
    assert (G : forall l, (forall i, In i l -> i < r) ->
      flat_map (fun m => row_of (snd m) name) (flat_map (fun i => match metrics_at (state_after i x0) with
         | Some m => [(ld, logged g (state_after i x0) m)] | None => [] end) l) =
      map (fun i => mval name (state_after i x0)) (filter (fun i => has_metrics (state_after i x0)) l)).
    { induction l as [|i l IH]; [reflexivity|]. intros Hl.
      cbn [flat_map filter]. rewrite flat_map_app, IH by (intros; apply Hl; right; assumption).
      unfold S_vmc.has_metrics at 2. destruct (metrics_at (state_after i x0)) as [m|] eqn:E; [|reflexivity].
      cbn [flat_map map app snd]. unfold row_of. rewrite logged_get by assumption.
      unfold S_vmc.mval at 2. rewrite E.
      destruct (dget m name) eqn:Eg; [reflexivity|].
      exfalso. apply (Hall i m); auto. apply Hl; left; reflexivity. }
    apply G. intros i Hi. apply in_seq in Hi. lia.
  Qed.

  (** ** C03, first half *)
  Lemma one_line_per_epoch (g : cfg D) ld start nepochs p o d key :
    valid_cfg g -> complete -> dicts_only update_param_fn -> logdir g = Some ld ->
    let x0 := (p, o, d, key) in
    exists r b p' o' d' key' ckpts metrics,
      vmc_loop g start nepochs p o d key = Finished p' o' d' key' b ckpts metrics /\
      RunsFor (fun i => check_for_nans g && nan_epoch (state_after i x0)) (nepochs - start) r b /\
      (forall m, In m metrics -> fst m = ld) /\
      forall name dir0,
        name <> "amplitude_min" -> name <> "amplitude_max" ->
        (forall i m, i < r -> metrics_at (state_after i x0) = Some m -> dget m name <> None) ->
        lines_of (write_all_metrics dir0 metrics) name =
        lines_of dir0 name ++ map (fun i => mval name (state_after i x0)) (recorded x0 r).
  Proof.
    intros Hv Hc Hd Hl x0.
    destruct (run_description P D S K walker_fn update_param_fn params_have_nan g ld start nepochs p o d key Hv Hc Hl)
      as (r & b & ckpts & metrics & p' & o' & d' & k' & HR & HX & HL & _ & _ & H3 & _).
    exists r, b, p', o', d', k', ckpts, metrics. split; [exact HL|]. split; [exact HR|].
    fold x0 in H3. split.
    - intros m Hm. rewrite H3 in Hm. unfold P_vmc2.metric_writes in Hm. apply in_flat_map in Hm.
      destruct Hm as (i & _ & Hi). destruct (metrics_at _); [|contradiction]. destruct Hi as [<-|[]]. reflexivity.
    - intros name dir0 H1 H2 Hall. rewrite lines_write_all.
      + rewrite H3, rows_metric_writes by assumption. reflexivity.
      + intros m Hm. rewrite H3 in Hm. eapply metric_writes_dicts; eauto.
  Qed.

  Lemma firstn_flat_one {A B} (f : A -> list B) (l : list A) n :
    (forall a, In a l -> List.length (f a) = 1) -> firstn n (flat_map f l) = flat_map f (firstn n l).
  Proof.
    revert n; induction l as [|a l IH]; intros n H; [rewrite !firstn_nil; reflexivity|].
    destruct n as [|n]; [reflexivity|]. cbn [flat_map firstn].
    specialize (H a) as Ha. destruct (f a) as [|b [|b' r]]; simpl in Ha; try (specialize (Ha (or_introl eq_refl)); lia).
    cbn [app firstn]. f_equal. apply IH. intros; apply H; right; assumption.
  Qed.

  (** ** C03, second half: crash, reload with append, finish = uninterrupted. *)
  Lemma resume_append_same_file (g g' : cfg D) ld ld' nepochs p o d key pf of_ df kf nf cks ms w done
      pf' of' df' kf' nf' cks' ms' name :
    valid_cfg g -> complete -> dicts_only update_param_fn -> logdir g = Some ld ->
    valid_cfg g' -> logdir g' = Some ld' -> check_for_nans g' = check_for_nans g ->
    checkpoint_every g' = checkpoint_every g ->
    record_amplitudes g' = record_amplitudes g -> get_amplitude_fn g' = get_amplitude_fn g ->
    vmc_loop g 0 nepochs p o d key = Finished pf of_ df kf nf cks ms ->
    In w cks ->
    let c := snd w in
    vmc_loop g' (c_epoch c) nepochs (c_params c) (c_opt c) (c_data c) (c_key c)
      = Finished pf' of' df' kf' nf' cks' ms' ->
    name <> "amplitude_min" -> name <> "amplitude_max" ->
    contains "git_hash" (name ++ ".txt")%string = false ->
    (forall x, exists m, metrics_at x = Some m /\ dget m name <> None) ->
    c_epoch c <= done -> 0 < c_epoch c ->
    let crashed := write_all_metrics [] (firstn done ms) in
    lines_of (write_all_metrics (carry_over_stats true crashed [] (c_epoch c)) ms') name
      = lines_of (write_all_metrics [] ms) name /\
    lines_of (write_all_metrics (copy_txt_stats_same crashed (Some (c_epoch c))) ms') name
      = lines_of (write_all_metrics [] ms) name.
  Proof.
    intros Hv Hc Hd Hl Hv' Hl' Enan Eevery Eamp Eget HL Hw c HL' N1 N2 Ng Hall Hdone Hpos crashed.
    set (x0 := (p, o, d, key)).
    destruct (run_description P D S K walker_fn update_param_fn params_have_nan g ld 0 nepochs p o d key Hv Hc Hl)
      as (r & b & ckpts & metrics & p1 & o1 & d1 & k1 & HR & HX & HL1 & H1 & _ & H3 & _).
    fold x0 in HR, HX, H1, H3. rewrite HL in HL1. injection HL1 as <- <- <- <- <- <- <-.
    destruct (all_writes_are_states P D S K walker_fn update_param_fn params_have_nan g ld 0 nepochs p o d key Hv Hc Hl)
      as (r2 & b2 & p2 & o2 & d2 & k2 & ck2 & m2 & HL2 & HR2 & Hst).
    rewrite HL in HL2. injection HL2 as <- <- <- <- <- <- <-. fold x0 in HR2, Hst.
    destruct (RunsFor_unique _ _ _ _ _ _ HR HR2) as [<- _].
    destruct (Hst w Hw) as (i & Hi & Ec). fold c in Ec. simpl in Ec.
    assert (Eci : c_epoch c = i).
    { rewrite Ec. destruct (state_after i x0) as [[[? ?] ?] ?]. reflexivity. }
    (* the resumed run's metrics *)
    destruct (resume_reproduces P D S K walker_fn update_param_fn params_have_nan g g' ld ld' 0 nepochs p o d key
      pf of_ df kf nf cks ms w Hv Hc Hl Hv' Hl' Enan Eevery Eamp Eget HL Hw)
      as (cks2 & ms2 & before & mbefore & HL2' & _ & _ & _ & Hms & Hlen).
    fold c in HL2', Hlen. rewrite HL' in HL2'. injection HL2' as -> -> -> -> -> <- <-.
    set (row := fun m : string * dict => row_of (snd m) name).
    assert (Hrow : forall m, In m ms -> List.length (row m) = 1).
    { intros m Hm. rewrite H3 in Hm. unfold P_vmc2.metric_writes in Hm. apply in_flat_map in Hm.
      destruct Hm as (q & _ & Hq). destruct (metrics_at (state_after q x0)) as [m0|] eqn:E; [|contradiction].
      destruct Hq as [<-|[]]. unfold row, row_of. cbn [snd]. rewrite logged_get by assumption.
      destruct (Hall (state_after q x0)) as (m1 & E1 & G1). rewrite E in E1. injection E1 as <-.
      destruct (dget m0 name); [reflexivity|congruence]. }
    assert (Hdict : forall m, In m ms -> is_dict (snd m)).
    { intros m Hm. rewrite H3 in Hm. eapply metric_writes_dicts; eauto. }
    assert (Hlenm : List.length mbefore = i).
    { assert (El : List.length ms = r).
      { rewrite H3. unfold P_vmc2.metric_writes. clear -Hall.
        assert (G : forall l, List.length (flat_map (fun i => match metrics_at (state_after i x0) with
           | Some m => [(ld, logged g (state_after i x0) m)] | None => [] end) l) = List.length l).
        { induction l as [|j l IH]; [reflexivity|]. cbn [flat_map]. rewrite app_length, IH.
          destruct (Hall (state_after j x0)) as (m & -> & _). reflexivity. }
        rewrite G, seq_length. reflexivity. }
      assert (El' : List.length ms' = r - i).
      { destruct (state_after i x0) as [[[pi oi] di] ki] eqn:Ei.
        rewrite Ec in HL'. cbn [c_epoch c_params c_opt c_data c_key ckpt_of] in HL'.
        destruct (run_description P D S K walker_fn update_param_fn params_have_nan g' ld' i nepochs pi oi di ki Hv' Hc Hl')
          as (r' & b' & ck' & me' & p' & o' & d' & k' & HR' & HX' & HLL & _ & _ & H3' & _).
        rewrite HL' in HLL. injection HLL as <- <- <- <- <- <- <-.
        assert (Hs : forall j, state_after j (pi, oi, di, ki) = state_after (i + j) x0).
        { intros j. rewrite state_after_add, Ei. reflexivity. }
        pose proof (RunsFor_shift _ _ _ _ i HR Hi) as HRs.
        replace (nepochs - 0 - i) with (nepochs - i) in HRs by lia.
        assert (Er : r' = r - i).
        { assert (HR'' : RunsFor (fun j => check_for_nans g && nan_epoch (state_after (i + j) x0)) (nepochs - i) r' nf).
          { destruct HR' as [(A & B & C)|(A & q & B & C & D1 & E1)].
            - left. repeat split; auto. intros j Hj. specialize (C j Hj). rewrite Hs, Enan in C. exact C.
            - right. split; [exact A|]. exists q. rewrite Hs, Enan in D1. repeat split; auto.
              intros j Hj. specialize (E1 j Hj). rewrite Hs, Enan in E1. exact E1. }
          exact (proj1 (RunsFor_unique _ _ _ _ _ _ HR'' HRs)). }
        rewrite H3', <- Er. unfold P_vmc2.metric_writes. clear -Hall.
        assert (G : forall l, List.length (flat_map (fun i => match metrics_at (state_after i (pi, oi, di, ki)) with
           | Some m => [(ld', logged g' (state_after i (pi, oi, di, ki)) m)] | None => [] end) l) = List.length l).
        { induction l as [|j l IH]; [reflexivity|]. cbn [flat_map]. rewrite app_length, IH.
          destruct (Hall (state_after j (pi, oi, di, ki))) as (m & -> & _). reflexivity. }
        rewrite G, seq_length. reflexivity. }
      apply (f_equal (@List.length _)) in Hms. rewrite app_length, !map_length in Hms.
      pose proof (RunsFor_le _ _ _ _ HR). lia. }
    assert (Erows : flat_map row ms' = flat_map row (skipn i ms)).
    { assert (Es : map snd ms' = map snd (skipn i ms)).
      { rewrite <- skipn_map, Hms, <- Hlenm, skipn_app, skipn_all, Nat.sub_diag. reflexivity. }
      unfold row. rewrite !flat_map_concat_map, <- !(map_map snd (fun m => row_of m name)), Es. reflexivity. }
    assert (Hdict' : forall m, In m ms' -> is_dict (snd m)).
    { intros m Hm. assert (Hin : In (snd m) (map snd ms)).
      { rewrite Hms. apply in_or_app. right. apply in_map, Hm. }
      apply in_map_iff in Hin. destruct Hin as (m0 & <- & Hm0). apply Hdict, Hm0. }
    assert (Hcr : lines_of crashed name = flat_map row (firstn done ms)).
    { unfold crashed. rewrite lines_write_all; [reflexivity|].
      intros m Hm. apply Hdict. rewrite <- (firstn_skipn done ms). apply in_or_app; left; exact Hm. }
    assert (Hfst : firstn i (lines_of crashed name) = flat_map row (firstn i ms)).
    { rewrite Hcr, firstn_flat_one.
      - rewrite firstn_firstn. f_equal. f_equal. lia.
      - intros m Hm. apply Hrow. rewrite <- (firstn_skipn done ms). apply in_or_app; left; exact Hm. }
    assert (Hok : dir_ok crashed) by (apply write_all_ok; constructor).
    split; rewrite !lines_write_all by assumption; unfold carry_over_stats.
    - rewrite lines_copy by (try assumption). rewrite Eci, Hfst.
      fold row. rewrite Erows, <- flat_map_app, firstn_skipn. reflexivity.
    - rewrite lines_copy_same by (try assumption). rewrite Eci, Hfst.
      fold row. rewrite Erows, <- flat_map_app, firstn_skipn. reflexivity.
  Qed.
End Runs.

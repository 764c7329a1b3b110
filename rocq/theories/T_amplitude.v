(** * The amplitude files of a run (C03, continued) *)
From Coq Require Import String List Arith Bool Reals Lia.
From Verif Require Import XReal M_io M_vmc M_files S_vmc S_files P_vmc P_vmc2 P_files E_vmc.
Import ListNotations.
Local Open Scope string_scope.
Local Open Scope list_scope.

(** If amplitudes are recorded, amplitude_min.txt and amplitude_max.txt get one line per executed epoch with metrics, in epoch
    order: the two numbers the amplitude getter returns for the walkers at the end of that epoch. *)
Theorem C03_amplitude_lines :
  forall (P D S K : Type) (walker_fn : P -> D -> K -> xr * D * K)
    (update_param_fn : P -> D -> S -> K -> P * D * S * option dict * K) (params_have_nan : P -> bool)
    (g : cfg D) ld start nepochs p o d key f,
  valid_cfg g -> metrics_complete update_param_fn -> dicts_only update_param_fn -> logdir g = Some ld ->
  record_amplitudes g = true -> get_amplitude_fn g = Some f ->
  let x0 := (p, o, d, key) in
  let walkers_after i := snd (fst (state_after walker_fn update_param_fn (i + 1) x0)) in
  exists r b p' o' d' key' ckpts metrics,
    vmc_loop walker_fn update_param_fn params_have_nan g start nepochs p o d key = Finished p' o' d' key' b ckpts metrics /\
    RunsFor (fun i => check_for_nans g && nan_epoch walker_fn update_param_fn params_have_nan (state_after walker_fn update_param_fn i x0)) (nepochs - start) r b /\
    forall dir0,
      lines_of (write_all_metrics dir0 metrics) "amplitude_min" = lines_of dir0 "amplitude_min" ++ map (fun i => fst (f (walkers_after i))) (recorded walker_fn update_param_fn x0 r) /\
      lines_of (write_all_metrics dir0 metrics) "amplitude_max" = lines_of dir0 "amplitude_max" ++ map (fun i => snd (f (walkers_after i))) (recorded walker_fn update_param_fn x0 r).
Proof.
  intros P D S K walker_fn update_param_fn params_have_nan g ld start nepochs p o d key f Hv Hc Hd Hl Ha Hf x0 walkers_after.
  destruct (run_description P D S K walker_fn update_param_fn params_have_nan g ld start nepochs p o d key Hv Hc Hl)
    as (r & b & ckpts & metrics & p' & o' & d' & k' & HR & HX & HL & _ & _ & H3 & _).
  exists r, b, p', o', d', k', ckpts, metrics. split; [exact HL|]. split; [exact HR|]. fold x0 in H3. intros dir0.
  assert (G : forall name (q : xr * xr -> xr), (forall y m lo hi, f y = (lo, hi) -> dget (dset (dset m "amplitude_min" lo) "amplitude_max" hi) name = Some (q (lo, hi))) ->
    lines_of (write_all_metrics dir0 metrics) name = lines_of dir0 name ++ map (fun i => q (f (walkers_after i))) (recorded walker_fn update_param_fn x0 r)).
  { intros name q Hq. rewrite lines_write_all by (intros m Hm; rewrite H3 in Hm; eapply metric_writes_dicts; eauto). f_equal. rewrite H3. unfold P_vmc2.metric_writes, S_vmc.recorded. generalize (seq 0 r) as l.
    induction l as [|i l IH]; [reflexivity|]. cbn [flat_map filter]. rewrite flat_map_app, IH. unfold S_vmc.has_metrics at 2. destruct (S_vmc.metrics_at walker_fn update_param_fn (state_after walker_fn update_param_fn i x0)) as [m|]; [|reflexivity].
    cbn [flat_map map app snd]. unfold row_of, logged, add_amplitude. rewrite Ha, Hf. unfold walkers_after. replace (i + 1) with (Datatypes.S i) by lia.
    change (state_after walker_fn update_param_fn (Datatypes.S i) x0) with (one_epoch walker_fn update_param_fn (state_after walker_fn update_param_fn i x0)).
    destruct (f (snd (fst (one_epoch walker_fn update_param_fn (state_after walker_fn update_param_fn i x0))))) as [lo hi] eqn:E. rewrite (Hq _ m lo hi E). reflexivity. }
  split; [apply (G "amplitude_min" fst)|apply (G "amplitude_max" snd)]; intros y m lo hi _.
  - rewrite dget_dset_other by discriminate. apply dget_dset_same.
  - apply dget_dset_same.
Qed.
Print Assumptions C03_amplitude_lines.

(** A run whose walker data is a counter, with the counter and the counter plus one as amplitude range. *)
Definition counting_cfg : cfg nat :=
  {| logdir := Some "log"; checkpoint_every := None; best_checkpoint_every := None; checkpoint_dir := "checkpoints"; variance_scale := 0; check_for_nans := true;
     record_amplitudes := true; get_amplitude_fn := Some (fun d => (Fin (INR d), Fin (INR d + 1))); nchains := 10; nhistory_max := 5 |}.
Example C03_amplitude_example : exists p' o' d' key' b ckpts metrics,
  vmc_loop toy_walker (toy_update (fun _ => Fin 1)) toy_nan counting_cfg 0 3 tt tt 0 tt = Finished p' o' d' key' b ckpts metrics /\
  lines_of (write_all_metrics [] metrics) "amplitude_min" = [Fin (INR 1); Fin (INR 2); Fin (INR 3)].
Proof.
  destruct (C03_amplitude_lines unit nat unit unit toy_walker (toy_update (fun _ => Fin 1)) toy_nan counting_cfg "log" 0 3 tt tt 0 tt (fun d => (Fin (INR d), Fin (INR d + 1))))
    as (r & b & p' & o' & d' & k' & ck & ms & E & HR & H).
  - split; [discriminate|]. split; [discriminate|]. discriminate.
  - apply toy_complete.
  - apply toy_dicts.
  - reflexivity.
  - reflexivity.
  - reflexivity.
  - exists p', o', d', k', b, ck, ms. split; [exact E|]. destruct (H []) as (-> & _). cbn [lines_of dir_get app].
    assert (r = 3) as ->.
    { destruct HR as [(_ & -> & _)|(_ & i & _ & Hi & Z & _)]; [reflexivity|]. exfalso. rewrite toy_state in Z. cbn in Z. discriminate. }
    reflexivity.
Qed.

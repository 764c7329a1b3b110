(** * Crash safety of the checkpoints of a run *)
From Coq Require Import List String Arith Bool Lia.
From Verif Require Import XReal M_io M_vmc M_writer S_vmc P_vmc P_vmc2 P_vmc3 P_writer.
Import ListNotations.

Section C.
  Variable C : Type.

  Lemma finish_in_ops_of k (w : string * string * C) p c :
    In (Finish p c) (ops_of k w) -> p = fst w /\ c = snd w.
  Proof.
    unfold ops_of. intros [H|H]; [discriminate|]. apply in_app_or in H. destruct H as [H|[H|[]]].
    - apply repeat_spec in H; discriminate.
    - injection H as <- <-; auto.
  Qed.

  (** If the final operation of a write whose path is not written before is among the first [n]
      operations then all of its operations are. *)
  Lemma finished_index k (pre post : list (string * string * C)) w n :
    (forall v, In v pre -> fst v <> fst w) ->
    In (Finish (fst w) (snd w)) (firstn n (all_ops k (pre ++ w :: post))) ->
    (k + 2) * (List.length pre + 1) <= n.
  Proof.
    intros Hpre H. destruct (le_lt_dec ((k + 2) * (List.length pre + 1)) n) as [L|L]; [exact L|exfalso].
    assert (E : all_ops k (pre ++ w :: post) =
      (all_ops k pre ++ Truncate (fst w) :: repeat (Chunk (fst w)) k) ++ Finish (fst w) (snd w) :: all_ops k post).
    { rewrite all_ops_app. unfold all_ops at 2. cbn [flat_map]. unfold ops_of at 1.
      rewrite <- !app_assoc. simpl. rewrite <- app_assoc. reflexivity. }
    rewrite E, firstn_app in H. apply in_app_or in H. destruct H as [H|H].
    - assert (H' : In (Finish (fst w) (snd w)) (all_ops k pre ++ Truncate (fst w) :: repeat (Chunk (fst w)) k)).
      { rewrite <- (firstn_skipn n). apply in_or_app; left; exact H. }
      apply in_app_or in H'. destruct H' as [H'|[H'|H']].
      + unfold all_ops in H'. apply in_flat_map in H'. destruct H' as (v & Hv & Hf).
        apply finish_in_ops_of in Hf. apply (Hpre v Hv). symmetry; apply Hf.
      + discriminate.
      + apply repeat_spec in H'; discriminate.
    - rewrite app_length, all_ops_length in H. simpl List.length in H. rewrite repeat_length in H.
      replace (n - _) with 0 in H by lia. destruct H.
  Qed.
End C.

Section R.
  Variables P D S K : Type.
  Variable walker_fn : P -> D -> K -> xr * D * K.
  Variable update_param_fn : P -> D -> S -> K -> P * D * S * option dict * K.
  Variable params_have_nan : P -> bool.
  Notation vmc_loop := (vmc_loop walker_fn update_param_fn params_have_nan).

  (** The name of a regular checkpoint occurs once among all writes of a run. *)
  Lemma regular_once (cks pre post : list (ckpt_write P D S K)) w :
    cks = pre ++ w :: post ->
    NoDup (map (fun w => snd (fst w)) (writes_named is_regular_name cks)) ->
    is_regular_name (snd (fst w)) = true ->
    (forall v, In v pre -> fst v <> fst w) /\ (forall v, In v post -> fst v <> fst w).
  Proof.
    intros -> ND Hr. unfold writes_named in ND. rewrite filter_app in ND. cbn [filter] in ND. rewrite Hr in ND.
    rewrite map_app in ND. cbn [map] in ND. apply NoDup_remove_2 in ND.
    split; intros v Hv Heq; apply ND; apply in_or_app; [left|right]; apply in_map_iff; exists v;
      (split; [rewrite Heq; reflexivity|]); apply filter_In; (split; [exact Hv|]);
      rewrite Heq; exact Hr.
  Qed.

  Lemma regular_intact (g : cfg D) ld every start nepochs p o d key pf of_ df kf nf cks ms w k d0 n :
    valid_cfg g -> metrics_complete update_param_fn -> logdir g = Some ld -> checkpoint_every g = Some every ->
    vmc_loop g start nepochs p o d key = Finished pf of_ df kf nf cks ms ->
    In w cks -> is_regular_name (snd (fst w)) = true ->
    In (Finish (fst w) (snd w)) (firstn n (all_ops k cks)) ->
    crash_disk d0 (all_ops k cks) n (fst w) = Some (Complete (snd w)).
  Proof.
    intros Hv Hc Hl He HL Hw Hr Hf.
    destruct (regular_checkpoints P D S K walker_fn update_param_fn params_have_nan g ld every start nepochs p o d key
                Hv Hc Hl He) as (r & b & p' & o' & d' & k' & ck & me & HL2 & _ & _ & ND).
    rewrite HL in HL2. injection HL2 as _ _ _ _ _ E _. subst ck.
    destruct (in_split _ _ Hw) as (pre & post & E).
    destruct (regular_once cks pre post w E ND Hr) as [Ha Hb].
    apply (crash_intact _ k cks pre post w d0 n E Hb). rewrite E in Hf.
    eapply finished_index; eauto.
  Qed.

  Lemma crash_recovery (g g' : cfg D) ld ld' start nepochs p o d key pf of_ df kf nf cks ms k n path c :
    valid_cfg g -> metrics_complete update_param_fn -> logdir g = Some ld ->
    valid_cfg g' -> logdir g' = Some ld' -> check_for_nans g' = check_for_nans g ->
    checkpoint_every g' = checkpoint_every g ->
    record_amplitudes g' = record_amplitudes g -> get_amplitude_fn g' = get_amplitude_fn g ->
    vmc_loop g start nepochs p o d key = Finished pf of_ df kf nf cks ms ->
    crash_disk (fun _ => None) (all_ops k cks) n path = Some (Complete c) ->
    exists cks' ms',
      vmc_loop g' (c_epoch c) nepochs (c_params c) (c_opt c) (c_data c) (c_key c)
        = Finished pf of_ df kf nf cks' ms'.
  Proof.
    intros Hv Hm Hl Hv' Hl' Hn He Hr Ha HL Hd.
    apply crash_complete_origin in Hd. destruct Hd as [Hd|Hd]; [discriminate|].
    apply in_map_iff in Hd. destruct Hd as (w & Ew & Hw). injection Ew as _ Ec. 
    destruct (resume_reproduces P D S K walker_fn update_param_fn params_have_nan g g' ld ld' start nepochs p o d key
      pf of_ df kf nf cks ms w Hv Hm Hl Hv' Hl' Hn He Hr Ha HL Hw) as (cks' & ms' & _ & _ & HL2 & _).
    rewrite Ec in HL2. eauto.
  Qed.
End R.

Section B.
  Variable C : Type.
  (** A path written twice: some crash point finds it unreadable after it had been complete. *)
  Lemma overwrite_lost k (pre mid post : list (string * string * C)) w w' d0 :
    fst w' = fst w ->
    (forall v, In v mid -> fst v <> fst w) ->
    exists n m, n < m /\
      crash_disk d0 (all_ops k (pre ++ w :: mid ++ w' :: post)) n (fst w) = Some (Complete (snd w)) /\
      crash_disk d0 (all_ops k (pre ++ w :: mid ++ w' :: post)) m (fst w) = Some Partial.
  Proof.
    intros Hp Hmid.
    set (base := List.length (all_ops k (pre ++ w :: mid))).
    assert (E : all_ops k (pre ++ w :: mid ++ w' :: post) =
                all_ops k (pre ++ w :: mid) ++ all_ops k (w' :: post)).
    { rewrite <- all_ops_app, <- app_assoc. reflexivity. }
    exists base, (base + 1). split; [lia|]. rewrite E. split.
    - unfold crash_disk. rewrite firstn_app. unfold base. rewrite Nat.sub_diag, firstn_O, app_nil_r.
      pose proof (crash_intact _ k (pre ++ w :: mid) pre mid w d0 (List.length (all_ops k (pre ++ w :: mid)))
        eq_refl Hmid) as H. apply H. rewrite all_ops_length, app_length. simpl List.length. nia.
    - unfold crash_disk. rewrite firstn_app.
      rewrite firstn_all2 by (unfold base; lia). replace (base + 1 - _) with 1 by (unfold base; lia).
      rewrite fold_left_app. unfold all_ops at 1. cbn [flat_map]. unfold ops_of at 1. cbn [app firstn fold_left dop_run].
      rewrite Hp. unfold disk_set. rewrite path_eqb_refl. reflexivity.
  Qed.
End B.

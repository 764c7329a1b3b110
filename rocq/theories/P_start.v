(** * Proofs about the walkers a job starts with *)
From Coq Require Import Reals List Bool Arith Lra Lia.
From Verif Require Import XReal M_io M_vmc M_mcmc M_distribute M_start S_mcmc S_start P_mcmc P_walkers P_width P_distribute.
Import ListNotations.
Local Open Scope R_scope.

Lemma Forall_nth_error {A} (Q : A -> Prop) l : (forall i a, nth_error l i = Some a -> Q a) -> Forall Q l.
Proof. intros H. apply Forall_forall. intros a Ha. apply In_nth_error in Ha. destruct Ha as [i Hi]. eapply H; exact Hi. Qed.
Lemma nth_error_Forall {A} (Q : A -> Prop) l i a : Forall Q l -> nth_error l i = Some a -> Q a.
Proof. intros H E. rewrite Forall_forall in H. apply H. eapply nth_error_In; exact E. Qed.

Lemma concat_rows_length {A} d (ll : list (list A)) : Forall (fun r => length r = d) ll -> length (concat ll) = (length ll * d)%nat.
Proof. induction 1 as [|r ll Hr _ IH]; [reflexivity|]. cbn [concat length]. rewrite app_length, IH, Hr. lia. Qed.
Lemma concat_rows_nth {A} d (ll : list (list A)) (a : A) : Forall (fun r => length r = d) ll ->
  forall e c, (e < length ll)%nat -> (c < d)%nat -> nth (e * d + c) (concat ll) a = nth c (nth e ll []) a.
Proof.
  induction 1 as [|r ll Hr _ IH]; intros e c He Hc; [cbn in He; lia|]. destruct e as [|e]; cbn [concat nth].
  - rewrite app_nth1 by (rewrite Hr; lia). f_equal.
  - rewrite app_nth2 by (rewrite Hr; lia). rewrite Hr. replace (S e * d + c - d)%nat with (e * d + c)%nat by lia.
    apply IH; [cbn in He; lia | exact Hc].
Qed.

Section Start.
  Context {K : Type} (g : prng K) (choice : choice_fn K).
  Hypothesis Hg : good_prng g.
  Hypothesis Hc : good_choice choice.
  Variables (ions : list (list R)) (charges : list R) (d nelec : nat).
  Hypothesis Hl : length ions = length charges.
  Hypothesis Hn : ions <> [].
  Hypothesis Hd : Forall (fun r => length r = d) ions.

  Lemma pos_ions : (0 < length ions)%nat.
  Proof. destruct ions; [contradiction | cbn; lia]. Qed.

  Definition at_ions (assign : list nat) : list R := concat (map (fun a => nth a ions []) assign).

  Lemma at_ions_rows assign : Forall (fun a => (a < length ions)%nat) assign -> Forall (fun r => length r = d) (map (fun a => nth a ions []) assign).
  Proof.
    intros H. apply Forall_forall. intros r Hr. apply in_map_iff in Hr. destruct Hr as (a & <- & Ha).
    rewrite Forall_forall in H, Hd. apply Hd. apply nth_In. apply H. exact Ha.
  Qed.

  (** One walker. *)
  Lemma around_one width assign noise : length assign = nelec -> Forall (fun a => (a < length ions)%nat) assign ->
    length noise = length (at_ions assign) ->
    around_ions width ions d nelec assign noise (zipw (fun x z => x + width * z) (at_ions assign) noise).
  Proof.
    intros H1 H2 H3. pose proof (at_ions_rows assign H2) as HR.
    assert (LA : length (at_ions assign) = (nelec * d)%nat) by (unfold at_ions; rewrite (concat_rows_length d) by exact HR; rewrite map_length, H1; reflexivity).
    split; [rewrite zipw_length; lia|]. split; [lia|]. split; [exact H1|]. split; [exact H2|].
    intros e c He Hcd.
    assert (Hi : (e * d + c < nelec * d)%nat) by nia.
    assert (E : forall u v i, (i < length u)%nat -> length u = length v -> nth i (zipw (fun x z => x + width * z) u v) 0 = nth i u 0 + width * nth i v 0).
    { clear. induction u as [|x u IH]; intros [|z v] [|i] Hi L; cbn in *; try lia; [reflexivity|]. apply IH; lia. }
    rewrite E by lia. f_equal. unfold at_ions. rewrite (concat_rows_nth d _ 0 HR) by (try rewrite map_length; lia).
    f_equal. rewrite (nth_indep _ [] (nth O ions [])) by (rewrite map_length; lia).
    exact (map_nth (fun a => nth a ions []) assign O e).
  Qed.

  Definition draws (k : K) : list nat :=
    choice k (length charges) nelec (negb (Nat.leb nelec (length charges))) (map (fun z => z / fold_right Rplus 0 charges) charges).
  Lemma draws_length k : length (draws k) = nelec.
  Proof. apply (choice_length _ Hc). Qed.
  Lemma draws_range k : Forall (fun a => (a < length ions)%nat) (draws k).
  Proof. apply Forall_forall. intros a Ha. rewrite Hl. eapply (choice_range _ Hc); [| |exact Ha]; [rewrite <- Hl; exact pos_ions|].
    destruct (Nat.leb_spec nelec (length charges)); [right; assumption | left; reflexivity]. Qed.
  Lemma draws_distinct k : (nelec <= length ions)%nat -> NoDup (draws k).
  Proof. intros H. unfold draws. rewrite Hl in H. rewrite (proj2 (Nat.leb_le _ _) H). apply (choice_distinct _ Hc). exact H. Qed.

  Lemma assign_step n k : assign_electrons g choice (S n) ions charges nelec k =
    (at_ions (draws (snd (split2 g k))) :: fst (assign_electrons g choice n ions charges nelec (fst (split2 g k))),
     snd (assign_electrons g choice n ions charges nelec (fst (split2 g k)))).
  Proof.
    cbn [assign_electrons]. destruct (split2 g k) as [k1 k2]. cbn [fst snd].
    destruct (assign_electrons g choice n ions charges nelec k1) as [r k3]. reflexivity.
  Qed.
  Lemma assign_spec n : forall k, length (fst (assign_electrons g choice n ions charges nelec k)) = n /\
    Forall (fun x => exists k', x = at_ions (draws k')) (fst (assign_electrons g choice n ions charges nelec k)).
  Proof.
    induction n as [|n IH]; intros k; [split; [reflexivity | constructor]|]. rewrite assign_step. cbn [fst].
    destruct (IH (fst (split2 g k))) as [I1 I2]. split; [cbn [length]; lia|]. constructor; [eexists; reflexivity | exact I2].
  Qed.

  Lemma initialize_spec width n k :
    let xs := snd (initialize_molecular_pos g choice k n ions charges nelec width) in
    length xs = n /\
    Forall (fun x => exists assign noise, around_ions width ions d nelec assign noise x /\ ((nelec <= length ions)%nat -> NoDup assign)) xs.
  Proof.
    unfold initialize_molecular_pos. pose proof (assign_spec n k) as [A1 A2].
    destruct (assign_electrons g choice n ions charges nelec k) as [el k1]. cbn [fst] in *.
    destruct (split2 g k1) as [k2 k3]. cbn [snd]. cbv zeta.
    pose proof (normal_shape _ Hg k3 (map (@length R) el)) as HS.
    set (nz := normal g k3 (map (@length R) el)) in *.
    assert (LN : length nz = length el) by (apply (f_equal (@length nat)) in HS; rewrite !map_length in HS; exact HS).
    split; [rewrite zipw_length; lia|]. apply Forall_nth_error. intros i x Hi. rewrite zipw_nth_error in Hi.
    destruct (nth_error el i) as [b|] eqn:Eb; [|discriminate]. destruct (nth_error nz i) as [z|] eqn:Ez; [|discriminate].
    injection Hi as <-. destruct (nth_error_Forall _ _ _ _ A2 Eb) as [k' ->].
    exists (draws k'), z. split; [|apply draws_distinct]. apply around_one; [apply draws_length | apply draws_range|].
    pose proof (f_equal (fun l => nth_error l i) HS) as E2. cbv beta in E2. rewrite !nth_error_map', Eb, Ez in E2. cbn in E2. congruence.
  Qed.
End Start.

(** ** Initial data *)
Section Data.
  Context {P : Type} (psi : P -> list R -> xr) (model_apply : P -> list (list R) -> list xr).
  Hypothesis Hm : forall p xs, model_apply p xs = map (psi p) xs.

  Lemma chunks_in {A} size ndev : forall (l : list A) s x, In s (chunks size ndev l) -> In x s -> In x l.
  Proof.
    induction ndev as [|n IH]; intros l s x Hs Hx; [destruct Hs|]. cbn in Hs. destruct Hs as [<-|Hs].
    - rewrite <- (firstn_skipn size l). apply in_or_app. left. exact Hx.
    - rewrite <- (firstn_skipn size l). apply in_or_app. right. eapply IH; [exact Hs | exact Hx].
  Qed.

  Lemma data_list ndev std p (shards : list (list (list R))) : length shards = ndev ->
    zipw (fun xa m => Build_padata (fst xa) (snd xa) m) (combine shards (map (model_apply p) shards)) (repeat {| std_move := std; acc_sum := 0; moves := 0 |} ndev)
    = map (fun xs => {| pos := xs; amp := map (psi p) xs; meta := {| std_move := std; acc_sum := 0; moves := 0 |} |}) shards.
  Proof.
    intros <-. induction shards as [|s l IH]; [reflexivity|]. cbn. rewrite Hm. f_equal. exact IH.
  Qed.

  Lemma make_initial_spec ndev std xs p : (0 < ndev)%nat ->
    make_initial_data model_apply ndev std xs p =
    if Nat.eqb (length xs mod ndev) 0 then Some (map (fun xs => {| pos := xs; amp := map (psi p) xs; meta := {| std_move := std; acc_sum := 0; moves := 0 |} |})
      (chunks (length xs / ndev) ndev xs)) else None.
  Proof.
    intros H. unfold make_initial_data, reshape_data_leaves_for_distribution. destruct (Nat.eqb (length xs mod ndev) 0); [|reflexivity].
    unfold replicate_all_local_devices. rewrite data_list by apply chunks_length. reflexivity.
  Qed.

  Lemma initial_in_order ndev std xs p n : (0 < ndev)%nat -> 0 < std -> (length xs mod ndev = 0)%nat -> Forall (fun x => length x = n) xs ->
    in_order psi ndev (length xs / ndev) n p
      (map (fun xs => {| pos := xs; amp := map (psi p) xs; meta := {| std_move := std; acc_sum := 0; moves := 0 |} |}) (chunks (length xs / ndev) ndev xs)).
  Proof.
    intros H Hs HM HF. pose proof (reshape_some ndev xs H HM) as E.
    split; [rewrite map_length; apply chunks_length|]. split.
    - apply Forall_forall. intros da Hda. apply in_map_iff in Hda. destruct Hda as (s & <- & Hin). cbn.
      split; [eapply chunks_sizes; [exact E | exact Hin]|]. split; [|reflexivity].
      apply Forall_forall. intros x Hx. rewrite Forall_forall in HF. apply HF. eapply chunks_in; [exact Hin | exact Hx].
    - exists std. split; [exact Hs|]. apply Forall_forall. intros da Hda. apply in_map_iff in Hda. destruct Hda as (s & <- & _). reflexivity.
  Qed.
End Data.

(** ** A step keeps the walkers in order *)
Section Walk.
  Context {P K : Type} (g : prng K) (psi : P -> list R -> xr) (model_apply : P -> list (list R) -> list xr).
  Hypothesis Hg : good_prng g.
  Hypothesis Hm : forall p xs, model_apply p xs = map (psi p) xs.
  Variables (nmoves ndev w n : nat).

  (** The invariant proper: the whole metadata are equal on all devices. *)
  Definition inv (p : P) (datas : list (padata move_metadata)) (keys : list K) : Prop :=
    length datas = ndev /\ length keys = ndev /\
    Forall (fun d => length (pos d) = w /\ Forall (fun x => length x = n) (pos d) /\ consistent psi p d) datas /\
    exists m, 0 < std_move m /\ map meta datas = repeat m ndev.

  Lemma inv_in_order p datas keys : inv p datas keys -> in_order psi ndev w n p datas.
  Proof.
    intros (H1 & _ & H2 & m & Hm1 & Hm2). split; [exact H1|]. split; [exact H2|]. exists (std_move m). split; [exact Hm1|].
    apply Forall_forall. intros d Hd. apply (in_map meta) in Hd. rewrite Hm2 in Hd. apply repeat_spec in Hd. rewrite Hd. reflexivity.
  Qed.

  Lemma Hupd_len : forall f, Some (update_move_metadata nmoves (adjust_std_move (1 / 2) (5 / 100) (1 / 10))) = Some f -> forall ms masks, length (f ms masks) = length ms.
  Proof. intros f E. injection E as <-. intros. apply map_length. Qed.

  Lemma zipw_snd {A B C D} (f : A -> B -> D -> C) (h : C -> D) (l : list (A * B)) (r : list D) : (forall a b x, h (f a b x) = x) -> length l = length r ->
    map h (zipw (fun ab x => f (fst ab) (snd ab) x) l r) = r.
  Proof. intros E. revert r. induction l as [|[a b] l IH]; intros [|x r] L; cbn in *; try lia; try reflexivity. rewrite E, IH by lia. reflexivity. Qed.

  Lemma width_pos avg m : 0 < std_move m -> 0 < std_move (update_move_metadata1 nmoves (adjust_std_move (1 / 2) (5 / 100) (1 / 10)) avg m).
  Proof.
    intros H. unfold update_move_metadata1. destruct (Nat.leb _ _); cbn; [|exact H].
    unfold adjust_std_move, Rltb. destruct (Rlt_dec _ _), (Rlt_dec _ _); lra.
  Qed.

  Lemma step_inv p datas keys : inv p datas keys ->
    let r := run_step g model_apply nmoves p datas keys in inv p (snd (fst r)) (snd r).
  Proof.
    intros (L1 & L2 & H & m & Hm1 & Hm2). unfold run_step, dynamic_step. cbv zeta.
    assert (L : length datas = length keys) by lia.
    set (gs := fun d : padata move_metadata => std_move (meta d)).
    set (up := Some (update_move_metadata nmoves (adjust_std_move (1 / 2) (5 / 100) (1 / 10)))).
    pose proof (step_lengths g model_apply gs up true Hupd_len p datas keys L) as [S1 S2].
    assert (C0 : Forall (consistent psi p) datas) by (eapply Forall_impl; [|exact H]; intros a (_ & _ & Q); exact Q).
    pose proof (step_consistent g psi model_apply Hg Hm gs up true Hupd_len p datas keys L C0) as C.
    split; [lia|]. split; [lia|]. split.
    - apply Forall_nth_error. intros j d' Hj.
      destruct (nth_error_same_length _ datas j _ S1 Hj) as [d Hd].
      destruct (nth_error_same_length _ keys j _ L Hd) as [k Hk].
      destruct (nth_error_Forall _ _ _ _ H Hd) as (Hw & Hx & Hcons).
      destruct (device_step g psi model_apply Hg Hm gs up true Hupd_len p datas keys j d k L Hd Hk) as (d2 & H2 & Lp & La & HW).
      { unfold consistent in Hcons. rewrite Hcons, map_length. reflexivity. }
      rewrite Hj in H2. injection H2 as <-. split; [lia|]. split; [|exact (nth_error_Forall _ _ _ _ C Hj)].
      apply Forall_nth_error. intros i x' Hx'.
      destruct (nth_error_same_length _ (pos d) i _ Lp Hx') as [x Hxi].
      assert (Ha : nth_error (amp d) i = Some (psi p x)) by (unfold consistent in Hcons; rewrite Hcons, nth_error_map', Hxi; reflexivity).
      destruct (HW i x _ Hxi Ha) as (x1 & a1 & E1 & _ & z & u & Lz & _ & HS). rewrite Hx' in E1. injection E1 as <-.
      pose proof (nth_error_Forall _ _ _ _ Hx Hxi) as Lx. cbv beta in Lx. cbv zeta in HS.
      destruct (accepts u _); destruct HS as [-> _]; [|exact Lx]. unfold moved. rewrite zipw_length. lia.
    - rewrite pa_step_unfold by exact L. cbn [fst snd]. unfold pa_update, up.
      set (masks := zipw _ datas keys) at 3.
      set (props := zipw (fun d k => fst (dev_prop g model_apply gs p d k)) datas keys).
      exists (update_move_metadata1 nmoves (adjust_std_move (1 / 2) (5 / 100) (1 / 10)) (mean_all_devices masks) m).
      split; [apply width_pos; exact Hm1|].
      unfold update_move_metadata. rewrite Hm2, map_repeat'.
      apply (zipw_snd (fun a b c => Build_padata a b c) meta); [reflexivity|].
      rewrite zipw_length, combine_length, repeat_length. unfold props. rewrite !zipw_length. lia.
  Qed.

  Lemma burn_inv t : forall p datas keys, inv p datas keys ->
    let r := burn_data (burning_step (run_step g model_apply nmoves)) t p datas keys in inv p (fst r) (snd r).
  Proof.
    induction t as [|t IH]; intros p datas keys H; [exact H|]. pose proof (step_inv p datas keys H) as S.
    change (burn_data (burning_step (run_step g model_apply nmoves)) (Datatypes.S t) p datas keys) with
      (let (data, key) := burning_step (run_step g model_apply nmoves) p datas keys in burn_data (burning_step (run_step g model_apply nmoves)) t p data key).
    assert (E : burning_step (run_step g model_apply nmoves) p datas keys = (snd (fst (run_step g model_apply nmoves p datas keys)), snd (run_step g model_apply nmoves p datas keys))).
    { unfold burning_step. destruct (run_step g model_apply nmoves p datas keys) as [[a ds] ks]. reflexivity. }
    rewrite E. apply IH. exact S.
  Qed.
  Lemma scan_inv t : forall acc p datas keys, inv p datas keys ->
    let r := walk_scan (zipw xadd) (run_step g model_apply nmoves) p t (acc, datas, keys) in inv p (snd (fst r)) (snd r).
  Proof.
    induction t as [|t IH]; intros acc p datas keys H; cbn [walk_scan]; [exact H|].
    pose proof (step_inv p datas keys H) as S. destruct (run_step g model_apply nmoves p datas keys) as [[a ds] ks]. cbn [fst snd] in S. apply IH. exact S.
  Qed.
  Lemma walker_inv nsteps p datas keys : inv p datas keys ->
    let r := walker_fn_pmapped nsteps (run_step g model_apply nmoves) ndev p datas keys in inv p (snd (fst r)) (snd r).
  Proof.
    intros H. unfold walker_fn_pmapped, walk_data_gen. pose proof (scan_inv nsteps (repeat (Fin 0) ndev) p datas keys H) as S.
    destruct (walk_scan _ _ _ _ _) as [[a ds] ks]. exact S.
  Qed.
  Lemma update_inv p p' datas keys keys' : inv p datas keys -> length keys' = ndev -> inv p' (map (fun d => update_data_fn model_apply d p') datas) keys'.
  Proof.
    intros (L1 & L2 & H & m & Hm1 & Hm2) L'. split; [rewrite map_length; exact L1|]. split; [exact L'|]. split.
    - apply Forall_forall. intros d Hd. apply in_map_iff in Hd. destruct Hd as (d0 & <- & Hin). rewrite Forall_forall in H.
      destruct (H d0 Hin) as (A & B & _). split; [exact A|]. split; [exact B|]. unfold consistent. cbn. apply Hm.
    - exists m. split; [exact Hm1|]. rewrite map_map. exact Hm2.
  Qed.
  Lemma initial_inv std xs p keys : (0 < ndev)%nat -> 0 < std -> (length xs mod ndev = 0)%nat -> Forall (fun x => length x = n) xs ->
    (length xs / ndev = w)%nat -> length keys = ndev ->
    inv p (map (fun xs => {| pos := xs; amp := map (psi p) xs; meta := {| std_move := std; acc_sum := 0; moves := 0 |} |}) (chunks (length xs / ndev) ndev xs)) keys.
  Proof.
    intros H Hs HM HF HW LK. destruct (initial_in_order psi ndev std xs p n H Hs HM HF) as (A & B & _).
    split; [exact A|]. split; [exact LK|]. rewrite HW in *. split; [exact B|]. exists {| std_move := std; acc_sum := 0; moves := 0 |}. split; [exact Hs|].
    rewrite map_map. cbn. clear A B. pose proof (chunks_length w ndev xs) as LC. revert LC. generalize (chunks w ndev xs). clear. intros l <-.
    induction l; cbn; congruence.
  Qed.
End Walk.

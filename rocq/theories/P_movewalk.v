(** * Metropolis walks of moved walkers *)
From Coq Require Import String Reals List Arith Bool Lia.
From Verif Require Import XReal M_io M_vmc M_mcmc M_distribute M_start S_mcmc P_mcmc.
Import ListNotations.
Local Open Scope R_scope.

Lemma zw_map_l {A A' B C} (f : A' -> B -> C) (h : A -> A') l : forall l', zipw f (map h l) l' = zipw (fun a b => f (h a) b) l l'.
Proof. induction l as [|a l IH]; intros [|b l']; try reflexivity. cbn. rewrite IH. reflexivity. Qed.
Lemma zw_map_r {A B B' C} (f : A -> B' -> C) (h : B -> B') l : forall l', zipw f l (map h l') = zipw (fun a b => f a (h b)) l l'.
Proof. induction l as [|a l IH]; intros [|b l']; try reflexivity. cbn. rewrite IH. reflexivity. Qed.
Lemma map_zw {A B C D} (f : A -> B -> C) (h : C -> D) l : forall l', map h (zipw f l l') = zipw (fun a b => h (f a b)) l l'.
Proof. induction l as [|a l IH]; intros [|b l']; try reflexivity. cbn. rewrite IH. reflexivity. Qed.
Lemma zw_ext_in {A B C} (f f' : A -> B -> C) (Q : A -> Prop) l : forall l', Forall Q l -> (forall a b, Q a -> f a b = f' a b) -> zipw f l l' = zipw f' l l'.
Proof. induction l as [|a l IH]; intros [|b l'] HF H; try reflexivity. inversion HF; subst. cbn. rewrite H, (IH l') by assumption. reflexivity. Qed.
Lemma zw_Forall {A B C} (f : A -> B -> C) (Q : A -> Prop) (Q' : C -> Prop) l : forall l', Forall Q l -> (forall a b, Q a -> In b l' -> Q' (f a b)) -> Forall Q' (zipw f l l').
Proof. induction l as [|a l IH]; intros [|b l'] HF H; try constructor; inversion HF; subst. - apply H; [assumption|left; reflexivity]. - apply IH; [assumption|]. intros a' b' Ha Hb. apply H; [exact Ha|right; exact Hb]. Qed.
Lemma combine_map_both {A A' B B'} (f : A -> A') (h : B -> B') l : forall l', combine (map f l) (map h l') = map (fun p => (f (fst p), h (snd p))) (combine l l').
Proof. induction l as [|a l IH]; intros [|b l']; try reflexivity. cbn. rewrite IH. reflexivity. Qed.
Lemma zw_ext {A B C} (f f' : A -> B -> C) l l' : (forall a b, f a b = f' a b) -> zipw f l l' = zipw f' l l'.
Proof. intros H. revert l'. induction l as [|a l IH]; intros [|b l']; try reflexivity. cbn. rewrite H, IH. reflexivity. Qed.

Section Walk.
  Context {P K : Type}.
  Variables (g : prng K) (h : list R -> list R) (len : nat).
  Hypothesis Hg : good_prng g.
  Hypothesis Hlen : forall x, length (h x) = length x.
  Hypothesis Hh : forall s x z, zipw (fun a b => a + s * b) (h x) z = h (zipw (fun a b => a + s * b) x z).
  Variables (ma ma' : P -> list (list R) -> list xr).
  Hypothesis Hma : forall p xs, Forall (fun x => length x = len) xs -> ma' p (map h xs) = ma p xs.

  Notation data := (padata move_metadata).
  Definition on_pa (d : data) : data := Build_padata (map h (pos d)) (amp d) (meta d).
  Definition shaped (datas : list data) : Prop := Forall (fun d => Forall (fun x => length x = len) (pos d)) datas.

  Lemma proposal_map xs s k : gaussian_proposal g (map h xs) s k = (map h (fst (gaussian_proposal g xs s k)), snd (gaussian_proposal g xs s k)).
  Proof.
    unfold gaussian_proposal. destruct (split2 g k) as [k1 k2]. cbn [fst snd]. f_equal. rewrite zw_map_l, map_zw.
    rewrite map_map. rewrite (map_ext _ (@length R)) by (intros x; apply Hlen). apply zw_ext. intros a b. apply Hh.
  Qed.
  Lemma proposal_shaped xs s k : Forall (fun x => length x = len) xs -> Forall (fun x => length x = len) (fst (gaussian_proposal g xs s k)).
  Proof.
    intros H. unfold gaussian_proposal. destruct (split2 g k) as [k1 k2]. cbn [fst].
    pose proof (normal_shape _ Hg k2 (map (@length R) xs)) as HS. revert HS. generalize (normal g k2 (map (@length R) xs)). clear Hh Hma.
    induction xs as [|x xs IH]; intros [|z zs] HS; try (constructor; fail). cbn in HS. injection HS as E1 E2. inversion H; subst. cbn. constructor; [|apply IH; assumption].
    rewrite zipw_length. lia.
  Qed.
  Lemma mask_map {A B} (f : A -> B) m (old new : list A) : mask_on_first m (map f old) (map f new) = map f (mask_on_first m old new).
  Proof. unfold mask_on_first. rewrite combine_map_both, zw_map_r, map_zw. apply zw_ext. intros [] [a b]; reflexivity. Qed.
  Lemma mask_shaped {A} (Q : A -> Prop) m : forall old new, Forall Q old -> Forall Q new -> Forall Q (mask_on_first m old new).
  Proof.
    induction m as [|b m IH]; intros [|a old] [|a' new] H H'; try constructor; inversion H; inversion H'; subst.
    - cbn. destruct b; assumption.
    - apply IH; assumption.
  Qed.

  Definition one_proposal (p : P) (mm : P -> list (list R) -> list xr) (d : data) (ks : K * K) : data * K := pa_proposal g mm (fun d => std_move (meta d)) p d (fst ks).
  Lemma one_proposal_map p d ks : Forall (fun x => length x = len) (pos d) ->
    one_proposal p ma' (on_pa d) ks = (on_pa (fst (one_proposal p ma d ks)), snd (one_proposal p ma d ks)).
  Proof.
    intros H. unfold one_proposal, pa_proposal. cbn [pos meta on_pa]. rewrite proposal_map. pose proof (proposal_shaped (pos d) (std_move (meta d)) (fst ks) H) as HS.
    destruct (gaussian_proposal g (pos d) (std_move (meta d)) (fst ks)) as [xs k]. cbn [fst snd] in *. unfold on_pa. cbn [pos amp meta fst snd]. rewrite Hma by exact HS. reflexivity.
  Qed.
  Lemma one_proposal_shaped p d ks : Forall (fun x => length x = len) (pos d) -> Forall (fun x => length x = len) (pos (fst (one_proposal p ma d ks))).
  Proof.
    intros H. unfold one_proposal, pa_proposal. pose proof (proposal_shaped (pos d) (std_move (meta d)) (fst ks) H) as HS.
    destruct (gaussian_proposal g (pos d) (std_move (meta d)) (fst ks)) as [xs k]. exact HS.
  Qed.
  Lemma step_map nm p datas keys : shaped datas ->
    let '(a, d1, k1) := run_step g ma nm p datas keys in run_step g ma' nm p (map on_pa datas) keys = (a, map on_pa d1, k1) /\ shaped d1.
  Proof.
    intros HS. unfold run_step, dynamic_step, pa_step.
    change (fun (d : padata move_metadata) (ks : K * K) => pa_proposal g ma (fun d0 => std_move (meta d0)) p d (fst ks)) with (one_proposal p ma).
    change (fun (d : padata move_metadata) (ks : K * K) => pa_proposal g ma' (fun d0 => std_move (meta d0)) p d (fst ks)) with (one_proposal p ma').
    set (splits := map (split2 g) keys).
    assert (E : zipw (one_proposal p ma') (map on_pa datas) splits = map (fun pr => (on_pa (fst pr), snd pr)) (zipw (one_proposal p ma) datas splits)).
    { rewrite zw_map_l, map_zw. eapply zw_ext_in; [exact HS|]. intros d ks H. apply one_proposal_map. exact H. }
    rewrite E. set (props := zipw (one_proposal p ma) datas splits).
    assert (PS : Forall (fun pr : data * K => Forall (fun x => length x = len) (pos (fst pr))) props).
    { unfold props. eapply zw_Forall; [exact HS|]. intros d ks H _. apply one_proposal_shaped. exact H. }
    assert (EA : zipw (fun d pr => pa_acceptance true d (fst pr)) (map on_pa datas) (map (fun pr : data * K => (on_pa (fst pr), snd pr)) props)
                 = zipw (fun d pr => pa_acceptance true d (fst pr)) datas props).
    { rewrite zw_map_l, zw_map_r. apply zw_ext. reflexivity. }
    rewrite EA. set (accs := zipw (fun d pr => pa_acceptance true d (fst pr)) datas props).
    set (masks := zipw _ splits accs).
    replace (map fst (map (fun pr : data * K => (on_pa (fst pr), snd pr)) props)) with (map on_pa (map fst props)) by (rewrite !map_map; reflexivity).
    replace (map snd (map (fun pr : data * K => (on_pa (fst pr), snd pr)) props)) with (map snd props) by (rewrite !map_map; reflexivity).
    split.
    - f_equal. f_equal. unfold pa_update. replace (map meta (map on_pa datas)) with (map meta datas) by (rewrite map_map; reflexivity).
      rewrite combine_map_both, zw_map_r, map_zw. cbn [fst snd pos amp on_pa].
      set (metas := update_move_metadata _ _ _ _). clearbody metas. clear. revert metas. generalize (combine datas (map fst props)). induction masks as [|m ms IH]; intros [|dp l] [|mt metas]; try reflexivity.
      cbn [zipw fst snd]. f_equal; [|apply IH]. unfold on_pa. cbn [pos amp meta]. rewrite mask_map. reflexivity.
    - unfold pa_update.
      assert (CF : Forall (fun dp : data * data => Forall (fun x => length x = len) (pos (fst dp)) /\ Forall (fun x => length x = len) (pos (snd dp))) (combine datas (map fst props))).
      { apply Forall_forall. intros [a b] Hin. cbn [fst snd]. pose proof (in_combine_l _ _ _ _ Hin) as H1. pose proof (in_combine_r _ _ _ _ Hin) as H2.
        unfold shaped in HS. rewrite Forall_forall in HS, PS. split; [apply HS; exact H1|]. apply in_map_iff in H2. destruct H2 as (pr & <- & H2). apply (PS pr H2). }
      set (metas := update_move_metadata _ _ _ _). clearbody metas. revert metas CF. generalize (combine datas (map fst props)). clear. induction masks as [|m ms IH]; intros [|dp l] [|mt metas] CF; try constructor.
      + cbn [pos fst]. inversion CF; subst. apply mask_shaped; tauto.
      + inversion CF; subst. apply IH. assumption.
  Qed.

  Lemma scan_map nm p n : forall a datas keys, shaped datas ->
    let '(a1, d1, k1) := walk_scan (zipw xadd) (run_step g ma nm) p n (a, datas, keys) in
    walk_scan (zipw xadd) (run_step g ma' nm) p n (a, map on_pa datas, keys) = (a1, map on_pa d1, k1) /\ shaped d1.
  Proof.
    induction n as [|n IH]; intros a datas keys HS; [split; [reflexivity|exact HS]|]. cbn [walk_scan].
    pose proof (step_map nm p datas keys HS) as H. destruct (run_step g ma nm p datas keys) as [[acc d1] k1]. destruct H as [-> H1]. apply IH. exact H1.
  Qed.
  Lemma walker_map ndev c p datas keys : shaped datas ->
    let '(a, d1, k1) := run_walker g ma ndev c p datas keys in run_walker g ma' ndev c p (map on_pa datas) keys = (a, map on_pa d1, k1) /\ shaped d1.
  Proof.
    intros HS. unfold run_walker, walker_fn_pmapped, walk_data_gen. pose proof (scan_map (wc_nmoves c) p (wc_nsteps c) (repeat (Fin 0) ndev) datas keys HS) as H.
    destruct (walk_scan (zipw xadd) (run_step g ma (wc_nmoves c)) p (wc_nsteps c) _) as [[a d1] k1]. destruct H as [-> H1]. split; [reflexivity|exact H1].
  Qed.
  Lemma burn_map c p datas keys : shaped datas ->
    let '(d1, k1) := burn_in g ma c p datas keys in burn_in g ma' c p (map on_pa datas) keys = (map on_pa d1, k1) /\ shaped d1.
  Proof.
    unfold burn_in. revert datas keys. induction (wc_nburn c) as [|n IH]; intros datas keys HS; [split; [reflexivity|exact HS]|]. cbn [burn_data]. unfold burning_step at 1 3.
    pose proof (step_map (wc_nmoves c) p datas keys HS) as H. destruct (run_step g ma (wc_nmoves c) p datas keys) as [[acc d1] k1]. destruct H as [-> H1]. apply IH. exact H1.
  Qed.
  Lemma update_data_map p datas : shaped datas -> map (fun d => update_data_fn ma' d p) (map on_pa datas) = map on_pa (map (fun d => update_data_fn ma d p) datas).
  Proof.
    intros HS. rewrite !map_map. apply map_ext_in. intros d Hd. unfold shaped in HS. rewrite Forall_forall in HS. unfold update_data_fn, on_pa. cbn [pos amp meta]. rewrite Hma by (apply HS; exact Hd). reflexivity.
  Qed.
  Lemma update_data_shaped p datas : shaped datas -> shaped (map (fun d => update_data_fn ma d p) datas).
  Proof. unfold shaped. intros HS. apply Forall_map. cbn [pos update_data_fn]. exact HS. Qed.

  (** Initial data. *)
  Lemma chunks_map {A B} (f : A -> B) size n : forall l, chunks size n (map f l) = map (map f) (chunks size n l).
  Proof. induction n as [|n IH]; intros l; [reflexivity|]. cbn [chunks map]. rewrite firstn_map, skipn_map, IH. reflexivity. Qed.
  Lemma chunks_Forall {A} (Q : A -> Prop) size n : forall l, Forall Q l -> Forall (Forall Q) (chunks size n l).
  Proof.
    induction n as [|n IH]; intros l H; [constructor|]. rewrite <- (firstn_skipn size l) in H. apply Forall_app in H. destruct H as [H1 H2]. cbn [chunks]. constructor; [exact H1|apply IH; exact H2].
  Qed.
  Lemma initial_map ndev std xs p : Forall (fun x => length x = len) xs ->
    make_initial_data ma' ndev std (map h xs) p = option_map (map on_pa) (make_initial_data ma ndev std xs p) /\
    match make_initial_data ma ndev std xs p with Some datas => shaped datas | None => True end.
  Proof.
    intros HF. unfold make_initial_data, reshape_data_leaves_for_distribution. rewrite map_length. destruct (Nat.eqb _ 0); [|split; [reflexivity|exact Logic.I]].
    cbn [option_map]. rewrite chunks_map. pose proof (chunks_Forall (fun x => length x = len) (length xs / ndev) ndev xs HF) as CF.
    generalize (replicate_all_local_devices ndev {| std_move := std; acc_sum := 0; moves := 0 |}). revert CF. generalize (chunks (length xs / ndev) ndev xs).
    intros sh CF. split.
    - f_equal. revert l. induction sh as [|s sh IH]; intros [|m ms]; try reflexivity. inversion CF; subst. cbn [map combine zipw fst snd]. f_equal; [|apply IH; assumption].
      unfold on_pa. cbn [pos amp meta]. rewrite Hma by assumption. reflexivity.
    - revert l. induction sh as [|s sh IH]; intros [|m ms]; try (constructor; fail). inversion CF; subst. cbn [map combine zipw fst snd]. constructor; [assumption|apply IH; assumption].
  Qed.
End Walk.

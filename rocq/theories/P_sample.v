(** * Metropolis steps of a job's walkers *)
From Coq Require Import String Reals List Arith Lia Lra.
From Verif Require Import XReal Rsum M_io M_vmc M_mcmc M_distribute M_start M_job S_mcmc S_start S_energy S_job P_mcmc P_walkers P_balance P_distribute P_start.
Import ListNotations.
Local Open Scope R_scope.

Lemma chance_log a b : pr (accept_log a b) = metropolis_chance a b.
Proof.
  assert (T : forall x, xmul (Fin 2) (Fin x) = Fin (2 * x)) by reflexivity.
  assert (T2 : xmul (Fin 2) MInf = MInf) by apply two_minf.
  assert (T3 : xmul (Fin 2) PInf = PInf). { cbn. unfold inf_of_sign, Rltb. repeat match goal with |- context [if ?b then _ else _] => destruct b; try lra end; reflexivity. }
  assert (M : Rmax 0 (Rmin 1 1) = 1) by (unfold Rmax, Rmin; destruct (Rle_dec 1 1), (Rle_dec 0 _); lra).
  assert (Z : Rmax 0 (Rmin 1 0) = 0) by (unfold Rmax, Rmin; destruct (Rle_dec 1 0), (Rle_dec 0 _); lra).
  destruct a as [a| | |], b as [b| | |]; unfold accept_log; rewrite ?T, ?T2, ?T3; cbn; rewrite ?M, ?Z; try reflexivity.
  unfold Rltb. destruct (Rlt_dec (2 * a) (2 * b)) as [H|H]; cbn.
  - rewrite M. unfold Rmin. destruct (Rle_dec 1 (exp (2 * (b - a)))) as [|E]; [reflexivity|]. pose proof (exp_ineq1_le (2 * (b - a))). lra.
  - replace (2 * (b - a)) with (2 * b - 2 * a) by ring. unfold Rmax. destruct (Rle_dec _ _) as [|E]; [reflexivity|]. exfalso. apply E. unfold Rmin. destruct (Rle_dec _ _); [lra|]. left. apply exp_pos.
Qed.
Lemma moved_nth s x z : length z = length x -> moved s x z = map (fun i => nth i x 0 + s * nth i z 0) (seq 0 (length x)).
Proof.
  unfold moved. revert z. induction x as [|a x IH]; intros [|b z] L; try discriminate; [reflexivity|]. cbn [zipw length seq map nth]. f_equal. rewrite IH by (cbn in L; lia).
  rewrite <- seq_shift, map_map. reflexivity.
Qed.
Lemma decides {P} (psi : P -> list R -> xr) p s x z u x' : length z = length x -> 0 <= u < 1 ->
  x' = (if accepts u (accept_log (psi p x) (psi p (moved s x z))) then moved s x z else x) -> walker_moves psi p s x (metropolis_chance (psi p x) (psi p (moved s x z))) x'.
Proof.
  intros L U H. exists z, u. split; [exact L|]. split; [exact U|]. cbv zeta. rewrite <- moved_nth by exact L. split; [reflexivity|]. rewrite <- chance_log.
  destruct (accepts_probability (accept_log (psi p x) (psi p (moved s x z)))) as (_ & HP). specialize (HP u U). destruct (accepts u _); rewrite H; split; intros H'; try reflexivity.
  - exfalso. apply (Rlt_irrefl u). eapply Rlt_le_trans; [apply HP; reflexivity|exact H'].
  - exfalso. apply HP in H'. discriminate.
Qed.
Lemma chance_fin a b : accept_log (Fin a) (Fin b) = Fin (metropolis_chance (Fin a) (Fin b)).
Proof.
  rewrite <- chance_log. unfold accept_log. cbn. unfold Rltb. destruct (Rlt_dec (2 * a) (2 * b)) as [H|H]; cbn; f_equal.
  - unfold Rmax, Rmin. destruct (Rle_dec 1 1), (Rle_dec 0 _); lra.
  - match goal with |- exp ?t = _ => set (e := t); assert (He : e <= 0) by (unfold e; lra) end. clearbody e.
    assert (E : exp e <= 1) by (rewrite <- exp_0; destruct (Req_dec e 0) as [-> |N]; [lra|left; apply exp_increasing; lra]).
    pose proof (exp_pos e). rewrite Rmin_right, Rmax_right by lra. reflexivity.
Qed.
Lemma choose_list {A} (Q : nat -> A -> Prop) n : (forall i, (i < n)%nat -> exists a, Q i a) -> exists l, length l = n /\ forall i a, nth_error l i = Some a -> Q i a.
Proof.
  revert Q. induction n as [|n IH]; intros Q H; [exists []; split; [reflexivity|]; intros [|i] a Z; discriminate|].
  destruct (H O ltac:(lia)) as (a & Ha). destruct (IH (fun i => Q (S i))) as (l & L & HL); [intros i Hi; apply H; lia|].
  exists (a :: l). split; [cbn; lia|]. intros [|i] b E; [cbn in E; injection E as <-; exact Ha|]. apply HL. exact E.
Qed.
Lemma Forall2_nth_error {A B} (Q : A -> B -> Prop) l l' : length l = length l' -> (forall i a b, nth_error l i = Some a -> nth_error l' i = Some b -> Q a b) -> Forall2 Q l l'.
Proof.
  revert l'. induction l as [|a l IH]; intros [|b l'] L H; try discriminate; constructor; [apply (H O); reflexivity|]. apply IH; [cbn in L; lia|]. intros i. apply (H (S i)).
Qed.

Lemma F2_length {A B} (Q : A -> B -> Prop) l l' : Forall2 Q l l' -> length l = length l'.
Proof. induction 1; cbn; congruence. Qed.

Section Walk.
  Context {P K : Type} (g : prng K) (psi : P -> list R -> xr) (model_apply : P -> list (list R) -> list xr).
  Hypothesis Hg : good_prng g.
  Hypothesis Hm : forall p xs, model_apply p xs = map (psi p) xs.
  Variables (nmoves ndev w n : nat).
  Notation inv := (inv psi ndev w n).

  Notation gs := (fun d : padata move_metadata => std_move (meta d)).
  Notation up := (Some (update_move_metadata nmoves (adjust_std_move (1 / 2) (5 / 100) (1 / 10)))).
  (** One device, one step. *)
  Lemma device_moves p datas keys j d k : length datas = length keys -> nth_error datas j = Some d -> nth_error keys j = Some k -> consistent psi p d ->
    exists d' moves, nth_error (snd (fst (pa_step g model_apply gs up true p datas keys))) j = Some d' /\ pos d' = map snd moves /\
      Forall2 (fun x m => walker_moves psi p (gs d) x (fst m) (snd m)) (pos d) moves /\ (no_nodes psi p -> dev_acc g model_apply gs true p d k = map (fun m => Fin (fst m)) moves).
  Proof.
    intros L Hd Hk Hcons. rewrite pa_step_unfold by assumption. cbn [fst snd].
    set (props := zipw (fun d k => fst (dev_prop g model_apply gs p d k)) datas keys). set (masks := zipw (dev_mask g model_apply gs true p) datas keys).
    assert (L1 : length datas = length props) by (unfold props; rewrite zipw_length; lia).
    assert (L2 : length datas = length masks) by (unfold masks; rewrite zipw_length; lia).
    assert (Hp : nth_error props j = Some (fst (dev_prop g model_apply gs p d k))) by (unfold props; rewrite zipw_nth_error, Hd, Hk; reflexivity).
    assert (Hmk : nth_error masks j = Some (dev_mask g model_apply gs true p d k)) by (unfold masks; rewrite zipw_nth_error, Hd, Hk; reflexivity).
    destruct (pa_update_nth up (Hupd_len nmoves) datas props masks j d _ _ L1 L2 Hd Hp Hmk) as [mt E].
    destruct (dev_prop_pos g psi model_apply Hg Hm gs p d k) as (zs & Hz & Hpos & Hamp & Hlen).
    assert (Lam : length (amp d) = length (pos d)) by (unfold consistent in Hcons; rewrite Hcons, map_length; reflexivity).
    assert (Lacc : length (dev_acc g model_apply gs true p d k) = length (pos d)).
    { unfold dev_acc, pa_acceptance, metropolis_symmetric_acceptance. rewrite zipw_length, Hamp, map_length. lia. }
    assert (Lmask : length (dev_mask g model_apply gs true p d k) = length (pos d)) by (unfold dev_mask; rewrite zipw_length, (uniform_length _ Hg); lia).
    assert (Lzs : length zs = length (pos d)) by (apply (f_equal (@length nat)) in Hz; rewrite !map_length in Hz; assumption).
    destruct (choose_list (fun i (m : R * list R) => exists x, nth_error (pos d) i = Some x /\ walker_moves psi p (gs d) x (fst m) (snd m) /\
      nth_error (mask_on_first (dev_mask g model_apply gs true p d k) (pos d) (pos (fst (dev_prop g model_apply gs p d k)))) i = Some (snd m) /\
      (no_nodes psi p -> nth_error (dev_acc g model_apply gs true p d k) i = Some (Fin (fst m)))) (length (pos d))) as (moves & LM & HM).
    { intros i Hi. destruct (nth_error (pos d) i) as [x|] eqn:Hx; [|apply nth_error_None in Hx; lia].
      destruct (nth_error_same_length _ (dev_mask g model_apply gs true p d k) i _ (eq_sym Lmask) Hx) as [b Hb].
      destruct (nth_error_same_length _ zs i _ (eq_sym Lzs) Hx) as [z Hzi].
      assert (Hy : nth_error (pos (fst (dev_prop g model_apply gs p d k))) i = Some (moved (gs d) x z)) by (rewrite Hpos, zipw_nth_error, Hx, Hzi; reflexivity).
      assert (Hya : nth_error (amp (fst (dev_prop g model_apply gs p d k))) i = Some (psi p (moved (gs d) x z))) by (rewrite Hamp, nth_error_map', Hy; reflexivity).
      assert (Ha : nth_error (amp d) i = Some (psi p x)) by (unfold consistent in Hcons; rewrite Hcons, nth_error_map', Hx; reflexivity).
      assert (Lz : length z = length x). { pose proof (f_equal (fun l => nth_error l i) Hz) as E2. cbv beta in E2. rewrite !nth_error_map', Hx, Hzi in E2. cbn in E2. congruence. }
      rewrite mask_on_first_nth, Hx, Hy, Hb. unfold dev_mask in Hb. rewrite zipw_nth_error in Hb.
      destruct (nth_error (uniform g (snd (split2 g k)) (length (dev_acc g model_apply gs true p d k))) i) as [u|] eqn:Hu; [|discriminate].
      destruct (nth_error (dev_acc g model_apply gs true p d k) i) as [ac|] eqn:Hac; [|discriminate]. injection Hb as <-.
      pose proof Hac as Hac'. unfold dev_acc, pa_acceptance, metropolis_symmetric_acceptance in Hac. rewrite zipw_nth_error, Ha, Hya in Hac. injection Hac as <-.
      exists (metropolis_chance (psi p x) (psi p (moved (gs d) x z)), if accepts u (accept_log (psi p x) (psi p (moved (gs d) x z))) then moved (gs d) x z else x). exists x. cbn [fst snd].
      split; [reflexivity|]. split; [apply (decides psi p (gs d) x z u); [exact Lz|eapply (uniform_range _ Hg), nth_error_In, Hu|reflexivity]|]. split; [reflexivity|].
      intros HF. f_equal. destruct (HF x) as (a1 & ->), (HF (moved (gs d) x z)) as (a2 & ->). apply chance_fin. }
    eexists _, moves. split; [exact E|]. cbn [pos]. split; [|split].
    - apply list_ext. intros i. rewrite nth_error_map'. destruct (nth_error moves i) as [m|] eqn:Em.
      + destruct (HM i m Em) as (x & _ & _ & -> & _). reflexivity.
      + apply nth_error_None in Em. apply nth_error_None. unfold mask_on_first. rewrite zipw_length, combine_length. lia.
    - apply Forall2_nth_error; [lia|]. intros i x m Hx Em. destruct (HM i m Em) as (x1 & Hx1 & W & _). rewrite Hx in Hx1. injection Hx1 as <-. exact W.
    - intros HF. apply list_ext. intros i. rewrite nth_error_map'. destruct (nth_error moves i) as [m|] eqn:Em.
      + destruct (HM i m Em) as (x & _ & _ & _ & EA). rewrite (EA HF). reflexivity.
      + apply nth_error_None in Em. apply nth_error_None. lia.
  Qed.

  Hypothesis Hnd : (0 < ndev)%nat.
  Hypothesis Hw0 : (0 < w)%nat.
  Lemma step_moves p datas keys : inv p datas keys -> exists a per_device,
    metropolis_step psi p a (map pos datas) (map pos (snd (fst (run_step g model_apply nmoves p datas keys)))) /\ length per_device = ndev /\ a = lmean per_device /\
    (no_nodes psi p -> fst (fst (run_step g model_apply nmoves p datas keys)) = map Fin per_device).
  Proof.
    intros (L1 & L2 & H & m & Hm1 & Hm2). unfold run_step, dynamic_step. cbv zeta.
    assert (L : length datas = length keys) by lia.
    pose proof (step_lengths g model_apply gs up true (Hupd_len nmoves) p datas keys L) as [S1 S2].
    destruct (choose_list (fun j (mv : list (R * list R)) => exists d k d', nth_error datas j = Some d /\ nth_error keys j = Some k /\
      nth_error (snd (fst (pa_step g model_apply gs up true p datas keys))) j = Some d' /\ pos d' = map snd mv /\
      Forall2 (fun x q => walker_moves psi p (std_move m) x (fst q) (snd q)) (pos d) mv /\ (no_nodes psi p -> dev_acc g model_apply gs true p d k = map (fun m => Fin (fst m)) mv)) ndev) as (mvs & LM & HM).
    { intros j Hj. destruct (nth_error datas j) as [d|] eqn:Hd; [|apply nth_error_None in Hd; lia]. destruct (nth_error_same_length _ keys j _ L Hd) as [k Hk].
      destruct (nth_error_Forall _ _ _ _ H Hd) as (_ & _ & Hcons). destruct (device_moves p datas keys j d k L Hd Hk Hcons) as (d' & mv & E1 & E2 & E3 & E4).
      assert (Es : gs d = std_move m). { cbv beta. f_equal. apply nth_error_In in Hd. apply (in_map meta) in Hd. rewrite Hm2 in Hd. apply repeat_spec in Hd. exact Hd. }
      exists mv, d, k, d'. rewrite Es in E3. auto 10. }
    assert (LMV : Forall (fun mv => length mv = w) mvs).
    { apply Forall_nth_error. intros j mv Ej. destruct (HM j mv Ej) as (d & k & d' & Hd & _ & _ & _ & F & _). apply F2_length in F. destruct (nth_error_Forall _ _ _ _ H Hd) as (Q & _). lia. }
    exists (lmean (concat (map (map fst) mvs))), (map (fun mv => lmean (map fst mv)) mvs). split; [|split; [rewrite map_length; exact LM|split]].
    - exists (std_move m), mvs. split; [exact Hm1|]. split; [|split; [|reflexivity]].
      + apply Forall2_nth_error; [rewrite map_length; lia|]. intros j xs mv Hj Ej. destruct (HM j mv Ej) as (d & k & d' & Hd & _ & _ & _ & F & _). rewrite nth_error_map', Hd in Hj. injection Hj as <-. exact F.
      + apply list_ext. intros j. rewrite !nth_error_map'. destruct (nth_error mvs j) as [mv|] eqn:Ej.
        * destruct (HM j mv Ej) as (d & k & d' & _ & _ & -> & E & _). cbn. rewrite E. reflexivity.
        * apply nth_error_None in Ej. rewrite (proj2 (nth_error_None _ j)); [reflexivity|]. rewrite S1. lia.
    - symmetry. rewrite <- (map_map (map fst) lmean). apply (lmean_lmeans w); [exact Hw0|destruct mvs; [cbn in LM; lia|discriminate]|].
      intros q Hq. apply in_map_iff in Hq. destruct Hq as (mv & <- & Hin). rewrite map_length. rewrite Forall_forall in LMV. apply LMV. exact Hin.
    - intros HF. rewrite pa_step_unfold by exact L. cbn [fst]. apply list_ext. intros j. rewrite !nth_error_map'. rewrite zipw_nth_error. destruct (nth_error mvs j) as [mv|] eqn:Ej.
      + destruct (HM j mv Ej) as (d & k & d' & -> & -> & _ & _ & _ & EA). cbn. rewrite (EA HF). rewrite <- (map_map fst Fin), xmean_fin; [reflexivity|].
        pose proof (nth_error_Forall _ _ _ _ LMV Ej) as Lmv. cbv beta in Lmv. destruct mv; [cbn in Lmv; lia|discriminate].
      + apply nth_error_None in Ej. rewrite (proj2 (nth_error_None datas j)) by lia. reflexivity.
  Qed.

  Lemma burn_moves t : forall p datas keys, inv p datas keys -> exists accs, length accs = t /\
    metropolis psi p accs (map pos datas) (map pos (fst (burn_data (burning_step (run_step g model_apply nmoves)) t p datas keys))).
  Proof.
    induction t as [|t IH]; intros p datas keys H; [exists []; split; [reflexivity|apply metropolis_0]|].
    pose proof (step_inv g psi model_apply Hg Hm nmoves ndev w n p datas keys H) as S. destruct (step_moves p datas keys H) as (a & pd & MV & _).
    change (burn_data (burning_step (run_step g model_apply nmoves)) (Datatypes.S t) p datas keys) with
      (let (data, key) := burning_step (run_step g model_apply nmoves) p datas keys in burn_data (burning_step (run_step g model_apply nmoves)) t p data key).
    assert (E : burning_step (run_step g model_apply nmoves) p datas keys = (snd (fst (run_step g model_apply nmoves p datas keys)), snd (run_step g model_apply nmoves p datas keys))).
    { unfold burning_step. destruct (run_step g model_apply nmoves p datas keys) as [[a' ds] ks]. reflexivity. }
    rewrite E. destruct (IH p _ _ S) as (accs & La & MA). exists (a :: accs). split; [cbn; lia|]. eapply metropolis_S; [exact MV|exact MA].
  Qed.

  Lemma zipw_fin (l l' : list R) : zipw xadd (map Fin l) (map Fin l') = map Fin (zipw Rplus l l').
  Proof. revert l'. induction l as [|a l IH]; intros [|b l']; try reflexivity. cbn [map zipw]. rewrite IH. reflexivity. Qed.
  Lemma scan_moves t : forall (acc : list R) p datas keys, inv p datas keys -> exists lls, length lls = t /\ Forall (fun l => length l = ndev) lls /\
    metropolis psi p (map lmean lls) (map pos datas) (map pos (snd (fst (walk_scan (zipw xadd) (run_step g model_apply nmoves) p t (map Fin acc, datas, keys))))) /\
    (no_nodes psi p -> fst (fst (walk_scan (zipw xadd) (run_step g model_apply nmoves) p t (map Fin acc, datas, keys))) = map Fin (fold_left (zipw Rplus) lls acc)).
  Proof.
    assert (Same : forall t p acc acc' datas keys, snd (fst (walk_scan (zipw xadd) (run_step g model_apply nmoves) p t (acc, datas, keys))) = snd (fst (walk_scan (zipw xadd) (run_step g model_apply nmoves) p t (acc', datas, keys)))).
    { induction t0 as [|t0 IH]; intros; cbn [walk_scan]; [reflexivity|]. destruct (run_step g model_apply nmoves p datas keys) as [[a ds] ks]. apply IH. }
    induction t as [|t IH]; intros acc p datas keys H; cbn [walk_scan]; [exists []; split; [reflexivity|]; split; [constructor|]; split; [apply metropolis_0|reflexivity]|].
    pose proof (step_inv g psi model_apply Hg Hm nmoves ndev w n p datas keys H) as S. destruct (step_moves p datas keys H) as (a & pd & MV & Lpd & Ea & EF).
    destruct (run_step g model_apply nmoves p datas keys) as [[a' ds] ks]. cbn [fst snd] in S, MV, EF.
    destruct (IH (zipw Rplus acc pd) p ds ks S) as (lls & L1 & L2 & L3 & L4). exists (pd :: lls). split; [cbn; lia|]. split; [constructor; assumption|]. split.
    - cbn [map]. rewrite <- Ea. eapply metropolis_S; [exact MV|]. rewrite (Same t p _ (map Fin (zipw Rplus acc pd))). exact L3.
    - intros HF. rewrite (EF HF), zipw_fin. cbn [fold_left]. apply L4. exact HF.
  Qed.
  Lemma lsum_zipw (l l' : list R) : length l = length l' -> lsum (zipw Rplus l l') = lsum l + lsum l'.
  Proof. unfold lsum. revert l'. induction l as [|a l IH]; intros [|b l'] L; try discriminate; cbn; [ring|]. rewrite IH by (cbn in L; lia). ring. Qed.
  Lemma lsum_fold lls : forall acc, length acc = ndev -> Forall (fun l => length l = ndev) lls ->
    length (fold_left (zipw Rplus) lls acc) = ndev /\ lsum (fold_left (zipw Rplus) lls acc) = lsum acc + lsum (map lsum lls).
  Proof.
    induction lls as [|l lls IH]; intros acc La HF; [split; [exact La|unfold lsum; cbn; ring]|]. pose proof (Forall_inv HF) as Hl. pose proof (Forall_inv_tail HF) as HF'. cbv beta in Hl. cbn [fold_left].
    destruct (IH (zipw Rplus acc l)) as (I1 & I2); [rewrite zipw_length; lia|exact HF'|]. split; [exact I1|]. rewrite I2, lsum_zipw by lia. unfold lsum. cbn. ring.
  Qed.
  Lemma walker_moves_n nsteps p datas keys : inv p datas keys -> exists accs, length accs = nsteps /\
    metropolis psi p accs (map pos datas) (map pos (snd (fst (walker_fn_pmapped nsteps (run_step g model_apply nmoves) ndev p datas keys)))) /\
    (nsteps <> O -> no_nodes psi p -> fst (fst (walker_fn_pmapped nsteps (run_step g model_apply nmoves) ndev p datas keys)) = Fin (lmean accs)).
  Proof.
    intros H. unfold walker_fn_pmapped, walk_data_gen. destruct (scan_moves nsteps (repeat 0 ndev) p datas keys H) as (lls & L1 & L2 & L3 & L4).
    assert (ER : map Fin (repeat 0 ndev) = repeat (Fin 0) ndev) by (generalize ndev as k; induction k as [|k IH]; [reflexivity|]; cbn; rewrite IH; reflexivity). rewrite ER in L3, L4.
    destruct (walk_scan _ _ _ _ _) as [[a ds] ks]. cbn [fst snd] in L3, L4 |- *. exists (map lmean lls). split; [rewrite map_length; exact L1|]. split; [exact L3|].
    intros Hn HF. rewrite (L4 HF). destruct (lsum_fold lls (repeat 0 ndev) (repeat_length _ _) L2) as (F1 & F2).
    assert (Hn0 : INR nsteps <> 0) by (apply not_0_INR; exact Hn). assert (Hd0 : INR ndev <> 0) by (apply not_0_INR; lia).
    set (tot := fold_left (zipw Rplus) lls (repeat 0 ndev)) in *. assert (ED : map (fun x => xdiv x (Fin (INR nsteps))) (map Fin tot) = map Fin (map (fun x => x / INR nsteps) tot)).
    { rewrite !map_map. apply map_ext. intros x. apply xdiv_fin. exact Hn0. }
    rewrite ED, xmean_fin by (destruct tot; [cbn in F1; lia|discriminate]). f_equal. unfold lmean. rewrite !map_length, F1, L1.
    assert (E1 : lsum (map (fun x => x / INR nsteps) tot) = lsum tot / INR nsteps) by (unfold lsum; clear; induction tot as [|x l IH]; cbn; [unfold Rdiv; ring|]; rewrite IH; unfold Rdiv; ring).
    assert (E2 : lsum (map (fun l => lsum l / INR (length l)) lls) = lsum (map lsum lls) / INR ndev).
    { unfold lsum at 1 3. clear -L2. induction L2 as [|l lls Hl _ IH]; cbn [map fold_right]; [unfold Rdiv; ring|]. rewrite IH, Hl. unfold Rdiv. ring. }
    assert (E3 : lsum (repeat 0 ndev) = 0) by (unfold lsum; clear; induction ndev as [|k IH]; cbn; [reflexivity|rewrite IH; ring]).
    rewrite E1, E2, F2, E3. field. split; assumption.
  Qed.
End Walk.
Lemma metropolis_app {P} (psi : P -> list R -> xr) p n m xs ys zs : metropolis psi p n xs ys -> metropolis psi p m ys zs -> metropolis psi p (n ++ m) xs zs.
Proof. induction 1 as [xs|a n xs x1 x2 H1 _ IH]; intros H; [exact H|]. cbn [app]. eapply metropolis_S; [exact H1|apply IH; exact H]. Qed.

(** * Proofs about the energy gradient estimator *)
From Coq Require Import Reals String List Arith Bool Lra Lia Permutation.
From Coquelicot Require Import Coquelicot.
From Verif Require Import XReal Rsum M_mcmc M_distribute M_energy S_energy P_distribute P_stats P_energy.
Import ListNotations.
Local Open Scope R_scope.

(** ** One device *)
Lemma zipw_map_fin (f : R -> R -> R) g (Hg : forall a b, g (Fin a) (Fin b) = Fin (f a b)) (l l' : list R) :
  zipw g (map Fin l) (map Fin l') = map Fin (zipw f l l').
Proof. revert l'. induction l as [|a l IH]; intros [|b l']; simpl; try reflexivity. rewrite Hg, IH. reflexivity. Qed.

Lemma zipw_length {A B C} (f : A -> B -> C) l l' : length l = length l' -> length (zipw f l l') = length l.
Proof. revert l'. induction l as [|a l IH]; intros [|b l'] H; simpl in *; try lia. f_equal. apply IH. lia. Qed.

Lemma counted_fin b l : filter (counted b) (map Fin l) = map Fin l.
Proof. induction l as [|a l IH]; [reflexivity|]. cbn [map filter]. unfold counted at 1. simpl. rewrite orb_true_r, IH. reflexivity. Qed.

Lemma grad_device_fin n b (cs ls ds : list R) : cs <> [] -> length ls = length cs -> length ds = length cs ->
  standard_grad_device n b (map Fin cs) (map Fin ls) (map Fin ds) =
  Fin (2 * INR n / (INR n - 1) * lmean (zipw Rmult cs ds)).
Proof.
  intros Hc Hl Hd. unfold standard_grad_device.
  rewrite (zipw_map_fin Rmult xmul) by reflexivity. rewrite counted_fin, map_length, zipw_length by lia.
  assert (HP : 0 < INR (length cs)) by (apply lt_0_INR; destruct cs; [congruence|simpl; lia]).
  set (sc := 2 * INR n / (INR n - 1)).
  assert (E : map (fun v => if counted b v then xdiv (Fin sc) (Fin (INR (length cs))) else Fin 0) (map Fin (zipw Rmult cs ls))
              = map Fin (map (fun _ => sc / INR (length cs)) cs)).
  { rewrite !map_map. transitivity (map (fun _ => Fin (sc / INR (length cs))) (zipw Rmult cs ls)).
    - apply map_ext. intros a. unfold counted. simpl. rewrite orb_true_r. apply xdiv_fin. lra.
    - clear - Hl. revert Hl. generalize (Fin (sc / INR (length cs))) as k. intros k. revert ls.
      induction cs as [|c cs IH]; intros [|l ls] H; simpl in *; try lia; try reflexivity. f_equal. apply IH. lia. }
  rewrite E. rewrite !(zipw_map_fin Rmult xmul) by reflexivity. rewrite xsum_map_fin. f_equal.
  change (lsum (zipw Rmult (zipw Rmult (map (fun _ => sc / INR (length cs)) cs) cs) ds) = sc * lmean (zipw Rmult cs ds)).
  unfold lmean. rewrite zipw_length by lia.
  assert (G : forall k cs ds, length ds = length cs -> lsum (zipw Rmult (zipw Rmult (map (fun _ : R => k) cs) cs) ds) = k * lsum (zipw Rmult cs ds)).
  { clear. intros k. unfold lsum. induction cs as [|c cs IH]; intros [|d ds] H; simpl in *; try lia; try lra. rewrite IH by lia. ring. }
  rewrite G by assumption. field. lra.
Qed.

Lemma zipw_combine {A B C} (f : A -> B -> C) l l' : zipw f l l' = map (fun ab => f (fst ab) (snd ab)) (combine l l').
Proof. revert l'. induction l as [|a l IH]; intros [|b l']; simpl; try reflexivity. rewrite IH. reflexivity. Qed.

Lemma lsum_minus_const l c : lsum (map (fun e => e - c) l) = lsum l - INR (length l) * c.
Proof. rewrite lsum_map_minus, map_id, lsum_map_const. reflexivity. Qed.

(** The covariance with only the first factor centred. *)
Lemma lcov_half l l' : length l = length l' -> (2 <= length l)%nat ->
  lcov l l' = lsum (zipw Rmult (map (fun e => e - lmean l) l) l') / (INR (length l) - 1).
Proof.
  intros H H2. unfold lcov. f_equal.
  assert (G : forall m m' l l', length l = length l' ->
    lsum (map (fun ed => (fst ed - m) * (snd ed - m')) (combine l l')) =
    lsum (zipw Rmult (map (fun e => e - m) l) l') - m' * lsum (map (fun e => e - m) l)).
  { clear. intros m m'. unfold lsum. induction l as [|a l IH]; intros [|b l'] H; simpl in *; try lia; try lra.
    rewrite IH by lia. ring. }
  rewrite G by assumption. rewrite (lsum_minus_const l).
  assert (Z : lsum l - INR (length l) * lmean l = 0).
  { unfold lmean. field. apply Rgt_not_eq, lt_0_INR. lia. }
  rewrite Z. ring.
Qed.

(** ** All devices *)
Lemma concat_zipw {A B C} (f : A -> B -> C) (ls : list (list A)) (ls' : list (list B)) :
  Forall2 (fun l l' => length l = length l') ls ls' ->
  concat (map (fun cx => zipw f (fst cx) (snd cx)) (combine ls ls')) = zipw f (concat ls) (concat ls').
Proof.
  induction 1 as [|l l' ls ls' H HF IH]; [reflexivity|]. simpl. rewrite IH.
  clear IH HF. revert l' H. induction l as [|a l IH]; intros [|b l'] H; simpl in *; try lia; [reflexivity|].
  f_equal. apply IH. lia.
Qed.

Lemma Forall2_lengths {A B} (ls : list (list A)) (ls' : list (list B)) :
  Forall2 (fun l l' => length l = length l') ls ls' -> length (concat ls) = length (concat ls').
Proof. induction 1; simpl; [reflexivity|]. rewrite !app_length. lia. Qed.

Lemma grad_all_devices n b (cs : list (list R)) {X} (pos : list (list X)) (L D : X -> R) :
  evenly cs -> Forall2 (fun c x => length c = length x) cs pos ->
  grad_mean (map (fun cx => standard_grad_device n b (fst cx) (map (fun x => Fin (L x)) (snd cx)) (map (fun x => Fin (D x)) (snd cx)))
       (combine (map (map Fin) cs) pos)) =
  Fin (2 * INR n / (INR n - 1) * lmean (zipw Rmult (concat cs) (map D (concat pos)))).
Proof.
  intros (k & Hk & Hs & HL) HF.
  assert (E : map (fun cx => standard_grad_device n b (fst cx) (map (fun x => Fin (L x)) (snd cx)) (map (fun x => Fin (D x)) (snd cx)))
       (combine (map (map Fin) cs) pos) =
     map Fin (map (fun s => 2 * INR n / (INR n - 1) * s) (map lmean (map (fun cx => zipw Rmult (fst cx) (snd cx)) (combine cs (map (map D) pos)))))).
  { clear Hs. induction HF as [|c x cs pos H HF IH]; [reflexivity|]. simpl.
    rewrite IH by (intros; apply HL; right; assumption). f_equal.
    rewrite <- (map_map L Fin), <- (map_map D Fin). apply grad_device_fin.
    - specialize (HL c (or_introl eq_refl)). destruct c; [simpl in HL; lia|discriminate].
    - rewrite map_length. lia.
    - rewrite map_length. lia. }
  rewrite E. unfold grad_mean.
  assert (HF' : Forall2 (fun l l' => length l = length l') cs (map (map D) pos)).
  { clear - HF. induction HF; simpl; constructor; [rewrite map_length; assumption|assumption]. }
  assert (EV : evenly (map (fun cx => zipw Rmult (fst cx) (snd cx)) (combine cs (map (map D) pos)))).
  { exists k. split; [assumption|]. split.
    - inversion HF'; subst; [congruence|discriminate].
    - intros s Hin. apply in_map_iff in Hin. destruct Hin as ((c, d) & <- & Hin). simpl.
      assert (length c = length d).
      { clear - HF' Hin. induction HF' as [|a b cs ds Hab HF IH]; simpl in Hin; [contradiction|].
        destruct Hin as [E|Hin]; [inversion E; subst; assumption|auto]. }
      rewrite zipw_length by assumption. apply HL. apply in_combine_l in Hin. assumption. }
  rewrite xmean_fin by (inversion HF'; subst; [congruence|discriminate]). f_equal.
  destruct EV as (k' & Hk' & Hs' & HL').
  rewrite (concat_map D), <- (concat_zipw Rmult cs (map (map D) pos)) by assumption.
  rewrite <- (lmean_lmeans k') by assumption.
  unfold lmean at 1 3. rewrite lsum_scal, map_length. unfold Rdiv. ring.
Qed.

(** A clipping function acting on finite data. *)
Definition clips (clip : option clip_fn) (e : R) (s s' : list R) : Prop :=
  length s' = length s /\ match clip with None => s' = s | Some f => f (map Fin s) (Fin e) = Some (map Fin s') end.

Lemma clipped_fin clip n b (ss ss' : list (list R)) : evenly ss -> n = length (concat ss) -> (2 <= n)%nat ->
  Forall2 (clips clip (lmean (concat ss))) ss ss' ->
  exists aux, get_clipped_energies_and_aux_data (map (map Fin) ss) n clip b = Some (Fin (lmean (concat ss')), map (map Fin) ss', aux) /\
    variance aux = Fin (lvar (concat ss')) /\ energy_noclip aux = Fin (lmean (concat ss)) /\ variance_noclip aux = Fin (lvar (concat ss)) /\
    evenly ss' /\ length (concat ss') = n.
Proof.
  intros He Hn H2 HF.
  assert (HFl : Forall2 (fun s s' => length s = length s') ss ss').
  { generalize dependent (lmean (concat ss)). intros e HF. clear - HF. induction HF as [|a a' ss ss' [Ha _] HF IH]; constructor; auto. }
  assert (EV : evenly ss').
  { destruct He as (k & Hk & Hs & HL). exists k. split; [assumption|]. split; [inversion HF; subst; [congruence|discriminate]|].
    intros s' Hin. clear - HFl HL Hin. induction HFl as [|a a' ss ss' Ha HF IH]; simpl in Hin; [contradiction|].
    destruct Hin as [<-|Hin]; [rewrite <- Ha; apply HL; left; reflexivity|apply IH; [intros; apply HL; right; assumption|assumption]]. }
  assert (HL : length (concat ss') = n).
  { rewrite Hn. symmetry. apply Forall2_lengths. assumption. }
  unfold get_clipped_energies_and_aux_data. rewrite (stats_fin ss n false) by assumption.
  assert (EC : match clip with Some f => mapM (fun shard => f shard (Fin (lmean (concat ss)))) (map (map Fin) ss)
               | None => Some (map (map Fin) ss) end = Some (map (map Fin) ss')).
  { revert HF. generalize (lmean (concat ss)) as e. intros e HF. clear - HF. destruct clip as [f|].
    - induction HF as [|a a' ss ss' [Ha H] HF IH]; [reflexivity|]. simpl. rewrite H, IH. reflexivity.
    - f_equal. f_equal. induction HF as [|a a' ss ss' [Ha H] HF IH]; [reflexivity|]. congruence. }
  rewrite EC. rewrite (stats_fin ss' n b) by (assumption || lia). eexists. split; [reflexivity|]. simpl. auto 10.
Qed.

Section Standard.
Context {P X K : Type}.
Variables (log_psi : P -> X -> xr) (dlog_psi : P -> X -> nat -> xr).
Variables (p : P) (pos : list (list X)) (E L : X -> R) (D : X -> nat -> R).
Hypothesis HL : forall x, In x (concat pos) -> log_psi p x = Fin (L x).
Hypothesis HD : forall x j, In x (concat pos) -> dlog_psi p x j = Fin (D x j).

Lemma grads_ext n b (cs : list (list R)) j :
  map (fun cx => standard_grad_device n b (fst cx) (map (log_psi p) (snd cx)) (map (fun x => dlog_psi p x j) (snd cx)))
       (combine (map (map Fin) cs) pos) =
  map (fun cx => standard_grad_device n b (fst cx) (map (fun x => Fin (L x)) (snd cx)) (map (fun x => Fin (D x j)) (snd cx)))
       (combine (map (map Fin) cs) pos).
Proof.
  apply map_ext_in. intros (c, xs) Hin. simpl. apply in_combine_r in Hin.
  f_equal; apply map_ext_in; intros x Hx; [apply HL|apply HD]; apply in_concat; eauto.
Qed.

Lemma standard_contribution_fin clip n b (ss ss' : list (list R)) :
  evenly ss -> Forall2 (fun s x => length s = length x) ss pos -> n = length (concat ss) -> (2 <= n)%nat ->
  Forall2 (clips clip (lmean (concat ss))) ss ss' ->
  exists aux g, get_standard_contribution log_psi dlog_psi n b clip (map (map Fin) ss) p pos = Ok (aux, Fin (lmean (concat ss')), g) /\
    variance aux = Fin (lvar (concat ss')) /\ energy_noclip aux = Fin (lmean (concat ss)) /\ variance_noclip aux = Fin (lvar (concat ss)) /\
    forall j, grad_mean (g j) = Fin (2 * lcov (concat ss') (map (fun x => D x j) (concat pos))).
Proof.
  intros He HF2 Hn H2 HF. destruct (clipped_fin clip n b ss ss' He Hn H2 HF) as (aux & E1 & E2 & E3 & E4 & E5 & E6).
  unfold get_standard_contribution. rewrite E1. destruct (Nat.eqb_spec n 1); [lia|].
  eexists aux, _. split; [reflexivity|]. split; [assumption|]. split; [assumption|]. split; [assumption|].
  intros j. set (m := lmean (concat ss')).
  assert (EC : map (map (fun l => xsub l (Fin m))) (map (map Fin) ss') = map (map Fin) (map (map (fun e => e - m)) ss')).
  { rewrite !map_map. apply map_ext. intros s. rewrite !map_map. reflexivity. }
  assert (HFx : Forall2 (fun (c : list R) (x : list X) => length c = length x) (map (map (fun e => e - m)) ss') pos).
  { revert HF. generalize (lmean (concat ss)) as e0. intros e0 HF. clearbody m. clear - HF HF2. revert pos HF2. induction HF as [|a a' ss ss' [Ha _] HF IH]; intros pos H; inversion H; subst; simpl; constructor.
    - rewrite map_length. congruence.
    - apply IH. assumption. }
  rewrite EC, grads_ext, (grad_all_devices n b _ pos L (fun x => D x j)); [|apply evenly_map; assumption|assumption].
  f_equal. rewrite <- concat_map.
  assert (HLen : length (concat ss') = length (map (fun x => D x j) (concat pos))).
  { rewrite map_length. rewrite E6, Hn. apply Forall2_lengths. assumption. }
  rewrite lcov_half by (assumption || lia). fold m. unfold lmean. rewrite zipw_length by (rewrite map_length; assumption).
  rewrite map_length, E6. apply (le_INR 2) in H2. simpl in H2. field. lra.
Qed.
End Standard.

(** ** The differentiated function *)
Lemma forward_fin n b (cs : list (list R)) {X} (pos : list (list X)) (L : X -> R) :
  n <> 1%nat -> evenly cs -> Forall2 (fun c x => length c = length x) cs pos ->
  standard_estimator_forward n b (map (map Fin) cs) (map (map (fun x => Fin (L x))) pos) =
  Some (Fin (2 * INR n / (INR n - 1) * lmean (zipw Rmult (concat cs) (map L (concat pos))))).
Proof.
  intros Hn He HF. unfold standard_estimator_forward. destruct (Nat.eqb_spec n 1); [congruence|]. f_equal.
  assert (HF' : Forall2 (fun l l' => length l = length l') cs (map (map L) pos)).
  { clear - HF. induction HF; simpl; constructor; [rewrite map_length; assumption|assumption]. }
  assert (EQ : map (fun cl => zipw xmul (fst cl) (snd cl)) (combine (map (map Fin) cs) (map (map (fun x => Fin (L x))) pos)) =
          map (map Fin) (map (fun cx => zipw Rmult (fst cx) (snd cx)) (combine cs (map (map L) pos)))).
  { clear - HF. induction HF as [|c x cs pos H HF IH]; [reflexivity|]. simpl. rewrite IH. f_equal.
    rewrite <- (map_map L Fin). apply (zipw_map_fin Rmult xmul). reflexivity. }
  rewrite EQ, means_fin.
  - rewrite (concat_zipw Rmult) by assumption. rewrite (concat_map L). reflexivity.
  - destruct He as (k & Hk & Hs & HL). exists k. split; [assumption|]. split; [inversion HF'; subst; [congruence|discriminate]|].
    intros s Hin. apply in_map_iff in Hin. destruct Hin as ((c, d) & <- & Hin). simpl.
    assert (length c = length d).
    { clear - HF' Hin. induction HF' as [|a b' cs ds Hab HF IH]; simpl in Hin; [contradiction|].
      destruct Hin as [E|Hin]; [inversion E; subst; assumption|auto]. }
    rewrite zipw_length by assumption. apply HL. apply in_combine_l in Hin. assumption.
Qed.

Lemma is_derive_lsum {X} (xs : list X) (c : list R) (F : X -> R -> R) (D : X -> R) t :
  (forall x, In x xs -> is_derive (F x) t (D x)) ->
  is_derive (fun t => lsum (zipw Rmult c (map (fun x => F x t) xs))) t (lsum (zipw Rmult c (map D xs))).
Proof.
  revert c. induction xs as [|x xs IH]; intros [|a c] H; unfold lsum in *; simpl; try apply (is_derive_const 0).
  apply (is_derive_plus (fun t => a * F x t) (fun t => fold_right Rplus 0 (zipw Rmult c (map (fun x => F x t) xs)))).
  - apply (is_derive_scal (F x) t a (D x)). apply H. left; reflexivity.
  - apply IH. intros; apply H; right; assumption.
Qed.

(** ** NaN energies *)
Lemma xsum_zip_nan (l l' : list xr) i : (i < length l)%nat -> length l = length l' -> nth i l (Fin 0) = NaN ->
  In NaN (zipw xmul l l').
Proof.
  revert l' i. induction l as [|a l IH]; intros [|b l'] i Hi H E; simpl in *; try lia.
  destruct i as [|i]; [left; rewrite E; reflexivity|]. right. apply (IH l' i); [lia|lia|assumption].
Qed.

Lemma zip_nan_r (l l' : list xr) i : (i < length l)%nat -> length l = length l' -> nth i l' (Fin 0) = NaN ->
  nth i (zipw xmul l l') (Fin 0) = NaN.
Proof.
  revert l' i. induction l as [|a l IH]; intros [|b l'] i Hi H E; simpl in *; try lia.
  destruct i as [|i]; [rewrite E; apply xmul_nan_r|]. apply IH; [lia|lia|assumption].
Qed.

Lemma grad_device_nan n b cs ls ds : length ls = length cs -> length ds = length cs -> In NaN cs ->
  standard_grad_device n b cs ls ds = NaN.
Proof.
  intros Hl Hd Hin. unfold standard_grad_device.
  destruct (In_nth cs NaN (Fin 0) Hin) as (i & Hi & Ei).
  apply xsum_nan. apply (xsum_zip_nan _ _ i).
  - rewrite zipw_length; rewrite map_length, zipw_length by lia; lia.
  - rewrite zipw_length; rewrite map_length, zipw_length by lia; lia.
  - apply zip_nan_r; rewrite ?map_length, ?zipw_length by lia; try lia. assumption.
Qed.

(** * Proofs about the background writer *)
From Coq Require Import List String Arith Bool Lia.
From Verif Require Import XReal M_io M_vmc M_writer.
Import ListNotations.

(** The longest prefix of items that can be written. *)
Fixpoint ok_prefix {A} (ok : A -> bool) (l : list A) : list A :=
  match l with
  | [] => []
  | x :: r => if ok x then x :: ok_prefix ok r else []
  end.

Lemma ok_prefix_all {A} (ok : A -> bool) l : (forall x, In x l -> ok x = true) -> ok_prefix ok l = l.
Proof.
  induction l as [|x l IH]; intros H; [reflexivity|]. simpl. rewrite H by (left; reflexivity).
  f_equal. apply IH. intros; apply H; right; assumption.
Qed.
Lemma ok_prefix_fail {A} (ok : A -> bool) a x b :
  (forall y, In y a -> ok y = true) -> ok x = false -> ok_prefix ok (a ++ x :: b) = a.
Proof.
  intros Ha Hx. induction a as [|y a IH]; simpl; [rewrite Hx; reflexivity|].
  rewrite Ha by (left; reflexivity). f_equal. apply IH. intros; apply Ha; right; assumption.
Qed.

Section W.
  Variable A : Type.
  Variable ok : A -> bool.
  Notation wstep := (wstep ok). Notation wsteps := (wsteps ok).

  Definition in_flight (p : wpc A) : list A :=
    match p with WWrite x | WDrainWrite x => [x] | _ => [] end.

  Definition inv (todo0 : list A) (s : wstate A) : Prop :=
    (forall x, In x (written s) -> ok x = true) /\
    (match wp s with
     | WCrashed => exists x, ok x = false /\ queued s = written s ++ x :: queue s
     | _ => queued s = written s ++ in_flight (wp s) ++ queue s
     end) /\
    (match mp s with
     | MBody todo => queued s ++ todo = todo0 /\ done_ s = false /\ aborted s = false
     | MClose => done_ s = false /\ (exists rest, queued s ++ rest = todo0) /\
                 (aborted s = false -> queued s = todo0)
     | MJoin | MLeft => done_ s = true /\ (exists rest, queued s ++ rest = todo0) /\
                 (aborted s = false -> queued s = todo0)
     end) /\
    (match wp s with
     | WDrain | WDrainGet | WDrainWrite _ | WExited => done_ s = true
     | _ => True
     end) /\
    (wp s = WDrainGet -> queue s <> []) /\
    (wp s = WExited -> queue s = []) /\
    (mp s = MLeft -> wp s = WExited \/ wp s = WCrashed).

  Lemma inv_init todo : inv todo (w_init todo).
  Proof. unfold inv; simpl. repeat split; try discriminate; try contradiction. Qed.

  Lemma inv_step todo s t : inv todo s -> wstep s t -> inv todo t.
  Proof.
    intros (I1 & I2 & I3 & I4 & I5 & I6 & I7) H.
    destruct s as [q d w m ab qd wr]. cbn [queue done_ wp mp aborted queued written] in *.
    inversion H; subst; cbn [queue done_ wp mp aborted queued written set_mp set_wp set_written] in *; subst;
      unfold inv; cbn [queue done_ wp mp aborted queued written in_flight set_mp set_wp set_written] in *; clear H.
    - (* put *)
      destruct I3 as (E & -> & ->).
      split; [exact I1|]. split.
      { destruct w; cbn [in_flight] in *; try (rewrite I2, <- ?app_assoc; reflexivity).
        destruct I2 as (y & Hy & ->). exists y. split; [exact Hy|]. rewrite <- app_assoc. reflexivity. }
      split; [rewrite <- app_assoc; auto|]. split; [exact I4|].
      split; [intros C; specialize (I5 C); destruct q; discriminate|].
      split; [|discriminate]. intros ->. discriminate.
    - destruct I3 as (E & -> & ->). rewrite app_nil_r in E.
      repeat match goal with |- _ /\ _ => split end; auto; try (exists []; rewrite app_nil_r; assumption); try discriminate.
    - destruct I3 as (E & -> & ->).
      repeat match goal with |- _ /\ _ => split end; auto; try discriminate. eexists; exact E.
    - destruct I3 as (-> & E & F).
      repeat match goal with |- _ /\ _ => split end; auto; try discriminate. destruct w; auto.
    - destruct I3 as (-> & E & F). repeat match goal with |- _ /\ _ => split end; auto.
    - repeat match goal with |- _ /\ _ => split end; auto; try discriminate.
      intros ->. destruct (I7 eq_refl); discriminate.
    - repeat match goal with |- _ /\ _ => split end; auto; try discriminate.
      intros ->. destruct (I7 eq_refl); discriminate.
    - repeat match goal with |- _ /\ _ => split end; auto; try discriminate.
      intros ->. destruct (I7 eq_refl); discriminate.
    - repeat match goal with |- _ /\ _ => split end; auto; try discriminate.
      intros ->. destruct (I7 eq_refl); discriminate.
    - split; [intros y Hy; apply in_app_or in Hy; destruct Hy as [Hy|[<-|[]]]; auto|].
      split; [rewrite I2, <- app_assoc; reflexivity|].
      repeat match goal with |- _ /\ _ => split end; auto; try discriminate.
      intros ->. destruct (I7 eq_refl); discriminate.
    - split; [exact I1|]. split; [exists x; split; [assumption|exact I2]|].
      repeat match goal with |- _ /\ _ => split end; auto; try discriminate.
    - repeat match goal with |- _ /\ _ => split end; auto; try discriminate.
    - repeat match goal with |- _ /\ _ => split end; auto; try discriminate.
      intros ->. destruct (I7 eq_refl); discriminate.
    - repeat match goal with |- _ /\ _ => split end; auto; try discriminate.
      intros ->. destruct (I7 eq_refl); discriminate.
    - split; [intros y Hy; apply in_app_or in Hy; destruct Hy as [Hy|[<-|[]]]; auto|].
      split; [rewrite I2, <- app_assoc; reflexivity|].
      repeat match goal with |- _ /\ _ => split end; auto; try discriminate.
      intros ->. destruct (I7 eq_refl); discriminate.
    - split; [exact I1|]. split; [exists x; split; [assumption|exact I2]|].
      repeat match goal with |- _ /\ _ => split end; auto; try discriminate.
  Qed.

  Lemma inv_steps todo n s t : wsteps n s t -> inv todo s -> inv todo t.
  Proof. induction 1; auto. intros. apply IHwsteps. eapply inv_step; eauto. Qed.

  Lemma reach_inv todo n s : wsteps n (w_init todo) s -> inv todo s.
  Proof. intros H. eapply inv_steps; eauto. apply inv_init. Qed.

  (** Written items are a prefix of the queued ones, which are a prefix of the body's items. *)
  Lemma written_prefix todo n s :
    wsteps n (w_init todo) s ->
    exists pending rest, queued s = written s ++ pending /\ todo = queued s ++ rest.
  Proof.
    intros H. apply reach_inv in H. destruct H as (_ & I2 & I3 & _).
    assert (E : exists pending, queued s = written s ++ pending).
    { destruct (wp s); eauto. destruct I2 as (x & _ & E). eauto. }
    destruct E as (pending & E). exists pending.
    destruct (mp s) as [todo'| | |].
    - exists todo'. split; [exact E|]. symmetry; apply I3.
    - destruct I3 as (_ & (rest & R) & _). exists rest; auto.
    - destruct I3 as (_ & (rest & R) & _). exists rest; auto.
    - destruct I3 as (_ & (rest & R) & _). exists rest; auto.
  Qed.

  (** When the context manager has been left: exactly the items before the first failing one. *)
  Lemma left_written todo n s :
    wsteps n (w_init todo) s -> mp s = MLeft ->
    written s = ok_prefix ok (queued s) /\ (aborted s = false -> queued s = todo).
  Proof.
    intros H Hm. apply reach_inv in H. destruct H as (I1 & I2 & I3 & _ & _ & I6 & I7).
    rewrite Hm in I3. split; [|apply I3].
    destruct (I7 Hm) as [E|E]; rewrite E in I2.
    - cbn [in_flight app] in I2. rewrite I6, app_nil_r in I2 by exact E.
      rewrite I2. symmetry. apply ok_prefix_all. exact I1.
    - destruct I2 as (x & Hx & ->). symmetry. apply ok_prefix_fail; assumption.
  Qed.

  (** No deadlock: some thread can always move until the context manager has been left. *)
  Lemma no_deadlock todo n s :
    wsteps n (w_init todo) s -> mp s <> MLeft -> exists t, wstep s t.
  Proof.
    intros H Hm. apply reach_inv in H. destruct H as (_ & _ & I3 & _ & I5 & _ & _).
    destruct (mp s) as [[|x todo']| | |] eqn:Em.
    - eexists; eapply st_body_end; eauto.
    - eexists; eapply st_put; eauto.
    - eexists; eapply st_close; eauto.
    - destruct (wp s) as [| |x| | |x| |] eqn:Ew.
      + eexists; eapply st_stop; eauto. apply I3.
      + eexists; eapply st_timeout; eauto.
      + destruct (ok x) eqn:Eo; eexists; [eapply st_write|eapply st_write_raise]; eauto.
      + destruct (queue s) eqn:Eq; eexists; [eapply st_drain_end|eapply st_drain_more]; eauto.
      + destruct (queue s) eqn:Eq; [exfalso; apply I5; auto|]. eexists; eapply st_drain_get; eauto.
      + destruct (ok x) eqn:Eo; eexists; [eapply st_drain_write|eapply st_drain_raise]; eauto.
      + eexists; eapply st_join; eauto.
      + eexists; eapply st_join; eauto.
    - contradiction.
  Qed.

  (** Termination measure once the flag is set. *)
  Definition rank (p : wpc A) : nat :=
    match p with
    | WExited | WCrashed => 0 | WDrainGet => 1 | WDrain => 2 | WDrainWrite _ => 3
    | WCheck => 3 | WGet => 4 | WWrite _ => 5 end.
  Definition mrank (m : mpc A) : nat := match m with MLeft => 0 | _ => 1 end.
  Definition measure (s : wstate A) : nat := 10 * List.length (queue s) + rank (wp s) + mrank (mp s).

  Lemma closed_step s t :
    (mp s = MJoin \/ mp s = MLeft) -> done_ s = true -> wstep s t ->
    (mp t = MJoin \/ mp t = MLeft) /\ done_ t = true /\ measure t < measure s.
  Proof.
    intros Hm Hd H. unfold measure. destruct s as [q d w m ab qd wr].
    cbn [queue done_ wp mp aborted queued written] in *.
    inversion H; subst; cbn [queue done_ wp mp aborted queued written set_mp set_wp set_written] in *; subst;
      try (destruct Hm; discriminate); try discriminate;
      (split; [first [exact Hm | right; reflexivity]|]; split; [reflexivity|]);
      cbn [rank mrank List.length]; try lia.
  Qed.

  (** Every schedule after closing is finite, with an explicit bound. *)
  Lemma closed_bound n : forall s t,
    (mp s = MJoin \/ mp s = MLeft) -> done_ s = true -> wsteps n s t -> n <= measure s.
  Proof.
    induction n as [|n IH]; intros s t Hm Hd H; [lia|].
    inversion H as [|? ? u ? Hs Hr]; subst.
    destruct (closed_step s u Hm Hd Hs) as (A1 & A2 & A3).
    specialize (IH u t A1 A2 Hr). lia.
  Qed.

  Lemma wsteps_snoc n s t u : wsteps n s t -> wstep t u -> wsteps (S n) s u.
  Proof.
    induction 1; intros Hu.
    - econstructor; [exact Hu|constructor].
    - econstructor; [eassumption|auto].
  Qed.
  Lemma wsteps_app n m s t u : wsteps n s t -> wsteps m t u -> wsteps (n + m) s u.
  Proof. induction 1; intros; [assumption|]. econstructor; eauto. Qed.

  (** From every reachable state after close, the context manager can be left. *)
  Lemma closed_reaches_left todo n s :
    wsteps n (w_init todo) s -> mp s = MJoin -> exists m t, wsteps m s t /\ mp t = MLeft.
  Proof.
    intros H Hm.
    assert (Hd : done_ s = true).
    { apply reach_inv in H. destruct H as (_ & _ & I3 & _). rewrite Hm in I3. apply I3. }
    remember (measure s) as k eqn:Ek. revert n s H Hm Hd Ek.
    induction k as [k IH] using lt_wf_ind. intros n s H Hm Hd Ek.
    destruct (no_deadlock todo n s H) as (t & Ht); [rewrite Hm; discriminate|].
    destruct (closed_step s t (or_introl Hm) Hd Ht) as ([A1|A1] & A2 & A3).
    - destruct (IH (measure t)) with (n := S n) (s := t) as (m & u & Hu & Hl); auto.
      + lia.
      + eapply wsteps_snoc; eauto.
      + exists (S m), u. split; [econstructor; eauto|exact Hl].
    - exists 1, t. split; [econstructor; eauto; constructor|exact A1].
  Qed.
End W.

(** ** Crashes *)
Section D.
  Variable C : Type.
  Notation writes := (list (string * string * C)).

  Lemma path_eqb_refl p : path_eqb p p = true.
  Proof. unfold path_eqb. rewrite !String.eqb_refl. reflexivity. Qed.
  Lemma path_eqb_false p q : p <> q -> path_eqb p q = false.
  Proof.
    intros H. unfold path_eqb. destruct p as [a b], q as [c d]. cbn [fst snd].
    destruct (String.eqb_spec a c), (String.eqb_spec b d); subst; auto. contradiction H; reflexivity.
  Qed.

  Definition op_path (o : dop C) : path := match o with Truncate p | Chunk p | Finish p _ => p end.

  Lemma run_other ops : forall (d : disk C) p,
    (forall o, In o ops -> op_path o <> p) -> fold_left dop_run ops d p = d p.
  Proof.
    induction ops as [|o ops IH]; intros d p H; [reflexivity|]. simpl. rewrite IH by (intros; apply H; right; assumption).
    specialize (H o (or_introl eq_refl)).
    destruct o; simpl in *; unfold disk_set; rewrite path_eqb_false by exact H; reflexivity.
  Qed.

  Lemma ops_of_length k w : List.length (ops_of k w : list (dop C)) = k + 2.
  Proof. unfold ops_of. simpl. rewrite app_length, repeat_length. simpl. lia. Qed.
  Lemma ops_of_path k w o : In o (ops_of k w : list (dop C)) -> op_path o = fst w.
  Proof.
    unfold ops_of. intros [<-|H]; [reflexivity|]. apply in_app_or in H. destruct H as [H|[<-|[]]].
    - apply repeat_spec in H. subst. reflexivity.
    - reflexivity.
  Qed.
  Lemma all_ops_app k a b : all_ops k (a ++ b) = all_ops k a ++ all_ops k b :> list (dop C).
  Proof. apply flat_map_app. Qed.
  Lemma all_ops_length k (ws : writes) : List.length (all_ops k ws) = (k + 2) * List.length ws.
  Proof.
    unfold all_ops. induction ws as [|w ws IH]; [simpl; lia|].
    cbn [flat_map List.length]. rewrite app_length, ops_of_length, IH. lia.
  Qed.

  (** A file whose path is written once, and whose write completed, is intact at every later crash
      point; before its write starts it is as it was. *)
  Lemma crash_intact k (ws pre post : writes) w d0 n :
    ws = pre ++ w :: post ->
    (forall v, In v post -> fst v <> fst w) ->
    (k + 2) * (List.length pre + 1) <= n ->
    crash_disk d0 (all_ops k ws) n (fst w) = Some (Complete (snd w)).
  Proof.
    intros -> Hpost Hn. unfold crash_disk.
    change (w :: post) with ([w] ++ post). rewrite app_assoc, all_ops_app, firstn_app.
    rewrite firstn_all2 by (rewrite all_ops_length, app_length; simpl; lia).
    rewrite fold_left_app. rewrite run_other.
    - rewrite all_ops_app, fold_left_app. unfold all_ops at 1. cbn [flat_map]. rewrite app_nil_r.
      unfold ops_of. simpl. rewrite fold_left_app. simpl. unfold disk_set at 1. rewrite path_eqb_refl. reflexivity.
    - intros o Ho. assert (Ho' : In o (all_ops k post)).
      { rewrite <- (firstn_skipn (n - List.length (all_ops k (pre ++ [w])))). apply in_or_app; left; exact Ho. }
      unfold all_ops in Ho'. apply in_flat_map in Ho'. destruct Ho' as (v & Hv & Hov).
      rewrite (ops_of_path _ _ _ Hov). apply Hpost, Hv.
  Qed.

  (** Whatever complete file is found after a crash was completely written by some queued write
      (or was there before). *)
  Lemma crash_complete_origin k (ws : writes) d0 n p c :
    crash_disk d0 (all_ops k ws) n p = Some (Complete c) ->
    d0 p = Some (Complete c) \/ In (p, c) (map (fun w => (fst w, snd w)) ws).
  Proof.
    unfold crash_disk.
    assert (G : forall ops (d : disk C), fold_left dop_run ops d p = Some (Complete c) ->
       d p = Some (Complete c) \/ In (Finish p c) ops).
    { induction ops as [|o ops IH]; intros d H; [left; exact H|]. simpl in H.
      apply IH in H. destruct H as [H|H]; [|right; right; exact H].
      destruct o as [q|q|q c']; simpl in H; unfold disk_set in H;
        destruct (path_eqb q p) eqn:E; try discriminate; try (left; exact H).
      right; left. injection H as ->. unfold path_eqb in E. apply andb_true_iff in E. destruct E as [E1 E2].
      apply String.eqb_eq in E1, E2. destruct q, p; cbn [fst snd] in *; subst. reflexivity. }
    intros H. apply G in H. destruct H as [H|H]; [left; exact H|right].
    assert (H' : In (Finish p c) (all_ops k ws)).
    { rewrite <- (firstn_skipn n). apply in_or_app; left; exact H. }
    unfold all_ops in H'. apply in_flat_map in H'. destruct H' as (w & Hw & Ho).
    apply in_map_iff. exists w. split; [|exact Hw].
    unfold ops_of in Ho. destruct Ho as [Ho|Ho]; [discriminate|]. apply in_app_or in Ho.
    destruct Ho as [Ho|[Ho|[]]]; [apply repeat_spec in Ho; discriminate|]. injection Ho as <- <-. reflexivity.
  Qed.

  (** A crash leaves at most one of the files touched by the run incomplete. *)
  Lemma crash_one_partial k (ws : writes) d0 n p :
    (forall q, d0 q <> Some Partial) ->
    crash_disk d0 (all_ops k ws) n p = Some Partial ->
    exists pre w post, ws = pre ++ w :: post /\ p = fst w /\
      (k + 2) * List.length pre < n < (k + 2) * (List.length pre + 1).
  Proof.
    intros Hd0. revert d0 n Hd0.
    induction ws as [|w ws IH]; intros d0 n Hd0 H.
    - unfold crash_disk, all_ops in H. simpl in H. rewrite firstn_nil in H. simpl in H. contradiction (Hd0 p).
    - destruct (le_lt_dec (k + 2) n) as [Hn|Hn].
      + (* first write complete *)
        destruct (IH (crash_disk d0 (ops_of k w) (k + 2)) (n - (k + 2))) as (pre & w' & post & E1 & E2 & E3).
        * intros q C1. unfold crash_disk in C1. rewrite firstn_all2 in C1 by (rewrite ops_of_length; lia).
          unfold ops_of in C1. simpl in C1. rewrite fold_left_app in C1. simpl in C1.
          unfold disk_set at 1 in C1. destruct (path_eqb (fst w) q) eqn:Ep; [discriminate|].
          rewrite run_other in C1.
          -- unfold disk_set in C1. rewrite Ep in C1. exact (Hd0 q C1).
          -- intros o Ho. apply repeat_spec in Ho. subst. simpl. intros Eq. rewrite Eq, path_eqb_refl in Ep. discriminate.
        * revert H. unfold crash_disk, all_ops. cbn [flat_map]. rewrite firstn_app, ops_of_length, fold_left_app.
          rewrite !(firstn_all2 (ops_of k w)) by (rewrite ops_of_length; lia). auto.
        * exists (w :: pre), w', post. split; [rewrite E1; reflexivity|]. split; [exact E2|]. simpl. lia.
      + exists [], w, ws. split; [reflexivity|].
        assert (Hn0 : n <> 0).
        { intros ->. unfold crash_disk in H. simpl in H. contradiction (Hd0 p). }
        split; [|simpl; lia].
        destruct (path_eqb (fst w) p) eqn:Ep.
        * unfold path_eqb in Ep. apply andb_true_iff in Ep. destruct Ep as [E1 E2].
          apply String.eqb_eq in E1, E2. destruct w as [[a1 a2] cw], p; cbn [fst snd] in *; subst; reflexivity.
        * exfalso. revert H. unfold crash_disk, all_ops. cbn [flat_map].
          rewrite firstn_app, ops_of_length. replace (n - (k + 2)) with 0 by lia. rewrite firstn_O, app_nil_r.
          rewrite run_other; [apply Hd0|].
          intros o Ho. assert (Ho' : In o (ops_of k w)).
          { rewrite <- (firstn_skipn n). apply in_or_app; left; exact Ho. }
          rewrite (ops_of_path _ _ _ Ho'). intros <-. rewrite path_eqb_refl in Ep. discriminate.
  Qed.
End D.

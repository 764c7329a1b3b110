(** * Proofs about the training loop on device buffers *)
From Coq Require Import String List Arith Bool Reals Lia.
From Verif Require Import XReal M_io M_vmc M_buffers S_buffers.
Import ListNotations.

Section Proofs.
  Context {V : Type}.
  Notation heap := (heap V).

  Lemma holds_read (h : heap) ls vs : holds h ls vs -> read_leaves h ls = Some vs.
  Proof.
    induction 1 as [|l v ls vs E _ IH]; simpl; [reflexivity|]. now rewrite E, IH.
  Qed.

  Lemma holds_lt (h : heap) ls vs l : sound h -> holds h ls vs -> In l ls -> l < h_next h.
  Proof.
    intros Hs H. induction H as [|x v ls vs E _ IH]; simpl; [tauto|].
    intros [->|Hi]; [exact (Hs _ _ E)|auto].
  Qed.

  Lemma holds_only (Z : list loc) (h h' : heap) ls vs :
    only_deletes Z h h' -> apart ls Z -> holds h ls vs -> holds h' ls vs.
  Proof.
    intros (_ & _ & Hk) Ha H. induction H as [|l v ls vs E _ IH]; constructor.
    - apply Hk; [exact E|]. apply Ha. now left.
    - apply IH. intros x Hx. apply Ha. now right.
  Qed.

  Lemma apart_sub (a a' b b' : list loc) :
    apart a b -> incl a' a -> incl b' b -> apart a' b'.
  Proof. intros H Ha Hb l Hl Hb'. exact (H l (Ha l Hl) (Hb l Hb')). Qed.

  Lemma apart_sym (a b : list loc) : apart a b -> apart b a.
  Proof. intros H l Hl Ha. exact (H l Ha Hl). Qed.

  (** Copies are new arrays with the contents of the originals. *)
  Lemma copied ls : forall (h : heap) vs,
    sound h -> holds h ls vs ->
    exists h' ls', copy_leaves h ls = Some (h', ls') /\ holds h' ls' vs /\ only_deletes [] h h' /\
                   (forall l, In l ls' -> h_next h <= l).
  Proof.
    induction ls as [|l ls IH]; intros h vs Hs H; inversion H as [|? v ? vs' E H']; subst.
    - exists h, []. simpl. repeat split; auto; try constructor. intros _ [].
    - simpl. rewrite E. unfold alloc.
      set (h1 := {| h_next := _; h_at := _ |}).
      assert (O1 : only_deletes [] h h1).
      { split; [|split; [simpl; lia|]].
        - intros x w. unfold h1. simpl. destruct (Nat.eqb_spec x (h_next h)) as [->|]; [lia|].
          intros Hx. specialize (Hs _ _ Hx). lia.
        - intros x w Hx _. unfold h1. simpl. destruct (Nat.eqb_spec x (h_next h)) as [->|]; [|exact Hx].
          specialize (Hs _ _ Hx). lia. }
      assert (H1 : holds h1 ls vs').
      { apply (holds_only [] h); auto. intros ? ? []. }
      destruct (IH h1 vs' (proj1 O1) H1) as (h2 & r2 & Ec & H2 & O2 & N2). rewrite Ec.
      exists h2, (h_next h :: r2). split; [reflexivity|]. split; [|split].
      + constructor; [|exact H2]. apply (proj2 (proj2 O2)); [|intros []].
        unfold h1. simpl. now rewrite Nat.eqb_refl.
      + destruct O1 as (_ & L1 & K1), O2 as (S2 & L2 & K2). split; [exact S2|]. split; [lia|].
        intros x w Hx _. apply K2; [apply K1; auto|]; intros [].
      + intros x [<-|Hx]; [lia|]. specialize (N2 x Hx). unfold h1 in N2. simpl in N2. lia.
  Qed.

  Lemma only_trans (Z1 Z2 Z : list loc) (a b c : heap) :
    only_deletes Z1 a b -> only_deletes Z2 b c -> incl Z1 Z -> incl Z2 Z -> only_deletes Z a c.
  Proof.
    intros (_ & L1 & K1) (S2 & L2 & K2) I1 I2. split; [exact S2|]. split; [lia|].
    intros l v E N. apply K2; [apply K1; auto|]; intros Hl; apply N; auto.
  Qed.

  (** A checkpoint in memory whose arrays are out of reach of the functions of the run. *)
  Definition arrays (r : refs) : list loc := (c_data r ++ c_params r ++ c_opt r ++ c_key r)%list.
  Record kept (Z : list loc) (h : heap) (r : refs) (f : file V) : Prop := {
    k_epoch : c_epoch r = c_epoch f;
    k_data : holds h (c_data r) (c_data f);
    k_params : holds h (c_params r) (c_params f);
    k_opt : holds h (c_opt r) (c_opt f);
    k_key : holds h (c_key r) (c_key f);
    k_apart : apart (arrays r) Z }.

  Lemma kept_save Z h r f : kept Z h r f -> save_vmc_state h r = Some f.
  Proof.
    intros [E D P O K _]. unfold save_vmc_state.
    rewrite (holds_read _ _ _ D), (holds_read _ _ _ P), (holds_read _ _ _ O), (holds_read _ _ _ K), E.
    now destruct f.
  Qed.

  Lemma arrays_lt Z h r f l : sound h -> kept Z h r f -> In l (arrays r) -> l < h_next h.
  Proof.
    intros Hs [_ D P O K _] Hl. unfold arrays in Hl. rewrite !in_app_iff in Hl.
    destruct Hl as [Hl|[Hl|[Hl|Hl]]];
      (eapply holds_lt; [exact Hs| |exact Hl]; first [exact D|exact P|exact O|exact K]).
  Qed.

  Lemma kept_only Z X h h' r f :
    only_deletes X h h' -> incl X Z -> kept Z h r f -> kept Z h' r f.
  Proof.
    intros Ho Hi [E D P O K A].
    assert (A' : apart (arrays r) X) by (eapply apart_sub; eauto; apply incl_refl).
    split; auto; eapply holds_only; eauto; eapply apart_sub; eauto using incl_refl;
      unfold arrays; intros l Hl; rewrite !in_app_iff; tauto.
  Qed.

  Lemma kept_move Z Z' h0 h r f :
    sound h0 -> kept Z h0 r f -> kept Z h r f -> passed_or_new h0 Z Z' -> kept Z' h r f.
  Proof.
    intros Hs K0 [E D P O K A] Hn. split; auto.
    intros l Hl Hz. destruct (Hn l Hz) as [H|H]; [exact (A l Hl H)|].
    pose proof (arrays_lt _ _ _ _ _ Hs K0 Hl). lia.
  Qed.

  (** What the main thread has queued, and the contents it stands for. *)
  Notation cloc := (cstate (list loc) (list loc) (list loc) (list loc)).
  Notation cval := (cstate (list V) (list V) (list V) (list V)).
  Definition same_best (Q : refs -> file V -> Prop) (a : option refs) (b : option (file V)) : Prop :=
    match a, b with None, None => True | Some r, Some f => Q r f | _, _ => False end.
  Definition same_item (Q : refs -> file V -> Prop) (a : string * string * refs)
      (b : ckpt_write (list V) (list V) (list V) (list V)) : Prop := fst a = fst b /\ Q (snd a) (snd b).
  Record same (Q : refs -> file V -> Prop) (c : cloc) (d : cval) : Prop := {
    s_metric : cs_metric c = cs_metric d;
    s_energy : cs_energy c = cs_energy d;
    s_variance : cs_variance c = cs_variance d;
    s_metrics : cs_metrics c = cs_metrics d;
    s_best : same_best Q (cs_best c) (cs_best d);
    s_ckpts : Forall2 (same_item Q) (cs_ckpts c) (cs_ckpts d) }.

  Lemma same_mono (Q Q' : refs -> file V -> Prop) c d :
    (forall r f, Q r f -> Q' r f) -> same Q c d -> same Q' c d.
  Proof.
    intros H [A B C D E F]. split; auto.
    - destruct (cs_best c), (cs_best d); simpl in *; auto.
    - induction F as [|x y xs ys [F1 F2] _ IH]; constructor; [split|]; auto.
  Qed.

  Definition same_res {A} (Q : refs -> file V -> Prop)
      (a : M_vmc.res (list loc) (list loc) (list loc) (list loc) A)
      (b : M_vmc.res (list V) (list V) (list V) (list V) A) : Prop :=
    match a, b with
    | Ret c x, Ret d y => same Q c d /\ x = y
    | Raise c x, Raise d y => same Q c d /\ x = y
    | _, _ => False
    end.

  Lemma same_queue (Q : refs -> file V -> Prop) c d dir nm r f :
    same Q c d -> Q r f -> same Q (queue_ckpt (dir, nm, r) c) (queue_ckpt (dir, nm, f) d).
  Proof.
    intros [A B C D E F] H. split; simpl; auto.
    apply Forall2_app; [exact F|]. constructor; [|constructor]. split; auto.
  Qed.
  Lemma same_queue_metrics (Q : refs -> file V -> Prop) c d w : same Q c d -> same Q (queue_metrics w c) (queue_metrics w d).
  Proof. intros [A B C D E F]. split; simpl; auto. now rewrite D. Qed.
  Lemma same_windows (Q : refs -> file V -> Prop) c d e v : same Q c d -> same Q (set_windows e v c) (set_windows e v d).
  Proof. intros [A B C D E F]. split; simpl; auto. Qed.
  Lemma same_set_metric (Q : refs -> file V -> Prop) c d e : same Q c d -> same Q (set_metric e c) (set_metric e d).
  Proof. intros [A B C D E F]. split; simpl; auto. Qed.
  Lemma same_set_best (Q : refs -> file V -> Prop) c d a b : same Q c d -> same_best Q a b -> same Q (set_best a c) (set_best b d).
  Proof. intros [A B C D E F] H. split; simpl; auto. Qed.

  Variable params_have_nan : list V -> bool.

  Lemma same_regular (Q : refs -> file V -> Prop) he g ld epoch old oldv p pv m c d :
    holds he p pv -> Q old oldv -> same Q c d ->
    same_res Q
      (save_metrics_and_regular_checkpoint (nan_on params_have_nan he) (on_refs he g) ld epoch old p m c)
      (save_metrics_and_regular_checkpoint params_have_nan g ld epoch oldv pv m d).
  Proof.
    intros Hp Ho Hc. unfold save_metrics_and_regular_checkpoint.
    change (checkpoint_every (on_refs he g)) with (checkpoint_every g).
    change (checkpoint_dir (on_refs he g)) with (checkpoint_dir g).
    change (check_for_nans (on_refs he g)) with (check_for_nans g).
    pose proof (same_queue_metrics Q c d (ld, m) Hc) as H1.
    assert (N : check_nans_fn (nan_on params_have_nan he) m p = check_nans_fn params_have_nan m pv).
    { unfold check_nans_fn, nan_on. now rewrite (holds_read _ _ _ Hp). }
    assert (After : forall c2 d2, same Q c2 d2 -> same_res Q
      (if check_for_nans g then
         match check_nans_fn (nan_on params_have_nan he) m p with
         | None => Raise c2 KeyError
         | Some true => Ret (queue_ckpt (path_join ld (checkpoint_dir g), nans_name epoch, old) c2) true
         | Some false => Ret c2 false end else Ret c2 false)
      (if check_for_nans g then
         match check_nans_fn params_have_nan m pv with
         | None => Raise d2 KeyError
         | Some true => Ret (queue_ckpt (path_join ld (checkpoint_dir g), nans_name epoch, oldv) d2) true
         | Some false => Ret d2 false end else Ret d2 false)).
    { intros c2 d2 H2. rewrite N. destruct (check_for_nans g); [|simpl; auto].
      destruct (check_nans_fn params_have_nan m pv) as [[|]|]; simpl; auto using same_queue. }
    destruct (checkpoint_every g) as [[|k]|]; [simpl; auto| |exact (After _ _ H1)].
    destruct (divides_b (S k) (epoch + 1)); [apply After; now apply same_queue|exact (After _ _ H1)].
  Qed.

  Lemma same_track (Q : refs -> file V -> Prop) he g ld epoch old oldv m c d :
    Q old oldv -> same Q c d ->
    same_res Q (track_and_save_best_checkpoint (on_refs he g) ld epoch old m c)
               (track_and_save_best_checkpoint g ld epoch oldv m d).
  Proof.
    intros Ho Hc. pose proof Hc as [A B C D E F]. unfold track_and_save_best_checkpoint.
    change (best_checkpoint_every (on_refs he g)) with (best_checkpoint_every g).
    change (nhistory_max (on_refs he g)) with (nhistory_max g).
    change (nchains (on_refs he g)) with (nchains g).
    change (variance_scale (on_refs he g)) with (variance_scale g).
    rewrite <- A, <- B, <- C.
    destruct (best_checkpoint_every g) as [k|]; [|simpl; auto].
    destruct (dget m "energy") as [e|]; [|simpl; auto].
    destruct (dget m "variance") as [v|]; [|simpl; auto using same_windows].
    cbv zeta.
    set (en := move_history_window _ _ _). set (va := move_history_window _ _ v).
    set (err := get_checkpoint_metric _ _ _ _).
    pose proof (same_windows Q c d en va Hc) as H1.
    destruct k as [|k]; [simpl; auto|].
    destruct (xltb err (cs_metric c)); [|unfold refs, file in *; destruct (cs_best c) as [b|], (cs_best d) as [b'|]; simpl in E; try tauto];
      try (destruct (divides_b (Datatypes.S k) (epoch + 1)); (split; [|reflexivity]);
           (apply same_set_best; [|first [exact Logic.I|assumption]]);
           first [assumption|now apply same_queue]).
  Qed.

  Lemma same_handle (Q : refs -> file V -> Prop) he g epoch old oldv p pv dt dv m c d :
    holds he p pv -> holds he dt dv -> Q old oldv -> same Q c d ->
    same_res Q
      (save_metrics_and_handle_checkpoints (nan_on params_have_nan he) (on_refs he g) epoch old p dt m c)
      (save_metrics_and_handle_checkpoints params_have_nan g epoch oldv pv dv m d).
  Proof.
    intros Hp Hd Ho Hc. unfold save_metrics_and_handle_checkpoints.
    change (logdir (on_refs he g)) with (logdir g).
    destruct (logdir g) as [ld|]; [|simpl; auto].
    assert (N : add_amplitude (on_refs he g) m dt = add_amplitude g m dv).
    { unfold add_amplitude. simpl. destruct (record_amplitudes g); [|reflexivity].
      destruct (get_amplitude_fn g); [|reflexivity]. now rewrite (holds_read _ _ _ Hd). }
    rewrite N. destruct (add_amplitude g m dv) as [m'|]; [|simpl; auto].
    pose proof (same_regular Q he g ld epoch old oldv p pv m' c d Hp Ho Hc) as H1.
    destruct (save_metrics_and_regular_checkpoint (nan_on params_have_nan he) _ _ _ _ _ _ _) as [c1 n|c1 e],
             (save_metrics_and_regular_checkpoint params_have_nan _ _ _ _ _ _ _) as [d1 n'|d1 e'];
      simpl in H1; try tauto; [|exact H1].
    destruct H1 as [H1 <-].
    pose proof (same_track Q he g ld epoch old oldv m' c1 d1 Ho H1) as H2.
    destruct (track_and_save_best_checkpoint (on_refs he g) _ _ _ _ _) as [c2 e2|c2 e2],
             (track_and_save_best_checkpoint g _ _ _ _ _) as [d2 e2'|d2 e2'];
      simpl in H2; try tauto; [|exact H2].
    destruct H2 as [H2 <-]. simpl. split; [|reflexivity].
    rewrite (s_metric _ _ _ Hc). now apply same_set_metric.
  Qed.

  (** The writer thread: it has written the first so many checkpoints completely. *)
  Definition wrote (done : list (file_write V))
      (vs : list (ckpt_write (list V) (list V) (list V) (list V))) : Prop :=
    done = complete_files (firstn (List.length done) vs).

  Lemma wrote_more done vs ws : wrote done vs -> wrote done (vs ++ ws).
  Proof.
    unfold wrote. intros E.
    assert (L : List.length done <= List.length vs).
    { rewrite E at 1. unfold complete_files. rewrite map_length, firstn_length. lia. }
    rewrite firstn_app. replace (List.length done - List.length vs) with 0 by lia.
    simpl. now rewrite app_nil_r.
  Qed.

  Lemma firstn_plus {A} (l : list A) : forall m n, firstn (m + n) l = (firstn m l ++ firstn n (skipn m l))%list.
  Proof.
    induction l as [|x l IH]; intros [|m] n; simpl; auto.
    - now rewrite firstn_nil.
    - now rewrite IH.
  Qed.

  Lemma firstn_self {A} n (l : list A) : firstn (List.length (firstn n l)) l = firstn n l.
  Proof.
    rewrite firstn_length. destruct (Nat.le_gt_cases n (List.length l)) as [L|L].
    - now rewrite Nat.min_l by lia.
    - rewrite Nat.min_r by lia. rewrite firstn_all, firstn_all2 by lia. reflexivity.
  Qed.

  Lemma wrote_some n h Z q vs done :
    Forall2 (same_item (kept Z h)) q vs -> wrote done vs -> wrote (write_some n h q done) vs.
  Proof.
    intros H E. unfold wrote, write_some in *.
    assert (M : forall (a : list (string * string * refs)) (b : list (ckpt_write (list V) (list V) (list V) (list V))),
      Forall2 (same_item (kept Z h)) a b ->
      map (fun w => (fst w, save_vmc_state h (snd w))) a = complete_files b).
    { intros a b Hab. induction Hab as [|x y a b [F1 F2] _ IH]; [reflexivity|].
      simpl. rewrite F1, (kept_save _ _ _ _ F2). now f_equal. }
    assert (S : forall k (a : list (string * string * refs)) (b : list (ckpt_write (list V) (list V) (list V) (list V))),
      Forall2 (same_item (kept Z h)) a b -> Forall2 (same_item (kept Z h)) (skipn k a) (skipn k b)).
    { induction k; intros a b Hab; [exact Hab|]. inversion Hab; subst; simpl; [constructor|auto]. }
    assert (T : forall k (a : list (string * string * refs)) (b : list (ckpt_write (list V) (list V) (list V) (list V))),
      Forall2 (same_item (kept Z h)) a b -> Forall2 (same_item (kept Z h)) (firstn k a) (firstn k b)).
    { induction k; intros a b Hab; [constructor|]. inversion Hab; subst; simpl; constructor; auto. }
    rewrite (M _ _ (T n _ _ (S (List.length done) _ _ H))).
    rewrite app_length. unfold complete_files. rewrite map_length, firstn_plus, map_app.
    f_equal; [exact E|]. now rewrite firstn_self.
  Qed.

  Lemma wrote_rest h Z q vs done :
    Forall2 (same_item (kept Z h)) q vs -> wrote done vs -> write_rest h q done = complete_files vs.
  Proof.
    intros H E. unfold write_rest.
    pose proof (wrote_some (List.length q) h Z q vs done H E) as W.
    assert (L : List.length q = List.length vs) by (clear - H; induction H; simpl; lia).
    assert (Ld : List.length done <= List.length vs).
    { pose proof (f_equal (@List.length _) E) as F. unfold complete_files in F.
      rewrite map_length, firstn_length in F. lia. }
    rewrite W. rewrite firstn_all2; [reflexivity|].
    unfold write_some. rewrite app_length, map_length, firstn_length, skipn_length. lia.
  Qed.

  Variable walk : heap -> list loc -> list loc -> list loc -> heap * xr * list loc * list loc.
  Variable w : list V -> list V -> list V -> xr * list V * list V.
  Variable update : heap -> list loc -> list loc -> list loc -> list loc
                    -> heap * list loc * list loc * list loc * option dict * list loc.
  Variable u : list V -> list V -> list V -> list V -> list V * list V * list V * option dict * list V.
  Hypothesis Hw : walks walk w.
  Hypothesis Hu : updates update u.
  Variable progress : nat -> nat * nat * nat * nat.

  Notation vst := (vstate (list V) (list V) (list V) (list V)).
  Record invar (s : bstate V) (v : vst) : Prop := {
    i_sound : sound (b_heap s);
    i_params : holds (b_heap s) (b_params s) (v_params v);
    i_opt : holds (b_heap s) (b_opt s) (v_opt v);
    i_data : holds (b_heap s) (b_data s) (v_data v);
    i_key : holds (b_heap s) (b_key s) (v_key v);
    i_apart_d : apart (b_data s) (b_params s ++ b_opt s ++ b_key s);
    i_apart_k : apart (b_key s) (b_params s ++ b_opt s);
    i_cs : same (kept (b_params s ++ b_opt s ++ b_key s) (b_heap s)) (b_cs s) (v_cs v);
    i_nans : b_nans s = v_nans v;
    i_wrote : wrote (b_written s) (cs_ckpts (v_cs v)) }.

  Definition invar_res (a : bstep_result V) (b : step_result (list V) (list V) (list V) (list V)) : Prop :=
    match a, b with
    | BContinue s, Continue v => invar s v
    | BBreak s, Break v => invar s v
    | BAbort s e, Abort_ v e' => invar s v /\ e = e'
    | _, _ => False
    end.

  (** What is queued only grows. *)
  Definition outcome {A} (r : M_vmc.res (list V) (list V) (list V) (list V) A) : cval :=
    match r with Ret c _ | Raise c _ => c end.
  Definition grows (c c' : cval) : Prop := exists ws, cs_ckpts c' = (cs_ckpts c ++ ws)%list.
  Lemma grows_refl c c' : cs_ckpts c' = cs_ckpts c -> grows c c'.
  Proof. intros E. exists []. now rewrite app_nil_r. Qed.
  Lemma grows_trans a b c : grows a b -> grows b c -> grows a c.
  Proof. intros [x E] [y F]. exists (x ++ y)%list. now rewrite F, E, app_assoc. Qed.
  Lemma grows_one a c x : cs_ckpts a = (cs_ckpts c ++ [x])%list -> grows c a.
  Proof. intros E. now exists [x]. Qed.

  Lemma regular_grows g ld epoch old p m (c : cval) :
    grows c (outcome (save_metrics_and_regular_checkpoint params_have_nan g ld epoch old p m c)).
  Proof.
    unfold save_metrics_and_regular_checkpoint.
    assert (After : forall (c2 : cval), grows c c2 -> grows c (outcome
      (if check_for_nans g then
         match check_nans_fn params_have_nan m p with
         | None => Raise c2 KeyError
         | Some true => Ret (queue_ckpt (path_join ld (checkpoint_dir g), nans_name epoch, old) c2) true
         | Some false => Ret c2 false end else Ret c2 false))).
    { intros c2 H2. destruct (check_for_nans g); [|exact H2].
      destruct (check_nans_fn params_have_nan m p) as [[|]|]; simpl; auto.
      eapply grows_trans; [exact H2|]. eapply grows_one. reflexivity. }
    destruct (checkpoint_every g) as [[|k]|].
    - apply grows_refl. reflexivity.
    - destruct (divides_b (S k) (epoch + 1)); apply After.
      + eapply grows_one. reflexivity.
      + apply grows_refl. reflexivity.
    - apply After, grows_refl. reflexivity.
  Qed.

  Lemma track_grows g ld epoch old m (c : cval) :
    grows c (outcome (track_and_save_best_checkpoint g ld epoch old m c)).
  Proof.
    unfold track_and_save_best_checkpoint.
    destruct (best_checkpoint_every g) as [k|]; [|now apply grows_refl].
    destruct (dget m "energy") as [e|]; [|now apply grows_refl].
    destruct (dget m "variance") as [v|]; [|now apply grows_refl].
    destruct k as [|k]; [now apply grows_refl|].
    match goal with |- context [match ?x with Some _ => _ | None => _ end] => destruct x as [b|] end;
      [|now apply grows_refl].
    destruct (divides_b (S k) (epoch + 1)); [|now apply grows_refl].
    eapply grows_one. reflexivity.
  Qed.

  Lemma handle_grows g epoch old p dt m (c : cval) :
    grows c (outcome (save_metrics_and_handle_checkpoints params_have_nan g epoch old p dt m c)).
  Proof.
    unfold save_metrics_and_handle_checkpoints.
    destruct (logdir g) as [ld|]; [|now apply grows_refl].
    destruct (add_amplitude g m dt) as [m'|]; [|now apply grows_refl].
    pose proof (regular_grows g ld epoch old p m' c) as H1.
    destruct (save_metrics_and_regular_checkpoint _ _ _ _ _ _ _ _) as [c1 n|c1 e]; [|exact H1].
    pose proof (track_grows g ld epoch old m' c1) as H2.
    destruct (track_and_save_best_checkpoint _ _ _ _ _ _) as [c2 n2|c2 e2]; simpl in *;
      (eapply grows_trans; [exact H1|exact H2]).
  Qed.

  Lemma epoch_ok g epoch s v :
    invar s v ->
    invar_res (bepoch walk update params_have_nan progress g epoch s)
              (epoch_step w u params_have_nan g epoch v).
  Proof.
    intros [Hs Hp Ho Hd Hk Ad Ak Hc Hn Hwr].
    unfold bepoch, epoch_step.
    destruct (progress epoch) as [[[n1 n2] n3] n4].
    destruct (copied _ _ _ Hs Hp) as (ha & op & Ea & Hop & Oa & Na). rewrite Ea.
    assert (Hoa : holds ha (b_opt s) (v_opt v)) by (eapply holds_only; eauto; intros ? ? []).
    destruct (copied _ _ _ (proj1 Oa) Hoa) as (hb & os & Eb & Hos & Ob & Nb). rewrite Eb.
    assert (Hkb : holds hb (b_key s) (v_key v)).
    { eapply holds_only; [exact Ob|intros ? ? []|]. eapply holds_only; [exact Oa|intros ? ? []|exact Hk]. }
    destruct (copied _ _ _ (proj1 Ob) Hkb) as (hc & ok & Ec & Hok & Oc & Nc). rewrite Ec.
    assert (Oac : only_deletes [] (b_heap s) hc).
    { apply (only_trans [] [] [] _ hb); [|exact Oc|apply incl_refl|apply incl_refl].
      apply (only_trans [] [] [] _ ha); auto using incl_refl. }
    assert (Keep : forall ls vs, holds (b_heap s) ls vs -> holds hc ls vs)
      by (intros; eapply holds_only; [exact Oac|intros ? ? []|assumption]).
    pose proof (proj1 Oac) as Hsc.
    set (Z := (b_params s ++ b_opt s ++ b_key s)%list).
    set (old := {| c_epoch := epoch; c_data := b_data s; c_params := op; c_opt := os; c_key := ok |}).
    set (oldv := {| c_epoch := epoch; c_data := v_data v; c_params := v_params v;
                    c_opt := v_opt v; c_key := v_key v |}).
    assert (LZ : forall l, In l Z -> l < h_next (b_heap s)).
    { intros l Hl. unfold Z in Hl. rewrite !in_app_iff in Hl.
      destruct Hl as [Hl|[Hl|Hl]];
        [exact (holds_lt _ _ _ _ Hs Hp Hl)|exact (holds_lt _ _ _ _ Hs Ho Hl)|exact (holds_lt _ _ _ _ Hs Hk Hl)]. }
    assert (Kold : kept Z hc old oldv).
    { split; simpl; auto.
      - eapply holds_only; [exact Oc|intros ? ? []|]. eapply holds_only; [exact Ob|intros ? ? []|exact Hop].
      - eapply holds_only; [exact Oc|intros ? ? []|exact Hos].
      - intros l Hl Hz. pose proof (LZ l Hz) as Hlt. unfold arrays in Hl. simpl in Hl.
        rewrite !in_app_iff in Hl. destruct Oa as (_ & La & _), Ob as (_ & Lb & _).
        destruct Hl as [Hl|[Hl|[Hl|Hl]]].
        + exact (Ad l Hl Hz).
        + specialize (Na l Hl). lia.
        + specialize (Nb l Hl). lia.
        + specialize (Nc l Hl). lia. }
    assert (Hcc : same (kept Z hc) (b_cs s) (v_cs v)).
    { eapply same_mono; [|exact Hc]. intros r f. apply kept_only with (X := []); [exact Oac|intros ? []]. }
    pose proof (wrote_some n1 _ _ _ _ _ (s_ckpts _ _ _ Hcc) Hwr) as W1.
    destruct (walk hc (b_params s) (b_data s) (b_key s)) as [[[hd a] d1] k1] eqn:Ew.
    destruct (Hw hc (b_params s) (b_data s) (b_key s) (v_params v) (v_data v) (v_key v) hd a d1 k1
                Hsc (Keep _ _ Hp) (Keep _ _ Hd) (Keep _ _ Hk)) as
      (dv1 & kv1 & Ewv & Hd1 & Hk1 & Od & Pd & Pk & Adk); [| |exact Ew|].
    { eapply apart_sub; [exact Ad|apply incl_refl|]. intros l Hl. rewrite !in_app_iff in *. tauto. }
    { eapply apart_sub; [exact Ak|apply incl_refl|]. intros l Hl. rewrite !in_app_iff in *. tauto. }
    rewrite Ewv.
    assert (IkZ : incl (b_key s) Z) by (intros l Hl; unfold Z; rewrite !in_app_iff; tauto).
    assert (Hcd : same (kept Z hd) (b_cs s) (v_cs v)).
    { eapply same_mono; [|exact Hcc]. intros r f. now apply kept_only with (X := b_key s). }
    assert (Kold2 : kept Z hd old oldv) by (eapply kept_only; eauto).
    pose proof (wrote_some n2 _ _ _ _ _ (s_ckpts _ _ _ Hcd) W1) as W2.
    pose proof (proj1 Od) as Hsd.
    assert (Hpd : holds hd (b_params s) (v_params v)).
    { eapply holds_only; [exact Od| |exact (Keep _ _ Hp)].
      apply apart_sym. eapply apart_sub; [exact Ak|apply incl_refl|]. intros l Hl. rewrite in_app_iff. tauto. }
    assert (Hsd' : holds hd (b_opt s) (v_opt v)).
    { eapply holds_only; [exact Od| |exact (Keep _ _ Ho)].
      apply apart_sym. eapply apart_sub; [exact Ak|apply incl_refl|]. intros l Hl. rewrite in_app_iff. tauto. }
    assert (Lc : h_next (b_heap s) <= h_next hc) by apply Oac.
    assert (Hlt_d : forall l, In l (b_data s) -> l < h_next hc) by (intros l Hl; exact (holds_lt _ _ _ _ Hsc (Keep _ _ Hd) Hl)).
    assert (LZc : forall l, In l Z -> l < h_next hc) by (intros l Hl; specialize (LZ l Hl); lia).
    destruct (update hd (b_params s) d1 (b_opt s) k1) as [[[[[he p2] d2] s2] m] k2] eqn:Eu.
    destruct (Hu hd (b_params s) d1 (b_opt s) k1 (v_params v) dv1 (v_opt v) kv1 he p2 d2 s2 m k2
                Hsd Hpd Hd1 Hsd' Hk1) as
      (pv2 & dv2 & sv2 & kv2 & Euv & Hp2 & Hd2 & Hs2 & Hk2 & Oe & Pp2 & Ps2 & Pd2 & Pk2 & Ad2 & Ak2);
      [| |exact Eu|].
    { intros l Hl Hz. rewrite !in_app_iff in Hz.
      destruct Hz as [Hz|[Hz|Hz]]; [| |exact (Adk l Hl Hz)];
        (assert (HzZ : In l Z) by (unfold Z; rewrite !in_app_iff; tauto));
        (destruct (Pd l Hl) as [Hi|Hi]; [exact (Ad l Hi HzZ)|specialize (LZc l HzZ); lia]). }
    { intros l Hl Hz.
      assert (HzZ : In l Z) by (unfold Z; rewrite !in_app_iff in *; tauto).
      destruct (Pk l Hl) as [Hi|Hi]; [exact (Ak l Hi Hz)|specialize (LZc l HzZ); lia]. }
    rewrite Euv.
    set (Z1 := (b_params s ++ b_opt s ++ k1)%list) in *.
    assert (PZ1 : passed_or_new hc Z Z1).
    { intros l Hl. unfold Z1 in Hl. rewrite !in_app_iff in Hl.
      destruct Hl as [Hl|[Hl|Hl]]; [left; unfold Z; rewrite !in_app_iff; tauto|
        left; unfold Z; rewrite !in_app_iff; tauto|].
      destruct (Pk l Hl) as [Hi|Hi]; [left; unfold Z; rewrite !in_app_iff; tauto|now right]. }
    (* before the update: out of reach of what the update may delete *)
    assert (Mv : forall r f, kept Z hc r f -> kept Z1 hd r f).
    { intros r f Hr. eapply kept_move; [exact Hsc|exact Hr| |exact PZ1]. eapply kept_only; eauto. }
    set (Z2 := (p2 ++ s2 ++ k2)%list).
    assert (PZ2 : passed_or_new hd Z1 Z2).
    { intros l Hl. unfold Z2 in Hl. rewrite !in_app_iff in Hl.
      destruct Hl as [Hl|[Hl|Hl]].
      - destruct (Pp2 l Hl) as [Hi|Hi]; [left; unfold Z1; rewrite !in_app_iff in *; tauto|now right].
      - destruct (Ps2 l Hl) as [Hi|Hi]; [left; unfold Z1; rewrite !in_app_iff in *; tauto|now right].
      - destruct (Pk2 l Hl) as [Hi|Hi]; [left; unfold Z1; rewrite !in_app_iff in *; tauto|now right]. }
    assert (Mv2 : forall r f, kept Z hc r f -> kept Z2 he r f).
    { intros r f Hr. eapply kept_move; [exact Hsd|exact (Mv r f Hr)| |exact PZ2].
      eapply kept_only; [exact Oe|apply incl_refl|exact (Mv r f Hr)]. }
    assert (Hce : same (kept Z2 he) (b_cs s) (v_cs v)) by (eapply same_mono; [exact Mv2|exact Hcc]).
    pose proof (Mv2 _ _ Kold) as Kold3.
    pose proof (wrote_some n3 _ _ _ _ _ (s_ckpts _ _ _ Hce) W2) as W3.
    destruct m as [m|].
    - pose proof (same_handle (kept Z2 he) he g epoch old oldv p2 pv2 d2 dv2 (dset m "accept_ratio" a)
                    (b_cs s) (v_cs v) Hp2 Hd2 Kold3 Hce) as HH.
      pose proof (handle_grows g epoch oldv pv2 dv2 (dset m "accept_ratio" a) (v_cs v)) as [ws G]; unfold outcome in G.
      destruct (save_metrics_and_handle_checkpoints (nan_on params_have_nan he) _ _ _ _ _ _ _) as [c' nn|c' e],
               (save_metrics_and_handle_checkpoints params_have_nan g _ _ _ _ _ _) as [c'' nn'|c'' e'];
        simpl in HH; try tauto; destruct HH as [HH <-].
      + assert (I : forall b, invar
          {| b_heap := he; b_params := p2; b_opt := s2; b_data := d2; b_key := k2; b_cs := c'; b_nans := b;
             b_written := write_some n4 he (cs_ckpts c') (write_some n3 he (cs_ckpts (b_cs s))
               (write_some n2 hd (cs_ckpts (b_cs s)) (write_some n1 hc (cs_ckpts (b_cs s)) (b_written s)))) |}
          {| v_params := pv2; v_opt := sv2; v_data := dv2; v_key := kv2; v_cs := c''; v_nans := b |}).
        { intros b. split; simpl; auto; [exact (proj1 Oe)|].
          eapply wrote_some; [exact (s_ckpts _ _ _ HH)|]. rewrite G. now apply wrote_more. }
        destruct nn; simpl; apply I.
      + simpl. split; [|reflexivity]. split; simpl; auto; [exact (proj1 Oe)|].
        eapply wrote_some; [exact (s_ckpts _ _ _ HH)|]. rewrite G. now apply wrote_more.
    - simpl. split; simpl; auto; [exact (proj1 Oe)|].
      eapply wrote_some; [exact (s_ckpts _ _ _ Hce)|exact W3].
  Qed.

  Lemma loop_ok g n : forall epoch s v,
    invar s v ->
    invar_res (bloop walk update params_have_nan progress g n epoch s)
              (loop w u params_have_nan g n epoch v).
  Proof.
    induction n as [|n IH]; intros epoch s v Hi; [exact Hi|].
    simpl. pose proof (epoch_ok g epoch s v Hi) as He.
    destruct (bepoch _ _ _ _ _ _ _), (epoch_step _ _ _ _ _ _); simpl in He; try tauto; auto.
  Qed.

  Lemma run_ok g start n h p s d k pv sv dv kv :
    sound h -> holds h p pv -> holds h s sv -> holds h d dv -> holds h k kv ->
    apart d (p ++ s ++ k) -> apart k (p ++ s) ->
    match bvmc_loop walk update params_have_nan progress g start n h p s d k,
          vmc_loop w u params_have_nan g start n pv sv dv kv with
    | BFinished h' p' s' d' k' nans files metrics, Finished pv' sv' dv' kv' nans' cs metrics' =>
        holds h' p' pv' /\ holds h' s' sv' /\ holds h' d' dv' /\ holds h' k' kv' /\ nans = nans' /\
        files = complete_files cs /\ metrics = metrics'
    | BRaised e files metrics, Raised e' cs metrics' =>
        e = e' /\ files = complete_files cs /\ metrics = metrics'
    | _, _ => False
    end.
  Proof.
    intros Hs Hp Ho Hd Hk Ad Ak. unfold bvmc_loop, vmc_loop.
    match goal with |- context [bloop _ _ _ _ _ _ _ ?s] => set (s0 := s) end.
    match goal with |- context [loop _ _ _ _ _ _ ?s] => set (v0 := s) end.
    assert (I0 : invar s0 v0).
    { split; simpl; auto; [|reflexivity]. split; simpl; auto. }
    pose proof (loop_ok g (n - start) start s0 v0 I0) as H.
    assert (Fin : forall s1 v1, invar s1 v1 ->
      same (kept (b_params s1 ++ b_opt s1 ++ b_key s1) (b_heap s1))
        (finish_checkpointing (on_refs (b_heap s1) g) (b_cs s1)) (finish_checkpointing g (v_cs v1)) /\
      wrote (b_written s1) (cs_ckpts (finish_checkpointing g (v_cs v1)))).
    { intros s1 v1 [? ? ? ? ? ? ? Hc ? W]. unfold finish_checkpointing.
      change (logdir (on_refs (b_heap s1) g)) with (logdir g).
      pose proof (s_best _ _ _ Hc) as Hb.
      destruct (logdir g) as [ld|]; [|auto].
      destruct (cs_best (b_cs s1)), (cs_best (v_cs v1)); simpl in Hb; try tauto; auto.
      split; [now apply same_queue|]. now apply wrote_more. }
    destruct (bloop _ _ _ _ _ _ _ _) as [s1|s1|s1 e|], (loop _ _ _ _ _ _ _) as [v1|v1|v1 e'];
      simpl in H; try tauto.
    - destruct (Fin _ _ H) as [Hf W]. destruct H. repeat split; auto.
      + eapply wrote_rest; [exact (s_ckpts _ _ _ Hf)|exact W].
      + exact (s_metrics _ _ _ Hf).
    - destruct (Fin _ _ H) as [Hf W]. destruct H. repeat split; auto.
      + eapply wrote_rest; [exact (s_ckpts _ _ _ Hf)|exact W].
      + exact (s_metrics _ _ _ Hf).
    - destruct H as [[] <-]. repeat split; auto.
      + eapply wrote_rest; [exact (s_ckpts _ _ _ i_cs0)|assumption].
      + exact (s_metrics _ _ _ i_cs0).
  Qed.
End Proofs.

(** ** Compiled functions that reuse the memory of their arguments *)
Section Donate.
  Context {V : Type}.

  (** The buffers of [ls] are deleted. *)
  Definition delete (h : heap V) (ls : list loc) : heap V :=
    {| h_next := h_next h; h_at := fun l => if existsb (Nat.eqb l) ls then None else h_at h l |}.
  Fixpoint new_arrays (h : heap V) (vs : list V) : heap V * list loc :=
    match vs with
    | [] => (h, [])
    | v :: r => let '(h1, l) := alloc h v in let '(h2, ls) := new_arrays h1 r in (h2, l :: ls)
    end.

  Lemma new_arrays_ok vs : forall h,
    sound h -> let '(h', ls) := new_arrays h vs in
    holds h' ls vs /\ only_deletes [] h h' /\ (forall l, In l ls -> h_next h <= l < h_next h').
  Proof.
    induction vs as [|v vs IH]; intros h Hs; simpl.
    - repeat split; auto; try constructor; destruct H.
    - set (h1 := {| h_next := _; h_at := _ |}).
      assert (O1 : only_deletes [] h h1).
      { split; [|split; [simpl; lia|]].
        - intros x w. unfold h1. simpl. destruct (Nat.eqb_spec x (h_next h)) as [->|]; [lia|].
          intros Hx. specialize (Hs _ _ Hx). lia.
        - intros x w Hx _. unfold h1. simpl. destruct (Nat.eqb_spec x (h_next h)) as [->|]; [|exact Hx].
          specialize (Hs _ _ Hx). lia. }
      specialize (IH h1 (proj1 O1)). destruct (new_arrays h1 vs) as [h2 ls]. destruct IH as (H2 & O2 & N2).
      split; [|split].
      + constructor; [|exact H2]. apply (proj2 (proj2 O2)); [|intros []].
        unfold h1. simpl. now rewrite Nat.eqb_refl.
      + apply (only_trans [] [] [] _ h1); auto using incl_refl.
      + destruct O2 as (_ & L2 & _). unfold h1 in L2. simpl in L2.
        intros x [<-|Hx]; [lia|]. specialize (N2 x Hx). unfold h1 in N2. simpl in N2. lia.
  Qed.

  Lemma delete_ok h ls : sound h -> only_deletes ls h (delete h ls).
  Proof.
    intros Hs. split; [|split; [simpl; lia|]].
    - intros l v. simpl. destruct (existsb _ _); [discriminate|]. apply Hs.
    - intros l v E N. simpl. destruct (existsb (Nat.eqb l) ls) eqn:X; [|exact E].
      apply existsb_exists in X. destruct X as (y & Hy & Ey). apply Nat.eqb_eq in Ey. subst. tauto.
  Qed.

  (** A compiled walker function: new arrays for the walkers and the key, the old key is deleted. *)
  Definition donating_walk (w : list V -> list V -> list V -> xr * list V * list V)
      (h : heap V) (p d k : list loc) : heap V * xr * list loc * list loc :=
    match read_leaves h p, read_leaves h d, read_leaves h k with
    | Some pv, Some dv, Some kv =>
        let '(a, dv', kv') := w pv dv kv in
        let '(h1, d') := new_arrays (delete h k) dv' in
        let '(h2, k') := new_arrays h1 kv' in
        (h2, a, d', k')
    | _, _, _ => (h, NaN, [], [])
    end.

  (** A compiled update: new arrays for everything but the walkers, which are passed through, and the
      buffers of [also] and of the old parameters, the old state and the old key are deleted. *)
  Definition donating_update (also : list loc -> list loc)
      (u : list V -> list V -> list V -> list V -> list V * list V * option dict * list V)
      (h : heap V) (p d s k : list loc)
      : heap V * list loc * list loc * list loc * option dict * list loc :=
    match read_leaves h p, read_leaves h d, read_leaves h s, read_leaves h k with
    | Some pv, Some dv, Some sv, Some kv =>
        let '(pv', sv', m, kv') := u pv dv sv kv in
        let '(h0, d') := match also d with [] => (h, d) | _ => new_arrays h dv end in
        let '(h1, p') := new_arrays (delete h0 (p ++ s ++ k ++ also d)) pv' in
        let '(h2, s') := new_arrays h1 sv' in
        let '(h3, k') := new_arrays h2 kv' in
        (h3, p', d', s', m, k')
    | _, _, _, _ => (h, [], [], [], None, [])
    end.

  Lemma donating_walks w : walks (donating_walk w) w.
  Proof.
    intros h p d k pv dv kv h' a d' k' Hs Hp Hd Hk A1 A2 E.
    unfold donating_walk in E.
    rewrite (holds_read _ _ _ Hp), (holds_read _ _ _ Hd), (holds_read _ _ _ Hk) in E.
    destruct (w pv dv kv) as [[a0 dv'] kv'].
    pose proof (delete_ok h k Hs) as O0.
    pose proof (new_arrays_ok dv' (delete h k) (proj1 O0)) as N1.
    destruct (new_arrays (delete h k) dv') as [h1 l1]. destruct N1 as (H1 & O1 & B1).
    pose proof (new_arrays_ok kv' h1 (proj1 O1)) as N2.
    destruct (new_arrays h1 kv') as [h2 l2]. destruct N2 as (H2 & O2 & B2).
    injection E as <- <- <- <-. exists dv', kv'.
    split; [reflexivity|]. split; [eapply holds_only; [exact O2|intros ? ? []|exact H1]|].
    split; [exact H2|].
    assert (L1 : h_next h <= h_next h1) by (destruct O1 as (_ & L & _); exact L).
    split; [|split; [|split]].
    - apply (only_trans k [] k _ h1); [|exact O2|apply incl_refl|intros ? []].
      apply (only_trans k [] k _ (delete h k)); auto using incl_refl; intros ? [].
    - intros l Hl. right. specialize (B1 l Hl). simpl in B1. lia.
    - intros l Hl. right. specialize (B2 l Hl). lia.
    - intros l Hl Hl'. specialize (B1 l Hl). specialize (B2 l Hl'). lia.
  Qed.

  Lemma donating_updates u :
    updates (donating_update (fun _ => []) u)
      (fun pv dv sv kv => let '(pv', sv', m, kv') := u pv dv sv kv in (pv', dv, sv', m, kv')).
  Proof.
    intros h p d s k pv dv sv kv h' p' d' s' m k' Hs Hp Hd Ho Hk A1 A2 E.
    unfold donating_update in E.
    rewrite (holds_read _ _ _ Hp), (holds_read _ _ _ Hd), (holds_read _ _ _ Ho), (holds_read _ _ _ Hk) in E.
    destruct (u pv dv sv kv) as [[[pv' sv'] m0] kv'].
    rewrite app_nil_r in E.
    pose proof (delete_ok h (p ++ s ++ k) Hs) as O0.
    pose proof (new_arrays_ok pv' (delete h (p ++ s ++ k)) (proj1 O0)) as N1.
    destruct (new_arrays (delete h (p ++ s ++ k)) pv') as [h1 l1]. destruct N1 as (H1 & O1 & B1).
    pose proof (new_arrays_ok sv' h1 (proj1 O1)) as N2.
    destruct (new_arrays h1 sv') as [h2 l2]. destruct N2 as (H2 & O2 & B2).
    pose proof (new_arrays_ok kv' h2 (proj1 O2)) as N3.
    destruct (new_arrays h2 kv') as [h3 l3]. destruct N3 as (H3 & O3 & B3).
    injection E as <- <- <- <- <- <-. exists pv', dv, sv', kv'.
    split; [reflexivity|].
    assert (Step : forall a b ls vs, only_deletes [] a b -> @holds V a ls vs -> holds b ls vs)
      by (intros; eapply holds_only; [eassumption|intros ? ? []|assumption]).
    assert (L1 : h_next h <= h_next h1) by (destruct O1 as (_ & L & _); exact L).
    assert (L2 : h_next h1 <= h_next h2) by (destruct O2 as (_ & L & _); exact L).
    assert (Ld : forall l, In l d -> l < h_next h) by (intros l Hl; exact (holds_lt _ _ _ _ Hs Hd Hl)).
    assert (Hd0 : holds (delete h (p ++ s ++ k)) d dv) by (eapply holds_only; eauto).
    split; [eauto|]. split; [eauto|]. split; [eauto|]. split; [exact H3|].
    split; [|split; [|split; [|split; [|split; [|split]]]]].
    - apply (only_trans (p ++ s ++ k) [] (p ++ s ++ k) _ h2); [|exact O3|apply incl_refl|intros ? []].
      apply (only_trans (p ++ s ++ k) [] (p ++ s ++ k) _ h1); [|exact O2|apply incl_refl|intros ? []].
      apply (only_trans (p ++ s ++ k) [] (p ++ s ++ k) _ (delete h (p ++ s ++ k))); auto using incl_refl; intros ? [].
    - intros l Hl. right. specialize (B1 l Hl). simpl in B1. lia.
    - intros l Hl. right. specialize (B2 l Hl). lia.
    - intros l Hl. now left.
    - intros l Hl. right. specialize (B3 l Hl). lia.
    - intros l Hl Hz. specialize (Ld l Hl). rewrite !in_app_iff in Hz.
      destruct Hz as [Hz|[Hz|Hz]]; [specialize (B1 l Hz); simpl in B1|specialize (B2 l Hz)|specialize (B3 l Hz)]; lia.
    - intros l Hl Hz. specialize (B3 l Hl). rewrite in_app_iff in Hz.
      destruct Hz as [Hz|Hz]; [specialize (B1 l Hz)|specialize (B2 l Hz)]; lia.
  Qed.
End Donate.

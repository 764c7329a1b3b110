(** * Proofs about the log directories of a sequence of jobs *)
From Coq Require Import String List Ascii Arith Bool Lia FinFun DecimalString.
From Verif Require Import XReal M_io M_vmc P_vmc S_io P_io M_config M_logdir S_logdir.
Import ListNotations.
Local Open Scope string_scope.

(** ** Paths *)
Lemma path_eqb_spec p q : path_eqb p q = true <-> p = q.
Proof.
  revert q. induction p as [|a p IH]; intros [|b q]; simpl; split; intros H; try discriminate; auto.
  - apply andb_true_iff in H. destruct H as [H1 H2]. apply String.eqb_eq in H1. apply IH in H2. congruence.
  - injection H as -> ->. rewrite String.eqb_refl. apply IH. reflexivity.
Qed.
Lemma path_eqb_neq p q : path_eqb p q = false <-> p <> q.
Proof.
  split; intros H.
  - intros E. apply path_eqb_spec in E. congruence.
  - destruct (path_eqb p q) eqn:E; [|reflexivity]. apply path_eqb_spec in E. contradiction.
Qed.

Lemma append_nil_r_s a : a ++ "" = a.
Proof. induction a; simpl; congruence. Qed.

Lemma push_app a l1 l2 : push a (l1 ++ l2)%list = (push a l1 ++ l2)%list.
Proof. unfold push. destruct (_ || _); reflexivity. Qed.

Fixpoint sp (cur p : string) : list string * string :=
  match p with
  | EmptyString => ([], cur)
  | String c r =>
      if Ascii.eqb c sep then (push cur (fst (sp "" r)), snd (sp "" r))
      else sp (cur ++ String c "") r
  end.

Lemma split_nosep x : forall cur, no_sep x = true -> split_at_sep cur x = push (cur ++ x) [].
Proof.
  induction x as [|c x IH]; intros cur H; simpl in *.
  - rewrite append_nil_r_s. reflexivity.
  - apply andb_true_iff in H. destruct H as [H1 H2]. apply negb_true_iff in H1. rewrite H1.
    rewrite IH by exact H2. rewrite app_assoc_s. reflexivity.
Qed.
Lemma split_sp p : forall cur x, no_sep x = true ->
  split_at_sep cur (p ++ x) = (fst (sp cur p) ++ push (snd (sp cur p) ++ x) [])%list.
Proof.
  induction p as [|c p IH]; intros cur x H; simpl.
  - apply split_nosep, H.
  - destruct (Ascii.eqb c sep).
    + simpl. rewrite IH by exact H. rewrite push_app. reflexivity.
    + apply IH, H.
Qed.

Lemma split_sep p : forall cur q, split_at_sep cur (p ++ String sep q) = (split_at_sep cur p ++ components q)%list.
Proof.
  induction p as [|c p IH]; intros cur q; simpl.
  - rewrite <- push_app. reflexivity.
  - destruct (Ascii.eqb c sep); [rewrite IH, push_app; reflexivity|apply IH].
Qed.
Lemma split_last_sep p : forall cur q, last_is_sep p = true ->
  split_at_sep cur (p ++ q) = (split_at_sep cur p ++ components q)%list.
Proof.
  induction p as [|c p IH]; intros cur q H; [discriminate|].
  destruct p as [|c' p].
  - simpl in *. rewrite H. rewrite <- push_app. reflexivity.
  - change (last_is_sep (String c' p) = true) in H.
    change (split_at_sep cur (String c (String c' p) ++ q)) with
      (if Ascii.eqb c sep then push cur (split_at_sep "" (String c' p ++ q))
       else split_at_sep (cur ++ String c "") (String c' p ++ q)).
    change (split_at_sep cur (String c (String c' p))) with
      (if Ascii.eqb c sep then push cur (split_at_sep "" (String c' p))
       else split_at_sep (cur ++ String c "") (String c' p)).
    destruct (Ascii.eqb c sep); [rewrite IH, push_app by exact H; reflexivity|apply IH, H].
Qed.

Lemma resolve_join cwd a b : first_is_sep b = false ->
  resolve cwd (path_join a b) = (resolve cwd a ++ components b)%list.
Proof.
  intros Hb. unfold path_join. rewrite Hb.
  destruct (String.eqb a "") eqn:Ea; simpl.
  - apply String.eqb_eq in Ea. subst a. simpl. unfold resolve. rewrite Hb. simpl.
    unfold components. simpl. change (push "" []) with (@nil string). rewrite app_nil_r. reflexivity.
  - apply String.eqb_neq in Ea. destruct (last_is_sep a) eqn:El.
    + assert (Hf : first_is_sep (a ++ b) = first_is_sep a) by (destruct a; [congruence|reflexivity]).
      unfold resolve. rewrite Hf.
      assert (Hc : components (a ++ b) = (components a ++ components b)%list) by (apply split_last_sep, El).
      rewrite Hc. destruct (first_is_sep a); [reflexivity|rewrite app_assoc; reflexivity].
    + assert (Hf : first_is_sep (a ++ "/" ++ b) = first_is_sep a) by (destruct a; [congruence|reflexivity]).
      change (a ++ String "/" b) with (a ++ "/" ++ b). unfold resolve. rewrite Hf.
      assert (Hc : components (a ++ "/" ++ b) = (components a ++ components b)%list) by apply split_sep.
      rewrite Hc. destruct (first_is_sep a); [reflexivity|rewrite app_assoc; reflexivity].
Qed.

Lemma components_single n : no_sep n = true -> n <> "" -> n <> "." -> components n = [n].
Proof.
  intros H1 H2 H3. unfold components. rewrite split_nosep by exact H1. simpl. unfold push.
  apply String.eqb_neq in H2, H3. rewrite H2, H3. reflexivity.
Qed.
Lemma components_nosep n : no_sep n = true -> components n = [] \/ components n = [n].
Proof.
  intros H1. unfold components. rewrite split_nosep by exact H1. simpl. unfold push.
  destruct (_ || _); auto.
Qed.
Lemma no_sep_app a b : no_sep (a ++ b) = no_sep a && no_sep b.
Proof. induction a as [|c a IH]; simpl; [reflexivity|]. rewrite IH, andb_assoc. reflexivity. Qed.
Lemma no_sep_first a : no_sep a = true -> first_is_sep a = false.
Proof. destruct a; simpl; [reflexivity|]. intros H. apply andb_true_iff in H. apply negb_true_iff, (proj1 H). Qed.
Lemma str_nat_no_sep i : no_sep (str_nat i) = true.
Proof. unfold str_nat. generalize (Nat.to_uint i). induction u; simpl; auto. Qed.
Lemma no_sep_last a : no_sep a = true -> last_is_sep a = false.
Proof.
  induction a as [|c a IH]; intros H; [reflexivity|]. simpl in H. apply andb_true_iff in H. destruct H as [H1 H2].
  destruct a; [apply negb_true_iff, H1|apply IH, H2].
Qed.

Definition target (cwd : list string) (base rel suf : string) (i : nat) : list string :=
  resolve cwd (path_join base ((rel ++ "_" ++ str_nat i) ++ suf)).

Lemma path_join_app base rel x : first_is_sep x = false -> x <> "" ->
  path_join base (rel ++ x) = path_join base rel ++ x.
Proof.
  intros Hx Hne. unfold path_join. destruct rel as [|c r]; simpl.
  - rewrite Hx. destruct (String.eqb base "" || last_is_sep base).
    + rewrite append_nil_r_s. reflexivity.
    + rewrite app_assoc_s. reflexivity.
  - destruct (Ascii.eqb c sep); [reflexivity|].
    destruct (String.eqb base "" || last_is_sep base); rewrite !app_assoc_s; reflexivity.
Qed.

(** All numbered candidates lie in one directory and have different names there. *)
Lemma target_shape cwd base rel suf : no_sep suf = true ->
  exists d l, forall i, target cwd base rel suf i = (d ++ [(l ++ "_" ++ str_nat i ++ suf)%string])%list.
Proof.
  intros Hs. set (P := path_join base rel).
  assert (HP : forall i, path_join base ((rel ++ "_" ++ str_nat i) ++ suf) = P ++ ("_" ++ str_nat i ++ suf)).
  { intros i. rewrite app_assoc_s. rewrite path_join_app; [|reflexivity|discriminate].
    unfold P. f_equal. }
  exists ((if first_is_sep (P ++ "_") then [] else cwd) ++ fst (sp "" P))%list, (snd (sp "" P)).
  intros i. unfold target. rewrite HP. unfold resolve.
  assert (Hf : first_is_sep (P ++ "_" ++ str_nat i ++ suf) = first_is_sep (P ++ "_")) by (destruct P; reflexivity).
  rewrite Hf. unfold components. rewrite split_sp by (simpl; rewrite no_sep_app, str_nat_no_sep, Hs; reflexivity).
  assert (Hp : forall y, push (snd (sp "" P) ++ "_" ++ y) [] = [snd (sp "" P) ++ "_" ++ y]).
  { intros y. unfold push. destruct (snd (sp "" P)) as [|c0 s0]; [reflexivity|]. simpl.
    destruct s0; simpl; destruct (Ascii.eqb c0 "."); reflexivity. }
  rewrite Hp. destruct (first_is_sep (P ++ "_")); simpl; rewrite <- ?app_assoc; reflexivity.
Qed.
Lemma target_inj cwd base rel suf i j : no_sep suf = true ->
  target cwd base rel suf i = target cwd base rel suf j -> i = j.
Proof.
  intros Hs. destruct (target_shape cwd base rel suf Hs) as (d & l & H). rewrite !H. intros E.
  apply app_inj_tail in E. destruct E as [_ E]. apply string_app_inj_l, string_app_inj_l, string_app_inj_r, str_nat_inj in E.
  exact E.
Qed.

(** ** Nodes *)
Section Fs.
  Variable Rest : Type.
  Implicit Types s : fs Rest.

  Lemma find_put_same s p n : find (put s p n) p = Some n.
  Proof.
    induction s as [|[q m] s IH]; simpl.
    - rewrite (proj2 (path_eqb_spec p p) eq_refl). reflexivity.
    - destruct (path_eqb q p) eqn:E; simpl; rewrite E; [reflexivity|exact IH].
  Qed.
  Lemma find_put_other s p q n : q <> p -> find (put s p n) q = find s q.
  Proof.
    intros H. induction s as [|[r m] s IH]; simpl.
    - rewrite (proj2 (path_eqb_neq p q)) by auto. reflexivity.
    - destruct (path_eqb r p) eqn:E; simpl.
      + apply path_eqb_spec in E. subst r. rewrite (proj2 (path_eqb_neq p q)) by auto. reflexivity.
      + rewrite IH. reflexivity.
  Qed.
  Lemma at_put_same s p n : p <> [] -> node_at (put s p n) p = Some n.
  Proof. destruct p; [congruence|]. intros _. apply find_put_same. Qed.
  Lemma at_put_other s p q n : q <> p -> node_at (put s p n) q = node_at s q.
  Proof. destruct q; [reflexivity|]. apply find_put_other. Qed.
  Lemma find_In s p : find s p <> None -> In p (map fst s).
  Proof.
    induction s as [|[q m] s IH]; simpl; [congruence|]. destruct (path_eqb q p) eqn:E.
    - apply path_eqb_spec in E. auto.
    - auto.
  Qed.
  Lemma at_In s p : p <> [] -> node_at s p <> None -> In p (map fst s).
  Proof. destruct p; [congruence|]. intros _. apply find_In. Qed.

  (** Nothing that exists disappears, directories stay directories, JSON files keep their contents. *)
  Definition keeps s s' : Prop :=
    (forall p, node_at s p <> None -> node_at s' p <> None) /\
    (forall p, node_at s p = Some Dir -> node_at s' p = Some Dir) /\
    (forall p c, json_path p -> node_at s p = Some (File c) -> node_at s' p = Some (File c)).
  Lemma keeps_refl s : keeps s s.
  Proof. repeat split; auto. Qed.
  Lemma keeps_trans s1 s2 s3 : keeps s1 s2 -> keeps s2 s3 -> keeps s1 s3.
  Proof. intros (A1 & A2 & A3) (B1 & B2 & B3). repeat split; auto. Qed.

  Lemma sound_nonempty s p : p <> [] -> sound s -> node_at s p <> None -> node_at s (removelast p) = Some Dir.
  Proof.
    intros Hp Hs H. rewrite (app_removelast_last "" Hp) in H. apply Hs in H. exact H.
  Qed.

  Lemma put_dir_sound s p c : sound s -> node_at s p = Some Dir -> node_at s (p ++ [c]) = None ->
    sound (put s (p ++ [c]) Dir) /\ keeps s (put s (p ++ [c]) Dir).
  Proof.
    intros Hs Hp Hn. split.
    - intros q d. destruct (list_eq_dec string_dec (q ++ [d]) (p ++ [c])) as [E|E].
      + intros _. apply app_inj_tail in E. destruct E as [-> ->].
        rewrite at_put_other; [exact Hp|]. intros E. apply (f_equal (@List.length string)) in E. rewrite app_length in E. simpl in E. lia.
      + rewrite at_put_other by exact E. intros H. apply Hs in H.
        destruct (list_eq_dec string_dec q (p ++ [c])) as [->|E2]; [congruence|]. rewrite at_put_other by exact E2. exact H.
    - repeat split.
      + intros q Hq. destruct (list_eq_dec string_dec q (p ++ [c])) as [->|E]; [congruence|]. rewrite at_put_other by exact E. exact Hq.
      + intros q Hq. destruct (list_eq_dec string_dec q (p ++ [c])) as [->|E]; [congruence|]. rewrite at_put_other by exact E. exact Hq.
      + intros q d _ Hq. destruct (list_eq_dec string_dec q (p ++ [c])) as [->|E]; [congruence|]. rewrite at_put_other by exact E. exact Hq.
  Qed.

  (** [mkdirs]: everything is kept; on success the path is a directory; new nodes are directories
      on the path. *)
  Lemma mkdirs_spec todo : forall s dn s' ok, sound s -> node_at s dn = Some Dir ->
    mkdirs s dn todo = (s', ok) ->
    sound s' /\ keeps s s' /\ (ok = true -> node_at s' (dn ++ todo) = Some Dir) /\
    (forall q, node_at s' q = node_at s q \/
       node_at s q = None /\ node_at s' q = Some Dir /\ exists l, (q ++ l = dn ++ todo)%list).
  Proof.
    induction todo as [|c r IH]; intros s dn s' ok Hs Hd H; simpl in H.
    - injection H as <- <-. split; [exact Hs|]. split; [apply keeps_refl|]. split; [intros _; rewrite app_nil_r; exact Hd|].
      intros q. left. reflexivity.
    - destruct (node_at s (dn ++ [c])) as [[|fc]|] eqn:E.
      + destruct (IH _ _ _ _ Hs E H) as (A1 & A2 & A3 & A4). rewrite <- app_assoc in A3, A4. auto.
      + injection H as <- <-. split; [exact Hs|]. split; [apply keeps_refl|]. split; [discriminate|]. left. reflexivity.
      + destruct (put_dir_sound s dn c Hs Hd E) as [B1 B2].
        assert (Hn : (dn ++ [c])%list <> []) by (destruct dn; discriminate).
        destruct (IH (put s (dn ++ [c]) Dir) (dn ++ [c])%list _ _ B1 (at_put_same s (dn ++ [c])%list Dir Hn) H) as (A1 & A2 & A3 & A4).
        split; [exact A1|]. split; [eapply keeps_trans; eassumption|].
        rewrite <- app_assoc in A3, A4. split; [exact A3|]. intros q.
        destruct (list_eq_dec string_dec q (dn ++ [c])) as [->|E2].
        * right. split; [exact E|]. split; [|exists r; rewrite <- app_assoc; reflexivity].
          apply (proj1 (proj2 A2)). apply at_put_same, Hn.
        * rewrite <- (at_put_other s (dn ++ [c])%list q Dir E2). apply A4.
  Qed.

  Variable cwd : list string.

  Lemma makedirs_spec s p s' ok : sound s -> makedirs cwd s p = (s', ok) ->
    sound s' /\ keeps s s' /\ (ok = true -> p <> "" /\ node_at s' (resolve cwd p) = Some Dir) /\
    (forall q, node_at s' q = node_at s q \/
       node_at s q = None /\ node_at s' q = Some Dir /\ exists l, (q ++ l = resolve cwd p)%list).
  Proof.
    unfold makedirs. intros Hs H. destruct (String.eqb p "") eqn:E.
    - injection H as <- <-. split; [exact Hs|]. split; [apply keeps_refl|]. split; [discriminate|left; reflexivity].
    - apply String.eqb_neq in E.
      destruct (mkdirs_spec _ _ _ _ _ Hs (eq_refl : node_at s [] = Some Dir) H) as (A1 & A2 & A3 & A4).
      simpl in A3, A4. split; [exact A1|]. split; [exact A2|]. split; [auto|exact A4].
  Qed.

  Lemma write_file_spec s p c s' ok : sound s -> write_file s p c = (s', ok) ->
    (forall c0, json_path p -> node_at s p <> Some (File c0)) ->
    sound s' /\ keeps s s' /\ (ok = true -> node_at s' p = Some (File c)) /\
    (forall q, q <> p -> node_at s' q = node_at s q) /\
    (node_at s p = None -> p <> [] -> node_at s (removelast p) = Some Dir -> ok = true).
  Proof.
    unfold write_file. intros Hs H Hj.
    assert (Hsame : (s, false) = (s', ok) -> node_at s p <> None \/ node_at s (removelast p) <> Some Dir ->
      sound s' /\ keeps s s' /\ (ok = true -> node_at s' p = Some (File c)) /\
      (forall q, q <> p -> node_at s' q = node_at s q) /\
      (node_at s p = None -> p <> [] -> node_at s (removelast p) = Some Dir -> ok = true)).
    { intros E Hor. injection E as <- <-. split; [exact Hs|]. split; [apply keeps_refl|].
      split; [discriminate|]. split; [reflexivity|]. intros F1 _ F2. destruct Hor; congruence. }
    destruct (node_at s p) as [[|c0]|] eqn:E.
    - apply Hsame; [exact H|left; discriminate].
    - destruct (node_at s (removelast p)) as [[|c1]|] eqn:E1; try (apply Hsame; [exact H|left; discriminate]).
      injection H as <- <-.
      assert (Hp : p <> []) by (intros ->; discriminate).
      split; [|split; [|split; [|split]]].
      + intros q d. destruct (list_eq_dec string_dec q p) as [->|E2].
        * assert (E3 : (p ++ [d])%list <> p). { intros F. apply (f_equal (@List.length string)) in F. rewrite app_length in F. simpl in F. lia. }
          rewrite at_put_other by exact E3. intros F. apply Hs in F. congruence.
        * rewrite (at_put_other s p q) by exact E2. destruct (list_eq_dec string_dec (q ++ [d]) p) as [<-|E3].
          -- intros _. rewrite removelast_last in E1. exact E1.
          -- rewrite at_put_other by exact E3. apply Hs.
      + repeat split.
        * intros q Hq. destruct (list_eq_dec string_dec q p) as [->|E2]; [rewrite at_put_same by exact Hp; discriminate|rewrite at_put_other by exact E2; exact Hq].
        * intros q Hq. destruct (list_eq_dec string_dec q p) as [->|E2]; [congruence|rewrite at_put_other by exact E2; exact Hq].
        * intros q d Hjq Hq. destruct (list_eq_dec string_dec q p) as [->|E2]; [|rewrite at_put_other by exact E2; exact Hq].
          exfalso. apply (Hj c0 Hjq). reflexivity.
      + intros _. apply at_put_same, Hp.
      + intros q Hq. apply at_put_other, Hq.
      + discriminate.
    - destruct (node_at s (removelast p)) as [[|c1]|] eqn:E1; try (apply Hsame; [exact H|right; discriminate]).
      injection H as <- <-.
      assert (Hp : p <> []) by (intros ->; discriminate).
      split; [|split; [|split; [|split]]].
      + intros q d. destruct (list_eq_dec string_dec q p) as [->|E2].
        * assert (E3 : (p ++ [d])%list <> p). { intros F. apply (f_equal (@List.length string)) in F. rewrite app_length in F. simpl in F. lia. }
          rewrite at_put_other by exact E3. intros F. apply Hs in F. congruence.
        * rewrite (at_put_other s p q) by exact E2. destruct (list_eq_dec string_dec (q ++ [d]) p) as [<-|E3].
          -- intros _. rewrite removelast_last in E1. exact E1.
          -- rewrite at_put_other by exact E3. apply Hs.
      + repeat split.
        * intros q Hq. destruct (list_eq_dec string_dec q p) as [->|E2]; [rewrite at_put_same by exact Hp; discriminate|rewrite at_put_other by exact E2; exact Hq].
        * intros q Hq. destruct (list_eq_dec string_dec q p) as [->|E2]; [congruence|rewrite at_put_other by exact E2; exact Hq].
        * intros q d Hjq Hq. destruct (list_eq_dec string_dec q p) as [->|E2]; [congruence|rewrite at_put_other by exact E2; exact Hq].
      + intros _. apply at_put_same, Hp.
      + intros q Hq. apply at_put_other, Hq.
      + reflexivity.
  Qed.

  (** Writing a file [n] in directory [d]; [n] has no separator, or is fresh. *)
  Lemma open_w_spec s d n c s' ok : sound s -> open_or_create_w cwd s d n c = (s', ok) ->
    (forall c0, json_path (resolve cwd (path_join d n)) -> node_at s (resolve cwd (path_join d n)) <> Some (File c0)) ->
    sound s' /\ keeps s s' /\ (ok = true -> d <> "" /\ node_at s' (resolve cwd (path_join d n)) = Some (File c)) /\
    (forall q, q <> resolve cwd (path_join d n) -> node_at s' q <> node_at s q -> node_at s' q = Some Dir).
  Proof.
    unfold open_or_create_w. intros Hs H Hj.
    destruct (makedirs cwd s d) as [s1 ok1] eqn:E1.
    destruct (makedirs_spec _ _ _ _ Hs E1) as (A1 & A2 & A3 & A4).
    destruct ok1.
    - set (p := resolve cwd (path_join d n)) in *.
      assert (Hj1 : forall c0, json_path p -> node_at s1 p <> Some (File c0)).
      { intros c0 Hjp F. apply (Hj c0 Hjp). destruct (node_at s p) as [[|c1]|] eqn:E.
        - apply (proj1 (proj2 A2)) in E. congruence.
        - apply (proj2 (proj2 A2)) in E; [congruence|exact Hjp].
        - exfalso. destruct (A4 p) as [F2|(_ & F2 & _)]; congruence. }
      destruct (write_file_spec _ _ _ _ _ A1 H Hj1) as (B1 & B2 & B3 & B4 & B5).
      split; [exact B1|]. split; [eapply keeps_trans; eassumption|]. split.
      + intros Hok. split; [apply (proj1 (A3 eq_refl))|apply B3, Hok].
      + intros q Hq Hne. rewrite B4 in Hne |- * by exact Hq. destruct (A4 q) as [F|(_ & F & _)]; [contradiction|exact F].
    - injection H as <- <-. split; [exact A1|]. split; [exact A2|]. split; [discriminate|].
      intros q _ Hne. destruct (A4 q) as [F|(_ & F & _)]; [contradiction|exact F].
  Qed.

  (** ** The search for a unique name *)
  Lemma loop_none s base rel suf fuel : forall i cur,
    suffix_loop (exists_ cwd s) base rel suf fuel i cur = None ->
    forall l, i < l -> l < i + fuel -> exists_ cwd s (path_join base ((rel ++ "_" ++ str_nat l) ++ suf)) = true.
  Proof.
    induction fuel as [|f IH]; intros i cur H l Hl1 Hl2; [lia|]. cbn [suffix_loop] in H.
    destruct (exists_ cwd s (path_join base (cur ++ suf))) eqn:E; [|discriminate].
    destruct (Nat.eq_dec l (S i)) as [->|Hne].
    - destruct f as [|f]; [lia|]. cbn [suffix_loop] in H.
      destruct (exists_ cwd s (path_join base ((rel ++ "_" ++ str_nat (S i)) ++ suf))); [reflexivity|discriminate].
    - apply (IH _ _ H); lia.
  Qed.
  Lemma loop_some s base rel suf fuel : forall i cur r,
    suffix_loop (exists_ cwd s) base rel suf fuel i cur = Some r ->
    exists_ cwd s (path_join base (r ++ suf)) = false /\
    (r = cur \/ exists_ cwd s (path_join base (cur ++ suf)) = true /\ exists l, i < l /\ r = rel ++ "_" ++ str_nat l).
  Proof.
    induction fuel as [|f IH]; intros i cur r H; [discriminate|]. cbn [suffix_loop] in H.
    destruct (exists_ cwd s (path_join base (cur ++ suf))) eqn:E.
    - destruct (IH _ _ _ H) as [H1 [H2|(H2 & l & H3 & H4)]].
      + split; [exact H1|right]. split; [reflexivity|]. exists (S i). split; [lia|exact H2].
      + split; [exact H1|right]. split; [reflexivity|]. exists l. split; [lia|exact H4].
    - injection H as ->. auto.
  Qed.
  Lemma suffix_terminates s base rel suf : no_sep suf = true ->
    exists r, add_suffix_for_uniqueness (exists_ cwd s) (enough s) rel base suf = Some r /\
      exists_ cwd s (path_join base (r ++ suf)) = false /\
      (r = rstrip_sep rel \/
       exists_ cwd s (path_join base (rstrip_sep rel ++ suf)) = true /\
       exists i, 1 <= i /\ r = rel ++ "_" ++ str_nat i).
  Proof.
    intros Hsuf. unfold add_suffix_for_uniqueness.
    destruct (suffix_loop (exists_ cwd s) base rel suf (enough s) 0 (rstrip_sep rel)) as [r|] eqn:E.
    - exists r. split; [reflexivity|]. destruct (loop_some _ _ _ _ _ _ _ _ E) as [H1 [H2|(H2 & l & H3 & H4)]].
      + auto.
      + split; [exact H1|right]. split; [exact H2|]. exists l. split; [lia|exact H4].
    - exfalso.
      assert (Hincl : incl (map (target cwd base rel suf) (seq 1 (List.length s + 2))) (map fst s)).
      { intros p Hp. apply in_map_iff in Hp. destruct Hp as (l & <- & Hl). apply in_seq in Hl.
        assert (He := loop_none _ _ _ _ _ _ _ E l). unfold enough in He. specialize (He ltac:(lia) ltac:(lia)).
        unfold exists_ in He. destruct (String.eqb _ ""); [discriminate|].
        apply at_In.
        - destruct (target_shape cwd base rel suf Hsuf) as (d & lst & H). rewrite H. destruct d; discriminate.
        - unfold target. destruct (node_at s _); [discriminate|discriminate He]. }
      assert (ND : NoDup (map (target cwd base rel suf) (seq 1 (List.length s + 2)))).
      { apply Injective_map_NoDup; [|apply seq_NoDup]. intros a b Hab. apply target_inj in Hab; assumption. }
      apply NoDup_incl_length in Hincl; [|exact ND]. rewrite !map_length, seq_length in Hincl. lia.
  Qed.

  Lemma not_exists s p : exists_ cwd s p = false -> p = "" \/ node_at s (resolve cwd p) = None.
  Proof.
    unfold exists_. destruct (String.eqb p "") eqn:E; [left; apply String.eqb_eq, E|].
    destruct (node_at s _); [discriminate|auto].
  Qed.
  Lemma json_nonempty b a : path_join a (b ++ ".json") <> "".
  Proof.
    unfold path_join. destruct b as [|c b]; simpl.
    - destruct (String.eqb a "" || last_is_sep a); destruct a; discriminate.
    - destruct (Ascii.eqb c sep); [discriminate|]. destruct (String.eqb a "" || last_is_sep a); destruct a; discriminate.
  Qed.

  Lemma save_unique_spec s info d b s' ok : sound s -> save_to_unique_json cwd s info d b = (s', ok) ->
    sound s' /\ keeps s s'.
  Proof.
    unfold save_to_unique_json, unique_json_name. intros Hs H.
    destruct (suffix_terminates s d b ".json" eq_refl) as (r & E & E1 & _). rewrite E in H.
    destruct (open_w_spec _ _ _ _ _ _ Hs H) as (A1 & A2 & _); [|auto].
    intros c0 _. destruct (not_exists _ _ E1) as [F|F]; [|congruence].
    exfalso. exact (json_nonempty _ _ F).
  Qed.

  (** ** Saving under a plain name *)
  Lemma plain_name_path d n : no_sep n = true -> n <> "" -> n <> "." ->
    resolve cwd (path_join d n) = (resolve cwd d ++ [n])%list.
  Proof. intros H1 H2 H3. rewrite resolve_join by (apply no_sep_first, H1). rewrite components_single by assumption. reflexivity. Qed.

  Lemma ends_json a : ends_with ".json" (a ++ ".json") = true.
  Proof. induction a as [|c a IH]; [reflexivity|]. simpl. rewrite IH. apply orb_true_r. Qed.

  (** The names tried for base name [b]. *)
  Definition tried (b n : string) : Prop := n = b ++ ".json" \/ exists i, 1 <= i /\ n = b ++ "_" ++ str_nat i ++ ".json".
  Lemma tried_plain b n : no_sep b = true -> b <> "" -> tried b n -> no_sep n = true /\ n <> "" /\ n <> "." /\ ends_with ".json" n = true.
  Proof.
    intros Hb Hne [->|(i & _ & ->)].
    - rewrite no_sep_app, Hb. split; [reflexivity|]. split; [destruct b; discriminate|].
      split; [destruct b as [|c [|]]; discriminate|apply ends_json].
    - rewrite !no_sep_app, Hb, str_nat_no_sep. split; [reflexivity|]. split; [destruct b; discriminate|].
      split; [destruct b as [|c [|]]; discriminate|]. rewrite <- app_assoc_s, <- app_assoc_s. apply ends_json.
  Qed.
  Lemma unique_name_spec s d b u : no_sep b = true -> b <> "" -> unique_json_name cwd s d b = Some u ->
    tried b (u ++ ".json") /\ node_at s (resolve cwd d ++ [(u ++ ".json")%string]) = None /\
    (node_at s (resolve cwd d ++ [(b ++ ".json")%string]) = None -> u = b).
  Proof.
    intros Hb Hne H. unfold unique_json_name in H.
    destruct (suffix_terminates s d b ".json" eq_refl) as (r & E & E1 & E2). rewrite E in H. injection H as ->.
    rewrite rstrip_sep_id in E2 by (apply no_sep_last, Hb).
    assert (T : tried b (u ++ ".json")).
    { destruct E2 as [->|(_ & i & Hi & ->)]; [left; reflexivity|right]. exists i. split; [exact Hi|].
      rewrite !app_assoc_s. reflexivity. }
    destruct (tried_plain _ _ Hb Hne T) as (T1 & T2 & T3 & T4).
    split; [exact T|]. split.
    - destruct (not_exists _ _ E1) as [F|F]; [exfalso; exact (json_nonempty _ _ F)|].
      rewrite plain_name_path in F by assumption. exact F.
    - intros Hn. destruct E2 as [->|(F & _)]; [reflexivity|]. exfalso.
      assert (T0 : tried b (b ++ ".json")) by (left; reflexivity).
      destruct (tried_plain _ _ Hb Hne T0) as (U1 & U2 & U3 & U4).
      unfold exists_ in F. destruct (String.eqb _ ""); [discriminate|].
      rewrite plain_name_path in F by assumption. rewrite Hn in F. discriminate.
  Qed.
  Lemma save_plain_spec s info d b s' : no_sep b = true -> b <> "" -> sound s ->
    save_to_unique_json cwd s info d b = (s', true) ->
    exists n, tried b n /\ d <> "" /\ node_at s (resolve cwd d ++ [n]) = None /\
      node_at s' (resolve cwd d ++ [n]) = Some (File info) /\
      (node_at s (resolve cwd d ++ [(b ++ ".json")%string]) = None -> n = b ++ ".json").
  Proof.
    intros Hb Hne Hs H. unfold save_to_unique_json in H.
    destruct (unique_json_name cwd s d b) as [u|] eqn:E; [|discriminate].
    destruct (unique_name_spec _ _ _ _ Hb Hne E) as (T & F & G).
    destruct (tried_plain _ _ Hb Hne T) as (T1 & T2 & T3 & T4).
    destruct (open_w_spec _ _ _ _ _ _ Hs H) as (A1 & A2 & A3 & _).
    { intros c0 _. rewrite plain_name_path by assumption. congruence. }
    exists (u ++ ".json"). destruct (A3 eq_refl) as [A4 A5]. rewrite plain_name_path in A5 by assumption.
    repeat split; auto. intros Hn. rewrite (G Hn). reflexivity.
  Qed.
End Fs.

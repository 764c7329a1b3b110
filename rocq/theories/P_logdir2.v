(** * Proofs about the log directories of a sequence of jobs: whole histories and concurrent starts *)
From Coq Require Import String List Ascii Arith Bool Lia.
From Verif Require Import XReal M_io M_vmc P_vmc S_io P_io M_config M_logdir S_logdir P_logdir.
Import ListNotations.
Local Open Scope string_scope.

Section Hist.
  Variable Rest : Type.
  Implicit Types s : fs Rest.
  Variable cwd : list string.

  Lemma config_plain : no_sep "config" = true /\ "config" <> "". Proof. split; [reflexivity|discriminate]. Qed.
  Lemma reload_plain : no_sep "reload_config" = true /\ "reload_config" <> "". Proof. split; [reflexivity|discriminate]. Qed.

  Lemma tried_config n : tried "config" n -> config_name n.
  Proof. intros H. exact H. Qed.
  Lemma config_name_json n d : config_name n -> json_path (d ++ [n]).
  Proof.
    intros H. exists d, n. split; [reflexivity|].
    destruct (tried_plain "config" n eq_refl ltac:(discriminate) H) as (_ & _ & _ & E). exact E.
  Qed.

  Lemma step_keeps s e : sound s ->
    (forall d n id, e = WriteOther d n id -> no_sep n = true /\ ends_with ".json" n = false) ->
    sound (step cwd s e) /\ keeps Rest s (step cwd s e).
  Proof.
    intros Hs He. destruct e as [j|id d b|d n id|d]; cbn [step].
    - unfold start_job. destruct (job_logdir cwd s j) as [c|]; [|split; [exact Hs|apply keeps_refl]].
      destruct (save_to_unique_json cwd s (CfgFile c) (c_logdir c) "config") as [s1 ok1] eqn:E1.
      destruct (save_unique_spec _ _ _ _ _ _ _ _ Hs E1) as [A1 A2]. destruct ok1; [|split; assumption].
      destruct (save_to_unique_json cwd s1 (ReloadFile (flags j)) (c_logdir c) "reload_config") as [s2 ok2] eqn:E2.
      destruct (save_unique_spec _ _ _ _ _ _ _ _ A1 E2) as [B1 B2]. simpl. split; [exact B1|].
      eapply keeps_trans; eassumption.
    - destruct (save_to_unique_json cwd s (DictFile id) d b) as [s1 ok1] eqn:E1.
      exact (save_unique_spec _ _ _ _ _ _ _ _ Hs E1).
    - destruct (open_or_create_w cwd s d n (OtherFile id)) as [s1 ok1] eqn:E1.
      destruct (He _ _ _ eq_refl) as [H1 H2]. cbn [fst].
      destruct (components_nosep n H1) as [Hc|Hc].
      + (* the path is the directory itself *)
        unfold open_or_create_w in E1. destruct (makedirs cwd s d) as [s2 ok2] eqn:E2.
        destruct (makedirs_spec _ _ _ _ _ _ Hs E2) as (A1 & A2 & A3 & A4).
        destruct ok2; [|injection E1 as <- <-; split; assumption].
        destruct (A3 eq_refl) as [_ A5].
        rewrite resolve_join in E1 by (apply no_sep_first, H1). rewrite Hc, app_nil_r in E1.
        unfold write_file in E1. rewrite A5 in E1. injection E1 as <- <-. split; assumption.
      + destruct (open_w_spec _ _ _ _ _ _ _ _ Hs E1) as (A1 & A2 & _); [|split; assumption].
        intros c0 (d0 & n0 & Hp & Hj). rewrite resolve_join in Hp by (apply no_sep_first, H1). rewrite Hc in Hp.
        apply app_inj_tail in Hp. destruct Hp as [_ <-]. congruence.
    - destruct (makedirs cwd s d) as [s1 ok1] eqn:E1.
      destruct (makedirs_spec _ _ _ _ _ _ Hs E1) as (A1 & A2 & _). split; assumption.
  Qed.

  Lemma no_foreign_cons e (h : list (event Rest)) : no_foreign_json (e :: h) ->
    (forall d n id, e = WriteOther d n id -> no_sep n = true /\ ends_with ".json" n = false) /\ no_foreign_json h.
  Proof.
    intros H. split.
    - intros d n id ->. apply (H d n id). left. reflexivity.
    - intros d n id Hin. apply (H d n id). right. exact Hin.
  Qed.

  Lemma run_keeps h : forall s, sound s -> no_foreign_json h ->
    sound (run cwd s h) /\ keeps Rest s (run cwd s h).
  Proof.
    induction h as [|e h IH]; intros s Hs Hh.
    - split; [exact Hs|apply keeps_refl].
    - destruct (no_foreign_cons _ _ Hh) as [H1 H2]. destruct (step_keeps s e Hs H1) as [A1 A2].
      destruct (IH _ A1 H2) as [B1 B2]. split; [exact B1|]. eapply keeps_trans; [exact A2|exact B2].
  Qed.

  (** One job. *)
  Lemma start_spec s j s' c : sound s -> start_job cwd s j = (s', Some c) ->
    exists n, config_name n /\ c_logdir c <> "" /\
      node_at s (resolve cwd (c_logdir c) ++ [n]) = None /\
      node_at s' (resolve cwd (c_logdir c) ++ [n]) = Some (File (CfgFile c)) /\
      c = set_logdir (cfg j) (c_logdir c) /\
      (node_at s (resolve cwd (c_logdir c) ++ ["config.json"]) = None -> n = "config.json") /\
      (same_logdir (flags j) = true -> c_logdir c = reload_logdir (flags j)) /\
      (same_logdir (flags j) = false -> node_at s (resolve cwd (c_logdir c)) = None).
  Proof.
    intros Hs H. unfold start_job in H. destruct (job_logdir cwd s j) as [c1|] eqn:EL; [|discriminate].
    destruct (save_to_unique_json cwd s (CfgFile c1) (c_logdir c1) "config") as [s1 ok1] eqn:E1.
    destruct (save_unique_spec _ _ _ _ _ _ _ _ Hs E1) as [A1 A2]. destruct ok1; [|discriminate].
    destruct (save_to_unique_json cwd s1 (ReloadFile (flags j)) (c_logdir c1) "reload_config") as [s2 ok2] eqn:E2.
    destruct (save_unique_spec _ _ _ _ _ _ _ _ A1 E2) as [B1 B2].
    destruct ok2; [|discriminate]. injection H as <- <-.
    destruct (save_plain_spec _ _ _ _ _ _ _ (proj1 config_plain) (proj2 config_plain) Hs E1) as (n & T & Hd & F & G & Hn).
    exists n. split; [exact T|]. split; [exact Hd|]. split; [exact F|]. split.
    { apply (proj2 (proj2 B2)); [apply config_name_json, T|exact G]. }
    unfold job_logdir, choose_logdir in EL. destruct (same_logdir (flags j)) eqn:ES.
    - injection EL as <-. split; [reflexivity|]. split; [exact Hn|]. split; [reflexivity|discriminate].
    - match type of EL with context [add_suffix_for_uniqueness ?e ?f ?r ?b ?x] =>
        destruct (suffix_terminates _ cwd s b r x eq_refl) as (u & V1 & V2 & _) end.
      rewrite V1 in EL. injection EL as <-. split; [reflexivity|]. split; [exact Hn|]. split; [discriminate|].
      intros _. cbn [c_logdir set_logdir] in *. rewrite append_nil_r_s in V2.
      assert (Hj : path_join "" u = u). { unfold path_join. destruct (first_is_sep u); reflexivity. }
      rewrite Hj in V2. destruct (not_exists _ _ _ _ V2) as [->|V]; [congruence|exact V].
  Qed.

  Lemma start_exists s j s' c : sound s -> start_job cwd s j = (s', Some c) -> node_at s' (resolve cwd (c_logdir c)) = Some Dir.
  Proof.
    intros Hs H. destruct (start_spec _ _ _ _ Hs H) as (n & _ & _ & _ & G & _).
    assert (Hs' : sound s').
    { assert (K := step_keeps s (Start j) Hs). cbn [step] in K. rewrite H in K. apply K. discriminate. }
    apply (Hs' _ n). congruence.
  Qed.

  (** All jobs of a history have their configuration in a file of their own. *)
  Lemma configs_kept h : forall s, sound s -> no_foreign_json h ->
    exists paths,
      Forall2 (fun p jc => exists n, config_name n /\ p = (resolve cwd (c_logdir (snd jc)) ++ [n])%list /\
        node_at (run cwd s h) p = Some (File (CfgFile (snd jc))) /\
        snd jc = set_logdir (cfg (fst jc)) (c_logdir (snd jc)))
        paths (started cwd s h) /\
      NoDup paths /\ (forall p, In p paths -> node_at s p = None).
  Proof.
    induction h as [|e h IH]; intros s Hs Hh.
    - exists []. split; [constructor|]. split; [constructor|]. intros p [].
    - destruct (no_foreign_cons _ _ Hh) as [H1 H2]. destruct (step_keeps s e Hs H1) as [A1 A2].
      destruct (IH _ A1 H2) as (ps & P1 & P2 & P3).
      assert (Hold : forall p, In p ps -> node_at s p = None).
      { intros p Hp. apply P3 in Hp. destruct (node_at s p) eqn:E; [|reflexivity].
        exfalso. apply (proj1 A2 p); congruence. }
      assert (Hskip : started cwd s (e :: h) = started cwd (step cwd s e) h ->
        exists paths, Forall2 (fun p jc => exists n, config_name n /\ p = (resolve cwd (c_logdir (snd jc)) ++ [n])%list /\
          node_at (run cwd s (e :: h)) p = Some (File (CfgFile (snd jc))) /\
          snd jc = set_logdir (cfg (fst jc)) (c_logdir (snd jc)))
          paths (started cwd s (e :: h)) /\
          NoDup paths /\ (forall p, In p paths -> node_at s p = None)).
      { intros E. rewrite E. exists ps. split; [exact P1|]. split; assumption. }
      destruct e as [j|id d b|d n id|d]; try (apply Hskip; reflexivity).
      destruct (start_job cwd s j) as [s' [c|]] eqn:ES.
      2:{ apply Hskip. cbn [started]. rewrite ES. reflexivity. }
      destruct (start_spec _ _ _ _ Hs ES) as (n & T & Hd & F & G & Hc & _).
      cbn [step] in A1, A2, P1, P3. rewrite ES in A1, A2, P1, P3. cbn [fst] in A1, A2, P1, P3.
      destruct (run_keeps h s' A1 H2) as [_ K].
      exists ((resolve cwd (c_logdir c) ++ [n])%list :: ps). split; [|split].
      + cbn [started step run fold_left]. rewrite ES. cbn [fst snd app]. constructor; [|exact P1].
        exists n. split; [exact T|]. split; [reflexivity|]. split; [|exact Hc].
        apply (proj2 (proj2 K)); [apply config_name_json, T|exact G].
      + constructor; [|exact P2]. intros Hin. apply P3 in Hin. congruence.
      + intros p [<-|Hp]; [exact F|apply Hold, Hp].
  Qed.

  (** Jobs that do not ask for the directory they reload from get directories of their own. *)
  Definition own_directory (jc : job Rest * config Rest) : bool := negb (same_logdir (flags (fst jc))).
  Lemma fresh_directories h : forall s, sound s -> no_foreign_json h ->
    let own := filter own_directory (started cwd s h) in
    NoDup (map (fun jc => resolve cwd (c_logdir (snd jc))) own) /\
    Forall (fun jc => node_at s (resolve cwd (c_logdir (snd jc))) = None /\
      load_config cwd (run cwd s h) (c_logdir (snd jc)) "config.json" = Some (snd jc)) own.
  Proof.
    induction h as [|e h IH]; intros s Hs Hh; cbv zeta.
    - split; constructor.
    - destruct (no_foreign_cons _ _ Hh) as [H1 H2]. destruct (step_keeps s e Hs H1) as [A1 A2].
      destruct (IH _ A1 H2) as (P1 & P2).
      assert (Q2 : Forall (fun jc => node_at s (resolve cwd (c_logdir (snd jc))) = None /\
        load_config cwd (run cwd s (e :: h)) (c_logdir (snd jc)) "config.json" = Some (snd jc))
        (filter own_directory (started cwd (step cwd s e) h))).
      { eapply Forall_impl; [|exact P2]. intros jc [B1 B2]. split; [|exact B2].
        destruct (node_at s (resolve cwd (c_logdir (snd jc)))) eqn:E; [|reflexivity].
        exfalso. apply (proj1 A2 (resolve cwd (c_logdir (snd jc)))); congruence. }
      assert (Hskip : started cwd s (e :: h) = started cwd (step cwd s e) h ->
        NoDup (map (fun jc => resolve cwd (c_logdir (snd jc))) (filter own_directory (started cwd s (e :: h)))) /\
        Forall (fun jc => node_at s (resolve cwd (c_logdir (snd jc))) = None /\
          load_config cwd (run cwd s (e :: h)) (c_logdir (snd jc)) "config.json" = Some (snd jc))
          (filter own_directory (started cwd s (e :: h)))).
      { intros E. rewrite E. split; assumption. }
      destruct e as [j|id d b|d n id|d]; try (apply Hskip; reflexivity).
      destruct (start_job cwd s j) as [s' [c|]] eqn:ES.
      2:{ apply Hskip. cbn [started]. rewrite ES. reflexivity. }
      destruct (start_spec _ _ _ _ Hs ES) as (n & T & Hd & F & G & Hc & Hn & _ & Hfresh).
      assert (Hex := start_exists _ _ _ _ Hs ES).
      assert (Est : started cwd s (Start j :: h) = (j, c) :: started cwd (step cwd s (Start j)) h).
      { cbn [started]. rewrite ES. reflexivity. }
      rewrite Est. cbn [filter]. destruct (own_directory (j, c)) eqn:EO; [|split; assumption].
      unfold own_directory in EO. cbn [fst] in EO. apply negb_true_iff in EO.
      assert (Hf := Hfresh EO).
      assert (Hn' : n = "config.json").
      { apply Hn. destruct (node_at s (resolve cwd (c_logdir c) ++ ["config.json"])) eqn:E; [|reflexivity].
        exfalso. assert (X := Hs (resolve cwd (c_logdir c)) "config.json"). rewrite E in X.
        specialize (X ltac:(discriminate)). congruence. }
      subst n. cbn [map snd]. split.
      + constructor; [|exact P1]. intros Hin. apply in_map_iff in Hin. destruct Hin as (jc & Ejc & Hin).
        rewrite Forall_forall in P2. destruct (P2 _ Hin) as [B1 _]. cbn [step] in B1. rewrite ES in B1. cbn [fst] in B1.
        rewrite Ejc in B1. congruence.
      + constructor; [|exact Q2]. cbn [snd]. split; [exact Hf|].
        cbn [step] in A1, A2. rewrite ES in A1, A2. cbn [fst] in A1, A2. destruct (run_keeps h s' A1 H2) as [_ K].
        unfold load_config. rewrite plain_name_path; [|reflexivity|discriminate|discriminate].
        cbn [run fold_left step]. rewrite ES. cbn [fst].
        assert (KK : node_at (run cwd s' h) (resolve cwd (c_logdir c) ++ ["config.json"]) = Some (File (CfgFile c))).
        { apply (proj2 (proj2 K)); [apply config_name_json; left; reflexivity|exact G]. }
        unfold run in KK. rewrite KK. reflexivity.
  Qed.

  (** A job that reuses a directory with a configuration leaves that configuration under the
      default name. *)
  Lemma same_logdir_default s j s' c c0 : sound s -> start_job cwd s j = (s', Some c) ->
    same_logdir (flags j) = true ->
    load_config cwd s (reload_logdir (flags j)) "config.json" = Some c0 ->
    c_logdir c = reload_logdir (flags j) /\ load_config cwd s' (c_logdir c) "config.json" = Some c0.
  Proof.
    intros Hs H Hsame Hl. destruct (start_spec _ _ _ _ Hs H) as (n & T & Hd & F & G & Hc & Hn & Hdir & _).
    split; [apply Hdir, Hsame|]. rewrite (Hdir Hsame).
    unfold load_config in *. rewrite plain_name_path in *; try reflexivity; try discriminate.
    destruct (node_at s _) as [[|[c1| | |]]|] eqn:E; try discriminate. injection Hl as ->.
    assert (K := step_keeps s (Start j) Hs ltac:(discriminate)). cbn [step] in K. rewrite H in K. cbn [fst] in K.
    rewrite (proj2 (proj2 (proj2 K)) _ _ (config_name_json _ _ (or_introl eq_refl)) E). reflexivity.
  Qed.

  (** ** Concurrent starts *)
  Definition phase_config (ph : phase Rest) : option (config Rest) :=
    match ph with HasDir c | HasName c _ | Saved c => Some c | _ => None end.
  Definition good s0 s (ph : phase Rest) : Prop :=
    match ph with
    | HasName c u => config_name (u ++ ".json") /\ node_at s0 (resolve cwd (c_logdir c) ++ [(u ++ ".json")%string]) = None
    | Saved c => exists n, config_name n /\ node_at s (resolve cwd (c_logdir c) ++ [n]) = Some (File (CfgFile c))
    | _ => True
    end.
  (** Existing nodes stay, directories stay, and the JSON files of [s0] keep their contents. *)
  Definition weak s0 s : Prop :=
    (forall p, node_at s0 p <> None -> node_at s p <> None) /\
    (forall p c, json_path p -> node_at s0 p = Some (File c) -> node_at s p = Some (File c)).

  (** The write of one process: what it can change. *)
  Lemma open_any s d n c s' ok : sound s -> no_sep n = true -> n <> "" -> n <> "." ->
    open_or_create_w cwd s d n c = (s', ok) ->
    sound s' /\ (forall p, node_at s p <> None -> node_at s' p <> None) /\
    (forall q c0, q <> (resolve cwd d ++ [n])%list -> node_at s q = Some (File c0) -> node_at s' q = Some (File c0)) /\
    (ok = true -> node_at s' (resolve cwd d ++ [n]) = Some (File c)).
  Proof.
    intros Hs N1 N2 N3 H. unfold open_or_create_w in H. rewrite plain_name_path in H by assumption.
    destruct (makedirs cwd s d) as [s1 ok1] eqn:E1.
    destruct (makedirs_spec _ _ _ _ _ _ Hs E1) as (A1 & A2 & A3 & A4).
    assert (Hfile : forall q c0, node_at s q = Some (File c0) -> node_at s1 q = Some (File c0)).
    { intros q c0 Hq. destruct (A4 q) as [F|(F & _)]; congruence. }
    destruct ok1.
    2:{ injection H as <- <-. split; [exact A1|]. split; [apply A2|]. split; [auto|discriminate]. }
    unfold write_file in H.
    destruct (node_at s1 (resolve cwd d ++ [n])) as [[|c1]|] eqn:E2.
    - injection H as <- <-. split; [exact A1|]. split; [apply A2|]. split; [auto|discriminate].
    - destruct (node_at s1 (removelast (resolve cwd d ++ [n]))) as [[|c2]|] eqn:E3.
      2,3: injection H as <- <-; split; [exact A1|]; split; [apply A2|]; split; [auto|discriminate].
      injection H as <- <-.
      assert (Hp : (resolve cwd d ++ [n])%list <> []) by (destruct (resolve cwd d); discriminate).
      set (p := (resolve cwd d ++ [n])%list) in *.
      split; [|split; [|split]].
      + intros q e. destruct (list_eq_dec string_dec q p) as [->|E4].
        * assert (E5 : (p ++ [e])%list <> p). { intros F. apply (f_equal (@List.length string)) in F. rewrite app_length in F. simpl in F. lia. }
          rewrite at_put_other by exact E5. intros F. apply A1 in F. congruence.
        * rewrite (at_put_other _ s1 p q) by exact E4. destruct (list_eq_dec string_dec (q ++ [e]) p) as [E5|E5].
          -- intros _. rewrite <- E5, removelast_last in E3. exact E3.
          -- rewrite at_put_other by exact E5. apply A1.
      + intros q Hq. destruct (list_eq_dec string_dec q p) as [->|E4]; [rewrite at_put_same by exact Hp; discriminate|].
        rewrite at_put_other by exact E4. apply A2, Hq.
      + intros q c0 Hq Hc. rewrite at_put_other by exact Hq. apply Hfile, Hc.
      + intros _. apply at_put_same, Hp.
    - destruct (node_at s1 (removelast (resolve cwd d ++ [n]))) as [[|c2]|] eqn:E3.
      2,3: injection H as <- <-; split; [exact A1|]; split; [apply A2|]; split; [auto|discriminate].
      injection H as <- <-.
      assert (Hp : (resolve cwd d ++ [n])%list <> []) by (destruct (resolve cwd d); discriminate).
      set (p := (resolve cwd d ++ [n])%list) in *.
      split; [|split; [|split]].
      + intros q e. destruct (list_eq_dec string_dec q p) as [->|E4].
        * assert (E5 : (p ++ [e])%list <> p). { intros F. apply (f_equal (@List.length string)) in F. rewrite app_length in F. simpl in F. lia. }
          rewrite at_put_other by exact E5. intros F. apply A1 in F. congruence.
        * rewrite (at_put_other _ s1 p q) by exact E4. destruct (list_eq_dec string_dec (q ++ [e]) p) as [E5|E5].
          -- intros _. rewrite <- E5, removelast_last in E3. exact E3.
          -- rewrite at_put_other by exact E5. apply A1.
      + intros q Hq. destruct (list_eq_dec string_dec q p) as [->|E4]; [rewrite at_put_same by exact Hp; discriminate|].
        rewrite at_put_other by exact E4. apply A2, Hq.
      + intros q c0 Hq Hc. rewrite at_put_other by exact Hq. apply Hfile, Hc.
      + intros _. apply at_put_same, Hp.
  Qed.

  Lemma advance_spec s0 s a s' a' : sound s -> weak s0 s -> good s0 s a -> advance cwd s a = (s', a') ->
    sound s' /\ weak s0 s' /\ good s0 s' a' /\
    (forall ca, phase_config a = Some ca -> a' = Failed \/ phase_config a' = Some ca) /\
    (s' = s \/ exists c u, a = HasName c u /\
       forall q c0, q <> (resolve cwd (c_logdir c) ++ [(u ++ ".json")%string])%list ->
         node_at s q = Some (File c0) -> node_at s' q = Some (File c0)).
  Proof.
    intros Hs Hw Hg H. destruct a as [j|c|c u|c|]; cbn [advance] in H.
    - destruct (job_logdir cwd s j) as [c|]; injection H as <- <-.
      + split; [exact Hs|]. split; [exact Hw|]. split; [exact Logic.I|]. split; [discriminate|left; reflexivity].
      + split; [exact Hs|]. split; [exact Hw|]. split; [exact Logic.I|]. split; [discriminate|left; reflexivity].
    - destruct (unique_json_name cwd s (c_logdir c) "config") as [u|] eqn:E; injection H as <- <-.
      + destruct (unique_name_spec _ _ _ _ _ _ (proj1 config_plain) (proj2 config_plain) E) as (T & F & _).
        split; [exact Hs|]. split; [exact Hw|]. split.
        * split; [exact T|]. destruct (node_at s0 _) eqn:E0; [|reflexivity].
          exfalso. apply (proj1 Hw (resolve cwd (c_logdir c) ++ [(u ++ ".json")%string])%list); [congruence|exact F].
        * split; [intros ca Hca; right; exact Hca|left; reflexivity].
      + split; [exact Hs|]. split; [exact Hw|]. split; [exact Logic.I|]. split; [left; reflexivity|left; reflexivity].
    - destruct (open_or_create_w cwd s (c_logdir c) (u ++ ".json") (CfgFile c)) as [s1 ok] eqn:E.
      destruct Hg as [T F]. destruct (tried_plain "config" _ eq_refl (proj2 config_plain) T) as (N1 & N2 & N3 & N4).
      destruct (open_any _ _ _ _ _ _ Hs N1 N2 N3 E) as (A1 & A2 & A3 & A4).
      assert (Hw' : weak s0 s1).
      { split.
        - intros p Hp. apply A2, (proj1 Hw), Hp.
        - intros p c0 Hj Hp. apply A3; [|apply (proj2 Hw); assumption]. intros ->. congruence. }
      destruct ok; injection H as <- <-.
      + split; [exact A1|]. split; [exact Hw'|]. split; [exists (u ++ ".json"); split; [exact T|apply A4; reflexivity]|].
        split; [intros ca Hca; right; exact Hca|]. right. exists c, u. split; [reflexivity|exact A3].
      + split; [exact A1|]. split; [exact Hw'|]. split; [exact Logic.I|]. split; [left; reflexivity|].
        right. exists c, u. split; [reflexivity|exact A3].
    - injection H as <- <-. split; [exact Hs|]. split; [exact Hw|]. split; [exact Hg|].
      split; [intros ca Hca; right; exact Hca|left; reflexivity].
    - injection H as <- <-. split; [exact Hs|]. split; [exact Hw|]. split; [exact Logic.I|].
      split; [discriminate|left; reflexivity].
  Qed.

  Lemma failed_stays sched : forall s b s' a' b', interleave cwd s Failed b sched = (s', a', b') -> a' = Failed.
  Proof.
    induction sched as [|[|] r IH]; intros s b s' a' b' H; simpl in H.
    - injection H as _ <- _. reflexivity.
    - eapply IH, H.
    - destruct (advance cwd s b) as [s1 b1]. eapply IH, H.
  Qed.
  Lemma failed_stays_r sched : forall s a s' a' b', interleave cwd s a Failed sched = (s', a', b') -> b' = Failed.
  Proof.
    induction sched as [|[|] r IH]; intros s a s' a' b' H; simpl in H.
    - injection H as _ _ <-. reflexivity.
    - destruct (advance cwd s a) as [s1 a1]. eapply IH, H.
    - eapply IH, H.
  Qed.

  Lemma advance_config s a s' a' ca : advance cwd s a = (s', a') -> phase_config a = Some ca ->
    a' = Failed \/ phase_config a' = Some ca.
  Proof.
    intros H Hc. destruct a as [j|c|c u|c|]; cbn [advance] in H; try discriminate Hc.
    - destruct (unique_json_name _ _ _ _); injection H as <- <-; auto.
    - destruct (open_or_create_w _ _ _ _ _) as [s1 [|]]; injection H as <- <-; auto.
    - injection H as <- <-; auto.
  Qed.
  (** The configuration a process has chosen does not change any more. *)
  Lemma chosen_stays sched : forall s a b s' a' b', interleave cwd s a b sched = (s', a', b') ->
    (forall ca, phase_config a = Some ca -> a' = Failed \/ phase_config a' = Some ca) /\
    (forall cb, phase_config b = Some cb -> b' = Failed \/ phase_config b' = Some cb).
  Proof.
    induction sched as [|[|] r IH]; intros s a b s' a' b' H; cbn [interleave] in H.
    - injection H as <- <- <-. auto.
    - destruct (advance cwd s a) as [s1 a1] eqn:E. destruct (IH _ _ _ _ _ _ H) as [H1 H2]. split; [|exact H2].
      intros ca Hca. destruct (advance_config _ _ _ _ _ E Hca) as [->|H3]; [|apply H1, H3].
      left. eapply failed_stays, H.
    - destruct (advance cwd s b) as [s1 b1] eqn:E. destruct (IH _ _ _ _ _ _ H) as [H1 H2]. split; [exact H1|].
      intros cb Hcb. destruct (advance_config _ _ _ _ _ E Hcb) as [->|H3]; [|apply H2, H3].
      left. eapply failed_stays_r, H.
  Qed.

  Lemma interleave_weak sched : forall s0 s a b s' a' b', sound s -> weak s0 s ->
    (forall c u, a = HasName c u -> good s0 s a) -> (forall c u, b = HasName c u -> good s0 s b) ->
    interleave cwd s a b sched = (s', a', b') -> weak s0 s'.
  Proof.
    assert (Adv : forall s0 s a s' a', sound s -> weak s0 s -> (forall c u, a = HasName c u -> good s0 s a) ->
      advance cwd s a = (s', a') -> sound s' /\ weak s0 s' /\ (forall c u, a' = HasName c u -> good s0 s' a')).
    { intros s0 s a s' a' Hs Hw Hg H. destruct a as [j|c|c u|c|].
      4,5: injection H as <- <-; split; [exact Hs|split; [exact Hw|discriminate]].
      - destruct (advance_spec s0 s (Begin j) s' a' Hs Hw Logic.I H) as (A1 & A2 & A3 & _). auto.
      - destruct (advance_spec s0 s (HasDir c) s' a' Hs Hw Logic.I H) as (A1 & A2 & A3 & _). auto.
      - destruct (advance_spec s0 s (HasName c u) s' a' Hs Hw (Hg _ _ eq_refl) H) as (A1 & A2 & A3 & _). auto. }
    assert (Hgs : forall s0 s s' (b : phase Rest), (forall c u, b = HasName c u -> good s0 s b) -> (forall c u, b = HasName c u -> good s0 s' b)).
    { intros s0 s s' b Hb c u ->. exact (Hb c u eq_refl). }
    induction sched as [|[|] r IH]; intros s0 s a b s' a' b' Hs Hw Ha Hb H; cbn [interleave] in H.
    - injection H as <- <- <-. exact Hw.
    - destruct (advance cwd s a) as [s1 a1] eqn:E. destruct (Adv s0 _ _ _ _ Hs Hw Ha E) as (A1 & A2 & A3).
      apply (IH s0 s1 a1 b s' a' b' A1 A2 A3); [eapply Hgs, Hb|exact H].
    - destruct (advance cwd s b) as [s1 b1] eqn:E. destruct (Adv s0 _ _ _ _ Hs Hw Hb E) as (A1 & A2 & A3).
      apply (IH s0 s1 a b1 s' a' b' A1 A2); [eapply Hgs, Ha|exact A3|exact H].
  Qed.

  (** Moving one process keeps the other one's saved file if the directories differ. *)
  Lemma other_keeps s0 s a s' a' b ca cb : sound s -> weak s0 s -> good s0 s a -> good s0 s b ->
    advance cwd s a = (s', a') ->
    (forall c, phase_config a = Some c -> c = ca) -> (forall c, phase_config b = Some c -> c = cb) ->
    resolve cwd (c_logdir ca) <> resolve cwd (c_logdir cb) -> good s0 s' b.
  Proof.
    intros Hs Hw Ha Hb H Ca Cb Hne.
    destruct (advance_spec s0 s a s' a' Hs Hw Ha H) as (A1 & A2 & A3 & _ & [->|(c & u & Ea & A4)]); [exact Hb|].
    destruct b as [j|c1|c1 u1|c1|]; try exact Hb.
    destruct Hb as (n & N1 & N2). exists n. split; [exact N1|]. apply A4; [|exact N2].
    intros E. apply app_inj_tail in E. destruct E as [E _].
    assert (c = ca) by (apply Ca; rewrite Ea; reflexivity). assert (c1 = cb) by (apply Cb; reflexivity). subst. congruence.
  Qed.

  Lemma interleave_both sched : forall s0 s a b s' ca cb, sound s -> weak s0 s -> good s0 s a -> good s0 s b ->
    interleave cwd s a b sched = (s', Saved ca, Saved cb) ->
    resolve cwd (c_logdir ca) <> resolve cwd (c_logdir cb) ->
    good s0 s' (Saved ca) /\ good s0 s' (Saved cb).
  Proof.
    induction sched as [|[|] r IH]; intros s0 s a b s' ca cb Hs Hw Ha Hb H Hne.
    - cbn [interleave] in H. injection H as <- -> ->. auto.
    - assert (HC := chosen_stays _ _ _ _ _ _ _ H). destruct HC as [HC1 HC2].
      assert (Ca : forall c, phase_config a = Some c -> c = ca).
      { intros c Hc. destruct (HC1 c Hc) as [F|F]; [discriminate|]. cbn in F. congruence. }
      assert (Cb : forall c, phase_config b = Some c -> c = cb).
      { intros c Hc. destruct (HC2 c Hc) as [F|F]; [discriminate|]. cbn in F. congruence. }
      cbn [interleave] in H.
      destruct (advance cwd s a) as [s1 a1] eqn:E. destruct (advance_spec s0 _ _ _ _ Hs Hw Ha E) as (A1 & A2 & A3 & _).
      apply (IH s0 s1 a1 b); try assumption. apply (other_keeps s0 s a s1 a1 b ca cb); assumption.
    - assert (HC := chosen_stays _ _ _ _ _ _ _ H). destruct HC as [HC1 HC2].
      assert (Ca : forall c, phase_config a = Some c -> c = ca).
      { intros c Hc. destruct (HC1 c Hc) as [F|F]; [discriminate|]. cbn in F. congruence. }
      assert (Cb : forall c, phase_config b = Some c -> c = cb).
      { intros c Hc. destruct (HC2 c Hc) as [F|F]; [discriminate|]. cbn in F. congruence. }
      cbn [interleave] in H.
      destruct (advance cwd s b) as [s1 b1] eqn:E. destruct (advance_spec s0 _ _ _ _ Hs Hw Hb E) as (A1 & A2 & A3 & _).
      apply (IH s0 s1 a b1); try assumption. apply (other_keeps s0 s b s1 b1 a cb ca); try assumption. congruence.
  Qed.
End Hist.

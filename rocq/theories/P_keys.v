(** * No key is consumed twice *)
From Coq Require Import List Arith Lia Reals.
From Verif Require Import XReal M_mcmc S_mcmc M_keys P_mcmc P_walkers.
Import ListNotations.

Lemma derived_refl k : derived k k.
Proof. exists []; reflexivity. Qed.
Lemma derived_trans a b c : derived a b -> derived b c -> derived a c.
Proof. intros [s ->] [t ->]. exists (t ++ s). apply app_assoc. Qed.
Lemma derived_cons k o : derived k (o :: k).
Proof. exists [o]; reflexivity. Qed.

Lemma app_prefix_cmp {A} (s t a b : list A) : s ++ a = t ++ b -> (exists r, a = r ++ b) \/ (exists r, b = r ++ a).
Proof.
  revert t. induction s as [|x s IH]; intros t E.
  - left. exists t. exact E.
  - destruct t as [|y t].
    + right. exists (x :: s). symmetry. exact E.
    + injection E as _ E. eapply IH; eassumption.
Qed.

Lemma derived_cmp a b c : derived a c -> derived b c -> derived a b \/ derived b a.
Proof.
  intros [s ->] [t E]. apply app_prefix_cmp in E. destruct E as [[r ->]|[r ->]]; [right|left]; exists r; reflexivity.
Qed.

Lemma unrelated_sym a b : unrelated a b -> unrelated b a.
Proof. unfold unrelated; tauto. Qed.

Lemma unrelated_derived a b a' b' : unrelated a b -> derived a a' -> derived b b' -> unrelated a' b'.
Proof.
  intros [H1 H2] Da Db. split; intros D.
  - destruct (derived_cmp a b b'); [eapply derived_trans; eassumption|assumption| |]; auto.
  - destruct (derived_cmp a b a'); [assumption|eapply derived_trans; eassumption| |]; auto.
Qed.

Lemma unrelated_siblings k o o' : o <> o' -> unrelated (o :: k) (o' :: k).
Proof.
  assert (H : forall o o', o <> o' -> ~ derived (o :: k) (o' :: k)).
  { intros a b H [s E]. destruct s as [|x s]; simpl in E.
    - injection E; congruence.
    - apply (f_equal (@length key_op)) in E. simpl in E. rewrite app_length in E. simpl in E. lia. }
  intros N. split; apply H; congruence.
Qed.

Lemma FOP_app {A} (R : A -> A -> Prop) l l' :
  ForallOrdPairs R (l ++ l') <-> ForallOrdPairs R l /\ ForallOrdPairs R l' /\ forall a b, In a l -> In b l' -> R a b.
Proof.
  induction l as [|a l IH]; simpl.
  - split; [intros H; repeat split; [constructor|assumption|intros ? ? []]|tauto].
  - split.
    + intros H; inversion H as [|? ? F H']; subst. apply IH in H'. destruct H' as (H1 & H2 & H3).
      rewrite Forall_forall in F. repeat split.
      * constructor; [|assumption]. apply Forall_forall; intros; apply F, in_or_app; auto.
      * assumption.
      * intros x b [<-|Hx] Hb; [apply F, in_or_app; auto|apply H3; auto].
    + intros (H1 & H2 & H3). inversion H1 as [|? ? F H']; subst. constructor.
      * apply Forall_forall. intros x Hx. apply in_app_or in Hx. rewrite Forall_forall in F. destruct Hx; auto.
      * apply IH. auto.
Qed.

(** A program piece is fine if everything it touches descends from its key and nothing it consumes
    is related to anything else it consumes or to the key it passes on. *)
Definition kok (f : kprog) : Prop := forall k,
  independent (fst (f k) ++ [snd (f k)]) /\ (forall x, In x (fst (f k)) -> derived k x) /\ derived k (snd (f k)).

Lemma kok_skip : kok kskip.
Proof. intros k. simpl. split; [repeat constructor|]. split; [intros x []|apply derived_refl]. Qed.

Lemma kok_seq f g : kok f -> kok g -> kok (kseq f g).
Proof.
  intros Hf Hg k. unfold kseq. destruct (f k) as [u k1] eqn:Ef. destruct (g k1) as [v k2] eqn:Eg.
  pose proof (Hf k) as F. pose proof (Hg k1) as G. rewrite Ef in F. rewrite Eg in G. simpl in *.
  destruct F as (F1 & F2 & F3), G as (G1 & G2 & G3).
  unfold independent in *. apply FOP_app in F1. destruct F1 as (F1 & _ & F4).
  split; [|split].
  - rewrite <- app_assoc. apply FOP_app. split; [assumption|]. split; [assumption|].
    intros a b Ha Hb. apply (unrelated_derived a k1); [apply F4; simpl; auto|apply derived_refl|].
    apply in_app_or in Hb. destruct Hb as [Hb|[<-|[]]]; auto.
  - intros x Hx. apply in_app_or in Hx. destruct Hx as [Hx|Hx]; [auto|eapply derived_trans; eauto].
  - eapply derived_trans; eassumption.
Qed.

Lemma kok_loop n f : kok f -> kok (kloop n f).
Proof. intros H. induction n; simpl; [apply kok_skip|apply kok_seq; assumption]. Qed.

Lemma sib k i j : i <> j -> unrelated (SplitOp 2 i :: k) (SplitOp 2 j :: k).
Proof. intros H. apply unrelated_siblings. congruence. Qed.

Lemma kok_use_subkey : kok use_subkey.
Proof.
  intros k. simpl. split; [|split].
  - repeat constructor; apply sib; lia.
  - intros x [<-|[]]. apply derived_cons.
  - apply derived_cons.
Qed.

Lemma kok_step : kok step_keys.
Proof.
  intros k. simpl. set (a := SplitOp 2 0 :: k).
  assert (D : derived k a) by apply derived_cons.
  assert (U : unrelated a (SplitOp 2 1 :: k)) by (apply sib; lia).
  split; [|split].
  - constructor; [|constructor; [|constructor; constructor]].
    + constructor; [|constructor; [|constructor]].
      * eapply unrelated_derived; [exact U|apply derived_cons|apply derived_refl].
      * apply sib; lia.
    + constructor; [|constructor]. apply unrelated_sym.
      eapply unrelated_derived; [exact U|apply derived_cons|apply derived_refl].
  - intros x [<-|[<-|[]]]; [eapply derived_trans; [exact D|]|]; apply derived_cons.
  - eapply derived_trans; [exact D|]; apply derived_cons.
Qed.

Lemma split_n_independent k n : independent (split_n k n).
Proof.
  unfold split_n, independent.
  assert (H : forall s m, ForallOrdPairs unrelated (map (fun i => SplitOp n i :: k) (seq s m))).
  { intros s m. revert s. induction m; intros s; simpl; constructor; auto.
    apply Forall_forall. intros x Hx. apply in_map_iff in Hx. destruct Hx as (j & <- & Hj).
    apply in_seq in Hj. apply unrelated_siblings. intros E; injection E; lia. }
  apply H.
Qed.

Lemma split_n_derived k n x : In x (split_n k n) -> derived k x.
Proof. intros H. apply in_map_iff in H. destruct H as (i & <- & _). apply derived_cons. Qed.

Lemma kok_update u : kok (update_keys u).
Proof.
  intros k. assert (U : unrelated (SplitOp 2 1 :: k) (SplitOp 2 0 :: k)) by (apply sib; lia).
  unfold update_keys. simpl.
  assert (G : forall l, independent l -> (forall x, In x l -> derived (SplitOp 2 1 :: k) x) ->
    independent (l ++ [SplitOp 2 0 :: k]) /\ (forall x, In x l -> derived k x) /\ derived k (SplitOp 2 0 :: k)).
  { intros l Hl Hd. split; [|split].
    - apply FOP_app. split; [assumption|]. split; [repeat constructor|].
      intros a b Ha [<-|[]]. eapply unrelated_derived; [exact U|auto|apply derived_refl].
    - intros x Hx. eapply derived_trans; [apply derived_cons|]; auto.
    - apply derived_cons. }
  destruct u as [|nb|]; apply G; try (repeat constructor); try (intros x [<-|[]]; apply derived_refl).
  - apply split_n_independent.
  - apply split_n_derived.
Qed.

Lemma on_devices_ok f ks : kok f -> independent ks ->
  independent (fst (on_devices f ks) ++ snd (on_devices f ks)) /\
  (forall x, In x (fst (on_devices f ks) ++ snd (on_devices f ks)) -> exists k, In k ks /\ derived k x).
Proof.
  intros Hf Hi.
  assert (D : forall k x, In x (fst (f k) ++ [snd (f k)]) -> derived k x).
  { intros k x Hx. destruct (Hf k) as (_ & H1 & H2). apply in_app_or in Hx. destruct Hx as [Hx|[<-|[]]]; auto. }
  assert (I1 : forall x, In x (fst (on_devices f ks) ++ snd (on_devices f ks)) -> exists k, In k ks /\ derived k x).
  { intros x Hx. unfold on_devices in Hx. simpl in Hx. apply in_app_or in Hx. destruct Hx as [Hx|Hx].
    - apply in_concat in Hx. destruct Hx as (l & Hl & Hx). apply in_map_iff in Hl. destruct Hl as (k & <- & Hk).
      exists k. split; [assumption|]. apply D, in_or_app; auto.
    - apply in_map_iff in Hx. destruct Hx as (k & <- & Hk). exists k. split; [assumption|]. apply D, in_or_app; simpl; auto. }
  split; [|exact I1].
  clear I1. unfold on_devices; simpl. induction ks as [|k ks IH]; simpl; [constructor|].
  inversion Hi as [|? ? F Hi']; subst. rewrite Forall_forall in F.
  destruct (Hf k) as (HI & _). unfold independent in *. apply FOP_app in HI. destruct HI as (HI1 & _ & HI2).
  assert (IH' := IH Hi'). clear IH.
  assert (I1' : forall x, In x (concat (map (fun k => fst (f k)) ks) ++ map (fun k => snd (f k)) ks) -> exists k', In k' ks /\ derived k' x).
  { intros x Hx. apply in_app_or in Hx. destruct Hx as [Hx|Hx].
    - apply in_concat in Hx. destruct Hx as (l & Hl & Hx). apply in_map_iff in Hl. destruct Hl as (k' & <- & Hk).
      exists k'. split; [assumption|]. apply D, in_or_app; auto.
    - apply in_map_iff in Hx. destruct Hx as (k' & <- & Hk). exists k'. split; [assumption|]. apply D, in_or_app; simpl; auto. }
  assert (X : forall a b, In a (fst (f k) ++ [snd (f k)]) ->
     In b (concat (map (fun k => fst (f k)) ks) ++ map (fun k => snd (f k)) ks) -> unrelated a b).
  { intros a b Ha Hb. destruct (I1' b Hb) as (k' & Hk' & Hd). eapply unrelated_derived; [apply F; exact Hk'|apply D; exact Ha|exact Hd]. }
  apply FOP_app in IH'. destruct IH' as (J1 & J2 & J3).
  rewrite <- app_assoc. apply FOP_app. split; [assumption|]. split.
  - apply FOP_app. split; [assumption|]. split.
    + constructor; [|assumption]. apply Forall_forall. intros b Hb. apply X; apply in_or_app; simpl; auto.
    + intros a b Ha [<-|Hb]; [|apply J3; assumption]. apply unrelated_sym, X; apply in_or_app; simpl; auto.
  - intros a b Ha Hb. apply in_app_or in Hb. destruct Hb as [Hb|[<-|Hb]].
    + apply X; apply in_or_app; auto.
    + apply HI2; simpl; auto.
    + apply X; apply in_or_app; simpl; auto.
Qed.

Lemma device_keys_ok p n k : independent (device_keys p n k) /\ forall x, In x (device_keys p n k) -> derived k x.
Proof.
  split; [apply split_n_independent|]. intros x Hx. apply split_n_derived in Hx.
  eapply derived_trans; [apply derived_cons|eassumption].
Qed.

(** Compose: consumed keys [u] with live keys [ks], then a stage from the live keys. *)
Lemma stage u ks v ks' :
  independent (u ++ ks) -> independent (v ++ ks') ->
  (forall x, In x (v ++ ks') -> exists k, In k ks /\ derived k x) ->
  independent ((u ++ v) ++ ks').
Proof.
  intros H1 H2 H3. unfold independent in *. apply FOP_app in H1. destruct H1 as (A & B & C).
  rewrite <- app_assoc. apply FOP_app. split; [assumption|]. split; [assumption|].
  intros a b Ha Hb. destruct (H3 b Hb) as (k & Hk & Hd). eapply unrelated_derived; [apply C; eassumption|apply derived_refl|assumption].
Qed.

Lemma kok_init n : kok (initialize_molecular_pos_keys n).
Proof. apply kok_seq; [apply kok_loop|]; apply kok_use_subkey. Qed.

Lemma kok_epochs n s u : kok u -> kok (epochs_keys n s u).
Proof. intros H. apply kok_loop, kok_seq; [apply kok_loop, kok_step|assumption]. Qed.

Lemma training_ok c seed : independent (fst (training_keys c seed) ++ snd (training_keys c seed)).
Proof.
  unfold training_keys.
  pose proof (kok_seq _ _ (kok_init (rc_nchains c)) kok_use_subkey seed) as H0.
  change init_model_keys with use_subkey in *.
  destruct (kseq (initialize_molecular_pos_keys (rc_nchains c)) use_subkey seed) as [u0 k0]. simpl in H0.
  destruct H0 as (H0 & _ & _).
  match goal with |- context[on_devices ?f ?ks] => 
    pose proof (on_devices_ok f ks) as H1; destruct (on_devices f ks) as [u1 ks1] end. simpl in *.
  destruct (device_keys_ok (rc_process c) (rc_ndevices c) k0) as (D1 & D2).
  destruct H1 as (H1 & H2).
  - apply kok_seq; [destruct (rc_update c); try apply kok_skip; apply kok_use_subkey|].
    apply kok_seq; [apply kok_loop, kok_step|]. apply kok_epochs, kok_update.
  - exact D1.
  - eapply stage; [|exact H1|exact H2].
    pose proof (stage u0 [k0] [] (device_keys (rc_process c) (rc_ndevices c) k0) H0 D1) as H.
    rewrite app_nil_r in H. apply H. intros x Hx. exists k0. split; [left; reflexivity|]. auto.
Qed.

Lemma run_ok c seed : independent (fst (run_keys c seed) ++ snd (run_keys c seed)).
Proof.
  unfold run_keys. pose proof (training_ok c seed) as H1. destruct (training_keys c seed) as [u1 ks1]. simpl in H1.
  assert (H2 : forall u2 ks2, (if rc_new_eval_data c then new_eval_data_keys c ks1 else ([], ks1)) = (u2, ks2) ->
            independent ((u1 ++ u2) ++ ks2) /\ independent ks2).
  { intros u2 ks2 E. assert (H : independent ((u1 ++ u2) ++ ks2)).
    { destruct (rc_new_eval_data c).
      - destruct ks1 as [|k ks1]; simpl in E.
        + injection E as <- <-. rewrite !app_nil_r in *. assumption.
        + pose proof (kok_init (rc_eval_nchains c) k) as HK.
          destruct (initialize_molecular_pos_keys (rc_eval_nchains c) k) as [u k']. simpl in HK.
          destruct HK as (K1 & K2 & K3). injection E as <- <-.
          destruct (device_keys_ok (rc_process c) (rc_ndevices c) k') as (D1 & D2).
          apply (stage u1 (k :: ks1)); [assumption| |].
          * pose proof (stage u [k'] [] (device_keys (rc_process c) (rc_ndevices c) k') K1 D1) as H.
            rewrite app_nil_r in H. apply H. intros x Hx. exists k'. split; [left; reflexivity|auto].
          * intros x Hx. exists k. split; [left; reflexivity|]. apply in_app_or in Hx. destruct Hx as [Hx|Hx]; [auto|].
            eapply derived_trans; eauto.
      - injection E as <- <-. rewrite app_nil_r. assumption. }
    split; [assumption|]. unfold independent in *. apply FOP_app in H. tauto. }
  destruct (if rc_new_eval_data c then new_eval_data_keys c ks1 else ([], ks1)) as [u2 ks2].
  destruct (H2 u2 ks2 eq_refl) as (H3 & H4).
  match goal with |- context[on_devices ?f ?ks] => 
    pose proof (on_devices_ok f ks) as H5; destruct (on_devices f ks) as [u3 ks3] end. simpl in *.
  destruct H5 as (H5 & H6); [|exact H4|].
  - apply kok_seq; [apply kok_loop, kok_step|]. apply kok_epochs, kok_skip.
  - rewrite app_assoc. eapply stage; eassumption.
Qed.

Lemma independent_NoDup ks : independent ks -> NoDup ks.
Proof.
  induction 1 as [|k ks F H IH]; constructor; [|assumption].
  intros Hin. rewrite Forall_forall in F. destruct (F k Hin) as [H1 _]. apply H1, derived_refl.
Qed.

(** ** The consumed keys are all the randomness a step looks at *)
Section Draws.
Context {P M : Type}.
Variables (g1 g2 : prng key) (model_apply : P -> list (list R) -> list xr).
Variables (get_std : padata M -> R) (upd : option (list M -> list (list bool) -> list M)) (logabs : bool).
Hypothesis S1 : forall k, split2 g1 k = key_split2 k.
Hypothesis S2 : forall k, split2 g2 k = key_split2 k.

Lemma step_depends p datas keys : length datas = length keys ->
  (forall k x, In k keys -> In x (fst (step_keys k)) -> uniform g1 x = uniform g2 x /\ normal g1 x = normal g2 x) ->
  pa_step g1 model_apply get_std upd logabs p datas keys = pa_step g2 model_apply get_std upd logabs p datas keys /\
  snd (pa_step g1 model_apply get_std upd logabs p datas keys) = map (fun k => snd (step_keys k)) keys.
Proof.
  intros L H. rewrite !pa_step_unfold by assumption.
  assert (E : forall d k, In k keys ->
    dev_prop g1 model_apply get_std p d k = dev_prop g2 model_apply get_std p d k).
  { intros d k Hk. unfold dev_prop, pa_proposal, gaussian_proposal. repeat first [rewrite S1 | rewrite S2 | progress simpl].
    destruct (H k (SplitOp 2 1 :: SplitOp 2 0 :: k) Hk) as [_ ->]; [simpl; auto|reflexivity]. }
  assert (E2 : forall d k, In k keys ->
    dev_mask g1 model_apply get_std logabs p d k = dev_mask g2 model_apply get_std logabs p d k).
  { intros d k Hk. unfold dev_mask, dev_acc. rewrite E by assumption. rewrite S1, S2. simpl.
    destruct (H k (SplitOp 2 1 :: k) Hk) as [-> _]; [simpl; auto|reflexivity]. }
  assert (Z : forall (C : Type) (f f' : padata M -> key -> C), (forall d k, In k keys -> f d k = f' d k) ->
            zipw f datas keys = zipw f' datas keys).
  { intros C f f' HF. clear -HF. revert keys HF. induction datas as [|d ds IH]; intros [|k ks] HF; simpl; auto.
    rewrite HF by (left; reflexivity). f_equal. apply IH. intros; apply HF; right; assumption. }
  split.
  - f_equal; [f_equal|].
    + f_equal. apply Z. intros d k Hk. unfold dev_acc. rewrite E by assumption. reflexivity.
    + f_equal; apply Z; intros d k Hk; [rewrite E by assumption; reflexivity|apply E2; assumption].
    + apply Z. intros d k Hk. rewrite E by assumption. reflexivity.
  - cbn [snd]. clear -L S1. revert keys L. induction datas as [|d ds IH]; intros [|k ks] L; try discriminate; simpl; auto.
    f_equal; [|apply IH; simpl in L; congruence].
    unfold dev_prop, pa_proposal, gaussian_proposal. repeat first [rewrite S1 | progress simpl]. reflexivity.
Qed.
End Draws.

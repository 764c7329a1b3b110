(** The batched layers and the batched backflow. *)
From Coq Require Import Reals List Bool Arith Lia.
From Verif Require Import XReal M_slog M_models M_antisym M_construct M_tensor M_batch P_tab P_batch P_batch2.
Import ListNotations.

Lemma sequence_map2 {A A' C C'} (R : A -> C -> Prop) (R' : A' -> C' -> Prop) f g ts ls : Forall2 R ts ls ->
  (forall t l, R t l -> exists u, f t = Some u /\ R' u (g l)) -> exists us, sequence (map f ts) = Some us /\ Forall2 R' us (map g ls).
Proof.
  intros H K. induction H as [|t l ts ls Ht _ [us [E F]]]; [exists []; split; [reflexivity|constructor]|].
  destruct (K t l Ht) as [u [Eu Fu]]. exists (u :: us). cbn. rewrite Eu, E. split; [reflexivity|constructor; assumption].
Qed.
Lemma sequence_mapi2 {A A' C C'} (R : A -> C -> Prop) (R' : A' -> C' -> Prop) f g ts ls : Forall2 R ts ls ->
  (forall i t l, R t l -> exists u, f i t = Some u /\ R' u (g i l)) -> exists us, sequence (mapi f ts) = Some us /\ Forall2 R' us (mapi g ls).
Proof.
  intros H K. unfold mapi. generalize 0 as st.
  induction H as [|t l ts ls Ht _ IH]; intros st; [exists []; split; [reflexivity|constructor]|].
  destruct (IH (S st)) as [us [E F]]. destruct (K st t l Ht) as [u [Eu Fu]]. exists (u :: us).
  unfold zipw in *. cbn [length seq combine map fst snd sequence]. rewrite Eu, E. split; [reflexivity|constructor; assumption].
Qed.
Lemma Forall2_skipn {A C} (R : A -> C -> Prop) n l m : Forall2 R l m -> Forall2 R (skipn n l) (skipn n m).
Proof. intros H; revert n; induction H; intros [|n]; cbn; try constructor; auto. Qed.
Lemma Forall2_firstn {A C} (R : A -> C -> Prop) n l m : Forall2 R l m -> Forall2 R (firstn n l) (firstn n m).
Proof. intros H; revert n; induction H; intros [|n]; cbn; try constructor; auto. Qed.
Lemma roll_in {A} n (l : list A) a : In a (skipn n l ++ firstn n l) <-> In a l.
Proof. rewrite in_app_iff. rewrite <- (firstn_skipn n l) at 3. rewrite in_app_iff. tauto. Qed.
Lemma roll_length {A} n (l : list A) : length (skipn n l ++ firstn n l) = length l.
Proof. rewrite app_length, Nat.add_comm, <- app_length, firstn_skipn; reflexivity. Qed.

Section Batch3.
Context (B b : list nat) (Hb : inb b B).
Notation R2 := (R2 B b).
Notation R3 := (R3 B b).

Lemma rolled_R2 m n ts ls k : Forall2 (R2 m) ts ls -> (forall l, In l ls -> length l = n) -> ls <> [] ->
  exists y, nd_rolled_concat ts k = Some y /\ R2 (length ls * m) y (rolled_concat ls k).
Proof.
  intros H W N. unfold nd_rolled_concat, rolled_concat. rewrite <- (roll_length k ls).
  apply (concat_last_R2 B b m n).
  - apply Forall2_app; [apply Forall2_skipn|apply Forall2_firstn]; exact H.
  - intros l Hl; apply W; apply roll_in in Hl; exact Hl.
  - intros E. apply N. apply length_zero_iff_nil. rewrite <- (roll_length k ls), E; reflexivity.
Qed.

Lemma concat_last_length ls n : (forall l : arr2, In l ls -> length l = n) -> ls <> [] -> length (concat_last ls) = n.
Proof. intros W N. unfold concat_last. rewrite map_length, seq_length. destruct ls as [|l r]; [congruence|]. apply W; left; reflexivity. Qed.
Lemma rolled_length ls n k : (forall l : arr2, In l ls -> length l = n) -> ls <> [] -> length (rolled_concat ls k) = n.
Proof.
  intros W N. unfold rolled_concat. apply concat_last_length; [intros l Hl; apply W; apply roll_in in Hl; exact Hl|].
  intros E; apply N, length_zero_iff_nil. rewrite <- (roll_length k ls), E; reflexivity.
Qed.

(** equivariance.py 307-349 on one-row means. *)
Lemma transformed_1e_R2 p m ts ls : Forall2 (R2 m) ts ls -> (forall l, In l ls -> length l = 1) -> ls <> [] ->
  exists us, nd_transformed_1e_means p ts = Some us /\ Forall2 (R2 (l1_ndense p)) us (transformed_1e_means p ls) /\
    length (transformed_1e_means p ls) = length ls /\ (forall l, In l (transformed_1e_means p ls) -> length l = 1).
Proof.
  intros H W N. unfold nd_transformed_1e_means, transformed_1e_means. rewrite (Forall2_len _ _ _ H).
  destruct (l1_cyclic p).
  - destruct (sequence_map2 (fun i j : nat => i = j) (fun t l => R2 (length ls * m) t l /\ length l = 1) (nd_rolled_concat ts) (rolled_concat ls) (seq 0 (length ls)) (seq 0 (length ls))) as [us [E F]].
    { apply Forall2_of_nth with (da := 0) (dc := 0); [reflexivity|auto]. }
    { intros i j <-. destruct (rolled_R2 m 1 ts ls i H W N) as [y [Ey Ry]]. exists y; split; [exact Ey|split; [exact Ry|apply rolled_length; assumption]]. }
    rewrite E. cbn [bind_opt].
    set (sc := map (rolled_concat ls) (seq 0 (length ls))) in *.
    assert (Lsc : length sc = length ls) by (unfold sc; rewrite map_length, seq_length; reflexivity).
    assert (Nsc : sc <> []) by (intros Q; rewrite Q in Lsc; destruct ls; [congruence|discriminate]).
    destruct (concat_rows_R2 B b (length ls * m) us sc) as [a [Ea Ra]]; [eapply Forall2_imp; [|exact F]; cbn; tauto|exact Nsc|].
    rewrite Ea. cbn [bind_opt].
    assert (Lc : length (concat sc) = length sc).
    { rewrite length_concat_sum. assert (G : forall l, In l sc -> length l = 1) by (unfold sc; intros l Hl; apply in_map_iff in Hl; destruct Hl as [i [<- _]]; apply rolled_length; assumption). clear -G.
      induction sc as [|q sc IH]; [reflexivity|]. cbn [map list_sum fold_right length]. rewrite G by (left; reflexivity). unfold list_sum in IH; rewrite IH by (intros; apply G; right; assumption). reflexivity. }
    destruct (dense_R2 B b Hb (l1_ndense p) (l1_mixed p) None _ _ _ Ra) as [dm [Ed Rd]]. rewrite Ed. cbn [bind_opt].
    rewrite (Forall2_len _ _ _ F).
    pose proof (split_R2 B b (Equal (length sc)) _ _ _ Rd) as SP.
    assert (Ld : length (map (dense (l1_ndense p) (l1_mixed p) None) (concat sc)) = length sc) by (rewrite map_length; exact Lc).
    assert (K0 : length sc <> 0) by (rewrite Lsc; destruct ls; [congruence|discriminate]).
    destruct (split_some (Equal (length sc)) (map (dense (l1_ndense p) (l1_mixed p) None) (concat sc))) as [ps Eps].
    { rewrite Ld. cbn [splittable]. rewrite Nat.mod_same by exact K0. destruct (Nat.eqb_spec (length sc) 0); [contradiction|reflexivity]. }
    rewrite Eps in SP. rewrite (pieces_of _ _ _ Eps).
    destruct (nd_split dm (Equal (length sc)) 2) as [vs|]; [|contradiction]. exists vs; split; [reflexivity|]. split; [exact SP|].
    split; [rewrite (split_count _ _ _ Eps); cbn; exact Lsc|].
    intros l Hl. pose proof Eps as E2. rewrite split_by_points, Ld in E2. destruct (split_points (Equal (length sc)) (length sc)) as [idx|] eqn:Q; [|discriminate].
    rewrite <- Ld in Q at 2. pose proof (split_lengths _ _ _ _ Eps Q) as SL.
    assert (In (length l) (map (@length vec) ps)) by (apply in_map; exact Hl). rewrite SL in H0. rewrite Ld in H0, Q.
    cbn in Q. destruct (Nat.eqb_spec (length sc) 0); [contradiction|]. rewrite Nat.mod_same, Nat.div_same in Q by exact K0. cbn [Nat.eqb] in Q. injection Q as <-.
    clear -H0 K0. revert H0 K0. generalize (length l) as v. generalize (length sc) as k. intros k v.
    assert (G : forall q st, In v (map snd (bounds k st (map (fun j => S j * 1) (seq st q)))) -> st + S q = k -> v = 1).
    { induction q as [|q IH]; intros st; cbn [seq map bounds snd].
      - intros [<-|[]] HH. lia.
      - intros [<-|HH] HK; [lia|]. apply (IH (S st)); [|lia]. replace (S st * 1) with (S st) in HH by lia. exact HH. }
    intros HI HK. apply (G (k - 1) 0); [exact HI|lia].
  - destruct (concat_last_R2 B b m 1 ts ls H W N) as [a [Ea Ra]]. rewrite Ea. cbn [bind_opt].
    destruct (dense_R2 B b Hb (l1_ndense p) (l1_mixed p) None _ _ _ Ra) as [dm [Ed Rd]]. rewrite Ed. cbn [bind_opt].
    eexists; split; [reflexivity|]. rewrite repeat_length. split; [|split; [reflexivity|]].
    + clear -Rd. induction (length ls); cbn; constructor; assumption.
    + intros l Hl. apply repeat_spec in Hl. subst l. rewrite map_length. apply concat_last_length; assumption.
Qed.

(** core.py 31-42 with keepdims=True. *)
Lemma split_mean_keep_R2 s m x l ls : R2 m x l -> 0 < length l -> split s l = Some ls ->
  exists us, nd_split_mean x s 2 true = Some us /\ Forall2 (R2 m) us (split_mean_keep s l) /\ length (split_mean_keep s l) = length ls /\
    (forall q, In q (split_mean_keep s l) -> length q = 1).
Proof.
  intros H L E. unfold nd_split_mean, split_mean_keep. pose proof (split_R2 B b s m x l H) as SP. rewrite E in SP.
  destruct (nd_split x s 2) as [ts|]; [|contradiction]. cbn [bind_opt orel] in *.
  rewrite (pieces_of _ _ _ E), (R2_width B b m x l H L).
  destruct (sequence_map2 (R2 m) (R2 m) (fun t => nd_reduce mean_of t 2 true) (fun q => [vmean m q]) ts ls SP) as [us [Eu Fu]]; [intros t q Ht; apply mean_keep_R2; exact Ht|].
  exists us; split; [exact Eu|]. split; [exact Fu|]. split; [apply map_length|]. intros q Hq. apply in_map_iff in Hq. destruct Hq as [? [<- _]]. reflexivity.
Qed.
(** ... on the second particle axis with keepdims=False. *)
Lemma split_mean_2e_R3 s n m x l : R3 n m x l -> splittable s n = true ->
  exists us, nd_split_mean x s 2 false = Some us /\ Forall2 (R2 m) us (split_mean_2e s m l) /\ length (split_mean_2e s m l) = get_nsplits s /\
    (forall q, In q (split_mean_2e s m l) -> length q = length l).
Proof.
  intros H SP. unfold nd_split_mean. pose proof (split_rows_R3 B b s n m x l H) as SR. rewrite SP in SR. destruct SR as [ts [E [Lt F]]].
  rewrite E. cbn [bind_opt].
  destruct (sequence_map2 (fun t j => exists len, R3 len m t (map (fun row => nth j (pieces s row) []) l)) (R2 m)
    (fun t => nd_reduce mean_of t 2 false) (fun j => map (vmean m) (map (fun row => nth j (pieces s row) []) l)) ts (seq 0 (get_nsplits s))) as [us [Eu Fu]].
  { apply Forall2_of_nth with (da := x) (dc := 0); [rewrite seq_length; exact Lt|]. intros j Hj. rewrite seq_nth by lia. cbn [Nat.add]. apply F; lia. }
  { intros t j [len Ht]. apply (mean_R3 B b len m t _ Ht). }
  exists us; split; [exact Eu|]. unfold split_mean_2e. split; [|split].
  - replace (map (fun j => map (fun row => vmean m (nth j (pieces s row) [])) l) (seq 0 (get_nsplits s)))
      with (map (fun j => map (vmean m) (map (fun row => nth j (pieces s row) []) l)) (seq 0 (get_nsplits s))); [exact Fu|].
    apply map_ext; intros j; apply map_map.
  - rewrite map_length, seq_length; reflexivity.
  - intros q Hq. apply in_map_iff in Hq. destruct Hq as [j [<- _]]. apply map_length.
Qed.

Lemma splittable_nsplits s n : splittable s n = true -> get_nsplits s <> 0.
Proof. intros H; apply splittable_points in H. destruct H as [idx E]. rewrite <- (split_points_length _ _ _ E). discriminate. Qed.

Lemma mapi_length {A C} (f : nat -> A -> C) l : length (mapi f l) = length l.
Proof. unfold mapi, zipw. rewrite map_length, combine_length, seq_length. lia. Qed.
Lemma map_length_mapi {A C D} (f : nat -> A -> C) (h : C -> D) (k : A -> D) l : (forall i a, In a l -> h (f i a) = k a) -> map h (mapi f l) = map k l.
Proof.
  unfold mapi. generalize 0 as st. induction l as [|a l IH]; intros st H; [reflexivity|]. unfold zipw in *. cbn [length seq combine map fst snd].
  f_equal; [apply H; left; reflexivity|apply IH; intros; apply H; right; assumption].
Qed.

(** equivariance.py 351-395. *)
Lemma transformed_2e_R3 p d x l : R3 (length l) d x l -> 0 < length l -> splittable (l1_split p) (length l) = true -> proper (l1_split p) (length l) ->
  exists us ls0, nd_transformed_2e_means p x = Some us /\ Forall2 (R2 (l1_ndense p)) us (transformed_2e_means p l) /\
    split (l1_split p) l = Some ls0 /\ map (@length vec) (transformed_2e_means p l) = map (@length arr2) ls0.
Proof.
  intros H L SP PR. destruct (split_some (l1_split p) l SP) as [ls0 E0].
  unfold nd_transformed_2e_means, transformed_2e_means. pose proof (split_R3 B b (l1_split p) _ _ _ _ H) as SR. rewrite E0 in SR.
  destruct (nd_split x (l1_split p) 3) as [ts|]; [|contradiction]. cbn [bind_opt orel] in *. rewrite (pieces_of _ _ _ E0).
  assert (Wd : width (hd [] l) = d).
  { destruct (R3_tab _ _ _ _ _ _ H) as (k & f & Lk & S & E & F). rewrite E, hd_tab by lia. unfold width. rewrite hd_tab by lia. apply tab_length. }
  rewrite Wd. set (s := l1_split p) in *.
  set (g := fun spin rows => if l1_cyclic p then rolled_concat (split_mean_2e s d rows) spin else concat_last (split_mean_2e s d rows)).
  change (mapi (fun spin rows => let split_arrays := split_mean_2e s d rows in if l1_cyclic p then rolled_concat split_arrays spin else concat_last split_arrays) ls0) with (mapi g ls0).
  assert (NS := splittable_nsplits _ _ SP).
  destruct (sequence_mapi2 (R3 (length l) d) (fun t q => R2 (get_nsplits s * d) t q)
    (fun spin t => do split_arrays <- nd_split_mean t s 2 false; if l1_cyclic p then nd_rolled_concat split_arrays spin else nd_concatenate split_arrays 1) g ts ls0 SR) as [us [Eu Fu]].
  { intros i t q Ht. destruct (split_mean_2e_R3 s _ _ _ _ Ht SP) as [vs [Ev [Fv [Lv Wv]]]]. rewrite Ev. cbn [bind_opt]. unfold g.
    assert (NV : split_mean_2e s d q <> []) by (intros Q; rewrite Q in Lv; cbn in Lv; lia).
    rewrite <- Lv. destruct (l1_cyclic p); [apply (rolled_R2 d (length q)); assumption|apply (concat_last_R2 B b d (length q)); assumption]. }
  rewrite Eu. cbn [bind_opt].
  assert (Ng : mapi g ls0 <> []).
  { intros Q. assert (LQ := mapi_length g ls0). rewrite Q, (split_count _ _ _ E0) in LQ. cbn in LQ. congruence. }
  destruct (concat_rows_R2 B b _ us (mapi g ls0) Fu Ng) as [a [Ea Ra]]. rewrite Ea. cbn [bind_opt].
  destruct (dense_R2 B b Hb (l1_ndense p) (l1_2e p) None _ _ _ Ra) as [dm [Ed Rd]]. rewrite Ed. cbn [bind_opt].
  assert (ML : map (@length vec) (mapi g ls0) = map (@length arr2) ls0).
  { apply map_length_mapi. intros i q Hq. unfold g.
    assert (Wv : forall u, In u (split_mean_2e s d q) -> length u = length q) by (unfold split_mean_2e; intros u Hu; apply in_map_iff in Hu; destruct Hu as [? [<- _]]; apply map_length).
    assert (NV : split_mean_2e s d q <> []) by (unfold split_mean_2e; destruct (get_nsplits s); [congruence|discriminate]).
    destruct (l1_cyclic p); [apply rolled_length; assumption|apply concat_last_length; assumption]. }
  assert (Lc : length (map (dense (l1_ndense p) (l1_2e p) None) (concat (mapi g ls0))) = length l).
  { rewrite map_length, length_concat_sum, ML, <- length_concat_sum. apply (proper_length s); assumption. }
  destruct (split_some s (map (dense (l1_ndense p) (l1_2e p) None) (concat (mapi g ls0)))) as [ps Eps]; [rewrite Lc; exact SP|].
  pose proof (split_R2 B b s _ _ _ Rd) as SP2. rewrite Eps in SP2. rewrite (pieces_of _ _ _ Eps).
  destruct (nd_split dm s 2) as [vs|]; [|contradiction]. exists vs, ls0. split; [reflexivity|]. split; [exact SP2|]. split; [exact E0|].
  apply (split_same_lengths s _ _ _ _ Eps E0 Lc).
Qed.

(** flax SelfAttention. *)
Lemma attention_R2 a m x l : R2 m x l -> exists y, nd_attention a x = Some y /\ R2 (at_out a) y (self_attention a l).
Proof.
  intros H. destruct (R2_tab _ _ _ _ _ H) as (n & f & L & S & E & F).
  unfold nd_attention. rewrite S. eexists; split; [reflexivity|].
  assert (LA : length (self_attention a l) = n) by (unfold self_attention; rewrite map_length; exact L).
  apply R2_of_entries; rewrite ?LA.
  - reflexivity.
  - intros i Hi. unfold self_attention. rewrite (nth_indep _ [] (at_row a l [])) by (rewrite map_length; lia). rewrite (map_nth (at_row a l)). unfold at_row. rewrite map_length, seq_length; reflexivity.
  - intros i j Hi Hj. cbn [entry]. unfold matrix_at.
    assert (EM : map (fun r => map (fun c => entry x (c :: r :: b)) (seq 0 m)) (seq 0 n) = l).
    { destruct H as [S' E']. rewrite L in E'. symmetry; exact E'. }
    rewrite EM. apply nth_indep. unfold self_attention. rewrite (nth_indep _ [] (at_row a l [])) by (rewrite map_length; lia). rewrite (map_nth (at_row a l)). unfold at_row. rewrite map_length, seq_length; exact Hj.
Qed.

(** equivariance.py 397-407. *)
Lemma mixed_R2 p m x l ls : R2 m x l -> 0 < length l -> split (l1_split p) l = Some ls ->
  (match l1_attention p with Some a => at_out a = l1_ndense p | None => True end) ->
  exists us, nd_mixed_split p x = Some us /\ Forall2 (R2 (l1_ndense p)) us (mixed_split p l) /\
    Forall2 (fun q q' => length q' = length q \/ length q' = 1) ls (mixed_split p l).
Proof.
  intros H L E AT. unfold nd_mixed_split, mixed_split. destruct (l1_attention p) as [a|].
  - pose proof (split_R2 B b (l1_split p) m x l H) as SP. rewrite E in SP. destruct (nd_split x (l1_split p) 2) as [ts|]; [|contradiction]. cbn [bind_opt orel] in *.
    rewrite (pieces_of _ _ _ E).
    destruct (sequence_map2 (R2 m) (R2 (at_out a)) (nd_attention a) (self_attention a) ts ls SP) as [us [Eu Fu]]; [intros t q Ht; apply (attention_R2 a m); exact Ht|].
    exists us. split; [exact Eu|]. rewrite <- AT. split; [exact Fu|].
    clear. induction ls as [|q ls IH]; cbn; constructor; [left; unfold self_attention; apply map_length|exact IH].
  - destruct (split_mean_keep_R2 (l1_split p) m x l ls H L E) as [us [Eu [Fu [Lu Wu]]]]. rewrite Eu. cbn [bind_opt].
    assert (N : split_mean_keep (l1_split p) l <> []).
    { intros Q. rewrite Q in Lu. cbn in Lu. rewrite (split_count _ _ _ E) in Lu.
      assert (SPL : splittable (l1_split p) (length l) = true) by (destruct (splittable (l1_split p) (length l)) eqn:Z; [reflexivity|rewrite (split_none _ _ Z) in E; discriminate]).
      apply splittable_nsplits in SPL. congruence. }
    destruct (transformed_1e_R2 p m us _ Fu Wu N) as [vs [Ev [Fv [Lv Wv]]]]. exists vs. split; [exact Ev|]. split; [exact Fv|].
    apply Forall2_of_nth with (da := []) (dc := []); [congruence|]. intros i Hi. right. apply Wv, nth_In. rewrite Lv, Lu. exact Hi.
Qed.

(** Skip connections. *)
Lemma skip_R2 skip scale d m x l o q : R2 d x l -> R2 m o q -> length q = length l ->
  exists z, nd_skip skip scale x o = Some z /\ R2 m z (if skip && Nat.eqb d m then zipw (zipw (fun a c => xmul scale (xadd a c))) q l else q).
Proof.
  intros H H' E. unfold nd_skip, axis_size. destruct H as [S EE] eqn:EH. destruct H' as [S' EE'] eqn:EH'. rewrite S, S'. cbn [nth_error bind_opt]. clear EH EH'.
  destruct (skip && Nat.eqb d m) eqn:K; [|exists o; split; [reflexivity|exact H']].
  apply andb_prop in K. destruct K as [_ K]. apply Nat.eqb_eq in K. subst d.
  destruct (op_R2 B b Hb xadd m o x q l H' H E) as [z [Ez Rz]]. rewrite Ez. cbn [bind_opt]. eexists; split; [reflexivity|].
  replace (zipw (zipw (fun a c => xmul scale (xadd a c))) q l) with (map (map (xmul scale)) (zipw (zipw xadd) q l)); [apply map_R2; exact Rz|].
  unfold zipw. rewrite map_map. apply map_ext. intros pq. rewrite map_map. reflexivity.
Qed.
Lemma skip_R3 skip scale n d m x l o q : R3 n d x l -> R3 n m o q -> length q = length l ->
  exists z, nd_skip skip scale x o = Some z /\ R3 n m z (if skip && Nat.eqb d m then zipw (zipw (zipw (fun a c => xmul scale (xadd a c)))) q l else q).
Proof.
  intros H H' E. unfold nd_skip, axis_size. destruct H as [S EE] eqn:EH. destruct H' as [S' EE'] eqn:EH'. rewrite S, S'. cbn [nth_error bind_opt]. clear EH EH'.
  destruct (skip && Nat.eqb d m) eqn:K; [|exists o; split; [reflexivity|exact H']].
  apply andb_prop in K. destruct K as [_ K]. apply Nat.eqb_eq in K. subst d.
  destruct (op_R3 B b Hb xadd n m o x q l H' H E) as [z [Ez Rz]]. rewrite Ez. cbn [bind_opt]. eexists; split; [reflexivity|].
  replace (zipw (zipw (zipw (fun a c => xmul scale (xadd a c)))) q l) with (map (map (map (xmul scale))) (zipw (zipw (zipw xadd)) q l)); [apply map_R3; exact Rz|].
  unfold zipw. rewrite map_map. apply map_ext. intros pq. rewrite map_map. apply map_ext. intros pq'. rewrite map_map. reflexivity.
Qed.

(** The streams of a layer: one row per electron, one row per pair. *)
Definition pair_stream (n d : nat) (y : option tensor) (q : option arr3) : Prop :=
  match y, q with None, None => True | Some y, Some q => R3 n d y q /\ length q = n | _, _ => False end.

Lemma map_length_eq {A C} (f : list A -> list C) ls : (forall l, length (f l) = length l) -> map (@length C) (map f ls) = map (@length A) ls.
Proof. intros H; rewrite map_map; apply map_ext; exact H. Qed.

(** equivariance.py 409-471. *)
Lemma layer1_R2 p d d2 x l y q : R2 d x l -> 0 < length l -> proper (l1_split p) (length l) -> pair_stream (length l) d2 y q ->
  (match l1_attention p with Some a => at_out a = l1_ndense p | None => True end) ->
  if splittable (l1_split p) (length l)
  then exists z, nd_one_electron_layer p x y = Some z /\ R2 (l1_ndense p) z (one_electron_layer p l q) /\ length (one_electron_layer p l q) = length l
  else nd_one_electron_layer p x y = None.
Proof.
  intros H L PR PS AT. unfold nd_one_electron_layer, one_electron_layer.
  destruct (dense_R2 B b Hb (l1_ndense p) (l1_unmixed p) (l1_bias p) _ _ _ H) as [u [Eu Ru]]. rewrite Eu. cbn [bind_opt].
  pose proof (split_R2 B b (l1_split p) _ _ _ Ru) as SP.
  set (ul := map (dense (l1_ndense p) (l1_unmixed p) (l1_bias p)) l) in *. assert (LU : length ul = length l) by (unfold ul; apply map_length).
  destruct (splittable (l1_split p) (length l)) eqn:SPL.
  2:{ rewrite (split_none (l1_split p) ul) in SP by (rewrite LU; exact SPL). destruct (nd_split u (l1_split p) 2); [contradiction|reflexivity]. }
  destruct (split_some (l1_split p) ul) as [us0 Eus]; [rewrite LU; exact SPL|]. rewrite Eus in SP. rewrite (pieces_of _ _ _ Eus).
  destruct (nd_split u (l1_split p) 2) as [ts|]; [|contradiction]. cbn [bind_opt orel] in *.
  destruct (split_some (l1_split p) l SPL) as [ls0 E0].
  destruct (mixed_R2 p d x l ls0 H L E0 AT) as [ms [Em [Fm LM]]]. rewrite Em. cbn [bind_opt].
  pose proof (split_same_lengths _ _ _ _ _ Eus E0 LU) as SL.
  assert (LM' : Forall2 (fun a c => length c = length a \/ length c = 1) us0 (mixed_split p l)).
  { clear -LM SL. revert us0 SL. induction LM as [|q c ls ms HH _ IH]; intros [|a us0] SL; try discriminate; constructor.
    - cbn in SL. injection SL as S1 S2. rewrite S1. exact HH.
    - apply IH. cbn in SL. injection SL as S1 S2. exact S2. }
  destruct (tree_sum_R2 B b Hb _ _ _ _ _ SP Fm LM') as [zs [Ez [Fz Lz]]]. rewrite Ez. cbn [bind_opt].
  assert (STEP : exists ws, (match y with Some y0 => do dense_2e_split <- nd_transformed_2e_means p y0; nd_tree_op xadd zs dense_2e_split | None => Some zs end) = Some ws /\
      Forall2 (R2 (l1_ndense p)) ws (match q with Some y0 => tree_sum (tree_sum us0 (mixed_split p l)) (transformed_2e_means p y0) | None => tree_sum us0 (mixed_split p l) end) /\
      map (@length vec) (match q with Some y0 => tree_sum (tree_sum us0 (mixed_split p l)) (transformed_2e_means p y0) | None => tree_sum us0 (mixed_split p l) end) = map (@length vec) us0).
  { destruct y as [y|], q as [q|]; cbn in PS; try contradiction.
    - destruct PS as [R3y Lq]. rewrite <- Lq in R3y, L, SPL, PR.
      destruct (transformed_2e_R3 p d2 y q R3y L SPL PR) as [vs [qs [Ev [Fv [Eq Lv]]]]]. rewrite Ev. cbn [bind_opt].
      assert (LL : Forall2 (fun a c : arr2 => length c = length a \/ length c = 1) (tree_sum us0 (mixed_split p l)) (transformed_2e_means p q)).
      { assert (MM : map (@length vec) (transformed_2e_means p q) = map (@length vec) (tree_sum us0 (mixed_split p l))).
        { rewrite Lz, Lv. symmetry. apply (split_same_lengths (l1_split p) ul q us0 qs Eus Eq). congruence. }
        clear -MM. revert MM. generalize (tree_sum us0 (mixed_split p l)) as A. induction (transformed_2e_means p q) as [|c cs IH]; intros [|a A] MM; try discriminate; constructor.
        - left. cbn in MM. injection MM as M1 M2. exact M1.
        - apply IH. cbn in MM. injection MM as M1 M2. exact M2. }
      destruct (tree_sum_R2 B b Hb _ _ _ _ _ Fz Fv LL) as [ws [Ew [Fw Lw]]]. exists ws. split; [exact Ew|]. split; [exact Fw|]. rewrite Lw. exact Lz.
    - exists zs. split; [reflexivity|]. split; [exact Fz|exact Lz]. }
  destruct STEP as [ws [Ew [Fw Lw]]]. rewrite Ew. cbn [bind_opt].
  set (outs := match q with Some y0 => tree_sum (tree_sum us0 (mixed_split p l)) (transformed_2e_means p y0) | None => tree_sum us0 (mixed_split p l) end) in *.
  assert (NO : outs <> []).
  { intros Q. rewrite Q in Lw. assert (LC := split_count _ _ _ Eus). apply splittable_nsplits in SPL. rewrite <- (map_length (@length vec)), <- Lw in LC. cbn in LC. congruence. }
  destruct (concat_rows_R2 B b _ ws outs Fw NO) as [a [Ea Ra]]. rewrite Ea. cbn [bind_opt].
  assert (LC : length (concat outs) = length l).
  { rewrite length_concat_sum, Lw, <- length_concat_sum. rewrite <- LU. apply (proper_length (l1_split p)); [rewrite LU; exact PR|exact Eus]. }
  pose proof (map_R2 B b (l1_act p) _ _ _ Ra) as Rn.
  destruct (skip_R2 (l1_skip p) (l1_scale p) d _ x l _ _ H Rn) as [z [Ezz Rz]]; [rewrite map_length; exact LC|].
  rewrite (R2_width B b d x l H L). exists z. split; [exact Ezz|]. split; [exact Rz|].
  destruct (l1_skip p && (d =? l1_ndense p)).
  - unfold zipw. rewrite map_length, combine_length, map_length. lia.
  - rewrite map_length; exact LC.
Qed.

(** equivariance.py 512-526. *)
Lemma layer2_R3 p n d x l : R3 n d x l -> exists z, nd_two_electron_layer p x = Some z /\ R3 n (l2_ndense p) z (two_electron_layer p l).
Proof.
  intros H. unfold nd_two_electron_layer. destruct (dense_R3 B b Hb (l2_ndense p) (l2_kernel p) (l2_bias p) _ _ _ _ H) as [u [Eu Ru]]. rewrite Eu. cbn [bind_opt].
  pose proof (map_R3 B b (l2_act p) _ _ _ _ Ru) as Rn.
  destruct (skip_R3 (l2_skip p) (l2_scale p) n d _ x l _ _ H Rn) as [z [Ez Rz]]; [rewrite !map_length; reflexivity|].
  exists z. split; [exact Ez|].
  assert (W : forall row v, In row l -> In v row -> length v = d).
  { destruct (R3_tab _ _ _ _ _ _ H) as (k & f & Lk & S & E & F). rewrite E. unfold tab. intros row v Hr Hv. apply in_map_iff in Hr. destruct Hr as [i [<- _]]. apply in_map_iff in Hv. destruct Hv as [j [<- _]]. rewrite map_length, seq_length; reflexivity. }
  replace (two_electron_layer p l) with (if l2_skip p && Nat.eqb d (l2_ndense p) then zipw (zipw (zipw (fun a c => xmul (l2_scale p) (xadd a c)))) (map (map (map (l2_act p))) (map (map (dense (l2_ndense p) (l2_kernel p) (l2_bias p))) l)) l else map (map (map (l2_act p))) (map (map (dense (l2_ndense p) (l2_kernel p) (l2_bias p))) l)); [exact Rz|].
  unfold two_electron_layer, two_electron_row. clear Rz Ez z Rn Ru Eu u.
  destruct (l2_skip p && Nat.eqb d (l2_ndense p)) eqn:K.
  - clear H. induction l as [|row l IH]; [reflexivity|]. unfold zipw in *. cbn [map combine fst snd]. f_equal; [|apply IH; intros; eapply W; [right; eassumption|eassumption]].
    assert (W' : forall v, In v row -> length v = d) by (intros; eapply W; [left; reflexivity|assumption]). clear -W' K.
    induction row as [|v row IH]; [reflexivity|]. cbn [map combine fst snd]. rewrite W' by (left; reflexivity). rewrite K. f_equal. apply IH. intros; apply W'; right; assumption.
  - rewrite !map_map. apply map_ext_in. intros row Hr. rewrite !map_map. apply map_ext_in. intros v Hv. rewrite (W row v Hr Hv), K. reflexivity.
Qed.

(** Every attention layer writes as many features as the dense layer it is added to (equivariance.py 295-301: out_features = ndense). *)
Definition attention_ok (bs : list block) : Prop :=
  forall b, In b bs -> match l1_attention (b_one b) with Some a => at_out a = l1_ndense (b_one b) | None => True end.

(** equivariance.py 605-625. *)
Lemma backflow_R2 bs : forall d d2 x l y q, R2 d x l -> 0 < length l -> (forall b, In b bs -> proper (l1_split (b_one b)) (length l)) ->
  attention_ok bs -> pair_stream (length l) d2 y q ->
  if backflow_ok bs (length l)
  then exists z m, nd_backflow bs x y = Some z /\ R2 m z (backflow bs l q) /\ length (backflow bs l q) = length l
  else nd_backflow bs x y = None.
Proof.
  induction bs as [|k bs IH]; intros d d2 x l y q H L PR AT PS.
  - cbn. exists x, d. auto.
  - cbn [backflow_ok forallb nd_backflow]. unfold nd_residual_block.
    pose proof (layer1_R2 (b_one k) d d2 x l y q H L (PR k (or_introl eq_refl)) PS (AT k (or_introl eq_refl))) as L1.
    destruct (splittable (l1_split (b_one k)) (length l)) eqn:SPL; cbn [andb].
    2:{ rewrite L1. reflexivity. }
    destruct L1 as [z [Ez [Rz Lz]]]. rewrite Ez. cbn [bind_opt].
    unfold backflow. cbn [backflow_streams]. unfold residual_block.
    set (q' := match b_two k, q with Some l0, Some y0 => Some (two_electron_layer l0 y0) | _, _ => q end).
    assert (ST : exists y' d2', (match b_two k, y with Some l0, Some y0 => do out_2e <- nd_two_electron_layer l0 y0; Some (z, Some out_2e) | _, _ => Some (z, y) end) = Some (z, y') /\
                 pair_stream (length l) d2' y' q').
    { unfold q'. destruct (b_two k) as [l2|]; [|exists y, d2; split; [reflexivity|exact PS]].
      destruct y as [y|], q as [q|]; cbn in PS; try contradiction; [|exists None, d2; split; [reflexivity|exact Logic.I]].
      destruct PS as [Ry Lq]. destruct (layer2_R3 l2 _ _ _ _ Ry) as [w [Ew Rw]]. rewrite Ew. cbn [bind_opt]. exists (Some w), (l2_ndense l2). split; [reflexivity|].
      split; [exact Rw|]. unfold two_electron_layer. rewrite map_length. exact Lq. }
    destruct ST as [y' [d2' [Ey PS']]]. rewrite Ey. cbn [bind_opt fst snd]. rewrite <- Lz in PS'.
    specialize (IH (l1_ndense (b_one k)) d2' z (one_electron_layer (b_one k) l q) y' q' Rz).
    rewrite Lz in IH. specialize (IH L (fun b0 Hb0 => PR b0 (or_intror Hb0)) (fun b0 Hb0 => AT b0 (or_intror Hb0))).
    rewrite Lz in PS'. specialize (IH PS'). unfold backflow_ok in IH. destruct (forallb (fun b0 : block => splittable (l1_split (b_one b0)) (length l)) bs); [|exact IH].
    destruct IH as [w [m [Ew [Rw Lw]]]]. exists w, m. split; [exact Ew|]. split; [exact Rw|exact Lw].
Qed.
End Batch3.

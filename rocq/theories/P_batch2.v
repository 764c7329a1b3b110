(** Batched splits, means and concatenations. *)
From Coq Require Import Reals List Bool Arith Lia.
From Verif Require Import XReal M_slog M_models M_antisym M_construct M_tensor M_batch P_tab P_batch.
Import ListNotations.

Lemma split_by_points {A} s (l : list A) : split s l = option_map (fun idx => split_at 0 idx l) (split_points s (length l)).
Proof. destruct s as [k|idx]; cbn [split split_points]; [|reflexivity]. destruct (Nat.eqb k 0); [reflexivity|]. destruct (Nat.eqb (length l mod k) 0); reflexivity. Qed.
Lemma splittable_points s n : splittable s n = true <-> exists idx, split_points s n = Some idx.
Proof.
  destruct s as [k|idx]; cbn; [|split; eauto].
  destruct (Nat.eqb k 0); cbn; [split; [discriminate|intros [? H]; discriminate]|].
  destruct (Nat.eqb (n mod k) 0); split; eauto; try discriminate; intros [? H]; discriminate.
Qed.
Lemma split_at_tab {A} n (f : nat -> A) idx : forall start,
  split_at start idx (tab n f) = map (fun bd => tab (snd bd) (fun i => f (fst bd + i))) (bounds n start idx).
Proof.
  induction idx as [|i r IH]; intros start; cbn [split_at bounds map fst snd].
  - rewrite skipn_tab; reflexivity.
  - rewrite piece_tab, IH; reflexivity.
Qed.
Lemma bounds_in n idx : forall start bd, In bd (bounds n start idx) -> snd bd = 0 \/ fst bd + snd bd <= n.
Proof.
  induction idx as [|i r IH]; intros start bd; cbn [bounds]; intros [<-|H]; cbn [fst snd]; try lia; [contradiction|eapply IH; exact H].
Qed.
Lemma bounds_length n idx start : length (bounds n start idx) = S (length idx).
Proof. revert start; induction idx as [|i r IH]; intros start; cbn [bounds length]; [reflexivity|]. f_equal; apply IH. Qed.
Lemma split_points_length s n idx : split_points s n = Some idx -> S (length idx) = get_nsplits s.
Proof.
  destruct s as [k|l]; cbn; [|intros [= <-]; reflexivity].
  destruct (Nat.eqb_spec k 0); [discriminate|]. destruct (Nat.eqb (n mod k) 0); [|discriminate]. intros [= <-]. rewrite map_length, seq_length. lia.
Qed.
Lemma split_lengths {A} s (l : list A) ls idx : split s l = Some ls -> split_points s (length l) = Some idx -> map (@length A) ls = map snd (bounds (length l) 0 idx).
Proof.
  intros E P. rewrite split_by_points, P in E. cbn in E. injection E as <-.
  destruct l as [|a0 l0]; [clear|].
  - generalize 0 as st. induction idx as [|i r IH]; intros st; cbn.
    + destruct st; reflexivity.
    + rewrite IH. destruct st; cbn [skipn]; rewrite firstn_nil; cbn; f_equal; lia.
  - set (l := a0 :: l0). rewrite (list_tab l a0) at 1. rewrite split_at_tab, map_map. apply map_ext. intros bd; apply tab_length.
Qed.
(** The pieces cover the axis exactly. *)
Definition proper (s : particle_split) (n : nat) : Prop :=
  match split_points s n with Some idx => list_sum (map snd (bounds n 0 idx)) = n | None => True end.
Lemma length_concat_sum {A} (ls : list (list A)) : length (concat ls) = list_sum (map (@length A) ls).
Proof. induction ls as [|a r IH]; [reflexivity|]. cbn. rewrite app_length, IH; reflexivity. Qed.
Lemma proper_length {A} s (l : list A) ls : proper s (length l) -> split s l = Some ls -> length (concat ls) = length l.
Proof.
  intros P E. unfold proper in P. pose proof E as E'. rewrite split_by_points in E'. destruct (split_points s (length l)) as [idx|] eqn:Q; [|discriminate].
  rewrite length_concat_sum, (split_lengths _ _ _ _ E Q); exact P.
Qed.
Lemma split_count {A} s (l : list A) ls : split s l = Some ls -> length ls = get_nsplits s.
Proof.
  intros E. pose proof E as E'. rewrite split_by_points in E'. destruct (split_points s (length l)) as [idx|] eqn:Q; [|discriminate].
  rewrite <- (map_length (@length A)), (split_lengths _ _ _ _ E Q), map_length, bounds_length. apply (split_points_length _ _ _ Q).
Qed.
Lemma split_same_lengths {A C} s (l : list A) (m : list C) ls ms : split s l = Some ls -> split s m = Some ms -> length l = length m ->
  map (@length A) ls = map (@length C) ms.
Proof.
  intros E E' L. pose proof E as E0. rewrite split_by_points in E0. destruct (split_points s (length l)) as [idx|] eqn:Q; [|discriminate].
  rewrite (split_lengths _ _ _ _ E Q). rewrite L in *. rewrite (split_lengths _ _ _ _ E' Q). reflexivity.
Qed.
Lemma split_some {A} s (l : list A) : splittable s (length l) = true -> exists ls, split s l = Some ls.
Proof. intros H. apply splittable_points in H. destruct H as [idx E]. rewrite split_by_points, E. eexists; reflexivity. Qed.
Lemma split_none {A} s (l : list A) : splittable s (length l) = false -> split s l = None.
Proof. intros H. rewrite split_by_points. destruct (split_points s (length l)) eqn:E; [|reflexivity]. assert (splittable s (length l) = true) by (apply splittable_points; eauto). congruence. Qed.
Lemma pieces_of {A} s (l : list A) ls : split s l = Some ls -> pieces s l = ls.
Proof. unfold pieces; intros ->; reflexivity. Qed.

Lemma Forall2_map_both {A C D E} (R : C -> E -> Prop) (f : A -> C) (g : D -> E) l m : Forall2 (fun a d => R (f a) (g d)) l m -> Forall2 R (map f l) (map g m).
Proof. induction 1; constructor; assumption. Qed.
Lemma Forall2_same {A C D} (R : C -> D -> Prop) (f : A -> C) (g : A -> D) l : (forall a, In a l -> R (f a) (g a)) -> Forall2 R (map f l) (map g l).
Proof. induction l as [|a l IH]; intros H; [constructor|]. cbn; constructor; [apply H; left; reflexivity|apply IH; intros; apply H; right; assumption]. Qed.
Lemma Forall2_len {A C} (R : A -> C -> Prop) l m : Forall2 R l m -> length l = length m.
Proof. induction 1; cbn; congruence. Qed.
Lemma Forall2_imp {A C} (R R' : A -> C -> Prop) l m : (forall a c, R a c -> R' a c) -> Forall2 R l m -> Forall2 R' l m.
Proof. intros H; induction 1; constructor; auto. Qed.
Lemma Forall2_nths {A C} (R : A -> C -> Prop) l m : Forall2 R l m -> forall i da dc, i < length l -> R (nth i l da) (nth i m dc).
Proof. induction 1; intros [|i] da dc Hi; cbn in *; try lia; [assumption|apply IHForall2; lia]. Qed.
Lemma Forall2_of_nth {A C} (R : A -> C -> Prop) l m da dc : length l = length m -> (forall i, i < length l -> R (nth i l da) (nth i m dc)) -> Forall2 R l m.
Proof.
  revert m; induction l as [|a l IH]; intros [|c m] E H; try discriminate; [constructor|].
  constructor; [apply (H 0); cbn; lia|apply IH; [cbn in E; lia|intros i Hi; apply (H (S i)); cbn; lia]].
Qed.

Lemma vmean_tab m n (f : nat -> nat -> xr) : vmean m (tab n (fun i => tab m (f i))) = tab m (fun c => mean_of (tab n (fun i => f i c))).
Proof.
  unfold vmean, mean_of. fold (tab m (fun c => xdiv (xsum (map (fun r => nth c r (Fin 0)) (tab n (fun i => tab m (f i))))) (Fin (INR (length (tab n (fun i => tab m (f i)))))))).
  apply tab_ext; intros c Hc. rewrite map_tab, !tab_length. f_equal. f_equal. apply tab_ext; intros i Hi. apply nth_tab; exact Hc.
Qed.

Section Batch2.
Context (B b : list nat) (Hb : inb b B).
Notation R2 := (R2 B b).
Notation R3 := (R3 B b).

(** Splits along the particle axis. *)
Lemma split_R2 s m x l : R2 m x l -> orel (Forall2 (R2 m)) (nd_split x s 2) (split s l).
Proof.
  intros H. destruct (R2_tab _ _ _ _ _ H) as (n & f & L & S & E & F).
  rewrite split_by_points, L. unfold nd_split, axis_size. rewrite S. cbn [nth_error bind_opt].
  destruct (split_points s n) as [idx|]; cbn [bind_opt option_map orel]; [|exact Logic.I].
  rewrite E, split_at_tab. apply Forall2_same. intros [st len] Hin. apply bounds_in in Hin. cbn [fst snd] in *.
  apply (R2_make B b m len _ _ (fun i j => f (st + i) j)); [unfold nd_slice; cbn [shape Nat.sub replace_at firstn skipn app snd]; rewrite S; reflexivity|reflexivity|].
  intros i j Hi Hj. unfold nd_slice. cbn [entry fst nth replace_at Nat.sub firstn skipn app]. apply F; lia.
Qed.
Lemma split_R3 s n m x l : R3 n m x l -> orel (Forall2 (R3 n m)) (nd_split x s 3) (split s l).
Proof.
  intros H. destruct (R3_tab _ _ _ _ _ _ H) as (k & f & L & S & E & F).
  rewrite split_by_points, L. unfold nd_split, axis_size. rewrite S. cbn [nth_error bind_opt].
  destruct (split_points s k) as [idx|]; cbn [bind_opt option_map orel]; [|exact Logic.I].
  rewrite E, split_at_tab. apply Forall2_same. intros [st len] Hin. apply bounds_in in Hin. cbn [fst snd] in *.
  apply (R3_make B b n m len _ _ (fun i j c => f (st + i) j c)); [unfold nd_slice; cbn [shape Nat.sub replace_at firstn skipn app snd]; rewrite S; reflexivity|reflexivity|].
  intros i j c Hi Hj Hc. unfold nd_slice. cbn [entry fst nth replace_at Nat.sub firstn skipn app]. apply F; lia.
Qed.
(** ... along the second particle axis: piece [j] of every row. *)
Lemma split_rows_R3 s n m x l : R3 n m x l ->
  if splittable s n
  then exists ts, nd_split x s 2 = Some ts /\ length ts = get_nsplits s /\
       forall j, j < get_nsplits s -> exists len, R3 len m (nth j ts x) (map (fun row => nth j (pieces s row) []) l)
  else nd_split x s 2 = None.
Proof.
  intros H. destruct (R3_tab _ _ _ _ _ _ H) as (k & f & L & S & E & F).
  unfold nd_split, axis_size. rewrite S. cbn [nth_error bind_opt].
  destruct (splittable s n) eqn:SP.
  2:{ destruct (split_points s n) eqn:Q; [|reflexivity]. assert (splittable s n = true) by (apply splittable_points; eauto). congruence. }
  apply splittable_points in SP. destruct SP as [idx Q]. rewrite Q. cbn [bind_opt]. eexists; split; [reflexivity|].
  rewrite map_length, bounds_length, (split_points_length _ _ _ Q). split; [reflexivity|]. intros j Hj.
  assert (Hj' : j < length (bounds n 0 idx)) by (rewrite bounds_length, (split_points_length _ _ _ Q); exact Hj).
  rewrite (nth_indep _ x (nd_slice x (2 - 1) (0, 0))) by (rewrite map_length; exact Hj'). rewrite map_nth.
  assert (Hin := nth_In _ (0, 0) Hj'). set (bd := nth j (bounds n 0 idx) (0, 0)) in *. destruct bd as [st len] eqn:Ebd. apply bounds_in in Hin. cbn [fst snd] in Hin.
  exists len.
  apply (R3_make B b len m k _ _ (fun i u c => f i (st + u) c)); [unfold nd_slice; cbn [shape Nat.sub replace_at firstn skipn app snd]; rewrite S; reflexivity| |].
  - rewrite E, map_tab. apply tab_ext; intros i Hi. unfold pieces. rewrite split_by_points, tab_length, Q. cbn [option_map]. rewrite split_at_tab.
    rewrite (nth_indep _ [] ((fun bd => tab (snd bd) (fun i0 => tab m (f i (fst bd + i0)))) (0, 0))) by (rewrite map_length; exact Hj').
    rewrite (map_nth (fun bd => tab (snd bd) (fun i0 => tab m (f i (fst bd + i0)))) (bounds n 0 idx) (0, 0) j). fold bd. rewrite Ebd. reflexivity.
  - intros i u c Hi Hu Hc. unfold nd_slice. cbn [entry fst nth replace_at Nat.sub firstn skipn app]. apply F; lia.
Qed.

(** Means. *)
Lemma mean_keep_R2 m x l : R2 m x l -> exists y, nd_reduce mean_of x 2 true = Some y /\ R2 m y [vmean m l].
Proof.
  intros H. destruct (R2_tab _ _ _ _ _ H) as (n & f & L & S & E & F).
  unfold nd_reduce, axis_size. rewrite S. cbn [nth_error bind_opt Nat.sub replace_at firstn skipn app]. eexists; split; [reflexivity|].
  apply (R2_make B b m 1 _ _ (fun _ c => mean_of (tab n (fun i => f i c)))); [reflexivity| |].
  - rewrite tab_1, E, vmean_tab; reflexivity.
  - intros i j Hi Hj. cbn [entry drop_at firstn skipn app]. f_equal. unfold along. apply tab_ext; intros u Hu. cbn [insert_at firstn skipn app]. apply F; assumption.
Qed.
Lemma mean_R3 n m x l : R3 n m x l -> exists y, nd_reduce mean_of x 2 false = Some y /\ R2 m y (map (vmean m) l).
Proof.
  intros H. destruct (R3_tab _ _ _ _ _ _ H) as (k & f & L & S & E & F).
  unfold nd_reduce, axis_size. rewrite S. cbn [nth_error bind_opt Nat.sub drop_at firstn skipn app]. eexists; split; [reflexivity|].
  apply (R2_make B b m k _ _ (fun i c => mean_of (tab n (fun j => f i j c)))); [reflexivity| |].
  - rewrite E, map_tab. apply tab_ext; intros i Hi. apply vmean_tab.
  - intros i j Hi Hj. cbn [entry]. f_equal. unfold along. apply tab_ext; intros u Hu. cbn [insert_at firstn skipn app]. apply F; assumption.
Qed.

(** Concatenation along the particle axis. *)
Lemma R2_entry m x l : R2 m x l -> forall i j, i < length l -> j < m -> entry x (j :: i :: b) = nth j (nth i l []) (Fin 0).
Proof. intros [S E] i j Hi Hj. rewrite E. rewrite nth_tab by exact Hi. rewrite nth_tab by exact Hj. reflexivity. Qed.
Lemma R2_of_entries m x l : shape x = m :: length l :: B -> (forall i, i < length l -> length (nth i l []) = m) ->
  (forall i j, i < length l -> j < m -> entry x (j :: i :: b) = nth j (nth i l []) (Fin 0)) -> R2 m x l.
Proof.
  intros S W F. split; [exact S|]. rewrite (list_tab l []) at 1. apply tab_ext; intros i Hi. rewrite (list_tab (nth i l []) (Fin 0)), W by exact Hi.
  apply tab_ext; intros j Hj. symmetry; apply F; assumption.
Qed.
Lemma R2_row_length m x l : R2 m x l -> forall r, In r l -> length r = m.
Proof. intros [S E] r. rewrite E. unfold tab at 1. intros H; apply in_map_iff in H. destruct H as [i [<- _]]. apply tab_length. Qed.
Lemma list_eqb_refl s : list_eqb s s = true.
Proof. unfold list_eqb; destruct list_eq_dec; congruence. Qed.
Lemma pick_rows m ts ls : Forall2 (R2 m) ts ls -> forall c j i0, c < length (concat ls) -> j < m ->
  pick 1 ts c (j :: i0 :: b) = nth j (nth c (concat ls) []) (Fin 0).
Proof.
  induction 1 as [|t l ts ls H _ IH]; intros c j i0 Hc Hj; [cbn in Hc; lia|].
  cbn [pick concat] in *. rewrite app_length in Hc. destruct H as [S E] eqn:EH. rewrite S. cbn [nth replace_at firstn skipn app].
  destruct (Nat.ltb_spec c (length l)).
  - rewrite app_nth1 by assumption. apply (R2_entry m t l H); assumption.
  - rewrite app_nth2 by assumption. apply IH; [lia|exact Hj].
Qed.
Lemma concat_rows_R2 m ts ls : Forall2 (R2 m) ts ls -> ls <> [] -> exists y, nd_concatenate ts 2 = Some y /\ R2 m y (concat ls).
Proof.
  intros H N. pose proof (pick_rows m ts ls H) as PK. destruct H as [|t l ts ls Ht Hts]; [congruence|].
  assert (SH : forall y, In y (t :: ts) -> exists n, shape y = m :: n :: B).
  { intros y [<-|Hy]; [destruct Ht; eauto|]. clear -Hts Hy. induction Hts as [|? ? ? ? [S0 E0] ? IH]; [contradiction|]. destruct Hy as [<-|Hy]; eauto. }
  assert (LS : list_sum (map (fun y => nth 1 (shape y) 0) (t :: ts)) = length (concat (l :: ls))).
  { rewrite length_concat_sum. f_equal. destruct Ht as [S0 E0]. cbn [map]. rewrite S0; cbn [nth]. f_equal.
    clear -Hts. induction Hts as [|? ? ? ? [S0 E0] ? IH]; [reflexivity|]. cbn [map]; rewrite S0; cbn [nth]; f_equal; exact IH. }
  unfold nd_concatenate. unfold axis_size. destruct Ht as [S0 E0] eqn:EH. rewrite S0. cbn [nth_error bind_opt].
  match goal with |- context[forallb ?g ?q] => assert (FB : forallb g q = true) end.
  { apply forallb_forall. intros y Hy. destruct (SH y Hy) as [n ->]. cbn [length Nat.sub drop_at firstn skipn app]. rewrite Nat.eqb_refl, list_eqb_refl; reflexivity. }
  rewrite FB. eexists; split; [reflexivity|]. apply R2_of_entries.
  - cbn [shape Nat.sub]. rewrite LS. reflexivity.
  - intros i Hi. assert (W : forall r, In r (concat (l :: ls)) -> length r = m).
    { assert (Hall : Forall2 (R2 m) (t :: ts) (l :: ls)) by (constructor; assumption). clear -Hall. induction Hall as [|? ? ? ? H ? IH]; [contradiction|]. cbn [concat]. intros r Hr. apply in_app_or in Hr. destruct Hr; [eapply R2_row_length; eassumption|auto]. }
    apply W, nth_In; exact Hi.
  - intros i j Hi Hj. cbn [entry Nat.sub nth]. apply PK; assumption.
Qed.

(** Concatenation along the feature axis of arrays with the same number of rows and features. *)
Lemma pick_cols m n ts ls : Forall2 (R2 m) ts ls -> (forall l, In l ls -> length l = n) -> forall c c0 i, c < length ls * m -> i < n ->
  pick 0 ts c (c0 :: i :: b) = nth c (concat (map (fun a => nth i a []) ls)) (Fin 0).
Proof.
  induction 1 as [|t l ts ls H _ IH]; intros W c c0 i Hc Hi; [cbn in Hc; lia|].
  cbn [pick map concat length] in *. destruct H as [S E] eqn:EH. rewrite S. cbn [nth replace_at firstn skipn app].
  assert (Ll : length l = n) by (apply W; left; reflexivity).
  assert (Lr : length (nth i l []) = m) by (eapply R2_row_length; [exact H|apply nth_In; lia]).
  destruct (Nat.ltb_spec c m).
  - rewrite app_nth1 by lia. apply (R2_entry m t l H); [lia|assumption].
  - rewrite app_nth2 by lia. rewrite Lr. apply IH; [intros; apply W; right; assumption|lia|exact Hi].
Qed.
Lemma concat_last_R2 m n ts ls : Forall2 (R2 m) ts ls -> (forall l, In l ls -> length l = n) -> ls <> [] ->
  exists y, nd_concatenate ts 1 = Some y /\ R2 (length ls * m) y (concat_last ls).
Proof.
  intros H W N. pose proof (pick_cols m n ts ls H W) as PK.
  assert (CW : forall i, i < n -> length (concat (map (fun a => nth i a []) ls)) = length ls * m).
  { intros i Hi. clear -H W Hi. induction H as [|t l ts ls H _ IH]; [reflexivity|]. cbn [map concat length]. rewrite app_length, IH by (intros; apply W; right; assumption).
    rewrite (R2_row_length m t l H) by (apply nth_In; rewrite W by (left; reflexivity); exact Hi). cbn; lia. }
  destruct H as [|t l ts ls Ht Hts]; [congruence|].
  assert (SH : forall y, In y (t :: ts) -> shape y = m :: n :: B).
  { intros y [<-|Hy]; [destruct Ht as [S0 _]; rewrite S0, W by (left; reflexivity); reflexivity|].
    assert (W' : forall q, In q ls -> length q = n) by (intros; apply W; right; assumption). clear -Hts Hy W'.
    induction Hts as [|? ? ? ? [S0 E0] ? IH]; [contradiction|]. destruct Hy as [<-|Hy]; [rewrite S0, W' by (left; reflexivity); reflexivity|apply IH; [exact Hy|intros; apply W'; right; assumption]]. }
  assert (LS : forall us, (forall y, In y us -> shape y = m :: n :: B) -> list_sum (map (fun y => nth 0 (shape y) 0) us) = length us * m).
  { clear. induction us as [|u us IH]; intros HH; [reflexivity|]. cbn [map list_sum fold_right length]. rewrite (HH u) by (left; reflexivity). cbn [nth]. unfold list_sum in IH; rewrite IH by (intros; apply HH; right; assumption). reflexivity. }
  assert (LL : length (t :: ts) = length (l :: ls)) by (cbn; f_equal; eapply Forall2_len; exact Hts).
  unfold nd_concatenate. unfold axis_size. rewrite (SH t) by (left; reflexivity). cbn [nth_error bind_opt].
  match goal with |- context[forallb ?g ?q] => assert (FB : forallb g q = true) end.
  { apply forallb_forall. intros y Hy. rewrite (SH y Hy). cbn [length Nat.sub drop_at firstn skipn app]. rewrite Nat.eqb_refl, list_eqb_refl; reflexivity. }
  rewrite FB. eexists; split; [reflexivity|].
  assert (Ln : length l = n) by (apply W; left; reflexivity).
  apply (R2_make B b _ n _ _ (fun i c => nth c (concat (map (fun a => nth i a []) (l :: ls))) (Fin 0))).
  - cbn [shape Nat.sub]. rewrite LS by exact SH. rewrite LL. reflexivity.
  - unfold concat_last. cbn [hd]. rewrite Ln. fold (tab n (fun r => concat (map (fun a => nth r a []) (l :: ls)))). apply tab_ext; intros i Hi. rewrite (list_tab (concat (map (fun a => nth i a []) (l :: ls))) (Fin 0)) at 1. rewrite CW by exact Hi. reflexivity.
  - intros i j Hi Hj. cbn [entry Nat.sub nth]. apply PK; assumption.
Qed.

(** Sums and products over lists of arrays. *)
Lemma add_rows_R2 m x y l l' : R2 m x l -> R2 m y l' -> length l' = length l \/ length l' = 1 ->
  exists z, nd_op xadd x y = Some z /\ R2 m z (add_rows l l').
Proof.
  intros H H' [EL|E1].
  - destruct (op_R2 B b Hb xadd m x y l l' H H' (eq_sym EL)) as [z [Ez Rz]]. exists z; split; [exact Ez|].
    unfold add_rows. rewrite EL, Nat.eqb_refl. exact Rz.
  - destruct l' as [|r [|]]; try discriminate. apply op_row_R2; assumption.
Qed.
Lemma add_rows_length m x y l l' : R2 m x l -> R2 m y l' -> length l' = length l \/ length l' = 1 -> length (add_rows l l') = length l.
Proof.
  intros H H' [EL|E1]; unfold add_rows.
  - rewrite EL, Nat.eqb_refl. unfold zipw. rewrite map_length, combine_length. lia.
  - destruct (Nat.eqb_spec (length l) (length l')); [unfold zipw; rewrite map_length, combine_length; lia|]. rewrite E1. cbn. apply map_length.
Qed.
Lemma tree_sum_R2 m ts us ls ls' : Forall2 (R2 m) ts ls -> Forall2 (R2 m) us ls' -> Forall2 (fun l l' => length l' = length l \/ length l' = 1) ls ls' ->
  exists zs, nd_tree_op xadd ts us = Some zs /\ Forall2 (R2 m) zs (tree_sum ls ls') /\ map (@length vec) (tree_sum ls ls') = map (@length vec) ls.
Proof.
  intros H H' HL. unfold nd_tree_op.
  assert (E : length ts = length us) by (rewrite (Forall2_len _ _ _ H), (Forall2_len _ _ _ H'); exact (Forall2_len _ _ _ HL)).
  rewrite E, Nat.eqb_refl. cbn [check]. clear E.
  revert us ls' H' HL. induction H as [|t l ts ls Ht Hts IH]; intros us ls' H' HL; inversion HL as [|? l' ? ls'0 HL0 HLr]; subst; inversion H' as [|u ? us0 ? Hu Hus]; subst.
  - exists []; repeat split; constructor.
  - destruct (add_rows_R2 m t u l l' Ht Hu HL0) as [z [Ez Rz]]. destruct (IH us0 ls'0 Hus HLr) as [zs [Es [Rs Ls]]].
    exists (z :: zs). unfold zipw in *; cbn [combine map fst snd sequence]. rewrite Ez. unfold zipw in Es; rewrite Es. split; [reflexivity|].
    split; [constructor; [exact Rz|exact Rs]|]. unfold tree_sum, zipw. cbn [combine map fst snd]. f_equal; [eapply add_rows_length; eassumption|exact Ls].
Qed.
End Batch2.

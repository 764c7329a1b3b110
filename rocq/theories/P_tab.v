(** Lists given by their entries: [tab n f = [f 0; ...; f (n-1)]]. *)
From Coq Require Import Reals List Bool Arith Lia.
From Verif Require Import XReal M_slog M_models.
Import ListNotations.

Definition tab {A} (n : nat) (f : nat -> A) : list A := map f (seq 0 n).

Lemma tab_length {A} n (f : nat -> A) : length (tab n f) = n.
Proof. unfold tab; rewrite map_length, seq_length; reflexivity. Qed.
Lemma tab_ext {A} n (f g : nat -> A) : (forall i, i < n -> f i = g i) -> tab n f = tab n g.
Proof. intros H; apply map_ext_in; intros i Hi; apply in_seq in Hi; apply H; lia. Qed.
Lemma tab_ext2 {A} n n' (f g : nat -> A) : n = n' -> (forall i, i < n -> f i = g i) -> tab n f = tab n' g.
Proof. intros <-; apply tab_ext. Qed.
Lemma map_tab {A C} (h : A -> C) n f : map h (tab n f) = tab n (fun i => h (f i)).
Proof. unfold tab; apply map_map. Qed.
Lemma nth_tab {A} n (f : nat -> A) i d : i < n -> nth i (tab n f) d = f i.
Proof.
  intros H; unfold tab. rewrite (nth_indep _ d (f 0)) by (rewrite map_length, seq_length; exact H).
  rewrite map_nth, seq_nth by exact H; reflexivity.
Qed.
Lemma nth_tab_out {A} n (f : nat -> A) i d : n <= i -> nth i (tab n f) d = d.
Proof. intros H; apply nth_overflow; rewrite tab_length; exact H. Qed.
Lemma tab_S {A} n (f : nat -> A) : tab (S n) f = f 0 :: tab n (fun i => f (S i)).
Proof. unfold tab; cbn; f_equal; rewrite <- seq_shift, map_map; reflexivity. Qed.
Lemma tab_0 {A} (f : nat -> A) : tab 0 f = [].
Proof. reflexivity. Qed.
Lemma list_tab {A} (l : list A) d : l = tab (length l) (fun i => nth i l d).
Proof. induction l as [|a l IH]; [reflexivity|]; cbn [length]; rewrite tab_S; cbn; f_equal; exact IH. Qed.
Lemma tab_app {A} n m (f g : nat -> A) : tab n f ++ tab m g = tab (n + m) (fun i => if Nat.ltb i n then f i else g (i - n)).
Proof.
  revert f; induction n as [|n IH]; intros f.
  - cbn [Nat.add]; rewrite tab_0; cbn [app]; apply tab_ext; intros i _; rewrite Nat.sub_0_r; reflexivity.
  - cbn [Nat.add]; rewrite !tab_S; cbn [app]; f_equal.
    rewrite IH; apply tab_ext; intros i _. change (S i <? S n) with (i <? n). reflexivity.
Qed.
Lemma skipn_tab {A} s n (f : nat -> A) : skipn s (tab n f) = tab (n - s) (fun i => f (s + i)).
Proof.
  revert n f; induction s as [|s IH]; intros n f; [rewrite Nat.sub_0_r; reflexivity|].
  destruct n as [|n]; [reflexivity|]. rewrite tab_S; cbn [skipn Nat.sub]. rewrite IH; reflexivity.
Qed.
Lemma firstn_tab {A} s n (f : nat -> A) : firstn s (tab n f) = tab (Nat.min s n) f.
Proof.
  revert n f; induction s as [|s IH]; intros n f; [reflexivity|].
  destruct n as [|n]; [reflexivity|]. rewrite tab_S; cbn [firstn Nat.min]. rewrite IH, tab_S; reflexivity.
Qed.
Lemma piece_tab {A} k s n (f : nat -> A) : firstn k (skipn s (tab n f)) = tab (Nat.min k (n - s)) (fun i => f (s + i)).
Proof. rewrite skipn_tab, firstn_tab; reflexivity. Qed.
Lemma zipw_tab {A C D} (h : A -> C -> D) n f g : zipw h (tab n f) (tab n g) = tab n (fun i => h (f i) (g i)).
Proof.
  revert f g; induction n as [|n IH]; intros f g; [reflexivity|].
  rewrite !tab_S; unfold zipw in *; cbn [combine map fst snd]; f_equal; apply IH.
Qed.
Lemma zipw_seq {A C D} (h : A -> C -> D) (a : list A) (c : list C) da dc :
  length a = length c -> zipw h a c = tab (length a) (fun i => h (nth i a da) (nth i c dc)).
Proof.
  intros E. rewrite (list_tab a da) at 1. rewrite (list_tab c dc) at 1. rewrite <- E. apply zipw_tab.
Qed.
Lemma mapi_tab {A C} (h : nat -> A -> C) n f : mapi h (tab n f) = tab n (fun i => h i (f i)).
Proof.
  unfold mapi; rewrite tab_length.
  change (seq 0 n) with (map (fun i => i) (seq 0 n)) || idtac.
  replace (seq 0 n) with (tab n (fun i => i)) by (unfold tab; apply map_id).
  apply zipw_tab.
Qed.
Lemma hd_tab {A} n (f : nat -> A) d : 0 < n -> hd d (tab n f) = f 0.
Proof. destruct n; [lia|]; intros _; rewrite tab_S; reflexivity. Qed.
Lemma tab_1 {A} (f : nat -> A) : tab 1 f = [f 0].
Proof. reflexivity. Qed.
Lemma repeat_tab {A} (a : A) n : repeat a n = tab n (fun _ => a).
Proof. induction n as [|n IH]; [reflexivity|]; rewrite tab_S; cbn; f_equal; exact IH. Qed.
Lemma concat_tab {A} n m (f : nat -> nat -> A) : concat (tab n (fun i => tab m (f i))) = tab (n * m) (fun k => f (k / m) (k mod m)).
Proof.
  destruct (Nat.eq_dec m 0) as [->|Hm].
  { rewrite Nat.mul_0_r; cbn [tab]. induction n as [|n IH] in f |- *; [reflexivity|]. rewrite tab_S; cbn [concat]. rewrite tab_0; cbn [app].
    rewrite (IH (fun i => f (S i))); reflexivity. }
  revert f; induction n as [|n IH]; intros f; [reflexivity|].
  rewrite tab_S; cbn [concat]. rewrite (IH (fun i => f (S i))), tab_app; cbn [Nat.mul].
  apply tab_ext; intros k Hk.
  destruct (Nat.ltb_spec k m).
  - rewrite Nat.div_small, Nat.mod_small by assumption; reflexivity.
  - f_equal.
    + replace k with ((k - m) + 1 * m) at 2 by lia. rewrite Nat.div_add by exact Hm. lia.
    + replace k with ((k - m) + 1 * m) at 2 by lia. rewrite Nat.mod_add by exact Hm. reflexivity.
Qed.
Lemma weighted_sum_tab w n f : weighted_sum w (tab n f) = xsum (tab n (fun c => xmul (f c) (w c))).
Proof.
  unfold weighted_sum. rewrite tab_length.
  replace (seq 0 n) with (tab n (fun i => i)) by (unfold tab; apply map_id).
  change (map (fun p => xmul (snd p) (w (fst p))) (combine (tab n (fun i => i)) (tab n f)))
    with (zipw (fun i a => xmul a (w i)) (tab n (fun i => i)) (tab n f)).
  rewrite zipw_tab; reflexivity.
Qed.
Lemma dense_tab F k b n f : dense F k b (tab n f) =
  tab F (fun o => let y := xsum (tab n (fun c => xmul (f c) (k c o))) in match b with None => y | Some b => xadd y (b o) end).
Proof. unfold dense; fold (tab F (fun f0 => let y := weighted_sum (fun i => k i f0) (tab n f) in match b with None => y | Some b0 => xadd y (b0 f0) end)).
  apply tab_ext; intros o _; cbv zeta; rewrite weighted_sum_tab; reflexivity. Qed.
Lemma norm_tab n f : norm (tab n f) = xsqrt (xsum (tab n (fun c => xmul (f c) (f c)))).
Proof. unfold norm; rewrite map_tab; reflexivity. Qed.
Lemma app_one_tab {A} n (f : nat -> A) a : tab n f ++ [a] = tab (n + 1) (fun i => if Nat.ltb i n then f i else a).
Proof. change [a] with (tab 1 (fun _ => a)). apply tab_app. Qed.

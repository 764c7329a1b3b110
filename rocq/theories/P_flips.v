(** * Lists that differ by a renumbering of known sign *)
From Coq Require Import Reals List Arith Lia Lra Permutation.
From Verif Require Import XReal M_slog M_models S_models P_xsum P_split P_inv P_parity.
Import ListNotations.
Local Open Scope R_scope.

Definition flips {A} (sg : R) (l l' : list A) : Prop :=
  exists s, renumbering (length l) s /\ l' = reorder s l /\ sg = sign_of (length l) s.

Lemma flips_unit {A} sg (l l' : list A) : flips sg l l' -> sg = 1 \/ sg = -1.
Proof. intros (s & _ & _ & ->). apply sign_unit. Qed.
Lemma flips_length {A} sg (l l' : list A) : flips sg l l' -> length l' = length l.
Proof. intros (s & _ & -> & _). apply reorder_length. Qed.
Lemma flips_perm {A} sg (l l' : list A) : flips sg l l' -> Permutation l' l.
Proof. intros (s & H & -> & _). apply reorder_perm. exact H. Qed.
Lemma renumbering_id n : renumbering n (fun i => i).
Proof. unfold renumbering. rewrite map_id. reflexivity. Qed.
Lemma reorder_id {A} (l : list A) : reorder (fun i => i) l = l.
Proof.
  destruct l as [|a l]; [reflexivity|]. rewrite (reorder_map_seq (fun i => i) (length (a :: l)) (a :: l) a); [apply map_seq_nth|apply renumbering_id|reflexivity].
Qed.
Lemma flips_refl {A} (l : list A) : flips 1 l l.
Proof. exists (fun i => i). split; [apply renumbering_id|]. rewrite reorder_id, sign_id. split; reflexivity. Qed.
Lemma flips_map {A B} (f : A -> B) sg l l' : flips sg l l' -> flips sg (map f l) (map f l').
Proof. intros (s & H & -> & ->). exists s. rewrite map_length. rewrite reorder_map. auto. Qed.

Lemma seq_from o m : seq o m = map (fun k => (o + k)%nat) (seq 0 m).
Proof.
  revert o; induction m as [|m IH]; intros o; [reflexivity|]. cbn [seq map]. rewrite Nat.add_0_r. f_equal.
  rewrite (IH (S o)), (IH 1%nat), map_map. apply map_ext. intros; lia.
Qed.
Definition juxtapose (n : nat) (s t : nat -> nat) (i : nat) : nat := if Nat.ltb i n then s i else (n + t (i - n))%nat.
Lemma map_juxtapose n m s t : map (juxtapose n s t) (seq 0 (n + m)) = map s (seq 0 n) ++ map (fun k => (n + k)%nat) (map t (seq 0 m)).
Proof.
  rewrite seq_app, map_app. f_equal.
  - apply map_ext_in. intros i Hi. apply in_seq in Hi. unfold juxtapose. destruct (Nat.ltb_spec i n); [reflexivity|lia].
  - rewrite map_map, Nat.add_0_l, (seq_from n m), map_map. apply map_ext. intros k. unfold juxtapose.
    destruct (Nat.ltb_spec (n + k) n); [lia|]. f_equal. f_equal. lia.
Qed.

Lemma juxtapose_renumbering n m s t : renumbering n s -> renumbering m t -> renumbering (n + m) (juxtapose n s t).
Proof.
  intros Hs Ht. unfold renumbering. rewrite map_juxtapose, seq_app. apply Permutation_app; [exact Hs|].
  rewrite Nat.add_0_l, (seq_from n m). apply Permutation_map. exact Ht.
Qed.
Lemma juxtapose_sign n m s t : renumbering n s -> renumbering m t -> sign_of (n + m) (juxtapose n s t) = sign_of n s * sign_of m t.
Proof.
  intros Hs Ht. unfold sign_of at 1. rewrite map_juxtapose, sign_app.
  - rewrite (sign_map_mono (fun k => (n + k)%nat)) by (intros; lia). reflexivity.
  - intros a b Ha Hb. apply in_map_iff in Ha. destruct Ha as (i & <- & Hi). apply in_seq in Hi.
    pose proof (renumbering_lt n s i Hs). apply in_map_iff in Hb. destruct Hb as (j & <- & _). lia.
Qed.
Lemma reorder_juxtapose {A} s t (l m : list A) : renumbering (length l) s -> renumbering (length m) t ->
  reorder (juxtapose (length l) s t) (l ++ m) = reorder s l ++ reorder t m.
Proof.
  intros Hs Ht. assert (H := juxtapose_renumbering _ _ _ _ Hs Ht).
  destruct (l ++ m) as [|d lm] eqn:E.
  - apply app_eq_nil in E. destruct E as [-> ->]. reflexivity.
  - rewrite <- E. rewrite (reorder_map_seq _ (length l + length m) (l ++ m) d H) by apply app_length.
    rewrite (reorder_map_seq s (length l) l d Hs), (reorder_map_seq t (length m) m d Ht) by reflexivity.
    rewrite <- (map_map (juxtapose (length l) s t) (fun i => nth i (l ++ m) d)), map_juxtapose, map_app, !map_map. f_equal.
    + apply map_ext_in. intros i Hi. apply in_seq in Hi. apply app_nth1. apply renumbering_lt; [exact Hs|lia].
    + apply map_ext. intros i. rewrite app_nth2 by lia. f_equal. lia.
Qed.
Lemma flips_app {A} sg tg (l l' m m' : list A) : flips sg l l' -> flips tg m m' -> flips (sg * tg) (l ++ m) (l' ++ m').
Proof.
  intros (s & Hs & -> & ->) (t & Ht & -> & ->). exists (juxtapose (length l) s t). rewrite app_length.
  split; [apply juxtapose_renumbering; assumption|]. split; [symmetry; apply reorder_juxtapose; assumption|].
  symmetry. apply juxtapose_sign; assumption.
Qed.

(** ** Several blocks *)
Inductive bflips {A} : list R -> list (list A) -> list (list A) -> Prop :=
  | bf_nil : bflips [] [] []
  | bf_cons sg sgs l ls l' ls' : flips sg l l' -> bflips sgs ls ls' -> bflips (sg :: sgs) (l :: ls) (l' :: ls').
Definition lprod (l : list R) : R := fold_right Rmult 1 l.

Lemma bflips_nth {A} sgs (L L' : list (list A)) : length L = length sgs -> length L' = length sgs ->
  (forall b, (b < length sgs)%nat -> flips (nth b sgs 0) (nth b L []) (nth b L' [])) -> bflips sgs L L'.
Proof.
  revert L L'. induction sgs as [|sg sgs IH]; intros [|l L] [|l' L'] H1 H2 H; cbn in H1, H2; try lia; constructor.
  - apply (H O). cbn. lia.
  - apply IH; [lia|lia|]. intros b Hb. apply (H (S b)). cbn. lia.
Qed.
Lemma bflips_get {A} sgs (L L' : list (list A)) b : bflips sgs L L' -> (b < length L)%nat -> flips (nth b sgs 0) (nth b L []) (nth b L' []).
Proof.
  intros H. revert b. induction H as [|sg sgs l ls l' ls' Hf Hb IH]; intros b Hl; cbn in Hl; [lia|].
  destruct b as [|b]; [exact Hf|]. apply IH. lia.
Qed.
Lemma bflips_length {A} sgs (L L' : list (list A)) : bflips sgs L L' -> length L = length sgs /\ length L' = length sgs.
Proof. induction 1 as [|? ? ? ? ? ? ? ? [E1 E2]]; cbn; [auto|]. rewrite E1, E2. auto. Qed.
Lemma bflips_unit {A} sgs (L L' : list (list A)) : bflips sgs L L' -> Forall (fun s => s = 1 \/ s = -1) sgs.
Proof. induction 1; constructor; [eapply flips_unit; eassumption|assumption]. Qed.
Lemma lprod_unit sgs : Forall (fun s => s = 1 \/ s = -1) sgs -> lprod sgs = 1 \/ lprod sgs = -1.
Proof.
  induction 1 as [|s sgs [E|E] _ [IH|IH]]; cbn; [left; reflexivity| | | |]; fold (lprod sgs); rewrite E, IH; [left|right|right|left]; ring.
Qed.

Lemma keeps_juxtapose m sizes s t : renumbering m s -> keeps_spins sizes t -> keeps_spins (m :: sizes) (juxtapose m s t).
Proof.
  intros Hs (Ht & K). assert (H := juxtapose_renumbering _ _ _ _ Hs Ht). split; [exact H|]. intros i Hi. cbn [list_sum fold_right] in Hi.
  unfold juxtapose. cbn [spin_of]. destruct (Nat.ltb_spec i m) as [L|L].
  - pose proof (renumbering_lt m s i Hs L). destruct (Nat.ltb_spec (s i) m); [reflexivity|lia].
  - destruct (Nat.ltb_spec (m + t (i - m))%nat m) as [L'|L']; [lia|]. f_equal. replace (m + t (i - m) - m)%nat with (t (i - m)%nat) by lia.
    apply K. change (fold_right Nat.add 0%nat sizes) with (list_sum sizes) in Hi. lia.
Qed.
Lemma flips_blocks {A} sgs (L L' : list (list A)) : bflips sgs L L' ->
  exists s, keeps_spins (map (@length A) L) s /\ concat L' = reorder s (concat L) /\ sign_of (length (concat L)) s = lprod sgs.
Proof.
  induction 1 as [|sg sgs l ls l' ls' (s & Hs & El & Es) Hb (t & Kt & Ec & Et)].
  - exists (fun i => i). split; [|split; reflexivity]. split; [apply renumbering_id|reflexivity].
  - assert (Ll : list_sum (map (@length A) ls) = length (concat ls)).
    { clear. induction ls as [|a ls IH]; [reflexivity|]. cbn [map concat]. rewrite app_length, <- IH. reflexivity. }
    assert (Ht : renumbering (length (concat ls)) t) by (rewrite <- Ll; apply Kt).
    exists (juxtapose (length l) s t). split; [|split].
    + apply keeps_juxtapose; assumption.
    + cbn [concat]. rewrite reorder_juxtapose by assumption. subst. f_equal. exact Ec.
    + cbn [concat]. rewrite app_length, juxtapose_sign, Et, <- Es by assumption. reflexivity.
Qed.

(** ** A renumbering that keeps spins, block by block *)
Definition block_map (sizes : list nat) (s : nat -> nat) (b k : nat) : nat := (s (offset sizes b + k) - offset sizes b)%nat.
Definition block_signs (sizes : list nat) (s : nat -> nat) : list R :=
  map (fun b => sign_of (nth b sizes O) (block_map sizes s b)) (seq 0 (length sizes)).
Lemma block_map_back sizes s b k : keeps_spins sizes s -> (b < length sizes)%nat -> (k < nth b sizes O)%nat ->
  (offset sizes b + block_map sizes s b k = s (offset sizes b + k))%nat.
Proof. intros K Hb Hk. unfold block_map. pose proof (keeps_range sizes s b (offset sizes b + k) K Hb). lia. Qed.
Lemma block_map_renumbering sizes s b : keeps_spins sizes s -> (b < length sizes)%nat -> renumbering (nth b sizes O) (block_map sizes s b).
Proof.
  intros K Hb. unfold renumbering. pose proof (keeps_perm_range sizes s b K Hb) as P.
  apply (Permutation_map (fun i => (i - offset sizes b)%nat)) in P. rewrite (seq_from (offset sizes b)) in P. rewrite !map_map in P.
  etransitivity; [|etransitivity; [exact P|]].
  - apply Permutation_refl.
  - rewrite <- (map_id (seq 0 (nth b sizes O))) at 2. erewrite map_ext; [reflexivity|]. intros; cbn; lia.
Qed.
Lemma block_flips {A} sizes s (g : nat -> A) b : keeps_spins sizes s -> (b < length sizes)%nat ->
  flips (nth b (block_signs sizes s) 0) (map g (seq (offset sizes b) (nth b sizes O))) (map (fun i => g (s i)) (seq (offset sizes b) (nth b sizes O))).
Proof.
  intros K Hb. exists (block_map sizes s b). rewrite map_length, seq_length.
  assert (H := block_map_renumbering sizes s b K Hb). split; [exact H|]. split.
  - rewrite (seq_from (offset sizes b)), !map_map. rewrite map_seq_reorder by exact H. apply map_ext_in. intros k Hk.
    apply in_seq in Hk. rewrite block_map_back by (assumption || lia). reflexivity.
  - unfold block_signs. apply (nth_map_seq (fun b => sign_of (nth b sizes O) (block_map sizes s b))). exact Hb.
Qed.
Lemma by_spin_flips {A} sizes s (g : nat -> nat -> A) : keeps_spins sizes s ->
  bflips (block_signs sizes s) (by_spin sizes g) (by_spin sizes (fun b i => g b (s i))).
Proof.
  intros K. apply bflips_nth; unfold block_signs; rewrite ?by_spin_length, ?map_length, ?seq_length; try reflexivity.
  intros b Hb. rewrite !by_spin_nth by exact Hb. apply (block_flips sizes s (g b) b K Hb).
Qed.
Lemma cut_flips {A} sizes s (l : list A) : keeps_spins sizes s -> length l = list_sum sizes ->
  bflips (block_signs sizes s) (cut sizes l) (cut sizes (reorder s l)).
Proof.
  intros K L. destruct l as [|d l'] eqn:E.
  - assert (Z : forall b, (b < length sizes)%nat -> nth b sizes O = O) by (intros b Hb; pose proof (offset_end sizes b Hb); cbn in L; lia).
    apply bflips_nth; unfold block_signs; rewrite ?cut_length, ?map_length, ?seq_length; try reflexivity. intros b Hb.
    rewrite (nth_map_seq (fun b => sign_of (nth b sizes O) (block_map sizes s b))) by exact Hb. rewrite (Z b Hb).
    cbn [reorder]. replace (sign_of 0 (block_map sizes s b)) with 1 by reflexivity. apply flips_refl.
  - rewrite <- E in *. rewrite (cut_by_spin sizes l d L), (cut_by_spin sizes (reorder s l) d) by (rewrite reorder_length; exact L).
    rewrite (by_spin_ext sizes (fun _ i => nth i (reorder s l) d) (fun _ i => nth (s i) l d)).
    + apply (by_spin_flips sizes s (fun _ i => nth i l d) K).
    + intros b i Hb Hi. pose proof (offset_end sizes b Hb). apply (nth_reorder s (list_sum sizes)); [apply K|exact L|lia].
Qed.
Lemma offset_mono sizes b b' : (b < b')%nat -> (b' < length sizes)%nat -> (offset sizes b + nth b sizes O <= offset sizes b')%nat.
Proof.
  revert b b'. induction sizes as [|m r IH]; intros b b' H1 H2; cbn [length] in H2; [lia|].
  destruct b' as [|b']; [lia|]. rewrite offset_cons. destruct b as [|b]; [rewrite offset_0; cbn [nth]; lia|].
  rewrite offset_cons. cbn [nth]. specialize (IH b b'). lia.
Qed.
Lemma sign_concat Ls : (forall b b' x y, (b < b')%nat -> (b' < length Ls)%nat -> In x (nth b Ls []) -> In y (nth b' Ls []) -> (x <= y)%nat) ->
  sign_of_list (concat Ls) = lprod (map sign_of_list Ls).
Proof.
  induction Ls as [|l Ls IH]; intros H; [reflexivity|]. cbn [concat map]. rewrite sign_app, IH.
  - reflexivity.
  - intros b b' x y H1 H2. apply (H (S b) (S b')); cbn [length]; lia.
  - intros a y Ha Hy. apply in_concat in Hy. destruct Hy as (l' & Hl & Hy). apply (In_nth _ _ []) in Hl. destruct Hl as (b' & Hb & <-).
    apply (H O (S b') a y); cbn [length]; try lia; assumption.
Qed.
Lemma block_signs_prod sizes s : keeps_spins sizes s -> lprod (block_signs sizes s) = sign_of (list_sum sizes) s.
Proof.
  intros K. unfold sign_of. change (map s (seq 0 (list_sum sizes))) with (map (fun i => s i) (seq 0 (list_sum sizes))).
  rewrite <- (concat_by_spin sizes (fun _ i => s i)). rewrite sign_concat.
  - f_equal. apply (list_eq_nth _ _ 0); [unfold block_signs; rewrite !map_length, by_spin_length, seq_length; reflexivity|].
    intros b Hb. unfold block_signs in *. rewrite map_length, seq_length in Hb.
    rewrite (nth_map_seq (fun b => sign_of (nth b sizes O) (block_map sizes s b))) by exact Hb.
    rewrite (nth_indep (map sign_of_list (by_spin sizes (fun _ i : nat => s i))) 0 (sign_of_list [])) by (rewrite map_length, by_spin_length; exact Hb).
    rewrite map_nth, by_spin_nth by exact Hb. unfold sign_of.
    rewrite <- (sign_map_mono (fun k => (offset sizes b + k)%nat) (map (block_map sizes s b) _)) by (intros; lia).
    f_equal. rewrite map_map, (seq_from (offset sizes b)), map_map. apply map_ext_in. intros k Hk. apply in_seq in Hk.
    apply block_map_back; [exact K|exact Hb|lia].
  - intros b b' x y H1 H2 Hx Hy. rewrite by_spin_length in H2. rewrite by_spin_nth in Hx, Hy by lia.
    apply in_map_iff in Hx. destruct Hx as (i & <- & Hi). apply in_map_iff in Hy. destruct Hy as (j & <- & Hj). apply in_seq in Hi, Hj.
    pose proof (keeps_range sizes s b i K ltac:(lia) ltac:(lia)). pose proof (keeps_range sizes s b' j K ltac:(lia) ltac:(lia)).
    pose proof (offset_mono sizes b b' H1 H2). lia.
Qed.

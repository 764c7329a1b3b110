(** * Proofs about the Metropolis acceptance rule and step *)
From Coq Require Import Reals List Bool Arith Lra Lia.
From Verif Require Import XReal M_mcmc S_mcmc.
Import ListNotations.
Local Open Scope R_scope.

(** ** zipw *)
Lemma zipw_length {A B C} (f : A -> B -> C) l l' : length (zipw f l l') = Nat.min (length l) (length l').
Proof. revert l'; induction l; destruct l'; simpl; auto. Qed.

Lemma zipw_nth_error {A B C} (f : A -> B -> C) l l' i :
  nth_error (zipw f l l') i =
  match nth_error l i, nth_error l' i with Some a, Some b => Some (f a b) | _, _ => None end.
Proof.
  revert l' i; induction l; destruct l', i; simpl; auto.
  - destruct (nth_error l i); reflexivity.
Qed.

Lemma combine_nth_error {A B} (l : list A) (l' : list B) i :
  nth_error (combine l l') i =
  match nth_error l i, nth_error l' i with Some a, Some b => Some (a, b) | _, _ => None end.
Proof.
  revert l' i; induction l; destruct l', i; simpl; auto.
  - destruct (nth_error l i); reflexivity.
Qed.

Lemma list_ext {A} (l l' : list A) : (forall i, nth_error l i = nth_error l' i) -> l = l'.
Proof.
  revert l'; induction l as [|a l IH]; destruct l' as [|b l']; intros H; auto.
  - specialize (H O); discriminate.
  - specialize (H O); discriminate.
  - f_equal.
    + specialize (H O); simpl in H; congruence.
    + apply IH. intros i. apply (H (S i)).
Qed.

(** ** C17 *)
Lemma exp2 x : exp (2 * x) = exp x * exp x.
Proof. rewrite <- exp_plus. f_equal; ring. Qed.

Lemma accept_plain_fin a b :
  accept_plain (Fin a) (Fin b) = Fin (if Req_EM_T a 0 then 1 else Rmin 1 (Rsqr (b / a))).
Proof.
  unfold accept_plain. cbn -[Rmult]. destruct (Req_EM_T a 0) as [->|Ha].
  - rewrite Rmult_0_l. replace (Reqb 0 0) with true by (symmetry; apply Reqb_true; reflexivity).
    rewrite orb_true_r. reflexivity.
  - assert (Hp : 0 < a * a) by nra.
    assert (E : Reqb (a * a) 0 = false) by (apply Reqb_false; lra).
    rewrite E, orb_false_r.
    assert (Hs : Rsqr (b / a) = b * b / (a * a)) by (unfold Rsqr; field; assumption).
    rewrite Hs.
    destruct (Rltb (a * a) (b * b)) eqn:L.
    + apply Rltb_true in L. rewrite Rmin_left; [reflexivity|].
      apply Rmult_le_reg_r with (a * a); [assumption|].
      unfold Rdiv; rewrite Rmult_assoc, Rinv_l; lra.
    + apply Rltb_false in L. destruct (Req_EM_T (a * a) 0); [lra|].
      rewrite Rmin_right; [reflexivity|].
      apply Rmult_le_reg_r with (a * a); [assumption|].
      unfold Rdiv; rewrite Rmult_assoc, Rinv_l; lra.
Qed.

Lemma accept_log_fin a b :
  accept_log (Fin a) (Fin b) = Fin (Rmin 1 (Rsqr (exp b / exp a))).
Proof.
  unfold accept_log. cbn -[Rmult].
  assert (Hs : Rsqr (exp b / exp a) = exp (2 * b + - (2 * a))).
  { rewrite exp_plus, exp_Ropp, !exp2. unfold Rsqr. field. apply Rgt_not_eq, exp_pos. }
  rewrite Hs. destruct (Rltb (2 * a) (2 * b)) eqn:L.
  - apply Rltb_true in L. rewrite Rmin_left; [reflexivity|].
    left. rewrite <- exp_0. apply exp_increasing. lra.
  - apply Rltb_false in L. rewrite Rmin_right; [reflexivity|].
    rewrite <- exp_0. destruct (Req_dec (2 * a) (2 * b)) as [E|E].
    + rewrite E. replace (2 * b + - (2 * b)) with 0 by ring. lra.
    + left. apply exp_increasing. lra.
Qed.

Lemma accept_modes_agree a b : a <> 0 -> b <> 0 ->
  accept_log (Fin (ln (Rabs a))) (Fin (ln (Rabs b))) = accept_plain (Fin a) (Fin b).
Proof.
  intros Ha Hb. rewrite accept_log_fin, accept_plain_fin.
  destruct (Req_EM_T a 0); [contradiction|].
  rewrite !exp_ln by (apply Rabs_pos_lt; assumption).
  do 2 f_equal. rewrite !Rsqr_div'. rewrite <- !Rsqr_abs. reflexivity.
Qed.

Lemma accept_modes_agree_node a : a <> 0 ->
  accept_log (Fin (ln (Rabs a))) MInf = accept_plain (Fin a) (Fin 0).
Proof.
  intros Ha. rewrite accept_plain_fin. destruct (Req_EM_T a 0); [contradiction|].
  unfold accept_log. cbn -[Rmult]. unfold inf_of_sign.
  destruct (Rlt_dec 0 (-(2))); [lra|]. destruct (Rlt_dec (-(2)) 0); [|lra].
  cbn. f_equal. unfold Rdiv. rewrite Rmult_0_l, Rsqr_0. rewrite Rmin_right; lra.
Qed.

Lemma ratio_range a b : 0 <= metropolis_ratio a b <= 1.
Proof.
  unfold metropolis_ratio. destruct (Req_EM_T a 0); [lra|].
  pose proof (pow2_ge_0 (b / a)). unfold Rmin. destruct (Rle_dec 1 ((b / a) ^ 2)); lra.
Qed.

Lemma accept_plain_ratio a b : accept_plain (Fin a) (Fin b) = Fin (metropolis_ratio a b).
Proof. rewrite accept_plain_fin. unfold metropolis_ratio. rewrite Rsqr_pow2. reflexivity. Qed.

Lemma accept_log_ratio a b : accept_log (Fin a) (Fin b) = Fin (metropolis_ratio (exp a) (exp b)).
Proof.
  rewrite accept_log_fin. unfold metropolis_ratio. pose proof (exp_pos a).
  destruct (Req_EM_T (exp a) 0); [lra|]. rewrite Rsqr_pow2. reflexivity.
Qed.

Lemma zipw_map {A B C A' B' C'} (f : A -> B -> C) (h : A' -> B' -> C') (fa : A' -> A) (fb : B' -> B) (fc : C' -> C) l l' :
  (forall a b, In a l -> In b l' -> f (fa a) (fb b) = fc (h a b)) ->
  zipw f (map fa l) (map fb l') = map fc (zipw h l l').
Proof.
  revert l'. induction l as [|a l IH]; destruct l' as [|b l']; simpl; intros H; auto.
  rewrite H by auto. f_equal. apply IH. auto.
Qed.

(** ** C23 *)
Lemma two_minf : xmul (Fin 2) MInf = MInf.
Proof.
  cbn. unfold inf_of_sign. destruct (Rlt_dec 0 (-(2))); [lra|]. destruct (Rlt_dec (-(2)) 0); [reflexivity|lra].
Qed.
Lemma two_pinf : xmul (Fin 2) PInf = PInf.
Proof. cbn. unfold inf_of_sign. destruct (Rlt_dec 0 2); [reflexivity|lra]. Qed.

Lemma plain_node_accepts y : accept_plain (Fin 0) y = Fin 1.
Proof.
  unfold accept_plain.
  replace (xeqb (xmul (Fin 0) (Fin 0)) (Fin 0)) with true; [rewrite orb_true_r; reflexivity|].
  cbn. symmetry; apply Reqb_true; ring.
Qed.

Lemma log_node_accepts_fin b : accept_log MInf (Fin b) = Fin 1.
Proof. unfold accept_log. rewrite two_minf. reflexivity. Qed.

Lemma log_node_node : accept_log MInf MInf = NaN.
Proof. unfold accept_log. rewrite two_minf. reflexivity. Qed.

Lemma nan_never_accepted u : accepts u NaN = false.
Proof. reflexivity. Qed.

Lemma one_always_accepted u : 0 <= u < 1 -> accepts u (Fin 1) = true.
Proof. intros H. cbn. apply Rltb_true. lra. Qed.

Lemma modes_differ_iff a b u : 0 <= u < 1 ->
  accepts u (accept_log (log_abs a) (log_abs b)) <> accepts u (accept_plain (Fin a) (Fin b)) <->
  a = 0 /\ b = 0.
Proof.
  intros Hu. unfold log_abs. destruct (Req_EM_T a 0) as [->|Ha], (Req_EM_T b 0) as [->|Hb].
  - rewrite log_node_node, plain_node_accepts, one_always_accepted by assumption.
    cbn. split; [auto|discriminate].
  - rewrite log_node_accepts_fin, plain_node_accepts. split; [congruence|tauto].
  - rewrite accept_modes_agree_node by assumption. split; [congruence|tauto].
  - rewrite accept_modes_agree by assumption. split; [congruence|tauto].
Qed.

(** ** C20 *)
Section Walk.
Context {P D K A : Type}.
Variables (zero : A) (add : A -> A -> A) (divn : A -> nat -> A).
Variable step : P -> D -> K -> A * D * K.

Lemma walk_scan_steps p n c0 d k s d' k' :
  walk_scan add step p n (c0, d, k) = (s, d', k') <->
  exists rs, length rs = n /\ Steps step p d k rs d' k' /\ s = fold_left add rs c0.
Proof.
  revert c0 d k. induction n as [|n IH]; intros c0 d k; simpl.
  - split.
    + intros E; injection E as <- <- <-. exists []. repeat split. constructor.
    + intros (rs & L & H & ->). destruct rs; [|discriminate]. inversion H; subst. reflexivity.
  - destruct (step p d k) as [[a d1] k1] eqn:E. rewrite IH. split.
    + intros (rs & L & H & ->). exists (a :: rs). simpl. repeat split; auto. econstructor; eauto.
    + intros (rs & L & H & ->). destruct rs as [|r rs]; [discriminate|]. inversion H; subst.
      match goal with Hs : step p d k = _ |- _ => rewrite E in Hs; injection Hs as -> -> -> end.
      exists rs. simpl in L. repeat split; auto.
Qed.

Lemma walk_gen_steps n p d k ratio d' k' :
  walk_data_gen zero add divn n p d k step = (ratio, d', k') <->
  exists rs, length rs = n /\ Steps step p d k rs d' k' /\ ratio = divn (fold_left add rs zero) n.
Proof.
  unfold walk_data_gen.
  destruct (walk_scan add step p n (zero, d, k)) as [[s d1] k1] eqn:E.
  split.
  - intros H; injection H as <- <- <-. apply walk_scan_steps in E. destruct E as (rs & L & H & ->).
    exists rs. auto.
  - intros (rs & L & H & ->). assert (E2 : walk_scan add step p n (zero, d, k) = (fold_left add rs zero, d', k')).
    { apply walk_scan_steps. exists rs; auto. }
    rewrite E in E2. injection E2 as -> -> ->. reflexivity.
Qed.

Lemma Steps_app p d k rs1 d1 k1 rs2 d2 k2 :
  Steps step p d k rs1 d1 k1 -> Steps step p d1 k1 rs2 d2 k2 -> Steps step p d k (rs1 ++ rs2) d2 k2.
Proof. intros S1 S2. induction S1; simpl; [assumption|]. econstructor; eauto. Qed.

Lemma Steps_exist p n : forall d k, exists rs d' k', length rs = n /\ Steps step p d k rs d' k'.
Proof.
  induction n as [|n IH]; intros d k.
  - exists [], d, k. split; [reflexivity|constructor].
  - destruct (step p d k) as [[a d1] k1] eqn:E. destruct (IH d1 k1) as (rs & d' & k' & L & H).
    exists (a :: rs), d', k'. split; [simpl; congruence|econstructor; eauto].
Qed.

Lemma Steps_det p d k rs d' k' rs2 d2 k2 : Steps step p d k rs d' k' -> Steps step p d k rs2 d2 k2 ->
  length rs = length rs2 -> rs = rs2 /\ d' = d2 /\ k' = k2.
Proof.
  intros H. revert rs2. induction H as [|? ? ? ? ? ? ? ? E H IH]; intros rs2 H2 L.
  - destruct rs2; [|discriminate]. inversion H2; subst. auto.
  - destruct rs2 as [|r2 rs2]; [discriminate|]. inversion H2 as [|? ? ? ? ? ? ? ? E2 H2']; subst.
    rewrite E in E2. injection E2 as <- <- <-. simpl in L.
    destruct (IH rs2 H2' ltac:(congruence)) as (-> & -> & ->). auto.
Qed.

Lemma walk_gen_split n m p d k r1 d1 k1 r2 d2 k2 :
  walk_data_gen zero add divn n p d k step = (r1, d1, k1) ->
  walk_data_gen zero add divn m p d1 k1 step = (r2, d2, k2) ->
  exists r, walk_data_gen zero add divn (n + m) p d k step = (r, d2, k2).
Proof.
  intros H1 H2. apply walk_gen_steps in H1, H2.
  destruct H1 as (rs1 & L1 & S1 & _), H2 as (rs2 & L2 & S2 & _).
  eexists. apply walk_gen_steps. exists (rs1 ++ rs2). split; [rewrite app_length; lia|].
  split; [|reflexivity]. eapply Steps_app; eassumption.
Qed.

Lemma burn_steps n p d k d' k' :
  burn_data (burning_step step) n p d k = (d', k') <-> exists rs, length rs = n /\ Steps step p d k rs d' k'.
Proof.
  revert d k. induction n as [|n IH]; intros d k; simpl.
  - split.
    + intros E; injection E as <- <-. exists []. repeat split. constructor.
    + intros (rs & L & H). destruct rs; [|discriminate]. inversion H; subst. reflexivity.
  - unfold burning_step at 1. destruct (step p d k) as [[a d1] k1] eqn:E. rewrite IH. split.
    + intros (rs & L & H). exists (a :: rs). simpl. split; [auto|]. econstructor; eauto.
    + intros (rs & L & H). destruct rs as [|r rs]; [discriminate|]. inversion H; subst.
      match goal with Hs : step p d k = _ |- _ => rewrite E in Hs; injection Hs as -> -> -> end.
      exists rs. simpl in L. auto.
Qed.
End Walk.

Lemma fold_left_fin l c : fold_left xadd (map Fin l) (Fin c) = Fin (c + fold_right Rplus 0 l).
Proof.
  revert c. induction l as [|a l IH]; intros c; simpl; [f_equal; ring|].
  rewrite IH. f_equal; ring.
Qed.

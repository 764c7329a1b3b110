(** * Proofs about the configured optimisers *)
From Coq Require Import String Reals List Arith ZArith Bool Lia Lra.
From Verif Require Import XReal Rsum M_io M_vmc M_mcmc M_optim M_optax S_optim S_optax P_optim1 P_optim2.
Import ListNotations.
Local Open Scope R_scope.

(** ** Schedules *)
Lemma schedule_rate s : known_schedule s -> exists f, learning_rate_schedule (sc_type s) (sc_rate s) (sc_decay s) = Some f /\ forall t, f t = rate s t.
Proof.
  unfold known_schedule, learning_rate_schedule, rate. intros [E|E]; rewrite E; cbn [String.eqb Ascii.eqb Bool.eqb]; eexists; (split; [reflexivity|]); reflexivity.
Qed.
Lemma schedule_known s : learning_rate_schedule (sc_type s) (sc_rate s) (sc_decay s) <> None <-> known_schedule s.
Proof.
  split.
  - unfold learning_rate_schedule, known_schedule. destruct (String.eqb_spec (sc_type s) "constant"); [auto|].
    destruct (String.eqb_spec (sc_type s) "inverse_time"); [auto|]. intros H; elim H; reflexivity.
  - intros K. destruct (schedule_rate s K) as (f & E & _). rewrite E. discriminate.
Qed.
Lemma section_known c name : section_schedule c name <> None <-> In name section_names.
Proof.
  unfold section_schedule, section_names. cbn [In].
  destruct (String.eqb_spec name "kfac"); [subst; split; [auto|discriminate]|].
  destruct (String.eqb_spec name "adam"); [subst; split; [auto|discriminate]|].
  destruct (String.eqb_spec name "sgd"); [subst; split; [auto|discriminate]|].
  destruct (String.eqb_spec name "sr"); [subst; split; [auto 6|discriminate]|].
  destruct (String.eqb_spec name "spring"); [subst; split; [auto 7|discriminate]|].
  split; [intros H; elim H; reflexivity|]. intros [H|[H|[H|[H|[H|H]]]]]; congruence || contradiction.
Qed.

(** ** Runs *)
Lemma updates_app np o a b r : updates_from np o (a ++ b) r = updates_from np o b (updates_from np o a r).
Proof. apply fold_left_app. Qed.
Lemma grad_at_app_l a b t k : (t < length a)%nat -> grad_at (a ++ b) t k = grad_at a t k.
Proof. intros H. unfold grad_at. rewrite map_app, app_nth1; [reflexivity|]. rewrite map_length. exact H. Qed.
Lemma grad_at_last a i k : grad_at (a ++ [i]) (length a) k = in_grad i k.
Proof. unfold grad_at. rewrite map_app, app_nth2; rewrite map_length; [|lia]. rewrite Nat.sub_diag. reflexivity. Qed.

Lemma discounted_S b t f : discounted b (S t) f = b * discounted b t f + f (S t).
Proof.
  unfold discounted. transitivity (Rsum (S t) (fun s => b * (b ^ (t - s) * f s)) + f (S t)); [|rewrite Rsum_scal; reflexivity].
  change (Rsum (S (S t)) (fun s => b ^ (S t - s) * f s)) with (Rsum (S t) (fun s => b ^ (S t - s) * f s) + b ^ (S t - S t) * f (S t)).
  rewrite Nat.sub_diag. cbn [pow]. rewrite Rmult_1_l. f_equal.
  apply Rsum_ext. intros i Hi. replace (S t - i)%nat with (S (t - i)) by lia. cbn [pow]. ring.
Qed.
Lemma discounted_0 b f : discounted b 0 f = f O.
Proof. unfold discounted. cbn. ring. Qed.
Lemma discounted_ext b t f f' : (forall s, (s <= t)%nat -> f s = f' s) -> discounted b t f = discounted b t f'.
Proof. intros H. unfold discounted. apply Rsum_ext. intros i Hi. rewrite H by lia. reflexivity. Qed.
Lemma discounted_one b t : b <> 1 -> discounted b t (fun _ => 1) = (1 - b ^ S t) / (1 - b).
Proof.
  intros H. induction t as [|t IH]; [rewrite discounted_0; cbn; field; lra|].
  rewrite discounted_S, IH. cbn [pow]. field. lra.
Qed.
Lemma discounted_one_ge b t : 0 <= b -> 1 <= discounted b t (fun _ => 1).
Proof.
  intros H. induction t as [|t IH]; [rewrite discounted_0; lra|]. rewrite discounted_S. nra.
Qed.
Lemma pow_lt_one b t : 0 <= b < 1 -> b ^ S t < 1.
Proof. intros H. induction t as [|t IH]; [cbn; lra|]. change (b ^ S (S t)) with (b * b ^ S t). pose proof (pow_le b (S t) (proj1 H)). nra. Qed.
Lemma discounted_nonneg b t f : 0 <= b -> (forall s, (s <= t)%nat -> 0 <= f s) -> 0 <= discounted b t f.
Proof. intros Hb Hf. apply Rsum_nonneg. intros i Hi. apply Rmult_le_pos; [apply pow_le; exact Hb|apply Hf; lia]. Qed.

(** *** SGD *)
Definition sgd_direction (m : R) (nesterov : bool) (f : nat -> R) (t : nat) : R :=
  if nesterov then f t + m * discounted m t f else discounted m t f.
Lemma sgd_run np c schedule p0 : forall inputs, exists p s,
  updates_from np (Optax (sgd_transform c) schedule) inputs (Stepped p0 (optax_init (sgd_transform c))) = Stepped p s /\ os_count s = length inputs /\
  (forall k, p k = p0 k - Rsum (length inputs) (fun t => schedule t * sgd_direction (sg_momentum c) (sg_nesterov c) (fun t => grad_at inputs t k) t)) /\
  (if Req_EM_T (sg_momentum c) 0 then os_first s = EmptyState
   else exists tr, os_first s = TraceState tr /\ forall k, tr k = match length inputs with O => 0 | S n => discounted (sg_momentum c) n (fun t => grad_at inputs t k) end).
Proof.
  intros inputs. unfold sgd_transform. induction inputs as [|i inputs IH] using rev_ind.
  { eexists p0, _. split; [reflexivity|]. split; [reflexivity|]. split; [intros; cbn; ring|].
    destruct (Req_EM_T (sg_momentum c) 0); cbn; [reflexivity|]. eexists. split; reflexivity. }
  destruct IH as (p & s & E & Ec & Ep & Et). rewrite updates_app, E. cbn [updates_from fold_left next].
  rewrite app_length. cbn [length]. rewrite Nat.add_1_r. unfold optimiser_apply, optax_update.
  set (m := sg_momentum c) in *.
  assert (Old : forall k t, (t < length inputs)%nat -> sgd_direction m (sg_nesterov c) (fun t => grad_at (inputs ++ [i]) t k) t = sgd_direction m (sg_nesterov c) (fun t => grad_at inputs t k) t).
  { intros k t Ht. unfold sgd_direction. rewrite (discounted_ext m t (fun t => grad_at (inputs ++ [i]) t k) (fun t => grad_at inputs t k)) by (intros; apply grad_at_app_l; lia).
    rewrite grad_at_app_l by exact Ht. reflexivity. }
  assert (Sum : forall k, Rsum (length inputs) (fun t => schedule t * sgd_direction m (sg_nesterov c) (fun t => grad_at (inputs ++ [i]) t k) t) =
                          Rsum (length inputs) (fun t => schedule t * sgd_direction m (sg_nesterov c) (fun t => grad_at inputs t k) t)).
  { intros k. apply Rsum_ext. intros t Ht. rewrite Old by exact Ht. reflexivity. }
  destruct (Req_EM_T m 0) as [Z|Z].
  - rewrite Et. cbn [transform_update]. eexists _, _. split; [reflexivity|]. cbn [os_count os_first]. split; [rewrite Ec; reflexivity|].
    split; [|reflexivity]. intros k. cbn [Rsum]. rewrite Sum. unfold apply_updates. rewrite Ep, Ec.
    replace (sgd_direction m (sg_nesterov c) (fun t => grad_at (inputs ++ [i]) t k) (length inputs)) with (in_grad i k); [ring|].
    assert (D : forall t f, discounted m t f = f t).
    { intros t f. rewrite Z. destruct t; [apply discounted_0|]. rewrite discounted_S. ring. }
    unfold sgd_direction. rewrite D, grad_at_last, Z. destruct (sg_nesterov c); ring.
  - destruct Et as (tr & Et & Etr). rewrite Et. cbn [transform_update]. eexists _, _. split; [reflexivity|]. cbn [os_count os_first]. split; [rewrite Ec; reflexivity|].
    assert (T : forall k, in_grad i k + m * tr k = discounted m (length inputs) (fun t => grad_at (inputs ++ [i]) t k)).
    { intros k. rewrite Etr. destruct (length inputs) as [|n] eqn:L.
      - rewrite discounted_0. rewrite <- (grad_at_last inputs i k), L. ring.
      - rewrite discounted_S, <- L, grad_at_last. rewrite (discounted_ext m n (fun t => grad_at (inputs ++ [i]) t k) (fun t => grad_at inputs t k)); [ring|].
        intros s' Hs. apply grad_at_app_l. lia. }
    split.
    + intros k. cbn [Rsum]. rewrite Sum. unfold apply_updates. rewrite Ep, Ec. unfold sgd_direction.
      rewrite <- T, grad_at_last. destruct (sg_nesterov c); ring.
    + eexists. split; [reflexivity|]. intros k. cbv beta. apply T.
Qed.

(** *** Adam *)
Definition adam_direction (c : adam_cfg) (f : nat -> R) (t : nat) : R :=
  discounted_mean (ad_b1 c) t f / (sqrt (discounted_mean (ad_b2 c) t (fun s => f s ^ 2) + ad_eps_root c) + ad_eps c).
Lemma adam_run np c schedule p0 : 0 <= ad_b1 c < 1 -> 0 <= ad_b2 c < 1 -> forall inputs, exists p s,
  updates_from np (Optax (adam_transform c) schedule) inputs (Stepped p0 (optax_init (adam_transform c))) = Stepped p s /\ os_count s = length inputs /\
  (forall k, p k = p0 k - Rsum (length inputs) (fun t => schedule t * adam_direction c (fun t => grad_at inputs t k) t)) /\
  (exists mu nu, os_first s = AdamState (length inputs) mu nu /\
     forall k, mu k = match length inputs with O => 0 | S n => (1 - ad_b1 c) * discounted (ad_b1 c) n (fun t => grad_at inputs t k) end /\
               nu k = match length inputs with O => 0 | S n => (1 - ad_b2 c) * discounted (ad_b2 c) n (fun t => grad_at inputs t k ^ 2) end).
Proof.
  intros H1 H2 inputs. unfold adam_transform. induction inputs as [|i inputs IH] using rev_ind.
  { eexists p0, _. split; [reflexivity|]. split; [reflexivity|]. split; [intros; cbn; ring|]. eexists _, _. split; [reflexivity|]. intros; split; reflexivity. }
  destruct IH as (p & s & E & Ec & Ep & mu & nu & Ef & Em). rewrite updates_app, E. cbn [updates_from fold_left next].
  rewrite app_length. cbn [length]. rewrite Nat.add_1_r. unfold optimiser_apply, optax_update. rewrite Ef. cbn [transform_update].
  set (b1 := ad_b1 c) in *. set (b2 := ad_b2 c) in *.
  assert (T : forall b k (h : R -> R) (x : R), x = match length inputs with O => 0 | S n => (1 - b) * discounted b n (fun t => h (grad_at inputs t k)) end ->
    b * x + (1 - b) * h (in_grad i k) = (1 - b) * discounted b (length inputs) (fun t => h (grad_at (inputs ++ [i]) t k))).
  { intros b k h x Ex. destruct (length inputs) as [|n] eqn:L.
    - rewrite discounted_0, Ex. rewrite <- (grad_at_last inputs i k), L. ring.
    - rewrite discounted_S, <- L, grad_at_last, Ex.
      rewrite (discounted_ext b n (fun t => h (grad_at (inputs ++ [i]) t k)) (fun t => h (grad_at inputs t k))); [ring|].
      intros s' Hs. rewrite grad_at_app_l by lia. reflexivity. }
  assert (T1 : forall k, b1 * mu k + (1 - b1) * in_grad i k = (1 - b1) * discounted b1 (length inputs) (fun t => grad_at (inputs ++ [i]) t k)).
  { intros k. apply (T b1 k (fun x => x)). apply Em. }
  assert (T2 : forall k, b2 * nu k + (1 - b2) * in_grad i k ^ 2 = (1 - b2) * discounted b2 (length inputs) (fun t => grad_at (inputs ++ [i]) t k ^ 2)).
  { intros k. apply (T b2 k (fun x => x ^ 2)). apply Em. }
  assert (M : forall b t f, 0 <= b < 1 -> (1 - b) * discounted b t f / (1 - b ^ S t) = discounted_mean b t f).
  { intros b t f Hb. unfold discounted_mean. rewrite discounted_one by lra. pose proof (pow_lt_one b t Hb). field. split; lra. }
  eexists _, _. split; [reflexivity|]. cbn [os_count os_first]. split; [rewrite Ec; reflexivity|]. split.
  - intros k. unfold apply_updates. rewrite Ep, Ec, T1, T2, !M by assumption. cbn [Rsum].
    rewrite (Rsum_ext (length inputs) (fun t => schedule t * adam_direction c (fun t => grad_at (inputs ++ [i]) t k) t)
      (fun t => schedule t * adam_direction c (fun t => grad_at inputs t k) t)).
    + unfold adam_direction at 3. fold b1 b2. ring.
    + intros t Ht. f_equal. unfold adam_direction, discounted_mean. f_equal; [f_equal; apply discounted_ext; intros; apply grad_at_app_l; lia|].
      f_equal. f_equal. f_equal. f_equal. apply discounted_ext. intros. rewrite grad_at_app_l by lia. reflexivity.
  - eexists _, _. split; [reflexivity|]. intros k. cbv beta. split; [apply T1|apply T2].
Qed.

(** Cauchy-Schwarz for weighted sums. *)
Lemma weighted_cs n (w f : nat -> R) : (forall i, (i < n)%nat -> 0 <= w i) -> Rsum n (fun i => w i * f i) ^ 2 <= Rsum n w * Rsum n (fun i => w i * f i ^ 2).
Proof.
  intros H. assert (W : 0 <= Rsum n w) by (apply Rsum_nonneg; exact H).
  destruct (Req_dec (Rsum n w) 0) as [Z|Z].
  - pose proof (Rsum_zero_terms n w H Z) as Z'. rewrite Z, Rmult_0_l.
    rewrite (Rsum_eq_0 n (fun i => w i * f i)); [lra|]. intros i Hi. rewrite Z' by exact Hi. ring.
  - set (a := Rsum n (fun i => w i * f i)). set (q := Rsum n (fun i => w i * f i ^ 2)). set (s := Rsum n w) in *.
    assert (P : 0 <= Rsum n (fun i => w i * (s * f i - a) ^ 2)).
    { apply Rsum_nonneg. intros i Hi. apply Rmult_le_pos; [apply H; exact Hi | apply pow2_ge_0]. }
    rewrite (Rsum_ext n _ (fun i => (s ^ 2 * (w i * f i ^ 2) - 2 * s * a * (w i * f i)) + a ^ 2 * w i)) in P by (intros; ring).
    rewrite Rsum_plus, Rsum_minus, !Rsum_scal in P. fold a q s in P.
    assert (0 <= s * (s * q - a ^ 2)) by nra. assert (0 < s) by lra. nra.
Qed.
Lemma adam_direction_bound c f t : 0 <= ad_b1 c <= ad_b2 c -> ad_b2 c < 1 -> 0 <= ad_eps_root c -> 0 < ad_eps c ->
  Rabs (adam_direction c f t) <= / sqrt (1 - ad_b2 c).
Proof.
  intros Hb H2 Hr He. unfold adam_direction. set (b1 := ad_b1 c) in *. set (b2 := ad_b2 c) in *.
  set (x := discounted_mean b1 t f). set (v := discounted_mean b2 t (fun s => f s ^ 2)).
  pose proof (discounted_one_ge b1 t ltac:(lra)) as G1. pose proof (discounted_one_ge b2 t ltac:(lra)) as G2.
  assert (V : 0 <= v).
  { unfold v, discounted_mean. apply Rmult_le_pos; [apply discounted_nonneg; [lra|intros; apply pow2_ge_0] | left; apply Rinv_0_lt_compat; lra]. }
  assert (X : x ^ 2 * (1 - b2) <= v).
  { unfold x, v, discounted_mean. set (d1 := discounted b1 t (fun _ => 1)) in *. set (d2 := discounted b2 t (fun _ => 1)) in *.
    set (a := discounted b1 t f). set (q := discounted b2 t (fun s => f s ^ 2)).
    assert (CS : a ^ 2 <= d1 * discounted b1 t (fun s => f s ^ 2)).
    { unfold a, d1, discounted. eapply Rle_trans; [apply (weighted_cs (S t) (fun s => b1 ^ (t - s)) f); intros; apply pow_le; lra|].
      right. f_equal. apply Rsum_ext. intros; ring. }
    assert (Le : discounted b1 t (fun s => f s ^ 2) <= q).
    { unfold q, discounted. apply Rsum_le. intros s Hs. apply Rmult_le_compat_r; [apply pow2_ge_0|]. apply pow_incr. lra. }
    assert (D2 : d2 * (1 - b2) <= 1).
    { unfold d2. rewrite discounted_one by lra. replace ((1 - b2 ^ S t) / (1 - b2) * (1 - b2)) with (1 - b2 ^ S t) by (field; lra).
      pose proof (pow_le b2 (S t) ltac:(lra)). lra. }
    assert (Q : 0 <= q) by (apply discounted_nonneg; [lra|intros; apply pow2_ge_0]).
    apply (Rmult_le_reg_r (d1 ^ 2 * d2)); [nra|].
    replace ((a / d1) ^ 2 * (1 - b2) * (d1 ^ 2 * d2)) with (a ^ 2 * (d2 * (1 - b2))) by (field; lra).
    replace (q / d2 * (d1 ^ 2 * d2)) with (d1 * (d1 * q)) by (field; lra).
    assert (0 <= a ^ 2) by apply pow2_ge_0. assert (a ^ 2 <= d1 * q) by nra. nra. }
  assert (S1 : 0 < sqrt (1 - b2)) by (apply sqrt_lt_R0; lra).
  assert (Den : 0 < sqrt (v + ad_eps_root c) + ad_eps c) by (pose proof (sqrt_pos (v + ad_eps_root c)); lra).
  unfold Rdiv. rewrite Rabs_mult, (Rabs_right (/ (sqrt (v + ad_eps_root c) + ad_eps c))) by (apply Rle_ge; left; apply Rinv_0_lt_compat; exact Den).
  apply (Rmult_le_reg_r ((sqrt (v + ad_eps_root c) + ad_eps c) * sqrt (1 - b2))); [nra|].
  replace (Rabs x * / (sqrt (v + ad_eps_root c) + ad_eps c) * ((sqrt (v + ad_eps_root c) + ad_eps c) * sqrt (1 - b2))) with (Rabs x * sqrt (1 - b2)) by (field; lra).
  replace (/ sqrt (1 - b2) * ((sqrt (v + ad_eps_root c) + ad_eps c) * sqrt (1 - b2))) with (sqrt (v + ad_eps_root c) + ad_eps c) by (field; lra).
  assert (L : Rabs x * sqrt (1 - b2) <= sqrt v).
  { rewrite <- (sqrt_Rsqr_abs x), <- sqrt_mult_alt by (unfold Rsqr; nra). apply sqrt_le_1_alt. unfold Rsqr. nra. }
  assert (sqrt v <= sqrt (v + ad_eps_root c)) by (apply sqrt_le_1_alt; lra). lra.
Qed.

(** ** The shape of the state and the count *)
Definition fits (t : transform) (f : first_state) : Prop :=
  match t, f with Sgd None _, EmptyState => True | Sgd (Some _) _, TraceState _ => True | Adam _ _ _ _, AdamState _ _ _ => True | _, _ => False end.
Definition descent (o : optimiser) : option transform :=
  match o with Kfac _ _ => None | Optax t _ => Some t | SR _ _ _ _ t _ => Some t | Spring _ _ _ _ _ => Some (Sgd (Some 0) false) end.
Lemma optax_update_ok t schedule g s : fits t (os_first s) -> exists u s', optax_update t schedule g s = Some (u, s') /\ os_count s' = S (os_count s) /\ fits t (os_first s').
Proof.
  intros F. unfold optax_update. destruct t as [[m|] nes|b1 b2 e er], (os_first s); try contradiction F; cbn [transform_update];
    eexists _, _; (split; [reflexivity|]); split; reflexivity || exact Logic.I.
Qed.
Definition good_state (o : optimiser) (n : nat) (r : stepped) : Prop :=
  match r with
  | Stepped _ s => os_count s = n /\ match descent o with Some t => fits t (os_first s) | None => False end
  | NotFinite => True
  | WrongState => False
  end.
Lemma apply_good np o i p s n : good_state o n (Stepped p s) -> good_state o (S n) (optimiser_apply np o i p s).
Proof.
  intros [Ec Ef]. destruct o as [sch d|t sch|mode d mx nc t sch|d mu m c sch]; cbn [descent optimiser_apply] in *; [contradiction| | |].
  - destruct (optax_update_ok t sch (in_grad i) s Ef) as (u & s' & E & Ec' & Ef'). rewrite E. cbn. rewrite Ec', Ec. auto.
  - destruct (norm_coefficient nc _) as [x| | |]; try exact Logic.I.
    destruct (optax_update_ok t sch (fun k => x * precondition_grad_with_fisher mode np d mx (in_dlogs i) (in_grad i) k) s Ef) as (u & s' & E & Ec' & Ef').
    rewrite E. cbn. rewrite Ec', Ec. auto.
  - destruct (os_first s) as [|prev|] eqn:Q; try contradiction Ef.
    set (gr := spring_update _ _ _ _ _ _ _ _).
    destruct (optax_update_ok (Sgd (Some 0) false) sch gr s ltac:(rewrite Q; exact Logic.I)) as (u & s' & E & Ec' & Ef').
    rewrite E. destruct c as [c|]; [|cbn; rewrite Ec', Ec; auto].
    destruct (norm_coefficient c (inner np u u)); try exact Logic.I. cbn. rewrite Ec', Ec. auto.
Qed.
Lemma run_good np o s0 p0 inputs : init_state o = Some s0 -> good_state o (length inputs) (updates_from np o inputs (Stepped p0 s0)).
Proof.
  intros I0. induction inputs as [|i inputs IH] using rev_ind.
  - cbn. destruct o; cbn in I0; inversion I0; subst; cbn; (split; [reflexivity|]); try exact Logic.I; destruct t as [[m|] nes|]; exact Logic.I.
  - rewrite updates_app, app_length. cbn [length updates_from fold_left]. rewrite Nat.add_1_r.
    fold (updates_from np o inputs (Stepped p0 s0)). destruct (updates_from np o inputs (Stepped p0 s0)) as [p s| |]; cbn [next]; [apply apply_good; exact IH | exact Logic.I | contradiction IH].
Qed.

Lemma lmean_repeat x n : (0 < n)%nat -> lmean (repeat x n) = x.
Proof. intros H. unfold lmean. rewrite lsum_repeat, repeat_length. field. apply not_0_INR. lia. Qed.

Lemma sr_plain_step np mode damping maxiter nc nes schedule i p s : 0 < nc -> in_dlogs i <> [] -> os_first s = EmptyState ->
  let d := precondition_grad_with_fisher mode np damping maxiter (in_dlogs i) (in_grad i) in
  let lr := schedule (os_count s) in
  0 <= inner np d (in_grad i) ->
  exists t s', 0 < t <= 1 /\
    optimiser_apply np (SR mode damping maxiter nc (Sgd None nes) schedule) i p s = Stepped (fun k => p k + - lr * (t * d k)) s' /\
    t ^ 2 * (inner np d (in_grad i) * lr ^ 2) <= nc /\ (inner np d (in_grad i) * lr ^ 2 <= nc -> t = 1).
Proof.
  intros Hc Hs Hf d lr Hd. cbn [optimiser_apply]. fold d lr. rewrite lmean_repeat by (destruct (in_dlogs i); [elim Hs; reflexivity|cbn; lia]).
  destruct (coefficient_ok nc (inner np d (in_grad i) * lr ^ 2) Hc) as (t & E & Ht & H1 & H2 & _).
  { apply Rmult_le_pos; [exact Hd|apply pow2_ge_0]. }
  rewrite E. unfold optax_update. rewrite Hf. cbn [transform_update]. eexists t, _. split; [exact Ht|]. split; [reflexivity|]. auto.
Qed.

Lemma spring_config_step np damping mu momentum c schedule i p s prev : 0 < c -> os_first s = TraceState prev ->
  let w := hd [] (in_dlogs i) in
  let d := spring_update (length w) np damping mu momentum (fun j => nth j w (fun _ => 0)) (in_energies i) prev in
  let lr := schedule (os_count s) in
  exists t s' tr, 0 < t <= 1 /\
    optimiser_apply np (Spring damping mu momentum (Some c) schedule) i p s = Stepped (fun k => p k + t * (- lr * d k)) s' /\
    os_first s' = TraceState tr /\ (forall k, tr k = d k) /\
    sq_norm np (fun k => t * (- lr * d k)) <= c /\ (sq_norm np (fun k => lr * d k) <= c -> t = 1).
Proof.
  intros Hc Hf w d lr. cbn [optimiser_apply]. rewrite Hf. fold w d. unfold optax_update. rewrite Hf. cbn [transform_update]. fold lr.
  set (u := fun k => - lr * (d k + 0 * prev k)).
  assert (Eu : inner np u u = sq_norm np (fun k => lr * d k)).
  { rewrite sq_norm_inner. apply Rsum_ext. intros k _. unfold u. ring. }
  destruct (coefficient_ok c (inner np u u) Hc (inner_nonneg np u)) as (t & E & Ht & H1 & H2 & _).
  rewrite E. eexists t, _, _. split; [exact Ht|]. split.
  { f_equal. apply FunctionalExtensionality.functional_extensionality. intros k. unfold apply_updates, u. ring. }
  split; [reflexivity|]. split; [intros; ring|]. split; [|rewrite <- Eu; exact H2].
  rewrite sq_norm_inner. rewrite <- inner_scaled in H1. eapply Rle_trans; [right|exact H1]. apply inner_ext; intros k _; unfold u; ring.
Qed.

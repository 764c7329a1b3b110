(** * Theorems about the configured optimisers: C74 *)
From Coq Require Import String Reals List Arith ZArith Bool Lia Lra.
From Verif Require Import XReal Rsum M_io M_vmc M_mcmc M_optim M_optax S_optim S_optax P_optim1 P_optim2 P_optax.
Import ListNotations.
Local Open Scope R_scope.

(** Which configurations are accepted, and which exception the others raise. *)
Theorem C74_accepted : forall c,
  let accepted := In (oc_type c) section_names /\ (forall s, section_schedule c (oc_type c) = Some s -> known_schedule s) /\
    (oc_type c = "sr"%string -> (sr_descent_type (oc_sr c) = "adam"%string \/ sr_descent_type (oc_sr c) = "sgd"%string) /\
       In (upper_case (sr_mode_name (oc_sr c))) ["LAZY"; "DEBUG"]%string) in
  ((exists o, choose_optimiser c = Chosen o) <-> accepted) /\
  (~ In (oc_type c) section_names -> choose_optimiser c = Error KeyError).
Proof.
  intros c accepted. split.
  - unfold choose_optimiser, accepted. split.
    + intros [o H]. destruct (section_schedule c (oc_type c)) as [sc|] eqn:Es; [|discriminate].
      split; [apply (section_known c); rewrite Es; discriminate|].
      destruct (learning_rate_schedule _ _ _) as [f|] eqn:El; [|discriminate].
      split; [intros s E; inversion E; subst; apply schedule_known; rewrite El; discriminate|].
      intros T. rewrite T in H. cbn [String.eqb Ascii.eqb Bool.eqb] in H. unfold get_sr in H.
      destruct (section_schedule c (sr_descent_type (oc_sr c))); [|discriminate].
      destruct (sr_mode_of _) as [m|] eqn:Em; [|discriminate]. split.
      * destruct (String.eqb_spec (sr_descent_type (oc_sr c)) "adam"); [auto|]. destruct (String.eqb_spec (sr_descent_type (oc_sr c)) "sgd"); [auto|discriminate].
      * unfold sr_mode_of in Em. destruct (String.eqb_spec (upper_case (sr_mode_name (oc_sr c))) "LAZY") as [e|]; [left; auto|].
        destruct (String.eqb_spec (upper_case (sr_mode_name (oc_sr c))) "DEBUG"); [right; left; auto|discriminate].
    + intros (Hn & Hs & Hr). pose proof (proj2 (section_known c (oc_type c)) Hn) as Nn.
      destruct (section_schedule c (oc_type c)) as [sc|] eqn:Es; [|elim Nn; reflexivity].
      destruct (schedule_rate sc (Hs sc eq_refl)) as (f & Ef & _). rewrite Ef.
      destruct (String.eqb_spec (oc_type c) "kfac") as [|T1]; [eexists; reflexivity|].
      destruct (String.eqb_spec (oc_type c) "sgd") as [|T2]; [eexists; reflexivity|].
      destruct (String.eqb_spec (oc_type c) "adam") as [|T3]; [eexists; reflexivity|].
      destruct (String.eqb_spec (oc_type c) "sr") as [T|T].
      * specialize (Hr T). destruct Hr as [Hd Hm]. unfold get_sr.
        assert (Hd' : section_schedule c (sr_descent_type (oc_sr c)) <> None) by (apply section_known; destruct Hd as [E|E]; rewrite E; cbn; auto).
        destruct (section_schedule c (sr_descent_type (oc_sr c))); [|elim Hd'; reflexivity].
        assert (Hm' : exists m, sr_mode_of (upper_case (sr_mode_name (oc_sr c))) = Some m) by (destruct Hm as [E|[E|[]]]; rewrite <- E; eexists; reflexivity).
        destruct Hm' as [m Em]. rewrite Em. destruct Hd as [E|E]; rewrite E; eexists; reflexivity.
      * destruct (String.eqb_spec (oc_type c) "spring") as [T'|T']; [eexists; reflexivity|].
        exfalso. revert Hn. unfold section_names. cbn [In].
        intros [H|[H|[H|[H|[H|H]]]]]; congruence || contradiction.
  - intros N. unfold choose_optimiser. destruct (section_schedule c (oc_type c)) as [sc|] eqn:Es; [|reflexivity].
    elim N. apply (section_known c). rewrite Es. discriminate.
Qed.
Print Assumptions C74_accepted.

Section Example_configuration.
  (** The default numbers, for every section, with a given type. *)
  Definition decaying : schedule_cfg := {| sc_type := "inverse_time"; sc_rate := 1 / 20; sc_decay := 1 / 10000 |}.
  Definition default_optimizer (type : string) : opt_cfg :=
    {| oc_type := type; oc_kfac_schedule := decaying; oc_kfac_damping := 1 / 1000;
       oc_adam := {| ad_b1 := 9 / 10; ad_b2 := 999 / 1000; ad_eps := / 100000000; ad_eps_root := 0; ad_schedule := decaying |};
       oc_sgd := {| sg_momentum := 0; sg_nesterov := false; sg_schedule := decaying |};
       oc_sr := {| sr_damping := 1; sr_maxiter := 10; sr_descent_type := "sgd"; sr_norm_constraint := 1 / 1000; sr_mode_name := "lazy"; sr_schedule := decaying |};
       oc_spring := {| sp_mu := 99 / 100; sp_momentum := 0; sp_damping := 1 / 1000; sp_constrain_norm := true; sp_norm_constraint := 1 / 1000; sp_schedule := decaying |} |}.
End Example_configuration.
Example C74_accepted_example :
  (exists o, choose_optimiser (default_optimizer "spring") = Chosen o) /\ (exists o, choose_optimiser (default_optimizer "sr") = Chosen o) /\
  choose_optimiser (default_optimizer "lbfgs") = Error KeyError.
Proof. split; [eexists; reflexivity|]. split; [eexists; reflexivity|reflexivity]. Qed.

(** The documented exception for an unsupported optimiser is ValueError; the code never raises it for the type. *)
Theorem C74_unsupported_type_refuted : ~ (forall c, ~ In (oc_type c) section_names -> choose_optimiser c = Error ValueError).
Proof. intros H. specialize (H (default_optimizer "lbfgs")). cbn in H. assert (K := H ltac:(cbn; intuition discriminate)). discriminate K. Qed.
Print Assumptions C74_unsupported_type_refuted.

(** SGD: the parameters after any history of gradients. *)
Theorem C74_sgd : forall np c inputs p0, oc_type c = "sgd"%string -> known_schedule (sg_schedule (oc_sgd c)) ->
  let m := sg_momentum (oc_sgd c) in let lr := rate (sg_schedule (oc_sgd c)) in
  exists p s, optimise np c inputs p0 = inl (Stepped p s) /\ forall k,
    p k = p0 k - Rsum (length inputs) (fun t => lr t *
      (if sg_nesterov (oc_sgd c) then grad_at inputs t k + m * discounted m t (fun s => grad_at inputs s k) else discounted m t (fun s => grad_at inputs s k))) /\
    (m = 0 -> p k = p0 k - Rsum (length inputs) (fun t => lr t * grad_at inputs t k)).
Proof.
  intros np c inputs p0 Ty K m lr. unfold optimise, choose_optimiser. rewrite Ty. cbn [section_schedule String.eqb Ascii.eqb Bool.eqb].
  destruct (schedule_rate _ K) as (f & Ef & Hf). rewrite Ef. cbn [init_state].
  destruct (sgd_run np (oc_sgd c) f p0 inputs) as (p & s & E & _ & Ep & _). rewrite E. exists p, s. split; [reflexivity|].
  intros k. assert (P1 : p k = p0 k - Rsum (length inputs) (fun t => lr t *
      (if sg_nesterov (oc_sgd c) then grad_at inputs t k + m * discounted m t (fun s => grad_at inputs s k) else discounted m t (fun s => grad_at inputs s k)))).
  { rewrite Ep. f_equal. apply Rsum_ext. intros t _. rewrite Hf. reflexivity. }
  split; [exact P1|]. intros Z. rewrite P1. f_equal. apply Rsum_ext. intros t _. f_equal.
  assert (D : forall f, discounted m t f = f t) by (intros h; rewrite Z; destruct t; [apply discounted_0|rewrite discounted_S; ring]).
  rewrite D, Z. destruct (sg_nesterov (oc_sgd c)); ring.
Qed.
Print Assumptions C74_sgd.

(** Adam: bias-corrected moments are weighted averages of all gradients so far (weights decaying by b1 and b2). *)
Theorem C74_adam : forall np c inputs p0, oc_type c = "adam"%string -> known_schedule (ad_schedule (oc_adam c)) ->
  let a := oc_adam c in 0 <= ad_b1 a < 1 -> 0 <= ad_b2 a < 1 ->
  exists p s, optimise np c inputs p0 = inl (Stepped p s) /\ forall k,
    p k = p0 k - Rsum (length inputs) (fun t => rate (ad_schedule a) t *
      (discounted_mean (ad_b1 a) t (fun s => grad_at inputs s k) /
       (sqrt (discounted_mean (ad_b2 a) t (fun s => grad_at inputs s k ^ 2) + ad_eps_root a) + ad_eps a))).
Proof.
  intros np c inputs p0 Ty K a H1 H2. unfold optimise, choose_optimiser. rewrite Ty. cbn [section_schedule String.eqb Ascii.eqb Bool.eqb].
  destruct (schedule_rate _ K) as (f & Ef & Hf). rewrite Ef. cbn [init_state].
  destruct (adam_run np (oc_adam c) f p0 H1 H2 inputs) as (p & s & E & _ & Ep & _). rewrite E. exists p, s. split; [reflexivity|].
  intros k. rewrite Ep. f_equal. apply Rsum_ext. intros t _. rewrite Hf. reflexivity.
Qed.
Print Assumptions C74_adam.

(** Adam: whatever the gradients, an update moves a parameter by at most rate / sqrt (1 - b2). *)
Theorem C74_adam_bounded : forall np c inputs i p0 p s p' s', oc_type c = "adam"%string -> known_schedule (ad_schedule (oc_adam c)) ->
  let a := oc_adam c in 0 <= ad_b1 a <= ad_b2 a -> ad_b2 a < 1 -> 0 <= ad_eps_root a -> 0 < ad_eps a -> 0 <= rate (ad_schedule a) (length inputs) ->
  optimise np c inputs p0 = inl (Stepped p s) -> optimise np c (inputs ++ [i]) p0 = inl (Stepped p' s') ->
  forall k, Rabs (p' k - p k) <= rate (ad_schedule a) (length inputs) / sqrt (1 - ad_b2 a).
Proof.
  intros np c inputs i p0 p s p' s' Ty K a Hb H2 Hr He Hl E E' k.
  destruct (C74_adam np c inputs p0 Ty K ltac:(fold a; lra) ltac:(fold a; lra)) as (q & r & F & Q). rewrite F in E. inversion E; subst q r.
  destruct (C74_adam np c (inputs ++ [i]) p0 Ty K ltac:(fold a; lra) ltac:(fold a; lra)) as (q & r & F' & Q'). rewrite F' in E'. inversion E'; subst q r.
  rewrite Q, Q'. rewrite app_length. cbn [length]. rewrite Nat.add_1_r. cbn [Rsum]. fold a.
  change (discounted_mean (ad_b1 a) (length inputs) (fun s => grad_at (inputs ++ [i]) s k) / (sqrt (discounted_mean (ad_b2 a) (length inputs) (fun s => grad_at (inputs ++ [i]) s k ^ 2) + ad_eps_root a) + ad_eps a))
    with (adam_direction a (fun s => grad_at (inputs ++ [i]) s k) (length inputs)).
  rewrite (Rsum_ext (length inputs) (fun t => rate (ad_schedule a) t * (discounted_mean (ad_b1 a) t (fun s => grad_at (inputs ++ [i]) s k) /
       (sqrt (discounted_mean (ad_b2 a) t (fun s => grad_at (inputs ++ [i]) s k ^ 2) + ad_eps_root a) + ad_eps a)))
     (fun t => rate (ad_schedule a) t * (discounted_mean (ad_b1 a) t (fun s => grad_at inputs s k) /
       (sqrt (discounted_mean (ad_b2 a) t (fun s => grad_at inputs s k ^ 2) + ad_eps_root a) + ad_eps a)))).
  - match goal with |- Rabs ?x <= _ => replace x with (- (rate (ad_schedule a) (length inputs) * adam_direction a (fun s => grad_at (inputs ++ [i]) s k) (length inputs))) by ring end.
    rewrite Rabs_Ropp, Rabs_mult, (Rabs_right _ (Rle_ge _ _ Hl)). apply Rmult_le_compat_l; [exact Hl|]. apply adam_direction_bound; assumption.
  - intros t Ht. f_equal. unfold discounted_mean. f_equal; [f_equal; apply discounted_ext; intros; apply grad_at_app_l; lia|].
    f_equal. f_equal. f_equal. f_equal. apply discounted_ext. intros. rewrite grad_at_app_l by lia. reflexivity.
Qed.
Print Assumptions C74_adam_bounded.

Example C74_adam_example : forall i, exists p s, optimise 1 (default_optimizer "adam") [i; i] (fun _ => 0) = inl (Stepped p s) /\ Rabs (p 0%nat) <= 1 / 10 / sqrt (1 / 1000).
Proof.
  intros i.
  assert (K : known_schedule (ad_schedule (oc_adam (default_optimizer "adam")))) by (right; reflexivity).
  destruct (C74_adam 1 (default_optimizer "adam") [i] (fun _ => 0) eq_refl K ltac:(cbn; lra) ltac:(cbn; lra)) as (p1 & s1 & E1 & _).
  destruct (C74_adam 1 (default_optimizer "adam") [i; i] (fun _ => 0) eq_refl K ltac:(cbn; lra) ltac:(cbn; lra)) as (p & s & E & _).
  assert (E0 : optimise 1 (default_optimizer "adam") [] (fun _ => 0) = inl (Stepped (fun _ => 0) (optax_init (Adam (9/10) (999/1000) (/ 100000000) 0)))) by reflexivity.
  exists p, s. split; [exact E|].
  pose proof (C74_adam_bounded 1 (default_optimizer "adam") [] i _ _ _ _ _ eq_refl K ltac:(cbn; lra) ltac:(cbn; lra) ltac:(cbn; lra) ltac:(cbn; lra) ltac:(cbn; lra) E0 E1 0%nat) as B1.
  pose proof (C74_adam_bounded 1 (default_optimizer "adam") [i] i _ _ _ _ _ eq_refl K ltac:(cbn; lra) ltac:(cbn; lra) ltac:(cbn; lra) ltac:(cbn; lra) ltac:(unfold rate; cbn; apply Rmult_le_pos; [lra|left; apply Rinv_0_lt_compat; lra]) E1 E 0%nat) as B2.
  unfold rate in B1, B2. cbn [sc_type sc_rate sc_decay ad_schedule ad_b2 oc_adam default_optimizer decaying length INR String.eqb Ascii.eqb Bool.eqb] in B1, B2.
  replace (1 - 999 / 1000) with (1 / 1000) in B1, B2 by lra.
  assert (S0 : 0 < / sqrt (1 / 1000)) by (apply Rinv_0_lt_compat, sqrt_lt_R0; lra).
  assert (R1 : 1 / 20 / (1 + 1 / 10000 * 0) = 1 / 20) by field. assert (R2 : 1 / 20 / (1 + 1 / 10000 * 1) <= 1 / 20).
  { lra. }
  rewrite R1 in B1. rewrite Rminus_0_r in B1.
  assert (T : Rabs (p 0%nat) <= Rabs (p 0%nat - p1 0%nat) + Rabs (p1 0%nat)) by (replace (p 0%nat) with ((p 0%nat - p1 0%nat) + p1 0%nat) at 1 by ring; apply Rabs_triang).
  set (q := / sqrt (1 / 1000)) in *. unfold Rdiv at 1 in B1. unfold Rdiv at 1 in B2. unfold Rdiv at 1. fold q in B1, B2 |- *.
  assert (1 / 20 / (1 + 1 / 10000 * 1) * q <= 1 / 20 * q) by (apply Rmult_le_compat_r; lra). lra.
Qed.

(** Stochastic reconfiguration with plain gradient descent: the change of an update is along minus the preconditioned gradient, at
    the learning rate of the section "sr" (not of "sgd"), shortened so that it respects the norm constraint. *)
Theorem C74_sr : forall np c inputs i p0 p s mode, oc_type c = "sr"%string -> known_schedule (sr_schedule (oc_sr c)) ->
  sr_descent_type (oc_sr c) = "sgd"%string -> sg_momentum (oc_sgd c) = 0 ->
  (upper_case (sr_mode_name (oc_sr c)) = "LAZY"%string /\ mode = LAZY \/ upper_case (sr_mode_name (oc_sr c)) = "DEBUG"%string /\ mode = DEBUG) ->
  0 < sr_norm_constraint (oc_sr c) -> in_dlogs i <> [] ->
  let maxiter := if Z.leb 0 (sr_maxiter (oc_sr c)) then Some (Z.to_nat (sr_maxiter (oc_sr c))) else None in
  let d := precondition_grad_with_fisher mode np (sr_damping (oc_sr c)) maxiter (in_dlogs i) (in_grad i) in
  let lr := rate (sr_schedule (oc_sr c)) (length inputs) in
  let dg := Rsum np (fun k => d k * in_grad i k) in
  0 <= dg -> optimise np c inputs p0 = inl (Stepped p s) ->
  exists t p' s', 0 < t <= 1 /\ optimise np c (inputs ++ [i]) p0 = inl (Stepped p' s') /\ (forall k, p' k = p k - lr * t * d k) /\
    (lr * t) ^ 2 * dg <= sr_norm_constraint (oc_sr c) /\ (lr ^ 2 * dg <= sr_norm_constraint (oc_sr c) -> t = 1).
Proof.
  intros np c inputs i p0 p s mode Ty K Dt M0 Hmode Hc Hs maxiter d lr dg Hd E.
  destruct (schedule_rate _ K) as (f & Ef & Hf).
  assert (Eo : exists o, choose_optimiser c = Chosen o /\ o = SR mode (sr_damping (oc_sr c)) maxiter (sr_norm_constraint (oc_sr c)) (Sgd None (sg_nesterov (oc_sgd c))) f).
  { unfold choose_optimiser. rewrite Ty. cbn [section_schedule String.eqb Ascii.eqb Bool.eqb]. rewrite Ef. unfold get_sr. rewrite Dt.
    cbn [section_schedule String.eqb Ascii.eqb Bool.eqb]. fold maxiter. unfold sgd_transform. destruct (Req_EM_T (sg_momentum (oc_sgd c)) 0) as [_|N]; [|contradiction].
    destruct Hmode as [[Em Em']|[Em Em']]; rewrite Em, Em'; eexists; split; reflexivity. }
  destruct Eo as (o & Eo & ->). unfold optimise in *. rewrite Eo in *. cbn [init_state] in *. injection E as E.
  set (o := SR mode (sr_damping (oc_sr c)) maxiter (sr_norm_constraint (oc_sr c)) (Sgd None (sg_nesterov (oc_sgd c))) f) in *.
  assert (G := run_good np o _ p0 inputs eq_refl). cbn [init_state] in G.
  change (match init_state o with Some s0 => s0 | None => s end) with (optax_init (Sgd None (sg_nesterov (oc_sgd c)))) in *.
  rewrite E in G. cbn in G. destruct G as [Gc Gf]. destruct (os_first s) as [| |] eqn:Q; try contradiction Gf.
  destruct (sr_plain_step np mode (sr_damping (oc_sr c)) maxiter (sr_norm_constraint (oc_sr c)) (sg_nesterov (oc_sgd c)) f i p s Hc Hs Q Hd) as (t & s' & Ht & Es & H1 & H2).
  fold o d in Es. exists t. eexists _, s'. split; [exact Ht|]. split.
  - rewrite updates_app, E. cbn [updates_from fold_left next]. rewrite Es. reflexivity.
  - fold d in H1, H2. rewrite Gc, Hf in *. fold lr in H1, H2 |- *. change (inner np d (in_grad i)) with dg in *. split; [intros; ring|].
    split; [replace ((lr * t) ^ 2 * dg) with (t ^ 2 * (dg * lr ^ 2)) by ring; exact H1|]. intros L. apply H2. rewrite Rmult_comm. exact L.
Qed.
Print Assumptions C74_sr.

(** If the preconditioned gradient solves the damped Fisher system, the whole change stays inside the trust region, and
    it does not increase the linearised energy. *)
Theorem C74_sr_trust_region : forall np c inputs i p0 p s mode, oc_type c = "sr"%string -> known_schedule (sr_schedule (oc_sr c)) ->
  sr_descent_type (oc_sr c) = "sgd"%string -> sg_momentum (oc_sgd c) = 0 ->
  (upper_case (sr_mode_name (oc_sr c)) = "LAZY"%string /\ mode = LAZY \/ upper_case (sr_mode_name (oc_sr c)) = "DEBUG"%string /\ mode = DEBUG) ->
  0 < sr_norm_constraint (oc_sr c) -> 0 < sr_damping (oc_sr c) -> in_dlogs i <> [] ->
  let maxiter := if Z.leb 0 (sr_maxiter (oc_sr c)) then Some (Z.to_nat (sr_maxiter (oc_sr c))) else None in
  let d := precondition_grad_with_fisher mode np (sr_damping (oc_sr c)) maxiter (in_dlogs i) (in_grad i) in
  let F := fisher np (sr_damping (oc_sr c)) (concat (in_dlogs i)) in
  agree np (F d) (in_grad i) -> 0 <= rate (sr_schedule (oc_sr c)) (length inputs) -> optimise np c inputs p0 = inl (Stepped p s) ->
  exists p' s', optimise np c (inputs ++ [i]) p0 = inl (Stepped p' s') /\
    let change k := p' k - p k in
    Rsum np (fun k => change k * F change k) <= sr_norm_constraint (oc_sr c) /\ Rsum np (fun k => in_grad i k * change k) <= 0.
Proof.
  intros np c inputs i p0 p s mode Ty K Dt M0 Hmode Hc Hdamp Hs maxiter d F Hx Hl E.
  assert (Pos : 0 <= inner np d (in_grad i)).
  { pose proof (fisher_lower np (sr_damping (oc_sr c)) (concat (in_dlogs i)) d) as L. fold F in L.
    rewrite (inner_ext np d d (F d) (in_grad i) ltac:(intros k _; reflexivity) Hx) in L. pose proof (inner_nonneg np d). nra. }
  destruct (C74_sr np c inputs i p0 p s mode Ty K Dt M0 Hmode Hc Hs Pos E) as (t & p' & s' & Ht & E' & Ep & H1 & _).
  set (lr := rate (sr_schedule (oc_sr c)) (length inputs)) in *. assert (Ep' : forall k, p' k = p k - lr * t * d k) by exact Ep. exists p', s'. split; [exact E'|]. cbv zeta.
  assert (Ec : forall k, p' k - p k = - (lr * t) * d k) by (intros; rewrite Ep'; ring). split.
  - eapply Rle_trans; [right|exact H1]. transitivity (inner np (fun k => - (lr * t) * d k) (fun k => - (lr * t) * in_grad i k)).
    + apply inner_ext; intros k Hk; [apply Ec|]. unfold F. rewrite fisher_matvec by exact Hk.
      rewrite (matvec_ext np _ _ (fun k => - (lr * t) * d k)) by (intros j _; apply Ec). rewrite matvec_scal, <- fisher_matvec by exact Hk. fold F. rewrite Hx by exact Hk. reflexivity.
    + rewrite inner_scaled. transitivity ((lr * t) ^ 2 * inner np d (in_grad i)); [ring|reflexivity].
  - rewrite (Rsum_ext np _ (fun k => - (lr * t) * (d k * in_grad i k))) by (intros; rewrite Ec; ring). rewrite Rsum_scal.
    change (Rsum np (fun k => d k * in_grad i k)) with (inner np d (in_grad i)).
    assert (0 <= lr * t) by (apply Rmult_le_pos; lra). nra.
Qed.
Print Assumptions C74_sr_trust_region.

(** A one-parameter problem whose walkers give no curvature: with damping 1 the damped Fisher matrix is the identity. *)
Definition flat (g : R) : seen := {| in_grad := fun _ => g; in_dlogs := [[fun _ => 0]]; in_energies := fun _ => 0 |}.
Lemma flat_direction g maxiter : precondition_grad_with_fisher LAZY 1 1 maxiter (in_dlogs (flat g)) (in_grad (flat g)) = (fun _ => g).
Proof.
  unfold precondition_grad_with_fisher, cg. set (A := lazy_fisher_apply 1 1 _).
  assert (EA : forall x k, A x k = x k).
  { intros x k. unfold A, lazy_fisher_apply, mean_over_walkers, lmean, inner. cbn. field. }
  set (s0 := cg_init _ _ _ _). assert (G : cg_gamma s0 = 0) by (unfold s0, cg_init, inner; cbn [cg_gamma Rsum]; rewrite EA; ring).
  destruct (match maxiter with Some m => m | None => _ end) as [|n]; cbn [cg_loop]; [reflexivity|].
  destruct (Rlt_dec _ (cg_gamma s0)) as [L|L]; [|reflexivity].
  exfalso. rewrite G in L. unfold cg_tol2, inner in L. cbn [Rsum in_grad flat] in L. pose proof (pow2_ge_0 (/ 100000)). nra.
Qed.
Lemma flat_fisher g x k : fisher 1 1 (concat (in_dlogs (flat g))) x k = x k.
Proof. unfold fisher, covariance, avg_list. cbn. field. Qed.

(** A configuration of stochastic reconfiguration: damping 1, norm constraint 1, constant learning rate [lr]. *)
Definition sr_config (lr : R) (descent_type : string) (momentum : R) : opt_cfg :=
  let sched := {| sc_type := "constant"; sc_rate := lr; sc_decay := 0 |} in
  {| oc_type := "sr"; oc_kfac_schedule := decaying; oc_kfac_damping := 1;
     oc_adam := {| ad_b1 := 9 / 10; ad_b2 := 999 / 1000; ad_eps := / 100000000; ad_eps_root := 0; ad_schedule := decaying |};
     oc_sgd := {| sg_momentum := momentum; sg_nesterov := false; sg_schedule := decaying |};
     oc_sr := {| sr_damping := 1; sr_maxiter := 10; sr_descent_type := descent_type; sr_norm_constraint := 1; sr_mode_name := "Lazy"; sr_schedule := sched |};
     oc_spring := oc_spring (default_optimizer "sr") |}.
Lemma coefficient_value c q x : 0 < c -> 0 < q -> 0 < x <= 1 -> c < q \/ x = 1 -> x ^ 2 * q = c -> norm_coefficient c q = Fin x.
Proof.
  intros Hc Hq Hx Hlt Ex. destruct (coefficient_ok c q Hc ltac:(lra)) as (t & E & Ht & H1 & H2 & H3). rewrite E. f_equal.
  destruct Hlt as [L|L].
  - specialize (H3 L). assert (t ^ 2 = x ^ 2) by (apply (Rmult_eq_reg_r q); lra). nra.
  - rewrite L. apply H2. nra.
Qed.

Example C74_sr_example : exists p s, optimise 1 (sr_config (1 / 2) "sgd" 0) [flat 1; flat 1] (fun _ => 0) = inl (Stepped p s) /\ p 0%nat = -1.
Proof.
  assert (K : known_schedule (sr_schedule (oc_sr (sr_config (1 / 2) "sgd" 0)))) by (left; reflexivity).
  assert (Hm : upper_case (sr_mode_name (oc_sr (sr_config (1 / 2) "sgd" 0))) = "LAZY"%string /\ LAZY = LAZY \/ upper_case (sr_mode_name (oc_sr (sr_config (1 / 2) "sgd" 0))) = "DEBUG"%string /\ LAZY = DEBUG) by (left; split; reflexivity).
  pose proof (C74_sr 1 (sr_config (1 / 2) "sgd" 0) [] (flat 1) (fun _ => 0) (fun _ => 0) (optax_init (Sgd None false)) LAZY eq_refl K eq_refl eq_refl Hm ltac:(cbn; lra) ltac:(discriminate)) as S1.
  cbv zeta in S1. cbn [sr_maxiter sr_damping oc_sr sr_config] in S1. rewrite flat_direction in S1.
  destruct S1 as (t & p & s & _ & E & Ep & _ & T1); [cbn; lra| |].
  { unfold optimise, choose_optimiser, get_sr, sgd_transform. cbn. destruct (Req_EM_T 0 0) as [_|N]; [reflexivity|elim N; reflexivity]. }
  pose proof (C74_sr 1 (sr_config (1 / 2) "sgd" 0) [flat 1] (flat 1) (fun _ => 0) p s LAZY eq_refl K eq_refl eq_refl Hm ltac:(cbn; lra) ltac:(discriminate)) as S2.
  cbv zeta in S2. cbn [sr_maxiter sr_damping oc_sr sr_config] in S2. rewrite flat_direction in S2.
  destruct S2 as (t' & p' & s' & _ & E' & Ep' & _ & T2); [cbn; lra|exact E|].
  exists p', s'. split; [exact E'|]. rewrite Ep', Ep. rewrite T1, T2; unfold rate; cbn; lra.
Qed.

(** FALSE with momentum: the second of two equal updates leaves the trust region. *)
Theorem C74_sr_momentum_refuted : ~ (forall np c inputs i p0 p s p' s', oc_type c = "sr"%string -> sr_descent_type (oc_sr c) = "sgd"%string ->
  0 < sr_norm_constraint (oc_sr c) -> 0 < sr_damping (oc_sr c) ->
  optimise np c inputs p0 = inl (Stepped p s) -> optimise np c (inputs ++ [i]) p0 = inl (Stepped p' s') ->
  let F := fisher np (sr_damping (oc_sr c)) (concat (in_dlogs i)) in
  Rsum np (fun k => (p' k - p k) * F (fun k => p' k - p k) k) <= sr_norm_constraint (oc_sr c)).
Proof.
  intros H. specialize (H 1%nat (sr_config 1 "sgd" (1 / 2)) [flat 1] (flat 1) (fun _ => 0)). cbn [app] in H.
  assert (Q : norm_coefficient 1 (lmean (repeat (inner 1 (fun _ => 1) (in_grad (flat 1)) * 1 ^ 2) (length (in_dlogs (flat 1))))) = Fin 1).
  { apply coefficient_value; unfold lmean, inner; cbn; lra. }
  assert (E : forall inputs, optimise 1 (sr_config 1 "sgd" (1 / 2)) inputs (fun _ => 0) =
    inl (updates_from 1 (SR LAZY 1 (Some 10%nat) 1 (Sgd (Some (1 / 2)) false) (fun _ => 1)) inputs (Stepped (fun _ => 0) (optax_init (Sgd (Some (1 / 2)) false))))).
  { intros inputs. unfold optimise, choose_optimiser, get_sr, sgd_transform. cbn [oc_type oc_sgd oc_sr sr_config section_schedule sr_schedule sc_type sc_rate sc_decay
      learning_rate_schedule String.eqb Ascii.eqb Bool.eqb sr_descent_type sr_mode_name sr_maxiter sr_damping sr_norm_constraint sg_momentum sg_nesterov].
    destruct (Req_EM_T (1 / 2) 0); [lra|]. reflexivity. }
  rewrite !E in H. cbn [updates_from fold_left next optimiser_apply] in H. rewrite flat_direction, Q in H. cbn [optax_update transform_update os_first os_count optax_init next optimiser_apply] in H.
  rewrite flat_direction, Q in H. cbn [optax_update transform_update os_first os_count] in H.
  specialize (H _ _ _ _ eq_refl eq_refl ltac:(cbn; lra) ltac:(cbn; lra) eq_refl eq_refl). cbv zeta in H. cbn [oc_sr sr_config sr_damping sr_norm_constraint Rsum] in H.
  rewrite flat_fisher in H. unfold apply_updates in H. lra.
Qed.
Print Assumptions C74_sr_momentum_refuted.

(** FALSE with Adam as descent: already the first update can leave the trust region by any factor. *)
Theorem C74_sr_adam_refuted : ~ (forall np c i p0 p' s', oc_type c = "sr"%string -> sr_descent_type (oc_sr c) = "adam"%string ->
  0 < sr_norm_constraint (oc_sr c) -> 0 < sr_damping (oc_sr c) -> optimise np c [i] p0 = inl (Stepped p' s') ->
  let F := fisher np (sr_damping (oc_sr c)) (concat (in_dlogs i)) in
  Rsum np (fun k => (p' k - p0 k) * F (fun k => p' k - p0 k) k) <= sr_norm_constraint (oc_sr c)).
Proof.
  intros H. specialize (H 1%nat (sr_config 10 "adam" 0) (flat 1) (fun _ => 0)).
  assert (Q : norm_coefficient 1 (lmean (repeat (inner 1 (fun _ => 1) (in_grad (flat 1)) * 10 ^ 2) (length (in_dlogs (flat 1))))) = Fin (1 / 10)).
  { apply coefficient_value; unfold lmean, inner; cbn; lra. }
  assert (E : optimise 1 (sr_config 10 "adam" 0) [flat 1] (fun _ => 0) =
    inl (optimiser_apply 1 (SR LAZY 1 (Some 10%nat) 1 (Adam (9 / 10) (999 / 1000) (/ 100000000) 0) (fun _ => 10)) (flat 1) (fun _ => 0) (optax_init (Adam (9 / 10) (999 / 1000) (/ 100000000) 0)))) by reflexivity.
  rewrite E in H. cbn [optimiser_apply] in H. rewrite flat_direction, Q in H. cbn [optax_update transform_update os_first os_count optax_init] in H.
  specialize (H _ _ eq_refl eq_refl ltac:(cbn; lra) ltac:(cbn; lra) eq_refl). cbv zeta in H. cbn [oc_sr sr_config sr_damping sr_norm_constraint Rsum] in H.
  rewrite flat_fisher in H. unfold apply_updates in H.
  replace ((999 / 1000 * 0 + (1 - 999 / 1000) * (1 / 10 * 1) ^ 2) / (1 - (999 / 1000) ^ 1) + 0) with ((1 / 10) * (1 / 10)) in H by field.
  rewrite sqrt_square in H by lra. replace ((9 / 10 * 0 + (1 - 9 / 10) * (1 / 10 * 1)) / (1 - (9 / 10) ^ 1)) with (1 / 10) in H by field.
  set (x := 1 / 10 / (1 / 10 + / 100000000)) in H. assert (X : 9 / 10 <= x) by (unfold x; lra). nra.
Qed.
Print Assumptions C74_sr_adam_refuted.

(** SPRING on one device with the norm constraint: every update follows the direction of C56, with the previous (unshortened)
    direction remembered; the squared norm of the parameter change never exceeds the constraint; no update yields NaN. *)
Theorem C74_spring : forall np c, oc_type c = "spring"%string -> known_schedule (sp_schedule (oc_spring c)) ->
  let s := oc_spring c in sp_constrain_norm s = true -> 0 < sp_norm_constraint s ->
  forall inputs p0, exists p st prev, optimise np c inputs p0 = inl (Stepped p st) /\ os_first st = TraceState prev /\ os_count st = length inputs /\
  (inputs = [] -> forall k, prev k = 0) /\
  forall i, let w := hd [] (in_dlogs i) in
  let d := spring_update (length w) np (sp_damping s) (sp_mu s) (sp_momentum s) (fun j => nth j w (fun _ => 0)) (in_energies i) prev in
  let lr := rate (sp_schedule s) (length inputs) in
  exists t p' st' prev', 0 < t <= 1 /\ optimise np c (inputs ++ [i]) p0 = inl (Stepped p' st') /\ os_first st' = TraceState prev' /\ (forall k, prev' k = d k) /\
    (forall k, p' k = p k - lr * t * d k) /\ sq_norm np (fun k => p' k - p k) <= sp_norm_constraint s /\
    (sq_norm np (fun k => lr * d k) <= sp_norm_constraint s -> t = 1).
Proof.
  intros np c Ty K s Hn Hc. destruct (schedule_rate _ K) as (f & Ef & Hf). set (o := Spring (sp_damping s) (sp_mu s) (sp_momentum s) (Some (sp_norm_constraint s)) f).
  assert (Eo : choose_optimiser c = Chosen o).
  { unfold choose_optimiser. rewrite Ty. cbn [section_schedule String.eqb Ascii.eqb Bool.eqb]. rewrite Ef. fold s. rewrite Hn. reflexivity. }
  assert (R : forall inputs p0, optimise np c inputs p0 = inl (updates_from np o inputs (Stepped p0 (optax_init (Sgd (Some 0) false))))).
  { intros. unfold optimise. rewrite Eo. reflexivity. }
  assert (St : forall inputs p0, exists p st prev, updates_from np o inputs (Stepped p0 (optax_init (Sgd (Some 0) false))) = Stepped p st /\ os_first st = TraceState prev /\ (inputs = [] -> forall k, prev k = 0)).
  { intros inputs p0. induction inputs as [|i inputs IH] using rev_ind; [eexists _, _, _; repeat split|].
    destruct IH as (p & st & prev & E & Q & _).
    destruct (spring_config_step np (sp_damping s) (sp_mu s) (sp_momentum s) (sp_norm_constraint s) f i p st prev Hc Q) as (t & st' & tr & _ & Es & Q' & _).
    fold o in Es. rewrite updates_app, E. cbn [updates_from fold_left next]. rewrite Es. eexists _, _, _. split; [reflexivity|]. split; [exact Q'|].
    intros N. destruct inputs; discriminate N. }
  intros inputs p0. destruct (St inputs p0) as (p & st & prev & E & Q & Z). exists p, st, prev. rewrite R, E. split; [reflexivity|]. split; [exact Q|].
  assert (C : os_count st = length inputs).
  { pose proof (run_good np o _ p0 inputs eq_refl) as G. cbn [init_state o] in G. change (optax_init (Sgd (Some 0) false)) with (optax_init (Sgd (Some 0) false)) in G. rewrite E in G. apply G. }
  split; [exact C|]. split; [exact Z|]. intros i w d lr.
  destruct (spring_config_step np (sp_damping s) (sp_mu s) (sp_momentum s) (sp_norm_constraint s) f i p st prev Hc Q) as (t & st' & tr & Ht & Es & Q' & Etr & H1 & H2).
  fold o w in Es. fold w d in Es, Etr, H1, H2. rewrite C, Hf in Es, H1, H2. fold s lr in Es, H1, H2.
  eexists t, _, st', tr. split; [exact Ht|]. split; [rewrite R, updates_app, E; cbn [updates_from fold_left next]; rewrite Es; reflexivity|].
  split; [exact Q'|]. split; [exact Etr|]. split; [intros; ring|]. split; [|exact H2].
  eapply Rle_trans; [right|exact H1]. unfold sq_norm. apply Rsum_ext. intros k _. f_equal. ring.
Qed.
Print Assumptions C74_spring.

Example C74_spring_example : known_schedule (sp_schedule (oc_spring (default_optimizer "spring"))) /\
  sp_constrain_norm (oc_spring (default_optimizer "spring")) = true /\ 0 < sp_norm_constraint (oc_spring (default_optimizer "spring")).
Proof. split; [right; reflexivity|]. split; [reflexivity|cbn; lra]. Qed.

(** Every accepted configuration other than KFAC keeps a state its own update accepts, whatever is seen; its count is the number of
    updates done, so stopping and continuing with the saved state gives the same run and goes on with the schedule. *)
Theorem C74_resume : forall np c inputs p0, (exists o, choose_optimiser c = Chosen o) -> oc_type c <> "kfac"%string ->
  optimise np c inputs p0 <> inl WrongState /\
  (forall p s, optimise np c inputs p0 = inl (Stepped p s) -> os_count s = length inputs /\
     forall o more, choose_optimiser c = Chosen o -> optimise np c (inputs ++ more) p0 = inl (updates_from np o more (Stepped p s))).
Proof.
  intros np c inputs p0 [o Eo] Nk. unfold optimise. rewrite Eo.
  assert (I0 : exists s0, init_state o = Some s0).
  { destruct o; cbn; try (eexists; reflexivity). exfalso. unfold choose_optimiser in Eo.
    destruct (section_schedule c (oc_type c)) as [sc|]; [|discriminate]. destruct (learning_rate_schedule _ _ _); [|discriminate].
    rewrite (proj2 (String.eqb_neq _ _) Nk) in Eo. destruct (String.eqb (oc_type c) "sgd"); [discriminate|]. destruct (String.eqb (oc_type c) "adam"); [discriminate|].
    destruct (String.eqb (oc_type c) "sr").
    - unfold get_sr in Eo. destruct (section_schedule c _); [|discriminate]. destruct (sr_mode_of _); [|discriminate].
      destruct (String.eqb _ "adam"); [discriminate|]. destruct (String.eqb _ "sgd"); discriminate.
    - destruct (String.eqb (oc_type c) "spring"); discriminate. }
  destruct I0 as [s0 I0]. rewrite I0. pose proof (run_good np o s0 p0 inputs I0) as G. split.
  - intros E. injection E as E. rewrite E in G. exact G.
  - intros p s E. injection E as E. rewrite E in G. split; [apply G|]. intros o' more E'. injection E' as <-. rewrite updates_app, E. reflexivity.
Qed.
Print Assumptions C74_resume.

(** * C18 on continuous positions *)
From Coq Require Import Reals List Bool Arith Lra Lia.
From Coquelicot Require Import Coquelicot.
From Verif Require Import XReal Rsum M_mcmc S_mcmc S_density P_mcmc P_balance P_fubini.
Import ListNotations.
Local Open Scope R_scope.

Lemma stationary_density {X} (integral : (X -> R) -> R) q a w : (forall x y, q x y = q y x) -> (forall x y, w x * a x y = w y * a y x) ->
  (forall y c, integral (fun x => c * (q y x * a y x)) = c * integral (fun x => q y x * a y x)) ->
  (forall f g, (forall x, f x = g x) -> integral f = integral g) ->
  forall steps y, density_after integral q a steps w y = w y.
Proof.
  intros Q B H E steps. induction steps as [|k IH]; intros y; [reflexivity|]. cbn [density_after]. unfold step_density.
  rewrite IH. rewrite (E _ (fun x => w y * (q y x * a y x))).
  - rewrite H. ring.
  - intros x. rewrite IH, Q. rewrite <- Rmult_assoc, (Rmult_comm (w x)), Rmult_assoc, B. ring.
Qed.

(** |psi|^2 is unchanged by any number of steps, pointwise, for positions of any kind and any symmetric proposal density.  [integral] may be
    any integral that gives the same value for equal functions and in which a constant factor can be taken out of the rejection integral. *)
Theorem C18_stationary_density_plain : forall (X : Type) (integral : (X -> R) -> R) q (psi : X -> R) a,
  (forall x y, q x y = q y x) ->
  (forall x y, yes_probability (fun u => accepts u (accept_plain (Fin (psi x)) (Fin (psi y)))) (a x y)) ->
  (forall f g, (forall x, f x = g x) -> integral f = integral g) ->
  (forall y c, integral (fun x => c * (q y x * a y x)) = c * integral (fun x => q y x * a y x)) ->
  forall steps y, density_after integral q a steps (fun x => psi x ^ 2) y = psi y ^ 2.
Proof.
  intros X I q psi a Q A E H. apply (stationary_density I q a (fun x => psi x ^ 2)); try assumption. intros x y.
  rewrite (yes_probability_unique _ _ _ (A x y) (accepts_probability _)), (yes_probability_unique _ _ _ (A y x) (accepts_probability _)).
  rewrite <- !Rsqr_pow2. apply balance_plain.
Qed.
Print Assumptions C18_stationary_density_plain.
Theorem C18_stationary_density_log : forall (X : Type) (integral : (X -> R) -> R) q (logpsi : X -> xr) a,
  (forall x y, q x y = q y x) ->
  (forall x, (exists r, logpsi x = Fin r) \/ logpsi x = MInf) ->
  (forall x y, yes_probability (fun u => accepts u (accept_log (logpsi x) (logpsi y))) (a x y)) ->
  (forall f g, (forall x, f x = g x) -> integral f = integral g) ->
  (forall y c, integral (fun x => c * (q y x * a y x)) = c * integral (fun x => q y x * a y x)) ->
  let w x := match logpsi x with Fin r => (exp r) ^ 2 | _ => 0 end in
  forall steps y, density_after integral q a steps w y = w y.
Proof.
  intros X I q lp a Q L A E H w. apply (stationary_density I q a w); try assumption. intros x y.
  rewrite (yes_probability_unique _ _ _ (A x y) (accepts_probability _)), (yes_probability_unique _ _ _ (A y x) (accepts_probability _)).
  assert (W : forall i, w i = weight_log (lp i)) by (intros i; unfold w, weight_log; destruct (lp i); auto; rewrite exp2; ring).
  rewrite !W. apply balance_log; auto.
Qed.
Print Assumptions C18_stationary_density_log.

(** The proposals of the code: the move with width s along this noise leads from x to y, and its density is symmetric in x and y. *)
Theorem C18_gaussian_density : forall s x y, s <> 0 ->
  (length x = length y -> moved s x (noise s x y) = y) /\ proposal_density s x y = proposal_density s y x.
Proof.
  intros s x y Hs. split.
  - revert y. induction x as [|a x IH]; intros [|b y] L; try discriminate; [reflexivity|]. unfold moved, noise in *. cbn. f_equal; [field; exact Hs|]. apply IH. cbn in L. lia.
  - unfold proposal_density. assert (N : noise s y x = map Ropp (noise s x y)).
    { revert y. induction x as [|a x IH]; intros [|b y]; try reflexivity. unfold noise in *. cbn. f_equal; [field; exact Hs|]. apply IH. }
    rewrite N, map_length, normal_density_opp. reflexivity.
Qed.
Print Assumptions C18_gaussian_density.

(** ** One coordinate in an interval: everything with the Riemann integral *)
Lemma cont2_comp h g : (forall t, continuous h t) -> cont2 g -> cont2 (fun x y => h (g x y)).
Proof.
  intros Ch C x z. apply continuity_2d_pt_filterlim. apply (filterlim_comp _ _ _ (fun p : R * R => g (fst p) (snd p)) h _ (locally (g x z))); [apply continuity_2d_pt_filterlim, C|apply Ch].
Qed.
Lemma cont2_1 h : (forall t, continuous h t) -> cont2 (fun x _ => h x).
Proof. intros Ch. apply (cont2_comp h (fun x _ => x) Ch). intros x z. apply continuity_2d_pt_id1. Qed.
Lemma cont2_2 h : (forall t, continuous h t) -> cont2 (fun _ y => h y).
Proof. intros Ch. apply (cont2_comp h (fun _ y => y) Ch). intros x z. apply continuity_2d_pt_id2. Qed.
Lemma cont2_mult f g : cont2 f -> cont2 g -> cont2 (fun x y => f x y * g x y).
Proof. intros F G x z. apply continuity_2d_pt_mult; auto. Qed.
Lemma cont2_minus f g : cont2 f -> cont2 g -> cont2 (fun x y => f x y - g x y).
Proof. intros F G x z. apply continuity_2d_pt_minus; auto. Qed.
Lemma continuous_min1 t : continuous (fun t => Rmin 1 t) t.
Proof.
  apply (continuous_ext (fun t => (1 + t - Rabs (1 - t)) * / 2)).
  - intros u. unfold Rmin. destruct (Rle_dec 1 u); [rewrite Rabs_left1 by lra|rewrite Rabs_pos_eq by lra]; lra.
  - apply (continuous_mult (K := R_AbsRing)); [|apply continuous_const]. apply (continuous_minus (V := R_NormedModule)).
    + apply (continuous_plus (V := R_NormedModule)); [apply continuous_const|apply continuous_id].
    + apply (continuous_comp (fun t => 1 - t) Rabs); [|apply continuous_Rabs]. apply (continuous_minus (V := R_NormedModule)); [apply continuous_const|apply continuous_id].
Qed.
Lemma proposal1 s x y : s <> 0 -> proposal_density s [x] [y] = exp (- (((y - x) * / s) * ((y - x) * / s)) * / 2) * (/ sqrt (2 * PI) * / s).
Proof.
  intros H. unfold proposal_density, noise, normal_density. cbn. unfold Rdiv. assert (S : sqrt (2 * PI) <> 0) by (apply Rgt_not_eq, sqrt_lt_R0; pose proof PI_RGT_0; lra). field. split; assumption.
Qed.
Lemma proposal_cont2 s : s <> 0 -> cont2 (fun x y => proposal_density s [x] [y]).
Proof.
  intros H x z. apply (continuity_2d_pt_ext (fun x y => exp (- (((y - x) * / s) * ((y - x) * / s)) * / 2) * (/ sqrt (2 * PI) * / s))); [intros; rewrite proposal1 by exact H; reflexivity|].
  assert (C : cont2 (fun x y => (y - x) * / s)) by (apply cont2_mult; [apply cont2_minus; [apply cont2_2|apply cont2_1]; intros; apply continuous_id|intros u v; apply continuity_2d_pt_const]).
  revert x z. apply (cont2_mult _ (fun _ _ => / sqrt (2 * PI) * / s)); [|intros u v; apply continuity_2d_pt_const].
  apply (cont2_comp exp (fun x y => - (((y - x) * / s) * ((y - x) * / s)) * / 2)); [apply continuous_exp|].
  apply (cont2_mult _ (fun _ _ => / 2)); [|intros u v; apply continuity_2d_pt_const]. intros u v. apply continuity_2d_pt_opp. apply cont2_mult; exact C.
Qed.
Lemma ratio_continuous (psi : R -> R) y x : (forall t, continuous psi t) -> continuous (fun x => metropolis_ratio (psi y) (psi x)) x.
Proof.
  intros C. unfold metropolis_ratio. destruct (Req_EM_T (psi y) 0); [apply continuous_const|].
  apply (continuous_comp (fun x => (psi x / psi y) ^ 2) (Rmin 1)); [|apply continuous_min1].
  apply (continuous_ext (fun x => (psi x * / psi y) * (psi x * / psi y))); [intros t; change ((psi t * / psi y) * (psi t * / psi y) = (psi t * / psi y) ^ 2); set (v := psi t * / psi y); ring|].
  apply (continuous_mult (K := R_AbsRing)); apply (continuous_mult (K := R_AbsRing)); auto; apply continuous_const.
Qed.
Lemma ratio_of_yes psi (a : R -> R -> R) : (forall x y, yes_probability (fun u => accepts u (accept_plain (Fin (psi x)) (Fin (psi y)))) (a x y)) ->
  forall x y, a x y = metropolis_ratio (psi x) (psi y).
Proof. intros A x y. apply (yes_probability_unique _ _ _ (A x y)). rewrite accept_plain_ratio. split; [apply ratio_range|]. intros u Hu. apply Rltb_true. Qed.

(** A wavefunction on the interval [l, r] (zero outside, so moves that leave are never accepted), gaussian proposals of any width, any number
    of steps: |psi|^2 stays what it is, nodes included. *)
Theorem C18_stationary_interval : forall (psi : R -> R) a s l r, 0 < s -> (forall x, continuous psi x) ->
  (forall x y, yes_probability (fun u => accepts u (accept_plain (Fin (psi x)) (Fin (psi y)))) (a x y)) ->
  forall steps y, density_after (fun h => RInt h l r) (fun x y => proposal_density s [x] [y]) a steps (fun x => psi x ^ 2) y = psi y ^ 2.
Proof.
  intros psi a s l r Hs C A. apply C18_stationary_density_plain; try assumption.
  - intros x y. apply C18_gaussian_density. lra.
  - intros f g E. apply RInt_ext. intros x _. apply E.
  - intros y c. apply (RInt_scal (V := R_CompleteNormedModule)). apply (ex_RInt_continuous (V := R_CompleteNormedModule)). intros x _.
    apply (continuous_mult (K := R_AbsRing)); [apply (cont2_snd (fun x y => proposal_density s [x] [y])), proposal_cont2; lra|].
    apply (continuous_ext (fun x => metropolis_ratio (psi y) (psi x))); [intros; symmetry; apply (ratio_of_yes psi a A)|]. apply ratio_continuous. exact C.
Qed.
Print Assumptions C18_stationary_interval.
(** What [step_density] computes is a density: away from nodes the total probability is kept, for walkers with any continuous density. *)
Theorem C18_total_probability : forall (psi : R -> R) a s l r, 0 < s -> l <= r -> (forall x, continuous psi x) -> (forall x, psi x <> 0) ->
  (forall x y, yes_probability (fun u => accepts u (accept_plain (Fin (psi x)) (Fin (psi y)))) (a x y)) ->
  forall steps p, (forall x, continuous p x) ->
  RInt (density_after (fun h => RInt h l r) (fun x y => proposal_density s [x] [y]) a steps p) l r = RInt p l r.
Proof.
  intros psi a s l r Hs LR C N A steps p Cp. set (q := fun x y => proposal_density s [x] [y]). set (J := fun h => RInt h l r).
  set (k := fun x y => q x y * a x y).
  assert (Ck : cont2 k).
  { apply cont2_mult; [apply proposal_cont2; lra|]. intros x z. apply (continuity_2d_pt_ext (fun x y => Rmin 1 ((psi y * / psi x) * (psi y * / psi x)))).
    - intros u v. rewrite (ratio_of_yes psi a A). unfold metropolis_ratio. destruct (Req_EM_T (psi u) 0) as [E|]; [exfalso; exact (N u E)|]. f_equal. unfold Rdiv. ring.
    - revert x z. apply (cont2_comp (Rmin 1) (fun x y => (psi y * / psi x) * (psi y * / psi x))); [exact continuous_min1|].
      assert (CQ : cont2 (fun x y => psi y * / psi x)) by (apply cont2_mult; [apply cont2_2; exact C|]; intros x z; apply continuity_2d_pt_inv; [apply cont2_1; exact C|apply N]).
      apply cont2_mult; exact CQ. }
  assert (ST : forall p, (forall x, continuous p x) -> (forall y, continuous (step_density J q a p) y) /\ RInt (step_density J q a p) l r = RInt p l r).
  { clear p Cp. intros p Cp.
    assert (C1 : cont2 (fun x y => p x * k x y)) by (apply cont2_mult; [apply cont2_1; exact Cp|exact Ck]).
    assert (I1 : forall y, continuous (fun y => J (fun x => p x * k x y)) y) by (intros y; apply (inner_continuous (fun y x => p x * k x y) l r y LR), cont2_swap; exact C1).
    assert (I2 : forall y, continuous (fun y => J (fun x => k y x)) y) by (intros y; apply (inner_continuous k l r y LR Ck)).
    assert (I3 : forall y, continuous (fun y => p y * (1 - J (fun x => k y x))) y).
    { intros y. apply (continuous_mult (K := R_AbsRing)); [apply Cp|]. apply (continuous_minus (V := R_NormedModule)); [apply continuous_const|apply I2]. }
    split; [intros y; apply (continuous_plus (V := R_NormedModule)); [apply I1|apply I3]|].
    assert (X : forall h, (forall y, continuous h y) -> ex_RInt h l r) by (intros h Hh; apply (ex_RInt_continuous (V := R_CompleteNormedModule)); intros; apply Hh).
    unfold step_density. fold (k : R -> R -> R).
    assert (E : RInt (fun y => J (fun x => p x * k x y)) l r = RInt (fun y => p y * J (fun x => k y x)) l r).
    { unfold J. rewrite <- (fubini (fun x y => p x * k x y) l r l r LR LR C1). apply RInt_ext. intros x _. apply (RInt_scal (V := R_CompleteNormedModule)). apply ex_snd. exact Ck. }
    transitivity (RInt (fun y => J (fun x => p x * k x y)) l r + RInt (fun y => p y * (1 - J (fun x => k y x))) l r); [apply (RInt_plus (V := R_CompleteNormedModule)); apply X; [exact I1|exact I3]|].
    rewrite E. assert (D : RInt (fun y => p y * (1 - J (fun x => k y x))) l r = RInt p l r - RInt (fun y => p y * J (fun x => k y x)) l r).
    { rewrite (RInt_ext _ (fun y => minus (p y) (p y * J (fun x => k y x)))); [|intros y _; unfold minus, plus, opp; cbn; ring].
      apply (RInt_minus (V := R_CompleteNormedModule)); apply X; [exact Cp|]. intros y. apply (continuous_mult (K := R_AbsRing)); [apply Cp|apply I2]. }
    rewrite D. match goal with |- ?x = ?y => change (@eq R x y) end. ring. }
  assert (G : (forall y, continuous (density_after J q a steps p) y) /\ RInt (density_after J q a steps p) l r = RInt p l r); [|apply G].
  induction steps as [|n [IC IE]]; [split; [exact Cp|reflexivity]|]. cbn [density_after]. destruct (ST _ IC) as [S1 S2]. split; [exact S1|]. rewrite S2. exact IE.
Qed.
Print Assumptions C18_total_probability.
(** A wavefunction with a node, one without, and their acceptance probabilities. *)
Example C18_density_example : forall psi : R -> R, psi = (fun x => x) \/ psi = (fun x => 1 + x ^ 2) ->
  (forall x, continuous psi x) /\
  (forall x y, yes_probability (fun u => accepts u (accept_plain (Fin (psi x)) (Fin (psi y)))) (metropolis_ratio (psi x) (psi y))) /\
  (psi 1 <> 0 -> forall steps, density_after (fun h => RInt h (-1) 1) (fun x y => proposal_density 2 [x] [y]) (fun x y => metropolis_ratio (psi x) (psi y)) steps (fun x => psi x ^ 2) 1 = psi 1 ^ 2).
Proof.
  intros psi H. assert (C : forall x, continuous psi x).
  { intros x. destruct H as [-> | ->]; [apply continuous_id|]. apply (ex_derive_continuous (V := R_NormedModule)). auto_derive. exact Logic.I. }
  assert (Y : forall x y, yes_probability (fun u => accepts u (accept_plain (Fin (psi x)) (Fin (psi y)))) (metropolis_ratio (psi x) (psi y))).
  { intros x y. rewrite accept_plain_ratio. split; [apply ratio_range|]. intros u Hu. apply Rltb_true. }
  split; [exact C|]. split; [exact Y|]. intros _ steps. apply C18_stationary_interval; [lra|exact C|exact Y].
Qed.

(** T_fwalk: C88, Metropolis steps on machine floating-point numbers. *)
From Coq Require Import ZArith Reals.
From Flocq Require Import Core IEEE754.BinarySingleNaN.
From Coq Require Import Lia Lra List Permutation Bool Arith.
Import ListNotations.
From Verif Require Import M_float S_float P_float P_float2 P_float4 T_float M_fwalk S_fwalk P_fwalk P_fwalk2.
Open Scope R_scope.

(** C88.  From a log amplitude that is a number, to one that is a number or -inf: the acceptance probability is a number in [0, 1]
    within u + eps of the exact one, exactly 1 if the amplitude does not decrease, exactly 0 if the proposed amplitude is zero. *)
Theorem C88_acceptance :
  forall prec emax (Hp : Prec_gt_0 prec) (He : Prec_lt_emax prec emax) (fe : binary_float prec emax -> binary_float prec emax) eps,
  good_exp prec emax eps fe -> forall a p, log_in_range prec emax a -> log_in_range prec emax p \/ p = B754_infinity true ->
  probability prec emax (acceptance prec emax fe true a p) /\
  Rabs (B2R (acceptance prec emax fe true a p) - exact_acceptance prec emax a p) <= unit_roundoff prec + eps /\
  (is_finite p = true -> B2R a <= B2R p -> B2R (acceptance prec emax fe true a p) = 1) /\
  (p = B754_infinity true -> B2R (acceptance prec emax fe true a p) = 0).
Proof. intros. eapply acceptance_number; eassumption. Qed.
Print Assumptions C88_acceptance.

(** C88.  The other cases: NaN if either is NaN or both are the same infinity; 1 from an amplitude zero to any other and from a number to +inf; from +inf never a positive number. *)
Theorem C88_special :
  forall prec emax (Hp : Prec_gt_0 prec) (He : Prec_lt_emax prec emax) (fe : binary_float prec emax -> binary_float prec emax) eps,
  good_exp prec emax eps fe -> 
  (forall a p, a = B754_nan \/ p = B754_nan \/ (exists s, a = B754_infinity s /\ p = B754_infinity s) -> acceptance prec emax fe true a p = B754_nan) /\
  (forall p, log_in_range prec emax p \/ p = B754_infinity false -> B2R (acceptance prec emax fe true (B754_infinity true) p) = 1) /\
  (forall a, log_in_range prec emax a -> B2R (acceptance prec emax fe true a (B754_infinity false)) = 1) /\
  (forall p, acceptance prec emax fe true (B754_infinity false) p = B754_nan \/ B2R (acceptance prec emax fe true (B754_infinity false) p) = 0).
Proof.
  intros prec emax Hp He fe eps GE. destruct (one_R prec emax) as [_ V1]. split; [|split; [|split]].
  - intros a p [H|[H|(s & Ha & Hb)]]; apply (acceptance_nan prec emax fe eps GE); auto. destruct s; auto.
  - intros p H. rewrite (acceptance_from_zero prec emax fe p); [exact V1| |].
    + destruct H as [[F _]|H]; auto.
    + intros F. destruct H as [H|H]; [exact H|rewrite H in F; discriminate].
  - intros a H. rewrite (acceptance_to_inf prec emax fe a); [exact V1|apply H|exact H].
  - intros p. destruct (acceptance_from_inf prec emax fe eps GE p) as [H|[_ H]]; auto.
Qed.
Print Assumptions C88_special.

(** C88.  One step of walker j of device i, with width s (that before the step) and its draws: each coordinate of the proposal is the
    old one plus s times its normal draw (each operation rounded once), its amplitude is that of the proposed position; if the uniform draw is below the acceptance probability
    of the two amplitudes, the walker becomes the proposal with both, otherwise it keeps both. *)
Theorem C88_step :
  forall prec emax (Hp : Prec_gt_0 prec) (He : Prec_lt_emax prec emax) (fe : binary_float prec emax -> binary_float prec emax) fs psi logabs nmoves adj ws md ds i j w d,
  Forall2 (fun w d => length w = length d) ws ds -> walker_at prec emax ws i j = Some w ->
  match nth_error ds i with Some l => nth_error l j | None => None end = Some d -> length (w_pos _ _ w) = length (d_normal _ _ d) ->
  exists x, length x = length (w_pos _ _ w) /\
    (forall k c n, nth_error (w_pos _ _ w) k = Some c -> nth_error (d_normal _ _ d) k = Some n -> nth_error x k = Some (fadd prec emax c (fmul prec emax (m_std _ _ md) n))) /\
    walker_at prec emax (fst (step prec emax fe fs psi logabs nmoves adj (ws, md) ds)) i j =
      Some (if Bltb (d_uniform _ _ d) (acceptance prec emax fe logabs (w_amp _ _ w) (psi x)) then {| w_pos := x; w_amp := psi x |} else w).
Proof.
  intros prec emax Hp He fe fs psi logabs nmoves adj ws md ds i j w d Sh Hw Hd Hl. exists (moved prec emax (w_pos _ _ w) (m_std _ _ md) (d_normal _ _ d)).
  split; [apply (moved_nth prec emax _ _ _ O Hl)|]. split.
  - intros k c n Hc Hn. rewrite (proj2 (moved_nth prec emax _ (m_std _ _ md) _ k Hl)), Hc, Hn. reflexivity.
  - unfold walker_at in *. cbn [step fst snd]. rewrite zip_nth by (clear -Sh; induction Sh as [|? ? ? ? _ ? IH]; [reflexivity|cbn; f_equal; exact IH]).
    destruct (nth_error ws i) as [lw|] eqn:E1; [|discriminate]. destruct (nth_error ds i) as [ld|] eqn:E2; [|discriminate].
    assert (LL : length lw = length ld). { clear -Sh E1 E2. revert i E1 E2. induction Sh as [|a b l m H Sh IH]; intros [|i] E1 E2; cbn in *; try discriminate; [injection E1 as <-; injection E2 as <-; exact H|eapply IH; eassumption]. }
    rewrite zip_nth by exact LL. rewrite Hw, Hd. reflexivity.
Qed.
Print Assumptions C88_step.

(** C88.  Any number of steps of any number of walkers, with log amplitudes: if no position has log amplitude +inf (NaN and -inf
    are allowed), every walker that starts at a number stays at positions where the wavefunction is a number, with that number as its amplitude. *)
Theorem C88_walk :
  forall prec emax (Hp : Prec_gt_0 prec) (He : Prec_lt_emax prec emax) (fe : binary_float prec emax -> binary_float prec emax) fs psi eps,
  good_exp prec emax eps fe -> (forall x, psi x = B754_nan \/ psi x = B754_infinity true \/ log_in_range prec emax (psi x)) ->
  forall nmoves adj st dss, complete_draws prec emax (fst st) dss ->
  (forall l w, In l (fst st) -> In w l -> well_placed prec emax psi w) ->
  let st' := run prec emax fe fs psi true nmoves adj st dss in
  map (@length _) (fst st') = map (@length _) (fst st) /\ forall l w, In l (fst st') -> In w l -> well_placed prec emax psi w.
Proof.
  intros prec emax Hp He fe fs psi eps GE HP nmoves adj st dss. revert st. induction dss as [|ds dss IH]; intros st CD W; [split; [reflexivity|exact W]|].
  cbv zeta. cbn [run fold_left]. fold (run prec emax fe fs psi true nmoves adj (step prec emax fe fs psi true nmoves adj st ds) dss).
  destruct (CD ds (or_introl eq_refl)) as [Sh Un].
  assert (LZ : forall A B C (f : A -> B -> C) l m, length l = length m -> length (zip_with f l m) = length l).
  { clear. intros A B C f. induction l as [|a l IH]; intros [|b m] E; cbn in *; try lia. rewrite IH by lia. reflexivity. }
  assert (E1 : map (@length _) (fst (step prec emax fe fs psi true nmoves adj st ds)) = map (@length _) (fst st)).
  { cbn [step fst]. generalize (walker_step prec emax fe psi true (m_std prec emax (snd st))) as f. intros f. clear -LZ Sh. induction Sh as [|w d ws ds E Sh IH]; [reflexivity|]. cbn [zip_with map]. rewrite IH, LZ by exact E. reflexivity. }
  assert (SH2 : forall ws ws' : list (list (walker prec emax)), map (@length _) ws' = map (@length _) ws -> forall ds : list (list (draw prec emax)), Forall2 (fun w d => length w = length d) ws ds -> Forall2 (fun w d => length w = length d) ws' ds).
  { clear. intros ws ws' E ds F. revert ws' E. induction F as [|w d ws ds H F IH]; intros [|w' ws'] E; try discriminate; constructor; cbn in E; injection E as E1 E2; [congruence|apply IH; exact E2]. }
  destruct (IH (step prec emax fe fs psi true nmoves adj st ds)) as [X Y].
  - intros d Hd. destruct (CD d (or_intror Hd)) as [S1 U1]. split; [exact (SH2 _ _ E1 _ S1)|exact U1].
  - cbn [step fst].
    assert (Z2 : forall (f : walker prec emax -> draw prec emax -> walker prec emax) (P : walker prec emax -> Prop) l d, (forall w x, In w l -> In x d -> P (f w x)) -> forall w, In w (zip_with f l d) -> P w).
    { clear. intros f P. induction l as [|a l IH]; intros [|x d] H w Hw; try (destruct Hw; fail). destruct Hw as [<-|Hw]; [apply H; left; reflexivity|]. apply (IH d); [|exact Hw]. intros w' x' A B. apply H; right; assumption. }
    clear IH CD E1 SH2. revert W Un. induction Sh as [|l0 d0 ws ds E Sh IHs]; intros W0 Un l w Hl Hw; [destruct Hl|]. cbn [zip_with] in Hl. destruct Hl as [<-|Hl].
    + revert w Hw. apply Z2. intros w x Iw Ix. apply (walker_settled prec emax fe eps GE psi _ w x HP); [apply (Un d0); [left; reflexivity|exact Ix]|]. apply (W0 l0); [left; reflexivity|exact Iw].
    + apply (IHs (fun l' w' A B => W0 l' w' (or_intror A) B) (fun d' x' A B => Un d' x' (or_intror A) B) l w Hl Hw).
  - split; [rewrite X; exact E1|exact Y].
Qed.
Print Assumptions C88_walk.

(** C88.  A walker whose log amplitude is NaN or +inf never moves again (until the parameters change). *)
Theorem C88_stuck :
  forall prec emax (Hp : Prec_gt_0 prec) (He : Prec_lt_emax prec emax) (fe : binary_float prec emax -> binary_float prec emax) fs psi eps,
  good_exp prec emax eps fe ->
  forall nmoves adj st dss i j w, complete_draws prec emax (fst st) dss -> walker_at prec emax (fst st) i j = Some w -> w_amp _ _ w = B754_nan \/ w_amp _ _ w = B754_infinity false ->
  walker_at prec emax (fst (run prec emax fe fs psi true nmoves adj st dss)) i j = Some w.
Proof.
  intros prec emax Hp He fe fs psi eps GE nmoves adj st dss i j w. revert st. induction dss as [|ds dss IH]; intros st CD W H; [exact W|].
  cbn [run fold_left]. fold (run prec emax fe fs psi true nmoves adj (step prec emax fe fs psi true nmoves adj st ds) dss).
  destruct (CD ds (or_introl eq_refl)) as [Sh Un].
  assert (LZ : forall A B C (f : A -> B -> C) l m, length l = length m -> length (zip_with f l m) = length l).
  { clear. intros A B C f. induction l as [|a l IH]; intros [|b m] E; cbn in *; try lia. rewrite IH by lia. reflexivity. }
  apply IH; [| |exact H].
  - intros d Hd. destruct (CD d (or_intror Hd)) as [S1 U1]. split; [|exact U1]. cbn [step fst]. clear -S1 Sh LZ. revert d S1. induction Sh as [|l0 d0 ws ds E Sh IHs]; intros d S1; [exact S1|].
    inversion S1 as [|a b c e A B]; subst. cbn [zip_with]. constructor; [rewrite LZ by exact E; exact A|apply IHs; exact B].
  - cbn [step fst]. unfold walker_at in *. clear IH CD. revert i W. induction Sh as [|l0 d0 ws ds E Sh IHs]; intros i W; [destruct i; discriminate|].
    destruct i as [|i]; cbn [nth_error zip_with] in *; [|apply IHs; [intros d x A B; apply (Un d x (or_intror A) B)|exact W]].
    assert (Un0 : forall x, In x d0 -> uniform_number prec emax (d_uniform _ _ x)) by (intros x Hx; apply (Un d0); [left; reflexivity|exact Hx]). clear IHs Sh Un. revert j d0 E Un0 W. induction l0 as [|a l0 IHl]; intros j d0 E Un0 W; [destruct j; discriminate|].
    destruct d0 as [|x d0]; [discriminate|]. destruct j as [|j]; cbn [nth_error zip_with] in *.
    + injection W as ->. rewrite (walker_stuck prec emax fe eps GE psi _ w x (Un0 x (or_introl eq_refl)) H). reflexivity.
    + apply IHl; [cbn in E; lia|intros y Hy; apply Un0; right; exact Hy|exact W].
Qed.
Print Assumptions C88_stuck.

(** C88.  The step width stays positive for ever if the shrinking factor exceeds 1/2 (by default it is 0.9): it never underflows to zero. *)
Theorem C88_width_positive :
  forall prec emax (Hp : Prec_gt_0 prec) (He : Prec_lt_emax prec emax) (fe : binary_float prec emax -> binary_float prec emax) fs psi logabs nmoves hi lo up down,
  is_finite up = true -> is_finite down = true -> / 2 < B2R up -> / 2 < B2R down ->
  forall dss st, positive_width prec emax (m_std _ _ (snd st)) ->
  positive_width prec emax (m_std _ _ (snd (run prec emax fe fs psi logabs nmoves (adjust prec emax hi lo up down) st dss))).
Proof.
  intros prec emax Hp He fe fs psi logabs nmoves hi lo up down Fu Fd Pu Pd. induction dss as [|ds dss IH]; intros st W; [exact W|].
  cbn [run fold_left]. fold (run prec emax fe fs psi logabs nmoves (adjust prec emax hi lo up down) (step prec emax fe fs psi logabs nmoves (adjust prec emax hi lo up down) st ds) dss). apply IH.
  cbn [step snd]. unfold update_metadata. destruct (Nat.leb _ _); cbn [m_std]; [|exact W]. unfold adjust.
  destruct (Bltb hi _); destruct (Bltb _ lo); repeat apply width_mul; assumption.
Qed.
Print Assumptions C88_width_positive.

(** With a factor of 1/2 this fails: in single precision the default width 0.25 becomes zero after 148 updates without an accepted move, and then stays zero. *)
Definition f32 (m : positive) (e : Z) (H : SpecFloat.bounded 24 128 m e = true) : binary_float 24 128 := @B754_finite 24 128 false m e H.
Definition quarter : binary_float 24 128 := f32 8388608 (-25) eq_refl.
Definition half : binary_float 24 128 := f32 8388608 (-24) eq_refl.
Definition threehalves : binary_float 24 128 := f32 12582912 (-23) eq_refl.
Fixpoint repeatedly {A} (n : nat) (f : A -> A) (x : A) : A := match n with O => x | S n' => repeatedly n' f (f x) end.
Theorem C88_width_zero_refuted :
  exists hi lo up down s n, is_finite hi = true /\ is_finite lo = true /\ 0 < B2R lo < B2R hi /\ B2R hi < 1 /\ B2R up = 3 / 2 /\ B2R down = / 2 /\ B2R s = / 4 /\
    repeatedly n (fun x => @adjust 24 128 prec32 emax32 hi lo up down x (fzero 24 128)) s = B754_zero false /\
    forall avg, @adjust 24 128 prec32 emax32 hi lo up down (B754_zero false) avg = B754_zero false.
Proof.
  exists (f32 14763950 (-24) eq_refl), half, threehalves, half, quarter, 148%nat. 
  split; [reflexivity|]. split; [reflexivity|].
  assert (V : forall m e H, B2R (f32 m e H) = IZR (Zpos m) * bpow radix2 e) by reflexivity. unfold half, threehalves, quarter. rewrite !V.
  replace (bpow radix2 (-24)) with (/ 16777216) by (cbn; lra). replace (bpow radix2 (-23)) with (/ 8388608) by (cbn; lra). replace (bpow radix2 (-25)) with (/ 33554432) by (cbn; lra).
  split; [lra|]. split; [lra|]. split; [lra|]. split; [lra|]. split; [lra|]. split.
  - vm_compute. reflexivity.
  - intros avg. unfold adjust. destruct (Bltb _ avg); destruct (Bltb avg _); reflexivity.
Qed.
Print Assumptions C88_width_zero_refuted.

(** C88.  The width changes only at every nmoves-th step, by the rule for the average acceptance, which is a number in [0, 1];
    if all walkers moved in all these steps it is multiplied by the growing factor, if none moved by the shrinking one. *)
Theorem C88_adaptation :
  forall prec emax (Hp : Prec_gt_0 prec) (He : Prec_lt_emax prec emax) (fe : binary_float prec emax -> binary_float prec emax) fs psi logabs nmoves hi lo up down,
  (forall l, is_sum prec emax l (fs l)) -> is_finite hi = true -> is_finite lo = true -> 0 < B2R lo <= B2R hi -> B2R hi < 1 ->
  forall dss ws s, let adj := adjust prec emax hi lo up down in let st := (ws, {| m_std := s; m_sum := fzero prec emax; m_count := 0 |}) in
  (length dss <= nmoves)%nat -> (0 < nmoves)%nat -> INR nmoves <= bpow radix2 prec ->
  let masks := masks_of prec emax fe fs psi logabs nmoves adj st dss in
  (forall ms, In ms masks -> ms <> [] /\ INR (length ms) <= bpow radix2 prec /\ forall m, In m ms -> m <> [] /\ INR (length m) <= bpow radix2 prec) ->
  let md := snd (run prec emax fe fs psi logabs nmoves adj st dss) in
  ((length dss < nmoves)%nat -> m_std _ _ md = s /\ m_count _ _ md = length dss) /\
  (length dss = nmoves -> m_count _ _ md = O /\ m_sum _ _ md = fzero prec emax /\
     (exists avg, probability prec emax avg /\ m_std _ _ md = adj s avg) /\
     ((forall ms m b, In ms masks -> In m ms -> In b m -> b = true) -> m_std _ _ md = fmul prec emax s up) /\
     ((forall ms m b, In ms masks -> In m ms -> In b m -> b = false) -> m_std _ _ md = fmul prec emax s down)).
Proof.
  intros prec emax Hp He fe fs psi logabs nmoves hi lo up down SUM Fh Fl Bl Bh dss ws s adj st Ln N0 NL masks MO md.
  (* metadata after k < nmoves steps *)
  assert (PRE : forall dss st k, (k + length dss < nmoves)%nat -> m_count _ _ (snd st) = k ->
     snd (run prec emax fe fs psi logabs nmoves adj st dss) = {| m_std := m_std _ _ (snd st); m_sum := accum prec emax fs (masks_of prec emax fe fs psi logabs nmoves adj st dss) (m_sum _ _ (snd st)); m_count := (k + length dss)%nat |}).
  { clear. induction dss as [|ds dss IH]; intros st k L E.
    - cbn. rewrite Nat.add_0_r. destruct st as [w [a b c]]. cbn in *. subst. reflexivity.
    - cbn [run fold_left masks_of]. fold (run prec emax fe fs psi logabs nmoves adj (step prec emax fe fs psi logabs nmoves adj st ds) dss).
      assert (Q : snd (step prec emax fe fs psi logabs nmoves adj st ds) = {| m_std := m_std _ _ (snd st); m_sum := fadd prec emax (m_sum _ _ (snd st)) (all_mean prec emax fs (zip_with (zip_with (decision _ _ fe psi logabs (m_std _ _ (snd st)))) (fst st) ds)); m_count := S k |}).
      { cbn [step snd]. unfold update_metadata. rewrite E. cbn [length] in L. destruct (Nat.leb_spec nmoves (S k)); [lia|reflexivity]. }
      rewrite (IH _ (S k)); [|cbn [length] in L; lia|rewrite Q; reflexivity]. rewrite Q. cbn [m_std m_sum m_count accum fold_left length]. f_equal. lia. }
  split.
  - intros L. unfold md. rewrite (PRE dss st O); [|cbn; lia|reflexivity]. split; reflexivity.
  - intros L. 
    destruct (exists_last (l := dss)) as (init & last_ & E); [destruct dss; [cbn in L; lia|discriminate]|].
    assert (ML : forall a b st, masks_of prec emax fe fs psi logabs nmoves adj st (a ++ b) = masks_of prec emax fe fs psi logabs nmoves adj st a ++ masks_of prec emax fe fs psi logabs nmoves adj (run prec emax fe fs psi logabs nmoves adj st a) b).
    { clear. induction a as [|x a IH]; intros b st; [reflexivity|]. cbn [app masks_of run fold_left]. rewrite IH. reflexivity. }
    assert (RL : forall a b st, run prec emax fe fs psi logabs nmoves adj st (a ++ b) = run prec emax fe fs psi logabs nmoves adj (run prec emax fe fs psi logabs nmoves adj st a) b) by (intros; unfold run; apply fold_left_app).
    assert (Li : length dss = S (length init)) by (rewrite E, app_length; cbn; lia).
    pose proof (PRE init st O ltac:(lia) eq_refl) as P1. cbn [snd st m_std m_sum plus] in P1.
    set (st1 := run prec emax fe fs psi logabs nmoves adj st init) in *.
    assert (EM : masks = masks_of prec emax fe fs psi logabs nmoves adj st init ++ [zip_with (zip_with (decision _ _ fe psi logabs s)) (fst st1) last_]).
    { unfold masks. rewrite E, ML. fold st1. cbn [masks_of]. rewrite P1. reflexivity. }
    assert (LM : length masks = nmoves).
    { rewrite EM, app_length. cbn. assert (LL : forall d st, length (masks_of prec emax fe fs psi logabs nmoves adj st d) = length d) by (clear; induction d as [|x d IH]; intros st; cbn; [reflexivity|rewrite IH; reflexivity]). rewrite LL. lia. }
    set (sum := accum prec emax fs masks (fzero prec emax)).
    assert (MD : md = {| m_std := adj s (fdiv prec emax sum (of_nat prec emax nmoves)); m_sum := fzero prec emax; m_count := 0 |}).
    { unfold md. rewrite E, RL. fold st1. cbn [run fold_left step snd]. unfold update_metadata. rewrite P1. cbn [m_std m_sum m_count].
      destruct (Nat.leb_spec nmoves (S (length init))); [|lia].
      unfold sum. rewrite EM. unfold accum at 2. rewrite fold_left_app. fold (accum prec emax fs (masks_of prec emax fe fs psi logabs nmoves adj st init) (fzero prec emax)). cbn [fold_left].
      replace (S (length init)) with nmoves by lia. reflexivity. }
    rewrite MD. cbn [m_std m_sum m_count]. split; [reflexivity|]. split; [reflexivity|].
    assert (AC : forall c, (c = 0 \/ c = 1) -> is_finite sum = true /\ 0 <= B2R sum <= INR nmoves /\ ((forall m, In m masks -> B2R (all_mean _ _ fs m) = c) -> B2R sum = c * INR nmoves)).
    { intros c Hc. destruct (accum_spec prec emax fs SUM c Hc masks (fzero prec emax) O) as [A [B C]]; [exact MO|cbn; rewrite LM; exact NL|reflexivity|cbn; lra|]. cbn [plus] in *. rewrite LM in *.
      split; [exact A|]. split; [exact B|]. intros H. apply C; [cbn; ring|exact H]. }
    destruct (AC 0 (or_introl eq_refl)) as [SF [SB S0]]. destruct (AC 1 (or_intror eq_refl)) as [_ [_ S1]].
    destruct (div_prob prec emax sum nmoves SF N0 NL SB) as [PR [D1 D0]].
    split; [eexists; split; [exact PR|reflexivity]|]. set (avg := fdiv prec emax sum (of_nat prec emax nmoves)) in *. unfold adj, adjust.
    rewrite (Bltb_correct _ _ hi avg Fh (proj1 PR)), (Bltb_correct _ _ avg lo (proj1 PR) Fl). split; intros H.
    + assert (V : B2R avg = 1). { apply D1. rewrite S1; [ring|]. intros m Hm. apply all_mean_prob; [exact SUM|apply MO; exact Hm|]. intros k b Hk Hb. exact (H m k b Hm Hk Hb). }
      rewrite V, (Rlt_bool_true (B2R hi) 1), (Rlt_bool_false 1 (B2R lo)) by lra. lazymatch goal with |- ?a = ?b => constr_eq a b; reflexivity end.
    + assert (V : B2R avg = 0). { apply D0. rewrite S0; [ring|]. intros m Hm. apply all_mean_prob; [exact SUM|apply MO; exact Hm|]. intros k b Hk Hb. exact (H m k b Hm Hk Hb). }
      rewrite V, (Rlt_bool_false (B2R hi) 0), (Rlt_bool_true 0 (B2R lo)) by lra. lazymatch goal with |- ?a = ?b => constr_eq a b; reflexivity end.
Qed.
Print Assumptions C88_adaptation.

(** C88.  With plain amplitudes the probability is in [0, 1] as long as the squares do not overflow. *)
Theorem C88_plain :
  forall prec emax (Hp : Prec_gt_0 prec) (He : Prec_lt_emax prec emax) (fe : binary_float prec emax -> binary_float prec emax) a p,
  is_finite (fmul prec emax a a) = true -> is_finite (fmul prec emax p p) = true ->
  probability prec emax (acceptance prec emax fe false a p).
Proof.
  intros prec emax Hp He fe a p Fa Fp. unfold acceptance. rewrite (Bltb_correct _ _ _ _ Fa Fp), (Beqb_correct _ _ _ (fzero prec emax) Fa eq_refl). change (B2R (fzero prec emax)) with 0.
  destruct (one_R prec emax) as [F1 V1].
  assert (SQ : forall x : binary_float prec emax, is_finite (fmul prec emax x x) = true -> 0 <= B2R (fmul prec emax x x)).
  { intros x F. pose proof (Bmult_correct prec emax Hp He mode_NE x x) as C. cbn [round_mode] in C. unfold fmul in *. destruct (Rlt_bool _ _) in C.
    - destruct C as [C _]. rewrite C. apply (Rle_trans _ (round radix2 (SpecFloat.fexp prec emax) ZnearestE 0)); [rewrite (rnd_0 prec emax); lra|]. apply round_le; [apply (FLT_exp_valid (SpecFloat.emin prec emax) prec)|auto with typeclass_instances|apply Rle_0_sqr].
    - destruct (Bmult mode_NE x x); discriminate. }
  pose proof (SQ a Fa) as Pa. pose proof (SQ p Fp) as Pp.
  case Rlt_bool_spec; intros L; cbn [orb]; [split; [exact F1|lra]|]. case Req_bool_spec; intros Z; [split; [exact F1|lra]|].
  assert (Pa' : 0 < B2R (fmul prec emax a a)) by lra.
  pose proof (Bdiv_correct prec emax Hp He mode_NE (fmul prec emax p p) (fmul prec emax a a) Z) as C. cbn [round_mode] in C.
  set (q := B2R (fmul prec emax p p) / B2R (fmul prec emax a a)) in *.
  assert (Q : 0 <= q <= 1). { unfold q. split; [apply Rmult_le_pos; [lra|left; apply Rinv_0_lt_compat; exact Pa']|]. apply (Rmult_le_reg_r (B2R (fmul prec emax a a))); [exact Pa'|]. unfold Rdiv. rewrite Rmult_assoc, Rinv_l by lra. lra. }
  assert (VX : Valid_exp (SpecFloat.fexp prec emax)) by apply (FLT_exp_valid (SpecFloat.emin prec emax) prec).
  assert (R1 : 0 <= round radix2 (SpecFloat.fexp prec emax) ZnearestE q <= 1).
  { split; [rewrite <- (rnd_0 prec emax); apply round_le; auto with typeclass_instances; lra|]. apply round_le_generic; auto with typeclass_instances; [|lra].
    change 1 with (bpow radix2 0). apply (fmt_bpow prec emax). pose proof (emin_neg prec emax). lia. }
  rewrite Rlt_bool_true in C.
  - destruct C as [C1 [C2 _]]. unfold fdiv. split; [rewrite C2; exact Fp|rewrite C1; exact R1].
  - rewrite Rabs_pos_eq by lra. apply Rle_lt_trans with 1; [lra|]. change 1 with (bpow radix2 0). apply bpow_lt. pose proof (emax_2 prec emax) as Q2. lia.
Qed.
Print Assumptions C88_plain.

(** C88.  If also the square of the current amplitude is not below the normal range, the probability is within 5u of the exact one. *)
Theorem C88_plain_accuracy :
  forall prec emax (Hp : Prec_gt_0 prec) (He : Prec_lt_emax prec emax) (fe : binary_float prec emax -> binary_float prec emax) a p,
  is_finite a = true -> is_finite p = true ->
  bpow radix2 (SpecFloat.emin prec emax + prec - 1) <= B2R a * B2R a <= bpow radix2 (emax - 1) -> B2R p * B2R p <= bpow radix2 (emax - 1) ->
  Rabs (B2R (acceptance prec emax fe false a p) - Rmin 1 ((B2R p * B2R p) / (B2R a * B2R a))) <= 5 * unit_roundoff prec.
Proof. intros. apply plain_accuracy; assumption. Qed.
Print Assumptions C88_plain_accuracy.

(** That it is the exact ratio fails: in single precision the square of 2^-80 underflows, and every move is accepted, even to an amplitude 2^40 times smaller or to zero. *)
Theorem C88_plain_underflow_refuted :
  exists a p : binary_float 24 128, B2R a = bpow radix2 (-80) /\ B2R p = bpow radix2 (-120) /\ (B2R p * B2R p) / (B2R a * B2R a) = bpow radix2 (-80) /\
    forall fe, B2R (@acceptance 24 128 prec32 emax32 fe false a p) = 1 /\ B2R (@acceptance 24 128 prec32 emax32 fe false a (fzero 24 128)) = 1.
Proof.
  exists (f32 8388608 (-103) eq_refl), (f32 8388608 (-143) eq_refl).
  assert (V : forall e H, B2R (f32 8388608 e H) = bpow radix2 (e + 23)).
  { intros e H. change (B2R (f32 8388608 e H)) with (IZR 8388608 * bpow radix2 e). rewrite bpow_plus, Rmult_comm. f_equal. }
  rewrite !V. split; [reflexivity|]. split; [reflexivity|]. cbn [Z.add]. split.
  - rewrite <- !bpow_plus. unfold Rdiv. rewrite <- bpow_opp, <- bpow_plus. reflexivity.
  - assert (E : forall q, Bltb (@fmul 24 128 prec32 emax32 (f32 8388608 (-103) eq_refl) (f32 8388608 (-103) eq_refl)) (@fmul 24 128 prec32 emax32 q q) || Beqb (@fmul 24 128 prec32 emax32 (f32 8388608 (-103) eq_refl) (f32 8388608 (-103) eq_refl)) (fzero 24 128) = true).
    { intros q. apply orb_true_iff. right. vm_cast_no_check (eq_refl true). }
    intros fe. unfold acceptance. rewrite !E. split; apply Bone_correct.
Qed.
Print Assumptions C88_plain_underflow_refuted.

(** ** Example in single precision: one coordinate, log |psi| = -|x| up to 2 and NaN beyond; two walkers, two steps. *)
Notation fl32 := (binary_float 24 128).
Definition two32 : fl32 := f32 8388608 (-22) eq_refl.
Definition psi32 (x : list fl32) : fl32 := match x with [c] => if Bleb (Babs c) two32 then Bopp (Babs c) else B754_nan | _ => B754_nan end.
Definition ex_w (c : fl32) : walker 24 128 := {| w_pos := [c]; w_amp := psi32 [c] |}.
Definition ex_d (z v : fl32) : draw 24 128 := {| d_normal := [z]; d_uniform := v |}.
Definition ex_ws : list (list (walker 24 128)) := [[ex_w half; ex_w threehalves]].
Definition ex_ds : list (list (list (draw 24 128))) := [[[ex_d half quarter; ex_d two32 half]]; [[ex_d (Bopp half) half; ex_d huge half]]].

Lemma psi32_range x : psi32 x = B754_nan \/ psi32 x = B754_infinity true \/ log_in_range 24 128 (psi32 x).
Proof.
  unfold psi32. destruct x as [|c [|d x]]; auto. destruct (Bleb (Babs c) two32) eqn:L; auto. right. right.
  assert (F : is_finite (Babs c) = true) by (destruct c as [s|s| |s m e H]; try discriminate; reflexivity).
  rewrite (Bleb_correct _ _ _ _ F) in L by reflexivity. revert L. case Rle_bool_spec; [intros L _|discriminate].
  split; [rewrite is_finite_Bopp; exact F|]. rewrite B2R_Bopp, Rabs_Ropp, B2R_Babs, Rabs_Rabsolu. rewrite B2R_Babs in L.
  apply Rle_trans with (1 := L). change (B2R two32) with (IZR 8388608 * bpow radix2 (-22)). replace (IZR 8388608) with (bpow radix2 23) by (cbn; lra). rewrite <- bpow_plus. apply bpow_le. lia.
Qed.

Example C88_walk_example nmoves adj md : forall l w,
  In l (fst (@run 24 128 prec32 emax32 (@rounded_exp 24 128 prec32 emax32) (@left_sum 24 128 prec32 emax32) psi32 true nmoves adj (ex_ws, md) ex_ds)) -> In w l -> well_placed 24 128 psi32 w.
Proof.
  destruct (C86_assumptions_hold 24 128 prec32 emax32) as [_ [GE _]]; [cbn; tauto|].
  apply (C88_walk 24 128 prec32 emax32 _ _ psi32 _ GE psi32_range).
  - assert (H : uniform_number 24 128 half /\ uniform_number 24 128 quarter).
    { unfold uniform_number. change (B2R half) with (IZR 8388608 * bpow radix2 (-24)). change (B2R quarter) with (IZR 8388608 * bpow radix2 (-25)).
      replace (bpow radix2 (-24)) with (/ 16777216) by (cbn; lra). replace (bpow radix2 (-25)) with (/ 33554432) by (cbn; lra). repeat split; try reflexivity; lra. }
    intros ds [<-|[<-|[]]]; (split; [repeat constructor|]); intros d x [<-|[]] [<-|[<-|[]]]; apply H.
  - assert (N : forall c, In c [half; threehalves] -> psi32 [c] <> B754_nan /\ psi32 [c] <> B754_infinity true) by (intros c [<-|[<-|[]]]; vm_compute; split; discriminate).
    intros l w [<-|[]] [<-|[<-|[]]]; (split; [reflexivity|]); cbn [ex_w w_amp]; match goal with |- log_in_range _ _ (psi32 [?c]) => destruct (psi32_range [c]) as [E|[E|E]]; [destruct (N c) as [N1 N2]; [cbn; tauto|congruence]|destruct (N c) as [N1 N2]; [cbn; tauto|congruence]|exact E] end.
Qed.

Example C88_adaptation_example fe psi logabs : exists avg, probability 24 128 avg /\
  m_std _ _ (snd (@run 24 128 prec32 emax32 fe (@left_sum 24 128 prec32 emax32) psi logabs 2 (@adjust 24 128 prec32 emax32 half quarter threehalves half) (ex_ws, {| m_std := quarter; m_sum := fzero 24 128; m_count := 0 |}) ex_ds)) =
  @adjust 24 128 prec32 emax32 half quarter threehalves half quarter avg.
Proof.
  destruct (C86_assumptions_hold 24 128 prec32 emax32) as [_ [_ [_ GS]]]; [cbn; tauto|].
  assert (V : B2R half = / 2 /\ B2R quarter = / 4).
  { change (B2R half) with (IZR 8388608 * bpow radix2 (-24)). change (B2R quarter) with (IZR 8388608 * bpow radix2 (-25)).
    replace (bpow radix2 (-24)) with (/ 16777216) by (cbn; lra). replace (bpow radix2 (-25)) with (/ 33554432) by (cbn; lra). split; lra. }
  destruct V as [V1 V2].
  assert (P2 : INR 2 <= bpow radix2 24) by (cbn; lra). assert (P1 : INR 1 <= bpow radix2 24) by (cbn; lra).
  destruct (C88_adaptation 24 128 prec32 emax32 fe (@left_sum 24 128 prec32 emax32) psi logabs 2 half quarter threehalves half GS eq_refl eq_refl) with (dss := ex_ds) (ws := ex_ws) (s := quarter) as [_ H]; try lra; try (cbn; lia); try exact P2.
  - intros ms [<-|[<-|[]]]; (split; [discriminate|]; split; [exact P1|]; intros m [<-|[]]; split; [discriminate|exact P2]).
  - apply H. reflexivity.
Qed.

(** From 3/2 to 1/4 in single precision: the exact probability is 1/36. *)
Example C88_plain_accuracy_example fe : Rabs (B2R (@acceptance 24 128 prec32 emax32 fe false threehalves quarter) - / 36) <= 5 * bpow radix2 (-24).
Proof.
  assert (V : B2R threehalves = 3 / 2 /\ B2R quarter = / 4).
  { change (B2R threehalves) with (IZR 12582912 * bpow radix2 (-23)). change (B2R quarter) with (IZR 8388608 * bpow radix2 (-25)).
    replace (bpow radix2 (-23)) with (/ 8388608) by (cbn; lra). replace (bpow radix2 (-25)) with (/ 33554432) by (cbn; lra). split; lra. }
  destruct V as [V1 V2]. pose proof (C88_plain_accuracy 24 128 prec32 emax32 fe threehalves quarter eq_refl eq_refl) as H. rewrite V1, V2 in H.
  replace (Rmin 1 (/ 4 * / 4 / (3 / 2 * (3 / 2)))) with (/ 36) in H by (rewrite Rmin_right by lra; lra). apply H.
  - split; [apply Rle_trans with (bpow radix2 0); [apply bpow_le; cbn; lia|cbn; lra]|apply Rle_trans with (bpow radix2 2); [cbn; lra|apply bpow_le; lia]].
  - apply Rle_trans with (bpow radix2 0); [cbn; lra|apply bpow_le; lia].
Qed.

(** The first walker of the example in its first step. *)
Example C88_step_example fe nmoves adj md :
  let x := [@fadd 24 128 prec32 emax32 half (@fmul 24 128 prec32 emax32 (m_std _ _ md) half)] in
  walker_at 24 128 (fst (@step 24 128 prec32 emax32 fe (@left_sum 24 128 prec32 emax32) psi32 true nmoves adj (ex_ws, md) (hd [] ex_ds))) 0 0 =
    Some (if Bltb quarter (@acceptance 24 128 prec32 emax32 fe true (psi32 [half]) (psi32 x)) then {| w_pos := x; w_amp := psi32 x |} else ex_w half).
Proof.
  intros x. destruct (C88_step 24 128 prec32 emax32 fe (@left_sum 24 128 prec32 emax32) psi32 true nmoves adj ex_ws md (hd [] ex_ds) 0 0 (ex_w half) (ex_d half quarter)) as (y & L & C & S); [repeat constructor|reflexivity|reflexivity|reflexivity|].
  rewrite S. specialize (C O half half eq_refl eq_refl). destruct y as [|y0 [|y1 y]]; try discriminate. cbn [nth_error] in C. injection C as ->. reflexivity.
Qed.

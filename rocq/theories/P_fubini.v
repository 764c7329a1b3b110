(** Exchanging the order of integration of a continuous function on a rectangle. *)
From Coq Require Import Reals Lra Lia.
From Coquelicot Require Import Coquelicot.
Local Open Scope R_scope.

Definition cont2 (g : R -> R -> R) : Prop := forall x z, continuity_2d_pt g x z.

Lemma cont2_fst g x z : cont2 g -> continuous (fun u => g u z) x.
Proof.
  intros C. apply continuity_pt_filterlim. intros eps He. destruct (C x z (mkposreal eps He)) as [d Hd]. exists d. split; [apply cond_pos|].
  intros u [_ Hu]. apply Hd; [exact Hu|rewrite Rminus_eq_0, Rabs_R0; apply cond_pos].
Qed.
Lemma cont2_snd g x z : cont2 g -> continuous (g x) z.
Proof.
  intros C. apply continuity_pt_filterlim. intros eps He. destruct (C x z (mkposreal eps He)) as [d Hd]. exists d. split; [apply cond_pos|].
  intros u [_ Hu]. apply (Hd x u); [rewrite Rminus_eq_0, Rabs_R0; apply cond_pos|exact Hu].
Qed.
Lemma cont2_swap g : cont2 g -> cont2 (fun x z => g z x).
Proof. intros C x z eps. destruct (C z x eps) as [d Hd]. exists d. intros u v Hu Hv. apply Hd; assumption. Qed.
Lemma ex_snd g x a b : cont2 g -> ex_RInt (g x) a b.
Proof. intros C. apply (ex_RInt_continuous (V := R_CompleteNormedModule)). intros z _. apply cont2_snd. exact C. Qed.
Lemma ex_fst g z a b : cont2 g -> ex_RInt (fun x => g x z) a b.
Proof. intros C. apply (ex_RInt_continuous (V := R_CompleteNormedModule)). intros u _. apply cont2_fst. exact C. Qed.

(** The integral over the second variable depends continuously on the first. *)
Lemma inner_continuous g a b x : a <= b -> cont2 g -> continuous (fun u => RInt (g u) a b) x.
Proof.
  intros AB C. apply continuity_pt_filterlim. intros eps He.
  assert (P : 0 < eps / (b - a + 1)) by (apply Rdiv_lt_0_compat; lra).
  destruct (uniform_continuity_2d_1d (fun z u => g u z) a b x (fun z _ => cont2_swap g C z x) (mkposreal _ P)) as [d Hd].
  exists d. split; [apply cond_pos|]. intros u [_ Hu]. unfold dist in *; cbn in *. unfold R_dist in *.
  assert (E : RInt (g u) a b - RInt (g x) a b = RInt (fun z => g u z - g x z) a b).
  { symmetry. apply (RInt_minus (V := R_CompleteNormedModule)); apply ex_snd; exact C. }
  change (Rabs (RInt (g u) a b - RInt (g x) a b) < eps). rewrite E. apply Rle_lt_trans with ((b - a) * (eps / (b - a + 1))).
  - apply abs_RInt_le_const; [exact AB|apply (ex_RInt_minus (V := R_NormedModule)); apply ex_snd; exact C|].
    intros z Hz. left. apply (Hd z x z u); try assumption.
    + split; apply Rlt_le; pose proof (cond_pos d); lra.
    + apply Rabs_def2 in Hu. lra.
    + rewrite Rminus_eq_0, Rabs_R0. apply cond_pos.
  - replace eps with ((b - a + 1) * (eps / (b - a + 1))) at 2 by (field; lra). apply Rmult_lt_compat_r; lra.
Qed.

Theorem fubini g a b c d : a <= b -> c <= d -> cont2 g ->
  RInt (fun x => RInt (g x) c d) a b = RInt (fun z => RInt (fun x => g x z) a b) c d.
Proof.
  intros AB CD C.
  set (F := fun t => RInt (fun x => RInt (g x) c d) a t). set (G := fun t => RInt (fun z => RInt (fun x => g x z) a t) c d).
  assert (DF : forall t, is_derive F t (RInt (g t) c d)).
  { intros t. apply (is_derive_RInt (fun x => RInt (g x) c d) F a t).
    - exists (mkposreal 1 Rlt_0_1). intros y _. apply (RInt_correct (V := R_CompleteNormedModule)). apply (ex_RInt_continuous (V := R_CompleteNormedModule)). intros u _. apply inner_continuous; assumption.
    - apply inner_continuous; assumption. }
  assert (DI : forall z t, is_derive (fun t => RInt (fun x => g x z) a t) t (g t z)).
  { intros z t. apply (is_derive_RInt (fun x => g x z) _ a t).
    - exists (mkposreal 1 Rlt_0_1). intros y _. apply (RInt_correct (V := R_CompleteNormedModule)). apply ex_fst. exact C.
    - apply (cont2_fst g t z C). }
  assert (DG : forall t, is_derive G t (RInt (g t) c d)).
  { intros t. replace (RInt (g t) c d) with (RInt (fun z => Derive (fun u => RInt (fun x => g x z) a u) t) c d).
    - apply (is_derive_RInt_param (fun t z => RInt (fun x => g x z) a t) c d t).
      + exists (mkposreal 1 Rlt_0_1). intros y _ z _. eexists. apply DI.
      + intros z _. apply (continuity_2d_pt_ext g); [|apply C]. intros u v. symmetry. apply is_derive_unique. apply DI.
      + exists (mkposreal 1 Rlt_0_1). intros y _. apply (ex_RInt_continuous (V := R_CompleteNormedModule)). intros z _. destruct (Rle_dec a y) as [H|H].
        * apply (inner_continuous (fun z x => g x z) a y z H). apply cont2_swap. exact C.
        * apply (continuous_ext (fun z => opp (RInt (fun x => g x z) y a))); [intros u; apply (opp_RInt_swap (V := R_CompleteNormedModule)), (ex_RInt_swap (V := R_NormedModule)), ex_fst; exact C|].
          apply (continuous_opp (V := R_NormedModule) (fun z => RInt (fun x => g x z) y a)). apply (inner_continuous (fun z x => g x z) y a z); [lra|apply cont2_swap; exact C].
    - apply RInt_ext. intros z _. apply is_derive_unique. apply DI. }
  assert (E : F b - F a = G b - G a).
  { assert (K : forall t, is_derive (fun t => F t - G t) t 0).
    { intros t. replace 0 with (minus (RInt (g t) c d) (RInt (g t) c d)) by (unfold minus, plus, opp; cbn; ring). apply (is_derive_minus (V := R_NormedModule) F G t); [apply DF|apply DG]. }
    destruct (MVT_gen (fun t => F t - G t) a b (fun _ => 0)) as (t & _ & E); [intros; apply K| |].
    - intros t _. apply continuity_pt_filterlim. exact (ex_derive_continuous (V := R_NormedModule) (fun t => F t - G t) t (ex_intro _ 0 (K t))).
    - lra. }
  assert (FA : F a = 0) by apply (RInt_point (V := R_CompleteNormedModule)).
  assert (GA : G a = 0).
  { unfold G. rewrite (RInt_ext _ (fun _ => 0)); [|intros z _; apply (RInt_point (V := R_CompleteNormedModule))]. rewrite RInt_const. unfold scal; cbn; unfold mult; cbn; ring. }
  fold (F b). fold (G b). lra.
Qed.

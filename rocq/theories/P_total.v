(** * Proofs: when each of the wavefunctions has a value *)
From Coq Require Import String Reals List Bool Arith Lia Lra ZArith.
From Verif Require Import XReal S_physics M_slog M_models M_antisym M_construct S_models S_antisym S_construct P_xsum P_slog P_split P_equiv P_equiv2 P_jastrow P_models P_inv P_parity P_flips P_sgn P_antisym P_antieq P_leibniz P_signsym P_construct P_construct2 P_construct3 P_construct4 P_construct5 P_dispatch.
Import ListNotations.
Local Open Scope R_scope.

Definition has {A} (o : option A) : Prop := exists a, o = Some a.
Lemma has_some {A} (a : A) : has (Some a).
Proof. exists a. reflexivity. Qed.
Lemma has_none {A} : ~ has (@None A).
Proof. intros (a & E). discriminate. Qed.
Lemma has_bind {A B} (o : option A) (f : A -> option B) a : o = Some a -> (has (bind_opt o f) <-> has (f a)).
Proof. intros ->. reflexivity. Qed.
Lemma has_check {A} (b : bool) (r : option A) : has (check b r) <-> b = true /\ has r.
Proof. unfold check. destruct b; [split; [intros H; split; [reflexivity|exact H]|intros (_ & H); exact H]|split; [intros H; destruct (has_none H)|intros (H & _); discriminate]]. Qed.

(** ** Input streams *)
Lemma streams_total o n d x ions : shape2 n d x -> ions_fit d o -> so_ion_pos o = Some ions ->
  forall i1 i2 r1 r2, compute_input_streams o x = (i1, i2, r1, r2) ->
  (if so_ei_norm o then exists x1 d1, rows_of_input i1 = Some x1 /\ shape2 n d1 x1 else rows_of_input i1 = None) /\
  (exists d2, shape_opt n d2 i2) /\ (exists r, r1 = Some r /\ length r = n) /\ (if so_2e o then exists r, r2 = Some r else r2 = None).
Proof.
  intros Sx Fi Io i1 i2 r1 r2 E. destruct (streams_shape _ _ _ _ Sx Fi _ _ _ _ E) as (S1 & S2 & S3 & S4).
  assert (A : (if so_ei_norm o then has (rows_of_input i1) else rows_of_input i1 = None) /\ has r1 /\ (if so_2e o then has r2 else r2 = None)).
  { clear S1 S2 S3 S4. destruct (so_ei_norm o) eqn:En.
    - destruct (flat_input _ _ _ _ _ _ _ _ Sx Fi (or_intror En) E) as (x1 & E1). split; [exists x1; exact E1|].
      unfold compute_input_streams in E. rewrite Io, En in E. unfold compute_electron_ion in E. cbv zeta in E.
      destruct (so_2e o); [destruct (compute_electron_electron x (so_ee_norm o) (so_ee_soft o))|]; injection E as <- <- <- <-; split; try apply has_some; reflexivity.
    - unfold compute_input_streams in E. rewrite Io, En in E. unfold compute_electron_ion in E. cbv zeta in E.
      destruct (so_2e o); [destruct (compute_electron_electron x (so_ee_norm o) (so_ee_soft o))|]; injection E as <- <- <- <-; (split; [reflexivity|]); split; try apply has_some; reflexivity. }
  destruct A as (A1 & (r & ->) & A3). split; [|split; [exact S2|split; [exists r; split; [reflexivity|exact S3]|exact A3]]].
  destruct (so_ei_norm o); [|exact A1]. destruct A1 as (x1 & E1). destruct (S1 x1 E1) as (d1 & Sd). exists x1, d1. split; assumption.
Qed.

(** ** FermiNet *)
Definition pairwise_ok (m : ferminet) (k : nat) : Prop := fn_det_fn m <> None -> fn_mode m = PAIRWISE_EVEN -> fn_full_det m = false /\ k = 2%nat.
Lemma psi_iff m sizes O : oshape (fn_ndet m) (shapes_of (fn_full_det m) sizes) O -> sizes <> [] -> (0 < fn_ndet m)%nat ->
  (has (psi_from_orbitals m O) <-> pairwise_ok m (length sizes)).
Proof.
  intros H NE Nd. split.
  - intros (p & Ep) Df Md. destruct (fn_det_fn m) as [fn|] eqn:Ef; [|congruence]. rewrite (psi_value_spec m fn O Ef) in Ep. unfold psi_value in Ep. cbv zeta in Ep. rewrite Md in Ep.
    apply map_some in Ep. destruct Ep as (v & Ev & _). apply bind_some in Ev. destruct Ev as (fi & Ei & Ev). apply sequence_length in Ei. rewrite map_length in Ei.
    unfold psi_pairwise_even in Ev. destruct fi as [|up [|down [|]]]; try discriminate. cbn [length] in Ei.
    assert (LO : length O = length sizes) by (apply Forall2_len in H; unfold shapes_of in H; rewrite map_length in H; congruence).
    destruct (fn_full_det m); [cbn in Ei; discriminate|]. split; [reflexivity|]. lia.
  - intros Pw. apply (psi_total m sizes O H NE Nd). intros fn Ef Md. apply Pw; [congruence|exact Md].
Qed.
Lemma reshape_none nd l : nd = 0%nat -> l <> [] -> sequence (map (reshape_raw_orbitals nd) l) = None.
Proof. intros -> N. destruct l as [|a l]; [congruence|]. reflexivity. Qed.
Lemma eval_zero m osplit sizes norbs x r : describes osplit sizes -> length x = list_sum sizes -> match r with Some r => length r = list_sum sizes | None => True end -> fn_ndet m = 0%nat -> eval_orbitals m osplit norbs x r = None.
Proof.
  intros D L Lr Z. unfold eval_orbitals, check. destruct (_ && _) eqn:Eb; [|reflexivity]. apply andb_true_iff in Eb. destruct Eb as (Eb & _). apply Nat.eqb_eq in Eb. rewrite (nsplits_of osplit sizes D) in Eb.
  apply reshape_none; [exact Z|]. rewrite (orbitals_rows _ sizes x r); [|split; [exact D|cbn [orbital_layer_of ol_splits]; rewrite mapi_length; exact Eb]|exact L|exact Lr].
  intros Q. apply (f_equal (@length arr2)) in Q. rewrite by_spin_length in Q. destruct D as (NE & _). destruct sizes; [congruence|discriminate].
Qed.
Lemma matrices_iff m osplit sizes d x ions : describes osplit sizes -> osplit <> At [] -> built_for sizes (fn_backflow m) -> ions_fit d (fn_streams m) -> so_ion_pos (fn_streams m) = Some ions ->
  shape2 (list_sum sizes) d x ->
  (has (ferminet_orbital_matrices m x osplit) <-> (0 < fn_ndet m)%nat /\ so_ei_norm (fn_streams m) = true) /\
  forall O, ferminet_orbital_matrices m x osplit = Some O -> oshape (fn_ndet m) (shapes_of (fn_full_det m) sizes) O.
Proof.
  intros D Ns B Fi Io Sx. destruct (so_ei_norm (fn_streams m)) eqn:En; [destruct (Nat.eq_dec (fn_ndet m) 0) as [Z|NZ]|].
  - assert (E : ferminet_orbital_matrices m x osplit = None).
    { pose proof Sx as (L & _). unfold ferminet_orbital_matrices. destruct (compute_input_streams (fn_streams m) x) as (((i1, i2), r1), r2) eqn:E.
      destruct (streams_total _ _ _ _ _ Sx Fi Io _ _ _ _ E) as (S1 & (d2 & S2) & (r & -> & Lr) & _). rewrite En in S1. destruct S1 as (x1 & d1 & -> & Sx1). cbn [bind_opt]. unfold check. rewrite L.
      rewrite (built_ok sizes _ B). cbv zeta. destruct (norbitals_sizes (fn_full_det m) osplit sizes D (or_intror Ns)) as (norbs & -> & _). cbn [bind_opt].
      destruct (backflow_shape (fn_backflow m) sizes x1 i2 d1 d2 B Sx1 S2) as (d' & (Lb & _)). apply (eval_zero m osplit sizes); assumption. }
    rewrite E. split; [|discriminate]. split; [intros H; destruct (has_none H)|lia].
  - destruct (matrices_total m osplit sizes d x D B Fi Sx ltac:(lia) (or_intror En) (or_intror Ns)) as (O & E & S). rewrite E. split; [|intros O' EO; injection EO as <-; exact S].
    split; [intros _; split; [lia|reflexivity]|intros _; apply has_some].
  - assert (E : ferminet_orbital_matrices m x osplit = None).
    { unfold ferminet_orbital_matrices. destruct (compute_input_streams (fn_streams m) x) as (((i1, i2), r1), r2) eqn:E.
      destruct (streams_total _ _ _ _ _ Sx Fi Io _ _ _ _ E) as (S1 & _). rewrite En in S1. rewrite S1. reflexivity. }
    rewrite E. split; [|discriminate]. split; [intros H; destruct (has_none H)|intros (_ & H); discriminate].
Qed.
Lemma has_bind_iff {A B} (o : option A) (f : A -> option B) (P Q : Prop) : (has o <-> P) -> (P -> forall a, o = Some a -> (has (f a) <-> Q)) -> (has (bind_opt o f) <-> P /\ Q).
Proof.
  intros H1 H2. split.
  - intros (b & E). apply bind_some in E. destruct E as (a & Ea & Eb). assert (p : P) by (apply H1; exists a; exact Ea). split; [exact p|]. apply (H2 p a Ea). exists b. exact Eb.
  - intros (p & q). destruct (proj2 H1 p) as (a & Ea). rewrite (has_bind o f a Ea). apply (H2 p a Ea). exact q.
Qed.
Lemma ferminet_has m sizes d x ions : fits sizes d m -> fn_split m <> At [] -> so_ion_pos (fn_streams m) = Some ions -> shape2 (list_sum sizes) d x ->
  (has (ferminet_call m x) <-> ((0 < fn_ndet m)%nat /\ so_ei_norm (fn_streams m) = true) /\ pairwise_ok m (length sizes)).
Proof.
  intros (D & B & Fi) Ns Io Sx. unfold ferminet_call. destruct (matrices_iff m (fn_split m) sizes d x ions D Ns B Fi Io Sx) as (H & S). apply has_bind_iff; [exact H|].
  intros (Nd & _) O EO. apply psi_iff; [apply S; exact EO|apply D|exact Nd].
Qed.

(** ** Hidden particles *)
Lemma embed_iff e sizes d x ions : describes (fn_split (em_net e)) sizes -> fn_split (em_net e) <> At [] -> built_for sizes (em_backflow e) -> ions_fit d (em_streams e) ->
  so_ion_pos (em_streams e) = Some ions -> shape2 (list_sum sizes) d x ->
  (has (embed e x) <-> length (em_nhidden e) = length sizes /\ so_ei_norm (em_streams e) = true).
Proof.
  intros D Ns B Fi Io Sx. pose proof Sx as (L & _). unfold embed. cbv zeta. rewrite L, (nelec_describes _ sizes D Ns). cbn [bind_opt]. rewrite to_nats_of. cbn [bind_opt].
  rewrite has_check, Nat.eqb_eq, (split_cut _ sizes x D L). cbn [bind_opt]. destruct (compute_input_streams (em_streams e) x) as (((i1, i2), r1), r2) eqn:E.
  destruct (streams_total _ _ _ _ _ Sx Fi Io _ _ _ _ E) as (S1 & _). destruct (so_ei_norm (em_streams e)).
  - destruct S1 as (x1 & d1 & -> & _). cbn [bind_opt]. unfold check. rewrite (built_ok sizes _ B). split; intros (H & _); split; try exact H; [reflexivity|apply has_some].
  - rewrite S1. cbn [bind_opt]. split; intros (H & H'); [destruct (has_none H')|discriminate].
Qed.
Lemma embedded_has e sizes d x ions ions' : describes (fn_split (em_net e)) sizes -> fn_split (em_net e) <> At [] -> built_for sizes (em_backflow e) -> ions_fit d (em_streams e) ->
  so_ion_pos (em_streams e) = Some ions -> (length (em_nhidden e) = length sizes -> built_for (embedded_sizes sizes e) (fn_backflow (em_net e))) -> ions_fit d (fn_streams (em_net e)) -> so_ion_pos (fn_streams (em_net e)) = Some ions' ->
  (2 <= length sizes)%nat -> (0 < list_sum sizes)%nat -> shape2 (list_sum sizes) d x ->
  (has (embedded_call e x) <-> (length (em_nhidden e) = length sizes /\ so_ei_norm (em_streams e) = true) /\
     ((0 < fn_ndet (em_net e))%nat /\ so_ei_norm (fn_streams (em_net e)) = true) /\ pairwise_ok (em_net e) (length sizes)).
Proof.
  intros D Ns B Fi Io B' Fi' Io' L2 N Sx. unfold embedded_call. apply has_bind_iff; [apply (embed_iff e sizes d x ions); assumption|].
  intros (Lh & _) p Ep. pose proof (embed_spec e sizes d (fun i => i) x D B Fi) as Q.
  assert (K : keeps_spins sizes (fun i => i)) by (split; [unfold renumbering; rewrite map_id; apply Permutation.Permutation_refl|intros; reflexivity]). specialize (Q K N Sx). rewrite Ep in Q. destruct (embed e (reorder _ x)) as [q|]; [|contradiction].
  destruct Q as (_ & D' & S' & N' & _). specialize (B' Lh).
  assert (Le : length (embedded_sizes sizes e) = length sizes) by (unfold embedded_sizes; apply zipw_add_length; symmetry; exact Lh).
  assert (Ns' : snd p <> At []).
  { unfold embed in Ep. cbv zeta in Ep. apply bind_some in Ep. destruct Ep as (vis & _ & Ep). apply check_some in Ep. destruct Ep as (Lv & Ep). apply Nat.eqb_eq in Lv.
    apply bind_some in Ep. destruct Ep as (sp & _ & Ep). destruct (compute_input_streams (em_streams e) x) as (((i1, i2), r1), r2). apply bind_some in Ep. destruct Ep as (s1 & _ & Ep). apply check_some in Ep. destruct Ep as (_ & Ep).
    injection Ep as <-. cbn [snd]. intros Q. assert (Lz : length (zipw Nat.add vis (em_nhidden e)) = length sizes) by (rewrite zipw_add_length; lia).
    destruct (zipw Nat.add vis (em_nhidden e)) as [|a [|b l]]; cbn [length] in Lz; try lia. discriminate Q. }
  destruct (matrices_iff (em_net e) (snd p) (embedded_sizes sizes e) d (fst p) ions' D' Ns' B' Fi' Io' S') as (H & S).
  apply has_bind_iff; [exact H|]. intros (Nd & _) O EO. rewrite <- Le. apply psi_iff; [apply S; exact EO|apply D'|exact Nd].
Qed.

Lemma oshape_append nd a h w (E I : list (list arr2)) : oshape nd (combine a w) E -> oshape nd (combine h w) I -> length a = length w -> length h = length w ->
  oshape nd (combine (zipw Nat.add a h) w) (zipw (zipw (fun eq inv => eq ++ inv)) E I).
Proof.
  revert a h E I. induction w as [|c w IH]; intros [|x a] [|y h] E I HE HI La Lh; try discriminate; [inversion HE; inversion HI; subst; constructor|].
  cbn [combine] in HE, HI. inversion HE as [|? e ? E' (Le & Fe) HE']; subst. inversion HI as [|? i ? I' (Li & Fi) HI']; subst. unfold zipw in *. cbn [combine map fst snd].
  constructor; [|apply IH; [exact HE'|exact HI'|cbn in La; lia|cbn in Lh; lia]]. cbn [fst snd] in *. split; [rewrite map_length, combine_length; lia|].
  intros k Hk. change (map (fun p => fst p ++ snd p) (combine e i)) with (zipw (fun p q : arr2 => p ++ q) e i).
  rewrite (zipw_nth _ _ _ _ [] [] []) by lia. destruct (Fe k Hk) as (L1 & F1). destruct (Fi k Hk) as (L2 & F2). split; [rewrite app_length; lia|apply Forall_app; split; assumption].
Qed.
Lemma extended_has e sizes d x ions : fits sizes d (ex_net e) -> fn_split (ex_net e) <> At [] -> so_ion_pos (fn_streams (ex_net e)) = Some ions -> extended_backflow_ok sizes e ->
  shape2 (list_sum sizes) d x ->
  (has (extended_call e x) <-> (length (ex_nhidden e) = length sizes /\ (0 < fn_ndet (ex_net e))%nat /\ so_ei_norm (fn_streams (ex_net e)) = true) /\ pairwise_ok (ex_net e) (length sizes)).
Proof.
  intros (D & B & Fi) Ns Io Be Sx. pose proof Sx as (L & _). unfold extended_call.
  assert (NE : sizes <> []) by apply D.
  assert (H : (has (extended_orbital_matrices e x) <-> length (ex_nhidden e) = length sizes /\ (0 < fn_ndet (ex_net e))%nat /\ so_ei_norm (fn_streams (ex_net e)) = true) /\
    forall O, extended_orbital_matrices e x = Some O -> length (ex_nhidden e) = length sizes -> (0 < fn_ndet (ex_net e))%nat -> so_ei_norm (fn_streams (ex_net e)) = true ->
      oshape (fn_ndet (ex_net e)) (shapes_of (fn_full_det (ex_net e)) (zipw Nat.add sizes (ex_nhidden e))) O).
  { unfold extended_orbital_matrices. cbv zeta. destruct (compute_input_streams (fn_streams (ex_net e)) x) as (((i1, i2), r1), r2) eqn:E.
    destruct (streams_total _ _ _ _ _ Sx Fi Io _ _ _ _ E) as (S1 & (d2 & S2) & (r & -> & Lr) & _).
    destruct (so_ei_norm (fn_streams (ex_net e))); [|rewrite S1; cbn [bind_opt]; split; [split; [intros Q; destruct (has_none Q)|intros (_ & _ & Q); discriminate]|discriminate]].
    destruct S1 as (x1 & d1 & -> & Sx1). cbn [bind_opt]. unfold check at 1 2. rewrite L, (built_ok sizes _ B), (nsplits_of _ sizes D). cbn [andb].
    destruct (Nat.eqb_spec (length (ex_nhidden e)) (length sizes)) as [Lh|Nh]; [|split; [split; [intros Q; destruct (has_none Q)|intros (Q & _); congruence]|discriminate]].
    set (sizes' := zipw Nat.add sizes (ex_nhidden e)). assert (Ls' : length sizes' = length sizes) by (apply zipw_add_length; symmetry; exact Lh).
    assert (Nb : exists norbs, extended_norbitals e (list_sum sizes) = Some norbs /\ combine sizes' norbs = shapes_of (fn_full_det (ex_net e)) sizes' /\ length norbs = length sizes).
    { unfold extended_norbitals. cbv zeta. rewrite (nsplits_of _ sizes D), (nelec_describes _ sizes D Ns). cbn [bind_opt]. rewrite to_nats_of. cbn [option_map]. unfold shapes_of. destruct (fn_full_det (ex_net e)).
      - eexists. split; [reflexivity|]. rewrite repeat_length. split; [|reflexivity]. replace (list_sum sizes + list_sum (ex_nhidden e))%nat with (list_sum sizes') by (apply zipw_add_sum; symmetry; exact Lh).
        rewrite <- Ls'. generalize (list_sum sizes') as w. clear. intros w. induction sizes' as [|n l IH]; [reflexivity|]. cbn [length repeat combine map]. rewrite IH. reflexivity.
      - eexists. split; [reflexivity|]. split; [|exact Ls']. fold sizes'. clear. induction sizes' as [|n l IH]; [reflexivity|]. cbn [combine map]. rewrite IH. reflexivity. }
    destruct Nb as (norbs & -> & Ec & Ln). cbn [bind_opt]. destruct (backflow_shape (fn_backflow (ex_net e)) sizes x1 i2 d1 d2 B Sx1 S2) as (d' & Sb). pose proof Sb as (Lb & _).
    destruct (Nat.eq_dec (fn_ndet (ex_net e)) 0) as [Z|NZ].
    { rewrite (eval_zero (ex_net e) _ sizes) by assumption. cbn [bind_opt]. split; [split; [intros Q; destruct (has_none Q)|lia]|discriminate]. }
    destruct (eval_shape (ex_net e) (fn_split (ex_net e)) sizes norbs (backflow (fn_backflow (ex_net e)) x1 i2) (Some r) D Lb Lr Ln ltac:(lia)) as (Q & -> & SQ). cbn [bind_opt].
    assert (Iv : exists Iv, extended_invariance e norbs x1 i2 (backflow (fn_backflow (ex_net e)) x1 i2) = Some Iv /\ oshape (fn_ndet (ex_net e)) (combine (ex_nhidden e) norbs) Iv).
    { unfold extended_invariance. cbv zeta. unfold check. rewrite (proj1 Sx1). unfold extended_backflow_ok in Be.
      assert (G : match ex_backflow e with Some bs => backflow_ok bs (list_sum sizes) | None => true end = true) by (destruct (ex_backflow e) as [bs|]; [apply built_ok; exact Be|reflexivity]). rewrite G.
      assert (Sh := tensor_shapes (fn_split (ex_net e)) None (ex_dense e) (zipw (fun h n => (h, (n * fn_ndet (ex_net e))%nat)) (ex_nhidden e) norbs) sizes
        (match ex_backflow e with Some bs => backflow bs x1 i2 | None => backflow (fn_backflow (ex_net e)) x1 i2 end) None D
        ltac:(destruct (ex_backflow e) as [bs|]; [destruct (backflow_shape bs sizes x1 i2 d1 d2 Be Sx1 S2) as (dd & (Ld & _)); exact Ld|exact Lb])
        ltac:(rewrite zipw_length; lia)).
      set (T := invariant_tensor _ _ _ _ _) in *. clearbody T. assert (LT : length T = length (ex_nhidden e)) by (rewrite <- (Forall2_len _ _ _ Sh), zipw_length; lia).
      apply raw_shape; [lia|lia|exact LT|]. intros b Hb. assert (Sb' : shape2 (nth b (ex_nhidden e) 0%nat) (nth b norbs 0 * fn_ndet (ex_net e))%nat (nth b T [])).
      { assert (Ln' : length (ex_nhidden e) = length norbs) by lia. clear -Sh Hb Ln'. revert T norbs b Sh Hb Ln'. generalize (ex_nhidden e) as hs. induction hs as [|h hs IH]; intros T [|w ws] b Sh Hb Ln'; cbn [length] in *; try lia.
        unfold zipw in Sh. cbn [combine map fst snd] in Sh. inversion Sh as [|? t ? T' S0 S']; subst. cbn [fst snd] in S0. destruct b as [|b]; cbn [nth]; [exact S0|]. apply IH; [exact S'|lia|lia]. }
      destruct Sb' as (A1 & A2). split; assumption. }
    destruct Iv as (Iv & -> & SI). cbn [bind_opt]. split; [split; [intros _; repeat split; [exact Lh|lia]|intros _; apply has_some]|].
    intros O EO _ _ _. injection EO as <-. rewrite <- Ec. apply oshape_append; [exact SQ|exact SI|lia|lia]. }
  destruct H as (H & S). apply has_bind_iff; [exact H|]. intros (Lh & Nd & En) O EO.
  assert (Ls' : length (zipw Nat.add sizes (ex_nhidden e)) = length sizes) by (apply zipw_add_length; symmetry; exact Lh). rewrite <- Ls'.
  apply psi_iff; [apply S; assumption|intros Q; rewrite Q in Ls'; destruct sizes; [congruence|discriminate]|exact Nd].
Qed.

(** ** Antiequivariant readout *)
Lemma by_spin_square sizes (g : nat -> nat -> vec) (w : nat -> nat) m : (forall b i, (b < length sizes)%nat -> length (g b i) = nth b sizes 0%nat) -> In m (by_spin sizes g) -> is_square m = true.
Proof.
  intros H Hm. apply (In_nth _ _ []) in Hm. destruct Hm as (b & Hb & <-). rewrite by_spin_length in Hb. apply is_square_iff. rewrite by_spin_nth by exact Hb.
  rewrite map_length, seq_length. apply Forall_map, Forall_forall. intros i _. apply H. exact Hb.
Qed.
Lemma cofactor_has m : is_square m = true -> (has (cofactor_antieq m) <-> (0 < length m)%nat).
Proof.
  intros Sq. rewrite cofactor_spec, Sq. destruct (Nat.eqb_spec (length m) 0) as [Z|NZ]; split; intros H; try lia; [destruct (has_none H)|apply has_some].
Qed.
Lemma sequence_has {A B} (f : A -> option B) l : has (sequence (map f l)) <-> Forall (fun a => has (f a)) l.
Proof.
  induction l as [|a l IH]; cbn [map sequence]; [split; [constructor|intros _; apply has_some]|]. split.
  - intros (r & E). destruct (f a) as [b|] eqn:Ea; [|discriminate]. destruct (sequence (map f l)) as [q|]; [|discriminate]. constructor; [exists b; exact Ea|apply IH; apply has_some].
  - intros H. inversion H as [|? ? (b & Ea) H']; subst. rewrite Ea. apply IH in H'. destruct H' as (q & ->). apply has_some.
Qed.
Lemma layer_has k l sizes x r : orbitals_ok sizes l -> length x = list_sum sizes -> rows_opt (list_sum sizes) r ->
  (forall b, (b < length sizes)%nat -> o_norb (nth b (ol_splits l) orbital_default) = nth b sizes 0%nat) ->
  (has (layer_of k l x r) <-> (k = Cofactor -> Forall (fun n => (0 < n)%nat) sizes)).
Proof.
  intros O L Lr Hn. destruct k; cbn [layer_of].
  - unfold orbital_cofactor_layer. rewrite sequence_has, (orbitals_rows l sizes x r O L Lr). set (g := fun b i => _).
    assert (Sq : forall m, In m (by_spin sizes g) -> is_square m = true).
    { intros m. apply (by_spin_square sizes g (fun b => nth b sizes 0%nat)). intros b i Hb. unfold g. rewrite orbital_row_length. apply Hn. exact Hb. }
    assert (E : Forall (fun n => (0 < n)%nat) (map (@length vec) (by_spin sizes g)) <-> Forall (fun n => (0 < n)%nat) sizes) by (rewrite by_spin_lengths; reflexivity).
    rewrite Forall_map in E. split.
    + intros H _. apply E. rewrite Forall_forall in *. intros m Hm. apply (proj1 (cofactor_has m (Sq m Hm))). apply H. exact Hm.
    + intros H. specialize (H eq_refl). apply E in H. rewrite Forall_forall in *. intros m Hm. apply (proj2 (cofactor_has m (Sq m Hm))). apply H. exact Hm.
  - split; [intros _ H; discriminate|intros _]. unfold per_particle_determinant_layer. rewrite sequence_has, (doubly_rows l sizes x r O L Lr).
    apply Forall_forall. intros ms Hms. apply (In_nth _ _ []) in Hms. destruct Hms as (b & Hb & <-). rewrite mapi_length, by_spin_length in Hb.
    rewrite (mapi_nth _ _ b [] []) by (rewrite by_spin_length; exact Hb). apply sequence_has, Forall_forall. intros m Hm. unfold double_matrices in Hm. apply in_map_iff in Hm. destruct Hm as (p & <- & _).
    apply (square_some (nth b sizes 0%nat)). rewrite by_spin_nth by exact Hb. split; [rewrite !map_length, seq_length; reflexivity|].
    apply Forall_map, Forall_forall. intros q _. rewrite orbital_row_length. apply Hn. exact Hb.
Qed.
Definition readout_ok (sizes : list nat) (c : sign_covariance) : Prop := match c with Products _ => True | OddBackflow bs => built_for sizes bs end.
Definition is_products (c : sign_covariance) : Prop := match c with Products _ => True | OddBackflow _ => False end.
Lemma antieq_has a sizes d x ions : describes (an_split a) sizes -> an_split a <> At [] -> built_for sizes (an_backflow a) -> ions_fit d (an_streams a) -> so_ion_pos (an_streams a) = Some ions ->
  readout_ok sizes (an_cov a) -> shape2 (list_sum sizes) d x ->
  (has (antieq_net_call a x) <-> so_ei_norm (an_streams a) = true /\ (an_kind a = Cofactor -> Forall (fun n => (0 < n)%nat) sizes) /\ (is_products (an_cov a) -> length sizes = 2%nat)).
Proof.
  intros D Ns B Fi Io Rc Sx. pose proof Sx as (L & _). unfold antieq_net_call.
  destruct (compute_input_streams (an_streams a) x) as (((i1, i2), r1), r2) eqn:E.
  destruct (streams_total _ _ _ _ _ Sx Fi Io _ _ _ _ E) as (S1 & (d2 & S2) & (r & -> & Lr) & _).
  destruct (so_ei_norm (an_streams a)); [|rewrite S1; cbn [bind_opt]; split; [intros Q; destruct (has_none Q)|intros (Q & _); discriminate]].
  destruct S1 as (x1 & d1 & -> & Sx1). cbn [bind_opt]. unfold check. rewrite L, (built_ok sizes _ B). cbv zeta.
  destruct (backflow_shape (an_backflow a) sizes x1 i2 d1 d2 B Sx1 S2) as (d' & Sb). set (bo := backflow (an_backflow a) x1 i2) in *. pose proof Sb as (Lb & _).
  assert (Ly : (has (antieq_layer a bo (Some r)) <-> (an_kind a = Cofactor -> Forall (fun n => (0 < n)%nat) sizes)) /\ forall vs, antieq_layer a bo (Some r) = Some vs -> map (@length xr) vs = sizes).
  { unfold antieq_layer. rewrite Lb, (nelec_describes _ sizes D Ns). cbn [bind_opt]. rewrite to_nats_of. cbn [bind_opt]. unfold check. rewrite (describes_splittable _ sizes D).
    set (ly := Build_orbital_layer _ _ _ _). assert (Ok : orbitals_ok sizes ly) by (split; [exact D|cbn; apply mapi_length]).
    change (match an_kind a with Cofactor => orbital_cofactor_layer ly bo (Some r) | PerParticle => per_particle_determinant_layer ly bo (Some r) end)
      with (layer_of (an_kind a) ly bo (Some r)). split.
    - apply (layer_has (an_kind a) ly sizes bo (Some r) Ok Lb Lr). intros b Hb. unfold ly. cbn [ol_splits]. rewrite (mapi_nth _ sizes b 0%nat) by exact Hb. reflexivity.
    - intros vs. apply (layer_lengths (an_kind a) ly sizes bo (Some r) vs Ok Lb Lr). }
  destruct Ly as (H & Lv).
  enough (G : has (bind_opt (antieq_layer a bo (Some r)) (fun antieq => bind_opt (if an_multiply a then multiply_antieq_by_eq_features antieq bo (an_split a) else Some (map (map (fun v => [v])) antieq))
      (fun o => bind_opt (apply_sign_covariance (an_cov a) o) (fun v => Some (array_to_slog (xsum v)))))) <->
    (an_kind a = Cofactor -> Forall (fun n => (0 < n)%nat) sizes) /\ (is_products (an_cov a) -> length sizes = 2%nat)).
  { rewrite G. split; [intros Q; split; [reflexivity|exact Q]|intros (_ & Q); exact Q]. }
  apply has_bind_iff; [exact H|]. intros _ vs Ev.
  change (if an_multiply a then multiply_antieq_by_eq_features vs bo (an_split a) else Some (map (map (fun v => [v])) vs)) with (antieq_out a vs bo).
  rewrite (antieq_out_spec a sizes vs bo D (Lv vs Ev) Lb). cbn [bind_opt]. set (F := zipw _ _ _).
  assert (LF : length F = list_sum sizes) by (unfold F; rewrite zipw_length, concat_lengths, (Lv vs Ev); lia).
  pose proof (cut_length sizes F) as Lc. destruct (an_cov a) as [w|bs]; cbn [apply_sign_covariance is_products].
  - unfold products_sign_covariance. destruct (cut sizes F) as [|up [|down [|z l]]]; cbn [length] in Lc.
    + split; [intros Q; destruct (has_none Q)|intros Q; specialize (Q Logic.I); lia].
    + split; [intros Q; destruct (has_none Q)|intros Q; specialize (Q Logic.I); lia].
    + split; [intros _ _; lia|intros _]. destruct w; apply has_some.
    + split; [intros Q; destruct (has_none Q)|intros Q; specialize (Q Logic.I); lia].
  - split; [intros _ []|intros _]. cbv zeta. unfold check. rewrite cut_concat by exact LF. rewrite LF, (built_ok sizes bs Rc). apply has_some.
Qed.

(** ** Explicit antisymmetrisation *)
Lemma reduce_length {A} (f : list A -> list A -> list A) n l r : (forall a b, length a = n -> length b = n -> length (f a b) = n) -> Forall (fun a => length a = n) l -> reduce f l = Some r -> length r = n.
Proof.
  intros Hf H E. destruct l as [|a l]; [discriminate|]. injection E as <-. pose proof (Forall_inv H) as Ha. pose proof (Forall_inv_tail H) as Hl. clear H.
  revert a Ha. induction Hl as [|b l Hb _ IH]; intros a Ea; cbn [fold_left]; [exact Ea|]. apply IH. apply Hf; assumption.
Qed.
Lemma single_leaf_length dout fn x : length (single_leaf_call dout fn x) = dout.
Proof. unfold single_leaf_call. destruct (parallel_permutations x). unfold vsum. rewrite map_length. apply seq_length. Qed.
Definition rank_ok (k : antisym_kind) : Prop := match k with Factorized rank _ => (0 < rank)%nat | Generic _ => True end.
Lemma antisym_part_has e xs : xs <> [] -> (has (antisym_part e xs) <-> rank_ok (en_antisym e)).
Proof.
  intros NE. unfold antisym_part. destruct (en_antisym e) as [rank rs|r]; cbn [rank_ok]; [|split; [intros _; exact Logic.I|intros _; apply has_some]].
  unfold factorized_antisymmetrize_slog. rewrite mapi_length, Nat.eqb_refl. set (fns := mapi _ xs). set (L := map (map array_to_slog) (zipw (single_leaf_call rank) fns xs)).
  assert (LL : length L = length xs) by (unfold L; rewrite map_length, zipw_length; unfold fns; rewrite mapi_length; lia).
  assert (FL : Forall (fun a => length a = rank) L).
  { unfold L. apply Forall_map. unfold zipw. apply Forall_map, Forall_forall. intros p _. rewrite map_length. apply single_leaf_length. }
  destruct (reduce (zipw slog_multiply) L) as [q|] eqn:Eq.
  - apply (reduce_length (zipw slog_multiply) rank) in Eq; [|intros a b Ha Hb; rewrite zipw_length; lia|exact FL]. cbn [bind_opt]. unfold slog_sum_over_axis. rewrite log_linear_exp_spec.
    destruct q as [|s q]; cbn [length] in Eq; [split; [intros Q; destruct (has_none Q)|lia]|]. split; [lia|intros _; apply has_some].
  - destruct L; [destruct xs; [congruence|discriminate]|discriminate].
Qed.
Definition needs_2e (j : jastrow) : Prop := match j with TwoBodyDecay _ _ _ _ | AddedJastrow _ _ _ _ _ => True | _ => False end.
Lemma explicit_has e sizes d x ions : describes (en_split e) sizes -> built_for sizes (en_backflow e) -> ions_fit d (en_streams e) -> so_ion_pos (en_streams e) = Some ions ->
  jastrow_built_for sizes (en_jastrow e) -> shape2 (list_sum sizes) d x ->
  (has (explicit_call e x) <-> so_ei_norm (en_streams e) = true /\ rank_ok (en_antisym e) /\ (needs_2e (en_jastrow e) -> so_2e (en_streams e) = true)).
Proof.
  intros D B Fi Io J Sx. pose proof Sx as (L & _). unfold explicit_call.
  destruct (compute_input_streams (en_streams e) x) as (((i1, i2), r1), r2) eqn:E.
  destruct (streams_total _ _ _ _ _ Sx Fi Io _ _ _ _ E) as (S1 & (d2 & S2) & (r & -> & Lr) & S4).
  destruct (so_ei_norm (en_streams e)); [|rewrite S1; cbn [bind_opt]; split; [intros Q; destruct (has_none Q)|intros (Q & _); discriminate]].
  destruct S1 as (x1 & d1 & -> & Sx1). cbn [bind_opt]. unfold check. rewrite L, (built_ok sizes _ B). cbv zeta.
  destruct (backflow_shape (en_backflow e) sizes x1 i2 d1 d2 B Sx1 S2) as (d' & Sb). set (bo := backflow (en_backflow e) x1 i2) in *. pose proof Sb as (Lb & _).
  rewrite (split_cut _ sizes bo D Lb). cbn [bind_opt].
  assert (Nc : cut sizes bo <> []) by (intros Q; apply (f_equal (@length arr2)) in Q; rewrite cut_length in Q; destruct D as (NE & _); destruct sizes; [congruence|discriminate]).
  assert (Jc : has (jastrow_call (en_jastrow e) x1 i2 bo (Some r) r2) <-> (needs_2e (en_jastrow e) -> so_2e (en_streams e) = true)).
  { destruct (en_jastrow e) as [k|q1 q2 ei ee|bs|q1 q2 ei ee bs]; cbn [jastrow_call needs_2e jastrow_built_for option_map] in *.
    - split; [intros _ []|intros _; apply has_some].
    - unfold two_body_part. destruct (so_2e (en_streams e)); [destruct S4 as (r' & ->); split; [reflexivity|intros _; apply has_some]|rewrite S4; split; [intros Q; destruct (has_none Q)|intros Q; specialize (Q Logic.I); discriminate]].
    - split; [intros _ []|intros _]. unfold check. destruct bs as [bs|]; cbn [jastrow_backflow_ok]; [rewrite (proj1 Sx1), (built_ok sizes bs J)|]; apply has_some.
    - unfold two_body_part. destruct (so_2e (en_streams e)); [destruct S4 as (r' & ->); split; [reflexivity|intros _]|rewrite S4; split; [intros Q; destruct (has_none Q)|intros Q; specialize (Q Logic.I); discriminate]].
      cbn [bind_opt]. unfold check. destruct bs as [bs|]; cbn [jastrow_backflow_ok]; [rewrite (proj1 Sx1), (built_ok sizes bs J)|]; apply has_some. }
  enough (G : has (bind_opt (antisym_part e (cut sizes bo)) (fun antisym => bind_opt (jastrow_call (en_jastrow e) x1 i2 bo (Some r) r2) (fun j => Some (fst antisym, xadd (snd antisym) j)))) <->
    rank_ok (en_antisym e) /\ (needs_2e (en_jastrow e) -> so_2e (en_streams e) = true)).
  { rewrite G. split; [intros Q; split; [reflexivity|exact Q]|intros (_ & Q); exact Q]. }
  apply has_bind_iff; [apply antisym_part_has; exact Nc|]. intros _ a _. rewrite <- Jc. destruct (jastrow_call _ _ _ _ _ _) as [v|]; cbn [bind_opt]; [split; intros _; apply has_some|split; intros Q; destruct (has_none Q)].
Qed.

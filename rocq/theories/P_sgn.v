(** * Multiplying extended reals and sign-log values by a sign *)
From Coq Require Import Reals List Arith Lia Lra Permutation.
From Verif Require Import XReal M_slog M_models S_models P_xsum P_equiv.
Import ListNotations.
Local Open Scope R_scope.

Definition unit (s : R) : Prop := s = 1 \/ s = -1.
Definition sg (s : R) (x : xr) : xr := xmul (Fin s) x.
Definition signed (s : R) (p : slog) : slog := (sg s (fst p), snd p).

Lemma sg_1 x : sg 1 x = x.
Proof. destruct x; cbn; unfold inf_of_sign; repeat (destruct (Rlt_dec _ _); try lra); try reflexivity. f_equal; ring. Qed.
Lemma sg_m1 x : sg (-1) x = xopp x.
Proof. destruct x; cbn; unfold inf_of_sign; repeat (destruct (Rlt_dec _ _); try lra); try reflexivity. f_equal; ring. Qed.
Lemma unit_mul s t : unit s -> unit t -> unit (s * t).
Proof. intros [-> | ->] [-> | ->]; [left|right|right|left]; ring. Qed.
Lemma unit_sq s : unit s -> s * s = 1.
Proof. intros [-> | ->]; ring. Qed.
Lemma xopp_xopp x : xopp (xopp x) = x.
Proof. destruct x; cbn; try reflexivity. f_equal; ring. Qed.
Lemma xopp_xadd a b : xopp (xadd a b) = xadd (xopp a) (xopp b).
Proof. destruct a, b; cbn; try reflexivity. f_equal; ring. Qed.
Lemma xopp_inf a : xopp (inf_of_sign a) = inf_of_sign (- a).
Proof. unfold inf_of_sign. repeat (destruct (Rlt_dec _ _); try lra); reflexivity. Qed.
Lemma xmul_opp_l a b : xmul (xopp a) b = xopp (xmul a b).
Proof. destruct a, b; cbn; try reflexivity; rewrite ?xopp_inf, ?Ropp_involutive; try reflexivity. f_equal; ring. Qed.
Lemma xmul_opp_r a b : xmul a (xopp b) = xopp (xmul a b).
Proof. destruct a, b; cbn; try reflexivity; rewrite ?xopp_inf, ?Ropp_involutive; try reflexivity. f_equal; ring. Qed.
Lemma xmul_comm a b : xmul a b = xmul b a.
Proof. destruct a, b; cbn; try reflexivity. f_equal; ring. Qed.

Ltac units H := destruct H as [-> | ->]; rewrite ?sg_1, ?sg_m1.
Lemma sg_mul s t x : unit s -> unit t -> sg s (sg t x) = sg (s * t) x.
Proof.
  intros [-> | ->] [-> | ->]; rewrite ?sg_1, ?sg_m1; [replace (1 * 1) with 1 by ring|replace (1 * -1) with (-1) by ring|replace (-1 * 1) with (-1) by ring|replace (-1 * -1) with 1 by ring];
    rewrite ?sg_1, ?sg_m1, ?xopp_xopp; reflexivity.
Qed.
Lemma sg_sg s x : unit s -> sg s (sg s x) = x.
Proof. intros H. rewrite sg_mul, unit_sq by exact H. apply sg_1. Qed.
Lemma sg_add s a b : unit s -> xadd (sg s a) (sg s b) = sg s (xadd a b).
Proof. intros H; units H; [reflexivity|]. symmetry; apply xopp_xadd. Qed.
Lemma sg_sum s l : unit s -> xsum (map (sg s) l) = sg s (xsum l).
Proof.
  intros H. induction l as [|a l IH]; [cbn; f_equal; ring|]. cbn [map]. rewrite !xsum_cons, IH. apply sg_add. exact H.
Qed.
Lemma sg_xmul_l s a b : unit s -> xmul (sg s a) b = sg s (xmul a b).
Proof. intros H; units H; [reflexivity|]. apply xmul_opp_l. Qed.
Lemma sg_xmul_r s a b : unit s -> xmul a (sg s b) = sg s (xmul a b).
Proof. intros H; units H; [reflexivity|]. apply xmul_opp_r. Qed.
Lemma sg_abs s a : unit s -> xabs (sg s a) = xabs a.
Proof. intros H; units H; [reflexivity|]. destruct a; cbn; try reflexivity. rewrite Rabs_Ropp. reflexivity. Qed.
Lemma sg_sign s a : unit s -> xsign (sg s a) = sg s (xsign a).
Proof.
  intros H; units H; [reflexivity|]. destruct a; cbn; try reflexivity; try (f_equal; ring).
  repeat (destruct (Rlt_dec _ _); try lra); f_equal; ring.
Qed.
Lemma sg_slog s a : unit s -> array_to_slog (sg s a) = signed s (array_to_slog a).
Proof. intros H. unfold array_to_slog, signed. rewrite sg_abs, sg_sign by exact H. reflexivity. Qed.
Lemma sg_fin s a : sg s (Fin a) = Fin (s * a).
Proof. reflexivity. Qed.
Lemma signed_1 p : signed 1 p = p.
Proof. destruct p. unfold signed. cbn [fst snd]. rewrite sg_1. reflexivity. Qed.
Lemma signed_mul s t p : unit s -> unit t -> signed s (signed t p) = signed (s * t) p.
Proof. intros H1 H2. unfold signed. cbn [fst snd]. rewrite sg_mul by assumption. reflexivity. Qed.
Lemma slog_multiply_signed s t p q : unit s -> unit t -> slog_multiply (signed s p) (signed t q) = signed (s * t) (slog_multiply p q).
Proof.
  intros H1 H2. unfold slog_multiply, signed. cbn [fst snd]. rewrite sg_xmul_l, sg_xmul_r, sg_mul by assumption. reflexivity.
Qed.

(** ** Sums in sign-log form *)
Lemma xmax_minf a : xmax a MInf = a.
Proof. destruct a; reflexivity. Qed.
Lemma xmax_list_fold v vs : xmax_list v vs = fold_right xmax MInf (v :: vs).
Proof.
  unfold xmax_list. revert v. induction vs as [|a vs IH]; intros v; cbn [fold_left fold_right]; [symmetry; apply xmax_minf|].
  rewrite IH. cbn [fold_right]. rewrite xmax_assoc. reflexivity.
Qed.
Lemma terms_divided_spec (x : list slog) : terms_divided_by_max x =
  match x with [] => None | _ => let m := fold_right xmax MInf (map snd x) in Some (m, map (fun p => xmul (fst p) (xexp (xsub (snd p) m))) x) end.
Proof. unfold terms_divided_by_max. destruct x as [|p x]; [reflexivity|]. cbn [map]. rewrite xmax_list_fold. reflexivity. Qed.
Lemma log_linear_exp_spec (x : list slog) : log_linear_exp x =
  match x with [] => None | _ => let m := fold_right xmax MInf (map snd x) in Some (from_divided m (xsum (map (fun p => xmul (fst p) (xexp (xsub (snd p) m))) x))) end.
Proof. unfold log_linear_exp. rewrite terms_divided_spec. destruct x; reflexivity. Qed.
Lemma log_linear_exp_perm x x' : Permutation x x' -> log_linear_exp x = log_linear_exp x'.
Proof.
  intros P. rewrite !log_linear_exp_spec. destruct x as [|p x].
  - apply Permutation_nil in P. subst. reflexivity.
  - destruct x' as [|p' x']; [apply Permutation_sym, Permutation_nil in P; discriminate|]. cbv zeta.
    rewrite (xmax_perm _ _ (Permutation_map snd P)). f_equal. f_equal. apply xsum_perm. apply Permutation_map. exact P.
Qed.
Lemma log_linear_exp_signed s x : unit s -> log_linear_exp (map (signed s) x) = option_map (signed s) (log_linear_exp x).
Proof.
  intros H. rewrite !log_linear_exp_spec. destruct x as [|p x]; [reflexivity|]. change (map (signed s) (p :: x)) with (signed s p :: map (signed s) x) at 1.
  cbv zeta. cbn [option_map]. f_equal. rewrite !map_map.
  rewrite (map_ext (fun q => snd (signed s q)) snd) by reflexivity.
  set (m := fold_right xmax MInf (map snd (p :: x))).
  rewrite (map_ext (fun q => xmul (fst (signed s q)) (xexp (xsub (snd (signed s q)) m))) (fun q => sg s (xmul (fst q) (xexp (xsub (snd q) m))))).
  - rewrite <- (map_map (fun q : slog => xmul (fst q) (xexp (xsub (snd q) m))) (sg s)). rewrite sg_sum by exact H.
    unfold from_divided, signed. cbn [fst snd]. rewrite sg_sign, sg_abs by exact H. reflexivity.
  - intros q. unfold signed. cbn [fst snd]. apply sg_xmul_l. exact H.
Qed.

(** ** Sequences of fallible results *)
Lemma sequence_map_opt {A B C} (f : A -> option B) (g : B -> C) l :
  sequence (map (fun a => option_map g (f a)) l) = option_map (map g) (sequence (map f l)).
Proof.
  induction l as [|a l IH]; [reflexivity|]. cbn [map sequence]. rewrite IH. destruct (f a); [|reflexivity].
  cbn. destruct (sequence (map f l)); reflexivity.
Qed.
Lemma sequence_some {A} (l : list A) : sequence (map Some l) = Some l.
Proof. induction l as [|a l IH]; [reflexivity|]. cbn. rewrite IH. reflexivity. Qed.
Lemma sequence_length {A} (l : list (option A)) r : sequence l = Some r -> length r = length l.
Proof.
  revert r. induction l as [|[a|] l IH]; cbn; intros r E; [injection E as <-; reflexivity| |discriminate].
  destruct (sequence l) as [r'|]; [|discriminate]. injection E as <-. cbn. rewrite (IH r' eq_refl). reflexivity.
Qed.
Lemma sequence_nth {A} (l : list (option A)) r i d : sequence l = Some r -> (i < length l)%nat -> nth i l None = Some (nth i r d).
Proof.
  revert r i. induction l as [|[a|] l IH]; cbn; intros r i E Hi; [lia| |discriminate].
  destruct (sequence l) as [r'|] eqn:Es; [|discriminate]. injection E as <-. destruct i as [|i]; [reflexivity|]. cbn. apply (IH r'); [reflexivity|lia].
Qed.
Lemma sequence_perm {A} (l l' : list (option A)) : Permutation l l' ->
  match sequence l, sequence l' with Some r, Some r' => Permutation r r' | None, None => True | _, _ => False end.
Proof.
  induction 1 as [|x l l' P IH|x y l|l l' l'' P1 IH1 P2 IH2]; cbn.
  - constructor.
  - destruct x; [|exact I]. destruct (sequence l), (sequence l'); try contradiction; auto.
  - destruct x, y; try exact I; destruct (sequence l); try exact I. apply perm_swap.
  - destruct (sequence l), (sequence l'), (sequence l''); try contradiction; auto. etransitivity; eassumption.
Qed.

(** * Real matrices with mathcomp: the reals as a field, determinants of nat-indexed tables *)
From Coq Require Import Reals List Epsilon FunctionalExtensionality Lra Lia Permutation FinFun.
From Verif Require Import Rsum S_perm.
From mathcomp Require Import all_ssreflect all_fingroup all_algebra.
Delimit Scope R_scope with RR.
Set Implicit Arguments. Unset Strict Implicit. Unset Printing Implicit Defensive.

Definition eqr (a b : R) : bool := if Req_EM_T a b then true else false.
Lemma eqrP : Equality.axiom eqr.
Proof. by move=> a b; rewrite /eqr; case: Req_EM_T => H; constructor. Qed.
Canonical R_eqType := Eval hnf in EqType R (EqMixin eqrP).

Definition pickR (P : pred R) (n : nat) : option R :=
  let x := epsilon (inhabits 0%RR) (fun y => P y = true) in if P x then Some x else None.
Fact pickR_some P n x : pickR P n = Some x -> P x.
Proof. by rewrite /pickR; case E: (P _) => // -[<-]. Qed.
Fact pickR_ex (P : pred R) : (exists x, P x) -> exists n, pickR P n.
Proof. by move=> H; exists 0%N; rewrite /pickR (epsilon_spec (inhabits 0%RR) (fun y => P y = true) H). Qed.
Fact pickR_ext (P Q : pred R) : P =1 Q -> pickR P =1 pickR Q.
Proof. by move=> E n; rewrite (_ : P = Q) //; apply: functional_extensionality. Qed.
Definition R_choiceMixin : choiceMixin R := Choice.Mixin pickR_some pickR_ex pickR_ext.
Canonical R_choiceType := Eval hnf in ChoiceType R R_choiceMixin.

Fact RplusA : associative Rplus. Proof. by move=> a b c; rewrite Rplus_assoc. Qed.
Definition R_zmodMixin := ZmodMixin RplusA Rplus_comm Rplus_0_l Rplus_opp_l.
Canonical R_zmodType := Eval hnf in ZmodType R R_zmodMixin.
Fact RmultA : associative Rmult. Proof. by move=> a b c; rewrite Rmult_assoc. Qed.
Fact R1_neq0 : (1%RR : R) != 0%RR. Proof. by apply/eqP; exact: R1_neq_R0. Qed.
Definition R_ringMixin := RingMixin RmultA Rmult_1_l Rmult_1_r Rmult_plus_distr_r Rmult_plus_distr_l R1_neq0.
Canonical R_ringType := Eval hnf in RingType R R_ringMixin.
Canonical R_comRingType := Eval hnf in ComRingType R Rmult_comm.

Definition unit_R (r : R) := r != 0%RR.
Definition Rinvx (r : R) : R := if unit_R r then (/ r)%RR else r.
Fact RmultRinvx : {in unit_R, left_inverse 1%RR Rinvx Rmult}.
Proof. move=> r Hr; rewrite /Rinvx (_ : unit_R r = true) //; apply: Rinv_l; exact/eqP. Qed.
Fact RinvxRmult : {in unit_R, right_inverse 1%RR Rinvx Rmult}.
Proof. move=> r Hr; rewrite /Rinvx (_ : unit_R r = true) //; apply: Rinv_r; exact/eqP. Qed.
Fact intro_unit_R x y : (y * x = 1 /\ x * y = 1)%RR -> x \in unit_R.
Proof. case=> H _; apply/eqP => E; apply: R1_neq_R0; rewrite -H E Rmult_0_r //. Qed.
Fact Rinvx_out : {in predC unit_R, Rinvx =1 id}.
Proof. move=> r Hr; rewrite /Rinvx (_ : unit_R r = false) //; exact/negbTE. Qed.
Definition R_unitRingMixin := UnitRingMixin RmultRinvx RinvxRmult intro_unit_R Rinvx_out.
Canonical R_unitRing := Eval hnf in UnitRingType R R_unitRingMixin.
Canonical R_comUnitRingType := Eval hnf in [comUnitRingType of R].
Fact R_idomainMixin x y : (x * y = 0)%RR -> (x == 0%RR) || (y == 0%RR).
Proof. move=> /Rmult_integral [->|->]; rewrite eqxx // orbT //. Qed.
Canonical R_idomainType := Eval hnf in IdomainType R R_idomainMixin.
Fact R_field_mixin : GRing.Field.mixin_of R_unitRing. Proof. by []. Qed.
Definition R_fieldIdomainMixin := FieldIdomainMixin R_field_mixin.
Canonical R_fieldType := Eval hnf in FieldType R R_field_mixin.

(** ** Sums and products *)
Fixpoint Rprod (n : nat) (f : nat -> R) : R := match n with O => 1%RR | S n => (Rprod n f * f n)%RR end.
Lemma Rsum_big n f : Rsum n f = (\sum_(i < n) f i)%R.
Proof. elim: n => [|n IH]; [by rewrite big_ord0|by rewrite big_ord_recr /= -IH]. Qed.
Lemma Rprod_big n f : Rprod n f = (\prod_(i < n) f i)%R.
Proof. elim: n => [|n IH]; [by rewrite big_ord0|by rewrite big_ord_recr /= -IH]. Qed.

(** ** Determinant of the n x n table f (row, column) *)
Definition mx (n m : nat) (f : nat -> nat -> R) : 'M[R]_(n, m) := \matrix_(i < n, j < m) f i j.
Definition det (n : nat) (f : nat -> nat -> R) : R := (\det (mx n n f))%R.

Lemma det_ext n f g : (forall i j, (i < n)%coq_nat -> (j < n)%coq_nat -> f i j = g i j) -> det n f = det n g.
Proof. by move=> H; rewrite /det; congr (\det _)%R; apply/matrixP => i j; rewrite !mxE; apply: H; apply/ltP. Qed.

(** A permutation of 'I_n as a function on nat. *)
Definition permfun n (s : 'S_n) (i : nat) : nat := if insub i is Some o then nat_of_ord (s o) else i.
Lemma permfunE n (s : 'S_n) (i : 'I_n) : permfun s i = s i.
Proof. by rewrite /permfun valK. Qed.
Lemma permfun_out n (s : 'S_n) i : ~~ (i < n)%N -> permfun s i = i.
Proof. by move=> H; rewrite /permfun insubF //; exact/negbTE. Qed.
Lemma permfun_lt n (s : 'S_n) i : (i < n)%N -> (permfun s i < n)%N.
Proof. by move=> H; rewrite (permfunE s (Ordinal H)). Qed.
Lemma permfun_inj n (s : 'S_n) : FinFun.Injective (permfun s).
Proof.
move=> i j; case Hi: (i < n)%N; case Hj: (j < n)%N.
- by rewrite (permfunE s (Ordinal Hi)) (permfunE s (Ordinal Hj)) => /val_inj /perm_inj [].
- rewrite (permfunE s (Ordinal Hi)) permfun_out ?Hj // => E; by move: (ltn_ord (s (Ordinal Hi))); rewrite E Hj.
- rewrite (permfunE s (Ordinal Hj)) permfun_out ?Hi // => E; by move: (ltn_ord (s (Ordinal Hj))); rewrite -E Hi.
- by rewrite !permfun_out ?Hi ?Hj.
Qed.
Lemma permfun_renumbering n (s : 'S_n) : renumbering n (permfun s).
Proof.
apply: nat_bijection_Permutation; [|exact: permfun_inj].
by move=> i /ltP Hi; apply/ltP; exact: permfun_lt.
Qed.

(** Conversely a renumbering is a permutation of 'I_n. *)
Lemma renumbering_perm n s : renumbering n s -> exists p : 'S_n, forall i : 'I_n, nat_of_ord (p i) = s i.
Proof.
move=> H.
have B : forall i, (i < n)%N -> (s i < n)%N.
  move=> i Hi. have Hin : In (s i) (List.seq 0 n).
    apply: (Permutation_in _ H). apply: in_map. apply/in_seq. by split; [lia|apply/ltP].
  by move/in_seq: Hin => [_ Hin]; apply/ltP.
pose f (i : 'I_n) : 'I_n := Ordinal (B i (ltn_ord i)).
have I : injective f.
  move=> i j [E]. 
  have ND : NoDup (List.map s (List.seq 0 n)) by apply: (Permutation_NoDup (Permutation_sym H)); exact: seq_NoDup.
  have L : List.length (List.map s (List.seq 0 n)) = n by rewrite map_length seq_length.
  have := proj1 (NoDup_nth _ (s 0%N)) ND i j. rewrite L (map_nth s) (map_nth s) !seq_nth; try by apply/ltP.
  by move=> H1; apply/val_inj/H1; try exact/ltP.
by exists (perm I) => i; rewrite permE.
Qed.

Lemma lsum_big (T : Type) (l : seq T) (f : T -> R) : lsum (List.map f l) = (\sum_(t <- l) f t)%R.
Proof. elim: l => [|a l IH]; [by rewrite big_nil|by rewrite big_cons -IH]. Qed.

(** The determinant is a fixed signed sum over permutations of products of entries, one per row and column. *)
Lemma det_leibniz n : exists l : list (R * (nat -> nat)),
  (forall p, In p l -> renumbering n (snd p)) /\
  forall f, det n f = lsum (List.map (fun p => (fst p * Rprod n (fun i => f i (snd p i)))%RR) l).
Proof.
exists (List.map (fun s : 'S_n => (((-1) ^+ s)%R : R, permfun s)) (enum 'S_n)); split.
- by move=> p /in_map_iff [s [<- _]] /=; exact: permfun_renumbering.
- move=> f; rewrite map_map lsum_big /det /determinant big_enum /=. apply: eq_bigr => s _. congr (_ * _)%R.
  rewrite Rprod_big; apply: eq_bigr => i _. by rewrite mxE permfunE.
Qed.

Lemma det_1 f : det 1 f = f O O.
Proof. by rewrite /det det_mx11 mxE. Qed.
Lemma det_2 f : det 2 f = (f O O * f 1%N 1%N - f O 1%N * f 1%N O)%RR.
Proof.
rewrite /det (expand_det_row _ ord0) big_ord_recl big_ord1 /cofactor !det_mx11 !mxE /=.
by rewrite !GRing.expr0 /= GRing.mul1r !GRing.expr1 /= GRing.mulN1r GRing.mulrN.
Qed.

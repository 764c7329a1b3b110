(** * The sign of a renumbering and determinants *)
From Coq Require Import Reals List Lia Lra Permutation.
From Verif Require Import XReal M_models S_models Rsum P_xsum P_split P_inv Det.
From mathcomp Require Import all_ssreflect all_fingroup all_algebra.
Set Implicit Arguments. Unset Strict Implicit. Unset Printing Implicit Defensive.
Import GroupScope.

Lemma permfun_tperm n (a b : 'I_n) i : permfun (tperm a b) i = exchange a b i.
Proof.
case H: (i < n)%N.
- rewrite (permfunE (tperm a b) (Ordinal H)) /exchange.
  case: (Nat.eqb_spec i a) => [E|Ea]; first by rewrite (_ : Ordinal H = a) ?tpermL //; apply: val_inj.
  case: (Nat.eqb_spec i b) => [E|Eb]; first by rewrite (_ : Ordinal H = b) ?tpermR //; apply: val_inj.
  by rewrite tpermD //; apply/eqP => E; [apply: Ea|apply: Eb]; rewrite E.
- rewrite permfun_out ?H // /exchange.
  case: (Nat.eqb_spec i a) => [E|_]; [by move: H; rewrite E ltn_ord|].
  by case: (Nat.eqb_spec i b) => [E|//]; move: H; rewrite E ltn_ord.
Qed.
Lemma permfunM n (p q : 'S_n) i : permfun (p * q) i = permfun q (permfun p i).
Proof.
case H: (i < n)%N.
- by rewrite (permfunE (p * q) (Ordinal H)) (permfunE p (Ordinal H)) permfunE permM.
- by rewrite !permfun_out ?H // permfun_out ?H.
Qed.

Lemma sign_permfun n (p : 'S_n) : sign_of n (permfun p) = ((-1) ^+ p)%R.
Proof.
case: (prod_tpermP p) => ts -> Hts. rewrite (odd_perm_prod Hts) GRing.signr_odd.
elim: ts Hts => [|t ts IH] /=.
- move=> _. rewrite big_nil GRing.expr0. rewrite (@sign_ext n _ (fun i => i)) ?sign_id // => i /ltP Hi.
  by rewrite (permfunE 1 (Ordinal Hi)) perm1.
- case/andP=> Ht Hts. rewrite big_cons GRing.exprS GRing.mulN1r -IH //.
  rewrite (@sign_ext n _ (fun k => permfun (\prod_(j <- ts) tperm j.1 j.2) (exchange t.1 t.2 k))).
  + apply: sign_exchange; [exact: permfun_renumbering| by apply/ltP | by apply/ltP |].
    by move/eqP: Ht => Ht E; apply: Ht; apply: val_inj.
  + by move=> i _; rewrite permfunM permfun_tperm.
Qed.

Lemma renumbering_permfun n s : renumbering n s -> exists p : 'S_n, forall i, (i < n)%coq_nat -> s i = permfun p i.
Proof.
move=> H; case: (renumbering_perm H) => p Hp; exists p => i /ltP Hi.
by rewrite (permfunE p (Ordinal Hi)) Hp.
Qed.

Lemma sign_comp n s t : renumbering n s -> renumbering n t -> sign_of n (fun i => s (t i)) = (sign_of n s * sign_of n t)%RR.
Proof.
move=> Hs Ht. case: (renumbering_permfun Hs) => p Hp; case: (renumbering_permfun Ht) => q Hq.
rewrite (sign_ext n s (permfun p)) // (sign_ext n t (permfun q)) //.
rewrite (sign_ext n _ (permfun (q * p))).
- by rewrite !sign_permfun odd_permM GRing.signr_addb GRing.mulrC.
- move=> i Hi. rewrite permfunM Hq // Hp //. by apply/ltP/permfun_lt/ltP.
Qed.

Lemma det_rows n s f : renumbering n s -> det n (fun i j => f (s i) j) = (sign_of n s * det n f)%RR.
Proof.
move=> Hs; case: (renumbering_permfun Hs) => p Hp.
rewrite (sign_ext n s (permfun p)) // sign_permfun /det.
have -> : mx n n (fun i j => f (s i) j) = row_perm p (mx n n f).
  apply/matrixP => i j; rewrite !mxE Hp; [by rewrite permfunE|exact/ltP].
by rewrite row_permE det_mulmx det_perm.
Qed.

(** Deleting row i and column 0. *)
Definition skip (i k : nat) : nat := if Nat.ltb k i then k else S k.
Definition minor (f : nat -> nat -> R) (i : nat) : nat -> nat -> R := fun a b => f (skip i a) (S b).
Lemma lift_skip n (i : 'I_n.+1) (k : 'I_n) : lift i k = skip i k :> nat.
Proof.
rewrite /= /bump /skip; case: (Nat.ltb_spec k i) => [/ltP H|/leP H]; last by rewrite H.
by rewrite leqNgt H.
Qed.
Lemma det_minor n f (i : 'I_n.+1) : det n (minor f i) = (\det (row' i (col' ord0 (mx n.+1 n.+1 f))))%R.
Proof.
rewrite /det; congr (\det _)%R; apply/matrixP => a b; rewrite !mxE lift_skip /minor.
by rewrite /= /bump leq0n add1n.
Qed.
Lemma det_cofactor0 n f (i : 'I_n.+1) : ((-1) ^ i * det n (minor f i))%RR = cofactor (mx n.+1 n.+1 f) i ord0.
Proof.
rewrite /cofactor det_minor addn0. congr (_ * _)%R.
by elim: (nat_of_ord i) => [|k IH]; rewrite ?GRing.expr0 //= GRing.exprS -IH.
Qed.
Lemma det_expand n f : det n.+1 f = Rsum n.+1 (fun i => f i O * ((-1) ^ i * det n (minor f i)))%RR.
Proof.
rewrite Rsum_big /det (expand_det_col _ ord0); apply: eq_bigr => i _.
by rewrite det_cofactor0 mxE.
Qed.
(** A signed minor is the determinant with the first column replaced by a unit vector. *)
Lemma det_unit_column n f i : (i < n.+1)%coq_nat ->
  det n.+1 (fun a b => if Nat.eqb b 0 then (if Nat.eqb a i then 1 else 0)%RR else f a b) = ((-1) ^ i * det n (minor f i))%RR.
Proof.
move=> /ltP Hi. rewrite det_expand Rsum_big (bigD1 (Ordinal Hi)) //= big1 ?GRing.addr0.
- rewrite Nat.eqb_refl. change (1 * ((-1) ^ i * det n (minor f i)) = (-1) ^ i * det n (minor f i))%RR. by rewrite Rmult_1_l.
- move=> j Hj. have -> : Nat.eqb j i = false by apply/Nat.eqb_neq => E; move/eqP: Hj; apply; apply: val_inj.
  exact: Rmult_0_l.
Qed.
Lemma minor_rows n s f i : renumbering n.+1 s -> (i < n.+1)%coq_nat ->
  ((-1) ^ i * det n (minor (fun a b => f (s a) b) i) = sign_of n.+1 s * ((-1) ^ (s i) * det n (minor f (s i))))%RR.
Proof.
move=> Hs Hi. rewrite -!det_unit_column //; last exact: renumbering_lt.
rewrite -det_rows //. apply: det_ext => a b Ha Hb. case: (Nat.eqb b 0) => //.
case: (Nat.eqb_spec a i) => [->|H]; first by rewrite Nat.eqb_refl.
by case: (Nat.eqb_spec (s a) (s i)) => // E; case: H; apply: (renumbering_inj _ _ Hs).
Qed.
Lemma det_0 f : det 0 f = 1%RR.
Proof. by rewrite /det det_mx00. Qed.

Lemma det_tr n f : det n (fun i j => f j i) = det n f.
Proof. by rewrite /det -(det_tr (mx n n f)); congr (\det _)%R; apply/matrixP => i j; rewrite !mxE. Qed.

(** P_fsign: signs, zeros and additions by halves; the symmetrised functions. *)
From Coq Require Import ZArith Reals.
From Flocq Require Import Core IEEE754.BinarySingleNaN.
From Coq Require Import Lia Lra List Bool Arith Permutation.
Import ListNotations.
From Verif Require Import M_float S_float P_float P_float2 M_fenergy S_fenergy P_fenergy P_fwalk M_fsign S_fsign.
Open Scope R_scope.

Section Sign.
Variables prec emax : Z.
Context {Hp : Prec_gt_0 prec}.
Context {He : Prec_lt_emax prec emax}.
Notation fl := (binary_float prec emax).
Notation ex := (SpecFloat.fexp prec emax).
Notation rnd := (round radix2 ex ZnearestE).
Notation fadd := (fadd prec emax).
Notation fmul := (fmul prec emax).
Notation fone := (fone prec emax).
Notation fzero := (fzero prec emax).
Notation same := (same prec emax).
Notation opposite := (opposite prec emax).

Lemma same_refl x : same x x. Proof. left. reflexivity. Qed.
Lemma same_sym x y : same x y -> same y x. Proof. intros [->|(s & s' & -> & ->)]; [apply same_refl|right; eauto]. Qed.
Lemma same_trans x y z : same x y -> same y z -> same x z.
Proof. intros [->|(s & s' & -> & ->)] H; [exact H|]. destruct H as [<-|(t & t' & E & ->)]; right; eauto. Qed.
Lemma same_opp x y : same x y -> same (Bopp x) (Bopp y). Proof. intros [->|(s & s' & -> & ->)]; [apply same_refl|right; cbn; eauto]. Qed.
Lemma same_zero (x : fl) : is_finite x = true -> B2R x = 0 -> exists s, x = B754_zero s.
Proof.
  destruct x as [s|s| |s m e H]; intros F Z; try discriminate; [exists s; reflexivity|]. exfalso. cbn in Z. apply eq_0_F2R in Z. destruct s; discriminate Z.
Qed.
Lemma zeros_same (x y : fl) : is_finite x = true -> B2R x = 0 -> is_finite y = true -> B2R y = 0 -> same x y.
Proof. intros Fx X Fy Y. destruct (same_zero x Fx X) as [s ->]. destruct (same_zero y Fy Y) as [s' ->]. right. eauto. Qed.

Lemma add_comm (x y : fl) : fadd x y = fadd y x.
Proof.
  destruct (is_finite x) eqn:Fx; [destruct (is_finite y) eqn:Fy|].
  - unfold M_float.fadd. pose proof (Bplus_correct prec emax Hp He mode_NE x y Fx Fy) as A. pose proof (Bplus_correct prec emax Hp He mode_NE y x Fy Fx) as B. rewrite (Rplus_comm (B2R y)) in B. destruct (Rlt_bool _ _).
    + destruct A as [A1 [A2 A3]], B as [B1 [B2 B3]]. apply B2R_Bsign_inj; try assumption; [congruence|]. rewrite A3, B3. destruct (Rcompare _ _); try reflexivity. apply andb_comm.
    + destruct A as [A1 A2], B as [B1 _]. apply B2SF_inj. rewrite A1, B1, A2. reflexivity.
  - destruct x as [s|s| |s m e H], y as [s'|s'| |s' m' e' H']; try discriminate; reflexivity.
  - destruct x as [s|s| |s m e H], y as [s'|s'| |s' m' e' H']; try discriminate; try reflexivity. destruct s, s'; reflexivity.
Qed.
Lemma add_zero (x : fl) s : same (fadd x (B754_zero s)) x.
Proof. destruct x as [t|t| |t m e H]; try apply same_refl. destruct s, t; right; cbn; eauto. Qed.
Lemma same_add x x' y y' : same x x' -> same y y' -> same (fadd x y) (fadd x' y').
Proof.
  assert (A : forall x y y', same y y' -> same (fadd x y) (fadd x y')).
  { intros a b c [->|(s & s' & -> & ->)]; [apply same_refl|]. eapply same_trans; [apply add_zero|]. apply same_sym, add_zero. }
  intros H1 H2. eapply same_trans; [apply A; exact H2|]. rewrite (add_comm x), (add_comm x'). apply A. exact H1.
Qed.
Lemma round_opp r : rnd (- r) = - rnd r. Proof. apply round_NE_opp. Qed.
Lemma add_opp (x y : fl) : same (fadd (Bopp x) (Bopp y)) (Bopp (fadd x y)).
Proof.
  destruct (is_finite x) eqn:Fx; [destruct (is_finite y) eqn:Fy|].
  - unfold M_float.fadd. pose proof (Bplus_correct prec emax Hp He mode_NE x y Fx Fy) as A. pose proof (Bplus_correct prec emax Hp He mode_NE (Bopp x) (Bopp y)) as B. rewrite !is_finite_Bopp, !B2R_Bopp in B. specialize (B Fx Fy). cbn [round_mode] in A, B.
    replace (- B2R x + - B2R y) with (- (B2R x + B2R y)) in B by ring. rewrite round_opp, Rabs_Ropp in B. destruct (Rlt_bool _ _).
    + destruct A as [A1 [A2 A3]], B as [B1 [B2 B3]]. assert (NN : is_nan (Bplus mode_NE x y) = false) by (destruct (Bplus mode_NE x y); try reflexivity; discriminate A2).
      destruct (Req_dec (B2R x + B2R y) 0) as [Z|NZ].
      * apply zeros_same; [exact B2|rewrite B1, Z; rewrite (round_0 radix2 ex ZnearestE); lra|rewrite is_finite_Bopp; exact A2|rewrite B2R_Bopp, A1, Z, (round_0 radix2 ex ZnearestE); lra].
      * left. apply B2R_Bsign_inj; [exact B2|rewrite is_finite_Bopp; exact A2|rewrite B2R_Bopp; congruence|]. rewrite Bsign_Bopp, A3, B3 by exact NN.
        destruct (Rtotal_order (B2R x + B2R y) 0) as [C|[C|C]]; [rewrite (Rcompare_Gt (- _)), Rcompare_Lt by lra; reflexivity|contradiction|rewrite (Rcompare_Lt (- _)), Rcompare_Gt by lra; reflexivity].
    + destruct A as [A1 A2], B as [B1 _]. left. apply B2SF_inj. rewrite B1. assert (NX : is_nan x = false) by (destruct x; try reflexivity; discriminate Fx). rewrite (Bsign_Bopp prec emax x NX).
      destruct (Bplus mode_NE x y) as [s|s| |s m e H]; cbn in A1 |- *; try discriminate; destruct (Bsign x); cbn in *; inversion A1; reflexivity.
  - destruct x as [s|s| |s m e H], y as [s'|s'| |s' m' e' H']; try discriminate; try (left; reflexivity).
  - destruct x as [s|s| |s m e H], y as [s'|s'| |s' m' e' H']; try discriminate; try (left; reflexivity). destruct s, s'; left; reflexivity.
Qed.

Lemma mul_unit (o x : fl) : is_finite o = true -> Rabs (B2R o) = 1 -> fmul o x = if Bsign o then Bopp x else x.
Proof.
  destruct o as [s|s| |s m e H]; intros F U; try discriminate F; [cbn in U; rewrite Rabs_R0 in U; lra|].
  destruct (is_finite x) eqn:Fx; [|destruct x as [t|t| |t k d K]; try discriminate; destruct s; try destruct t; reflexivity].
  cbn [Bsign]. set (o := B754_finite s m e H) in *. assert (V : B2R o = if s then -1 else 1).
  { destruct s; [assert (N : B2R o < 0) by (apply F2R_lt_0; reflexivity); rewrite Rabs_left in U by exact N; lra|assert (N : 0 < B2R o) by (apply F2R_gt_0; reflexivity); rewrite Rabs_pos_eq in U; lra]. }
  assert (E : B2R o * B2R x = B2R (if s then Bopp x else x)) by (rewrite V; destruct s; [rewrite B2R_Bopp|]; ring).
  pose proof (Bmult_correct prec emax Hp He mode_NE o x) as A. cbn [round_mode] in A. rewrite E in A. rewrite (round_generic radix2 ex ZnearestE (B2R (if s then Bopp x else x)) (generic_format_B2R prec emax _)) in A.
  rewrite Rlt_bool_true in A by apply abs_B2R_lt_emax. destruct A as [A1 [A2 A3]]. rewrite Fx in A2. cbn [is_finite o andb] in A2. unfold M_float.fmul. apply B2R_Bsign_inj; [exact A2|destruct s; [rewrite is_finite_Bopp|]; exact Fx|exact A1|].
  assert (NX : is_nan x = false) by (destruct x; try reflexivity; discriminate Fx). rewrite A3 by (destruct (Bmult mode_NE o x); try reflexivity; discriminate A2). destruct s; [rewrite Bsign_Bopp by exact NX|]; cbn [Bsign o]; destruct (Bsign x); reflexivity.
Qed.
Lemma mul_sign s (x : fl) : fmul (of_sign prec emax s) x = if (s <? 0)%Z then Bopp x else x.
Proof.
  destruct (one_R prec emax) as [O1 O2]. assert (S1 : Bsign fone = false) by (unfold M_float.fone; apply Bsign_Bone). assert (NN : is_nan fone = false) by (destruct fone; try reflexivity; discriminate O1).
  unfold of_sign. destruct (s <? 0)%Z; rewrite mul_unit; rewrite ?is_finite_Bopp, ?B2R_Bopp, ?Rabs_Ropp, ?O2, ?Rabs_R1; try assumption; try reflexivity; [rewrite Bsign_Bopp, S1 by exact NN; reflexivity|rewrite S1; reflexivity].
Qed.

(** ** Bits *)
Lemma lt_pow2_lxor a b d : (a < 2 ^ d)%nat -> (b < 2 ^ d)%nat -> (Nat.lxor a b < 2 ^ d)%nat.
Proof.
  intros A B. assert (Z : Nat.shiftr (Nat.lxor a b) d = 0%nat) by (rewrite Nat.shiftr_lxor, !Nat.shiftr_div_pow2, !Nat.div_small by assumption; reflexivity). rewrite Nat.shiftr_div_pow2 in Z.
  apply Nat.div_small_iff in Z; [exact Z|]. apply Nat.pow_nonzero. lia.
Qed.
Lemma pow2_lt i d : (i < d)%nat -> (2 ^ i < 2 ^ d)%nat. Proof. intros H. apply Nat.pow_lt_mono_r; lia. Qed.
Lemma add_pow2 k d : (k < 2 ^ d)%nat -> (k + 2 ^ d = Nat.lxor k (2 ^ d))%nat.
Proof.
  intros H. apply Nat.add_nocarry_lxor. apply Nat.bits_inj. intros j. rewrite Nat.land_spec, Nat.bits_0, Nat.pow2_bits_eqb. destruct (Nat.eqb_spec d j) as [<-|N]; [|apply andb_false_r]. rewrite andb_true_r.
  destruct k as [|k]; [apply Nat.bits_0|]. apply Nat.bits_above_log2. apply Nat.log2_lt_pow2; lia.
Qed.
Lemma lxor_high k i d : (k < 2 ^ d)%nat -> (i < d)%nat -> (Nat.lxor (k + 2 ^ d) (2 ^ i) = Nat.lxor k (2 ^ i) + 2 ^ d)%nat.
Proof. intros H I. rewrite (add_pow2 k d H), add_pow2 by (apply lt_pow2_lxor; [exact H|apply pow2_lt; exact I]). rewrite !Nat.lxor_assoc. f_equal. apply Nat.lxor_comm. Qed.
Lemma sign_lxor j k i : sign_1d j (Nat.lxor k (2 ^ i)) = if (i =? j)%nat then Z.opp (sign_1d j k) else sign_1d j k.
Proof. unfold sign_1d. rewrite Nat.lxor_spec, Nat.pow2_bits_eqb. destruct (i =? j)%nat; destruct (Nat.testbit k j); reflexivity. Qed.
Lemma combined_snoc n k : combined_sign (S n) k = (combined_sign n k * sign_1d n k)%Z.
Proof.
  unfold combined_sign. rewrite seq_S, map_app. cbn [plus map]. generalize (map (fun i => sign_1d i k) (seq 0 n)). intros l. induction l as [|a l IH]; cbn [app fold_right]; [ring|rewrite IH; ring].
Qed.
Lemma combined_lxor n k i : combined_sign n (Nat.lxor k (2 ^ i)) = if (i <? n)%nat then Z.opp (combined_sign n k) else combined_sign n k.
Proof.
  induction n as [|n IH]; [reflexivity|]. rewrite !combined_snoc, IH, sign_lxor. destruct (Nat.ltb_spec i n), (Nat.eqb_spec i n), (Nat.ltb_spec i (S n)); try lia; ring.
Qed.
Lemma combined_unit n k : combined_sign n k = 1%Z \/ combined_sign n k = (-1)%Z.
Proof. induction n as [|n IH]; [left; reflexivity|]. rewrite combined_snoc. unfold sign_1d. destruct IH as [-> | ->], (Nat.testbit k n); cbn; auto. Qed.

Lemma map_opp_sign s x : map (fmul (of_sign prec emax s)) (map (@Bopp prec emax) x) = map (fun a => if (s <? 0)%Z then a else Bopp a) x.
Proof. rewrite map_map. apply map_ext. intros a. rewrite mul_sign. destruct (s <? 0)%Z; [apply Bopp_involutive|reflexivity]. Qed.
Lemma sign_neg j k : (sign_1d j k <? 0)%Z = Nat.testbit k j. Proof. unfold sign_1d. destruct (Nat.testbit k j); reflexivity. Qed.
Lemma orbit_flip xs : forall j i k, orbit_from prec emax j (flip prec emax i xs) k = orbit_from prec emax j xs (if (i <? length xs)%nat then Nat.lxor k (2 ^ (j + i)) else k).
Proof.
  induction xs as [|x xs IH]; intros j i k; [destruct i; reflexivity|]. destruct i as [|i]; cbn [flip orbit_from length].
  - change (0 <? S (length xs))%nat with true. cbv iota. f_equal.
    + rewrite map_opp_sign. apply map_ext. intros a. rewrite mul_sign, sign_lxor, Nat.add_0_r, Nat.eqb_refl. unfold sign_1d. destruct (Nat.testbit k j); reflexivity.
    + rewrite Nat.add_0_r. assert (G : forall ys m, (j < m)%nat -> orbit_from prec emax m ys k = orbit_from prec emax m ys (Nat.lxor k (2 ^ j))); [|apply G; lia].
      induction ys as [|y ys IHy]; intros m M; [reflexivity|]. cbn [orbit_from]. rewrite sign_lxor. destruct (Nat.eqb_spec j m); [lia|]. f_equal. apply IHy. lia.
  - change (S i <? S (length xs))%nat with (i <? length xs)%nat. specialize (IH (S j) i k). destruct (i <? length xs)%nat eqn:E; cbn iota in *.
    + rewrite IH. replace (j + S i)%nat with (S j + i)%nat by lia. f_equal. apply map_ext. intros a. rewrite sign_lxor. destruct (Nat.eqb_spec (S j + i) j); [lia|reflexivity].
    + rewrite IH. reflexivity.
Qed.
Lemma flip_length xs : forall i, length (flip prec emax i xs) = length xs. Proof. induction xs as [|x xs IH]; intros [|i]; cbn; congruence. Qed.

(** ** Adding by halves *)
Fixpoint halves (d : nat) (h : nat -> fl) : fl := match d with O => h O | S e => fadd (halves e h) (halves e (fun k => h (k + 2 ^ e)%nat)) end.
Lemma halves_ext d : forall h h', (forall k, (k < 2 ^ d)%nat -> same (h k) (h' k)) -> same (halves d h) (halves d h').
Proof. induction d as [|d IH]; intros h h' H; cbn [halves]; [apply H; cbn; lia|]. cbn [Nat.pow] in H. apply same_add; apply IH; intros k K; apply H; lia. Qed.
Lemma halves_opp d : forall h, same (halves d (fun k => Bopp (h k))) (Bopp (halves d h)).
Proof. induction d as [|d IH]; intros h; cbn [halves]; [apply same_refl|]. eapply same_trans; [apply same_add; [apply IH|apply (IH (fun k => h (k + 2 ^ d)%nat))]|]. apply add_opp. Qed.
Lemma halves_lxor d : forall h i, (i < d)%nat -> same (halves d (fun k => h (Nat.lxor k (2 ^ i)))) (halves d h).
Proof.
  induction d as [|d IH]; intros h i I; [lia|]. cbn [halves]. destruct (Nat.eq_dec i d) as [->|N].
  - rewrite (add_comm (halves d h)). apply same_add; apply halves_ext; intros k K; left.
    + rewrite <- add_pow2 by exact K. reflexivity.
    + rewrite add_pow2 by exact K. rewrite Nat.lxor_assoc, Nat.lxor_nilpotent, Nat.lxor_0_r. reflexivity.
  - apply same_add; [apply IH; lia|]. eapply same_trans; [|apply (IH (fun k => h (k + 2 ^ d)%nat) i); lia]. apply halves_ext. intros k K. left. rewrite lxor_high by (try exact K; lia). reflexivity.
Qed.
Lemma halves_list d : forall h a, by_halves prec emax d (map h (seq a (2 ^ d))) = halves d (fun k => h (k + a)%nat).
Proof.
  induction d as [|d IH]; intros h a; [reflexivity|]. cbn [by_halves halves].
  assert (E : seq a (2 ^ S d) = seq a (2 ^ d) ++ seq (a + 2 ^ d) (2 ^ d)) by (replace (2 ^ S d)%nat with (2 ^ d + 2 ^ d)%nat by (cbn; lia); apply seq_app).
  rewrite E, map_app. assert (L : length (map h (seq a (2 ^ d))) = (2 ^ d)%nat) by (rewrite map_length, seq_length; reflexivity).
  rewrite firstn_app, skipn_app, L, Nat.sub_diag, firstn_all2, skipn_all2 by lia. cbn [firstn skipn app]. rewrite app_nil_r, !IH. f_equal.
  assert (X : forall h1 h2 : nat -> fl, (forall k, h1 k = h2 k) -> forall e, halves e h1 = halves e h2).
  { intros h1 h2 H e. revert h1 h2 H. induction e as [|e IHe]; intros h1 h2 H; cbn [halves]; [apply H|]. f_equal; apply IHe; intros; apply H. }
  apply X. intros k. f_equal. lia.
Qed.
Lemma halves_list0 d h : by_halves prec emax d (map h (seq 0 (2 ^ d))) = halves d h.
Proof.
  rewrite halves_list. assert (X : forall h1 h2 : nat -> fl, (forall k, h1 k = h2 k) -> forall e, halves e h1 = halves e h2).
  { intros h1 h2 H e. revert h1 h2 H. induction e as [|e IHe]; intros h1 h2 H; cbn [halves]; [apply H|]. f_equal; apply IHe; intros; apply H. }
  apply X. intros k. rewrite Nat.add_0_r. reflexivity.
Qed.

Variable fs : list fl -> fl.
Lemma covariant_halves f xs i : (forall l, length l = (2 ^ length xs)%nat -> same (fs l) (by_halves prec emax (length xs) l)) -> (i < length xs)%nat -> opposite (sign_covariant prec emax fs f xs) (sign_covariant prec emax fs f (flip prec emax i xs)).
Proof.
  intros SUM I. unfold opposite, S_fsign.opposite, sign_covariant. rewrite flip_length. set (n := length xs) in *.
  eapply same_trans; [apply SUM; rewrite map_length, seq_length; reflexivity|]. eapply same_trans; [|apply same_opp, same_sym, SUM; rewrite map_length, seq_length; reflexivity]. rewrite !halves_list0.
  eapply same_trans; [|apply same_opp, (halves_lxor n _ i I)]. eapply same_trans; [|apply halves_opp]. apply halves_ext. intros k K. left. unfold orbit. rewrite orbit_flip. assert (E : (i <? length xs)%nat = true) by (apply Nat.ltb_lt; exact I). rewrite E. cbn [plus].
  rewrite !mul_sign, combined_lxor. fold n in E. rewrite E. destruct (combined_unit n k) as [-> | ->]; cbn [Z.opp Z.ltb Z.compare]; [rewrite Bopp_involutive|]; reflexivity.
Qed.
Lemma invariant_halves f xs i : (forall l, length l = (2 ^ length xs)%nat -> same (fs l) (by_halves prec emax (length xs) l)) -> (i < length xs)%nat -> same (sign_invariant prec emax fs f xs) (sign_invariant prec emax fs f (flip prec emax i xs)).
Proof.
  intros SUM I. unfold sign_invariant. rewrite flip_length. set (n := length xs) in *. apply same_sym.
  eapply same_trans; [apply SUM; rewrite map_length, seq_length; reflexivity|]. eapply same_trans; [|apply same_sym, SUM; rewrite map_length, seq_length; reflexivity]. rewrite !halves_list0.
  eapply same_trans; [|apply (halves_lxor n _ i I)]. apply halves_ext. intros k K. left. unfold orbit. rewrite orbit_flip. assert (E : (i <? length xs)%nat = true) by (apply Nat.ltb_lt; exact I). rewrite E. reflexivity.
Qed.
End Sign.

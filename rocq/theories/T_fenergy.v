(** T_fenergy: C89, energy statistics and clipping on machine floating-point numbers. *)
From Coq Require Import ZArith Reals.
From Flocq Require Import Core IEEE754.BinarySingleNaN.
From Coq Require Import Lia Lra List Permutation Bool Arith.
Import ListNotations.
From Verif Require Import M_float S_float P_float P_float2 P_float4 T_float M_fwalk S_fwalk P_fwalk P_fwalk2 T_fwalk M_fenergy S_fenergy P_fenergy P_fenergy2 P_fenergy3 P_fenergy4.
Open Scope R_scope.

(** C89.  The statistics of energies at most 2^k in size, at most n on each device: the mean energy is a number at most 2^k in size within
    u (n + devices + 2) 2^k of the exact mean, the variance a number, not negative, within [variance_error] of the exact variance.  In whatever order jnp.sum adds. *)
Theorem C89_statistics :
  forall prec emax (Hp : Prec_gt_0 prec) (He : Prec_lt_emax prec emax) fs, (forall l, is_sum prec emax l (fs l)) ->
  forall k n nchains nan_safe ls, (0 <= k)%Z -> (2 * k + 3 + prec < emax)%Z -> (2 <= nchains)%nat -> INR nchains <= bpow radix2 prec ->
  energies_in_range prec emax k n nan_safe ls ->
  let energy := fst (statistics prec emax fs nchains nan_safe ls) in
  let variance := snd (statistics prec emax fs nchains nan_safe ls) in
  let d := INR (length ls) in let u := unit_roundoff prec in
  is_finite energy = true /\ Rabs (B2R energy) <= bpow radix2 k /\
  Rabs (B2R energy - exact_energy prec emax ls) <= u * (INR n + d + 2) * bpow radix2 k /\
  is_finite variance = true /\ 0 <= B2R variance /\
  Rabs (B2R variance - exact_variance prec emax nchains ls) <= u * (2 * (INR n + d) + 14) * bpow radix2 (2 * k + 2) + 2 * (u * (INR n + d + 2) * bpow radix2 k) ^ 2.
Proof.
  intros prec emax Hp He fs SUM k n nchains nan_safe ls K0 K1 N2 NP IR energy variance d u.
  pose proof (statistics_spec prec emax k K0 K1 fs SUM nan_safe n nchains ls IR N2 NP) as H. cbv zeta in H. unfold variance_error in H.
  fold d u energy variance in H. rewrite !Rmult_assoc. exact H.
Qed.
Print Assumptions C89_statistics.

(** C89.  Without NaN and with the walkers shared equally, the exact mean and variance are those of the whole sample. *)
Theorem C89_sample :
  forall prec emax (Hp : Prec_gt_0 prec) (He : Prec_lt_emax prec emax) m (ls : list (list (binary_float prec emax))),
  (0 < m)%nat -> ls <> [] -> (forall l, In l ls -> length l = m /\ forall e, In e l -> is_finite e = true) ->
  let sample := map (fun e => B2R e) (concat ls) in let nchains := (length ls * m)%nat in let mu := fold_right Rplus 0 sample / INR nchains in
  length sample = nchains /\ exact_energy prec emax ls = mu /\
  ((2 <= nchains)%nat -> exact_variance prec emax nchains ls = fold_right Rplus 0 (map (fun x => (x - mu) ^ 2) sample) / INR (nchains - 1)).
Proof.
  intros prec emax Hp He m ls M NE H sample nchains mu.
  assert (H' : forall l, In l ls -> length l = m /\ numbers prec emax l = l) by (intros l Hl; destruct (H l Hl) as [A B]; split; [exact A|apply numbers_all; exact B]).
  destruct (equal_shares prec emax m (fun e => B2R e) ls M NE H') as [E1 L].
  assert (E : exact_energy prec emax ls = mu) by (unfold exact_energy; rewrite E1, L; reflexivity).
  split; [unfold sample; rewrite map_length; exact L|]. split; [exact E|]. intros N2. unfold exact_variance. rewrite E.
  destruct (equal_shares prec emax m (fun e => (B2R e - mu) ^ 2) ls M NE H') as [E2 _]. rewrite E2, L. fold nchains. unfold sample. rewrite map_map. field.
  split; apply not_0_INR; lia.
Qed.
Print Assumptions C89_sample.

(** C89.  In range and without NaN, the NaN-safe means are the plain ones, bit for bit. *)
Theorem C89_nan_safe_same :
  forall prec emax (Hp : Prec_gt_0 prec) (He : Prec_lt_emax prec emax) fs, (forall l, is_sum prec emax l (fs l)) ->
  forall k n nchains ls, (0 <= k)%Z -> (2 * k + 3 + prec < emax)%Z -> energies_in_range prec emax k n false ls ->
  statistics prec emax fs nchains true ls = statistics prec emax fs nchains false ls.
Proof.
  intros prec emax Hp He fs SUM k n nchains ls K0 K1 IR. pose proof (prec1 prec) as P1.
  assert (A : forall l, In l ls -> numbers prec emax l = l).
  { intros l Hl. apply numbers_all. intros e Hx. destruct IR as (_ & _ & _ & H). destruct (H l Hl) as (_ & _ & G). destruct (G e Hx) as [[F _]|[F _]]; [exact F|discriminate]. }
  destruct (allreduce_spec prec emax k K0 ltac:(lia) fs SUM false n ls IR) as [FE [BE _]].
  unfold statistics. rewrite (allreduce_same prec emax fs ls A). f_equal. f_equal. f_equal. apply (allreduce_same prec emax fs). intros l2 Hl2. unfold centered in Hl2. rewrite map_map in Hl2. apply in_map_iff in Hl2. destruct Hl2 as (l & <- & Hl).
  apply numbers_all. intros y Hy. rewrite map_map in Hy. apply in_map_iff in Hy. destruct Hy as (e & <- & Hy).
  destruct IR as (_ & _ & _ & H). destruct (H l Hl) as (_ & _ & G). destruct (G e Hy) as [[F Bd]|[F _]]; [|discriminate]. apply (deviation prec emax k K0 K1 e _ F FE Bd BE).
Qed.
Print Assumptions C89_nan_safe_same.

(** C89.  Whatever the energies are, the variance is not negative (it can be +inf or NaN). *)
Theorem C89_variance_not_negative :
  forall prec emax (Hp : Prec_gt_0 prec) (He : Prec_lt_emax prec emax) fs, (forall l, is_sum prec emax l (fs l)) ->
  forall nchains nan_safe ls, not_negative prec emax (snd (statistics prec emax fs nchains nan_safe ls)).
Proof. intros. apply variance_not_negative. assumption. Qed.
Print Assumptions C89_variance_not_negative.

(** C89.  The plain statistics show every energy that is not a number: the mean energy is not a number either (NaN if the energy is), the variance is NaN. *)
Theorem C89_not_finite :
  forall prec emax (Hp : Prec_gt_0 prec) (He : Prec_lt_emax prec emax) fs, (forall l, is_sum prec emax l (fs l)) ->
  forall nchains ls l x, In l ls -> In x l -> is_finite x = false ->
  is_finite (fst (statistics prec emax fs nchains false ls)) = false /\
  (x = B754_nan -> fst (statistics prec emax fs nchains false ls) = B754_nan) /\
  snd (statistics prec emax fs nchains false ls) = B754_nan.
Proof. intros prec emax Hp He fs SUM nchains ls l x. apply not_finite_statistics. exact SUM. Qed.
Print Assumptions C89_not_finite.

(** C89.  Clipping on one device, about a center that is a number, of energies that are numbers (of any size) or NaN: the width is not NaN and not negative, and
    every energy is clipped to it. *)
Theorem C89_clipping :
  forall prec emax (Hp : Prec_gt_0 prec) (He : Prec_lt_emax prec emax) fs (fmedian : list (binary_float prec emax) -> binary_float prec emax), (forall l, is_sum prec emax l (fs l)) ->
  forall (threshold : binary_float prec emax) (by_mean : bool) energy l, is_finite threshold = true -> 0 < B2R threshold ->
  let center := if by_mean then energy else fmedian l in is_finite center = true ->
  numbers prec emax l <> [] -> INR (length (numbers prec emax l)) <= bpow radix2 prec -> (forall e, In e l -> is_finite e = true \/ e = B754_nan) ->
  let width := fmul prec emax threshold (total_variation prec emax fs center l) in
  not_negative prec emax width /\ width <> B754_nan /\
  Forall2 (clipped_to prec emax center width) l (total_variation_clipping prec emax fs fmedian threshold by_mean energy l).
Proof.
  intros prec emax Hp He fs fmedian SUM threshold by_mean energy l Ft Pt center Fc NE L H width.
  destruct (clipping_spec prec emax fs SUM threshold center l Fc Ft Pt NE L H) as [W C]. fold width in W, C. apply wl_nn in W. split; [apply W|]. split; [apply W|].
  unfold total_variation_clipping, clipping_center. fold center. fold width. clear -C. generalize dependent width. generalize center. intros c w C. induction l as [|e l IH]; cbn [map]; constructor; [apply C|exact IH].
Qed.
Print Assumptions C89_clipping.

(** C89.  The total variation that the width is a multiple of: a number, not negative, within u (n + 2) 2^(k+1) of the mean absolute deviation from the center. *)
Theorem C89_total_variation :
  forall prec emax (Hp : Prec_gt_0 prec) (He : Prec_lt_emax prec emax) fs, (forall l, is_sum prec emax l (fs l)) ->
  forall k center l, (0 <= k)%Z -> (k + 1 + prec < emax)%Z -> is_finite center = true -> Rabs (B2R center) <= bpow radix2 k ->
  numbers prec emax l <> [] -> INR (length (numbers prec emax l)) <= bpow radix2 prec ->
  (forall e, In e l -> (is_finite e = true /\ Rabs (B2R e) <= bpow radix2 k) \/ e = B754_nan) ->
  let tv := total_variation prec emax fs center l in
  is_finite tv = true /\ 0 <= B2R tv /\
  Rabs (B2R tv - real_mean (map (fun e => Rabs (B2R e - B2R center)) (numbers prec emax l))) <= unit_roundoff prec * ((INR (length (numbers prec emax l)) + 2) * bpow radix2 (k + 1)).
Proof. intros prec emax Hp He fs SUM k center l K0 K1 Fc Bc NE L H tv. destruct (tv_accuracy prec emax fs SUM k center l K0 K1 Fc Bc NE L H) as [A [B [_ C]]]. fold tv in A, B, C. auto. Qed.
Print Assumptions C89_total_variation.

(** C89.  The energies of an update: those of every device clipped about their center, all still in range; statistics accurate for the clipped energies,
    and those without clipping for the energies themselves; each centered energy within u 2^(k+1) of the clipped energy minus the mean energy.
    NaN energies are allowed if the means are NaN-safe and the center is not the mean. *)
Theorem C89_update :
  forall prec emax (Hp : Prec_gt_0 prec) (He : Prec_lt_emax prec emax) fs (fmedian : list (binary_float prec emax) -> binary_float prec emax), (forall l, is_sum prec emax l (fs l)) ->
  forall k n nchains clipping nan_safe ls, (0 <= k)%Z -> (2 * k + 3 + prec < emax)%Z -> (2 <= nchains)%nat -> INR nchains <= bpow radix2 prec ->
  let by_mean := match clipping with Some (_, b) => b | None => false end in
  let nan_allowed := nan_safe && negb by_mean in
  energies_in_range prec emax k n nan_allowed ls ->
  (forall t b, clipping = Some (t, b) -> is_finite t = true /\ 0 < B2R t) ->
  (forall l, In l ls -> is_finite (fmedian l) = true /\ Rabs (B2R (fmedian l)) <= bpow radix2 k) ->
  let r := clipped_energies prec emax fs fmedian nchains clipping nan_safe ls in
  let u := unit_roundoff prec in let d := INR (length ls) in
  let accurate e v es := is_finite e = true /\ Rabs (B2R e) <= bpow radix2 k /\ Rabs (B2R e - exact_energy prec emax es) <= u * (INR n + d + 2) * bpow radix2 k /\
    is_finite v = true /\ 0 <= B2R v /\ Rabs (B2R v - exact_variance prec emax nchains es) <= u * (2 * (INR n + d) + 14) * bpow radix2 (2 * k + 2) + 2 * (u * (INR n + d + 2) * bpow radix2 k) ^ 2 in
  energies_in_range prec emax k n nan_allowed (ed_local _ _ r) /\
  match clipping with
  | None => ed_local _ _ r = ls
  | Some (t, b) => Forall2 (fun l l' => let c := if b then ed_noclip _ _ r else fmedian l in Forall2 (clipped_to prec emax c (fmul prec emax t (total_variation prec emax fs c l))) l l') ls (ed_local _ _ r)
  end /\
  accurate (ed_energy _ _ r) (ed_variance _ _ r) (ed_local _ _ r) /\
  (energies_in_range prec emax k n false ls -> accurate (ed_noclip _ _ r) (ed_variance_noclip _ _ r) ls) /\
  Forall2 (Forall2 (fun e z => (e = B754_nan /\ z = B754_nan) \/ (is_finite z = true /\ Rabs (B2R z - (B2R e - B2R (ed_energy _ _ r))) <= u * bpow radix2 (k + 1)))) (ed_local _ _ r) (ed_centered _ _ r).
Proof.
  intros prec emax Hp He fs fmedian SUM k n nchains clipping nan_safe ls K0 K1 N2 NP by_mean nan_allowed IR TH MED r u d accurate. pose proof (prec1 prec) as P1.
  assert (WEAK : forall es, energies_in_range prec emax k n nan_allowed es -> energies_in_range prec emax k n nan_safe es).
  { intros es (A1 & A2 & A3 & A4). split; [exact A1|]. split; [exact A2|]. split; [exact A3|]. intros l Hl. destruct (A4 l Hl) as (B1 & B2 & B3). split; [exact B1|]. split; [exact B2|].
    intros e Hx. destruct (B3 e Hx) as [Q|[Q1 Q2]]; [left; exact Q|right]. unfold nan_allowed in Q1. apply andb_true_iff in Q1. split; [apply Q1|exact Q2]. }
  assert (CEN : forall t b l, clipping = Some (t, b) -> In l ls -> let c := if b then ed_noclip _ _ r else fmedian l in is_finite c = true /\ Rabs (B2R c) <= bpow radix2 k).
  { intros t b l -> Hl c. destruct b; [|apply MED; exact Hl]. unfold nan_allowed, by_mean in IR. cbn [negb] in IR. rewrite andb_false_r in IR.
    destruct (allreduce_spec prec emax k K0 ltac:(lia) fs SUM false n ls IR) as [FE [BE _]]. split; assumption. }
  assert (LOC : match clipping with
    | None => ed_local _ _ r = ls
    | Some (t, b) => Forall2 (fun l l' => let c := if b then ed_noclip _ _ r else fmedian l in Forall2 (clipped_to prec emax c (fmul prec emax t (total_variation prec emax fs c l))) l l') ls (ed_local _ _ r)
    end).
  { destruct clipping as [[t b]|]; [|reflexivity]. change (ed_local _ _ r) with (map (total_variation_clipping prec emax fs fmedian t b (ed_noclip _ _ r)) ls).
    destruct (TH t b eq_refl) as [Ft Pt]. destruct IR as (_ & _ & A3 & A4).
    assert (Q : forall l, In l ls -> let c := if b then ed_noclip _ _ r else fmedian l in Forall2 (clipped_to prec emax c (fmul prec emax t (total_variation prec emax fs c l))) l (total_variation_clipping prec emax fs fmedian t b (ed_noclip _ _ r) l)).
    { intros l Hl c. destruct (CEN t b l eq_refl Hl) as [Fc _]. destruct (A4 l Hl) as (B1 & B2 & B3).
      apply (C89_clipping prec emax Hp He fs fmedian SUM t b (ed_noclip _ _ r) l Ft Pt Fc B1).
      - eapply Rle_trans; [apply le_INR; exact B2|exact A3].
      - intros e Hx. destruct (B3 e Hx) as [[F _]|[_ F]]; auto. }
    clear -Q. revert Q. generalize (ed_noclip prec emax r). intros en Q. induction ls as [|l ls IH]; cbn [map]; constructor; [apply Q; left; reflexivity|apply IH; intros; apply Q; right; assumption]. }
  assert (IRL : energies_in_range prec emax k n nan_allowed (ed_local _ _ r)).
  { destruct clipping as [[t b]|]; [|rewrite LOC; exact IR]. destruct IR as (A1 & A2 & A3 & A4).
    assert (LEN : length (ed_local prec emax r) = length ls) by (clear -LOC; induction LOC; cbn; congruence).
    split; [intros E; rewrite E in LEN; destruct ls; [congruence|discriminate]|]. split; [rewrite LEN; exact A2|]. split; [exact A3|].
    assert (G : forall l l', In l ls -> Forall2 (clipped_to prec emax (if b then ed_noclip _ _ r else fmedian l) (fmul prec emax t (total_variation prec emax fs (if b then ed_noclip _ _ r else fmedian l) l))) l l' ->
       numbers prec emax l' <> [] /\ (length (numbers prec emax l') <= n)%nat /\ forall e, In e l' -> (is_finite e = true /\ Rabs (B2R e) <= bpow radix2 k) \/ (nan_allowed = true /\ e = B754_nan)).
    { intros l l' Hl F. destruct (CEN t b l eq_refl Hl) as [Fc Bc]. destruct (A4 l Hl) as (B1 & B2 & B3). revert F. generalize (fmul prec emax t (total_variation prec emax fs (if b then ed_noclip _ _ r else fmedian l) l)). intros w.
      generalize dependent (if b then ed_noclip prec emax r else fmedian l). intros c Fc Bc F.
      assert (NL : length (numbers prec emax l') = length (numbers prec emax l) /\ forall e, In e l' -> (is_finite e = true /\ Rabs (B2R e) <= bpow radix2 k) \/ (nan_allowed = true /\ e = B754_nan)).
      { clear -F B3 Fc Bc. induction F as [|e y l l' [C1 C2] F IH]; [split; [reflexivity|intros e []]|]. destruct IH as [I1 I2]; [intros; apply B3; right; assumption|].
        destruct (B3 e (or_introl eq_refl)) as [[Fe Be]|[Na ->]].
        - destruct (C2 Fe) as [Fy [T _]]. split; [cbn [numbers filter]; rewrite (finite_not_nan prec emax e Fe), (finite_not_nan prec emax y Fy); cbn [negb length]; f_equal; exact I1|].
          intros z [<-|Hz]; [|apply I2; exact Hz]. left. split; [exact Fy|]. apply Rabs_le. apply Rabs_le_inv in Be. apply Rabs_le_inv in Bc. destruct T; lra.
        - rewrite (C1 eq_refl). split; [exact I1|]. intros z [<-|Hz]; [right; auto|apply I2; exact Hz]. }
      destruct NL as [N1 N3]. split; [intros E; rewrite E in N1; destruct (numbers prec emax l); [congruence|discriminate]|]. split; [rewrite N1; exact B2|exact N3]. }
    clear -LOC G. revert LOC G. generalize (ed_local prec emax r) as ls'. generalize (ed_noclip prec emax r) as en. clear r. intros en ls' LOC G. induction LOC as [|l l' ls ls' F LOC IH]; intros x Hx; [destruct Hx|]. destruct Hx as [<-|Hx]; [apply (G l l'); [left; reflexivity|exact F]|apply IH; [intros m m' Hm; apply G; right; exact Hm|exact Hx]]. }
  assert (LEN : length (ed_local prec emax r) = length ls).
  { change (ed_local prec emax r) with (match clipping with Some (t, by_mean) => map (total_variation_clipping prec emax fs fmedian t by_mean (ed_noclip _ _ r)) ls | None => ls end). destruct clipping as [[t b]|]; [apply map_length|reflexivity]. }
  assert (ST : forall safe es, length es = length ls -> energies_in_range prec emax k n safe es -> accurate (fst (statistics prec emax fs nchains safe es)) (snd (statistics prec emax fs nchains safe es)) es).
  { intros safe es LE I. pose proof (C89_statistics prec emax Hp He fs SUM k n nchains safe es K0 K1 N2 NP I) as H. cbv zeta in H. rewrite LE in H. exact H. }
  assert (AC : accurate (ed_energy _ _ r) (ed_variance _ _ r) (ed_local _ _ r)) by (apply (ST nan_safe _ LEN); apply WEAK; exact IRL).
  split; [exact IRL|]. split; [exact LOC|]. split; [exact AC|]. split; [intros I; apply (ST false ls eq_refl I)|].
  destruct AC as [FE [BE _]]. change (ed_centered _ _ r) with (centered prec emax (ed_energy _ _ r) (ed_local _ _ r)). destruct IRL as (_ & _ & _ & H). revert FE BE H. generalize (ed_energy prec emax r) as E. generalize (ed_local prec emax r) as es. clear -K0 K1 P1.
  intros es E FE BE H. unfold centered. induction es as [|l es IH]; [constructor|]. cbn [map]. constructor; [|apply IH; intros; apply H; right; assumption].
  destruct (H l (or_introl eq_refl)) as (_ & _ & G). clear -G FE BE K0 K1 P1. induction l as [|e l IH]; [constructor|]. cbn [map]. constructor; [|apply IH; intros; apply G; right; assumption].
  destruct (G e (or_introl eq_refl)) as [[Fe Be]|[_ ->]]; [right|left; split; [reflexivity|apply sub_nan_l']].
  assert (E1 : bpow radix2 (k + 1) = 2 * bpow radix2 k) by (rewrite bpow_plus; change (bpow radix2 1) with 2; ring).
  assert (Bd : Rabs (B2R e - B2R E) <= bpow radix2 (k + 1)) by (rewrite E1; apply Rabs_le; apply Rabs_le_inv in Be; apply Rabs_le_inv in BE; lra).
  destruct (sub_scaled prec emax (k + 1) e E ltac:(lia) ltac:(lia) Fe FE Bd) as [F1 [V1 B1]]. split; [exact F1|]. rewrite V1. apply (rnd_err prec emax); [apply (normal_le prec emax (k + 1)); lia|exact Bd].
Qed.
Print Assumptions C89_update.

(** C89.  A NaN energy of one walker, clipped about the mean: every clipped energy of every device is NaN, and the mean energy too, also with NaN-safe means. *)
Theorem C89_mean_center_nan :
  forall prec emax (Hp : Prec_gt_0 prec) (He : Prec_lt_emax prec emax) fs (fmedian : list (binary_float prec emax) -> binary_float prec emax), (forall l, is_sum prec emax l (fs l)) ->
  forall nchains threshold nan_safe ls l, In l ls -> In B754_nan l -> (forall l, In l ls -> l <> []) ->
  let r := clipped_energies prec emax fs fmedian nchains (Some (threshold, true)) nan_safe ls in
  (forall l' y, In l' (ed_local _ _ r) -> In y l' -> y = B754_nan) /\ ed_energy _ _ r = B754_nan.
Proof.
  intros prec emax Hp He fs fmedian SUM nchains threshold nan_safe ls l Hl Hx NE r.
  assert (E : ed_noclip prec emax r = B754_nan) by (apply (all_nan prec emax fs SUM ls l Hl Hx)).
  assert (L : ed_local prec emax r = map (map (fun _ => B754_nan)) ls).
  { change (ed_local prec emax r) with (map (total_variation_clipping prec emax fs fmedian threshold true (ed_noclip _ _ r)) ls). rewrite E. apply map_ext. intros m. apply nan_center_clips. }
  assert (A : forall l' y, In l' (ed_local _ _ r) -> In y l' -> y = B754_nan).
  { rewrite L. intros l' y Hl' Hy. apply in_map_iff in Hl'. destruct Hl' as (m & <- & _). apply in_map_iff in Hy. destruct Hy as (z & <- & _). reflexivity. }
  split; [exact A|]. change (ed_energy _ _ r) with (allreduce_mean prec emax fs nan_safe (ed_local _ _ r)).
  apply (all_nans prec emax fs SUM nan_safe _ (map (fun _ => B754_nan) l)); [rewrite L; apply (in_map (map (fun _ => B754_nan))); exact Hl|exact A|].
  rewrite L. intros m Hm. apply in_map_iff in Hm. destruct Hm as (z & <- & Hz). specialize (NE z Hz). destruct z; [congruence|discriminate].
Qed.
Print Assumptions C89_mean_center_nan.

(** ** Example in single precision: two devices with two walkers, one energy NaN, NaN-safe means, clipping about the median. *)
Definition med32 (l : list fl32) : fl32 :=
  match numbers 24 128 l with [a] => a | [a; b] => @fmul 24 128 prec32 emax32 half (@fadd 24 128 prec32 emax32 a b) | _ => B754_nan end.
Definition ex_energies : list (list fl32) := [[half; threehalves]; [quarter; B754_nan]].
Definition sum32 := @left_sum 24 128 prec32 emax32.
Lemma sum32_sum l : @is_sum 24 128 prec32 emax32 l (sum32 l).
Proof. destruct (C86_assumptions_hold 24 128 prec32 emax32) as [_ [_ [_ GS]]]; [cbn; tauto|]. apply GS. Qed.
Lemma below_two (x : fl32) : is_finite x = true -> Bleb (Babs x) two32 = true -> Rabs (B2R x) <= bpow radix2 1.
Proof.
  intros F L. rewrite (Bleb_correct _ _ (Babs x) two32) in L by (try rewrite is_finite_Babs; auto). revert L. case Rle_bool_spec; [intros L _|discriminate]. rewrite B2R_Babs in L. apply Rle_trans with (1 := L).
  change (B2R two32) with (IZR 8388608 * bpow radix2 (-22)). replace (IZR 8388608) with (bpow radix2 23) by (cbn; lra). rewrite <- bpow_plus. apply bpow_le. lia.
Qed.
Lemma half_pos : 0 < B2R half. Proof. apply F2R_gt_0. reflexivity. Qed.
Lemma ex_energies_in_range : energies_in_range 24 128 1 2 true ex_energies.
Proof.
  assert (P2 : INR 2 <= bpow radix2 24) by (cbn; lra). split; [discriminate|]. split; [exact P2|]. split; [exact P2|].
  intros l [<-|[<-|[]]]; (split; [discriminate|]); (split; [cbn; lia|]); intros e [<-|[<-|[]]];
    first [right; split; reflexivity|left; split; [reflexivity|apply below_two; [reflexivity|vm_cast_no_check (eq_refl true)]]].
Qed.
Lemma ex_medians l : In l ex_energies -> is_finite (med32 l) = true /\ Rabs (B2R (med32 l)) <= bpow radix2 1.
Proof.
  intros [<-|[<-|[]]].
  - assert (F : is_finite (med32 [half; threehalves]) = true) by (vm_cast_no_check (eq_refl true)). split; [exact F|]. apply below_two; [exact F|vm_cast_no_check (eq_refl true)].
  - assert (F : is_finite (med32 [quarter; B754_nan]) = true) by (vm_cast_no_check (eq_refl true)). split; [exact F|]. apply below_two; [exact F|vm_cast_no_check (eq_refl true)].
Qed.

Example C89_update_example :
  let r := @clipped_energies 24 128 prec32 emax32 sum32 med32 4 (Some (half, false)) true ex_energies in
  is_finite (ed_energy _ _ r) = true /\ Rabs (B2R (ed_energy _ _ r) - exact_energy 24 128 (ed_local _ _ r)) <= 12 * bpow radix2 (-24) /\
  is_finite (ed_variance _ _ r) = true /\ 0 <= B2R (ed_variance _ _ r) /\
  match ed_local _ _ r with [[a; b]; [c; d]] => Bltb half a && Bltb b threehalves && is_finite c && is_nan d | _ => false end = true.
Proof.
  intros r. assert (P4 : INR 4 <= bpow radix2 24) by (cbn; lra).
  destruct (C89_update 24 128 prec32 emax32 sum32 med32 sum32_sum 1 2 4 (Some (half, false)) true ex_energies) as [_ [_ [[A1 [_ [A2 [A3 [A4 _]]]]] _]]]; [lia|lia|lia|exact P4|exact ex_energies_in_range| |exact ex_medians|].
  - intros t b E. injection E as <- <-. split; [reflexivity|exact half_pos].
  - fold r in A1, A2, A3, A4. split; [exact A1|]. split; [|split; [exact A3|split; [exact A4|vm_cast_no_check (eq_refl true)]]].
    eapply Rle_trans; [exact A2|]. unfold unit_roundoff. cbn [length ex_energies Z.opp]. change (bpow radix2 1) with 2. replace (INR 2) with 2 by (cbn; lra). lra.
Qed.

Example C89_statistics_example :
  let ls := [[half; threehalves]; [quarter; quarter]] in
  Rabs (B2R (fst (@statistics 24 128 prec32 emax32 sum32 4 false ls)) - 5 / 8) <= 12 * bpow radix2 (-24) /\ exact_variance 24 128 4 ls = 17 / 48.
Proof.
  intros ls. assert (P4 : INR 4 <= bpow radix2 24) by (cbn; lra). assert (P2 : INR 2 <= bpow radix2 24) by (cbn; lra).
  assert (V : B2R half = / 2 /\ B2R quarter = / 4 /\ B2R threehalves = 3 / 2).
  { change (B2R half) with (IZR 8388608 * bpow radix2 (-24)). change (B2R quarter) with (IZR 8388608 * bpow radix2 (-25)). change (B2R threehalves) with (IZR 12582912 * bpow radix2 (-23)).
    replace (bpow radix2 (-24)) with (/ 16777216) by (cbn; lra). replace (bpow radix2 (-25)) with (/ 33554432) by (cbn; lra). replace (bpow radix2 (-23)) with (/ 8388608) by (cbn; lra). repeat split; lra. }
  destruct V as [V1 [V2 V3]].
  destruct (C89_sample 24 128 prec32 emax32 2 ls) as [_ [SE SV]]; [lia|discriminate|intros l [<-|[<-|[]]]; (split; [reflexivity|intros e [<-|[<-|[]]]; reflexivity])|].
  cbn [ls concat app map fold_right] in SE, SV. change (INR (length ls * 2)) with (INR 4) in SE. specialize (SV ltac:(cbn; lia)). change (length ls * 2)%nat with 4%nat in SV. change (4 - 1)%nat with 3%nat in SV.
  rewrite V1, V2, V3 in SE, SV. replace (INR 4) with 4 in * by (cbn; lra). replace (INR 3) with 3 in SV by (cbn; lra).
  split; [|rewrite SV; lra]. replace (5 / 8) with (exact_energy 24 128 ls) by (rewrite SE; lra).
  destruct (C89_statistics 24 128 prec32 emax32 sum32 sum32_sum 1 2 4 false ls) as [_ [_ [A _]]]; [lia|lia|lia|cbn; lra| |].
  - split; [discriminate|]. split; [exact P2|]. split; [exact P2|]. intros l [<-|[<-|[]]]; (split; [discriminate|]); (split; [cbn; lia|]); intros e [<-|[<-|[]]]; left; (split; [reflexivity|apply below_two; [reflexivity|vm_cast_no_check (eq_refl true)]]).
  - eapply Rle_trans; [exact A|]. unfold unit_roundoff. cbn [length ls Z.opp]. change (bpow radix2 1) with 2. replace (INR 2) with 2 by (cbn; lra). lra.
Qed.

(** * Proofs: cofactor antiequivariance and per-particle determinants *)
From Coq Require Import Reals List Bool Arith Lia Lra Permutation.
From Verif Require Import XReal M_slog M_models M_antisym Det S_models S_antisym Rsum P_xsum P_slog P_split P_equiv P_equiv2 P_inv P_parity P_flips P_sgn P_antisym.
Import ListNotations.
Local Open Scope R_scope.

Lemma is_square_iff m : is_square m = true <-> Forall (fun r : vec => length r = length m) m.
Proof.
  unfold is_square. rewrite forallb_forall, Forall_forall. split; intros H r Hr; [apply Nat.eqb_eq|apply Nat.eqb_eq]; apply H; exact Hr.
Qed.
Lemma nth_remove_at {A} i (l : list A) a d : (i < length l)%nat -> nth a (remove_at i l) d = nth (skip i a) l d.
Proof.
  unfold remove_at, skip. revert i a. induction l as [|b l IH]; intros i a Hi; cbn in Hi; [lia|].
  destruct i as [|i]; cbn [firstn skipn app].
  - destruct (Nat.ltb_spec a 0); [lia|]. reflexivity.
  - destruct a as [|a]; cbn [nth]; [reflexivity|]. rewrite IH by lia.
    destruct (Nat.ltb_spec a i), (Nat.ltb_spec (S a) (S i)); try lia; reflexivity.
Qed.

(** The signed minor of a square table of extended reals. *)
Definition minor_fin (x : arr2) (i : nat) : bool := forallb (forallb isfin) (map (fun row => remove_at 0 row) (remove_at i x)).
Definition xentry (x : arr2) (i j : nat) : R := val (nth j (nth i x []) (Fin 0)).
Definition minor_det (x : arr2) (i : nat) : xr :=
  if minor_fin x i then Fin (det (pred (length x)) (minor (xentry x) i)) else NaN.
Lemma sub_det x i : is_square x = true -> (i < length x)%nat ->
  linalg_det (map (fun row => remove_at 0 row) (remove_at i x)) = Some (minor_det x i).
Proof.
  intros Sq Hi. assert (F := proj1 (is_square_iff x) Sq). unfold linalg_det.
  assert (L : length (map (fun row : vec => remove_at 0 row) (remove_at i x)) = pred (length x)).
  { rewrite map_length. apply remove_at_length. exact Hi. }
  assert (S2 : is_square (map (fun row => remove_at 0 row) (remove_at i x)) = true).
  { apply is_square_iff. rewrite L. apply Forall_map. rewrite Forall_forall in F |- *. intros r Hr.
    assert (Hin : In r x).
    { apply (Permutation_in _ (remove_at_perm i x (nth i x []) (nth_error_nth_some x i [] Hi))). right. exact Hr. }
    specialize (F r Hin). rewrite remove_at_length by lia. lia. }
  rewrite S2, L. unfold minor_det, minor_fin. destruct (forallb _ _); [|reflexivity]. f_equal. f_equal. apply det_ext. intros a b Ha Hb.
  unfold minor, xentry. f_equal.
  rewrite (nth_indep (map (fun row : vec => remove_at 0 row) (remove_at i x)) [] (remove_at 0 [])) by lia.
  rewrite (map_nth (fun row => remove_at 0 row)). rewrite (nth_remove_at i x a []) by exact Hi.
  set (row := nth (skip i a) x []).
  assert (Lr : length row = length x).
  { rewrite Forall_forall in F. apply F. apply nth_In. unfold skip. destruct (Nat.ltb_spec a i); lia. }
  rewrite nth_remove_at by lia. reflexivity.
Qed.
Lemma minor_det_reorder x s i : renumbering (length x) s -> (i < length x)%nat ->
  sg ((-1) ^ i) (minor_det (reorder s x) i) = sg (sign_of (length x) s * (-1) ^ (s i)) (minor_det x (s i)).
Proof.
  intros Hs Hi. assert (Hsi := renumbering_lt _ s i Hs Hi). unfold minor_det. rewrite reorder_length.
  assert (E : minor_fin (reorder s x) i = minor_fin x (s i)).
  { unfold minor_fin. apply forallb_perm. apply Permutation_map. apply (Permutation_cons_inv (a := nth (s i) x [])).
    rewrite <- (nth_reorder s (length x) x [] i Hs eq_refl Hi) at 1.
    rewrite (remove_at_perm i (reorder s x)) by (apply nth_error_nth_some; rewrite reorder_length; exact Hi).
    rewrite (reorder_perm s x Hs). symmetry. apply remove_at_perm. apply nth_error_nth_some. exact Hsi. }
  rewrite E. destruct (minor_fin x (s i)); [|reflexivity]. rewrite !sg_fin. f_equal.
  destruct (length x) as [|n] eqn:L; [lia|]. cbn [pred]. rewrite Rmult_assoc, <- (minor_rows (xentry x) Hs Hi). f_equal. apply det_ext.
  intros a b Ha Hb. unfold minor, xentry. f_equal. f_equal. apply (nth_reorder s (S n)); [exact Hs|exact L|].
  unfold skip. destruct (Nat.ltb_spec a i); lia.
Qed.
Lemma alternating_nth n : get_alternating_signs n = map (fun i => (-1) ^ i) (seq 0 n).
Proof. unfold get_alternating_signs. apply map_ext. intros i. symmetry. apply m1_pow. Qed.
Lemma unit_m1 i : unit ((-1) ^ i).
Proof. rewrite m1_pow. destruct (Nat.even i); [left|right]; reflexivity. Qed.

Lemma zipw_maps {A B C D} (f : A -> B -> C) (g : D -> A) (h : D -> B) l : zipw f (map g l) (map h l) = map (fun x => f (g x) (h x)) l.
Proof. induction l as [|a l IH]; [reflexivity|]. cbn. f_equal. exact IH. Qed.
Lemma map_rows {A B} (g : A -> B) (x : list A) d : map g x = map (fun i => g (nth i x d)) (seq 0 (length x)).
Proof. rewrite <- (map_map (fun i => nth i x d) g), map_seq_nth. reflexivity. Qed.
Lemma cofactor_spec x : cofactor_antieq x =
  if is_square x then if Nat.eqb (length x) 0 then None
    else Some (map (fun i => xmul (nth 0 (nth i x []) (Fin 0)) (sg ((-1) ^ i) (minor_det x i))) (seq 0 (length x))) else None.
Proof.
  unfold cofactor_antieq, get_submatrices_along_first_col. destruct (is_square x) eqn:Sq; [|reflexivity].
  rewrite map_map. rewrite (map_ext_in _ (fun i => Some (minor_det x i))) by (intros i Hi; apply in_seq in Hi; apply sub_det; [exact Sq|lia]).
  rewrite <- (map_map (minor_det x) Some), sequence_some. destruct (Nat.eqb (length x) 0); [reflexivity|]. f_equal.
  rewrite alternating_nth, zipw_maps, (map_rows (fun row => nth 0 row (Fin 0)) x []), zipw_maps. reflexivity.
Qed.
Lemma square_reorder s x : renumbering (length x) s -> is_square (reorder s x) = is_square x.
Proof.
  intros H. unfold is_square. rewrite reorder_length. apply forallb_perm. apply reorder_perm. exact H.
Qed.
Lemma cofactor_reorder x s : renumbering (length x) s ->
  cofactor_antieq (reorder s x) = option_map (fun v => map (sg (sign_of (length x) s)) (reorder s v)) (cofactor_antieq x).
Proof.
  intros Hs. rewrite !cofactor_spec, square_reorder, reorder_length by exact Hs.
  destruct (is_square x); [|reflexivity]. destruct (Nat.eqb (length x) 0); [reflexivity|]. cbn [option_map]. f_equal.
  rewrite map_seq_reorder by exact Hs. rewrite map_map. apply map_ext_in. intros i Hi. apply in_seq in Hi.
  rewrite (nth_reorder s (length x)) by (auto; lia). rewrite minor_det_reorder by (auto; lia).
  assert (U : unit (sign_of (length x) s)) by apply sign_unit.
  rewrite <- sg_mul by (exact U || apply unit_m1). apply sg_xmul_r. exact U.
Qed.
Lemma slog_cofactor_spec x : slog_cofactor_antieq x =
  if is_square x then if Nat.eqb (length x) 0 then None
    else Some (map (fun i => slog_multiply (array_to_slog (nth 0 (nth i x []) (Fin 0))) (array_to_slog (sg ((-1) ^ i) (minor_det x i)))) (seq 0 (length x))) else None.
Proof.
  unfold slog_cofactor_antieq, get_submatrices_along_first_col. destruct (is_square x) eqn:Sq; [|reflexivity].
  unfold linalg_slogdet. rewrite map_map. rewrite (map_ext_in _ (fun i => Some (array_to_slog (minor_det x i)))).
  2:{ intros i Hi; apply in_seq in Hi. rewrite sub_det by (exact Sq || lia). reflexivity. }
  rewrite <- (map_map (fun i => array_to_slog (minor_det x i)) Some), sequence_some. destruct (Nat.eqb (length x) 0); [reflexivity|]. f_equal.
  rewrite alternating_nth, (map_rows (fun row => array_to_slog (nth 0 row (Fin 0))) x []), !zipw_maps. apply map_ext. intros i.
  cbn [fst snd]. rewrite sg_slog by apply unit_m1. unfold slog_multiply, signed. cbn [fst snd].
  rewrite sg_xmul_r by apply unit_m1. rewrite (xmul_comm _ (Fin ((-1) ^ i))). reflexivity.
Qed.
Lemma slog_cofactor_reorder x s : renumbering (length x) s ->
  slog_cofactor_antieq (reorder s x) = option_map (fun v => map (signed (sign_of (length x) s)) (reorder s v)) (slog_cofactor_antieq x).
Proof.
  intros Hs. rewrite !slog_cofactor_spec, square_reorder, reorder_length by exact Hs.
  destruct (is_square x); [|reflexivity]. destruct (Nat.eqb (length x) 0); [reflexivity|]. cbn [option_map]. f_equal.
  rewrite map_seq_reorder by exact Hs. rewrite map_map. apply map_ext_in. intros i Hi. apply in_seq in Hi.
  rewrite (nth_reorder s (length x)) by (auto; lia). rewrite minor_det_reorder by (auto; lia).
  assert (U : unit (sign_of (length x) s)) by apply sign_unit.
  rewrite <- sg_mul by (exact U || apply unit_m1). rewrite (sg_slog (sign_of (length x) s)) by exact U.
  rewrite <- (signed_1 (array_to_slog (nth 0 _ _))) at 1. rewrite slog_multiply_signed by (exact U || (left; reflexivity)).
  rewrite Rmult_1_l. reflexivity.
Qed.

(** Expansion along the first column, for real matrices. *)
Lemma fin2_fin m : forallb (forallb isfin) (fin2 m) = true.
Proof.
  apply forallb_forall. intros r Hr. apply in_map_iff in Hr. destruct Hr as (r' & <- & _). apply forallb_forall. intros a Ha.
  apply in_map_iff in Ha. destruct Ha as (a' & <- & _). reflexivity.
Qed.
Lemma fin2_square n m : square_of n m -> is_square (fin2 m) = true /\ length (fin2 m) = n.
Proof.
  intros (L & F). assert (L' : length (fin2 m) = n) by (unfold fin2; rewrite map_length; exact L). split; [|exact L'].
  apply is_square_iff. rewrite L'. unfold fin2. apply Forall_map. eapply Forall_impl; [|exact F]. intros r. rewrite map_length. auto.
Qed.
Lemma nth_fin2 m i : nth i (fin2 m) [] = map Fin (nth i m []).
Proof. apply (map_nth (map Fin) m (@nil R) i). Qed.
Lemma xentry_fin2 m i j : xentry (fin2 m) i j = entry m i j.
Proof. unfold xentry, entry. rewrite nth_fin2. change (Fin 0) with (Fin 0). rewrite (map_nth Fin). reflexivity. Qed.
Lemma det_fin2 n m : square_of n m -> linalg_det (fin2 m) = Some (Fin (det n (entry m))).
Proof.
  intros H. destruct (fin2_square n m H) as (Sq & L). unfold linalg_det. rewrite Sq, fin2_fin, L. f_equal. f_equal. apply det_ext.
  intros i j _ _. apply xentry_fin2.
Qed.
Lemma minor_det_fin2 n m i : square_of (S n) m -> (i < S n)%nat -> minor_det (fin2 m) i = Fin (det n (minor (entry m) i)).
Proof.
  intros H Hi. destruct (fin2_square _ m H) as (Sq & L). unfold minor_det.
  replace (minor_fin (fin2 m) i) with true.
  - rewrite L. cbn [pred]. f_equal. apply det_ext. intros a b _ _. unfold minor. apply xentry_fin2.
  - symmetry. unfold minor_fin. apply forallb_forall. intros r Hr. apply in_map_iff in Hr. destruct Hr as (r' & <- & Hr').
    pose proof (fin2_fin m) as F. rewrite forallb_forall in F.
    assert (Hil : (i < length (fin2 m))%nat) by (rewrite L; exact Hi).
    assert (Hin : In r' (fin2 m)).
    { apply (Permutation_in _ (remove_at_perm i (fin2 m) (nth i (fin2 m) []) (nth_error_nth_some _ i [] Hil))). right. exact Hr'. }
    specialize (F r' Hin). rewrite forallb_forall in F |- *. intros a Ha. apply F. unfold remove_at in Ha. cbn [firstn app] in Ha.
    destruct r'; [destruct Ha|]. right. exact Ha.
Qed.
Definition cofactor_terms (n : nat) (m : list (list R)) : list R :=
  map (fun i => entry m i 0 * ((-1) ^ i * det n (minor (entry m) i))) (seq 0 (S n)).
Lemma cofactor_fin2 n m : square_of (S n) m -> cofactor_antieq (fin2 m) = Some (map Fin (cofactor_terms n m)).
Proof.
  intros H. destruct (fin2_square _ m H) as (Sq & L). rewrite cofactor_spec, Sq, L. cbn [Nat.eqb]. f_equal. unfold cofactor_terms. rewrite map_map.
  apply map_ext_in. intros i Hi. apply in_seq in Hi. rewrite (minor_det_fin2 n m i H) by lia. rewrite sg_fin.
  rewrite nth_fin2, (map_nth Fin). reflexivity.
Qed.
Lemma lsum_Rsum n f : lsum (map f (seq 0 n)) = Rsum n f.
Proof. apply lsum_map_seq. Qed.
Lemma cofactor_terms_sum n m : lsum (cofactor_terms n m) = det (S n) (entry m).
Proof. unfold cofactor_terms. rewrite lsum_Rsum, det_expand. reflexivity. Qed.

(** ** The layers, population by population *)
Lemma reorder_some {A} s (l : list A) : reorder s (map Some l) = map Some (reorder s l).
Proof. apply reorder_map. Qed.
Lemma sequence_inv {A} (l : list (option A)) r : sequence l = Some r -> l = map Some r.
Proof.
  revert r. induction l as [|[a|] l IH]; intros r H; cbn in H; try discriminate; [injection H as <-; reflexivity|].
  destruct (sequence l) as [q|] eqn:E; [|discriminate]. injection H as <-. cbn. f_equal. apply IH. reflexivity.
Qed.
Lemma sequence_none {A} (l : list (option A)) : sequence l = None <-> In None l.
Proof.
  induction l as [|[a|] l IH]; cbn; [split; [discriminate|intros []]| |split; [left; reflexivity|reflexivity]].
  destruct (sequence l) as [q|] eqn:E.
  - split; [discriminate|]. intros [H|H]; [discriminate|]. apply IH in H. discriminate.
  - split; [right; apply IH; reflexivity|reflexivity].
Qed.
Lemma sequence_reorder {A} t (l : list (option A)) : renumbering (length l) t -> sequence (reorder t l) = option_map (reorder t) (sequence l).
Proof.
  intros H. destruct (sequence l) as [r|] eqn:E.
  - rewrite (sequence_inv l r E), reorder_some, sequence_some. reflexivity.
  - cbn. apply sequence_none. apply sequence_none in E. apply (Permutation_in _ (Permutation_sym (reorder_perm t l H))). exact E.
Qed.
Lemma sequence_map_out {A B} (f : A -> B) (l : list (option A)) : sequence (map (option_map f) l) = option_map (map f) (sequence l).
Proof.
  induction l as [|[a|] l IH]; cbn; [reflexivity| |reflexivity]. rewrite IH. destruct (sequence l); reflexivity.
Qed.
Lemma sequence_mapi {A B} (h : nat -> A -> B) (l l' : list (option A)) (Hl : length l = length l') :
  forall (l'' : list (option B)), length l'' = length l -> (forall b, (b < length l)%nat -> nth b l'' None = option_map (h b) (nth b l None)) ->
  sequence l'' = option_map (mapi h) (sequence l).
Proof.
  intros l'' L N. destruct (sequence l) as [r|] eqn:E.
  - assert (E2 := sequence_inv l r E). assert (Lr : length r = length l) by (rewrite E2, map_length; reflexivity).
    cbn [option_map]. rewrite <- (sequence_some (mapi h r)). f_equal. apply (list_eq_nth _ _ None); [rewrite map_length, mapi_length; lia|].
    intros b Hb. rewrite N by lia. destruct r as [|d0 r0] eqn:Er; [cbn in Lr; lia|]. rewrite <- Er in *.
    rewrite E2. rewrite (nth_indep (map Some r) None (Some d0)) by (rewrite map_length; lia). rewrite (map_nth Some).
    rewrite (nth_indep (map Some (mapi h r)) None (Some (h O d0))) by (rewrite map_length, mapi_length; lia). rewrite (map_nth Some). cbn [option_map]. f_equal.
    rewrite (nth_indep (mapi h r) (h O d0) (h b d0)) by (rewrite mapi_length; lia). symmetry. apply mapi_nth. lia.
  - cbn. apply sequence_none. apply sequence_none in E. apply (In_nth _ _ None) in E. destruct E as (b & Hb & Eb).
    assert (N' := N b Hb). rewrite Eb in N'. cbn in N'. rewrite <- N'. apply nth_In. lia.
Qed.

Lemma cut_reorder_block {A} sizes s (l : list A) b : keeps_spins sizes s -> length l = list_sum sizes -> (b < length sizes)%nat ->
  nth b (cut sizes (reorder s l)) [] = reorder (block_map sizes s b) (nth b (cut sizes l) []).
Proof.
  intros K L Hb. pose proof (offset_end sizes b Hb) as E. destruct l as [|a l'] eqn:El.
  - cbn [reorder]. rewrite nth_cut by exact Hb. rewrite skipn_nil, firstn_nil. reflexivity.
  - rewrite <- El in *. rewrite (cut_piece sizes (reorder s l) b a) by (rewrite ?reorder_length; assumption).
    rewrite (cut_piece sizes l b a L Hb). rewrite (seq_from (offset sizes b)), !map_map.
    rewrite map_seq_reorder by (apply block_map_renumbering; assumption). apply map_ext_in. intros k Hk. apply in_seq in Hk.
    rewrite block_map_back by (assumption || lia). apply (nth_reorder s (list_sum sizes)); [apply K|exact L|lia].
Qed.
Lemma by_spin_block {A} sizes s (g : nat -> nat -> A) b : keeps_spins sizes s -> (b < length sizes)%nat ->
  nth b (by_spin sizes (fun b i => g b (s i))) [] = reorder (block_map sizes s b) (nth b (by_spin sizes g) []).
Proof.
  intros K Hb. rewrite !by_spin_nth by exact Hb. rewrite (seq_from (offset sizes b)), !map_map.
  rewrite map_seq_reorder by (apply block_map_renumbering; assumption). apply map_ext_in. intros k Hk. apply in_seq in Hk.
  rewrite block_map_back by (assumption || lia). reflexivity.
Qed.
Lemma nth_block_signs sizes s b : (b < length sizes)%nat -> nth b (block_signs sizes s) 0 = sign_of (nth b sizes O) (block_map sizes s b).
Proof. intros Hb. unfold block_signs. apply (nth_map_seq (fun b => sign_of (nth b sizes O) (block_map sizes s b))). exact Hb. Qed.

Lemma filter_true_id {A} (l : list A) : filter (fun _ => true) l = l.
Proof. induction l as [|a l IH]; [reflexivity|]. cbn. rewrite IH. reflexivity. Qed.
Lemma filter_false_nil {A} (l : list A) : filter (fun _ => false) l = [].
Proof. induction l as [|a l IH]; [reflexivity|]. exact IH. Qed.
Lemma filter_spin sizes b : (b < length sizes)%nat ->
  filter (fun i => Nat.eqb (spin_of sizes i) b) (seq 0 (list_sum sizes)) = seq (offset sizes b) (nth b sizes O).
Proof.
  revert b. induction sizes as [|m r IH]; intros b Hb; cbn [length] in Hb; [lia|].
  rewrite list_sum_cons, seq_app, filter_app. cbn [Nat.add]. rewrite (seq_from m (list_sum r)).
  assert (F : forall l (f : nat -> nat) p, filter p (map f l) = map f (filter (fun i => p (f i)) l)).
  { intros l f p. induction l as [|a l IHl]; [reflexivity|]. cbn. destruct (p (f a)); cbn; rewrite IHl; reflexivity. }
  rewrite F. destruct b as [|b].
  - rewrite offset_0. cbn [nth]. rewrite (filter_ext_in _ (fun _ => true)), filter_true_id.
    2:{ intros i Hi. apply in_seq in Hi. cbn [spin_of]. destruct (Nat.ltb_spec i m); [reflexivity|lia]. }
    rewrite (filter_ext_in _ (fun _ => false)), filter_false_nil; [cbn [map]; apply app_nil_r|].
    intros i Hi. cbn [spin_of]. destruct (Nat.ltb_spec (m + i)%nat m); [lia|reflexivity].
  - rewrite offset_cons. cbn [nth]. rewrite (filter_ext_in _ (fun _ => false)), filter_false_nil.
    2:{ intros i Hi. apply in_seq in Hi. cbn [spin_of]. destruct (Nat.ltb_spec i m); [reflexivity|lia]. }
    cbn [app]. rewrite (filter_ext_in _ (fun i => Nat.eqb (spin_of r i) b)).
    2:{ intros i Hi. cbn [spin_of]. destruct (Nat.ltb_spec (m + i)%nat m); [lia|]. replace (m + i - m)%nat with i by lia. reflexivity. }
    rewrite IH by lia. rewrite (seq_from (offset r b)), (seq_from (m + offset r b)), map_map. apply map_ext. intros; lia.
Qed.
Lemma spin_sign_block sizes s b : keeps_spins sizes s -> (b < length sizes)%nat -> spin_sign sizes s b = sign_of (nth b sizes O) (block_map sizes s b).
Proof.
  intros K Hb. unfold spin_sign. rewrite filter_spin by exact Hb. unfold sign_of.
  rewrite <- (sign_map_mono (fun k => (offset sizes b + k)%nat) (map (block_map sizes s b) _)) by (intros; lia).
  f_equal. rewrite map_map, (seq_from (offset sizes b)), map_map. apply map_ext_in. intros k Hk. apply in_seq in Hk.
  symmetry. apply block_map_back; [exact K|exact Hb|lia].
Qed.
Lemma spin_signs_list sizes s : keeps_spins sizes s -> map (spin_sign sizes s) (seq 0 (length sizes)) = block_signs sizes s.
Proof.
  intros K. unfold block_signs. apply map_ext_in. intros b Hb. apply in_seq in Hb. apply spin_sign_block; [exact K|lia].
Qed.

Lemma blockwise {A C} sizes s (F : nat -> list A -> option (list C)) (act : R -> C -> C) (g : nat -> nat -> A) : keeps_spins sizes s ->
  (forall b t l, renumbering (length l) t -> F b (reorder t l) = option_map (fun v => map (act (sign_of (length l) t)) (reorder t v)) (F b l)) ->
  (forall b l v, F b l = Some v -> length v = length l) ->
  sequence (mapi F (by_spin sizes (fun b i => g b (s i)))) =
  option_map (fun vs => zipw (fun e v => map (act e) v) (map (spin_sign sizes s) (seq 0 (length sizes))) (cut sizes (reorder s (concat vs))))
    (sequence (mapi F (by_spin sizes g))).
Proof.
  intros K HF HL. rewrite spin_signs_list by exact K.
  rewrite (sequence_mapi (fun b v => map (act (nth b (block_signs sizes s) 0)) (reorder (block_map sizes s b) v))
     (mapi F (by_spin sizes g)) (mapi F (by_spin sizes g)) eq_refl (mapi F (by_spin sizes (fun b i => g b (s i))))).
  - destruct (sequence (mapi F (by_spin sizes g))) as [vs|] eqn:E; [|reflexivity]. cbn [option_map]. f_equal.
    assert (Lv : length vs = length sizes) by (rewrite (sequence_length _ _ E), mapi_length; apply by_spin_length).
    assert (Ls : map (@length C) vs = sizes).
    { apply (list_eq_nth _ _ O); [rewrite map_length; exact Lv|]. intros b Hb. rewrite map_length in Hb.
      rewrite (map_nth (@length C) vs [] b : nth b (map (@length C) vs) O = _).
      assert (N := sequence_nth _ _ b [] E). rewrite mapi_length, by_spin_length in N. specialize (N ltac:(lia)).
      rewrite (mapi_nth F _ b []) in N by (rewrite by_spin_length; lia). apply HL in N. rewrite N, by_spin_nth by lia.
      rewrite map_length, seq_length. reflexivity. }
    assert (Lc : length (concat vs) = list_sum sizes).
    { rewrite <- Ls. clear. induction vs as [|v vs IH]; [reflexivity|]. cbn [concat map]. rewrite app_length, IH. reflexivity. }
    apply (list_eq_nth _ _ []).
    { rewrite mapi_length, zipw_length, cut_length. unfold block_signs. rewrite map_length, seq_length. lia. }
    intros b Hb. rewrite mapi_length in Hb.
    rewrite (mapi_nth _ _ b []) by exact Hb.
    rewrite (zipw_nth _ _ _ b 0 []) by (rewrite ?cut_length; unfold block_signs; rewrite ?map_length, ?seq_length; lia).
    rewrite cut_reorder_block by (assumption || lia). do 2 f_equal. rewrite <- Ls, cut_of_concat. reflexivity.
  - rewrite !mapi_length, !by_spin_length. reflexivity.
  - intros b Hb. rewrite mapi_length, by_spin_length in Hb.
    rewrite !(mapi_nth F _ b []) by (rewrite by_spin_length; lia). rewrite by_spin_block by assumption.
    assert (Lb : length (nth b (by_spin sizes g) []) = nth b sizes O) by (rewrite by_spin_nth, map_length, seq_length by exact Hb; reflexivity).
    rewrite HF by (rewrite Lb; apply block_map_renumbering; assumption). rewrite Lb, nth_block_signs by exact Hb. reflexivity.
Qed.
Lemma map_mapi {A B} (f : A -> B) l : map f l = mapi (fun _ => f) l.
Proof.
  unfold mapi. generalize O. induction l as [|a l IH]; intros o; [reflexivity|]. unfold zipw in *. cbn [length seq combine map fst snd]. f_equal. apply IH.
Qed.

Lemma cofactor_length x v : cofactor_antieq x = Some v -> length v = length x.
Proof.
  rewrite cofactor_spec. destruct (is_square x); [|discriminate]. destruct (Nat.eqb _ _); [discriminate|]. intros E. injection E as <-.
  rewrite map_length, seq_length. reflexivity.
Qed.
Lemma slog_cofactor_length x v : slog_cofactor_antieq x = Some v -> length v = length x.
Proof.
  rewrite slog_cofactor_spec. destruct (is_square x); [|discriminate]. destruct (Nat.eqb _ _); [discriminate|]. intros E. injection E as <-.
  rewrite map_length, seq_length. reflexivity.
Qed.
Definition rows_opt (n : nat) (r : option arr3) : Prop := match r with Some r => length r = n | None => True end.
Lemma cofactor_layer_flips l sizes s x r : orbitals_ok sizes l -> keeps_spins sizes s -> length x = list_sum sizes -> rows_opt (list_sum sizes) r ->
  orbital_cofactor_layer l (reorder s x) (reorder_opt s r) =
  option_map (fun vs => zipw (fun e v => map (sg e) v) (map (spin_sign sizes s) (seq 0 (length sizes))) (cut sizes (reorder s (concat vs))))
    (orbital_cofactor_layer l x r).
Proof.
  intros O K L Lr. unfold orbital_cofactor_layer. rewrite (orbitals_equivariant l sizes s x r O (proj1 K) L Lr), (orbitals_rows l sizes x r O L Lr).
  rewrite !(map_mapi cofactor_antieq). apply (blockwise sizes s (fun _ => cofactor_antieq) sg (fun b i => orbital_row l b (nth i x []) (option_map (fun r => nth i r []) r)) K).
  - intros b t m. apply cofactor_reorder.
  - intros b m v. apply cofactor_length.
Qed.
Lemma slog_cofactor_layer_flips l sizes s x r : orbitals_ok sizes l -> keeps_spins sizes s -> length x = list_sum sizes -> rows_opt (list_sum sizes) r ->
  slog_orbital_cofactor_layer l (reorder s x) (reorder_opt s r) =
  option_map (fun vs => zipw (fun e v => map (signed e) v) (map (spin_sign sizes s) (seq 0 (length sizes))) (cut sizes (reorder s (concat vs))))
    (slog_orbital_cofactor_layer l x r).
Proof.
  intros O K L Lr. unfold slog_orbital_cofactor_layer. rewrite (orbitals_equivariant l sizes s x r O (proj1 K) L Lr), (orbitals_rows l sizes x r O L Lr).
  rewrite !(map_mapi slog_cofactor_antieq). apply (blockwise sizes s (fun _ => slog_cofactor_antieq) signed (fun b i => orbital_row l b (nth i x []) (option_map (fun r => nth i r []) r)) K).
  - intros b t m. apply slog_cofactor_reorder.
  - intros b m v. apply slog_cofactor_length.
Qed.

(** ** Per-particle determinants *)
Definition double_matrices (l : orbital_layer) (b : nat) (data : list (vec * option arr2)) : arr3 :=
  map (fun p => map (fun q => orbital_row l b (fst p ++ fst q) (snd q)) data) data.
Lemma doubly_rows l sizes x r : orbitals_ok sizes l -> length x = list_sum sizes -> rows_opt (list_sum sizes) r ->
  doubly_equivariant_orbitals l x r = mapi (double_matrices l) (by_spin sizes (fun _ i => (nth i x [], option_map (fun r => nth i r []) r))).
Proof.
  intros (D & LS) L Lr. unfold doubly_equivariant_orbitals. cbv zeta.
  assert (E1 : zipw (fun rows p => orbital_matrices_one_split p rows) (pieces (ol_split l) x) (ol_splits l) =
    mapi (fun b rows => orbital_matrices_one_split (nth b (ol_splits l) orbital_default) rows) (by_spin sizes (fun _ i => nth i x []))).
  { rewrite (pieces_cut _ sizes x D L), (cut_by_spin sizes x [] L). apply (list_eq_nth _ _ []).
    { rewrite zipw_length, mapi_length, by_spin_length, LS. lia. }
    intros b Hb. rewrite zipw_length, by_spin_length, LS in Hb.
    rewrite (zipw_nth _ _ _ b [] orbital_default) by (rewrite ?by_spin_length, ?LS; lia).
    rewrite (mapi_nth _ _ b []) by (rewrite by_spin_length; lia). reflexivity. }
  rewrite E1. clear E1.
  assert (M1 : forall p rows, orbital_matrices_one_split p rows = map (fun a => map (fun c => dense (o_norb p) (o_kernel p) (o_bias p) (a ++ c)) rows) rows).
  { intros p rows. unfold orbital_matrices_one_split. cbv zeta.
    assert (R1 : forall q w : arr2, repeat q (length w) = map (fun _ => q) w).
    { intros q w. induction w as [|a w IH]; [reflexivity|]. cbn. f_equal. exact IH. }
    rewrite R1. rewrite zipw_maps, map_map. apply map_ext. intros a.
    assert (R2 : forall q : arr2, repeat a (length q) = map (fun _ => a) q).
    { intros q. induction q as [|u q IH]; [reflexivity|]. cbn. f_equal. exact IH. }
    rewrite R2. rewrite <- (map_id rows) at 2. rewrite zipw_maps, map_map. reflexivity. }
  destruct r as [r|]; cbn [option_map].
  - apply (list_eq_nth _ _ []).
    { unfold envelopes. rewrite !zipw_length, !mapi_length, !by_spin_length, (pieces_cut _ sizes r D Lr), cut_length, LS. lia. }
    intros b Hb. rewrite zipw_length, mapi_length, by_spin_length in Hb.
    assert (Hb' : (b < length sizes)%nat) by lia.
    rewrite (mapi_nth _ _ b []) by (rewrite by_spin_length; exact Hb'). rewrite by_spin_nth by exact Hb'.
    assert (Le : (b < length (envelopes l r))%nat) by (unfold envelopes; rewrite zipw_length, (pieces_cut _ sizes r D Lr), cut_length, LS; lia).
    rewrite (zipw_nth _ _ _ b [] []) by (rewrite ?mapi_length, ?by_spin_length; assumption).
    rewrite (mapi_nth _ _ b []) by (rewrite by_spin_length; exact Hb'). rewrite by_spin_nth by exact Hb'. rewrite M1.
    unfold envelopes. rewrite (zipw_nth _ _ _ b [] orbital_default) by (rewrite ?(pieces_cut _ sizes r D Lr), ?cut_length, ?LS; exact Hb').
    rewrite (pieces_cut _ sizes r D Lr), (cut_piece sizes r b [] Lr Hb'). unfold double_matrices. rewrite !map_map. apply map_ext. intros i.
    rewrite !map_map, zipw_maps. apply map_ext. intros j. reflexivity.
  - apply (list_eq_nth _ _ []); [rewrite !mapi_length, !by_spin_length; reflexivity|]. intros b Hb. rewrite mapi_length, by_spin_length in Hb.
    rewrite !(mapi_nth _ _ b []) by (rewrite by_spin_length; exact Hb). rewrite !by_spin_nth by exact Hb. rewrite M1.
    unfold double_matrices. rewrite !map_map. apply map_ext. intros i. rewrite !map_map. reflexivity.
Qed.
Lemma doubly_equivariant l sizes s x r : orbitals_ok sizes l -> renumbering (list_sum sizes) s -> length x = list_sum sizes -> rows_opt (list_sum sizes) r ->
  doubly_equivariant_orbitals l (reorder s x) (reorder_opt s r) =
  mapi (double_matrices l) (by_spin sizes (fun _ i => (nth (s i) x [], option_map (fun r => nth (s i) r []) r))).
Proof.
  intros O H L Lr. rewrite (doubly_rows l sizes); [|exact O|rewrite reorder_length; exact L|destruct r; [cbn; rewrite reorder_length; exact Lr|exact I]].
  f_equal. apply by_spin_ext. intros b i Hb Hi. pose proof (offset_end sizes b Hb). rewrite (nth_reorder s _ x [] i H L) by lia.
  destruct r as [r|]; [|reflexivity]. cbn [reorder_opt option_map]. rewrite (nth_reorder s _ r [] i H Lr) by lia. reflexivity.
Qed.
Lemma double_reorder {C} (f : arr2 -> option C) (act : R -> C -> C) l b t (data : list (vec * option arr2)) :
  (forall s m m', flips s m m' -> f m' = option_map (act s) (f m)) -> renumbering (length data) t ->
  sequence (map f (double_matrices l b (reorder t data))) =
  option_map (fun v => map (act (sign_of (length data) t)) (reorder t v)) (sequence (map f (double_matrices l b data))).
Proof.
  intros Hf Ht. unfold double_matrices. rewrite !map_map.
  set (h := fun p : vec * option arr2 => f (map (fun q => orbital_row l b (fst p ++ fst q) (snd q)) data)).
  rewrite (map_ext _ (fun p => option_map (act (sign_of (length data) t)) (h p))).
  - rewrite <- (map_map h (option_map _)), sequence_map_out, <- reorder_map, sequence_reorder by (rewrite map_length; exact Ht).
    destruct (sequence (map h data)); reflexivity.
  - intros p. unfold h. apply Hf. rewrite <- reorder_map. exists t. rewrite map_length. auto.
Qed.
Lemma mapi_compose {A B C} (f : B -> C) (g : nat -> A -> B) l : map f (mapi g l) = mapi (fun b a => f (g b a)) l.
Proof. unfold mapi. rewrite map_zipw. reflexivity. Qed.
Lemma sequence_map_length {A B} (f : A -> option B) l v : sequence (map f l) = Some v -> length v = length l.
Proof. intros E. apply sequence_length in E. rewrite E. apply map_length. Qed.
Lemma per_particle_layer_flips l sizes s x r : orbitals_ok sizes l -> keeps_spins sizes s -> length x = list_sum sizes -> rows_opt (list_sum sizes) r ->
  per_particle_determinant_layer l (reorder s x) (reorder_opt s r) =
  option_map (fun vs => zipw (fun e v => map (sg e) v) (map (spin_sign sizes s) (seq 0 (length sizes))) (cut sizes (reorder s (concat vs))))
    (per_particle_determinant_layer l x r).
Proof.
  intros O K L Lr. unfold per_particle_determinant_layer. rewrite (doubly_equivariant l sizes s x r O (proj1 K) L Lr), (doubly_rows l sizes x r O L Lr).
  rewrite !mapi_compose. apply (blockwise sizes s (fun b data => sequence (map linalg_det (double_matrices l b data))) sg (fun _ i => (nth i x [], option_map (fun r => nth i r []) r)) K).
  - intros b t m Ht. apply double_reorder; [apply det_flips|exact Ht].
  - intros b m v E. apply sequence_map_length in E. rewrite E. unfold double_matrices. apply map_length.
Qed.
Lemma slog_per_particle_layer_flips l sizes s x r : orbitals_ok sizes l -> keeps_spins sizes s -> length x = list_sum sizes -> rows_opt (list_sum sizes) r ->
  slog_per_particle_determinant_layer l (reorder s x) (reorder_opt s r) =
  option_map (fun vs => zipw (fun e v => map (signed e) v) (map (spin_sign sizes s) (seq 0 (length sizes))) (cut sizes (reorder s (concat vs))))
    (slog_per_particle_determinant_layer l x r).
Proof.
  intros O K L Lr. unfold slog_per_particle_determinant_layer. rewrite (doubly_equivariant l sizes s x r O (proj1 K) L Lr), (doubly_rows l sizes x r O L Lr).
  rewrite !mapi_compose. apply (blockwise sizes s (fun b data => sequence (map linalg_slogdet (double_matrices l b data))) signed (fun _ i => (nth i x [], option_map (fun r => nth i r []) r)) K).
  - intros b t m Ht. apply double_reorder; [apply slogdet_flips|exact Ht].
  - intros b m v E. apply sequence_map_length in E. rewrite E. unfold double_matrices. apply map_length.
Qed.

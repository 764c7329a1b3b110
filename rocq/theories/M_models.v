(** * Model of the permutation-equivariant and -invariant network layers
    (vmcnet/models/core.py, equivariance.py, invariance.py, jastrow.py)

    Arrays are nested lists: a vector, (n, d) rows, (n, m, d) rows of rows; batch axes are
    handled one batch element at a time.  Learned parameters are explicit arguments, so that
    every statement about these functions is for every value of the parameters.  Numbers are
    extended reals (XReal.v). *)
From Coq Require Import Reals List Bool Arith ZArith.
From Verif Require Import XReal M_slog.
Import ListNotations.
Local Open Scope R_scope.

Notation vec := (list xr).
Notation arr2 := (list (list xr)).
Notation arr3 := (list (list (list xr))).

Definition zipw {A B C} (f : A -> B -> C) (a : list A) (b : list B) : list C :=
  map (fun p => f (fst p) (snd p)) (combine a b).
Definition mapi {A B} (f : nat -> A -> B) (l : list A) : list B := zipw f (seq 0 (length l)) l.
Definition width (x : arr2) : nat := length (hd [] x).

(** utils/typing.py: ParticleSplit = Union[int, Sequence[int]]. *)
Inductive particle_split := Equal (k : nat) | At (idx : list nat).

(** jnp.split at indices: the pieces l[start:i1], l[i1:i2], ..., l[ik:]. *)
Fixpoint split_at {A} (start : nat) (idx : list nat) (l : list A) : list (list A) :=
  match idx with
  | [] => [skipn start l]
  | i :: r => firstn (i - start) (skipn start l) :: split_at i r l
  end.

(** core.py 26-28: split.  [None]: an equal split that does not divide the axis raises. *)
Definition split {A} (s : particle_split) (l : list A) : option (list (list A)) :=
  match s with
  | Equal k =>
      if Nat.eqb k 0 then None
      else if Nat.eqb (length l mod k) 0
           then Some (split_at 0 (map (fun j => (S j * (length l / k))%nat) (seq 0 (k - 1))) l)
           else None
  | At idx => Some (split_at 0 idx l)
  end.

(** The pieces inside layers whose split has been checked to succeed (simplification: an
    exception raised by jnp.split inside a layer appears as the empty list here; the whole
    models in M_construct.v check for it). *)
Definition pieces {A} (s : particle_split) (l : list A) : list (list A) :=
  match split s l with Some b => b | None => [] end.

(** core.py 79-84: get_nsplits. *)
Definition get_nsplits (s : particle_split) : nat := match s with Equal k => k | At idx => S (length idx) end.

(** core.py 87-102: get_nelec_per_split; Python integers.  [None]: ZeroDivisionError for an
    equal split into 0, IndexError for an empty index sequence. *)
Fixpoint diffs (a : Z) (l : list Z) : list Z :=
  match l with [] => [] | b :: r => (b - a)%Z :: diffs b r end.
Definition get_nelec_per_split (s : particle_split) (nelec_total : nat) : option (list Z) :=
  match s with
  | Equal k => if Nat.eqb k 0 then None else Some (repeat (Z.of_nat (nelec_total / k)) k)
  | At [] => None
  | At (i :: r) => Some (Z.of_nat i :: diffs (Z.of_nat i) (map Z.of_nat r) ++ [(Z.of_nat nelec_total - Z.of_nat (last (i :: r) O))%Z])
  end.

(** core.py 105-109: get_spin_split: cumulative sums of all but the last entry. *)
Fixpoint cumsum (a : nat) (l : list nat) : list nat :=
  match l with [] => [] | b :: r => (a + b)%nat :: cumsum (a + b) r end.
Definition get_spin_split (n_per_split : list nat) : list nat := cumsum 0 (removelast n_per_split).

(** jnp.mean over the row axis of an (n, d) array. *)
Definition vmean (d : nat) (rows : arr2) : vec :=
  map (fun c => xdiv (xsum (map (fun r => nth c r (Fin 0)) rows)) (Fin (INR (length rows)))) (seq 0 d).

(** core.py 31-42: _split_mean on axis -2 with keepdims=True (one-row arrays) ... *)
Definition split_mean_keep (s : particle_split) (x : arr2) : list arr2 := map (fun b => [vmean (width x) b]) (pieces s x).
(** ... and with keepdims=False. *)
Definition split_mean (s : particle_split) (x : arr2) : list vec := map (vmean (width x)) (pieces s x).

(** jnp.linalg.norm of a vector. *)
Definition norm (v : vec) : xr := xsqrt (xsum (map (fun a => xmul a a) v)).
(** sqrt(norm^2 + s^2) - s, as in equivariance.py 148-150, 719-721 and core.py 65. *)
Definition softened (s : xr) (r : xr) : xr := xsub (xsqrt (xadd (xmul r r) (xmul s s))) s.

(** core.py 45-66: compute_ee_norm_with_safe_diag; the identity is added to every coordinate. *)
Definition eye (i j : nat) : xr := if Nat.eqb i j then Fin 1 else Fin 0.
Definition compute_ee_norm_with_safe_diag (r_ee : arr3) (softening : xr) : list (list xr) :=
  mapi (fun i row => mapi (fun j v =>
    xmul (softened softening (norm (map (fun a => xadd a (eye i j)) v))) (xsub (Fin 1) (eye i j))) row) r_ee.

(** physics/potential.py 11-21 (compute_displacements): (n, d), (m, d) -> (n, m, d). *)
Definition displacements (x y : arr2) : arr3 := map (fun a => map (fun b => zipw xsub a b) y) x.

(** The one-electron input: an (n, d) array, or an (n, nion, d) array when it was not
    flattened. *)
Inductive input1 := Rows (x : arr2) | Unflattened (x : arr3).

(** equivariance.py 111-153: compute_electron_ion. *)
Definition compute_electron_ion (elec_pos : arr2) (ion_pos : option arr2) (include_ei_norm : bool) (ei_norm_softening : xr)
  : input1 * option arr3 :=
  match ion_pos with
  | None => (Rows elec_pos, None)
  | Some ions =>
      let r_ei := displacements elec_pos ions in
      if include_ei_norm
      then (Rows (map (fun row => concat (map (fun v => v ++ [softened ei_norm_softening (norm v)]) row)) r_ei), Some r_ei)
      else (Unflattened r_ei, Some r_ei)
  end.

(** equivariance.py 156-187: compute_electron_electron. *)
Definition compute_electron_electron (elec_pos : arr2) (include_ee_norm : bool) (ee_norm_softening : xr) : arr3 * arr3 :=
  let r_ee := displacements elec_pos elec_pos in
  if include_ee_norm
  then (zipw (zipw (fun v nrm => v ++ [nrm])) r_ee (compute_ee_norm_with_safe_diag r_ee ee_norm_softening), r_ee)
  else (r_ee, r_ee).

(** equivariance.py 37-108: compute_input_streams. *)
Record stream_options := { so_ion_pos : option arr2; so_2e : bool; so_ei_norm : bool; so_ei_soft : xr; so_ee_norm : bool; so_ee_soft : xr }.
Definition compute_input_streams (o : stream_options) (elec_pos : arr2) : input1 * option arr3 * option arr3 * option arr3 :=
  let '(i1, r_ei) := compute_electron_ion elec_pos (so_ion_pos o) (so_ei_norm o) (so_ei_soft o) in
  if so_2e o
  then let '(i2, r_ee) := compute_electron_electron elec_pos (so_ee_norm o) (so_ee_soft o) in (i1, Some i2, r_ei, Some r_ee)
  else (i1, None, r_ei, None).

(** jnp.concatenate of (n, d_j) arrays on the last axis; equivariance.py 29-34: _rolled_concat. *)
Definition concat_last (arrays : list arr2) : arr2 :=
  map (fun r => concat (map (fun a => nth r a []) arrays)) (seq 0 (length (hd [] arrays))).
Definition rolled_concat (arrays : list arr2) (n : nat) : arr2 := concat_last (skipn n arrays ++ firstn n arrays).

(** flax.linen.SelfAttention as used in equivariance.py 294-301 and 190-203 (third-party code,
    modelled from its definition: per-head projections, softmax of scaled scores, output
    projection; no dropout, no mask). *)
Record attention_params := { at_heads : nat; at_dim : nat; at_out : nat;
  at_q : nat -> nat -> nat -> xr; at_qb : nat -> nat -> xr; at_k : nat -> nat -> nat -> xr; at_kb : nat -> nat -> xr;
  at_v : nat -> nat -> nat -> xr; at_vb : nat -> nat -> xr; at_o : nat -> nat -> nat -> xr; at_ob : nat -> xr }.
Definition at_proj (w : nat -> nat -> nat -> xr) (b : nat -> nat -> xr) (h c : nat) (row : vec) : xr :=
  xadd (weighted_sum (fun i => w i h c) row) (b h c).
Definition at_score (a : attention_params) (h : nat) (xi xj : vec) : xr :=
  xsum (map (fun c => xmul (xdiv (at_proj (at_q a) (at_qb a) h c xi) (Fin (sqrt (INR (at_dim a))))) (at_proj (at_k a) (at_kb a) h c xj))
            (seq 0 (at_dim a))).
Definition at_head (a : attention_params) (block : arr2) (xi : vec) (h c : nat) : xr :=
  let m := fold_right xmax MInf (map (at_score a h xi) block) in
  let e xj := xexp (xsub (at_score a h xi xj) m) in
  let total := xsum (map e block) in
  xsum (map (fun xj => xmul (xdiv (e xj) total) (at_proj (at_v a) (at_vb a) h c xj)) block).
Definition at_row (a : attention_params) (block : arr2) (xi : vec) : vec :=
  map (fun f => xadd (xsum (map (fun h => xsum (map (fun c => xmul (at_head a block xi h c) (at_o a h c f)) (seq 0 (at_dim a)))) (seq 0 (at_heads a))))
                     (at_ob a f)) (seq 0 (at_out a)).
Definition self_attention (a : attention_params) (block : arr2) : arr2 := map (at_row a block) block.

(** equivariance.py 206-305: the one-electron layer and its parameters. *)
Record layer1 := { l1_split : particle_split; l1_ndense : nat;
  l1_unmixed : nat -> nat -> xr; l1_bias : option (nat -> xr); l1_mixed : nat -> nat -> xr; l1_2e : nat -> nat -> xr;
  l1_attention : option attention_params;      (* use_transformer *)
  l1_act : xr -> xr; l1_skip : bool; l1_scale : xr; l1_cyclic : bool }.

(** equivariance.py 307-349: _compute_transformed_1e_means. *)
Definition transformed_1e_means (p : layer1) (split_means : list arr2) : list arr2 :=
  let nspins := length split_means in
  if l1_cyclic p
  then let split_concats := map (rolled_concat split_means) (seq 0 nspins) in
       let all_spins := concat split_concats in
       let dense_mixed := map (dense (l1_ndense p) (l1_mixed p) None) all_spins in
       pieces (Equal (length split_concats)) dense_mixed
  else let split_concat := concat_last split_means in
       let dense_mixed := map (dense (l1_ndense p) (l1_mixed p) None) split_concat in
       repeat dense_mixed nspins.

(** core.py 31-42 on axis -2 of an (m, n, d) array, keepdims=False: for every piece j the
    (m, d) array of means. *)
Definition split_mean_2e (s : particle_split) (d : nat) (rows : arr3) : list arr2 :=
  map (fun j => map (fun row => vmean d (nth j (pieces s row) [])) rows) (seq 0 (get_nsplits s)).

(** equivariance.py 351-395: _compute_transformed_2e_means. *)
Definition transformed_2e_means (p : layer1) (in_2e : arr3) : list arr2 :=
  let d := width (hd [] in_2e) in
  let split_2e := pieces (l1_split p) in_2e in
  let concat_2e := mapi (fun spin rows =>
    let split_arrays := split_mean_2e (l1_split p) d rows in
    if l1_cyclic p then rolled_concat split_arrays spin else concat_last split_arrays) split_2e in
  let all_spins := concat concat_2e in
  let dense_2e := map (dense (l1_ndense p) (l1_2e p) None) all_spins in
  pieces (l1_split p) dense_2e.

(** equivariance.py 397-407: _compute_mixed_split. *)
Definition mixed_split (p : layer1) (in_1e : arr2) : list arr2 :=
  match l1_attention p with
  | Some a => map (self_attention a) (pieces (l1_split p) in_1e)
  | None => transformed_1e_means p (split_mean_keep (l1_split p) in_1e)
  end.

(** Addition of (n, d) arrays with broadcasting of a one-row array. *)
Definition vadd (a b : vec) : vec := zipw xadd a b.
Definition add_rows (a b : arr2) : arr2 :=
  if Nat.eqb (length a) (length b) then zipw vadd a b
  else if Nat.eqb (length b) 1 then map (fun r => vadd r (hd [] b)) a
  else if Nat.eqb (length a) 1 then map (fun r => vadd (hd [] a) r) b
  else [].
(** utils/pytree_helpers.py 10-12: tree_sum. *)
Definition tree_sum (a b : list arr2) : list arr2 := zipw add_rows a b.

(** equivariance.py 409-471: FermiNetOneElectronLayer.__call__. *)
Definition one_electron_layer (p : layer1) (in_1e : arr2) (in_2e : option arr3) : arr2 :=
  let dense_unmixed_split := pieces (l1_split p) (map (dense (l1_ndense p) (l1_unmixed p) (l1_bias p)) in_1e) in
  let dense_out := tree_sum dense_unmixed_split (mixed_split p in_1e) in
  let dense_out := match in_2e with Some y => tree_sum dense_out (transformed_2e_means p y) | None => dense_out end in
  let nonlinear_out := map (map (l1_act p)) (concat dense_out) in
  if l1_skip p && Nat.eqb (width in_1e) (l1_ndense p)
  then zipw (zipw (fun a b => xmul (l1_scale p) (xadd a b))) nonlinear_out in_1e
  else nonlinear_out.

(** equivariance.py 474-526: FermiNetTwoElectronLayer. *)
Record layer2 := { l2_ndense : nat; l2_kernel : nat -> nat -> xr; l2_bias : option (nat -> xr); l2_act : xr -> xr; l2_skip : bool; l2_scale : xr }.
Definition two_electron_row (p : layer2) (v : vec) : vec :=
  let o := map (l2_act p) (dense (l2_ndense p) (l2_kernel p) (l2_bias p) v) in
  if l2_skip p && Nat.eqb (length v) (l2_ndense p) then zipw (fun a b => xmul (l2_scale p) (xadd a b)) o v else o.
Definition two_electron_layer (p : layer2) (x : arr3) : arr3 := map (map (two_electron_row p)) x.

(** equivariance.py 529-575: FermiNetResidualBlock. *)
Record block := { b_one : layer1; b_two : option layer2 }.
Definition residual_block (b : block) (in_1e : arr2) (in_2e : option arr3) : arr2 * option arr3 :=
  (one_electron_layer (b_one b) in_1e in_2e,
   match b_two b, in_2e with Some l, Some y => Some (two_electron_layer l y) | _, _ => in_2e end).

(** equivariance.py 578-625: FermiNetBackflow; the loop keeps both streams. *)
Fixpoint backflow_streams (bs : list block) (stream_1e : arr2) (stream_2e : option arr3) : arr2 * option arr3 :=
  match bs with
  | [] => (stream_1e, stream_2e)
  | b :: r => let '(x, y) := residual_block b stream_1e stream_2e in backflow_streams r x y
  end.
Definition backflow (bs : list block) (stream_1e : arr2) (stream_2e : option arr3) : arr2 := fst (backflow_streams bs stream_1e stream_2e).

(** equivariance.py 758-851: the orbital layer; parameters of one split. *)
Record orbital_split := { o_norb : nat; o_kernel : nat -> nat -> xr; o_bias : option (nat -> xr);
  o_iso : nat -> xr;                         (* isotropic: scale per orbital, jastrow.py 15-31 *)
  o_aniso : nat -> nat -> nat -> xr;         (* anisotropic: per ion, d -> d*norbitals, jastrow.py 34-62 *)
  o_ion : nat -> nat -> xr }.                (* (orbital, ion) weights, equivariance.py 726-731 *)
Record orbital_layer := { ol_split : particle_split; ol_soft : xr; ol_isotropic : bool; ol_splits : list orbital_split }.

(** jastrow.py 15-31 / 34-62: the scaled displacement of one electron from one ion, for one
    orbital; the anisotropic dense output of length d*norbitals is reshaped to (d, norbitals). *)
Definition scaled_displacement (l : orbital_layer) (p : orbital_split) (orb ion : nat) (v : vec) : vec :=
  if ol_isotropic l then map (fun a => xmul a (o_iso p orb)) v
  else let out := dense (length v * o_norb p) (o_aniso p ion) None v in
       map (fun c => nth (c * o_norb p + orb) out (Fin 0)) (seq 0 (length v)).

(** equivariance.py 696-731: one entry of the exponential envelope of one electron. *)
Definition envelope (l : orbital_layer) (p : orbital_split) (r_ei_row : arr2) (orb : nat) : xr :=
  xsum (mapi (fun ion v => xmul (xexp (xopp (softened (ol_soft l) (norm (scaled_displacement l p orb ion v))))) (o_ion p orb ion)) r_ei_row).

(** equivariance.py 734-755: envelopes of all splits. *)
Definition envelopes (l : orbital_layer) (r_ei : arr3) : list arr2 :=
  zipw (fun rows p => map (fun row => map (envelope l p row) (seq 0 (o_norb p))) rows) (pieces (ol_split l) r_ei) (ol_splits l).

(** equivariance.py 628-693: SplitDense. *)
Definition split_dense (l : orbital_layer) (x : arr2) : list arr2 :=
  zipw (fun rows p => map (dense (o_norb p) (o_kernel p) (o_bias p)) rows) (pieces (ol_split l) x) (ol_splits l).

(** utils/pytree_helpers.py 28-30: tree_prod, for equal shapes. *)
Definition tree_prod (a b : list arr2) : list arr2 := zipw (zipw (zipw xmul)) a b.

(** equivariance.py 814-851: FermiNetOrbitalLayer.__call__. *)
Definition ferminet_orbitals (l : orbital_layer) (x : arr2) (r_ei : option arr3) : list arr2 :=
  let orbs := split_dense l x in
  match r_ei with Some r => tree_prod orbs (envelopes l r) | None => orbs end.

(** invariance.py 13-82: SplitMeanDense; one (features, kernel, bias) per split. *)
Record mean_dense := { md_features : nat; md_kernel : nat -> nat -> xr; md_bias : option (nat -> xr) }.
Definition split_mean_dense (s : particle_split) (ps : list mean_dense) (x : arr2) : list vec :=
  zipw (fun m p => if Nat.eqb (md_features p) 0 then [] else dense (md_features p) (md_kernel p) (md_bias p) m) (split_mean s x) ps.

(** jnp.reshape of a vector to (n, d). *)
Definition reshape2 (n d : nat) (v : vec) : arr2 := map (fun i => map (fun j => nth (i * d + j) v (Fin 0)) (seq 0 d)) (seq 0 n).

(** invariance.py 85-178: InvariantTensor with two-dimensional output shapes. *)
Definition invariant_tensor (s : particle_split) (bf : option (list block)) (ps : list ((nat * nat) * mean_dense)) (stream_1e : arr2) (stream_2e : option arr3)
  : list arr2 :=
  let x := match bf with Some b => backflow b stream_1e stream_2e | None => stream_1e end in
  zipw (fun v p => reshape2 (fst (fst p)) (snd (fst p)) v) (split_mean_dense s (map snd ps) x) ps.

(** jastrow.py 65-130: OneBodyExpDecay; the kernel has shape (1, 1): one number. *)
Definition one_body_exp_decay (kernel : xr) (logabs : bool) (r_ei : arr3) : xr :=
  let s := xsum (map (fun row => xsum (map (fun v => norm (map (fun a => xmul a kernel) v)) row)) r_ei) in
  if logabs then xopp s else xexp (xopp s).

(** jastrow.py 133-229: TwoBodyExpDecay; [ei] are the ion strengths, [ee] the electron strength
    (initial or trained values; both code paths compute this formula). *)
Definition two_body_exp_decay (ei : list xr) (ee : xr) (log_scale_factor : xr) (logabs : bool) (r_ei r_ee : arr3) : xr :=
  let ei_distances := map (map norm) r_ei in
  let ee_distances := compute_ee_norm_with_safe_diag r_ee (Fin 0) in
  let sum_ee := mapi (fun i row => xsum (mapi (fun j v => if Nat.leb i j then v else Fin 0) row)) ee_distances in
  let sum_ei := map (fun row => xsum (zipw xmul row ei)) ei_distances in
  let interaction := xadd (xsum (zipw (fun a b => xsub (xmul ee a) b) sum_ee sum_ei)) log_scale_factor in
  if logabs then interaction else xexp interaction.

(** jastrow.py 232-271: the scale factor for chargeless molecules (potential.py 76-82). *)
Definition chargeless_scale_factor (ion_pos : arr2) (ion_charges : list xr) : xr :=
  xmul (Fin (1 / 2)) (xsum (concat (zipw (fun row qi => zipw (fun v qj => xmul (norm v) (xmul qi qj)) row ion_charges)
                                         (displacements ion_pos ion_pos) ion_charges))).
Definition two_body_decay_chargeless (ion_pos : arr2) (ion_charges : list xr) (ee : xr) (logabs : bool) (r_ei r_ee : arr3) : xr :=
  two_body_exp_decay ion_charges ee (chargeless_scale_factor ion_pos ion_charges) logabs r_ei r_ee.

(** jastrow.py 274-332: BackflowJastrow. *)
Definition backflow_jastrow (bf : option (list block)) (logabs : bool) (input_1e : arr2) (input_2e : option arr3) (stream_1e : arr2) : xr :=
  let x := match bf with Some b => backflow b input_1e input_2e | None => stream_1e end in
  let j := xopp (xdiv (xsum (map norm x)) (Fin (INR (length x)))) in
  if logabs then j else xexp j.

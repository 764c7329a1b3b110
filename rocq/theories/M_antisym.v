(** * Model of the antisymmetric, antiequivariant and sign-covariant layers
    (vmcnet/models/antisymmetry.py, antiequivariance.py, sign_symmetry.py, core.py 74-76,
    equivariance.py 854-1005)

    Arrays are nested lists, batch axes are handled one batch element at a time, learned
    parameters are explicit arguments; [None] is a raised exception.  Functions that the code
    applies to an array with an extra "permutation" or "symmetry" axis act on the trailing axes
    only (as dense layers do); they are modelled as functions of one slice, applied to every
    slice. *)
From Coq Require Import Reals List Bool Arith.
From Verif Require Import XReal M_slog M_models Det.
Import ListNotations.
Local Open Scope R_scope.

(** ** Linear algebra (third party) *)
Definition val (x : xr) : R := match x with Fin a => a | _ => 0 end.
Definition is_square (m : arr2) : bool := forallb (fun r => Nat.eqb (length r) (length m)) m.
(** jnp.linalg.det of one matrix: the exact determinant; a matrix that is not square raises.
    Simplification: a matrix with an entry that is not finite gives NaN. *)
Definition linalg_det (m : arr2) : option xr :=
  if is_square m
  then Some (if forallb (forallb isfin) m then Fin (det (length m) (fun i j => val (nth j (nth i m []) (Fin 0)))) else NaN)
  else None.
(** jnp.linalg.slogdet of one matrix. *)
Definition linalg_slogdet (m : arr2) : option slog := option_map array_to_slog (linalg_det m).

(** Python's functools.reduce without an initial value: TypeError on an empty sequence. *)
Definition reduce {A} (f : A -> A -> A) (l : list A) : option A :=
  match l with [] => None | a :: r => Some (fold_left f r a) end.

(** antisymmetry.py 23-42: slogdet_product over a list of matrices. *)
Definition slogdet_product (xs : list arr2) : option slog :=
  match sequence (map linalg_slogdet xs) with
  | None => None
  | Some l => reduce slog_multiply l
  end.

(** antisymmetry.py 45-63: logdet_product. *)
Definition logdet_product (xs : list arr2) : option xr :=
  match sequence (map linalg_slogdet xs) with
  | None => None
  | Some l => reduce xadd (map snd l)
  end.

(** core.py 74-76: get_alternating_signs: ones, with every second entry from index 1 set to -1. *)
Definition get_alternating_signs (n : nat) : list R := map (fun i => if Nat.even i then 1 else -1) (seq 0 n).

(** antisymmetry.py 66-74: _get_lexicographic_signs: the loop over i = 2..n. *)
Definition lexicographic_step (signs : list R) (i : nat) : list R :=
  concat (map (fun sign => map (fun s => sign * s) signs) (get_alternating_signs i)).
Definition get_lexicographic_signs (n : nat) : list R := fold_left lexicographic_step (seq 2 (n - 1)) [1].

(** itertools.permutations: orders of a list, lexicographic by position: first every choice of
    the first element from left to right, then the orders of the remaining elements. *)
Definition remove_at {A} (i : nat) (l : list A) : list A := firstn i l ++ skipn (S i) l.
Fixpoint permutations_of {A} (fuel : nat) (l : list A) : list (list A) :=
  match fuel with
  | O => [[]]
  | S f => concat (map (fun i => match nth_error l i with
                                 | Some a => map (cons a) (permutations_of f (remove_at i l))
                                 | None => []
                                 end) (seq 0 (length l)))
  end.
Definition permutations (n : nat) : list (list nat) := permutations_of n (seq 0 n).

(** antisymmetry.py 77-111: ParallelPermutations on an (n, d) array: the n! permuted arrays
    (jnp.take on axis -2) and the signs. *)
Definition take_rows (x : arr2) (p : list nat) : arr2 := map (fun i => nth i x []) p.
Definition parallel_permutations (x : arr2) : list arr2 * list R :=
  (map (take_rows x) (permutations (length x)), get_lexicographic_signs (length x)).

(** Entrywise operations on vectors of [dout] features. *)
Definition vsum (dout : nat) (l : list vec) : vec := map (fun c => xsum (map (fun v => nth c v (Fin 0)) l)) (seq 0 dout).
Definition vscale (a : xr) (v : vec) : vec := map (xmul a) v.

(** antisymmetry.py 137-156: FactorizedAntisymmetrize._single_leaf_call; fn maps a flattened
    (n * din) array to [dout] features. *)
Definition single_leaf_call (dout : nat) (fn : vec -> vec) (x : arr2) : vec :=
  let '(x_perm, signs) := parallel_permutations x in
  let perms_out := map (fun y => fn (concat y)) x_perm in
  let signed_perms_out := zipw (fun s v => vscale (Fin s) v) signs perms_out in
  vsum dout signed_perms_out.

(** antisymmetry.py 158-180: FactorizedAntisymmetrize.__call__, logabs=False and True.  jax.tree_map
    raises if there is not one function per leaf; functools.reduce raises without leaves. *)
Definition factorized_antisymmetrize (dout : nat) (fns : list (vec -> vec)) (xs : list arr2) : option vec :=
  if Nat.eqb (length fns) (length xs) then reduce (zipw xmul) (zipw (single_leaf_call dout) fns xs) else None.
Definition factorized_antisymmetrize_slog (dout : nat) (fns : list (vec -> vec)) (xs : list arr2) : option (list slog) :=
  if Nat.eqb (length fns) (length xs) then reduce (zipw slog_multiply) (map (map array_to_slog) (zipw (single_leaf_call dout) fns xs)) else None.

(** antisymmetry.py 183-288: GenericAntisymmetrize: all combinations of one permutation per
    leaf, with the product of the leaf signs. *)
Fixpoint combinations {A} (ls : list (list A)) : list (list A) :=
  match ls with
  | [] => [[]]
  | l :: r => concat (map (fun a => map (cons a) (combinations r)) l)
  end.
Definition generic_antisymmetrize (dout : nat) (fn : vec -> vec) (xs : list arr2) : xr :=
  let leaves := map (fun x => combine (fst (parallel_permutations x)) (snd (parallel_permutations x))) xs in
  xsum (map (fun c : list (arr2 * R) =>
    let out := fn (concat (map (fun ps => concat (fst ps)) c)) in
    xsum (map (fun k => fold_left (fun a ps => xmul a (Fin (snd ps))) c (nth k out (Fin 0))) (seq 0 dout)))
    (combinations leaves)).
Definition generic_antisymmetrize_slog (dout : nat) (fn : vec -> vec) (xs : list arr2) : slog :=
  array_to_slog (generic_antisymmetrize dout fn xs).

(** ** Antiequivariance *)
(** antiequivariance.py 22-44: get_submatrices_along_first_col: row i and column 0 deleted. *)
Definition get_submatrices_along_first_col (x : arr2) : option (nat * list arr2) :=
  if is_square x
  then Some (length x, map (fun i => map (fun row => remove_at 0 row) (remove_at i x)) (seq 0 (length x)))
  else None.

(** antiequivariance.py 47-78: cofactor_antieq.  Simplification: jnp.stack of an empty list (n = 0)
    raises in the code. *)
Definition cofactor_antieq (x : arr2) : option vec :=
  match get_submatrices_along_first_col x with
  | None => None
  | Some (n, subs) =>
      match sequence (map linalg_det subs) with
      | None => None
      | Some dets =>
          let first_orbital_vals := map (fun row => nth 0 row (Fin 0)) x in
          let cofactors := zipw (fun s d => xmul (Fin s) d) (get_alternating_signs n) dets in
          if Nat.eqb n 0 then None else Some (zipw xmul first_orbital_vals cofactors)
      end
  end.

(** antiequivariance.py 81-110: slog_cofactor_antieq. *)
Definition slog_cofactor_antieq (x : arr2) : option (list slog) :=
  match get_submatrices_along_first_col x with
  | None => None
  | Some (n, subs) =>
      match sequence (map linalg_slogdet subs) with
      | None => None
      | Some slogdets =>
          let orbitals := map (fun row => array_to_slog (nth 0 row (Fin 0))) x in
          if Nat.eqb n 0 then None
          else Some (zipw (fun s p => (xmul (fst p) (Fin s), snd p)) (get_alternating_signs n)
                       (zipw (fun o c => (xmul (fst o) (fst c), xadd (snd o) (snd c))) orbitals slogdets))
      end
  end.

(** antiequivariance.py 113-131: multiply_antieq_by_eq_features: (n_b, d) features times (n_b, 1). *)
Definition multiply_antieq_by_eq_features (split_antieq : list vec) (eq_features : arr2) (spin_split : particle_split) : option (list arr2) :=
  option_map (fun split_inputs => zipw (zipw (fun row a => map (fun f => xmul f a) row)) split_inputs split_antieq) (split spin_split eq_features).

(** antiequivariance.py 134-159: multiply_slog_antieq_by_eq_features. *)
Definition multiply_slog_antieq_by_eq_features (split_antieq : list (list slog)) (eq_features : arr2) (spin_split : particle_split)
  : option (list (list (list slog))) :=
  option_map (fun split_inputs => zipw (zipw (fun row a => map (fun f => slog_multiply (array_to_slog f) a) row)) split_inputs split_antieq)
             (split spin_split eq_features).

(** ** Positional construction of the orbital layer (C53)
    Python dataclass binding: positional arguments fill the fields in the order of their
    declaration, the remaining fields get their defaults. *)
Inductive pyval := VBool (b : bool) | VNum (r : R) | VOther (k : nat).
Inductive field := orbitals_split | norbitals_per_split | kernel_initializer_linear | kernel_initializer_envelope_dim
  | kernel_initializer_envelope_ion | bias_initializer_linear | envelope_softening | use_bias | isotropic_decay.
(** equivariance.py 797-805: the fields of FermiNetOrbitalLayer in order, with defaults. *)
Definition ferminet_orbital_layer_fields : list (field * option pyval) :=
  [(orbitals_split, None); (norbitals_per_split, None); (kernel_initializer_linear, None); (kernel_initializer_envelope_dim, None);
   (kernel_initializer_envelope_ion, None); (bias_initializer_linear, None); (envelope_softening, Some (VNum 0));
   (use_bias, Some (VBool true)); (isotropic_decay, Some (VBool false))].
(** equivariance.py 904-911: the fields of DoublyEquivariantOrbitalLayer. *)
Definition doubly_equivariant_fields : list (field * option pyval) :=
  [(orbitals_split, None); (norbitals_per_split, None); (kernel_initializer_linear, None); (kernel_initializer_envelope_dim, None);
   (kernel_initializer_envelope_ion, None); (bias_initializer_linear, None); (use_bias, Some (VBool true)); (isotropic_decay, Some (VBool false))].
Definition field_eqb (a b : field) : bool :=
  match a, b with
  | orbitals_split, orbitals_split | norbitals_per_split, norbitals_per_split | kernel_initializer_linear, kernel_initializer_linear
  | kernel_initializer_envelope_dim, kernel_initializer_envelope_dim | kernel_initializer_envelope_ion, kernel_initializer_envelope_ion
  | bias_initializer_linear, bias_initializer_linear | envelope_softening, envelope_softening | use_bias, use_bias
  | isotropic_decay, isotropic_decay => true
  | _, _ => false
  end.
(** [None]: too many arguments or a missing one (TypeError). *)
Fixpoint bind (fields : list (field * option pyval)) (args : list pyval) : option (list (field * pyval)) :=
  match fields, args with
  | [], [] => Some []
  | [], _ :: _ => None
  | (f, _) :: fs, a :: r => option_map (cons (f, a)) (bind fs r)
  | (f, Some d) :: fs, [] => option_map (cons (f, d)) (bind fs [])
  | (_, None) :: _, [] => None
  end.
Definition lookup_field (f : field) (b : list (field * pyval)) : option pyval :=
  match find (fun p => field_eqb f (fst p)) b with Some (_, v) => Some v | None => None end.

(** The attributes of the antiequivariance layers (antiequivariance.py 194-200, 280-286, 366-372,
    451-457); kernel and bias initialisers are opaque values. *)
Record antieq_config := { ac_split : pyval; ac_linear : pyval; ac_dim : pyval; ac_ion : pyval; ac_bias_init : pyval;
  ac_orbitals_use_bias : bool; ac_isotropic_decay : bool }.
(** antiequivariance.py 230-239, 316-325, 402-411, 487-496: the positional argument list. *)
Definition antieq_positional_args (c : antieq_config) (nelec_per_spin : pyval) : list pyval :=
  [ac_split c; nelec_per_spin; ac_linear c; ac_dim c; ac_ion c; ac_bias_init c; VBool (ac_orbitals_use_bias c); VBool (ac_isotropic_decay c)].
(** The orbital layers as constructed by the cofactor layers and by the per-particle layers. *)
Definition cofactor_orbital_layer (c : antieq_config) (nelec_per_spin : pyval) : option (list (field * pyval)) :=
  bind ferminet_orbital_layer_fields (antieq_positional_args c nelec_per_spin).
Definition per_particle_orbital_layer (c : antieq_config) (nelec_per_spin : pyval) : option (list (field * pyval)) :=
  bind doubly_equivariant_fields (antieq_positional_args c nelec_per_spin).

(** antiequivariance.py 162-245: OrbitalCofactorAntiequivarianceLayer; per spin a list of
    nelec entries (the code's trailing axis of size 1 is dropped). *)
Definition orbital_cofactor_layer (l : orbital_layer) (eq_inputs : arr2) (r_ei : option arr3) : option (list vec) :=
  sequence (map cofactor_antieq (ferminet_orbitals l eq_inputs r_ei)).
(** antiequivariance.py 248-331. *)
Definition slog_orbital_cofactor_layer (l : orbital_layer) (eq_inputs : arr2) (r_ei : option arr3) : option (list (list slog)) :=
  sequence (map slog_cofactor_antieq (ferminet_orbitals l eq_inputs r_ei)).

(** equivariance.py 920-963: _get_orbital_matrices_one_split: entry (p, i) of the dense input is the row of
    particle p followed by the row of particle i. *)
Definition orbital_matrices_one_split (p : orbital_split) (x : arr2) : arr3 :=
  let nelec := length x in
  let axis_2_repeated := map (fun row => repeat row nelec) x in
  let axis_3_repeated := repeat x nelec in
  map (map (dense (o_norb p) (o_kernel p) (o_bias p))) (zipw (zipw (fun a b => a ++ b)) axis_2_repeated axis_3_repeated).
(** equivariance.py 965-1005: DoublyEquivariantOrbitalLayer.__call__; no envelope softening. *)
Definition doubly_equivariant_orbitals (l : orbital_layer) (x : arr2) (r_ei : option arr3) : list arr3 :=
  let orbs := zipw (fun rows p => orbital_matrices_one_split p rows) (pieces (ol_split l) x) (ol_splits l) in
  match r_ei with
  | Some r => zipw (fun o env => map (fun m => zipw (zipw xmul) m env) o) orbs (envelopes l r)
  | None => orbs
  end.
(** antiequivariance.py 334-416: PerParticleDeterminantAntiequivarianceLayer. *)
Definition per_particle_determinant_layer (l : orbital_layer) (eq_inputs : arr2) (r_ei : option arr3) : option (list vec) :=
  sequence (map (fun ms => sequence (map linalg_det ms)) (doubly_equivariant_orbitals l eq_inputs r_ei)).
(** antiequivariance.py 419-501. *)
Definition slog_per_particle_determinant_layer (l : orbital_layer) (eq_inputs : arr2) (r_ei : option arr3) : option (list (list slog)) :=
  sequence (map (fun ms => sequence (map linalg_slogdet ms)) (doubly_equivariant_orbitals l eq_inputs r_ei)).

(** ** Sign symmetrisation *)
(** sign_symmetry.py 18-27: _get_sign_array_1d: (-1) ** sign(2**i & k) for k = 0..nsyms-1. *)
Definition get_sign_array_1d (i nsyms : nat) : list R :=
  map (fun k => (-1) ^ (if Nat.eqb (Nat.land (2 ^ i) k) 0 then 0 else 1)) (seq 0 nsyms).

Section SignOrbit.
(** [A]: what the symmetry axis ranges over (an array or a sign-log array); [flip a x]: multiplication by a sign;
    [B]: the output; [total]: the sum over the symmetry axis. *)
Context {A B : Type} (flip : R -> A -> A).

(** sign_symmetry.py 43-73 / 76-111: the orbit of one entry and its signs. *)
Definition get_sign_orbit_single (x : A) (i n_total : nat) : list A * list R :=
  let signs := get_sign_array_1d i (2 ^ n_total) in (map (fun s => flip s x) signs, signs).

(** sign_symmetry.py 114-152: _get_sign_orbit_for_list: symmetry k of the list consists of the k-th entries of
    the orbits; the combined signs are products over the entries. *)
Definition get_sign_orbit_for_list (x : list A) : list (list A) * list R :=
  let n_total := length x in
  let syms_and_signs := mapi (fun i xi => get_sign_orbit_single xi i n_total) x in
  (map (fun k => concat (map (fun s => match nth_error (fst s) k with Some a => [a] | None => [] end) syms_and_signs)) (seq 0 (2 ^ n_total)),
   map (fun k => fold_right Rmult 1 (map (fun s => nth k (snd s) 0) syms_and_signs)) (seq 0 (2 ^ n_total))).

(** sign_symmetry.py 167-217: apply_sign_symmetry_to_fn. *)
Definition apply_sign_symmetry_to_fn {C} (fn : list A -> B) (apply_output_sign : B -> R -> B) (add_up_results : list B -> C) (x : list A) : C :=
  let '(symmetries, signs) := get_sign_orbit_for_list x in
  add_up_results (zipw apply_output_sign (map fn symmetries) signs).
End SignOrbit.

(** Sums over the symmetry axis of [dout]-feature vectors, and of sign-log vectors. *)
Definition slog_flip (s : R) (p : slog) : slog := slog_multiply p (Fin s, Fin 0).
Definition slog_vsum (dout : nat) (l : list (list slog)) : option (list slog) :=
  sequence (map (fun c => slog_sum_over_axis (map (fun v => nth c v (Fin 0, Fin 0)) l)) (seq 0 dout)).

(** sign_symmetry.py 250-273, 276-299, on lists of vectors (axis -2 of (..., nsyms, d)): *)
Definition make_array_list_fn_sign_covariant (dout : nat) (fn : list vec -> vec) : list vec -> vec :=
  apply_sign_symmetry_to_fn (fun s => vscale (Fin s)) fn (fun v s => vscale (Fin s) v) (vsum dout).
Definition make_array_list_fn_sign_invariant (dout : nat) (fn : list vec -> vec) : list vec -> vec :=
  apply_sign_symmetry_to_fn (fun s => vscale (Fin s)) fn (fun v _ => v) (vsum dout).
(** ... and on lists of (n_i, d) arrays with an (n, d') result (axis -3, construct.py 508-510). *)
Definition msum (nrows dout : nat) (l : list arr2) : arr2 := map (fun i => vsum dout (map (fun m => nth i m []) l)) (seq 0 nrows).
Definition make_array_list_fn_sign_covariant2 (nrows dout : nat) (fn : list arr2 -> arr2) : list arr2 -> arr2 :=
  apply_sign_symmetry_to_fn (fun s => map (vscale (Fin s))) fn (fun m s => map (vscale (Fin s)) m) (msum nrows dout).
(** sign_symmetry.py 224-247: the sign-log form. *)
Definition make_sl_array_list_fn_sign_covariant (dout : nat) (fn : list (list slog) -> list slog) : list (list slog) -> option (list slog) :=
  apply_sign_symmetry_to_fn (fun s => map (slog_flip s)) fn (fun v s => map (fun p => (xmul (Fin s) (fst p), snd p)) v) (slog_vsum dout).

(** sign_symmetry.py 302-370: ProductsSignCovariance; [None]: ValueError. *)
Definition dot (a b : vec) : xr := xsum (zipw xmul a b).
Definition products_sign_covariance (features : nat) (weights : option (nat -> nat -> xr)) (x : list arr2) : option vec :=
  match x with
  | [up; down] =>
      let pairwise_dots := map (fun u => map (dot u) down) up in
      match weights with
      | None => if Nat.eqb features 1 then Some [xsum (map xsum pairwise_dots)] else None
      | Some w => Some (dense features w None (concat pairwise_dots))
      end
  | _ => None
  end.

(** * Specifications for the spatial discretization: sums, convex sets,
    meshes, consistent central fluxes. *)
From Coq Require Import Reals List Permutation.
From Verif Require Import Scheme.
Import ListNotations.
Local Open Scope R_scope.

(** Sum of [f x] over the elements of a list. *)
Fixpoint lsum {A : Type} (f : A -> R) (l : list A) : R :=
  match l with
  | [] => 0
  | x :: r => f x + lsum f r
  end.

(** A set of states is convex. *)
Definition convex_set {K} (X : state K -> Prop) : Prop :=
  forall u v a, X u -> X v -> 0 <= a <= 1 -> X (fun k => a * u k + (1 - a) * v k).

(** Stencils: every row contains itself first, no column twice, and the
    pattern is symmetric.  (Rows of the matrix that are constrained have only
    the diagonal.) *)
Definition symmetric_pattern (M : mesh) : Prop :=
  forall i, (i < n_rows M)%nat ->
    exists nb, columns M i = i :: nb /\ NoDup (i :: nb) /\
      forall j, In j nb -> (j < n_rows M)%nat /\ In i (columns M j).

(** Rows that carry unknowns. *)
Definition active (M : mesh) (i : nat) : Prop :=
  (i < n_rows M)%nat /\ length (columns M i) <> 1%nat.

(** Masses of the rows that carry unknowns are positive, inverses are inverses
    (the mass of a constrained row is zero). *)
Definition positive_masses (M : mesh) : Prop :=
  forall i, active M i -> 0 < mass M i /\ mass_inv M i = / mass M i.

(** Every row is a lane of its own SIMD group and rows of a rank have
    different local indices. *)
Definition valid_numbering (M : mesh) : Prop :=
  (forall i, (i < n_rows M)%nat -> In i (lanes M i)) /\
  (forall i j, (i < n_rows M)%nat -> (j < n_rows M)%nat ->
     owner M i = owner M j -> index M i = index M j -> i = j).

Definition neg (c : cvec) : cvec := map Ropp c.

(** c_ij = -c_ji *)
Definition skew_at (M : mesh) (i j : nat) : Prop := c_ij M j i = neg (c_ij M i j).

(** Pairs of rows for which c_ij = -c_ji fails are listed in
    coupling_boundary_pairs, in both orders. *)
Definition pairs_listed (M : mesh) : Prop :=
  forall i j, active M i -> In j (columns M i) -> i <> j ->
    skew_at M i j \/ (In (i, j) (coupling_pairs M) /\ In (j, i) (coupling_pairs M)).

(** Partition of unity: sum_j c_ij = 0. *)
Definition zero_row_sum (M : mesh) (i : nat) : Prop :=
  forall x, lsum (fun j => nth x (c_ij M i j) 0) (columns M i) = 0.

(** Symmetry of the Riemann solver under exchange of the states and reversal
    of the normal, for the states of the old vector and the normals
    n = c_ij / |c_ij| of the mesh, and nonnegativity of the wave speed. *)
Definition symmetric_riemann {K} (S : system K) (M : mesh) (old : (nat -> state K) * PC K S) : Prop :=
  forall i j, active M i -> In j (columns M i) -> cnorm (c_ij M i j) <> 0 ->
    let n := cdiv (c_ij M i j) (cnorm (c_ij M i j)) in
    riemann_compute K S (snd old) (fst old i) (fst old j) i j n =
    riemann_compute K S (snd old) (fst old j) (fst old i) j i (neg n).

(** The vectors c_ij have [dim] components. *)
Definition mesh_dimension (M : mesh) (dim : nat) : Prop :=
  forall i j, (i < n_rows M)%nat -> In j (columns M i) -> length (c_ij M i j) = dim.
Definition unit_vector (dim : nat) (n : cvec) : Prop := cnorm n = 1 /\ length n = dim.
Definition nonneg_riemann {K} (S : system K) : Prop :=
  forall pc u v i j n, 0 <= riemann_compute K S pc u v i j n.

(** The viscosity |c| lambda(u_i, u_j, c / |c|). *)
Definition wave_viscosity {K} (S : system K) (M : mesh)
  (old : (nat -> state K) * PC K S) (i j : nat) : R :=
  cnorm (c_ij M i j) *
  riemann_compute K S (snd old) (fst old i) (fst old j) i j
    (cdiv (c_ij M i j) (cnorm (c_ij M i j))).

(** F a k x : flux of component k in direction x.  The central flux
    -(F(a) + F(b)) . c with [dim] space dimensions. *)
Definition dotp (dim : nat) (f : nat -> R) (c : cvec) : R :=
  lsum (fun x => f x * nth x c 0) (seq 0 dim).
Definition central_flux {K} (S : system K) (dim : nat) (F : FC K S -> K -> nat -> R) : Prop :=
  forall a b c k,
    flux_divergence K S a b c k = - (dotp dim (F a k) c + dotp dim (F b k) c).

(** The bar state of a pair of states. *)
Definition bar_state {K} (S : system K) (M : mesh) (dim : nat) (F : FC K S -> K -> nat -> R)
  (old : (nat -> state K) * PC K S) (d : R) (i j : nat) : state K :=
  fun k =>
    let fi := flux_contribution K S (snd old) i (fst old i) in
    let fj := flux_contribution K S (snd old) j (fst old j) in
    (fst old i k + fst old j k) / 2
    - (dotp dim (F fj k) (c_ij M i j) - dotp dim (F fi k) (c_ij M i j)) / (2 * d).

(** No source terms, no equilibrated states. *)
Definition plain {K} (S : system K) : Prop :=
  have_source_terms K S = false /\ shallow_water K S = false.

(** Total amount of component [k] over the given rows. *)
Definition total {K} (M : mesh) (rows : list nat) (V : nat -> state K) (k : K) : R :=
  lsum (fun i => mass M i * V i k) rows.

(** Exchanging the two rows of a pair changes the sign of component [k] of the
    pair flux (for fluxes of arbitrary nodes). *)
Definition skew_divergence {K} (S : system K) (M : mesh)
  (div : FC K S -> FC K S -> cvec -> state K) (k : K) : Prop :=
  forall i j a b, (i < n_rows M)%nat -> In j (columns M i) -> i <> j ->
    div b a (c_ij M j i) k = - div a b (c_ij M i j) k.

(** Component [k] has no source. *)
Definition source_free {K} (S : system K) (k : K) : Prop :=
  have_source_terms K S = true -> forall pc i u tau, nodal_source K S pc i u tau k = 0.

(** Equilibrated states of the swapped pair are the swapped states. *)
Definition swapped_equilibrated {K} (S : system K) : Prop :=
  shallow_water K S = true -> forall a b,
    equilibrated_states K S b a =
    (snd (equilibrated_states K S a b), fst (equilibrated_states K S a b)).

(** Symmetric matrices on the pattern. *)
Definition symmetric_matrices (M : mesh) : Prop :=
  forall i j, active M i -> In j (columns M i) ->
    mass_ij M j i = mass_ij M i j /\ mass_ij_inv M j i = mass_ij_inv M i j /\
    incidence M j i = incidence M i j.

(** What a limiter guarantees for bounds [b], a state [u] within the bounds and
    a direction [p]. *)
Definition limiter_guarantee {K} (S : system K) (inside : BD K S -> state K -> Prop) : Prop :=
  forall b u p, inside b u ->
    let l := fst (limiter_limit K S b u p) in
    0 <= l <= 1 /\ forall s, 0 <= s <= l -> inside b (fun k => u k + s * p k).

(** The parts of the update per unit of time when nothing is limited: the
    fluxes of a state vector [v] and the high-order viscosity [visc i j] (times
    the jump of the old state), both multiplied with the lumped mass and an
    approximate inverse of the mass matrix with coefficients [b]. *)
Definition mass_correction (M : mesh) (i j : nat) : R :=
  if discontinuous M then mass M i * mass_ij_inv M i j
  else - (mass_ij M i j / mass M j).
Definition corrected {K} (M : mesh) (r : nat -> nat -> state K) (i : nat) (k : K) : R :=
  / mass M i *
  (lsum (fun j => r i j k) (columns M i)
   + lsum (fun j => mass_correction M i j * lsum (fun l => r j l k) (columns M j)
                    - mass_correction M j i * lsum (fun l => r i l k) (columns M i))
       (neighbours M i)).

(** The same discrete problem, distributed, numbered and vectorized in
    different ways: ownership, local indices, SIMD groups, the order of the
    columns of a row and the lists of boundary pairs may differ. *)
Definition same_problem (M M' : mesh) : Prop :=
  n_rows M' = n_rows M /\
  (forall i, (i < n_rows M)%nat -> Permutation (columns M i) (columns M' i)) /\
  mass M' = mass M /\ mass_inv M' = mass_inv M /\
  mass_ij M' = mass_ij M /\ mass_ij_inv M' = mass_ij_inv M /\
  c_ij M' = c_ij M /\ incidence M' = incidence M /\
  measure_of_omega M' = measure_of_omega M /\ discontinuous M' = discontinuous M.

(** The result of accumulation over a stencil does not depend on the order. *)
Definition order_independent {K} (S : system K) : Prop :=
  (forall pc s j u c j' u' c',
     indicator_accumulate K S pc (indicator_accumulate K S pc s j u c) j' u' c' =
     indicator_accumulate K S pc (indicator_accumulate K S pc s j' u' c') j u c) /\
  (forall pc s a j u f c j' u' f' c',
     limiter_accumulate K S pc (limiter_accumulate K S pc s j u f c a) j' u' f' c' a =
     limiter_accumulate K S pc (limiter_accumulate K S pc s j' u' f' c' a) j u f c a) /\
  (forall s a u x y c u' x' y' c',
     limiter_accumulate_sw K S (limiter_accumulate_sw K S s u x y c a) u' x' y' c' a =
     limiter_accumulate_sw K S (limiter_accumulate_sw K S s u' x' y' c' a) u x y c a).

(** Some limiter call of the first round reports a violation. *)
Definition violation {K} (S : system K) (M : mesh) (num_min : R) (order : list nat)
  (n_iterations : nat) (alpha : nat -> R) (d : nat -> nat -> R) (new0 : nat -> state K)
  (old : (nat -> state K) * PC K S) (stages : list ((nat -> state K) * PC K S * R)) (tau : R)
  : Prop :=
  n_iterations <> 0%nat /\
  exists i j, active M i /\ In j (columns M i) /\ j <> i /\
    snd (limiter_limit K S (limiter_bounds_i S M num_min old d tau order i)
           (low_order_update S M old d tau new0 i)
           (pij S M old stages alpha d tau i j)) = false.

(** The wave speed estimate is large enough for [X]: for states of [X] and a
    unit vector [n], every larger speed gives an average over the Riemann fan
    (bar state) in [X]; a vanishing estimate means that the fluxes agree. *)
Definition wave_bound {K} (S : system K) (dim : nat) (F : FC K S -> K -> nat -> R)
  (pc : PC K S) (X : state K -> Prop) : Prop :=
  forall u v i j n lambda, X u -> X v -> unit_vector dim n ->
    riemann_compute K S pc u v i j n <= lambda ->
    let jump k := dotp dim (F (flux_contribution K S pc j v) k) n
                  - dotp dim (F (flux_contribution K S pc i u) k) n in
    (0 < lambda -> X (fun k => (u k + v k) / 2 - jump k / (2 * lambda))) /\
    (lambda = 0 -> forall k, jump k = 0).

(** The update of a row if the stages are combined with their weights: fluxes
    (and sources) of the old state with weight 1 - sum of the stage weights. *)
Definition weighted_update {K} (S : system K) (M : mesh) (alpha : nat -> R)
  (d : nat -> nat -> R) (old : (nat -> state K) * PC K S)
  (stages : list ((nat -> state K) * PC K S * R)) (tau : R) (i : nat) (k : K) : R :=
  fst old i k + tau *
   (corrected M (fun i j => smult (dijH M alpha d i j) (jump S old i j)) i k
    + (1 - lsum snd stages) * corrected M (high_order_flux S M old) i k
    + lsum (fun st => snd st * corrected M (high_order_flux S M (fst st)) i k) stages).

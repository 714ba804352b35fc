(** * Spatial discretization: steps 2 to 7 of HyperbolicModule::step

    One forward Euler step of the graph viscosity scheme with convex limiting,
    for an arbitrary hyperbolic system and an arbitrary mesh.

    Rows of all ranks are numbered by natural numbers; vectors are functions
    of the row and matrices functions of row and column.  That the distributed
    SIMD storage implements such functions is the subject of C01-C05; ghost
    exchanges make the value of a neighbour available irrespective of the rank
    that owns it.  Numbers are real numbers.  A component of a state is a value
    of an arbitrary type [K]. *)
From Coq Require Import Reals List Arith Bool.
Import ListNotations.
Local Open Scope R_scope.

(** Tensor<1, dim, Number> (space dimension): coordinates.
    E.g. c_ij, source/hyperbolic_module.template.h:402-406. *)
Definition cvec := list R.

(** Tensor::norm of deal.II, used in source/hyperbolic_module.template.h:402. *)
Definition cnorm (c : cvec) : R := sqrt (fold_right (fun x s => x * x + s) 0 c).

(** Division of a Tensor by a number,
    source/hyperbolic_module.template.h:403,759. *)
Definition cdiv (c : cvec) (a : R) : cvec := map (fun x => x / a) c.

(** state_type: Tensor<1, problem_dimension, Number> and its arithmetic
    (deal.II).  The default constructor is the zero tensor.
    E.g. source/hyperbolic_module.template.h:645-665. *)
Definition state (K : Type) := K -> R.
(** The zero tensor (deal.II), source/hyperbolic_module.template.h:645-665. *)
Definition szero {K} : state K := fun _ => 0.
(** Sum of states (deal.II), e.g. source/hyperbolic_module.template.h:753-775. *)
Definition splus {K} (u v : state K) : state K := fun k => u k + v k.
(** Difference of states (deal.II), e.g. source/hyperbolic_module.template.h:753-775. *)
Definition sminus {K} (u v : state K) : state K := fun k => u k - v k.
(** Negative of a state (deal.II), e.g. source/hyperbolic_module.template.h:753-775. *)
Definition sopp {K} (u : state K) : state K := fun k => - u k.
(** Multiple of a state (deal.II), e.g. source/hyperbolic_module.template.h:753-775. *)
Definition smult {K} (a : R) (u : state K) : state K := fun k => a * u k.

(** What HyperbolicModule::step uses of a Description: HyperbolicSystemView,
    RiemannSolver, Indicator, Limiter (interface:
    source/skeleton/hyperbolic_system.h:286-361,
    source/skeleton/riemann_solver.h, source/skeleton/indicator.h,
    source/skeleton/limiter.h).  Thread local objects become values;
    [initial_precomputed_] is constant during a run and not shown. *)
Record system (K : Type) := {
  PC : Type; (** vector of precomputed values *)
  FC : Type; (** flux_contribution_type *)
  IS : Type; (** content of an Indicator object *)
  LS : Type; (** content of a Limiter object *)
  BD : Type; (** Bounds *)
  flux_contribution : PC -> nat -> state K -> FC;
  flux_divergence : FC -> FC -> cvec -> state K;
  have_high_order_flux : bool;
  high_order_flux_divergence : FC -> FC -> cvec -> state K;
  have_source_terms : bool;
  nodal_source : PC -> nat -> state K -> R -> state K;
  shallow_water : bool;
  equilibrated_states : FC -> FC -> state K * state K;
  affine_shift : FC -> FC -> cvec -> R -> state K;
  riemann_compute : PC -> state K -> state K -> nat -> nat -> cvec -> R;
  indicator_reset : PC -> nat -> state K -> IS;
  indicator_accumulate : PC -> IS -> nat -> state K -> cvec -> IS;
  indicator_alpha : IS -> R -> R;
  limiter_reset : PC -> nat -> state K -> FC -> LS;
  limiter_accumulate : PC -> LS -> nat -> state K -> FC -> cvec -> state K -> LS;
  limiter_accumulate_sw : LS -> state K -> state K -> state K -> cvec -> state K -> LS;
  limiter_bounds : LS -> R -> BD;
  limiter_limit : BD -> state K -> state K -> R * bool;
  combine_bounds : BD -> BD -> BD }.

(** What HyperbolicModule::step uses of OfflineData,
    source/hyperbolic_module.template.h:279-304. *)
Record mesh := {
  n_rows : nat;                  (** rows owned by some rank *)
  owner : nat -> nat;            (** owning rank of a row *)
  index : nat -> nat;            (** local index on the owning rank *)
  lanes : nat -> list nat;       (** rows processed in the same SIMD loop iteration *)
  columns : nat -> list nat;     (** stencil, starting with the row itself *)
  mass : nat -> R;               (** lumped mass matrix *)
  mass_inv : nat -> R;           (** its inverse *)
  mass_ij : nat -> nat -> R;     (** mass matrix *)
  mass_ij_inv : nat -> nat -> R; (** inverse of the mass matrix (discontinuous ansatz) *)
  c_ij : nat -> nat -> cvec;
  incidence : nat -> nat -> R;
  coupling_pairs : list (nat * nat); (** coupling_boundary_pairs of all ranks *)
  measure_of_omega : R;
  discontinuous : bool }.        (** have_discontinuous_ansatz *)

(** Matrices and vectors with values per row.
    An assignment to a row, e.g. write_entry in source/hyperbolic_module.template.h:402-406. *)
Definition upd {A} (f : nat -> A) (i : nat) (x : A) : nat -> A :=
  fun k => if k =? i then x else f k.

(** Skip constrained degrees of freedom: row_length == 1, e.g.
    source/hyperbolic_module.template.h:372-375. *)
Definition constrained (M : mesh) (i : nat) : bool := length (columns M i) =? 1.

(** Comparison [j < i] of local indices on the rank owning row [i]: ghost
    indices are larger than all owned indices.
    source/hyperbolic_module.template.h:210-228. *)
Definition below (M : mesh) (j i : nat) : bool :=
  (owner M j =? owner M i) && (index M j <? index M i).

(** Columns without the diagonal (col_idx >= 1).
    E.g. source/hyperbolic_module.template.h:940-942, 963-965. *)
Definition neighbours (M : mesh) (i : nat) : list nat := tl (columns M i).

Section Step.
Context {K : Type}.
Variable S : system K.
Variable M : mesh.
(** numeric_limits<Number>::min() *)
Variable num_min : R.

Notation svec := (nat -> state K).
(** A StateVector: conserved states and precomputed values
    (source/state_vector.h:47-51); the parabolic part is not used. *)
Notation statevector := ((nat -> state K) * PC K S)%type.

(** ** Step 2 *)

(** alpha_i: source/hyperbolic_module.template.h:380-392,411-413.  Rows that
    are skipped keep the previous value [a0]. *)
Definition compute_alpha (old : statevector) (a0 : nat -> R) (i : nat) : R :=
  let '(U, pc) := old in
  if constrained M i then a0 i
  else
    let ind := fold_left (fun s j => indicator_accumulate K S pc s j (U j) (c_ij M i j))
                 (columns M i) (indicator_reset K S pc i (U i)) in
    indicator_alpha K S ind (mass M i * (1 / measure_of_omega M)).

(** all_below_diagonal, source/hyperbolic_module.template.h:199-228: column
    number [col] of every row of the SIMD group is below the diagonal. *)
Definition all_below_diagonal (i col : nat) : bool :=
  forallb (fun k => match nth_error (columns M k) col with
                    | Some j => below M j k
                    | None => true
                    end) (lanes M i).

(** norm(c) lambda_max, source/hyperbolic_module.template.h:402-406,480-487. *)
Definition viscosity (old : statevector) (i j : nat) (c : cvec) : R :=
  let '(U, pc) := old in
  cnorm c * riemann_compute K S pc (U i) (U j) i j (cdiv c (cnorm c)).

(** Position of [j] in a list.
    The col_idx of a column, e.g. source/hyperbolic_module.template.h:384-388. *)
Fixpoint position (j : nat) (l : list nat) : option nat :=
  match l with
  | [] => None
  | k :: r => if k =? j then Some 0%nat else option_map Datatypes.S (position j r)
  end.

(** d_ij after step 2, source/hyperbolic_module.template.h:394-409; entries
    that are not written keep their previous value [d0]. *)
Definition dij_step2 (old : statevector) (d0 : nat -> nat -> R) (i j : nat) : R :=
  if constrained M i then d0 i j
  else match position j (columns M i) with
       | Some (Datatypes.S col) =>
           if all_below_diagonal i (Datatypes.S col) then d0 i j
           else viscosity old i j (c_ij M i j)
       | _ => d0 i j
       end.

(** ** Step 3 *)

(** Boundary fix up, source/hyperbolic_module.template.h:461-490. *)
Definition dij_boundary (old : statevector) (d : nat -> nat -> R) (i j : nat) : R :=
  if existsb (fun p => (fst p =? i) && (snd p =? j)) (coupling_pairs M)
     && negb (below M j i)
  then Rmax (d i j) (viscosity old j i (c_ij M j i))
  else d i j.

(** Lower triangular part, source/hyperbolic_module.template.h:504-538. *)
Definition dij_symmetrized (d : nat -> nat -> R) (i j : nat) : R :=
  if below M j i then d j i else d i j.

(** The diagonal, source/hyperbolic_module.template.h:502-549. *)
Definition dij_diagonal (d : nat -> nat -> R) (i : nat) : R :=
  Rmin (fold_left (fun s j => s - dij_symmetrized d i j) (neighbours M i) 0)
       (-1000000 * num_min).

(** The matrix d_ij after step 3.  source/hyperbolic_module.template.h:502-549. *)
Definition dij_matrix (old : statevector) (d0 : nat -> nat -> R) (i j : nat) : R :=
  let d := dij_boundary old (dij_step2 old d0) in
  if i =? j then dij_diagonal d i else dij_symmetrized d i j.

(** The unconstrained rows.  source/hyperbolic_module.template.h:372-375. *)
Definition active_rows : list nat :=
  filter (fun i => negb (constrained M i)) (seq 0 (n_rows M)).

(** The step sizes of all rows, source/hyperbolic_module.template.h:551-553. *)
Definition row_tau (cfl : R) (old : statevector) (d0 : nat -> nat -> R) : list R :=
  map (fun i => cfl * mass M i / (-2 * dij_matrix old d0 i i)) active_rows.

(** ** Step 4

    The arguments: old state, stages (state vector and weight), the computed
    indicator [alpha] and viscosity [d], and the step size [tau].  The single
    loop over the stencil of source/hyperbolic_module.template.h:722-849
    updates U_i_new, F_iH, the limiter and P_ij; it is split into one function
    per result. *)
Section LowOrder.
Variable old : statevector.
Variable stages : list (statevector * R).
Variable alpha : nat -> R.
Variable d : nat -> nat -> R.
Variable tau : R.

Let U := fst old.
Let pc := snd old.

(** source/hyperbolic_module.template.h:615-616. *)
Definition weight : R := - fold_left Rplus (map snd stages) (-1).

(** source/hyperbolic_module.template.h:660-661,761-762. *)
Definition flux (v : statevector) (i : nat) : FC K S :=
  flux_contribution K S (snd v) i (fst v i).

(** Sources are absent unless have_source_terms.
    source/hyperbolic_module.template.h:640-860. *)
Definition source (v : statevector) (i : nat) : state K :=
  if have_source_terms K S then nodal_source K S (snd v) i (fst v i) tau else szero.

(** S_iH, source/hyperbolic_module.template.h:664-676,682-684. *)
Definition source_H (i : nat) : state K :=
  splus (fold_left (fun s st => splus s (smult (snd st) (source (fst st) i))) stages szero)
        (smult weight (source old i)).

(** d_ijH, source/hyperbolic_module.template.h:730-739. *)
Definition dijH (i j : nat) : R :=
  let factor := (alpha i + alpha j) * (1 / 2) in
  let factor := if discontinuous M then Rmax factor (incidence M i j) else factor in
  d i j * factor.

(** The difference the viscosity acts on,
    source/hyperbolic_module.template.h:773-792. *)
Definition jump (i j : nat) : state K :=
  if shallow_water K S then
    let '(U_star_ij, U_star_ji) := equilibrated_states K S (flux old i) (flux old j) in
    sminus U_star_ji U_star_ij
  else sminus (U j) (U i).

(** flux_ij, source/hyperbolic_module.template.h:769. *)
Definition low_order_flux (i j : nat) : state K :=
  flux_divergence K S (flux old i) (flux old j) (c_ij M i j).

(** The flux used for the high order update,
    source/hyperbolic_module.template.h:806-814,828-839. *)
Definition high_order_flux (v : statevector) (i j : nat) : state K :=
  if have_high_order_flux K S
  then high_order_flux_divergence K S (flux v i) (flux v j) (c_ij M i j)
  else flux_divergence K S (flux v i) (flux v j) (c_ij M i j).

(** U_i_new: source/hyperbolic_module.template.h:654,685,770,781,790,857.
    Skipped rows keep the previous content [new0] of the result vector. *)
Definition low_order_update (new0 : svec) (i : nat) : state K :=
  if constrained M i then new0 i
  else fold_left
    (fun u j => splus (splus u (smult (tau * mass_inv M i) (low_order_flux i j)))
                      (smult (tau * mass_inv M i * d i j) (jump i j)))
    (columns M i) (splus (U i) (smult tau (source old i))).

(** F_iH: source/hyperbolic_module.template.h:680,686,782,791,798,809-846,858. *)
Definition high_order_rhs (i : nat) : state K :=
  fold_left
    (fun f j =>
       let f := splus f (smult (dijH i j) (jump i j)) in
       let f := sminus f (smult (mass_ij M i j) (source_H i)) in
       let f := splus f (smult weight (high_order_flux old i j)) in
       let f := splus f (smult (weight * mass_ij M i j) (source old j)) in
       fold_left (fun f st =>
         splus (splus f (smult (snd st) (high_order_flux (fst st) i j)))
               (smult (snd st * mass_ij M i j) (source (fst st) j))) stages f)
    (columns M i) (smult (mass M i) (source_H i)).

(** P_ij of step 4: source/hyperbolic_module.template.h:771,783,792,799,810-848. *)
Definition pij_step4 (i j : nat) : state K :=
  let p := sopp (low_order_flux i j) in
  let p := splus p (smult (dijH i j - d i j) (jump i j)) in
  let p := sminus p (smult (mass_ij M i j) (source old i)) in
  let p := splus p (smult weight (high_order_flux old i j)) in
  let p := splus p (smult (weight * mass_ij M i j) (source old j)) in
  fold_left (fun p st =>
    splus (splus p (smult (snd st) (high_order_flux (fst st) i j)))
          (smult (snd st * mass_ij M i j) (source (fst st) j))) stages p.

(** affine_shift: source/hyperbolic_module.template.h:691-719. *)
Definition affine_shift_i (i : nat) : state K :=
  let shift :=
    if shallow_water K S then
      smult (tau * mass_inv M i)
        (fold_left (fun s j => splus s
           (affine_shift K S (flux old i) (flux old j) (c_ij M i j) (d i j)))
           (columns M i) szero)
    else szero in
  splus shift (smult tau (source old i)).

(** The relaxed bounds of a row:
    source/hyperbolic_module.template.h:689,757-759,785-794,860-862. *)
Definition bounds_step4 (i : nat) : BD K S :=
  let scaled j := cdiv (c_ij M i j) (Rmax (d i j) (100 * num_min)) in
  let acc l j :=
    if shallow_water K S then
      let '(U_star_ij, U_star_ji) := equilibrated_states K S (flux old i) (flux old j) in
      limiter_accumulate_sw K S l (U j) U_star_ij U_star_ji (scaled j) (affine_shift_i i)
    else limiter_accumulate K S pc l j (U j) (flux old j) (scaled j) (affine_shift_i i) in
  let l := fold_left acc (columns M i) (limiter_reset K S pc i (U i) (flux old i)) in
  limiter_bounds K S l (mass M i * (1 / measure_of_omega M)).

(** ** Step 5 *)

(** Extension of the bounds over the stencil,
    source/hyperbolic_module.template.h:930-948.  The vector is updated in
    place, while other threads read it: [order] is the order in which the
    rows are processed.  Bounds of rows of other ranks are those exchanged
    before (lines 603-612). *)
Definition extend_bounds (order : list nat) (b0 : nat -> BD K S) : nat -> BD K S :=
  fold_left
    (fun b i =>
       if constrained M i then b
       else upd b i (fold_left
              (fun acc j => combine_bounds K S acc
                              (if owner M j =? owner M i then b j else b0 j))
              (neighbours M i) (b i)))
    order b0.

(** See the comment above, source/hyperbolic_module.template.h:930-948. *)
Definition limiter_bounds_i (order : list nat) : nat -> BD K S :=
  if discontinuous M then extend_bounds order bounds_step4 else bounds_step4.

(** row_length - 1 as a number, source/hyperbolic_module.template.h:959,1103. *)
Definition lambda_inv (i : nat) : R := INR (length (columns M i) - 1).

(** P_ij with the mass matrix correction (i <> j):
    source/hyperbolic_module.template.h:959-999; the Kronecker symbol is zero
    for col_idx >= 1. *)
Definition pij (i j : nat) : state K :=
  let '(b_ij, b_ji) :=
    if discontinuous M
    then (mass M i * mass_ij_inv M i j - 0, mass M j * mass_ij_inv M i j - 0)
    else (0 - mass_ij M i j * mass_inv M j, 0 - mass_ij M i j * mass_inv M i) in
  smult (tau * mass_inv M i * lambda_inv i)
    (splus (pij_step4 i j)
       (sminus (smult b_ij (high_order_rhs j)) (smult b_ji (high_order_rhs i)))).

(** l_ij of the first round and the success flag,
    source/hyperbolic_module.template.h:1005-1006. *)
Definition limit_first (order : list nat) (new0 : svec) (i j : nat) : R * bool :=
  limiter_limit K S (limiter_bounds_i order i) (low_order_update new0 i) (pij i j).

(** restart_needed after step 5 on all ranks,
    source/hyperbolic_module.template.h:892,1017-1018,1194-1195. *)
Definition restart_needed (order : list nat) (new0 : svec) (n_iterations : nat) : bool :=
  negb (n_iterations =? 0)%nat &&
  existsb (fun i => existsb (fun j => negb (snd (limit_first order new0 i j))) (neighbours M i))
    active_rows.

(** ** Steps 6 and 7 *)

(** Symmetrized limiter, source/hyperbolic_module.template.h:1109-1111. *)
Definition symmetrized (l : nat -> nat -> R) (i j : nat) : R := Rmin (l i j) (l j i).

(** High-order update of a row, source/hyperbolic_module.template.h:1101-1128. *)
Definition high_order_update (l : nat -> nat -> R) (V : svec) (i : nat) : state K :=
  if constrained M i then V i
  else fold_left (fun u j => splus u (smult (symmetrized l i j * (1 / lambda_inv i)) (pij i j)))
         (neighbours M i) (V i).

(** l_ij of the next round, source/hyperbolic_module.template.h:1134-1170;
    [V'] is the updated vector. *)
Definition limit_next (order : list nat) (l lnext : nat -> nat -> R) (V' : svec) (i j : nat) : R :=
  if constrained M i then lnext i j
  else
    let old_l := symmetrized l i j in
    (1 - old_l) *
    fst (limiter_limit K S (limiter_bounds_i order i) (V' i) (smult (1 - old_l) (pij i j))).

(** The loop over passes, source/hyperbolic_module.template.h:1053-1182;
    [remaining] passes are left. *)
Fixpoint passes (order : list nat) (n_iterations remaining : nat)
  (l lnext : nat -> nat -> R) (V : svec) : svec :=
  match remaining with
  | 0%nat => V
  | Datatypes.S r =>
      let last_round := (r =? 0)%nat in
      let '(l, lnext) :=
        if (n_iterations =? 2)%nat && last_round then (lnext, l) else (l, lnext) in
      let V' := high_order_update l V in
      let lnext' := if last_round then lnext else limit_next order l lnext V' in
      passes order n_iterations r l lnext' V'
  end.

(** Steps 4 to 7 for given tau: the new vector of states and the
    verdict. [l0], [lnext0], [new0]: previous contents of lij_matrix_,
    lij_matrix_next_ and the result.  source/hyperbolic_module.template.h:579-1182. *)
Definition update (order : list nat) (n_iterations : nat)
  (l0 lnext0 : nat -> nat -> R) (new0 : svec) : svec * bool :=
  let V := low_order_update new0 in
  let l i j := if constrained M i then l0 i j else fst (limit_first order new0 i j) in
  (passes order n_iterations n_iterations l lnext0 V,
   restart_needed order new0 n_iterations).
End LowOrder.

(** HyperbolicModule::step for a given step size (steps 2 to 7; the selection
    of the step size is TimeInt.select_tau applied to [row_tau]).
    source/hyperbolic_module.template.h:234-1211.  The previous content of all
    temporary objects is in the arguments with suffix 0. *)
Definition hyperbolic_update (order : list nat) (n_iterations : nat)
  (a0 : nat -> R) (d0 l0 lnext0 : nat -> nat -> R) (new0 : svec)
  (old : statevector) (stages : list (statevector * R)) (tau : R) : svec * bool :=
  update old stages (compute_alpha old a0) (dij_matrix old d0) tau
    order n_iterations l0 lnext0 new0.
End Step.
